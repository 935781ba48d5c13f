(** Proofs about weighted means of texels. *)

From Coq Require Import List Bool ZArith QArith Lia Lqa Permutation FinFun.
From Verif Require Import TexModel TexSpec TexProofs AccumModel AccumSpec.
Import ListNotations.
Open Scope Z_scope.

(** * Sums *)
Lemma numbers_in a b v : In v (numbers a b) <-> a <= v < b.
Proof.
  unfold numbers. rewrite in_map_iff. split.
  - intros (k & <- & I). apply in_seq in I. lia.
  - intros H. exists (Z.to_nat (v - a)). split; [ lia | ]. apply in_seq. lia.
Qed.
Lemma numbers_nodup a b : NoDup (numbers a b).
Proof. unfold numbers. apply Injective_map_NoDup; [ intros x y; lia | apply seq_NoDup ]. Qed.
Lemma points_in s x y : In (x, y) (points s) <-> within s x y.
Proof.
  unfold points, within. rewrite in_flat_map. split.
  - intros (b & B & I). apply in_map_iff in I. destruct I as (a & [= <- <-] & A). apply numbers_in in A, B. lia.
  - intros [ X Y ]. exists y. split; [ apply numbers_in; exact Y | ]. apply in_map_iff. exists x. split; [ reflexivity | apply numbers_in; exact X ].
Qed.
Lemma points_nodup s : NoDup (points s).
Proof.
  unfold points. apply NoDup_flat_map; [ apply numbers_nodup | | ].
  - intros y _. apply Injective_map_NoDup; [ intros a b [= E]; exact E | apply numbers_nodup ].
  - intros y y2 [ a b ] _ _ A B. apply in_map_iff in A, B. destruct A as (u & [= <- <-] & _), B as (v & [= _ E] & _). congruence.
Qed.

(** The visits of a region are its points with their values. *)
Lemma visits_points {V} (l : list (Z * Z * V)) s img : each_once l (within s) img ->
  Permutation l (map (fun p => (p, img (fst p) (snd p))) (points s)).
Proof.
  intros [ N I ]. apply NoDup_Permutation.
  - exact (NoDup_map_inv _ _ N).
  - apply Injective_map_NoDup; [ intros a b [= E _]; exact E | apply points_nodup ].
  - intros [ [ x y ] v ]. rewrite I, in_map_iff. split.
    + intros [ D -> ]. exists (x, y). split; [ reflexivity | ]. apply points_in. exact D.
    + intros ([ a b ] & [= -> -> <-] & P). cbn [fst snd]. split; [ apply points_in; exact P | reflexivity ].
Qed.

(** Sums over visits. *)
Definition sums {V} (g : Z -> Z -> V -> Q) (l : list (Z * Z * V)) : Q :=
  fold_right (fun p s => g (fst (fst p)) (snd (fst p)) (snd p) + s)%Q 0%Q l.
Lemma sums_perm {V} (g : Z -> Z -> V -> Q) l m : Permutation l m -> (sums g l == sums g m)%Q.
Proof.
  induction 1 as [ | p l m _ IH | p q l | l m n _ IH1 _ IH2 ]; cbn [sums fold_right].
  - reflexivity.
  - fold (sums g l). fold (sums g m). rewrite IH. reflexivity.
  - ring.
  - rewrite IH1. exact IH2.
Qed.
Lemma sums_points {V} (g : Z -> Z -> V -> Q) img l :
  sums g (map (fun p => (p, img (fst p) (snd p))) l) = sum (fun x y => g x y (img x y)) l.
Proof. induction l as [ | p l IH ]; cbn; [ reflexivity | ]. f_equal. exact IH. Qed.
Lemma sums_visits {V} (g : Z -> Z -> V -> Q) l s img : each_once l (within s) img ->
  (sums g l == sum (fun x y => g x y (img x y)) (points s))%Q.
Proof. intros H. rewrite (sums_perm g _ _ (visits_points l s img H)), sums_points. reflexivity. Qed.

(** * The accumulator *)
Lemma change_in from n f buf k : from <= k < from + n -> change from n f buf k = f k.
Proof. intros H. unfold change. replace (_ && _) with true; [ reflexivity | ]. symmetry. rewrite andb_true_iff, Z.leb_le, Z.ltb_lt. lia. Qed.
Lemma change_out from n f buf k : k < from \/ from + n <= k -> change from n f buf k = buf k.
Proof. intros H. unfold change. replace (_ && _) with false; [ reflexivity | ]. symmetry. rewrite andb_false_iff, Z.leb_gt, Z.ltb_ge. lia. Qed.

Definition same_shape (a b : accum) : Prop :=
  a_start a = a_start b /\ a_chans a = a_chans b /\ a_extra a = a_extra b /\ a_fill a = a_fill b.

Lemma fold_accumulate weight normalized l : forall a, let b := fold_left (accumulate weight normalized) l a in
  same_shape a b /\
  (forall k, 0 <= k < a_chans a ->
     (a_buf b k == a_buf a k + sums (fun x y v => weight x y * v (k + a_start a)%Z) l)%Q) /\
  (forall k, ~ 0 <= k < a_chans a -> a_buf b k = a_buf a k) /\
  (a_total b == a_total a + (if normalized then 0 else sums (fun x y _ => weight x y) l))%Q.
Proof.
  induction l as [ | [ [ x y ] v ] l IH ]; intros a.
  - cbn. split; [ repeat split | ]. split; [ intros; ring | ]. split; [ reflexivity | ]. destruct normalized; ring.
  - cbn [fold_left]. specialize (IH (accumulate weight normalized a (x, y, v))). cbv zeta in IH |- *.
    destruct IH as (S & B & O & T).
    set (c := fold_left _ l _) in *. clearbody c. cbn [accumulate] in *.
    destruct (Qeq_bool (weight x y) 0) eqn:W; cbn [a_start a_chans a_extra a_fill a_buf a_total] in *.
    + apply Qeq_bool_eq in W. split; [ exact S | ]. split; [ | split; [ exact O | ] ].
      * intros k K. rewrite B by exact K. cbn [sums fold_right fst snd]. fold (sums (fun x y (v : Z -> Q) => weight x y * v (k + a_start a)%Z)%Q l).
        rewrite W. ring.
      * rewrite T. destruct normalized; [ reflexivity | ]. cbn [sums fold_right fst snd]. fold (sums (fun x y (_ : Z -> Q) => weight x y) l).
        rewrite W. ring.
    + split; [ exact S | ]. split; [ | split ].
      * intros k K. rewrite B by exact K. rewrite change_in by lia. cbn [sums fold_right fst snd].
        fold (sums (fun x y (v : Z -> Q) => weight x y * v (k + a_start a)%Z)%Q l). ring.
      * intros k K. rewrite O by exact K. apply change_out. lia.
      * rewrite T. destruct normalized; [ ring | ]. cbn [sums fold_right fst snd]. fold (sums (fun x y (_ : Z -> Q) => weight x y) l). ring.
Qed.

Definition result (normalized : bool) (w v : Z -> Z -> Q) (l : list (Z * Z)) : Q :=
  if normalized then sum (fun x y => w x y * v x y)%Q l else mean w v l.

(** What a call gives, for any traversal that visits the points of the region. *)
Lemma filter_into_ok {St} weight normalized length start chans fill buf (l : list (Z * Z * (Z -> Q))) (b : St) s (img : Z -> Z -> Z -> Q) :
  each_once l (within s) img -> 0 <= start -> 0 <= chans -> 0 < length ->
  exists out, filter_into weight normalized length start chans fill buf (Some (l, b)) = Some out /\
  (forall c, 0 <= c < chans -> start + c < length ->
     (out c == result normalized weight (fun x y => img x y (start + c)%Z) (points s))%Q) /\
  (forall c, 0 <= c < chans -> length <= start + c -> out c = fill) /\
  (forall k, k < 0 \/ chans <= k -> out k = buf k).
Proof.
  intros E S0 C0 L0. unfold filter_into, set_length, new_accum. cbn [a_start a_chans a_extra a_buf a_fill a_total]. rewrite Z.add_0_r.
  assert (Main : forall n, 0 <= n <= chans ->
    let out := finish normalized (fold_left (accumulate weight normalized) l
                 (mkAccum start n (chans - n) (change 0 chans (fun _ => 0%Q) buf) fill 0)) in
    (forall c, 0 <= c < n -> (out c == result normalized weight (fun x y => img x y (start + c)%Z) (points s))%Q) /\
    (forall c, n <= c < chans -> out c = fill) /\ (forall k, k < 0 \/ chans <= k -> out k = buf k)).
  { intros n N out. unfold out, finish. clear out.
    destruct (fold_accumulate weight normalized l (mkAccum start n (chans - n) (change 0 chans (fun _ => 0%Q) buf) fill 0)) as (S & B & O & T).
    set (c := fold_left _ l _) in *. clearbody c. destruct S as (S1 & S2 & S3 & S4). cbn [a_start a_chans a_extra a_buf a_fill a_total] in *.
    rewrite <- S2, <- S3, <- S4. split; [ | split ].
    - intros k K. rewrite change_out by lia.
      assert (Bk : (a_buf c k == sum (fun x y => weight x y * img x y (start + k)%Z) (points s))%Q).
      { rewrite B by exact K. rewrite change_in by lia.
        rewrite (sums_visits (fun x y v => weight x y * v (k + start)%Z)%Q l s img E). rewrite (Z.add_comm start k), Qplus_0_l. reflexivity. }
      destruct normalized; cbn [negb andb result].
      + exact Bk.
      + assert (Tc : (a_total c == sum weight (points s))%Q).
        { rewrite T. rewrite (sums_visits (fun x y _ => weight x y)%Q l s img E), Qplus_0_l. reflexivity. }
        unfold mean. destruct (Qeq_bool (a_total c) 0) eqn:Z0.
        * cbn [negb]. apply Qeq_bool_eq in Z0.
          replace (Qeq_bool (sum weight (points s)) 0) with true by (symmetry; apply Qeq_eq_bool; rewrite <- Tc; exact Z0).
          exact Bk.
        * cbn [negb]. replace (Qeq_bool (sum weight (points s)) 0) with false.
          2: { symmetry. apply not_true_is_false. intros H. apply Qeq_bool_eq in H. apply Qeq_bool_neq in Z0. apply Z0. rewrite Tc. exact H. }
          rewrite change_in by lia. rewrite Bk, Tc. field. apply Qeq_bool_neq in Z0. rewrite <- Tc. exact Z0.
    - intros k K. apply change_in. lia.
    - intros k K. rewrite change_out by lia.
      assert (Ok : a_buf c k = buf k) by (rewrite O by lia; apply change_out; lia).
      destruct (negb normalized && negb (Qeq_bool (a_total c) 0)); [ rewrite change_out by lia | ]; exact Ok. }
  destruct (Z.leb_spec (start + chans) length) as [ L | L ].
  - eexists. split; [ reflexivity | ]. specialize (Main chans ltac:(lia)). rewrite Z.sub_diag in Main. cbv zeta in Main.
    destruct Main as (M1 & M2 & M3). split; [ | split ]; [ intros c K _; apply M1; exact K | intros c K K2; lia | exact M3 ].
  - destruct (Z.leb_spec length start) as [ L2 | L2 ].
    + eexists. split; [ reflexivity | ]. unfold finish. cbn [a_start a_chans a_extra a_buf a_fill a_total].
      replace (Qeq_bool 0 0) with true by reflexivity. rewrite andb_false_r. split; [ intros; lia | ]. split.
      * intros c K _. apply change_in. lia.
      * intros k K. rewrite change_out by lia. apply change_out. lia.
    + eexists. split; [ reflexivity | ]. specialize (Main (length - start) ltac:(lia)). cbv zeta in Main.
      destruct Main as (M1 & M2 & M3). split; [ | split ]; [ intros c K K2; apply M1; lia | intros c K K2; apply M2; lia | exact M3 ].
Qed.

(** * Means *)
Lemma sum_ext g h l : (forall x y, In (x, y) l -> g x y == h x y)%Q -> (sum g l == sum h l)%Q.
Proof.
  induction l as [ | [ x y ] l IH ]; intros H; cbn [sum fold_right fst snd]; [ reflexivity | ].
  fold (sum g l). fold (sum h l). rewrite (H x y) by (left; reflexivity). rewrite IH by (intros; apply H; right; assumption). reflexivity.
Qed.
Lemma sum_scale c g l : (sum (fun x y => c * g x y) l == c * sum g l)%Q.
Proof.
  induction l as [ | [ x y ] l IH ]; cbn [sum fold_right fst snd]; [ ring | ].
  fold (sum (fun x y => c * g x y)%Q l). fold (sum g l). rewrite IH. ring.
Qed.
Lemma sum_le g h l : (forall x y, In (x, y) l -> g x y <= h x y)%Q -> (sum g l <= sum h l)%Q.
Proof.
  induction l as [ | [ x y ] l IH ]; intros H; cbn [sum fold_right fst snd]; [ apply Qle_refl | ].
  fold (sum g l). fold (sum h l). apply Qplus_le_compat; [ apply H; left; reflexivity | apply IH; intros; apply H; right; assumption ].
Qed.
Lemma mean_between w v l lo hi : (forall x y, In (x, y) l -> 0 <= w x y)%Q -> (0 < sum w l)%Q ->
  (forall x y, In (x, y) l -> lo <= v x y <= hi)%Q -> (lo <= mean w v l <= hi)%Q.
Proof.
  intros W T B. unfold mean. replace (Qeq_bool (sum w l) 0) with false.
  2: { symmetry. apply not_true_is_false. intros H. apply Qeq_bool_eq in H. rewrite H in T. exact (Qlt_irrefl 0 T). }
  split.
  - apply Qle_shift_div_l; [ exact T | ]. rewrite <- sum_scale. apply sum_le. intros x y I.
    specialize (W x y I). specialize (B x y I). nra.
  - apply Qle_shift_div_r; [ exact T | ]. rewrite <- sum_scale. apply sum_le. intros x y I.
    specialize (W x y I). specialize (B x y I). nra.
Qed.

(** * Shadows *)
Lemma le_false a b : Qle_bool a b = false -> (b < a)%Q.
Proof. intros H. apply Qnot_le_lt. intros L. apply Qle_bool_iff in L. congruence. Qed.
Lemma le_true a b : Qle_bool a b = true -> (a <= b)%Q.
Proof. apply Qle_bool_iff. Qed.

Ltac cases := repeat match goal with
  | |- context [Qle_bool ?a ?b] => let E := fresh "L" in destruct (Qle_bool a b) eqn:E; [ apply le_true in E | apply le_false in E ]; cbn [negb andb]
  | |- context [Qeq_bool ?a ?b] => let E := fresh "Q" in destruct (Qeq_bool a b) eqn:E; [ apply Qeq_bool_eq in E | apply Qeq_bool_neq in E ]; cbn [negb andb]
  end.

Lemma amount_shade low high surface depth : (amount low high surface depth == shade low high surface depth)%Q.
Proof.
  unfold shade. destruct (Qle_bool high low) eqn:HL; cbn [negb].
  - apply le_true in HL. unfold amount. cases; try reflexivity; exfalso; try lra.
    all: apply Q; lra.
  - apply le_false in HL.
    set (t := ((surface - depth - low) / (high - low))%Q).
    assert (Ht : (t * (high - low) == surface - depth - low)%Q) by (unfold t; field; lra).
    assert (E : amount low high surface depth =
      if Qle_bool (depth + high) surface then 1%Q else if Qle_bool surface (depth + low) then 0%Q else t).
    { unfold amount. cases; try reflexivity; exfalso; lra. }
    rewrite E. clear E. clearbody t. cases; try reflexivity; exfalso; nra.
Qed.

Lemma shade_range low high surface depth : (0 <= shade low high surface depth <= 1)%Q.
Proof.
  unfold shade. cases; split; try lra.
Qed.
Lemma div_mono a b c : (0 < c)%Q -> (a <= b)%Q -> (a / c <= b / c)%Q.
Proof. intros C H. unfold Qdiv. apply Qmult_le_compat_r; [ exact H | ]. apply Qlt_le_weak, Qinv_lt_0_compat, C. Qed.
Lemma shade_mono low high a b depth : (a <= b)%Q -> (shade low high a depth <= shade low high b depth)%Q.
Proof.
  intros H. unfold shade. destruct (Qle_bool high low) eqn:HL; cbn [negb].
  - cases; lra.
  - apply le_false in HL. pose proof (div_mono (a - depth - low) (b - depth - low) (high - low) ltac:(lra) ltac:(lra)) as D.
    set (t := ((a - depth - low) / (high - low))%Q) in *. set (u := ((b - depth - low) / (high - low))%Q) in *. clearbody t u.
    cases; lra.
Qed.

Lemma fold_pcf weight normalized surface start low high l : forall s t,
  let '(s2, t2) := fold_left (pcf_accumulate weight normalized surface start low high) l (s, t) in
  (s2 == s + sums (fun x y v => weight x y * shade low high (surface x y) (v start)) l)%Q /\
  (t2 == t + (if normalized then 0 else sums (fun x y _ => weight x y) l))%Q.
Proof.
  induction l as [ | [ [ x y ] v ] l IH ]; intros s t; cbn [fold_left].
  - cbn. split; [ ring | destruct normalized; ring ].
  - cbn [pcf_accumulate]. destruct (Qeq_bool (weight x y) 0) eqn:W.
    + specialize (IH s t). destruct (fold_left _ l _) as [ s2 t2 ]. destruct IH as [ A B ]. apply Qeq_bool_eq in W.
      cbn [sums fold_right fst snd]. fold (sums (fun x y (v : Z -> Q) => weight x y * shade low high (surface x y) (v start))%Q l).
      fold (sums (fun x y (_ : Z -> Q) => weight x y) l). split; [ rewrite A, W; ring | rewrite B; destruct normalized; [ ring | rewrite W; ring ] ].
    + specialize (IH (s + weight x y * amount low high (surface x y) (v start))%Q (if normalized then t else t + weight x y)%Q).
      destruct (fold_left _ l _) as [ s2 t2 ]. destruct IH as [ A B ].
      cbn [sums fold_right fst snd]. fold (sums (fun x y (v : Z -> Q) => weight x y * shade low high (surface x y) (v start))%Q l).
      fold (sums (fun x y (_ : Z -> Q) => weight x y) l). split; [ rewrite A, amount_shade; ring | rewrite B; destruct normalized; ring ].
Qed.

Lemma pcf_into_ok {St} weight surface length start low high (l : list (Z * Z * (Z -> Q))) (b : St) s (img : Z -> Z -> Z -> Q) :
  each_once l (within s) img ->
  exists out, pcf_into weight false surface length start low high (Some (l, b)) = Some out /\
  (out == if (start <? length)%Z then mean weight (fun x y => shade low high (surface x y) (img x y start)) (points s) else 0)%Q.
Proof.
  intros E. unfold pcf_into. destruct (Z.leb_spec length start) as [ L | L ].
  - eexists. split; [ reflexivity | ]. rewrite (proj2 (Z.ltb_ge start length)) by lia. reflexivity.
  - eexists. split; [ reflexivity | ]. rewrite (proj2 (Z.ltb_lt start length)) by lia.
    pose proof (fold_pcf weight false surface start low high l 0 0) as F. destruct (fold_left _ l _) as [ s2 t2 ]. destruct F as [ A B ].
    rewrite (sums_visits (fun x y v => weight x y * shade low high (surface x y) (v start))%Q l s img E) in A.
    rewrite (sums_visits (fun x y _ => weight x y)%Q l s img E) in B.
    rewrite Qplus_0_l in A, B. unfold pcf_finish, mean. cbn [negb andb]. destruct (Qeq_bool t2 0) eqn:T0; cbn [negb].
    + apply Qeq_bool_eq in T0. replace (Qeq_bool (sum weight (points s)) 0) with true by (symmetry; apply Qeq_eq_bool; rewrite <- B; exact T0). exact A.
    + replace (Qeq_bool (sum weight (points s)) 0) with false.
      2: { symmetry. apply not_true_is_false. intros H. apply Qeq_bool_eq in H. apply Qeq_bool_neq in T0. apply T0. rewrite B. exact H. }
      rewrite A, B. reflexivity.
Qed.

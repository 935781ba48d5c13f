From Coq Require Import ZArith QArith Qround Qabs Qfield List Bool Lia Permutation Lqa FinFun.
From Verif Require Import BucketModel BucketSpec BucketProofs FilterModel FilterSpec.
Import ListNotations.
Local Open Scope Z_scope.

(* ------------------------------------------------------------------ sums *)
Lemma qsum_ext : forall A (f g : A -> Q) l, (forall a, In a l -> (f a == g a)%Q) -> (qsum f l == qsum g l)%Q.
Proof.
  induction l as [|a l IH]; intros H; cbn [qsum fold_right]; [reflexivity|].
  fold (qsum f l). fold (qsum g l). rewrite (H a (or_introl eq_refl)).
  rewrite IH; [reflexivity|]. intros b I. apply H. right. auto.
Qed.
Lemma qsum_zero : forall A (f : A -> Q) l, (forall a, In a l -> (f a == 0)%Q) -> (qsum f l == 0)%Q.
Proof.
  induction l as [|a l IH]; intros H; cbn [qsum fold_right]; [reflexivity|].
  fold (qsum f l). rewrite (H a (or_introl eq_refl)).
  rewrite IH; [reflexivity|]. intros b I. apply H. right. auto.
Qed.
Lemma qsum_perm : forall A (f : A -> Q) l m, Permutation l m -> (qsum f l == qsum f m)%Q.
Proof.
  intros A f l m P. induction P; cbn [qsum fold_right]; try reflexivity.
  - fold (qsum f l). fold (qsum f l'). rewrite IHP. reflexivity.
  - fold (qsum f l). ring.
  - rewrite IHP1. auto.
Qed.
Lemma qsum_map : forall A B (g : A -> B) (f : B -> Q) l, qsum f (map g l) = qsum (fun a => f (g a)) l.
Proof. induction l as [|a l IH]; cbn; [reflexivity|]. f_equal. exact IH. Qed.
Lemma qsum_filter : forall A (f : A -> Q) (p : A -> bool) l,
  (forall a, In a l -> p a = false -> (f a == 0)%Q) -> (qsum f (filter p l) == qsum f l)%Q.
Proof.
  induction l as [|a l IH]; intros H; [reflexivity|].
  assert (E : (qsum f (filter p l) == qsum f l)%Q) by (apply IH; intros b I; apply H; right; auto).
  cbn [filter]. destruct (p a) eqn:Pa.
  - cbn [qsum fold_right]. fold (qsum f l). fold (qsum f (filter p l)). rewrite E. reflexivity.
  - cbn [qsum fold_right]. fold (qsum f l). rewrite (H a (or_introl eq_refl) Pa), E. ring.
Qed.
Lemma qsum_scale : forall A (f : A -> Q) c l, (qsum (fun a => f a * c) l == qsum f l * c)%Q.
Proof.
  induction l as [|a l IH]; cbn [qsum fold_right]; [ring|].
  fold (qsum (fun a => f a * c)%Q l). fold (qsum f l). rewrite IH. ring.
Qed.
Lemma qsum_nonneg : forall A (f : A -> Q) l, (forall a, In a l -> (0 <= f a)%Q) -> (0 <= qsum f l)%Q.
Proof.
  induction l as [|a l IH]; intros H; cbn [qsum fold_right]; [lra|].
  fold (qsum f l). assert (0 <= f a)%Q by (apply H; left; auto).
  assert (0 <= qsum f l)%Q by (apply IH; intros b I; apply H; right; auto). lra.
Qed.
Lemma qsum_le : forall A (f g : A -> Q) l, (forall a, In a l -> (f a <= g a)%Q) -> (qsum f l <= qsum g l)%Q.
Proof.
  induction l as [|a l IH]; intros H; cbn [qsum fold_right]; [lra|].
  fold (qsum f l). fold (qsum g l). assert (f a <= g a)%Q by (apply H; left; auto).
  assert (qsum f l <= qsum g l)%Q by (apply IH; intros b I; apply H; right; auto). lra.
Qed.

(* ------------------------------------------------------------------ arrays *)
Lemma puts : forall ws a,
  NoDup (map fst ws) -> (forall w, In w ws -> 0 <= fst w < a_size a) ->
  exists a', foldM put ws a = Some a' /\ a_size a' = a_size a /\
    (forall i v, In (i, v) ws -> a_get a' i = v) /\
    (forall i, ~ In i (map fst ws) -> a_get a' i = a_get a i).
Proof.
  induction ws as [|w ws IH]; intros a N B; cbn [foldM].
  - exists a. refine (conj eq_refl (conj eq_refl (conj _ _))); [intros i v []|auto].
  - cbn [map] in N. apply NoDup_cons_iff in N as [N1 N2].
    assert (Bw := B w (or_introl eq_refl)).
    assert (E : put a w = Some (Arr (a_size a) (fun j => if j =? fst w then snd w else a_get a j))).
    { unfold put. replace ((0 <=? fst w) && (fst w <? a_size a)) with true by
        (symmetry; apply andb_true_iff; split; [apply Z.leb_le|apply Z.ltb_lt]; lia). reflexivity. }
    rewrite E. cbn [bind].
    destruct (IH (Arr (a_size a) (fun j => if j =? fst w then snd w else a_get a j)) N2)
      as (a' & E' & S' & G' & O'); [intros w' I; cbn [a_size]; apply B; right; auto|].
    exists a'. refine (conj E' (conj S' (conj _ _))).
    + intros i v [I|I]; [|auto]. subst w. cbn [fst snd] in *. rewrite O' by auto. cbn [a_get].
      rewrite Z.eqb_refl. reflexivity.
    + intros i I. cbn [map In] in I. rewrite O' by tauto. cbn [a_get].
      destruct (Z.eqb_spec i (fst w)) as [->|]; [tauto|reflexivity].
Qed.

Lemma foldM_app : forall A B (f : A -> B -> option A) l m a,
  foldM f (l ++ m) a = (do a' <- foldM f l a; foldM f m a').
Proof.
  induction l as [|b l IH]; intros m a; cbn [foldM app bind]; [reflexivity|].
  destruct (f a b); cbn [bind]; auto.
Qed.
Lemma foldM_nest : forall A B C (h : B -> C -> Z * Q) (f : A -> Z * Q -> option A) (ls : list C) (l : list B) a,
  foldM (fun a p => foldM (fun a s => f a (h p s)) ls a) l a =
  foldM f (flat_map (fun p => map (h p) ls) l) a.
Proof.
  intros A B C h f ls.
  assert (I : forall p ls a, foldM (fun a s => f a (h p s)) ls a = foldM f (map (h p) ls) a).
  { induction ls0 as [|s ls0 IH]; intros a; cbn [foldM map]; [reflexivity|].
    destruct (f a (h p s)); cbn [bind]; auto. }
  induction l as [|p l IH]; intros a; cbn [foldM flat_map]; [reflexivity|].
  rewrite foldM_app, I. destruct (foldM f (map (h p) ls) a); cbn [bind]; auto.
Qed.
Lemma foldM_ext : forall A B (f g : A -> B -> option A) l a,
  (forall a b, In b l -> f a b = g a b) -> foldM f l a = foldM g l a.
Proof.
  induction l as [|b l IH]; intros a H; cbn [foldM]; [reflexivity|].
  rewrite (H a b (or_introl eq_refl)). destruct (g a b); cbn [bind]; auto.
  apply IH. intros. apply H. right. auto.
Qed.
Lemma foldM_map : forall A B C (h : C -> B) (f : A -> B -> option A) l a,
  foldM (fun a s => f a (h s)) l a = foldM f (map h l) a.
Proof.
  induction l as [|s l IH]; intros a; cbn [foldM map]; [reflexivity|].
  destruct (f a (h s)); cbn [bind]; auto.
Qed.

(* ------------------------------------------------------------------ ranges *)
Lemma zrange_shift : forall a b, zrange a b = map (Z.add a) (zrange 0 (b - a)).
Proof.
  intros. unfold zrange. rewrite map_map. replace (b - a - 0) with (b - a) by lia.
  apply map_ext. intros. lia.
Qed.
Lemma flat_map_map' : forall A B C (f : A -> B) (g : B -> list C) l,
  flat_map g (map f l) = flat_map (fun a => g (f a)) l.
Proof. induction l as [|a l IH]; cbn; [reflexivity|]. rewrite IH. reflexivity. Qed.
Lemma map_flat_map' : forall A B C (g : B -> C) (f : A -> list B) l,
  map g (flat_map f l) = flat_map (fun a => map g (f a)) l.
Proof. induction l as [|a l IH]; cbn; [reflexivity|]. rewrite map_app, IH. reflexivity. Qed.
Lemma cells_shift : forall r,
  cells r = map (fun c => (rx0 r + fst c, ry0 r + snd c)) (cells (Region 0 0 (rwidth r) (rheight r))).
Proof.
  intros r. unfold cells. cbn [rx0 ry0 rx1 ry1]. rewrite map_flat_map'.
  rewrite (zrange_shift (ry0 r)), (zrange_shift (rx0 r)). rewrite flat_map_map'.
  fold (rheight r) (rwidth r). apply flat_map_ext. intros y. rewrite !map_map.
  apply map_ext. intros x. reflexivity.
Qed.

Lemma NoDup_map_inj : forall A B (f : A -> B) l,
  (forall a b, In a l -> In b l -> f a = f b -> a = b) -> NoDup l -> NoDup (map f l).
Proof.
  induction l as [|a l IH]; intros H N; cbn [map]; [constructor|].
  apply NoDup_cons_iff in N as [N1 N2]. apply NoDup_cons_iff. split.
  - intros I. apply in_map_iff in I as (b & E & I). assert (b = a) by (apply H; [right; auto|left; auto|auto]).
    subst. auto.
  - apply IH; auto. intros. apply H; auto; right; auto.
Qed.
Lemma NoDup_prod' : forall A B (l : list A) (m : list B), NoDup l -> NoDup m -> NoDup (list_prod l m).
Proof.
  induction l as [|a l IH]; intros m N M; cbn [list_prod]; [constructor|].
  apply NoDup_cons_iff in N as [N1 N2]. apply NoDup_app2.
  - apply NoDup_map_inj; [intros; congruence|auto].
  - auto.
  - intros [x y] I J. apply in_map_iff in I as (b & E & I). injection E as <- <-.
    apply in_prod_iff in J. tauto.
Qed.

Lemma Forall2_len : forall A B (R : A -> B -> Prop) l m, Forall2 R l m -> List.length l = List.length m.
Proof. induction 1; cbn; congruence. Qed.
Lemma base_inj : forall N a a' k k', 0 <= k < N -> 0 <= k' < N -> a * N + k = a' * N + k' -> a = a' /\ k = k'.
Proof.
  intros N a a' k k' K K' E. assert (a = a'); [|subst; lia].
  rewrite (Z.div_unique_pos (a * N + k) N a k), (Z.div_unique_pos (a' * N + k') N a' k'); lia || congruence.
Qed.

Section Filter.
Variable o : fopts.
Hypothesis OK : proper o.

Local Notation xm := (fxmax o).
Local Notation ym := (fymax o).
Local Notation n := (f_xs o * f_ys o).
Local Notation window := (cells (Region (- xm) (- ym) (xm + 1) (ym + 1))).
Local Notation subs := (cells (Region 0 0 (f_xs o) (f_ys o))).

Lemma xm_nonneg : 0 <= xm /\ 0 <= ym.
Proof.
  destruct OK as (_ & _ & W & H). unfold fxmax, fymax. split;
    (change 0 with (Qfloor (inject_Z 0)); apply Qfloor_resp_le; unfold Qdiv; cbn -[Qmult];
     apply Qmult_le_0_compat; [assumption|discriminate]).
Qed.
Lemma xm_ceil : 2 * xm <= Qceiling (f_w o) /\ 2 * ym <= Qceiling (f_h o).
Proof.
  unfold fxmax, fymax.
  assert (G : forall w, 2 * Qfloor (w / 2) <= Qceiling w).
  { intros w. rewrite Zle_Qle. rewrite inject_Z_mult.
    assert (A := Qfloor_le (w / 2)). assert (B := Qle_ceiling w).
    assert (C : (w / 2 * 2 == w)%Q) by field. change (inject_Z 2) with 2%Q. lra. }
  split; apply G.
Qed.
Lemma n_pos : 0 < n. Proof. destruct OK as (A & B & _). nia. Qed.

Lemma subs_perm : Permutation (map (fun s => snd s * f_xs o + fst s) subs) (zrange 0 n).
Proof.
  destruct OK as (A & B & _).
  apply NoDup_Permutation.
  - apply NoDup_map_inj; [|apply cells_nodup].
    intros [x y] [x' y'] I J E. apply cells_in in I, J. unfold inr in I, J. cbn in I, J, E.
    assert (y = y') by nia. subst. f_equal. lia.
  - apply zrange_nodup.
  - intros k. rewrite in_map_iff, zrange_in. split.
    + intros ([x y] & E & I). apply cells_in in I. unfold inr in I. cbn in I, E. subst k. nia.
    + intros I. exists (k mod f_xs o, k / f_xs o). cbn [fst snd].
      assert (D := Z.div_mod k (f_xs o)). assert (M := Z.mod_pos_bound k (f_xs o)).
      split; [lia|]. apply cells_in. unfold inr. cbn.
      assert (0 <= k / f_xs o) by (apply Z.div_pos; lia).
      assert (k / f_xs o < f_ys o) by (apply Z.div_lt_upper_bound; lia). lia.
Qed.
Lemma subs_div : forall s, In s subs ->
  (snd s * f_xs o + fst s) mod f_xs o = fst s /\ (snd s * f_xs o + fst s) / f_xs o = snd s /\
  0 <= snd s * f_xs o + fst s < n.
Proof.
  intros [x y] I. apply cells_in in I. unfold inr in I. cbn in I |- *.
  rewrite Z.add_comm, Z.mod_add by lia. rewrite Z.div_add by lia.
  rewrite Z.mod_small, Z.div_small by lia. nia.
Qed.

(* the table *)
Definition tweight (fx fy k : Z) : Q :=
  let x := ((inject_Z (k mod f_xs o) + (1 # 2)) / inject_Z (f_xs o) + inject_Z fx - (1 # 2))%Q in
  let y := ((inject_Z (k / f_xs o) + (1 # 2)) / inject_Z (f_ys o) + inject_Z fy - (1 # 2))%Q in
  if in_reach o x y
  then f_fun o x y (inject_Z (Qceiling (f_w o))) (inject_Z (Qceiling (f_h o))) else 0%Q.
Definition tindex (fx fy : Z) : Z := ((fy + ym) * (2 * xm + 1) + fx + xm) * n.

Lemma tindex_in : forall fx fy k, -xm <= fx <= xm -> -ym <= fy <= ym -> 0 <= k < n ->
  0 <= tindex fx fy + k < (Qceiling (f_w o) + 1) * (Qceiling (f_h o) + 1) * n.
Proof.
  intros fx fy k X Y K. unfold tindex. destruct xm_nonneg, xm_ceil.
  set (N := n) in *. set (A := xm) in *. set (B := ym) in *.
  set (cw := Qceiling (f_w o)) in *. set (ch := Qceiling (f_h o)) in *.
  assert (I : 0 <= (fy + B) * (2 * A + 1) + fx + A <= (2 * A + 1) * (2 * B + 1) - 1) by nia.
  assert (J : (2 * A + 1) * (2 * B + 1) <= (cw + 1) * (ch + 1)) by nia.
  nia.
Qed.

Lemma table_ok : exists t, table o = Some t /\
  forall fx fy k, -xm <= fx <= xm -> -ym <= fy <= ym -> 0 <= k < n ->
    get t (tindex fx fy + k) = Some (tweight fx fy k).
Proof.
  unfold table. fold n. unfold subpixels.
  set (h := fun (p s : Z * Z) =>
    (tindex (fst p) (snd p) + (snd s * f_xs o + fst s), tweight (fst p) (snd p) (snd s * f_xs o + fst s))).
  destruct (puts (flat_map (fun p => map (h p) subs) window)
    (Arr ((Qceiling (f_w o) + 1) * (Qceiling (f_h o) + 1) * n) (fun _ => 0%Q))) as (t & E & S & G & _).
  - rewrite map_flat_map'.
    replace (flat_map (fun a => map fst (map (h a) subs)) window)
      with (map (fun ps => fst (h (fst ps) (snd ps))) (list_prod window subs)).
    2:{ clear. generalize (cells (Region (- xm) (- ym) (xm + 1) (ym + 1))) as l. intros l.
        induction l as [|p l IH]; cbn [list_prod flat_map map]; [reflexivity|].
        rewrite map_app, IH. f_equal. rewrite !map_map. reflexivity. }
    apply NoDup_map_inj.
    + intros [[fx fy] s] [[fx' fy'] s'] I J E. apply in_prod_iff in I as [I1 I2], J as [J1 J2].
      cbn [fst snd] in *. apply cells_in in I1, J1. unfold inr in I1, J1. cbn [rx0 ry0 rx1 ry1 fst snd] in I1, J1.
      destruct (subs_div _ I2) as (M & D & K), (subs_div _ J2) as (M' & D' & K').
      unfold h in E. cbn [fst snd] in E. unfold tindex in E.
      destruct xm_nonneg as [XP YP].
      set (a := (fy + ym) * (2 * xm + 1) + fx + xm) in *.
      set (a' := (fy' + ym) * (2 * xm + 1) + fx' + xm) in *.
      set (k := snd s * f_xs o + fst s) in *. set (k' := snd s' * f_xs o + fst s') in *.
      set (N := n) in *.
      destruct (base_inj N a a' k k' K K' E) as [Ea Ek].
      assert (Ef : fy + ym = fy' + ym /\ fx + xm = fx' + xm).
      { apply (base_inj (2 * xm + 1)); [lia..|]. unfold a, a' in Ea. lia. }
      assert (fy = fy') by lia. assert (fx = fx') by lia.
      subst fx' fy'. f_equal. destruct s as [sx sy], s' as [sx' sy']. cbn [fst snd] in *. congruence.
    + apply NoDup_prod'; apply cells_nodup.
  - intros w I. apply in_flat_map in I as ([fx fy] & I1 & I2). apply in_map_iff in I2 as (s & <- & I2).
    apply cells_in in I1. unfold inr in I1. cbn [rx0 ry0 rx1 ry1 fst snd] in I1. destruct (subs_div _ I2) as (_ & _ & K).
    unfold h. cbn [fst snd a_size]. apply tindex_in; lia.
  - exists t. split.
    + rewrite <- E. rewrite <- foldM_nest. apply foldM_ext. intros a [fx fy] I.
      apply foldM_ext. intros a' s J. destruct (subs_div _ J) as (M & D & K). destruct s as [sx sy].
      unfold h, tweight, tindex. cbn [fst snd] in *. rewrite M, D. reflexivity.
    + intros fx fy k X Y K. unfold get. rewrite S. cbn [a_size].
      assert (R := tindex_in fx fy k X Y K).
      replace ((0 <=? tindex fx fy + k) && _) with true by
        (symmetry; apply andb_true_iff; split; [apply Z.leb_le|apply Z.ltb_lt]; lia).
      f_equal. apply G. apply in_flat_map. exists (fx, fy). split.
      * apply cells_in. unfold inr. cbn [rx0 ry0 rx1 ry1 fst snd]. lia.
      * assert (I : In k (map (fun s => snd s * f_xs o + fst s) subs)).
        { apply (Permutation_in k (Permutation_sym subs_perm)). apply zrange_in. exact K. }
        apply in_map_iff in I as (s & Es & I). apply in_map_iff. exists s. split; [|exact I].
        unfold h. cbn [fst snd]. rewrite Es. reflexivity.
Qed.


Lemma reach_near : forall x y, in_reach o x y = near o x y.
Proof.
  intros x y. unfold in_reach, near, fwo2x, fwo2y.
  assert (G : forall w q, Qle_bool (- (w * (1 # 2))) q && Qle_bool q (w * (1 # 2)) = Qle_bool (Qabs q) (w / 2)).
  { intros w q. apply eq_true_iff_eq. rewrite andb_true_iff, !Qle_bool_iff, Qabs_Qle_condition.
    assert (E : (w / 2 == w * (1 # 2))%Q) by field. rewrite E. tauto. }
  rewrite <- !G. set (a := Qle_bool _ x). set (b := Qle_bool _ y).
  destruct a, b; cbn [andb]; try rewrite andb_false_r; reflexivity.
Qed.

(* what is added to the accumulators *)
Variable ds : nat.
Definition adds (c c' : acc) (t m : Q) (d : nat -> Q) : Prop :=
  (c_tot c' == c_tot c + t)%Q /\ (inject_Z (c_count c') == inject_Z (c_count c) + m)%Q /\
  List.length (c_sum c') = ds /\
  forall j, (j < ds)%nat -> (nth j (c_sum c') 0 == nth j (c_sum c) 0 + d j)%Q.

Lemma foldM_adds : forall B (step : acc -> B -> option acc) (t m : B -> Q) (d : B -> nat -> Q) l c,
  (forall c i, In i l -> List.length (c_sum c) = ds -> exists c', step c i = Some c' /\ adds c c' (t i) (m i) (d i)) ->
  List.length (c_sum c) = ds ->
  exists c', foldM step l c = Some c' /\ adds c c' (qsum t l) (qsum m l) (fun j => qsum (fun i => d i j) l).
Proof.
  intros B step t m d. induction l as [|i l IH]; intros c H L; cbn [foldM].
  - exists c. split; [reflexivity|]. unfold adds. cbn [qsum fold_right].
    refine (conj _ (conj _ (conj L _))); intros; ring.
  - destruct (H c i (or_introl eq_refl) L) as (c1 & E1 & T1 & M1 & L1 & D1). rewrite E1. cbn [bind].
    destruct (IH c1) as (c2 & E2 & T2 & M2 & L2 & D2); [intros; apply H; auto; right; auto|auto|].
    exists c2. split; [exact E2|]. unfold adds. cbn [qsum fold_right].
    refine (conj _ (conj _ (conj L2 _))).
    + rewrite T2, T1. unfold qsum. ring.
    + rewrite M2, M1. unfold qsum. ring.
    + intros j J. rewrite (D2 j J), (D1 j J). unfold qsum. ring.
Qed.

Lemma add_data_ok : forall sum data g, List.length data = List.length sum ->
  exists r, add_data sum data g = Some r /\ List.length r = List.length sum /\
    forall j, (j < List.length sum)%nat -> (nth j r 0 == nth j sum 0 + g * nth j data 0)%Q.
Proof.
  induction sum as [|s sum IH]; intros data g L; cbn [add_data].
  - exists []. split; [reflexivity|]. split; [reflexivity|]. cbn. lia.
  - destruct data as [|d data]; [discriminate|]. cbn in L.
    destruct (IH data g) as (r & E & Lr & N); [lia|]. rewrite E. cbn [bind].
    eexists. split; [reflexivity|]. cbn [List.length]. split; [lia|]. intros [|j] J; cbn [nth]; [ring|].
    apply N. lia.
Qed.

Variable img : Z * Z -> list sample.
Hypothesis SA : sampled o img ds.

Local Notation wt := (weight o img).

Lemma gather_ok : forall t x y,
  (forall fx fy k, -xm <= fx <= xm -> -ym <= fy <= ym -> 0 <= k < n ->
    get t (tindex fx fy + k) = Some (tweight fx fy k)) ->
  exists c, gather o t img ds x y = Some c /\
    let both (F : Z * Z -> Z -> Q) := qsum (fun f => qsum (fun s =>
      F (x + fst f, y + snd f) (snd s * f_xs o + fst s)) subs) window in
    adds (Acc 0 0 (repeat 0%Q ds)) c (both (wt (x, y)))
      (both (fun p k => if reaches o img (x, y) p k && hit img p k then 1%Q else 0%Q))
      (fun j => both (fun p k => wt (x, y) p k * datum img p k j)%Q).
Proof.
  intros t x y T. unfold gather, subpixels. cbv zeta.
  set (pix := fun f : Z * Z => (x + fst f, y + snd f)).
  set (sub := fun s : Z * Z => snd s * f_xs o + fst s).
  match goal with |- exists c, foldM ?st ?l ?a = _ /\ _ =>
    destruct (foldM_adds _ st
      (fun f => qsum (fun s => wt (x, y) (pix f) (sub s)) subs)
      (fun f => qsum (fun s => if reaches o img (x, y) (pix f) (sub s) && hit img (pix f) (sub s) then 1%Q else 0%Q) subs)
      (fun f j => qsum (fun s => wt (x, y) (pix f) (sub s) * datum img (pix f) (sub s) j)%Q subs) l a) as (c & E & A)
  end.
  2:{ cbn [c_sum]. apply repeat_length. }
  - intros c [fx fy] I L. apply cells_in in I. unfold inr in I. cbn [rx0 ry0 rx1 ry1 fst snd] in I.
    match goal with |- exists c', foldM ?st ?l c = _ /\ _ =>
      apply (foldM_adds _ st
        (fun s => wt (x, y) (pix (fx, fy)) (sub s))
        (fun s => if reaches o img (x, y) (pix (fx, fy)) (sub s) && hit img (pix (fx, fy)) (sub s) then 1%Q else 0%Q)
        (fun s j => wt (x, y) (pix (fx, fy)) (sub s) * datum img (pix (fx, fy)) (sub s) j)%Q l c)
    end; [|exact L].
    clear c L. intros c s J L. destruct (subs_div _ J) as (M & D & K).
    assert (Esub : sub s = snd s * f_xs o + fst s) by reflexivity.
    destruct s as [sx sy]. cbn [fst snd] in *. rewrite <- Esub in *. set (k := sub (sx, sy)) in *.
    assert (Ep : pix (fx, fy) = (x + fx, y + fy)) by reflexivity. rewrite Ep.
    destruct (SA (x + fx, y + fy)) as [Len Each].
    destruct (nth_error (img (x + fx, y + fy)) (Z.to_nat k)) as [sm|] eqn:En.
    2:{ apply nth_error_None in En. rewrite Len in En. lia. }
    cbn [bind]. destruct (Each sm (nth_error_In _ _ En)) as [_ Data].
    assert (Wt : wt (x, y) (x + fx, y + fy) k =
      if in_reach o (sm_x sm - (inject_Z x + (1 # 2))) (sm_y sm - (inject_Z y + (1 # 2)))
      then tweight fx fy k else 0%Q).
    { unfold weight, reaches, sample_at. rewrite En. cbn [fst snd]. rewrite <- reach_near.
      destruct (in_reach o (sm_x sm - (inject_Z x + (1 # 2))) (sm_y sm - (inject_Z y + (1 # 2)))); [|reflexivity].
      cbn [andb]. unfold tweight, sub_dx, sub_dy. cbn [fst snd].
      replace (x + fx - x) with fx by lia. replace (y + fy - y) with fy by lia.
      rewrite <- reach_near. reflexivity. }
    rewrite Wt.
    assert (Rc : reaches o img (x, y) (x + fx, y + fy) k =
      in_reach o (sm_x sm - (inject_Z x + (1 # 2))) (sm_y sm - (inject_Z y + (1 # 2)))).
    { unfold reaches, sample_at. rewrite En. cbn [fst snd]. symmetry. apply reach_near. }
    rewrite Rc.
    destruct (in_reach o (sm_x sm - (inject_Z x + (1 # 2))) (sm_y sm - (inject_Z y + (1 # 2)))).
    2:{ exists c. split; [reflexivity|]. unfold adds. cbn [andb].
        refine (conj _ (conj _ (conj L _))); intros; ring. }
    fold (tindex fx fy). rewrite T by lia. cbn [bind andb].
    unfold hit, datum, sample_at. rewrite En. destruct sm as [px py [data|]]; cbn [sm_hit] in *.
    + destruct (add_data_ok (c_sum c) data (tweight fx fy k)) as (r & Er & Lr & Nr); [rewrite L; auto|].
      rewrite Er. cbn [bind]. eexists. split; [reflexivity|]. unfold adds. cbn [c_tot c_count c_sum].
      refine (conj _ (conj _ (conj _ _))); [reflexivity| |congruence|].
      * rewrite inject_Z_plus. reflexivity.
      * intros j Hj. apply Nr. lia.
    + eexists. split; [reflexivity|]. unfold adds. cbn [c_tot c_count c_sum].
      refine (conj _ (conj _ (conj L _))); [reflexivity|ring|intros; ring].
  - exists c. split; [exact E|exact A].
Qed.

Lemma qle_bool_false : forall a b, (b < a)%Q -> Qle_bool a b = false.
Proof.
  intros a b H. destruct (Qle_bool a b) eqn:E; [|reflexivity]. apply Qle_bool_iff in E. exfalso. lra.
Qed.

Hypothesis WW : whole (f_w o).
Hypothesis WH : whole (f_h o).

(* samples of pixels beyond the window are not near *)
Lemma beyond : forall c p k, ~ (Z.abs (fst p - fst c) <= xm /\ Z.abs (snd p - snd c) <= ym) ->
  reaches o img c p k = false.
Proof.
  intros c p k H. unfold reaches, sample_at.
  destruct (nth_error (img p) (Z.to_nat k)) as [s|] eqn:E; [|reflexivity].
  destruct (SA p) as [_ Each]. destruct (Each s (nth_error_In _ _ E)) as [(X0 & X1 & Y0 & Y1) _].
  unfold near, whole in *. fold (fxmax o) in WW. fold (fymax o) in WH.
  assert (G : forall q c p m w, Qceiling w <= 2 * m + 1 -> m < Z.abs (p - c) ->
    (inject_Z p < q)%Q -> (q < inject_Z (p + 1))%Q ->
    Qle_bool (Qabs (q - (inject_Z c + (1 # 2)))) (inject_Z (Qceiling w) / 2) = false).
  { clear. intros q c p m w W A Q0 Q1. apply qle_bool_false.
    apply Z.lt_le_incl in A as A'. rewrite Zle_Qle in W. rewrite inject_Z_plus, inject_Z_mult in W.
    change (inject_Z 2) with 2%Q in W. change (inject_Z 1) with 1%Q in W.
    rewrite inject_Z_plus in Q1. change (inject_Z 1) with 1%Q in Q1.
    assert (E : (inject_Z (Qceiling w) / 2 == inject_Z (Qceiling w) * (1 # 2))%Q) by field. rewrite E.
    assert (C : (p - c >= m + 1) \/ (c - p >= m + 1)) by lia.
    destruct C as [C|C].
    - assert (C' : (inject_Z m + 1 <= inject_Z p - inject_Z c)%Q).
      { change 1%Q with (inject_Z 1). unfold Qminus. rewrite <- inject_Z_opp, <- !inject_Z_plus.
        rewrite <- Zle_Qle. lia. }
      apply Qlt_le_trans with (q - (inject_Z c + (1 # 2)))%Q; [lra|apply Qle_Qabs].
    - assert (C' : (inject_Z m + 1 <= inject_Z c - inject_Z p)%Q).
      { change 1%Q with (inject_Z 1). unfold Qminus. rewrite <- inject_Z_opp, <- !inject_Z_plus.
        rewrite <- Zle_Qle. lia. }
      apply Qlt_le_trans with (- (q - (inject_Z c + (1 # 2))))%Q; [lra|].
      rewrite <- Qabs_opp. apply Qle_Qabs. }
  destruct (Z_le_dec (Z.abs (fst p - fst c)) xm) as [L|L].
  - rewrite andb_comm. rewrite (G _ _ (snd p) ym); [reflexivity|lia|lia|auto|auto].
  - rewrite (G _ _ (fst p) xm); [reflexivity|lia|lia|auto|auto].
Qed.

Lemma both_over : forall (F : Z * Z -> Z -> Q) P c,
  surrounds o P c ->
  (forall p k, reaches o img c p k = false -> (F p k == 0)%Q) ->
  Qeq (qsum (fun f => qsum (fun s => F (fst c + fst f, snd c + snd f) (snd s * f_xs o + fst s)) subs) window)
    (over o P F).
Proof.
  intros F P c [ND Cov] Z0. unfold over.
  assert (Inner : forall p, Qeq (qsum (fun s => F p (snd s * f_xs o + fst s)) subs) (qsum (F p) (zrange 0 n))).
  { intros p. rewrite <- (qsum_map _ _ (fun s => snd s * f_xs o + fst s) (F p)). apply qsum_perm. apply subs_perm. }
  rewrite (qsum_ext _ _ (fun f => qsum (F (fst c + fst f, snd c + snd f)) (zrange 0 n))).
  2:{ intros f _. apply Inner. }
  rewrite <- (qsum_map _ _ (fun f => (fst c + fst f, snd c + snd f)) (fun p => qsum (F p) (zrange 0 n))).
  set (inw := fun p : Z * Z => (Z.abs (fst p - fst c) <=? xm) && (Z.abs (snd p - snd c) <=? ym)).
  rewrite <- (qsum_filter _ _ inw P).
  2:{ intros p _ B. apply qsum_zero. intros k _. apply Z0. apply beyond. intros [A1 A2].
      unfold inw in B. apply andb_false_iff in B as [B|B]; apply Z.leb_gt in B; lia. }
  apply qsum_perm. destruct xm_nonneg as [XP YP], xm_ceil as [XC YC].
  apply NoDup_Permutation.
  - apply NoDup_map_inj; [|apply cells_nodup]. intros [a b] [a' b'] _ _ E. cbn in E.
    injection E as E1 E2. f_equal; lia.
  - apply NoDup_filter. exact ND.
  - intros p. rewrite in_map_iff, filter_In. unfold inw. rewrite andb_true_iff, !Z.leb_le. split.
    + intros ([a b] & <- & I). apply cells_in in I. unfold inr in I. cbn [rx0 ry0 rx1 ry1 fst snd] in *.
      split; [apply Cov; cbn [fst snd]; lia|lia].
    + intros [I [A B]]. exists (fst p - fst c, snd p - snd c). split.
      * destruct p. cbn [fst snd]. f_equal; lia.
      * apply cells_in. unfold inr. cbn [rx0 ry0 rx1 ry1 fst snd]. lia.
Qed.

(* what is gathered, in terms of the specification *)
Lemma gathered : forall t c,
  (forall fx fy k, -xm <= fx <= xm -> -ym <= fy <= ym -> 0 <= k < n ->
    get t (tindex fx fy + k) = Some (tweight fx fy k)) ->
  exists a, gather o t img ds (fst c) (snd c) = Some a /\
    List.length (c_sum a) = ds /\ forall P, surrounds o P c ->
    (c_tot a == total o img P c)%Q /\ (inject_Z (c_count a) == hits o img P c)%Q /\
    forall j, (j < ds)%nat -> (nth j (c_sum a) 0 == over o P (fun p k => wt c p k * datum img p k j))%Q.
Proof.
  intros t c T. destruct (gather_ok t (fst c) (snd c) T) as (a & E & A1 & A2 & A3 & A4).
  exists a. rewrite <- (surjective_pairing c) in *. cbn [c_tot c_count c_sum] in *.
  assert (W0 : forall p k, reaches o img c p k = false -> (wt c p k == 0)%Q).
  { intros p k R. unfold weight. rewrite R. reflexivity. }
  refine (conj E (conj A3 _)). intros P S. refine (conj _ (conj _ _)).
  - rewrite A1. rewrite (both_over (wt c) P c S W0). unfold total. ring.
  - rewrite A2. rewrite (both_over (fun p k => if reaches o img c p k && hit img p k then 1%Q else 0%Q) P c S).
    + change (inject_Z 0) with 0%Q. unfold hits. ring.
    + intros p k R. rewrite R. reflexivity.
  - intros j J. rewrite (A4 j J). rewrite (both_over (fun p k => wt c p k * datum img p k j)%Q P c S).
    + assert (Z : nth j (repeat 0%Q ds) 0%Q = 0%Q) by (rewrite nth_repeat; reflexivity). rewrite Z. ring.
    + intros p k R. rewrite (W0 p k R). ring.
Qed.


Lemma surrounds_some : forall c, exists P, surrounds o P c.
Proof.
  intros c. set (a := Qceiling (f_w o)). set (b := Qceiling (f_h o)).
  exists (cells (Region (fst c - a) (snd c - b) (fst c + a + 1) (snd c + b + 1))). split.
  - apply cells_nodup.
  - intros p A B. apply cells_in. unfold inr. cbn [rx0 ry0 rx1 ry1]. subst a b. lia.
Qed.

(* ------------------------------------------------------------------ the buffer *)
Variable aovs : list (Z * Z).
Hypothesis AO : aovs_ok ds aovs.
Hypothesis D9 : (9 <= ds)%nat.
Variable r : region.

Local Notation chans := (all_channels aovs).
Local Notation es := (element_size chans).
Definition blk (c : Z * Z) (i : Z) : Z := offset r chans (fst c - rx0 r) (snd c - ry0 r) i.

Lemma all_ok : aovs_ok ds chans.
Proof.
  unfold aovs_ok, all_channels. apply Forall_app. split; [|exact AO].
  repeat (apply Forall_cons; [cbn [fst snd]; lia|]). constructor.
Qed.
Lemma size_nonneg : forall l, aovs_ok ds l -> 0 <= element_size l.
Proof.
  induction 1 as [|[a b] l H F IH]; cbn [element_size fold_right]; [lia|]. cbn [fst snd] in *.
  unfold element_size in IH. lia.
Qed.
Lemma size_app : forall l m, element_size (l ++ m) = element_size l + element_size m.
Proof.
  induction l as [|c l IH]; intros m; cbn [element_size app fold_right]; [reflexivity|].
  fold (element_size (l ++ m)). fold (element_size l). rewrite IH. lia.
Qed.
Lemma es_eq : es = 9 + element_size aovs.
Proof. unfold all_channels. rewrite size_app. reflexivity. Qed.
Lemma es_9 : 9 <= es.
Proof. rewrite es_eq. assert (H := size_nonneg aovs AO). lia. Qed.

Lemma zrange_app : forall a b c, a <= b -> b <= c -> zrange a b ++ zrange b c = zrange a c.
Proof.
  intros a b c A B. unfold zrange.
  replace (Z.to_nat (c - a)) with (Z.to_nat (b - a) + Z.to_nat (c - b))%nat by lia.
  rewrite seq_app, map_app. f_equal. cbn [plus].
  rewrite <- (map_map (fun i => (i + Z.to_nat (b - a))%nat) (fun i => a + Z.of_nat i)) || idtac.
  assert (E : seq (Z.to_nat (b - a)) (Z.to_nat (c - b)) = map (fun i => (Z.to_nat (b - a) + i)%nat) (seq 0 (Z.to_nat (c - b)))).
  { generalize (Z.to_nat (c - b)) as m, (Z.to_nat (b - a)) as k. intros m. clear. 
    intros k. replace k with (k + 0)%nat at 1 by lia. generalize 0%nat as z.
    induction m as [|m IH]; intros z; cbn [seq map]; [reflexivity|]. f_equal.
    replace (S (k + z)) with (k + S z)%nat by lia. apply IH. }
  rewrite E, map_map. apply map_ext. intros i. lia.
Qed.
Lemma slots_fst : forall l i, aovs_ok ds l -> map fst (slots i l) = zrange i (i + element_size l).
Proof.
  intros l i F. revert i. induction F as [|[off num] l H F IH]; intros i; cbn [slots map].
  - cbn [element_size fold_right]. unfold zrange. replace (i + 0 - i) with 0 by lia. reflexivity.
  - rewrite map_app, map_map, IH. cbn [fst snd] in *. cbn [element_size fold_right snd].
    fold (element_size l). assert (P := size_nonneg l F).
    rewrite <- (zrange_app i (i + num) (i + (num + element_size l))) by lia. f_equal.
    + rewrite (zrange_shift i (i + num)). replace (i + num - i) with num by lia. reflexivity.
    + f_equal. lia.
Qed.
Lemma slots_snd : forall l i d s, aovs_ok ds l -> In (d, s) (slots i l) -> 0 <= s < Z.of_nat ds.
Proof.
  intros l i d s F. revert i. induction F as [|[off num] l H F IH]; intros i I; cbn [slots] in I; [destruct I|].
  apply in_app_iff in I as [I|I]; [|eauto]. apply in_map_iff in I as (k & E & I).
  apply zrange_in in I. injection E as <- <-. cbn [fst snd] in *. lia.
Qed.
Lemma slots_in : forall l off num l' i k, 0 <= k < num ->
  In (i + element_size l + k, off + k) (slots i (l ++ (off, num) :: l')).
Proof.
  induction l as [|[a b] l IH]; intros off num l' i k K; cbn [slots app].
  - apply in_app_iff. left. apply in_map_iff. exists k. split; [|apply zrange_in; exact K].
    cbn [element_size fold_right]. f_equal. lia.
  - apply in_app_iff. right. cbn [element_size fold_right snd]. fold (element_size l).
    replace (i + (b + element_size l) + k) with (i + b + element_size l + k) by lia. apply IH. exact K.
Qed.
Lemma slots_nodup : NoDup (map fst (slots 0 chans)).
Proof. rewrite slots_fst by apply all_ok. apply zrange_nodup. Qed.
Lemma slots_range : forall d s, In (d, s) (slots 0 chans) -> 0 <= d < es.
Proof.
  intros d s I. apply (in_map fst) in I. rewrite slots_fst in I by apply all_ok. cbn [fst] in I.
  apply zrange_in in I. lia.
Qed.
Lemma slots_all : forall d, 0 <= d < es -> exists s, In (d, s) (slots 0 chans).
Proof.
  intros d D. assert (I : In d (map fst (slots 0 chans))).
  { rewrite slots_fst by apply all_ok. apply zrange_in. lia. }
  apply in_map_iff in I as ([d' s] & E & I). cbn in E. subst. eauto.
Qed.

Lemma blk_bound : forall c i, inside r c -> 0 <= i < es -> 0 <= blk c i < rwidth r * rheight r * es.
Proof.
  intros c i [X Y] I. unfold blk, offset, rwidth, rheight.
  assert (A : 0 <= (snd c - ry0 r) * (rx1 r - rx0 r) + (fst c - rx0 r) <= (rx1 r - rx0 r) * (ry1 r - ry0 r) - 1) by nia.
  set (q := _ + (fst c - rx0 r)) in *. set (m := (rx1 r - rx0 r) * (ry1 r - ry0 r)) in *. nia.
Qed.
Lemma blk_inj : forall c c' i i', inside r c -> inside r c' -> 0 <= i < es -> 0 <= i' < es ->
  blk c i = blk c' i' -> c = c' /\ i = i'.
Proof.
  intros [x y] [x' y'] i i' [X Y] [X' Y'] I I' E. unfold blk, offset in E. cbn [fst snd] in *.
  apply base_inj in E as [E1 E2]; [|assumption..].
  apply base_inj in E1 as [E3 E4]; [|unfold rwidth; lia..].
  split; [f_equal; lia|exact E2].
Qed.

Local Notation bsize := (rwidth r * rheight r * es).
Definition sets (b b' : arr) (c : Z * Z) (V : Z -> Q -> Prop) : Prop :=
  a_size b' = a_size b /\ (forall i, 0 <= i < es -> V i (a_get b' (blk c i))) /\
  forall c' i, inside r c' -> c' <> c -> 0 <= i < es -> a_get b' (blk c' i) = a_get b (blk c' i).

Lemma put_in : forall b c i v, a_size b = bsize -> inside r c -> 0 <= i < es ->
  put b (blk c i, v) = Some (Arr (a_size b) (fun j => if j =? blk c i then v else a_get b j)).
Proof.
  intros b c i v S C I. unfold put. cbn [fst snd]. rewrite S. assert (B := blk_bound c i C I).
  replace ((0 <=? blk c i) && (blk c i <? bsize)) with true by
    (symmetry; apply andb_true_iff; split; [apply Z.leb_le|apply Z.ltb_lt]; lia).
  reflexivity.
Qed.
Lemma get_in : forall b c i, a_size b = bsize -> inside r c -> 0 <= i < es ->
  get b (blk c i) = Some (a_get b (blk c i)).
Proof.
  intros b c i S C I. unfold get. rewrite S. assert (B := blk_bound c i C I).
  replace ((0 <=? blk c i) && (blk c i <? bsize)) with true by
    (symmetry; apply andb_true_iff; split; [apply Z.leb_le|apply Z.ltb_lt]; lia).
  reflexivity.
Qed.

(* all the values of a pixel *)
Lemma put_slots : forall b c (v : Z * Z -> Q), a_size b = bsize -> inside r c ->
  exists b', foldM (fun b s => put b (blk c (fst s), v s)) (slots 0 chans) b = Some b' /\
    sets b b' c (fun i q => exists s, In (i, s) (slots 0 chans) /\ q = v (i, s)).
Proof.
  intros b c v S C.
  rewrite (foldM_map _ _ _ (fun s => (blk c (fst s), v s)) put).
  destruct (puts (map (fun s => (blk c (fst s), v s)) (slots 0 chans)) b) as (b' & E & S' & G & O).
  - rewrite map_map. cbn [fst]. rewrite <- (map_map fst (blk c)).
    apply NoDup_map_inj; [|apply slots_nodup]. intros i j I J E.
    apply in_map_iff in I as ([i' si] & Ei & I), J as ([j' sj] & Ej & J). cbn in Ei, Ej. subst i' j'.
    apply slots_range in I, J. apply (blk_inj c c i j C C I J) in E. tauto.
  - intros w I. apply in_map_iff in I as ([i si] & <- & I). cbn [fst]. rewrite S.
    apply blk_bound; [exact C|]. eapply slots_range. exact I.
  - exists b'. split; [exact E|]. split; [exact S'|]. split.
    + intros i I. destruct (slots_all i I) as [s Is]. exists s. split; [exact Is|].
      apply G. apply in_map_iff. exists (i, s). auto.
    + intros c' i C' N I. apply O. intros J. rewrite map_map in J. cbn [fst] in J.
      apply in_map_iff in J as ([j sj] & Ej & J). cbn [fst] in Ej. apply slots_range in J.
      apply (blk_inj c c' j i C C' J I) in Ej as [Ec _]. congruence.
Qed.

(* the values of a pixel before alpha and coverage are set *)
Definition first (c : Z * Z) (i : Z) (v : Q) : Prop :=
  exists s, In (i, s) (slots 0 chans) /\
  forall P, surrounds o P c ->
    ((hits o img P c == 0)%Q -> v = if i =? 7 then f_max o else 0%Q) /\
    (~ (hits o img P c == 0)%Q -> (v == mean o img P c (Z.to_nat s))%Q).
Definition cov_ok (c : Z * Z) (v : Q) : Prop :=
  forall P, surrounds o P c -> (v == covered o img P c)%Q.

Hypothesis TOT : forall c P, inside r c -> surrounds o P c ->
  ~ (hits o img P c == 0)%Q -> ~ (total o img P c == 0)%Q.

Lemma n_posQ : (0 < inject_Z n)%Q.
Proof. change 0%Q with (inject_Z 0). rewrite <- Zlt_Qlt. apply n_pos. Qed.

Lemma store_ok : forall b a c, a_size b = bsize -> inside r c ->
  (forall P, surrounds o P c ->
    (c_tot a == total o img P c)%Q /\ (inject_Z (c_count a) == hits o img P c)%Q /\
    forall j, (j < ds)%nat -> (nth j (c_sum a) 0 == over o P (fun p k => wt c p k * datum img p k j))%Q) \/
  (c_count a = 0 /\ forall P, surrounds o P c -> (hits o img P c == 0)%Q) ->
  (c_count a <> 0 -> List.length (c_sum a) = ds) ->
  exists b' v, store o r chans b a (fst c) (snd c) = Some (b', v) /\ sets b b' c (first c) /\ cov_ok c v.
Proof.
  intros b a c S C H L. unfold store. fold (blk c 7).
  assert (Z0 : c_count a = 0 -> forall P, surrounds o P c -> (hits o img P c == 0)%Q).
  { intros Z P SP. destruct H as [H|[_ H]]; [|auto]. destruct (H P SP) as (_ & H2 & _).
    rewrite Z in H2. symmetry. exact H2. }
  destruct (Z.eqb_spec (c_count a) 0) as [Z|NZ].
  - destruct (put_slots b c (fun _ => 0%Q) S C) as (b1 & E1 & S1 & V1 & O1).
    assert (E1' : foldM (fun b s => put b (offset r chans (fst c - rx0 r) (snd c - ry0 r) (fst s), 0%Q)) (slots 0 chans) b = Some b1)
      by exact E1.
    rewrite E1'. cbn [bind]. assert (B7 : 0 <= 7 < es) by (assert (E := es_9); lia).
    rewrite put_in; [|congruence|exact C|exact B7]. cbn [bind]. eexists. exists 0%Q.
    split; [reflexivity|]. split.
    + split; [cbn [a_size]; congruence|]. split.
      * intros i I. cbn [a_get]. destruct (V1 i I) as (s & Is & Ev). exists s. split; [exact Is|].
        intros P SP. assert (Hz := Z0 Z P SP). split; [|intros; contradiction]. intros _.
        destruct (Z.eqb_spec i 7) as [->|N7]; [rewrite Z.eqb_refl; reflexivity|].
        destruct (Z.eqb_spec (blk c i) (blk c 7)) as [E|_]; [|exact Ev].
        apply (blk_inj c c i 7 C C I B7) in E. tauto.
      * intros c' i C' N I. cbn [a_get]. rewrite <- (O1 c' i C' N I).
        destruct (Z.eqb_spec (blk c' i) (blk c 7)) as [E|_]; [|reflexivity].
        apply (blk_inj c' c i 7 C' C I B7) in E. destruct E. congruence.
    + intros P SP. unfold covered. assert (Hz := Z0 Z P SP). assert (NP := n_posQ).
      rewrite qle_bool_false by (rewrite Hz; exact NP). rewrite Hz. field. intros E. rewrite E in NP. lra.
  - destruct H as [H|[Z _]]; [|contradiction]. specialize (L NZ).
    assert (NH : forall P, surrounds o P c -> ~ (hits o img P c == 0)%Q).
    { intros P SP E. destruct (H P SP) as (_ & H2 & _). rewrite E in H2. apply NZ.
      change 0%Q with (inject_Z 0) in H2. apply (proj1 (inject_Z_injective _ _)). exact H2. }
    destruct (Qeq_bool (c_tot a) 0) eqn:Et.
    { exfalso. apply Qeq_bool_eq in Et. destruct (surrounds_some c) as [P SP].
      apply (TOT c P C SP (NH P SP)). destruct (H P SP) as (H1 & _). rewrite <- H1. exact Et. }
    apply Qeq_bool_neq in Et.
    destruct (put_slots b c (fun s => (nth (Z.to_nat (snd s)) (c_sum a) 0 * (1 / c_tot a))%Q) S C)
      as (b1 & E1 & S1 & V1 & O1).
    rewrite (foldM_ext _ _ _
      (fun (b : arr) (s : Z * Z) => put b (blk c (fst s), (nth (Z.to_nat (snd s)) (c_sum a) 0 * (1 / c_tot a))%Q))).
    2:{ intros b0 [d s] I. assert (R := slots_snd _ _ _ _ all_ok I). cbn [fst snd].
        rewrite (nth_error_nth' (c_sum a) 0%Q) by lia. reflexivity. }
    rewrite E1. cbn [bind]. eexists. eexists. split; [reflexivity|]. split.
    + split; [exact S1|]. split; [|exact O1]. intros i I. destruct (V1 i I) as (s & Is & Ev).
      exists s. split; [exact Is|]. intros P SP. split; [intros E; destruct (NH P SP E)|]. intros _.
      rewrite Ev. cbn [snd]. destruct (H P SP) as (H1 & _ & H3).
      assert (R := slots_snd _ _ _ _ all_ok Is). rewrite H3 by lia. unfold mean. rewrite <- H1. field. exact Et.
    + intros P SP. unfold covered, subpixels. destruct (H P SP) as (_ & H2 & _).
      destruct (Z.leb_spec (f_xs o * f_ys o) (c_count a)) as [Le|Lt].
      * assert (Q1 : Qle_bool (inject_Z n) (hits o img P c) = true).
        { apply Qle_bool_iff. rewrite <- H2. rewrite <- Zle_Qle. exact Le. }
        rewrite Q1. reflexivity.
      * rewrite qle_bool_false by (rewrite <- H2; rewrite <- Zlt_Qlt; exact Lt).
        rewrite H2. reflexivity.
Qed.

(* the first loop *)
Variable valid : bool.
Hypothesis VAL : valid = false -> forall p k, hit img p k = false.

Lemma no_hits : valid = false -> forall P c, (hits o img P c == 0)%Q.
Proof.
  intros V P c. unfold hits, over. apply qsum_zero. intros p _. apply qsum_zero. intros k _.
  rewrite (VAL V), andb_false_r. reflexivity.
Qed.

Lemma loop1 : forall t l b cs,
  (forall fx fy k, -xm <= fx <= xm -> -ym <= fy <= ym -> 0 <= k < n ->
    get t (tindex fx fy + k) = Some (tweight fx fy k)) ->
  NoDup l -> (forall c, In c l -> inside r c) -> a_size b = bsize ->
  exists b' vs,
    foldM (fun (bc : arr * list Q) (p : Z * Z) =>
             let '(b, cs) := bc in
             let '(x, y) := p in
             do c <- (if valid then gather o t img ds x y else Some (Acc 0 0 []));
             do bv <- store o r chans b c x y;
             Some (fst bv, cs ++ [snd bv])) l (b, cs) = Some (b', cs ++ vs) /\
    a_size b' = bsize /\ Forall2 cov_ok l vs /\
    (forall c i, In c l -> 0 <= i < es -> first c i (a_get b' (blk c i))) /\
    (forall c i, inside r c -> ~ In c l -> 0 <= i < es -> a_get b' (blk c i) = a_get b (blk c i)).
Proof.
  intros t l b cs T. revert b cs. induction l as [|c l IH]; intros b cs N R S.
  - exists b, []. cbn [foldM]. rewrite app_nil_r.
    refine (conj eq_refl (conj S (conj (Forall2_nil _) (conj _ _)))); [intros c i []|auto].
  - apply NoDup_cons_iff in N as [N1 N2]. assert (C := R c (or_introl eq_refl)).
    cbn [foldM].
    assert (G : exists a, (if valid then gather o t img ds (fst c) (snd c) else Some (Acc 0 0 [])) = Some a /\
      ((forall P, surrounds o P c ->
        (c_tot a == total o img P c)%Q /\ (inject_Z (c_count a) == hits o img P c)%Q /\
        forall j, (j < ds)%nat -> (nth j (c_sum a) 0 == over o P (fun p k => wt c p k * datum img p k j))%Q) \/
       (c_count a = 0 /\ forall P, surrounds o P c -> (hits o img P c == 0)%Q)) /\
      (c_count a <> 0 -> List.length (c_sum a) = ds)).
    { assert (Ev : valid = true \/ valid = false) by (destruct valid; auto).
      destruct Ev as [Ev|Ev]; rewrite Ev.
      - destruct (gathered t c T) as (a & E & L & H). exists a. split; [exact E|]. split; [left; exact H|auto].
      - exists (Acc 0 0 []). split; [reflexivity|]. cbn [c_count]. split; [|congruence].
        right. split; [reflexivity|]. intros. apply no_hits. exact Ev. }
    destruct G as (a & E & H & L).
    destruct (store_ok b a c S C H L) as (b1 & v & E1 & (S1 & V1 & O1) & K1).
    destruct c as [x y]. cbn [fst snd] in E, E1. rewrite E. cbn [bind]. rewrite E1. cbn [bind fst snd].
    destruct (IH b1 (cs ++ [v]) N2) as (b2 & vs & E2 & S2 & K2 & V2 & O2);
      [intros; apply R; right; auto|congruence|].
    exists b2, (v :: vs). rewrite E2. rewrite <- app_assoc. cbn [app].
    refine (conj eq_refl (conj S2 (conj (Forall2_cons _ _ K1 K2) (conj _ _)))).
    + intros c i [<-|I] Hi; [|auto]. rewrite O2 by auto. auto.
    + intros c i Hc Ni Hi. cbn [In] in Ni. rewrite O2; [|tauto|tauto|tauto].
      apply O1; [auto| |auto]. intros E3. apply Ni. left. congruence.
Qed.

(* the second loop *)
Definition final (c : Z * Z) (i : Z) (v : Q) : Prop :=
  if i =? 6 then exists o0 o1 o2 cov, first c 3 o0 /\ first c 4 o1 /\ first c 5 o2 /\ cov_ok c cov /\
       v = ((o0 + o1 + o2) / 3 * cov)%Q
  else if i =? 8 then cov_ok c v
  else first c i v.

Lemma loop2 : forall vs l done b,
  NoDup l -> (forall c, In c l -> inside r c) -> a_size b = bsize ->
  Forall2 cov_ok (done ++ l) vs ->
  (forall c i, In c l -> 0 <= i < es -> first c i (a_get b (blk c i))) ->
  exists b',
    foldM (fun (bi : arr * nat) (p : Z * Z) =>
             let '(b, i) := bi in
             let '(x, y) := p in
             do cov <- nth_error vs i;
             do o0 <- get b (offset r chans (x - rx0 r) (y - ry0 r) 3);
             do o1 <- get b (offset r chans (x - rx0 r) (y - ry0 r) (3 + 1));
             do o2 <- get b (offset r chans (x - rx0 r) (y - ry0 r) (3 + 2));
             do b <- put b (offset r chans (x - rx0 r) (y - ry0 r) 6, ((o0 + o1 + o2) / 3 * cov)%Q);
             do b <- put b (offset r chans (x - rx0 r) (y - ry0 r) 8, cov);
             Some (b, S i)) l (b, List.length done) = Some (b', List.length (done ++ l)) /\
    a_size b' = bsize /\
    (forall c i, In c l -> 0 <= i < es -> final c i (a_get b' (blk c i))) /\
    (forall c i, inside r c -> ~ In c l -> 0 <= i < es -> a_get b' (blk c i) = a_get b (blk c i)).
Proof.
  intros vs. induction l as [|c l IH]; intros done b N R S K F.
  - exists b. cbn [foldM]. rewrite app_nil_r. refine (conj eq_refl (conj S (conj _ _))); [intros c i []|auto].
  - apply NoDup_cons_iff in N as [N1 N2]. assert (C := R c (or_introl eq_refl)). cbn [foldM].
    assert (E9 := es_9).
    assert (Kc : exists cov, nth_error vs (List.length done) = Some cov /\ cov_ok c cov).
    { apply Forall2_app_inv_l in K as (v1 & v2 & K1 & K2 & ->). inversion K2; subst.
      exists y. split; [|assumption]. apply Forall2_len in K1. rewrite K1.
      rewrite nth_error_app2 by lia. rewrite Nat.sub_diag. reflexivity. }
    destruct Kc as (cov & En & Kc). destruct c as [x y].
    rewrite En. cbn [bind]. fold (blk (x, y) 3). change (3 + 1) with 4. change (3 + 2) with 5.
    change (offset r chans (x - rx0 r) (y - ry0 r)) with (blk (x, y)).
    rewrite !get_in by (auto; lia). cbn [bind]. rewrite put_in by (auto; lia). cbn [bind].
    rewrite put_in by (cbn [a_size]; auto; lia). cbn [bind a_size a_get].
    match goal with |- exists b', foldM _ l (?b1, _) = _ /\ _ => set (b' := b1) end.
    assert (Sets : sets b b' (x, y) (final (x, y))).
    { split; [reflexivity|]. split.
      - intros i I. unfold b'. cbn [a_get]. unfold final.
        destruct (Z.eqb_spec i 6) as [->|N6].
        + destruct (Z.eqb_spec (blk (x, y) 6) (blk (x, y) 8)) as [E|_].
          { apply (blk_inj (x, y) (x, y) 6 8) in E; auto; lia. }
          rewrite Z.eqb_refl. exists (a_get b (blk (x, y) 3)), (a_get b (blk (x, y) 4)), (a_get b (blk (x, y) 5)), cov.
          refine (conj _ (conj _ (conj _ (conj Kc eq_refl)))); apply F; (left; reflexivity) || lia.
        + destruct (Z.eqb_spec i 8) as [->|N8]; [rewrite Z.eqb_refl; exact Kc|].
          destruct (Z.eqb_spec (blk (x, y) i) (blk (x, y) 8)) as [E|_].
          { apply (blk_inj (x, y) (x, y) i 8) in E; auto; lia. }
          destruct (Z.eqb_spec (blk (x, y) i) (blk (x, y) 6)) as [E|_].
          { apply (blk_inj (x, y) (x, y) i 6) in E; auto; lia. }
          apply F; [left; reflexivity|exact I].
      - intros c' i C' Nc I. unfold b'. cbn [a_get].
        destruct (Z.eqb_spec (blk c' i) (blk (x, y) 8)) as [E|_].
        { apply (blk_inj c' (x, y) i 8) in E; auto; [|lia]. destruct E. congruence. }
        destruct (Z.eqb_spec (blk c' i) (blk (x, y) 6)) as [E|_]; [|reflexivity].
        apply (blk_inj c' (x, y) i 6) in E; auto; [|lia]. destruct E. congruence. }
    destruct Sets as (S1 & V1 & O1). clearbody b'.
    destruct (IH (done ++ [(x, y)]) b' N2) as (b2 & E2 & S2 & V2 & O2).
    + intros; apply R; right; auto.
    + congruence.
    + rewrite <- app_assoc. exact K.
    + intros c i I Hi. rewrite O1; [apply F; [right; exact I|exact Hi]|apply R; right; exact I| |exact Hi].
      intros E. subst c. contradiction.
    + exists b2. replace (List.length (done ++ [(x, y)])) with (Datatypes.S (List.length done)) in E2
        by (rewrite app_length; cbn [List.length]; lia).
      rewrite <- app_assoc in E2. cbn [app] in E2.
      refine (conj E2 (conj S2 (conj _ _))).
      * intros c i [<-|I] Hi; [|auto]. rewrite O2; auto.
      * intros c i Hc Ni Hi. cbn [In] in Ni. rewrite O2; [|tauto|tauto|tauto].
        apply O1; [auto| |auto]. intros E3. apply Ni. left. congruence.
Qed.

Theorem filtered : exists b, filter_bucket o valid img ds aovs r = Some b /\ a_size b = bsize /\
  forall c i, inside r c -> 0 <= i < es -> final c i (a_get b (blk c i)).
Proof.
  unfold filter_bucket. destruct table_ok as (t & Et & T). rewrite Et. cbn [bind].
  assert (In_r : forall c, In c (cells r) <-> inside r c).
  { intros c. rewrite cells_in. unfold inr, inside. tauto. }
  destruct (loop1 t (cells r) (Arr bsize (fun _ => 0%Q)) [] T (cells_nodup r)) as (b1 & vs & E1 & S1 & K1 & F1 & _);
    [intros c I; apply In_r; exact I|reflexivity|].
  cbn [app] in E1. rewrite E1. cbn [bind fst snd].
  destruct (loop2 vs (cells r) [] b1 (cells_nodup r)) as (b2 & E2 & S2 & V2 & _);
    [intros c I; apply In_r; exact I|exact S1|exact K1|intros c i I; apply F1; exact I|].
  cbn [app] in E2. rewrite cells_shift in E2 at 1. rewrite <- foldM_map in E2.
  match type of E2 with foldM ?f ?l ?st = _ => assert (E3 : forall g, (forall a b, In b l -> f a b = g a b) ->
    foldM g l st = Some (b2, List.length (cells r))) by (intros g Hg; rewrite <- E2; symmetry; apply foldM_ext; exact Hg) end.
  rewrite E3.
  - cbn [bind fst]. exists b2. refine (conj eq_refl (conj S2 _)).
    intros c i C I. apply V2; [apply In_r; exact C|exact I].
  - intros [b i] [x y] I. cbn [fst snd]. replace (rx0 r + x - rx0 r) with x by lia.
    replace (ry0 r + y - ry0 r) with y by lia. reflexivity.
Qed.

End Filter.

(** Proofs for the bit-vector model. *)
From Coq Require Import List Arith NArith Lia Bool ZArith.
From Verif Require Import BitVectorModel BitVectorSpec.
Import ListNotations.
Local Open Scope nat_scope.

Definition bitat (l : list bool) (k : nat) (t : N) : bool :=
  if N.ltb t 8 then nth (8 * k + N.to_nat t) l false else false.

Definition Rep (v : bv) (l : list bool) : Prop :=
  len v = length l /\
  length (bytes v) = number_of_ints (length l) /\
  forall k b t, nth_error (bytes v) k = Some b -> N.testbit b t = bitat l k t.

Lemma upd_length l i x : length (upd l i x) = length l.
Proof. revert i; induction l as [|h t IH]; intros [|i]; simpl; auto. Qed.
Lemma updg_length {A} (l : list A) i x : length (updg l i x) = length l.
Proof. revert i; induction l as [|h t IH]; intros [|i]; simpl; auto. Qed.
Lemma nth_error_upd l i x k :
  nth_error (upd l i x) k = if Nat.eqb k i then (if Nat.ltb i (length l) then Some x else None) else nth_error l k.
Proof.
  revert i k; induction l as [|h t IH]; intros [|i] [|k]; simpl; auto.
  - destruct (Nat.eqb k i); reflexivity.
  - rewrite IH. reflexivity.
Qed.
Lemma nth_error_updg {A} (l : list A) i x k :
  nth_error (updg l i x) k = if Nat.eqb k i then (if Nat.ltb i (length l) then Some x else None) else nth_error l k.
Proof.
  revert i k; induction l as [|h t IH]; intros [|i] [|k]; simpl; auto.
  - destruct (Nat.eqb k i); reflexivity.
  - rewrite IH. reflexivity.
Qed.
Lemma nth_updg {A} (l : list A) i x k d : i < length l ->
  nth k (updg l i x) d = if Nat.eqb k i then x else nth k l d.
Proof.
  revert i k; induction l as [|h t IH]; intros [|i] [|k] H; simpl in *; auto; try lia.
  apply IH; lia.
Qed.

Lemma noi_bound n : 8 * number_of_ints n < n + 8 /\ n <= 8 * number_of_ints n.
Proof.
  unfold number_of_ints. pose proof (Nat.div_mod (n + 8 - 1) 8 ltac:(lia)).
  pose proof (Nat.mod_upper_bound (n + 8 - 1) 8 ltac:(lia)). lia.
Qed.

Lemma testbit_mask m t : N.testbit (N.shiftr 255 m) t = N.ltb (t + m) 8.
Proof.
  rewrite N.shiftr_spec by apply N.le_0_l.
  change 255%N with (N.ones 8).
  destruct (N.ltb_spec (t + m) 8) as [H|H].
  - apply N.ones_spec_low; assumption.
  - apply N.ones_spec_high; assumption.
Qed.

Lemma testbit_shiftl1 k t : N.testbit (N.shiftl 1 k) t = N.eqb t k.
Proof.
  destruct (N.leb_spec k t) as [H|H].
  - rewrite N.shiftl_spec_high' by assumption.
    destruct (N.eqb_spec t k) as [->|Hn].
    + rewrite N.sub_diag. reflexivity.
    + replace (t - k)%N with (N.succ (t - k - 1)) by lia.
      apply N.bits_above_log2. simpl. lia.
  - rewrite N.shiftl_spec_low by assumption.
    symmetry; apply N.eqb_neq; lia.
Qed.

(** A vector whose bytes agree with [l] on all bits below its length becomes canonical. *)
Lemma canonize_rep bs l :
  0 < length l ->
  length bs = number_of_ints (length l) ->
  (forall k b t, nth_error bs k = Some b -> 8 * k + N.to_nat t < length l -> (t < 8)%N ->
                 N.testbit b t = nth (8 * k + N.to_nat t) l false) ->
  (forall k b t, nth_error bs k = Some b -> (8 <= t)%N -> N.testbit b t = false) ->
  exists v', canonize (mkbv bs (length l)) = Some v' /\ Rep v' l.
Proof.
  intros Hpos Hlen Hlow Hhigh.
  pose proof (noi_bound (length l)) as Hb.
  unfold canonize; cbn [bytes len].
  destruct (length bs) as [|m] eqn:Em; [lia|].
  destruct (nth_error bs m) as [b|] eqn:Eb.
  2:{ apply nth_error_None in Eb. lia. }
  eexists; split; [reflexivity|].
  split; [reflexivity|]. cbn [bytes len].
  split; [rewrite upd_length; congruence|].
  intros k b' t. rewrite nth_error_upd.
  destruct (Nat.eqb_spec k m) as [->|Hne].
  - destruct (Nat.ltb_spec m (length bs)) as [_|]; [|lia].
    intros E; inversion E; subst b'; clear E.
    rewrite N.land_spec. unfold canon_mask. rewrite testbit_mask.
    set (r := length l mod 8).
    assert (Hr : length l = 8 * (length l / 8) + r) by (apply Nat.div_mod; lia).
    assert (Hr8 : r < 8) by (apply Nat.mod_upper_bound; lia).
    assert (Hm : length l = 8 * m + (if Nat.eqb r 0 then 8 else r)).
    { destruct (Nat.eqb_spec r 0); lia. }
    unfold bitat.
    set (q := if Nat.eqb r 0 then 8 else r) in *.
    assert (Hq : 0 < q <= 8) by (unfold q; destruct (Nat.eqb_spec r 0); lia).
    destruct (N.ltb_spec t 8) as [Ht|Ht].
    + destruct (N.ltb_spec (t + N.of_nat (8 - q)) 8) as [Hin|Hout].
      * rewrite andb_true_r. apply Hlow; auto. lia.
      * rewrite andb_false_r. symmetry; apply nth_overflow. lia.
    + rewrite (Hhigh m b t Eb Ht). reflexivity.
  - intros E. unfold bitat.
    assert (k < length bs) by (apply nth_error_Some; congruence).
    destruct (N.ltb_spec t 8) as [Ht|Ht].
    + apply Hlow; auto. lia.
    + apply (Hhigh k b' t E Ht).
Qed.

Lemma rep_value v l i : Rep v l -> i < length l -> value i v = nth_error l i.
Proof.
  intros (Hl & Hn & Hb) Hi. unfold value. rewrite Hl.
  destruct (Nat.ltb_spec i (length l)) as [_|]; [|lia].
  pose proof (noi_bound (length l)).
  pose proof (Nat.div_mod i 8 ltac:(lia)) as Hd.
  pose proof (Nat.mod_upper_bound i 8 ltac:(lia)) as Hm.
  destruct (nth_error (bytes v) (i / 8)) as [b|] eqn:E.
  2:{ apply nth_error_None in E. lia. }
  rewrite (nth_error_nth' l false Hi). f_equal.
  specialize (Hb _ _ (N.of_nat (i mod 8)) E). unfold bitat in Hb.
  destruct (N.ltb_spec (N.of_nat (i mod 8)) 8) as [_|]; [|lia].
  rewrite Nnat.Nat2N.id in Hb. rewrite <- Hd in Hb. rewrite <- Hb.
  set (k := N.of_nat (i mod 8)).
  assert (Hland : N.land b (N.shiftl 1 k) = if N.testbit b k then N.shiftl 1 k else 0%N).
  { apply N.bits_inj; intros t. rewrite N.land_spec, testbit_shiftl1.
    destruct (N.eqb_spec t k) as [->|Hne].
    - rewrite andb_true_r. destruct (N.testbit b k) eqn:Eb.
      + rewrite testbit_shiftl1, N.eqb_refl. reflexivity.
      + symmetry; apply N.bits_0.
    - rewrite andb_false_r. destruct (N.testbit b k).
      + rewrite testbit_shiftl1. symmetry; apply N.eqb_neq; assumption.
      + symmetry; apply N.bits_0. }
  rewrite Hland. destruct (N.testbit b k).
  - destruct (N.eqb_spec (N.shiftl 1 k) 0) as [E0|E0]; [|reflexivity].
    exfalso. assert (Hc : N.testbit (N.shiftl 1 k) k = N.testbit 0 k) by congruence.
    rewrite testbit_shiftl1, N.eqb_refl, N.bits_0 in Hc. discriminate.
  - reflexivity.
Qed.

(** Counting *)
Definition b2n (b : bool) : nat := if b then 1 else 0.
Definition pop8 (b : N) : nat :=
  b2n (N.testbit b 0) + b2n (N.testbit b 1) + b2n (N.testbit b 2) + b2n (N.testbit b 3) +
  b2n (N.testbit b 4) + b2n (N.testbit b 5) + b2n (N.testbit b 6) + b2n (N.testbit b 7).

Lemma table_ok_all :
  forallb (fun i => match nth_error bitcount i with
                    | Some c => Nat.eqb c (pop8 (N.of_nat i)) | None => false end) (seq 0 256) = true.
Proof. vm_compute. reflexivity. Qed.

Lemma table_ok b : (b < 256)%N -> nth_error bitcount (N.to_nat b) = Some (pop8 b).
Proof.
  intros H. pose proof table_ok_all as T. rewrite forallb_forall in T.
  specialize (T (N.to_nat b)). rewrite Nnat.N2Nat.id in T.
  destruct (nth_error bitcount (N.to_nat b)) as [c|].
  - f_equal. apply Nat.eqb_eq. apply T. apply in_seq. lia.
  - discriminate T. apply in_seq. lia.
Qed.

Lemma byte_lt b : (forall t, (8 <= t)%N -> N.testbit b t = false) -> (b < 256)%N.
Proof.
  intros H. destruct (N.eq_dec b 0) as [->|Hn]; [lia|].
  change 256%N with (2 ^ 8)%N. apply N.log2_lt_pow2; [lia|].
  destruct (N.ltb_spec (N.log2 b) 8) as [|Hge]; [assumption|].
  pose proof (N.bit_log2 b Hn) as E. rewrite (H _ Hge) in E. discriminate.
Qed.

Definition ctrue (l : list bool) : nat := length (filter (fun b => b) l).

Lemma ctrue_app a b : ctrue (a ++ b) = ctrue a + ctrue b.
Proof. unfold ctrue. rewrite filter_app, app_length. reflexivity. Qed.

Lemma ctrue_short l : length l <= 8 ->
  ctrue l = b2n (nth 0 l false) + b2n (nth 1 l false) + b2n (nth 2 l false) + b2n (nth 3 l false)
          + b2n (nth 4 l false) + b2n (nth 5 l false) + b2n (nth 6 l false) + b2n (nth 7 l false).
Proof.
  intros H.
  do 8 (destruct l as [|[|] l]; [reflexivity | simpl in H; unfold ctrue; simpl; apply le_S_n in H || idtac
                                              | simpl in H; unfold ctrue; simpl ]).
  all: destruct l; [reflexivity | simpl in H; lia].
Qed.

Lemma nth_firstn_lt {A} (d : A) n : forall l k, k < n -> nth k (firstn n l) d = nth k l d.
Proof.
  induction n as [|n IH]; intros [|x l] [|k] H; simpl; auto; try lia. apply IH; lia.
Qed.

Lemma count_bytes_rep bs : forall l,
  length bs = number_of_ints (length l) ->
  (forall k b t, nth_error bs k = Some b -> N.testbit b t = bitat l k t) ->
  count_bytes bs = Some (ctrue l).
Proof.
  induction bs as [|b bs IH]; intros l Hlen Hbit.
  - pose proof (noi_bound (length l)). simpl in Hlen. destruct l; [reflexivity|simpl in *; lia].
  - pose proof (noi_bound (length l)) as Hb.
    assert (H0 := Hbit 0 b). simpl in H0.
    assert (Hlt : (b < 256)%N).
    { apply byte_lt. intros t Ht. rewrite (H0 t eq_refl). unfold bitat.
      destruct (N.ltb_spec t 8); [lia|reflexivity]. }
    cbn [count_bytes]. rewrite (table_ok b Hlt).
    set (l1 := firstn 8 l). set (l2 := skipn 8 l).
    assert (El : l = l1 ++ l2) by (symmetry; apply firstn_skipn).
    rewrite (IH l2).
    + f_equal. rewrite El, ctrue_app. f_equal.
      unfold pop8.
      rewrite !H0 by reflexivity. unfold bitat. cbn [N.ltb N.compare Pos.compare Pos.compare_cont].
      rewrite (ctrue_short l1) by (unfold l1; rewrite firstn_length; lia).
      assert (Hn : forall k, k < 8 -> nth k l1 false = nth k l false).
      { intros k Hk. apply nth_firstn_lt; assumption. }
      rewrite !Hn by lia. reflexivity.
    + unfold l2. rewrite skipn_length. simpl in Hlen.
      unfold number_of_ints in *.
      pose proof (Nat.div_mod (length l + 8 - 1) 8 ltac:(lia)).
      pose proof (Nat.mod_upper_bound (length l + 8 - 1) 8 ltac:(lia)).
      destruct (Nat.leb_spec 8 (length l)) as [H8|H8].
      * replace (length l + 8 - 1) with (1 * 8 + (length l - 8 + 8 - 1)) in Hlen by lia.
        rewrite Nat.div_add_l in Hlen by lia. lia.
      * replace (length l - 8) with 0 by lia. simpl. lia.
    + intros k b' t E. specialize (Hbit (S k) b' t E). rewrite Hbit. unfold bitat.
      destruct (N.ltb_spec t 8); [|reflexivity].
      rewrite El. destruct (Nat.leb_spec 8 (length l)) as [H8|H8].
      * rewrite app_nth2; unfold l1; rewrite firstn_length; [f_equal; lia | lia].
      * rewrite <- El. unfold l2. rewrite !nth_overflow; auto; try rewrite skipn_length; lia.
Qed.

Lemma rep_observes v l : Rep v l -> observes v l.
Proof.
  intros H. split; [apply H|]. split.
  - intros i Hi. apply rep_value; assumption.
  - destruct H as (_ & H2 & H3). apply count_bytes_rep; assumption.
Qed.

Lemma set_value_rep v l i x : Rep v l ->
  if Nat.ltb i (length l)
  then exists v', set_value i x v = Some v' /\ Rep v' (updg l i x)
  else set_value i x v = None.
Proof.
  intros (Hl & Hn & Hb). unfold set_value. rewrite Hl.
  destruct (Nat.ltb_spec i (length l)) as [Hi|Hi]; [|reflexivity].
  pose proof (noi_bound (length l)).
  pose proof (Nat.div_mod i 8 ltac:(lia)) as Hd.
  pose proof (Nat.mod_upper_bound i 8 ltac:(lia)) as Hm.
  destruct (nth_error (bytes v) (i / 8)) as [b|] eqn:E.
  2:{ apply nth_error_None in E. lia. }
  eexists; split; [reflexivity|].
  split; [cbn; rewrite updg_length; reflexivity|].
  split; [cbn; rewrite upd_length, updg_length; assumption|].
  cbn [bytes]. intros k b' t. rewrite nth_error_upd.
  unfold bitat.
  assert (Hnth : forall z, nth z (updg l i x) false = if Nat.eqb z i then x else nth z l false)
    by (intros; apply nth_updg; assumption).
  destruct (Nat.eqb_spec k (i / 8)) as [->|Hne].
  - destruct (Nat.ltb_spec (i / 8) (length (bytes v))) as [_|]; [|discriminate].
    intros E'; inversion E'; subst b'; clear E'.
    assert (Hbb := Hb _ _ t E). unfold bitat in Hbb.
    assert (Ht : N.testbit (if x then N.lor b (N.shiftl 1 (N.of_nat (i mod 8)))
                            else N.ldiff b (N.shiftl 1 (N.of_nat (i mod 8)))) t
                 = if N.eqb t (N.of_nat (i mod 8)) then x else N.testbit b t).
    { destruct x; [rewrite N.lor_spec | rewrite N.ldiff_spec]; rewrite testbit_shiftl1;
        destruct (N.eqb t (N.of_nat (i mod 8))), (N.testbit b t); reflexivity. }
    etransitivity; [exact Ht|]. rewrite Hbb, Hnth.
    destruct (N.eqb_spec t (N.of_nat (i mod 8))) as [->|Hne].
    + destruct (N.ltb_spec (N.of_nat (i mod 8)) 8); [|lia].
      rewrite Nnat.Nat2N.id. rewrite <- Hd, Nat.eqb_refl. reflexivity.
    + destruct (N.ltb_spec t 8); [|reflexivity].
      destruct (Nat.eqb_spec (8 * (i / 8) + N.to_nat t) i); [exfalso; apply Hne; lia|reflexivity].
  - intros E'. rewrite (Hb _ _ t E'). unfold bitat. rewrite Hnth.
    destruct (N.ltb_spec t 8); [|reflexivity].
    destruct (Nat.eqb_spec (8 * k + N.to_nat t) i); [exfalso; apply Hne|reflexivity].
    lia.
Qed.

Lemma toggle_is_set v l i b : Rep v l -> nth_error l i = Some b ->
  exists v', toggle i v = Some v' /\ Rep v' (updg l i (negb b)).
Proof.
  intros HR Hi.
  assert (Hlt : i < length l) by (apply nth_error_Some; congruence).
  pose proof (set_value_rep v l i (negb b) HR) as H.
  destruct (Nat.ltb_spec i (length l)) as [_|]; [|lia].
  destruct H as (v' & Hs & HR'). exists v'; split; [|assumption].
  rewrite <- Hs. unfold toggle, set_value.
  destruct HR as (Hl & Hn & Hb). rewrite Hl.
  destruct (Nat.ltb_spec i (length l)) as [_|]; [|lia].
  destruct (nth_error (bytes v) (i / 8)) as [by_|] eqn:E; [|reflexivity].
  do 3 f_equal.
  pose proof (Nat.div_mod i 8 ltac:(lia)) as Hd.
  pose proof (Nat.mod_upper_bound i 8 ltac:(lia)) as Hm.
  assert (Hk := Hb _ _ (N.of_nat (i mod 8)) E). unfold bitat in Hk.
  destruct (N.ltb_spec (N.of_nat (i mod 8)) 8) as [_|]; [|lia].
  rewrite Nnat.Nat2N.id, <- Hd in Hk.
  rewrite (nth_error_nth l i false Hi) in Hk.
  apply N.bits_inj; intros t. rewrite N.lxor_spec, testbit_shiftl1.
  destruct b; cbn [negb]; [rewrite N.ldiff_spec | rewrite N.lor_spec]; rewrite testbit_shiftl1;
    destruct (N.eqb_spec t (N.of_nat (i mod 8))) as [->|_]; rewrite ?Hk; try reflexivity;
    rewrite ?xorb_false_r, ?orb_false_r, ?andb_true_r; reflexivity.
Qed.

Lemma toggle_out v l i : Rep v l -> length l <= i -> toggle i v = None.
Proof.
  intros (Hl & _) Hi. unfold toggle. rewrite Hl.
  destruct (Nat.ltb_spec i (length l)); [lia|reflexivity].
Qed.

Lemma pointwise_rep f v l (g : bool -> bool) :
  Rep v l -> 0 < length l ->
  (forall b t, (t < 8)%N -> N.testbit (f b) t = g (N.testbit b t)) ->
  (forall b t, (8 <= t)%N -> N.testbit b t = false -> N.testbit (f b) t = false) ->
  exists v', canonize (mkbv (map f (bytes v)) (len v)) = Some v' /\ Rep v' (map g l).
Proof.
  intros (Hl & Hn & Hb) Hpos Hf Hf8.
  rewrite Hl. rewrite <- (map_length g l).
  apply canonize_rep.
  - rewrite map_length; assumption.
  - rewrite !map_length; assumption.
  - rewrite map_length. intros k b t E Hlt Ht. rewrite nth_error_map in E.
    destruct (nth_error (bytes v) k) as [b0|] eqn:E0; [|discriminate].
    inversion E; subst b. rewrite Hf by assumption. rewrite (Hb _ _ t E0).
    unfold bitat. destruct (N.ltb_spec t 8); [|lia].
    rewrite (nth_indep (map g l) false (g false)) by (rewrite map_length; assumption).
    rewrite map_nth. reflexivity.
  - intros k b t E Ht. rewrite nth_error_map in E.
    destruct (nth_error (bytes v) k) as [b0|] eqn:E0; [|discriminate].
    inversion E; subst b. apply Hf8; [assumption|]. rewrite (Hb _ _ t E0).
    unfold bitat. destruct (N.ltb_spec t 8); [lia|reflexivity].
Qed.

(** [SetAll] overwrites every byte, so it needs no hypothesis on the previous contents. *)
Lemma set_all_rep v n x : len v = n -> 0 < n -> length (bytes v) = number_of_ints n ->
  exists v', set_all x v = Some v' /\ Rep v' (repeat x n).
Proof.
  intros Hl Hpos Hn. unfold set_all. rewrite Hl.
  pose proof (canonize_rep (map (fun _ => if x then 255%N else 0%N) (bytes v)) (repeat x n)) as H.
  rewrite repeat_length in H. apply H.
  - assumption.
  - rewrite map_length; assumption.
  - intros k b t E Hlt Ht. rewrite nth_error_map in E.
    destruct (nth_error (bytes v) k); [|discriminate]. inversion E; subst b.
    assert (Hr : nth (8 * k + N.to_nat t) (repeat x n) false = x).
    { assert (In (nth (8 * k + N.to_nat t) (repeat x n) false) (repeat x n))
        by (apply nth_In; rewrite repeat_length; assumption).
      eapply repeat_spec; eassumption. }
    rewrite Hr. destruct x; [|apply N.bits_0].
    change 255%N with (N.ones 8). apply N.ones_spec_low; assumption.
  - intros k b t E Ht. rewrite nth_error_map in E.
    destruct (nth_error (bytes v) k); [|discriminate]. inversion E; subst b.
    destruct x; [|apply N.bits_0].
    change 255%N with (N.ones 8). apply N.ones_spec_high; assumption.
Qed.

Lemma complement_rep v l : Rep v l -> 0 < length l ->
  exists v', complement v = Some v' /\ Rep v' (map negb l).
Proof.
  intros HR Hp. apply pointwise_rep; auto.
  - intros b t Ht. rewrite N.lxor_spec. change 255%N with (N.ones 8).
    rewrite N.ones_spec_low by assumption. apply xorb_true_r.
  - intros b t Ht Hbt. rewrite N.lxor_spec, Hbt. change 255%N with (N.ones 8).
    rewrite N.ones_spec_high by assumption; reflexivity.
Qed.

Lemma zip_first_ok op a b :
  length a = length b ->
  exists r, zip_first op (length a) a b = Some r /\ length r = length a /\
    forall k, nth_error r k = match nth_error a k, nth_error b k with
                              | Some x, Some y => Some (op x y) | _, _ => None end.
Proof.
  revert b; induction a as [|x a IH]; intros [|y b] H; simpl in H; try lia.
  - exists []; repeat split. intros k; destruct k; reflexivity.
  - destruct (IH b ltac:(lia)) as (r & Hr & Hl & Hk). cbn [length zip_first]. rewrite Hr.
    exists (op x y :: r). split; [reflexivity|]. split; [simpl; lia|].
    intros [|k]; simpl; [reflexivity|apply Hk].
Qed.

Lemma map2_length {A B C} (f : A -> B -> C) l m : length l = length m -> length (map2 f l m) = length l.
Proof. intros H. unfold map2. rewrite map_length, combine_length. lia. Qed.
Lemma map2_nth {A B C} (f : A -> B -> C) l m k da db dc : length l = length m -> k < length l ->
  nth k (map2 f l m) dc = f (nth k l da) (nth k m db).
Proof.
  intros Hlm Hk. unfold map2.
  rewrite (nth_indep _ dc (f (fst (da, db)) (snd (da, db)))) by (rewrite map_length, combine_length; lia).
  rewrite (map_nth (fun p => f (fst p) (snd p))). rewrite combine_nth by assumption. reflexivity.
Qed.

Lemma binop_rep op (g : bool -> bool -> bool) v l w m :
  (forall x y t, N.testbit (op x y) t = g (N.testbit x t) (N.testbit y t)) ->
  g false false = false ->
  Rep v l -> Rep w m -> length l = length m -> 0 < length l ->
  exists bs, zip_first op (number_of_ints (length l)) (bytes v) (bytes w) = Some bs /\
  exists v', canonize (mkbv bs (length l)) = Some v' /\ Rep v' (map2 g l m).
Proof.
  intros Hop Hg0 (Hl & Hn & Hb) (Hl' & Hn' & Hb') Hlm Hpos.
  assert (Hlen : length (bytes v) = length (bytes w)) by congruence.
  destruct (zip_first_ok op _ _ Hlen) as (bs & Hbs & Hlbs & Hk).
  rewrite <- Hn. exists bs; split; [assumption|].
  rewrite <- (map2_length g l m Hlm).
  apply canonize_rep.
  - rewrite map2_length; assumption.
  - rewrite map2_length by assumption. congruence.
  - rewrite map2_length by assumption. intros k b t E Hlt Ht. rewrite Hk in E.
    destruct (nth_error (bytes v) k) as [x|] eqn:Ex; [|discriminate].
    destruct (nth_error (bytes w) k) as [y|] eqn:Ey; [|discriminate].
    inversion E; subst b. rewrite Hop, (Hb _ _ t Ex), (Hb' _ _ t Ey).
    unfold bitat. destruct (N.ltb_spec t 8); [|lia].
    rewrite (map2_nth g l m _ false false) by (assumption || lia). reflexivity.
  - intros k b t E Ht. rewrite Hk in E.
    destruct (nth_error (bytes v) k) as [x|] eqn:Ex; [|discriminate].
    destruct (nth_error (bytes w) k) as [y|] eqn:Ey; [|discriminate].
    inversion E; subst b. rewrite Hop, (Hb _ _ t Ex), (Hb' _ _ t Ey).
    unfold bitat. destruct (N.ltb_spec t 8); [lia|assumption].
Qed.

Lemma set_size_same j v l n : Rep v l -> number_of_ints n = number_of_ints (length l) ->
  set_size j n v = mkbv (bytes v) n.
Proof.
  intros (_ & Hn & _) H. unfold set_size. rewrite H, Hn, Nat.eqb_refl. reflexivity.
Qed.

Lemma min_same a : (if Nat.ltb a a then a else a) = a.
Proof. destruct (Nat.ltb a a); reflexivity. Qed.

Lemma intersect_rep j v l w m : Rep v l -> Rep w m -> length l = length m -> 0 < length l ->
  exists v', intersect j v w = Some v' /\ Rep v' (map2 andb l m).
Proof.
  intros HR HR' Hlm Hp. unfold intersect.
  destruct (binop_rep N.land andb v l w m) as (bs & Hz & v' & Hc & Hv'); auto.
  { intros; apply N.land_spec. }
  rewrite (proj1 HR), (proj1 HR'), <- Hlm, min_same.
  rewrite (set_size_same j v l) by (assumption || reflexivity). cbn [bytes len].
  rewrite Hz. eauto.
Qed.
Lemma union_rep j v l w m : Rep v l -> Rep w m -> length l = length m -> 0 < length l ->
  exists v', union j v w = Some v' /\ Rep v' (map2 orb l m).
Proof.
  intros HR HR' Hlm Hp. unfold union.
  destruct (binop_rep N.lor orb v l w m) as (bs & Hz & v' & Hc & Hv'); auto.
  { intros; apply N.lor_spec. }
  rewrite (proj1 HR), (proj1 HR'), <- Hlm, min_same.
  rewrite (set_size_same j v l) by (assumption || reflexivity). cbn [bytes len].
  rewrite Hz. eauto.
Qed.
Lemma difference_rep j v l w m : Rep v l -> Rep w m -> length l = length m -> 0 < length l ->
  exists v', difference j v w = Some v' /\ Rep v' (map2 xorb l m).
Proof.
  intros HR HR' Hlm Hp. unfold difference.
  destruct (binop_rep N.lxor xorb v l w m) as (bs & Hz & v' & Hc & Hv'); auto.
  { intros; apply N.lxor_spec. }
  rewrite (proj1 HR), (proj1 HR'), <- Hlm, min_same.
  rewrite (set_size_same j v l) by (assumption || reflexivity). cbn [bytes len].
  rewrite Hz. eauto.
Qed.

Lemma set_size_bytes_length j n v : length (bytes (set_size j n v)) = number_of_ints n.
Proof.
  unfold set_size. destruct (Nat.eqb_spec (length (bytes v)) (number_of_ints n)); cbn; [assumption|].
  unfold fresh. rewrite map_length, seq_length. reflexivity.
Qed.
Lemma set_size_len j n v : len (set_size j n v) = n.
Proof. unfold set_size. destruct (Nat.eqb _ _); reflexivity. Qed.

(** Assignment copies all bits whatever the previous size of the target. *)
Lemma assign_rep j v w m : Rep w m -> exists v', assign j v w = Some v' /\ Rep v' m.
Proof.
  intros (Hl & Hn & Hb). unfold assign. rewrite Hl.
  destruct (zip_first_ok (fun _ y => y) (bytes (set_size j (length m) v)) (bytes w)) as (bs & Hz & Hlb & Hk).
  { rewrite set_size_bytes_length; congruence. }
  rewrite Hz, set_size_len.
  eexists; split; [reflexivity|]. split; [reflexivity|]. cbn [bytes].
  split; [rewrite Hlb; apply set_size_bytes_length|].
  intros k b t E. rewrite Hk in E.
  destruct (nth_error (bytes (set_size j (length m) v)) k); [|discriminate].
  destruct (nth_error (bytes w) k) eqn:Ey; [|discriminate].
  inversion E; subst. apply (Hb _ _ t Ey).
Qed.

Lemma construct_shape j n : 0 < n -> len (construct j n) = n /\ length (bytes (construct j n)) = number_of_ints n.
Proof.
  intros H. unfold construct. destruct (Nat.ltb_spec 0 n); [|lia].
  split; [apply set_size_len | apply set_size_bytes_length].
Qed.

Definition initial (j : junk) (n : nat) (bs : list bool) : list (option bv) :=
  map (fun b => set_all b (construct j n)) bs.

Lemma initial_rep j n bs : 0 < n ->
  exists rf, initial j n bs = map Some rf /\ Forall2 Rep rf (map (fun b => repeat b n) bs).
Proof.
  intros Hn. induction bs as [|b bs IH].
  - exists []; split; [reflexivity|constructor].
  - destruct IH as (rf & H1 & H2).
    destruct (construct_shape j n Hn) as (Hl & Hb).
    destruct (set_all_rep _ n b Hl Hn Hb) as (v & Hv & HR).
    exists (v :: rf). split.
    + cbn [initial map]. rewrite Hv. f_equal. exact H1.
    + cbn [map]. constructor; assumption.
Qed.

Lemma Forall2_nth {A B} (P : A -> B -> Prop) l m i : Forall2 P l m ->
  match nth_error l i, nth_error m i with
  | Some a, Some b => P a b | None, None => True | _, _ => False end.
Proof.
  intros H; revert i; induction H as [|x y l m Hxy HF IH]; intros [|i]; simpl; auto.
  apply IH.
Qed.
Lemma Forall2_updg {A B} (P : A -> B -> Prop) l m i a b : Forall2 P l m -> P a b ->
  Forall2 P (updg l i a) (updg m i b).
Proof.
  intros H Hab; revert i; induction H as [|x y l m Hxy HF IH]; intros [|i]; simpl; auto.
Qed.
Lemma Forall_updg {A} (P : A -> Prop) l i a : Forall P l -> P a -> Forall P (updg l i a).
Proof. intros H Ha; revert i; induction H; intros [|i]; simpl; auto. Qed.

Lemma step_agree j n rf sf o : 0 < n -> Forall2 Rep rf sf -> Forall (fun l => length l = n) sf ->
  match bstep j rf o, spec_step sf o with
  | Some rf', Some sf' => Forall2 Rep rf' sf' /\ Forall (fun l => length l = n) sf'
  | None, None => True
  | _, _ => False
  end.
Proof.
  intros Hn HF Hlen.
  assert (Hlen' : forall r l, nth_error sf r = Some l -> length l = n).
  { intros r l E. rewrite Forall_forall in Hlen. apply Hlen. eapply nth_error_In; eassumption. }
  destruct o as [r x|r i x|r i|r|r s|r s|r s|r s]; unfold bstep, spec_step;
    pose proof (Forall2_nth _ _ _ r HF) as Hr;
    try (pose proof (Forall2_nth _ _ _ s HF) as Hs);
    destruct (nth_error rf r) as [v|] eqn:Ev, (nth_error sf r) as [l|] eqn:El; try contradiction; try exact I;
    pose proof (Hlen' _ _ El) as Hll.
  - destruct (set_all_rep v n x) as (v' & -> & HR').
    + rewrite (proj1 Hr); assumption.
    + assumption.
    + rewrite (proj1 (proj2 Hr)), Hll. reflexivity.
    + assert (E : map (fun _ : bool => x) l = repeat x n).
      { rewrite <- Hll. clear. induction l; simpl; congruence. }
      rewrite E. split; [apply Forall2_updg; assumption|].
      apply Forall_updg; [assumption|apply repeat_length].
  - pose proof (set_value_rep v l i x Hr) as H.
    destruct (Nat.ltb i (length l)).
    + destruct H as (v' & -> & HR').
      split; [apply Forall2_updg; assumption|]. apply Forall_updg; [assumption|rewrite updg_length; assumption].
    + rewrite H. exact I.
  - destruct (nth_error l i) as [b|] eqn:Eb.
    + destruct (toggle_is_set v l i b Hr Eb) as (v' & -> & HR').
      split; [apply Forall2_updg; assumption|]. apply Forall_updg; [assumption|rewrite updg_length; assumption].
    + apply nth_error_None in Eb. rewrite (toggle_out v l i Hr Eb). exact I.
  - destruct (complement_rep v l Hr) as (v' & -> & HR'); [lia|].
    split; [apply Forall2_updg; assumption|]. apply Forall_updg; [assumption|rewrite map_length; assumption].
  - destruct (nth_error rf s) as [w|] eqn:Ew, (nth_error sf s) as [m|] eqn:Em; try contradiction; try exact I.
    pose proof (Hlen' _ _ Em) as Hlm.
    destruct (intersect_rep j v l w m Hr Hs) as (v' & -> & HR'); [lia|lia|].
    split; [apply Forall2_updg; assumption|]. apply Forall_updg; [assumption|rewrite map2_length; lia].
  - destruct (nth_error rf s) as [w|] eqn:Ew, (nth_error sf s) as [m|] eqn:Em; try contradiction; try exact I.
    pose proof (Hlen' _ _ Em) as Hlm.
    destruct (union_rep j v l w m Hr Hs) as (v' & -> & HR'); [lia|lia|].
    split; [apply Forall2_updg; assumption|]. apply Forall_updg; [assumption|rewrite map2_length; lia].
  - destruct (nth_error rf s) as [w|] eqn:Ew, (nth_error sf s) as [m|] eqn:Em; try contradiction; try exact I.
    pose proof (Hlen' _ _ Em) as Hlm.
    destruct (difference_rep j v l w m Hr Hs) as (v' & -> & HR'); [lia|lia|].
    split; [apply Forall2_updg; assumption|]. apply Forall_updg; [assumption|rewrite map2_length; lia].
  - destruct (nth_error rf s) as [w|] eqn:Ew, (nth_error sf s) as [m|] eqn:Em; try contradiction; try exact I.
    pose proof (Hlen' _ _ Em) as Hlm.
    destruct (assign_rep j v w m Hs) as (v' & -> & HR').
    split; [apply Forall2_updg; assumption|]. apply Forall_updg; [assumption|assumption].
Qed.

Lemma run_agree j n p : 0 < n -> forall rf sf, Forall2 Rep rf sf -> Forall (fun l => length l = n) sf ->
  agree (brun j rf p) (spec_run sf p).
Proof.
  intros Hn. induction p as [|o p IH]; intros rf sf HF Hlen.
  - simpl. clear -HF. induction HF; constructor; auto using rep_observes.
  - cbn [brun spec_run]. pose proof (step_agree j n rf sf o Hn HF Hlen) as H.
    destruct (bstep j rf o) as [rf'|], (spec_step sf o) as [sf'|]; try contradiction; try exact I.
    destruct H; apply IH; assumption.
Qed.

Lemma bitvector_program_correct j n bs p : 0 < n ->
  exists rf, initial j n bs = map Some rf /\
             agree (brun j rf p) (spec_run (map (fun b => repeat b n) bs) p).
Proof.
  intros Hn. destruct (initial_rep j n bs Hn) as (rf & H1 & H2).
  exists rf; split; [assumption|]. apply (run_agree j n); auto.
  rewrite Forall_forall. intros l Hl. apply in_map_iff in Hl. destruct Hl as (b & <- & _).
  apply repeat_length.
Qed.

(** Vectors of different sizes: intersecting loses the contents of the left operand when the byte counts differ. *)
Lemma all_ones_rep n : Rep (mkbv (repeat 255%N n) (8 * n)) (repeat true (8 * n)).
Proof.
  split; [cbn; rewrite repeat_length; reflexivity|].
  split.
  { cbn [bytes]. rewrite !repeat_length. pose proof (noi_bound (8 * n)). lia. }
  cbn [bytes]. intros k b t E.
  assert (Hk : k < n).
  { rewrite <- (repeat_length 255%N n). apply nth_error_Some. congruence. }
  apply nth_error_In in E. apply repeat_spec in E. subst b.
  unfold bitat. change 255%N with (N.ones 8). destruct (N.ltb_spec t 8).
  - rewrite N.ones_spec_low by assumption.
    assert (Hin : In (nth (8 * k + N.to_nat t) (repeat true (8 * n)) false) (repeat true (8 * n))).
    { apply nth_In. rewrite repeat_length. lia. }
    apply repeat_spec in Hin. rewrite Hin. reflexivity.
  - apply N.ones_spec_high; assumption.
Qed.

Lemma intersect_sizes_junk :
  exists v w, observes v (repeat true 16) /\ observes w (repeat true 8) /\
    exists j r, intersect j v w = Some r /\ value 0 r = Some false.
Proof.
  exists (mkbv (repeat 255%N 2) (8 * 2)), (mkbv (repeat 255%N 1) (8 * 1)).
  split; [|split].
  - apply rep_observes, (all_ones_rep 2).
  - apply rep_observes, (all_ones_rep 1).
  - exists (fun _ => 0%N). eexists. vm_compute. split; reflexivity.
Qed.

Lemma union_sizes_junk :
  exists v w, observes v (repeat true 8) /\ observes w (repeat true 16) /\
    exists j r, union j v w = Some r /\ value 8 r = Some false.
Proof.
  exists (mkbv (repeat 255%N 1) (8 * 1)), (mkbv (repeat 255%N 2) (8 * 2)).
  split; [|split].
  - apply rep_observes, (all_ones_rep 1).
  - apply rep_observes, (all_ones_rep 2).
  - exists (fun _ => 0%N). eexists. vm_compute. split; reflexivity.
Qed.

(** Shrinking inside one byte leaves stale bits that [Count] still sees. *)
Lemma shrink_count :
  exists v, observes v (repeat true 8) /\ forall j, len (set_size j 1 v) = 1 /\ count (set_size j 1 v) = Some 8.
Proof.
  exists (mkbv (repeat 255%N 1) (8 * 1)). split; [apply rep_observes, (all_ones_rep 1)|].
  intros j. split; reflexivity.
Qed.

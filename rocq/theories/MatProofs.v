(** Proofs about the matrices of aqsis. *)

From Coq Require Import List Arith Bool QArith Qabs Qfield Lia Lqa Setoid Morphisms.
From Verif Require Import MatModel MatSpec.
Import ListNotations.
Local Open Scope Q_scope.

Ltac four i := destruct i as [|[|[|[|i]]]]; try (exfalso; lia).

Ltac open_det :=
  unfold det;
  cbn [orders flat_map insertions map app wrong_pairs filter length Nat.ltb Nat.leb
       Nat.even fold_right nth Nat.add].

Lemma stored_ok : forall f i j, (i < 4)%nat -> (j < 4)%nat -> stored f i j = f i j.
Proof. intros f i j Hi Hj. four i; four j; reflexivity. Qed.

Lemma same_at : forall A B, same A B ->
  forall i j, (i < 4)%nat -> (j < 4)%nat -> A i j == B i j.
Proof. intros A B H. exact H. Qed.

Lemma determinant_is : forall m, determinant m == det (E m).
Proof. intros m. unfold determinant, det3, det2. open_det. ring. Qed.

Lemma det_product : forall A B, det (product A B) == det A * det B.
Proof. intros A B. unfold product, sum4. open_det. ring. Qed.

Lemma det_transpose : forall A, det (fun i j => A j i) == det A.
Proof. intros A. open_det. ring. Qed.

Lemma det_one : det one == 1.
Proof. reflexivity. Qed.

Lemma det_ext : forall A B, same A B -> det A == det B.
Proof.
  intros A B S. open_det.
  rewrite !(same_at _ _ S) by lia. reflexivity.
Qed.

Lemma same_refl : forall A, same A A.
Proof. intros A i j _ _. reflexivity. Qed.

Lemma same_sym : forall A B, same A B -> same B A.
Proof. intros A B H i j Hi Hj. symmetry. auto. Qed.

Lemma same_trans : forall A B C, same A B -> same B C -> same A C.
Proof. intros A B C H K i j Hi Hj. rewrite (H i j Hi Hj). apply K; assumption. Qed.

Lemma product_ext : forall A A' B B', same A A' -> same B B' ->
  same (product A B) (product A' B').
Proof.
  intros A A' B B' H K i j Hi Hj. unfold product, sum4.
  rewrite !(same_at _ _ H), !(same_at _ _ K) by lia. reflexivity.
Qed.

Lemma product_assoc : forall A B C, same (product (product A B) C) (product A (product B C)).
Proof. intros A B C i j _ _. unfold product, sum4. ring. Qed.

Lemma one_product : forall A, same (product one A) A.
Proof. intros A i j Hi Hj. unfold product, sum4, one. four i; cbn [Nat.eqb]; ring. Qed.

Lemma product_one : forall A, same (product A one) A.
Proof. intros A i j Hi Hj. unfold product, sum4, one. four j; cbn [Nat.eqb]; ring. Qed.

(** * The elimination *)

Lemma pivot_fold : forall (a : elements) j l i0,
  let p := fold_left (fun i1 i => if negb (Qle_bool (Qabs (a i j)) (Qabs (a i1 j))) then i else i1) l i0 in
  In p (i0 :: l) /\ forall i, In i (i0 :: l) -> Qabs (a i j) <= Qabs (a p j).
Proof.
  intros a j l. induction l as [|x l IH]; intros i0.
  - cbn. split; [auto|]. intros i [<-|[]]. apply Qle_refl.
  - cbn [fold_left].
    destruct (Qle_bool (Qabs (a x j)) (Qabs (a i0 j))) eqn:C; cbn [negb].
    + destruct (IH i0) as [P1 P2]. split.
      * destruct P1 as [P1|P1]; [left; exact P1 | right; right; exact P1].
      * intros i [<-|[<-|Hi]].
        -- apply P2. left. reflexivity.
        -- apply Qle_bool_iff in C. apply Qle_trans with (1 := C). apply P2. left. reflexivity.
        -- apply P2. right. exact Hi.
    + destruct (IH x) as [P1 P2]. split.
      * right. exact P1.
      * intros i [<-|[<-|Hi]].
        -- apply Qle_trans with (Qabs (a x j)).
           ++ apply Qlt_le_weak. apply Qnot_le_lt. intro K. apply Qle_bool_iff in K. congruence.
           ++ apply P2. left. reflexivity.
        -- apply P2. left. reflexivity.
        -- apply P2. right. exact Hi.
Qed.

Lemma pivot_ok : forall a j, (j < 4)%nat ->
  (j <= pivot a j < 4)%nat /\
  forall i, (j <= i < 4)%nat -> Qabs (a i j) <= Qabs (a (pivot a j) j).
Proof.
  intros a j Hj. unfold pivot.
  destruct (pivot_fold a j (seq (j + 1) (3 - j)) j) as [P1 P2].
  split.
  - destruct P1 as [<-|P1]; [lia|]. apply in_seq in P1. lia.
  - intros i Hi. apply P2.
    destruct (Nat.eq_dec i j) as [->|N]; [left; reflexivity|].
    right. apply in_seq. lia.
Qed.

(** What holds before column [j]. *)
Definition ready (A0 : elements) (j : nat) (a b : elements) : Prop :=
  same a (product b A0) /\
  (forall r c, (r < 4)%nat -> (c < j)%nat -> a r c == one r c) /\
  ~ det a == 0.

Lemma no_pivot : forall a j, (j < 4)%nat ->
  (forall r c, (r < 4)%nat -> (c < j)%nat -> a r c == one r c) ->
  (forall i, (j <= i < 4)%nat -> a i j == 0) -> det a == 0.
Proof.
  intros a j Hj U Z.
  rewrite (det_ext a (fun r c => if (c <? j)%nat then one r c
                                else if (c =? j)%nat && (j <=? r)%nat then 0 else a r c)).
  - clear U Z. unfold one. four j; open_det;
      cbn [Nat.eqb Nat.ltb Nat.leb andb]; ring.
  - intros r c Hr Hc. destruct (Nat.ltb_spec c j) as [L|L]; [apply U; lia|].
    destruct (Nat.eqb_spec c j) as [->|N]; [|reflexivity].
    destruct (Nat.leb_spec j r) as [L2|L2]; [apply Z; lia | reflexivity].
Qed.

Lemma swap_det : forall a i1 j, (i1 < 4)%nat -> (j < 4)%nat -> i1 <> j ->
  det (swap_rows a i1 j) == - det a.
Proof.
  intros a i1 j Hi Hj N.
  rewrite (det_ext (swap_rows a i1 j)
             (fun r c => if (r =? i1)%nat then a j c else if (r =? j)%nat then a i1 c else a r c))
    by (intros r c Hr Hc; unfold swap_rows; rewrite stored_ok by lia; reflexivity).
  four i1; four j; try congruence; open_det; cbn [Nat.eqb]; ring.
Qed.

Lemma swap_ready : forall A0 j a b i1, (j <= i1 < 4)%nat -> i1 <> j ->
  ready A0 j a b -> ready A0 j (swap_rows a i1 j) (swap_rows b i1 j).
Proof.
  intros A0 j a b i1 Hi N [P [U D]]. split; [|split].
  - intros r c Hr Hc. unfold swap_rows at 1. rewrite stored_ok by lia.
    unfold product, sum4, swap_rows. rewrite !stored_ok by lia.
    destruct (r =? i1)%nat; [|destruct (r =? j)%nat]; apply P; lia.
  - intros r c Hr Hc. unfold swap_rows. rewrite stored_ok by lia.
    destruct (Nat.eqb_spec r i1) as [->|N1]; [|destruct (Nat.eqb_spec r j) as [->|N2]].
    + rewrite U by lia. unfold one.
      destruct (Nat.eqb_spec j c); destruct (Nat.eqb_spec i1 c); try lia; reflexivity.
    + rewrite U by lia. unfold one.
      destruct (Nat.eqb_spec j c); destruct (Nat.eqb_spec i1 c); try lia; reflexivity.
    + apply U; lia.
  - rewrite swap_det by lia. intro Z. apply D.
    rewrite <- (Qopp_involutive (det a)), Z. reflexivity.
Qed.

(** Row [j] scaled, then taken from the others. *)
Definition reduced (a : elements) (j : nat) (s : Q) (x : elements) : elements :=
  fun r c => if (r =? j)%nat then x j c * s else x r c - a r j * (x j c * s).

Lemma reduced_det : forall a j s, (j < 4)%nat -> det (reduced a j s a) == s * det a.
Proof.
  intros a j s Hj. unfold reduced. four j; open_det; cbn [Nat.eqb]; ring.
Qed.

Lemma reduced_product : forall a j s b A0, (j < 4)%nat ->
  same a (product b A0) -> same (reduced a j s a) (product (reduced a j s b) A0).
Proof.
  intros a j s b A0 Hj P r c Hr Hc. unfold reduced at 1.
  unfold product, sum4, reduced.
  destruct (r =? j)%nat.
  - rewrite (P j c) by lia. unfold product, sum4. ring.
  - rewrite (P r c), (P j c) by lia. unfold product, sum4. ring.
Qed.

Lemma eliminate_ready : forall A0 j a b, (j < 4)%nat -> ready A0 j a b ->
  exists a' b', eliminate (a, b) j = Some (a', b') /\ ready A0 (Datatypes.S j) a' b'.
Proof.
  intros A0 j a0 b0 Hj R0. unfold eliminate.
  destruct (pivot_ok a0 j Hj) as [P1 P2].
  set (i1 := pivot a0 j) in *.
  set (a := if (i1 =? j)%nat then a0 else swap_rows a0 i1 j).
  set (b := if (i1 =? j)%nat then b0 else swap_rows b0 i1 j).
  assert (R : ready A0 j a b).
  { unfold a, b. destruct (Nat.eqb_spec i1 j) as [|N]; [exact R0|].
    apply swap_ready; auto. }
  assert (AJ : a j j = a0 i1 j).
  { unfold a. destruct (Nat.eqb_spec i1 j) as [->|N]; [reflexivity|].
    unfold swap_rows. rewrite stored_ok by lia.
    rewrite Nat.eqb_refl. replace (j =? i1)%nat with false; [reflexivity|].
    symmetry. apply Nat.eqb_neq. congruence. }
  clearbody a b.
  destruct (Qeq_bool (a j j) 0) eqn:Z.
  - exfalso. apply Qeq_bool_iff in Z. rewrite AJ in Z.
    destruct R0 as [_ [U D]]. apply D.
    apply (no_pivot a0 j Hj U). intros i Hi.
    specialize (P2 i Hi).
    assert (ZA : Qabs (a0 i1 j) == 0) by (rewrite Z; reflexivity).
    rewrite ZA in P2.
    assert (B := Qle_Qabs (a0 i j)). assert (B' := Qle_Qabs (- a0 i j)).
    rewrite Qabs_opp in B'. lra.
  - assert (NZ : ~ a j j == 0) by (intro K; apply Qeq_bool_iff in K; congruence).
    eexists. eexists. split; [reflexivity|].
    set (s := 1 / a j j).
    assert (SJ : a j j * s == 1) by (unfold s; field; exact NZ).
    destruct R as [P [U D]].
    assert (SA : same (stored (fun r c => if (r =? j)%nat then
                    stored (fun r c => if (r =? j)%nat then
                                  if (c <? j)%nat then a r c
                                  else if (c =? j)%nat then 1 else a r c * s
                                else a r c) r c
                                else if (c <? j)%nat then
                    stored (fun r c => if (r =? j)%nat then
                                  if (c <? j)%nat then a r c
                                  else if (c =? j)%nat then 1 else a r c * s
                                else a r c) r c
                                else if (c =? j)%nat then 0
                                else
                    stored (fun r c => if (r =? j)%nat then
                                  if (c <? j)%nat then a r c
                                  else if (c =? j)%nat then 1 else a r c * s
                                else a r c) r c -
                    stored (fun r c => if (r =? j)%nat then
                                  if (c <? j)%nat then a r c
                                  else if (c =? j)%nat then 1 else a r c * s
                                else a r c) r j *
                    stored (fun r c => if (r =? j)%nat then
                                  if (c <? j)%nat then a r c
                                  else if (c =? j)%nat then 1 else a r c * s
                                else a r c) j c)) (reduced a j s a)).
    { intros r c Hr Hc. rewrite stored_ok by lia. rewrite !stored_ok by lia.
      unfold reduced. rewrite Nat.eqb_refl.
      destruct (Nat.eqb_spec r j) as [->|N].
      - destruct (Nat.ltb_spec c j) as [L|L].
        + rewrite (U j c) by lia. unfold one.
          destruct (Nat.eqb_spec j c); [lia|]. ring.
        + destruct (Nat.eqb_spec c j) as [->|N2]; [rewrite SJ; reflexivity | reflexivity].
      - destruct (Nat.ltb_spec c j) as [L|L].
        + rewrite (U j c) by lia. unfold one.
          destruct (Nat.eqb_spec j c); [lia|]. ring.
        + destruct (Nat.eqb_spec c j) as [->|N2]; [rewrite SJ; ring | reflexivity]. }
    match type of SA with same ?x _ => set (af := x) in * end.
    assert (SB : same (stored (fun r c => if (r =? j)%nat
                     then stored (fun r c => if (r =? j)%nat then b r c * s else b r c) r c
                     else stored (fun r c => if (r =? j)%nat then b r c * s else b r c) r c -
                          stored (fun r c => if (r =? j)%nat then
                                  if (c <? j)%nat then a r c
                                  else if (c =? j)%nat then 1 else a r c * s
                                else a r c) r j *
                          stored (fun r c => if (r =? j)%nat then b r c * s else b r c) j c))
                      (reduced a j s b)).
    { intros r c Hr Hc. rewrite stored_ok by lia. rewrite !stored_ok by lia.
      unfold reduced. rewrite Nat.eqb_refl.
      destruct (Nat.eqb_spec r j) as [->|N]; reflexivity. }
    match type of SB with same ?x _ => set (bf := x) in * end.
    split; [|split].
    + apply same_trans with (1 := SA).
      apply same_trans with (1 := reduced_product a j s b A0 Hj P).
      apply product_ext; [apply same_sym; exact SB | apply same_refl].
    + intros r c Hr Hc. rewrite (SA r c) by lia. unfold reduced.
      destruct (Nat.eq_dec c j) as [->|N].
      * unfold one. destruct (r =? j)%nat; rewrite SJ; ring.
      * assert (UJ : a j c == 0)
          by (rewrite (U j c) by lia; unfold one; destruct (Nat.eqb_spec j c); [lia|reflexivity]).
        destruct (Nat.eqb_spec r j) as [->|N2].
        -- rewrite UJ. unfold one. destruct (Nat.eqb_spec j c); [lia|]. ring.
        -- rewrite UJ, (U r c) by lia. ring.
    + rewrite (det_ext _ _ SA), reduced_det by lia.
      intro K. apply Qmult_integral in K. destruct K as [K|K]; [|exact (D K)].
      rewrite K in SJ. ring_simplify in SJ. discriminate SJ.
Qed.

Lemma inverse_left : forall m, idf m = false -> ~ det (E m) == 0 ->
  exists B, inverse m = Some (Mat B false) /\ same (product B (E m)) one.
Proof.
  intros m F D. unfold inverse. rewrite F.
  assert (R : ready (E m) 0 (E m) (E identity)).
  { split; [|split].
    - apply same_sym. apply one_product.
    - intros; lia.
    - exact D. }
  destruct (eliminate_ready _ 0 _ _ (ltac:(lia)) R) as [a1 [b1 [-> R1]]].
  destruct (eliminate_ready _ 1 _ _ (ltac:(lia)) R1) as [a2 [b2 [-> R2]]].
  destruct (eliminate_ready _ 2 _ _ (ltac:(lia)) R2) as [a3 [b3 [-> R3]]].
  destruct (eliminate_ready _ 3 _ _ (ltac:(lia)) R3) as [a4 [b4 [-> R4]]].
  exists b4. split; [reflexivity|].
  destruct R4 as [P [U _]].
  apply same_trans with a4; [apply same_sym; exact P|].
  intros r c Hr Hc. apply U; lia.
Qed.

Lemma left_inverse_right : forall A B, same (product B A) one -> same (product A B) one.
Proof.
  intros A B H.
  assert (DD : det B * det A == 1).
  { rewrite <- det_product, (det_ext _ _ H). apply det_one. }
  assert (NB : ~ det B == 0).
  { intro K. rewrite K in DD. ring_simplify in DD. discriminate DD. }
  destruct (inverse_left (Mat B false) eq_refl NB) as [C [_ HC]]. cbn [E] in HC.
  assert (CA : same C A).
  { apply same_trans with (product C one); [apply same_sym, product_one|].
    apply same_trans with (product C (product B A));
      [apply product_ext; [apply same_refl | apply same_sym; exact H]|].
    apply same_trans with (product (product C B) A); [apply same_sym, product_assoc|].
    apply same_trans with (product one A);
      [apply product_ext; [exact HC | apply same_refl] | apply one_product]. }
  apply same_trans with (product C B); [|exact HC].
  apply product_ext; [apply same_sym; exact CA | apply same_refl].
Qed.

Lemma inverse_some : forall m B, honest m -> inverse m = Some B ->
  ~ det (E m) == 0 /\ honest B /\
  same (product (E m) (E B)) one /\ same (product (E B) (E m)) one.
Proof.
  intros m B H E0.
  destruct (idf m) eqn:F.
  - assert (I := H F). unfold inverse in E0. rewrite F in E0. inversion E0; subst B.
    assert (K : same (product (E m) (E m)) one).
    { apply same_trans with (product one one); [apply product_ext; exact I | apply one_product]. }
    split; [|split; [exact H | split; exact K]].
    rewrite (det_ext _ _ I), det_one. discriminate.
  - destruct (Qeq_dec (det (E m)) 0) as [Z|NZ].
    + exfalso.
      assert (L : forall B', inverse m = Some B' -> idf m = false ->
                  det (E m) == 0 -> False); [|exact (L _ E0 F Z)].
      clear. intros B' E0 F Z. unfold inverse in E0. rewrite F in E0.
      (* the determinant stays 0 *)
      assert (KZ : forall a b j a' b', (j < 4)%nat ->
        same a (product b (E m)) ->
        (forall r c, (r < 4)%nat -> (c < j)%nat -> a r c == one r c) ->
        det a == 0 -> eliminate (a, b) j = Some (a', b') ->
        (forall r c, (r < 4)%nat -> (c < Datatypes.S j)%nat -> a' r c == one r c) /\
        same a' (product b' (E m)) /\ det a' == 0).
      { clear. intros a0 b0 j a' b' Hj P0 U0 D0 E0. unfold eliminate in E0.
        destruct (pivot_ok a0 j Hj) as [P1 P2].
        set (i1 := pivot a0 j) in *.
        set (a := if (i1 =? j)%nat then a0 else swap_rows a0 i1 j) in *.
        set (b := if (i1 =? j)%nat then b0 else swap_rows b0 i1 j) in *.
        assert (RR : same a (product b (E m)) /\
          (forall r c, (r < 4)%nat -> (c < j)%nat -> a r c == one r c) /\ det a == 0).
        { unfold a, b. destruct (Nat.eqb_spec i1 j) as [|N]; [auto|].
          split; [|split].
          - intros r c Hr Hc. unfold swap_rows at 1. rewrite stored_ok by lia.
            unfold product, sum4, swap_rows. rewrite !stored_ok by lia.
            destruct (r =? i1)%nat; [|destruct (r =? j)%nat]; apply P0; lia.
          - intros r c Hr Hc. unfold swap_rows. rewrite stored_ok by lia.
            destruct (Nat.eqb_spec r i1) as [->|N1]; [|destruct (Nat.eqb_spec r j) as [->|N2]].
            + rewrite U0 by lia. unfold one.
              destruct (Nat.eqb_spec j c); destruct (Nat.eqb_spec i1 c); try lia; reflexivity.
            + rewrite U0 by lia. unfold one.
              destruct (Nat.eqb_spec j c); destruct (Nat.eqb_spec i1 c); try lia; reflexivity.
            + apply U0; lia.
          - rewrite swap_det by lia. rewrite D0. reflexivity. }
        clearbody a b. destruct RR as [P [U D]].
        destruct (Qeq_bool (a j j) 0) eqn:Z; [discriminate|].
        assert (NZ : ~ a j j == 0) by (intro K; apply Qeq_bool_iff in K; congruence).
        set (s := 1 / a j j) in *.
        assert (SJ : a j j * s == 1) by (unfold s; field; exact NZ).
        injection E0 as Ea Eb.
        assert (SA : same a' (reduced a j s a)).
        { intros r c Hr Hc. rewrite <- Ea. rewrite stored_ok by lia. rewrite !stored_ok by lia.
          unfold reduced. rewrite Nat.eqb_refl.
          destruct (Nat.eqb_spec r j) as [->|N].
          - destruct (Nat.ltb_spec c j) as [L|L].
            + rewrite (U j c) by lia. unfold one.
              destruct (Nat.eqb_spec j c); [lia|]. ring.
            + destruct (Nat.eqb_spec c j) as [->|N2]; [rewrite SJ; reflexivity | reflexivity].
          - destruct (Nat.ltb_spec c j) as [L|L].
            + rewrite (U j c) by lia. unfold one.
              destruct (Nat.eqb_spec j c); [lia|]. ring.
            + destruct (Nat.eqb_spec c j) as [->|N2]; [rewrite SJ; ring | reflexivity]. }
        assert (SB : same b' (reduced a j s b)).
        { intros r c Hr Hc. rewrite <- Eb. rewrite stored_ok by lia. rewrite !stored_ok by lia.
          unfold reduced. rewrite Nat.eqb_refl.
          destruct (Nat.eqb_spec r j) as [->|N]; reflexivity. }
        split; [|split].
        - intros r c Hr Hc. rewrite (SA r c) by lia. unfold reduced.
          destruct (Nat.eq_dec c j) as [->|N].
          + unfold one. destruct (r =? j)%nat; rewrite SJ; ring.
          + assert (UJ : a j c == 0)
              by (rewrite (U j c) by lia; unfold one; destruct (Nat.eqb_spec j c); [lia|reflexivity]).
            destruct (Nat.eqb_spec r j) as [->|N2].
            * rewrite UJ. unfold one. destruct (Nat.eqb_spec j c); [lia|]. ring.
            * rewrite UJ, (U r c) by lia. ring.
        - apply same_trans with (1 := SA).
          apply same_trans with (1 := reduced_product a j s b (E m) Hj P).
          apply product_ext; [apply same_sym; exact SB | apply same_refl].
        - rewrite (det_ext _ _ SA), reduced_det, D by lia. ring. }
      destruct (eliminate (E m, E identity) 0) as [[a1 b1]|] eqn:E1; [|discriminate].
      destruct (KZ _ _ 0%nat _ _ (ltac:(lia)) (same_sym _ _ (one_product (E m)))
                  (ltac:(intros; lia)) Z E1) as [U1 [S1 Z1]].
      destruct (eliminate (a1, b1) 1) as [[a2 b2]|] eqn:E2; [|discriminate].
      destruct (KZ _ _ 1%nat _ _ (ltac:(lia)) S1 U1 Z1 E2) as [U2 [S2 Z2]].
      destruct (eliminate (a2, b2) 2) as [[a3 b3]|] eqn:E3; [|discriminate].
      destruct (KZ _ _ 2%nat _ _ (ltac:(lia)) S2 U2 Z2 E3) as [U3 [S3 Z3]].
      destruct (eliminate (a3, b3) 3) as [[a4 b4]|] eqn:E4; [|discriminate].
      destruct (KZ _ _ 3%nat _ _ (ltac:(lia)) S3 U3 Z3 E4) as [U4 [S4 Z4]].
      assert (S : same a4 one) by (intros r c Hr Hc; apply U4; lia).
      rewrite (det_ext _ _ S), det_one in Z4. discriminate Z4.
    + destruct (inverse_left m F NZ) as [B' [E1 L]].
      rewrite E1 in E0. inversion E0; subst B. cbn [E].
      split; [exact NZ|]. split; [intro K; discriminate K|].
      split; [apply left_inverse_right; exact L | exact L].
Qed.

Lemma inverse_none : forall m, honest m -> inverse m = None -> det (E m) == 0.
Proof.
  intros m H E0. destruct (Qeq_dec (det (E m)) 0) as [Z|NZ]; [exact Z|]. exfalso.
  destruct (idf m) eqn:F.
  - unfold inverse in E0. rewrite F in E0. discriminate.
  - destruct (inverse_left m F NZ) as [B [E1 _]]. congruence.
Qed.

(** * The other operations *)

Lemma times_ok : forall A B, honest A -> honest B ->
  same (E (times A B)) (product (E B) (E A)) /\ honest (times A B).
Proof.
  intros A B HA HB. unfold times.
  destruct (idf A) eqn:FA; [|destruct (idf B) eqn:FB].
  - split; [|exact HB]. apply same_sym.
    apply same_trans with (product (E B) one);
      [apply product_ext; [apply same_refl | exact (HA FA)] | apply product_one].
  - split; [|exact HA]. apply same_sym.
    apply same_trans with (product one (E A));
      [apply product_ext; [exact (HB FB) | apply same_refl] | apply one_product].
  - split; [|intro K; discriminate K].
    intros i j Hi Hj. cbn [E]. rewrite stored_ok by lia. reflexivity.
Qed.

Lemma premultiply_ok : forall A B, honest A -> honest B ->
  same (E (premultiply A B)) (product (E A) (E B)) /\ honest (premultiply A B).
Proof.
  intros A B HA HB. unfold premultiply.
  destruct (idf A) eqn:FA; [|destruct (idf B) eqn:FB].
  - split; [|exact HB]. apply same_sym.
    apply same_trans with (product one (E B));
      [apply product_ext; [exact (HA FA) | apply same_refl] | apply one_product].
  - split; [|exact HA]. apply same_sym.
    apply same_trans with (product (E A) one);
      [apply product_ext; [apply same_refl | exact (HB FB)] | apply product_one].
  - split; [|intro K; discriminate K].
    intros i j Hi Hj. cbn [E]. rewrite stored_ok by lia. reflexivity.
Qed.

Lemma identity_honest : honest identity.
Proof. intros _. apply same_refl. Qed.

Lemma qnb : forall x y, negb (Qeq_bool x y) = false -> x == y.
Proof. intros x y H. apply Qeq_bool_iff. destruct (Qeq_bool x y); [reflexivity|discriminate]. Qed.

Lemma scaling_ok : forall x y z,
  same (E (scaling x y z)) (scaling_spec x y z) /\ honest (scaling x y z).
Proof.
  intros x y z. unfold scaling.
  destruct (negb (Qeq_bool x 1) || negb (Qeq_bool y 1) || negb (Qeq_bool z 1)) eqn:C.
  - split; [|intro K; discriminate K].
    intros i j Hi Hj. four i; four j; reflexivity.
  - apply orb_false_iff in C. destruct C as [C C3]. apply orb_false_iff in C.
    destruct C as [C1 C2]. apply qnb in C1, C2, C3.
    split; [|exact identity_honest].
    intros i j Hi Hj. unfold scaling_spec. four i; four j; cbn; try reflexivity; symmetry; assumption.
Qed.

Lemma translation_ok : forall x y z,
  same (E (translation x y z)) (translation_spec x y z) /\ honest (translation x y z).
Proof.
  intros x y z. unfold translation.
  destruct (negb (Qeq_bool x 0) || negb (Qeq_bool y 0) || negb (Qeq_bool z 0)) eqn:C.
  - split; [|intro K; discriminate K].
    intros i j Hi Hj. four i; four j; reflexivity.
  - apply orb_false_iff in C. destruct C as [C C3]. apply orb_false_iff in C.
    destruct C as [C1 C2]. apply qnb in C1, C2, C3.
    split; [|exact identity_honest].
    intros i j Hi Hj. unfold translation_spec. four i; four j; cbn; try reflexivity; symmetry; assumption.
Qed.

Lemma uniform_ok : forall f,
  same (E (uniform f)) (fun i j => f * one i j) /\ honest (uniform f).
Proof.
  intros f. unfold uniform. destruct (negb (Qeq_bool f 1)) eqn:C.
  - split; [|intro K; discriminate K].
    intros i j Hi Hj. unfold one. cbn [E]. destruct (i =? j)%nat; ring.
  - apply qnb in C. split; [|exact identity_honest].
    intros i j Hi Hj. unfold one. cbn [E identity]. rewrite C. destruct (i =? j)%nat; ring.
Qed.

Lemma transpose_ok : forall A, honest A ->
  same (E (transpose A)) (fun i j => E A j i) /\ honest (transpose A).
Proof.
  intros A H. unfold transpose. destruct (idf A) eqn:F.
  - split; [|exact H]. intros i j Hi Hj. rewrite (H F i j), (H F j i) by lia.
    unfold one. rewrite Nat.eqb_sym. reflexivity.
  - split; [intros i j _ _; reflexivity | intro K; discriminate K].
Qed.

Lemma translate_by_ok : forall A x y z, honest A ->
  same (E (translate_by A x y z)) (product (E A) (translation_spec x y z)) /\
  honest (translate_by A x y z).
Proof.
  intros A x y z H. destruct (translation_ok x y z) as [S HT].
  assert (EQ : translate_by A x y z = if idf (translation x y z) then A else
                premultiply A (translation x y z)).
  { unfold translate_by, translation.
    destruct (negb (Qeq_bool x 0) || negb (Qeq_bool y 0) || negb (Qeq_bool z 0)); reflexivity. }
  rewrite EQ. destruct (idf (translation x y z)) eqn:F.
  - split; [|exact H]. apply same_sym.
    apply same_trans with (product (E A) one); [|apply product_one].
    apply product_ext; [apply same_refl|].
    apply same_trans with (E (translation x y z)); [apply same_sym; exact S | exact (HT F)].
  - destruct (premultiply_ok A _ H HT) as [P Q]. split; [|exact Q].
    apply same_trans with (1 := P). apply product_ext; [apply same_refl | exact S].
Qed.

Lemma means_ok : forall e M, number_on_left e = false -> eval e = Some M ->
  means e (E M) /\ honest M.
Proof.
  induction e as [| | | | | a IHa b IHb | a IHa b IHb | a IHa s | s a IHa | a IHa b IHb
                  | a IHa b IHb | a IHa | a IHa | a IHa x y z | a IHa x y z ];
    intros M L EV; cbn [eval number_on_left] in *.
  - inversion EV; subst. split; [apply same_refl | exact identity_honest].
  - inversion EV; subst. apply scaling_ok.
  - inversion EV; subst. apply translation_ok.
  - inversion EV; subst. split; [apply same_refl | intro K; discriminate K].
  - inversion EV; subst. apply uniform_ok.
  - apply orb_false_iff in L. destruct L as [La Lb].
    destruct (eval a) as [A|]; [|discriminate]. destruct (eval b) as [B|]; [|discriminate].
    inversion EV; subst. destruct (IHa A La eq_refl) as [MA HA].
    destruct (IHb B Lb eq_refl) as [MB HB].
    destruct (times_ok A B HA HB) as [P Q]. split; [|exact Q].
    exists (E A), (E B). auto.
  - apply orb_false_iff in L. destruct L as [La Lb].
    destruct (eval a) as [A|]; [|discriminate]. destruct (eval b) as [B|]; [|discriminate].
    inversion EV; subst. destruct (IHa A La eq_refl) as [MA HA].
    destruct (IHb B Lb eq_refl) as [MB HB].
    destruct (premultiply_ok A B HA HB) as [P Q]. split; [|exact Q].
    exists (E A), (E B). auto.
  - destruct (eval a) as [A|]; [|discriminate]. inversion EV; subst.
    destruct (IHa A L eq_refl) as [MA HA]. destruct (scaling_ok s s s) as [S HS].
    destruct (premultiply_ok A _ HA HS) as [P Q]. split; [|exact Q].
    exists (E A). split; [exact MA|].
    apply same_trans with (1 := P). apply product_ext; [apply same_refl | exact S].
  - discriminate.
  - apply orb_false_iff in L. destruct L as [La Lb].
    destruct (eval a) as [A|]; [|discriminate]. destruct (eval b) as [B|]; [|discriminate].
    inversion EV; subst. destruct (IHa A La eq_refl) as [MA HA].
    destruct (IHb B Lb eq_refl) as [MB HB]. split; [|intro K; discriminate K].
    exists (E A), (E B). split; [exact MA|]. split; [exact MB|]. apply same_refl.
  - apply orb_false_iff in L. destruct L as [La Lb].
    destruct (eval a) as [A|]; [|discriminate]. destruct (eval b) as [B|]; [|discriminate].
    inversion EV; subst. destruct (IHa A La eq_refl) as [MA HA].
    destruct (IHb B Lb eq_refl) as [MB HB]. split; [|intro K; discriminate K].
    exists (E A), (E B). split; [exact MA|]. split; [exact MB|]. apply same_refl.
  - destruct (eval a) as [A|]; [|discriminate]. inversion EV; subst.
    destruct (IHa A L eq_refl) as [MA HA]. destruct (transpose_ok A HA) as [P Q].
    split; [|exact Q]. exists (E A). auto.
  - destruct (eval a) as [A|]; [|discriminate].
    destruct (IHa A L eq_refl) as [MA HA].
    destruct (inverse_some A M HA EV) as [_ [HB [K1 K2]]].
    split; [|exact HB]. exists (E A). auto.
  - destruct (eval a) as [A|]; [|discriminate]. inversion EV; subst.
    destruct (IHa A L eq_refl) as [MA HA]. destruct (scaling_ok x y z) as [S HS].
    destruct (premultiply_ok A _ HA HS) as [P Q]. split; [|exact Q].
    exists (E A). split; [exact MA|].
    apply same_trans with (1 := P). apply product_ext; [apply same_refl | exact S].
  - destruct (eval a) as [A|]; [|discriminate]. inversion EV; subst.
    destruct (IHa A L eq_refl) as [MA HA].
    destruct (translate_by_ok A x y z HA) as [P Q]. split; [|exact Q].
    exists (E A). split; [exact MA | exact P].
Qed.

Lemma defined_ok : forall e, number_on_left e = false ->
  (eval e = None <-> inverts_singular e).
Proof.
  induction e as [| | | | | a IHa b IHb | a IHa b IHb | a IHa s | s a IHa | a IHa b IHb
                  | a IHa b IHb | a IHa | a IHa | a IHa x y z | a IHa x y z ];
    intros L; cbn [eval number_on_left inverts_singular] in *;
    try (split; [discriminate | intros []]);
    try discriminate;
    try (apply orb_false_iff in L; destruct L as [La Lb];
         rewrite <- (IHa La), <- (IHb Lb);
         destruct (eval a); destruct (eval b); split; intros; try discriminate; auto;
         destruct H; discriminate);
    try (rewrite <- (IHa L); destruct (eval a); cbn [option_map]; split; intros;
         try discriminate; auto; fail).
  rewrite <- (IHa L). destruct (eval a) as [A|] eqn:EA.
  - destruct (means_ok a A L EA) as [_ HA]. split.
    + intros K. right. exists A. split; [reflexivity|]. exact (inverse_none A HA K).
    + intros [K|[A' [K1 K2]]]; [discriminate|]. inversion K1; subst A'.
      destruct (inverse A) as [B|] eqn:EB; [|reflexivity].
      exfalso. destruct (inverse_some A B HA EB) as [N _]. exact (N K2).
  - split; auto.
Qed.

(** * Points *)

Lemma image4_ok : forall M v j, honest M -> (j < 4)%nat ->
  image4 M v j == moved (E M) v j.
Proof.
  intros M v j H Hj. unfold image4, moved, sum4. destruct (idf M) eqn:F.
  - rewrite !(same_at _ _ (H F)) by lia. unfold one. four j; cbn [Nat.eqb]; ring.
  - ring.
Qed.

Lemma premultiply4_ok : forall M v i, honest M -> (i < 4)%nat ->
  premultiply4 M v i == sum4 (fun j => E M i j * v j).
Proof.
  intros M v i H Hi. unfold premultiply4, sum4. destruct (idf M) eqn:F.
  - rewrite !(same_at _ _ (H F)) by lia. unfold one. four i; cbn [Nat.eqb]; ring.
  - ring.
Qed.

Lemma moved_product : forall A B v j, (j < 4)%nat ->
  moved (product B A) v j == moved A (moved B v) j.
Proof. intros A B v j Hj. unfold moved, product, sum4. ring. Qed.

Lemma moved_ext : forall A B v w j, (j < 4)%nat -> same A B ->
  (forall i, (i < 4)%nat -> v i == w i) -> moved A v j == moved B w j.
Proof.
  intros A B v w j Hj S V. unfold moved, sum4.
  rewrite !(same_at _ _ S), !V by lia. reflexivity.
Qed.

Lemma image4_times : forall A B v j, honest A -> honest B -> (j < 4)%nat ->
  image4 (times A B) v j == image4 A (image4 B v) j.
Proof.
  intros A B v j HA HB Hj. destruct (times_ok A B HA HB) as [P Q].
  rewrite !image4_ok by assumption.
  rewrite (moved_ext (E (times A B)) (product (E B) (E A)) v v j Hj P) by reflexivity.
  rewrite moved_product by exact Hj.
  apply moved_ext; [exact Hj | apply same_refl |].
  intros i Hi. symmetry. apply image4_ok; assumption.
Qed.

Lemma image3_ok : forall M v, honest M ->
  match image3 M v with
  | Some r => ~ moved (E M) (point v) 3%nat == 0 /\
      forall j, (j < 3)%nat -> r j * moved (E M) (point v) 3%nat == moved (E M) (point v) j
  | None => moved (E M) (point v) 3%nat == 0
  end.
Proof.
  intros M v H. unfold image3. destruct (idf M) eqn:F.
  - assert (W : moved (E M) (point v) 3%nat == 1).
    { rewrite (moved_ext (E M) one (point v) (point v) 3%nat) by (try lia; try exact (H F); reflexivity).
      unfold moved, sum4, one, point. cbn [Nat.eqb Nat.ltb Nat.leb]. ring. }
    split; [rewrite W; discriminate|].
    intros j Hj. rewrite W.
    rewrite (moved_ext (E M) one (point v) (point v) j) by (try lia; try exact (H F); reflexivity).
    unfold moved, sum4, one, point. four j; cbn [Nat.eqb Nat.ltb Nat.leb]; ring.
  - assert (W : E M 0%nat 3%nat * v 0%nat + E M 1%nat 3%nat * v 1%nat + E M 2%nat 3%nat * v 2%nat
                + E M 3%nat 3%nat == moved (E M) (point v) 3%nat).
    { unfold moved, sum4, point. cbn [Nat.ltb Nat.leb]. ring. }
    destruct (Qeq_bool _ 1) eqn:B1.
    + apply Qeq_bool_iff in B1. rewrite W in B1.
      split; [rewrite B1; discriminate|]. intros j Hj. rewrite B1.
      unfold moved, sum4, point. cbn [Nat.ltb Nat.leb]. ring.
    + destruct (Qeq_bool _ 0) eqn:B0.
      * apply Qeq_bool_iff in B0. rewrite <- W. exact B0.
      * assert (NZ : ~ moved (E M) (point v) 3%nat == 0).
        { intro K. rewrite <- W in K. apply Qeq_bool_iff in K. congruence. }
        split; [exact NZ|]. intros j Hj. rewrite W.
        transitivity (moved (E M) (point v) j * (1 / moved (E M) (point v) 3%nat)
                      * moved (E M) (point v) 3%nat); [|field; exact NZ].
        apply Qmult_comp; [|reflexivity]. apply Qmult_comp; [|reflexivity].
        unfold moved, sum4, point. cbn [Nat.ltb Nat.leb]. ring.
Qed.

Lemma image3_times : forall A B v p q, honest A -> honest B ->
  image3 B v = Some p -> image3 A p = Some q ->
  exists r, image3 (times A B) v = Some r /\ forall j, (j < 3)%nat -> r j == q j.
Proof.
  intros A B v p q HA HB EB EA.
  destruct (times_ok A B HA HB) as [S HT].
  assert (KB := image3_ok B v HB). rewrite EB in KB. destruct KB as [NB PB].
  assert (KA := image3_ok A p HA). rewrite EA in KA. destruct KA as [NA PA].
  assert (KT := image3_ok (times A B) v HT).
  set (wb := moved (E B) (point v) 3%nat) in *.
  set (wa := moved (E A) (point p) 3%nat) in *.
  assert (MT : forall j, (j < 4)%nat ->
            moved (E (times A B)) (point v) j == moved (E A) (point p) j * wb).
  { intros j Hj.
    rewrite (moved_ext _ (product (E B) (E A)) (point v) (point v) j Hj S) by reflexivity.
    rewrite moved_product by exact Hj.
    transitivity (moved (E A) (fun i => point p i * wb) j).
    - apply moved_ext; [exact Hj | apply same_refl |].
      intros i Hi. unfold point at 2. destruct (Nat.ltb_spec i 3) as [L|L].
      + symmetry. apply PB. exact L.
      + assert (i = 3%nat) by lia. subst i. fold wb. ring.
    - unfold moved, sum4. ring. }
  destruct (image3 (times A B) v) as [r|] eqn:ET.
  - destruct KT as [NT PT]. exists r. split; [reflexivity|]. intros j Hj.
    assert (J := PT j Hj). rewrite (MT j), (MT 3%nat) in J by lia.
    rewrite <- (PA j Hj) in J. fold wa in J.
    assert (Z : (r j - q j) * (wa * wb) == 0) by (ring_simplify; ring_simplify in J; lra).
    apply Qmult_integral in Z. destruct Z as [Z|Z]; [lra|].
    apply Qmult_integral in Z. destruct Z; contradiction.
  - exfalso. rewrite MT in KT by lia. fold wa in KT.
    apply Qmult_integral in KT. destruct KT; contradiction.
Qed.

(** * Rotations, skews, normals *)

Lemma rotation_moves : forall s c x y z v j, (j < 3)%nat ->
  let a := fun i => match i with 0%nat => x | 1%nat => y | _ => z end in
  moved (E (rotation s c x y z)) v j ==
  c * v j + s * cross a v j + (1 - c) * dot a v * a j.
Proof.
  intros s c x y z v j Hj a.
  unfold moved, sum4, rotation, dot, sum3, a.
  four j; cbn [E cross Nat.eqb]; ring.
Qed.

Lemma rotation_orthogonal : forall s c x y z,
  s * s + c * c == 1 -> x * x + y * y + z * z == 1 ->
  det (E (rotation s c x y z)) == 1 /\
  same (product (E (rotation s c x y z)) (fun i j => E (rotation s c x y z) j i)) one.
Proof.
  intros s c x y z H1 H2.
  assert (H1' : s * s == 1 - c * c) by lra.
  assert (H2' : z * z == 1 - x * x - y * y) by lra.
  split.
  - open_det. unfold rotation. cbn [E Nat.eqb].
    set (n := x * x + y * y + z * z) in *.
    set (t := 1 - c).
    (* det = c^3 + c t (c) n + s^2 (c n + t n^2) ... *)
    transitivity (c * c * c + c * c * t * n + c * (s * s) * n + t * (s * s) * n * n);
      [unfold t, n; ring|].
    rewrite H2, H1'. unfold t. ring.
  - intros i j Hi Hj. unfold product, sum4, rotation, one.
    four i; four j; cbn [E Nat.eqb]; ring [H1' H2'].
Qed.

Lemma skewing_moves : forall r o d s v,
  dot r r == 1 -> dot o o == 1 -> dot d d == 1 ->
  dot r o == 0 -> dot r d == 0 -> dot o d == 0 ->
  (forall i k, (i < 3)%nat -> (k < 3)%nat ->
     r i * r k + o i * o k + d i * d k == if (i =? k)%nat then 1 else 0) ->
  (forall j, (j < 3)%nat ->
     moved (E (skewing r o d s)) v j == v j + s * dot v o * d j) /\
  moved (E (skewing r o d s)) v 3%nat == v 3%nat.
Proof.
  intros r o d s v RR OO DD RO RD OD K.
  assert (HS : honest (skewing r o d s)).
  { unfold skewing.
    match goal with |- honest (times (times (transpose ?R) ?S) ?R) =>
      destruct (transpose_ok R (ltac:(intro X; discriminate X))) as [_ HT];
      destruct (times_ok (transpose R) S HT (ltac:(intro X; discriminate X))) as [_ HTS];
      destruct (times_ok (times (transpose R) S) R HTS (ltac:(intro X; discriminate X))) as [_ HH];
      exact HH
    end. }
  assert (G : forall j, (j < 4)%nat -> moved (E (skewing r o d s)) v j ==
     match j with
     | 3%nat => v 3%nat
     | _ => dot v r * r j + dot v o * o j + (dot v d + s * dot v o) * d j
     end).
  { intros j Hj. rewrite <- image4_ok by assumption.
    unfold skewing, times, transpose, full, image4. cbn [E idf].
    rewrite !stored_ok by lia. unfold dot, sum3.
    four j; cbn [Nat.eqb]; rewrite ?stored_ok by lia; cbn [Nat.eqb]; ring. }
  split.
  - intros j Hj. rewrite G by lia.
    assert (C : dot v r * r j + dot v o * o j + dot v d * d j == v j).
    { unfold dot, sum3.
      transitivity (v 0%nat * (r 0%nat * r j + o 0%nat * o j + d 0%nat * d j)
                    + v 1%nat * (r 1%nat * r j + o 1%nat * o j + d 1%nat * d j)
                    + v 2%nat * (r 2%nat * r j + o 2%nat * o j + d 2%nat * d j)); [ring|].
      rewrite !K by lia. four j; cbn [Nat.eqb]; ring. }
    four j; rewrite <- C at 1; ring.
  - rewrite G by lia. reflexivity.
Qed.

Lemma vector_transform_honest : forall M, honest M -> honest (vector_transform M).
Proof.
  intros M H F. cbn [vector_transform idf] in F. intros i j Hi Hj.
  assert (K := H F i j Hi Hj). unfold vector_transform, one in *. cbn [E].
  four i; four j; cbn [Nat.eqb] in *; try reflexivity; exact K.
Qed.

Lemma normals_kept : forall M N v n v' n', honest M ->
  normal_transform M = Some N ->
  image3 (vector_transform M) v = Some v' -> image3 N n = Some n' ->
  dot n' v' == dot n v.
Proof.
  intros M N v n v' n' H EN EV EI. unfold normal_transform in EN.
  destruct (inverse (vector_transform M)) as [B|] eqn:EB; [|discriminate].
  cbn [option_map] in EN. inversion EN; subst N.
  assert (HV := vector_transform_honest M H).
  destruct (inverse_some _ B HV EB) as [_ [HB [K1 K2]]].
  destruct (transpose_ok B HB) as [ST HT].
  assert (P1 := image3_ok _ v HV). rewrite EV in P1. destruct P1 as [_ P1].
  assert (P2 := image3_ok _ n HT). rewrite EI in P2. destruct P2 as [_ P2].
  set (V := E (vector_transform M)) in *. set (B' := E B) in *.
  (* the last row and column *)
  assert (V3 : forall i, (i < 4)%nat -> V i 3%nat == one i 3%nat /\ V 3%nat i == one 3%nat i).
  { intros i Hi. unfold V, vector_transform. cbn [E]. four i; split; reflexivity. }
  assert (VC : forall i, (i < 4)%nat -> V i 3%nat == one i 3%nat) by (intros; apply V3; assumption).
  assert (VR : forall i, (i < 4)%nat -> V 3%nat i == one 3%nat i) by (intros; apply V3; assumption).
  assert (B3 : forall i, (i < 4)%nat -> B' 3%nat i == one 3%nat i /\ B' i 3%nat == one i 3%nat).
  { intros i Hi. split.
    - assert (Q := K1 3%nat i (ltac:(lia)) Hi). unfold product, sum4 in Q.
      rewrite !VR in Q by lia.
      unfold one at 1 2 3 4 in Q. cbn [Nat.eqb] in Q. rewrite <- Q. ring.
    - assert (Q := K2 i 3%nat Hi (ltac:(lia))). unfold product, sum4 in Q.
      rewrite !VC in Q by lia.
      unfold one at 1 2 3 4 in Q. cbn [Nat.eqb] in Q. rewrite <- Q. ring. }
  assert (BR : forall i, (i < 4)%nat -> B' 3%nat i == one 3%nat i) by (intros; apply B3; assumption).
  assert (BC : forall i, (i < 4)%nat -> B' i 3%nat == one i 3%nat) by (intros; apply B3; assumption).
  assert (W1 : moved V (point v) 3%nat == 1).
  { unfold moved, sum4, point. rewrite !VC by lia. unfold one.
    cbn [Nat.eqb Nat.ltb Nat.leb]. ring. }
  assert (W2 : moved (E (transpose B)) (point n) 3%nat == 1).
  { unfold moved, sum4, point. rewrite !(same_at _ _ ST _ 3%nat) by lia. fold B'.
    rewrite !BR by lia. unfold one.
    cbn [Nat.eqb Nat.ltb Nat.leb]. ring. }
  assert (I1 : forall j, (j < 3)%nat -> v' j == sum3 (fun i => v i * V i j)).
  { intros j Hj. assert (Q := P1 j Hj). rewrite W1, Qmult_1_r in Q. rewrite Q.
    unfold moved, sum4, sum3, point. cbn [Nat.ltb Nat.leb].
    rewrite (VR j) by lia. unfold one. four j; cbn [Nat.eqb]; ring. }
  assert (I2 : forall j, (j < 3)%nat -> n' j == sum3 (fun i => n i * B' j i)).
  { intros j Hj. assert (Q := P2 j Hj). rewrite W2, Qmult_1_r in Q. rewrite Q.
    unfold moved, sum4, sum3, point. cbn [Nat.ltb Nat.leb].
    rewrite !(same_at _ _ ST _ j) by lia. fold B'.
    rewrite (BC j) by lia. unfold one. four j; cbn [Nat.eqb]; ring. }
  assert (KK : forall i k, (i < 3)%nat -> (k < 3)%nat ->
             V i 0%nat * B' 0%nat k + V i 1%nat * B' 1%nat k + V i 2%nat * B' 2%nat k == one i k).
  { intros i k Hi Hk. rewrite <- (K1 i k) by lia. unfold product, sum4.
    rewrite (VC i) by lia. unfold one. four i; cbn [Nat.eqb]; ring. }
  unfold dot at 1. unfold sum3 at 1. rewrite !I1, !I2 by lia. unfold sum3.
  transitivity (sum3 (fun i => sum3 (fun k => v i * n k *
     (V i 0%nat * B' 0%nat k + V i 1%nat * B' 1%nat k + V i 2%nat * B' 2%nat k)))).
  { unfold sum3. ring. }
  unfold sum3, dot, sum3. rewrite !KK by lia. unfold one. cbn [Nat.eqb]. ring.
Qed.

Lemma norms_ok : forall a b,
  let '(n1, n2, d) := norms a b in
  n1 == squares a /\ n2 == squares b /\ d == squares (fun i j => a i j - b i j).
Proof.
  intros a b. unfold norms, squares, sum4.
  cbn [list_prod map app fold_left fst snd]. split; [|split]; ring.
Qed.

Lemma close_ok : forall a b tol, close_elements a b tol = true <-> agree a b tol.
Proof.
  intros a b tol. unfold close_elements, agree.
  assert (K := norms_ok a b). destruct (norms a b) as [[n1 n2] d].
  destruct K as [K1 [K2 K3]].
  rewrite orb_true_iff, !Qle_bool_iff, K1, K2, K3. reflexivity.
Qed.

Lemma determinant_times : forall A B, honest A -> honest B ->
  determinant (times A B) == determinant A * determinant B.
Proof.
  intros A B HA HB. destruct (times_ok A B HA HB) as [P _].
  rewrite !determinant_is, (det_ext _ _ P), det_product. ring.
Qed.

Lemma determinant_inverse : forall A B, honest A -> inverse A = Some B ->
  determinant A * determinant B == 1.
Proof.
  intros A B H K. destruct (inverse_some A B H K) as [_ [_ [P _]]].
  rewrite !determinant_is, <- det_product, (det_ext _ _ P). apply det_one.
Qed.

Lemma shear_ok : forall A axis p q, honest A -> (axis < 3)%nat ->
  same (E (shear_by A axis p q)) (product (E A) (shear_spec axis p q)).
Proof.
  intros A axis p q H Hx. unfold shear_by.
  match goal with |- same (E (premultiply A ?S)) _ =>
    destruct (premultiply_ok A S H (ltac:(intro K; discriminate K))) as [P _] end.
  apply same_trans with (1 := P). apply product_ext; [apply same_refl|].
  intros i j Hi Hj. cbn [E]. unfold shear_spec, one.
  destruct axis as [|[|[|axis]]]; try (exfalso; lia); four i; four j; cbn [Nat.eqb nth]; ring.
Qed.

Lemma rotate_by_ok : forall A s c x y z, honest A ->
  same (E (rotate_by A s c x y z)) (product (E A) (E (rotation s c x y z))).
Proof.
  intros A s c x y z H. unfold rotate_by.
  apply premultiply_ok; [exact H | intro K; discriminate K].
Qed.

Lemma normalise_ok : forall M, honest M ->
  match normalise M with
  | Some N => ~ E M 3%nat 3%nat == 0 /\ honest N /\
      same (fun i j => E N i j * E M 3%nat 3%nat) (E M)
  | None => E M 3%nat 3%nat == 0
  end.
Proof.
  intros M H. unfold normalise. destruct (Qeq_bool (E M 3 3) 0) eqn:Z.
  - apply Qeq_bool_iff. exact Z.
  - assert (NZ : ~ E M 3%nat 3%nat == 0) by (intro K; apply Qeq_bool_iff in K; congruence).
    split; [exact NZ|]. split.
    + intros F i j Hi Hj. cbn [idf] in F. cbn [E].
      rewrite (H F 3%nat 3%nat), (H F i j) by lia. unfold one at 2. cbn [Nat.eqb]. field.
    + intros i j Hi Hj. cbn [E]. field. exact NZ.
Qed.

Lemma same_elements_ok : forall a b, same_elements a b = true <-> same (E a) (E b).
Proof.
  intros a b. unfold same_elements. rewrite forallb_forall. split.
  - intros H i j Hi Hj.
    assert (K := H i (ltac:(destruct i as [|[|[|[|i]]]]; cbn; auto; lia))).
    rewrite forallb_forall in K.
    apply Qeq_bool_iff. apply K. destruct j as [|[|[|[|j]]]]; cbn; auto; lia.
  - intros S i Hi. rewrite forallb_forall. intros j Hj. apply Qeq_bool_iff.
    apply S; [cbn in Hi | cbn in Hj]; lia.
Qed.

Lemma normalise_points : forall M N v, honest M -> normalise M = Some N ->
  match image3 M v, image3 N v with
  | Some p, Some q => forall j, (j < 3)%nat -> p j == q j
  | None, None => True
  | _, _ => False
  end.
Proof.
  intros M N v H EN. assert (K := normalise_ok M H). rewrite EN in K.
  destruct K as [NZ [HN S]].
  assert (PM := image3_ok M v H). assert (PN := image3_ok N v HN).
  assert (G : forall j, (j < 4)%nat ->
            moved (E N) (point v) j * E M 3%nat 3%nat == moved (E M) (point v) j).
  { intros j Hj.
    rewrite <- (moved_ext _ _ (point v) (point v) j Hj S) by reflexivity.
    unfold moved, sum4. ring. }
  destruct (image3 M v) as [p|], (image3 N v) as [q|].
  - destruct PM as [N1 P1], PN as [N2 P2]. intros j Hj.
    assert (J := P1 j Hj). rewrite <- (G j), <- (G 3%nat), <- (P2 j Hj) in J by lia.
    set (w := moved (E N) (point v) 3%nat) in *.
    assert (Z : (p j - q j) * (w * E M 3%nat 3%nat) == 0) by lra.
    apply Qmult_integral in Z. destruct Z as [Z|Z]; [lra|].
    apply Qmult_integral in Z. destruct Z; contradiction.
  - destruct PM as [N1 _]. apply N1. rewrite <- G, PN by lia. ring.
  - destruct PN as [N2 _]. apply N2. rewrite <- G in PM by lia.
    apply Qmult_integral in PM. destruct PM; [assumption | contradiction].
  - exact I.
Qed.

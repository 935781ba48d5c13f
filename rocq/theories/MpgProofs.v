(** Proofs about the sampling of micropolygons. *)
From Verif Require Import MpgModel MpgSpec.
From Coq Require Import Lqa Setoid Morphisms FinFun.
Open Scope Q_scope.

Lemma Qltb_iff a b : Qltb a b = true <-> a < b.
Proof.
  unfold Qltb. rewrite negb_true_iff. split; intro H.
  - apply Qnot_le_lt. intro L. apply Qle_bool_iff in L. congruence.
  - destruct (Qle_bool b a) eqn:E; [|reflexivity]. apply Qle_bool_iff in E. lra.
Qed.

Lemma Qltb_false a b : Qltb a b = false <-> b <= a.
Proof.
  split; intro H.
  - destruct (Qlt_le_dec a b) as [L|L]; [|exact L]. apply Qltb_iff in L. congruence.
  - destruct (Qltb a b) eqn:E; [|reflexivity]. apply Qltb_iff in E. lra.
Qed.

Lemma Qleb_false a b : Qle_bool a b = false <-> b < a.
Proof.
  split; intro H.
  - apply Qnot_le_lt. intro L. apply Qle_bool_iff in L. congruence.
  - destruct (Qle_bool a b) eqn:E; [|reflexivity]. apply Qle_bool_iff in E. lra.
Qed.

(** Side of the line from [a] to [b] on which [s] lies *)
Definition side (a b s : Q * Q) : Q := (fst b - fst a) * (snd s - snd a) - (snd b - snd a) * (fst s - fst a).

Definition gxy (g : grid) (k : nat * nat) : Q * Q := (gx g k, gy g k).

Lemma side_comp a b s s' : fst s == fst s' -> snd s == snd s' -> side a b s == side a b s'.
Proof. intros H1 H2. unfold side. rewrite H1, H2. reflexivity. Qed.

Lemma side_sum g a b c :
  qsum (map (fun wk => fst wk * side a b (gxy g (snd wk))) c) ==
  (fst b - fst a) * (qsum (map (fun wk => fst wk * gy g (snd wk)) c) - snd a * qsum (map fst c)) -
  (snd b - snd a) * (qsum (map (fun wk => fst wk * gx g (snd wk)) c) - fst a * qsum (map fst c)).
Proof.
  induction c as [|wk c IH]; cbn [map qsum fold_right].
  - ring.
  - fold (qsum (map (fun wk => fst wk * side a b (gxy g (snd wk))) c)).
    fold (qsum (map (fun wk => fst wk * gy g (snd wk)) c)).
    fold (qsum (map (fun wk => fst wk * gx g (snd wk)) c)).
    fold (qsum (map fst c)).
    rewrite IH. unfold side, gxy. cbn [fst snd]. ring.
Qed.

Lemma spanned_side g W s a b : spanned g W s ->
  exists c, Forall (fun wk => 0 <= fst wk /\ W (snd wk)) c /\ qsum (map fst c) == 1 /\
            side a b s == qsum (map (fun wk => fst wk * side a b (gxy g (snd wk))) c).
Proof.
  intros (c & HF & H1 & Hx & Hy). exists c. split; [exact HF|]. split; [exact H1|].
  rewrite side_sum, H1. unfold side. rewrite Hx, Hy. ring.
Qed.

Lemma spanned_nonneg g (W : nat * nat -> Prop) s a b : spanned g W s ->
  (forall k, W k -> 0 <= side a b (gxy g k)) -> 0 <= side a b s.
Proof.
  intros H HW. destruct (spanned_side g W s a b H) as (c & HF & _ & E). rewrite E. clear E H.
  induction HF as [|wk c [Hw Hk] HF IH]; cbn [map qsum fold_right]; [lra|].
  fold (qsum (map (fun wk => fst wk * side a b (gxy g (snd wk))) c)).
  pose proof (Qmult_le_0_compat _ _ Hw (HW _ Hk)). lra.
Qed.

Lemma spanned_zero g (W : nat * nat -> Prop) s a b : spanned g W s ->
  (forall k, W k -> side a b (gxy g k) == 0) -> side a b s == 0.
Proof.
  intros H HW. destruct (spanned_side g W s a b H) as (c & HF & _ & E). rewrite E. clear E H.
  induction HF as [|wk c [Hw Hk] HF IH]; cbn [map qsum fold_right]; [lra|].
  fold (qsum (map (fun wk => fst wk * side a b (gxy g (snd wk))) c)).
  rewrite (HW _ Hk), IH. ring.
Qed.

Lemma spanned_pos g (W : nat * nat -> Prop) s a b : spanned g W s ->
  (forall k, W k -> 0 < side a b (gxy g k)) -> 0 < side a b s.
Proof.
  intros H HW. destruct (spanned_side g W s a b H) as (c & HF & H1 & E). rewrite E. clear E H.
  assert (G : 0 <= qsum (map (fun wk => fst wk * side a b (gxy g (snd wk))) c) /\
              (0 < qsum (map fst c) -> 0 < qsum (map (fun wk => fst wk * side a b (gxy g (snd wk))) c))).
  { clear H1. induction HF as [|wk c [Hw Hk] HF IH]; cbn [map qsum fold_right]; [lra|].
    fold (qsum (map (fun wk => fst wk * side a b (gxy g (snd wk))) c)).
    fold (qsum (map fst c)). destruct IH as [I1 I2].
    pose proof (HW _ Hk) as P. split.
    - pose proof (Qmult_le_0_compat _ _ Hw (Qlt_le_weak _ _ P)). lra.
    - intro S. destruct (Qlt_le_dec 0 (fst wk)) as [L|L].
      + pose proof (Qmult_lt_0_compat _ _ L P). lra.
      + assert (0 < qsum (map fst c)) by lra. specialize (I2 H).
        pose proof (Qmult_le_0_compat _ _ Hw (Qlt_le_weak _ _ P)). lra. }
  apply G. lra.
Qed.

Lemma spanned_weaken g (W W' : nat * nat -> Prop) s : (forall k, W k -> W' k) -> spanned g W s -> spanned g W' s.
Proof.
  intros I (c & HF & R). exists c. split; [|exact R]. eapply Forall_impl; [|exact HF]. cbv beta. intros wk [? ?]. auto.
Qed.

(** A point of the line through two grid points, between them, is spanned by them. *)
Lemma on_side g (x y z w : nat * nat) s :
  0 < side (gxy g x) (gxy g y) (gxy g z) -> 0 < side (gxy g y) (gxy g w) (gxy g x) ->
  side (gxy g x) (gxy g y) s == 0 -> 0 <= side (gxy g z) (gxy g x) s -> 0 <= side (gxy g y) (gxy g w) s ->
  spanned g (fun k => k = x \/ k = y) s.
Proof.
  intros Hz Hw H0 Hzx Hyw.
  set (D := side (gxy g x) (gxy g y) (gxy g z)) in *.
  set (wy := side (gxy g z) (gxy g x) s / D). set (wx := 1 - wy).
  assert (Dn : ~ D == 0) by lra.
  assert (By : 0 <= wy) by (unfold wy, Qdiv; apply Qmult_le_0_compat; [exact Hzx|]; apply Qlt_le_weak, Qinv_lt_0_compat; exact Hz).
  assert (Ex : fst s == wx * gx g x + wy * gx g y).
  { assert (E : D * fst s == (D - side (gxy g z) (gxy g x) s) * gx g x + side (gxy g z) (gxy g x) s * gx g y +
                            side (gxy g x) (gxy g y) s * (gx g z - gx g x)).
    { unfold D, side, gxy. cbn [fst snd]. ring. }
    rewrite H0 in E. unfold wx, wy. setoid_replace (fst s) with ((D * fst s) / D) by (field; exact Dn).
    rewrite E. field. exact Dn. }
  assert (Ey : snd s == wx * gy g x + wy * gy g y).
  { assert (E : D * snd s == (D - side (gxy g z) (gxy g x) s) * gy g x + side (gxy g z) (gxy g x) s * gy g y +
                            side (gxy g x) (gxy g y) s * (gy g z - gy g x)).
    { unfold D, side, gxy. cbn [fst snd]. ring. }
    rewrite H0 in E. unfold wx, wy. setoid_replace (snd s) with ((D * snd s) / D) by (field; exact Dn).
    rewrite E. field. exact Dn. }
  assert (Bx : 0 <= wx).
  { assert (E : side (gxy g y) (gxy g w) s == wx * side (gxy g y) (gxy g w) (gxy g x)).
    { unfold side, gxy. cbn [fst snd]. rewrite Ex, Ey. unfold wx. ring. }
    rewrite E in Hyw. destruct (Qlt_le_dec wx 0) as [L|L]; [|exact L]. exfalso.
    assert (0 < (- wx) * side (gxy g y) (gxy g w) (gxy g x)) by (apply Qmult_lt_0_compat; lra). lra. }
  exists [(wx, x); (wy, y)]. split; [|split; [|split]]; cbn [map qsum fold_right fst snd].
  - apply Forall_cons; [cbn [fst snd]; auto|]. apply Forall_cons; [cbn [fst snd]; auto|]. apply Forall_nil.
  - unfold wx. ring.
  - rewrite Ex. ring.
  - rewrite Ey. ring.
Qed.

(** The corners, turning to the positive side *)
Section Positive.
  Variable g : grid.
  Hypothesis pos_turns : forall m, is_mpg g m -> turns g 1 m.

  Local Notation A m := (gxy g m).
  Local Notation B m := (gxy g (Datatypes.S (fst m), snd m)).
  Local Notation C m := (gxy g (Datatypes.S (fst m), Datatypes.S (snd m))).
  Local Notation D m := (gxy g (fst m, Datatypes.S (snd m))).

  Lemma corners_in m : is_mpg g m ->
    0 < side (A m) (B m) (C m) /\ 0 < side (A m) (B m) (D m) /\
    0 < side (B m) (C m) (D m) /\ 0 < side (B m) (C m) (A m) /\
    0 < side (C m) (D m) (A m) /\ 0 < side (C m) (D m) (B m) /\
    0 < side (D m) (A m) (B m) /\ 0 < side (D m) (A m) (C m).
  Proof.
    intro H. specialize (pos_turns m H). destruct m as [i j]. unfold turns, turn in pos_turns.
    unfold side, gxy. cbn [fst snd]. destruct pos_turns as (T1 & T2 & T3 & T4).
    repeat split; lra.
  Qed.

  (** Inside of, or on the sides of, a micropolygon *)
  Definition closed (m : nat * nat) (s : Q * Q) : Prop :=
    0 <= side (A m) (B m) s /\ 0 <= side (B m) (C m) s /\ 0 <= side (C m) (D m) s /\ 0 <= side (D m) (A m) s.

  (** The rule of the hit test: the first two sides do not belong to the micropolygon *)
  Definition half_open (m : nat * nat) (s : Q * Q) : Prop :=
    0 < side (A m) (B m) s /\ 0 < side (B m) (C m) s /\ 0 <= side (C m) (D m) s /\ 0 <= side (D m) (A m) s.

  Lemma corner_cases m k : corner m k -> k = (fst m, snd m) \/ k = (Datatypes.S (fst m), snd m) \/
    k = (Datatypes.S (fst m), Datatypes.S (snd m)) \/ k = (fst m, Datatypes.S (snd m)).
  Proof. destruct m as [i j], k as [a b]. unfold corner. cbn [fst snd]. intros [[->| ->] [->| ->]]; auto. Qed.

  Lemma side_self_l a b : side a b a == 0.
  Proof. unfold side. ring. Qed.
  Lemma side_self_r a b : side a b b == 0.
  Proof. unfold side. ring. Qed.

  Lemma spanned_closed (W : nat * nat -> Prop) m s : is_mpg g m -> (forall k, W k -> corner m k) -> spanned g W s -> closed m s.
  Proof.
    intros M I H. destruct (corners_in m M) as (H1 & H2 & H3 & H4 & H5 & H6 & H7 & H8).
    destruct m as [i j]. cbn [fst snd] in *.
    unfold closed. cbn [fst snd].
    split; [|split; [|split]]; apply (spanned_nonneg g W s _ _ H); intros k Hk;
      apply I, corner_cases in Hk; cbn [fst snd] in Hk;
      destruct Hk as [->|[->|[->| ->]]];
      rewrite ?side_self_l, ?side_self_r; try lra.
  Qed.

  Lemma in_closed m s : is_mpg g m -> in_mpg g m s -> closed m s.
  Proof. intros M H. apply (spanned_closed (corner m) m s M); [|exact H]. auto. Qed.

  Lemma triangle_in x y z s : 0 < side (gxy g x) (gxy g y) (gxy g z) ->
    0 <= side (gxy g x) (gxy g y) s -> 0 <= side (gxy g y) (gxy g z) s -> 0 <= side (gxy g z) (gxy g x) s ->
    spanned g (fun k => k = x \/ k = y \/ k = z) s.
  Proof.
    intros Hd H1 H2 H3. set (d := side (gxy g x) (gxy g y) (gxy g z)) in *.
    assert (dn : ~ d == 0) by lra.
    assert (di : 0 <= / d) by (apply Qlt_le_weak, Qinv_lt_0_compat; exact Hd).
    exists [(side (gxy g y) (gxy g z) s / d, x); (side (gxy g z) (gxy g x) s / d, y); (side (gxy g x) (gxy g y) s / d, z)].
    split; [|split; [|split]]; cbn [map qsum fold_right fst snd].
    - do 3 (apply Forall_cons; [cbn [fst snd]; split; [unfold Qdiv; apply Qmult_le_0_compat; assumption|auto]|]). apply Forall_nil.
    - setoid_replace (side (gxy g y) (gxy g z) s / d + (side (gxy g z) (gxy g x) s / d + (side (gxy g x) (gxy g y) s / d + 0)))
        with ((side (gxy g y) (gxy g z) s + side (gxy g z) (gxy g x) s + side (gxy g x) (gxy g y) s) / d) by (field; exact dn).
      setoid_replace (side (gxy g y) (gxy g z) s + side (gxy g z) (gxy g x) s + side (gxy g x) (gxy g y) s) with d
        by (unfold d, side, gxy; cbn [fst snd]; ring).
      field. exact dn.
    - assert (E : d * fst s == side (gxy g y) (gxy g z) s * gx g x + side (gxy g z) (gxy g x) s * gx g y +
                               side (gxy g x) (gxy g y) s * gx g z) by (unfold d, side, gxy; cbn [fst snd]; ring).
      setoid_replace (fst s) with ((d * fst s) / d) by (field; exact dn). rewrite E. field. exact dn.
    - assert (E : d * snd s == side (gxy g y) (gxy g z) s * gy g x + side (gxy g z) (gxy g x) s * gy g y +
                               side (gxy g x) (gxy g y) s * gy g z) by (unfold d, side, gxy; cbn [fst snd]; ring).
      setoid_replace (snd s) with ((d * snd s) / d) by (field; exact dn). rewrite E. field. exact dn.
  Qed.

  Lemma side_flip a b s : side b a s == - side a b s.
  Proof. unfold side. ring. Qed.

  Lemma closed_in m s : is_mpg g m -> closed m s -> in_mpg g m s.
  Proof.
    intros M (C1 & C2 & C3 & C4). destruct (corners_in m M) as (H1 & H2 & H3 & H4 & H5 & H6 & H7 & H8).
    destruct m as [i j]. cbn [fst snd] in *.
    destruct (Qlt_le_dec 0 (side (gxy g (i, j)) (gxy g (S i, S j)) s)) as [L|L].
    - (* triangle A C D *)
      apply (spanned_weaken g (fun k => k = (i, j) \/ k = (S i, S j) \/ k = (i, S j))).
      + intros k [->|[->| ->]]; unfold corner; cbn [fst snd]; auto.
      + apply triangle_in; [|lra|exact C3|exact C4].
        assert (E : side (gxy g (i, j)) (gxy g (S i, S j)) (gxy g (i, S j)) == side (gxy g (S i, S j)) (gxy g (i, S j)) (gxy g (i, j)))
          by (unfold side; ring). rewrite E. exact H5.
    - apply (spanned_weaken g (fun k => k = (i, j) \/ k = (S i, j) \/ k = (S i, S j))).
      + intros k [->|[->| ->]]; unfold corner; cbn [fst snd]; auto.
      + apply triangle_in; [exact H1|exact C1|exact C2|]. rewrite side_flip. lra.
  Qed.

  (** No more than one *)
  Lemma half_open_closed m s : half_open m s -> closed m s.
  Proof. intros (H1 & H2 & H3 & H4). repeat split; lra. Qed.

  Lemma half_open_once m n s : is_mpg g m -> is_mpg g n -> not_folded g -> half_open m s -> half_open n s -> m = n.
  Proof.
    intros M N NF Hm Hn.
    destruct (Nat.eq_dec (fst m) (fst n)) as [E1|E1], (Nat.eq_dec (snd m) (snd n)) as [E2|E2].
    1: destruct m, n; cbn [fst snd] in *; congruence.
    all: exfalso.
    all: assert (NE : m <> n) by (intro; subst; congruence).
    all: pose proof (NF m n s M N NE (closed_in m s M (half_open_closed m s Hm)) (closed_in n s N (half_open_closed n s Hn))) as SP.
    all: destruct m as [i j], n as [i' j']; cbn [fst snd] in *.
    all: destruct Hm as (P1 & P2 & _ & _), Hn as (R1 & R2 & _ & _); cbn [fst snd] in *.
    - (* same column, different rows *)
      subst i'. destruct (Nat.lt_ge_cases j j') as [L|L].
      + assert (Z : side (gxy g (i, j')) (gxy g (S i, j')) s == 0).
        { apply (spanned_zero g _ s _ _ SP). intros [a b] [[Ka Kb] [Ka' Kb']]. cbn [fst snd] in *.
          assert (b = j') by lia. subst b. destruct Ka as [->| ->]; rewrite ?side_self_l, ?side_self_r; reflexivity. }
        lra.
      + assert (Z : side (gxy g (i, j)) (gxy g (S i, j)) s == 0).
        { apply (spanned_zero g _ s _ _ SP). intros [a b] [[Ka Kb] [Ka' Kb']]. cbn [fst snd] in *.
          assert (b = j) by lia. subst b. destruct Ka as [->| ->]; rewrite ?side_self_l, ?side_self_r; reflexivity. }
        lra.
    - destruct (Nat.lt_ge_cases i i') as [L|L].
      + assert (Z : side (gxy g (S i, j)) (gxy g (S i, S j)) s == 0).
        { apply (spanned_zero g _ s _ _ SP). intros [a b] [[Ka Kb] [Ka' Kb']]. cbn [fst snd] in *.
          assert (a = S i) by lia. subst a. destruct Kb as [->| ->]; rewrite ?side_self_l, ?side_self_r; reflexivity. }
        lra.
      + assert (Z : side (gxy g (S i', j')) (gxy g (S i', S j')) s == 0).
        { apply (spanned_zero g _ s _ _ SP). intros [a b] [[Ka Kb] [Ka' Kb']]. cbn [fst snd] in *.
          assert (a = S i') by lia. subst a. destruct Kb' as [->| ->]; rewrite ?side_self_l, ?side_self_r; reflexivity. }
        lra.
    - destruct (Nat.lt_ge_cases i i') as [L|L].
      + assert (Z : side (gxy g (S i, j)) (gxy g (S i, S j)) s == 0).
        { apply (spanned_zero g _ s _ _ SP). intros [a b] [[Ka Kb] [Ka' Kb']]. cbn [fst snd] in *.
          assert (a = S i) by lia. subst a. destruct Kb as [->| ->]; rewrite ?side_self_l, ?side_self_r; reflexivity. }
        lra.
      + assert (Z : side (gxy g (S i', j')) (gxy g (S i', S j')) s == 0).
        { apply (spanned_zero g _ s _ _ SP). intros [a b] [[Ka Kb] [Ka' Kb']]. cbn [fst snd] in *.
          assert (a = S i') by lia. subst a. destruct Kb' as [->| ->]; rewrite ?side_self_l, ?side_self_r; reflexivity. }
        lra.
  Qed.

  (** At least one *)
  Lemma half_open_some m s : is_mpg g m -> in_mpg g m s -> ~ on_border g s -> exists n, is_mpg g n /\ half_open n s.
  Proof.
    intros M H NB. pose proof (in_closed m s M H) as CL.
    (* first leave the side A B *)
    assert (S1 : exists n, is_mpg g n /\ closed n s /\ 0 < side (A n) (B n) s).
    { destruct (Qlt_le_dec 0 (side (A m) (B m) s)) as [L|L].
      - exists m. auto.
      - destruct CL as (C1 & C2 & C3 & C4). destruct (corners_in m M) as (H1 & H2 & H3 & H4 & H5 & H6 & H7 & H8).
        destruct m as [i j]. cbn [fst snd] in *.
        assert (SP : spanned g (fun k => k = (i, j) \/ k = (S i, j)) s).
        { apply (on_side g (i, j) (S i, j) (i, S j) (S i, S j) s); try assumption. lra. }
        destruct j as [|j].
        + exfalso. apply NB. left. exists i. split; [apply M|]. left.
          eapply spanned_weaken; [|exact SP]. intros k [->| ->]; unfold corner; cbn [fst snd]; auto.
        + assert (M' : is_mpg g (i, j)) by (destruct M; split; cbn [fst snd] in *; lia).
          exists (i, j). split; [exact M'|].
          destruct (corners_in (i, j) M') as (G1 & G2 & _). cbn [fst snd] in *. split.
          * apply (spanned_closed (fun k => k = (i, S j) \/ k = (S i, S j)) (i, j) s M'); [|exact SP].
            intros k [->| ->]; unfold corner; cbn [fst snd]; auto.
          * apply (spanned_pos g _ s _ _ SP). intros k [->| ->]; assumption. }
    clear m M H CL. destruct S1 as (m & M & CL & P1).
    destruct (Qlt_le_dec 0 (side (B m) (C m) s)) as [L|L].
    - exists m. destruct CL as (C1 & C2 & C3 & C4). repeat split; try assumption; apply M.
    - destruct CL as (C1 & C2 & C3 & C4). destruct (corners_in m M) as (H1 & H2 & H3 & H4 & H5 & H6 & H7 & H8).
      destruct m as [i j]. cbn [fst snd] in *.
      assert (SP : spanned g (fun k => k = (S i, j) \/ k = (S i, S j)) s).
      { apply (on_side g (S i, j) (S i, S j) (i, j) (i, S j) s); try assumption. lra. }
      destruct (Nat.eq_dec (S i) (cu g)) as [E|E].
      + exfalso. apply NB. right. exists j. split; [apply M|]. right.
        eapply spanned_weaken; [|exact SP]. intros k [->| ->]; cbn [fst snd]; auto.
      + assert (M' : is_mpg g (S i, j)) by (destruct M; split; cbn [fst snd] in *; lia).
        exists (S i, j). split; [exact M'|].
        destruct (corners_in (S i, j) M') as (G1 & G2 & G3 & G4 & G5 & G6 & G7 & G8). cbn [fst snd] in *.
        pose proof (spanned_closed (fun k => k = (S i, j) \/ k = (S i, S j)) (S i, j) s M'
          ltac:(intros k [->| ->]; unfold corner; cbn [fst snd]; auto) SP) as (D1 & D2 & D3 & D4). cbn [fst snd] in *.
        repeat split; cbn [fst snd]; try assumption.
        * (* s is not A, as it is not on the side A B of m *)
          destruct SP as (c & HF & W1 & Sx & Sy).
          (* side A B of (i,j) and of (S i, j) both vanish at (S i, j) and are positive at (S i, S j) *)
          assert (K : forall a b, side a b (gxy g (S i, j)) == 0 ->
                    side a b s == qsum (map (fun wk => if Nat.eqb (snd (snd wk)) j then 0 else fst wk) c) * side a b (gxy g (S i, S j))).
          { intros a b Z. 
            assert (E1 : side a b s == qsum (map (fun wk => fst wk * side a b (gxy g (snd wk))) c))
              by (rewrite side_sum, W1; unfold side; rewrite Sx, Sy; ring).
            rewrite E1. clear - HF Z. induction HF as [|wk c [Hw Hk] HF IH]; cbn [map qsum fold_right]; [ring|].
            fold (qsum (map (fun wk => fst wk * side a b (gxy g (snd wk))) c)).
            fold (qsum (map (fun wk => if Nat.eqb (snd (snd wk)) j then 0 else fst wk) c)).
            rewrite IH. destruct Hk as [K|K]; rewrite K; cbn [fst snd].
            - rewrite Nat.eqb_refl, Z. ring.
            - replace (Nat.eqb (S j) j) with false by (symmetry; apply Nat.eqb_neq; lia). ring. }
          assert (P : 0 < qsum (map (fun wk => if Nat.eqb (snd (snd wk)) j then 0 else fst wk) c)).
          { pose proof (K (gxy g (i, j)) (gxy g (S i, j)) (side_self_r _ _)) as K1. rewrite K1 in P1.
            destruct (Qlt_le_dec 0 (qsum (map (fun wk => if Nat.eqb (snd (snd wk)) j then 0 else fst wk) c))) as [Y|Y]; [exact Y|].
            exfalso. assert (0 <= (- qsum (map (fun wk => if Nat.eqb (snd (snd wk)) j then 0 else fst wk) c)) * side (gxy g (i, j)) (gxy g (S i, j)) (gxy g (S i, S j)))
              by (apply Qmult_le_0_compat; lra). lra. }
          rewrite (K (gxy g (S i, j)) (gxy g (S (S i), j)) (side_self_l _ _)).
          apply Qmult_lt_0_compat; assumption.
        * apply (spanned_pos g _ s _ _ SP). intros k [->| ->]; assumption.
  Qed.
End Positive.

(** The hit test *)
Lemma failing_edge_none edges s n e : (n <= 4)%nat -> (e < 4)%nat ->
  failing_edge edges s n e = None <-> forall k, (k < n)%nat -> rejects edges (Nat.modulo (e + k) 4) s = false.
Proof.
  revert e. induction n as [|n IH]; intros e Hn He; cbn [failing_edge].
  - split; [intros _ k Hk; lia|reflexivity].
  - destruct (rejects edges e s) eqn:R.
    + split; [discriminate|]. intro H. specialize (H 0%nat ltac:(lia)). rewrite Nat.add_0_r, Nat.mod_small in H by lia. congruence.
    + assert (L : (Nat.modulo (e + 1) 4 < 4)%nat) by (apply Nat.mod_upper_bound; lia).
      rewrite (IH _ ltac:(lia) L). split; intros H k Hk.
      * destruct k as [|k]; [rewrite Nat.add_0_r, Nat.mod_small by lia; exact R|].
        specialize (H k ltac:(lia)). rewrite Nat.add_mod_idemp_l in H by lia. replace (e + S k)%nat with (e + 1 + k)%nat by lia. exact H.
      * specialize (H (S k) ltac:(lia)). rewrite Nat.add_mod_idemp_l by lia. replace (e + 1 + k)%nat with (e + S k)%nat by lia. exact H.
Qed.

Lemma failing_edge_all edges s e : (e < 4)%nat ->
  failing_edge edges s 4 e = None <-> forall k, (k < 4)%nat -> rejects edges k s = false.
Proof.
  intro He. rewrite failing_edge_none by lia. split; intros H k Hk.
  - destruct e as [|[|[|[|e]]]]; [| | | |lia].
    + specialize (H k Hk). rewrite Nat.add_0_l, Nat.mod_small in H by lia. exact H.
    + destruct k as [|[|[|[|k]]]]; [exact (H 3%nat ltac:(lia))|exact (H 0%nat ltac:(lia))|exact (H 1%nat ltac:(lia))|exact (H 2%nat ltac:(lia))|lia].
    + destruct k as [|[|[|[|k]]]]; [exact (H 2%nat ltac:(lia))|exact (H 3%nat ltac:(lia))|exact (H 0%nat ltac:(lia))|exact (H 1%nat ltac:(lia))|lia].
    + destruct k as [|[|[|[|k]]]]; [exact (H 1%nat ltac:(lia))|exact (H 2%nat ltac:(lia))|exact (H 3%nat ltac:(lia))|exact (H 0%nat ltac:(lia))|lia].
  - apply H. apply Nat.mod_upper_bound. lia.
Qed.

Lemma failing_edge_lt edges s n e x : (e < 4)%nat -> failing_edge edges s n e = Some x -> (x < 4)%nat.
Proof.
  revert e. induction n as [|n IH]; intros e He; cbn [failing_edge]; [discriminate|].
  destruct (rejects edges e s); [intros [= <-]; exact He|]. apply IH. apply Nat.mod_upper_bound. lia.
Qed.

(** The result does not depend on the edge that failed last. *)
Lemma contains_last o p l l' s : (l < 4)%nat -> (l' < 4)%nat -> fst (contains o p l s) = fst (contains o p l' s).
Proof.
  intros H H'. unfold contains.
  destruct (failing_edge (cache_edge o p) s 4 l) eqn:E, (failing_edge (cache_edge o p) s 4 l') eqn:E'; try reflexivity; exfalso.
  - pose proof (proj1 (failing_edge_all _ _ l' H') E') as K. apply (failing_edge_all _ _ l H) in K. congruence.
  - pose proof (proj1 (failing_edge_all _ _ l H) E) as K. apply (failing_edge_all _ _ l' H') in K. congruence.
Qed.

Lemma contains_lt o p l s : (l < 4)%nat -> (snd (contains o p l s) < 4)%nat.
Proof.
  intro H. unfold contains. destruct (failing_edge (cache_edge o p) s 4 l) eqn:E; cbn [snd]; [|exact H].
  exact (failing_edge_lt _ _ _ _ _ H E).
Qed.

Lemma sample_last g i j l l' s : (l < 4)%nat -> (l' < 4)%nat -> fst (sample g i j l s) = fst (sample g i j l' s).
Proof.
  intros H H'. unfold sample. pose proof (contains_last (vertex_order (vertices g i j)) (vertices g i j) l l' s H H') as E.
  destruct (contains (vertex_order (vertices g i j)) (vertices g i j) l s) as [[d|] k],
           (contains (vertex_order (vertices g i j)) (vertices g i j) l' s) as [[d'|] k']; cbn [fst] in *; try discriminate;
    [injection E as ->|]; reflexivity.
Qed.

Lemma sample_lt g i j l s : (l < 4)%nat -> (snd (sample g i j l s) < 4)%nat.
Proof.
  intro H. unfold sample. pose proof (contains_lt (vertex_order (vertices g i j)) (vertices g i j) l s H) as E.
  destruct (contains (vertex_order (vertices g i j)) (vertices g i j) l s) as [[d|] k]; exact E.
Qed.

Definition is_hit (g : grid) (m : nat * nat) (s : Q * Q) : Prop := fst (sample g (fst m) (snd m) 0 s) <> None.

Lemma hit_last g m l s : (l < 4)%nat -> fst (sample g (fst m) (snd m) l s) <> None <-> is_hit g m s.
Proof. intro H. unfold is_hit. rewrite (sample_last g (fst m) (snd m) l 0 s H) by lia. reflexivity. Qed.

Lemma long_not_close g a b : long g a b -> close_ (gp g (fst a) (snd a)) (gp g (fst b) (snd b)) = false.
Proof.
  unfold long, close_, dist2, tiny. intro H. apply Qltb_false.
  eapply Qle_trans; [exact H|]. cbn [Qpower Qpower_positive pow_pos]. apply Qle_lteq. right. simpl. ring.
Qed.

Lemma close_sym a b : close_ a b = close_ b a.
Proof.
  unfold close_. assert (E : dist2 a b == dist2 b a) by (unfold dist2; ring).
  destruct (Qltb (dist2 a b) tiny) eqn:E1, (Qltb (dist2 b a) tiny) eqn:E2; try reflexivity.
  - apply Qltb_iff in E1. apply Qltb_false in E2. lra.
  - apply Qltb_iff in E2. apply Qltb_false in E1. lra.
Qed.

Lemma vertex_order_flip g i j : is_mpg g (i, j) -> long_sides g ->
  (0 <= turn g (i, j) (S i, j) (S i, S j) -> vertex_order (vertices g i j) = mkorder 0 1 3 2 false) /\
  (turn g (i, j) (S i, j) (S i, S j) < 0 -> vertex_order (vertices g i j) = mkorder 0 2 3 1 false).
Proof.
  intros [M1 M2] HL. cbn [fst snd] in *.
  pose proof (long_not_close g (i, j) (S i, j) (proj1 (HL i j) M1 (Nat.lt_le_incl _ _ M2))) as C1.
  pose proof (long_not_close g (S i, j) (S i, S j) (proj2 (HL (S i) j) M1 M2)) as C2.
  pose proof (long_not_close g (i, S j) (S i, S j) (proj1 (HL i (S j)) M1 M2)) as C3.
  pose proof (long_not_close g (i, j) (i, S j) (proj2 (HL i j) (Nat.lt_le_incl _ _ M1) M2)) as C4.
  rewrite close_sym in C3. rewrite close_sym in C4. cbn [fst snd] in *.
  unfold vertex_order. cbn [vertices]. rewrite C1, C2, C3, C4. cbn [vertices].
  unfold turn, gx, gy. cbn [fst snd]. split; intro T.
  - destruct (Qle_bool _ _) eqn:E; [reflexivity|]. apply Qleb_false in E. exfalso. lra.
  - destruct (Qle_bool _ _) eqn:E; [|reflexivity]. apply Qle_bool_iff in E. exfalso. lra.
Qed.

Definition transposed (g : grid) : grid := mkgrid (cv g) (cu g) (fun i j => gp g j i) (triangular g).
Definition swap (m : nat * nat) : nat * nat := (snd m, fst m).

Lemma rejects_excl edges e s a b : (e < 2)%nat -> edges e = mk_edge a b ->
  rejects edges e s = false <-> 0 < side (xy a) (xy b) s.
Proof.
  intros He Ee. unfold rejects. rewrite Ee. cbn [mk_edge eX eY xmul ymul].
  destruct (Nat.leb_spec 2 e); [lia|]. rewrite Qleb_false. unfold side, xy. cbn [fst snd]. split; intro; lra.
Qed.

Lemma rejects_incl edges e s a b : (2 <= e)%nat -> edges e = mk_edge a b ->
  rejects edges e s = false <-> 0 <= side (xy a) (xy b) s.
Proof.
  intros He Ee. unfold rejects. rewrite Ee. cbn [mk_edge eX eY xmul ymul].
  destruct (Nat.leb_spec 2 e); [|lia]. rewrite Qltb_false. unfold side, xy. cbn [fst snd]. split; intro; lra.
Qed.

Lemma contains_iff o p s : degenerate o = false ->
  fst (contains o p 0 s) <> None <->
  0 < side (xy (p (c0 o))) (xy (p (c2 o))) s /\ 0 < side (xy (p (c2 o))) (xy (p (c4 o))) s /\
  0 <= side (xy (p (c4 o))) (xy (p (c6 o))) s /\ 0 <= side (xy (p (c6 o))) (xy (p (c0 o))) s.
Proof.
  intro Hd.
  assert (E : fst (contains o p 0 s) <> None <-> failing_edge (cache_edge o p) s 4 0 = None).
  { unfold contains. destruct (failing_edge (cache_edge o p) s 4 0); cbn [fst]; split; congruence. }
  rewrite E, failing_edge_all by lia.
  assert (E0 := rejects_excl (cache_edge o p) 0 s (p (c0 o)) (p (c2 o)) ltac:(lia) eq_refl).
  assert (E1 := rejects_excl (cache_edge o p) 1 s (p (c2 o)) (p (c4 o)) ltac:(lia) eq_refl).
  assert (E2 := rejects_incl (cache_edge o p) 2 s (p (c4 o)) (p (c6 o)) ltac:(lia) ltac:(cbn [cache_edge]; rewrite Hd; reflexivity)).
  assert (E3 := rejects_incl (cache_edge o p) 3 s (p (c6 o)) (p (c0 o)) ltac:(lia) ltac:(cbn [cache_edge]; rewrite Hd; reflexivity)).
  split.
  - intro H. rewrite <- E0, <- E1, <- E2, <- E3. repeat split; apply H; lia.
  - intros (H0 & H1 & H2 & H3) k Hk. destruct k as [|[|[|[|k]]]]; [apply E0|apply E1|apply E2|apply E3|lia]; assumption.
Qed.

Lemma hit_positive g m s : triangular g = false -> is_mpg g m -> long_sides g -> turns g 1 m ->
  is_hit g m s <-> half_open g m s.
Proof.
  intros HT M HL Ht. destruct m as [i j]. unfold is_hit, sample. rewrite HT.
  assert (O : vertex_order (vertices g i j) = mkorder 0 1 3 2 false).
  { apply (vertex_order_flip g i j M HL). destruct Ht as (Ht & _). lra. }
  cbn [fst snd]. rewrite O.
  pose proof (contains_iff (mkorder 0 1 3 2 false) (vertices g i j) s eq_refl) as CI. cbn [c0 c2 c4 c6 vertices] in CI.
  match goal with |- ?a <> None <-> _ => replace a with (fst (contains (mkorder 0 1 3 2 false) (vertices g i j) 0 s))
    by (destruct (contains (mkorder 0 1 3 2 false) (vertices g i j) 0 s) as [[d|] l]; reflexivity) end.
  rewrite CI. unfold half_open. cbn [fst snd]. reflexivity.
Qed.

Lemma hit_negative g m s : triangular g = false -> is_mpg g m -> long_sides g -> turns g (-1) m ->
  is_hit g m s <-> half_open (transposed g) (swap m) s.
Proof.
  intros HT M HL Ht. destruct m as [i j]. unfold is_hit, sample. rewrite HT.
  assert (O : vertex_order (vertices g i j) = mkorder 0 2 3 1 false).
  { apply (vertex_order_flip g i j M HL). destruct Ht as (Ht & _). lra. }
  cbn [fst snd]. rewrite O.
  pose proof (contains_iff (mkorder 0 2 3 1 false) (vertices g i j) s eq_refl) as CI. cbn [c0 c2 c4 c6 vertices] in CI.
  match goal with |- ?a <> None <-> _ => replace a with (fst (contains (mkorder 0 2 3 1 false) (vertices g i j) 0 s))
    by (destruct (contains (mkorder 0 2 3 1 false) (vertices g i j) 0 s) as [[d|] l]; reflexivity) end.
  rewrite CI. unfold half_open. cbn [fst snd swap]. reflexivity.
Qed.

Lemma spanned_swap g W s : spanned (transposed g) W s <-> spanned g (fun k => W (swap k)) s.
Proof.
  assert (one : forall g W s, spanned (transposed g) W s -> spanned g (fun k => W (swap k)) s).
  { clear. intros g W s (c & HF & H1 & Hx & Hy). exists (map (fun wk => (fst wk, swap (snd wk))) c).
    rewrite !map_map. cbn [fst snd]. split; [|split; [|split]].
    - apply Forall_map. eapply Forall_impl; [|exact HF]. cbv beta. intros [w [a b]] H. exact H.
    - exact H1.
    - exact Hx.
    - exact Hy. }
  split; [apply one|]. intro H.
  destruct H as (c & HF & H1 & Hx & Hy). exists (map (fun wk => (fst wk, swap (snd wk))) c).
  rewrite !map_map. cbn [fst snd]. split; [|split; [|split]].
  - apply Forall_map. eapply Forall_impl; [|exact HF]. cbv beta. intros [w [a b]] H. exact H.
  - exact H1.
  - exact Hx.
  - exact Hy.
Qed.

Lemma is_mpg_swap g m : is_mpg (transposed g) (swap m) <-> is_mpg g m.
Proof. unfold is_mpg, transposed, swap. cbn [fst snd cu cv]. tauto. Qed.

Lemma corner_swap m k : corner (swap m) (swap k) <-> corner m k.
Proof. unfold corner, swap. cbn [fst snd]. tauto. Qed.

Lemma swap_swap m : swap (swap m) = m.
Proof. destruct m. reflexivity. Qed.

Lemma in_mpg_swap g m s : in_mpg (transposed g) (swap m) s <-> in_mpg g m s.
Proof.
  unfold in_mpg. rewrite spanned_swap. split; apply spanned_weaken; intros k H.
  - apply corner_swap. exact H.
  - apply corner_swap. exact H.
Qed.

Lemma turns_swap g m : turns g (-1) m -> turns (transposed g) 1 (swap m).
Proof.
  destruct m as [i j]. unfold turns, turn, swap, transposed, gx, gy. cbn [fst snd gp]. intros (T1 & T2 & T3 & T4).
  repeat split; lra.
Qed.

Lemma not_folded_swap g : not_folded g -> not_folded (transposed g).
Proof.
  intros H m n s M N NE Hm Hn. rewrite <- (swap_swap m) in M, Hm. rewrite <- (swap_swap n) in N, Hn.
  rewrite is_mpg_swap in M, N. rewrite in_mpg_swap in Hm, Hn.
  assert (NE' : swap m <> swap n) by (intro E; apply NE; rewrite <- (swap_swap m), <- (swap_swap n), E; reflexivity).
  specialize (H (swap m) (swap n) s M N NE' Hm Hn). apply spanned_swap.
  eapply spanned_weaken; [|exact H]. intros k [A B]. rewrite <- corner_swap, swap_swap in A. rewrite <- corner_swap, swap_swap in B. auto.
Qed.

Lemma on_border_swap g s : on_border (transposed g) s -> on_border g s.
Proof.
  intros [(i & Hi & [H|H])|(j & Hj & [H|H])]; rewrite spanned_swap in H.
  - right. exists i. split; [exact Hi|]. left. eapply spanned_weaken; [|exact H].
    intros [a b] [[Ha Hb] Hc]. unfold corner, swap in *. cbn [fst snd] in *. auto.
  - right. exists i. split; [exact Hi|]. right. eapply spanned_weaken; [|exact H].
    intros [a b] [Ha Hb]. unfold swap in *. cbn [fst snd transposed cv] in *. auto.
  - left. exists j. split; [exact Hj|]. left. eapply spanned_weaken; [|exact H].
    intros [a b] [[Ha Hb] Hc]. unfold corner, swap in *. cbn [fst snd] in *. auto.
  - left. exists j. split; [exact Hj|]. right. eapply spanned_weaken; [|exact H].
    intros [a b] [Ha Hb]. unfold swap in *. cbn [fst snd transposed cu] in *. auto.
Qed.

Section Whole.
  Variables (g : grid) (sign : Q).
  Hypothesis HT : triangular g = false.
  Hypothesis HL : long_sides g.
  Hypothesis HS : same_way g sign.

  Lemma sign_turns m : is_mpg g m -> (sign == 1 /\ turns g 1 m) \/ (sign == -1 /\ turns g (-1) m).
  Proof.
    intro M. destruct HS as [[E|E] H]; specialize (H m M); [left|right]; split; try assumption;
      destruct m as [i j]; unfold turns in *; destruct H as (T1 & T2 & T3 & T4); rewrite E in T1, T2, T3, T4; auto.
  Qed.

  Lemma all_turns : (forall m, is_mpg g m -> turns g 1 m) \/ (forall m, is_mpg g m -> turns g (-1) m).
  Proof.
    destruct HS as [[E|E] _]; [left|right]; intros m M; destruct (sign_turns m M) as [[E' T]|[E' T]]; try exact T;
      exfalso; rewrite E in E'; discriminate.
  Qed.

  Lemma hit_inside m s : is_mpg g m -> is_hit g m s -> in_mpg g m s.
  Proof.
    intros M H. destruct all_turns as [T|T].
    - apply (closed_in g T m s M). apply half_open_closed. apply (hit_positive g m s HT M HL (T m M)). exact H.
    - rewrite <- in_mpg_swap. rewrite <- is_mpg_swap in M.
      assert (T' : forall m, is_mpg (transposed g) m -> turns (transposed g) 1 m).
      { intros n N. rewrite <- (swap_swap n) in *. rewrite is_mpg_swap in N. apply turns_swap, T, N. }
      apply (closed_in (transposed g) T' (swap m) s M). apply half_open_closed.
      rewrite is_mpg_swap in M. apply (hit_negative g m s HT M HL (T m M)). exact H.
  Qed.

  Lemma hit_once m n s : not_folded g -> is_mpg g m -> is_mpg g n -> is_hit g m s -> is_hit g n s -> m = n.
  Proof.
    intros NF M N Hm Hn. destruct all_turns as [T|T].
    - apply (half_open_once g T m n s M N NF); [apply (hit_positive g m s HT M HL (T m M))|apply (hit_positive g n s HT N HL (T n N))]; assumption.
    - assert (T' : forall m, is_mpg (transposed g) m -> turns (transposed g) 1 m).
      { intros k K. rewrite <- (swap_swap k) in *. rewrite is_mpg_swap in K. apply turns_swap, T, K. }
      assert (E : swap m = swap n).
      { apply (half_open_once (transposed g) T' (swap m) (swap n) s).
        - apply is_mpg_swap. exact M.
        - apply is_mpg_swap. exact N.
        - apply not_folded_swap. exact NF.
        - apply (hit_negative g m s HT M HL (T m M)). exact Hm.
        - apply (hit_negative g n s HT N HL (T n N)). exact Hn. }
      rewrite <- (swap_swap m), <- (swap_swap n), E. reflexivity.
  Qed.

  Lemma hit_some m s : is_mpg g m -> in_mpg g m s -> ~ on_border g s -> exists n, is_mpg g n /\ is_hit g n s.
  Proof.
    intros M H NB. destruct all_turns as [T|T].
    - destruct (half_open_some g T m s M H NB) as (n & N & Hn). exists n. split; [exact N|].
      apply (hit_positive g n s HT N HL (T n N)). exact Hn.
    - assert (T' : forall m, is_mpg (transposed g) m -> turns (transposed g) 1 m).
      { intros k K. rewrite <- (swap_swap k) in *. rewrite is_mpg_swap in K. apply turns_swap, T, K. }
      destruct (half_open_some (transposed g) T' (swap m) s) as (n & N & Hn).
      + apply is_mpg_swap. exact M.
      + apply in_mpg_swap. exact H.
      + intro B. apply NB, on_border_swap, B.
      + exists (swap n). rewrite <- (swap_swap n) in N, Hn. rewrite is_mpg_swap in N. split; [exact N|].
        apply (hit_negative g (swap n) s HT N HL (T _ N)). exact Hn.
  Qed.
End Whole.

(** The samples that are visited *)
Open Scope Z_scope.

Lemma zrange_in a b x : In x (zrange a b) <-> a <= x < b.
Proof.
  unfold zrange. rewrite in_map_iff. split.
  - intros (k & <- & Hk). apply in_seq in Hk. lia.
  - intro H. exists (Z.to_nat (x - a)). split; [lia|]. apply in_seq. lia.
Qed.

Lemma zrange_nodup a b : NoDup (zrange a b).
Proof. unfold zrange. apply Injective_map_NoDup; [intros i j H; lia|apply seq_NoDup]. Qed.

Lemma NoDup_app_disj {A} (l1 l2 : list A) : NoDup l1 -> NoDup l2 -> (forall x, In x l1 -> In x l2 -> False) -> NoDup (l1 ++ l2).
Proof.
  intros H1 H2 D. induction H1 as [|x l1 Nx H1 IH]; cbn [app]; [exact H2|].
  constructor.
  - intro I. apply in_app_or in I. destruct I as [I|I]; [exact (Nx I)|]. exact (D x (or_introl eq_refl) I).
  - apply IH. intros y Y1 Y2. exact (D y (or_intror Y1) Y2).
Qed.

Lemma NoDup_flat_map_key {A B} (f : A -> list B) (key : B -> A) l :
  NoDup l -> (forall a, In a l -> NoDup (f a)) -> (forall a b, In a l -> In b (f a) -> key b = a) -> NoDup (flat_map f l).
Proof.
  intros N. induction N as [|a l Na N IH]; intros F K; cbn [flat_map]; [constructor|].
  apply NoDup_app_disj.
  - apply F. left. reflexivity.
  - apply IH; intros; [apply F|eapply K]; try (right; eassumption); eassumption.
  - intros b B1 B2. apply in_flat_map in B2. destruct B2 as (a' & A' & B').
    apply Na. rewrite <- (K a b (or_introl eq_refl) B1), (K a' b (or_intror A') B'). exact A'.
Qed.

Lemma Qfloor_le_Z q z : (inject_Z z <= q)%Q -> z <= Qfloor q.
Proof. intro H. apply Qfloor_resp_le in H. rewrite Qfloor_Z in H. exact H. Qed.
Lemma Qfloor_lt_Z q z : (q < inject_Z z)%Q -> Qfloor q < z.
Proof. intro H. rewrite Zlt_Qlt. eapply Qle_lt_trans; [apply Qfloor_le|exact H]. Qed.
Lemma Qceiling_le_Z q z : (q <= inject_Z z)%Q -> Qceiling q <= z.
Proof. intro H. apply Qceiling_resp_le in H. rewrite Qceiling_Z in H. exact H. Qed.
Lemma Qceiling_gt_Z q z : (inject_Z z < q)%Q -> z < Qceiling q.
Proof. intro H. rewrite Zlt_Qlt. eapply Qlt_le_trans; [exact H|apply Qle_ceiling]. Qed.

Lemma pair4 {A B C D : Type} (a a' : A) (b b' : B) (c c' : C) (d d' : D) :
  (a, b, c, d) = (a', b', c', d') -> a = a' /\ b = b' /\ c = c' /\ d = d'.
Proof. intro E. repeat split; congruence. Qed.

Lemma extent_visits lo hi rmin rmax xs s e i n x m p :
  extent lo hi rmin rmax xs = (s, e, i, n) -> 0 < xs -> rmin <= x < rmax -> 0 <= m < xs ->
  (inject_Z m < (p - inject_Z x) * inject_Z xs < inject_Z (m + 1))%Q -> (lo <= p)%Q -> (p <= hi)%Q ->
  s <= x < e /\ (if x =? s then i else 0) <= m < (if x =? e - 1 then n else xs).
Proof.
  intros E Hxs Hx Hm [P1 P2] Hlo Hhi. unfold extent in E. apply pair4 in E. destruct E as (Es & Ee & Ei & En).
  assert (X0 : (0 < inject_Z xs)%Q) by (change 0%Q with (inject_Z 0); rewrite <- Zlt_Qlt; exact Hxs).
  assert (M0 : (0 <= inject_Z m)%Q) by (change 0%Q with (inject_Z 0); rewrite <- Zle_Qle; lia).
  assert (M1 : (inject_Z (m + 1) <= inject_Z xs)%Q) by (rewrite <- Zle_Qle; lia).
  assert (Q1 : (inject_Z x < p)%Q).
  { destruct (Qlt_le_dec (inject_Z x) p) as [L|L]; [exact L|exfalso].
    assert (0 <= (inject_Z x - p) * inject_Z xs)%Q by (apply Qmult_le_0_compat; lra). lra. }
  assert (Q2 : (p < inject_Z (x + 1))%Q).
  { rewrite inject_Z_plus. destruct (Qlt_le_dec p (inject_Z x + 1)) as [L|L]; [exact L|exfalso].
    assert (0 <= (p - inject_Z x - 1) * inject_Z xs)%Q by (apply Qmult_le_0_compat; lra). lra. }
  assert (F1 : Qfloor lo <= x) by (assert (Qfloor lo < x + 1) by (apply Qfloor_lt_Z; lra); lia).
  assert (F2 : x < Qceiling hi) by (apply Qceiling_gt_Z; lra).
  split; [lia|]. split.
  - destruct (Z.eqb_spec x s) as [Exs|Exs]; [|lia]. rewrite <- Exs in *. rewrite Es in Ei. clear Es.
    destruct (Qltb lo (inject_Z x)); [lia|].
    rewrite <- Ei. assert (Qfloor ((lo - inject_Z x) * inject_Z xs) < m + 1); [|lia].
    apply Qfloor_lt_Z. eapply Qle_lt_trans; [|exact P2]. apply Qmult_le_compat_r; lra.
  - destruct (Z.eqb_spec x (e - 1)) as [Exe|Exe]; [|lia]. rewrite Ee in En.
    destruct (Qltb (inject_Z e) hi); [lia|].
    rewrite <- En. apply Qceiling_gt_Z. eapply Qlt_le_trans; [exact P1|].
    apply Qmult_le_compat_r; [|lra].
    assert (X : (inject_Z x == inject_Z e - 1)%Q).
    { rewrite Exe. unfold Z.sub. rewrite inject_Z_plus. change (inject_Z (- (1))) with (-1 # 1)%Q. ring. }
    rewrite X. lra.
Qed.

Lemma extent_bounds lo hi rmin rmax xs s e i n :
  extent lo hi rmin rmax xs = (s, e, i, n) -> 0 < xs -> rmin <= s /\ e <= rmax /\ 0 <= i /\ n <= xs.
Proof.
  intros E Hxs. unfold extent in E. apply pair4 in E. destruct E as (Es & Ee & Ei & En).
  assert (X0 : (0 < inject_Z xs)%Q) by (change 0%Q with (inject_Z 0); rewrite <- Zlt_Qlt; exact Hxs).
  split; [lia|]. split; [lia|]. rewrite Es in Ei. rewrite Ee in En. split.
  - destruct (Qltb lo (inject_Z s)) eqn:L; [lia|]. apply Qltb_false in L. rewrite <- Ei.
    apply (Qfloor_le_Z _ 0). change (inject_Z 0) with 0%Q. apply Qmult_le_0_compat; lra.
  - destruct (Qltb (inject_Z e) hi) eqn:L; [lia|]. apply Qltb_false in L. rewrite <- En.
    apply Qceiling_le_Z. setoid_replace (inject_Z xs) with (1 * inject_Z xs)%Q at 2 by ring.
    apply Qmult_le_compat_r; lra.
Qed.

Lemma visits_in b r xs ys x y k : In (x, y, k) (visits b r xs ys) <->
  let '(sX, eX, im, em) := extent (bminx b) (bmaxx b) (xmin r) (xmax r) xs in
  let '(sY, eY, ni, en) := extent (bminy b) (bmaxy b) (ymin r) (ymax r) ys in
  sX <= x < eX /\ sY <= y < eY /\
  exists m n, k = n * xs + m /\ (if x =? sX then im else 0) <= m < (if x =? eX - 1 then em else xs) /\
              (if y =? sY then ni else 0) <= n < (if y =? eY - 1 then en else ys).
Proof.
  unfold visits.
  destruct (extent (bminx b) (bmaxx b) (xmin r) (xmax r) xs) as [[[sX eX] im] em].
  destruct (extent (bminy b) (bmaxy b) (ymin r) (ymax r) ys) as [[[sY eY] ni] en].
  destruct ((sX >=? eX) || (sY >=? eY)) eqn:G.
  - cbn [In]. split; [tauto|]. intros (H1 & H2 & _). apply orb_true_iff in G. destruct G as [G|G]; apply Z.geb_le in G; lia.
  - rewrite in_flat_map. split.
    + intros (iY & HY & H). apply in_flat_map in H. destruct H as (iX & HX & H).
      apply in_flat_map in H. destruct H as (n & Hn & H). apply in_map_iff in H. destruct H as (m & E & Hm).
      injection E as -> -> Ek. apply zrange_in in HX, HY, Hn, Hm. split; [exact HX|]. split; [exact HY|].
      exists m, n. auto.
    + intros (HX & HY & m & n & -> & Hm & Hn). exists y. split; [apply zrange_in; exact HY|].
      apply in_flat_map. exists x. split; [apply zrange_in; exact HX|].
      apply in_flat_map. exists n. split; [apply zrange_in; exact Hn|].
      apply in_map_iff. exists m. split; [reflexivity|]. apply zrange_in. exact Hm.
Qed.

Lemma visits_ok b r xs ys v : 0 < xs -> 0 < ys -> In v (visits b r xs ys) -> is_sample xs ys r v.
Proof.
  destruct v as [[x y] k]. intros Hx Hy. rewrite visits_in.
  destruct (extent (bminx b) (bmaxx b) (xmin r) (xmax r) xs) as [[[sX eX] im] em] eqn:E1.
  destruct (extent (bminy b) (bmaxy b) (ymin r) (ymax r) ys) as [[[sY eY] ni] en] eqn:E2.
  destruct (extent_bounds _ _ _ _ _ _ _ _ _ E1 Hx) as (B1 & B2 & B3 & B4).
  destruct (extent_bounds _ _ _ _ _ _ _ _ _ E2 Hy) as (B5 & B6 & B7 & B8).
  intros (HX & HY & m & n & -> & Hm & Hn). unfold is_sample.
  split; [lia|]. split; [lia|].
  assert (0 <= m < xs) by (destruct (x =? sX), (x =? eX - 1); lia).
  assert (0 <= n < ys) by (destruct (y =? sY), (y =? eY - 1); lia).
  clear - H H0 Hx Hy. nia.
Qed.

Lemma visits_nodup b r xs ys : 0 < xs -> NoDup (visits b r xs ys).
Proof.
  intro Hx. unfold visits.
  destruct (extent (bminx b) (bmaxx b) (xmin r) (xmax r) xs) as [[[sX eX] im] em] eqn:E1.
  destruct (extent (bminy b) (bmaxy b) (ymin r) (ymax r) ys) as [[[sY eY] ni] en].
  destruct (extent_bounds _ _ _ _ _ _ _ _ _ E1 Hx) as (B1 & B2 & B3 & B4).
  destruct (_ || _); [constructor|].
  apply (NoDup_flat_map_key _ (fun v => snd (fst v))); [apply zrange_nodup| |].
  - intros iY _. apply (NoDup_flat_map_key _ (fun v => fst (fst v))); [apply zrange_nodup| |].
    + intros iX _. apply (NoDup_flat_map_key _ (fun v => snd v / xs)); [apply zrange_nodup| |].
      * intros n _. apply Injective_map_NoDup; [|apply zrange_nodup]. intros a c H. injection H. lia.
      * intros n v _ H. apply in_map_iff in H. destruct H as (m & <- & Hm). apply zrange_in in Hm. cbn [snd].
        rewrite Z.add_comm, Z.div_add by lia. rewrite Z.div_small; [lia|].
        destruct (iX =? sX), (iX =? eX - 1); lia.
    + intros iX v _ H. apply in_flat_map in H. destruct H as (n & _ & H). apply in_map_iff in H. destruct H as (m & <- & _). reflexivity.
  - intros iY v _ H. apply in_flat_map in H. destruct H as (iX & _ & H). apply in_flat_map in H. destruct H as (n & _ & H).
    apply in_map_iff in H. destruct H as (m & <- & _). reflexivity.
Qed.

(** What is stored *)
Definition kept (i : mpg_info) (sd : samples) (b : bound) (v : Z * Z * Z) : bool :=
  let '(x, y, k) := v in
  contains2d b (pos sd x y k) &&
  negb (cullable i && Qltb (occl_z sd x y k) (bminz b)) &&
  negb (Qle_bool 0 (lod0 i) && (Qltb (detail sd x y k) (lod0 i) || Qle_bool (lod1 i) (detail sd x y k))).

Definition at_ (sd : samples) (v : Z * Z * Z) : Q * Q := let '(x, y, k) := v in pos sd x y k.

Lemma visit_ok g iu iv i sd xs ys b r last v : is_sample xs ys r v -> (last < 4)%nat ->
  exists h l, visit g iu iv i sd xs ys b last v = Some (h, l) /\ (l < 4)%nat /\
    h = match (if kept i sd b v then fst (sample g iu iv 0 (at_ sd v)) else None) with
        | Some d => [(v, d)] | None => [] end.
Proof.
  intros S L. destruct v as [[x y] k]. destruct S as (_ & _ & S). unfold visit, kept, at_.
  replace ((k <? 0) || (xs * ys <=? k)) with false by (symmetry; apply orb_false_iff; split; [apply Z.ltb_ge|apply Z.leb_gt]; lia).
  destruct (contains2d b (pos sd x y k)); cbn [negb andb]; [|eauto].
  destruct (cullable i && Qltb (occl_z sd x y k) (bminz b)); cbn [negb andb]; [eauto|].
  destruct (Qle_bool 0 (lod0 i) && (Qltb (detail sd x y k) (lod0 i) || Qle_bool (lod1 i) (detail sd x y k))); cbn [negb andb]; [eauto|].
  pose proof (sample_last g iu iv last 0 (pos sd x y k) L ltac:(lia)) as E.
  pose proof (sample_lt g iu iv last (pos sd x y k) L) as E2.
  destruct (sample g iu iv last (pos sd x y k)) as [[d|] l]; cbn [fst snd] in *; rewrite <- E; eauto.
Qed.

Lemma visit_all_ok g iu iv i sd xs ys b r : forall vs last, (forall v, In v vs -> is_sample xs ys r v) -> (last < 4)%nat ->
  visit_all g iu iv i sd xs ys b last vs =
  Some (flat_map (fun v => match (if kept i sd b v then fst (sample g iu iv 0 (at_ sd v)) else None) with
                           | Some d => [(v, d)] | None => [] end) vs).
Proof.
  induction vs as [|v vs IH]; intros last H L; cbn [visit_all flat_map]; [reflexivity|].
  destruct (visit_ok g iu iv i sd xs ys b r last v (H v (or_introl eq_refl)) L) as (h & l & E & L' & Eh).
  rewrite E, (IH l (fun v' I => H v' (or_intror I)) L'). rewrite Eh. reflexivity.
Qed.

Lemma render_ok g iu iv i sd xs ys r : 0 < xs -> 0 < ys ->
  exists hs, render_static g iu iv i sd xs ys r = Some hs /\ NoDup (map fst hs) /\
    forall v d, In (v, d) hs <->
      In v (visits (calculate_bound (vertices g iu iv)) r xs ys) /\
      kept i sd (calculate_bound (vertices g iu iv)) v = true /\ fst (sample g iu iv 0 (at_ sd v)) = Some d.
Proof.
  intros Hx Hy. unfold render_static. set (b := calculate_bound (vertices g iu iv)).
  rewrite (visit_all_ok g iu iv i sd xs ys b r) by (try lia; intros v H; exact (visits_ok b r xs ys v Hx Hy H)).
  eexists. split; [reflexivity|]. split.
  - pose proof (visits_nodup b r xs ys Hx) as N.
    induction N as [|v vs Nv N IH]; cbn [flat_map map]; [constructor|].
    rewrite map_app. apply NoDup_app_disj; [| exact IH|].
    + destruct (if kept i sd b v then _ else _); cbn [map]; repeat constructor; cbn [In]; tauto.
    + intros w W1 W2. apply in_map_iff in W2. destruct W2 as ((w' & d) & E & W2). cbn [fst] in E. subst w'.
      apply in_flat_map in W2. destruct W2 as (v' & V' & W2).
      assert (v' = w) by (destruct (if kept i sd b v' then _ else _); cbn [In] in W2; [|tauto]; destruct W2 as [W2|[]]; congruence).
      assert (v = w) by (destruct (if kept i sd b v then _ else _); cbn [map In fst] in W1; [|tauto]; destruct W1 as [W1|[]]; congruence).
      congruence.
  - intros v d. rewrite in_flat_map. split.
    + intros (v' & V' & H). destruct (kept i sd b v') eqn:K; [|destruct H].
      destruct (fst (sample g iu iv 0 (at_ sd v'))) as [d'|] eqn:E; [|destruct H].
      destruct H as [H|[]]. injection H as -> ->. auto.
    + intros (V & K & E). exists v. split; [exact V|]. rewrite K, E. left. reflexivity.
Qed.

Lemma Qminb_le a b : (Qminb a b <= a)%Q /\ (Qminb a b <= b)%Q.
Proof. unfold Qminb. destruct (Qle_bool a b) eqn:E; [apply Qle_bool_iff in E|apply Qleb_false in E]; split; lra. Qed.
Lemma Qmaxb_ge a b : (a <= Qmaxb a b)%Q /\ (b <= Qmaxb a b)%Q.
Proof. unfold Qmaxb. destruct (Qle_bool a b) eqn:E; [apply Qle_bool_iff in E|apply Qleb_false in E]; split; lra. Qed.

Lemma min4_le a b c d : (min4 a b c d <= a /\ min4 a b c d <= b /\ min4 a b c d <= c /\ min4 a b c d <= d)%Q.
Proof.
  unfold min4. pose proof (Qminb_le a b). pose proof (Qminb_le (Qminb a b) c). pose proof (Qminb_le (Qminb (Qminb a b) c) d).
  repeat split; lra.
Qed.
Lemma max4_ge a b c d : (a <= max4 a b c d /\ b <= max4 a b c d /\ c <= max4 a b c d /\ d <= max4 a b c d)%Q.
Proof.
  unfold max4. pose proof (Qmaxb_ge a b). pose proof (Qmaxb_ge (Qmaxb a b) c). pose proof (Qmaxb_ge (Qmaxb (Qmaxb a b) c) d).
  repeat split; lra.
Qed.

Open Scope Q_scope.
Lemma in_bound g m s : in_mpg g m s ->
  let b := calculate_bound (vertices g (fst m) (snd m)) in
  bminx b <= fst s <= bmaxx b /\ bminy b <= snd s <= bmaxy b.
Proof.
  intro H. cbv zeta. set (b := calculate_bound (vertices g (fst m) (snd m))).
  assert (C : forall k, corner m k -> bminx b <= gx g k <= bmaxx b /\ bminy b <= gy g k <= bmaxy b).
  { intros k K. apply corner_cases in K. unfold b, calculate_bound. cbn [bminx bmaxx bminy bmaxy vertices].
    destruct m as [i j]. cbn [fst snd] in *.
    pose proof (min4_le (px (gp g i j)) (px (gp g (S i) j)) (px (gp g (S i) (S j))) (px (gp g i (S j)))) as L1.
    pose proof (max4_ge (px (gp g i j)) (px (gp g (S i) j)) (px (gp g (S i) (S j))) (px (gp g i (S j)))) as L2.
    pose proof (min4_le (py (gp g i j)) (py (gp g (S i) j)) (py (gp g (S i) (S j))) (py (gp g i (S j)))) as L3.
    pose proof (max4_ge (py (gp g i j)) (py (gp g (S i) j)) (py (gp g (S i) (S j))) (py (gp g i (S j)))) as L4.
    unfold gx, gy. destruct K as [->|[->|[->| ->]]]; cbn [fst snd]; tauto. }
  pose proof (spanned_nonneg g (corner m) s (bminx b, 0) (bminx b, -1) H) as S1.
  pose proof (spanned_nonneg g (corner m) s (bmaxx b, 0) (bmaxx b, 1) H) as S2.
  pose proof (spanned_nonneg g (corner m) s (0, bminy b) (1, bminy b) H) as S3.
  pose proof (spanned_nonneg g (corner m) s (0, bmaxy b) (-1, bmaxy b) H) as S4.
  unfold side, gxy in S1, S2, S3, S4. cbn [fst snd] in S1, S2, S3, S4.
  specialize (S1 ltac:(intros k K; specialize (C k K); lra)).
  specialize (S2 ltac:(intros k K; specialize (C k K); lra)).
  specialize (S3 ltac:(intros k K; specialize (C k K); lra)).
  specialize (S4 ltac:(intros k K; specialize (C k K); lra)).
  lra.
Qed.

Lemma visited b r xs ys sd v : (0 < xs)%Z -> (0 < ys)%Z -> in_cells xs ys r (pos sd) -> is_sample xs ys r v ->
  bminx b <= fst (at_ sd v) <= bmaxx b -> bminy b <= snd (at_ sd v) <= bmaxy b -> In v (visits b r xs ys).
Proof.
  intros Hx Hy IC IS BX BY. destruct v as [[x y] k]. destruct IS as (Sx & Sy & Sk). cbn [at_] in *.
  set (m := (k mod xs)%Z). set (n := (k / xs)%Z).
  assert (Em : (0 <= m < xs)%Z) by (apply Z.mod_pos_bound; exact Hx).
  assert (Ek : k = (n * xs + m)%Z) by (unfold m, n; pose proof (Z.div_mod k xs ltac:(lia)); lia).
  assert (En : (0 <= n < ys)%Z).
  { unfold n. split; [apply Z.div_pos; lia|]. apply Z.div_lt_upper_bound; lia. }
  destruct (IC x y m n Sx Sy Em En) as [IX IY]. rewrite <- Ek in IX, IY.
  apply visits_in.
  destruct (extent (bminx b) (bmaxx b) (xmin r) (xmax r) xs) as [[[sX eX] im] em] eqn:E1.
  destruct (extent (bminy b) (bmaxy b) (ymin r) (ymax r) ys) as [[[sY eY] ni] en] eqn:E2.
  destruct (extent_visits _ _ _ _ _ _ _ _ _ x m _ E1 Hx Sx Em IX (proj1 BX) (proj2 BX)) as [A1 A2].
  destruct (extent_visits _ _ _ _ _ _ _ _ _ y n _ E2 Hy Sy En IY (proj1 BY) (proj2 BY)) as [A3 A4].
  split; [exact A1|]. split; [exact A3|]. exists m, n. auto.
Qed.

Lemma contains2d_iff b s : contains2d b s = true <-> bminx b <= fst s <= bmaxx b /\ bminy b <= snd s <= bmaxy b.
Proof.
  unfold contains2d. rewrite negb_true_iff, !orb_false_iff, !Qltb_false. tauto.
Qed.

(** Triangles *)
Lemma contains_tri o p s : degenerate o = true ->
  fst (contains o p 0 s) <> None <->
  0 < side (xy (p (c0 o))) (xy (p (c2 o))) s /\ 0 < side (xy (p (c2 o))) (xy (p (c4 o))) s /\
  0 <= side (xy (p (c4 o))) (xy (p (c0 o))) s.
Proof.
  intro Hd.
  assert (E : fst (contains o p 0 s) <> None <-> failing_edge (cache_edge o p) s 4 0 = None).
  { unfold contains. destruct (failing_edge (cache_edge o p) s 4 0); cbn [fst]; split; congruence. }
  rewrite E, failing_edge_all by lia.
  assert (E0 := rejects_excl (cache_edge o p) 0 s (p (c0 o)) (p (c2 o)) ltac:(lia) eq_refl).
  assert (E1 := rejects_excl (cache_edge o p) 1 s (p (c2 o)) (p (c4 o)) ltac:(lia) eq_refl).
  assert (E2 := rejects_incl (cache_edge o p) 2 s (p (c4 o)) (p (c0 o)) ltac:(lia) ltac:(cbn [cache_edge]; rewrite Hd; reflexivity)).
  assert (E3 := rejects_incl (cache_edge o p) 3 s (p (c4 o)) (p (c0 o)) ltac:(lia) ltac:(cbn [cache_edge]; rewrite Hd; reflexivity)).
  split.
  - intro H. rewrite <- E0, <- E1, <- E2. repeat split; apply H; lia.
  - intros (H0 & H1 & H2) k Hk. destruct k as [|[|[|[|k]]]]; [apply E0|apply E1|apply E2|apply E3|lia]; assumption.
Qed.

Lemma side_total a b c s : side a b s + side b c s + side c a s == side a b c.
Proof. unfold side. ring. Qed.

Lemma tri_spanned g (x y z : nat * nat) s :
  0 < side (gxy g x) (gxy g y) s -> 0 < side (gxy g y) (gxy g z) s -> 0 <= side (gxy g z) (gxy g x) s ->
  spanned g (fun k => k = x \/ k = y \/ k = z) s.
Proof.
  intros H1 H2 H3. set (D := side (gxy g x) (gxy g y) (gxy g z)).
  assert (ED : side (gxy g x) (gxy g y) s + side (gxy g y) (gxy g z) s + side (gxy g z) (gxy g x) s == D) by apply side_total.
  assert (DP : 0 < D) by lra. assert (Dn : ~ D == 0) by lra.
  assert (div : forall a, 0 <= a -> 0 <= a / D) by (intros a Ha; apply Qle_shift_div_l; [exact DP|lra]).
  exists [(side (gxy g y) (gxy g z) s / D, x); (side (gxy g z) (gxy g x) s / D, y); (side (gxy g x) (gxy g y) s / D, z)].
  split; [|split; [|split]]; cbn [map qsum fold_right fst snd].
  - repeat (apply Forall_cons; [cbn [fst snd]; split; [apply div; lra|tauto]|]). apply Forall_nil.
  - setoid_replace (side (gxy g y) (gxy g z) s / D + (side (gxy g z) (gxy g x) s / D + (side (gxy g x) (gxy g y) s / D + 0)))
      with ((side (gxy g x) (gxy g y) s + side (gxy g y) (gxy g z) s + side (gxy g z) (gxy g x) s) / D) by (field; exact Dn).
    rewrite ED. field. exact Dn.
  - setoid_replace (fst s) with (fst s * D / D) by (field; exact Dn).
    setoid_replace (side (gxy g y) (gxy g z) s / D * gx g x + (side (gxy g z) (gxy g x) s / D * gx g y + (side (gxy g x) (gxy g y) s / D * gx g z + 0)))
      with ((side (gxy g y) (gxy g z) s * gx g x + side (gxy g z) (gxy g x) s * gx g y + side (gxy g x) (gxy g y) s * gx g z) / D) by (field; exact Dn).
    assert (E : fst s * D == side (gxy g y) (gxy g z) s * gx g x + side (gxy g z) (gxy g x) s * gx g y + side (gxy g x) (gxy g y) s * gx g z)
      by (unfold D, side, gxy; cbn [fst snd]; ring).
    rewrite E. reflexivity.
  - setoid_replace (snd s) with (snd s * D / D) by (field; exact Dn).
    setoid_replace (side (gxy g y) (gxy g z) s / D * gy g x + (side (gxy g z) (gxy g x) s / D * gy g y + (side (gxy g x) (gxy g y) s / D * gy g z + 0)))
      with ((side (gxy g y) (gxy g z) s * gy g x + side (gxy g z) (gxy g x) s * gy g y + side (gxy g x) (gxy g y) s * gy g z) / D) by (field; exact Dn).
    assert (E : snd s * D == side (gxy g y) (gxy g z) s * gy g x + side (gxy g z) (gxy g x) s * gy g y + side (gxy g x) (gxy g y) s * gy g z)
      by (unfold D, side, gxy; cbn [fst snd]; ring).
    rewrite E. reflexivity.
Qed.

(** The order of a triangle with the vertices number 0, [cb], [cc] *)
Definition tri_order (p : nat -> pt3) (cb cc : nat) : MpgModel.order :=
  if Qle_bool 0 (side (xy (p 0%nat)) (xy (p cb)) (xy (p cc))) then mkorder 0 cb cc 0 true else mkorder 0 cc cb 0 true.

Lemma tri_flip a b c : Qle_bool ((py a - py b) * (px b - px c)) ((px a - px b) * (py b - py c)) =
  Qle_bool 0 (side (xy a) (xy b) (xy c)).
Proof.
  assert (E : side (xy a) (xy b) (xy c) == (px a - px b) * (py b - py c) - (py a - py b) * (px b - px c))
    by (unfold side, xy; cbn [fst snd]; ring).
  destruct (Qle_bool ((py a - py b) * (px b - px c)) _) eqn:E1; symmetry.
  - apply Qle_bool_iff in E1. apply Qle_bool_iff. rewrite E. lra.
  - apply Qleb_false in E1. apply Qleb_false. rewrite E. lra.
Qed.

Lemma coincide_close g a b : coincide g a b -> close_ (gp g (fst a) (snd a)) (gp g (fst b) (snd b)) = true.
Proof.
  intros (E1 & E2 & E3). unfold close_. apply Qltb_iff. unfold dist2, tiny. rewrite E1, E2, E3.
  setoid_replace ((px (gp g (fst b) (snd b)) - px (gp g (fst b) (snd b))) * (px (gp g (fst b) (snd b)) - px (gp g (fst b) (snd b))) +
    (py (gp g (fst b) (snd b)) - py (gp g (fst b) (snd b))) * (py (gp g (fst b) (snd b)) - py (gp g (fst b) (snd b))) +
    (pz (gp g (fst b) (snd b)) - pz (gp g (fst b) (snd b))) * (pz (gp g (fst b) (snd b)) - pz (gp g (fst b) (snd b)))) with 0 by ring.
  reflexivity.
Qed.

(** Which three vertices are kept *)
Definition kept_b (n : nat) : nat := match n with O => 3 | 1 => 3 | _ => 1 end%nat.
Definition kept_c (n : nat) : nat := match n with O => 2 | 1 => 2 | 2 => 2 | _ => 3 end%nat.

Lemma triangle_order g i j n : triangle g (i, j) n ->
  vertex_order (vertices g i j) = tri_order (vertices g i j) (kept_b n) (kept_c n).
Proof.
  intros (Hn & C & L). apply coincide_close in C.
  assert (L' : forall k, (k < 4)%nat -> k <> n -> close_ (gp g (fst (around (i, j) k)) (snd (around (i, j) k)))
      (gp g (fst (around (i, j) (Nat.modulo (S k) 4))) (snd (around (i, j) (Nat.modulo (S k) 4)))) = false)
    by (intros k Hk NE; apply long_not_close, L; assumption).
  unfold vertex_order, tri_order.
  destruct n as [|[|[|[|n]]]]; [| | | |lia]; cbn [kept_b kept_c];
    rewrite <- tri_flip;
    pose proof (L' 0%nat) as L0; pose proof (L' 1%nat) as L1; pose proof (L' 2%nat) as L2; pose proof (L' 3%nat) as L3;
    cbn [around Nat.modulo Nat.divmod fst snd Nat.sub] in *; cbn [vertices].
  - rewrite C. reflexivity.
  - rewrite (L0 ltac:(lia) ltac:(lia)), C. reflexivity.
  - rewrite (L0 ltac:(lia) ltac:(lia)), (L1 ltac:(lia) ltac:(lia)), C. reflexivity.
  - rewrite (L0 ltac:(lia) ltac:(lia)), (L1 ltac:(lia) ltac:(lia)), (L2 ltac:(lia) ltac:(lia)), C. reflexivity.
Qed.

Lemma hit_contains g m s : triangular g = false ->
  is_hit g m s <-> fst (contains (vertex_order (vertices g (fst m) (snd m))) (vertices g (fst m) (snd m)) 0 s) <> None.
Proof.
  intro HT. unfold is_hit, sample. rewrite HT. destruct (contains _ _ 0 s) as [[d|] l]; reflexivity.
Qed.

(** Number of a vertex in the model and around the micropolygon *)
Definition as_corner (m : nat * nat) (k : nat) : nat * nat :=
  let '(i, j) := m in match k with O => (i, j) | 1%nat => (S i, j) | 2%nat => (i, S j) | _ => (S i, S j) end.

Lemma as_corner_ok g i j k : xy (vertices g i j k) = gxy g (as_corner (i, j) k).
Proof. destruct k as [|[|[|k]]]; reflexivity. Qed.

Lemma as_corner_corner m k : corner m (as_corner m k).
Proof. destruct m as [i j], k as [|[|[|k]]]; unfold corner; cbn [as_corner fst snd]; auto. Qed.

Lemma triangle_hit g m n s : triangular g = false -> triangle g m n -> is_hit g m s <->
  let x := gxy g (as_corner m 0) in let y := gxy g (as_corner m (kept_b n)) in let z := gxy g (as_corner m (kept_c n)) in
  (0 <= side x y z /\ 0 < side x y s /\ 0 < side y z s /\ 0 <= side z x s) \/
  (side x y z < 0 /\ 0 < side x z s /\ 0 < side z y s /\ 0 <= side y x s).
Proof.
  intros HT T. destruct m as [i j]. rewrite hit_contains by exact HT. cbn [fst snd]. rewrite (triangle_order g i j n T).
  unfold tri_order. rewrite !as_corner_ok. cbv zeta.
  destruct (Qle_bool 0 _) eqn:E.
  - rewrite contains_tri by reflexivity. cbn [c0 c2 c4]. rewrite !as_corner_ok. apply Qle_bool_iff in E. split; [tauto|].
    intros [H|[H _]]; [tauto|]. lra.
  - rewrite contains_tri by reflexivity. cbn [c0 c2 c4]. rewrite !as_corner_ok. apply Qleb_false in E. split; [tauto|].
    intros [[H _]|H]; [|tauto]. lra.
Qed.

Lemma triangle_hit_inside g m n s : triangular g = false -> triangle g m n -> is_hit g m s -> in_mpg g m s.
Proof.
  intros HT T H. apply (triangle_hit g m n s HT T) in H. cbv zeta in H.
  destruct H as [(_ & H1 & H2 & H3)|(_ & H1 & H2 & H3)];
    (eapply spanned_weaken; [|exact (tri_spanned g _ _ _ s H1 H2 H3)]);
    cbv beta; intros k [->|[->| ->]]; apply as_corner_corner.
Qed.

Lemma side_mean x y z a b c s : a + b + c == 1 ->
  fst s == a * fst x + b * fst y + c * fst z -> snd s == a * snd x + b * snd y + c * snd z ->
  side x y s == c * side x y z /\ side y z s == a * side x y z /\ side z x s == b * side x y z.
Proof.
  intros H Hx Hy. unfold side. rewrite Hx, Hy. assert (E : a == 1 - b - c) by lra. rewrite E. repeat split; ring.
Qed.

Lemma triangle_inside_hit g m n s : triangular g = false -> triangle g m n -> has_area g m n -> strictly_inside g m s -> is_hit g m s.
Proof.
  intros HT T HA (a & b & c & d & Pa & Pb & Pc & Pd & E1 & Ex & Ey). apply (triangle_hit g m n s HT T). cbv zeta.
  assert (W : exists wx wy wz, 0 < wx /\ 0 < wy /\ 0 < wz /\ wx + wy + wz == 1 /\
    fst s == wx * gx g (as_corner m 0) + wy * gx g (as_corner m (kept_b n)) + wz * gx g (as_corner m (kept_c n)) /\
    snd s == wx * gy g (as_corner m 0) + wy * gy g (as_corner m (kept_b n)) + wz * gy g (as_corner m (kept_c n)) /\
    ~ side (gxy g (as_corner m 0)) (gxy g (as_corner m (kept_b n))) (gxy g (as_corner m (kept_c n))) == 0).
  { destruct T as (Hn & (C1 & C2 & _) & _). destruct m as [i j]. unfold has_area, turn in HA. unfold side, gxy, gx, gy in *.
    destruct n as [|[|[|[|n]]]]; [| | | |lia]; cbn [kept_b kept_c as_corner around Nat.modulo Nat.divmod Nat.add Nat.sub fst snd] in *.
    - exists (a + b), c, d. do 4 (split; [lra|]). split; [|split].
      + rewrite Ex, <- C1. ring.
      + rewrite Ey, <- C2. ring.
      + intro E. apply HA. rewrite <- C1, <- C2. rewrite <- E. ring.
    - exists a, (b + c), d. do 4 (split; [lra|]). split; [|split].
      + rewrite Ex, C1. ring.
      + rewrite Ey, C2. ring.
      + intro E. apply HA. rewrite <- E. ring.
    - exists a, b, (c + d). do 4 (split; [lra|]). split; [|split].
      + rewrite Ex, C1. ring.
      + rewrite Ey, C2. ring.
      + intro E. apply HA. rewrite <- E. ring.
    - exists (a + d), b, c. do 4 (split; [lra|]). split; [|split].
      + rewrite Ex, C1. ring.
      + rewrite Ey, C2. ring.
      + intro E. apply HA. rewrite <- E. ring. }
  clear E1 Ex Ey. destruct W as (wx & wy & wz & P1 & P2 & P3 & E1 & Ex & Ey & NZ).
  set (x := gxy g (as_corner m 0)) in *. set (y := gxy g (as_corner m (kept_b n))) in *. set (z := gxy g (as_corner m (kept_c n))) in *.
  destruct (side_mean x y z wx wy wz s E1 Ex Ey) as (S1 & S2 & S3).
  assert (R : forall p q r, side p q r == - side q p r) by (intros; unfold side; ring).
  destruct (Qlt_le_dec (side x y z) 0) as [N|N].
  - right. rewrite (R x z s), (R z y s), (R y x s), S1, S2, S3.
    pose proof (Qmult_lt_0_compat wx (- side x y z) P1 ltac:(lra)).
    pose proof (Qmult_lt_0_compat wy (- side x y z) P2 ltac:(lra)).
    pose proof (Qmult_lt_0_compat wz (- side x y z) P3 ltac:(lra)). repeat split; lra.
  - left. rewrite S1, S2, S3. assert (0 < side x y z) by lra.
    pose proof (Qmult_lt_0_compat wx (side x y z) P1 ltac:(lra)).
    pose proof (Qmult_lt_0_compat wy (side x y z) P2 ltac:(lra)).
    pose proof (Qmult_lt_0_compat wz (side x y z) P3 ltac:(lra)). repeat split; lra.
Qed.

(** Triangular grids *)
Lemma beyond_split_iff g s : ~ side (gxy g (0, 0)%nat) (gxy g (cu g, 0)%nat) (gxy g (0%nat, cv g)) == 0 ->
  beyond_split g s = false <-> same_side (gxy g (cu g, 0)%nat) (gxy g (0%nat, cv g)) (gxy g (0, 0)%nat) s.
Proof.
  intro NZ. unfold beyond_split, split_line, same_side.
  fold (side (gxy g (cu g, 0%nat)) (gxy g (0%nat, cv g)) (gxy g (0, 0)%nat)).
  fold (side (gxy g (cu g, 0%nat)) (gxy g (0%nat, cv g)) s).
  set (D := side (gxy g (cu g, 0%nat)) (gxy g (0%nat, cv g)) (gxy g (0, 0)%nat)).
  assert (ED : (px (gp g (cu g) 0) - px (gp g 0 0)) * (py (gp g 0 (cv g)) - py (gp g 0 0)) -
               (py (gp g (cu g) 0) - py (gp g 0 0)) * (px (gp g 0 (cv g)) - px (gp g 0 0)) == D)
    by (unfold D, side, gxy, gx, gy; cbn [fst snd]; ring).
  assert (DN : ~ D == 0) by (intro E; apply NZ; rewrite <- E; unfold D, side, gxy, gx, gy; cbn [fst snd]; ring).
  clear NZ.
  assert (pos : forall d e : Q, 0 < d -> (0 < d * e <-> 0 < e)).
  { intros d e Hd. split; intro H.
    - destruct (Qlt_le_dec 0 e) as [L|L]; [exact L|]. pose proof (Qmult_le_0_compat d (- e) ltac:(lra) ltac:(lra)). lra.
    - apply Qmult_lt_0_compat; assumption. }
  destruct (Qle_bool 0 _) eqn:E.
  - apply Qle_bool_iff in E. rewrite Qleb_false. rewrite pos by lra.
    unfold side, gxy, gx, gy. cbn [fst snd]. split; intro; lra.
  - apply Qleb_false in E. rewrite Qleb_false.
    setoid_replace (D * side (gxy g (cu g, 0%nat)) (gxy g (0%nat, cv g)) s) with
      ((- D) * - side (gxy g (cu g, 0%nat)) (gxy g (0%nat, cv g)) s) by ring. rewrite pos by lra.
    unfold side, gxy, gx, gy. cbn [fst snd]. split; intro; lra.
Qed.

Section Stored.
  Variables (g : grid) (r : region) (xs ys : Z) (sd : samples) (inf : mpg_info).
  Hypothesis Hxs : (0 < xs)%Z.
  Hypothesis Hys : (0 < ys)%Z.
  Hypothesis HC : in_cells xs ys r (pos sd).

  Definition stored (m : nat * nat) (v : Z * Z * Z) (d : Q) : Prop :=
    exists hs, render_static g (fst m) (snd m) inf sd xs ys r = Some hs /\ In (v, d) hs.

  Lemma stored_iff m v d : (forall s, is_hit g m s -> in_mpg g m s) -> is_sample xs ys r v ->
    stored m v d <->
    fst (sample g (fst m) (snd m) 0 (at_ sd v)) = Some d /\
    kept inf sd (calculate_bound (vertices g (fst m) (snd m))) v = true.
  Proof.
    intros HI IS. destruct (render_ok g (fst m) (snd m) inf sd xs ys r Hxs Hys) as (hs & E & _ & HH).
    unfold stored. split.
    - intros (hs' & E' & H). rewrite E in E'. injection E' as <-. apply HH in H. tauto.
    - intros [H K]. exists hs. split; [exact E|]. apply HH. split; [|auto].
      assert (IM : in_mpg g m (at_ sd v)).
      { apply HI. unfold is_hit. rewrite H. discriminate. }
      destruct (in_bound g m _ IM) as [B1 B2]. apply (visited _ r xs ys sd v); assumption.
  Qed.

  Lemma stored_samples m x y k d last : (forall s, is_hit g m s -> in_mpg g m s) -> (last < 4)%nat -> is_sample xs ys r (x, y, k) ->
    stored m (x, y, k) d <->
    fst (sample g (fst m) (snd m) last (pos sd x y k)) = Some d /\
    ~ (cullable inf = true /\ occl_z sd x y k < bminz (calculate_bound (vertices g (fst m) (snd m)))) /\
    ~ (0 <= lod0 inf /\ ~ (lod0 inf <= detail sd x y k < lod1 inf)).
  Proof.
    intros HI Hl IS. rewrite (stored_iff m (x, y, k) d HI IS).
    cbn [at_ kept]. rewrite (sample_last g (fst m) (snd m) last 0 _ Hl ltac:(lia)).
    split.
    - intros [H K]. split; [exact H|]. rewrite !andb_true_iff, !negb_true_iff in K. destruct K as [[_ K1] K2].
      split.
      + intros [C1 C2]. rewrite C1 in K1. apply Qltb_iff in C2. rewrite C2 in K1. discriminate.
      + intros [L1 L2]. apply Qle_bool_iff in L1. rewrite L1 in K2. cbn [andb] in K2. apply orb_false_iff in K2.
        destruct K2 as [K2 K3]. apply Qltb_false in K2. apply Qleb_false in K3. tauto.
    - intros (H & K1 & K2). split; [exact H|]. rewrite !andb_true_iff, !negb_true_iff. repeat split.
      + apply contains2d_iff. apply in_bound. apply HI. unfold is_hit. rewrite H. discriminate.
      + destruct (cullable inf); [|reflexivity]. cbn [andb]. apply Qltb_false. apply Qnot_lt_le. intro C. apply K1. auto.
      + destruct (Qle_bool 0 (lod0 inf)) eqn:L; [|reflexivity]. apply Qle_bool_iff in L. cbn [andb]. apply orb_false_iff.
        rewrite Qltb_false, Qleb_false.
        destruct (Qlt_le_dec (detail sd x y k) (lod0 inf)) as [D|D]; [exfalso; apply K2; split; [exact L|lra]|].
        destruct (Qlt_le_dec (detail sd x y k) (lod1 inf)) as [D'|D']; [tauto|]. exfalso. apply K2. split; [exact L|lra].
  Qed.
End Stored.

(** Depths *)
Lemma inv_bilinear_exact a b c d p : fst d == fst b + fst c - fst a -> snd d == snd b + snd c - snd a ->
  ~ vcross (vsub b a) (vsub c a) == 0 ->
  fst (inv_bilinear a b c d p) == vcross (vsub p a) (vsub c a) / vcross (vsub b a) (vsub c a) /\
  snd (inv_bilinear a b c d p) == vcross (vsub b a) (vsub p a) / vcross (vsub b a) (vsub c a).
Proof.
  intros D1 D2 ND. unfold inv_bilinear.
  set (e := vsub b a) in *. set (f := vsub c a) in *. set (gg := vadd (vsub (vscale (-1) e) c) d).
  assert (G1 : fst gg == 0) by (unfold gg, vadd, vsub, vscale, e; cbn [fst snd]; rewrite D1; unfold vsub; cbn [fst snd]; ring).
  assert (G2 : snd gg == 0) by (unfold gg, vadd, vsub, vscale, e; cbn [fst snd]; rewrite D2; unfold vsub; cbn [fst snd]; ring).
  clearbody gg.
  assert (STEP : forall (check : bool) uv,
    let st := vsub uv (let m1 := vadd e (vscale (snd uv) gg) in let m2 := vadd f (vscale (fst uv) gg) in
                let r := vsub (vadd (vadd (vadd a (vscale (fst uv) e)) (vscale (snd uv) f)) (vscale (fst uv * snd uv) gg)) p in
                let det := vcross m1 m2 in
                let inv := if check && Qeq_bool det 0 then det else / det in
                (inv * vcross r m2, inv * - vcross r m1)) in
    fst st == vcross (vsub p a) f / vcross e f /\ snd st == vcross e (vsub p a) / vcross e f).
  { intros check uv. cbv zeta.
    assert (Dt : vcross (vadd e (vscale (snd uv) gg)) (vadd f (vscale (fst uv) gg)) == vcross e f).
    { unfold vcross, vadd, vscale. cbn [fst snd]. rewrite G1, G2. ring. }
    replace (check && Qeq_bool (vcross (vadd e (vscale (snd uv) gg)) (vadd f (vscale (fst uv) gg))) 0) with false.
    2:{ symmetry. apply andb_false_iff. right. destruct (Qeq_bool _ 0) eqn:Z; [|reflexivity]. apply Qeq_bool_iff in Z.
        rewrite Dt in Z. contradiction. }
    set (det := vcross (vadd e (vscale (snd uv) gg)) (vadd f (vscale (fst uv) gg))) in *. clearbody det.
    assert (IE : / det == / vcross e f) by (rewrite Dt; reflexivity).
    set (inv := / det) in *. clearbody inv. set (D := vcross e f) in *.
    assert (DD : D == fst e * snd f - snd e * fst f) by reflexivity. clearbody D.
    unfold vcross, vadd, vsub, vscale in *. cbn [fst snd] in *. rewrite IE.
    split.
    - transitivity (((fst p - fst a) * snd f - (snd p - snd a) * fst f) / D + (fst uv - fst uv * ((fst e * snd f - snd e * fst f) / D))).
      + unfold Qdiv. rewrite G1, G2. ring.
      + rewrite <- DD. field. exact ND.
    - transitivity ((fst e * (snd p - snd a) - snd e * (fst p - fst a)) / D + (snd uv - snd uv * ((fst e * snd f - snd e * fst f) / D))).
      + unfold Qdiv. rewrite G1, G2. ring.
      + rewrite <- DD. field. exact ND. }
  destruct (Qltb _ _).
  - apply (STEP false).
  - apply (STEP true).
Qed.

Lemma Qdiv_range x y d : (0 < d /\ 0 <= x /\ 0 <= y) \/ (d < 0 /\ x <= 0 /\ y <= 0) -> x + y == d -> 0 <= x / d <= 1.
Proof.
  intros H E.
  assert (dn : ~ d == 0) by (destruct H as [(?&?&?)|(?&?&?)]; lra).
  assert (P : 0 <= x / d /\ 0 <= y / d).
  { destruct H as [(H1 & H2 & H3)|(H1 & H2 & H3)].
    - split; apply Qle_shift_div_l; lra.
    - assert (X : x / d == (- x) / (- d)) by (field; lra). assert (Y : y / d == (- y) / (- d)) by (field; lra).
      rewrite X, Y. split; apply Qle_shift_div_l; lra. }
  assert (S : x / d + y / d == 1) by (rewrite <- E in *; field; lra).
  lra.
Qed.

Section Depth.
  Variables (g : grid) (sign : Q).
  Hypothesis HT : triangular g = false.
  Hypothesis HL : long_sides g.
  Hypothesis HS : same_way g sign.

  (** The sides, seen from the sign of the turns *)
  Lemma hit_sides i j s : is_mpg g (i, j) -> in_mpg g (i, j) s ->
    let a := gxy g (i, j) in let b := gxy g (S i, j) in let c := gxy g (S i, S j) in let d := gxy g (i, S j) in
    (0 < side a b d /\ 0 <= side a b s /\ 0 <= side b c s /\ 0 <= side c d s /\ 0 <= side d a s) \/
    (side a b d < 0 /\ side a b s <= 0 /\ side b c s <= 0 /\ side c d s <= 0 /\ side d a s <= 0).
  Proof.
    intros M H. cbv zeta. destruct (all_turns g sign HS) as [T|T].
    - left. destruct (in_closed g T (i, j) s M H) as (C1 & C2 & C3 & C4). cbn [fst snd] in *.
      destruct (corners_in g T (i, j) M) as (_ & K & _). cbn [fst snd] in K. tauto.
    - right. assert (T' : forall m, is_mpg (transposed g) m -> turns (transposed g) 1 m).
      { intros k K. rewrite <- (swap_swap k) in *. rewrite is_mpg_swap in K. apply turns_swap, T, K. }
      rewrite <- is_mpg_swap in M. rewrite <- in_mpg_swap in H.
      destruct (in_closed (transposed g) T' (swap (i, j)) s M H) as (C1 & C2 & C3 & C4).
      destruct (corners_in (transposed g) T' (swap (i, j)) M) as (_ & K & _).
      cbn [fst snd swap] in *. unfold gxy, gx, gy, transposed in C1, C2, C3, C4, K. cbn [fst snd gp] in C1, C2, C3, C4, K.
      unfold side, gxy, gx, gy in *. cbn [fst snd] in *. change (snd (swap (i, j))) with i in *.
      change (fst (swap (i, j))) with j in *. repeat split; lra.
  Qed.

  Lemma depth_of m s l d : (l < 4)%nat -> is_mpg g m -> parallelogram g m ->
    fst (sample g (fst m) (snd m) l s) = Some d ->
    exists u v, 0 <= u <= 1 /\ 0 <= v <= 1 /\ point_of g m u v s d.
  Proof.
    intros Hl M PA H. rewrite (sample_last g (fst m) (snd m) l 0 s Hl ltac:(lia)) in H.
    assert (HI : is_hit g m s) by (unfold is_hit; rewrite H; discriminate).
    pose proof (hit_inside g sign HT HL HS m s M HI) as IM.
    destruct m as [i j]. cbn [fst snd] in *. pose proof (hit_sides i j s M IM) as SD. cbv zeta in SD.
    destruct PA as [PX PY].
    unfold sample in H. rewrite HT in H. cbn [andb] in H. unfold contains in H.
    destruct (failing_edge _ s 4 0); [discriminate|]. cbn [fst] in H. cbn [vertices] in H. injection H as <-.
    set (A := gp g i j) in *. set (B := gp g (S i) j) in *. set (D := gp g i (S j)) in *. set (C := gp g (S i) (S j)) in *.
    unfold gx, gy in PX, PY. cbn [fst snd] in PX, PY. fold A B C D in PX, PY.
    unfold side, gxy, gx, gy in SD. cbn [fst snd] in SD. fold A B C D in SD.
    assert (ND : ~ vcross (vsub (xy B) (xy A)) (vsub (xy D) (xy A)) == 0).
    { unfold vcross, vsub, xy. cbn [fst snd]. destruct SD as [(S0 & _)|(S0 & _)]; lra. }
    destruct (inv_bilinear_exact (xy A) (xy B) (xy D) (xy C) s) as [U V]; [cbn [xy fst]; lra|cbn [xy snd]; lra|exact ND|].
    set (uv := inv_bilinear (xy A) (xy B) (xy D) (xy C) s) in *. clearbody uv. destruct uv as [u v]. cbn [fst snd] in U, V.
    unfold vcross, vsub, xy in U, V, ND. cbn [fst snd] in U, V, ND.
    set (det := (px B - px A) * (py D - py A) - (py B - py A) * (px D - px A)) in *.
    assert (CX : px C == px B + px D - px A) by lra. assert (CY : py C == py B + py D - py A) by lra.
    rewrite CX, CY in SD.
    exists u, v. split; [|split].
    - rewrite U. apply (Qdiv_range _ (det - ((fst s - px A) * (py D - py A) - (snd s - py A) * (px D - px A))) det); [|lra].
      unfold det in *. destruct SD as [(S0 & S1 & S2 & S3 & S4)|(S0 & S1 & S2 & S3 & S4)]; [left|right]; repeat split; lra.
    - rewrite V. apply (Qdiv_range _ (det - ((px B - px A) * (snd s - py A) - (py B - py A) * (fst s - px A))) det); [|lra].
      unfold det in *. destruct SD as [(S0 & S1 & S2 & S3 & S4)|(S0 & S1 & S2 & S3 & S4)]; [left|right]; repeat split; lra.
    - unfold point_of, mix2, gx, gy. cbn [fst snd]. fold A B C D.
      rewrite CX, CY. split; [|split].
      + rewrite U, V. unfold det in *. field. exact ND.
      + rewrite U, V. unfold det in *. field. exact ND.
      + unfold bilerp. cbn [fst snd]. ring.
  Qed.

  (** No point of a micropolygon is nearer than the bound. *)
  Lemma depth_bound m s d u v : 0 <= u <= 1 -> 0 <= v <= 1 -> point_of g m u v s d ->
    bminz (calculate_bound (vertices g (fst m) (snd m))) <= d.
  Proof.
    intros Hu Hv. destruct m as [i j]. unfold point_of, calculate_bound. cbn [fst snd vertices bminz]. intros (_ & _ & E).
    set (A := pz (gp g i j)) in *. set (B := pz (gp g (S i) j)) in *. set (D := pz (gp g i (S j))) in *. set (C := pz (gp g (S i) (S j))) in *.
    destruct (min4_le A B C D) as (L1 & L2 & L3 & L4). set (m := min4 A B C D) in *. clearbody m.
    rewrite E. unfold mix2.
    pose proof (Qmult_le_0_compat (1 - u) (1 - v) ltac:(lra) ltac:(lra)) as W1.
    pose proof (Qmult_le_0_compat u (1 - v) ltac:(lra) ltac:(lra)) as W2.
    pose proof (Qmult_le_0_compat (1 - u) v ltac:(lra) ltac:(lra)) as W3.
    pose proof (Qmult_le_0_compat u v ltac:(lra) ltac:(lra)) as W4.
    pose proof (Qmult_le_0_compat _ (A - m) W1 ltac:(lra)) as V1.
    pose proof (Qmult_le_0_compat _ (B - m) W2 ltac:(lra)) as V2.
    pose proof (Qmult_le_0_compat _ (D - m) W3 ltac:(lra)) as V3.
    pose proof (Qmult_le_0_compat _ (C - m) W4 ltac:(lra)) as V4.
    assert (S : (1 - u) * (1 - v) * (A - m) + u * (1 - v) * (B - m) + (1 - u) * v * (D - m) + u * v * (C - m) ==
                (1 - u) * (1 - v) * A + u * (1 - v) * B + (1 - u) * v * D + u * v * C - m) by ring.
    lra.
  Qed.
End Depth.

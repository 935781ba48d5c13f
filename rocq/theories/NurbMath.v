(** Basis functions when knots are inserted at the ends of a curve. *)

From Coq Require Import List Arith Bool QArith ZArith Lia Lqa Setoid.
From Verif Require Import TrimModel NurbModel NurbSpec NurbProofs.
Import ListNotations.
Local Open Scope nat_scope.

(** The basis functions of any sequence of knots, for a parameter in span [k]. *)
Fixpoint Nf (K : nat -> Q) (k : nat) (u : Q) (d i : nat) : Q :=
  match d with
  | O => if Nat.eqb i k then 1 else 0
  | Datatypes.S e =>
      (u - K i) / (K (i + d)%nat - K i) * Nf K k u e i +
      (K (i + d + 1)%nat - u) / (K (i + d + 1)%nat - K (i + 1)%nat) * Nf K k u e (i + 1)%nat
  end%Q.

Lemma N_Nf : forall c u k, spans c u k -> forall d i, i + d + 1 < List.length (knots c) ->
  (N c u d i == Nf (kn c) k u d i)%Q.
Proof.
  intros c u k (_ & _ & _ & _ & _ & S). induction d; intros i I; cbn [N Nf].
  - rewrite S by lia. reflexivity.
  - rewrite !IHd by lia. reflexivity.
Qed.

Lemma Nf_zero : forall K k u d i, k < i \/ i + d < k -> (Nf K k u d i == 0)%Q.
Proof.
  induction d; intros i O; cbn [Nf].
  - destruct (Nat.eqb_spec i k); [lia|reflexivity].
  - rewrite (IHd i), (IHd (i + 1)) by lia. ring.
Qed.

Lemma Nf_ext : forall K K' k u d i, (forall j, i <= j <= i + d + 1 -> (K j == K' j)%Q) ->
  (Nf K k u d i == Nf K' k u d i)%Q.
Proof.
  induction d; intros i E; cbn [Nf]; [reflexivity|].
  rewrite (IHd i), (IHd (i + 1)) by (intros; apply E; lia).
  rewrite !E by lia. reflexivity.
Qed.

Lemma Nf_shift : forall K r k u d i, (Nf (fun m => K (m + r)%nat) k u d i == Nf K (k + r) u d (i + r))%Q.
Proof.
  induction d; intros i; cbn [Nf].
  - destruct (Nat.eqb_spec i k), (Nat.eqb_spec (i + r) (k + r)); try lia; reflexivity.
  - rewrite !IHd.
    replace (i + Datatypes.S d + r) with (i + r + Datatypes.S d) by lia.
    replace (i + Datatypes.S d + 1 + r) with (i + r + Datatypes.S d + 1) by lia.
    replace (i + 1 + r) with (i + r + 1) by lia. reflexivity.
Qed.

(** * One knot more at the beginning *)

Section Front.
Variables (U : nat -> Q) (p q k : nat) (a u : Q).
Hypothesis QP : q < p.
Hypothesis PK : p <= k.
Hypothesis HA : forall i, i <= q -> (U i < a)%Q.
Hypothesis HB : forall i, q < i <= p -> (U i == a)%Q.
Hypothesis HC : forall i, p < i <= p + p -> (a < U i)%Q.

Definition Wf (m : nat) : Q := if m <=? q then U m else if m =? q + 1 then a else U (m - 1).

Definition bf (d i : nat) : Q := if i <=? q then ((a - U i) / (U (i + d)%nat - U i))%Q else 0%Q.

Lemma Wf_low : forall m, m <= q -> Wf m = U m.
Proof. intros. unfold Wf. destruct (Nat.leb_spec m q); [reflexivity|lia]. Qed.

Lemma Wf_mid : Wf (q + 1) = a.
Proof. unfold Wf. destruct (Nat.leb_spec (q + 1) q); [lia|]. now rewrite Nat.eqb_refl. Qed.

Lemma Wf_high : forall m, q < m -> Wf (m + 1) = U m.
Proof.
  intros. unfold Wf. destruct (Nat.leb_spec (m + 1) q); [lia|].
  destruct (Nat.eqb_spec (m + 1) (q + 1)); [lia|]. f_equal. lia.
Qed.

Lemma bf_low : forall d i, i <= q -> bf d i = ((a - U i) / (U (i + d)%nat - U i))%Q.
Proof. intros. unfold bf. destruct (Nat.leb_spec i q); [reflexivity|lia]. Qed.

Lemma bf_high : forall d i, q < i -> bf d i = 0%Q.
Proof. intros. unfold bf. destruct (Nat.leb_spec i q); [lia|reflexivity]. Qed.

Lemma front_rel : forall d i, d <= p ->
  (Nf U k u d i == bf d i * Nf Wf (k + 1) u d i + (1 - bf d (i + 1)) * Nf Wf (k + 1) u d (i + 1))%Q.
Proof.
  assert (HI : forall d i, q < i -> (Nf U k u d i == Nf Wf (k + 1) u d (i + 1))%Q).
  { intros d i I. rewrite <- Nf_shift. apply Nf_ext. intros j J. rewrite Wf_high by lia. reflexivity. }
  induction d; intros i D.
  - destruct (Nat.lt_ge_cases q i) as [I|I].
    + rewrite !bf_high, HI by lia. ring.
    + rewrite !Nf_zero by lia. ring.
  - destruct (Nat.lt_ge_cases q i) as [I|I].
    { rewrite !bf_high, HI by lia. ring. }
    destruct (Nat.lt_ge_cases (i + Datatypes.S d) p) as [L|L].
    { rewrite !Nf_zero by lia. ring. }
    assert (A0 := HA i I).
    assert (T : (a < U (i + Datatypes.S d + 1)%nat)%Q) by (apply HC; lia).
    rewrite (bf_low _ i I).
    cbn [Nf]. rewrite (IHd i), (IHd (i + 1)) by lia.
    replace (i + 1 + 1) with (i + 2) by lia.
    rewrite (Wf_low i I).
    replace (i + 1 + Datatypes.S d) with (i + Datatypes.S d + 1) by lia.
    rewrite (Wf_high (i + Datatypes.S d)) by lia.
    rewrite (Wf_high (i + Datatypes.S d + 1)) by lia.
    destruct (Nat.eq_dec (i + Datatypes.S d) p) as [P|P].
    + rewrite (Nf_zero Wf (k + 1) u d i), (Nf_zero Wf (k + 1) u d (i + 1)) by lia.
      set (z := Nf Wf (k + 1) u d (i + 2)).
      destruct (Nat.le_gt_cases (i + 2) q) as [B|B].
      * assert (A1 := HA (i + 1) ltac:(lia)). assert (A2 := HA (i + 2) B).
        rewrite !(bf_low _ (i + 1)), (bf_low _ (i + 2)) by lia. rewrite (Wf_low (i + 2)) by lia.
        replace (i + 2 + d) with (i + Datatypes.S d + 1) by lia.
        replace (i + 1 + Datatypes.S d) with (i + Datatypes.S d + 1) by lia.
        rewrite !Qmult_0_r, !Qplus_0_l. field. lra.
      * rewrite (bf_high _ (i + 2)) by lia. rewrite !Qmult_0_r, !Qplus_0_l.
        assert (W2 : (Wf (i + 2) == a)%Q).
        { destruct (Nat.eq_dec (i + 1) q) as [E|E].
          - replace (i + 2) with (q + 1) by lia. rewrite Wf_mid. reflexivity.
          - replace (i + 2) with (i + 1 + 1) by lia. rewrite Wf_high by lia. apply HB. lia. }
        rewrite W2.
        destruct (Nat.eq_dec (i + 1) q) as [E|E].
        -- assert (A1 := HA (i + 1) ltac:(lia)). rewrite (bf_low _ (i + 1)) by lia.
           replace (i + 1 + Datatypes.S d) with (i + Datatypes.S d + 1) by lia. field. lra.
        -- rewrite (bf_high _ (i + 1)) by lia. rewrite (HB (i + 1)) by lia. field. lra.
    + replace (i + Datatypes.S d) with (i + d + 1) in * by lia.
      rewrite (Wf_high (i + d)) by lia.
      assert (T0 : (a < U (i + d + 1)%nat)%Q) by (apply HC; lia).
      assert (T1 : (a <= U (i + d)%nat)%Q).
      { destruct (Nat.eq_dec (i + d) p) as [E|E].
        - rewrite HB by lia. lra.
        - apply Qlt_le_weak. apply HC. lia. }
      rewrite (bf_low d i I).
      set (x := Nf Wf (k + 1) u d i). set (y := Nf Wf (k + 1) u d (i + 1)). set (z := Nf Wf (k + 1) u d (i + 2)).
      destruct (Nat.le_gt_cases (i + 2) q) as [B|B].
      * assert (A1 := HA (i + 1) ltac:(lia)). assert (A2 := HA (i + 2) B).
        rewrite !(bf_low _ (i + 1)), (bf_low _ (i + 2)) by lia. rewrite (Wf_low (i + 2)), (Wf_low (i + 1)) by lia.
        replace (i + 2 + d) with (i + d + 1 + 1) by lia.
        replace (i + 1 + d) with (i + d + 1) by lia.
        replace (i + 1 + Datatypes.S d) with (i + d + 1 + 1) by lia.
        field. repeat split; lra.
      * rewrite (bf_high _ (i + 2)) by lia.
        destruct (Nat.eq_dec (i + 1) q) as [E|E].
        -- assert (A1 := HA (i + 1) ltac:(lia)). rewrite !(bf_low _ (i + 1)) by lia.
           rewrite (Wf_low (i + 1)) by lia. replace (i + 2) with (q + 1) by lia. rewrite Wf_mid.
           replace (i + 1 + d) with (i + d + 1) by lia.
           replace (i + 1 + Datatypes.S d) with (i + d + 1 + 1) by lia.
           field. repeat split; lra.
        -- rewrite !(bf_high _ (i + 1)) by lia. replace (i + 2) with (i + 1 + 1) by lia. rewrite (Wf_high (i + 1)) by lia.
           rewrite (HB (i + 1)) by lia.
           replace (Wf (i + 1)) with a by (replace (i + 1) with (q + 1) by lia; symmetry; apply Wf_mid).
           field. repeat split; lra.
Qed.

(** The sum over the points, with the first of the new knots left out. *)
Definition Vf (m : nat) : Q := if m <? q then U (m + 1) else if m =? q then a else U m.

Lemma Vf_Wf : forall m, (Vf m == Wf (m + 1))%Q.
Proof.
  intros m. unfold Vf, Wf.
  destruct (Nat.ltb_spec m q), (Nat.leb_spec (m + 1) q); try lia; try reflexivity.
  destruct (Nat.eqb_spec m q), (Nat.eqb_spec (m + 1) (q + 1)); try lia; try reflexivity.
  replace (m + 1 - 1) with m by lia. reflexivity.
Qed.

Lemma abel : forall (b w f : nat -> Q) n,
  (sum (fun i => (b i * w i + (1 - b (i + 1)%nat) * w (i + 1)%nat) * f i) n ==
   b O * w O * f O - b n * w n * f n +
   sum (fun m => w (m + 1)%nat * (b (m + 1)%nat * f (m + 1)%nat + (1 - b (m + 1)%nat) * f m)) n)%Q.
Proof.
  induction n; cbn [sum]; [ring|]. rewrite IHn. replace (Datatypes.S n) with (n + 1) by lia. ring.
Qed.

Lemma front_sum : forall f n, q < n ->
  (sum (fun i => Nf U k u p i * f i) n ==
   sum (fun m => Nf Vf k u p m * (bf p (m + 1) * f (m + 1)%nat + (1 - bf p (m + 1)) * f m)) n)%Q.
Proof.
  intros f n QN.
  rewrite (sum_ext _ (fun i => (bf p i * Nf Wf (k + 1) u p i + (1 - bf p (i + 1)) * Nf Wf (k + 1) u p (i + 1)) * f i)%Q).
  - rewrite (abel (bf p) (Nf Wf (k + 1) u p) f). rewrite (Nf_zero Wf (k + 1) u p 0) by lia.
    rewrite (bf_high p n) by lia.
    rewrite (sum_ext (fun m => Nf Vf k u p m * _)%Q
      (fun m => Nf Wf (k + 1) u p (m + 1) * (bf p (m + 1) * f (m + 1)%nat + (1 - bf p (m + 1)) * f m))%Q).
    + ring.
    + intros i I. rewrite <- Nf_shift. rewrite (Nf_ext Vf (fun m => Wf (m + 1))); [reflexivity|].
      intros. apply Vf_Wf.
  - intros i I. rewrite front_rel by lia. reflexivity.
Qed.
End Front.

(** * One knot more at the end *)

Section AtEnd.
Variables (U : nat -> Q) (p n e k : nat) (b u : Q).
Hypothesis KN : k < n.
Hypothesis NE : n <= e.
Hypothesis PN : p <= n.
Hypothesis HA : forall i, i < n -> (U i < b)%Q.
Hypothesis HB : forall i, n <= i <= e -> (U i == b)%Q.
Hypothesis HC : forall i, e < i <= n + p -> (b < U i)%Q.

Definition Yf (m : nat) : Q := if m <=? e then U m else if m =? e + 1 then b else U (m - 1).

Definition gf (d i : nat) : Q := if i + d <=? e then 0%Q else ((U (i + d)%nat - b) / (U (i + d)%nat - U i))%Q.

Lemma Yf_low : forall m, m <= e -> Yf m = U m.
Proof. intros. unfold Yf. destruct (Nat.leb_spec m e); [reflexivity|lia]. Qed.

Lemma Yf_mid : Yf (e + 1) = b.
Proof. unfold Yf. destruct (Nat.leb_spec (e + 1) e); [lia|]. now rewrite Nat.eqb_refl. Qed.

Lemma Yf_high : forall m, e < m -> Yf (m + 1) = U m.
Proof.
  intros. unfold Yf. destruct (Nat.leb_spec (m + 1) e); [lia|].
  destruct (Nat.eqb_spec (m + 1) (e + 1)); [lia|]. f_equal. lia.
Qed.

Lemma gf_low : forall d i, i + d <= e -> gf d i = 0%Q.
Proof. intros. unfold gf. destruct (Nat.leb_spec (i + d) e); [reflexivity|lia]. Qed.

Lemma gf_high : forall d i, e < i + d -> gf d i = ((U (i + d)%nat - b) / (U (i + d)%nat - U i))%Q.
Proof. intros. unfold gf. destruct (Nat.leb_spec (i + d) e); [lia|reflexivity]. Qed.

Lemma back_rel : forall d i, d <= p ->
  (Nf U k u d i == (1 - gf d i) * Nf Yf k u d i + gf d (i + 1) * Nf Yf k u d (i + 1))%Q.
Proof.
  induction d; intros i D.
  - destruct (Nat.le_gt_cases i k) as [I|I].
    + rewrite !gf_low by lia. cbn [Nf]. ring.
    + rewrite !Nf_zero by lia. ring.
  - destruct (Nat.le_gt_cases i k) as [I|I].
    2:{ rewrite !Nf_zero by lia. ring. }
    destruct (Nat.le_gt_cases (i + Datatypes.S d + 1) e) as [L|L].
    { rewrite !gf_low by lia. rewrite Qmult_0_l, Qplus_0_r.
      rewrite (Nf_ext U Yf); [ring|]. intros j J. rewrite Yf_low by lia. reflexivity. }
    assert (A0 := HA i ltac:(lia)).
    cbn [Nf]. rewrite (IHd i), (IHd (i + 1)) by lia.
    replace (i + 1 + 1) with (i + 2) by lia.
    replace (i + 1 + Datatypes.S d) with (i + Datatypes.S d + 1) by lia.
    rewrite (Yf_low i) by lia. rewrite (Yf_low (i + 1)) by lia.
    rewrite (Yf_high (i + Datatypes.S d + 1)) by lia.
    set (x := Nf Yf k u d i).
    destruct (Nat.eq_dec i k) as [Ek|Ek].
    { rewrite (Nf_zero Yf k u d (i + 1)), (Nf_zero Yf k u d (i + 2)) by lia.
      repeat first [rewrite Qmult_0_r | rewrite Qplus_0_r].
      destruct (Nat.eq_dec (i + Datatypes.S d) e) as [P|P].
      - rewrite (gf_low (Datatypes.S d) i), (gf_low d i) by lia. rewrite (Yf_low (i + Datatypes.S d)) by lia.
        assert (B : (U (i + Datatypes.S d)%nat == b)%Q) by (apply HB; lia). rewrite B. field. lra.
      - assert (T1 : (b < U (i + Datatypes.S d)%nat)%Q) by (apply HC; lia).
        rewrite (gf_high (Datatypes.S d) i) by lia.
        destruct (Nat.eq_dec (i + d) e) as [P1|P1].
        + rewrite (gf_low d i) by lia. replace (i + Datatypes.S d) with (e + 1) in * by lia. rewrite Yf_mid.
          field. lra.
        + assert (T2 : (b < U (i + d)%nat)%Q) by (apply HC; lia).
          rewrite (gf_high d i) by lia. replace (i + Datatypes.S d) with (i + d + 1) in * by lia.
          rewrite (Yf_high (i + d)) by lia. field. lra. }
    assert (A1 := HA (i + 1) ltac:(lia)).
    assert (T : (b < U (i + Datatypes.S d + 1)%nat)%Q) by (apply HC; lia).
    set (y := Nf Yf k u d (i + 1)).
    rewrite (gf_high (Datatypes.S d) (i + 1)) by lia.
    replace (i + 1 + Datatypes.S d) with (i + Datatypes.S d + 1) by lia.
    assert (ZZ : (exists z B, B < b /\ gf d (i + 2) * Nf Yf k u d (i + 2) == (U (i + Datatypes.S d + 1)%nat - b) / (U (i + Datatypes.S d + 1)%nat - B) * z /\
      (U (i + Datatypes.S d + 1)%nat - u) / (U (i + Datatypes.S d + 1)%nat - Yf (i + 2)) * Nf Yf k u d (i + 2) ==
      (U (i + Datatypes.S d + 1)%nat - u) / (U (i + Datatypes.S d + 1)%nat - B) * z)%Q).
    { destruct (Nat.eq_dec (i + 1) k) as [E1|E1].
      - exists 0%Q, (U i). rewrite (Nf_zero Yf k u d (i + 2)) by lia. rewrite !Qmult_0_r. auto using Qeq_refl.
      - assert (A2 := HA (i + 2) ltac:(lia)). exists (Nf Yf k u d (i + 2)), (U (i + 2)).
        rewrite gf_high by lia. rewrite (Yf_low (i + 2)) by lia.
        replace (i + 2 + d) with (i + Datatypes.S d + 1) by lia. auto using Qeq_refl. }
    destruct ZZ as (z & B & A2 & Z1 & Z2). rewrite Z1, Z2. clear Z1 Z2.
    destruct (Nat.eq_dec (i + Datatypes.S d) e) as [P|P].
    + rewrite (gf_low (Datatypes.S d) i), (gf_low d i), (gf_low d (i + 1)) by lia.
      rewrite (Yf_low (i + Datatypes.S d)) by lia.
      replace (Yf (i + Datatypes.S d + 1)) with b by (replace (i + Datatypes.S d + 1) with (e + 1) by lia; symmetry; apply Yf_mid).
      assert (BB : (U (i + Datatypes.S d)%nat == b)%Q) by (apply HB; lia). rewrite BB.
      field. repeat split; lra.
    + assert (T1 : (b < U (i + Datatypes.S d)%nat)%Q) by (apply HC; lia).
      rewrite (gf_high (Datatypes.S d) i), (gf_high d (i + 1)) by lia.
      rewrite (Yf_high (i + Datatypes.S d)) by lia.
      replace (i + 1 + d) with (i + Datatypes.S d) by lia.
      destruct (Nat.eq_dec (i + d) e) as [P1|P1].
      * rewrite (gf_low d i) by lia.
        replace (Yf (i + Datatypes.S d)) with b by (replace (i + Datatypes.S d) with (e + 1) by lia; symmetry; apply Yf_mid).
        field. repeat split; lra.
      * assert (T2 : (b < U (i + d)%nat)%Q) by (apply HC; lia).
        rewrite (gf_high d i) by lia.
        replace (Yf (i + Datatypes.S d)) with (U (i + d)) by (replace (i + Datatypes.S d) with (i + d + 1) by lia; symmetry; apply Yf_high; lia).
        field. repeat split; lra.
Qed.

Lemma abel_back : forall (g w f : nat -> Q) m,
  (sum (fun i => ((1 - g i) * w i + g (i + 1)%nat * w (i + 1)%nat) * f i) m ==
   - (g O * w O * f O) + (match m with O => g O * w O * f O | _ => g m * w m * f (m - 1)%nat end) +
   sum (fun i => w i * ((1 - g i) * f i + g i * f (i - 1)%nat)) m)%Q.
Proof.
  induction m; cbn [sum]; [ring|]. rewrite IHm. replace (Datatypes.S m) with (m + 1) by lia.
  replace (m + 1 - 1) with m by lia. destruct m; [cbn [Nat.sub]; ring|]. ring.
Qed.

Lemma back_sum : forall f, p <= e ->
  (sum (fun i => Nf U k u p i * f i) n ==
   sum (fun i => Nf Yf k u p i * ((1 - gf p i) * f i + gf p i * f (i - 1)%nat)) n)%Q.
Proof.
  intros f PE.
  rewrite (sum_ext _ (fun i => ((1 - gf p i) * Nf Yf k u p i + gf p (i + 1) * Nf Yf k u p (i + 1)) * f i)%Q).
  - rewrite (abel_back (gf p) (Nf Yf k u p) f). rewrite (gf_low p 0) by lia.
    destruct n as [|m] eqn:E; [lia|]. rewrite (Nf_zero Yf k u p (Datatypes.S m)) by lia. ring.
  - intros i I. rewrite back_rel by lia. reflexivity.
Qed.
End AtEnd.

(** * All knots that are missing *)

(** A coordinate. *)
Definition linear (f : vec -> Q) : Prop :=
  forall t x y, (f (mix t x y) == t * f x + (1 - t) * f y)%Q.

Lemma linear_x : linear vx. Proof. intros t x y. reflexivity. Qed.
Lemma linear_y : linear vy. Proof. intros t x y. reflexivity. Qed.
Lemma linear_z : linear vz. Proof. intros t x y. reflexivity. Qed.

(** The rows of new points. *)
Fixpoint row (U : nat -> Q) (P : nat -> vec) (u : Q) (k p j i : nat) : vec :=
  match j with
  | O => P (k - p + i)
  | Datatypes.S j' =>
      mix ((u - U (k - p + j + i)%nat) / (U (k + i + 1)%nat - U (k - p + j + i)%nat))
          (row U P u k p j' (i + 1)) (row U P u k p j' i)
  end.

Section FrontAll.
Variables (U : nat -> Q) (P : nat -> vec) (p q0 k n : nat) (a u : Q).
Hypothesis QP : q0 < p.
Hypothesis PK : p <= k.
Hypothesis QN : q0 < n.
Hypothesis HA : forall i, i <= q0 -> (U i < a)%Q.
Hypothesis HB : forall i, q0 < i <= p -> (U i == a)%Q.
Hypothesis HC : forall i, p < i <= p + p -> (a < U i)%Q.

Definition Uj (j m : nat) : Q := if m <=? p then (if m + j <=? q0 then U (m + j) else a) else U m.

Fixpoint Pj (j m : nat) : vec :=
  match j with
  | O => P m
  | Datatypes.S j' =>
      if m + 1 + j' <=? q0
      then mix ((a - U (m + 1 + j')%nat) / (U (m + 1 + p)%nat - U (m + 1 + j')%nat)) (Pj j' (m + 1)) (Pj j' m)
      else Pj j' m
  end.

Ltac cases := repeat match goal with
  | |- context [?x <=? ?y] => destruct (Nat.leb_spec x y); try lia
  | |- context [?x <? ?y] => destruct (Nat.ltb_spec x y); try lia
  | |- context [?x =? ?y] => destruct (Nat.eqb_spec x y); try lia
  end.

Lemma front_all : forall f, linear f -> forall j, j <= q0 + 1 ->
  (sum (fun i => Nf U k u p i * f (P i)) n == sum (fun i => Nf (Uj j) k u p i * f (Pj j i)) n)%Q.
Proof.
  intros f Lf. induction j; intros J.
  - apply sum_ext. intros i I. cbn [Pj]. rewrite (Nf_ext U (Uj 0)); [reflexivity|].
    intros m _. unfold Uj. cases; rewrite ?Nat.add_0_r; try reflexivity. apply HB. lia.
  - rewrite IHj by lia.
    rewrite (front_sum (Uj j) p (q0 - j) k a u); try lia.
    + apply sum_ext. intros m M.
      rewrite (Nf_ext (Vf (Uj j) (q0 - j) a) (Uj (Datatypes.S j))).
      * apply Qmult_comp; [reflexivity|]. cbn [Pj]. unfold bf.
        destruct (Nat.leb_spec (m + 1) (q0 - j)), (Nat.leb_spec (m + 1 + j) q0); try lia.
        -- etransitivity; [|symmetry; apply Lf]. replace (Uj j (m + 1)) with (U (m + 1 + j)) by (unfold Uj; cases; reflexivity).
           replace (Uj j (m + 1 + p)) with (U (m + 1 + p)) by (unfold Uj; cases; reflexivity). reflexivity.
        -- ring.
      * intros i I. unfold Vf, Uj. cases; try reflexivity.
        replace (i + 1 + j) with (i + Datatypes.S j) by lia. reflexivity.
    + intros i I. unfold Uj. cases. apply HA. lia.
    + intros i I. unfold Uj. cases. reflexivity.
    + intros i I. unfold Uj. cases. apply HC. lia.
Qed.

Lemma Pj_row : forall j i, i + j <= q0 -> Pj j i = row U P a p p j i.
Proof.
  induction j; intros i I; cbn [Pj row].
  - rewrite Nat.sub_diag. reflexivity.
  - destruct (Nat.leb_spec (i + 1 + j) q0); [|lia].
    rewrite (IHj (i + 1)), (IHj i) by lia. rewrite Nat.sub_diag.
    replace (0 + Datatypes.S j + i) with (i + 1 + j) by lia. replace (p + i + 1) with (i + 1 + p) by lia. reflexivity.
Qed.

Lemma Pj_stays : forall j i, q0 - i <= j -> i <= q0 -> Pj j i = Pj (q0 - i) i.
Proof.
  induction j; intros i J I.
  - replace (q0 - i) with 0 by lia. reflexivity.
  - destruct (Nat.eq_dec (q0 - i) (Datatypes.S j)) as [E|E]; [rewrite E; reflexivity|].
    cbn [Pj]. destruct (Nat.leb_spec (i + 1 + j) q0); [lia|]. apply IHj; lia.
Qed.

Lemma Pj_far : forall j i, q0 < i -> Pj j i = P i.
Proof.
  induction j; intros i I; [reflexivity|]. cbn [Pj]. destruct (Nat.leb_spec (i + 1 + j) q0); [lia|]. auto.
Qed.

(** The new points at the beginning. *)
Lemma front_points : forall i, Pj (q0 + 1) i = if i <=? q0 then row U P a p p (q0 - i) i else P i.
Proof.
  intros i. destruct (Nat.leb_spec i q0).
  - rewrite Pj_stays by lia. apply Pj_row. lia.
  - apply Pj_far. auto.
Qed.

Lemma front_knots : forall m, Uj (q0 + 1) m = if m <=? p then a else U m.
Proof. intros m. unfold Uj. cases; reflexivity. Qed.
End FrontAll.

Section BackAll.
Variables (U : nat -> Q) (P : nat -> vec) (p n e k : nat) (b u : Q).
Hypothesis KN : k < n.
Hypothesis NE : n <= e.
Hypothesis PN : p <= n.
Hypothesis EN : e < n + p.
Hypothesis HA : forall i, i < n -> (U i < b)%Q.
Hypothesis HB : forall i, n <= i <= e -> (U i == b)%Q.
Hypothesis HC : forall i, e < i <= n + p -> (b < U i)%Q.

Definition Tj (j m : nat) : Q := if m <=? e then U m else if m <=? e + j then b else U (m - j).

Fixpoint Rj (j m : nat) : vec :=
  match j with
  | O => P m
  | Datatypes.S j' =>
      if m + p <=? e + j' then Rj j' m
      else mix ((b - U m) / (U (m + p - j')%nat - U m)) (Rj j' m) (Rj j' (m - 1))
  end.

Ltac cases := repeat match goal with
  | |- context [?x <=? ?y] => destruct (Nat.leb_spec x y); try lia
  | |- context [?x <? ?y] => destruct (Nat.ltb_spec x y); try lia
  | |- context [?x =? ?y] => destruct (Nat.eqb_spec x y); try lia
  end.

Lemma back_all : forall f, linear f -> forall j, j <= n + p - e ->
  (sum (fun i => Nf U k u p i * f (P i)) n == sum (fun i => Nf (Tj j) k u p i * f (Rj j i)) n)%Q.
Proof.
  intros f Lf. induction j; intros J.
  - apply sum_ext. intros i I. cbn [Rj]. rewrite (Nf_ext U (Tj 0)); [reflexivity|].
    intros m _. unfold Tj. cases; rewrite ?Nat.sub_0_r; reflexivity.
  - rewrite IHj by lia.
    rewrite (back_sum (Tj j) p n (e + j) k b u); try lia.
    + apply sum_ext. intros m M.
      rewrite (Nf_ext (Yf (Tj j) (e + j) b) (Tj (Datatypes.S j))).
      * apply Qmult_comp; [reflexivity|]. cbn [Rj]. unfold gf.
        destruct (Nat.leb_spec (m + p) (e + j)); [ring|].
        etransitivity; [|symmetry; apply Lf]. replace (Tj j m) with (U m) by (unfold Tj; cases; reflexivity).
        replace (Tj j (m + p)) with (U (m + p - j)) by (unfold Tj; cases; reflexivity).
        pose proof (HA m M). pose proof (HC (m + p - j) ltac:(lia)). field. lra.
      * intros i I. unfold Yf, Tj. cases; try reflexivity.
        replace (i - 1 - j) with (i - Datatypes.S j) by lia. reflexivity.
    + intros i I. unfold Tj. cases. apply HA. lia.
    + intros i I. unfold Tj. cases; [apply HB; lia|reflexivity].
    + intros i I. unfold Tj. cases. apply HC. lia.
Qed.

Lemma Rj_row : forall j i, Rj j (e - p + j + i) = row U P b e p j i.
Proof.
  induction j; intros i; cbn [Rj row].
  - rewrite Nat.add_0_r. reflexivity.
  - destruct (Nat.leb_spec (e - p + Datatypes.S j + i + p) (e + j)); [lia|].
    replace (e - p + Datatypes.S j + i - 1) with (e - p + j + i) by lia. rewrite (IHj i).
    rewrite <- (IHj (i + 1)). replace (e - p + j + (i + 1)) with (e - p + Datatypes.S j + i) by lia.
    replace (e - p + Datatypes.S j + i + p - j) with (e + i + 1) by lia. reflexivity.
Qed.

Lemma Rj_stays : forall j m, e < m + p -> m + p <= e + j -> Rj j m = Rj (m + p - e) m.
Proof.
  induction j; intros m M L; [lia|].
  destruct (Nat.eq_dec (m + p - e) (Datatypes.S j)) as [E|E]; [rewrite E; reflexivity|].
  cbn [Rj]. destruct (Nat.leb_spec (m + p) (e + j)); [|lia]. apply IHj; lia.
Qed.

Lemma Rj_far : forall j m, m + p <= e -> Rj j m = P m.
Proof.
  induction j; intros m M; [reflexivity|]. cbn [Rj]. destruct (Nat.leb_spec (m + p) (e + j)); [|lia]. auto.
Qed.

Lemma back_points : forall m, m < n -> Rj (n + p - e) m = if m + p <=? e then P m else row U P b e p (m + p - e) 0.
Proof.
  intros m M. destruct (Nat.leb_spec (m + p) e).
  - apply Rj_far. auto.
  - rewrite Rj_stays by lia. rewrite <- Rj_row. f_equal. lia.
Qed.

Lemma back_knots : forall m, m <= n + p -> Tj (n + p - e) m = if m <=? e then U m else b.
Proof. intros m M. unfold Tj. cases; reflexivity. Qed.
End BackAll.

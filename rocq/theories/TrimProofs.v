(** Proofs about trimming. *)

From Coq Require Import List Bool Arith Lia QArith Lqa Setoid Morphisms Field.
From Verif Require Import TrimModel TrimSpec.
Import ListNotations.
Local Open Scope Q_scope.

Lemma less_true a b : less a b = true <-> a < b.
Proof.
  unfold less. split; intro H.
  - apply negb_true_iff in H. apply Qnot_le_lt. intro L. apply Qle_bool_iff in L. congruence.
  - apply negb_true_iff. destruct (Qle_bool b a) eqn:E; [|reflexivity].
    apply Qle_bool_iff in E. exfalso. lra.
Qed.

Lemma less_false a b : less a b = false <-> b <= a.
Proof.
  unfold less. rewrite negb_false_iff. apply Qle_bool_iff.
Qed.

Lemma le_false a b : Qle_bool a b = false <-> b < a.
Proof.
  split; intro H.
  - apply Qnot_le_lt. intro L. apply Qle_bool_iff in L. congruence.
  - destruct (Qle_bool a b) eqn:E; [|reflexivity]. apply Qle_bool_iff in E. exfalso. lra.
Qed.

Lemma less_eq a b c d : (a < b <-> c < d) -> less a b = less c d.
Proof.
  intro H. destruct (less a b) eqn:E; symmetry.
  - apply less_true, H, less_true, E.
  - apply less_false. apply less_false in E. destruct (Qlt_le_dec c d) as [L|L]; [|exact L].
    apply H in L. lra.
Qed.

(** On which side of the line from [v1] to [v2] is [p]? *)
Definition side (v1 v2 p : point) : Q :=
  (px v2 - px v1) * (py p - py v1) - (py v2 - py v1) * (px p - px v1).

Lemma side_between v1 v2 a b t :
  side v1 v2 (between a b t) == side v1 v2 a + t * (side v1 v2 b - side v1 v2 a).
Proof. unfold side, between. cbn [px py]. ring. Qed.

(** Division free crossing. *)
Lemma flips_sym v a b : flips v a b = flips v b a.
Proof.
  unfold flips. cbv zeta.
  destruct (less (py a) (py v)) eqn:A1, (Qle_bool (py v) (py b)) eqn:B2,
    (less (py b) (py v)) eqn:B1, (Qle_bool (py v) (py a)) eqn:A2; cbn [andb orb]; try reflexivity;
  rewrite ?less_true, ?less_false, ?le_false, ?Qle_bool_iff in *; try (exfalso; lra).
  all: apply less_eq;
    assert (E : px a + (py v - py a) / (py b - py a) * (px b - px a)
      == px b + (py v - py b) / (py a - py b) * (px a - px b)) by (field; split; lra);
    rewrite E; reflexivity.
Qed.

(** The height [y] is reached at this fraction of the way. *)
Definition frac (a b : point) (y : Q) : Q := (y - py a) / (py b - py a).

Lemma frac_height a b y : py a < py b -> py (between a b (frac a b y)) == y.
Proof. intro H. unfold between, frac. cbn [py]. field. lra. Qed.

Lemma frac_range a b y : py a < py b -> py a <= y <= py b -> 0 <= frac a b y <= 1.
Proof.
  intros H [L U]. unfold frac. split.
  - apply Qle_shift_div_l; lra.
  - apply Qle_shift_div_r; lra.
Qed.

Lemma flips_up v a b : py a < py v -> py v <= py b ->
  flips v a b = less (px (between a b (frac a b (py v)))) (px v).
Proof.
  intros A B. unfold flips. cbv zeta.
  apply less_true in A. rewrite A. apply Qle_bool_iff in B. rewrite B. reflexivity.
Qed.

Lemma flips_none v a b : (py a < py v -> py b < py v) -> (py b < py v -> py a < py v) ->
  flips v a b = false.
Proof.
  intros A B. unfold flips. cbv zeta.
  destruct (less (py a) (py v)) eqn:A1, (Qle_bool (py v) (py b)) eqn:B2,
    (less (py b) (py v)) eqn:B1, (Qle_bool (py v) (py a)) eqn:A2; cbn [andb orb]; try reflexivity;
  rewrite ?less_true, ?less_false, ?le_false, ?Qle_bool_iff in *; exfalso; lra.
Qed.

(** In the strip between the heights of [v1] and [v2], and left of the line. *)
Definition strip (v1 v2 p : point) : bool :=
  Qle_bool (py v1) (py p) && less (py p) (py v2) && less 0 (side v1 v2 p).

Section Segment.
Variables v1 v2 : point.
Hypothesis up : py v1 < py v2.

(** A place on the side, in the strip and on the line, is a common point. *)
Lemma place_meets a b t :
  0 <= t <= 1 -> side v1 v2 (between a b t) == 0 ->
  py v1 <= py (between a b t) <= py v2 -> meet v1 v2 a b.
Proof.
  intros T S [L U].
  exists ((py (between a b t) - py v1) / (py v2 - py v1)), t.
  split; [split|split; [exact T|split]].
  - apply Qle_shift_div_l; lra.
  - apply Qle_shift_div_r; lra.
  - cbn [px between].
    unfold side in S.
    assert (E : px (between a b t) - px v1 ==
      (px v2 - px v1) * (py (between a b t) - py v1) / (py v2 - py v1)).
    { apply (Qmult_inj_r _ _ (py v2 - py v1)); [lra|].
      assert (F : (px v2 - px v1) * (py (between a b t) - py v1) / (py v2 - py v1) *
        (py v2 - py v1) == (px v2 - px v1) * (py (between a b t) - py v1)) by (field; lra).
      rewrite F. lra. }
    change (px v1 + (py (between a b t) - py v1) / (py v2 - py v1) * (px v2 - px v1)
      == px (between a b t)).
    assert (F : (py (between a b t) - py v1) / (py v2 - py v1) * (px v2 - px v1) ==
      (px v2 - px v1) * (py (between a b t) - py v1) / (py v2 - py v1)) by (field; lra).
    rewrite F, <- E. ring.
  - change (py v1 + (py (between a b t) - py v1) / (py v2 - py v1) * (py v2 - py v1)
      == py (between a b t)). field. lra.
Qed.

(** Two places of a side in the strip are on the same side of a line it does not meet. *)
Lemma same_side a b t u :
  ~ meet v1 v2 a b \/ side v1 v2 a == side v1 v2 b ->
  0 <= t <= 1 -> 0 <= u <= 1 ->
  py v1 <= py (between a b t) <= py v2 -> py v1 <= py (between a b u) <= py v2 ->
  0 < side v1 v2 (between a b t) -> 0 < side v1 v2 (between a b u).
Proof.
  intros [M|E] T U HT HU P.
  - destruct (Qlt_le_dec 0 (side v1 v2 (between a b u))) as [L|L]; [exact L|]. exfalso.
    set (p := side v1 v2 (between a b t)) in *. set (q := side v1 v2 (between a b u)) in *.
    set (k := p / (p - q)).
    assert (K : 0 <= k <= 1).
    { unfold k. split; [apply Qle_shift_div_l|apply Qle_shift_div_r]; lra. }
    assert (Z : p + k * (q - p) == 0) by (unfold k; field; lra).
    apply M. apply (place_meets a b (t + k * (u - t))).
    + nra.
    + rewrite side_between.
      unfold p, q in Z. rewrite !side_between in Z.
      rewrite <- Z. ring.
    + assert (HH : py (between a b (t + k * (u - t))) ==
        py (between a b t) + k * (py (between a b u) - py (between a b t)))
        by (unfold between; cbn [py]; ring).
      rewrite HH. clear Z HH. clearbody k.
      set (h := py (between a b t)) in *. set (h' := py (between a b u)) in *.
      clearbody h h'. nra.
  - rewrite side_between in *.
    assert (Z : forall w, w * (side v1 v2 b - side v1 v2 a) == 0)
      by (intro w; rewrite E; ring).
    rewrite Z in *. exact P.
Qed.

Lemma side_low p : py p == py v1 -> (0 < side v1 v2 p <-> px p < px v1).
Proof.
  intro H. unfold side. rewrite H.
  split; intro L.
  - assert (0 < (py v2 - py v1) * (px v1 - px p)) by lra.
    destruct (Qlt_le_dec (px p) (px v1)) as [K|K]; [exact K|]. exfalso. nra.
  - assert (0 < (py v2 - py v1) * (px v1 - px p)) by nra. lra.
Qed.

Lemma side_high p : py p == py v2 -> (0 < side v1 v2 p <-> px p < px v2).
Proof.
  intro H. unfold side. rewrite H.
  split; intro L.
  - assert (0 < (py v2 - py v1) * (px v2 - px p)) by lra.
    destruct (Qlt_le_dec (px p) (px v2)) as [K|K]; [exact K|]. exfalso. nra.
  - assert (0 < (py v2 - py v1) * (px v2 - px p)) by nra. lra.
Qed.

Lemma strip_in p : py v1 <= py p -> py p < py v2 -> strip v1 v2 p = less 0 (side v1 v2 p).
Proof.
  intros L U. unfold strip. apply Qle_bool_iff in L. rewrite L.
  apply less_true in U. rewrite U. reflexivity.
Qed.

Lemma strip_below p : py p < py v1 -> strip v1 v2 p = false.
Proof. intro L. unfold strip. apply le_false in L. rewrite L. reflexivity. Qed.

Lemma strip_above p : py v2 <= py p -> strip v1 v2 p = false.
Proof. intro L. unfold strip. apply less_false in L. rewrite L, andb_false_r. reflexivity. Qed.

Lemma between_0 a b : same (between a b 0) a.
Proof. split; cbn; ring. Qed.
Lemma between_1 a b : same (between a b 1) b.
Proof. split; cbn; ring. Qed.

Lemma side_same p q : same p q -> side v1 v2 p == side v1 v2 q.
Proof. intros [X Y]. unfold side. rewrite X, Y. reflexivity. Qed.

(** The four quantities of a side, given by the places where it enters and leaves the
    strip. *)
Lemma edge_places a b : py a <= py b -> exists t u,
  (py b < py v1 \/ py v2 <= py a) /\ flips v1 a b = false /\ flips v2 a b = false /\
    strip v1 v2 a = false /\ strip v1 v2 b = false
  \/
  0 <= t <= 1 /\ 0 <= u <= 1 /\
  py v1 <= py (between a b t) <= py v2 /\ py v1 <= py (between a b u) <= py v2 /\
  (forall w, 0 <= w <= 1 -> py v1 <= py (between a b w) <= py v2 -> t <= w <= u) /\
  (t == 0 \/ same (between a b t) v1 \/ py (between a b t) == py v1) /\
  (u == 1 \/ py (between a b u) == py v2) /\
  xorb (flips v1 a b) (strip v1 v2 a) = less 0 (side v1 v2 (between a b t)) /\
  xorb (flips v2 a b) (strip v1 v2 b) = less 0 (side v1 v2 (between a b u)).
Proof.
  intro AB.
  destruct (Qlt_le_dec (py b) (py v1)) as [B1|B1].
  { exists 0, 0. left. split; [left; exact B1|].
    rewrite !flips_none by lra. rewrite !strip_below by lra. auto. }
  destruct (Qlt_le_dec (py a) (py v2)) as [A2|A2].
  2:{ exists 0, 0. left. split; [right; exact A2|].
    rewrite !flips_none by lra. rewrite !strip_above by lra. auto. }
  destruct (between_0 a b) as [X0 Y0], (between_1 a b) as [X1 Y1].
  assert (S0 : side v1 v2 (between a b 0) == side v1 v2 a) by (apply side_same; split; assumption).
  assert (S1 : side v1 v2 (between a b 1) == side v1 v2 b) by (apply side_same; split; assumption).
  assert (MONO : forall t w, py a < py b -> py (between a b t) <= py (between a b w) -> t <= w).
  { intros t w L H. unfold between in H. cbn [py] in H. clear - L H. nra. }
  destruct (Qlt_le_dec (py a) (py v1)) as [A1|A1];
  destruct (Qlt_le_dec (py b) (py v2)) as [B2|B2].
  - (* enters from below and ends in the strip *)
    assert (L : py a < py b) by lra.
    pose proof (frac_height a b (py v1) L) as H1.
    pose proof (frac_range a b (py v1) L ltac:(lra)) as R1.
    exists (frac a b (py v1)), 1. right.
    split; [exact R1|split; [lra|split; [lra|split; [lra|]]]].
    split; [intros w W HW; split; [apply MONO; [exact L|lra]|lra]|].
    split; [right; right; exact H1|split; [left; reflexivity|]].
    rewrite flips_up by lra. rewrite (flips_none v2) by lra.
    rewrite strip_below by lra. rewrite strip_in by lra.
    rewrite xorb_false_r, xorb_false_l. split.
    + apply less_eq. rewrite side_low by exact H1. reflexivity.
    + apply less_eq. rewrite S1. reflexivity.
  - assert (L : py a < py b) by lra.
    pose proof (frac_height a b (py v1) L) as H1.
    pose proof (frac_range a b (py v1) L ltac:(lra)) as R1.
    pose proof (frac_height a b (py v2) L) as H2.
    pose proof (frac_range a b (py v2) L ltac:(lra)) as R2.
    exists (frac a b (py v1)), (frac a b (py v2)). right.
    split; [exact R1|split; [exact R2|split; [lra|split; [lra|]]]].
    split; [intros w W HW; split; apply MONO; [exact L|lra|exact L|lra]|].
    split; [right; right; exact H1|split; [right; exact H2|]].
    rewrite !flips_up by lra.
    rewrite strip_below by lra. rewrite strip_above by lra.
    rewrite !xorb_false_r. split.
    + apply less_eq. rewrite side_low by exact H1. reflexivity.
    + apply less_eq. rewrite side_high by exact H2. reflexivity.
  - exists 0, 1. right.
    split; [lra|split; [lra|split; [lra|split; [lra|]]]].
    split; [intros w W _; exact W|].
    split; [left; reflexivity|split; [left; reflexivity|]].
    rewrite !flips_none by lra. rewrite !strip_in by lra.
    rewrite !xorb_false_l. split; apply less_eq; [rewrite S0|rewrite S1]; reflexivity.
  - assert (L : py a < py b) by lra.
    pose proof (frac_height a b (py v2) L) as H2.
    pose proof (frac_range a b (py v2) L ltac:(lra)) as R2.
    exists 0, (frac a b (py v2)). right.
    split; [lra|split; [exact R2|split; [lra|split; [lra|]]]].
    split; [intros w W HW; split; [lra|apply MONO; [exact L|lra]]|].
    split; [left; reflexivity|split; [right; exact H2|]].
    rewrite (flips_none v1) by lra. rewrite (flips_up v2) by lra.
    rewrite strip_in by lra. rewrite strip_above by lra.
    rewrite xorb_false_l, xorb_false_r. split.
    + apply less_eq. rewrite S0. reflexivity.
    + apply less_eq. rewrite side_high by exact H2. reflexivity.
Qed.

Lemma xor4 a b c d x y : xorb a c = x -> xorb b d = y -> xorb a b = xorb (xorb x y) (xorb c d).
Proof. destruct a, b, c, d, x, y; cbn; congruence. Qed.

Lemma edge_same_up a b : py a <= py b ->
  ~ meet v1 v2 a b \/ side v1 v2 a == side v1 v2 b ->
  xorb (flips v1 a b) (flips v2 a b) = xorb (strip v1 v2 a) (strip v1 v2 b).
Proof.
  intros AB M. destruct (edge_places a b AB) as (t & u & [C|C]).
  - destruct C as (_ & -> & -> & -> & ->). reflexivity.
  - destruct C as (T & U & HT & HU & _ & _ & _ & E1 & E2).
    rewrite (xor4 _ _ _ _ _ _ E1 E2).
    assert (E : less 0 (side v1 v2 (between a b t)) = less 0 (side v1 v2 (between a b u))).
    { apply less_eq. split; apply same_side; assumption. }
    rewrite E, xorb_nilpotent, xorb_false_l. reflexivity.
Qed.

(** A crossing changes the side. *)
Lemma edge_cross_up a b : py a <= py b -> clear v1 v2 (a, b) -> meet v1 v2 a b ->
  xorb (flips v1 a b) (flips v2 a b) = negb (xorb (strip v1 v2 a) (strip v1 v2 b)).
Proof.
  intros AB (C1 & C2 & C3 & C4) (r & w & R & W & [MX MY]). cbn [fst snd] in *.
  set (m := between a b w) in *.
  assert (HM : py v1 <= py m <= py v2).
  { rewrite <- MY. unfold between. cbn [py]. nra. }
  assert (SM : side v1 v2 m == 0).
  { unfold side. rewrite <- MX, <- MY. unfold between. cbn [px py]. ring. }
  (* the ends of the side are not on the line, or else an end is on the other *)
  assert (D : ~ side v1 v2 a == side v1 v2 b).
  { intro E. unfold m in SM. rewrite side_between in SM.
    assert (A0 : side v1 v2 a == 0) by (rewrite <- E in SM; lra).
    assert (B0 : side v1 v2 b == 0) by lra.
    assert (ON : forall p, side v1 v2 p == 0 -> py v1 <= py p <= py v2 -> on p v1 v2).
    { intros p S H. destruct (place_meets p p 0 ltac:(lra)) as (s & t & S1 & T1 & [QX QY]).
      - rewrite (side_same _ p); [exact S|]. apply between_0.
      - destruct (between_0 p p) as [_ ->]. exact H.
      - exists s. split; [exact S1|]. unfold between in QX, QY at 2. cbn [px py] in *.
        split; [rewrite QX|rewrite QY]; ring. }
    destruct (Qlt_le_dec (py a) (py v1)) as [La|La].
    - (* then v1 is on the side *)
      assert (L : py a < py b) by (unfold m, between in HM; cbn [py] in HM; nra).
      assert (LB : py v1 <= py b) by (unfold m, between in HM; cbn [py] in HM; nra).
      apply C1. exists (frac a b (py v1)). split; [apply frac_range; lra|].
      pose proof (frac_height a b (py v1) L) as H1.
      split; [|symmetry; exact H1].
      assert (Z : side v1 v2 (between a b (frac a b (py v1))) == 0).
      { rewrite side_between, A0, B0. ring. }
      unfold side in Z. rewrite H1 in Z. nra.
    - apply C3, ON; [exact A0|]. split; [exact La|].
      unfold m, between in HM; cbn [py] in HM. nra. }
  destruct (edge_places a b AB) as (t & u & [C|C]).
  - destruct C as ([C|C] & _).
    + exfalso. unfold m, between in HM. cbn [py] in HM. nra.
    + exfalso. unfold m, between in HM. cbn [py] in HM.
      assert (E : py a + w * (py b - py a) == py v2) by nra.
      (* only the upper end of the segment touches the side *)
      apply C2. exists w. split; [exact W|]. split; [|symmetry; exact E].
      unfold side in SM. unfold m in SM at 1. unfold between in SM at 1. cbn [py] in SM.
      rewrite E in SM. unfold m in SM. change (px v2 == px (between a b w)).
      assert (Z : (py v2 - py v1) * (px v2 - px (between a b w)) == 0) by lra.
      clear - up Z. nra.
  - destruct C as (T & U & HT & HU & IN & CT & CU & E1 & E2).
    rewrite (xor4 _ _ _ _ _ _ E1 E2).
    destruct (IN w W HM) as [TW WU].
    assert (NT : ~ t == w).
    { intro E. assert (SS : same (between a b t) m) by (split; unfold m; cbn; rewrite E; reflexivity).
      destruct SS as [SX SY].
      assert (V1 : py (between a b t) == py v1 -> False).
      { intro H. apply C1. exists w. split; [exact W|]. fold m.
        unfold side in SM. rewrite <- SY, H in SM. split.
        - assert (Z : (py v2 - py v1) * (px v1 - px m) == 0) by lra. clear - up Z. nra.
        - rewrite <- SY. symmetry. exact H. }
      destruct CT as [Z|[[_ Z]|Z]]; [|exact (V1 Z)|exact (V1 Z)].
      apply C3. exists r. split; [exact R|].
      destruct (between_0 a b) as [X0 Y0].
      split.
      - rewrite MX. unfold m, between. cbn [px]. rewrite <- E, Z. ring.
      - rewrite MY. unfold m, between. cbn [py]. rewrite <- E, Z. ring. }
    assert (NU : ~ u == w).
    { intro E. assert (SY : py (between a b u) == py m) by (unfold m; cbn; rewrite E; reflexivity).
      assert (V2 : py (between a b u) == py v2 -> False).
      { intro H. apply C2. exists w. split; [exact W|]. fold m.
        unfold side in SM. rewrite <- SY, H in SM. split.
        - assert (Z : (py v2 - py v1) * (px v2 - px m) == 0) by lra. clear - up Z. nra.
        - rewrite <- SY. symmetry. exact H. }
      destruct CU as [Z|Z]; [|exact (V2 Z)].
      apply C4. exists r. split; [exact R|]. split.
      - rewrite MX. unfold m, between. cbn [px]. rewrite <- E, Z. ring.
      - rewrite MY. unfold m, between. cbn [py]. rewrite <- E, Z. ring. }
    assert (O : less 0 (side v1 v2 (between a b t)) = negb (less 0 (side v1 v2 (between a b u)))).
    { unfold m in SM. rewrite side_between in SM.
      set (p := side v1 v2 a) in *. set (q := side v1 v2 b) in *.
      assert (ST : side v1 v2 (between a b t) == (t - w) * (q - p)).
      { rewrite side_between. fold p q. lra. }
      assert (SU : side v1 v2 (between a b u) == (u - w) * (q - p)).
      { rewrite side_between. fold p q. lra. }
      assert (Lt : t < w) by (destruct (Qle_lt_or_eq _ _ TW); [assumption|contradiction]).
      assert (Lu : w < u).
      { destruct (Qle_lt_or_eq _ _ WU) as [K|K]; [assumption|].
        exfalso. apply NU. symmetry. exact K. }
      destruct (Q_dec p q) as [[K|K]|K]; [| |contradiction].
      - assert (side v1 v2 (between a b t) <= 0) by (rewrite ST; clear - Lt K; nra).
        assert (0 < side v1 v2 (between a b u)) by (rewrite SU; clear - Lu K; nra).
        rewrite (proj2 (less_false 0 _)), (proj2 (less_true 0 _)) by assumption. reflexivity.
      - assert (0 < side v1 v2 (between a b t)) by (rewrite ST; clear - Lt K; nra).
        assert (side v1 v2 (between a b u) <= 0) by (rewrite SU; clear - Lu K; nra).
        rewrite (proj2 (less_true 0 _)), (proj2 (less_false 0 _)) by assumption. reflexivity. }
    rewrite O. destruct (less 0 (side v1 v2 (between a b u))), (strip v1 v2 a), (strip v1 v2 b);
      reflexivity.
Qed.

End Segment.

(** * Any segment *)

Lemma meet_swap v1 v2 a b : meet v1 v2 a b -> meet v2 v1 a b.
Proof.
  intros (s & t & S & T & [X Y]). exists (1 - s), t. split; [lra|split; [exact T|]].
  split; [rewrite <- X|rewrite <- Y]; cbn; ring.
Qed.

Lemma meet_turn v1 v2 a b : meet v1 v2 a b -> meet v1 v2 b a.
Proof.
  intros (s & t & S & T & [X Y]). exists s, (1 - t). split; [exact S|split; [lra|]].
  split; [rewrite X|rewrite Y]; cbn; ring.
Qed.

Lemma on_turn p a b : on p a b -> on p b a.
Proof.
  intros (t & T & [X Y]). exists (1 - t). split; [lra|].
  split; [rewrite X|rewrite Y]; cbn; ring.
Qed.

Lemma clear_swap v1 v2 e : clear v1 v2 e -> clear v2 v1 e.
Proof.
  intros (A & B & C & D). split; [exact B|split; [exact A|]].
  split; intro H; [apply C|apply D]; apply on_turn, H.
Qed.

Lemma clear_turn v1 v2 a b : clear v1 v2 (a, b) -> clear v1 v2 (b, a).
Proof.
  intros (A & B & C & D). cbn [fst snd] in *.
  split; [|split; [|split; [exact D|exact C]]]; intro H; [apply A|apply B]; apply on_turn, H.
Qed.

Definition region (v1 v2 p : point) : bool :=
  if less (py v1) (py v2) then strip v1 v2 p
  else if less (py v2) (py v1) then strip v2 v1 p
  else false.

Lemma on_level p v1 v2 : py p == py v1 -> py v1 == py v2 ->
  px v1 <= px p <= px v2 \/ px v2 <= px p <= px v1 -> on p v1 v2.
Proof.
  intros H1 H2 B.
  destruct (Q_dec (px v1) (px v2)) as [[L|L]|E].
  - exists ((px p - px v1) / (px v2 - px v1)).
    split; [split; [apply Qle_shift_div_l|apply Qle_shift_div_r]; lra|].
    split; cbn [px py between]; [field; lra|]. rewrite H2, H1. ring [H2].
  - exists ((px v1 - px p) / (px v1 - px v2)).
    split; [split; [apply Qle_shift_div_l|apply Qle_shift_div_r]; lra|].
    split; cbn [px py between]; [field; lra|]. rewrite H1. ring [H2].
  - exists 0. split; [lra|]. split; cbn [px py between]; [|rewrite H1; ring]. lra.
Qed.

Lemma between_range a b t : 0 <= t <= 1 ->
  (px a <= px (between a b t) <= px b \/ px b <= px (between a b t) <= px a) /\
  (py a <= py (between a b t) <= py b \/ py b <= py (between a b t) <= py a).
Proof.
  intro T. unfold between. cbn [px py]. split.
  - destruct (Qlt_le_dec (px a) (px b)); [left|right]; nra.
  - destruct (Qlt_le_dec (py a) (py b)); [left|right]; nra.
Qed.

Section Level.
Variables v1 v2 : point.
Hypothesis level : py v1 == py v2.

Lemma frac_same a b : frac a b (py v1) == frac a b (py v2).
Proof. unfold frac. rewrite level. reflexivity. Qed.

Lemma place_same a b : px (between a b (frac a b (py v1))) == px (between a b (frac a b (py v2))).
Proof. unfold between. cbn [px]. rewrite frac_same. reflexivity. Qed.

Lemma edge_same_level a b : py a <= py b ->
  ~ meet v1 v2 a b \/ side v1 v2 a == side v1 v2 b ->
  flips v1 a b = flips v2 a b.
Proof.
  intros AB M.
  destruct (Qlt_le_dec (py a) (py v1)) as [A|A]; [|rewrite !flips_none by lra; reflexivity].
  destruct (Qlt_le_dec (py b) (py v1)) as [B|B]; [rewrite !flips_none by lra; reflexivity|].
  rewrite !flips_up by lra.
  assert (L : py a < py b) by lra.
  pose proof (frac_height a b (py v1) L) as H.
  pose proof (frac_range a b (py v1) L ltac:(lra)) as R.
  pose proof (place_same a b) as P.
  assert (K : forall p q, py p == py q -> (p = v1 /\ q = v2 \/ p = v2 /\ q = v1) ->
    px (between a b (frac a b (py v1))) < px p -> px (between a b (frac a b (py v1))) < px q).
  { intros p q PQ W I.
    destruct (Qlt_le_dec (px (between a b (frac a b (py v1)))) (px q)) as [J|J]; [exact J|].
    exfalso. destruct M as [M|M].
    - assert (O : on (between a b (frac a b (py v1))) v1 v2).
      { apply on_level; [exact H|exact level|].
        destruct W as [[-> ->]|[-> ->]]; [right|left]; lra. }
      destruct O as (s & S & [X Y]). apply M.
      exists s, (frac a b (py v1)). split; [exact S|split; [exact R|]].
      split; [symmetry; exact X|symmetry; exact Y].
    - unfold side in M.
      assert (Z : (px v2 - px v1) * (py b - py a) == 0) by (rewrite <- level in M; lra).
      assert (px v1 == px v2) by (clear - Z L; nra).
      destruct W as [[-> ->]|[-> ->]]; lra. }
  apply less_eq. rewrite <- P. split; apply K; auto. symmetry. exact level.
Qed.

Lemma edge_cross_level a b : py a <= py b -> clear v1 v2 (a, b) -> meet v1 v2 a b ->
  flips v1 a b = negb (flips v2 a b).
Proof.
  intros AB (C1 & C2 & C3 & C4) (r & w & R & W & [MX MY]). cbn [fst snd] in *.
  pose proof (between_range v1 v2 r R) as [RX RY]. pose proof (between_range a b w W) as [WX WY].
  rewrite MX in RX. rewrite MY in RY.
  set (m := between a b w) in *.
  assert (HM : py m == py v1) by lra.
  destruct (Qle_lt_or_eq _ _ AB) as [L|E].
  2:{ exfalso.
    assert (HA : py a == py v1) by lra.
    assert (O1 : ~ (px v1 <= px a <= px v2 \/ px v2 <= px a <= px v1))
      by (intro K; apply C3, on_level; [exact HA|exact level|exact K]).
    assert (O2 : ~ (px v1 <= px b <= px v2 \/ px v2 <= px b <= px v1))
      by (intro K; apply C4, on_level; [rewrite <- E; exact HA|exact level|exact K]).
    assert (O3 : ~ (px a <= px v1 <= px b \/ px b <= px v1 <= px a))
      by (intro K; apply C1, on_level; [symmetry; exact HA|exact E|exact K]).
    clear - RX WX O1 O2 O3.
    destruct (Qlt_le_dec (px a) (px v1)), (Qlt_le_dec (px b) (px v1)),
      (Qlt_le_dec (px a) (px v2)), (Qlt_le_dec (px b) (px v2)); 
      try (apply O1; lra); try (apply O2; lra); try (apply O3; lra); lra. }
  assert (NA : ~ py a == py m).
  { intro E. apply C3. exists r. split; [exact R|].
    assert (Z : w == 0) by (unfold m, between in E; cbn [py] in E; clear - E L; nra).
    split; [rewrite MX|rewrite MY]; unfold m, between; cbn [px py]; rewrite Z; ring. }
  assert (FW : frac a b (py v1) == w).
  { unfold frac. rewrite <- HM. unfold m, between. cbn [py]. field. lra. }
  assert (PX : px (between a b (frac a b (py v1))) == px m)
    by (unfold m, between; cbn [px]; rewrite FW; reflexivity).
  pose proof (place_same a b) as P.
  rewrite !flips_up by lra.
  assert (N1 : ~ px v1 == px m).
  { intro E. apply C1. exists w. split; [exact W|]. split; [exact E|symmetry; exact HM]. }
  assert (N2 : ~ px v2 == px m).
  { intro E. apply C2. exists w. split; [exact W|]. split; [exact E|]. fold m. lra. }
  destruct (less (px (between a b (frac a b (py v1)))) (px v1)) eqn:F1,
    (less (px (between a b (frac a b (py v2)))) (px v2)) eqn:F2; try reflexivity; exfalso;
  rewrite ?less_true, ?less_false in *; lra.
Qed.

End Level.

Lemma side_swap v1 v2 a b : side v1 v2 a == side v1 v2 b -> side v2 v1 a == side v2 v1 b.
Proof. unfold side. intro H. lra. Qed.

Lemma edge_same v1 v2 a b :
  ~ meet v1 v2 a b \/ side v1 v2 a == side v1 v2 b ->
  xorb (flips v1 a b) (flips v2 a b) = xorb (region v1 v2 a) (region v1 v2 b).
Proof.
  assert (G : forall a b, py a <= py b -> ~ meet v1 v2 a b \/ side v1 v2 a == side v1 v2 b ->
    xorb (flips v1 a b) (flips v2 a b) = xorb (region v1 v2 a) (region v1 v2 b)).
  { clear a b. intros a b AB M. unfold region.
    destruct (less (py v1) (py v2)) eqn:L1.
    - apply less_true in L1. apply edge_same_up; assumption.
    - apply less_false in L1. destruct (less (py v2) (py v1)) eqn:L2.
      + apply less_true in L2. rewrite xorb_comm. apply edge_same_up; [exact L2|exact AB|].
        destruct M as [M|M]; [left; intro H; apply M, meet_swap, H|right; apply side_swap, M].
      + apply less_false in L2. rewrite (edge_same_level v1 v2 ltac:(lra) a b AB M).
        apply xorb_nilpotent. }
  intro M. destruct (Qlt_le_dec (py b) (py a)) as [L|L].
  - rewrite !(flips_sym _ a b), (xorb_comm (region v1 v2 a)). apply G; [lra|].
    destruct M as [M|M]; [left; intro H; apply M, meet_turn, H|right; symmetry; exact M].
  - apply G; assumption.
Qed.

Lemma edge_cross v1 v2 a b : clear v1 v2 (a, b) -> meet v1 v2 a b ->
  xorb (flips v1 a b) (flips v2 a b) = negb (xorb (region v1 v2 a) (region v1 v2 b)).
Proof.
  assert (G : forall a b, py a <= py b -> clear v1 v2 (a, b) -> meet v1 v2 a b ->
    xorb (flips v1 a b) (flips v2 a b) = negb (xorb (region v1 v2 a) (region v1 v2 b))).
  { clear a b. intros a b AB C M. unfold region.
    destruct (less (py v1) (py v2)) eqn:L1.
    - apply less_true in L1. apply edge_cross_up; assumption.
    - apply less_false in L1. destruct (less (py v2) (py v1)) eqn:L2.
      + apply less_true in L2. rewrite xorb_comm. apply edge_cross_up; [exact L2|exact AB| |].
        * apply clear_swap, C.
        * apply meet_swap, M.
      + apply less_false in L2. rewrite (edge_cross_level v1 v2 ltac:(lra) a b AB C M).
        destruct (flips v2 a b); reflexivity. }
  intros C M. destruct (Qlt_le_dec (py b) (py a)) as [L|L].
  - rewrite !(flips_sym _ a b), (xorb_comm (region v1 v2 a)).
    apply G; [lra|apply clear_turn, C|apply meet_turn, M].
  - apply G; assumption.
Qed.

(** * Loops *)

Fixpoint chain (j : point) (l : list point) : list (point * point) :=
  match l with [] => [] | i :: r => (j, i) :: chain i r end.

Definition total (f : point -> point -> bool) (es : list (point * point)) : bool :=
  fold_right (fun e o => xorb (f (fst e) (snd e)) o) false es.

Lemma total_app f es fs : total f (es ++ fs) = xorb (total f es) (total f fs).
Proof.
  induction es as [|e es IH]; cbn [app]; [destruct (total f fs); reflexivity|].
  change (total f (e :: es ++ fs)) with (xorb (f (fst e) (snd e)) (total f (es ++ fs))).
  change (total f (e :: es)) with (xorb (f (fst e) (snd e)) (total f es)).
  rewrite IH, xorb_assoc. reflexivity.
Qed.

Lemma odd_nodes_total v l : forall j o,
  odd_nodes v j l o = xorb o (total (flips v) (chain j l)).
Proof.
  induction l as [|i r IH]; intros j o.
  - destruct o; reflexivity.
  - cbn [odd_nodes chain total fold_right fst snd]. rewrite IH, (flips_sym v j i).
    fold (total (flips v) (chain i r)).
    destruct (flips v i j), o, (total (flips v) (chain i r)); reflexivity.
Qed.

Lemma last_cons (a : point) r d : last (a :: r) d = last r a.
Proof.
  revert a d. induction r as [|b r IH]; intros a d; [reflexivity|].
  change (last (a :: b :: r) d) with (last (b :: r) d). rewrite (IH b d), (IH b a). reflexivity.
Qed.

Lemma chain_app l : forall j i, chain j (l ++ [i]) = chain j l ++ [(last l j, i)].
Proof.
  induction l as [|a l IH]; intros j i; [reflexivity|].
  cbn [app chain]. rewrite IH. cbn [app]. f_equal. f_equal. f_equal.
  f_equal. symmetry. apply last_cons.
Qed.

Lemma sides_chain a r : sides (a :: r) = chain a (r ++ [a]).
Proof.
  unfold sides. generalize a at 2 4 as z. revert a.
  induction r as [|b r IH]; intros a z; [reflexivity|].
  cbn [app combine chain]. f_equal. apply IH.
Qed.

Lemma loop_point_total l v : loop_point l v = total (flips v) (sides l).
Proof.
  destruct l as [|a r]; [reflexivity|].
  unfold loop_point. rewrite odd_nodes_total, xorb_false_l, sides_chain, chain_app, total_app.
  rewrite last_cons. cbn [chain].
  change (total (flips v) ((last r a, a) :: chain a r))
    with (xorb (flips v (last r a) a) (total (flips v) (chain a r))).
  change (total (flips v) [(last r a, a)]) with (xorb (flips v (last r a) a) false).
  rewrite xorb_false_r. apply xorb_comm.
Qed.

Lemma any_hit_chain v1 v2 l : forall j,
  any_hit v1 v2 j l = existsb (fun e => hits v1 v2 (snd e) (fst e)) (chain j l).
Proof.
  induction l as [|i r IH]; intro j; [reflexivity|].
  cbn [any_hit chain existsb fst snd]. rewrite IH. destruct (hits v1 v2 i j); reflexivity.
Qed.

Lemma loop_line_false l v1 v2 : loop_line l v1 v2 = false ->
  forall e, In e (sides l) -> hits v1 v2 (snd e) (fst e) = false.
Proof.
  intros H e I. destruct l as [|a r]; [destruct I|].
  unfold loop_line in H. rewrite any_hit_chain, last_cons in H. cbn [chain existsb] in H.
  apply orb_false_iff in H. destruct H as [H1 H2]. cbn [fst snd] in H1.
  rewrite sides_chain, chain_app in I. apply in_app_or in I.
  destruct I as [I|[<-|[]]]; [|exact H1].
  destruct (hits v1 v2 (snd e) (fst e)) eqn:E; [|reflexivity].
  assert (X : existsb (fun e => hits v1 v2 (snd e) (fst e)) (chain a r) = true)
    by (apply existsb_exists; exists e; auto).
  congruence.
Qed.

(** The way around a loop ends where it began. *)
Lemma total_closed (g : point -> bool) l :
  total (fun a b => xorb (g a) (g b)) (sides l) = false.
Proof.
  destruct l as [|a r]; [reflexivity|]. rewrite sides_chain.
  assert (G : forall r j, total (fun a b => xorb (g a) (g b)) (chain j (r ++ [a]))
    = xorb (g j) (g a)).
  { clear r. induction r as [|i r IH]; intro j.
    - cbn. apply xorb_false_r.
    - cbn [app chain].
      change (xorb (xorb (g j) (g i)) (total (fun a b => xorb (g a) (g b)) (chain i (r ++ [a])))
        = xorb (g j) (g a)).
      rewrite IH. destruct (g j), (g i), (g a); reflexivity. }
  rewrite G. apply xorb_nilpotent.
Qed.

Lemma total_xor f g es : xorb (total f es) (total g es) = total (fun a b => xorb (f a b) (g a b)) es.
Proof.
  induction es as [|e es IH]; [reflexivity|].
  change (xorb (xorb (f (fst e) (snd e)) (total f es)) (xorb (g (fst e) (snd e)) (total g es))
    = xorb (xorb (f (fst e) (snd e)) (g (fst e) (snd e)))
      (total (fun a b => xorb (f a b) (g a b)) es)).
  rewrite <- IH.
  destruct (f (fst e) (snd e)), (g (fst e) (snd e)), (total f es), (total g es); reflexivity.
Qed.

Lemma total_ext f g es : (forall a b, In (a, b) es -> f a b = g a b) -> total f es = total g es.
Proof.
  induction es as [|[a b] es IH]; intro H; [reflexivity|].
  change (xorb (f a b) (total f es) = xorb (g a b) (total g es)).
  rewrite H by (left; reflexivity). rewrite IH; [reflexivity|].
  intros c d I. apply H. right. exact I.
Qed.

(** What the report on a side means. *)
Lemma hits_iff v1 v2 a b : ~ side v1 v2 a == side v1 v2 b ->
  (hits v1 v2 b a = true <-> meet v1 v2 a b).
Proof.
  intro N. unfold hits. cbv zeta.
  set (d := (px v2 - px v1) * (py a - py b) - (py v2 - py v1) * (px a - px b)).
  assert (D : ~ d == 0) by (intro D; apply N; unfold side; unfold d in D; lra).
  destruct (Qeq_bool d 0) eqn:DB; [apply Qeq_bool_iff in DB; contradiction|]. clear DB.
  rewrite !andb_true_iff, !Qle_bool_iff. split.
  - set (s := ((py v1 - py b) * (px a - px b) - (px v1 - px b) * (py a - py b)) / d).
    set (t := ((py v1 - py b) * (px v2 - px v1) - (px v1 - px b) * (py v2 - py v1)) / d).
    intros [[[S0 T0] S1] T1]. apply meet_turn. exists s, t.
    split; [lra|split; [lra|]]. unfold between. cbn [px py].
    assert (SD : s * d == (py v1 - py b) * (px a - px b) - (px v1 - px b) * (py a - py b))
      by (unfold s; field; exact D).
    assert (TD : t * d == (py v1 - py b) * (px v2 - px v1) - (px v1 - px b) * (py v2 - py v1))
      by (unfold t; field; exact D).
    split.
    + apply (Qmult_inj_r _ _ d D).
      setoid_replace ((px v1 + s * (px v2 - px v1)) * d)
        with (px v1 * d + (s * d) * (px v2 - px v1)) by ring.
      setoid_replace ((px b + t * (px a - px b)) * d)
        with (px b * d + (t * d) * (px a - px b)) by ring.
      rewrite SD, TD. unfold d. ring.
    + apply (Qmult_inj_r _ _ d D).
      setoid_replace ((py v1 + s * (py v2 - py v1)) * d)
        with (py v1 * d + (s * d) * (py v2 - py v1)) by ring.
      setoid_replace ((py b + t * (py a - py b)) * d)
        with (py b * d + (t * d) * (py a - py b)) by ring.
      rewrite SD, TD. unfold d. ring.
  - intro M. apply meet_turn in M.
    destruct M as (s & t & S & T & [X Y]). unfold between in X, Y. cbn [px py] in X, Y.
    assert (Y1 : py v1 - py b == t * (py a - py b) - s * (py v2 - py v1)) by lra.
    assert (X1 : px v1 - px b == t * (px a - px b) - s * (px v2 - px v1)) by lra.
    assert (ES : ((py v1 - py b) * (px a - px b) - (px v1 - px b) * (py a - py b)) / d == s).
    { assert (E : (py v1 - py b) * (px a - px b) - (px v1 - px b) * (py a - py b) == s * d)
        by (rewrite X1, Y1; unfold d; ring).
      rewrite E. field. exact D. }
    assert (ET : ((py v1 - py b) * (px v2 - px v1) - (px v1 - px b) * (py v2 - py v1)) / d == t).
    { assert (E : (py v1 - py b) * (px v2 - px v1) - (px v1 - px b) * (py v2 - py v1) == t * d)
        by (rewrite X1, Y1; unfold d; ring).
      rewrite E. field. exact D. }
    rewrite ES, ET. lra.
Qed.

Lemma hits_sound v1 v2 a b : hits v1 v2 b a = false ->
  ~ meet v1 v2 a b \/ side v1 v2 a == side v1 v2 b.
Proof.
  intro H. destruct (Qeq_dec (side v1 v2 a) (side v1 v2 b)) as [E|N]; [right; exact E|left].
  intro M. apply (hits_iff v1 v2 a b N) in M. congruence.
Qed.

Lemma loop_same l v1 v2 :
  (forall a b, In (a, b) (sides l) -> ~ meet v1 v2 a b \/ side v1 v2 a == side v1 v2 b) ->
  loop_point l v1 = loop_point l v2.
Proof.
  intro H. apply xorb_eq. rewrite !loop_point_total, total_xor.
  rewrite (total_ext _ (fun a b => xorb (region v1 v2 a) (region v1 v2 b))).
  - apply total_closed.
  - intros a b I. apply edge_same, H, I.
Qed.

Lemma loop_line_same l v1 v2 : loop_line l v1 v2 = false -> loop_point l v1 = loop_point l v2.
Proof.
  intro H. apply loop_same. intros a b I. apply hits_sound.
  apply (loop_line_false l v1 v2 H (a, b) I).
Qed.

(** The number of sides crossed counts the changes. *)
Lemma crossed_parity v1 v2 es n : Forall (clear v1 v2) es -> crossed v1 v2 es n ->
  total (fun a b => xorb (flips v1 a b) (flips v2 a b)) es =
  xorb (Nat.odd n) (total (fun a b => xorb (region v1 v2 a) (region v1 v2 b)) es).
Proof.
  intros F C. induction C as [|a b l n M C IH|a b l n M C IH].
  - reflexivity.
  - inversion F as [|? ? F1 F2]; subst.
    change (xorb (xorb (flips v1 a b) (flips v2 a b))
        (total (fun a b => xorb (flips v1 a b) (flips v2 a b)) l)
      = xorb (Nat.odd (S n)) (xorb (xorb (region v1 v2 a) (region v1 v2 b))
        (total (fun a b => xorb (region v1 v2 a) (region v1 v2 b)) l))).
    rewrite (IH F2), (edge_cross v1 v2 a b F1 M), Nat.odd_succ, <- Nat.negb_odd.
    destruct (region v1 v2 a), (region v1 v2 b), (Nat.odd n),
      (total (fun a b => xorb (region v1 v2 a) (region v1 v2 b)) l); reflexivity.
  - inversion F as [|? ? F1 F2]; subst.
    change (xorb (xorb (flips v1 a b) (flips v2 a b))
        (total (fun a b => xorb (flips v1 a b) (flips v2 a b)) l)
      = xorb (Nat.odd n) (xorb (xorb (region v1 v2 a) (region v1 v2 b))
        (total (fun a b => xorb (region v1 v2 a) (region v1 v2 b)) l))).
    rewrite (IH F2), (edge_same v1 v2 a b (or_introl M)).
    destruct (region v1 v2 a), (region v1 v2 b), (Nat.odd n),
      (total (fun a b => xorb (region v1 v2 a) (region v1 v2 b)) l); reflexivity.
Qed.

Lemma loop_crossed l p q n : Forall (clear p q) (sides l) -> crossed p q (sides l) n ->
  xorb (loop_point l p) (loop_point l q) = Nat.odd n.
Proof.
  intros F C. rewrite !loop_point_total, total_xor, (crossed_parity p q _ n F C), total_closed.
  apply xorb_false_r.
Qed.

(** Beyond the loop. *)
Lemma in_sides l a b : In (a, b) (sides l) -> In a l /\ In b l.
Proof.
  destruct l as [|c r]; [intros []|]. unfold sides. intro I.
  split; [exact (in_combine_l _ _ _ _ I)|].
  apply in_combine_r, in_app_or in I. destruct I as [I|[<-|[]]]; [right; exact I|left; reflexivity].
Qed.

Lemma total_false es : total (fun _ _ => false) es = false.
Proof.
  induction es as [|e es IH]; [reflexivity|].
  change (xorb false (total (fun _ _ => false) es) = false). rewrite IH. reflexivity.
Qed.

Lemma place_range a b y : py a < y <= py b -> 0 <= frac a b y <= 1.
Proof. intro H. apply frac_range; lra. Qed.

Lemma flips_inside v a b : flips v a b = true ->
  exists t, 0 <= t <= 1 /\ py (between a b t) == py v /\ px (between a b t) < px v.
Proof.
  intro H.
  assert (G : forall a b, py a <= py b -> flips v a b = true ->
    exists t, 0 <= t <= 1 /\ py (between a b t) == py v /\ px (between a b t) < px v).
  { clear a b H. intros a b AB H.
    destruct (Qlt_le_dec (py a) (py v)) as [A|A]; [|rewrite flips_none in H by lra; discriminate].
    destruct (Qlt_le_dec (py b) (py v)) as [B|B]; [rewrite flips_none in H by lra; discriminate|].
    rewrite flips_up in H by lra. apply less_true in H.
    exists (frac a b (py v)). split; [apply frac_range; lra|].
    split; [apply frac_height; lra|exact H]. }
  destruct (Qlt_le_dec (py b) (py a)) as [L|L].
  - rewrite flips_sym in H. destruct (G b a ltac:(lra) H) as (t & T & Y & X).
    exists (1 - t). split; [lra|].
    assert (EX : px (between a b (1 - t)) == px (between b a t)) by (cbn; ring).
    assert (EY : py (between a b (1 - t)) == py (between b a t)) by (cbn; ring).
    rewrite EX, EY. auto.
  - exact (G a b L H).
Qed.

Lemma beyond_false l q : beyond q l -> loop_point l q = false.
Proof.
  intro B. rewrite loop_point_total.
  destruct B as [B|[B|[B|B]]].
  - (* right of all points: every side that spans the height counts *)
    rewrite (total_ext _ (fun a b => xorb (less (py a) (py q)) (less (py b) (py q)))).
    + apply (total_closed (fun a => less (py a) (py q))).
    + intros a b I. apply in_sides in I. destruct I as [IA IB].
      apply B in IA. apply B in IB.
      assert (G : forall a b, px a < px q -> px b < px q -> py a <= py b ->
        flips q a b = xorb (less (py a) (py q)) (less (py b) (py q))).
      { clear. intros a b IA IB AB.
        destruct (Qlt_le_dec (py a) (py q)) as [A|A];
        destruct (Qlt_le_dec (py b) (py q)) as [C|C].
        - rewrite flips_none by lra. apply less_true in A, C. rewrite A, C. reflexivity.
        - rewrite flips_up by lra.
          rewrite (proj2 (less_true (py a) _) A), (proj2 (less_false (py b) _) C).
          cbn [xorb]. apply less_true.
          pose proof (frac_range a b (py q) ltac:(lra) ltac:(lra)) as R.
          destruct (between_range a b _ R) as [[X|X] _]; lra.
        - exfalso. lra.
        - rewrite flips_none by lra. apply less_false in A, C. rewrite A, C. reflexivity. }
      destruct (Qlt_le_dec (py b) (py a)) as [L|L].
      * rewrite flips_sym, xorb_comm. apply G; [exact IB|exact IA|lra].
      * apply G; assumption.
  - rewrite (total_ext _ (fun _ _ => false)); [apply total_false|].
    intros a b I. apply in_sides in I. destruct I as [IA IB]. apply B in IA, IB.
    destruct (flips q a b) eqn:F; [|reflexivity].
    apply flips_inside in F. destruct F as (t & T & _ & X).
    destruct (between_range a b t T) as [[K|K] _]; exfalso; lra.
  - rewrite (total_ext _ (fun _ _ => false)); [apply total_false|].
    intros a b I. apply in_sides in I. destruct I as [IA IB]. apply B in IA, IB.
    apply flips_none; lra.
  - rewrite (total_ext _ (fun _ _ => false)); [apply total_false|].
    intros a b I. apply in_sides in I. destruct I as [IA IB]. apply B in IA, IB.
    apply flips_none; lra.
Qed.

Lemma loop_odd_even l p q n : beyond q l -> Forall (clear p q) (sides l) ->
  crossed p q (sides l) n -> loop_point l p = Nat.odd n.
Proof.
  intros B F C. rewrite <- (loop_crossed l p q n F C), (beyond_false l q B).
  symmetry. apply xorb_false_r.
Qed.

(** * A way out *)

Lemma meet_dec p q a b : clear p q (a, b) -> meet p q a b \/ ~ meet p q a b.
Proof.
  intro C. destruct (Qeq_dec (side p q a) (side p q b)) as [E|N].
  - right. intro M. pose proof (edge_cross p q a b C M) as X.
    rewrite (edge_same p q a b (or_intror E)) in X.
    destruct (xorb (region p q a) (region p q b)); discriminate.
  - destruct (hits p q b a) eqn:H; [left|right].
    + apply (hits_iff p q a b N), H.
    + intro M. apply (hits_iff p q a b N) in M. congruence.
Qed.

Lemma crossed_exists p q es : Forall (clear p q) es -> exists n, crossed p q es n.
Proof.
  induction es as [|[a b] es IH]; intro F.
  - exists O. constructor.
  - inversion F as [|? ? F1 F2]; subst. destruct (IH F2) as [n C].
    destruct (meet_dec p q a b F1) as [M|M]; [exists (S n)|exists n]; constructor; assumption.
Qed.

(** Right of everything. *)
Lemma right_of l : exists x : Q, forall a : point, In a l -> px a < x.
Proof.
  induction l as [|a l [x H]]; [exists 0; intros a []|].
  exists (px a + 1 + (if less (px a + 1) x then x - (px a + 1) else 0)).
  intros b [<-|I].
  - destruct (less (px a + 1) x) eqn:E; [apply less_true in E|]; lra.
  - apply H in I. destruct (less (px a + 1) x) eqn:E; [|apply less_false in E]; lra.
Qed.

Lemma steeper (f : point -> Q) l : exists d : Q, 0 < d /\ forall a : point, In a l -> f a < d.
Proof.
  induction l as [|a l [x [P H]]]; [exists 1; split; [lra|intros a []]|].
  destruct (Qlt_le_dec (f a) x) as [L|L].
  - exists x. split; [exact P|]. intros b [<-|I]; [exact L|apply H, I].
  - exists (f a + 1). split; [lra|]. intros b [<-|I]; [lra|]. apply H in I. lra.
Qed.

Lemma sides_cover l a : In a l -> exists b, In (a, b) (sides l).
Proof.
  destruct l as [|c r]; [intros []|]. unfold sides.
  intro I. destruct (In_nth _ _ a I) as (n & L & E).
  exists (nth n (r ++ [c]) a).
  assert (LL : length (c :: r) = length (r ++ [c])) by (rewrite app_length; cbn; lia).
  rewrite <- E at 1. rewrite <- (combine_nth (c :: r) (r ++ [c]) n a a LL).
  apply nth_In. rewrite combine_length, <- LL. lia.
Qed.

Lemma way_out l p : (forall a b, In (a, b) (sides l) -> ~ on p a b) ->
  exists q, beyond q l /\ Forall (clear p q) (sides l).
Proof.
  intro P. destruct (right_of (p :: l)) as [x X].
  assert (XP : px p < x) by (apply X; left; reflexivity).
  destruct (steeper (fun a => (py a - py p) * (x - px p) / (px a - px p)) l) as (d & D & S).
  exists (Pt x (py p + d)). split.
  - left. intros a I. cbn [px]. apply X. right. exact I.
  - apply Forall_forall. intros [a b] I.
    destruct (in_sides l a b I) as [IA IB].
    assert (NV : forall c, In c l -> ~ on c p (Pt x (py p + d))).
    { intros c IC (t & T & [QX QY]). unfold between in QX, QY. cbn [px py] in QX, QY.
      assert (TP : ~ t == 0).
      { intro Z. destruct (sides_cover l c IC) as [e IE]. apply (P c e IE).
        exists 0. split; [lra|]. unfold between. split; cbn [px py]; [rewrite QX, Z|rewrite QY, Z]; ring. }
      assert (TT : 0 < t) by (destruct (Qle_lt_or_eq _ _ (proj1 T)) as [K|K]; [exact K|];
        exfalso; apply TP; symmetry; exact K).
      specialize (S c IC). cbn beta in S.
      assert (E : (py c - py p) * (x - px p) / (px c - px p) == d).
      { rewrite QX, QY. field. clear - TT XP. intro Z. nra. }
      lra. }
    assert (NQ : ~ on (Pt x (py p + d)) a b).
    { intros (t & T & [QX _]). destruct (between_range a b t T) as [R _].
      rewrite <- QX in R. cbn [px] in R.
      assert (px a < x) by (apply X; right; exact IA).
      assert (px b < x) by (apply X; right; exact IB). lra. }
    repeat split; cbn [fst snd]; [exact (P a b I)|exact NQ|exact (NV a IA)|exact (NV b IB)].
Qed.

Lemma surrounds_point l p : surrounds l p -> loop_point l p = true.
Proof.
  intros (q & n & B & F & C & O). rewrite (loop_odd_even l p q n B F C).
  apply Nat.odd_spec, O.
Qed.

Lemma not_surrounds_point l p : not_surrounds l p -> loop_point l p = false.
Proof.
  intros (q & n & B & F & C & O). rewrite (loop_odd_even l p q n B F C).
  rewrite <- Nat.negb_even. apply negb_false_iff, Nat.even_spec, O.
Qed.

Lemma surrounds_total l p : (forall a b, In (a, b) (sides l) -> ~ on p a b) ->
  surrounds l p \/ not_surrounds l p.
Proof.
  intro P. destruct (way_out l p P) as (q & B & F).
  destruct (crossed_exists p q _ F) as [n C].
  destruct (Nat.Even_or_Odd n) as [E|O]; [right|left]; exists q, n; auto.
Qed.

(** * All loops *)

Lemma count_fold (f : list point -> bool) ls : forall c,
  fold_left (fun c l => (c + if f l then 1 else 0)%nat) ls c = (c + length (filter f ls))%nat.
Proof.
  induction ls as [|l ls IH]; intro c; cbn [fold_left filter]; [cbn; lia|].
  rewrite IH. destruct (f l); cbn [length]; lia.
Qed.

Lemma trim_point_even loops v : loops <> [] ->
  trim_point loops v = Nat.even (length (filter (fun l => loop_point l v) loops)).
Proof.
  intro N. unfold trim_point. destruct loops as [|l ls]; [congruence|].
  rewrite (count_fold (fun l => loop_point l v)). rewrite Nat.negb_odd. f_equal.
Qed.

Lemma trim_point_same loops v w : (forall l, In l loops -> loop_point l v = loop_point l w) ->
  trim_point loops v = trim_point loops w.
Proof.
  intro H. destruct loops as [|l ls]; [reflexivity|].
  rewrite !trim_point_even by discriminate. do 2 f_equal. apply filter_ext_in. exact H.
Qed.

Lemma trim_line_false loops v w : trim_line loops v w = false ->
  forall l, In l loops -> loop_line l v w = false.
Proof.
  induction loops as [|l ls IH]; intros H k I; [destruct I|].
  cbn [trim_line] in H. destruct (loop_line l v w) eqn:E; [discriminate|].
  destruct I as [<-|I]; [exact E|exact (IH H k I)].
Qed.

Lemma trim_line_same loops v w : trim_line loops v w = false ->
  trim_point loops v = trim_point loops w.
Proof.
  intro H. apply trim_point_same. intros l I. apply loop_line_same, (trim_line_false loops v w H l I).
Qed.

(** * Micropolygons *)

(** How far from [p] towards [q] until the interval is left. *)
Lemma leave (lo hi p q : Q) : lo <= p <= hi -> exists k, 0 <= k <= 1 /\
  (forall m, 0 <= m <= k -> lo <= p + m * (q - p) <= hi) /\
  (k == 1 /\ lo <= q <= hi \/ ~ p == q /\ (p + k * (q - p) == lo \/ p + k * (q - p) == hi)).
Proof.
  intro P. destruct (Qlt_le_dec hi q) as [H|H]; [|destruct (Qlt_le_dec q lo) as [L|L]].
  - exists ((hi - p) / (q - p)). split; [split; [apply Qle_shift_div_l|apply Qle_shift_div_r]; lra|].
    assert (E : p + (hi - p) / (q - p) * (q - p) == hi) by (field; lra).
    split; [|right; split; [lra|right; exact E]].
    intros m M. clear - M E P H. nra.
  - exists ((p - lo) / (p - q)). split; [split; [apply Qle_shift_div_l|apply Qle_shift_div_r]; lra|].
    assert (E : p + (p - lo) / (p - q) * (q - p) == lo) by (field; lra).
    split; [|right; split; [lra|left; exact E]].
    intros m M. clear - M E P L. nra.
  - exists 1. split; [lra|]. split; [|left; split; [reflexivity|lra]].
    intros m M. clear - M P H L. nra.
Qed.

Lemma in_box_between a c p q t : in_box a c p -> in_box a c q -> 0 <= t <= 1 ->
  in_box a c (between p q t).
Proof. intros [P1 P2] [Q1 Q2] T. unfold in_box, between. cbn [px py]. split; clear - P1 P2 Q1 Q2 T; nra. Qed.

Section Box.
Variables a c : point.
Hypothesis wide : px a < px c.
Hypothesis high : py a < py c.
Let b := Pt (px c) (py a).
Let d := Pt (px a) (py c).

Lemma vertical_hit x p q k : x == px p + k * (px q - px p) -> 0 <= k <= 1 ->
  ~ px p == px q -> py a <= py p + k * (py q - py p) <= py c ->
  (hits (Pt x (py a)) (Pt x (py c)) q p = true /\ hits (Pt x (py c)) (Pt x (py a)) q p = true).
Proof.
  intros X K N Y.
  set (h := py p + k * (py q - py p)) in *.
  assert (M : meet (Pt x (py a)) (Pt x (py c)) p q).
  { exists ((h - py a) / (py c - py a)), k.
    split; [split; [apply Qle_shift_div_l|apply Qle_shift_div_r]; lra|].
    split; [exact K|]. unfold between. split; cbn [px py]; [rewrite X; field; lra|].
    fold h. field. lra. }
  split; apply hits_iff.
  - unfold side. cbn [px py]. intro E. apply N. clear - E high. nra.
  - exact M.
  - unfold side. cbn [px py]. intro E. apply N. clear - E high. nra.
  - apply meet_swap, M.
Qed.

Lemma horizontal_hit y p q k : y == py p + k * (py q - py p) -> 0 <= k <= 1 ->
  ~ py p == py q -> px a <= px p + k * (px q - px p) <= px c ->
  (hits (Pt (px a) y) (Pt (px c) y) q p = true /\ hits (Pt (px c) y) (Pt (px a) y) q p = true).
Proof.
  intros Y K N X.
  set (h := px p + k * (px q - px p)) in *.
  assert (M : meet (Pt (px a) y) (Pt (px c) y) p q).
  { exists ((h - px a) / (px c - px a)), k.
    split; [split; [apply Qle_shift_div_l|apply Qle_shift_div_r]; lra|].
    split; [exact K|]. unfold between. split; cbn [px py]; [fold h; field; lra|].
    rewrite Y. field. lra. }
  split; apply hits_iff.
  - unfold side. cbn [px py]. intro E. apply N. clear - E wide. nra.
  - exact M.
  - unfold side. cbn [px py]. intro E. apply N. clear - E wide. nra.
  - apply meet_swap, M.
Qed.

(** A side that is partly in the box and ends outside crosses its border. *)
Lemma border p q t : 0 <= t <= 1 -> in_box a c (between p q t) -> ~ in_box a c q ->
  (hits a b q p || hits b c q p || hits c d q p || hits d a q p) = true.
Proof.
  intros T B OUT.
  set (m := between p q t) in *.
  destruct (leave (px a) (px c) (px m) (px q) (proj1 B)) as (kx & KX & IX & EX).
  destruct (leave (py a) (py c) (py m) (py q) (proj2 B)) as (ky & KY & IY & EY).
  assert (PLACE : forall k, 0 <= k <= 1 ->
    0 <= t + k * (1 - t) <= 1 /\
    px p + (t + k * (1 - t)) * (px q - px p) == px m + k * (px q - px m) /\
    py p + (t + k * (1 - t)) * (py q - py p) == py m + k * (py q - py m)).
  { intros k K. split; [clear - K T; nra|]. unfold m, between. cbn [px py]. split; ring. }
  assert (NX : ~ px m == px q -> ~ px p == px q).
  { intros N E. apply N. unfold m, between. cbn [px]. rewrite E. ring. }
  assert (NY : ~ py m == py q -> ~ py p == py q).
  { intros N E. apply N. unfold m, between. cbn [py]. rewrite E. ring. }
  assert (ACROSS : kx <= ky -> ~ px m == px q ->
    px m + kx * (px q - px m) == px a \/ px m + kx * (px q - px m) == px c ->
    (hits a b q p || hits b c q p || hits c d q p || hits d a q p) = true).
  { intros L N E. destruct (PLACE kx KX) as (R & PX & PY).
    assert (Y : py a <= py p + (t + kx * (1 - t)) * (py q - py p) <= py c)
      by (rewrite PY; apply IY; lra).
    rewrite !orb_true_iff. destruct E as [E|E].
    - right.
      assert (X : px a == px p + (t + kx * (1 - t)) * (px q - px p)) by (rewrite PX, E; reflexivity).
      destruct (vertical_hit (px a) p q _ X R (NX N) Y) as [_ H].
      unfold d. destruct a as [ax ay]. exact H.
    - left. left. right.
      assert (X : px c == px p + (t + kx * (1 - t)) * (px q - px p)) by (rewrite PX, E; reflexivity).
      destruct (vertical_hit (px c) p q _ X R (NX N) Y) as [H _].
      unfold b. destruct c as [cx cy]. exact H. }
  assert (UPWARD : ky <= kx -> ~ py m == py q ->
    py m + ky * (py q - py m) == py a \/ py m + ky * (py q - py m) == py c ->
    (hits a b q p || hits b c q p || hits c d q p || hits d a q p) = true).
  { intros L N E. destruct (PLACE ky KY) as (R & PX & PY).
    assert (X : px a <= px p + (t + ky * (1 - t)) * (px q - px p) <= px c)
      by (rewrite PX; apply IX; lra).
    rewrite !orb_true_iff. destruct E as [E|E].
    - left. left. left.
      assert (Y : py a == py p + (t + ky * (1 - t)) * (py q - py p)) by (rewrite PY, E; reflexivity).
      destruct (horizontal_hit (py a) p q _ Y R (NY N) X) as [H _].
      unfold b. destruct a as [ax ay]. exact H.
    - left. right.
      assert (Y : py c == py p + (t + ky * (1 - t)) * (py q - py p)) by (rewrite PY, E; reflexivity).
      destruct (horizontal_hit (py c) p q _ Y R (NY N) X) as [_ H].
      unfold d. destruct c as [cx cy]. exact H. }
  destruct EX as [[X1 XIN]|[XN XE]], EY as [[Y1 YIN]|[YN YE]].
  - exfalso. apply OUT. split; assumption.
  - apply UPWARD; [lra|exact YN|exact YE].
  - apply ACROSS; [lra|exact XN|exact XE].
  - destruct (Qlt_le_dec kx ky) as [L|L].
    + apply ACROSS; [lra|exact XN|exact XE].
    + apply UPWARD; [lra|exact YN|exact YE].
Qed.

Lemma in_box_dec p : in_box a c p \/ ~ in_box a c p.
Proof.
  unfold in_box.
  destruct (Qlt_le_dec (px p) (px a)); [right; lra|].
  destruct (Qlt_le_dec (px c) (px p)); [right; lra|].
  destruct (Qlt_le_dec (py p) (py a)); [right; lra|].
  destruct (Qlt_le_dec (py c) (py p)); [right; lra|]. left. lra.
Qed.

(** On the way from a point in the box to one outside, some side leads out. *)
Lemma leaves l : forall j, in_box a c j -> (exists o, In o l /\ ~ in_box a c o) ->
  exists p q, In (p, q) (chain j l) /\ in_box a c p /\ ~ in_box a c q.
Proof.
  induction l as [|i r IH]; intros j J (o & I & O); [destruct I|].
  cbn [chain]. destruct (in_box_dec i) as [B|B].
  - destruct I as [<-|I]; [contradiction|].
    destruct (IH i B (ex_intro _ o (conj I O))) as (p & q & K & P & Q).
    exists p, q. split; [right; exact K|auto].
  - exists j, i. split; [left; reflexivity|auto].
Qed.

(** The sides of a loop, read from any of its points. *)
Lemma chain_split l : forall l' j, chain j (l ++ l') = chain j l ++ chain (last l j) l'.
Proof.
  induction l as [|i r IH]; intros l' j; [reflexivity|].
  cbn [app chain]. rewrite IH, last_cons. reflexivity.
Qed.

Lemma around l p : In p l -> exists l', (forall o, In o l <-> In o (l' ++ [p])) /\
  forall e, In e (chain p (l' ++ [p])) -> In e (sides l).
Proof.
  intro I. destruct (in_split _ _ I) as (l1 & l2 & ->).
  exists (l2 ++ l1). split.
  - intro o. rewrite !in_app_iff. cbn [In]. rewrite ?in_app_iff. cbn [In]. tauto.
  - intros e H. destruct l1 as [|x l1].
    + rewrite app_nil_r in H. cbn [app]. rewrite sides_chain. exact H.
    + cbn [app]. rewrite sides_chain.
      replace ((l1 ++ p :: l2) ++ [x]) with ((l1 ++ [p]) ++ (l2 ++ [x]))
        by (rewrite <- !app_assoc; reflexivity).
      replace ((l2 ++ x :: l1) ++ [p]) with ((l2 ++ [x]) ++ (l1 ++ [p])) in H
        by (rewrite <- !app_assoc; reflexivity).
      rewrite chain_split in H |- *. rewrite !last_last in H |- *.
      rewrite in_app_iff in *. tauto.
Qed.

Lemma loop_outside l :
  loop_line l a b = false -> loop_line l b c = false ->
  loop_line l c d = false -> loop_line l d a = false ->
  (exists o, In o l /\ ~ in_box a c o) ->
  forall e, In e (sides l) -> ~ enters a c e.
Proof.
  intros H1 H2 H3 H4 O [p q] I (t & T & B). cbn [fst snd] in B.
  assert (BAD : forall p q t, In (p, q) (sides l) -> 0 <= t <= 1 ->
    in_box a c (between p q t) -> ~ in_box a c q -> False).
  { clear p q t I T B. intros p q t I T B N.
    pose proof (border p q t T B N) as H.
    pose proof (loop_line_false l a b H1 (p, q) I) as K1.
    pose proof (loop_line_false l b c H2 (p, q) I) as K2.
    pose proof (loop_line_false l c d H3 (p, q) I) as K3.
    pose proof (loop_line_false l d a H4 (p, q) I) as K4.
    cbn [fst snd] in *. rewrite K1, K2, K3, K4 in H. discriminate. }
  destruct (in_box_dec q) as [Q|Q]; [|exact (BAD p q t I T B Q)].
  (* walk on from q *)
  destruct (in_sides l p q I) as [_ IQ].
  destruct (around l q IQ) as (l' & EQ & SUB).
  destruct O as (o & IO & NO).
  destruct (leaves (l' ++ [q]) q Q) as (x & y & K & X & Y).
  { exists o. split; [apply EQ, IO|exact NO]. }
  apply (BAD x y 0 (SUB _ K) ltac:(lra)); [|exact Y].
  destruct (between_0 x y) as [EX EY]. unfold in_box in *. rewrite EX, EY. exact X.
Qed.

Lemma corner_a : in_box a c a.
Proof. unfold in_box. lra. Qed.

(** Where no side enters the box, all of it is on one side of the loop. *)
Lemma box_same l p : in_box a c p -> (forall e, In e (sides l) -> ~ enters a c e) ->
  loop_point l a = loop_point l p.
Proof.
  intros P H. apply loop_same. intros x y I. left. intros (s & t & S & T & [X Y]).
  apply (H (x, y) I). exists t. split; [exact T|]. cbn [fst snd].
  pose proof (in_box_between a c a p s corner_a P S) as B.
  unfold in_box in *. rewrite <- X, <- Y. exact B.
Qed.

End Box.

(** Equal coordinates give equal answers. *)
Lemma less_proper a b c d : a == b -> c == d -> less a c = less b d.
Proof. intros A C. apply less_eq. rewrite A, C. reflexivity. Qed.

Lemma le_proper a b c d : a == b -> c == d -> Qle_bool a c = Qle_bool b d.
Proof.
  intros A C. destruct (Qle_bool a c) eqn:E, (Qle_bool b d) eqn:F; try reflexivity;
  rewrite ?Qle_bool_iff, ?le_false in *; lra.
Qed.

Lemma flips_same v w a b : same v w -> flips v a b = flips w a b.
Proof.
  intros [X Y]. unfold flips. cbv zeta.
  rewrite (less_proper (py a) (py a) (py v) (py w)) by (reflexivity || exact Y).
  rewrite (less_proper (py b) (py b) (py v) (py w)) by (reflexivity || exact Y).
  rewrite (le_proper (py v) (py w) (py a) (py a)) by (reflexivity || exact Y).
  rewrite (le_proper (py v) (py w) (py b) (py b)) by (reflexivity || exact Y).
  destruct (less (py a) (py w) && Qle_bool (py w) (py b) ||
    less (py b) (py w) && Qle_bool (py w) (py a)); [|reflexivity].
  apply less_proper; [rewrite Y; reflexivity|exact X].
Qed.

Lemma trim_point_proper loops v w : same v w -> trim_point loops v = trim_point loops w.
Proof.
  intro S. apply trim_point_same. intros l _. rewrite !loop_point_total.
  apply total_ext. intros a b _. apply flips_same, S.
Qed.

Lemma hits_same v1 v2 w1 w2 a b : same v1 w1 -> same v2 w2 -> hits v1 v2 a b = hits w1 w2 a b.
Proof.
  intros [X1 Y1] [X2 Y2].
  assert (SD : forall p, side v1 v2 p == side w1 w2 p)
    by (intro p; unfold side; rewrite X1, Y1, X2, Y2; reflexivity).
  assert (MM : forall p q, meet v1 v2 p q <-> meet w1 w2 p q).
  { intros p q. unfold meet, same, between. cbn [px py]. split; intros (s & t & S & T & [X Y]);
    exists s, t; (split; [exact S|split; [exact T|]]).
    - rewrite <- X1, <- Y1, <- X2, <- Y2. auto.
    - rewrite X1, Y1, X2, Y2. auto. }
  destruct (Qeq_dec (side v1 v2 b) (side v1 v2 a)) as [E|N].
  - assert (Z : forall v1 v2, side v1 v2 b == side v1 v2 a -> hits v1 v2 a b = false).
    { clear. intros v1 v2 E. unfold hits. cbv zeta.
      destruct (Qeq_bool _ 0) eqn:D; [reflexivity|]. exfalso. apply Qeq_bool_neq in D.
      apply D. unfold side in E. lra. }
    rewrite (Z v1 v2 E), (Z w1 w2); [reflexivity|]. rewrite <- !SD. exact E.
  - assert (N' : ~ side w1 w2 b == side w1 w2 a) by (rewrite <- !SD; exact N).
    pose proof (hits_iff v1 v2 b a N) as H1. pose proof (hits_iff w1 w2 b a N') as H2.
    rewrite MM in H1. destruct (hits v1 v2 a b), (hits w1 w2 a b); try reflexivity.
    + symmetry. apply H2, H1. reflexivity.
    + apply H1, H2. reflexivity.
Qed.

Lemma trim_line_proper loops v1 v2 w1 w2 : same v1 w1 -> same v2 w2 ->
  trim_line loops v1 v2 = trim_line loops w1 w2.
Proof.
  intros S1 S2. induction loops as [|l ls IH]; [reflexivity|]. cbn [trim_line]. rewrite IH.
  unfold loop_line.
  assert (E : forall l j, any_hit v1 v2 j l = any_hit w1 w2 j l).
  { clear IH l ls. induction l as [|i r IH]; intro j; [reflexivity|].
    cbn [any_hit]. rewrite IH, (hits_same v1 v2 w1 w2 i j S1 S2). reflexivity. }
  rewrite E. reflexivity.
Qed.

Lemma bilinear_x a c s t : bilinear a c a c s t ==
  (if Qle_bool s 0 then a else if Qle_bool 1 s then c else a + s * (c - a)).
Proof.
  unfold bilinear. cbv zeta. destruct (Qle_bool s 0), (Qle_bool 1 s), (Qle_bool t 0), (Qle_bool 1 t);
  ring.
Qed.

Lemma bilinear_y a c s t : bilinear a a c c s t ==
  (if Qle_bool t 0 then a else if Qle_bool 1 t then c else a + t * (c - a)).
Proof.
  unfold bilinear. cbv zeta. destruct (Qle_bool s 0), (Qle_bool 1 s), (Qle_bool t 0), (Qle_bool 1 t);
  ring.
Qed.

Lemma bilinear_proper a b c d a' b' c' d' s t : a == a' -> b == b' -> c == c' -> d == d' ->
  bilinear a b c d s t == bilinear a' b' c' d' s t.
Proof.
  intros A B C D. unfold bilinear. cbv zeta.
  destruct (Qle_bool s 0), (Qle_bool 1 s), (Qle_bool t 0), (Qle_bool 1 t);
  rewrite ?A, ?B, ?C, ?D; reflexivity.
Qed.

Lemma clamped a c s : 0 <= s <= 1 ->
  (if Qle_bool s 0 then a else if Qle_bool 1 s then c else a + s * (c - a)) == a + s * (c - a).
Proof.
  intro S. destruct (Qle_bool s 0) eqn:E; [|destruct (Qle_bool 1 s) eqn:F; [|reflexivity]];
  rewrite ?Qle_bool_iff in *.
  - assert (Z : s == 0) by lra. rewrite Z. ring.
  - assert (Z : s == 1) by lra. rewrite Z. ring.
Qed.

Lemma index_up cu iu iv : ((iv + 1) * (cu + 1) + iu = iv * (cu + 1) + iu + cu + 1)%nat.
Proof. lia. Qed.
Lemma index_up1 cu iu iv : ((iv + 1) * (cu + 1) + iu + 1 = iv * (cu + 1) + iu + cu + 2)%nat.
Proof. lia. Qed.

Lemma sample_place uv cu iu iv a c s t : box_of uv cu iu iv a c -> 0 <= s <= 1 -> 0 <= t <= 1 ->
  same (sample_uv uv cu iu iv s t)
    (Pt (px a + s * (px c - px a)) (py a + t * (py c - py a))).
Proof.
  intros (W & H & [A1 A2] & [B1 B2] & [D1 D2] & [C1 C2]) S T.
  rewrite index_up in D1, D2. rewrite index_up1 in C1, C2. cbn [px py] in *.
  unfold sample_uv. cbv zeta. split; cbn [px py].
  - rewrite (bilinear_proper _ _ _ _ (px a) (px c) (px a) (px c)) by assumption.
    rewrite bilinear_x. apply clamped, S.
  - rewrite (bilinear_proper _ _ _ _ (py a) (py a) (py c) (py c)) by assumption.
    rewrite bilinear_y. apply clamped, T.
Qed.

Lemma shown_right loops uv cu iu iv a c s t :
  box_of uv cu iu iv a c -> px a < px c -> py a < py c -> 0 <= s <= 1 -> 0 <= t <= 1 ->
  (forall l, In l loops -> (exists o, In o l /\ ~ in_box a c o)
     \/ forall e, In e (sides l) -> ~ enters a c e) ->
  ((forall l e, In l loops -> In e (sides l) -> ~ enters a c e) \/
   trim_point loops a = true \/ trim_point loops (Pt (px c) (py a)) = true \/
   trim_point loops (Pt (px a) (py c)) = true \/ trim_point loops c = true) ->
  shown false false loops uv cu iu iv s t =
  negb (trim_point loops (Pt (px a + s * (px c - px a)) (py a + t * (py c - py a)))).
Proof.
  intros BOX W H S T BIG SEEN.
  pose proof (sample_place uv cu iu iv a c s t BOX S T) as PL.
  destruct BOX as (_ & _ & A & B & D & C).
  rewrite index_up in D. rewrite index_up1 in C.
  unfold shown, bust. cbv zeta.
  rewrite (trim_point_proper _ _ _ A), (trim_point_proper _ _ _ B),
    (trim_point_proper _ _ _ D), (trim_point_proper _ _ _ C).
  rewrite (trim_line_proper _ _ _ _ _ A B), (trim_line_proper _ _ _ _ _ B C),
    (trim_line_proper _ _ _ _ _ C D), (trim_line_proper _ _ _ _ _ D A).
  set (place := Pt (px a + s * (px c - px a)) (py a + t * (py c - py a))) in *.
  assert (INB : in_box a c place).
  { unfold in_box, place. cbn [px py]. clear - W H S T. nra. }
  set (b := Pt (px c) (py a)) in *. set (d := Pt (px a) (py c)) in *.
  destruct ((trim_point loops a && trim_point loops b && trim_point loops c && trim_point loops d)
    && (negb (trim_line loops a b) && negb (trim_line loops b c) && negb (trim_line loops c d)
        && negb (trim_line loops d a))) eqn:E.
  - (* discarded *)
    rewrite !andb_true_iff, !negb_true_iff in E.
    destruct E as [[[[TA TB] TC] TD] [[[LA LB] LC] LD]].
    assert (K : trim_point loops a = trim_point loops place).
    { apply trim_point_same. intros l I. apply (box_same a c W H l place INB).
      destruct (BIG l I) as [O|N]; [|exact N].
      apply (loop_outside a c W H l); [exact (trim_line_false _ _ _ LA l I)
        |exact (trim_line_false _ _ _ LB l I)|exact (trim_line_false _ _ _ LC l I)
        |exact (trim_line_false _ _ _ LD l I)|exact O]. }
    rewrite <- K, TA. reflexivity.
  - unfold sample_hit.
    destruct (trim_point loops a || trim_point loops b || trim_point loops c || trim_point loops d)
      eqn:F.
    + rewrite (trim_point_proper _ _ _ PL), andb_true_r. reflexivity.
    + rewrite !orb_false_iff in F. destruct F as [[[FA FB] FC] FD].
      destruct SEEN as [N|SEEN].
      * assert (K : trim_point loops a = trim_point loops place).
        { apply trim_point_same. intros l I. apply (box_same a c W H l place INB).
          intros e IE. apply (N l e I IE). }
        rewrite <- K, FA. reflexivity.
      * exfalso. rewrite FA, FB, FC, FD in SEEN.
        destruct SEEN as [X|[X|[X|X]]]; discriminate.
Qed.

(** * The specification *)

Lemma around_count p loops bs :
  Forall2 (fun l (b : bool) => if b then surrounds l p else not_surrounds l p) loops bs ->
  length (filter (fun l => loop_point l p) loops) = count_occ bool_dec bs true.
Proof.
  induction 1 as [|l b ls bs H F IH]; [reflexivity|].
  cbn [filter count_occ]. destruct b.
  - rewrite (surrounds_point l p H). cbn [length]. rewrite IH. reflexivity.
  - rewrite (not_surrounds_point l p H). exact IH.
Qed.

Lemma cut_away_point loops p : cut_away loops p -> trim_point loops p = true.
Proof.
  intros (bs & N & F & E). rewrite trim_point_even by exact N.
  rewrite (around_count p loops bs F). apply Nat.even_spec, E.
Qed.

Lemma left_over_point loops p : left_over loops p -> trim_point loops p = false.
Proof.
  intros [->|(bs & F & E)]; [reflexivity|].
  assert (N : loops <> []).
  { intros ->. inversion F; subst. destruct E as [k E]. cbn in E. lia. }
  rewrite trim_point_even by exact N.
  rewrite (around_count p loops bs F). rewrite <- Nat.negb_odd.
  apply negb_false_iff, Nat.odd_spec, E.
Qed.

Lemma decided loops p :
  (forall l a b, In l loops -> In (a, b) (sides l) -> ~ on p a b) ->
  cut_away loops p \/ left_over loops p.
Proof.
  intro H. destruct loops as [|l0 ls]; [right; left; reflexivity|].
  set (loops := l0 :: ls) in *.
  assert (G : exists bs, Forall2 (fun l (b : bool) =>
    if b then surrounds l p else not_surrounds l p) loops bs).
  { assert (N : forall ks, (forall l, In l ks -> In l loops) -> exists bs,
      Forall2 (fun l (b : bool) => if b then surrounds l p else not_surrounds l p) ks bs).
    { induction ks as [|k ks IH]; intro SUB; [exists []; constructor|].
      destruct IH as [bs F]; [intros l I; apply SUB; right; exact I|].
      destruct (surrounds_total k p) as [S|S].
      - intros a b I. apply (H k a b); [apply SUB; left; reflexivity|exact I].
      - exists (true :: bs). constructor; assumption.
      - exists (false :: bs). constructor; assumption. }
    apply N. auto. }
  destruct G as [bs F].
  destruct (Nat.Even_or_Odd (count_occ bool_dec bs true)) as [E|O].
  - left. exists bs. split; [discriminate|auto].
  - right. right. exists bs. auto.
Qed.

Lemma not_enters_corner a c p l : in_box a c p -> (forall e, In e (sides l) -> ~ enters a c e) ->
  forall x y, In (x, y) (sides l) -> ~ on p x y.
Proof.
  intros B H x y I (t & T & [X Y]). apply (H (x, y) I). exists t. split; [exact T|].
  cbn [fst snd]. unfold in_box in *. rewrite <- X, <- Y. exact B.
Qed.

(** The numbers of a colour are the only ones that mean it. *)

From Coq Require Import List Bool QArith Qround Qabs Qminmax ZArith String Lia Lqa.
From Verif Require Import ColorModel ColorSpec ColorProofs.
Local Open Scope Q_scope.

Lemma cancel : forall D a b, 0 < D -> D * a == D * b -> a == b.
Proof. intros D a b P E. apply Qmult_inj_l in E; auto. lra. Qed.

(** The sector by the distances from the greatest component. *)
Definition place (a b c x h : Q) : Prop :=
  (a == 0 /\ c == 1 /\ x == b /\ h == 60 * (1 - x)) \/
  (a == 0 /\ b == 1 /\ x == c /\ h == 60 * (5 + x) /\ x < 1) \/
  (b == 0 /\ c == 1 /\ x == a /\ h == 60 * (1 + x)) \/
  (b == 0 /\ a == 1 /\ x == c /\ h == 60 * (3 - x)) \/
  (c == 0 /\ a == 1 /\ x == b /\ h == 60 * (3 + x)) \/
  (c == 0 /\ b == 1 /\ x == a /\ h == 60 * (5 - x)).

Lemma turn_place : forall R G B M m D a b c x h, 0 < D -> M - m == D -> R == M - D * a -> G == M - D * b -> B == M - D * c ->
  turn R G B M m x h -> place a b c x h.
Proof.
  intros R G B M m D a b c x h P ED ER EG EB T.
  assert (Z : forall t, M - D * t == M -> t == 0) by (intros t E; apply (cancel D); auto; lra).
  assert (O : forall t, M - D * t == m -> t == 1) by (intros t E; apply (cancel D); auto; lra).
  assert (X : forall t u, x * (M - m) == M - t -> t == M - D * u -> x == u).
  { intros t u E1 E2. apply (cancel D); auto. rewrite ED in E1. lra. }
  destruct T as [(T1 & T2 & T3 & T4)|[(T1 & T2 & T3 & T4 & T5)|[(T1 & T2 & T3 & T4)|[(T1 & T2 & T3 & T4)|
    [(T1 & T2 & T3 & T4)|(T1 & T2 & T3 & T4)]]]]]; unfold place.
  - left. repeat split; auto; [apply Z|apply O|eapply X; eauto]; lra.
  - right; left. repeat split; auto; [apply Z|apply O|eapply X; eauto]; lra.
  - do 2 right; left. repeat split; auto; [apply Z|apply O|eapply X; eauto]; lra.
  - do 3 right; left. repeat split; auto; [apply Z|apply O|eapply X; eauto]; lra.
  - do 4 right; left. repeat split; auto; [apply Z|apply O|eapply X; eauto]; lra.
  - do 5 right. repeat split; auto; [apply Z|apply O|eapply X; eauto]; lra.
Qed.

Lemma hsv_again : forall h s v, 0 <= h < 1 -> 0 < s -> 0 < v ->
  same (rgbtohsv (hsvtorgb (Col h s v))) (Col h s v).
Proof.
  intros h s v H S V. destruct (which h H) as (i & f & I & F & E).
  destruct (hsv_sector h s v i f ltac:(lra) F I ltac:(lra)) as (P1 & P2 & P3).
  set (c := hsvtorgb (Col h s v)) in *. clearbody c.
  assert (VS : 0 < v * s) by (apply Qmult_lt_0_compat; auto).
  destruct (mx_ok c) as (A1 & A2 & A3 & A4). destruct (mn_ok c) as (B1 & B2 & B3 & B4).
  assert (W : exists a b d, cr c == v - (v * s) * a /\ cg c == v - (v * s) * b /\ cb c == v - (v * s) * d /\
    forall x g, 0 <= x <= 1 -> place a b d x g -> g == 60 * (6 * h)).
  { assert (C : i = 0%Z \/ i = 1%Z \/ i = 2%Z \/ i = 3%Z \/ i = 4%Z \/ i = 5%Z) by lia.
    destruct C as [-> |[-> |[-> |[-> |[-> | ->]]]]]; cbn [sector cr cg cb] in P1, P2, P3.
    - exists 0, (1 - f), 1. repeat split; try lra. intros x g X PL. change (inject_Z 0) with 0 in E. unfold place in PL. lra.
    - exists f, 0, 1. repeat split; try lra. intros x g X PL. change (inject_Z 1) with 1 in E. unfold place in PL. lra.
    - exists 1, 0, (1 - f). repeat split; try lra. intros x g X PL. change (inject_Z 2) with 2 in E. unfold place in PL. lra.
    - exists 1, f, 0. repeat split; try lra. intros x g X PL. change (inject_Z 3) with 3 in E. unfold place in PL. lra.
    - exists (1 - f), 1, 0. repeat split; try lra. intros x g X PL. change (inject_Z 4) with 4 in E. unfold place in PL. lra.
    - exists 0, 1, f. repeat split; try lra. intros x g X PL. change (inject_Z 5) with 5 in E. unfold place in PL. lra. }
  destruct W as (a & b & d & W1 & W2 & W3 & W).
  assert (MM : mx c == v /\ mn c == v - v * s).
  { assert (C : i = 0%Z \/ i = 1%Z \/ i = 2%Z \/ i = 3%Z \/ i = 4%Z \/ i = 5%Z) by lia.
    assert (N : 0 <= v * s * f /\ v * s * f <= v * s) by (split; nra). clear W W1 W2 W3.
    destruct C as [-> |[-> |[-> |[-> |[-> | ->]]]]]; cbn [sector cr cg cb] in P1, P2, P3;
      (split; [destruct A4 as [X|[X|X]]; rewrite X in *; lra|destruct B4 as [X|[X|X]]; rewrite X in *; lra]). }
  destruct MM as [EM Em].
  unfold rgbtohsv. fold (mx c). fold (mn c).
  destruct (eq_case (mx c) 0) as [[Z _]|[Z ->]]; [lra|].
  assert (ES : (mx c - mn c) / mx c == s) by (rewrite EM, Em; field; lra).
  destruct (eq_case ((mx c - mn c) / mx c) 0) as [[K _]|[K ->]]; [lra|].
  destruct (hue_of c ltac:(lra)) as (x & X & T). set (g := hue _ _ _ _ _) in *. clearbody g.
  assert (G : g == 60 * (6 * h)).
  { apply (W x g X). apply (turn_place (cr c) (cg c) (cb c) (mx c) (mn c) (v * s)); auto; lra. }
  unfold same. cbn [cr cg cb]. repeat split; auto. rewrite G. field.
Qed.

Lemma wheel_place : forall h i f, (0 <= i <= 5)%Z -> 0 <= f < 1 -> 6 * h == inject_Z i + f ->
  forall x g, 0 <= x <= 1 -> place (1 - cr (wheel i f)) (1 - cg (wheel i f)) (1 - cb (wheel i f)) x g -> g == 60 * (6 * h).
Proof.
  intros h i f I F E x g X PL.
  assert (C : i = 0%Z \/ i = 1%Z \/ i = 2%Z \/ i = 3%Z \/ i = 4%Z \/ i = 5%Z) by lia.
  destruct C as [-> |[-> |[-> |[-> |[-> | ->]]]]]; cbn [wheel cr cg cb] in PL; unfold place in PL;
    match type of E with _ == inject_Z ?k + _ => assert (E' : 6 * h == (k # 1) + f) by exact E end; clear E; lra.
Qed.

Lemma hsl_again : forall h s l, 0 <= h < 1 -> 0 <= s <= 1 -> 0 < l < 1 -> 1 # 10000000 < s * (1 - Qabs (2 * l - 1)) ->
  same (rgbtohsl (hsltorgb (Col h s l))) (Col h s l).
Proof.
  intros h s l H S L DD. destruct (which h H) as (i & f & I & F & E).
  destruct (hsl_means h s l ltac:(lra)) as (P1 & P2 & P3). unfold of_hsl, each in P1, P2, P3. cbn [cr cg cb] in P1, P2, P3.
  destruct (pure_wheel h i f I ltac:(lra) E) as (W1 & W2 & W3). rewrite W1 in P1. rewrite W2 in P2. rewrite W3 in P3.
  set (c := hsltorgb (Col h s l)) in *. clearbody c.
  set (D := s * (1 - Qabs (2 * l - 1))) in *.
  assert (DE : D == s * (1 - Qabs (2 * l - 1))) by reflexivity. clearbody D.
  destruct (mx_ok c) as (A1 & A2 & A3 & A4). destruct (mn_ok c) as (B1 & B2 & B3 & B4).
  assert (MM : mx c == l + D * (1 # 2) /\ mn c == l - D * (1 # 2)).
  { assert (C : i = 0%Z \/ i = 1%Z \/ i = 2%Z \/ i = 3%Z \/ i = 4%Z \/ i = 5%Z) by lia.
    assert (N : 0 <= D * f /\ D * f <= D) by (split; nra).
    destruct C as [-> |[-> |[-> |[-> |[-> | ->]]]]]; cbn [wheel cr cg cb] in P1, P2, P3;
      (split; [destruct A4 as [X|[X|X]]; rewrite X in *; lra|destruct B4 as [X|[X|X]]; rewrite X in *; lra]). }
  destruct MM as [EM Em].
  unfold rgbtohsl. fold (mx c). fold (mn c).
  destruct (le_case (Qabs (mx c - mn c)) (1 # 10000000)) as [[K _]|[_ ->]].
  { exfalso. revert K. apply Qabs_case; intros; lra. }
  destruct (hue_of c ltac:(lra)) as (x & X & T). set (g := hue _ _ _ _ _) in *. clearbody g.
  assert (G : g == 60 * (6 * h)).
  { apply (wheel_place h i f I F E x g X). apply (turn_place (cr c) (cg c) (cb c) (mx c) (mn c) D); auto; lra. }
  assert (EL : (mx c + mn c) / 2 == l) by (rewrite EM, Em; field).
  unfold same. cbn [cr cg cb]. split; [rewrite G; field|]. split; auto.
  destruct (below_case ((mx c + mn c) / 2) (1 # 2)) as [[K ->]|[K ->]].
  - rewrite Qabs_neg in DE by lra. rewrite EM, Em, DE. field. lra.
  - rewrite Qabs_pos in DE by lra. rewrite EM, Em, DE. field. lra.
Qed.

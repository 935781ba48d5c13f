(** Proofs about colour spaces. *)

From Coq Require Import List Bool QArith Qround Qabs Qminmax ZArith String Lia Lqa.
From Verif Require Import ColorModel ColorSpec.
Local Open Scope Q_scope.

Lemma below_case : forall a b, {a < b /\ below a b = true} + {b <= a /\ below a b = false}.
Proof.
  intros a b. unfold below. destruct (Qle_bool b a) eqn:E; [right|left]; split; auto.
  - apply Qle_bool_iff. auto.
  - apply Qnot_le_lt. intros L. apply Qle_bool_iff in L. congruence.
Qed.

Lemma le_case : forall a b, {a <= b /\ Qle_bool a b = true} + {b < a /\ Qle_bool a b = false}.
Proof.
  intros a b. destruct (Qle_bool a b) eqn:E; [left|right]; split; auto.
  - apply Qle_bool_iff. auto.
  - apply Qnot_le_lt. intros L. apply Qle_bool_iff in L. congruence.
Qed.

Lemma eq_case : forall a b, {a == b /\ Qeq_bool a b = true} + {~ a == b /\ Qeq_bool a b = false}.
Proof.
  intros a b. destruct (Qeq_bool a b) eqn:E; [left|right]; split; auto.
  - apply Qeq_bool_iff. auto.
  - apply Qeq_bool_neq. auto.
Qed.

Lemma floor_is : forall h i, inject_Z i <= h -> h < inject_Z i + 1 -> Qfloor h = i.
Proof.
  intros h i L U. pose proof (Qfloor_le h) as F1. pose proof (Qlt_floor h) as F2.
  assert (A : (inject_Z (Qfloor h) < inject_Z (i + 1))) by (rewrite inject_Z_plus; change (inject_Z 1) with 1; lra).
  assert (B : (inject_Z i < inject_Z (Qfloor h + 1))) by lra.
  rewrite <- Zlt_Qlt in A, B. lia.
Qed.

(** * The greatest and the least *)

Definition mx (c : color) : Q := qmax (qmax (cr c) (cg c)) (cb c).
Definition mn (c : color) : Q := qmin (qmin (cr c) (cg c)) (cb c).

Lemma mx_ok : forall c, cr c <= mx c /\ cg c <= mx c /\ cb c <= mx c /\ (mx c = cr c \/ mx c = cg c \/ mx c = cb c).
Proof.
  intros c. unfold mx, qmax.
  destruct (below_case (cr c) (cg c)) as [[A ->]|[A ->]];
    [destruct (below_case (cg c) (cb c)) as [[B ->]|[B ->]]|destruct (below_case (cr c) (cb c)) as [[B ->]|[B ->]]];
    repeat split; try lra; auto.
Qed.

Lemma mn_ok : forall c, mn c <= cr c /\ mn c <= cg c /\ mn c <= cb c /\ (mn c = cr c \/ mn c = cg c \/ mn c = cb c).
Proof.
  intros c. unfold mn, qmin.
  destruct (below_case (cg c) (cr c)) as [[A ->]|[A ->]];
    [destruct (below_case (cb c) (cg c)) as [[B ->]|[B ->]]|destruct (below_case (cb c) (cr c)) as [[B ->]|[B ->]]];
    repeat split; try lra; auto.
Qed.

(** The hue: which sector, and where in it.  [x] is the distance of the middle component from
    the greatest, as a part of the whole difference. *)
Definition turn (R G B M m x h : Q) : Prop :=
  (R == M /\ B == m /\ x * (M - m) == M - G /\ h == 60 * (1 - x)) \/
  (R == M /\ G == m /\ x * (M - m) == M - B /\ h == 60 * (5 + x) /\ x < 1) \/
  (G == M /\ B == m /\ x * (M - m) == M - R /\ h == 60 * (1 + x)) \/
  (G == M /\ R == m /\ x * (M - m) == M - B /\ h == 60 * (3 - x)) \/
  (B == M /\ R == m /\ x * (M - m) == M - G /\ h == 60 * (3 + x)) \/
  (B == M /\ G == m /\ x * (M - m) == M - R /\ h == 60 * (5 - x)).

Lemma part : forall M m a, m < M -> m <= a <= M -> 0 <= (M - a) / (M - m) <= 1 /\ (M - a) / (M - m) * (M - m) == M - a.
Proof.
  intros M m a L [A B]. split; [split|].
  - apply Qle_shift_div_l; lra.
  - apply Qle_shift_div_r; lra.
  - field. lra.
Qed.

Lemma one : forall M m a, m < M -> a == m -> (M - a) / (M - m) == 1.
Proof. intros M m a L E. rewrite E. field. lra. Qed.

Lemma none : forall M m a, m < M -> a == M -> (M - a) / (M - m) == 0.
Proof. intros M m a L E. rewrite E. field. lra. Qed.

Lemma hue_ok : forall R G B M m, m < M -> m <= R <= M -> m <= G <= M -> m <= B <= M ->
  (M == R \/ M == G \/ M == B) -> (m == R \/ m == G \/ m == B) ->
  exists x, 0 <= x <= 1 /\ turn R G B M m x (hue R G B M (M - m)).
Proof.
  intros R G B M m L IR IG IB EM Em. unfold hue.
  destruct (part M m R L IR) as [PR QR]. destruct (part M m G L IG) as [PG QG]. destruct (part M m B L IB) as [PB QB].
  assert (OR := one M m R L). assert (OG := one M m G L). assert (OB := one M m B L).
  assert (NR := none M m R L). assert (NG := none M m G L). assert (NB := none M m B L).
  set (rd := (M - R) / (M - m)) in *. set (gd := (M - G) / (M - m)) in *. set (bd := (M - B) / (M - m)) in *.
  clearbody rd gd bd.
  destruct (eq_case R M) as [[ER ->]|[ER ->]]; [|destruct (eq_case G M) as [[EG ->]|[EG ->]];
    [|destruct (eq_case B M) as [[EB ->]|[EB ->]]]].
  - specialize (NR ER).
    destruct (below_case ((bd - gd) * 60) 0) as [[C ->]|[C ->]].
    + assert (E : G == m). { destruct Em as [E|[E|E]]; [lra|lra|]. specialize (OB ltac:(lra)). lra. }
      specialize (OG E). exists bd. split; [lra|]. unfold turn. right. left. repeat split; lra.
    + assert (E : B == m \/ G == m /\ bd == 1).
      { destruct Em as [E|[E|E]]; [lra| |lra]. right. specialize (OG ltac:(lra)). split; lra. }
      destruct E as [E|[E E1]].
      * specialize (OB E). exists gd. split; [lra|]. left. repeat split; lra.
      * assert (E2 : B == m) by (rewrite E1 in QB; lra). specialize (OG E). exists gd. split; [lra|]. left. repeat split; lra.
  - specialize (NG EG). destruct (below_case ((2 + rd - bd) * 60) 0) as [[C ->]|[C ->]]; [lra|].
    destruct Em as [E|[E|E]]; [|lra|].
    + specialize (OR ltac:(lra)). exists bd. split; [lra|]. do 3 right. left. repeat split; lra.
    + specialize (OB ltac:(lra)). exists rd. split; [lra|]. do 2 right. left. repeat split; lra.
  - specialize (NB EB). destruct (below_case ((4 + gd - rd) * 60) 0) as [[C ->]|[C ->]]; [lra|].
    destruct Em as [E|[E|E]]; [| |lra].
    + specialize (OR ltac:(lra)). exists gd. split; [lra|]. do 4 right. left. repeat split; lra.
    + specialize (OG ltac:(lra)). exists rd. split; [lra|]. do 5 right. repeat split; lra.
  - exfalso. destruct EM as [E|[E|E]]; lra.
Qed.

Lemma hue_of : forall c, mn c < mx c ->
  exists x, 0 <= x <= 1 /\ turn (cr c) (cg c) (cb c) (mx c) (mn c) x (hue (cr c) (cg c) (cb c) (mx c) (mx c - mn c)).
Proof.
  intros c L. destruct (mx_ok c) as (A1 & A2 & A3 & A4). destruct (mn_ok c) as (B1 & B2 & B3 & B4).
  apply hue_ok; auto.
  - destruct A4 as [->|[->| ->]]; [left|right; left|right; right]; reflexivity.
  - destruct B4 as [->|[->| ->]]; [left|right; left|right; right]; reflexivity.
Qed.

(** * HSV *)

(** One sector of hsvtorgb. *)
Definition sector (i : Z) (f S V : Q) : color :=
  let p := V * (1 - S) in
  let q := V * (1 - S * f) in
  let t := V * (1 - S * (1 - f)) in
  match i with
  | 0%Z => Col V t p
  | 1%Z => Col q V p
  | 2%Z => Col p V t
  | 3%Z => Col p q V
  | 4%Z => Col t p V
  | 5%Z => Col V p q
  | _ => Col 0 0 0
  end.

Lemma hsv_sector : forall x S V i f, ~ S == 0 -> 0 <= f < 1 -> (0 <= i <= 5)%Z -> x * 6 == inject_Z i + f ->
  same (hsvtorgb (Col x S V)) (sector i f S V).
Proof.
  intros x S V i f S0 [F0 F1] I E. unfold hsvtorgb. cbn [cr cg cb].
  destruct (eq_case S 0) as [[C _]|[_ ->]]; [contradiction|].
  assert (IU : inject_Z i <= 5) by (change 5 with (inject_Z 5); rewrite <- Zle_Qle; lia).
  destruct (eq_case (x * 360) 360) as [[C _]|[_ ->]]; [lra|].
  assert (E2 : x * 360 / 60 == inject_Z i + f) by (rewrite <- E; field).
  rewrite (floor_is (x * 360 / 60) i) by lra.
  assert (Ef : x * 360 / 60 - inject_Z i == f) by lra.
  assert (C : i = 0%Z \/ i = 1%Z \/ i = 2%Z \/ i = 3%Z \/ i = 4%Z \/ i = 5%Z) by lia.
  unfold same, sector.
  destruct C as [-> |[-> |[-> |[-> |[-> | ->]]]]]; cbn [cr cg cb]; rewrite Ef; repeat split; reflexivity.
Qed.

Lemma sector_end : forall i S V x, (1 <= i <= 5)%Z -> ~ S == 0 -> x * 6 == inject_Z i ->
  same (hsvtorgb (Col x S V)) (sector (i - 1) 1 S V).
Proof.
  intros i S V x I S0 E. destruct (hsv_sector x S V i 0 S0 ltac:(lra) ltac:(lia) ltac:(lra)) as (A & B & C).
  assert (K : i = 1%Z \/ i = 2%Z \/ i = 3%Z \/ i = 4%Z \/ i = 5%Z) by lia.
  unfold same. rewrite A, B, C. unfold sector.
  destruct K as [-> |[-> |[-> |[-> | ->]]]]; cbn [cr cg cb Z.sub Z.add Z.opp Z.pos_sub Pos.pred_double]; repeat split; ring.
Qed.

Lemma sector_closed : forall x S V i f, ~ S == 0 -> 0 <= f -> f < 1 \/ f <= 1 /\ (i <= 4)%Z -> (0 <= i <= 5)%Z -> x * 6 == inject_Z i + f ->
  same (hsvtorgb (Col x S V)) (sector i f S V).
Proof.
  intros x S V i f S0 F0 F1 I E. destruct (Qlt_le_dec f 1) as [L|G].
  - apply hsv_sector; auto; lra.
  - assert (F : f == 1) by (destruct F1 as [F1|[F1 _]]; lra). assert (I4 : (i <= 4)%Z) by (destruct F1 as [F1|[_ F1]]; [lra|auto]).
    destruct (sector_end (i + 1) S V x ltac:(lia) S0) as (A & B & C).
    { rewrite inject_Z_plus. change (inject_Z 1) with 1. lra. }
    replace (i + 1 - 1)%Z with i in * by lia. unfold same. rewrite A, B, C.
    assert (K : i = 0%Z \/ i = 1%Z \/ i = 2%Z \/ i = 3%Z \/ i = 4%Z) by lia.
    unfold sector. destruct K as [-> |[-> |[-> |[-> | ->]]]]; cbn [cr cg cb]; rewrite F; repeat split; ring.
Qed.

Lemma hsv_back : forall c, light c -> same (hsvtorgb (rgbtohsv c)) c.
Proof.
  intros c (R0 & G0 & B0). destruct (mx_ok c) as (A1 & A2 & A3 & A4). destruct (mn_ok c) as (B1 & B2 & B3 & B4).
  unfold rgbtohsv. fold (mx c). fold (mn c).
  destruct (eq_case (mx c) 0) as [[E ->]|[E ->]].
  - unfold hsvtorgb. cbn [cr cg cb]. change (Qeq_bool 0 0) with true. cbn iota. unfold same. cbn [cr cg cb]. repeat split; lra.
  - assert (M0 : 0 < mx c) by lra.
    destruct (eq_case ((mx c - mn c) / mx c) 0) as [[Z ->]|[Z ->]].
    + assert (D : mx c - mn c == 0) by (setoid_replace (mx c - mn c) with ((mx c - mn c) / mx c * mx c) by (field; lra); rewrite Z; ring).
      unfold hsvtorgb. cbn [cr cg cb]. destruct (eq_case ((mx c - mn c) / mx c) 0) as [[_ ->]|[N _]]; [|contradiction].
      unfold same. cbn [cr cg cb]. repeat split; lra.
    + assert (L : mn c < mx c).
      { destruct (Qlt_le_dec (mn c) (mx c)); auto. exfalso. apply Z. setoid_replace (mx c - mn c) with 0 by lra. field. lra. }
      destruct (hue_of c L) as (x & X & T). set (h := hue _ _ _ _ _) in *. clearbody h.
      set (S := (mx c - mn c) / mx c) in *.
      assert (SV : S * mx c == mx c - mn c) by (unfold S; field; lra). clearbody S.
      destruct T as [(T1 & T2 & T3 & T4)|[(T1 & T2 & T3 & T4 & T5)|[(T1 & T2 & T3 & T4)|[(T1 & T2 & T3 & T4)|
        [(T1 & T2 & T3 & T4)|(T1 & T2 & T3 & T4)]]]]].
      * destruct (sector_closed (h / 360) S (mx c) 0 (1 - x) Z ltac:(lra) ltac:(right; split; [lra|lia]) ltac:(lia)) as (P1 & P2 & P3).
        { rewrite T4. change (inject_Z 0) with 0. field. }
        unfold same. rewrite P1, P2, P3. cbn [sector cr cg cb]. repeat split; nra.
      * destruct (sector_closed (h / 360) S (mx c) 5 x Z ltac:(lra) ltac:(left; lra) ltac:(lia)) as (P1 & P2 & P3).
        { rewrite T4. change (inject_Z 5) with 5. field. }
        unfold same. rewrite P1, P2, P3. cbn [sector cr cg cb]. repeat split; nra.
      * destruct (sector_closed (h / 360) S (mx c) 1 x Z ltac:(lra) ltac:(right; split; [lra|lia]) ltac:(lia)) as (P1 & P2 & P3).
        { rewrite T4. change (inject_Z 1) with 1. field. }
        unfold same. rewrite P1, P2, P3. cbn [sector cr cg cb]. repeat split; nra.
      * destruct (sector_closed (h / 360) S (mx c) 2 (1 - x) Z ltac:(lra) ltac:(right; split; [lra|lia]) ltac:(lia)) as (P1 & P2 & P3).
        { rewrite T4. change (inject_Z 2) with 2. field. }
        unfold same. rewrite P1, P2, P3. cbn [sector cr cg cb]. repeat split; nra.
      * destruct (sector_closed (h / 360) S (mx c) 3 x Z ltac:(lra) ltac:(right; split; [lra|lia]) ltac:(lia)) as (P1 & P2 & P3).
        { rewrite T4. change (inject_Z 3) with 3. field. }
        unfold same. rewrite P1, P2, P3. cbn [sector cr cg cb]. repeat split; nra.
      * destruct (sector_closed (h / 360) S (mx c) 4 (1 - x) Z ltac:(lra) ltac:(right; split; [lra|lia]) ltac:(lia)) as (P1 & P2 & P3).
        { rewrite T4. change (inject_Z 4) with 4. field. }
        unfold same. rewrite P1, P2, P3. cbn [sector cr cg cb]. repeat split; nra.
Qed.

Lemma turn_range : forall R G B M m x h, 0 <= x <= 1 -> turn R G B M m x h -> 0 <= h < 360.
Proof.
  intros R G B M m x h X T.
  destruct T as [(T1 & T2 & T3 & T4)|[(T1 & T2 & T3 & T4 & T5)|[(T1 & T2 & T3 & T4)|[(T1 & T2 & T3 & T4)|
        [(T1 & T2 & T3 & T4)|(T1 & T2 & T3 & T4)]]]]]; split; lra.
Qed.

Lemma grey_range : forall c, mn c < mx c \/ grey c.
Proof.
  intros c. destruct (mx_ok c) as (A1 & A2 & A3 & A4). destruct (mn_ok c) as (B1 & B2 & B3 & B4).
  destruct (Qlt_le_dec (mn c) (mx c)); [left; auto|right; unfold grey; split; lra].
Qed.

Lemma hsv_range : forall c, shown c ->
  (0 <= cg (rgbtohsv c) <= 1) /\ (0 <= cb (rgbtohsv c) <= 1) /\
  (grey c -> cg (rgbtohsv c) == 0 /\ cr (rgbtohsv c) < 0) /\ (~ grey c -> 0 < cg (rgbtohsv c) /\ 0 <= cr (rgbtohsv c) < 1).
Proof.
  intros c ((R0 & G0 & B0) & R1 & G1 & BB1). destruct (mx_ok c) as (A1 & A2 & A3 & A4). destruct (mn_ok c) as (B1 & B2 & B3 & B4).
  assert (M1 : mx c <= 1) by (destruct A4 as [->|[->| ->]]; auto).
  assert (m0 : 0 <= mn c) by (destruct B4 as [->|[->| ->]]; auto).
  assert (GM : grey c -> mx c == mn c).
  { intros [E1 E2]. destruct A4 as [->|[->| ->]], B4 as [->|[->| ->]]; lra. }
  unfold rgbtohsv. fold (mx c). fold (mn c). cbn [cr cg cb].
  assert (U : undefined / 360 < 0) by reflexivity.
  destruct (eq_case (mx c) 0) as [[E ->]|[E ->]].
  - change (Qeq_bool 0 0) with true. cbn iota. repeat split; try lra; auto.
    all: exfalso; apply H; split; lra.
  - assert (M0 : 0 < mx c) by lra.
    assert (SR : 0 <= (mx c - mn c) / mx c <= 1) by (split; [apply Qle_shift_div_l|apply Qle_shift_div_r]; lra).
    assert (SZ : (mx c - mn c) / mx c * mx c == mx c - mn c) by (field; lra).
    destruct (eq_case ((mx c - mn c) / mx c) 0) as [[Z ->]|[Z ->]].
    + rewrite Z in SZ. repeat split; try lra; auto. all: exfalso; apply H; split; lra.
    + assert (L : mn c < mx c).
      { destruct (Qlt_le_dec (mn c) (mx c)); auto. exfalso. apply Z. setoid_replace (mx c - mn c) with 0 by lra. field. lra. }
      destruct (hue_of c L) as (x & X & T). pose proof (turn_range _ _ _ _ _ _ _ X T) as HR.
      set (h := hue _ _ _ _ _) in *. clearbody h.
      split; [lra|]. split; [lra|]. split.
      * intros G. specialize (GM G). lra.
      * intros _. split; [lra|]. split; [apply Qle_shift_div_l|apply Qlt_shift_div_r]; lra.
Qed.

(** * HSL *)

Definition wrap (h : Q) : Q := if below 360 h then h - 360 else if below h 0 then h + 360 else h.

Lemma wrap_comp : forall h h', h == h' -> wrap h == wrap h'.
Proof.
  intros h h' E. unfold wrap.
  destruct (below_case 360 h) as [[A ->]|[A ->]], (below_case 360 h') as [[A' ->]|[A' ->]]; try lra.
  destruct (below_case h 0) as [[B ->]|[B ->]], (below_case h' 0) as [[B' ->]|[B' ->]]; lra.
Qed.

Lemma value_comp : forall n1 n2 h n1' n2' h', n1 == n1' -> n2 == n2' -> h == h' -> hsl_value n1 n2 h == hsl_value n1' n2' h'.
Proof.
  intros n1 n2 h n1' n2' h' E1 E2 E3. unfold hsl_value. fold (wrap h). fold (wrap h').
  pose proof (wrap_comp h h' E3) as F. set (a := wrap h) in *. set (b := wrap h') in *. clearbody a b.
  destruct (below_case a 60) as [[A ->]|[A ->]], (below_case b 60) as [[A' ->]|[A' ->]]; try lra;
    [rewrite E1, E2, F; reflexivity|].
  destruct (below_case a 180) as [[B ->]|[B ->]], (below_case b 180) as [[B' ->]|[B' ->]]; try lra.
  destruct (below_case a 240) as [[C ->]|[C ->]], (below_case b 240) as [[C' ->]|[C' ->]]; try lra.
  rewrite E1, E2, F; reflexivity.
Qed.

Ltac cases := repeat match goal with
  | |- context [below 360 ?b] => destruct (below_case 360 b) as [[? ->]|[? ->]]; try (exfalso; lra); cbn iota
  | |- context [below ?a 0] => destruct (below_case a 0) as [[? ->]|[? ->]]; try (exfalso; lra); cbn iota
  end; repeat match goal with
  | |- context [below ?a ?b] => destruct (below_case a b) as [[? ->]|[? ->]]; try (exfalso; lra); cbn iota
  end.

Ltac value := unfold hsl_value; cases; unfold Qdiv; change (/ 60) with (1 # 60); (lra || nra).

Lemma turn_value : forall R G B M m x h, 0 <= x <= 1 -> m < M -> turn R G B M m x h ->
  hsl_value m M (h + 120) == R /\ hsl_value m M h == G /\ hsl_value m M (h - 120) == B.
Proof.
  intros R G B M m x h X L T.
  destruct T as [(T1 & T2 & T3 & T4)|[(T1 & T2 & T3 & T4 & T5)|[(T1 & T2 & T3 & T4)|[(T1 & T2 & T3 & T4)|
        [(T1 & T2 & T3 & T4)|(T1 & T2 & T3 & T4)]]]]];
  rewrite (value_comp m M (h + 120) m M _ (Qeq_refl _) (Qeq_refl _) (Qplus_comp _ _ T4 _ _ (Qeq_refl 120)));
  rewrite (value_comp m M h m M _ (Qeq_refl _) (Qeq_refl _) T4);
  rewrite (value_comp m M (h - 120) m M _ (Qeq_refl _) (Qeq_refl _) (Qplus_comp _ _ T4 _ _ (Qeq_refl (- (120)))));
  clear T4; repeat split; value.
Qed.

Lemma hsl_back : forall c, shown c -> coloured (1 # 10000000) c -> same (hsltorgb (rgbtohsl c)) c.
Proof.
  intros c ((R0 & G0 & B0) & R1 & G1 & BB1) CL. destruct (mx_ok c) as (A1 & A2 & A3 & A4). destruct (mn_ok c) as (B1 & B2 & B3 & B4).
  assert (M1 : mx c <= 1) by (destruct A4 as [->|[->| ->]]; auto).
  assert (m0 : 0 <= mn c) by (destruct B4 as [->|[->| ->]]; auto).
  assert (D : 1 # 10000000 < mx c - mn c).
  { assert (W : forall a b, 1 # 10000000 < Qabs (a - b) -> mn c <= a <= mx c -> mn c <= b <= mx c -> 1 # 10000000 < mx c - mn c).
    { intros a b H IA IB. revert H. apply Qabs_case; intros; lra. }
    destruct CL as [C|[C|C]]; eapply W; eauto. }
  unfold rgbtohsl. fold (mx c). fold (mn c).
  destruct (le_case (Qabs (mx c - mn c)) (1 # 10000000)) as [[C _]|[_ ->]].
  { exfalso. revert C. apply Qabs_case; intros; lra. }
  destruct (hue_of c ltac:(lra)) as (x & X & T). set (h := hue _ _ _ _ _) in *. clearbody h.
  unfold hsltorgb. cbn [cr cg cb].
  set (L := (mx c + mn c) / 2). assert (EL : L == (mx c + mn c) * (1 # 2)) by (unfold L; field). clearbody L.
  set (S := if below L (1 # 2) then _ else _).
  assert (ES : 0 < S /\ (L < 1 # 2 /\ S * (2 * L) == mx c - mn c \/ 1 # 2 <= L /\ S * (2 - 2 * L) == mx c - mn c)).
  { unfold S. destruct (below_case L (1 # 2)) as [[C ->]|[C ->]]; split.
    - apply Qlt_shift_div_l; lra.
    - left. split; auto. rewrite EL. field. lra.
    - apply Qlt_shift_div_l; lra.
    - right. split; auto. rewrite EL. field. lra. }
  clearbody S. destruct ES as [S0 ES].
  destruct (eq_case S 0) as [[C _]|[_ ->]]; [lra|].
  set (m2 := if Qle_bool L (1 # 2) then _ else _).
  assert (E2 : m2 == mx c).
  { unfold m2. destruct (le_case L (1 # 2)) as [[C ->]|[C ->]]; destruct ES as [[K ES]|[K ES]]; try lra.
    assert (HL : L == 1 # 2) by lra. assert (S * L == S * (1 # 2)) by (rewrite HL; reflexivity). lra. }
  clearbody m2. assert (E1 : 2 * L - m2 == mn c) by lra.
  assert (EH : h / 360 * 360 == h) by field.
  assert (LT : mn c < mx c) by lra. destruct (turn_value _ _ _ _ _ _ _ X LT T) as (V1 & V2 & V3).
  unfold same. cbn [cr cg cb]. rewrite <- V1, <- V2, <- V3.
  repeat split; apply value_comp; auto; rewrite EH; reflexivity.
Qed.

Lemma hsl_range : forall c, shown c -> coloured (1 # 10000000) c ->
  0 <= cr (rgbtohsl c) < 1 /\ 0 < cg (rgbtohsl c) <= 1 /\ 0 <= cb (rgbtohsl c) <= 1.
Proof.
  intros c ((R0 & G0 & B0) & R1 & G1 & BB1) CL. destruct (mx_ok c) as (A1 & A2 & A3 & A4). destruct (mn_ok c) as (B1 & B2 & B3 & B4).
  assert (M1 : mx c <= 1) by (destruct A4 as [->|[->| ->]]; auto).
  assert (m0 : 0 <= mn c) by (destruct B4 as [->|[->| ->]]; auto).
  assert (D : 1 # 10000000 < mx c - mn c).
  { assert (W : forall a b, 1 # 10000000 < Qabs (a - b) -> mn c <= a <= mx c -> mn c <= b <= mx c -> 1 # 10000000 < mx c - mn c).
    { intros a b H IA IB. revert H. apply Qabs_case; intros; lra. }
    destruct CL as [C|[C|C]]; eapply W; eauto. }
  unfold rgbtohsl. fold (mx c). fold (mn c).
  destruct (le_case (Qabs (mx c - mn c)) (1 # 10000000)) as [[C _]|[_ ->]].
  { exfalso. revert C. apply Qabs_case; intros; lra. }
  destruct (hue_of c ltac:(lra)) as (x & X & T). pose proof (turn_range _ _ _ _ _ _ _ X T) as HR.
  set (h := hue _ _ _ _ _) in *. clearbody h. cbn [cr cg cb].
  split; [split; [apply Qle_shift_div_l|apply Qlt_shift_div_r]; lra|].
  split; [|split; [apply Qle_shift_div_l|apply Qle_shift_div_r]; lra].
  destruct (below_case ((mx c + mn c) / 2) (1 # 2)) as [[C ->]|[C ->]]; split;
    first [apply Qlt_shift_div_l | apply Qle_shift_div_r]; lra.
Qed.

(** * YIQ *)

Lemma yiq_back : forall c, shown c -> near (1 # 510) (YIQtorgb (rgbtoYIQ c)) c.
Proof.
  intros [r g b] ((R0 & G0 & B0) & R1 & G1 & B1). cbn [cr cg cb] in *.
  unfold near, YIQtorgb, rgbtoYIQ, times. cbn [cr cg cb].
  repeat split; apply Qabs_case; intros; lra.
Qed.

(** * What the numbers mean *)

Lemma unit_is : forall x y, (x <= 0 /\ y == 0) \/ (0 <= x <= 1 /\ y == x) \/ (1 <= x /\ y == 1) -> unit x == y.
Proof.
  intros x y [[L E]|[[L E]|[L E]]]; unfold unit.
  - rewrite (Q.min_r 1 x) by lra. rewrite Q.max_l by lra. lra.
  - rewrite (Q.min_r 1 x) by lra. rewrite Q.max_r by lra. lra.
  - rewrite (Q.min_l 1 x) by lra. rewrite Q.max_r by lra. lra.
Qed.

(** The pure colour in each sector; [f] is the place in it. *)
Definition wheel (i : Z) (f : Q) : color :=
  match i with
  | 0%Z => Col 1 f 0
  | 1%Z => Col (1 - f) 1 0
  | 2%Z => Col 0 1 f
  | 3%Z => Col 0 (1 - f) 1
  | 4%Z => Col f 0 1
  | _ => Col 1 0 (1 - f)
  end.

Lemma pure_wheel : forall h i f, (0 <= i <= 5)%Z -> 0 <= f <= 1 -> 6 * h == inject_Z i + f -> same (pure h) (wheel i f).
Proof.
  intros h i f I F E.
  assert (C : i = 0%Z \/ i = 1%Z \/ i = 2%Z \/ i = 3%Z \/ i = 4%Z \/ i = 5%Z) by lia.
  unfold same, pure. cbn [cr cg cb].
  destruct C as [-> |[-> |[-> |[-> |[-> | ->]]]]]; cbn [wheel cr cg cb];
    (match type of E with _ == inject_Z ?k + _ => assert (E' : 6 * h == (k # 1) + f) by exact E end); clear E;
    repeat split; apply unit_is; apply Qabs_case; intros; lra.
Qed.

Lemma which : forall h, 0 <= h < 1 -> exists i f, (0 <= i <= 5)%Z /\ 0 <= f < 1 /\ 6 * h == inject_Z i + f.
Proof.
  intros h [H0 H1]. exists (Qfloor (6 * h)), (6 * h - inject_Z (Qfloor (6 * h))).
  pose proof (Qfloor_le (6 * h)) as F1. pose proof (Qlt_floor (6 * h)) as F2. rewrite inject_Z_plus in F2. change (inject_Z 1) with 1 in F2.
  assert (A : inject_Z (Qfloor (6 * h)) < inject_Z 6) by (change (inject_Z 6) with 6; lra).
  assert (B : inject_Z (- 1) < inject_Z (Qfloor (6 * h))) by (change (inject_Z (- 1)) with (- (1)); lra).
  rewrite <- Zlt_Qlt in A, B. repeat split; try lia; lra.
Qed.

Lemma pure_end : same (pure 1) (pure 0).
Proof. unfold same, pure. cbn [cr cg cb]. repeat split; reflexivity. Qed.

Lemma pure_comp : forall h h', h == h' -> same (pure h) (pure h').
Proof.
  intros h h' E. unfold same, pure, unit. cbn [cr cg cb]. rewrite E. repeat split; reflexivity.
Qed.

Lemma hsv_means : forall h s v, 0 <= h <= 1 -> same (hsvtorgb (Col h s v)) (of_hsv h s v).
Proof.
  intros h s v [H0 H1].
  destruct (eq_case s 0) as [[Z B]|[Z B]].
  - unfold hsvtorgb. cbn [cr cg cb]. rewrite B. unfold same, of_hsv, each. cbn [cr cg cb]. rewrite Z. repeat split; ring.
  - destruct (Qlt_le_dec h 1) as [L|G].
    + destruct (which h ltac:(lra)) as (i & f & I & F & E).
      destruct (hsv_sector h s v i f Z F I ltac:(lra)) as (P1 & P2 & P3).
      destruct (pure_wheel h i f I ltac:(lra) E) as (W1 & W2 & W3).
      unfold same, of_hsv, each. rewrite P1, P2, P3. cbn [cr cg cb]. rewrite W1, W2, W3.
      assert (C : i = 0%Z \/ i = 1%Z \/ i = 2%Z \/ i = 3%Z \/ i = 4%Z \/ i = 5%Z) by lia.
      destruct C as [-> |[-> |[-> |[-> |[-> | ->]]]]]; cbn [sector wheel cr cg cb]; repeat split; ring.
    + assert (E : h == 1) by lra. destruct (pure_comp h 1 E) as (W1 & W2 & W3). destruct pure_end as (X1 & X2 & X3).
      destruct (pure_wheel 0 0 0 ltac:(lia) ltac:(lra) ltac:(reflexivity)) as (Y1 & Y2 & Y3).
      unfold hsvtorgb. cbn [cr cg cb]. rewrite B.
      destruct (eq_case (h * 360) 360) as [[_ ->]|[N _]]; [|lra].
      change (Qfloor (0 / 60)) with 0%Z. cbn iota.
      unfold same, of_hsv, each. cbn [cr cg cb]. rewrite W1, W2, W3, X1, X2, X3, Y1, Y2, Y3. cbn [wheel cr cg cb].
      change (0 / 60 - inject_Z 0) with ((0 / 60 - inject_Z 0)). setoid_replace (0 / 60 - inject_Z 0) with 0 by reflexivity.
      repeat split; ring.
Qed.

Lemma wheel_value : forall n1 n2 i f, (0 <= i <= 5)%Z -> 0 <= f < 1 ->
  hsl_value n1 n2 (60 * (inject_Z i + f) + 120) == n1 + (n2 - n1) * cr (wheel i f) /\
  hsl_value n1 n2 (60 * (inject_Z i + f)) == n1 + (n2 - n1) * cg (wheel i f) /\
  hsl_value n1 n2 (60 * (inject_Z i + f) - 120) == n1 + (n2 - n1) * cb (wheel i f).
Proof.
  intros n1 n2 i f I F.
  assert (C : i = 0%Z \/ i = 1%Z \/ i = 2%Z \/ i = 3%Z \/ i = 4%Z \/ i = 5%Z) by lia.
  destruct C as [-> |[-> |[-> |[-> |[-> | ->]]]]]; cbn [wheel cr cg cb]; 
    match goal with |- context [inject_Z ?k] => change (inject_Z k) with (k # 1) end;
    repeat split; unfold hsl_value; cases; unfold Qdiv; change (/ 60) with (1 # 60);
    first [lra | assert (F0 : f == 0) by lra; rewrite F0; ring].
Qed.

Lemma hsl_means : forall h s l, 0 <= h <= 1 -> same (hsltorgb (Col h s l)) (of_hsl h s l).
Proof.
  intros h s l [H0 H1]. unfold hsltorgb. cbn [cr cg cb].
  destruct (eq_case s 0) as [[Z ->]|[Z ->]].
  - unfold same, of_hsl, each. cbn [cr cg cb]. rewrite Z. repeat split; ring.
  - set (m2 := if Qle_bool l (1 # 2) then _ else _).
    assert (E2 : m2 == l + s * (1 - Qabs (2 * l - 1)) * (1 # 2)).
    { unfold m2. destruct (le_case l (1 # 2)) as [[C ->]|[C ->]]; [rewrite Qabs_neg by lra|rewrite Qabs_pos by lra]; ring. }
    clearbody m2.
    assert (K : exists i f, (0 <= i <= 5)%Z /\ 0 <= f < 1 /\ same (pure h) (wheel i f) /\
      (hsl_value (2 * l - m2) m2 (h * 360 + 120) == hsl_value (2 * l - m2) m2 (60 * (inject_Z i + f) + 120)) /\
      (hsl_value (2 * l - m2) m2 (h * 360) == hsl_value (2 * l - m2) m2 (60 * (inject_Z i + f))) /\
      (hsl_value (2 * l - m2) m2 (h * 360 - 120) == hsl_value (2 * l - m2) m2 (60 * (inject_Z i + f) - 120))).
    { destruct (Qlt_le_dec h 1) as [L|G].
      - destruct (which h ltac:(lra)) as (i & f & I & F & E). exists i, f. split; auto. split; auto.
        split; [apply pure_wheel; auto; lra|].
        repeat split; apply value_comp; try reflexivity; lra.
      - assert (E : h == 1) by lra. destruct (pure_comp h 1 E) as (W1 & W2 & W3). destruct pure_end as (X1 & X2 & X3).
        destruct (pure_wheel 0 0 0 ltac:(lia) ltac:(lra) ltac:(reflexivity)) as (Y1 & Y2 & Y3).
        exists 0%Z, 0. split; [lia|]. split; [lra|].
        split; [unfold same; rewrite W1, W2, W3, X1, X2, X3; auto|]. change (inject_Z 0) with 0.
        repeat split; unfold hsl_value; cases; unfold Qdiv; change (/ 60) with (1 # 60);
          first [reflexivity | ring | rewrite E; ring]. }
    destruct K as (i & f & I & F & (W1 & W2 & W3) & V1 & V2 & V3).
    destruct (wheel_value (2 * l - m2) m2 i f I F) as (U1 & U2 & U3).
    unfold same, of_hsl, each. cbn [cr cg cb]. rewrite V1, V2, V3, U1, U2, U3, W1, W2, W3.
    rewrite E2. repeat split; ring.
Qed.

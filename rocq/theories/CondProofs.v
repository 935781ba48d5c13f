(** Proofs about conditions. *)

From Coq Require Import List Bool ZArith QArith Qpower Lia.
Import ListNotations.
From Verif Require Import HashModel CondModel CondSpec.
Open Scope Z_scope.

Lemma space_ok : forall c, space c = true <-> white c.
Proof.
  intros c; unfold space, white; rewrite orb_true_iff, andb_true_iff, Z.eqb_eq, !Z.leb_le; tauto.
Qed.

Lemma space_not : forall c, ~ white c -> space c = false.
Proof. intros c H; apply not_true_is_false; rewrite space_ok; exact H. Qed.

Lemma skip_blank : forall w s, blank w -> skip (w ++ s) = skip s.
Proof.
  induction w as [|c w IH]; intros s H; [reflexivity|]; apply Forall_cons_iff in H; destruct H as (Hc & Hw).
  cbn [app skip]; rewrite (proj2 (space_ok c) Hc); apply IH, Hw.
Qed.

Lemma skip_solid : forall w s, solid w -> skip (w ++ s) = w ++ s.
Proof.
  intros [|c w] s (N & F); [contradiction|]; apply Forall_cons_iff in F; destruct F as (Fc & _).
  cbn [app skip]; rewrite space_not by exact Fc; reflexivity.
Qed.

Lemma word_solid : forall w s, Forall (fun c => ~ white c) w -> ends s -> word (w ++ s) = (w, s).
Proof.
  induction w as [|c w IH]; intros s F E; cbn [app word].
  - destruct E as [->|(x & t & -> & W)]; [reflexivity|]; cbn [word]; rewrite (proj2 (space_ok x) W); reflexivity.
  - apply Forall_cons_iff in F; destruct F as (Fc & F); rewrite space_not, IH by assumption; reflexivity.
Qed.

Lemma scan_word_ok : forall w0 w s, blank w0 -> solid w -> ends s -> scan_word (w0 ++ w ++ s) = Some (w, s).
Proof.
  intros w0 w s B (N & F) E; unfold scan_word; rewrite skip_blank, skip_solid, word_solid by (assumption || split; assumption).
  destruct w; [contradiction | reflexivity].
Qed.

(** Conversely, what was scanned. *)
Lemma skip_split : forall s, exists w, blank w /\ s = w ++ skip s /\
  match skip s with [] => True | c :: _ => ~ white c end.
Proof.
  induction s as [|c s (w & B & E & H)]; [exists []; repeat split; constructor|]; cbn [skip].
  destruct (space c) eqn:S.
  - exists (c :: w); repeat split; [constructor; [apply space_ok; exact S | exact B] | cbn [app]; f_equal; exact E | exact H].
  - exists []; repeat split; [constructor|]; intros W; apply space_ok in W; congruence.
Qed.

Lemma word_split : forall s w t, word s = (w, t) -> s = w ++ t /\ Forall (fun c => ~ white c) w /\ ends t.
Proof.
  induction s as [|c s IH]; intros w t H; cbn [word] in H.
  - injection H as <- <-; repeat split; [constructor | left; reflexivity].
  - destruct (space c) eqn:S.
    + injection H as <- <-; repeat split; [constructor | right; exists c, s; split; [reflexivity | apply space_ok; exact S]].
    + destruct (word s) as [w' t'] eqn:W; injection H as <- <-; destruct (IH w' t' eq_refl) as (E & F & T).
      repeat split; [cbn [app]; f_equal; exact E | | exact T].
      constructor; [intros X; apply space_ok in X; congruence | exact F].
Qed.

Lemma scan_word_split : forall s w t, scan_word s = Some (w, t) ->
  exists w0, blank w0 /\ s = w0 ++ w ++ t /\ solid w /\ ends t.
Proof.
  intros s w t H; unfold scan_word in H; destruct (skip_split s) as (w0 & B & E & _).
  destruct (word (skip s)) as [w' t'] eqn:W; destruct (word_split _ _ _ W) as (E' & F & T).
  destruct w' as [|c w']; [discriminate|]; injection H as <- <-.
  exists w0; repeat split; [exact B | congruence | discriminate | exact F | exact T].
Qed.

Lemma ends_blank : forall w, ends w \/ exists c r, w = c :: r /\ ~ white c.
Proof.
  intros [|c r]; [left; left; reflexivity|].
  destruct (space c) eqn:S; [left; right; exists c, r; split; [reflexivity | apply space_ok; exact S]|].
  right; exists c, r; split; [reflexivity|]; intros W; apply space_ok in W; congruence.
Qed.

(** Searching single characters. *)
Lemma strstr_one : forall c s, strstr s [c] = true <-> In c s.
Proof.
  intros c; induction s as [|x s IH]; [cbn; split; [discriminate | intros []]|].
  change (strstr (x :: s) [c]) with (((c =? x) && true) || strstr s [c]).
  rewrite andb_true_r, orb_true_iff, Z.eqb_eq, IH; cbn [In]; intuition.
Qed.

Lemma form_head : forall c lhs rel rest w0 w1, c = 36 :: w0 ++ lhs ++ w1 ++ rel ++ rest -> In 36 c.
Proof. intros; subst; left; reflexivity. Qed.

(** Parts between colons. *)
Lemma part_plain : forall a s, ~ In 58 a -> part (a ++ 58 :: s) = (a, s).
Proof.
  induction a as [|c a IH]; intros s N; cbn [app part]; [reflexivity|].
  rewrite (proj2 (Z.eqb_neq c 58)) by (intros ->; apply N; left; reflexivity).
  rewrite IH by (intros I; apply N; right; exact I); reflexivity.
Qed.

Lemma part_last : forall a, ~ In 58 a -> part a = (a, []).
Proof.
  induction a as [|c a IH]; intros N; cbn [part]; [reflexivity|].
  rewrite (proj2 (Z.eqb_neq c 58)) by (intros ->; apply N; left; reflexivity).
  rewrite IH by (intros I; apply N; right; exact I); reflexivity.
Qed.

Lemma colons_plain : forall a s, plain a -> colons (a ++ s) = a ++ s.
Proof.
  intros [|c a] s (N & C); [contradiction|]; cbn [app colons].
  rewrite (proj2 (Z.eqb_neq c 58)) by (intros ->; apply C; left; reflexivity); reflexivity.
Qed.

Lemma strtok_plain : forall a s, plain a -> strtok (a ++ 58 :: s) = (Some a, s).
Proof.
  intros a s P; unfold strtok; rewrite colons_plain by exact P.
  pose proof (part_plain a s (proj2 P)) as E; destruct P as (N & _); destruct a as [|c a]; [contradiction|].
  cbn [app] in E |- *; rewrite E; reflexivity.
Qed.

Lemma strtok_last : forall a, plain a -> strtok a = (Some a, []).
Proof.
  intros a P; unfold strtok; pose proof (colons_plain a [] P) as C; rewrite app_nil_r in C; rewrite C.
  pose proof (part_last a (proj2 P)) as E; destruct P as (N & _); destruct a as [|c a]; [contradiction|].
  rewrite E; reflexivity.
Qed.

Lemma same_ok : forall a b, same a b = true <-> a = b.
Proof.
  induction a as [|x a IH]; intros [|y b]; cbn [same]; try (split; (reflexivity || discriminate)).
  rewrite andb_true_iff, Z.eqb_eq, IH; split; [intros (-> & ->); reflexivity | intros H; injection H as -> ->; split; reflexivity].
Qed.

Lemma same_not : forall a b, a <> b -> same a b = false.
Proof. intros a b H; apply not_true_is_false; rewrite same_ok; exact H. Qed.

Lemma plain_attribute : plain attribute_word.
Proof. split; [discriminate|]; cbn; intuition discriminate. Qed.
Lemma plain_option : plain option_word.
Proof. split; [discriminate|]; cbn; intuition discriminate. Qed.

Section Condition.
Variable near : Q -> Q.
Variables attribute option_of : list Z -> list Z -> option value.
Notation test := (test near attribute option_of).
Notation find := (find attribute option_of).
Definition lookup (k : kind) : list Z -> list Z -> option value :=
  match k with Attribute_kind => attribute | Option_kind => option_of end.

Lemma find_ok : forall lhs k a b, names lhs k a b -> find lhs = Some (lookup k a b).
Proof.
  intros lhs k a b H; destruct H as [a b A B N1 N2|a b A B|a b A B]; unfold CondModel.find.
  - rewrite strtok_plain, strtok_last by assumption.
    rewrite (same_not a attribute_text), (same_not a option_text) by assumption; reflexivity.
  - rewrite strtok_plain by exact plain_attribute.
    rewrite strtok_plain by exact A; rewrite strtok_last by exact B; reflexivity.
  - rewrite strtok_plain by exact plain_option.
    rewrite strtok_plain by exact A; rewrite strtok_last by exact B; reflexivity.
Qed.

Lemma names_colon : forall lhs k a b, names lhs k a b -> In 58 lhs.
Proof.
  intros lhs k a b H; destruct H; rewrite ?in_app_iff; cbn [In]; auto.
Qed.

(** The test of a condition of the right form. *)
Lemma test_form : forall c lhs rel rest k a b, form c lhs rel rest ->
  (length lhs < 80)%nat -> (length rel < 80)%nat -> names lhs k a b ->
  test c = match lookup k a b with Some v => by_type near v (op_hash rel) rest | None => Says true end.
Proof.
  intros c lhs rel rest k a b (w0 & w1 & E & B0 & B1 & N1 & L & R & T) Ll Lr N.
  unfold CondModel.test.
  assert (D : strstr c [36] = true) by (apply strstr_one, (form_head c lhs rel rest w0 w1 E)).
  assert (C : strstr c [58] = true).
  { apply strstr_one; rewrite E; right; rewrite !in_app_iff; right; left; apply (names_colon lhs k a b N). }
  rewrite D, C; cbn [negb orb]; rewrite E.
  assert (E1 : ends (w1 ++ rel ++ rest)).
  { destruct w1 as [|x w1]; [contradiction|]; right; exists x, (w1 ++ rel ++ rest); split; [reflexivity|].
    apply Forall_cons_iff in B1; apply B1. }
  rewrite (scan_word_ok w0 lhs (w1 ++ rel ++ rest) B0 L E1).
  rewrite (proj2 (Z.leb_gt 80 (Z.of_nat (length lhs)))) by lia.
  rewrite (scan_word_ok w1 rel rest B1 R T).
  rewrite (proj2 (Z.leb_gt 80 (Z.of_nat (length rel)))) by lia.
  rewrite (find_ok lhs k a b N); reflexivity.
Qed.

(** And of one that does not have it. *)
Lemma test_unparsed : forall c, short_words c -> (forall lhs rel rest, ~ form c lhs rel rest) -> test c = Says true.
Proof.
  intros c S F; unfold CondModel.test.
  destruct (negb (strstr c [36]) || negb (strstr c [58])); [reflexivity|].
  destruct c as [|x r]; [reflexivity|].
  assert (X : x = 36 \/ x <> 36) by lia; destruct X as [->|X].
  - destruct (scan_word r) as [[lhs r1]|] eqn:E1; [|reflexivity].
    destruct (scan_word_split _ _ _ E1) as (w0 & B0 & Er & L & T1).
    rewrite (proj2 (Z.leb_gt 80 (Z.of_nat (length lhs)))).
    2: { assert (length lhs < 80)%nat by (apply (S (36 :: w0) lhs r1); [rewrite Er; reflexivity | exact L]); lia. }
    destruct (scan_word r1) as [[rel r2]|] eqn:E2; [|reflexivity].
    destruct (scan_word_split _ _ _ E2) as (w1 & B1 & Er1 & R & T2).
    exfalso; apply (F lhs rel r2); exists w0, w1.
    split; [rewrite Er, Er1; reflexivity|]; split; [exact B0|]; split; [exact B1|].
    split; [|split; [exact L | split; [exact R | exact T2]]].
    intros ->; destruct T1 as [->|(y & t & -> & W)]; [discriminate E2|].
    destruct R as (_ & FR); destruct rel as [|z rel]; [discriminate E2 || (unfold scan_word in E2; destruct (word _) as [[|? ?] ?]; discriminate)|].
    apply Forall_cons_iff in FR; destruct FR as (Fz & _); cbn [app] in Er1; injection Er1 as -> _; contradiction.
  - destruct x as [|p|p]; try reflexivity.
    repeat (match goal with q : positive |- _ => destruct q end; try reflexivity); contradiction.
Qed.

End Condition.

(** ** Numbers *)

Lemma digit_text : forall d, 0 <= d <= 9 -> digit (48 + d) = true.
Proof. intros d H; unfold digit; rewrite andb_true_iff, !Z.leb_le; lia. Qed.

Definition stops (s : list Z) : Prop := match s with [] => True | c :: _ => digit c = false end.

Lemma digits_ok : forall ds v n s, decimals ds -> stops s ->
  digits v n (digits_text ds ++ s) = (fold_left (fun v d => 10 * v + d) ds v, (n + length ds)%nat, s).
Proof.
  induction ds as [|d ds IH]; intros v n s D E; cbn [digits_text map app fold_left length].
  - rewrite Nat.add_0_r; destruct s as [|c s]; [reflexivity|]; cbn [digits]; cbn in E; rewrite E; reflexivity.
  - apply Forall_cons_iff in D; destruct D as (Dd & Ds); cbn [digits].
    rewrite digit_text by exact Dd; fold (digits_text ds); rewrite IH by assumption.
    f_equal; [f_equal; [f_equal; lia | lia]].
Qed.

Lemma decimal_app : forall a b v, fold_left (fun v d => 10 * v + d) (a ++ b) v =
  fold_left (fun v d => 10 * v + d) b (fold_left (fun v d => 10 * v + d) a v).
Proof. intros; apply fold_left_app. Qed.

Lemma decimal_shift : forall b v, fold_left (fun v d => 10 * v + d) b v = v * 10 ^ Z.of_nat (length b) + decimal b.
Proof.
  unfold decimal; induction b as [|d b IH]; intros v; cbn [fold_left length]; [rewrite Z.mul_1_r; lia|].
  rewrite IH, (IH (10 * 0 + d)), Nat2Z.inj_succ, Z.pow_succ_r by lia; ring.
Qed.

Lemma white_not_digit : forall c, white c -> digit c = false.
Proof. intros c W; unfold white in W; unfold digit; apply not_true_is_false; rewrite andb_true_iff, !Z.leb_le; lia. Qed.

Lemma ends_stops : forall t, ends t -> stops t.
Proof. intros t [->|(x & r & -> & W)]; [exact I | apply white_not_digit, W]. Qed.

Lemma sign_ok : forall m s, (m = None -> match s with c :: _ => c <> 45 /\ c <> 43 | [] => True end) ->
  sign (sign_text m ++ s) = (match m with Some true => true | _ => false end, s).
Proof.
  intros [[|]|] s H; [reflexivity | reflexivity|]; cbn [sign_text app]; specialize (H eq_refl).
  unfold sign; destruct s as [|c s]; [reflexivity|]; destruct H as (A & B).
  rewrite (proj2 (Z.eqb_neq c 45) A), (proj2 (Z.eqb_neq c 43) B); reflexivity.
Qed.

Lemma signed_ok : forall m v, signed (match m with Some true => true | _ => false end) v = negative m * v.
Proof. intros [[|]|] v; cbn [signed negative]; lia. Qed.

Lemma digits_head : forall ds s, decimals ds -> ds <> [] ->
  match digits_text ds ++ s with c :: _ => 48 <= c <= 57 | [] => False end.
Proof.
  intros [|d ds] s D N; [contradiction|]; apply Forall_cons_iff in D; cbn [digits_text map app]; lia.
Qed.

Lemma skip_sign : forall m ds s, decimals ds -> ds <> [] ->
  skip (sign_text m ++ digits_text ds ++ s) = sign_text m ++ digits_text ds ++ s.
Proof.
  intros m ds s D N; destruct m as [[|]|]; [reflexivity | reflexivity|]; cbn [sign_text app].
  pose proof (digits_head ds s D N) as H; destruct (digits_text ds ++ s) as [|c r]; [contradiction|].
  cbn [skip]; rewrite space_not by (unfold white; lia); reflexivity.
Qed.

Lemma scan_int_ok : forall m ds w t, decimals ds -> ds <> [] -> blank w -> stops t ->
  in_int (negative m * decimal ds) = true ->
  scan_int (w ++ sign_text m ++ digits_text ds ++ t) = Got (negative m * decimal ds) t.
Proof.
  intros m ds w t D N B T R; unfold scan_int.
  rewrite skip_blank, skip_sign by assumption; rewrite sign_ok.
  2: { intros _; pose proof (digits_head ds t D N) as H; destruct (digits_text ds ++ t); [exact I | lia]. }
  rewrite digits_ok by assumption; cbn [Nat.add]; destruct ds as [|d ds]; [contradiction|]; cbn [length].
  rewrite signed_ok; fold (decimal (d :: ds)); rewrite R; reflexivity.
Qed.

(** The value of a scaled number. *)
Lemma scale_ok : forall v e, (scale v e == inject_Z v * Qpower (10 # 1) e)%Q.
Proof.
  intros v e; unfold scale; destruct (Z.leb_spec 0 e) as [P|P].
  - rewrite inject_Z_mult; apply Qmult_comp; [reflexivity|]; rewrite Zpower_Qpower by exact P; reflexivity.
  - assert (E : e = - (- e)) by lia; rewrite E at 2; rewrite Qpower_opp.
    assert (P10 : 0 < 10 ^ (- e)) by (apply Z.pow_pos_nonneg; lia).
    assert (H : (Qpower (10 # 1) (- e) == inject_Z (10 ^ (- e)))%Q) by (rewrite Zpower_Qpower by lia; reflexivity).
    rewrite H; unfold Qeq, Qmult, Qinv, inject_Z; cbn [Qnum Qden].
    destruct (10 ^ (- e)) as [|p|p]; [lia | cbn [Z.to_pos Qnum Qden]; rewrite Pos.mul_1_l; lia | lia].
Qed.

(** What may follow a number. *)
Definition after (t : list Z) : Prop := match t with [] => True | c :: _ => white c \/ c = 93 end.

Lemma ends_after : forall t, ends t -> after t.
Proof. intros t [->|(x & r & -> & W)]; [exact I | left; exact W]. Qed.

Lemma blank_after : forall w s, blank w -> w <> [] -> after (w ++ s).
Proof. intros [|c w] s B N; [contradiction|]; apply Forall_cons_iff in B; left; apply B. Qed.

Lemma blank_after' : forall w s, blank w -> after (w ++ 93 :: s).
Proof. intros [|c w] s B; [right; reflexivity|]; apply Forall_cons_iff in B; left; apply B. Qed.

(** The fraction and the exponent of a literal. *)
Definition exponent_text (l : literal) : list Z :=
  match exponent l with Some (m, ds) => 101 :: sign_text m ++ digits_text ds | None => [] end.
Definition fraction_text (l : literal) : list Z :=
  match fraction l with Some ds => 46 :: digits_text ds | None => [] end.

Definition nice (t : list Z) : Prop := match t with [] => True | c :: _ => white c \/ c = 93 \/ c = 101 \/ c = 46 end.

Lemma after_nice : forall t, after t -> nice t.
Proof. intros [|c t]; cbn; tauto. Qed.

Lemma exponent_nice : forall l t, after t -> nice (exponent_text l ++ t).
Proof. intros l t A; unfold exponent_text; destruct (exponent l) as [[m ds]|]; [cbn; auto | apply after_nice, A]. Qed.

Lemma fraction_nice : forall l t, after t -> nice (fraction_text l ++ exponent_text l ++ t).
Proof. intros l t A; unfold fraction_text; destruct (fraction l); [cbn; auto | apply exponent_nice, A]. Qed.

Lemma nice_stops : forall t, nice t -> stops t.
Proof.
  intros [|c t] H; [exact I|]; cbn in *; unfold white in H; unfold digit.
  apply not_true_is_false; rewrite andb_true_iff, !Z.leb_le; lia.
Qed.

Lemma number_head : forall l t, literal_ok l ->
  match digits_text (whole l) ++ fraction_text l ++ exponent_text l ++ t with
  | c :: _ => 48 <= c <= 57 \/ c = 46
  | [] => False
  end.
Proof.
  intros l t (W & F & N & X); destruct (whole l) as [|d ds] eqn:Ew.
  - cbn [digits_text map app]; unfold fraction_text; unfold fraction_digits in N.
    destruct (fraction l) as [fs|]; [right; reflexivity | exfalso; apply N; reflexivity].
  - left; apply Forall_cons_iff in W; cbn [digits_text map app]; lia.
Qed.

Lemma number_not_hex : forall l t, literal_ok l -> after t ->
  hexadecimal (digits_text (whole l) ++ fraction_text l ++ exponent_text l ++ t) = false.
Proof.
  intros l t (W & F & N & X) A; pose proof (fraction_nice l t A) as Nf.
  destruct (whole l) as [|d ds] eqn:Ew; cbn [digits_text map app] in *.
  - unfold fraction_text in *; unfold fraction_digits in N.
    destruct (fraction l) as [fs|]; [|exfalso; apply N; reflexivity]; cbn [app hexadecimal].
    destruct (digits_text fs ++ exponent_text l ++ t); reflexivity.
  - apply Forall_cons_iff in W; destruct W as (Wd & W); cbn [hexadecimal].
    destruct ds as [|d' ds]; cbn [map app].
    + destruct (fraction_text l ++ exponent_text l ++ t) as [|c r]; [reflexivity|]; cbn in Nf; unfold white in Nf.
      rewrite (proj2 (Z.eqb_neq c 120)), (proj2 (Z.eqb_neq c 88)), andb_false_r by lia; reflexivity.
    + apply Forall_cons_iff in W; destruct W as (Wd' & W).
      rewrite (proj2 (Z.eqb_neq (48 + d') 120)), (proj2 (Z.eqb_neq (48 + d') 88)), andb_false_r by lia; reflexivity.
Qed.

Lemma literal_arith : forall (s w f n : Z) p, 0 <= n ->
  (inject_Z (s * (w * 10 ^ n + f)) * Qpower (10 # 1) (p - n) ==
   inject_Z s * (inject_Z w + inject_Z f * Qpower (10 # 1) (- n)) * Qpower (10 # 1) p)%Q.
Proof.
  intros s w f n p N.
  assert (T : ~ (10 # 1 == 0)%Q) by discriminate.
  rewrite inject_Z_mult, inject_Z_plus, inject_Z_mult, Zpower_Qpower by exact N.
  change (inject_Z 10) with (10 # 1).
  replace (p - n) with (p + - n) by ring; rewrite Qpower_plus by exact T; rewrite !Qpower_opp.
  assert (Z0 : ~ (Qpower (10 # 1) n == 0)%Q) by (apply Qpower_not_0; exact T).
  field; exact Z0.
Qed.

Lemma scan_float_ok : forall l w t, literal_ok l -> blank w -> after t ->
  exists q, scan_float (w ++ literal_text l ++ t) = Got q t /\ (q == literal_value l)%Q.
Proof.
  intros l w t Ok B A; unfold scan_float; rewrite skip_blank by exact B.
  assert (Tx : literal_text l ++ t = sign_text (minus l) ++ (digits_text (whole l) ++ fraction_text l ++ exponent_text l ++ t)).
  { unfold literal_text, fraction_text, exponent_text; rewrite <- !app_assoc; reflexivity. }
  rewrite Tx; clear Tx.
  pose proof (number_head l t Ok) as H; pose proof (number_not_hex l t Ok A) as Hx.
  set (u := digits_text (whole l) ++ fraction_text l ++ exponent_text l ++ t) in *.
  assert (Sk : skip (sign_text (minus l) ++ u) = sign_text (minus l) ++ u).
  { destruct (minus l) as [[|]|]; [reflexivity | reflexivity|]; cbn [sign_text app].
    destruct u as [|c u]; [contradiction|]; cbn [skip]; rewrite space_not by (unfold white; lia); reflexivity. }
  rewrite Sk, sign_ok by (intros _; destruct u; [exact I | lia]).
  destruct u as [|c u'] eqn:Eu; [contradiction|].
  rewrite Hx, (proj2 (Z.eqb_neq c 105)), (proj2 (Z.eqb_neq c 73)), (proj2 (Z.eqb_neq c 110)), (proj2 (Z.eqb_neq c 78)) by lia.
  cbn [orb]; rewrite <- Eu; subst u; clear c u' Eu H Hx Sk.
  destruct Ok as (W & F & N & X).
  rewrite digits_ok by (exact W || apply nice_stops, fraction_nice, A).
  fold (decimal (whole l)); cbn [Nat.add].
  assert (Mid : match fraction_text l ++ exponent_text l ++ t with
      | c :: r' => if c =? 46 then digits (decimal (whole l)) 0 r' else (decimal (whole l), O, fraction_text l ++ exponent_text l ++ t)
      | [] => (decimal (whole l), O, fraction_text l ++ exponent_text l ++ t) end =
      (decimal (whole l) * 10 ^ Z.of_nat (length (fraction_digits l)) + decimal (fraction_digits l), length (fraction_digits l), exponent_text l ++ t)).
  { unfold fraction_text, fraction_digits in *; destruct (fraction l) as [fs|].
    - cbn [app]; rewrite Z.eqb_refl, digits_ok by (exact F || apply nice_stops, exponent_nice, A).
      rewrite decimal_shift; reflexivity.
    - cbn [app length]; replace (decimal (whole l) * 10 ^ Z.of_nat 0 + decimal []) with (decimal (whole l)) by (cbn; lia).
      unfold exponent_text; destruct (exponent l) as [[m es]|]; [reflexivity|]; cbn [app].
      destruct t as [|c t]; [reflexivity|]; cbn in A; unfold white in A.
      rewrite (proj2 (Z.eqb_neq c 46)) by lia; reflexivity. }
  rewrite Mid; clear Mid.
  assert (NN : (length (whole l) + length (fraction_digits l))%nat <> 0%nat).
  { rewrite <- app_length; intros E; apply length_zero_iff_nil in E; contradiction. }
  destruct (length (whole l) + length (fraction_digits l))%nat as [|k]; [contradiction|]; clear k NN.
  set (v := decimal (whole l) * 10 ^ Z.of_nat (length (fraction_digits l)) + decimal (fraction_digits l)).
  unfold exponent_text, literal_value, power; destruct (exponent l) as [[m es]|].
  - cbn [app]; change (is_e 101) with true; cbv iota.
    destruct X as (De & Ne); rewrite <- app_assoc.
    rewrite sign_ok by (intros _; pose proof (digits_head es t De Ne) as H; destruct (digits_text es ++ t); [exact I | lia]).
    rewrite digits_ok by (exact De || apply nice_stops, after_nice, A); fold (decimal es); cbn [Nat.add].
    assert (length es <> 0%nat) by (destruct es; [contradiction | discriminate]).
    destruct (length es) as [|k]; [contradiction|].
    eexists; split; [reflexivity|]; rewrite scale_ok, !signed_ok; unfold v; apply literal_arith; lia.
  - cbn [app]; exists (scale (signed match minus l with Some true => true | _ => false end v) (- Z.of_nat (length (fraction_digits l)))).
    split.
    + destruct t as [|c t]; [reflexivity|]; cbn in A; unfold white in A.
      unfold is_e; rewrite (proj2 (Z.eqb_neq c 101)), (proj2 (Z.eqb_neq c 69)) by lia; reflexivity.
    + rewrite scale_ok, signed_ok; unfold v; rewrite <- literal_arith by lia; reflexivity.
Qed.

(** ** Relations *)

Ltac decide_ops :=
  repeat match goal with |- context [op_hash ?x =? ?y] =>
    let b := eval vm_compute in (op_hash x =? y) in change (op_hash x =? y) with b end; cbn [orb]; cbv iota.

Lemma relation_int : forall r a b, exists x, condition_int a b (op_hash (relation_text r)) = Says x /\ (x = true <-> holds_Z r a b).
Proof.
  intros r a b; unfold condition_int, is_math, math_int, logic_int.
  destruct r; cbn [relation_text holds_Z]; decide_ops; (eexists; split; [reflexivity|]).
  - apply Z.eqb_eq.
  - rewrite negb_true_iff; apply Z.eqb_neq.
  - apply Z.leb_le.
  - apply Z.ltb_lt.
  - rewrite Z.leb_le; lia.
  - rewrite Z.ltb_lt; lia.
Qed.

Lemma qlt_ok : forall a b, qlt a b = true <-> (a < b)%Q.
Proof.
  intros a b; unfold qlt; rewrite negb_true_iff; split; intros H.
  - apply Qnot_le_lt; intros L; apply Qle_bool_iff in L; congruence.
  - apply not_true_is_false; intros L; apply Qle_bool_iff in L; apply (Qlt_not_le _ _ H L).
Qed.

Lemma relation_float : forall near r a b,
  condition_float near a b (op_hash (relation_text r)) = true <-> holds_Q r a b.
Proof.
  intros near r a b; unfold condition_float, is_math, math_float, logic_float.
  destruct r; cbn [relation_text holds_Q]; decide_ops.
  - apply Qeq_bool_iff.
  - rewrite negb_true_iff; split; intros H.
    + intros E; apply Qeq_bool_iff in E; congruence.
    + apply not_true_is_false; intros E; apply Qeq_bool_iff in E; contradiction.
  - apply Qle_bool_iff.
  - apply qlt_ok.
  - apply Qle_bool_iff.
  - apply qlt_ok.
Qed.

Lemma holds_Q_eq : forall r a b b', (b == b')%Q -> holds_Q r a b <-> holds_Q r a b'.
Proof. intros r a b b' E; destruct r; cbn [holds_Q]; rewrite E; reflexivity. Qed.

Lemma operation_int : forall o a b, in_int (result o a b) = true ->
  exists x, condition_int a b (op_hash (operation_text o)) = Says x /\ (x = true <-> result o a b <> 0).
Proof.
  intros o a b R; unfold condition_int, is_math, math_int.
  destruct o; cbn [operation_text result] in *; decide_ops; unfold nonzero_int.
  - rewrite R; eexists; split; [reflexivity|]; rewrite negb_true_iff; apply Z.eqb_neq.
  - destruct (Z.eqb_spec b 0); [eexists; split; [reflexivity|]; split; [discriminate | intros H; contradiction]|].
    destruct (Z.eqb_spec a 0) as [->|]; [eexists; split; [reflexivity|]; rewrite Z.quot_0_l by assumption; split; [discriminate | intros H; contradiction]|].
    rewrite R; eexists; split; [reflexivity|]; rewrite negb_true_iff; apply Z.eqb_neq.
  - rewrite R; eexists; split; [reflexivity|]; rewrite negb_true_iff; apply Z.eqb_neq.
  - rewrite R; eexists; split; [reflexivity|]; rewrite negb_true_iff; apply Z.eqb_neq.
Qed.

Lemma operation_float : forall near o a b, (forall x y, x == y -> near x == near y)%Q -> (near 0 == 0)%Q ->
  condition_float near a b (op_hash (operation_text o)) = true <-> ~ (near (result_Q o a b) == 0)%Q.
Proof.
  intros near o a b Ne N0; unfold condition_float, is_math, math_float.
  assert (Nz : forall q, nonzero near q = true <-> ~ (near q == 0)%Q).
  { intros q; unfold nonzero; rewrite negb_true_iff; split; intros H.
    - intros E; apply Qeq_bool_iff in E; congruence.
    - apply not_true_is_false; intros E; apply Qeq_bool_iff in E; contradiction. }
  destruct o; cbn [operation_text result_Q]; decide_ops; try apply Nz.
  destruct (Qeq_bool b 0) eqn:B; [|destruct (Qeq_bool a 0) eqn:A; [|apply Nz]].
  - apply Qeq_bool_iff in B; split; [discriminate|]; intros H; exfalso; apply H.
    rewrite <- N0; apply Ne; unfold Qdiv; rewrite B; unfold Qinv; cbn; apply Qmult_0_r.
  - apply Qeq_bool_iff in A; split; [discriminate|]; intros H; exfalso; apply H.
    rewrite <- N0; apply Ne; unfold Qdiv; rewrite A; apply Qmult_0_l.
Qed.

(** A relation that is none of those known. *)
Lemma not_op : forall a b comp, ~ In comp [RIH_eq; RIH_ne; RIH_le; RIH_lt; RIH_ge; RIH_gt; RIH_mul; RIH_div; RIH_add; RIH_sub] ->
  condition_int a b comp = Says false.
Proof.
  intros a b comp H; cbn [In] in H.
  assert (N : forall k, In k [RIH_eq; RIH_ne; RIH_le; RIH_lt; RIH_ge; RIH_gt; RIH_mul; RIH_div; RIH_add; RIH_sub] -> (comp =? k) = false).
  { intros k I; apply Z.eqb_neq; intros ->; apply H; exact I. }
  unfold condition_int, is_math, logic_int; rewrite !N by (cbn [In]; tauto); reflexivity.
Qed.

(** ** Texts *)

Lemma prefix_ok : forall t s, prefix t s = true <-> exists b, s = t ++ b.
Proof.
  induction t as [|x t IH]; intros s; cbn [prefix]; [split; [exists s; reflexivity | reflexivity]|].
  destruct s as [|y s]; [split; [discriminate | intros (b & E); discriminate]|].
  rewrite andb_true_iff, Z.eqb_eq, IH; split.
  - intros (-> & b & ->); exists b; reflexivity.
  - intros (b & E); injection E as -> ->; split; [reflexivity | exists b; reflexivity].
Qed.

Lemma strstr_ok : forall s t, strstr s t = true <-> exists a b, s = a ++ t ++ b.
Proof.
  induction s as [|x s IH]; intros t; cbn [strstr]; rewrite orb_true_iff, prefix_ok.
  - split.
    + intros [(b & E)|H]; [exists [], b; exact E | discriminate].
    + intros (a & b & E); left; exists b; destruct a; [exact E | discriminate].
  - rewrite IH; split.
    + intros [(b & E)|(a & b & ->)]; [exists [], b; exact E | exists (x :: a), b; reflexivity].
    + intros ([|y a] & b & E); [left; exists b; exact E | right; injection E as _ E; exists a, b; exact E].
Qed.

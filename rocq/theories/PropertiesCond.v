(** C31: conditions of IfBegin and ElseIf. *)

From Coq Require Import List Bool ZArith QArith Lia.
Import ListNotations.
From Verif Require Import HashModel CondModel CondSpec CondProofs.
Open Scope Z_scope.

Section C31.
Variable near : Q -> Q.
Hypothesis near_eq : forall a b, (a == b -> near a == near b)%Q.
Variables attribute option_of : list Z -> list Z -> option value.
Let test := test near attribute option_of.
Let lookup := lookup attribute option_of.

(** C31 in full would be that every condition that cannot be parsed counts as
    true; missing are those with words of more than 79 characters, without a
    category or name (both undefined) and those of which only the relation or
    the right side cannot be parsed (which count as false). *)
Theorem C31_missing_partial : forall c, ~ In 36 c \/ ~ In 58 c -> test c = Says true.
Proof.
  intros c H; unfold test, CondModel.test.
  assert (E : negb (strstr c [36]) || negb (strstr c [58]) = true); [|rewrite E; reflexivity].
  rewrite orb_true_iff, !negb_true_iff; destruct H as [H|H]; [left|right]; apply not_true_is_false; rewrite strstr_one; exact H.
Qed.

Theorem C31_unparsed_partial : forall c, short_words c ->
  (forall lhs rel rest, ~ form c lhs rel rest) -> test c = Says true.
Proof. intros c S F; apply test_unparsed; assumption. Qed.

Theorem C31_unknown_partial : forall c lhs rel rest k a b, form c lhs rel rest ->
  (length lhs < 80)%nat -> (length rel < 80)%nat -> names lhs k a b ->
  lookup k a b = None -> test c = Says true.
Proof.
  intros c lhs rel rest k a b F L R N E; unfold test.
  rewrite (test_form near attribute option_of c lhs rel rest k a b F L R N).
  unfold lookup in E; rewrite E; reflexivity.
Qed.

(** Numbers are compared as numbers. *)
Theorem C31_integer_partial : forall c lhs r rest k a b x m ds, form c lhs (relation_text r) rest ->
  (length lhs < 80)%nat -> names lhs k a b -> lookup k a b = Some (Integer x) ->
  decimals ds -> ds <> [] -> stands rest (sign_text m ++ digits_text ds) ->
  - 2 ^ 31 <= negative m * decimal ds < 2 ^ 31 ->
  exists answer, test c = Says answer /\ (answer = true <-> holds_Z r x (negative m * decimal ds)).
Proof.
  intros c lhs r rest k a b x m ds F L N E D Nd (w & t & Er & B & T) R; unfold test.
  rewrite (test_form near attribute option_of c lhs _ rest k a b F L) by (assumption || (destruct r; cbn; lia)).
  unfold lookup in E; rewrite E; cbn [by_type]; unfold int_case; rewrite Er, <- app_assoc.
  rewrite scan_int_ok by (assumption || (apply ends_stops; exact T) || (unfold in_int; rewrite andb_true_iff, Z.leb_le, Z.ltb_lt; lia)).
  apply relation_int.
Qed.

Theorem C31_float_partial : forall c lhs r rest k a b x l, form c lhs (relation_text r) rest ->
  (length lhs < 80)%nat -> names lhs k a b -> lookup k a b = Some (Float x) ->
  literal_ok l -> stands rest (literal_text l) ->
  exists answer, test c = Says answer /\ (answer = true <-> holds_Q r x (near (literal_value l))).
Proof.
  intros c lhs r rest k a b x l F L N E Ok (w & t & Er & B & T); unfold test.
  rewrite (test_form near attribute option_of c lhs _ rest k a b F L) by (assumption || (destruct r; cbn; lia)).
  unfold lookup in E; rewrite E; cbn [by_type]; unfold float_case; rewrite Er.
  destruct (scan_float_ok l w t Ok B (ends_after t T)) as (q & -> & Eq).
  eexists; split; [reflexivity|]; rewrite relation_float; apply holds_Q_eq, near_eq, Eq.
Qed.

(** Three numbers are compared one by one, and all have to be in the
    relation. *)
Theorem C31_triple_partial : forall c lhs r rest k a b x y z l1 l2 l3, form c lhs (relation_text r) rest ->
  (length lhs < 80)%nat -> names lhs k a b -> lookup k a b = Some (Triple x y z) ->
  literal_ok l1 -> literal_ok l2 -> literal_ok l3 ->
  stand3 rest (literal_text l1) (literal_text l2) (literal_text l3) ->
  exists answer, test c = Says answer /\
    (answer = true <-> holds_Q r x (near (literal_value l1)) /\ holds_Q r y (near (literal_value l2)) /\ holds_Q r z (near (literal_value l3))).
Proof.
  intros c lhs r rest k a b x y z l1 l2 l3 F L N E O1 O2 O3 (w & w0 & w1 & w2 & w3 & t & Er & B & B0 & B1 & N1 & B2 & N2 & B3); unfold test.
  rewrite (test_form near attribute option_of c lhs _ rest k a b F L) by (assumption || (destruct r; cbn; lia)).
  unfold lookup in E; rewrite E; cbn [by_type]; unfold triple_case; rewrite Er, skip_blank by exact B.
  cbn [skip]; change (space 91) with false; cbv iota.
  destruct (scan_float_ok l1 w0 (w1 ++ literal_text l2 ++ w2 ++ literal_text l3 ++ w3 ++ 93 :: t) O1 B0 (blank_after _ _ B1 N1)) as (q1 & -> & E1).
  destruct (scan_float_ok l2 w1 (w2 ++ literal_text l3 ++ w3 ++ 93 :: t) O2 B1 (blank_after _ _ B2 N2)) as (q2 & -> & E2).
  destruct (scan_float_ok l3 w2 (w3 ++ 93 :: t) O3 B2 (blank_after' _ _ B3)) as (q3 & -> & E3).
  eexists; split; [reflexivity|].
  rewrite !andb_true_iff, !relation_float.
  rewrite (holds_Q_eq r x _ _ (near_eq _ _ E1)), (holds_Q_eq r y _ _ (near_eq _ _ E2)), (holds_Q_eq r z _ _ (near_eq _ _ E3)); tauto.
Qed.

(** Operations: the condition is that the result is not zero. *)
Theorem C31_operation_partial : forall c lhs o rest k a b x m ds, form c lhs (operation_text o) rest ->
  (length lhs < 80)%nat -> names lhs k a b -> lookup k a b = Some (Integer x) ->
  decimals ds -> ds <> [] -> stands rest (sign_text m ++ digits_text ds) ->
  - 2 ^ 31 <= negative m * decimal ds < 2 ^ 31 ->
  - 2 ^ 31 <= result o x (negative m * decimal ds) < 2 ^ 31 ->
  exists answer, test c = Says answer /\ (answer = true <-> result o x (negative m * decimal ds) <> 0).
Proof.
  intros c lhs o rest k a b x m ds F L N E D Nd (w & t & Er & B & T) R R2; unfold test.
  rewrite (test_form near attribute option_of c lhs _ rest k a b F L) by (assumption || (destruct o; cbn; lia)).
  unfold lookup in E; rewrite E; cbn [by_type]; unfold int_case; rewrite Er, <- app_assoc.
  rewrite scan_int_ok by (assumption || (apply ends_stops; exact T) || (unfold in_int; rewrite andb_true_iff, Z.leb_le, Z.ltb_lt; lia)).
  apply operation_int; unfold in_int; rewrite andb_true_iff, Z.leb_le, Z.ltb_lt; lia.
Qed.

Theorem C31_float_operation_partial : forall c lhs o rest k a b x l, form c lhs (operation_text o) rest ->
  (length lhs < 80)%nat -> names lhs k a b -> lookup k a b = Some (Float x) ->
  literal_ok l -> stands rest (literal_text l) -> (near 0 == 0)%Q ->
  exists answer, test c = Says answer /\ (answer = true <-> ~ near (result_Q o x (near (literal_value l))) == 0)%Q.
Proof.
  intros c lhs o rest k a b x l F L N E Ok (w & t & Er & B & T) N0; unfold test.
  rewrite (test_form near attribute option_of c lhs _ rest k a b F L) by (assumption || (destruct o; cbn; lia)).
  unfold lookup in E; rewrite E; cbn [by_type]; unfold float_case; rewrite Er.
  destruct (scan_float_ok l w t Ok B (ends_after t T)) as (q & -> & Eq).
  eexists; split; [reflexivity|]; rewrite operation_float by assumption.
  assert (R : (near (result_Q o x (near q)) == near (result_Q o x (near (literal_value l))))%Q).
  { apply near_eq; destruct o; cbn [result_Q]; rewrite (near_eq _ _ Eq); reflexivity. }
  rewrite R; reflexivity.
Qed.

(** Texts are compared by whether the right side, with its quotes, contains the
    value. *)
Theorem C31_text : forall c lhs r rest k a b s w t, form c lhs (relation_text r) rest ->
  (length lhs < 80)%nat -> names lhs k a b -> lookup k a b = Some (Text s) ->
  stands rest w -> solid w -> (length w < 80)%nat -> t = (exists p q, w = p ++ s ++ q) ->
  exists answer, test c = Says answer /\ (answer = true <-> match r with EQ => t | NE => ~ t | _ => False end).
Proof.
  intros c lhs r rest k a b s w t F L N E (w0 & t0 & Er & B & T) W Lw ->; unfold test.
  rewrite (test_form near attribute option_of c lhs _ rest k a b F L) by (assumption || (destruct r; cbn; lia)).
  unfold lookup in E; rewrite E; cbn [by_type]; unfold string_case; rewrite Er, scan_word_ok by assumption.
  rewrite (proj2 (Z.leb_gt 80 (Z.of_nat (length w)))) by lia.
  destruct r; cbn [relation_text]; decide_ops; (eexists; split; [reflexivity|]); try (split; [discriminate | contradiction]).
  - apply strstr_ok.
  - rewrite negb_true_iff, <- strstr_ok; destruct (strstr w s); split; congruence.
Qed.

(** Parameters of other types count as true. *)
Theorem C31_other : forall c lhs rel rest k a b, form c lhs rel rest ->
  (length lhs < 80)%nat -> (length rel < 80)%nat -> names lhs k a b ->
  lookup k a b = Some Other -> test c = Says true.
Proof.
  intros c lhs rel rest k a b F L R N E; unfold test.
  rewrite (test_form near attribute option_of c lhs rel rest k a b F L R N).
  unfold lookup in E; rewrite E; reflexivity.
Qed.

(** A condition with short words and a complete name has defined behaviour,
    unless an integer overflows. *)
Theorem C31_defined_partial : forall c lhs rel rest k a b, form c lhs rel rest -> short_words c ->
  names lhs k a b -> (forall x, lookup k a b <> Some (Integer x)) -> test c <> Undefined.
Proof.
  intros c lhs rel rest k a b F S N NI; unfold test.
  assert (F' := F); destruct F as (w0 & w1 & E & B0 & B1 & N1 & Hl & Hr & T).
  rewrite (test_form near attribute option_of c lhs rel rest k a b F').
  - unfold lookup in NI; destruct (CondProofs.lookup attribute option_of k a b) as [[x|x|x y z|s|]|]; try discriminate.
    + exfalso; apply (NI x); reflexivity.
    + cbn [by_type]; unfold float_case; destruct (scan_float rest); discriminate.
    + cbn [by_type]; unfold triple_case; destruct (skip rest) as [|h u]; [discriminate|].
      assert (X : h = 91 \/ h <> 91) by lia; destruct X as [->|X].
      * destruct (scan_float u) as [? u1| |]; try discriminate; destruct (scan_float u1) as [? u2| |]; try discriminate.
        destruct (scan_float u2); discriminate.
      * destruct h as [|p|p]; try discriminate.
        repeat (match goal with q : positive |- _ => destruct q end; try discriminate); contradiction.
    + cbn [by_type]; unfold string_case; destruct (scan_word rest) as [[w u]|] eqn:W; [|discriminate].
      destruct (scan_word_split _ _ _ W) as (w2 & _ & Er & Sw & _).
      assert (length w < 80)%nat.
      { apply (S (36 :: w0 ++ lhs ++ w1 ++ rel ++ w2) w u); [|exact Sw].
        rewrite E, Er; cbn [app]; rewrite <- !app_assoc; reflexivity. }
      rewrite (proj2 (Z.leb_gt 80 (Z.of_nat (length w)))) by lia.
      destruct (_ =? _); [discriminate|]; destruct (_ =? _); discriminate.
  - apply (S (36 :: w0) lhs (w1 ++ rel ++ rest)); [rewrite E; reflexivity | exact Hl].
  - apply (S (36 :: w0 ++ lhs ++ w1) rel rest); [rewrite E; cbn [app]; rewrite <- !app_assoc; reflexivity | exact Hr].
  - exact N.
Qed.

(** A condition on a known integer of which the right side is missing counts
    as false, although it cannot be parsed. *)
Theorem C31_right_refuted : forall c lhs rel rest k a b x, form c lhs rel rest ->
  (length lhs < 80)%nat -> (length rel < 80)%nat -> names lhs k a b -> lookup k a b = Some (Integer x) ->
  blank rest -> test c = Says false.
Proof.
  intros c lhs rel rest k a b x F L R N E B; unfold test.
  rewrite (test_form near attribute option_of c lhs rel rest k a b F L R N).
  unfold lookup in E; rewrite E; cbn [by_type]; unfold int_case, scan_int.
  rewrite <- (app_nil_r rest), skip_blank by exact B; reflexivity.
Qed.

(** And so does one with an unknown relation, here "=". *)
Theorem C31_relation_refuted : forall c lhs rest k a b x m ds, form c lhs [61] rest ->
  (length lhs < 80)%nat -> names lhs k a b -> lookup k a b = Some (Integer x) ->
  decimals ds -> ds <> [] -> stands rest (sign_text m ++ digits_text ds) ->
  - 2 ^ 31 <= negative m * decimal ds < 2 ^ 31 -> test c = Says false.
Proof.
  intros c lhs rest k a b x m ds F L N E D Nd (w & t & Er & B & T) R; unfold test.
  rewrite (test_form near attribute option_of c lhs [61] rest k a b F L) by (assumption || (cbn; lia)).
  unfold lookup in E; rewrite E; cbn [by_type]; unfold int_case; rewrite Er, <- app_assoc.
  rewrite scan_int_ok by (assumption || (apply ends_stops; exact T) || (unfold in_int; rewrite andb_true_iff, Z.leb_le, Z.ltb_lt; lia)).
  apply not_op; vm_compute; intuition discriminate.
Qed.

(** A first word of 80 characters or more overflows its buffer. *)
Theorem C31_long_refuted : forall c lhs rel rest, form c lhs rel rest -> In 58 c ->
  (80 <= length lhs)%nat -> test c = Undefined.
Proof.
  intros c lhs rel rest (w0 & w1 & E & B0 & B1 & N1 & Hl & Hr & T) I L; unfold test, CondModel.test.
  rewrite (proj2 (strstr_one 36 c)) by (rewrite E; left; reflexivity).
  rewrite (proj2 (strstr_one 58 c) I); cbn [negb orb]; rewrite E.
  rewrite scan_word_ok; [| exact B0 | exact Hl |].
  - rewrite (proj2 (Z.leb_le 80 (Z.of_nat (length lhs)))) by lia; reflexivity.
  - destruct w1 as [|y w1]; [contradiction|]; right; exists y, (w1 ++ rel ++ rest); split; [reflexivity|].
    apply Forall_cons_iff in B1; apply B1.
Qed.

(** A first word without a colon leaves the name missing. *)
Theorem C31_name_refuted : forall c lhs rel rest, form c lhs rel rest -> (length lhs < 80)%nat -> (length rel < 80)%nat ->
  ~ In 58 lhs -> In 58 (rel ++ rest) -> test c = Undefined.
Proof.
  intros c lhs rel rest (w0 & w1 & E & B0 & B1 & N1 & Hl & Hr & T) L R P I; unfold test, CondModel.test.
  rewrite (proj2 (strstr_one 36 c)) by (rewrite E; left; reflexivity).
  rewrite (proj2 (strstr_one 58 c)) by (rewrite E; right; rewrite !in_app_iff; apply in_app_iff in I; tauto).
  cbn [negb orb]; rewrite E.
  rewrite scan_word_ok; [| exact B0 | exact Hl |].
  - rewrite (proj2 (Z.leb_gt 80 (Z.of_nat (length lhs)))) by lia.
    rewrite scan_word_ok by assumption.
    rewrite (proj2 (Z.leb_gt 80 (Z.of_nat (length rel)))) by lia.
    unfold find; rewrite strtok_last by (split; [apply Hl | exact P]).
    destruct (same lhs attribute_text || same lhs option_text); reflexivity.
  - destruct w1 as [|y w1]; [contradiction|]; right; exists y, (w1 ++ rel ++ rest); split; [reflexivity|].
    apply Forall_cons_iff in B1; apply B1.
Qed.
End C31.
Print Assumptions C31_missing_partial.
Print Assumptions C31_unparsed_partial.
Print Assumptions C31_unknown_partial.
Print Assumptions C31_integer_partial.
Print Assumptions C31_float_partial.
Print Assumptions C31_triple_partial.
Print Assumptions C31_operation_partial.
Print Assumptions C31_float_operation_partial.
Print Assumptions C31_text.
Print Assumptions C31_other.
Print Assumptions C31_defined_partial.
Print Assumptions C31_right_refuted.
Print Assumptions C31_relation_refuted.
Print Assumptions C31_long_refuted.
Print Assumptions C31_name_refuted.

(** Examples: the attribute user:n is 3, user:x is 1/2, user:c a colour and
    user:s the text "beauty"; the option a:b is 7. *)
Definition case_near (q : Q) : Q := q.
Definition user : list Z := [117; 115; 101; 114].
Definition case_attribute (a b : list Z) : option value :=
  if same a user then
    match b with
    | [110] => Some (Integer 3)
    | [120] => Some (Float (1 # 2))
    | [99] => Some (Triple 0 (1 # 2) 1)
    | [115] => Some (Text [98; 101; 97; 117; 116; 121])
    | _ => None
    end
  else None.
Definition case_option (a b : list Z) : option value :=
  match a, b with [97], [98] => Some (Integer 7) | _, _ => None end.
Definition case_test := test case_near case_attribute case_option.
(** "$user:", a letter, a blank and the rest. *)
Definition on (c : Z) (s : list Z) : list Z := 36 :: user ++ 58 :: c :: 32 :: s.

(** "$user:n < 5", ">= 3" and "== -3" *)
Example C31_integers : case_test (on 110 [60; 32; 53]) = Says true /\ case_test (on 110 [62; 61; 32; 51]) = Says true /\
  case_test (on 110 [61; 61; 32; 45; 51]) = Says false.
Proof. vm_compute; auto. Qed.

(** It meets the conditions of the theorem. *)
Example C31_integer_case : exists lhs rest, form (on 110 [60; 32; 53]) lhs (relation_text LT) rest /\
  names lhs Attribute_kind user [110] /\ stands rest (sign_text None ++ digits_text [5]) /\ (length lhs < 80)%nat.
Proof.
  exists (user ++ [58; 110]), [32; 53]; split; [|split; [|split]].
  - exists [], [32]; split; [reflexivity|]; unfold blank, solid, white.
    repeat split; try (intros H; discriminate H); try (repeat constructor; cbn; lia).
    right; exists 32, [53]; split; [reflexivity | left; reflexivity].
  - apply names_short; try (split; [discriminate|]; cbn; intuition discriminate); discriminate.
  - exists [32], []; repeat split; [repeat constructor; left; reflexivity | left; reflexivity].
  - cbn; lia.
Qed.

(** "$user:x > .25e0" and "$user:c == [0 0.5 1.]" *)
Example C31_floats : case_test (on 120 [62; 32; 46; 50; 53; 101; 48]) = Says true /\
  case_test (on 99 [61; 61; 32; 91; 48; 32; 48; 46; 53; 32; 49; 46; 93]) = Says true.
Proof. vm_compute; auto. Qed.

Example C31_literal_case : let l := {| minus := None; whole := []; fraction := Some [2; 5]; exponent := Some (None, [0]) |} in
  literal_ok l /\ literal_text l = [46; 50; 53; 101; 48] /\ (literal_value l == 1 # 4)%Q.
Proof. repeat split; cbn; repeat constructor; try lia; discriminate. Qed.

(** "$Option:a:b == 7" and "$user:q == 1", which is not known. *)
Example C31_names : case_test ([36] ++ option_word ++ [58; 97; 58; 98; 32; 61; 61; 32; 55]) = Says true /\
  case_test (on 113 [61; 61; 32; 49]) = Says true.
Proof. vm_compute; auto. Qed.

(** "user:n == 1" and "$user:n" cannot be parsed. *)
Example C31_unparsed : case_test [117; 58; 110; 32; 61; 61; 32; 49] = Says true /\ case_test (36 :: user ++ [58; 110]) = Says true.
Proof. vm_compute; auto. Qed.

(** An integer is compared with the digits before the point only: 3 == 3.7. *)
Theorem C31_fraction_refuted : case_test (on 110 [61; 61; 32; 51; 46; 55]) = Says true.
Proof. vm_compute; reflexivity. Qed.

Print Assumptions C31_fraction_refuted.

(** Colours which are not equal need not be unequal: "!= [0 1 0]". *)
Theorem C31_unequal_refuted : case_test (on 99 [33; 61; 32; 91; 48; 32; 49; 32; 48; 93]) = Says false /\
  case_test (on 99 [61; 61; 32; 91; 48; 32; 49; 32; 48; 93]) = Says false.
Proof. vm_compute; auto. Qed.

Print Assumptions C31_unequal_refuted.

(** Texts are equal when the right side contains the value: the value "beauty"
    equals "'beautyful'" but not "'beaut'". *)
Example C31_texts : case_test (on 115 [61; 61; 32; 39; 98; 101; 97; 117; 116; 121; 102; 117; 108; 39]) = Says true /\
  case_test (on 115 [61; 61; 32; 39; 98; 101; 97; 117; 116; 39]) = Says false.
Proof. vm_compute; auto. Qed.

(** A text without white space meets the conditions of C31_unparsed_partial. *)
Example C31_unparsed_case : let c := 36 :: user ++ [58; 110] in
  short_words c /\ forall lhs rel rest, ~ form c lhs rel rest.
Proof.
  split.
  - intros a w b E _; apply (f_equal (@length Z)) in E; rewrite !app_length in E; cbn in E; lia.
  - intros lhs rel rest (w0 & w1 & E & _ & B & N & _); destruct w1 as [|y w1]; [contradiction|].
    apply Forall_cons_iff in B; destruct B as (B & _).
    assert (I : In y (36 :: user ++ [58; 110])) by (rewrite E; right; rewrite !in_app_iff; right; right; left; left; reflexivity).
    clear E; unfold white in B; cbn in I; lia.
Qed.

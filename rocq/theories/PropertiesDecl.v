(** C13: declarations of primitive variables. *)

From Coq Require Import List Bool ZArith String Lia.
From Verif Require Import FrameModel FrameSpec FrameProofs RibWriteModel DeclModel DeclSpec DeclProofs.
Import ListNotations.
Open Scope Z_scope.
Open Scope list_scope.

Definition fits_int (n : Z) : Prop := - 2 ^ 31 <= n < 2 ^ 31.

Lemma wrapped_id sp : fits_int (spec_size sp) -> wrapped sp = sp.
Proof.
  unfold fits_int. destruct sp as [c t k]. cbn [spec_size]. intros B. unfold wrapped. cbn [spec_class spec_type spec_size]. f_equal. unfold clamp_long.
  rewrite Z.min_r by lia. rewrite Z.max_r by lia. apply to_int_id, B.
Qed.

(** C13, first half.  Parsing the printed form of a token gives back the token: its
    class, its type, its array length and its name.  Missing: the class "invalid"
    and five types that have a printed form but no keyword, see below. *)
Theorem C13_round_trip_partial :
  forall t, tok_class t <> VInvalid ->
    In (tok_type t) [YFloat; YInteger; YPoint; YString; YColor; YHPoint; YNormal; YVector; YMatrix] ->
    fits_int (tok_count t) -> word (tok_name t) ->
    token_of (print_token t) = Some t.
Proof.
  intros t Hc Ht B W.
  assert (C : exists c, of_vclass (tok_class t) = Some c) by (destruct (tok_class t); try congruence; cbn; eauto).
  assert (T : exists y, of_vtype (tok_type t) = Some y).
  { cbn [In] in Ht. destruct (tok_type t); cbn; eauto; exfalso; decompose [or] Ht; try discriminate; contradiction. }
  destruct C as [c C], T as [y T]. exact (token_round_trip t c y C T B W).
Qed.
Print Assumptions C13_round_trip_partial.

Definition a_token : token := mkToken VFaceVarying YColor (-12) (text "my_Var").
Lemma text_word k : plain_text k = true -> word (text k).
Proof. apply plain_text_word. Qed.
Example C13_round_trip_example : token_of (text "facevarying color[-12] my_Var") = Some a_token /\ print_token a_token = text "facevarying color[-12] my_Var".
Proof.
  split; [|vm_compute; reflexivity].
  replace (text "facevarying color[-12] my_Var") with (print_token a_token) by (vm_compute; reflexivity).
  apply C13_round_trip_partial; [discriminate|cbn; auto 10|unfold fits_int; cbn; lia|apply text_word; reflexivity].
Qed.

(** Types with a printed form that is not read back, whatever the name and the array
    length: one is taken for the name, and the name is then too much. *)
Theorem C13_unprintable_types_refuted :
  exists t, In (tok_type t) [YTriple; YVoid; YSixteenTuple; YBool] /\ tok_class t = VUniform /\ word (tok_name t) /\ tok_count t = 1 /\
    token_of (print_token t) = None.
Proof.
  exists (mkToken VUniform YBool 1 (text "b")). split; [cbn; auto|]. split; [reflexivity|]. split; [apply text_word; reflexivity|]. split; reflexivity.
Qed.
Print Assumptions C13_unprintable_types_refuted.

(** What text is accepted: the text is cut into words in exactly one way; a text of
    the specified form is accepted and means what the specification says; other
    texts are refused.  Exceptions: array sizes that do not fit an int are wrapped,
    and "[" is accepted as a name. *)
Theorem C13_words_unique : forall s, exists ws, words s ws /\ forall ws', words s ws' -> ws' = ws.
Proof.
  intros s. destruct (words_total s) as [ws W]. exists ws. split; [exact W|]. intros ws' W'. exact (words_det s ws' W' ws W).
Qed.
Print Assumptions C13_words_unique.

Theorem C13_grammar_accepted_partial :
  forall needed s ws sp n, words s ws -> declaration ws sp n -> fits_int (spec_size sp) -> (needed = true -> n <> None) ->
    parse_declaration needed s = Some (sp, n).
Proof.
  intros needed s ws sp n W D B Need. rewrite (grammar_parses needed s ws sp n W D Need). rewrite wrapped_id by exact B. reflexivity.
Qed.
Print Assumptions C13_grammar_accepted_partial.

Theorem C13_only_grammar_accepted_partial :
  forall needed s ws sp n, words s ws -> parse_declaration needed s = Some (sp, n) -> n <> Some (text "[") ->
    (needed = true -> n <> None) /\
    exists size, declaration ws (mkSpec (spec_class sp) (spec_type sp) size) n /\ (fits_int size -> size = spec_size sp).
Proof.
  intros needed s ws sp n W H N. destruct (parses_grammar needed s ws sp n W H N) as (A & [c t k] & D & ->).
  split; [exact A|]. exists k. cbn [wrapped spec_class spec_type spec_size]. split; [exact D|]. intros B.
  pose proof (wrapped_id (mkSpec c t k) B) as E. unfold wrapped in E. cbn [spec_class spec_type spec_size] in E. injection E as E. symmetry. exact E.
Qed.
Print Assumptions C13_only_grammar_accepted_partial.

(** "vertex  Point[+2] x" *)
Lemma digit_text d : 0 <= d <= 9 -> number [48 + d] d.
Proof. apply num_digit. Qed.
Definition a_text : list Z := text "vertex  Point[+2]" ++ [9] ++ text "x".
Definition a_words : list (list Z) := [text "vertex"] ++ [text "Point"] ++ [[91]; text "+2"; [93]] ++ [text "x"].
Example C13_example_words : words a_text a_words.
Proof.
  change a_text with (text "vertex" ++ [32; 32] ++ text "Point" ++ [91] ++ text "+2" ++ [93; 9] ++ text "x" ++ []). unfold a_words. cbn [app].
  assert (Sp : forall (s : list Z) c r, 32 :: s = c :: r -> blank c \/ bracket c) by (intros s c r E; injection E as <- _; left; left; reflexivity).
  apply words_word; [apply text_word; reflexivity|apply Sp|]. apply words_blank; [left; reflexivity|]. apply words_blank; [left; reflexivity|].
  apply words_word; [apply text_word; reflexivity|intros c r E; injection E as <- _; right; left; reflexivity|].
  apply words_bracket; [left; reflexivity|]. apply words_word; [apply text_word; reflexivity|intros c r E; injection E as <- _; right; right; left; reflexivity|].
  apply words_bracket; [right; left; reflexivity|]. apply words_blank; [right; left; reflexivity|].
  apply words_word; [apply text_word; reflexivity|intros c r E; discriminate|constructor].
Qed.
Lemma point_upper : is_keyword (text "Point") "point".
Proof. unfold is_keyword. cbn. constructor; [apply (same_upper 80); lia|]. repeat constructor. Qed.
Example C13_example_declaration : declaration a_words (mkSpec Vertex TPoint 2) (Some (text "x")).
Proof.
  unfold a_words. apply decl_typed.
  - apply cp_word; [apply text_word; reflexivity|apply same_keyword].
  - apply text_word. reflexivity.
  - exact point_upper.
  - apply sp_size; [apply text_word; reflexivity|]. exact (sig_plus [48 + 2] 2 (digit_text 2 ltac:(lia))).
  - apply np_word. apply text_word. reflexivity.
Qed.
Example C13_example_parsed : parse_declaration true a_text = Some (mkSpec Vertex TPoint 2, Some (text "x")).
Proof. eapply C13_grammar_accepted_partial; [exact C13_example_words|exact C13_example_declaration|unfold fits_int; cbn; lia|discriminate]. Qed.
Example C13_refused : parse_declaration true (text "vertex x") = None /\ parse_declaration true (text "float[2 x") = None /\
  parse_declaration false (text "float x y") = None /\ parse_declaration false (text "[2]") = None.
Proof. repeat split; reflexivity. Qed.

(** C13, second half.  After any sequence of Declare calls on a new dictionary, a name
    looked up on its own gives its last correct declaration. *)
Theorem C13_last_declaration_partial :
  forall ds s n sp, words s [n] -> plain_word n -> last_declared n ds sp -> fits_int (spec_size sp) ->
    lookup (fold_left declare_or_error ds new_dict) s = Some (sp, n).
Proof.
  intros ds s n sp W P L B. rewrite (lookup_name _ s n W P). change (fold_left declare_or_error ds new_dict) with (after new_dict ds).
  rewrite (after_last new_dict n ds sp L), wrapped_id by exact B. reflexivity.
Qed.
Print Assumptions C13_last_declaration_partial.

(** A name never declared correctly gives the standard declaration if it has one, and
    an error otherwise.  [last_declared] and [never_declared] cover every history. *)
Theorem C13_never_declared :
  forall ds s n, words s [n] -> plain_word n -> never_declared n ds ->
    lookup (fold_left declare_or_error ds new_dict) s = match get n new_dict with Some sp => Some (sp, n) | None => None end.
Proof.
  intros ds s n W P N. rewrite (lookup_name _ s n W P). change (fold_left declare_or_error ds new_dict) with (after new_dict ds).
  rewrite (after_never n ds new_dict N). reflexivity.
Qed.
Print Assumptions C13_never_declared.
Theorem C13_histories_covered : forall n ds, (exists sp, last_declared n ds sp) \/ never_declared n ds.
Proof. exact declared_or_never. Qed.
Print Assumptions C13_histories_covered.

(** An inline declaration is used, whatever was declared. *)
Theorem C13_inline_wins_partial :
  forall d s ws sp n, words s ws -> declaration ws sp (Some n) -> spec_type sp <> TUnknown -> fits_int (spec_size sp) ->
    lookup d s = Some (sp, n).
Proof.
  intros d s ws sp n W D T B. rewrite (lookup_inline d s ws sp n W D T), wrapped_id by exact B. reflexivity.
Qed.
Print Assumptions C13_inline_wins_partial.

(** The standard variable "st" is declared twice, the second time after a wrong
    declaration. *)
Lemma is_words w : word w -> words w [w].
Proof. intros W. rewrite <- (app_nil_r w) at 1. apply words_word; [exact W|intros c r E; discriminate|constructor]. Qed.
Example C13_example_history :
  let ds := [(text "st", text "vertex color"); (text "z", text "float"); (text "st", text "Constant string"); (text "st", text "floaty")] in
  last_declared (text "st") ds (mkSpec Constant TString 1) /\ plain_word (text "st") /\ words (text "st") [text "st"] /\
  lookup (fold_left declare_or_error ds new_dict) (text "st") = Some (mkSpec Constant TString 1, text "st") /\
  lookup (fold_left declare_or_error ds new_dict) (text "vertex integer st") = Some (mkSpec Vertex TInteger 1, text "st") /\
  lookup new_dict (text "st") = Some (mkSpec Varying TFloat 2, text "st").
Proof.
  intros ds.
  assert (P : plain_word (text "st")).
  { split; [apply text_word; reflexivity|]. split.
    - intros c H. apply class_word_iff in H. discriminate.
    - intros t H. assert (t <> TUnknown) by (intros ->; exact H). apply type_word_iff in H; [discriminate|assumption]. }
  assert (W : words (text "st") [text "st"]) by apply is_words, P.
  assert (C : correct (text "Constant string") (mkSpec Constant TString 1)).
  { exists ([text "Constant"] ++ [text "string"] ++ [] ++ []). split; [|split; [|discriminate]].
    - change (text "Constant string") with (text "Constant" ++ [32] ++ text "string" ++ []). cbn [app].
      apply words_word; [apply text_word; reflexivity|intros c r E; injection E as <- _; left; left; reflexivity|].
      apply words_blank; [left; reflexivity|]. apply words_word; [apply text_word; reflexivity|intros c r E; discriminate|constructor].
    - apply decl_typed; [|apply text_word; reflexivity|apply same_keyword|constructor|constructor]. apply cp_word; [apply text_word; reflexivity|].
      cbn [class_word]. unfold is_keyword. cbn. constructor; [apply (same_upper 67); lia|]. repeat constructor. }
  assert (L : last_declared (text "st") ds (mkSpec Constant TString 1)).
  { change ds with ((([(text "st", text "vertex color"); (text "z", text "float")] ++ [(text "st", text "Constant string")]) ++ [(text "st", text "floaty")])).
    apply ld_bad; [|apply ld_this; exact C]. intros sp H.
    assert (E := proj2 (declare_iff [] [] (text "floaty") _) (ex_intro _ sp (conj H eq_refl))). discriminate. }
  split; [exact L|]. split; [exact P|]. split; [exact W|]. split; [|split; reflexivity].
  apply C13_last_declaration_partial; try assumption. unfold fits_int. cbn. lia.
Qed.

(** A variable whose name is a keyword is declared without an error, and cannot be
    looked up. *)
Theorem C13_keyword_name_refuted :
  exists n ty sp, words n [n] /\ last_declared n [(n, ty)] sp /\ fits_int (spec_size sp) /\
    get n (fold_left declare_or_error [(n, ty)] new_dict) = Some sp /\ lookup (fold_left declare_or_error [(n, ty)] new_dict) n = None.
Proof.
  exists (text "normal"), (text "float"), (mkSpec Uniform TFloat 1). split; [apply is_words, text_word; reflexivity|].
  split; [|split; [unfold fits_int; cbn; lia|split; reflexivity]].
  apply (ld_this _ []). exists [text "float"]. split; [apply is_words, text_word; reflexivity|]. split; [|discriminate].
  apply (decl_typed [] Uniform (text "float") TFloat [] 1 [] None); [constructor|apply text_word; reflexivity|apply same_keyword|constructor|constructor].
Qed.
Print Assumptions C13_keyword_name_refuted.

(** An array size that does not fit an int is wrapped; the declared size is lost. *)
Theorem C13_large_size_refuted :
  exists d, declare new_dict (text "x") (text "float[4294967297]") = Some d /\
    (exists sp, correct (text "float[4294967297]") sp /\ spec_size sp = 4294967297) /\ lookup d (text "x") = Some (mkSpec Uniform TFloat 1, text "x").
Proof.
  eexists. split; [vm_compute; reflexivity|]. split; [|vm_compute; reflexivity].
  exists (mkSpec Uniform TFloat 4294967297). split; [|reflexivity]. exists ([] ++ [text "float"] ++ [[91]; text "4294967297"; [93]] ++ []). split; [|split; [|discriminate]].
  - change (text "float[4294967297]") with (text "float" ++ [91] ++ text "4294967297" ++ [93]). cbn [app].
    apply words_word; [apply text_word; reflexivity|intros c r E; injection E as <- _; right; left; reflexivity|].
    apply words_bracket; [left; reflexivity|]. apply words_word; [apply text_word; reflexivity|intros c r E; injection E as <- _; right; right; left; reflexivity|].
    apply words_bracket; [right; left; reflexivity|constructor].
  - apply decl_typed; [constructor|apply text_word; reflexivity|apply same_keyword| |constructor]. apply sp_size; [apply text_word; reflexivity|].
    apply sig_plain. change (text "4294967297") with (decimal 10 4294967297). apply decimal_number; [cbn; lia|lia].
Qed.
Print Assumptions C13_large_size_refuted.

(** A bracket is accepted as a name. *)
Theorem C13_bracket_name_refuted :
  parse_declaration true (text "float[2] [") = Some (mkSpec Uniform TFloat 2, Some (text "[")) /\ ~ word (text "[").
Proof.
  split; [reflexivity|]. intros [_ W]. destruct (W 91 (or_introl eq_refl)) as [_ B]. apply B. left. reflexivity.
Qed.
Print Assumptions C13_bracket_name_refuted.

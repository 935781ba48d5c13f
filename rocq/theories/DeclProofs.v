From Coq Require Import List Bool ZArith String Lia.
From Verif Require Import FrameModel FrameSpec FrameProofs RibWriteModel DeclModel DeclSpec.
Import ListNotations.
Open Scope Z_scope.
Open Scope list_scope.

(** * Words *)

Lemma is_blank_iff c : is_blank c = true <-> blank c.
Proof. unfold is_blank, blank. cbn [In]. rewrite !orb_true_iff, !Z.eqb_eq. intuition. Qed.
Lemma is_bracket_iff c : (c =? LBRACKET) || (c =? RBRACKET) = true <-> bracket c.
Proof. unfold bracket, LBRACKET, RBRACKET. cbn [In]. rewrite !orb_true_iff, !Z.eqb_eq. intuition. Qed.
Lemma is_delim_iff c : is_delim c = true <-> blank c \/ bracket c.
Proof. unfold is_delim. rewrite <- orb_assoc, orb_true_iff, is_blank_iff, is_bracket_iff. reflexivity. Qed.

Lemma take_word_app w s : (forall c, In c w -> ~ blank c /\ ~ bracket c) -> (forall c r, s = c :: r -> blank c \/ bracket c) ->
  take_word (w ++ s) = (w, s).
Proof.
  intros W D. induction w as [|c w IH]; cbn [app].
  - destruct s as [|c s]; [reflexivity|]. cbn [take_word]. rewrite (proj2 (is_delim_iff c) (D c s eq_refl)). reflexivity.
  - cbn [take_word]. destruct (is_delim c) eqn:E.
    + apply is_delim_iff in E. destruct (W c (or_introl eq_refl)). tauto.
    + rewrite IH by (intros; apply W; right; assumption). reflexivity.
Qed.

Definition delimited (r : list Z) : Prop := forall c r', r = c :: r' -> blank c \/ bracket c.

Lemma words_next s ws : words s ws ->
  match ws with
  | [] => next_token s = None
  | w :: ws' => exists r, next_token s = Some (w, r) /\ words r ws' /\ ((word w /\ delimited r) \/ (exists c, w = [c] /\ bracket c))
  end.
Proof.
  induction 1 as [|c s ws B _ IH|c s ws B H _|w s ws W D H _].
  - reflexivity.
  - assert (N : next_token (c :: s) = next_token s) by (unfold next_token; cbn [skip_blanks]; rewrite (proj2 (is_blank_iff c) B); reflexivity).
    rewrite N. exact IH.
  - exists s. split; [|split; [exact H|right; exists c; auto]]. unfold next_token. cbn [skip_blanks].
    destruct (is_blank c) eqn:E; [apply is_blank_iff in E; unfold blank, bracket in *; cbn in *; lia|].
    rewrite (proj2 (is_bracket_iff c) B). reflexivity.
  - exists s. split; [|split; [exact H|left; auto]]. destruct W as [N W]. destruct w as [|c w]; [congruence|].
    unfold next_token. cbn [app skip_blanks]. destruct (W c (or_introl eq_refl)) as [W1 W2].
    destruct (is_blank c) eqn:E; [apply is_blank_iff in E; tauto|].
    destruct ((c =? LBRACKET) || (c =? RBRACKET)) eqn:E2; [apply is_bracket_iff in E2; tauto|].
    f_equal. apply (take_word_app (c :: w) s W D).
Qed.

Lemma take_word_split s w e : take_word s = (w, e) -> s = w ++ e /\ (forall c, In c w -> ~ blank c /\ ~ bracket c) /\ delimited e.
Proof.
  revert w e. induction s as [|c s IH]; intros w e H; cbn [take_word] in H.
  - injection H as <- <-. split; [reflexivity|]. split; [intros x []|]. intros x r X; discriminate.
  - destruct (is_delim c) eqn:E.
    + injection H as <- <-. split; [reflexivity|]. split; [intros x []|]. intros x r X. injection X as <- <-. apply is_delim_iff, E.
    + destruct (take_word s) as [w' e'] eqn:T. injection H as <- <-. destruct (IH _ _ eq_refl) as (A & B & D). subst s. split; [reflexivity|].
      split; [|exact D]. intros x [<-|I]; [|apply B, I]. split; intros X; [assert (is_delim c = true) by (apply is_delim_iff; auto)|assert (is_delim c = true) by (apply is_delim_iff; auto)]; congruence.
Qed.
Lemma skip_blanks_length s : (List.length (skip_blanks s) <= List.length s)%nat.
Proof. induction s as [|c s IH]; cbn [skip_blanks List.length]; [lia|]. destruct (is_blank c); cbn [List.length]; lia. Qed.

Lemma words_total s : exists ws, words s ws.
Proof.
  remember (List.length s) as k eqn:K. revert s K. induction k as [k IH] using lt_wf_ind. intros s ->.
  destruct s as [|c s]; [exists []; constructor|].
  destruct (is_blank c) eqn:E.
  - destruct (IH (List.length s) ltac:(cbn; lia) s eq_refl) as [ws H]. exists ws. apply words_blank; [apply is_blank_iff, E|exact H].
  - destruct ((c =? LBRACKET) || (c =? RBRACKET)) eqn:E2.
    + destruct (IH (List.length s) ltac:(cbn; lia) s eq_refl) as [ws H]. exists ([c] :: ws). apply words_bracket; [apply is_bracket_iff, E2|exact H].
    + destruct (take_word (c :: s)) as [w e] eqn:T. destruct (take_word_split _ _ _ T) as (A & B & D).
      destruct w as [|x w].
      { cbn [take_word] in T. unfold is_delim in T. rewrite <- orb_assoc, E, E2 in T. cbn [orb] in T. destruct (take_word s). discriminate. }
      destruct (IH (List.length e) ltac:(rewrite A, app_length; cbn; lia) e eq_refl) as [ws H].
      exists ((x :: w) :: ws). rewrite A. apply words_word; auto. split; [discriminate|exact B].
Qed.
Lemma words_det s ws1 : words s ws1 -> forall ws2, words s ws2 -> ws1 = ws2.
Proof.
  revert s. induction ws1 as [|w ws1 IH]; intros s H ws2 H2; apply words_next in H; apply words_next in H2; destruct ws2 as [|w2 ws2]; auto.
  - destruct H2 as (r & E & _). congruence.
  - destruct H as (r & E & _). congruence.
  - destruct H as (r & E & H & _), H2 as (r2 & E2 & H2 & _). rewrite E in E2. injection E2 as <- <-. f_equal. eapply IH; eauto.
Qed.
Lemma words_each s ws : words s ws -> Forall (fun w => word w \/ exists c, w = [c] /\ bracket c) ws.
Proof. induction 1; auto. constructor; eauto. Qed.

(** * Numbers *)

Lemma digits_split s : forall acc v e, digits acc s = (v, e) ->
  exists p, s = p ++ e /\ stops e /\ (p = [] /\ v = acc \/ exists k, number p k /\ v = acc * 10 ^ Z.of_nat (List.length p) + k).
Proof.
  induction s as [|c s IH] using rev_ind.
  - intros acc v e H. cbn in H. injection H as <- <-. exists []. repeat split; auto.
  - intros acc v e H. destruct (digits acc s) as [v0 e0] eqn:D. destruct (IH _ _ _ D) as (p & E & St & P). clear IH.
    assert (A : digits acc (s ++ [c]) = match e0 with [] => digits v0 [c] | _ => (v0, e0 ++ [c]) end).
    { clear - D. revert acc D. induction s as [|d s IH]; intros acc D; cbn [app digits] in *.
      - injection D as <- <-. reflexivity.
      - destruct (is_digit d); [apply IH, D|]. injection D as <- <-. reflexivity. }
    rewrite A in H. destruct e0 as [|x e0].
    + rewrite app_nil_r in E. subst p. cbn [digits] in H. destruct (is_digit c) eqn:Dc.
      * injection H as <- <-. exists (s ++ [c]). rewrite app_nil_r. split; [reflexivity|]. split; [exact I|]. right.
        unfold is_digit in Dc. apply andb_true_iff in Dc as [D1 D2]. apply Z.leb_le in D1, D2.
        replace [c] with [48 + (c - 48)] by (f_equal; lia).
        destruct P as [[-> ->]|(k & N & ->)].
        -- exists (c - 48). split; [apply (num_digit (c - 48)); lia|]. cbn [app List.length]. change (10 ^ Z.of_nat 1) with 10. lia.
        -- exists (10 * k + (c - 48)). split; [apply num_more; [exact N|lia]|]. rewrite app_length. cbn [List.length].
           rewrite Nat2Z.inj_add, Z.pow_add_r by lia. change (10 ^ Z.of_nat 1) with 10. lia.
      * injection H as <- <-. exists s. split; [reflexivity|]. split; [exact Dc|exact P].
    + injection H as <- <-. exists p. rewrite E, <- app_assoc. split; [reflexivity|]. split; [exact St|exact P].
Qed.

Lemma strtol_digits_any neg s v rest : number s v -> stops rest ->
  match s ++ rest with
  | c :: _ => if is_digit c then let (v, r) := digits 0 (s ++ rest) in Some (to_int (clamp_long (if neg : bool then - v else v)), r) else None
  | [] => None
  end = Some (to_int (clamp_long (if neg then - v else v)), rest).
Proof.
  intros N S. pose proof (digits_number s v N 0 rest) as D. destruct (number_hd s v N) as (P & c & r & -> & E). cbn [app] in *.
  rewrite E, D. destruct rest as [|d rest]; cbn [digits] in *; [|cbn in S; rewrite S]; rewrite Z.mul_0_l, Z.add_0_l; reflexivity.
Qed.
Lemma strtol_any s v : signed s v -> forall rest, stops rest -> strtol (s ++ rest) = Some (to_int (clamp_long v), rest).
Proof.
  induction 1 as [s v N|s v N|s v N|c s v C _ IH]; intros rest St.
  - pose proof (strtol_digits_any false s v rest N St) as X. unfold strtol.
    destruct (number_hd s v N) as (P & c & r & -> & E). destruct (digit_not c E) as (A1 & A2 & A3 & _). cbn [app skip_spaces] in *.
    rewrite A1, A2, A3. exact X.
  - pose proof (strtol_digits_any false s v rest N St) as X. unfold strtol. cbn [app skip_spaces].
    change (is_space PLUS) with false. change (PLUS =? MINUS) with false. change (PLUS =? PLUS) with true. exact X.
  - pose proof (strtol_digits_any true s v rest N St) as X. unfold strtol. cbn [app skip_spaces].
    change (is_space MINUS) with false. change (MINUS =? MINUS) with true. exact X.
  - unfold strtol. cbn [app skip_spaces]. assert (E : is_space c = true) by (cbn in C; decompose [or] C; subst; try reflexivity; contradiction).
    rewrite E. apply (IH rest St).
Qed.
Lemma strtol_inv s x e : strtol s = Some (x, e) -> exists p v, s = p ++ e /\ signed p v /\ x = to_int (clamp_long v).
Proof.
  revert x e. induction s as [|c s IH]; intros x e H; [discriminate|].
  destruct (is_space c) eqn:E.
  - assert (H' : strtol s = Some (x, e)) by (unfold strtol in *; cbn [skip_spaces] in H; rewrite E in H; exact H).
    destruct (IH _ _ H') as (p & v & -> & Sg & X). exists (c :: p), v. split; [reflexivity|]. split; [|exact X].
    apply sig_space; [|exact Sg]. unfold is_space in E. cbn [In].
    apply orb_true_iff in E as [E|E]; [apply andb_true_iff in E as [E1 E2]; apply Z.leb_le in E1, E2; lia|apply Z.eqb_eq in E; lia].
  - assert (D : forall t x e, match t with d :: _ => if is_digit d then let (v, r) := digits 0 t in Some (to_int (clamp_long v), r) else None | [] => None end = Some (x, e) ->
      exists p v, t = p ++ e /\ number p v /\ x = to_int (clamp_long v)).
    { clear. intros t x e H. destruct t as [|d t]; [discriminate|]. destruct (is_digit d) eqn:E; [|discriminate].
      destruct (digits 0 (d :: t)) as [v r] eqn:Dg. injection H as <- <-. destruct (digits_split _ _ _ _ Dg) as (p & S1 & St & [[-> ->]|(k & N & ->)]).
      - cbn [app] in S1. subst r. cbn in St. congruence.
      - exists p, k. rewrite Z.mul_0_l, Z.add_0_l. auto. }
    assert (D' : forall t x e, match t with d :: _ => if is_digit d then let (v, r) := digits 0 t in Some (to_int (clamp_long (- v)), r) else None | [] => None end = Some (x, e) ->
      exists p v, t = p ++ e /\ number p v /\ x = to_int (clamp_long (- v))).
    { clear. intros t x e H. destruct t as [|d t]; [discriminate|]. destruct (is_digit d) eqn:E; [|discriminate].
      destruct (digits 0 (d :: t)) as [v r] eqn:Dg. injection H as <- <-. destruct (digits_split _ _ _ _ Dg) as (p & S1 & St & [[-> ->]|(k & N & ->)]).
      - cbn [app] in S1. subst r. cbn in St. congruence.
      - exists p, k. rewrite Z.mul_0_l, Z.add_0_l. auto. }
    unfold strtol in H. cbn [skip_spaces] in H. rewrite E in H. destruct (Z.eqb_spec c MINUS) as [->|N1].
    + destruct (D' _ _ _ H) as (p & v & -> & N & ->). exists (MINUS :: p), (- v). split; [reflexivity|]. split; [apply sig_minus, N|reflexivity].
    + destruct (Z.eqb_spec c PLUS) as [->|N2].
      * destruct (D _ _ _ H) as (p & v & -> & N & ->). exists (PLUS :: p), v. split; [reflexivity|]. split; [apply sig_plus, N|reflexivity].
      * destruct (D (c :: s) _ _ H) as (p & v & -> & N & ->). exists p, v. split; [reflexivity|]. split; [apply sig_plain, N|reflexivity].
Qed.

(** * Keywords *)

Definition no_upper (k : string) : Prop := Forall (fun c => ~ (65 <= c <= 90)) (text k).
Lemma same_letter_iff c d : ~ (65 <= d <= 90) -> (to_lower c = d <-> same_letter c d).
Proof.
  intros N. unfold to_lower. split.
  - destruct ((65 <=? c) && (c <? 91)) eqn:E; intros <-; [apply same_upper; lia|apply same_same].
  - intros H. destruct H as [x|x B]; destruct ((65 <=? x) && (x <? 91)) eqn:E; lia.
Qed.
Lemma keyword_iff w k : no_upper k -> (map to_lower w = text k <-> is_keyword w k).
Proof.
  unfold no_upper, is_keyword. generalize (text k) as t. intros t N. revert w. induction N as [|d t D _ IH]; intros w; destruct w as [|c w]; cbn [map].
  - split; constructor.
  - split; intros H; [discriminate|inversion H].
  - split; intros H; [discriminate|inversion H].
  - split.
    + intros H. injection H as H1 H2. constructor; [apply same_letter_iff; auto|apply IH; auto].
    + intros H. inversion H; subst. f_equal; [apply same_letter_iff; auto|apply IH; auto].
Qed.
Lemma lower_case_equal_iff w k : lower_case_equal w k = true <-> map to_lower w = text k.
Proof. unfold lower_case_equal. destruct (list_eq_dec Z.eq_dec (map to_lower w) (text k)); split; congruence. Qed.

Definition lookup_lower {A} (table : list (string * A)) (l : list Z) : option A :=
  match List.find (fun p => if list_eq_dec Z.eq_dec l (text (fst p)) then true else false) table with Some p => Some (snd p) | None => None end.
Lemma keyword_lower {A} (table : list (string * A)) w : keyword table w = lookup_lower table (map to_lower w).
Proof.
  unfold lookup_lower. induction table as [|[k a] t IH]; [reflexivity|]. cbn [keyword List.find fst]. unfold lower_case_equal.
  destruct (list_eq_dec Z.eq_dec (map to_lower w) (text k)); [reflexivity|exact IH].
Qed.
Ltac no_upper := unfold no_upper; cbn; repeat constructor; lia.
Lemma is_keyword_map w k : no_upper k -> is_keyword w k -> map to_lower w = text k.
Proof. intros N. apply keyword_iff, N. Qed.

Lemma class_word_iff w c : parse_class w = Some c <-> class_word w c.
Proof.
  unfold parse_class. split.
  - unfold class_words. cbn [keyword].
    repeat match goal with |- context[lower_case_equal w ?k] => destruct (lower_case_equal w k) eqn:?H end;
      intros X; try discriminate X; injection X as <-; cbn [class_word];
      apply keyword_iff; try no_upper; apply lower_case_equal_iff; assumption.
  - rewrite keyword_lower. intros H. destruct c; cbn [class_word] in H; apply is_keyword_map in H; try no_upper; rewrite H; reflexivity.
Qed.
Lemma type_word_iff w t : t <> TUnknown -> (parse_type w = Some t <-> type_word w t).
Proof.
  intros NU. unfold parse_type. split.
  - unfold type_words. cbn [keyword].
    repeat match goal with |- context[lower_case_equal w ?k] => destruct (lower_case_equal w k) eqn:?H end;
      intros X; try discriminate X; injection X as <-; cbn [type_word];
      first [apply keyword_iff; [no_upper|apply lower_case_equal_iff; assumption]
            |left; apply keyword_iff; [no_upper|apply lower_case_equal_iff; assumption]
            |right; apply keyword_iff; [no_upper|apply lower_case_equal_iff; assumption]].
  - rewrite keyword_lower. intros H. destruct t; cbn [type_word] in H; try contradiction;
      try (apply is_keyword_map in H; [|no_upper]; rewrite H; reflexivity).
    destruct H as [H|H]; apply is_keyword_map in H; try no_upper; rewrite H; reflexivity.
Qed.
Lemma parse_type_known w t : parse_type w = Some t -> t <> TUnknown.
Proof.
  unfold parse_type, type_words. cbn [keyword]. repeat match goal with |- context[lower_case_equal w ?k] => destruct (lower_case_equal w k) end;
    intros X; try discriminate X; injection X as <-; discriminate.
Qed.
Lemma type_not_class w t : type_word w t -> parse_class w = None.
Proof.
  unfold parse_class. rewrite keyword_lower. intros H. destruct t; cbn [type_word] in H; try contradiction;
    try (apply is_keyword_map in H; [|no_upper]; rewrite H; reflexivity).
  destruct H as [H|H]; apply is_keyword_map in H; try no_upper; rewrite H; reflexivity.
Qed.

(** * The parser on words *)

Definition size_of (n : list Z) : option Z := match strtol n with Some (v, []) => Some v | _ => None end.

Definition w_name (pc pt pl : bool) (sp : spec) (t : list Z) (ws : list (list Z)) : result :=
  if hd 0 t =? RBRACKET then None
  else if negb pt && (pc || pl) then None
  else match ws with [] => Some (sp, Some t) | _ => None end.
Definition w_array (needed pc pt : bool) (c : iclass) (ty : type) (t : list Z) (ws : list (list Z)) : result :=
  if hd 0 t =? LBRACKET then
    match ws with
    | n :: t2 :: ws2 =>
        match size_of n with
        | None => None
        | Some v =>
            if negb (hd 0 t2 =? RBRACKET) then None
            else match ws2 with
                 | [] => at_end needed pc pt true (mkSpec c ty v)
                 | t3 :: ws3 => w_name pc pt true (mkSpec c ty v) t3 ws3
                 end
        end
    | _ => None
    end
  else w_name pc pt false (mkSpec c ty 1) t ws.
Definition w_typed (needed pc : bool) (c : iclass) (t : list Z) (ws : list (list Z)) : result :=
  match parse_type t with
  | Some ty => match ws with [] => at_end needed pc true false (mkSpec c ty 1) | t1 :: ws1 => w_array needed pc true c ty t1 ws1 end
  | None => w_array needed pc false c TUnknown t ws
  end.
Definition w_declaration (needed : bool) (ws : list (list Z)) : result :=
  match ws with
  | [] => at_end needed false false false (mkSpec Uniform TUnknown 1)
  | t :: ws =>
      match parse_class t with
      | Some c => match ws with [] => at_end needed true false false (mkSpec c TUnknown 1) | t1 :: ws1 => w_typed needed true c t1 ws1 end
      | None => w_typed needed false Uniform t ws
      end
  end.

Lemma size_iff n v : size_of n = Some v <-> exists k, signed n k /\ v = to_int (clamp_long k).
Proof.
  unfold size_of. split.
  - destruct (strtol n) as [[x [|? ?]]|] eqn:E; try discriminate. intros H. injection H as ->. destruct (strtol_inv _ _ _ E) as (p & k & A & B & D).
    rewrite app_nil_r in A. subst p. eauto.
  - intros (k & Sg & ->). pose proof (strtol_any n k Sg [] I) as H. rewrite app_nil_r in H. rewrite H. reflexivity.
Qed.
Lemma delimited_stops r : delimited r -> stops r.
Proof.
  intros D. destruct r as [|c r]; [exact I|]. cbn. destruct (D c r eq_refl) as [B|B]; unfold blank, bracket in B; cbn in B; decompose [or] B; subst; try reflexivity; contradiction.
Qed.
Lemma size_check n r1 : (word n /\ delimited r1) \/ (exists c, n = [c] /\ bracket c) ->
  (match strtol (n ++ r1) with None => None | Some (v, e) => if negb (Nat.eqb (List.length e) (List.length r1)) then None else Some v end) = size_of n.
Proof.
  intros W. destruct (size_of n) as [v|] eqn:E.
  - apply size_iff in E as (k & Sg & ->). destruct W as [[_ D]|(c & -> & B)].
    + rewrite (strtol_any n k Sg r1 (delimited_stops r1 D)). rewrite Nat.eqb_refl. reflexivity.
    + exfalso. pose proof (strtol_any [c] k Sg [] I) as H. unfold bracket in B. cbn in B. destruct B as [<-|[<-|[]]]; discriminate H.
  - destruct (strtol (n ++ r1)) as [[v e]|] eqn:S1; [|reflexivity]. destruct (Nat.eqb (List.length e) (List.length r1)) eqn:L; [|reflexivity].
    exfalso. apply Nat.eqb_eq in L. destruct (strtol_inv _ _ _ S1) as (p & k & A & Sg & _).
    assert (n = p).
    { assert (List.length n = List.length p) by (apply (f_equal (@List.length Z)) in A; rewrite !app_length in A; lia).
      clear - A H. revert p A H. induction n as [|x n IH]; intros [|y p] A H; try discriminate; [reflexivity|]. cbn in *. injection A as -> A. f_equal. apply IH; auto. }
    subst p. assert (size_of n = Some (to_int (clamp_long k))) by (apply size_iff; eauto). congruence.
Qed.

Lemma name_words pc pt pl sp t r ws : words r ws -> parse_name pc pt pl sp t r = w_name pc pt pl sp t ws.
Proof.
  intros W. unfold parse_name, w_name. apply words_next in W. destruct ws as [|w ws]; [rewrite W; reflexivity|].
  destruct W as (r' & E & _). rewrite E. reflexivity.
Qed.
Lemma array_words needed pc pt c ty t r ws : words r ws -> parse_array needed pc pt c ty t r = w_array needed pc pt c ty t ws.
Proof.
  intros W. unfold parse_array, w_array. destruct (hd 0 t =? LBRACKET); [|apply name_words, W].
  apply words_next in W. destruct ws as [|n ws]; [rewrite W; reflexivity|]. destruct W as (r1 & E & W1 & D). rewrite E.
  pose proof (size_check n r1 D) as Sz. apply words_next in W1. destruct ws as [|t2 ws2].
  - destruct (strtol (n ++ r1)) as [[v e]|]; [|reflexivity]. destruct (negb (List.length e =? List.length r1)%nat); [reflexivity|]. rewrite W1. reflexivity.
  - destruct W1 as (r2 & E2 & W2 & _). rewrite E2. destruct (strtol (n ++ r1)) as [[v e]|].
    + destruct (negb (List.length e =? List.length r1)%nat); rewrite <- Sz; [reflexivity|].
      destruct (negb (hd 0 t2 =? RBRACKET)); [reflexivity|].
      assert (W3 := W2). apply words_next in W2. destruct ws2 as [|t3 ws3]; [rewrite W2; reflexivity|]. destruct W2 as (r3 & E3 & W4 & _). rewrite E3.
      apply name_words, W4.
    + rewrite <- Sz. reflexivity.
Qed.
Lemma typed_words needed pc c t r ws : words r ws -> parse_typed needed pc c t r = w_typed needed pc c t ws.
Proof.
  intros W. unfold parse_typed, w_typed. destruct (parse_type t); [|apply array_words, W]. apply words_next in W.
  destruct ws as [|t1 ws]; [rewrite W; reflexivity|]. destruct W as (r1 & E & W1 & _). rewrite E. apply array_words, W1.
Qed.
Lemma declaration_words needed s ws : words s ws -> parse_declaration needed s = w_declaration needed ws.
Proof.
  intros W. unfold parse_declaration, w_declaration. apply words_next in W. destruct ws as [|t ws]; [rewrite W; reflexivity|].
  destruct W as (r & E & W & _). rewrite E. destruct (parse_class t); [|apply typed_words, W].
  apply words_next in W. destruct ws as [|t1 ws]; [rewrite W; reflexivity|]. destruct W as (r1 & E1 & W1 & _). rewrite E1. apply typed_words, W1.
Qed.

(** * The parser and the grammar *)

Definition wrapped (sp : spec) : spec := mkSpec (spec_class sp) (spec_type sp) (to_int (clamp_long (spec_size sp))).
Lemma wrap_one : to_int (clamp_long 1) = 1.
Proof. reflexivity. Qed.
Lemma word_hd w : word w -> (hd 0 w =? LBRACKET) = false /\ (hd 0 w =? RBRACKET) = false.
Proof.
  intros [N W]. destruct w as [|c w]; [congruence|]. cbn [hd]. destruct (W c (or_introl eq_refl)) as [_ B].
  unfold bracket, LBRACKET, RBRACKET in *. cbn [In] in B. split; apply Z.eqb_neq; intros ->; apply B; auto.
Qed.

Lemma tail_ok needed pc c ty ss v ns n : size_part ss v -> name_part ns n -> (needed = true -> n <> None) ->
  match ss ++ ns with [] => at_end needed pc true false (mkSpec c ty 1) | t1 :: ws1 => w_array needed pc true c ty t1 ws1 end =
  Some (mkSpec c ty (to_int (clamp_long v)), n).
Proof.
  intros Hs Hn Need. destruct Hs as [|m v Wm Sg].
  - cbn [app]. rewrite wrap_one. destruct Hn as [|n Wn].
    + unfold at_end. destruct needed; [destruct (Need eq_refl eq_refl)|]. reflexivity.
    + unfold w_array, w_name. destruct (word_hd n Wn) as [-> ->]. reflexivity.
  - cbn [app]. unfold w_array. change (hd 0 [91] =? LBRACKET) with true. cbv iota.
    assert (Z1 : size_of m = Some (to_int (clamp_long v))) by (apply size_iff; eauto). rewrite Z1.
    change (hd 0 [93] =? RBRACKET) with true. cbn [negb]. destruct Hn as [|n Wn].
    + unfold at_end. destruct needed; [destruct (Need eq_refl eq_refl)|]. reflexivity.
    + unfold w_name. destruct (word_hd n Wn) as [_ ->]. reflexivity.
Qed.
Theorem grammar_parses needed s ws sp n : words s ws -> declaration ws sp n -> (needed = true -> n <> None) ->
  parse_declaration needed s = Some (wrapped sp, n).
Proof.
  intros W D Need. rewrite (declaration_words needed s ws W). destruct D as [cs c t ty ss v ns n Hc Wt Ht Hs Hn|n [Wn [Nc Nt]]|].
  - unfold wrapped. cbn [spec_class spec_type spec_size]. assert (NU : ty <> TUnknown) by (intros ->; exact Ht).
    assert (T := proj2 (type_word_iff t ty NU) Ht). pose proof (tail_ok needed true c ty ss v ns n Hs Hn Need) as T1.
    pose proof (tail_ok needed false c ty ss v ns n Hs Hn Need) as T2. destruct Hc as [|w c Ww Hc].
    + cbn [app]. unfold w_declaration. rewrite (type_not_class t ty Ht). unfold w_typed. rewrite T. exact T2.
    + cbn [app]. unfold w_declaration. rewrite (proj2 (class_word_iff w c) Hc). unfold w_typed. rewrite T. exact T1.
  - unfold w_declaration. destruct (parse_class n) eqn:C; [apply class_word_iff in C; destruct (Nc _ C)|].
    unfold w_typed. destruct (parse_type n) eqn:T; [pose proof (parse_type_known _ _ T); apply type_word_iff in T; [destruct (Nt _ T)|assumption]|].
    unfold w_array, w_name. destruct (word_hd n Wn) as [-> ->]. reflexivity.
  - unfold w_declaration, at_end. destruct needed; [destruct (Need eq_refl eq_refl)|reflexivity].
Qed.

Lemma not_bracket w : (word w \/ exists c, w = [c] /\ bracket c) -> (hd 0 w =? LBRACKET) = false -> (hd 0 w =? RBRACKET) = false -> word w.
Proof. intros [W|(c & -> & B)] H1 H2; [exact W|]. unfold bracket, LBRACKET, RBRACKET in *. cbn in *. apply Z.eqb_neq in H1, H2. lia. Qed.
Lemma bracket_left w : (word w \/ exists c, w = [c] /\ bracket c) -> (hd 0 w =? LBRACKET) = true -> w = [91].
Proof. intros [W|(c & -> & B)] H; [destruct (word_hd w W); congruence|]. apply Z.eqb_eq in H. cbn in H. subst. reflexivity. Qed.
Lemma bracket_right w : (word w \/ exists c, w = [c] /\ bracket c) -> (hd 0 w =? RBRACKET) = true -> w = [93].
Proof. intros [W|(c & -> & B)] H; [destruct (word_hd w W); congruence|]. apply Z.eqb_eq in H. cbn in H. subst. reflexivity. Qed.

Definition okw (w : list Z) : Prop := word w \/ exists c, w = [c] /\ bracket c.

Lemma name_inv pc pl sp t ws sp' n : okw t -> n <> Some [91] -> w_name pc true pl sp t ws = Some (sp', n) -> sp' = sp /\ ws = [] /\ n = Some t /\ word t.
Proof.
  intros O N H. unfold w_name in H. destruct (hd 0 t =? RBRACKET) eqn:E; [discriminate|]. cbn [negb andb] in H. destruct ws; [|discriminate].
  injection H as <- <-. split; [reflexivity|]. split; [reflexivity|]. split; [reflexivity|]. destruct O as [W|(x & -> & B)]; [exact W|].
  exfalso. apply N. unfold bracket in B. cbn in B. apply Z.eqb_neq in E. cbn in E. unfold RBRACKET in E. repeat f_equal. lia.
Qed.
Lemma size_word m v : okw m -> size_of m = Some v -> word m.
Proof.
  intros [W|(c & -> & B)] H; [exact W|]. exfalso. unfold bracket in B. cbn in B. destruct B as [<-|[<-|[]]]; discriminate H.
Qed.
Lemma tail_inv needed pc c ty ws sp n : Forall okw ws -> n <> Some [91] ->
  match ws with [] => at_end needed pc true false (mkSpec c ty 1) | t1 :: ws1 => w_array needed pc true c ty t1 ws1 end = Some (sp, n) ->
  exists ss v ns, ws = ss ++ ns /\ size_part ss v /\ name_part ns n /\ sp = mkSpec c ty (to_int (clamp_long v)).
Proof.
  intros O N H. destruct ws as [|t1 ws1].
  - unfold at_end in H. destruct needed; [discriminate|]. injection H as <- <-. exists [], 1, []. repeat split; constructor.
  - inversion_clear O as [|? ? O1 O2]. unfold w_array in H. destruct (hd 0 t1 =? LBRACKET) eqn:E.
    + apply bracket_left in E; [|exact O1]. subst t1. destruct ws1 as [|m [|t2 ws2]]; try discriminate.
      inversion_clear O2 as [|? ? Om O3]. inversion_clear O3 as [|? ? Ot O4].
      destruct (size_of m) as [v|] eqn:Sz; [|discriminate]. destruct (negb (hd 0 t2 =? RBRACKET)) eqn:E2; [discriminate|]. apply negb_false_iff in E2.
      apply bracket_right in E2; [|exact Ot]. subst t2. pose proof (size_word _ _ Om Sz) as Wm. apply size_iff in Sz as (k & Sg & ->).
      destruct ws2 as [|t3 ws3].
      * unfold at_end in H. destruct needed; [discriminate|]. injection H as <- <-. exists [[91]; m; [93]], k, []. repeat split; constructor; auto.
      * inversion_clear O4 as [|? ? O5 _]. apply name_inv in H as (-> & -> & -> & Wt); auto. exists [[91]; m; [93]], k, [t3]. repeat split; try (constructor; auto); assumption.
    + apply name_inv in H as (-> & -> & -> & Wt); auto. exists [], 1, [t1]. repeat split; try (constructor; auto); assumption.
Qed.
Theorem parses_grammar needed s ws sp n : words s ws -> parse_declaration needed s = Some (sp, n) -> n <> Some [91] ->
  (needed = true -> n <> None) /\ exists sp0, declaration ws sp0 n /\ sp = wrapped sp0.
Proof.
  intros W H N. rewrite (declaration_words needed s ws W) in H. pose proof (words_each s ws W) as O. fold okw in O.
  assert (Untyped : forall pc c t ws, okw t -> w_array needed pc false c TUnknown t ws = Some (sp, n) -> pc = false /\ ws = [] /\ n = Some t /\ word t /\ sp = mkSpec c TUnknown 1).
  { intros pc c t ws0 Ot X. unfold w_array in X. destruct (hd 0 t =? LBRACKET) eqn:E.
    - destruct ws0 as [|m [|t2 ws2]]; try discriminate. destruct (size_of m); [|discriminate]. destruct (negb (hd 0 t2 =? RBRACKET)); [discriminate|].
      destruct ws2; [unfold at_end in X; destruct needed; [discriminate|]; rewrite orb_true_r in X; discriminate|].
      unfold w_name in X. destruct (hd 0 l =? RBRACKET); [discriminate|]. rewrite orb_true_r in X. discriminate.
    - unfold w_name in X. destruct (hd 0 t =? RBRACKET) eqn:E2; [discriminate|]. destruct pc; [discriminate|]. cbn [negb andb orb] in X. destruct ws0; [|discriminate].
      injection X as <- <-. pose proof (not_bracket t Ot E E2). auto 6. }
  split.
  { intros ->. unfold w_declaration in H. intros ->.
    assert (Arr : forall pc pt c ty t ws, w_array true pc pt c ty t ws <> Some (sp, None)).
    { clear. intros pc pt c ty t ws H.
      assert (Nm : forall pl sp0 t ws, w_name pc pt pl sp0 t ws <> Some (sp, None)).
      { intros pl sp0 t0 ws0 X. unfold w_name in X. destruct (hd 0 t0 =? RBRACKET); [discriminate|]. destruct (negb pt && (pc || pl)); [discriminate|]. destruct ws0; discriminate. }
      unfold w_array in H. destruct (hd 0 t =? LBRACKET); [|eapply Nm; exact H].
      destruct ws as [|m [|t2 ws2]]; try discriminate. destruct (size_of m); [|discriminate]. destruct (negb (hd 0 t2 =? RBRACKET)); [discriminate|].
      destruct ws2; [discriminate|]. eapply Nm; exact H. }
    destruct ws as [|t ws]; [discriminate|]. unfold w_typed in H. destruct (parse_class t).
    - destruct ws as [|t1 ws]; [discriminate|]. destruct (parse_type t1); [destruct ws; [discriminate|]|]; eapply Arr; exact H.
    - destruct (parse_type t); [destruct ws; [discriminate|]|]; eapply Arr; exact H. }
  unfold w_declaration in H. destruct ws as [|t ws].
  - unfold at_end in H. destruct needed; [discriminate|]. injection H as <- <-. eexists. split; [constructor|reflexivity].
  - inversion_clear O as [|? ? Ot O1]. destruct (parse_class t) as [c|] eqn:C.
    + destruct ws as [|t1 ws]; [unfold at_end in H; destruct needed; discriminate|]. inversion_clear O1 as [|? ? O2 O3].
      unfold w_typed in H. destruct (parse_type t1) as [ty|] eqn:T.
      * destruct (tail_inv needed true c ty ws sp n O3 N H) as (ss & v & ns & -> & Hs & Hn & ->).
        exists (mkSpec c ty v). split; [|reflexivity]. assert (NU := parse_type_known _ _ T). apply class_word_iff in C. assert (T0 := T). apply type_word_iff in T; [|exact NU].
        assert (Wt : word t) by (destruct Ot as [Wt|(x & -> & B)]; [exact Wt|exfalso; apply class_word_iff in C; unfold bracket in B; cbn in B; destruct B as [<-|[<-|[]]]; discriminate C]).
        assert (Wt1 : word t1) by (destruct O2 as [W1|(x & -> & B)]; [exact W1|exfalso; unfold bracket in B; cbn in B; destruct B as [<-|[<-|[]]]; discriminate T0]).
        exact (decl_typed [t] c t1 ty ss v ns n (cp_word t c Wt C) Wt1 T Hs Hn).
      * destruct (Untyped _ _ _ _ O2 H) as (X & _). discriminate.
    + unfold w_typed in H. destruct (parse_type t) as [ty|] eqn:T.
      * destruct (tail_inv needed false Uniform ty ws sp n O1 N H) as (ss & v & ns & -> & Hs & Hn & ->).
        exists (mkSpec Uniform ty v). split; [|reflexivity]. assert (NU := parse_type_known _ _ T). assert (T0 := T). apply type_word_iff in T; [|exact NU].
        assert (Wt : word t) by (destruct Ot as [W1|(x & -> & B)]; [exact W1|exfalso; unfold bracket in B; cbn in B; destruct B as [<-|[<-|[]]]; discriminate T0]).
        exact (decl_typed [] Uniform t ty ss v ns n cp_none Wt T Hs Hn).
      * destruct (Untyped _ _ _ _ Ot H) as (_ & -> & -> & Wt & ->). exists (mkSpec Uniform TUnknown 1). split; [|reflexivity].
        apply decl_name. split; [exact Wt|]. split; [intros c X; apply class_word_iff in X; congruence|].
        intros ty X. assert (NU : ty <> TUnknown) by (intros ->; exact X). apply type_word_iff in X; congruence.
Qed.

(** * Printing *)

Lemma decimal_number k : forall n, 0 <= n < 10 ^ Z.of_nat k -> (1 <= k)%nat -> number (decimal k n) n.
Proof.
  induction k as [|k IH]; intros n B K; [lia|]. cbn [decimal]. destruct (Z.ltb_spec n 10).
  - cbn [app]. rewrite Z.mod_small by lia. apply num_digit. lia.
  - assert (k <> 0)%nat. { intros ->. change (10 ^ Z.of_nat 1) with 10 in B. lia. }
    replace n with (10 * (n / 10) + n mod 10) at 3 by (rewrite <- Z.div_mod; lia). apply num_more; [|pose proof (Z.mod_pos_bound n 10); lia].
    apply IH; [|lia]. split; [apply Z.div_pos; lia|]. apply Z.div_lt_upper_bound; [lia|].
    replace (Z.of_nat (S k)) with (1 + Z.of_nat k) in B by lia. rewrite Z.pow_add_r in B by lia. change (10 ^ 1) with 10 in B. lia.
Qed.
Lemma print_int_signed n : - 2 ^ 31 <= n < 2 ^ 31 -> signed (print_int n) n.
Proof.
  intros B. assert (P : 2 ^ 31 < 10 ^ Z.of_nat 10) by (cbn; lia). unfold print_int. destruct (Z.ltb_spec n 0).
  - replace n with (- - n) at 2 by lia. apply sig_minus, decimal_number; lia.
  - apply sig_plain, decimal_number; lia.
Qed.
Lemma number_chars s v : number s v -> forall c, In c s -> 48 <= c <= 57.
Proof.
  induction 1 as [d D|s v d _ IH D]; intros c I.
  - destruct I as [<-|[]]. lia.
  - apply in_app_iff in I as [I|[<-|[]]]; [auto|lia].
Qed.
Lemma print_int_word n : - 2 ^ 31 <= n < 2 ^ 31 -> word (print_int n).
Proof.
  intros B. assert (P : 2 ^ 31 < 10 ^ Z.of_nat 10) by (cbn; lia).
  assert (W : forall s v, number s v -> word s).
  { intros s v N. split; [destruct (number_hd s v N) as (_ & c & r & -> & _); discriminate|]. intros c I. pose proof (number_chars s v N c I).
    unfold blank, bracket. cbn. lia. }
  unfold print_int. destruct (Z.ltb_spec n 0); [|eapply W, decimal_number; lia].
  assert (N : number (decimal 10 (- n)) (- n)) by (apply decimal_number; lia). destruct (W _ _ N) as [_ W2].
  split; [discriminate|]. intros c [<-|I]; [unfold blank, bracket, MINUS; cbn; lia|apply W2, I].
Qed.
Definition plain_text (k : string) : bool := forallb (fun c => negb (is_delim c)) (text k) && negb (Nat.eqb (List.length (text k)) 0).
Lemma plain_text_word k : plain_text k = true -> word (text k).
Proof.
  unfold plain_text. intros H. apply andb_true_iff in H as [H L]. split.
  - intros E. rewrite E in L. discriminate.
  - rewrite forallb_forall in H. intros c I. specialize (H c I). apply negb_true_iff in H.
    split; intros B; assert (is_delim c = true) by (apply is_delim_iff; auto); congruence.
Qed.
Lemma same_keyword k : is_keyword (text k) k.
Proof. unfold is_keyword. induction (text k); constructor; [apply same_same|assumption]. Qed.

(** The classes and types that have a word. *)
Definition of_vclass (c : vclass) : option iclass :=
  match c with
  | VInvalid => None | VConstant => Some Constant | VUniform => Some Uniform | VVarying => Some Varying | VVertex => Some Vertex
  | VFaceVarying => Some FaceVarying | VFaceVertex => Some FaceVertex
  end.
Definition of_vtype (t : vtype) : option type :=
  match t with
  | YFloat => Some TFloat | YInteger => Some TInteger | YPoint => Some TPoint | YString => Some TString | YColor => Some TColor
  | YHPoint => Some THPoint | YNormal => Some TNormal | YVector => Some TVector | YMatrix => Some TMatrix
  | YInvalid | YTriple | YVoid | YSixteenTuple | YBool => None
  end.
Lemma of_vclass_ok v c : of_vclass v = Some c -> to_vclass c = v /\ word (text (class_name v)) /\ class_word (text (class_name v)) c.
Proof. destruct v; intros H; try discriminate; injection H as <-; (split; [reflexivity|]); (split; [apply plain_text_word; reflexivity|apply same_keyword]). Qed.
Lemma of_vtype_ok v t : of_vtype v = Some t -> to_vtype t = v /\ word (text (type_name v)) /\ type_word (text (type_name v)) t.
Proof.
  destruct v; intros H; try discriminate; injection H as <-; (split; [reflexivity|]); (split; [apply plain_text_word; reflexivity|]);
    try apply same_keyword. left. apply same_keyword.
Qed.
Lemma blank_space : blank 32.
Proof. left. reflexivity. Qed.
Lemma then_space (s : list Z) c r : [32] ++ s = c :: r -> blank c \/ bracket c.
Proof. intros H. injection H as <- _. left. apply blank_space. Qed.

Theorem token_round_trip t c ty : of_vclass (tok_class t) = Some c -> of_vtype (tok_type t) = Some ty ->
  - 2 ^ 31 <= tok_count t < 2 ^ 31 -> word (tok_name t) -> token_of (print_token t) = Some t.
Proof.
  destruct t as [vc vt k n]. cbn [tok_class tok_type tok_count tok_name]. intros Hc Ht B Wn.
  destruct (of_vclass_ok vc c Hc) as (C1 & C2 & C3). destruct (of_vtype_ok vt ty Ht) as (T1 & T2 & T3).
  assert (R : exists ws sp, words (print_token (mkToken vc vt k n)) ws /\ declaration ws sp (Some n) /\ sp = mkSpec c ty k).
  { unfold print_token. cbn [tok_class tok_type tok_count tok_name].
    assert (Nm : words n [n]) by (rewrite <- (app_nil_r n) at 1; apply words_word; [exact Wn|intros x r X; discriminate|constructor]).
    assert (Sn : words ([32] ++ n) [n]) by (apply words_blank; [apply blank_space|exact Nm]).
    destruct (Z.eqb_spec k 1) as [->|K].
    - exists ([text (class_name vc)] ++ [text (type_name vt)] ++ [] ++ [n]), (mkSpec c ty 1). split; [|split; [|reflexivity]].
      + cbn [app]. apply words_word; [exact C2|apply then_space|]. apply words_blank; [apply blank_space|].
        apply words_word; [exact T2|apply (then_space n)|exact Sn].
      + apply decl_typed; [constructor; assumption|assumption|assumption|constructor|constructor; exact Wn].
    - exists ([text (class_name vc)] ++ [text (type_name vt)] ++ [[91]; print_int k; [93]] ++ [n]), (mkSpec c ty k). split; [|split; [|reflexivity]].
      + cbn [app]. apply words_word; [exact C2|apply then_space|]. apply words_blank; [apply blank_space|].
        rewrite <- !app_assoc. cbn [app]. apply words_word; [exact T2|intros x r X; injection X as <- _; right; left; reflexivity|].
        apply words_bracket; [left; reflexivity|]. apply words_word; [apply print_int_word, B|intros x r X; injection X as <- _; right; right; left; reflexivity|].
        apply words_bracket; [right; left; reflexivity|exact Sn].
      + apply decl_typed; [constructor; assumption|assumption|assumption|constructor; [apply print_int_word, B|apply print_int_signed, B]|constructor; exact Wn]. }
  destruct R as (ws & sp & W & D & ->). unfold token_of. rewrite (grammar_parses true _ ws _ _ W D ltac:(discriminate)).
  cbn [wrapped spec_class spec_type spec_size]. rewrite C1, T1. do 2 f_equal. unfold clamp_long. rewrite Z.min_r by lia. rewrite Z.max_r by lia. apply to_int_id, B.
Qed.

(** * The dictionary *)

Lemma declare_iff d n ty d' : declare d n ty = Some d' <-> exists sp, correct ty sp /\ d' = (n, wrapped sp) :: d.
Proof.
  unfold declare, correct. destruct (words_total ty) as [ws W]. split.
  - destruct (parse_declaration false ty) as [[sp [x|]]|] eqn:E; try discriminate.
    destruct (parses_grammar false ty ws sp None W E ltac:(discriminate)) as (_ & sp0 & D & ->).
    intros H. exists sp0. destruct (spec_type (wrapped sp0)) eqn:T; try discriminate; injection H as <-;
      (split; [exists ws; split; [exact W|split; [exact D|cbn in T; congruence]]|reflexivity]).
  - intros (sp & (ws' & W' & D & NU) & ->). rewrite (grammar_parses false ty ws' sp None W' D ltac:(discriminate)).
    cbn [wrapped spec_type]. destruct (spec_type sp); try reflexivity. congruence.
Qed.
Lemma correct_det ty a b : correct ty a -> correct ty b -> wrapped a = wrapped b.
Proof.
  intros A B. assert (X := proj2 (declare_iff [] [] ty _) (ex_intro _ a (conj A eq_refl))). assert (Y := proj2 (declare_iff [] [] ty _) (ex_intro _ b (conj B eq_refl))). congruence.
Qed.
Definition after (d : dict) (ds : list (list Z * list Z)) : dict := fold_left declare_or_error ds d.

Lemma after_last d n ds sp : last_declared n ds sp -> get n (after d ds) = Some (wrapped sp).
Proof.
  induction 1 as [ds ty sp C|ds m ty sp Ne _ IH|ds m ty sp Bad _ IH]; unfold after in *; rewrite fold_left_app; cbn [fold_left];
    set (d0 := fold_left declare_or_error ds d) in *; unfold declare_or_error; cbn [fst snd].
  - rewrite (proj2 (declare_iff d0 n ty _) (ex_intro _ sp (conj C eq_refl))). cbn [get]. destruct (list_eq_dec Z.eq_dec n n); [reflexivity|congruence].
  - destruct (declare d0 m ty) as [d'|] eqn:E; [|exact IH]. apply declare_iff in E as (sp' & _ & ->). cbn [get].
    destruct (list_eq_dec Z.eq_dec m n); [congruence|exact IH].
  - destruct (declare d0 m ty) as [d'|] eqn:E; [|exact IH]. apply declare_iff in E as (sp' & C & _). destruct (Bad _ C).
Qed.
Lemma after_never n ds : forall d, never_declared n ds -> get n (after d ds) = get n d.
Proof.
  unfold after. induction ds as [|[m ty] ds IH]; intros d N; [reflexivity|]. cbn [fold_left]. rewrite IH.
  - unfold declare_or_error. cbn [fst snd]. destruct (declare d m ty) as [d'|] eqn:E; [|reflexivity].
    apply declare_iff in E as (sp & C & ->). cbn [get]. destruct (list_eq_dec Z.eq_dec m n) as [->|]; [|reflexivity].
    destruct (N ty sp (or_introl eq_refl) C).
  - intros ty' sp I. apply N. right. exact I.
Qed.
Lemma declared_or_never n ds : (exists sp, last_declared n ds sp) \/ never_declared n ds.
Proof.
  induction ds as [|[m ty] ds IH] using rev_ind; [right; intros ty sp []|].
  assert (Dec : (exists sp, correct ty sp) \/ forall sp, ~ correct ty sp).
  { destruct (declare [] [] ty) as [d|] eqn:E.
    - apply declare_iff in E as (sp & C & _). eauto.
    - right. intros sp C. rewrite (proj2 (declare_iff [] [] ty _) (ex_intro _ sp (conj C eq_refl))) in E. discriminate. }
  destruct (list_eq_dec Z.eq_dec m n) as [->|Ne].
  - destruct Dec as [[sp C]|Bad]; [left; exists sp; constructor; exact C|].
    destruct IH as [[sp L]|N]; [left; exists sp; apply ld_bad; assumption|right]. intros ty' sp I. apply in_app_iff in I as [I|[I|[]]]; [apply (N ty' sp I)|injection I as <-; apply Bad].
  - destruct IH as [[sp L]|N]; [left; exists sp; apply ld_other; assumption|right]. intros ty' sp I. apply in_app_iff in I as [I|[I|[]]]; [apply (N ty' sp I)|congruence].
Qed.

Theorem lookup_name d s n : words s [n] -> plain_word n -> lookup d s = match get n d with Some sp => Some (sp, n) | None => None end.
Proof.
  intros W P. unfold lookup. rewrite (grammar_parses true s [n] _ _ W (decl_name n P) ltac:(discriminate)). reflexivity.
Qed.
Theorem lookup_inline d s ws sp n : words s ws -> declaration ws sp (Some n) -> spec_type sp <> TUnknown -> lookup d s = Some (wrapped sp, n).
Proof.
  intros W D NU. unfold lookup. rewrite (grammar_parses true s ws sp (Some n) W D ltac:(discriminate)). cbn [wrapped spec_type].
  destruct (spec_type sp); try reflexivity. congruence.
Qed.

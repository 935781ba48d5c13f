(** C38: the tokens of ASCII RIB text. *)

From Coq Require Import List Bool Arith ZArith QArith String Lia.
From Verif Require Import RibBufModel RibTokModel RibTokSpec RibNumSpec RibTextSpec RibTextProofs RibWriteModel RibWriteProofs.
Import ListNotations.
Open Scope Z_scope.

(** C38.  Names, strings, numbers, brackets, blanks and comments in any order,
    with blanks only where two of them would otherwise run together: the tokens
    are the names, strings, numbers and brackets, in order, with these values.
    Floats are exact; numbers are limited as in C34 (well_spelt). *)
Theorem C38_text_tokens_partial : forall ps, proper ps ->
  exists ts, q_scans no_codes (spell_pieces ps) ts no_codes [] /\ tokens_of ps ts.
Proof. intros ps P. exact (pieces_read ps no_codes eq_refl P). Qed.
Print Assumptions C38_text_tokens_partial.

(** Non-vacuity: a name directly before a bracket, numbers directly before a
    bracket, a sign and a point, a string with all that may be in it directly
    before a name, a comment directly after a name. *)
Definition lit (w : list Z) : literal := mkLit None w None None.
Definition sample_pieces : list piece :=
  [Name (text "Color"); Open; Number (lit [49; 50]); Blank 32; Number (mkLit (Some true) [] (Some [53]) None);
   Number (mkLit None [] (Some [53]) None); Number (mkLit (Some false) [49] None (Some (69, None, [50]))); Close;
   Text [Plain 97; Pair 32; Pair 34; NewLine true; NewLine false; Plain 98]; Name (text "a-1"); Remark (text "x") true; Blank LF].
Example C38_case : proper sample_pieces /\
  spell_pieces sample_pieces = (text "Color[12 -.5.5+1E2]" ++ [34; 97; 92; 32; 92; 34; 13; 10; 13; 98; 34] ++ text "a-1#x" ++ [13; 10])%list.
Proof.
  split; [|reflexivity]. unfold sample_pieces. cbn [proper].
  assert (Nm : forall s, forallb (fun c => (0 <=? c) && (c <? 128) && negb (existsb (Z.eqb c) [32; 9; 10; 13; 35; 34; 91; 93])) s = true ->
    Forall (fun c => 0 <= c /\ ~ delimiter c) s).
  { intros s H. apply Forall_forall. intros c I. rewrite forallb_forall in H. specialize (H c I).
    apply andb_true_iff in H as [H E]. apply andb_true_iff in H as [A B]. apply Z.leb_le in A. apply Z.ltb_lt in B.
    split; [exact A|]. intros [D|D]; [lia|]. apply negb_true_iff in E. assert (T : existsb (Z.eqb c) [32; 9; 10; 13; 35; 34; 91; 93] = true).
    { apply existsb_exists. exists c. split; [exact D|apply Z.eqb_refl]. } congruence. }
  assert (Dg : forall ds, forallb (fun c => (48 <=? c) && (c <=? 57)) ds = true -> all_digits ds).
  { intros ds H. apply Forall_forall. intros c I. rewrite forallb_forall in H. specialize (H c I).
    apply andb_true_iff in H as [A B]. apply Z.leb_le in A. apply Z.leb_le in B. lia. }
  unfold is_piece, ends_before, well_spelt, stops, lit. cbn [whole frac expo].
  repeat match goal with
  | |- _ /\ _ => split
  | |- True => exact I
  | |- Forall (fun c => _ /\ ~ delimiter c) _ => apply Nm; reflexivity
  | |- all_digits _ => apply Dg; reflexivity
  | |- ~ numeric _ => unfold numeric; cbn; lia
  | |- delimiter _ => unfold delimiter; cbn; tauto
  | |- Forall _ _ => repeat (constructor; [unfold LF, CR; lia|]); constructor
  | |- _ = _ => reflexivity
  | |- _ \/ _ => solve [left; discriminate|right; discriminate|left; reflexivity|right; reflexivity]
  | |- _ -> _ => intros; try discriminate
  | |- _ <> _ => discriminate
  | |- In _ _ => cbn; tauto
  | |- ~ In _ _ => cbn; lia
  | |- proper_string _ => cbn [proper_string]
  | _ => first [discriminate|cbn; unfold LF, CR; lia]
  end.
Qed.

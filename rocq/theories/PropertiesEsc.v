(** C26: escapes in strings. *)

From Coq Require Import List Bool ZArith Lia.
Import ListNotations.
From Verif Require Import EscModel EscSpec EscProofs.
Open Scope Z_scope.

(** C26 in full would be that every string comes back.  Exactly the strings of
    ordinary characters and of the controls that have a letter do; missing are
    all strings with quotes, backslashes, other controls or characters outside
    ASCII. *)
Theorem C26_partial : forall s, Forall char s ->
  (translate (expand s) = Some s <-> Forall comes_back s).
Proof.
  intros s F; split.
  - intros E; apply (proj1 (short s F) s E); [|reflexivity].
    intros I; rewrite Forall_forall in F; destruct (F 0 I) as (_ & N); apply N; reflexivity.
  - intros B; unfold translate; rewrite <- (app_nil_r (expand s)), back_all by exact B.
    cbn [translate_from]; rewrite app_nil_r; reflexivity.
Qed.
Print Assumptions C26_partial.

(** Translation stays within every string that does not end with a backslash,
    so within every expanded string. *)
Theorem C26_within_partial : forall s, last s 0 <> 92 -> translate s <> None.
Proof. intros s H; apply translate_last; [discriminate | exact H]. Qed.
Print Assumptions C26_within_partial.

Theorem C26_expanded_within : forall s, Forall char s -> translate (expand s) <> None.
Proof. intros s H; apply C26_within_partial, expand_last, H. Qed.
Print Assumptions C26_expanded_within.

(** It reads outside when the string ends with a backslash. *)
Theorem C26_within_refuted : forall s, ~ In 92 s -> translate (s ++ [92]) = None.
Proof. intros s H; apply no_escape, H. Qed.
Print Assumptions C26_within_refuted.

(** What translation gives: each piece of the string stands for one
    character. *)
Theorem C26_pieces : forall ps, proper ps -> translate (flat_map written ps) = Some (map stands_for ps).
Proof. intros ps H; apply pieces_ok, H. Qed.
Print Assumptions C26_pieces.

(** Single characters that are lost: quotes and backslashes become others;
    all other controls and characters outside ASCII become the character zero
    or the letter p after it. *)
Theorem C26_refuted : forall c, char c -> ~ comes_back c ->
  translate (expand [c]) <> Some [c] /\ translate (expand [c]) <> None.
Proof.
  intros c C N; assert (F : Forall char [c]) by (constructor; [exact C | constructor]); split.
  - intros E; apply (C26_partial [c] F) in E; apply Forall_cons_iff in E; destruct E; contradiction.
  - apply C26_expanded_within, F.
Qed.
Print Assumptions C26_refuted.

(** How characters are written: those that come back as they are or with their
    letter; the others as four characters after "\x", which depend on the sign
    and the fourth bit only. *)
Theorem C26_expands : forall s, Forall comes_back s ->
  expand s = flat_map (fun c => written (written_as c)) s.
Proof.
  intros s H; unfold expand; induction H as [|c s Hc Hs IH]; [reflexivity|]; cbn [flat_map]; rewrite IH; f_equal.
  destruct Hc as [(A & B & C & D)|H]; [|intuition; subst; reflexivity].
  unfold expand_char; rewrite (proj2 (Z.leb_le 32 c) A), (proj2 (Z.eqb_neq _ _) B), (proj2 (Z.eqb_neq _ _) C), (proj2 (Z.eqb_neq _ _) D).
  unfold written_as; destruct c as [|p|p]; try reflexivity.
  repeat (match goal with q : positive |- _ => destruct q end; try reflexivity); exfalso; lia.
Qed.
Print Assumptions C26_expands.

Theorem C26_numbers : forall c, char c -> ~ comes_back c -> c < 32 ->
  expand [c] = [92; 120; (if c <? 0 then 112 else 48); (if Z.testbit c 3 then 112 else 48); 48; 48].
Proof.
  intros c (C & Z0) N L.
  pose proof (char_cases (fun c => comes_backb c || negb (c <? 32) || (c =? 0) ||
    (if list_eq_dec Z.eq_dec (expand [c]) [92; 120; (if c <? 0 then 112 else 48); (if Z.testbit c 3 then 112 else 48); 48; 48] then true else false))) as H.
  specialize (H ltac:(vm_compute; reflexivity) c C); cbv beta in H.
  rewrite !orb_true_iff, comes_backb_ok, negb_true_iff, Z.ltb_ge, Z.eqb_eq in H.
  destruct (list_eq_dec Z.eq_dec (expand [c]) _) as [E|E]; [exact E|].
  destruct H as [[[H|H]|H]|H]; [contradiction | lia | contradiction | discriminate].
Qed.
Print Assumptions C26_numbers.

(** "a b", tabulator, new line come back. *)
Example C26_comes_back : translate (expand [97; 32; 98; 9; 10]) = Some [97; 32; 98; 9; 10].
Proof. reflexivity. Qed.

Example C26_comes_back_case : Forall comes_back [97; 32; 98; 9; 10].
Proof. repeat constructor; unfold comes_back; lia. Qed.

(** Written with letters. *)
Example C26_written : expand [97; 9; 10] = [97; 92; 116; 92; 110].
Proof. reflexivity. Qed.

(** A quote becomes a tilde, a backslash a character outside ASCII. *)
Example C26_quote : translate (expand [34]) = Some [126] /\ translate (expand [92]) = Some [-72].
Proof. split; reflexivity. Qed.

(** The control 1 followed by "b" becomes the character 11. *)
Example C26_number : translate (expand [1; 98]) = Some [11].
Proof. reflexivity. Qed.

(** A letter, a hexadecimal and an octal number, a quote and a new line. *)
Example C26_pieces_case :
  let ps := [Char 65; Hex_number [52; 50]; Octal_number [49; 48; 51]; Letter 34; Letter 110] in
  proper ps /\ translate (flat_map written ps) = Some [65; 66; 67; 34; 10].
Proof.
  split; [|reflexivity].
  cbn; repeat split; try lia; repeat constructor; discriminate.
Qed.

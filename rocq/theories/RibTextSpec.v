(** What the text of an ASCII RIB stream means: names, strings, numbers,
    brackets, blanks and comments, one after the other. *)

From Coq Require Import List Bool Arith ZArith QArith.
From Verif Require Import RibBufModel RibTokModel RibTokSpec RibNumSpec.
Import ListNotations.
Open Scope Z_scope.

(** What is between the quotes of a string. *)
Inductive in_string :=
| Plain (c : Z)      (* itself *)
| Pair (d : Z)       (* backslash and a character *)
| NewLine (crlf : bool). (* CR LF or CR *)
Definition spell_in (x : in_string) : list Z :=
  match x with Plain c => [c] | Pair d => [92; d] | NewLine true => [CR; LF] | NewLine false => [CR] end.
(** Pairs stay as they are except for backslash and space, which is a space.
    Ends of lines become LF. *)
Definition value_in (x : in_string) : list Z :=
  match x with Plain c => [c] | Pair d => if d =? 32 then [32] else [92; d] | NewLine _ => [LF] end.

Inductive piece :=
| Name (s : list Z) | Text (s : list in_string) | Number (n : literal) | Open | Close
| Blank (c : Z) | Remark (s : list Z) (cr : bool).
Definition spell_piece (p : piece) : list Z :=
  match p with
  | Name s => s
  | Text s => 34 :: flat_map spell_in s ++ [34]
  | Number n => spell n
  | Open => [91] | Close => [93]
  | Blank c => [c]
  | Remark s cr => 35 :: s ++ [if cr then CR else LF]
  end.
Definition spell_pieces (ps : list piece) : list Z := flat_map spell_piece ps.

(** Characters that end a name. *)
Definition delimiter (c : Z) : Prop := 128 <= c \/ In c [32; 9; 10; 13; 35; 34; 91; 93].
(** The first characters of numbers. *)
Definition numeric (c : Z) : Prop := 48 <= c <= 57 \/ In c [43; 45; 46].

Fixpoint proper_string (s : list in_string) : Prop :=
  match s with
  | [] => True
  | x :: r => match x with
              | Plain c => 0 <= c < 255 /\ ~ In c [34; 92; 13]
              | Pair d => 0 <= d < 256
              | NewLine crlf => crlf = false -> hd_error r <> Some (Plain LF)
              end /\ proper_string r
  end.
Definition is_piece (p : piece) : Prop :=
  match p with
  | Name s => s <> [] /\ Forall (fun c => 0 <= c /\ ~ delimiter c) s /\ ~ numeric (first s)
  | Text s => proper_string s
  | Number n => well_spelt n
  | Open | Close => True
  | Blank c => In c [32; 9; 10; 13]
  | Remark s _ => Forall (fun c => c <> LF /\ c <> CR /\ c <> 255) s
  end.

(** Where one piece stops: names before a delimiter, numbers before what cannot
    continue them.  The other pieces show where they stop.  At the end of the file
    the next character counts as 255. *)
Definition ends_before (p : piece) (r : list Z) : Prop :=
  match p with Name _ => delimiter (first r) | Number n => stops n r | _ => True end.
Fixpoint proper (ps : list piece) : Prop :=
  match ps with [] => True | p :: r => is_piece p /\ ends_before p (spell_pieces r) /\ proper r end.

(** The tokens of the pieces. *)
Inductive tokens_of : list piece -> list (token Q) -> Prop :=
| of_nil : tokens_of [] []
| of_name s ps ts : tokens_of ps ts -> tokens_of (Name s :: ps) (TRequest Q s :: ts)
| of_text s ps ts : tokens_of ps ts -> tokens_of (Text s :: ps) (TString Q (flat_map value_in s) :: ts)
| of_float n q ps ts : frac n <> None \/ expo n <> None -> (q == denotes n)%Q -> tokens_of ps ts ->
    tokens_of (Number n :: ps) (TFloat Q q :: ts)
| of_int n i ps ts : frac n = None -> expo n = None -> (inject_Z i == denotes n)%Q -> tokens_of ps ts ->
    tokens_of (Number n :: ps) (TInteger Q i :: ts)
| of_open ps ts : tokens_of ps ts -> tokens_of (Open :: ps) (TArrayBegin Q :: ts)
| of_close ps ts : tokens_of ps ts -> tokens_of (Close :: ps) (TArrayEnd Q :: ts)
| of_blank c ps ts : tokens_of ps ts -> tokens_of (Blank c :: ps) ts
| of_remark s cr ps ts : tokens_of ps ts -> tokens_of (Remark s cr :: ps) ts.

Definition q_scans := scans Q inject_Z inject_Z inject_Z Qplus Qmult (fun x => x * (1 # 10))%Q (1 # 10)
  (fun x e => x * 10 ^ e)%Q (fun m f r => inject_Z m + inject_Z f / 256 ^ r)%Q.

(** What escape sequences are meant to be. *)

From Coq Require Import List Bool ZArith.
Import ListNotations.
Open Scope Z_scope.

(** The characters of a C string. *)
Definition char (c : Z) : Prop := -128 <= c < 128 /\ c <> 0.

(** The characters that come back: those of ASCII from the space on, except
    backslashes and quotes, and the controls that have a letter (bell, backspace,
    tabulator, new line and carriage return). *)
Definition comes_back (c : Z) : Prop :=
  (32 <= c /\ c <> 92 /\ c <> 39 /\ c <> 34) \/ c = 7 \/ c = 8 \/ c = 9 \/ c = 10 \/ c = 13.

(** A string with escapes, as a row of pieces: characters that are not
    backslashes, backslashes with a letter, octal and hexadecimal numbers. *)
Inductive piece :=
| Char (c : Z)
| Letter (c : Z)
| Octal_number (ds : list Z)
| Hex_number (ds : list Z).

(** The value of a hexadecimal digit, from a table. *)
Definition hex_value (d : Z) : option Z :=
  match d with
  | 48 => Some 0 | 49 => Some 1 | 50 => Some 2 | 51 => Some 3 | 52 => Some 4
  | 53 => Some 5 | 54 => Some 6 | 55 => Some 7 | 56 => Some 8 | 57 => Some 9
  | 65 | 97 => Some 10 | 66 | 98 => Some 11 | 67 | 99 => Some 12
  | 68 | 100 => Some 13 | 69 | 101 => Some 14 | 70 | 102 => Some 15
  | _ => None
  end.

Definition octal_value (d : Z) : option Z :=
  match hex_value d with Some v => if v <? 8 then Some v else None | None => None end.

Fixpoint number (base : Z) (value : Z -> option Z) (v : Z) (ds : list Z) : Z :=
  match ds with
  | [] => v
  | d :: r => number base value (v * base + match value d with Some x => x | None => 0 end) r
  end.

Definition written (p : piece) : list Z :=
  match p with
  | Char c => [c]
  | Letter c => [92; c]
  | Octal_number ds => 92 :: 48 :: ds
  | Hex_number ds => 92 :: 120 :: ds
  end.

(** The character a piece stands for; numbers have to be less than 128. *)
Definition stands_for (p : piece) : Z :=
  match p with
  | Char c => c
  | Letter c =>
      match c with 97 => 7 | 98 => 8 | 110 => 10 | 114 => 13 | 116 => 9 | _ => c end
  | Octal_number ds => number 8 octal_value 0 ds
  | Hex_number ds => number 16 hex_value 0 ds
  end.

(** A number must not be followed by one of its digits. *)
Fixpoint proper (ps : list piece) : Prop :=
  match ps with
  | [] => True
  | p :: r =>
      match p with
      | Char c => c <> 92
      | Letter c => c <> 48 /\ c <> 120
      | Octal_number ds =>
          Forall (fun d => octal_value d <> None) ds /\ number 8 octal_value 0 ds < 128 /\
          match r with Char c :: _ => octal_value c = None | _ => True end
      | Hex_number ds =>
          Forall (fun d => hex_value d <> None) ds /\ number 16 hex_value 0 ds < 128 /\
          match r with Char c :: _ => hex_value c = None | _ => True end
      end /\ proper r
  end.

(** How a character is written: itself, or a letter after a backslash. *)
Definition written_as (c : Z) : piece :=
  match c with 7 => Letter 97 | 8 => Letter 98 | 9 => Letter 116 | 10 => Letter 110 | 13 => Letter 114 | _ => Char c end.

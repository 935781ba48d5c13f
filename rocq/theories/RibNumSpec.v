(** What the spellings of numbers and the definitions of codes in a RIB stream
    mean, with exact arithmetic. *)

From Coq Require Import List Bool Arith ZArith QArith.
From Verif Require Import RibBufModel RibTokModel RibTokSpec.
Import ListNotations.
Open Scope Z_scope.

(** A number: sign, digits, fraction, exponent. *)
Record literal := mkLit {
  minus : option bool;              (* Some true: "-", Some false: "+" *)
  whole : list Z;                   (* digits before the point *)
  frac : option (list Z);           (* point and digits after it *)
  expo : option (Z * option bool * list Z) (* the letter, sign and digits of the exponent *) }.

Definition spell_sign (s : option bool) : list Z :=
  match s with None => [] | Some true => [45] | Some false => [43] end.
Definition spell (n : literal) : list Z :=
  spell_sign (minus n) ++ whole n ++
  match frac n with None => [] | Some ds => 46 :: ds end ++
  match expo n with None => [] | Some (c, s, ds) => c :: spell_sign s ++ ds end.

Definition all_digits (ds : list Z) : Prop := Forall (fun c => 48 <= c <= 57) ds.

(** There are digits before or after the point, and in the exponent; the whole
    part and the exponent fit in an int. *)
Definition well_spelt (n : literal) : Prop :=
  all_digits (whole n) /\ number (whole n) <= int_max /\
  match frac n with None => whole n <> [] | Some ds => all_digits ds /\ (whole n <> [] \/ ds <> []) end /\
  match expo n with
  | None => True
  | Some (c, s, ds) => (c = 101 \/ c = 69) /\ all_digits ds /\ ds <> [] /\ number ds <= int_max
  end.

Definition sign_value (s : option bool) : Z := match s with Some true => -1 | _ => 1 end.

(** The number denoted. *)
Definition denotes (n : literal) : Q :=
  (inject_Z (sign_value (minus n)) *
   (inject_Z (number (whole n)) +
    match frac n with None => 0 | Some ds => inject_Z (number ds) / 10 ^ Z.of_nat (length ds) end) *
   match expo n with None => 1 | Some (_, s, ds) => 10 ^ (sign_value s * number ds) end)%Q.

(** What may not follow: something that would continue the number. *)
Definition stops (n : literal) (r : list Z) : Prop :=
  is_digit (first r) = false /\
  (expo n = None -> first r <> 101 /\ first r <> 69) /\
  (frac n = None -> expo n = None -> first r <> 46).

(** The number in base 256 given by some bytes. *)
Definition number256 (bs : list Z) : Z := fold_left (fun n c => n * 256 + c) bs 0.

(** Definitions and uses of codes for requests and strings, as bytes.  [wide]
    tells whether the code of a string is written with two bytes or one. *)
Inductive item :=
| DefRequest (code : Z) (s : list Z) | UseRequest (code : Z)
| DefString (wide : bool) (code : Z) (s : list Z) | UseString (wide : bool) (code : Z).

Definition spell_code (wide : bool) (c : Z) : list Z := if wide then [c / 256; c mod 256] else [c].
(** The defining string is spelt in the short form. *)
Definition spell_item (i : item) : list Z :=
  match i with
  | DefRequest c s => 204 :: c :: (144 + Z.of_nat (length s)) :: s
  | UseRequest c => [166; c]
  | DefString w c s => (if w then 206 else 205) :: spell_code w c ++ (144 + Z.of_nat (length s)) :: s
  | UseString w c => (if w then 208 else 207) :: spell_code w c
  end.

(** Last definition of a request or string code before the head of [done] (which
    is the list of items so far, last first). *)
Fixpoint last_request (done : list item) (c : Z) : option (list Z) :=
  match done with
  | [] => None
  | DefRequest c' s :: r => if c' =? c then Some s else last_request r c
  | _ :: r => last_request r c
  end.
Fixpoint last_string (done : list item) (c : Z) : option (list Z) :=
  match done with
  | [] => None
  | DefString _ c' s :: r => if c' =? c then Some s else last_string r c
  | _ :: r => last_string r c
  end.

(** The tokens of the items [is] after the items [done]. *)
Fixpoint item_tokens {F} (done : list item) (l : list item) : list (token F) :=
  match l with
  | [] => []
  | i :: r =>
      match i with
      | UseRequest c => [match last_request done c with Some s => TRequest F s | None => TError F end]
      | UseString _ c => [match last_string done c with Some s => TString F s | None => TError F end]
      | _ => []
      end ++ item_tokens (i :: done) r
  end.

Definition is_item (i : item) : Prop :=
  match i with
  | DefRequest c s => 0 <= c < 256 /\ s <> [] /\ (length s < 16)%nat /\ bytes s
  | UseRequest c => 0 <= c < 256
  | DefString w c s => 0 <= c < (if w then 65536 else 256) /\ (length s < 16)%nat /\ bytes s
  | UseString w c => 0 <= c < (if w then 65536 else 256)
  end.

(** The tokeniser with exact arithmetic for floats. *)
Definition q_scan := scan Q inject_Z inject_Z inject_Z Qplus Qmult (fun x => x * (1 # 10))%Q (1 # 10)
  (fun x e => x * 10 ^ e)%Q (fun m f r => inject_Z m + inject_Z f / 256 ^ r)%Q.

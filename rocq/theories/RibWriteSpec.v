(** What a sequence of requests means, independently of how it is written. *)

From Coq Require Import List Bool Arith ZArith.
From Verif Require Import RibBufModel RibTokModel RibTokSpec RibWriteModel.
Import ListNotations.
Open Scope Z_scope.

Section Meaning.
  Variable F : Type.
  Variable of_bits32 : Z -> F.

  (** The tokens of an argument. *)
  Definition value (a : arg) : list (token F) :=
    match a with
    | AInt i => [TInteger F i]
    | AFloat b => [TFloat F (of_bits32 b)]
    | AString s => [TString F s]
    | AInts l => TArrayBegin F :: map (TInteger F) l ++ [TArrayEnd F]
    | AFloats l => TArrayBegin F :: map (fun b => TFloat F (of_bits32 b)) l ++ [TArrayEnd F]
    | AStrings l => TArrayBegin F :: map (TString F) l ++ [TArrayEnd F]
    end.

  (** The tokens of a call: the name of the request and its arguments, nothing
      for a comment. *)
  Definition meaning (c : call) : list (token F) :=
    match c with Request name args => TRequest F name :: flat_map value args | _ => [] end.
End Meaning.

(** C++ ints, the bits of floats, and C strings of a length that fits in an int. *)
Definition is_int (i : Z) : Prop := -2147483648 <= i <= 2147483647.
Definition is_bits (b : Z) : Prop := 0 <= b < 4294967296.
Definition is_string (s : list Z) : Prop :=
  Forall (fun c => 0 < c < 256) s /\ Z.of_nat (length s) <= int_max.
Definition is_arg (a : arg) : Prop :=
  match a with
  | AInt i => is_int i | AFloat b => is_bits b | AString s => is_string s
  | AInts l => Forall is_int l
  | AFloats l => Forall is_bits l /\ Z.of_nat (length l) <= int_max
  | AStrings l => Forall is_string l
  end.

(** A comment that stays on its line and has no byte 255, which is the end of
    the file for the reader. *)
Definition one_line (s : list Z) : Prop := Forall (fun c => c <> LF /\ c <> CR /\ c <> 255) s.

(** A call of the interface: a request by one of its names. *)
Definition is_call (c : call) : Prop :=
  match c with
  | Request name args => In name request_names /\ Forall is_arg args
  | Comment s | Structure s => one_line s
  end.

(** The text of a string between the quotes, with escapes. *)
Definition escaped (s : list Z) : list Z := flat_map escape s.
Definition escaped_arg (a : arg) : arg :=
  match a with AString s => AString (escaped s) | AStrings l => AStrings (map escaped l) | _ => a end.
Definition escaped_call (c : call) : call :=
  match c with Request name args => Request name (map escaped_arg args) | _ => c end.

(** No character needs an escape. *)
Definition plain (s : list Z) : Prop := Forall (fun c => 32 <= c <= 176 /\ c <> 34 /\ c <> 92) s.

(** Arguments whose ASCII form is covered: ints other than the smallest one,
    strings, arrays of these. *)
Definition ascii_arg (str : list Z -> Prop) (a : arg) : Prop :=
  match a with
  | AInt i => - int_max <= i <= int_max
  | AString s => str s
  | AInts l => Forall (fun i => - int_max <= i <= int_max) l
  | AStrings l => Forall str l
  | AFloat _ | AFloats _ => False
  end.
Definition ascii_call (str : list Z -> Prop) (c : call) : Prop :=
  match c with
  | Request name args => In name request_names /\ Forall (ascii_arg str) args
  | Comment s | Structure s => one_line s
  end.
Definition white (c : Z) : Prop := c = 32 \/ c = 9 \/ c = LF \/ c = CR.

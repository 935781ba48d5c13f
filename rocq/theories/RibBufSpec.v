(** Reading a stream with a cursor, and positions in a text. *)

From Coq Require Import List Bool Arith ZArith.
From Verif Require Import RibBufModel.
Import ListNotations.

(** The bytes of the stream, then end of file for ever. *)
Definition byte_at (s : list Z) (i : nat) : Z := nth i s eof.

(** Line [1 + n] after [n] line terminators: CR, LF, and CR LF counted once. *)
Definition terminator (s : list Z) (i : nat) : bool :=
  (byte_at s i =? CR)%Z ||
  ((byte_at s i =? LF)%Z &&
   match i with O => true | S j => negb (byte_at s j =? CR)%Z end).
Definition line_at (s : list Z) (p : nat) : Z :=
  (1 + Z.of_nat (length (filter (terminator s) (seq 0 p))))%Z.

(** The number of bytes since the last CR or LF. *)
Fixpoint col_at (s : list Z) (p : nat) : Z :=
  match p with
  | O => 0
  | S q => if ((byte_at s q =? CR) || (byte_at s q =? LF))%Z then 0 else col_at s q + 1
  end%Z.

(** What reading must show, starting after the first [p] bytes. *)
Fixpoint shows (s : list Z) (p : nat) (ops : list bop) : list (option Z * pos) :=
  match ops with
  | [] => []
  | Get :: r => (Some (byte_at s p), (line_at s (S p), col_at s (S p))) :: shows s (S p) r
  | Unget :: r => (None, (line_at s (p - 1), col_at s (p - 1))) :: shows s (p - 1) r
  end.

(** Each unget directly follows a get. *)
Fixpoint single_ungets (after_get : bool) (ops : list bop) : Prop :=
  match ops with
  | [] => True
  | Get :: r => single_ungets true r
  | Unget :: r => after_get = true /\ single_ungets false r
  end.

(** Bytes 254, 509, 764, ... come first after the array wraps round.  No such
    byte is a LF of which only one of the two bytes before is a CR. *)
Definition wraps_cleanly (s : list Z) : Prop :=
  forall i, i mod 255 = 254 -> byte_at s i = LF -> (byte_at s (i - 1) = CR <-> byte_at s (i - 2) = CR).

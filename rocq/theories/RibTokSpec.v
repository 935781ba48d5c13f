(** Words used in the statements about the RIB tokeniser. *)

From Coq Require Import List Bool Arith ZArith.
From Verif Require Import RibBufModel RibTokModel.
Import ListNotations.
Open Scope Z_scope.

(** The number written by a row of decimal digits. *)
Definition number (ds : list Z) : Z := fold_left (fun n c => n * 10 + (c - 48)) ds 0.

(** Somewhere in [l] there is a number too big for an int. *)
Definition big_number (l : list Z) : Prop :=
  exists before ds after, l = before ++ ds ++ after /\
    Forall (fun c => 48 <= c <= 57) ds /\ int_max < number ds.

(** [l'] is what is left of [l] after reading some of it. *)
Definition rest_of (l l' : list Z) : Prop := exists read, l = read ++ l'.

(** Bytes of a file. *)
Definition bytes (l : list Z) : Prop := Forall (fun c => 0 <= c < 256) l.

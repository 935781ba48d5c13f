(** What is expected of lookups: names are compared as a whole. *)

From Coq Require Import List Bool ZArith.
Import ListNotations.
Open Scope Z_scope.

(** [i] is where [s] is for the first time. *)
Definition first_at (names : list (list Z)) (s : list Z) (i : nat) : Prop :=
  nth_error names i = Some s /\ forall j, (j < i)%nat -> nth_error names j <> Some s.
(** [i] is a place where [s] is. *)
Definition is_at (names : list (list Z)) (s : list Z) (i : nat) : Prop := nth_error names i = Some s.

(** Names for which the lookups are right: all their characters are within 31 codes that follow
    each other (such as all small letters, or all capitals), and there are at most [most]. *)
Definition plain (lo most : Z) (s : list Z) : Prop :=
  Z.of_nat (length s) <= most /\ Forall (fun b => lo <= b <= lo + 30 /\ b < 128) s.
(** [most] is small enough for a word with [word] values: 12 for 64 bits and 6 for 32. *)
Definition short (word most : Z) : Prop := 0 <= most /\ 127 * (31 ^ most - 1) < 30 * word.

(** Words used in the statements about nested RIB streams. *)

From Coq Require Import List Bool Arith ZArith.
From Verif Require Import RibTokModel RibTokSpec RibStackModel.
Import ListNotations.
Open Scope Z_scope.

(** What may be done between pushing a stream and popping it: reading tokens,
    and pushing, reading and popping other streams. *)
Inductive balanced : list call -> Prop :=
| bal_nil : balanced []
| bal_read c cs : c = Get \/ c = PeekTok \/ c = Unget -> balanced cs -> balanced (c :: cs)
| bal_nested b cs cs' : balanced cs -> balanced cs' -> balanced (Push b :: cs ++ Pop :: cs').

(** The same, with tokens given back only after they were taken. *)
Inductive orderly : list call -> Prop :=
| ord_nil : orderly []
| ord_get cs : orderly cs -> orderly (Get :: cs)
| ord_peek cs : orderly cs -> orderly (PeekTok :: cs)
| ord_unget cs : orderly cs -> orderly (Get :: Unget :: cs)
| ord_nested b cs cs' : orderly cs -> orderly cs' -> orderly (Push b :: cs ++ Pop :: cs').

(** The streams pushed are of a kind. *)
Definition pushes (P : list Z -> Prop) (cs : list call) : Prop := forall b, In (Push b) cs -> P b.

(** Streams without definitions of codes and without encoded arrays (bytes
    0310-0316), and streams without uses of codes (bytes 0246, 0317, 0320).  ASCII
    streams are of both kinds. *)
Definition quiet (b : list Z) : Prop := bytes b /\ Forall (fun c => c < 200 \/ 206 < c) b.
Definition codeless (b : list Z) : Prop := bytes b /\ Forall (fun c => c <> 166 /\ c <> 207 /\ c <> 208) b.

(** Reading written requests back through the lexer. *)

From Coq Require Import List ZArith.
From Verif Require Import RibTokModel RibWriteModel RibLexModel.
Import ListNotations.
Open Scope Z_scope.

Section Chain.
  Variable F : Type.
  Variable of_bits32 : Z -> F.
  Variable of_int : Z -> F.

  (** How an argument is read, and the value it has. *)
  Definition kind_of (a : arg) : kind :=
    match a with
    | AInt _ => KInt | AFloat _ => KFloat | AString _ => KString
    | AInts _ => KInts | AFloats _ => KFloats (-1) | AStrings _ => KStrings
    end.
  Definition value_of (a : arg) : value F :=
    match a with
    | AInt i => VInt F i | AFloat b => VFloat F (of_bits32 b) | AString s => VString F s
    | AInts l => VInts F l | AFloats l => VFloats F (map of_bits32 l) | AStrings l => VStrings F l
    end.

  (** Reading arguments one after the other. *)
  Fixpoint read_args (ks : list kind) (x : lexer F) : option (list (ref F) * lexer F) :=
    match ks with
    | [] => Some ([], x)
    | k :: more =>
        match read F of_int k x with
        | (Ok _ r, y) => match read_args more y with Some (rs, z) => Some (r :: rs, z) | None => None end
        | _ => None
        end
    end.

  (** Reading every call, from the name to the last argument, gives what was
      written, seen when all arguments of the call have been read; then the
      stream ends. *)
  Fixpoint reads_back (cs : list call) (x : lexer F) : Prop :=
    match cs with
    | [] => fst (next_request F x) = None
    | Request name args :: more =>
        exists n y rs z, next_request F x = (Some (Ok F n), y) /\
          read_args (map kind_of args) y = Some (rs, z) /\
          deref F z n = VString F name /\ map (deref F z) rs = map value_of args /\ reads_back more z
    | _ :: more => reads_back more x
    end.
End Chain.

(** What reading the arguments of requests from a stream of tokens should do,
    independently of the lexer. *)

From Coq Require Import List ZArith.
From Verif Require Import RibTokModel RibLexModel.
Import ListNotations.
Open Scope Z_scope.

Section Spec.
  Variable F : Type.
  Variable of_int : Z -> F.
  Local Notation token := (token F).
  Local Notation value := (value F).

  Definition bracket (ts : list token) : list token := TArrayBegin F :: ts ++ [TArrayEnd F].

  (** A token that stands for a float. *)
  Inductive number : token -> F -> Prop :=
  | number_int : forall i, number (TInteger F i) (of_int i)
  | number_float : forall f, number (TFloat F f) f.

  (** The tokens which spell a value of each kind.  Floats of a known number may
      be written without brackets, and an array parameter of one element too. *)
  Inductive spells : kind -> list token -> value -> Prop :=
  | sp_int : forall i, spells KInt [TInteger F i] (VInt F i)
  | sp_float : forall t f, number t f -> spells KFloat [t] (VFloat F f)
  | sp_string : forall s, spells KString [TString F s] (VString F s)
  | sp_ints : forall l, spells KInts (bracket (map (TInteger F) l)) (VInts F l)
  | sp_floats : forall n ts fs, Forall2 number ts fs -> n < 0 \/ n = Z.of_nat (length fs) ->
      spells (KFloats n) (bracket ts) (VFloats F fs)
  | sp_plain_floats : forall n ts fs, Forall2 number ts fs -> n = Z.of_nat (length fs) ->
      spells (KFloats n) ts (VFloats F fs)
  | sp_strings : forall l, spells KStrings (bracket (map (TString F) l)) (VStrings F l)
  | sp_int_param : forall i, spells KIntParam [TInteger F i] (VInts F [i])
  | sp_ints_param : forall l, spells KIntParam (bracket (map (TInteger F) l)) (VInts F l)
  | sp_float_param : forall t f, number t f -> spells KFloatParam [t] (VFloats F [f])
  | sp_floats_param : forall ts fs, Forall2 number ts fs -> spells KFloatParam (bracket ts) (VFloats F fs)
  | sp_string_param : forall s, spells KStringParam [TString F s] (VStrings F [s])
  | sp_strings_param : forall l, spells KStringParam (bracket (map (TString F) l)) (VStrings F l).

  (** The stream [l] starts with a value [v] of kind [k]; after it comes [rest].
      (No tokens at all spell an array of no floats if no array begins there.) *)
  Definition starts_with (k : kind) (l : list token) (v : value) (rest : list token) : Prop :=
    exists ts, l = ts ++ rest /\ spells k ts v /\
               (ts = [] -> forall r, rest <> TArrayBegin F :: r).

  (** No zero bytes in a string. *)
  Definition no_zero (v : value) : Prop :=
    match v with
    | VString _ s => ~ In 0 s
    | VStrings _ l => forall s, In s l -> ~ In 0 s
    | _ => True
    end.

  (** The request tokens before the end of the file. *)
  Fixpoint requests (l : list token) : list (list Z) :=
    match l with
    | [] | TEof _ :: _ => []
    | TRequest _ s :: r => s :: requests r
    | _ :: r => requests r
    end.
End Spec.

Section Use.
  Variable F : Type.
  Variable of_int : Z -> F.
  Local Notation token := (token F).
  Local Notation lexer := (lexer F).

  (** The tokens still to come. *)
  Definition ahead (x : lexer) : list token := if have F x then tok F x :: src F x else src F x.

  (** Lists of tokens which are the same when followed by ends of file. *)
  Definition same_stream (l l' : list token) : Prop := forall n, nth n l (TEof F) = nth n l' (TEof F).

  (** The calls a user of the lexer can make. *)
  Inductive op := ORead (k : kind) | OPeek | ODiscard | ONext.
  Definition do_op (x : lexer) (o : op) : lexer :=
    match o with
    | ORead k => snd (read F of_int k x)
    | OPeek => snd (peek_next_type F x)
    | ODiscard => discard_until_request F x
    | ONext => snd (next_request F x)
    end.
  Definition run (ops : list op) (x : lexer) : lexer := fold_left do_op ops x.
  Definition within_request (ops : list op) : Prop := ~ In ONext ops.
End Use.

(** Model of the stack of input streams of the RIB tokeniser.

    Modelled code: RibTokenizer::pushInput, popInput
    (/repo/libs/riutil/ribtokenizer.cpp:92-121), the start of scanNext (138-144),
    and get, unget and peek (/repo/libs/riutil/ribtokenizer.h:183-206), on top of
    scanNext as modelled in RibTokModel.v.  Token positions and comment callbacks
    are left out.  unget when a token is in stock, and popInput with nothing
    pushed, violate assertions: the model's run ends there, as it does after
    signed overflow in scanNext. *)

From Coq Require Import List Bool Arith ZArith.
From Verif Require Import RibTokModel.
Import ListNotations.
Open Scope Z_scope.

Section Stack.
  Variable F : Type.
  Variable of_bits32 of_bits64 of_int : Z -> F.
  Variable add mul : F -> F -> F.
  Variable times_tenth : F -> F.
  Variable tenth : F.
  Variable times_pow10 : F -> Z -> F.
  Variable fixed : Z -> Z -> Z -> F.
  Local Notation token := (token F).
  Local Notation scan := (scan F of_bits32 of_bits64 of_int add mul times_tenth tenth times_pow10 fixed).

  (** InputState (ribtokenizer.cpp:52-74): what is left of its stream, and the
      token in stock when it was pushed. *)
  Record input := mkInput { left_in : list Z; saved_tok : token; saved_have : bool }.

  (** m_inputStack, m_nextTok, m_haveNext (ribtokenizer.h:147-161), and the
      members for binary RIB. *)
  Record tokeniser := mkTok { inputs : list input; next_tok : token; have_next : bool; codes : coding }.

  (** The constructor (ribtokenizer.cpp:79-90). *)
  Definition new_tokeniser : tokeniser := mkTok [] (TError F) false no_codes.

  (** scanNext into m_nextTok. *)
  Definition scan_next (s : tokeniser) : option (token * list input * coding) :=
    match inputs s with
    | [] => Some (TEof F, [], codes s)
    | i :: r =>
        match scan (S (length (left_in i))) (codes s) (left_in i) with
        | Scanned _ t k l => Some (t, mkInput l (saved_tok i) (saved_have i) :: r, k)
        | _ => None
        end
    end.

  Definition t_get (s : tokeniser) : option (token * tokeniser) :=
    if have_next s then Some (next_tok s, mkTok (inputs s) (next_tok s) false (codes s))
    else match scan_next s with
         | Some (t, is, k) => Some (t, mkTok is t false k)
         | None => None
         end.
  Definition t_peek (s : tokeniser) : option (token * tokeniser) :=
    if have_next s then Some (next_tok s, s)
    else match scan_next s with
         | Some (t, is, k) => Some (t, mkTok is t true k)
         | None => None
         end.
  Definition t_unget (s : tokeniser) : option tokeniser :=
    if have_next s then None else Some (mkTok (inputs s) (next_tok s) true (codes s)).
  Definition t_push (b : list Z) (s : tokeniser) : tokeniser :=
    mkTok (mkInput b (next_tok s) (have_next s) :: inputs s) (next_tok s) false (codes s).
  Definition t_pop (s : tokeniser) : option tokeniser :=
    match inputs s with
    | [] => None
    | i :: r => Some (mkTok r (saved_tok i) (saved_have i) (codes s))
    end.

  (** What a user does with it. *)
  Inductive call := Get | PeekTok | Unget | Push (b : list Z) | Pop.
  Definition do_call (c : call) (s : tokeniser) : option (list token * tokeniser) :=
    match c with
    | Get => match t_get s with Some (t, s') => Some ([t], s') | None => None end
    | PeekTok => match t_peek s with Some (t, s') => Some ([t], s') | None => None end
    | Unget => match t_unget s with Some s' => Some ([], s') | None => None end
    | Push b => Some ([], t_push b s)
    | Pop => match t_pop s with Some s' => Some ([], s') | None => None end
    end.
  Fixpoint do_calls (cs : list call) (s : tokeniser) : option (list token * tokeniser) :=
    match cs with
    | [] => Some ([], s)
    | c :: r =>
        match do_call c s with
        | None => None
        | Some (ts, s1) =>
            match do_calls r s1 with Some (ts', s') => Some (ts ++ ts', s') | None => None end
        end
    end.
End Stack.

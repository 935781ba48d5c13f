(** Model of the RIB lexer and of the loop that reads requests.

    Modelled code: RibLexerImpl (/repo/libs/riutil/riblexer.cpp:44-386,
    /repo/libs/riutil/riblexer_impl.h:48-131), MultiStringBuffer
    (/repo/libs/riutil/multistringbuffer.h:47-105), get, unget and peek of
    RibTokenizer (/repo/libs/riutil/ribtokenizer.h:183-206) and
    RibParserImpl::parseStream (/repo/libs/riutil/ribparser.cpp:206-262).

    Simplifications:
    - The tokens scanNext would return are given as a list; after its end
      scanNext returns end of file (see RibTokModel.v for scanNext itself).
      There may be end of file tokens in the list.
    - One input stream: pushInput and popInput are in RibStackModel.v.
    - The text of error messages, and positions, are left out.
    - What the caller gets as a C string is the string up to its first zero
      byte.  A pointer into a buffer of a pool is the index of the buffer;
      buffers are owned by a boost::ptr_vector and do not move. *)

From Coq Require Import List Bool Arith ZArith.
From Verif Require Import RibTokModel.
Import ListNotations.
Open Scope Z_scope.

Section Lexer.
  Variable F : Type.
  Variable of_int : Z -> F.       (* conversion of an int to float *)
  Local Notation token := (token F).

  (** * Pools of buffers (riblexer_impl.h:88-113) *)

  Record pool (A : Type) := mkPool { bufs : list (list A); next : nat }.
  Arguments mkPool {A}. Arguments bufs {A}. Arguments next {A}.

  Definition no_pool {A} : pool A := mkPool [] 0.

  Fixpoint put {A} (n : nat) (a : A) (l : list A) : list A :=
    match n, l with
    | O, _ :: r => a :: r
    | S m, b :: r => b :: put m a r
    | _, [] => []
    end.

  (** getBuf. *)
  Definition get_buf {A} (p : pool A) : nat * pool A :=
    let b := if (length (bufs p) <=? next p)%nat then bufs p ++ [[]] else bufs p in
    (next p, mkPool (put (next p) [] b) (S (next p))).
  (** markUnused. *)
  Definition mark_unused {A} (p : pool A) : pool A := mkPool (bufs p) 0.
  (** Filling buffer [n]. *)
  Definition fill {A} (n : nat) (l : list A) (p : pool A) : pool A := mkPool (put n l (bufs p)) (next p).

  (** * The lexer *)

  (** The tokens scanNext would return, m_nextTok and m_haveNext of the
      tokeniser, and the four pools. *)
  Record lexer := mkLexer {
    src : list token; tok : token; have : bool;
    strings : pool Z; floats : pool F; ints : pool Z; arrays : pool (list Z) }.

  Definition new_lexer (l : list token) : lexer :=
    mkLexer l (TEof F) false no_pool no_pool no_pool no_pool.

  Definition with_input (x : lexer) (l : list token) (t : token) (h : bool) : lexer :=
    mkLexer l t h (strings x) (floats x) (ints x) (arrays x).
  Definition with_strings x p := mkLexer (src x) (tok x) (have x) p (floats x) (ints x) (arrays x).
  Definition with_floats x p := mkLexer (src x) (tok x) (have x) (strings x) p (ints x) (arrays x).
  Definition with_ints x p := mkLexer (src x) (tok x) (have x) (strings x) (floats x) p (arrays x).
  Definition with_arrays x p := mkLexer (src x) (tok x) (have x) (strings x) (floats x) (ints x) p.

  (** scanNext, then RibTokenizer::get (ribtokenizer.h:183-190), unget
      (192-196) and peek (198-206). *)
  Definition tok_get (x : lexer) : token * lexer :=
    if have x then (tok x, with_input x (src x) (tok x) false)
    else let t := hd (TEof F) (src x) in (t, with_input x (tl (src x)) t false).
  Definition tok_unget (x : lexer) : lexer := with_input x (src x) (tok x) true.
  Definition tok_peek (x : lexer) : token * lexer :=
    if have x then (tok x, x)
    else let t := hd (TEof F) (src x) in (t, with_input x (tl (src x)) t true).

  (** What a call returns: a value, where strings and arrays are in the buffers
      of the pools (an empty array has no buffer, riblexer.cpp:46-52), or an
      exception. *)
  Inductive ref :=
  | RInt (i : Z) | RFloat (f : F) | RString (n : nat)
  | RInts (n : option nat) | RFloats (n : option nat) | RStrings (n : option nat).
  Inductive outcome := Ok (r : ref) | Failed.

  (** tokenError (riblexer.cpp:344-386). *)
  Definition token_error (t : token) (x : lexer) : outcome * lexer :=
    match t with
    | TEof _ | TRequest _ _ => (Failed, tok_unget x)
    | _ => (Failed, x)
    end.

  (** getInt, getFloat (riblexer.cpp:121-142). *)
  Definition get_int (x : lexer) : outcome * lexer :=
    let (t, x1) := tok_get x in
    match t with TInteger _ i => (Ok (RInt i), x1) | _ => token_error t x1 end.
  Definition get_float (x : lexer) : outcome * lexer :=
    let (t, x1) := tok_get x in
    match t with
    | TInteger _ i => (Ok (RFloat (of_int i)), x1)
    | TFloat _ f => (Ok (RFloat f), x1)
    | _ => token_error t x1
    end.

  (** The end of getString and nextRequest (riblexer.cpp:110-118, 149-151). *)
  Definition store_string (s : list Z) (x : lexer) : outcome * lexer :=
    let (n, p) := get_buf (strings x) in (Ok (RString n), with_strings x (fill n s p)).

  (** getString (riblexer.cpp:144-152). *)
  Definition get_string (x : lexer) : outcome * lexer :=
    let (t, x1) := tok_get x in
    match t with TString _ s => store_string s x1 | _ => token_error t x1 end.

  (** The loops over the elements of an array (riblexer.cpp:173-189, 202-221,
      250-266); the tokeniser has no token in stock there.  [take]: the
      element that a token adds.  Gives the elements, the token that ended
      the loop, and what is left. *)
  Fixpoint elements {A} (take : token -> option A) (acc : list A) (l : list token) : list A * token * list token :=
    match l with
    | [] => (acc, TEof F, [])
    | t :: r =>
        match take t with
        | Some a => elements take (acc ++ [a]) r
        | None => (acc, t, r)
        end
    end.
  Definition take_int (t : token) : option Z := match t with TInteger _ i => Some i | _ => None end.
  Definition take_float (t : token) : option F :=
    match t with TInteger _ i => Some (of_int i) | TFloat _ f => Some f | _ => None end.
  Definition take_string (t : token) : option (list Z) := match t with TString _ s => Some s | _ => None end.

  (** toRiArray (riblexer.cpp:46-57). *)
  Definition to_array {A} (l : list A) (n : nat) : option nat := match l with [] => None | _ => Some n end.

  (** getIntArray (riblexer.cpp:166-191) and getStringArray
      (riblexer.cpp:243-268). *)
  Definition get_int_array (x : lexer) : outcome * lexer :=
    let (t, x1) := tok_get x in
    match t with
    | TArrayBegin _ =>
        let (n, p) := get_buf (ints x1) in
        match elements take_int [] (src x1) with
        | (l, t', r) =>
            let x2 := with_ints (with_input x1 r t' false) (fill n l p) in
            match t' with TArrayEnd _ => (Ok (RInts (to_array l n)), x2) | _ => token_error t' x2 end
        end
    | _ => token_error t x1
    end.
  Definition get_string_array (x : lexer) : outcome * lexer :=
    let (t, x1) := tok_get x in
    match t with
    | TArrayBegin _ =>
        let (n, p) := get_buf (arrays x1) in
        match elements take_string [] (src x1) with
        | (l, t', r) =>
            let x2 := with_arrays (with_input x1 r t' false) (fill n l p) in
            match t' with TArrayEnd _ => (Ok (RStrings (to_array l n)), x2) | _ => token_error t' x2 end
        end
    | _ => token_error t x1
    end.

  (** The loop of getFloatArray without brackets (riblexer.cpp:229-234). *)
  Fixpoint plain_floats (n : nat) (acc : list F) (x : lexer) : option (list F) * list F * lexer :=
    match n with
    | O => (Some acc, acc, x)
    | S m => match get_float x with
             | (Ok (RFloat f), x1) => plain_floats m (acc ++ [f]) x1
             | (_, x1) => (None, acc, x1)
             end
    end.

  (** getFloatArray (riblexer.cpp:193-241). *)
  Definition get_float_array (len : Z) (x : lexer) : outcome * lexer :=
    let (n, p) := get_buf (floats x) in
    let x0 := with_floats x p in
    let (t, x1) := tok_peek x0 in
    match t with
    | TArrayBegin _ =>
        let (_, x2) := tok_get x1 in
        match elements take_float [] (src x2) with
        | (l, t', r) =>
            let x3 := with_floats (with_input x2 r t' false) (fill n l (floats x2)) in
            match t' with
            | TArrayEnd _ =>
                if (0 <=? len) && negb (Z.of_nat (length l) =? len) then (Failed, x3)
                else (Ok (RFloats (to_array l n)), x3)
            | _ => token_error t' x3
            end
        end
    | _ =>
        if 0 <=? len then
          match plain_floats (Z.to_nat len) [] x1 with
          | (res, l, x2) =>
              let x3 := with_floats x2 (fill n l (floats x2)) in
              match res with Some _ => (Ok (RFloats (to_array l n)), x3) | None => (Failed, x3) end
          end
        else let (t', x2) := tok_get x1 in token_error t' x2
    end.

  (** getIntParam, getFloatParam and getStringParam (riblexer.cpp:287-329). *)
  Definition get_int_param (x : lexer) : outcome * lexer :=
    let (t, x1) := tok_peek x in
    match t with
    | TInteger _ i =>
        let (n, p) := get_buf (ints x1) in
        let (_, x2) := tok_get x1 in (Ok (RInts (Some n)), with_ints x2 (fill n [i] p))
    | _ => get_int_array x1
    end.
  Definition get_float_param (x : lexer) : outcome * lexer :=
    let (t, x1) := tok_peek x in
    let one f :=
        let (n, p) := get_buf (floats x1) in
        let (_, x2) := tok_get x1 in (Ok (RFloats (Some n)), with_floats x2 (fill n [f] p)) in
    match t with
    | TInteger _ i => one (of_int i)
    | TFloat _ f => one f
    | _ => get_float_array (-1) x1
    end.
  Definition get_string_param (x : lexer) : outcome * lexer :=
    let (t, x1) := tok_peek x in
    match t with
    | TString _ s =>
        let (n, p) := get_buf (arrays x1) in
        let (_, x2) := tok_get x1 in (Ok (RStrings (Some n)), with_arrays x2 (fill n [s] p))
    | _ => get_string_array x1
    end.

  (** The reads of the interface (riblexer.h:209-268). *)
  Inductive kind :=
  | KInt | KFloat | KString | KInts | KFloats (len : Z) | KStrings
  | KIntParam | KFloatParam | KStringParam.

  Definition read (k : kind) (x : lexer) : outcome * lexer :=
    match k with
    | KInt => get_int x | KFloat => get_float x | KString => get_string x
    | KInts => get_int_array x | KFloats n => get_float_array n x | KStrings => get_string_array x
    | KIntParam => get_int_param x | KFloatParam => get_float_param x | KStringParam => get_string_param x
    end.

  (** peekNextType (riblexer.cpp:270-285). *)
  Inductive next_type := NInt | NFloat | NString | NArray | NRequestEnd.
  Definition peek_next_type (x : lexer) : next_type * lexer :=
    let (t, x1) := tok_peek x in
    (match t with
     | TArrayBegin _ => NArray | TString _ _ => NString | TInteger _ _ => NInt | TFloat _ _ => NFloat
     | _ => NRequestEnd
     end, x1).

  (** discardUntilRequest (riblexer.cpp:71-79).  After the first peek the
      tokeniser has a token in stock; each round takes it and stocks the next. *)
  Definition stops_discard (t : token) : bool := match t with TRequest _ _ | TEof _ => true | _ => false end.
  Fixpoint discard_from (t : token) (l : list token) : token * list token :=
    if stops_discard t then (t, l)
    else match l with [] => (TEof F, []) | t' :: r => discard_from t' r end.
  Definition discard_until_request (x : lexer) : lexer :=
    let (t, x1) := tok_peek x in
    let (t', r) := discard_from t (src x1) in with_input x1 r t' true.

  (** nextRequest (riblexer.cpp:97-119); [None]: end of the stream. *)
  Definition next_request (x : lexer) : option outcome * lexer :=
    let x0 := mkLexer (src x) (tok x) (have x) (mark_unused (strings x)) (mark_unused (floats x))
                      (mark_unused (ints x)) (mark_unused (arrays x)) in
    let (t, x1) := tok_get x0 in
    match t with
    | TEof _ => (None, x1)
    | TRequest _ s => let (o, x2) := store_string s x1 in (Some o, x2)
    | _ => let (o, x2) := token_error t x1 in (Some o, x2)
    end.

  (** What the caller sees through a pointer. *)
  Fixpoint cstr (s : list Z) : list Z :=
    match s with [] => [] | c :: r => if c =? 0 then [] else c :: cstr r end.
  Inductive value :=
  | VInt (i : Z) | VFloat (f : F) | VString (s : list Z)
  | VInts (l : list Z) | VFloats (l : list F) | VStrings (l : list (list Z)).
  Definition buf {A} (n : option nat) (p : pool A) : list A :=
    match n with None => [] | Some i => nth i (bufs p) [] end.
  Definition deref (x : lexer) (r : ref) : value :=
    match r with
    | RInt i => VInt i | RFloat f => VFloat f
    | RString n => VString (cstr (buf (Some n) (strings x)))
    | RInts n => VInts (buf n (ints x)) | RFloats n => VFloats (buf n (floats x))
    | RStrings n => VStrings (map cstr (buf n (arrays x)))
    end.

  (** * parseStream *)

  (** A handler reads arguments, looks at the type of the next one, throws an
      exception, or is done; what it does depends on what it has seen of the
      request so far, latest first. *)
  Inductive seen := Saw (v : value) | SawType (n : next_type).
  Inductive action := Read (k : kind) | Peek | Throw | Done.
  Definition handler := list seen -> action.

  (** A run of a handler: [true] if it was done, [false] after an exception. *)
  Inductive handles (h : handler) : list seen -> lexer -> bool -> lexer -> Prop :=
  | h_done : forall past x, h past = Done -> handles h past x true x
  | h_throw : forall past x, h past = Throw -> handles h past x false x
  | h_peek : forall past x t x1 b x2, h past = Peek -> peek_next_type x = (t, x1) ->
      handles h (SawType t :: past) x1 b x2 -> handles h past x b x2
  | h_read : forall past x k r x1 b x2, h past = Read k -> read k x = (Ok r, x1) ->
      handles h (Saw (deref x1 r) :: past) x1 b x2 -> handles h past x b x2
  | h_fail : forall past x k x1, h past = Read k -> read k x = (Failed, x1) -> handles h past x false x1.

  (** The loop of parseStream (ribparser.cpp:211-260).  [handler_of]: the map
      of handlers.  The result is the list of requests met, in order, each
      with whether its handler was done. *)
  Inductive parses (handler_of : list Z -> option handler) : lexer -> list (list Z * bool) -> lexer -> Prop :=
  | p_end : forall x x', next_request x = (None, x') -> parses handler_of x [] x'
  | p_none : forall x x1 es x', next_request x = (Some Failed, x1) ->
      parses handler_of (discard_until_request x1) es x' -> parses handler_of x es x'
  | p_unknown : forall x r x1 n es x', next_request x = (Some (Ok r), x1) -> deref x1 r = VString n ->
      handler_of n = None -> parses handler_of (discard_until_request x1) es x' ->
      parses handler_of x ((n, false) :: es) x'
  | p_done : forall x r x1 n h x2 es x', next_request x = (Some (Ok r), x1) -> deref x1 r = VString n ->
      handler_of n = Some h -> handles h [] x1 true x2 -> parses handler_of x2 es x' ->
      parses handler_of x ((n, true) :: es) x'
  | p_failed : forall x r x1 n h x2 es x', next_request x = (Some (Ok r), x1) -> deref x1 r = VString n ->
      handler_of n = Some h -> handles h [] x1 false x2 -> parses handler_of (discard_until_request x2) es x' ->
      parses handler_of x ((n, false) :: es) x'.
End Lexer.

(** Model of the RIB tokeniser.

    Modelled code: RibTokenizer (/repo/libs/riutil/ribtokenizer.h:70-206,
    /repo/libs/riutil/ribtokenizer.cpp:52-710) and RibToken
    (/repo/libs/riutil/ribtoken.h:38-208).

    Simplifications:
    - The input buffer is the list of bytes not yet read: get() takes the first
      one, or 255 when there is none, and unget() puts it back.  The tokeniser
      never ungets twice in a row, so this is what it sees of the buffer
      modelled in RibBufModel.v, by theorem C01.
    - Token positions, the names of streams and the text of error messages are
      left out, and comments are skipped without calling anybody.
    - Floats are an arbitrary type with arbitrary operations.
    - Signed overflow while reading an ASCII number is undefined behaviour and
      ends the model's run.
    - The shift of a byte into the sign bit (decodeInt) is taken to work, as it
      does with every compiler and by definition since C++14. *)

From Coq Require Import List Bool Arith ZArith.
From Verif Require Import RibBufModel.
Import ListNotations.
Open Scope Z_scope.

(** get() on what is left of the input. *)
Definition first (l : list Z) : Z := hd eof l.

Definition int_max : Z := 2147483647.
(** Conversion of an unsigned 32 bit number to int. *)
Definition to_int (z : Z) : Z := if z <=? int_max then z else z - 4294967296.

Section Floats.
  Variable F : Type.
  Variable of_bits32 : Z -> F.      (* reinterpretation of 32 bits as a float *)
  Variable of_bits64 : Z -> F.      (* of 64 bits as a double, converted to float *)
  Variable of_int : Z -> F.         (* conversion of an integer *)
  Variable add mul : F -> F -> F.   (* operations on floats *)
  Variable times_tenth : F -> F.    (* [x *= 0.1], computed in double *)
  Variable tenth : F.               (* [float x = 0.1] *)
  Variable times_pow10 : F -> Z -> F. (* [x *= std::pow(10.0, e)] *)
  Variable fixed : Z -> Z -> Z -> F. (* [mag + float(frac) / (1 << (8 * radixPos))] *)

  (** RibToken (ribtoken.h:44-54). *)
  Inductive token :=
  | TArrayBegin | TArrayEnd
  | TString (s : list Z) | TInteger (i : Z) | TFloat (f : F) | TRequest (s : list Z)
  | TError | TEof.

  Definition is_digit (c : Z) : bool := (48 <=? c) && (c <=? 57).

  (** The loop over digits (ribtokenizer.cpp:385-395, 448-454): the integer,
      [None] after overflow, the float computed at the same time, and the rest
      of the input. *)
  Fixpoint digits (i : option Z) (f : F) (l : list Z) : option Z * F * list Z :=
    match l with
    | c :: r =>
        if is_digit c
        then digits (match i with
                     | Some n => let n' := n * 10 + (c - 48) in
                                 if n' <=? int_max then Some n' else None
                     | None => None
                     end)
                    (add (mul f (of_int 10)) (of_int (c - 48))) r
        else (i, f, l)
    | [] => (i, f, [])
    end.

  (** The loop over the digits after the point (ribtokenizer.cpp:407-413). *)
  Fixpoint fraction (f place : F) (l : list Z) : F * list Z :=
    match l with
    | c :: r =>
        if is_digit c
        then fraction (add f (mul (of_int (c - 48)) place)) (times_tenth place) r
        else (f, l)
    | [] => (f, [])
    end.

  (** The optional sign (ribtokenizer.cpp:368-380, 432-443). *)
  Definition sign_of (l : list Z) : Z * list Z :=
    if first l =? 43 then (1, tl l) else if first l =? 45 then (-1, tl l) else (1, l).

  (** The exponent (ribtokenizer.cpp:430-461). *)
  Definition exponent (f : F) (l : list Z) : option (token * list Z) :=
    let (sign, l1) := sign_of l in
    if negb (is_digit (first l1)) then Some (TError, tl l1)
    else match digits (Some 0) f l1 with
         | (Some e, _, l2) => Some (TFloat (times_pow10 f (sign * e)), l2)
         | (None, _, _) => None
         end.

  (** readNumber (ribtokenizer.cpp:358-462); [None] after signed overflow. *)
  Definition read_number (l : list Z) : option (token * list Z) :=
    let (sign, l1) := sign_of l in
    let have := is_digit (first l1) in
    match digits (Some 0) (of_int 0) l1 with
    | (None, _, _) => None
    | (Some i, f, l2) =>
        if first l2 =? 46 then
          let l3 := tl l2 in
          if negb have && negb (is_digit (first l3)) then Some (TError, tl l3)
          else
            let (f1, l4) := fraction f tenth l3 in
            let f2 := mul f1 (of_int sign) in
            if (first l4 =? 101) || (first l4 =? 69) then exponent f2 (tl l4)
            else Some (TFloat f2, l4)
        else if (first l2 =? 101) || (first l2 =? 69) then exponent (mul f (of_int sign)) (tl l2)
        else if negb have then Some (TError, tl l2)
        else Some (TInteger (i * sign), l2)
    end.

  (** readString (ribtokenizer.cpp:468-514), after the opening quote; [acc] is
      the string so far, backwards. *)
  Fixpoint read_string (acc : list Z) (l : list Z) : token * list Z :=
    match l with
    | [] => (TError, [])
    | c :: r =>
        if c =? 34 then (TString (rev acc), r)
        else if c =? 92 then
          match r with
          | d :: r' => if d =? 32 then read_string (32 :: acc) r' else read_string (d :: 92 :: acc) r'
          | [] => (TError, [])
          end
        else if c =? CR then
          match r with
          | d :: r' => if d =? LF then read_string (LF :: acc) r' else read_string (LF :: acc) r
          | [] => (TError, [])
          end
        else if c =? eof then (TError, r)
        else read_string (c :: acc) r
    end.

  (** The characters of a request (ribtokenizer.cpp:524-546). *)
  Definition in_request (c : Z) : bool :=
    (0 <=? c) && (c <? 128) &&
    negb ((c =? 32) || (c =? 9) || (c =? 10) || (c =? 13) || (c =? 35) || (c =? 34) || (c =? 91) || (c =? 93)).

  (** readRequest (ribtokenizer.cpp:517-556). *)
  Fixpoint read_request (acc : list Z) (l : list Z) : token * list Z :=
    match l with
    | c :: r => if in_request c then read_request (c :: acc) r else (TRequest (rev acc), l)
    | [] => (TRequest (rev acc), [])
    end.

  (** readComment (ribtokenizer.cpp:558-577). *)
  Fixpoint read_comment (l : list Z) : list Z :=
    match l with
    | c :: r => if (c =? LF) || (c =? CR) || (c =? eof) then l else read_comment r
    | [] => []
    end.

  (** decodeInt (ribtokenizer.cpp:586-598), reading [n] bytes. *)
  Fixpoint decode_int_from (acc : Z) (n : nat) (l : list Z) : Z * list Z :=
    match n with
    | O => (acc, l)
    | S m => decode_int_from (acc * 256 + first l) m (tl l)
    end.
  Definition decode_int (n : nat) (l : list Z) : Z * list Z := decode_int_from 0 n l.

  (** decodeFixedPoint (ribtokenizer.cpp:621-628); decodeInt of no bytes or
      fewer is 0. *)
  Definition decode_fixed (num radix : Z) (l : list Z) : F * list Z :=
    let (mag, l1) := decode_int (Z.to_nat (num - radix)) l in
    let (frac, l2) := decode_int (Z.to_nat (Z.min radix num)) l1 in
    (fixed mag frac radix, l2).

  (** decodeFloat32 and decodeFloat64 (ribtokenizer.cpp:636-664). *)
  Definition decode_float32 (l : list Z) : F * list Z :=
    let (i, l1) := decode_int 4 l in (of_bits32 i, l1).
  Definition decode_float64 (l : list Z) : F * list Z :=
    let (hi, l1) := decode_int 4 l in
    let (lo, l2) := decode_int 4 l1 in (of_bits64 (hi * 4294967296 + lo), l2).

  (** decodeString (ribtokenizer.cpp:675-683): [n] times get(). *)
  Definition decode_string (n : Z) (l : list Z) : token * list Z :=
    let k := Z.to_nat n in
    (TString (firstn k l ++ repeat eof (k - length l)), skipn k l).

  (** What the tokeniser remembers besides its input: m_encodedRequests (no
      name: empty string), m_encodedStrings, m_arrayElementsRemaining
      (ribtokenizer.h:164-171). *)
  Record coding := mkCoding {
    reqs : Z -> list Z;
    strs : Z -> option (list Z);
    left : Z }.

  Definition upd {A} (f : Z -> A) (k : Z) (v : A) : Z -> A := fun x => if x =? k then v else f x.

  Inductive scanned :=
  | Scanned (t : token) (k : coding) (l : list Z)
  | Overflow      (* signed overflow in a number *)
  | OutOfFuel.

  (** scanNext (ribtokenizer.cpp:138-355) with some input; the fuel bounds the
      rounds of the loop plus the depth of the recursion. *)
  Fixpoint scan (fuel : nat) (k : coding) (l : list Z) : scanned :=
    match fuel with
    | O => OutOfFuel
    | S n =>
      if 0 <=? left k then
        let k' := mkCoding (reqs k) (strs k) (left k - 1) in
        if left k - 1 <? 0 then Scanned TArrayEnd k' l
        else let (f, l1) := decode_float32 l in Scanned (TFloat f) k' l1
      else
        let c := first l in
        let r := tl l in
        if (c =? 32) || (c =? 9) || (c =? LF) || (c =? CR) then scan n k r
        else if c =? 35 then scan n k (read_comment r)
        else if is_digit c || (c =? 45) || (c =? 43) || (c =? 46) then
          match read_number l with Some (t, l1) => Scanned t k l1 | None => Overflow end
        else if c =? 34 then let (t, l1) := read_string [] r in Scanned t k l1
        else if c =? 91 then Scanned TArrayBegin k r
        else if c =? 93 then Scanned TArrayEnd k r
        else if c <? 128 then let (t, l1) := read_request [] l in Scanned t k l1
        else if c <? 132 then                                   (* 0200-0203 *)
          let (i, l1) := decode_int (Z.to_nat (c - 128 + 1)) r in Scanned (TInteger (to_int i)) k l1
        else if c <? 144 then                                   (* 0204-0217 *)
          let (f, l1) := decode_fixed (Z.land (c - 128) 3 + 1) (Z.land (Z.shiftr (c - 128) 2) 3) r in
          Scanned (TFloat f) k l1
        else if c <? 160 then                                   (* 0220-0237 *)
          let (t, l1) := decode_string (c - 144) r in Scanned t k l1
        else if c <? 164 then                                   (* 0240-0243 *)
          let (i, l1) := decode_int (Z.to_nat (c - 160 + 1)) r in
          let (t, l2) := decode_string (to_int i) l1 in Scanned t k l2
        else if c =? 164 then let (f, l1) := decode_float32 r in Scanned (TFloat f) k l1
        else if c =? 165 then let (f, l1) := decode_float64 r in Scanned (TFloat f) k l1
        else if c =? 166 then                                   (* 0246 *)
          match reqs k (first r) with
          | [] => Scanned TError k (tl r)
          | s => Scanned (TRequest s) k (tl r)
          end
        else if c <? 200 then Scanned TError k r                (* 0247-0307 *)
        else if c <? 204 then                                   (* 0310-0313 *)
          let (i, l1) := decode_int (Z.to_nat (c - 200 + 1)) r in
          Scanned TArrayBegin (mkCoding (reqs k) (strs k) (to_int i)) l1
        else if c =? 204 then                                   (* 0314 *)
          match scan n k (tl r) with
          | Scanned (TString (x :: s)) k1 l1 =>
              scan n (mkCoding (upd (reqs k1) (first r) (x :: s)) (strs k1) (left k1)) l1
          | Scanned _ k1 l1 => Scanned TError k1 l1
          | e => e
          end
        else if c <? 207 then                                   (* 0315-0316 *)
          let (code, l0) := decode_int (Z.to_nat (c - 205 + 1)) r in
          match scan n k l0 with
          | Scanned (TString s) k1 l1 =>
              scan n (mkCoding (reqs k1) (upd (strs k1) code (Some s)) (left k1)) l1
          | Scanned _ k1 l1 => Scanned TError k1 l1
          | e => e
          end
        else if c <? 209 then                                   (* 0317-0320 *)
          let (code, l1) := decode_int (Z.to_nat (c - 207 + 1)) r in
          match strs k code with
          | Some s => Scanned (TString s) k l1
          | None => Scanned TError k l1
          end
        else if c <? 255 then Scanned TError k r                (* 0321-0376 *)
        else Scanned TEof k r
    end.

  (** The constructor (ribtokenizer.cpp:79-90). *)
  Definition no_codes : coding := mkCoding (fun _ => []) (fun _ => None) (-1).

  (** Calling scanNext until it gives end of file: the tokens before it. *)
  Inductive scans : coding -> list Z -> list token -> coding -> list Z -> Prop :=
  | scans_eof : forall fuel k l k' l', scan fuel k l = Scanned TEof k' l' -> scans k l [] k' l'
  | scans_more : forall fuel k l t k1 l1 ts k' l',
      scan fuel k l = Scanned t k1 l1 -> t <> TEof -> scans k1 l1 ts k' l' -> scans k l (t :: ts) k' l'.
End Floats.

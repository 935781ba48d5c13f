(** Escape sequences in strings: CqString::ExpandEscapes and
    CqString::TranslateEscapes.

    A string is the list of its characters before the terminating zero.
    Characters are signed numbers of eight bits (char on x86), and shifting a
    negative number to the left behaves as compilers do it. *)

From Coq Require Import List Bool ZArith.
Import ListNotations.
Open Scope Z_scope.

(** Conversion of an int to TqChar. *)
Definition to_char (n : Z) : Z := (n + 128) mod 256 - 128.

(** The characters after "\x": libs/util/sstring.cpp:88-101; [n] turns are
    left. *)
Fixpoint nibbles (n : nat) (c : Z) : list Z :=
  match n with
  | O => []
  | S m =>
      let value := Z.land (Z.shiftr c 12) 15 in
      (if value <=? 9 then to_char (48 + value) else to_char (97 + value))
        :: nibbles m (to_char (Z.shiftl c 4))
  end.

(** One turn of the loop of ExpandEscapes: libs/util/sstring.cpp:49-106.  The
    sums of two characters in lines 56, 59 and 62 are sums of ints. *)
Definition expand_char (c : Z) : list Z :=
  if 32 <=? c then
    if c =? 92 then [to_char (92 + 92)]
    else if c =? 39 then [to_char (92 + 39)]
    else if c =? 34 then [to_char (92 + 34)]
    else [c]
  else
    92 :: (if c =? 7 then [97]
           else if c =? 8 then [98]
           else if c =? 10 then [110]
           else if c =? 13 then [114]
           else if c =? 9 then [116]
           else if c =? 0 then [48]
           else 120 :: nibbles 4 c).

(** ExpandEscapes: libs/util/sstring.cpp:38-111. *)
Definition expand (s : list Z) : list Z := flat_map expand_char s.

(** Where TranslateEscapes is in its loops: between characters, after a
    backslash, or in the loops reading octal or hexadecimal digits with the
    value so far; libs/util/sstring.cpp:124-196. *)
Inductive mode := Outside | Escaped | Octal (v : Z) | Hex (v : Z).

Definition is_octal (c : Z) : bool := (48 <=? c) && (c <=? 55).
Definition is_digit (c : Z) : bool := (48 <=? c) && (c <=? 57).
Definition is_upper (c : Z) : bool := (65 <=? c) && (c <=? 70).
Definition is_lower (c : Z) : bool := (97 <=? c) && (c <=? 102).

(** The value with one more digit: libs/util/sstring.cpp:159 and 172-180,
    converted to TqChar after each operation that stores it. *)
Definition octal_digit (v c : Z) : Z := to_char (v * 8 + c - 48).
Definition hex_digit (v c : Z) : Z :=
  let v := to_char (v * 16) in
  if is_digit c then to_char (v + (c - 48))
  else if is_upper c then to_char (v + (c - 65 + 10))
  else to_char (v + (c - 97 + 10)).

(** A character outside escapes: libs/util/sstring.cpp:126, 191-192. *)
Definition outside (c : Z) : list Z * mode := if c =? 92 then ([], Escaped) else ([c], Outside).

(** A character after a backslash: libs/util/sstring.cpp:128-189.  The loop
    reading octal digits begins with this character. *)
Definition escaped (c : Z) : list Z * mode :=
  if c =? 97 then ([7], Outside)
  else if c =? 98 then ([8], Outside)
  else if c =? 110 then ([10], Outside)
  else if c =? 114 then ([13], Outside)
  else if c =? 116 then ([9], Outside)
  else if c =? 48 then ([], Octal (octal_digit 0 48))
  else if c =? 120 then ([], Hex 0)
  else ([c], Outside).

(** What is put out for one character and the mode afterwards; a character
    that ends a number is read again (the str-- of lines 163 and 184). *)
Definition take (m : mode) (c : Z) : list Z * mode :=
  match m with
  | Outside => outside c
  | Escaped => escaped c
  | Octal v =>
      if is_octal c then ([], Octal (octal_digit v c))
      else let (o, m') := outside c in (v :: o, m')
  | Hex v =>
      if is_digit c || is_upper c || is_lower c then ([], Hex (hex_digit v c))
      else let (o, m') := outside c in (v :: o, m')
  end.

(** TranslateEscapes: libs/util/sstring.cpp:119-200.  None: a backslash is the
    last character, so that the terminating zero is taken for the escaped
    character and the loop reads on behind the end of the string. *)
Fixpoint translate_from (m : mode) (s : list Z) : option (list Z) :=
  match s with
  | [] =>
      match m with
      | Outside => Some []
      | Escaped => None
      | Octal v | Hex v => Some [v]
      end
  | c :: r =>
      let (o, m') := take m c in
      match translate_from m' r with Some t => Some (o ++ t) | None => None end
  end.

Definition translate (s : list Z) : option (list Z) := translate_from Outside s.

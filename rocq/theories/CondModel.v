(** Conditions of IfBegin and ElseIf: libs/core/api/condition.cpp.

    A string is the list of its bytes without the zero at its end.  Floats are
    rationals; [near] is the rounding to a float, of which nothing is used
    (overflow to infinity is not modelled).
    What the attributes and options in force hold is given by the functions
    [attribute] and [option_of] (CqAttributes::pParameter,
    libs/core/attributes.cpp:202-210, and CqOptions::pParameter). *)

From Coq Require Import List Bool ZArith QArith.
From Verif Require Import HashModel.
Import ListNotations.
Open Scope Z_scope.

(** The answer of the test; undefined behaviour; or a text the model does not
    cover (numbers that are infinite, not a number, hexadecimal, or that end
    within their exponent). *)
Inductive answer := Says (b : bool) | Undefined | Uncovered.

(** The value of a parameter: the first value for scalars, three floats for
    points, vectors, normals and colours, or another type. *)
Inductive value :=
| Integer (z : Z)
| Float (q : Q)
| Triple (x y z : Q)
| Text (s : list Z)
| Other.

(** ** Library functions *)

(** isspace in the C locale. *)
Definition space (c : Z) : bool := (c =? 32) || ((9 <=? c) && (c <=? 13)).
Definition digit (c : Z) : bool := (48 <=? c) && (c <=? 57).

(** White space in a format, and before conversions. *)
Fixpoint skip (s : list Z) : list Z :=
  match s with
  | c :: r => if space c then skip r else s
  | [] => []
  end.

(** The characters up to the next white space. *)
Fixpoint word (s : list Z) : list Z * list Z :=
  match s with
  | c :: r => if space c then ([], s) else let (w, t) := word r in (c :: w, t)
  | [] => ([], [])
  end.

(** The conversion %s. *)
Definition scan_word (s : list Z) : option (list Z * list Z) :=
  match word (skip s) with
  | ([], _) => None
  | (w, t) => Some (w, t)
  end.

(** Digits, with the value so far and the number of digits. *)
Fixpoint digits (v : Z) (n : nat) (s : list Z) : Z * nat * list Z :=
  match s with
  | c :: r => if digit c then digits (v * 10 + (c - 48)) (S n) r else (v, n, s)
  | [] => (v, n, [])
  end.

(** A sign. *)
Definition sign (s : list Z) : bool * list Z :=
  match s with
  | c :: r => if c =? 45 then (true, r) else if c =? 43 then (false, r) else (false, s)
  | [] => (false, [])
  end.

Definition signed (neg : bool) (v : Z) : Z := if neg then - v else v.

Inductive scanned (A : Type) := Got (a : A) (rest : list Z) | Nothing | Strange.
Arguments Got {A}. Arguments Nothing {A}. Arguments Strange {A}.

(** The range of TqInt. *)
Definition in_int (z : Z) : bool := (- 2 ^ 31 <=? z) && (z <? 2 ^ 31).

(** The conversion %d.  Numbers that do not fit are undefined for sscanf: Some
    Strange stands for them in [int_condition]. *)
Definition scan_int (s : list Z) : scanned Z :=
  let (neg, t) := sign (skip s) in
  let '(v, n, r) := digits 0 0 t in
  match n with
  | O => Nothing
  | S _ => if in_int (signed neg v) then Got (signed neg v) r else Strange
  end.

(** v * 10^e *)
Definition scale (v e : Z) : Q :=
  if 0 <=? e then inject_Z (v * 10 ^ e) else Qmake v (Z.to_pos (10 ^ (- e))).

Definition is_e (c : Z) : bool := (c =? 101) || (c =? 69).

(** The beginning of a hexadecimal number. *)
Definition hexadecimal (t : list Z) : bool :=
  match t with
  | a :: b :: _ => (a =? 48) && ((b =? 120) || (b =? 88))
  | _ => false
  end.

(** The conversion %f. *)
Definition scan_float (s : list Z) : scanned Q :=
  let (neg, t) := sign (skip s) in
  match t with
  | c :: _ =>
      if hexadecimal t || (c =? 105) || (c =? 73) || (c =? 110) || (c =? 78) then Strange
      else
        let '(v, n, r) := digits 0 0 t in
        let '(v', n', r') :=
          match r with
          | c :: r' => if c =? 46 then digits v 0 r' else (v, O, r)
          | [] => (v, O, r)
          end in
        match (n + n')%nat with
        | O => Nothing
        | S _ =>
            match r' with
            | c :: q =>
                if is_e c then
                  let (neg', q') := sign q in
                  let '(e, m, q'') := digits 0 0 q' in
                  match m with
                  | O => Strange
                  | S _ => Got (scale (signed neg v') (signed neg' e - Z.of_nat n')) q''
                  end
                else Got (scale (signed neg v') (- Z.of_nat n')) r'
            | [] => Got (scale (signed neg v') (- Z.of_nat n')) r'
            end
        end
  | [] => Nothing
  end.

(** strtok with ":": the next part, without the colons before it, and what is
    left for the next call. *)
Fixpoint colons (s : list Z) : list Z :=
  match s with
  | c :: r => if c =? 58 then colons r else s
  | [] => []
  end.
Fixpoint part (s : list Z) : list Z * list Z :=
  match s with
  | c :: r => if c =? 58 then ([], r) else let (w, t) := part r in (c :: w, t)
  | [] => ([], [])
  end.
Definition strtok (s : list Z) : option (list Z) * list Z :=
  match colons s with
  | [] => (None, [])
  | t => let (w, r) := part t in (Some w, r)
  end.

(** strcmp(...) == 0 *)
Fixpoint same (a b : list Z) : bool :=
  match a, b with
  | [], [] => true
  | x :: a, y :: b => (x =? y) && same a b
  | _, _ => false
  end.

(** strstr(s, t) != 0 *)
Fixpoint prefix (t s : list Z) : bool :=
  match t, s with
  | [], _ => true
  | x :: t, y :: s => (x =? y) && prefix t s
  | _, _ => false
  end.
Fixpoint strstr (s t : list Z) : bool :=
  prefix t s || match s with [] => false | _ :: r => strstr r t end.

(** ** The test *)

(** The hashes of the relations: condition.cpp:40-51, for the 64 bits of
    TqUlong. *)
Definition op_hash (s : list Z) : Z := hash (2 ^ 64) s.
Definition RIH_eq := op_hash [61; 61].
Definition RIH_ne := op_hash [33; 61].
Definition RIH_le := op_hash [60; 61].
Definition RIH_lt := op_hash [60].
Definition RIH_ge := op_hash [62; 61].
Definition RIH_gt := op_hash [62].
Definition RIH_mul := op_hash [42].
Definition RIH_div := op_hash [47].
Definition RIH_add := op_hash [43].
Definition RIH_sub := op_hash [45].

(** condition.cpp:54-59. *)
Definition is_math (comp : Z) : bool :=
  (comp =? RIH_mul) || (comp =? RIH_div) || (comp =? RIH_add) || (comp =? RIH_sub).

(** An operation on ints that overflows is undefined. *)
Definition nonzero_int (z : Z) : answer := if in_int z then Says (negb (z =? 0)) else Undefined.

(** MathCondition<TqInt>: condition.cpp:61-82. *)
Definition math_int (a b comp : Z) : answer :=
  if comp =? RIH_mul then nonzero_int (a * b)
  else if comp =? RIH_div then
    if b =? 0 then Says false
    else if a =? 0 then Says false
    else nonzero_int (Z.quot a b)
  else if comp =? RIH_add then nonzero_int (a + b)
  else if comp =? RIH_sub then nonzero_int (a - b)
  else Says true.

(** LogicCondition<TqInt>: condition.cpp:84-100. *)
Definition logic_int (a b comp : Z) : answer :=
  if comp =? RIH_eq then Says (a =? b)
  else if comp =? RIH_ne then Says (negb (a =? b))
  else if comp =? RIH_le then Says (a <=? b)
  else if comp =? RIH_lt then Says (a <? b)
  else if comp =? RIH_ge then Says (b <=? a)
  else if comp =? RIH_gt then Says (b <? a)
  else Says false.

(** Condition<TqInt>: condition.cpp:102-110. *)
Definition condition_int (a b comp : Z) : answer :=
  if is_math comp then math_int a b comp else logic_int a b comp.

Section Condition.
Variable near : Q -> Q.
Variables attribute option_of : list Z -> list Z -> option value.

(** MathCondition<TqFloat>, LogicCondition<TqFloat> and Condition<TqFloat>:
    condition.cpp:61-110; results are rounded, a result that overflows is not
    zero. *)
Definition nonzero (q : Q) : bool := negb (Qeq_bool (near q) 0).
Definition qlt (a b : Q) : bool := negb (Qle_bool b a).
Definition math_float (a b : Q) (comp : Z) : bool :=
  if comp =? RIH_mul then nonzero (a * b)
  else if comp =? RIH_div then
    if Qeq_bool b 0 then false
    else if Qeq_bool a 0 then false
    else nonzero (a / b)
  else if comp =? RIH_add then nonzero (a + b)
  else if comp =? RIH_sub then nonzero (a - b)
  else true.
Definition logic_float (a b : Q) (comp : Z) : bool :=
  if comp =? RIH_eq then Qeq_bool a b
  else if comp =? RIH_ne then negb (Qeq_bool a b)
  else if comp =? RIH_le then Qle_bool a b
  else if comp =? RIH_lt then qlt a b
  else if comp =? RIH_ge then Qle_bool b a
  else if comp =? RIH_gt then qlt b a
  else false.
Definition condition_float (a b : Q) (comp : Z) : bool :=
  if is_math comp then math_float a b comp else logic_float a b comp.

(** The integer case: condition.cpp:184-197. *)
Definition int_case (a : Z) (comp : Z) (rest : list Z) : answer :=
  match scan_int rest with
  | Got b _ => condition_int a b comp
  | Nothing => Says false
  | Strange => Undefined
  end.

(** The float case: condition.cpp:199-212. *)
Definition float_case (a : Q) (comp : Z) (rest : list Z) : answer :=
  match scan_float rest with
  | Got b _ => Says (condition_float a (near b) comp)
  | Nothing => Says false
  | Strange => Uncovered
  end.

(** The cases of three floats: condition.cpp:213-234.  The bracket before the
    floats is matched after white space. *)
Definition triple_case (x y z : Q) (comp : Z) (rest : list Z) : answer :=
  match skip rest with
  | 91 :: r =>
      match scan_float r with
      | Got b1 r1 =>
          match scan_float r1 with
          | Got b2 r2 =>
              match scan_float r2 with
              | Got b3 _ =>
                  Says (condition_float x (near b1) comp && condition_float y (near b2) comp &&
                        condition_float z (near b3) comp)
              | Nothing => Says false
              | Strange => Uncovered
              end
          | Nothing => Says false
          | Strange => Uncovered
          end
      | Nothing => Says false
      | Strange => Uncovered
      end
  | _ => Says false
  end.

(** The string case: condition.cpp:236-266; the word has to fit into 80
    characters with its zero. *)
Definition string_case (s : list Z) (comp : Z) (rest : list Z) : answer :=
  match scan_word rest with
  | Some (w, _) =>
      if (80 <=? Z.of_nat (length w)) then Undefined
      else if comp =? RIH_eq then Says (strstr w s)
      else if comp =? RIH_ne then Says (negb (strstr w s))
      else Says false
  | None => Says false
  end.

(** The texts "Attribute" and "Option". *)
Definition attribute_text : list Z := [65; 116; 116; 114; 105; 98; 117; 116; 101].
Definition option_text : list Z := [79; 112; 116; 105; 111; 110].

(** The switch over the type of the parameter: condition.cpp:180-274. *)
Definition by_type (v : value) (comp : Z) (rest : list Z) : answer :=
  match v with
  | Integer a => int_case a comp rest
  | Float a => float_case a comp rest
  | Triple x y z => triple_case x y z comp rest
  | Text s => string_case s comp rest
  | Other => Says true
  end.

(** The names in the left side and the parameter they name:
    condition.cpp:152-178.  None: a name is missing, so that a null pointer is
    used as a string. *)
Definition find (lhs : list Z) : option (option value) :=
  let (a, l1) := strtok lhs in
  match a with
  | None => None
  | Some a =>
      if same a attribute_text || same a option_text then
        let (a', l2) := strtok l1 in
        let (b, _) := strtok l2 in
        match a', b with
        | Some a', Some b => Some (if same a attribute_text then attribute a' b else option_of a' b)
        | _, _ => None
        end
      else
        let (b, _) := strtok l1 in
        match b with
        | Some b => Some (attribute a b)
        | None => None
        end
  end.

(** TestCondition: condition.cpp:123-278.  The buffers of the two words have 80
    characters. *)
Definition test (condition : list Z) : answer :=
  if negb (strstr condition [36]) || negb (strstr condition [58]) then Says true
  else
    match condition with
    | 36 :: r =>
        match scan_word r with
        | Some (lhs, r1) =>
            if 80 <=? Z.of_nat (length lhs) then Undefined
            else
              match scan_word r1 with
              | Some (rel, r2) =>
                  if 80 <=? Z.of_nat (length rel) then Undefined
                  else
                    match find lhs with
                    | None => Undefined
                    | Some None => Says true
                    | Some (Some v) => by_type v (op_hash rel) r2
                    end
              | None => Says true
              end
        | None => Says true
        end
    | _ => Says true
    end.

End Condition.

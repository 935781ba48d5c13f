(** What a condition is meant to be: a parameter, a relation and a number. *)

From Coq Require Import List Bool ZArith QArith.
Import ListNotations.
Open Scope Z_scope.

(** White space, texts of white space and words. *)
Definition white (c : Z) : Prop := c = 32 \/ 9 <= c <= 13.
Definition blank (s : list Z) : Prop := Forall white s.
Definition solid (s : list Z) : Prop := s <> [] /\ Forall (fun c => ~ white c) s.
Definition ends (s : list Z) : Prop := s = [] \/ exists x t, s = x :: t /\ white x.

(** A condition: a dollar sign, a word, white space, a second word and the
    rest. *)
Definition form (c lhs rel rest : list Z) : Prop :=
  exists w0 w1, c = 36 :: w0 ++ lhs ++ w1 ++ rel ++ rest /\
    blank w0 /\ blank w1 /\ w1 <> [] /\ solid lhs /\ solid rel /\ ends rest.

(** No word in it is longer than 79 characters. *)
Definition short_words (c : list Z) : Prop :=
  forall a w b, c = a ++ w ++ b -> solid w -> (length w < 80)%nat.

(** The parameter that is meant by the first word: "category:name", with
    "Attribute:" or "Option:" before it. *)
Inductive kind := Attribute_kind | Option_kind.
Definition plain (s : list Z) : Prop := s <> [] /\ ~ In 58 s.
Definition attribute_word : list Z := [65; 116; 116; 114; 105; 98; 117; 116; 101].
Definition option_word : list Z := [79; 112; 116; 105; 111; 110].
Inductive names : list Z -> kind -> list Z -> list Z -> Prop :=
| names_short : forall a b, plain a -> plain b -> a <> attribute_word -> a <> option_word ->
    names (a ++ 58 :: b) Attribute_kind a b
| names_attribute : forall a b, plain a -> plain b ->
    names (attribute_word ++ 58 :: a ++ 58 :: b) Attribute_kind a b
| names_option : forall a b, plain a -> plain b ->
    names (option_word ++ 58 :: a ++ 58 :: b) Option_kind a b.

(** Relations, how they are written and what they mean. *)
Inductive relation := EQ | NE | LE | LT | GE | GT.
Definition relation_text (r : relation) : list Z :=
  match r with
  | EQ => [61; 61] | NE => [33; 61] | LE => [60; 61] | LT => [60] | GE => [62; 61] | GT => [62]
  end.
Definition holds_Z (r : relation) (a b : Z) : Prop :=
  match r with
  | EQ => a = b | NE => a <> b | LE => a <= b | LT => a < b | GE => a >= b | GT => a > b
  end.
Definition holds_Q (r : relation) (a b : Q) : Prop :=
  (match r with
   | EQ => a == b | NE => ~ a == b | LE => a <= b | LT => a < b | GE => b <= a | GT => b < a
   end)%Q.

(** Operations. *)
Inductive operation := MUL | DIV | ADD | SUB.
Definition operation_text (o : operation) : list Z :=
  match o with MUL => [42] | DIV => [47] | ADD => [43] | SUB => [45] end.
Definition result (o : operation) (a b : Z) : Z :=
  match o with MUL => a * b | DIV => if b =? 0 then 0 else Z.quot a b | ADD => a + b | SUB => a - b end.

Definition result_Q (o : operation) (a b : Q) : Q :=
  (match o with MUL => a * b | DIV => a / b | ADD => a + b | SUB => a - b end)%Q.

(** Numbers: an optional sign, digits, a fraction and an exponent.  Digits are
    given by their values. *)
Record literal := { minus : option bool; whole : list Z; fraction : option (list Z);
                    exponent : option (option bool * list Z) }.
Definition decimals (ds : list Z) : Prop := Forall (fun d => 0 <= d <= 9) ds.
Definition decimal (ds : list Z) : Z := fold_left (fun v d => 10 * v + d) ds 0.
Definition sign_text (m : option bool) : list Z :=
  match m with None => [] | Some true => [45] | Some false => [43] end.
Definition negative (m : option bool) : Z := match m with Some true => -1 | _ => 1 end.
Definition digits_text (ds : list Z) : list Z := map (fun d => 48 + d) ds.
Definition fraction_digits (l : literal) : list Z := match fraction l with Some ds => ds | None => [] end.
Definition literal_text (l : literal) : list Z :=
  sign_text (minus l) ++ digits_text (whole l) ++
  match fraction l with Some ds => 46 :: digits_text ds | None => [] end ++
  match exponent l with Some (m, ds) => 101 :: sign_text m ++ digits_text ds | None => [] end.
Definition literal_ok (l : literal) : Prop :=
  decimals (whole l) /\ decimals (fraction_digits l) /\ whole l ++ fraction_digits l <> [] /\
  match exponent l with Some (_, ds) => decimals ds /\ ds <> [] | None => True end.
Definition power (l : literal) : Z :=
  match exponent l with Some (m, ds) => negative m * decimal ds | None => 0 end.
Definition literal_value (l : literal) : Q :=
  (inject_Z (negative (minus l)) *
   (inject_Z (decimal (whole l)) + inject_Z (decimal (fraction_digits l)) * Qpower (10 # 1) (- Z.of_nat (length (fraction_digits l)))) *
   Qpower (10 # 1) (power l))%Q.

(** A number in the rest of a condition, followed by white space or nothing. *)
Definition stands (rest : list Z) (number : list Z) : Prop :=
  exists w t, rest = w ++ number ++ t /\ blank w /\ ends t.

(** Three numbers in brackets. *)
Definition stand3 (rest : list Z) (n1 n2 n3 : list Z) : Prop :=
  exists w w0 w1 w2 w3 t, rest = w ++ 91 :: w0 ++ n1 ++ w1 ++ n2 ++ w2 ++ n3 ++ w3 ++ 93 :: t /\
    blank w /\ blank w0 /\ blank w1 /\ w1 <> [] /\ blank w2 /\ w2 <> [] /\ blank w3.

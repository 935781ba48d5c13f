(** What it means for an expression of the shading language to be well typed,
    stated without the type checker. *)

From Coq Require Import List Bool.
From Verif Require Import TypeModel.
Import ListNotations.

(** The conversions: a number becomes a colour, a kind of point or a matrix; the
    kinds of triples become each other; sixteen numbers become a matrix. *)
Definition triple_like (t : ty) : Prop :=
  In t [Point; Color; Triple; HPoint; Normal; Vector].
Definition convertible (a b : ty) : Prop :=
  a = b \/ (a = Float /\ b = Integer) \/ (a = Integer /\ b = Float) \/
  (a = Float /\ (triple_like b \/ b = Matrix)) \/
  (triple_like a /\ triple_like b) \/
  (a = HexTuple /\ b = Matrix).

(** The judgement.  [strict]: logical operators give a number, as the virtual
    machine has it (and as ResType says); otherwise they give the type of their
    operands. *)
Section Typing.
Variable strict : bool.

Inductive has_type : expr -> ty -> Prop :=
| HT_const t c : has_type (Const t c) t
| HT_message m : has_type (Message m) Float
| HT_var t x : has_type (Var t x) t
| HT_element t x i : has_type i Float -> has_type (Element t true x i) t
| HT_assign t x e : has_type e t -> has_type (Assign t false x e) t
| HT_assign_element t x e i : has_type e t -> has_type i Float -> has_type (AssignElement t false x e i) t
| HT_math o a b t : has_type a t -> has_type b t -> has_type (Math o a b) t
| HT_logical o a b t : has_type a t -> has_type b t -> has_type (Logical o a b) (if strict then Float else t)
| HT_relational o a b t : has_type a t -> has_type b t -> has_type (Relational o a b) Float
| HT_dot a b t : In t [Point; Vector; Normal] -> has_type a t -> has_type b t -> has_type (Dot a b) Float
| HT_unary o a t : has_type a t -> has_type (Unary o a) t
| HT_cast to e t : has_type e t -> convertible t (fst to) -> has_type (Cast to e) (fst to)
| HT_three l : Forall (fun a => has_type a Float) l -> has_type (Three l) Triple
| HT_sixteen l : Forall (fun a => has_type a Float) l -> has_type (Sixteen l) HexTuple
| HT_choose c a b tc t : has_type c tc -> has_type a t -> has_type b t -> has_type (Choose c a b) t
| HT_call f fs args more :
    Forall2 (fun a p => has_type a (fst p)) args (params f) ->
    (more = [] \/ variadic f = true) ->
    has_type (Call (f :: fs) (args ++ more)) (ret f).
End Typing.

(** The trees for which the checker is sound: no assignment within the
    expression has the direct result of a call as its value, and, when [strict],
    there are no logical operators.  [direct]: the expression is the result of a
    call, perhaps through assignments and unary operators. *)
Fixpoint direct (e : expr) : bool :=
  match e with
  | Call _ _ => true
  | Unary _ a => direct a
  | Assign _ _ _ a => direct a
  | AssignElement _ _ _ a _ => direct a
  | _ => false
  end.

Fixpoint plain (strict : bool) (e : expr) : Prop :=
  match e with
  | Const _ _ | Message _ | Var _ _ => True
  | Element _ _ _ i => plain strict i
  | Assign _ _ _ a => plain strict a /\ direct a = false
  | AssignElement _ _ _ a i => plain strict a /\ direct a = false /\ plain strict i
  | Math _ a b | Relational _ a b | Dot a b => plain strict a /\ plain strict b
  | Logical _ a b => strict = false /\ plain strict a /\ plain strict b
  | Unary _ a => plain strict a
  | Cast _ a => plain strict a
  | Three l | Sixteen l => fold_right (fun a P => plain strict a /\ P) True l
  | Choose c a b => plain strict c /\ plain strict a /\ plain strict b
  | Call _ args => fold_right (fun a P => plain strict a /\ P) True args
  end.

(** The depth of an expression. *)
Fixpoint depth (e : expr) : nat :=
  match e with
  | Const _ _ | Message _ | Var _ _ => 0
  | Element _ _ _ i => S (depth i)
  | Assign _ _ _ a => S (depth a)
  | AssignElement _ _ _ a i => S (max (depth a) (depth i))
  | Math _ a b | Relational _ a b | Dot a b | Logical _ a b => S (max (depth a) (depth b))
  | Unary _ a => S (depth a)
  | Cast _ a => S (depth a)
  | Three l | Sixteen l => S (fold_right (fun a d => max (depth a) d) 0 l)
  | Choose c a b => S (max (depth c) (max (depth a) (depth b)))
  | Call _ args => S (fold_right (fun a d => max (depth a) d) 0 args)
  end.

(** Expressions without calls, conditional expressions and logical operators, and
    with proper types. *)
Fixpoint first_order (e : expr) : Prop :=
  match e with
  | Const t _ | Var t _ => t <> Nil
  | Message _ => True
  | Element t _ _ i => t <> Nil /\ first_order i
  | Assign t _ _ a => t <> Nil /\ first_order a
  | AssignElement t _ _ a i => t <> Nil /\ first_order a /\ first_order i
  | Math _ a b | Relational _ a b | Dot a b => first_order a /\ first_order b
  | Unary _ a => first_order a
  | Cast to a => fst to <> Nil /\ snd to = false /\ first_order a
  | Three l | Sixteen l => fold_right (fun a P => first_order a /\ P) True l
  | Logical _ _ _ | Choose _ _ _ | Call _ _ => False
  end.

(** What is left of an expression when all casts are removed: the checker only
    adds casts and chooses functions. *)
Inductive same_but_casts : expr -> expr -> Prop :=
| SC_add e e' to : same_but_casts e e' -> same_but_casts e (Cast to e')
| SC_const t c : same_but_casts (Const t c) (Const t c)
| SC_message m : same_but_casts (Message m) (Message m)
| SC_var t x : same_but_casts (Var t x) (Var t x)
| SC_element t b x i i' : same_but_casts i i' -> same_but_casts (Element t b x i) (Element t b x i')
| SC_assign t b x e e' : same_but_casts e e' -> same_but_casts (Assign t b x e) (Assign t b x e')
| SC_assign_element t b x e e' i i' :
    same_but_casts e e' -> same_but_casts i i' ->
    same_but_casts (AssignElement t b x e i) (AssignElement t b x e' i')
| SC_math o a a' b b' : same_but_casts a a' -> same_but_casts b b' -> same_but_casts (Math o a b) (Math o a' b')
| SC_logical o a a' b b' :
    same_but_casts a a' -> same_but_casts b b' -> same_but_casts (Logical o a b) (Logical o a' b')
| SC_relational o a a' b b' :
    same_but_casts a a' -> same_but_casts b b' -> same_but_casts (Relational o a b) (Relational o a' b')
| SC_dot a a' b b' : same_but_casts a a' -> same_but_casts b b' -> same_but_casts (Dot a b) (Dot a' b')
| SC_unary o a a' : same_but_casts a a' -> same_but_casts (Unary o a) (Unary o a')
| SC_cast to a a' : same_but_casts a a' -> same_but_casts (Cast to a) (Cast to a')
| SC_three l l' : Forall2 same_but_casts l l' -> same_but_casts (Three l) (Three l')
| SC_sixteen l l' : Forall2 same_but_casts l l' -> same_but_casts (Sixteen l) (Sixteen l')
| SC_choose c c' a a' b b' :
    same_but_casts c c' -> same_but_casts a a' -> same_but_casts b b' ->
    same_but_casts (Choose c a b) (Choose c' a' b')
| SC_call fs fs' l l' :
    incl fs' fs -> Forall2 same_but_casts l l' -> same_but_casts (Call fs l) (Call fs' l').

(** The type an argument has as it is written, before any cast: an arithmetic of
    a number and something else has the type of the latter. *)
Section Written.
Variable scaled : ty -> Prop.   (* the types that may stand before the number *)
Inductive written : expr -> ty -> Prop :=
| W_const t c : written (Const t c) t
| W_message m : written (Message m) Float
| W_var t x : written (Var t x) t
| W_element t b x i : written (Element t b x i) t
| W_assign t b x e : written (Assign t b x e) t
| W_same o a b t : written a t -> written b t -> written (Math o a b) t
| W_number_first o a b t : written a Float -> written b t -> written (Math o a b) t
| W_number_second o a b t : written a t -> scaled t -> written b Float -> written (Math o a b) t
| W_relational o a b : written (Relational o a b) Float
| W_dot a b ta tb : written a ta -> written b tb -> written (Dot a b) Float
| W_unary o a t : written a t -> written (Unary o a) t
| W_cast to e : written (Cast to e) (fst to)
| W_three l : written (Three l) Triple
| W_sixteen l : written (Sixteen l) HexTuple.
End Written.

(** The type of an argument, if it is a call as well: that of the only function
    whose parameters have exactly the types of its arguments. *)
Inductive given : expr -> ty -> Prop :=
| G_written a t : written (fun t => In t [Point; Color]) a t -> given a t
| G_call fs args f ts :
    Forall2 given args ts -> ~ In HexTuple ts ->
    In f fs -> map fst (params f) = ts -> ret f <> Nil ->
    (forall g, In g fs -> g = f \/ map fst (params g) <> ts) ->
    given (Call fs args) (ret f).

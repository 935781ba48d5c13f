(** C27: what the type checker of the shading language accepts. *)

From Coq Require Import List Bool Arith Lia.
From Verif Require Import TypeModel TypeSpec TypeProofs.
Import ListNotations.

(** An accepted expression, with the casts that were inserted, has one of the
    requested types: every operator, assignment, cast and call in it is well
    typed.  Partial: of expressions in which no assignment takes the direct result
    of a call and, with [strict], without logical operators.  With [strict] false
    a logical operator is taken to give the type of its operands. *)
Theorem C27_partial : forall strict n e types e' r,
  plain strict e -> check n e types = Done (e', r) ->
  exists t, In t (map fst types) /\ has_type strict e' t.
Proof. exact check_sound. Qed.
Print Assumptions C27_partial.

(** An assignment of anything, the result of a call too, gives the variable a
    value of its type. *)
Theorem C27_assign_partial : forall strict n t refused x a types e' r,
  plain strict a -> check n (Assign t refused x a) types = Done (e', r) ->
  exists u, has_type strict e' u /\ (direct a = false -> In u (map fst types)).
Proof. exact assign_sound. Qed.
Print Assumptions C27_assign_partial.

(** The accepted expression is the one that was written, but for casts that were
    added and functions that were chosen among the candidates. *)
Theorem C27_same : forall n e types e' r, check n e types = Done (e', r) -> same_but_casts e e'.
Proof. exact check_same. Qed.
Print Assumptions C27_same.

(** The checker ends on every expression. *)
Theorem C27_ends : forall e types, check (S (depth e)) e types <> Deep.
Proof. intros e types. apply check_ends. lia. Qed.
Print Assumptions C27_ends.

(** Well typed expressions are accepted wherever their type can be converted to
    the requested one.  Partial: of expressions without calls, conditional
    expressions and logical operators. *)
Theorem C27_accepts_partial : forall strict e t u,
  first_order e -> has_type strict e t -> convertible t u -> u <> Nil ->
  exists e' r, check (S (depth e)) e [(u, false)] = Done (e', r) /\ fst r = u.
Proof.
  intros strict e t u F HT C N. apply (check_accepts strict _ _ t (u, false)); try assumption; [lia | reflexivity].
Qed.
Print Assumptions C27_accepts_partial.

(** A function whose parameters have exactly the types of the arguments, as they
    are written, and whose result is requested is chosen before all others.  An
    argument may be a call itself, if there is such a function for it too.
    Partial: of arguments without conditional expressions, logical operators and
    calls within operators, in which only points and colours stand before a number
    they are combined with (see C27_scaled_refuted). *)
Theorem C27_overload_partial : forall n fs args types f ts e' r,
  Forall2 given args ts -> ~ In HexTuple ts ->
  In f fs -> map fst (params f) = ts -> In (ret f) (map fst types) -> ret f <> Nil ->
  (forall g, In g fs -> g = f \/ map fst (params g) <> ts) ->
  check n (Call fs args) types = Done (e', r) ->
  exists rest args', e' = Cast (ret f, false) (Call (f :: rest) args').
Proof.
  intros n fs args types f ts e' r W. apply overload. apply given_args. exact W.
Qed.
Print Assumptions C27_overload_partial.

(** ** Where the full statement fails *)

(** transform: a vector or a point *)
Definition f_vector : func := {| ret := Vector; params := [(Vector, false)]; variadic := false |}.
Definition f_point : func := {| ret := Point; params := [(Point, false)]; variadic := false |}.
Definition f_noise : func := {| ret := Float; params := [(Float, false)]; variadic := false |}.
Definition f_noise3 : func := {| ret := Float; params := [(Point, false)]; variadic := false |}.
Definition f_cnoise : func := {| ret := Color; params := [(Point, false)]; variadic := false |}.
Definition f_format : func := {| ret := String; params := [(String, false)]; variadic := true |}.
Definition f_time : func := {| ret := Float; params := []; variadic := false |}.

(** color c = (vector v = f(...)), where f gives points: the assignment within is
    accepted and its value, a vector, is not cast. *)
Theorem C27_assign_refuted : exists e types e' r,
  check (S (depth e)) e types = Done (e', r) /\
  forall strict t, In t (map fst types) -> ~ has_type strict e' t.
Proof.
  exists (Assign Color false 1 (Assign Vector false 2 (Call [f_point] [Var Point 3]))), [(Color, false)].
  do 2 eexists. split; [vm_compute; reflexivity|].
  intros strict t [<-|[]] H. inversion H; subst.
  match goal with X : has_type _ (Assign Vector _ _ _) _ |- _ => inversion X end.
Qed.
Print Assumptions C27_assign_refuted.

(** color c = c1 && c2: the number the operator gives is taken for a colour. *)
Theorem C27_logical_refuted : exists e types e' r,
  check (S (depth e)) e types = Done (e', r) /\
  forall t, In t (map fst types) -> ~ has_type true e' t.
Proof.
  exists (Logical 0 (Var Color 1) (Var Color 2)), [(Color, false)].
  do 2 eexists. split; [vm_compute; reflexivity|].
  intros t [<-|[]] H. inversion H.
Qed.
Print Assumptions C27_logical_refuted.

(** Arguments beyond the parameters of a function that takes any number of them are
    not looked at: an operator on a string and a number is accepted. *)
Theorem C27_variadic_refuted : exists e types e' r bad,
  check (S (depth e)) e types = Done (e', r) /\
  (exists f args, e' = Cast (String, false) (Call f (args ++ [bad]))) /\
  forall strict t, ~ has_type strict bad t.
Proof.
  exists (Call [f_format] [Const String 1; Math 0 (Const String 2) (Const Float 3)]), [(String, false)].
  do 3 eexists. split; [vm_compute; reflexivity|]. split.
  - exists [f_format], [Const String 1]. reflexivity.
  - intros strict t H. inversion H; subst.
    match goal with A : has_type _ (Const String 2) ?u, B : has_type _ (Const Float 3) ?u |- _ =>
      inversion A; subst; inversion B end.
Qed.
Print Assumptions C27_variadic_refuted.

(** Arguments of a function without parameters are compared with parameters that
    do not exist. *)
Theorem C27_parameterless_refuted : exists e types, check (S (depth e)) e types = Undef.
Proof. exists (Call [f_time] [Const Float 1]), all_types. vm_compute. reflexivity. Qed.
Print Assumptions C27_parameterless_refuted.

(** A well typed conditional expression may be refused: its type is taken to be
    that of its condition. *)
Theorem C27_choose_refuted : exists e t,
  has_type true e t /\ t <> Nil /\ check (S (depth e)) e [(t, false)] = Refuse.
Proof.
  exists (Math 0 (Const String 1) (Choose (Var Float 1) (Const String 2) (Const String 3))), String.
  split; [|split; [discriminate | vm_compute; reflexivity]].
  repeat econstructor.
Qed.
Print Assumptions C27_choose_refuted.

(** A vector before a number: the product counts as a number, so that the function
    for numbers is chosen and the call refused, although there is one for vectors;
    the other way round it is accepted. *)
Definition f_length : func := {| ret := Float; params := [(Vector, false)]; variadic := false |}.
Theorem C27_scaled_refuted : exists fs f a b,
  In f fs /\ written (fun _ => True) (Math 0 a b) Vector /\ map fst (params f) = [Vector] /\
  check 4 (Call fs [Math 0 a b]) [(ret f, false)] = Refuse /\
  exists args' rest r, check 4 (Call fs [Math 0 b a]) [(ret f, false)] = Done (Cast (ret f, false) (Call (f :: rest) args'), r).
Proof.
  exists [f_noise; f_length], f_length, (Var Vector 1), (Const Float 2).
  split; [right; left; reflexivity|]. split; [apply W_number_second; constructor|]. split; [reflexivity|].
  split; [vm_compute; reflexivity|]. do 3 eexists. vm_compute. reflexivity.
Qed.
Print Assumptions C27_scaled_refuted.

(** The order in which functions were declared decides whether a nested call is
    accepted: only the first best function counts for the type of an argument. *)
Theorem C27_order_refuted : exists outer f g arg,
  check 4 (Call [outer] [Call [f; g] [arg]]) [(Float, false)] = Refuse /\
  exists e' r, check 4 (Call [outer] [Call [g; f] [arg]]) [(Float, false)] = Done (e', r).
Proof.
  exists f_noise, f_cnoise, f_noise3, (Var Point 1). split; [vm_compute; reflexivity|].
  do 2 eexists. vm_compute. reflexivity.
Qed.
Print Assumptions C27_order_refuted.

(** ** Cases that meet the hypotheses *)

(** noise(P * 2), with a function for numbers first. *)
Example case_scaled :
  let a := Math 0 (Var Point 1) (Const Float 2) in
  written (fun t => In t [Point; Color]) a Point /\
  check 5 (Call [f_noise; f_noise3] [a]) [(Float, false)] =
  Done (Cast (Float, false) (Call [f_noise3] [Math 0 (Var Point 1) (Cast (Point, false) (Const Float 2))]), (Float, false)).
Proof.
  split; [|vm_compute; reflexivity]. apply W_number_second; [constructor | left; reflexivity | constructor].
Qed.

(** noise(transform(P)), with functions for vectors first. *)
Definition f_noisev : func := {| ret := Float; params := [(Vector, false)]; variadic := false |}.
Example case_argument_call :
  let a := Call [f_vector; f_point] [Var Point 1] in
  given a Point /\
  exists rest args',
  check 9 (Call [f_noisev; f_noise3] [a]) [(Float, false)] = Done (Cast (Float, false) (Call (f_noise3 :: rest) args'), (Float, false)).
Proof.
  split; [|do 2 eexists; vm_compute; reflexivity].
  apply (G_call _ _ f_point [Point]).
  - repeat constructor.
  - intros [H|[]]. discriminate H.
  - right. left. reflexivity.
  - reflexivity.
  - discriminate.
  - intros g [<-|[<-|[]]]; [right; discriminate | left; reflexivity].
Qed.

(** Ci = Cs * noise(P) + 1: the candidates of noise are both kept until a colour
    is requested. *)
Example case_shader :
  let e := Assign Color false 0 (Math 0 (Math 1 (Var Color 1) (Call [f_noise; f_noise3; f_cnoise] [Var Point 2])) (Const Float 3)) in
  plain true e /\
  check (S (depth e)) e all_types =
    Done (Assign Color false 0
            (Math 0 (Math 1 (Var Color 1) (Cast (Color, false) (Call [f_cnoise; f_cnoise] [Var Point 2])))
               (Cast (Color, false) (Const Float 3))),
          (Color, false)).
Proof. split; [cbn; tauto | vm_compute; reflexivity]. Qed.

(** The function that takes a point is chosen for a point, though the one for
    numbers comes first; the one for vectors not. *)
Example case_overload :
  check 3 (Call [f_noise; f_vector; f_noise3] [Var Point 1]) [(Float, false)] =
  Done (Cast (Float, false) (Call [f_noise3; f_noise3] [Var Point 1]), (Float, false)).
Proof. vm_compute. reflexivity. Qed.

(** A call among the arguments of a call: transform(f(x)). *)
Example case_nested :
  check 4 (Call [f_noise; f_noise3] [Call [f_vector; f_point] [Var Vector 1]]) [(Float, false)] =
  Done (Cast (Float, false) (Call [f_noise3] [Cast (Point, false) (Call [f_vector; f_point] [Var Vector 1])]), (Float, false)).
Proof. vm_compute. reflexivity. Qed.

Example case_first_order :
  let e := Relational 0 (Dot (Var Vector 1) (Three [Const Float 1; Const Float 2; Const Float 3])) (Unary 0 (Const Float 4)) in
  let e2 := Relational 0 (Dot (Var Vector 1) (Cast (Vector, false) (Three [Const Float 1; Const Float 2; Const Float 3]))) (Unary 0 (Const Float 4)) in
  first_order e /\ has_type true e2 Float /\
  check 5 e [(Color, false)] =
    Done (Cast (Color, false)
      (Relational 0 (Dot (Cast (Point, false) (Var Vector 1)) (Cast (Point, false) (Three [Const Float 1; Const Float 2; Const Float 3])))
         (Unary 0 (Const Float 4))), (Color, false)).
Proof.
  split; [cbn; intuition discriminate|]. split; [|vm_compute; reflexivity].
  econstructor.
  - eapply HT_dot with (t := Vector); [right; left; reflexivity | constructor|].
    apply (HT_cast true (Vector, false) _ Triple); [repeat constructor|].
    do 4 right. left. unfold triple_like. cbn. tauto.
  - repeat constructor.
Qed.

(** A matrix from sixteen numbers, an element of an array, a cast that is written. *)
Example case_matrix :
  check 3 (Sixteen (repeat (Var Integer 1) 16)) [(Matrix, false)] =
  Done (Cast (Matrix, false) (Sixteen (repeat (Cast (Float, false) (Var Integer 1)) 16)), (Matrix, false)).
Proof. vm_compute. reflexivity. Qed.

Example case_cast :
  check 6 (Math 0 (Var Color 1) (Cast (Float, false) (Call [f_cnoise; f_noise3] [Element Point true 2 (Const Float 1)]))) [(Color, false)] =
  Done (Math 0 (Var Color 1) (Cast (Color, false) (Cast (Float, false) (Cast (Float, false) (Call [f_noise3; f_noise3] [Element Point true 2 (Const Float 1)])))), (Color, false)).
Proof. vm_compute. reflexivity. Qed.

(** Refused: a string as a number, an element of what is no array, a colour with a
    string, a read only variable. *)
Example case_refused :
  check 3 (Math 0 (Const String 1) (Const Float 2)) all_types = Refuse /\
  check 3 (Element Float false 1 (Const Float 2)) [(Float, false)] = Refuse /\
  check 3 (Element Float true 1 (Const String 2)) [(Float, false)] = Refuse /\
  check 3 (Call [f_noise; f_noise3] [Const String 1]) [(Float, false)] = Refuse /\
  check 3 (Call [f_noise] [Const Float 1; Const Float 2]) [(Float, false)] = Refuse /\
  check 3 (Assign Float true 1 (Const Float 1)) [(Float, false)] = Refuse.
Proof. vm_compute. repeat split. Qed.

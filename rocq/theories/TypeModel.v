(** The type checker of the shader compiler: libs/slcomp/parse/typecheck.cpp
    and parsenode.cpp.

    Modelled are expressions: constants, variables, elements of arrays,
    assignments, operators, casts, triples, matrices of sixteen numbers,
    conditional expressions, calls of known functions and of the message
    passing functions.  Not modelled are calls of unknown functions
    (CqParseNodeUnresolvedCall) and statements.  Whether an assignment is
    refused because its variable may not be written, or is uniform and the value
    is varying (typecheck.cpp:473-494), is a flag of the assignment.  Functions
    have a return type without flags. *)

From Coq Require Import List Bool Arith.
Import ListNotations.

(** EqVariableType, without its flags: include/aqsis/slcomp/ivardef.h. *)
Inductive ty := Nil | Float | Integer | Point | String | Color | Triple | HPoint | Normal | Vector | Void | Matrix | HexTuple.

Definition ty_eqb (a b : ty) : bool :=
  match a, b with
  | Nil, Nil | Float, Float | Integer, Integer | Point, Point | String, String | Color, Color | Triple, Triple
  | HPoint, HPoint | Normal, Normal | Vector, Vector | Void, Void | Matrix, Matrix | HexTuple, HexTuple => true
  | _, _ => false
  end.

(** A type with the flags of parameters (Type_Variable, Type_Array). *)
Definition rty : Type := ty * bool.
Definition rty_eqb (a b : rty) : bool := ty_eqb (fst a) (fst b) && Bool.eqb (snd a) (snd b).

Definition index (t : ty) : nat :=
  match t with
  | Nil => 0 | Float => 1 | Integer => 2 | Point => 3 | String => 4 | Color => 5 | Triple => 6 | HPoint => 7
  | Normal => 8 | Vector => 9 | Void => 10 | Matrix => 11 | HexTuple => 12
  end.

(** m_aaTypePriorities: parsenode.cpp:58-74. *)
Definition priorities : list (list nat) :=
  [ [99; 0; 0; 0; 0; 0; 0; 0; 0; 0; 0; 0; 0];
    [0; 99; 98; 2; 0; 1; 2; 2; 2; 2; 0; 1; 0];
    [0; 98; 99; 0; 0; 0; 0; 0; 0; 0; 0; 0; 0];
    [0; 0; 0; 99; 0; 96; 98; 98; 97; 97; 0; 0; 0];
    [0; 0; 0; 0; 99; 0; 0; 0; 0; 0; 0; 0; 0];
    [0; 0; 0; 1; 0; 99; 2; 1; 1; 1; 0; 0; 0];
    [0; 0; 0; 98; 0; 98; 99; 97; 98; 98; 0; 0; 0];
    [0; 0; 0; 97; 0; 96; 98; 99; 98; 98; 0; 0; 0];
    [0; 0; 0; 98; 0; 96; 98; 97; 99; 98; 0; 0; 0];
    [0; 0; 0; 98; 0; 96; 98; 97; 98; 99; 0; 0; 0];
    [0; 0; 0; 0; 0; 0; 0; 0; 0; 0; 99; 0; 0];
    [0; 0; 0; 0; 0; 0; 0; 0; 0; 0; 0; 99; 0];
    [0; 0; 0; 0; 0; 0; 0; 0; 0; 0; 0; 99; 98] ].
Definition priority (a b : ty) : nat := nth (index b) (nth (index a) priorities []) 0.

(** m_aAllTypes: parsenode.cpp:75-89. *)
Definition all_types : list rty :=
  map (fun t => (t, false))
    [Float; Integer; Point; String; Color; Triple; HPoint; Normal; Vector; Void; Matrix; HexTuple].

(** The second loop of FindCast: parsenode.cpp:212-223. *)
Fixpoint best_cast (cur : ty) (types : list rty) (ret : rty) (pri : nat) : rty :=
  match types with
  | [] => ret
  | t :: r =>
      if pri <? priority cur (fst t) then best_cast cur r t (priority cur (fst t))
      else best_cast cur r ret pri
  end.

(** FindCast: parsenode.cpp:200-224. *)
Definition find_cast (cur : ty) (types : list rty) : rty :=
  if existsb (fun t => ty_eqb (fst t) cur) types then (cur, false)
  else best_cast cur types (Nil, false) 0.
Definition found (r : rty) : bool := negb (ty_eqb (fst r) Nil).

(** A function: its return type, the types of its parameters and whether more
    arguments may follow (funcdef.h:30-145, funcdef.cpp:415-488). *)
Record func := { ret : ty; params : list rty; variadic : bool }.

(** Expressions. *)
Inductive expr :=
| Const (t : ty) (c : nat)
| Message (m : nat)
| Var (t : ty) (x : nat)
| Element (t : ty) (array : bool) (x : nat) (i : expr)
| Assign (t : ty) (refused : bool) (x : nat) (e : expr)
| AssignElement (t : ty) (refused : bool) (x : nat) (e i : expr)
| Math (o : nat) (a b : expr)
| Logical (o : nat) (a b : expr)
| Relational (o : nat) (a b : expr)
| Dot (a b : expr)
| Unary (o : nat) (a : expr)
| Cast (to : rty) (e : expr)
| Three (l : list expr)
| Sixteen (l : list expr)
| Choose (c a b : expr)
| Call (candidates : list func) (args : list expr).

(** ResType of the nodes; None: a call without candidates, whose first one is
    used (parsenode.cpp:230-234).  A variable: 358-365; an assignment: 397-400,
    masked by its users; a math operator: 407-432; a conditional expression has
    none of its own, so that the type of its first child, the condition, is
    taken (parsenode.h:82-88). *)
Fixpoint res_type (e : expr) : option ty :=
  match e with
  | Const t _ => Some t
  | Message _ => Some Float
  | Var t _ | Element t _ _ _ | Assign t _ _ _ | AssignElement t _ _ _ _ => Some t
  | Math _ a b =>
      match res_type a, res_type b with
      | Some ta, Some tb => Some (if ty_eqb ta Point || ty_eqb ta Color then ta else tb)
      | _, _ => None
      end
  | Dot a b =>
      match res_type a, res_type b with Some _, Some _ => Some Float | _, _ => None end
  | Logical _ _ _ | Relational _ _ _ => Some Float
  | Unary _ a => res_type a
  | Cast to _ => Some (fst to)
  | Three _ => Some Triple
  | Sixteen _ => Some HexTuple
  | Choose c _ _ => res_type c
  | Call (f :: _) _ => Some (ret f)
  | Call [] _ => None
  end.

(** ** Calls *)

Inductive result (A : Type) := Done (a : A) | Refuse | Undef | Deep.
Arguments Done {A}. Arguments Refuse {A}. Arguments Undef {A}. Arguments Deep {A}.

(** The weight of an argument for a parameter, 0 when it does not match:
    typecheck.cpp:163-173 with the lists made by validTypes (parsenode.cpp:131-143
    and 266-293).  The types of an argument are its main type, with weight 99,
    and those it can be converted to; None is an empty list. *)
Definition arg_weight (main : option ty) (p : rty) : nat :=
  match main with
  | None => 0
  | Some t => if ty_eqb t (fst p) then 99 else priority t (fst p)
  end.

Inductive verdict := Drop | Skip | Fits (w : nat) | Broken.

(** The loop over the arguments: typecheck.cpp:154-181.  Broken: there is no
    parameter for an argument (only when the function has none at all). *)
Fixpoint fit_args (more : bool) (ps : list rty) (mains : list (option ty)) (w : nat) (ok : bool) : verdict :=
  match mains, ps with
  | [], _ => if ok then Fits w else Drop
  | _ :: _, [] => if more then (if ok then Fits w else Drop) else Broken
  | m :: mains', p :: ps' =>
      match arg_weight m p with
      | 0 => fit_args more ps' mains' w false
      | w' => fit_args more ps' mains' (w + w') ok
      end
  end.

(** One candidate: typecheck.cpp:107-200. *)
Definition candidate (types : list rty) (mains : list (option ty)) (f : func) : verdict :=
  let n := length (params f) in
  let m := length mains in
  if (0 <? n) && (negb (variadic f) && negb (n =? m) || variadic f && (m <? n)) then Drop
  else
    let r := find_cast (ret f) types in
    if found r then
      fit_args (variadic f) (params f) mains (if rty_eqb r (ret f, false) then 1 else 0) true
    else Skip.

(** The loop over the candidates: those that are kept, and the first one of
    greatest weight, which is the top of the priority queue; None: undefined. *)
Fixpoint select (types : list rty) (mains : list (option ty)) (cands : list func)
    (best : option (func * nat)) : option (list func * option (func * nat)) :=
  match cands with
  | [] => Some ([], best)
  | f :: r =>
      match candidate types mains f with
      | Broken => None
      | Drop => select types mains r best
      | Skip =>
          match select types mains r best with Some (k, b) => Some (f :: k, b) | None => None end
      | Fits w =>
          let best' := match best with Some (_, w') => if w' <? w then Some (f, w) else best | None => Some (f, w) end in
          match select types mains r best' with Some (k, b) => Some (f :: k, b) | None => None end
      end
  end.

(** validTypes: the main type, and the candidates that are left.  For a call:
    parsenode.cpp:266-293, with the TypeCheck of a call in the mode that only
    checks; otherwise 131-143. *)
Fixpoint valid (e : expr) : result (expr * option ty) :=
  match e with
  | Call cands args =>
      match cands with
      | [] => Undef
      | _ =>
          match
            (fix go (l : list expr) : result (list expr * list (option ty)) :=
               match l with
               | [] => Done ([], [])
               | a :: r =>
                   match valid a with
                   | Done (a', m) =>
                       match go r with
                       | Done (r', ms) => Done (a' :: r', m :: ms)
                       | Refuse => Refuse | Undef => Undef | Deep => Deep
                       end
                   | Refuse => Refuse | Undef => Undef | Deep => Deep
                   end
               end) args
          with
          | Done (args', mains) =>
              match select all_types mains cands None with
              | None => Undef
              | Some (kept, best) =>
                  Done (Call kept args',
                        match kept with
                        | [] => None
                        | _ => Some (match best with Some (f, _) => ret f | None => Nil end)
                        end)
              end
          | Refuse => Refuse | Undef => Undef | Deep => Deep
          end
      end
  | _ => match res_type e with Some t => Done (e, Some t) | None => Undef end
  end.

Fixpoint valid_args (l : list expr) : result (list expr * list (option ty)) :=
  match l with
  | [] => Done ([], [])
  | a :: r =>
      match valid a with
      | Done (a', m) =>
          match valid_args r with
          | Done (r', ms) => Done (a' :: r', m :: ms)
          | Refuse => Refuse | Undef => Undef | Deep => Deep
          end
      | Refuse => Refuse | Undef => Undef | Deep => Deep
      end
  end.

(** ** Checking *)

(** The end of the checks of variables, constants and others: the type [t] of
    [e] is one of those requested, or [e] is cast from [from]
    (typecheck.cpp:405-430 and others). *)
Definition finish (t from : ty) (types : list rty) (e : expr) : result (expr * rty) :=
  if existsb (fun r => rty_eqb r (t, false)) types then Done (e, (t, false))
  else
    let r := find_cast from types in
    if found r then Done (Cast r e, r) else Refuse.

(** The first requested type to which both operands can be cast:
    typecheck.cpp:563-580. *)
Fixpoint pick (ta tb : ty) (types : list rty) : option rty :=
  match types with
  | [] => None
  | t :: r => if found (find_cast ta [t]) && found (find_cast tb [t]) then Some t else pick ta tb r
  end.

Section Check.
Variable check : expr -> list rty -> result (expr * rty).

(** The arguments of the chosen function: typecheck.cpp:227-245. *)
Fixpoint check_args (ps : list rty) (args : list expr) : result (list expr) :=
  match args, ps with
  | [], _ => Done []
  | _ :: _, [] => Done args
  | a :: r, p :: ps' =>
      match check a [p] with
      | Done (a', _) =>
          match check_args ps' r with
          | Done r' => Done (a' :: r')
          | Refuse => Refuse | Undef => Undef | Deep => Deep
          end
      | Refuse => Refuse | Undef => Undef | Deep => Deep
      end
  end.

(** The elements of triples and matrices: typecheck.cpp:800-806. *)
Fixpoint check_floats (l : list expr) : result (list expr) :=
  match l with
  | [] => Done []
  | a :: r =>
      match check a [(Float, false)] with
      | Done (a', _) =>
          match check_floats r with
          | Done r' => Done (a' :: r')
          | Refuse => Refuse | Undef => Undef | Deep => Deep
          end
      | Refuse => Refuse | Undef => Undef | Deep => Deep
      end
  end.

(** Both operands of an operator: typecheck.cpp:554-591. *)
Definition check_both (a b : expr) (types : list rty) : result (expr * expr * rty) :=
  match res_type a, res_type b with
  | Some ta, Some tb =>
      match pick ta tb types with
      | Some t =>
          match check a [t] with
          | Done (a', _) =>
              match check b [t] with
              | Done (b', _) => Done (a', b', t)
              | Refuse => Refuse | Undef => Undef | Deep => Deep
              end
          | Refuse => Refuse | Undef => Undef | Deep => Deep
          end
      | None => Refuse
      end
  | _, _ => Undef
  end.
End Check.

(** TypeCheck, without the mode that only checks: typecheck.cpp.  The result is
    the expression with the casts that were inserted and the type that is
    returned.  [n] bounds the depth. *)
Fixpoint check (n : nat) (e : expr) (types : list rty) : result (expr * rty) :=
  match n with
  | 0 => Deep
  | S n =>
      match e with
      | Const t _ => finish t t types e                       (* 720-748 *)
      | Message _ => finish Float Float types e               (* 878-905 *)
      | Var t _ => finish t t types e                         (* 403-430 *)
      | Element t array x i =>                                (* 437-462 *)
          match check n i [(Float, false)] with
          | Done (i', ri) =>
              if negb (found ri) then Refuse
              else if array then finish t t types (Element t array x i') else Refuse
          | Refuse => Refuse | Undef => Undef | Deep => Deep
          end
      | Assign t refused x a =>                               (* 471-525 *)
          if refused then Refuse
          else
            match check n a [(t, false)] with
            | Done (a', r) =>
                if rty_eqb r (t, false) then finish t t types (Assign t refused x a')
                else Done (Assign t refused x a', (Nil, false))
            | Refuse => Refuse | Undef => Undef | Deep => Deep
            end
      | AssignElement t refused x a i =>                      (* 533-547 *)
          match check n i [(Float, false)] with
          | Done (i', ri) =>
              if negb (found ri) then Refuse
              else if refused then Refuse
              else
                match check n a [(t, false)] with
                | Done (a', r) =>
                    if rty_eqb r (t, false) then finish t t types (AssignElement t refused x a' i')
                    else Done (AssignElement t refused x a' i', (Nil, false))
                | Refuse => Refuse | Undef => Undef | Deep => Deep
                end
          | Refuse => Refuse | Undef => Undef | Deep => Deep
          end
      | Math o a b =>                                         (* 554-591 *)
          match check_both (check n) a b types with
          | Done (a', b', t) => Done (Math o a' b', t)
          | Refuse => Refuse | Undef => Undef | Deep => Deep
          end
      | Logical o a b =>
          match check_both (check n) a b types with
          | Done (a', b', t) => Done (Logical o a' b', t)
          | Refuse => Refuse | Undef => Undef | Deep => Deep
          end
      | Relational o a b =>                                   (* 598-631 *)
          match check_both (check n) a b all_types with
          | Done (a', b', _) =>
              let r := find_cast Float types in
              if found r then
                if rty_eqb r (Float, false) then Done (Relational o a' b', (Float, false))
                else Done (Cast r (Relational o a' b'), r)
              else Refuse
          | Refuse => Refuse | Undef => Undef | Deep => Deep
          end
      | Dot a b =>                                            (* 653-713 *)
          let r := find_cast Float types in
          if found r then
            match check_both (check n) a b [(Point, false); (Vector, false); (Normal, false)] with
            | Done (a', b', _) =>
                if rty_eqb r (Float, false) then Done (Dot a' b', r) else Done (Cast r (Dot a' b'), r)
            | Refuse => Refuse | Undef => Undef | Deep => Deep
            end
          else Refuse
      | Unary o a =>                                          (* 639-646 *)
          match check n a types with
          | Done (a', r) => Done (Unary o a', r)
          | Refuse => Refuse | Undef => Undef | Deep => Deep
          end
      | Cast to a =>                                          (* 755-788 *)
          match check n a [to] with
          | Done (a', _) =>
              if existsb (fun r => rty_eqb r to) types then Done (Cast to a', to)
              else
                let r := find_cast (fst to) types in
                if found r then Done (Cast r (Cast to a'), r) else Refuse
          | Refuse => Refuse | Undef => Undef | Deep => Deep
          end
      | Three l =>                                            (* 796-829 *)
          match check_floats (check n) l with
          | Done l' => finish Triple Triple types (Three l')
          | Refuse => Refuse | Undef => Undef | Deep => Deep
          end
      | Sixteen l =>                                          (* 837-870 *)
          match check_floats (check n) l with
          | Done l' => finish HexTuple Matrix types (Sixteen l')
          | Refuse => Refuse | Undef => Undef | Deep => Deep
          end
      | Choose c a b =>                                       (* 912-956 *)
          match check n c all_types with
          | Done (c', _) =>
              match check_both (check n) a b types with
              | Done (a', b', t) => Done (Choose c' a' b', t)
              | Refuse => Refuse | Undef => Undef | Deep => Deep
              end
          | Refuse => Refuse | Undef => Undef | Deep => Deep
          end
      | Call cands args =>                                    (* 70-256 *)
          match cands with
          | [] => Undef
          | _ =>
              match valid_args args with
              | Done (args', mains) =>
                  match select types mains cands None with
                  | None => Undef
                  | Some (_, None) => Refuse
                  | Some (kept, Some (f, _)) =>
                      match check_args (check n) (params f) args' with
                      | Done args'' =>
                          Done (Cast (find_cast (ret f) types) (Call (f :: tl kept) args''), (ret f, false))
                      | Refuse => Refuse | Undef => Undef | Deep => Deep
                      end
                  end
              | Refuse => Refuse | Undef => Undef | Deep => Deep
              end
          end
      end
  end.

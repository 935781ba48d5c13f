(** Specification for shader execution: what one shading point, on its own, computes; and the rules a shader has to
    follow.  Nothing here mentions instructions, stacks or running states. *)
From Verif Require Import ShaderModel.

Section Spec.
Context {V : Type}.
Variable tob : V -> bool.
Variable ofb : bool -> V.
Variable fn : nat -> list V -> V.

(** The variables as seen by one point. *)
Definition env := var -> V.
Definition upd (s : env) (x : var) (v : V) : env := fun y => if y =? x then v else s y.

(** Value of an expression, left to right. *)
Fixpoint ev (e : expr V) (s : env) : env * V :=
  match e with
  | EConst _ v => (s, v)
  | EVar x => (s, s x)
  | ECall op l => let (s1, vs) := evl l s in (s1, fn op vs)
  | ELogic isand a b =>
      let (s1, va) := ev a s in
      let (s2, vb) := ev b s1 in
      (s2, ofb (if isand then tob va && tob vb else tob va || tob vb))
  | EAssign x a => let (s1, v) := ev a s in (upd s1 x v, v)
  | ECond c a b => let (s1, vc) := ev c s in if tob vc then ev a s1 else ev b s1
  end
with evl (l : args V) (s : env) : env * list V :=
  match l with
  | ANil => (s, [])
  | ACons e r => let (s1, v) := ev e s in let (s2, vs) := evl r s1 in (s2, v :: vs)
  end.

(** How a statement ends: normally, or leaving [k] loops, or going on with the next round of the [k]th loop. *)
Inductive outcome := Norm | Brk (k : nat) | Cnt (k : nat).

Definition inc_step (inc : option (expr V)) (s : env) : env :=
  match inc with Some e => fst (ev e s) | None => s end.

(** Execution; [None]: some loop has not ended after testing its condition [f] times. *)
Fixpoint eval (f : nat) (p : stmt V) (s : env) : option (env * outcome) :=
  match p with
  | SSkip => Some (s, Norm)
  | SExpr e | SDrop e => Some (fst (ev e s), Norm)
  | SSeq a b =>
      match eval f a s with
      | Some (s1, Norm) => eval f b s1
      | r => r
      end
  | SIf c t => let (s1, v) := ev c s in if tob v then eval f t s1 else Some (s1, Norm)
  | SIfElse c t e => let (s1, v) := ev c s in if tob v then eval f t s1 else eval f e s1
  | SWhile c b inc =>
      (fix loop (k : nat) (s : env) : option (env * outcome) :=
         match k with
         | O => None
         | S k' =>
             let (s1, v) := ev c s in
             if tob v then
               match eval f b s1 with
               | None => None
               | Some (s2, Norm) | Some (s2, Cnt (S O)) => loop k' (inc_step inc s2)
               | Some (s2, Brk (S O)) => Some (s2, Norm)
               | Some (s2, Brk k) => Some (s2, Brk (pred k))
               | Some (s2, Cnt k) => Some (s2, Cnt (pred k))
               end
             else Some (s1, Norm)
         end) f s
  | SBreak k => Some (s, Brk k)
  | SContinue k => Some (s, Cnt k)
  end.

(** * Rules for shaders *)

Fixpoint reads (e : expr V) : list var :=
  match e with
  | EConst _ _ => []
  | EVar x => [x]
  | ECall _ l => readsl l
  | ELogic _ a b => reads a ++ reads b
  | EAssign _ a => reads a
  | ECond c a b => reads c ++ reads a ++ reads b
  end
with readsl (l : args V) : list var :=
  match l with ANil => [] | ACons e r => reads e ++ readsl r end.

Fixpoint sets (e : expr V) : list var :=
  match e with
  | EConst _ _ | EVar _ => []
  | ECall _ l => setsl l
  | ELogic _ a b => sets a ++ sets b
  | EAssign x a => x :: sets a
  | ECond c a b => sets c ++ sets a ++ sets b
  end
with setsl (l : args V) : list var :=
  match l with ANil => [] | ACons e r => sets e ++ setsl r end.

Definition disjoint (a b : list var) : bool := forallb (fun x => negb (existsb (Nat.eqb x) b)) a.

(** Rule 1 (as in C): a variable assigned in one operand is not used in another operand of the same operation. *)
Fixpoint order_free (e : expr V) : bool :=
  match e with
  | EConst _ _ | EVar _ => true
  | ECall _ l => order_freel l
  | ELogic _ a b =>
      order_free a && order_free b &&
      disjoint (sets a) (reads b ++ sets b) && disjoint (sets b) (reads a ++ sets a)
  | EAssign _ a => order_free a
  | ECond c a b => order_free c && order_free a && order_free b
  end
with order_freel (l : args V) : bool :=
  match l with
  | ANil => true
  | ACons e r =>
      order_free e && order_freel r &&
      disjoint (sets e) (readsl r ++ setsl r) && disjoint (setsl r) (reads e ++ sets e)
  end.

(** Rule 2: the condition of [?:] is a relation, not a variable or an assignment (the grammar sees to it). *)
Definition is_relation (e : expr V) : bool := match e with ECall _ _ | ELogic _ _ _ => true | _ => false end.
Fixpoint cond_ok (e : expr V) : bool :=
  match e with
  | EConst _ _ | EVar _ => true
  | ECall _ l => cond_okl l
  | ELogic _ a b => cond_ok a && cond_ok b
  | EAssign _ a => cond_ok a
  | ECond c a b => is_relation c && cond_ok c && cond_ok a && cond_ok b
  end
with cond_okl (l : args V) : bool :=
  match l with ANil => true | ACons e r => cond_ok e && cond_okl r end.

(** Rule 3: a uniform variable is assigned only uniform values, and only where control does not depend on varying
    values.  [uni x]: is [x] uniform? *)
Variable uni : var -> bool.

(** The value is uniform. *)
Fixpoint ucls (e : expr V) : bool :=
  match e with
  | EConst _ _ => true
  | EVar x => uni x
  | ECall _ l => uclsl l
  | ELogic _ a b => ucls a && ucls b
  | EAssign _ a => ucls a
  | ECond c a b => ucls c && ucls a && ucls b
  end
with uclsl (l : args V) : bool :=
  match l with ANil => true | ACons e r => ucls e && uclsl r end.

(** [u]: is control uniform here? *)
Fixpoint uni_ok (u : bool) (e : expr V) : bool :=
  match e with
  | EConst _ _ | EVar _ => true
  | ECall _ l => uni_okl u l
  | ELogic _ a b => uni_ok u a && uni_ok u b
  | EAssign x a => uni_ok u a && (negb (uni x) || (u && ucls a))
  | ECond c a b => uni_ok u c && uni_ok (u && ucls c) a && uni_ok (u && ucls c) b
  end
with uni_okl (u : bool) (l : args V) : bool :=
  match l with ANil => true | ACons e r => uni_ok u e && uni_okl u r end.

(** All breaks and continues of [p] that leave more than [d] enclosing loops are taken by all points or by none. *)
Fixpoint exits_uniform (d : nat) (u : bool) (p : stmt V) : bool :=
  match p with
  | SSkip | SExpr _ | SDrop _ => true
  | SSeq a b => exits_uniform d u a && exits_uniform d (u && exits_uniform 0 true a) b
  | SIf c t => exits_uniform d (u && ucls c) t
  | SIfElse c t f => exits_uniform d (u && ucls c) t && exits_uniform d (u && ucls c) f
  | SWhile c b _ => exits_uniform (S d) (u && ucls c && exits_uniform 0 true b) b
  | SBreak k | SContinue k => u || (k <=? d)
  end.

Definition expr_ok (u : bool) (e : expr V) : bool := order_free e && cond_ok e && uni_ok u e.

Definition is_assign (e : expr V) : bool := match e with EAssign _ _ => true | _ => false end.

(** All the rules; rule 4: an expression used as a statement, or as the first or third part of a [for], is an
    assignment ([SDrop] is a call used as a statement). *)
Fixpoint stmt_ok (u : bool) (p : stmt V) : bool :=
  match p with
  | SSkip | SBreak _ | SContinue _ => true
  | SExpr e => is_assign e && expr_ok u e
  | SDrop e => expr_ok u e
  | SSeq a b => stmt_ok u a && stmt_ok (u && exits_uniform 0 true a) b
  | SIf c t => expr_ok u c && stmt_ok (u && ucls c) t
  | SIfElse c t f => expr_ok u c && stmt_ok (u && ucls c) t && stmt_ok (u && ucls c) f
  | SWhile c b inc =>
      let w := u && ucls c && exits_uniform 0 true b in
      expr_ok w c && stmt_ok w b &&
      match inc with Some e => is_assign e && expr_ok w e | None => true end
  end.

(** Rule 4 alone. *)
Fixpoint assigns_only (p : stmt V) : bool :=
  match p with
  | SSkip | SBreak _ | SContinue _ | SDrop _ => true
  | SExpr e => is_assign e
  | SSeq a b => assigns_only a && assigns_only b
  | SIf _ t => assigns_only t
  | SIfElse _ t f => assigns_only t && assigns_only f
  | SWhile _ b inc => assigns_only b && match inc with Some e => is_assign e | None => true end
  end.

(** Every break and continue stays within the loops of the shader. *)
Fixpoint loops_ok (d : nat) (p : stmt V) : bool :=
  match p with
  | SSkip | SExpr _ | SDrop _ => true
  | SSeq a b => loops_ok d a && loops_ok d b
  | SIf _ t => loops_ok d t
  | SIfElse _ t f => loops_ok d t && loops_ok d f
  | SWhile _ b _ => loops_ok (S d) b
  | SBreak k | SContinue k => (1 <=? k) && (k <=? d)
  end.

End Spec.

(** What point [i] sees of the machine's variables: a uniform variable has one value for all points. *)
Definition sees {V} (uni : var -> bool) (m : store) (i : nat) : @env V :=
  fun x => if uni x then m x 0 else m x i.

(** * The stacks *)

(** How many values and how many saved running states an instruction takes off the two stacks. *)
Definition takes {V} (i : instr V) : nat * nat :=
  match i with
  | IDup | IDrop | IPop _ | ISGet => (1, 0)
  | ICall _ k => (k, 0)
  | ILogic _ => (2, 0)
  | IMerge => (3, 0)
  | IRSPop => (0, 1)
  | IRSBreak k => (0, k)
  | _ => (0, 0)
  end.

(** The label an instruction may jump to. *)
Definition target {V} (i : instr V) : option label :=
  match i with IRSJz l | ISJz l | IJmp l => Some l | _ => None end.

(** The machine after at most [k] instructions; [None] after an error. *)
Fixpoint exec {V} tob ofb fn uni n (k : nat) (C : code V) (st : state) : option state :=
  match k with
  | O => Some st
  | S k' => match nth_error C (pc st) with
            | None => Some st
            | Some i => match step tob ofb fn uni n C st i with
                        | Some st' => exec tob ofb fn uni n k' C st'
                        | None => None
                        end
            end
  end.

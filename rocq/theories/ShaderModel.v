(** Model of the shading-language code generator (libs/slcomp/backend/vmoutput.cpp) and of the SIMD shader virtual
    machine that runs its output (libs/shadervm/shadervm1.cpp, shaderstack.h, shaderexecenv/shaderexecenv.h). *)
From Coq Require Export List Arith Bool Lia.
Export ListNotations.

Definition var := nat.
Definition label := nat.

(** * Parse trees

    parsenode.h.  One value type stands for float/point/colour/string/matrix: type checking is another subject.
    [V] is the type of values. *)
Section Syntax.
Context {V : Type}.

(** Expressions.
    - [EConst str v]: float ([str = false]) or string ([str = true]) constant, vmoutput.cpp:476-484;
    - [EVar x]: vmoutput.cpp:279-300;
    - [ECall op l]: call of a built-in, of an arithmetic operator (parser.yy:1399-1465 makes those calls), of a unary
      operator or cast, a comparison (parser.yy:1591-1596 adds its operands in reverse, so it has the shape of a call) or
      a tuple constructor;
    - [ELogic isand a b]: [a && b] / [a || b] (parser.yy:1597-1611);
    - [EAssign x e]: assignment used as an expression;
    - [ECond c a b]: [c ? a : b] (parser.yy:1475-1483). *)
Inductive expr :=
| EConst (str : bool) (v : V)
| EVar (x : var)
| ECall (op : nat) (l : args)
| ELogic (isand : bool) (a b : expr)
| EAssign (x : var) (e : expr)
| ECond (c a b : expr)
with args :=
| ANil
| ACons (e : expr) (l : args).

(** Statements.
    - [SExpr e]: an expression in statement position, to which the parser has applied [NoDup]
      (parser.yy:968 and the first and third part of a [for], parser.yy:1135-1136);
    - [SDrop e]: a discarded call (parser.yy:969-990);
    - [SIf], [SIfElse], [SWhile c s inc] ([for] is an [SExpr] followed by an [SWhile]; a plain [while] has no [inc]);
    - [SBreak k], [SContinue k]. *)
Inductive stmt :=
| SSkip
| SExpr (e : expr)
| SDrop (e : expr)
| SSeq (a b : stmt)
| SIf (c : expr) (t : stmt)
| SIfElse (c : expr) (t f : stmt)
| SWhile (c : expr) (s : stmt) (inc : option expr)
| SBreak (k : nat)
| SContinue (k : nat).

(** * Instructions (opcode table, shadervm.cpp:88-240) *)
Inductive instr :=
| IPushF (v : V)          (* pushif *)
| IPushS (v : V)          (* pushis *)
| IPushV (x : var)        (* pushv *)
| IDup | IDrop
| IPop (x : var)          (* pop *)
| ICall (op n : nat)      (* addff, subff, lsff, setfc, noise1, ... with n operands *)
| ILogic (isand : bool)    (* land, lor *)
| IMerge                  (* mergef and friends *)
| ISClear | ISGet         (* S_CLEAR, S_GET *)
| IRSPush | IRSPop | IRSGet | IRSInv
| IRSBreak (k : nat)
| IRSJz (l : label) | ISJz (l : label) | IJmp (l : label)
| ILabel (l : label).     (* ":l"; loaded as a nop, shadervm.cpp:1085-1094 *)

Definition code := list instr.

(** * Code generator *)
Fixpoint alen (l : args) : nat := match l with ANil => 0 | ACons _ r => S (alen r) end.

(** vmoutput.cpp:147-233 (calls: arguments in reverse order), 279-300, 334-364 (assignment: value, dup, pop),
    404-432 (operators), 476-484 (constants), 784-815 (conditional expression). *)
Fixpoint cexpr (e : expr) : code :=
  match e with
  | EConst str v => [if str then IPushS v else IPushF v]
  | EVar x => [IPushV x]
  | ECall op l => cargs l ++ [ICall op (alen l)]
  | ELogic isand a b => cexpr a ++ cexpr b ++ [ILogic isand]
  | EAssign x e1 => cexpr e1 ++ [IDup; IPop x]
  | ECond c a b =>
      ISClear :: cexpr c ++ IDup :: ISGet :: IRSPush :: IRSGet :: cexpr a ++ IRSInv :: cexpr b ++ [IRSPop; IMerge]
  end
with cargs (l : args) : code :=
  match l with
  | ANil => []
  | ACons e r => cargs r ++ cexpr e
  end.

(** An expression on which the parser has called [NoDup]: assignments drop the dup (vmoutput.cpp:347-348,
    parsenode.h:661-664); for every other node [NoDup] does nothing (parsenode.h:210-211). *)
Definition cnodup (e : expr) : code :=
  match e with
  | EAssign x e1 => cexpr e1 ++ [IPop x]
  | _ => cexpr e
  end.

(** vmoutput.cpp:1061-1075: rsPush increments the counter of the innermost loop.  The break depth stack is a list with
    the innermost loop first. *)
Definition bump (bd : list nat) : list nat :=
  match bd with [] => [] | d :: r => S d :: r end.

Definition sum (l : list nat) : nat := fold_right Nat.add 0 l.

(** vmoutput.cpp: statements 54-62, 462-474 (drop), 486-520 (while), 522-552 (break/continue), 746-782 (if).
    [None]: compile error (break depth too large, vmoutput.cpp:529-538; depth argument 0, parser.yy:1374-1375).
    [lab] is the label counter [m_gcLabels]. *)
Fixpoint cstmt (bd : list nat) (lab : label) (s : stmt) : option (code * label) :=
  match s with
  | SSkip => Some ([], lab)
  | SExpr e => Some (cnodup e, lab)
  | SDrop e => Some (cexpr e ++ [IDrop], lab)
  | SSeq a b =>
      match cstmt bd lab a with
      | Some (ca, l1) => match cstmt bd l1 b with
                         | Some (cb, l2) => Some (ca ++ cb, l2)
                         | None => None end
      | None => None end
  | SIf c t =>
      match cstmt (bump bd) (S lab) t with
      | Some (ct, l1) =>
          Some ([ISClear] ++ cexpr c ++ [ISGet; IRSPush; IRSGet; IRSJz lab] ++ ct ++ [ILabel lab; IRSPop], l1)
      | None => None end
  | SIfElse c t f =>
      match cstmt (bump bd) (S (S lab)) t with
      | Some (ct, l1) =>
          match cstmt (bump bd) l1 f with
          | Some (cf, l2) =>
              Some ([ISClear] ++ cexpr c ++ [ISGet; IRSPush; IRSGet; IRSJz (S lab)] ++ ct ++
                    [ILabel (S lab); IRSInv; IRSJz lab] ++ cf ++ [ILabel lab; IRSPop], l2)
          | None => None end
      | None => None end
  | SWhile c b inc =>
      match cstmt (1 :: bump bd) (S (S lab)) b with
      | Some (cb, l1) =>
          Some ([IRSPush; ILabel lab; ISClear] ++ cexpr c ++ [ISGet; ISJz (S lab); IRSGet; IRSPush] ++ cb ++
                [IRSPop] ++ match inc with Some e => cnodup e | None => [] end ++
                [IJmp lab; ILabel (S lab); IRSPop], l1)
      | None => None end
  | SBreak k =>
      if (1 <=? k) && (k <=? length bd) then Some ([IRSBreak (sum (firstn k bd))], lab) else None
  | SContinue k =>
      if (1 <=? k) && (k <=? length bd) then Some ([IRSBreak (sum (firstn k bd) - 1)], lab) else None
  end.

(** A shader body is generated with an empty break depth stack. *)
Definition compile (s : stmt) : option code :=
  match cstmt [] 0 s with Some (c, _) => Some c | None => None end.

End Syntax.
Arguments expr : clear implicits.
Arguments args : clear implicits.
Arguments stmt : clear implicits.
Arguments instr : clear implicits.
Arguments code : clear implicits.

(** * The virtual machine *)
Section VM.
Context {V : Type}.
Variable tob : V -> bool.          (* GetBool *)
Variable ofb : bool -> V.          (* result of a logical operator *)
Variable fn : nat -> list V -> V.  (* a shadeop, on one shading point *)
Variable uni : var -> bool.        (* is the variable of class uniform? *)
Variable n : nat.                  (* number of shading points *)

(** Data of all variables: [store x i] is element [i]; only element 0 of a uniform variable is meaningful. *)
Definition store := var -> nat -> V.
Definition rdv (s : store) (x : var) (i : nat) : V := s x (if uni x then 0 else i).

(** Stack entries (shaderstack.h:219-224): a reference to a variable (PushV, shaderstack.h:263-280), or a temporary of
    uniform or varying class.  A temporary comes from a pool and is not initialised: [None] is indeterminate data. *)
Inductive cell :=
| CRef (x : var)
| CUni (o : option V)
| CVar (d : nat -> option V).

Record state := mk {
  pc : nat;                        (* m_PO *)
  stk : list cell;                 (* m_Stack, top first *)
  rs : nat -> bool;                (* m_RunningState; bits at and above [n] are never looked at *)
  cs : nat -> bool;                (* m_CurrentState *)
  saved : list (nat -> bool);      (* m_stkState, top first *)
  running : bool;                  (* m_isRunning *)
  mem : store
}.

(** CqBitVector::Count() != 0 *)
Definition any (b : nat -> bool) : bool := existsb b (seq 0 n).

(** Element [i] of a stack entry (GetFloat, GetValue, ... with index) *)
Definition rd (s : store) (c : cell) (i : nat) : option V :=
  match c with CRef x => Some (rdv s x i) | CUni o => o | CVar d => d i end.

(** Size() > 1 *)
Definition varying (c : cell) : bool :=
  match c with CRef x => negb (uni x) && (1 <? n) | CUni _ => false | CVar _ => 1 <? n end.

Fixpoint collect (l : list (option V)) : option (list V) :=
  match l with
  | [] => Some []
  | Some v :: r => match collect r with Some vs => Some (v :: vs) | None => None end
  | None :: _ => None
  end.

Definition apply (op : nat) (l : list (option V)) : option V :=
  match collect l with Some vs => Some (fn op vs) | None => None end.

(** Pop [k] entries; popping an empty stack is an error. *)
Fixpoint popn (k : nat) (l : list cell) : option (list cell * list cell) :=
  match k with
  | O => Some ([], l)
  | S k' => match l with
            | [] => None
            | c :: r => match popn k' r with Some (a, b) => Some (c :: a, b) | None => None end
            end
  end.

(** A shadeop on popped entries [cl] (shadeopmacros.h:48-103, shaderstack.h:146-206).
    If no point is running the result is left indeterminate; if an entry is varying the result is varying and computed
    for the running points; otherwise it is computed once. *)
Definition shadeop (f : list (option V) -> option V) (st : state) (cl : list cell) : cell :=
  if existsb varying cl
  then CVar (fun i => if running st && rs st i then f (map (fun c => rd (mem st) c i) cl) else None)
  else CUni (if running st then f (map (fun c => rd (mem st) c 0) cl) else None).

Definition logic (isand : bool) (l : list (option V)) : option V :=
  match l with
  | [Some a; Some b] => Some (ofb (if isand then tob a && tob b else tob a || tob b))
  | _ => None
  end.

(** shaderstack.h:300-311 Dup *)
Definition dup (s : store) (c : cell) : cell :=
  match c with
  | CRef x => if uni x then CUni (Some (s x 0)) else CVar (fun i => Some (s x i))
  | _ => c
  end.

(** shadervm1.cpp:132-151 SO_pop.  Storing indeterminate data is an error.  For a uniform variable,
    SetValueFromVariable(pVal, i) ignores [i] and reads element 0 of the value (shadervariable.h:630-633, 706-709). *)
Definition is_some {A} (o : option A) : bool := match o with Some _ => true | None => false end.

Definition selected (b : nat -> bool) (i : nat) : bool := negb (1 <? n) || b i.

Definition setvar (st : state) (x : var) (c : cell) : option store :=
  if running st then
    if uni x then
      if existsb (selected (rs st)) (seq 0 n) then
        match rd (mem st) c 0 with
        | Some v => Some (fun y i => if (y =? x) && (i =? 0) then v else mem st y i)
        | None => None
        end
      else Some (mem st)
    else
      if forallb (fun i => negb (selected (rs st) i) || is_some (rd (mem st) c i)) (seq 0 n) then
        Some (fun y i => if (y =? x) && (i <? n) && selected (rs st) i
                         then match rd (mem st) c i with Some v => v | None => mem st y i end
                         else mem st y i)
      else None
  else Some (mem st).

(** shadervm1.cpp:465-487 SO_S_GET *)
Definition sget (st : state) (c : cell) : option (nat -> bool) :=
  if running st then
    if forallb (fun i => negb (rs st i) || is_some (rd (mem st) c i)) (seq 0 n) then
      Some (fun i => if (i <? n) && rs st i
                     then match rd (mem st) c i with Some v => tob v | None => cs st i end
                     else cs st i)
    else None
  else Some (cs st).

(** shaderexecenv.h:153-170 RunningStatesBreak *)
Fixpoint clear_top (k : nat) (r : nat -> bool) (l : list (nat -> bool)) : option (list (nat -> bool)) :=
  match k with
  | O => Some l
  | S k' => match l with
            | [] => None
            | b :: t => match clear_top k' r t with
                        | Some t' => Some ((fun i => b i && negb (r i)) :: t')
                        | None => None end
            end
  end.

(** Offset of a label: the last definition wins (shadervm.cpp:1086-1092). *)
Fixpoint find_label (l : label) (c : code V) : option nat :=
  match c with
  | [] => None
  | i :: r => match find_label l r with
              | Some p => Some (S p)
              | None => match i with ILabel l' => if l' =? l then Some 0 else None | _ => None end
              end
  end.

Definition next (st : state) (k : list cell) : state :=
  mk (S (pc st)) k (rs st) (cs st) (saved st) (running st) (mem st).

Definition jump (C : code V) (l : label) (st : state) : option state :=
  match find_label l C with
  | Some p => Some (mk p (stk st) (rs st) (cs st) (saved st) (running st) (mem st))
  | None => None
  end.

Definition set_rs (st : state) (r : nat -> bool) (sv : list (nat -> bool)) : state :=
  mk (S (pc st)) (stk st) r (cs st) sv (any r) (mem st).

(** One instruction; [None] is an error (stack underflow, use of indeterminate data, missing label). *)
Definition step (C : code V) (st : state) (i : instr V) : option state :=
  match i with
  | IPushF v => Some (next st (CUni (Some v) :: stk st))                       (* shadervm1.cpp:53-63 *)
  | IPushS v => Some (next st (CUni (if running st then Some v else None) :: stk st))  (* shadervm1.cpp:80-88 *)
  | IPushV x => Some (next st (CRef x :: stk st))                              (* shadervm1.cpp:90-93 *)
  | IDup => match stk st with c :: r => Some (next st (dup (mem st) c :: c :: r)) | [] => None end
  | IDrop => match stk st with _ :: r => Some (next st r) | [] => None end
  | IPop x =>
      match stk st with
      | c :: r => match setvar st x c with
                  | Some m => Some (mk (S (pc st)) r (rs st) (cs st) (saved st) (running st) m)
                  | None => None end
      | [] => None end
  | ICall op k =>
      match popn k (stk st) with
      | Some (cl, r) => Some (next st (shadeop (apply op) st cl :: r))
      | None => None end
  | ILogic isand =>
      match popn 2 (stk st) with
      | Some (cl, r) => Some (next st (shadeop (logic isand) st cl :: r))
      | None => None end
  | IMerge =>                                                                  (* shadervm1.cpp:188-217 *)
      match stk st with
      | f :: t :: a :: r =>
          Some (next st (CVar (fun i => if running st
                                        then match rd (mem st) a i with
                                             | Some v => if tob v then rd (mem st) t i else rd (mem st) f i
                                             | None => None end
                                        else None) :: r))
      | _ => None end
  | ISClear => Some (mk (S (pc st)) (stk st) (rs st) (fun _ => false) (saved st) (running st) (mem st))
  | ISGet =>
      match stk st with
      | c :: r => match sget st c with
                  | Some cs' => Some (mk (S (pc st)) r (rs st) cs' (saved st) (running st) (mem st))
                  | None => None end
      | [] => None end
  | IRSPush => Some (mk (S (pc st)) (stk st) (rs st) (cs st) (rs st :: saved st) (running st) (mem st))
  | IRSPop => match saved st with r :: sv => Some (set_rs st r sv) | [] => None end
  | IRSGet => Some (set_rs st (cs st) (saved st))
  | IRSInv =>                                                                  (* shaderexecenv.h:146-152 *)
      Some (set_rs st (fun i => negb (rs st i) && match saved st with r :: _ => r i | [] => true end) (saved st))
  | IRSBreak k =>
      match clear_top k (rs st) (saved st) with
      | Some sv => Some (mk (S (pc st)) (stk st) (fun _ => false) (cs st) sv false (mem st))
      | None => None end
  | IRSJz l => if running st then Some (next st (stk st)) else jump C l st     (* shadervm1.cpp:488-496 *)
  | ISJz l => if any (cs st) then Some (next st (stk st)) else jump C l st     (* shadervm1.cpp:504-512 *)
  | IJmp l => jump C l st
  | ILabel _ => Some (next st (stk st))
  end.

Inductive result := Done (st : state) | Crash | OutOfSteps.

(** shadervm.cpp:1536-1560 Execute *)
Fixpoint run (k : nat) (C : code V) (st : state) : result :=
  match nth_error C (pc st) with
  | None => Done st
  | Some i => match k with
              | O => OutOfSteps
              | S k' => match step C st i with Some st' => run k' C st' | None => Crash end
              end
  end.

(** All points running, nothing on either stack. *)
Definition start (m : store) : state := mk 0 [] (fun _ => true) (fun _ => false) [] (any (fun _ => true)) m.

End VM.

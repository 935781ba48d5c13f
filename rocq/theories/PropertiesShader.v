(** Properties C15 and C16: compiled shaders on the SIMD virtual machine. *)
From Coq Require Import List Arith ZArith.
From Verif Require Import ShaderModel ShaderSpec ShaderFinal ShaderCases.
Import ListNotations.

(** C15.  A shader body [p] that follows the rules of ShaderSpec.v is compiled to [C] and run over [n] points.  If the
    body, executed for each point alone (left to right, the point seeing its own value of a varying variable and the
    common value of a uniform one), ends, then the machine halts without error, both stacks are empty, and every point
    sees in every variable exactly the value its own execution gave.  Values, truth, the shading functions, the set of
    uniform variables and the initial contents are arbitrary. *)
Theorem C15_simd_equals_per_point :
  forall (V : Type) (tob : V -> bool) (ofb : bool -> V) (fn : nat -> list V -> V) (uni : var -> bool) (n : nat)
         (p : stmt V) (C : code V) (m : store),
  1 <= n -> compile p = Some C -> stmt_ok uni true p = true ->
  (forall i, i < n -> exists f r, eval tob ofb fn f p (sees uni m i) = Some r) ->
  exists k st', run tob ofb fn uni n k C (start n m) = Done st' /\ stk st' = [] /\ saved st' = [] /\
    forall i, i < n -> forall f s o, eval tob ofb fn f p (sees uni m i) = Some (s, o) ->
      o = Norm /\ forall x, sees uni (mem st') i x = s x.
Proof. intros V tob ofb fn uni n. exact (run_correct tob ofb fn uni n). Qed.
Print Assumptions C15_simd_equals_per_point.

(** Non-vacuity: nested loops, [break 2], [continue], a conditional expression and a uniform variable, three points
    that take different paths. *)
Example C15_case :
  compile prog = Some prog_code /\ stmt_ok zuni true prog = true /\
  (forall i, i < 3 -> exists f s, eval ztob zofb zfn f prog (sees zuni mem0 i) = Some (s, Norm) /\
     map s [1; 2; 3; 4] = nth i [[2; 1; 2; 101]; [3; 20; 2; 101]; [0; 0; 1; 101]]%Z []).
Proof.
  split; [vm_compute; reflexivity|]. split; [vm_compute; reflexivity|].
  intros i Hi. exists 5. destruct i as [|[|[|i]]]; [eexists; split; vm_compute; reflexivity ..|].
  exfalso. apply (Nat.lt_irrefl 3). eapply Nat.le_lt_trans; [|exact Hi]. do 3 apply le_n_S. apply Nat.le_0_l.
Qed.

(** Without rule 1 the property fails: in [x = x + (x = 5)] the machine reads [x] after the assignment. *)
Theorem C15_operand_order_refuted :
  order_free (EAssign 0 (op2 0 (EVar 0) (EAssign 0 (num 5)))) = false /\
  exists st s, compile alias_prog = Some (code_of alias_prog) /\
    zrun 1 100 (code_of alias_prog) (start 1 (fun _ _ => 1%Z)) = Done st /\
    zeval 1 alias_prog (fun _ => 1%Z) = Some (s, Norm) /\ mem st 0 0 = 10%Z /\ s 0 = 6%Z.
Proof. exact alias_case. Qed.
Print Assumptions C15_operand_order_refuted.

(** Without rule 3 it fails: [if (x < 3) u = 1] with a uniform [u] changes [u] for the points whose test failed. *)
Theorem C15_uniform_in_varying_conditional_refuted :
  exists st s, compile uniform_prog = Some (code_of uniform_prog) /\
    zrun 2 100 (code_of uniform_prog) (start 2 two_points) = Done st /\
    zeval 1 uniform_prog (sees zuni two_points 0) = Some (s, Norm) /\ s 4 = 0%Z /\ sees zuni (mem st) 0 4 = 1%Z.
Proof. exact uniform_case. Qed.
Print Assumptions C15_uniform_in_varying_conditional_refuted.

(** C16.  In every execution of a compiled body whose expression statements are assignments (calls used as statements
    are followed by a drop), whether or not it ends: the instruction about to be executed finds on the value stack and
    on the running-state stack what it takes off them, the label it may jump to exists, and when the machine has
    halted both stacks are empty. *)
Theorem C16_stacks_balanced_partial :
  forall (V : Type) (tob : V -> bool) (ofb : bool -> V) (fn : nat -> list V -> V) (uni : var -> bool) (n : nat)
         (p : stmt V) (C : code V) (m : store),
  compile p = Some C -> assigns_only p = true ->
  forall k st, exec tob ofb fn uni n k C (start n m) = Some st ->
    (forall i, nth_error C (pc st) = Some i ->
       fst (takes i) <= length (stk st) /\ snd (takes i) <= length (saved st) /\
       forall l, target i = Some l -> find_label l C <> None) /\
    (nth_error C (pc st) = None -> stk st = [] /\ saved st = []).
Proof. intros V tob ofb fn uni n. exact (stacks_balanced tob ofb fn uni n). Qed.
Print Assumptions C16_stacks_balanced_partial.

Example C16_case :
  assigns_only prog = true /\
  exists st, exec ztob zofb zfn zuni 3 58 prog_code (start 3 mem0) = Some st /\
    length (stk st) = 0 /\ length (saved st) = 5 /\ nth_error prog_code (pc st) = Some (IRSBreak 4).
Proof. split; [reflexivity|]. eexists. split; [vm_compute; reflexivity|]. vm_compute. auto. Qed.

(** Without the rule it fails: the increment [x + 1] of a for loop leaves a value behind each time round. *)
Theorem C16_loop_increment_refuted :
  exists st, compile noassign_prog = Some (code_of noassign_prog) /\
    zrun 1 100 (code_of noassign_prog) (start 1 (fun _ _ => 0%Z)) = Done st /\ length (stk st) = 3.
Proof. exact noassign_case. Qed.
Print Assumptions C16_loop_increment_refuted.

(** Concrete shaders: cases that follow the rules, and counterexamples that break one of them.
    Values are integers; operations: 0 addition, 1 "less than", 2 "equal"; variables 0-3 are varying, 4 and up
    uniform. *)
From Coq Require Import ZArith.
From Verif Require Import ShaderModel ShaderSpec.

Definition ztob (v : Z) : bool := negb (v =? 0)%Z.
Definition zofb (b : bool) : Z := if b then 1%Z else 0%Z.
Definition zfn (op : nat) (l : list Z) : Z :=
  match op, l with
  | 0, [a; b] => (a + b)%Z
  | 1, [a; b] => zofb (a <? b)%Z
  | 2, [a; b] => zofb (a =? b)%Z
  | _, _ => 0%Z
  end.
Definition zuni (x : var) : bool := 4 <=? x.
Definition zeval := eval ztob zofb zfn.
Definition zrun := run ztob zofb zfn zuni.

Definition num (v : Z) : expr Z := EConst false v.
Arguments num _%Z.
Definition op2 (o : nat) (a b : expr Z) : expr Z := ECall o (ACons a (ACons b ANil)).

(** [acc = 0; k = 0; for (i = 0; i < 3; i += 1) { if (x < i) break; if (i == 2) continue;
     while (k < 2) { k = k + 1; if (x == 7) break 2; } acc = acc + (x < 3 ? i : 10); } u = u + 1]
    with x, i, acc, k = 0, 1, 2, 3 and the uniform u = 4 *)
Definition prog : stmt Z :=
  SSeq (SExpr (EAssign 2 (num 0)))
  (SSeq (SExpr (EAssign 3 (num 0)))
  (SSeq (SExpr (EAssign 1 (num 0)))
  (SSeq (SWhile (op2 1 (EVar 1) (num 3))
     (SSeq (SIf (op2 1 (EVar 0) (EVar 1)) (SBreak 1))
     (SSeq (SIf (op2 2 (EVar 1) (num 2)) (SContinue 1))
     (SSeq (SWhile (op2 1 (EVar 3) (num 2))
              (SSeq (SExpr (EAssign 3 (op2 0 (EVar 3) (num 1))))
                    (SIf (op2 2 (EVar 0) (num 7)) (SBreak 2))) None)
           (SExpr (EAssign 2 (op2 0 (EVar 2) (ECond (op2 1 (EVar 0) (num 3)) (EVar 1) (num 10))))))))
     (Some (EAssign 1 (op2 0 (EVar 1) (num 1)))))
     (SExpr (EAssign 4 (op2 0 (EVar 4) (num 1))))))).

(** Three points with x = 1, 5 and 7 *)
Definition mem0 : store := fun x i => match x with 0 => nth i [1; 5; 7]%Z 0%Z | _ => 100%Z end.

Definition prog_code : code Z := match compile prog with Some c => c | None => [] end.

(** Rule 1 broken: [x = x + (x = 5)] *)
Definition alias_prog : stmt Z := SExpr (EAssign 0 (op2 0 (EVar 0) (EAssign 0 (num 5)))).
(** Rule 3 broken: [if (x < 3) u = 1] with a uniform u *)
Definition uniform_prog : stmt Z := SIf (op2 1 (EVar 0) (num 3)) (SExpr (EAssign 4 (num 1))).
(** Rule 4 broken: [while (x < 3; x + 1) { x = x + 1 }], a for loop whose increment is not an assignment *)
Definition noassign_prog : stmt Z :=
  SWhile (op2 1 (EVar 0) (num 3)) (SExpr (EAssign 0 (op2 0 (EVar 0) (num 1)))) (Some (op2 0 (EVar 0) (num 1))).

Definition code_of (p : stmt Z) : code Z := match compile p with Some c => c | None => [] end.

Lemma alias_case :
  order_free (EAssign 0 (op2 0 (EVar 0) (EAssign 0 (num 5)))) = false /\
  exists st s, compile alias_prog = Some (code_of alias_prog) /\
    zrun 1 100 (code_of alias_prog) (start 1 (fun _ _ => 1%Z)) = Done st /\
    zeval 1 alias_prog (fun _ => 1%Z) = Some (s, Norm) /\ mem st 0 0 = 10%Z /\ s 0 = 6%Z.
Proof. split; [reflexivity|]. eexists. eexists. vm_compute. repeat split. Qed.

Definition two_points : @store Z := fun x i => match x with 0 => nth i [5; 1]%Z 0%Z | _ => 0%Z end.

Lemma uniform_case :
  exists st s, compile uniform_prog = Some (code_of uniform_prog) /\
    zrun 2 100 (code_of uniform_prog) (start 2 two_points) = Done st /\
    zeval 1 uniform_prog (sees zuni two_points 0) = Some (s, Norm) /\ s 4 = 0%Z /\ sees zuni (mem st) 0 4 = 1%Z.
Proof. eexists. eexists. vm_compute. repeat split. Qed.

Lemma noassign_case :
  exists st, compile noassign_prog = Some (code_of noassign_prog) /\
    zrun 1 100 (code_of noassign_prog) (start 1 (fun _ _ => 0%Z)) = Done st /\ length (stk st) = 3.
Proof. eexists. vm_compute. repeat split. Qed.

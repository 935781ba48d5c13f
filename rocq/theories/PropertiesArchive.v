(** C10 and C11: conditional RIB, and inline archives and objects.

    [flat is] is the text of the stream [is]; [run fuel [] (flat is) new_state]
    is what the filter does with it, [fuel] only bounding the number of steps. *)

From Coq Require Import List Bool Arith ZArith.
From Verif Require Import ArchiveModel ArchiveSpec ArchiveProofs.
Import ListNotations.
Open Scope Z_scope.

(** C10.  A stream of requests and conditionals, nested to any depth: what
    reaches the renderer is, in order, the clauses whose condition is the first
    true one.  Missing: streams with a conditional (or an archive or object,
    which may contain one) in a clause that is followed by another clause of the
    same conditional; see the refutation below. *)
Theorem C10_first_true_clause_partial :
  forall R C (f : list (effect R C) -> C -> bool) (is : list (item R C)),
    archiveless R C is = true -> plain R C is = true ->
    exists k, forall k', (k <= k')%nat ->
      exists s, run R C (Some f) k' [] (flat R C is) (new_state R C) = Done R C s /\ out R C s = evals R C f is [].
Proof. intros R C f is. apply conditional_stream. Qed.
Print Assumptions C10_first_true_clause_partial.

Definition ask : list (effect Z Z) -> Z -> bool := fun o c => Z.of_nat (length o) <=? c.
Definition deep : list (item Z Z) :=
  [Plain Z Z 1; Cond Z Z 0 [Plain Z Z 2] [(0, [Plain Z Z 3]); (1, [Plain Z Z 4; Comment Z Z 5])]
     (Some [Cond Z Z 9 [Plain Z Z 6] [] None]);
   Cond Z Z 0 [Plain Z Z 7] [] (Some [Plain Z Z 8; Cond Z Z 0 [Plain Z Z 9] [] (Some [Cond Z Z 5 [Plain Z Z 10] [] None])])].
Example C10_example : archiveless Z Z deep = true /\ plain Z Z deep = true /\
  evals Z Z ask deep [] = map (Passed Z Z) [RPlain Z Z 1; RPlain Z Z 4; RRecord Z Z 5; RPlain Z Z 8; RPlain Z Z 10].
Proof. repeat split. Qed.

(** Refuted in general: with a false conditional inside the taken clause, the
    Else clause runs as well. *)
Theorem C10_nested_conditional_refuted :
  forall R C (f : list (effect R C) -> C -> bool) c c' r1 r2,
    (forall o, f o c = true) -> (forall o, f o c' = false) ->
    let is := [Cond R C c [Cond R C c' [] [] None; Plain R C r1] [] (Some [Plain R C r2])] in
    evals R C f is [] = [Passed R C (RPlain R C r1)] /\
    forall k, (8 <= k)%nat ->
      exists s, run R C (Some f) k [] (flat R C is) (new_state R C) = Done R C s /\
        out R C s = [Passed R C (RPlain R C r1); Passed R C (RPlain R C r2)].
Proof.
  intros R C f c c' r1 r2 T F is. split.
  - unfold is. cbn. rewrite T. cbn. rewrite F. reflexivity.
  - intros k K. apply nested_conditional_runs_both; assumption.
Qed.
Print Assumptions C10_nested_conditional_refuted.

(** An Else without conditional is undefined behaviour. *)
Theorem C10_unmatched_else_refuted :
  forall R C (f : list (effect R C) -> C -> bool) k, (1 <= k)%nat ->
    run R C (Some f) k [] [RElse R C] (new_state R C) = Undefined R C.
Proof. intros R C f k. apply unmatched_else_undefined. Qed.
Print Assumptions C10_unmatched_else_refuted.

(** C11.  Any nesting of archives, objects, instances and conditionals: what
    reaches the renderer is what [runs] says, where reading an archive or
    instancing an object means running its body at that place.  The filter
    finishes exactly when [runs] holds, and [runs] is a function.  Missing: the
    streams C10 excludes, objects within objects, comments in archives, and
    archives that define themselves anew while being read. *)
Theorem C11_replay_is_inlining_partial :
  forall R C (f : list (effect R C) -> C -> bool) (is : list (item R C)) e o,
    legal R C is = true -> plain R C is = true -> runs R C f [] (no_env R C) [] is e o ->
    exists k, forall k', (k <= k')%nat ->
      exists s, run R C (Some f) k' [] (flat R C is) (new_state R C) = Done R C s /\ out R C s = o.
Proof. intros R C f is e o. apply stream_runs. Qed.
Print Assumptions C11_replay_is_inlining_partial.

Theorem C11_only_inlining_partial :
  forall R C (f : list (effect R C) -> C -> bool) (is : list (item R C)) k s,
    legal R C is = true -> plain R C is = true ->
    run R C (Some f) k [] (flat R C is) (new_state R C) = Done R C s ->
    exists e, runs R C f [] (no_env R C) [] is e (out R C s).
Proof. intros R C f is k s. apply stream_done. Qed.
Print Assumptions C11_only_inlining_partial.

Theorem C11_meaning_is_unique :
  forall R C (f : list (effect R C) -> C -> bool) live e o (is : list (item R C)) e1 o1 e2 o2,
    runs R C f live e o is e1 o1 -> runs R C f live e o is e2 o2 -> e2 = e1 /\ o2 = o1.
Proof. intros R C f live e o is e1 o1 e2 o2 A B. exact (runs_det R C f live e o is e1 o1 A e2 o2 B). Qed.
Print Assumptions C11_meaning_is_unique.

(** Archive 1 defines archive 2 and object 3 and reads archive 4, defined later;
    archive 2 is redefined in between. *)
Definition nested : list (item Z Z) :=
  [Archive Z Z [1] [Plain Z Z 1; Archive Z Z [2] [Plain Z Z 2]; Object Z Z [3] [Plain Z Z 3; Read Z Z [2]]; Read Z Z [4]];
   Archive Z Z [2] [Plain Z Z 20]; Archive Z Z [4] [Cond Z Z 2 [Plain Z Z 4] [] (Some [Plain Z Z 5])];
   Read Z Z [2]; Read Z Z [1]; Read Z Z [2]; Instance Z Z [3]; Read Z Z [4]; Read Z Z [5]; Instance Z Z [6]].
Example C11_example : legal Z Z nested = true /\ plain Z Z nested = true /\
  exists e, runs Z Z ask [] (no_env Z Z) [] nested e
    (map (fun z => Passed Z Z (RPlain Z Z z)) [20; 1; 4; 2; 3; 2; 5] ++ [Passed Z Z (RReadArchive Z Z [5]); BadObject Z Z [6]]).
Proof.
  split; [reflexivity|]. split; [reflexivity|]. eexists.
  apply run_archive; [intros []|]. apply run_archive; [intros []|]. apply run_archive; [intros []|].
  eapply run_read; [reflexivity|apply run_plain, run_nil|].
  eapply run_read; [reflexivity| |].
  { apply run_plain. apply run_archive; [intros [H|[]]; discriminate H|]. apply run_object; [intros [H|[]]; discriminate H|].
    eapply run_read; [reflexivity| |apply run_nil]. eapply run_cond; [|apply run_nil]. apply run_plain, run_nil. }
  eapply run_read; [reflexivity|apply run_plain, run_nil|].
  eapply run_instance; [reflexivity| |].
  { apply run_plain. eapply run_read; [reflexivity|apply run_plain, run_nil|apply run_nil]. }
  eapply run_read; [reflexivity| |].
  { eapply run_cond; [|apply run_nil]. apply run_plain, run_nil. }
  apply run_read_other; [reflexivity|]. apply run_instance_other; [reflexivity|]. apply run_nil.
Qed.

(** Refuted in general. *)
Theorem C11_comments_lost_refuted :
  forall R C (f : list (effect R C) -> C -> bool) n r1 r2 k, (7 <= k)%nat ->
    exists s, run R C (Some f) k [] (flat R C [Archive R C n [Comment R C r1; Plain R C r2]; Read R C n]) (new_state R C) = Done R C s /\
      out R C s = [Passed R C (RPlain R C r2)].
Proof. intros R C f n r1 r2 k. apply comments_not_replayed. Qed.
Print Assumptions C11_comments_lost_refuted.
Theorem C11_self_redefinition_refuted :
  forall R C (f : list (effect R C) -> C -> bool) n r k, (7 <= k)%nat ->
    run R C (Some f) k [] (flat R C [Archive R C n [Archive R C n [Plain R C r]]; Read R C n]) (new_state R C) = Undefined R C.
Proof. intros R C f n r k. apply self_redefinition_undefined. Qed.
Print Assumptions C11_self_redefinition_refuted.
Theorem C11_self_read_refuted :
  forall R C (f : list (effect R C) -> C -> bool) n k,
    run R C (Some f) k [] (flat R C [Archive R C n [Read R C n]; Read R C n]) (new_state R C) = OutOfFuel R C.
Proof. intros R C f n k. apply self_read_never_ends. Qed.
Print Assumptions C11_self_read_refuted.
Theorem C11_nested_object_refuted :
  forall R C (f : list (effect R C) -> C -> bool) n r1 r2 k, (7 <= k)%nat ->
    exists s, run R C (Some f) k [] (flat R C [Object R C n [Object R C n [Plain R C r1]; Plain R C r2]]) (new_state R C) = Done R C s /\
      out R C s = [Passed R C (RPlain R C r2)].
Proof. intros R C f n r1 r2 k. apply nested_object_ends_early. Qed.
Print Assumptions C11_nested_object_refuted.

(** C09: the validation filter and the nesting of calls. *)

From Coq Require Import List Bool ZArith Lia.
From Verif Require Import ValidModel ValidSpec ValidProofs.
Import ListNotations.
Open Scope Z_scope.

Definition outside (relaxed : bool) : place := if relaxed then Fragment else Outer.
Lemma start_stack relaxed : stack [outside relaxed] /\ scopes (new_state relaxed) = map place_scope [outside relaxed] /\ archives [outside relaxed] = O.
Proof. destruct relaxed; repeat split; constructor. Qed.

(** C09.  For every sequence of calls, with or without assertions and for complete
    files and fragments: the calls that are passed on are nested, i.e. every End closes
    the innermost open block, and every call is in a block in which it may appear.
    Missing: calls recorded in an archive, ArchiveEnd without ArchiveBegin, and
    an End for which the next filter throws; see below. *)
Theorem C09_accepted_nested_partial :
  forall relaxed asserts cs, archives_closed 0 cs -> ends_accepted cs ->
    exists s ws, run relaxed asserts cs (new_state relaxed) = Some s /\ nested [outside relaxed] (out s) ws.
Proof.
  intros relaxed asserts cs A T. destruct (start_stack relaxed) as (St & E & N).
  destruct (run_nested relaxed asserts cs _ _ O St E N A T) as (s' & es & ws' & R & O1 & Ne & _).
  exists s', ws'. split; [exact R|]. rewrite O1. exact Ne.
Qed.
Print Assumptions C09_accepted_nested_partial.

(** Conversely nested calls whose arguments are correct all pass. *)
Theorem C09_nested_accepted :
  forall relaxed asserts cs ws, nested [outside relaxed] (map what cs) ws -> Forall good (map what cs) -> ends_accepted cs ->
    exists s, run relaxed asserts cs (new_state relaxed) = Some s /\ out s = map what cs.
Proof.
  intros relaxed asserts cs ws Ne G T. destruct (start_stack relaxed) as (St & E & N).
  destruct (nested_run relaxed asserts _ _ _ Ne St cs (new_state relaxed) eq_refl G T E) as (s' & R & O1 & _).
  exists s'. split; [exact R|exact O1].
Qed.
Print Assumptions C09_nested_accepted.

Definition ev := map (fun e => mkCall e false).
Definition session : list event :=
  [Do RFormat true; Begin KFrame true; Do RSphere true; Begin KWorld true; Do RFormat true; Begin KAttribute true; Do RColor true; End KWorld;
   Begin KTransform true; Mesh MCurves true (fun _ _ v => v =? 3); End KTransform; End KAttribute;
   Begin KArchive true; End KFrame; Do RSphere true; Begin KWorld true; End KArchive; Do RIfBegin true; End KWorld; End KFrame; End KFrame].
Example C09_example : archives_closed 0 (ev session) /\ ends_accepted (ev session) /\
  exists s, run false true (ev session) (new_state false) = Some s /\ length (out s) = 17%nat /\ scopes s = [SBeginEnd].
Proof.
  split; [cbn; exact I|]. split.
  - intros c k I _. unfold ev in I. apply in_map_iff in I as (e & <- & _). reflexivity.
  - eexists. split; [vm_compute; reflexivity|]. split; reflexivity.
Qed.
Definition good_session : list event :=
  [Do RFormat true; Begin KWorld true; Begin KAttribute true; Begin KMotion true; Do RSphere true; Do RSphere true; End KMotion; End KAttribute; End KWorld].
Example C09_good_example : nested [Outer] good_session [Outer] /\ Forall good good_session.
Proof.
  split; [|repeat constructor]. unfold good_session.
  repeat first [apply nest_nil | apply nest_call; [reflexivity|] | apply nest_begin; [discriminate|reflexivity|intros X; discriminate X|] | apply nest_end; [discriminate|]].
Qed.

(** The basis steps by which the lengths of the arrays of PatchMesh and Curves are
    judged are those of the last Basis call that counts at that place, where all blocks
    but transformation blocks restore the steps when they end. *)
Theorem C09_steps_scoped :
  forall relaxed asserts file es st, keeps_all relaxed false (3, 3) file es st -> (forall i, In i file -> placed (outside relaxed) i) ->
    exists s, run relaxed asserts (ev (flat file)) (new_state relaxed) = Some s /\ out s = es.
Proof.
  intros relaxed asserts file es st K P. destruct (start_stack relaxed) as (St & E & N).
  pose proof (keeps_all_tracked relaxed asserts _ _ _ _ _ K (outside relaxed) P (new_state relaxed) [] [] St ltac:(destruct relaxed; reflexivity) E eq_refl) as H.
  eexists. split; [exact H|reflexivity].
Qed.
Print Assumptions C09_steps_scoped.

Definition needs (k : Z) : item := One (Mesh MCurves true (fun _ _ v => v =? k)).
Definition file : list item :=
  [Block KWorld [needs 3; One (SetBasis 1 2); Block KAttribute [One (SetBasis 4 4); needs 4; needs 2]; needs 2; Block KTransform [One (SetBasis 5 5)]; needs 5]].
Example C09_steps_example : exists es st, keeps_all false false (3, 3) file es st /\ (forall i, In i file -> placed Outer i) /\ length es = 13%nat.
Proof.
  assert (KC : forall a st i l es st1 es' st2, keeps false a st i es st1 -> keeps_all false a st1 l es' st2 -> keeps_all false a st (i :: l) (es ++ es') st2) by (intros; econstructor; eassumption).
  assert (B : forall a st u v, 0 < u -> 0 < v -> keeps false a st (One (SetBasis u v)) [SetBasis u v] (u, v)) by (intros; constructor; assumption).
  eexists _, _. split; [|split].
  - unfold file. eapply KC; [|constructor]. apply keeps_block. eapply KC; [apply keeps_mesh|]. eapply KC; [apply B; lia|]. eapply KC.
    { apply keeps_block. eapply KC; [apply B; lia|]. eapply KC; [apply keeps_mesh|]. eapply KC; [apply keeps_mesh|]. constructor. }
    eapply KC; [apply keeps_mesh|]. eapply KC; [apply keeps_block; eapply KC; [apply B; lia|constructor]|]. eapply KC; [apply keeps_mesh|]. constructor.
  - intros i [<-|[]]. apply placed_block; [reflexivity|]. intros i I. cbn [In] in I. repeat destruct I as [<-|I]; try contradiction; try (constructor; reflexivity);
      apply placed_block; try reflexivity; intros i I; cbn [In] in I; repeat destruct I as [<-|I]; try contradiction; constructor; reflexivity.
  - reflexivity.
Qed.

(** ArchiveEnd is not checked: outside of all blocks it is passed on although there is
    no archive; in a world it fails an assertion or, without assertions, ends the world
    for the filter, which then passes on calls in wrong places. *)
Theorem C09_stray_archive_end_refuted :
  (exists s, run false true (ev [End KArchive]) (new_state false) = Some s /\ out s = [End KArchive] /\ forall ws, ~ nested [Outer] (out s) ws) /\
  run false true (ev [Begin KWorld true; End KArchive]) (new_state false) = None /\
  (exists s, run false false (ev [Begin KWorld true; End KArchive; Do RFormat true]) (new_state false) = Some s /\
     out s = [Begin KWorld true; End KArchive; Do RFormat true]).
Proof.
  split; [|split; [reflexivity|]].
  - eexists. split; [reflexivity|]. split; [reflexivity|]. intros ws H. inversion H.
  - eexists. split; reflexivity.
Qed.
Print Assumptions C09_stray_archive_end_refuted.

(** Calls recorded in an archive are not checked: an archive may end a block it does
    not begin. *)
Theorem C09_archive_contents_refuted :
  exists s, run false true (ev [Begin KArchive true; End KAttribute; Do RSphere true; End KArchive]) (new_state false) = Some s /\
    out s = [Begin KArchive true; End KAttribute; Do RSphere true; End KArchive].
Proof. eexists. split; reflexivity. Qed.
Print Assumptions C09_archive_contents_refuted.

(** When the next filter throws in an End, the block is still open for the filter,
    and a second End is passed on. *)
Theorem C09_failing_end_refuted :
  exists s, run false true [mkCall (Begin KWorld true) false; mkCall (End KWorld) true; mkCall (End KWorld) false] (new_state false) = Some s /\
    out s = [Begin KWorld true; End KWorld; End KWorld] /\ forall ws, ~ nested [Outer] (out s) ws.
Proof.
  eexists. split; [reflexivity|]. split; [reflexivity|]. intros ws H.
  inversion H as [| | | | | |w ws0 k ok es ws1 K1 K2 K3 H1| | |]; subst. inversion H1 as [| | | | | | |k ws0 es ws1 K4 H2| |]; subst. inversion H2.
Qed.
Print Assumptions C09_failing_end_refuted.

(** Primitives are passed on outside of every world and object: in a transformation
    block or a motion block that is outermost. *)
Theorem C09_primitive_outside_world_refuted :
  forall k, k = KTransform \/ k = KMotion ->
    exists s, run false true (ev [Begin k true; Do RSphere true; End k]) (new_state false) = Some s /\ out s = [Begin k true; Do RSphere true; End k].
Proof. intros k [->| ->]; eexists; split; reflexivity. Qed.
Print Assumptions C09_primitive_outside_world_refuted.

(** ClippingPlane sets the camera but is passed on inside of a world. *)
Theorem C09_clipping_plane_refuted :
  exists s, run false true (ev [Begin KWorld true; Do RClippingPlane true; Do RClipping true]) (new_state false) = Some s /\
    out s = [Begin KWorld true; Do RClippingPlane true].
Proof. eexists. split; reflexivity. Qed.
Print Assumptions C09_clipping_plane_refuted.

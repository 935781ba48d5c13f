(** C28: what a sample shows does not depend on the order of its hits. *)

From Coq Require Import List Bool QArith Lia Lqa Sorting.Permutation Sorting.Sorted.
From Verif Require Import HitModel HitSpec HitProofs.
Import ListNotations.
Open Scope Q_scope.

(** For every list of ordinary hits at distinct depths, in whatever order they
    arrive, with whatever culling takes place on the way: the colour is the
    front to back composite of all hits, so is the opacity unless there are
    matte objects, and the depth is that of the nearest opaque hit ("min"),
    of the farthest ("max"), or the midpoint of the nearest two
    ("midpoint"). *)
Theorem C28_composite_partial : forall sort c hits l,
  sorts sort -> Forall ordinary hits -> front_to_back hits l -> hits <> [] ->
  exists r, combine sort c (record c hits) = Some r /\
    (forall ch, r_col r ch == seen ch (emits ch) l) /\
    (Forall (fun h => h_matte h <> Matte) hits -> forall ch, r_opa r ch == seen ch (covers ch) l) /\
    (c_filter c = FMin -> (forall ch, c_thr c ch <= 1) ->
       exists d, r_dep r = Some d /\ d == nearest (opaque_depths (c_thr c) l)) /\
    (c_filter c = FMax -> c_z c = true ->
       exists d, r_dep r = Some d /\ d == farthest (opaque_depths (c_thr c) l)) /\
    (c_filter c = FMidPoint -> c_z c = true ->
       (forall h, In h hits -> h_opq h = meets_all (c_thr c) (h_opa h)) ->
       exists d, r_dep r = Some d /\ d == midpoint (opaque_depths (c_thr c) l)).
Proof. exact composite. Qed.
Print Assumptions C28_composite_partial.

(** ** The hypotheses can be met *)

Lemma insert_perm h l : Permutation (h :: l) (insert h l).
Proof.
  induction l as [|x t IH]; simpl; auto. destruct (Qle_bool _ _); auto.
  etransitivity; [apply perm_swap|]. constructor; auto.
Qed.

Lemma insert_sorted h l : StronglySorted (fun a b => h_dep a <= h_dep b) l ->
  StronglySorted (fun a b => h_dep a <= h_dep b) (insert h l).
Proof.
  induction l as [|x t IH]; simpl; intros S; [constructor; constructor|].
  inversion S as [|? ? S' F]; subst. rewrite Forall_forall in F.
  destruct (Qle_bool (h_dep h) (h_dep x)) eqn:E.
  - apply Qle_bool_iff in E. constructor; auto. constructor; auto.
    rewrite Forall_forall. intros y I. specialize (F y I). lra.
  - apply Qle_bool_false in E. constructor; auto. rewrite Forall_forall. intros y I.
    apply (Permutation_in y (Permutation_sym (insert_perm h t))) in I.
    destruct I as [<-|I]; auto. lra.
Qed.

Example C28_a_sort_exists : sorts isort.
Proof.
  intros l. induction l as [|h t [IP IS]]; simpl; [split; constructor|]. split.
  - etransitivity; [|apply insert_perm]. constructor; auto.
  - apply insert_sorted; auto.
Qed.

Definition grey (x : Q) : color := fun _ => x.
Definition glass (d : Q) := mkHit (grey (1 # 4)) (grey (1 # 2)) d NoMatte false.
Definition wall (d : Q) := mkHit (grey (3 # 4)) (grey 1) d NoMatte true.
Definition holdout (d : Q) := mkHit (grey (3 # 4)) (grey 1) d Matte true.

Definition opts (f : filter) := mkCfg true f (grey 1).

(** Glass at 2 and 6, walls at 5 and 4, arriving in a mixed order. *)
Example C28_hypotheses_met :
  Forall ordinary [wall 5; glass 2; glass 6; wall 4] /\
  front_to_back [wall 5; glass 2; glass 6; wall 4] [glass 2; wall 4; wall 5; glass 6] /\
  (forall h, In h [wall 5; glass 2; glass 6; wall 4] ->
     h_opq h = meets_all (c_thr (opts FMidPoint)) (h_opa h)).
Proof.
  split; [|split].
  - repeat constructor; simpl; try discriminate; try (intros; reflexivity); unfold grey; intros; lra.
  - split.
    + etransitivity; [apply Permutation_cons_append|]. simpl. constructor.
      etransitivity; [apply perm_swap|]. constructor. apply perm_swap.
    + repeat constructor.
  - intros h [<-|[<-|[<-|[<-|[]]]]]; reflexivity.
Qed.

(** The second glass and the first wall are culled, and the result is right. *)
Example C28_example :
  match combine isort (opts FMidPoint) (record (opts FMidPoint) [wall 5; glass 2; glass 6; wall 4]) with
  | Some r => r_col r Red == (1 # 4) + (1 # 2) * (3 # 4) /\ r_opa r Red == 1 /\
              match r_dep r with Some d => d == 9 # 2 | None => False end
  | None => False
  end.
Proof. cbn. repeat split; reflexivity. Qed.

(** ** Where the general claim fails *)

(** Matte objects: Combine dims the opacity behind a matte object by the
    object's colour instead of its opacity (imagepixel.cpp:206-210).  Glass in
    front of a matte wall in front of a wall: the opacity must be 1/2, but is
    less or more depending on the colour of the matte wall. *)
Theorem C28_matte_opacity_refuted :
  exists hits l, Forall ordinary hits /\ front_to_back hits l /\
    match combine isort (opts FMin) (record (opts FMin) hits) with
    | Some r => ~ r_opa r Red == seen Red (covers Red) l
    | None => False
    end.
Proof.
  pose (half := mkHit (grey 0) (grey (1 # 2)) 3 Matte false).
  exists [half; wall 4], [half; wall 4]. split; [|split].
  - repeat constructor; simpl; try discriminate; try (intros; reflexivity); unfold grey; intros; lra.
  - split; [reflexivity|repeat constructor].
  - cbn. discriminate.
Qed.
Print Assumptions C28_matte_opacity_refuted.

(** MatteAlpha objects hide what arrives after them but not what arrived
    before, so the picture depends on the order of rendering. *)
Theorem C28_mattealpha_order_refuted :
  exists a b, match combine isort (opts FMin) (record (opts FMin) [a; b]),
                    combine isort (opts FMin) (record (opts FMin) [b; a]) with
              | Some r, Some r' => ~ r_col r Red == r_col r' Red
              | _, _ => False
              end.
Proof.
  exists (glass 5), (mkHit (grey 0) (grey (1 # 2)) 3 MatteAlpha false). cbn. discriminate.
Qed.
Print Assumptions C28_mattealpha_order_refuted.

(** The "average" depth filter tests the frontmost hit's opacity after it has
    been replaced by the collapsed opacity (imagepixel.cpp:257-259, 288): a
    single wall at depth 3 behind glass at depth 1 is reported at depth 2. *)
Theorem C28_average_refuted :
  exists r, combine isort (opts FAverage) (record (opts FAverage) [glass 1; wall 3]) = Some r /\
    exists d, r_dep r = Some d /\ d == 2 /\ opaque_depths (grey 1) [glass 1; wall 3] = [3].
Proof. eexists. split; [reflexivity|]. eexists. split; [reflexivity|]. split; reflexivity. Qed.
Print Assumptions C28_average_refuted.

(** ... and without any opaque hit it divides by zero. *)
Theorem C28_average_nan_refuted :
  exists r, combine isort (opts FAverage) (record (opts FAverage) [glass 1]) = Some r /\ r_dep r = None.
Proof. eexists. split; reflexivity. Qed.
Print Assumptions C28_average_nan_refuted.

(** The "midpoint" depth filter counts an opaque hit of a micropolygon that is
    not opaque everywhere even when it lies behind two nearer opaque hits, if it
    arrives first: walls at 5 and 7 give 15/2 instead of 6. *)
Theorem C28_midpoint_refuted :
  exists hits l, Forall ordinary hits /\ front_to_back hits l /\
    match combine isort (opts FMidPoint) (record (opts FMidPoint) hits) with
    | Some r => exists d, r_dep r = Some d /\ d == 15 # 2 /\ midpoint (opaque_depths (grey 1) l) == 6
    | None => False
    end.
Proof.
  pose (w := mkHit (grey (3 # 4)) (grey 1) 10 NoMatte false).
  exists [w; wall 5; wall 7], [wall 5; wall 7; w]. split; [|split].
  - repeat constructor; simpl; try discriminate; try (intros; reflexivity); unfold grey; intros; lra.
  - split; [|repeat constructor]. apply (Permutation_cons_append [wall 5; wall 7] w).
  - cbn. eexists. split; [reflexivity|]. split; reflexivity.
Qed.
Print Assumptions C28_midpoint_refuted.

(** Hits at equal depth: the result depends on what std::sort happens to do. *)
Definition isort' (l : list hit) : list hit := isort (rev l).

Theorem C28_equal_depth_refuted :
  sorts isort /\ sorts isort' /\
  exists hits, Forall ordinary hits /\
    match combine isort (opts FMin) (record (opts FMin) hits),
          combine isort' (opts FMin) (record (opts FMin) hits) with
    | Some r, Some r' => ~ r_col r Red == r_col r' Red
    | _, _ => False
    end.
Proof.
  split; [exact C28_a_sort_exists|]. split.
  - intros l. destruct (C28_a_sort_exists (rev l)) as [P S]. split; auto.
    etransitivity; [apply Permutation_rev|exact P].
  - exists [glass 2; mkHit (grey 0) (grey (1 # 2)) 2 NoMatte false]. split.
    + repeat constructor; simpl; try discriminate; try (intros; reflexivity); unfold grey; intros; lra.
    + cbn. discriminate.
Qed.
Print Assumptions C28_equal_depth_refuted.

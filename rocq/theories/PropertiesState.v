(** C22: graphics-state blocks save and restore the state. *)
From Verif Require Import StateModel StateSpec StateProofs.

(** For every sequence of requests, whatever its nesting, sharing attributes and options between blocks, primitives
    and other holders by reference-counted copy-on-write pointers cannot be told apart from saving and restoring
    values: current attributes, transformation and options are those of the value semantics, and everything a
    primitive (or holder of options) has kept still has the value it had when it was kept. *)
Theorem C22_sharing_is_invisible : forall T (world_copy : Z -> T -> T) (motion_copy : T -> T) (identity : T) adef odef l,
  match run T world_copy motion_copy l (start T identity adef odef),
        srun T world_copy motion_copy l (sstart T identity adef odef) with
  | Some st, Some s => same_view T identity st s
  | None, None => True
  | _, _ => False
  end.
Proof. exact blocks_refine. Qed.
Print Assumptions C22_sharing_is_invisible.

(** A block opened in any reachable state that accepts it, with well-nested contents, and closed: frame blocks bring
    back attributes, transformation and options; attribute, world and solid blocks bring back attributes and
    transformation; transform blocks bring back the transformation only; motion blocks nothing. *)
Theorem C22_blocks_restore_partial : forall T (world_copy : Z -> T -> T) (motion_copy : T -> T) (identity : T)
    adef odef pre ty times body before inside after,
  run T world_copy motion_copy pre (start T identity adef odef) = Some before ->
  allows (cur_kind T before) ty = true -> nested T ty body ->
  run T world_copy motion_copy (OBegin T ty times :: body) before = Some inside ->
  run T world_copy motion_copy [OEnd T ty] inside = Some after ->
  closes T identity ty before inside after /\ length (blocks T after) = length (blocks T before) /\
  cur_kind T after = cur_kind T before.
Proof. exact blocks_close. Qed.
Print Assumptions C22_blocks_restore_partial.

(** Transformations as lists of integers; world blocks start from the identity. *)
Definition tr (z : Z) : op (list Z) := OTransform _ (fun _ t l => l ++ [z]).
Definition wc (_ : Z) (_ : list Z) : list Z := [].
Definition go := run (list Z) wc (fun t => t).
Definition st0 := start (list Z) [] [(5, 7%Z)] [(p_shutter, 0%Z)].
Definition ob ty := OBegin (list Z) ty [].
Definition oe ty := OEnd (list Z) ty.

(** A world with a primitive, an attribute block with a nested transform block that changes an attribute; afterwards
    the primitive still has the old value, and the value outside is unchanged. *)
Definition scene : list (op (list Z)) :=
  [ob BFrame; OOption _ 3 1 9%Z; ob BWorld; OAttr _ 1 2 10%Z; OPrim _; tr 1;
   ob BAttribute; ob BTransform; tr 2; OAttr _ 1 2 20%Z; OShader _ 4 44%Z; oe BTransform; OPrim _].

Example C22_case_inside :
  match go scene st0 with
  | Some st => cur_param _ st 1 2 = Some 20%Z /\ cur_field _ st 4 = Some 44%Z /\ cur_trans _ [] st = [1%Z] /\
      prim_param _ st 1 1 2 = Some 10%Z /\ prim_param _ st 0 1 2 = Some 20%Z /\ prim_trans _ st 1 = Some [] /\
      cur_param _ st n_system 5 = Some 7%Z /\ cur_option _ st 3 1 = Some 9%Z
  | None => False
  end.
Proof. vm_compute. repeat split; reflexivity. Qed.

Example C22_case_after :
  match go (scene ++ [oe BAttribute]) st0, go (scene ++ [oe BAttribute; oe BWorld; oe BFrame]) st0 with
  | Some st, Some st' => cur_param _ st 1 2 = Some 10%Z /\ cur_field _ st 4 = None /\ cur_trans _ [] st = [1%Z] /\
      cur_option _ st' 3 1 = None /\ cur_param _ st' 1 2 = None /\ prim_param _ st' 0 1 2 = Some 20%Z
  | _, _ => False
  end.
Proof. vm_compute. repeat split; reflexivity. Qed.

(** The hypotheses of [C22_blocks_restore_partial] hold for the attribute block of this scene. *)
Example C22_hypotheses : exists before inside after,
  go (firstn 6 scene) st0 = Some before /\ allows (cur_kind _ before) BAttribute = true /\
  nested _ BAttribute (skipn 7 scene) /\
  go (OBegin _ BAttribute [] :: skipn 7 scene) before = Some inside /\ go [oe BAttribute] inside = Some after.
Proof.
  do 3 eexists. split; [vm_compute; reflexivity|]. split; [vm_compute; reflexivity|].
  split; [|split; vm_compute; reflexivity].
  apply (n_block _ BAttribute BTransform [] [tr 2; OAttr _ 1 2 20%Z; OShader _ 4 44%Z] [OPrim _]);
    [reflexivity| |]; repeat constructor.
Qed.

(** In a motion block each transformation takes the next of the block's times. *)
Example C22_case_motion :
  match go [OBegin _ BMotion [3%Z; 8%Z]; OTransform _ (fun _ t l => l ++ [t]); OTransform _ (fun _ t l => l ++ [t]);
            oe BMotion] st0,
        go [OBegin _ BMotion [3%Z]; tr 1; tr 2] st0 with
  | Some st, None => cur_trans _ [] st = [3%Z; 8%Z]
  | _, _ => False
  end.
Proof. vm_compute. reflexivity. Qed.

(** Trim curves are attributes of RenderMan, but they are not inherited by a nested attribute block, nor kept when a
    transform block changes another attribute: copying an attribute object drops them (attributes.cpp:173-198). *)
Theorem C22_trim_curves_refuted :
  exists l t, t <> [] /\
    (exists st, go (l ++ [OTrim _ t]) st0 = Some st /\ cur_trim _ st = t) /\
    (exists st, go (l ++ [OTrim _ t; ob BAttribute]) st0 = Some st /\ cur_trim _ st = []) /\
    (exists st, go (l ++ [OTrim _ t; ob BTransform; OAttr _ 1 2 3%Z; oe BTransform]) st0 = Some st /\ cur_trim _ st = []).
Proof.
  exists [ob BWorld], [1%Z]. split; [discriminate|].
  repeat split; eexists; (split; [vm_compute; reflexivity|reflexivity]).
Qed.
Print Assumptions C22_trim_curves_refuted.

(** A block that is not accepted is ignored without an error, and its end request then closes the enclosing block of
    that kind: with FrameBegin inside a frame, the inner FrameEnd ends the outer frame. *)
Theorem C22_unaccepted_block_refuted :
  exists before after, go [ob BFrame; OAttr _ 1 2 3%Z] st0 = Some before /\
    go [ob BFrame; OAttr _ 1 2 4%Z; oe BFrame] before = Some after /\
    cur_param _ before 1 2 = Some 3%Z /\ cur_param _ after 1 2 = None /\ cur_kind _ after = BMain.
Proof. do 2 eexists. repeat split; vm_compute; reflexivity. Qed.
Print Assumptions C22_unaccepted_block_refuted.

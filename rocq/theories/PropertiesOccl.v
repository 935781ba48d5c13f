(** C19: only hidden surfaces are culled. *)

From Coq Require Import List Bool ZArith Lia.
From Verif Require Import OcclModel OcclSpec OcclProofs.
Import ListNotations.
Open Scope Z_scope.

(** Whatever hits came before, whether or not the tree was updated since, when a surface is
    culled then every sample that lies in its bound was hit by an opaque surface in front of
    the bound, and still holds such a hit.  With the midpoint depth filter, which needs the
    two closest surfaces, two such surfaces were hit. *)
Theorem C19_culled : forall covering far b midpoint prior events q,
  covers_enough covering -> real_bucket b -> Forall (inside b) events -> min_z q <= far ->
  can_cull covering b (run covering far b midpoint prior events) q = Some true ->
  forall x y px py, 0 <= x < across b -> 0 <= y < down b ->
  in_subpixel (left b) (top b) (wide b) (high b) x y px py ->
  min_x q <= px <= max_x q -> min_y q <= py <= max_y q ->
  (if midpoint then 2 else 1) <= closer (min_z q) (hits_of x y (prior ++ hits events)) /\
  exists v, hit (samples (run covering far b midpoint prior events) x y) = Some v /\ v < min_z q.
Proof.
  intros covering far b midpoint prior events q Hc Hb He Hf Hq x y px py Hx Hy Hp Bx By.
  destruct (shape_facts covering b Hc Hb) as (dx & dy & Sh & A1 & A2 & D1 & D2).
  destruct Hb as (_ & _ & Hw & Hh).
  exact (cull_sound covering far b dx dy Sh A1 A2 D1 D2 midpoint _ _ q x y px py Hw Hh
    (run_good covering far b dx dy Sh A1 A2 D1 D2 midpoint prior events He) Hf Hq Hx Hy Hp Bx By).
Qed.
Print Assumptions C19_culled.

(** The traversal ends, and its stack is large enough. *)
Theorem C19_total : forall covering b st q, covers_enough covering -> real_bucket b ->
  can_cull covering b st q <> None.
Proof.
  intros covering b st q Hc Hb.
  destruct (shape_facts covering b Hc Hb) as (dx & dy & Sh & A1 & A2 & D1 & D2).
  exact (cull_total covering b dx dy Sh D1 D2 st q).
Qed.
Print Assumptions C19_total.

(** Every subpixel has a leaf of its own, after the inner nodes and inside the array. *)
Theorem C19_leaves : forall covering b x y, covers_enough covering -> real_bucket b ->
  0 <= x < across b -> 0 <= y < down b ->
  tree_index (num_levels (tree_shape covering b)) (split_x_first (tree_shape covering b)) x y = Some (leaf_of covering b x y) /\
  first_leaf (tree_shape covering b) <= leaf_of covering b x y < num_nodes (tree_shape covering b) /\
  (forall x2 y2, 0 <= x2 < across b -> 0 <= y2 < down b -> leaf_of covering b x2 y2 = leaf_of covering b x y -> x2 = x /\ y2 = y).
Proof.
  intros covering b x y Hc Hb Hx Hy.
  destruct (shape_facts covering b Hc Hb) as (dx & dy & Sh & A1 & A2 & D1 & D2).
  assert (R := leaf_range dx dy D1 D2 x y ltac:(lia) ltac:(lia)).
  rewrite (leaf_of_eq covering b dx dy Sh A1 A2 D1 D2 x y Hx Hy).
  split; [ | split ].
  - rewrite Sh. unfold num_levels. cbn [depth_x depth_y split_x_first]. apply tree_index_leaf; lia.
  - rewrite Sh. unfold first_leaf, num_nodes. cbn [depth_x depth_y]. rewrite <- Nat2Z.inj_add. exact R.
  - intros x2 y2 Hx2 Hy2 E. rewrite (leaf_of_eq covering b dx dy Sh A1 A2 D1 D2 x2 y2 Hx2 Hy2) in E.
    apply (leaf_inj dx dy D1 D2) in E; lia.
Qed.
Print Assumptions C19_leaves.

(** The assertion of setSampleDepth (occlusion.cpp:112): the depth of a leaf is only lowered. *)
Theorem C19_lowered : forall covering far b midpoint prior events x y d s z,
  covers_enough covering -> real_bucket b -> Forall (inside b) events ->
  0 <= x < across b -> 0 <= y < down b ->
  store far midpoint (samples (run covering far b midpoint prior events) x y) d = (s, Some z) ->
  z <= get (depths (run covering far b midpoint prior events)) (leaf_of covering b x y).
Proof.
  intros covering far b midpoint prior events x y d s z Hc Hb He Hx Hy E.
  destruct (shape_facts covering b Hc Hb) as (dx & dy & Sh & A1 & A2 & D1 & D2).
  rewrite (leaf_of_eq covering b dx dy Sh A1 A2 D1 D2 x y Hx Hy).
  refine (lowers far b dx dy D1 D2 midpoint _ _ x y d s z
    (run_good covering far b dx dy Sh A1 A2 D1 D2 midpoint prior events He) Hx Hy E).
Qed.
Print Assumptions C19_lowered.

(** Conversely, in a bucket without hits from its neighbours, a surface in front of the
    camera is only kept when its bound touches a subpixel whose sample was not hit in front
    of the bound (not twice, with the midpoint filter). *)
Theorem C19_kept : forall covering far b midpoint events q,
  covers_enough covering -> real_bucket b -> Forall (inside b) events -> 0 < min_z q <= far ->
  can_cull covering b (run covering far b midpoint [] events) q = Some false ->
  exists x y, 0 <= x < across b /\ 0 <= y < down b /\
    closer (min_z q) (hits_of x y (hits events)) < (if midpoint then 2 else 1) /\
    min_x q <= left b + (x + 1) * wide b /\ left b + x * wide b <= max_x q /\
    min_y q <= top b + (y + 1) * high b /\ top b + y * high b <= max_y q.
Proof.
  intros covering far b midpoint events q Hc Hb He Hf Hq.
  destruct (shape_facts covering b Hc Hb) as (dx & dy & Sh & A1 & A2 & D1 & D2).
  destruct Hb as (_ & _ & Hw & Hh).
  destruct (run_exact covering far b dx dy Sh A1 A2 D1 D2 midpoint events He) as [ _ X ].
  destruct (cull_kept covering far b dx dy Sh D1 D2 midpoint _ _ q Hw Hh X Hf Hq)
    as (x & y & Hx & Hy & Hl & Hr).
  exists x, y. split; [ exact Hx | split; [ exact Hy | split; [ destruct midpoint; lia | exact Hr ] ] ].
Qed.
Print Assumptions C19_kept.

(** * A concrete bucket: three by two subpixels *)
Definition tiny : bucket := mkBucket 3 2 10 20 4 4.
Example C19_covering : covers_enough Z.log2_up.
Proof.
  intros n Hn. split; [ apply Z.log2_up_nonneg | ].
  destruct (Z.eq_dec n 1) as [ -> | ]; [ cbn; lia | apply Z.log2_up_spec; lia ].
Qed.
Example C19_tiny : real_bucket tiny.
Proof. unfold real_bucket. cbn. lia. Qed.
Definition full : list event := [Hit 0 0 5; Hit 1 0 9; Update; Hit 0 1 4; Hit 1 0 6; Hit 1 1 7; Update].
Example C19_full : Forall (inside tiny) full.
Proof. unfold full. repeat constructor; cbn; lia. Qed.
Example C19_culls : can_cull Z.log2_up tiny (run Z.log2_up 1000 tiny false [] full) (mkBox 11 21 15 26 8) = Some true.
Proof. vm_compute. reflexivity. Qed.
Example C19_keeps : can_cull Z.log2_up tiny (run Z.log2_up 1000 tiny false [] full) (mkBox 11 21 19 26 8) = Some false.
Proof. vm_compute. reflexivity. Qed.
Example C19_keeps_near : can_cull Z.log2_up tiny (run Z.log2_up 1000 tiny false [] full) (mkBox 11 21 15 26 7) = Some false.
Proof. vm_compute. reflexivity. Qed.
Example C19_midpoint : can_cull Z.log2_up tiny (run Z.log2_up 1000 tiny true [] [Hit 0 0 5; Hit 0 0 3]) (mkBox 11 21 12 22 6) = Some true.
Proof. vm_compute. reflexivity. Qed.
Example C19_midpoint_one : can_cull Z.log2_up tiny (run Z.log2_up 1000 tiny true [] [Hit 0 0 3]) (mkBox 11 21 12 22 6) = Some false.
Proof. vm_compute. reflexivity. Qed.

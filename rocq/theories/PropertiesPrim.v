(** C39: accepted geometry is read within its arrays.

    Partial: proper calls are those without negative counts and vertex numbers, whose
    position variables have the room their name promises, and so on; calls that are
    not proper are accepted and read outside, as shown below.  The attribute state is
    known and the call is not directly inside an archive. *)

From Coq Require Import List Bool ZArith Lia.
From Verif Require Import MeshModel MeshSpec PrimModel PrimSpec PrimProofs.
Import ListNotations.
Open Scope Z_scope.

Theorem C39_reads_partial :
  forall ustep vstep cl,
    accepts ustep vstep true false cl = Some true -> proper vstep cl ->
    exists own rs, reads ustep vstep cl = Some (own, rs) /\ Forall (inside cl own) rs.
Proof. exact reads_inside. Qed.
Print Assumptions C39_reads_partial.

Theorem C39_asks_no_more_partial :
  forall ustep vstep cl own rs,
    right_arrays ustep vstep cl -> right_params cl -> proper vstep cl ->
    reads ustep vstep cl = Some (own, rs) -> Forall (inside cl own) rs ->
    accepts ustep vstep true false cl = Some true.
Proof. exact not_refused. Qed.
Print Assumptions C39_asks_no_more_partial.

(** Every entry of the arrays of numbers of such a call is read. *)
Theorem C39_reads_all_partial :
  forall ustep vstep cl own rs a,
    right_arrays ustep vstep cl -> proper vstep cl -> reads ustep vstep cl = Some (own, rs) ->
    In a [Counts; Verts; Uknots; Vknots; Orders; Lengths; Knots; Us; Vs; Ws] -> read_whole cl rs a.
Proof. exact reads_whole. Qed.
Print Assumptions C39_reads_all_partial.

(** Polygon and Points have as many vertices as there are positions. *)
Theorem C39_positions_partial :
  forall ustep vstep ps n, positions_given ps n ->
    (exists rs, reads ustep vstep (Polygon ps) = Some (n, rs)) /\
    (exists rs, reads ustep vstep (Points ps) = Some (n, rs)).
Proof. intros us vs ps n H. cbn. rewrite (positions_given_count ps n H). split; eexists; reflexivity. Qed.
Print Assumptions C39_positions_partial.
Example C39_positions_given :
  positions_given [mkParam OtherName Varying Float 1 5; mkParam NamePw Vertex HPoint 1 20; mkParam NameP Vertex Point 1 3] 5.
Proof. apply given_later; [reflexivity|]. apply given_here with (w := 4); [reflexivity|lia|reflexivity]. Qed.

(** Proper calls that are accepted: a subdivision mesh with a crease, a corner and a
    hole, polygons with holes, a NURBS patch, trim curves. *)
Definition vertex_points (n : Z) := mkParam NameP Vertex Point 1 (3 * n).
Definition a_mesh := SubdivisionMesh [4; 3] [0; 1; 2; 3; 1; 4; 2]
  [Crease; Corner; Hole] [2; 1; 1; 1; 1; 0] [1; 2; 4; 1] 2
  [vertex_points 5; mkParam OtherName FaceVarying Color 2 42; mkParam OtherName Uniform Float 1 2].
Definition a_polygon := PointsGeneralPolygons [2; 1] [4; 3; 3] [0; 1; 2; 3; 4; 5; 6; 0; 1; 4]
  [vertex_points 7; mkParam OtherName Uniform String_ 1 2].
Definition a_nurbs := NuPatch 5 4 9 4 3 7 [mkParam NamePw Vertex HPoint 1 80; mkParam OtherName Varying Float 1 9].
Definition a_trim := TrimCurve [1; 2] [2; 3; 2] 16 3 3 [3; 4; 2] 9 9 9.
Definition some_curves := Curves true [7; 4] false [vertex_points 11; mkParam OtherName Varying Float 1 5].

Example C39_proper_mesh : proper 3 a_mesh /\ accepts 3 3 true false a_mesh = Some true.
Proof.
  split; [|reflexivity]. unfold proper, a_mesh, nonneg.
  split; [repeat constructor; unfold proper_position; cbn; intros; try discriminate; lia|].
  split; [repeat constructor; lia|]. split; [repeat constructor; lia|]. split; [repeat constructor; lia|].
  cbn. repeat apply Forall_cons; try apply Forall_nil; cbn; try exact I; try (split; [lia|]);
    repeat apply Forall_cons; try apply Forall_nil; left; vm_compute; auto 10.
Qed.
Example C39_proper_polygon : proper 3 a_polygon /\ accepts 3 3 true false a_polygon = Some true.
Proof.
  split; [|reflexivity]. unfold proper, a_polygon, nonneg, positive.
  split; [repeat constructor; unfold proper_position; cbn; intros; try discriminate; lia|].
  repeat split; repeat constructor; lia.
Qed.
Example C39_proper_nurbs :
  proper 3 a_nurbs /\ accepts 3 3 true false a_nurbs = Some true /\
  right_arrays 3 3 a_nurbs /\ right_params a_nurbs /\
  exists own rs, reads 3 3 a_nurbs = Some (own, rs) /\ Forall (inside a_nurbs own) rs.
Proof.
  assert (P : proper 3 a_nurbs).
  { split; [repeat constructor; unfold proper_position; cbn; intros; try discriminate; lia|]. cbn. lia. }
  split; [exact P|]. split; [reflexivity|]. split; [cbn; lia|]. split; [|exact (reads_inside 3 3 a_nurbs eq_refl P)].
  unfold right_params, a_nurbs. cbn [params needs_points].
  split; [repeat constructor; unfold fits_int, element, exact_position; cbn; intros; try discriminate; try lia|].
  split; [unfold size; cbn; lia|]. split; [discriminate|]. repeat constructor; discriminate.
Qed.
Example C39_proper_trim : proper 3 a_trim /\ accepts 3 3 true false a_trim = Some true /\ right_arrays 3 3 a_trim.
Proof.
  split; [|split; [reflexivity|unfold fits_int, size; cbn; unfold fits_int, size; cbn; lia]].
  split; [constructor|]. unfold nonneg. repeat split; repeat constructor; lia.
Qed.
Example C39_proper_curves : proper 3 some_curves /\ accepts 3 3 true false some_curves = Some true /\ right_params some_curves.
Proof.
  split; [|split; [reflexivity|]].
  - split; [repeat constructor; unfold proper_position; cbn; intros; try discriminate; lia|].
    repeat constructor; unfold width; try discriminate; lia.
  - unfold right_params, some_curves. cbn [params needs_points].
    split; [repeat constructor; unfold fits_int, element, exact_position; cbn; intros; try discriminate; try lia|].
    split; [unfold size; cbn; lia|]. split; [intros _; eexists; split; [left; reflexivity|left; reflexivity]|].
    repeat constructor; unfold of_face; cbn; intros [?|?]; discriminate.
Qed.

(** Refuted in general: accepted calls that are read outside their arrays. *)
Definition overrun (known archive : bool) (cl : call) (a : array) : Prop :=
  accepts 3 3 known archive cl = Some true /\
  exists own rs r, reads 3 3 cl = Some (own, rs) /\ In r rs /\ r_array r = a /\ ~ inside cl own r.

Ltac overrun_at a l h k :=
  split; [reflexivity|]; eexists _, _, (mkRead a l h); split; [reflexivity|]; split; [cbn; tauto|];
  split; [reflexivity|]; let H := fresh in intros H; destruct (H k) as [A B]; [cbn; lia|];
    first [vm_compute in B; discriminate B | exfalso; apply A; vm_compute; reflexivity].

(** A negative number of vertices makes up for too long a polygon. *)
Theorem C39_negative_count_refuted :
  overrun true false (PointsPolygons [5; -2] [0; 1; 2] [vertex_points 3]) Verts.
Proof. overrun_at Verts 0 5 4. Qed.
Print Assumptions C39_negative_count_refuted.

(** A negative vertex number of a subdivision mesh. *)
Theorem C39_negative_vertex_refuted :
  overrun true false (SubdivisionMesh [3] [0; -1; 1] [] [] [] 0 [vertex_points 2]) Own.
Proof. overrun_at Own (-1) 0 (-1). Qed.
Print Assumptions C39_negative_vertex_refuted.

(** The position declared as a float is read as three floats. *)
Theorem C39_position_type_refuted :
  overrun true false (Patch false [mkParam NameP Vertex Float 1 4]) (Values 0).
Proof. overrun_at (Values 0) 0 12 11. Qed.
Print Assumptions C39_position_type_refuted.

(** Face varying values of a patch mesh: one is asked for, one for each corner is read. *)
Theorem C39_face_varying_refuted :
  overrun true false (PatchMesh false 3 false 3 false [vertex_points 9; mkParam OtherName FaceVarying Float 1 1]) (Values 1).
Proof. overrun_at (Values 1) 0 9 8. Qed.
Print Assumptions C39_face_varying_refuted.

(** A NURBS patch of higher order than it has control points. *)
Theorem C39_high_order_refuted :
  overrun true false (NuPatch 1 12 13 1 12 13 [mkParam OtherName Uniform Float 1 81]) (Values 0).
Proof. overrun_at (Values 0) 0 100 99. Qed.
Print Assumptions C39_high_order_refuted.

(** A crease without a sharpness, and a corner at a vertex of no face. *)
Theorem C39_crease_refuted :
  overrun true false (SubdivisionMesh [3] [0; 1; 2] [Crease] [2; 0] [0; 1] 0 [vertex_points 3]) Floatargs.
Proof. overrun_at Floatargs 0 1 0. Qed.
Print Assumptions C39_crease_refuted.
Theorem C39_corner_refuted :
  overrun true false (SubdivisionMesh [3] [0; 1; 3] [Corner] [1; 1] [2] 1 [vertex_points 4]) (Around 2).
Proof. overrun_at (Around 2) 0 1 0. Qed.
Print Assumptions C39_corner_refuted.

(** Polygons without vertices. *)
Theorem C39_empty_polygon_refuted :
  overrun true false (GeneralPolygon [] [] [vertex_points 0]) Own /\
  overrun true false (PointsGeneralPolygons [1] [0] [] [vertex_points 1]) Verts.
Proof. split; [overrun_at Own 0 1 0|overrun_at Verts 0 1 0]. Qed.
Print Assumptions C39_empty_polygon_refuted.

(** The one uniform value of a general polygon is read as one for each triangle, and
    its face varying values as three for each triangle. *)
Theorem C39_general_polygon_refuted :
  overrun true false (GeneralPolygon [5] [0; 1; 2; 0; 2; 3; 0; 3; 4]
    [vertex_points 5; mkParam OtherName Uniform Float 1 1]) (Values 1) /\
  overrun true false (GeneralPolygon [5] [0; 1; 2; 0; 2; 3; 0; 3; 4]
    [vertex_points 5; mkParam OtherName FaceVarying Float 1 5]) (Values 1).
Proof. split; [overrun_at (Values 1) 0 3 2|overrun_at (Values 1) 0 9 8]. Qed.
Print Assumptions C39_general_polygon_refuted.

(** With a relaxed attribute state, and inside an archive, a mesh is not checked. *)
Theorem C39_unknown_basis_refuted :
  overrun false false (PatchMesh true 4 false 4 false [vertex_points 16; mkParam OtherName Uniform Float 1 0]) (Values 1) /\
  overrun true true (PatchMesh true 4 false 4 false [vertex_points 16; mkParam OtherName Uniform Float 1 0]) (Values 1).
Proof. split; overrun_at (Values 1) 0 1 0. Qed.
Print Assumptions C39_unknown_basis_refuted.

(** Refuted: calls from which nothing is read outside, but which are refused. *)
Theorem C39_refused_refuted :
  (exists own rs, reads 3 3 (NuPatch 4 4 8 4 4 8 [vertex_points 16; mkParam OtherName Uniform Float 1 1]) = Some (own, rs) /\
     Forall (inside (NuPatch 4 4 8 4 4 8 [vertex_points 16; mkParam OtherName Uniform Float 1 1]) own) rs) /\
  accepts 3 3 true false (NuPatch 4 4 8 4 4 8 [vertex_points 16; mkParam OtherName Uniform Float 1 1]) = Some false /\
  (exists own rs, reads 3 3 (PointsPolygons [] [] [vertex_points 0]) = Some (own, rs) /\
     Forall (inside (PointsPolygons [] [] [vertex_points 0]) own) rs) /\
  accepts 3 3 true false (PointsPolygons [] [] [vertex_points 0]) = Some false.
Proof.
  split; [|split; [reflexivity|split; [|reflexivity]]]; eexists _, _; (split; [reflexivity|]);
    cbn; repeat constructor; cbn in *; lia.
Qed.
Print Assumptions C39_refused_refuted.

(** Refuted: the counts of a call leave the range of int. *)
Theorem C39_overflow_refuted : forall ps, accepts 3 3 true false (GeneralPolygon [2147483647; 1] [] ps) = None.
Proof. reflexivity. Qed.
Print Assumptions C39_overflow_refuted.

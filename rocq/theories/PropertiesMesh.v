(** C30: the number of values demanded for patch meshes and curves.
    C40: which of the values each patch and each curve segment takes. *)

From Coq Require Import List Bool ZArith Lia.
From Verif Require Import MeshModel MeshSpec MeshProofs.
Import ListNotations.
Open Scope Z_scope.

(** C30.  Partial: the full claim is for every mesh and every step.  It is shown for
    meshes with enough vertices for a piece in each direction that is not periodic
    and sizes for which no count leaves the range of int. *)
Theorem C30_mesh_counts_partial :
  forall bilinear nu uper nv vper ustep vstep c,
    enough (negb bilinear) uper nu ustep -> enough (negb bilinear) vper nv vstep ->
    patch_mesh_counts bilinear nu uper nv vper ustep vstep true = Some c ->
    exists qu qv,
      pieces (negb bilinear) uper nu ustep qu /\ pieces (negb bilinear) vper nv vstep qv /\
      uniform c = qu * qv /\ varying c = ends uper qu * ends vper qv /\ vertex c = nu * nv.
Proof. exact mesh_counts_right. Qed.
Print Assumptions C30_mesh_counts_partial.

Theorem C30_mesh_counts_exist_partial :
  forall bilinear nu uper nv vper ustep vstep,
    enough (negb bilinear) uper nu ustep -> enough (negb bilinear) vper nv vstep ->
    0 < nu -> 0 < nv -> nu * nv <= 2147483647 ->
    exists c, patch_mesh_counts bilinear nu uper nv vper ustep vstep true = Some c.
Proof. exact mesh_counts_defined. Qed.
Print Assumptions C30_mesh_counts_exist_partial.

Theorem C30_curves_counts_partial :
  forall cubic periodic step nverts c,
    Forall (fun n => enough cubic periodic n (if cubic then step else 1)) nverts ->
    curves_counts cubic nverts periodic step true = Some c ->
    exists qs,
      all_pieces cubic periodic (if cubic then step else 1) nverts qs /\
      uniform c = Z.of_nat (length nverts) /\ varying c = total (map (ends periodic) qs) /\
      vertex c = total nverts.
Proof. exact curves_counts_right. Qed.
Print Assumptions C30_curves_counts_partial.

(** The number of pieces along a direction is determined. *)
Theorem C30_pieces_unique :
  forall cubic periodic n step q r,
    pieces cubic periodic n step q -> pieces cubic periodic n step r -> q = r.
Proof. exact pieces_unique. Qed.
Print Assumptions C30_pieces_unique.

(** The renderer reads as many values as were demanded. *)
Theorem C30_renderer_mesh_counts_partial :
  forall bilinear nu uper nv vper ustep vstep c m d,
    enough (negb bilinear) uper nu ustep -> enough (negb bilinear) vper nv vstep ->
    patch_mesh_counts bilinear nu uper nv vper ustep vstep true = Some c ->
    new_mesh (negb bilinear) nu nv uper vper ustep vstep = Some m -> mesh_counts m = Some d ->
    uniform d = uniform c /\ varying d = varying c /\ vertex d = vertex c.
Proof. intros bl nu up nv vp us vs c m d A B C D. exact (core_mesh_counts bl nu up nv vp us vs c m A B C D d). Qed.
Print Assumptions C30_renderer_mesh_counts_partial.

Theorem C30_renderer_curves_counts_partial :
  forall cubic periodic step nverts c d,
    Forall (fun n => enough cubic periodic n (if cubic then step else 1)) nverts ->
    curves_counts cubic nverts periodic step true = Some c ->
    group_counts cubic periodic step nverts = Some d ->
    uniform d = uniform c /\ varying d = varying c /\ vertex d = vertex c.
Proof. exact core_curves_counts. Qed.
Print Assumptions C30_renderer_curves_counts_partial.

(** A bicubic mesh 7 by 4 with step 3, periodic in one direction, and curves. *)
Example C30_mesh_case :
  enough true false 7 3 /\ enough true true 6 3 /\
  patch_mesh_counts false 7 false 6 true 3 3 true = Some (mkCounts 4 6 42 1 1) /\
  new_mesh true 7 6 false true 3 3 = Some (mkMesh true 7 6 false true 3 3 2 2) /\
  mesh_counts (mkMesh true 7 6 false true 3 3 2 2) = Some (mkCounts 4 6 42 6 6).
Proof. unfold enough, width. repeat split; try reflexivity; try lia; discriminate. Qed.
Example C30_curves_case :
  Forall (fun n => enough true false n 1) [4; 6] /\
  curves_counts true [4; 6] false 1 true = Some (mkCounts 2 6 10 1 1) /\
  group_counts true false 1 [4; 6] = Some (mkCounts 2 6 10 0 0).
Proof.
  split; [|split; reflexivity]. unfold enough, width.
  repeat constructor; try lia; try discriminate.
Qed.

(** Refuted: a mesh with three columns, too few for a cubic patch, is taken to have
    one; a mesh of a single vertex is asked for four uniform values. *)
Theorem C30_few_vertices_refuted :
  (exists c, patch_mesh_counts false 3 false 4 false 3 3 true = Some c /\ uniform c = 1 /\
             forall q, pieces true false 3 3 q -> q = 0) /\
  (exists c, patch_mesh_counts false 1 false 1 false 1 1 true = Some c /\ uniform c = 4 /\
             forall q, pieces true false 1 1 q -> q = 0).
Proof.
  split; eexists; (split; [reflexivity|]); (split; [reflexivity|]); intros q [Q P];
    (destruct (Z.eq_dec q 0) as [E|E]; [exact E|]); exfalso;
    destruct (proj2 (P 0)) as [_ W]; unfold width in *; try lia.
Qed.
Print Assumptions C30_few_vertices_refuted.

(** Refuted: counts of a mesh that could be given are out of the range of int. *)
Theorem C30_large_mesh_refuted : patch_mesh_counts true 65536 false 65536 false 1 1 true = None.
Proof. reflexivity. Qed.
Print Assumptions C30_large_mesh_refuted.

(** C40.  Partial: the uniform values, see below, and the meshes and curves without
    enough vertices. *)
Theorem C40_mesh_partial :
  forall cubic uper vper nu nv ustep vstep m,
    enough cubic uper nu ustep -> enough cubic vper nv vstep -> 0 < nu -> 0 < nv ->
    new_mesh cubic nu nv uper vper ustep vstep = Some m ->
    exists qu qv,
      pieces cubic uper nu ustep qu /\ pieces cubic vper nv vstep qv /\
      Z.of_nat (length (split_mesh m)) = qu * qv /\
      forall i j, 0 <= i < qv -> 0 <= j < qu ->
      exists p, nth_error (split_mesh m) (Z.to_nat (i * qu + j)) = Some p /\
        corners p = own_corners uper vper qu qv i j /\
        points p = own_vertices cubic uper vper nu nv ustep vstep i j /\
        (i = 0 -> face p = own_face qu i j).
Proof.
  intros cubic uper vper nu nv us vs m EU EV NU NV N.
  destruct (divided_mesh _ _ _ _ _ _ _ _ EU EV NU NV N) as (qu & qv & PU & PV & L & H).
  exists qu, qv. split; [exact PU|]. split; [exact PV|]. split; [exact L|]. intros i j I J.
  destruct (H i j I J) as (p & A & B & C & D). exists p. split; [exact A|]. split; [exact B|]. split; [exact C|].
  intros ->. unfold own_face. now rewrite D.
Qed.
Print Assumptions C40_mesh_partial.

(** The corners and vertices of a patch are among those there are, and each corner
    is one of some patch. *)
Theorem C40_mesh_values_exist :
  forall cubic uper vper nu nv ustep vstep qu qv i j,
    enough cubic uper nu ustep -> enough cubic vper nv vstep -> 0 < nu -> 0 < nv ->
    pieces cubic uper nu ustep qu -> pieces cubic vper nv vstep qv -> 0 <= i < qv -> 0 <= j < qu ->
    (forall x, In x (own_corners uper vper qu qv i j) -> 0 <= x < ends uper qu * ends vper qv) /\
    (forall x, In x (own_vertices cubic uper vper nu nv ustep vstep i j) -> 0 <= x < nu * nv).
Proof.
  intros. split.
  - intros x. now apply own_corners_range.
  - intros x. apply own_vertices_range with (qu := qu) (qv := qv); unfold enough in *; tauto.
Qed.
Print Assumptions C40_mesh_values_exist.

Theorem C40_mesh_corners_used :
  forall uper vper qu qv x,
    0 < qu -> 0 < qv -> 0 <= x < ends uper qu * ends vper qv ->
    exists i j, 0 <= i < qv /\ 0 <= j < qu /\ In x (own_corners uper vper qu qv i j).
Proof. exact corner_used. Qed.
Print Assumptions C40_mesh_corners_used.

(** Curves: segment [k] of curve [c] takes the ends [k] and the one after it of that
    curve, and its own vertices; a cubic segment takes the four Bezier vertices
    computed from its own four vertices. *)
Theorem C40_cubic_curves_partial :
  forall periodic step nverts l,
    Forall (fun n => enough true periodic n step) nverts ->
    cubic_group periodic step nverts = Some l ->
    exists qs, all_pieces true periodic step nverts qs /\ Z.of_nat (length l) = total qs /\
    forall c n q k, nth_error nverts c = Some n -> nth_error qs c = Some q -> 0 <= k < q ->
    exists p, nth_error l (Z.to_nat (start_of qs c + k)) =
        Some (p, map (fun row => Some (mkBezier
           (map (fun a => start_of nverts c + wrap periodic n (k * step + a)) [0; 1; 2; 3]) row)) [0; 1; 2; 3]) /\
      corners p = [start_of (map (ends periodic) qs) c + k; start_of (map (ends periodic) qs) c + after periodic q k] /\
      face p = Z.of_nat c.
Proof. exact divided_cubic_curves. Qed.
Print Assumptions C40_cubic_curves_partial.

Theorem C40_linear_curves_partial :
  forall periodic nverts,
    Forall (fun n => enough false periodic n 1) nverts ->
    exists qs, all_pieces false periodic 1 nverts qs /\
    Z.of_nat (length (split_linear 0 0 periodic nverts)) = total qs /\
    forall c n q k, nth_error nverts c = Some n -> nth_error qs c = Some q -> 0 <= k < q ->
    exists p, nth_error (split_linear 0 0 periodic nverts) (Z.to_nat (start_of qs c + k)) = Some p /\
      corners p = [start_of (map (ends periodic) qs) c + k; start_of (map (ends periodic) qs) c + after periodic q k] /\
      points p = [start_of nverts c + wrap periodic n k; start_of nverts c + wrap periodic n (k + 1)] /\
      face p = Z.of_nat c.
Proof. exact divided_linear_curves. Qed.
Print Assumptions C40_linear_curves_partial.

Example C40_mesh_case :
  new_mesh true 7 6 false true 3 3 = Some (mkMesh true 7 6 false true 3 3 2 2) /\
  nth_error (split_mesh (mkMesh true 7 6 false true 3 3 2 2)) 3 =
    Some (mkPiece [4; 5; 1; 2] [24; 25; 26; 27; 31; 32; 33; 34; 38; 39; 40; 41; 3; 4; 5; 6] 1).
Proof. split; reflexivity. Qed.
Example C40_curves_case :
  (exists l, cubic_group true 3 [3; 6] = Some l /\ length l = 3%nat /\
     option_map (fun x => corners (fst x)) (nth_error l 2) = Some [2; 1]) /\
  nth_error (split_linear 0 0 true [3; 4]) 6 = Some (mkPiece [6; 3] [6; 3] 1).
Proof. split; [eexists; split; [reflexivity|split; reflexivity]|reflexivity]. Qed.

(** Refuted: the patches of the second row take the uniform values of the first
    row, so that in a mesh of two rows half the values are never used. *)
Theorem C40_uniform_rows_refuted :
  exists m, new_mesh true 7 7 false false 3 3 = Some m /\ map face (split_mesh m) = [0; 1; 0; 1] /\
    map (fun ij => own_face 2 (fst ij) (snd ij)) [(0, 0); (0, 1); (1, 0); (1, 1)] = [0; 1; 2; 3].
Proof. eexists. split; [reflexivity|split; reflexivity]. Qed.
Print Assumptions C40_uniform_rows_refuted.

Theorem C40_uniform_rows_bilinear_refuted :
  exists m, new_mesh false 3 3 false false 1 1 = Some m /\ map face (split_mesh m) = [0; 1; 0; 1].
Proof. eexists. split; reflexivity. Qed.
Print Assumptions C40_uniform_rows_bilinear_refuted.

(** Refuted: after an empty linear curve the next curve takes vertices past the
    last one; a cubic curve with three vertices gets a segment, going round. *)
Theorem C40_empty_curve_refuted :
  curves_counts false [0; 2] false 1 true = Some (mkCounts 2 2 2 1 1) /\
  split_linear 0 0 false [0; 2] = [mkPiece [1; 2] [1; 2] 1].
Proof. split; reflexivity. Qed.
Print Assumptions C40_empty_curve_refuted.

Theorem C40_short_curve_refuted :
  exists l, cubic_group false 3 [3] = Some l /\
    map (fun x => map (option_map bz_from) (snd x)) l =
      [[Some [0; 1; 2; 0]; Some [0; 1; 2; 0]; Some [0; 1; 2; 0]; Some [0; 1; 2; 0]]] /\
    forall q, pieces true false 3 3 q -> q = 0.
Proof.
  eexists. split; [reflexivity|]. split; [reflexivity|]. intros q [Q P].
  destruct (Z.eq_dec q 0) as [E|E]; [exact E|]. exfalso.
  destruct (proj2 (P 0)) as [_ W]; unfold width in *; lia.
Qed.
Print Assumptions C40_short_curve_refuted.

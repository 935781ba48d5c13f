(** Model of the value counts of patch meshes and curves, and of how the renderer
    divides them.

    Modelled code: patchMeshIClassCounts and curvesIClassCounts
    (/repo/include/aqsis/riutil/ricxxutil.h:591-717), CqSurfacePatchMeshBicubic and
    CqSurfacePatchMeshBilinear (/repo/libs/core/geometry/patch.h:195-400,
    /repo/libs/core/geometry/patch.cpp:966-1335), CqCubicCurvesGroup
    (/repo/libs/core/geometry/cubiccurves.cpp:598-1010, curves.h:425-480) and
    CqLinearCurvesGroup (/repo/libs/core/geometry/linearcurves.cpp:383-594,
    curves.h:380-420).

    Simplifications:
    - A primitive variable is given by the indices at which pieces read it.
    - Tokens compared by strcmp are booleans here; the default u, v, s, t values
      are left out.
    - Sums and products of int that leave the range of int, and divisions by zero,
      have no value ([None]).  Indices computed while dividing are exact. *)

From Coq Require Import List Bool ZArith.
Import ListNotations.
Open Scope Z_scope.

Definition int (z : Z) : option Z :=
  if (-2147483648 <=? z) && (z <=? 2147483647) then Some z else None.
Definition add a b := int (a + b).
Definition sub a b := int (a - b).
Definition mul a b := int (a * b).
Definition div a b := if b =? 0 then None else int (Z.quot a b).

Declare Scope do_scope.
Notation "'do' x <- a ; b" := (match a with Some x => b | None => None end)
  (at level 200, x name, a at level 100, b at level 200) : do_scope.
Open Scope do_scope.

(** SqInterpClassCounts (/repo/include/aqsis/riutil/interpclasscounts.h). *)
Record counts := mkCounts {
  uniform : Z; varying : Z; vertex : Z; facevarying : Z; facevertex : Z }.

(** sum (ricxxutil.h:591-597). *)
Fixpoint sum_from (s : Z) (a : list Z) : option Z :=
  match a with
  | [] => Some s
  | x :: r => do s1 <- add s x; sum_from s1 r
  end.
Definition sum := sum_from 0.

(** patchMeshIClassCounts (ricxxutil.h:640-674). *)
Definition patch_mesh_counts (bilinear : bool) (nu : Z) (uper : bool) (nv : Z) (vper : bool)
    (ustep vstep : Z) (known : bool) : option counts :=
  do vertices <- mul nu nv;
  if bilinear then
    do u <- (if uper then Some nu else sub nu 1);
    do v <- (if vper then Some nv else sub nv 1);
    do patches <- mul u v;
    Some (mkCounts patches vertices vertices 1 1)
  else if known then
    do u <- (if uper then div nu ustep else do a <- sub nu 4; do b <- div a ustep; add b 1);
    do v <- (if vper then div nv vstep else do a <- sub nv 4; do b <- div a vstep; add b 1);
    do patches <- mul u v;
    do eu <- add (if uper then 0 else 1) u;
    do ev <- add (if vper then 0 else 1) v;
    do corners <- mul eu ev;
    Some (mkCounts patches corners vertices 1 1)
  else Some (mkCounts (-1) (-1) vertices 1 1).

(** The loops over the curves (ricxxutil.h:690-702). *)
Fixpoint segment_count (s : Z) (periodic : bool) (step : Z) (nverts : list Z) : option Z :=
  match nverts with
  | [] => Some s
  | n :: r =>
      do k <- (if periodic then div n step else do a <- sub n 4; do b <- div a step; add b 1);
      do s1 <- add s k;
      segment_count s1 periodic step r
  end.

(** curvesIClassCounts (ricxxutil.h:676-717). *)
Definition curves_counts (cubic : bool) (nverts : list Z) (periodic : bool) (step : Z) (known : bool)
  : option counts :=
  let ncurves := Z.of_nat (length nverts) in
  do vertices <- sum nverts;
  if cubic then
    if known then
      do segs <- segment_count 0 periodic step nverts;
      do ends <- (if periodic then Some segs else add segs ncurves);
      Some (mkCounts ncurves ends vertices 1 1)
    else Some (mkCounts ncurves (-1) vertices 1 1)
  else Some (mkCounts ncurves vertices vertices 1 1).

(** A piece of a primitive: from where its varying (corner), vertex and uniform
    values are copied. *)
Record piece := mkPiece { corners : list Z; points : list Z; face : Z }.

(** 0 .. n-1, as in for(i = 0; i < n; ++i). *)
Definition range (n : Z) : list Z := map Z.of_nat (seq 0 (Z.to_nat n)).

(** The two mesh classes (patch.h:195-400). *)
Record mesh := mkMesh {
  m_cubic : bool; m_nu : Z; m_nv : Z; m_uper : bool; m_vper : bool;
  m_ustep : Z; m_vstep : Z; u_patches : Z; v_patches : Z }.

(** The constructors (patch.h:206-217, 315-325). *)
Definition new_mesh (cubic : bool) (nu nv : Z) (uper vper : bool) (ustep vstep : Z) : option mesh :=
  if cubic then
    do u <- (if uper then div nu ustep else do a <- sub nu 4; do b <- div a ustep; add b 1);
    do v <- (if vper then div nv vstep else do a <- sub nv 4; do b <- div a vstep; add b 1);
    Some (mkMesh true nu nv uper vper ustep vstep u v)
  else
    do u <- (if uper then Some nu else sub nu 1);
    do v <- (if vper then Some nv else sub nv 1);
    Some (mkMesh false nu nv uper vper ustep vstep u v).

(** cUniform, cVarying, cVertex, cFaceVarying (patch.h:248-263, 358-373). *)
Definition mesh_counts (m : mesh) : option counts :=
  do patches <- mul (u_patches m) (v_patches m);
  do eu <- (if m_uper m then Some (u_patches m) else add (u_patches m) 1);
  do ev <- (if m_vper m then Some (v_patches m) else add (v_patches m) 1);
  do corners <- mul eu ev;
  do vertices <- mul (m_nu m) (m_nv m);
  Some (mkCounts patches corners vertices corners corners).

(** PatchCoord and PatchCorner (patch.cpp:966-967, 1195-1196). *)
Definition patch_coord (m : mesh) (v u : Z) : Z := Z.rem v (m_nv m) * m_nu m + Z.rem u (m_nu m).
Definition patch_corner (m : mesh) (v u : Z) : Z :=
  let nvaryingu := if m_uper m then u_patches m else u_patches m + 1 in
  let nvaryingv := if m_vper m then v_patches m else v_patches m + 1 in
  Z.rem v nvaryingv * nvaryingu + Z.rem u nvaryingu.

(** The body of the loops of SplitInternally (patch.cpp:1000-1062). *)
Definition cubic_patch (m : mesh) (i j : Z) : piece :=
  let vrow := i * m_vstep m in
  let ucol := j * m_ustep m in
  mkPiece [patch_corner m i j; patch_corner m i (j + 1);
           patch_corner m (i + 1) j; patch_corner m (i + 1) (j + 1)]
          (flat_map (fun v => [patch_coord m (vrow + v) ucol; patch_coord m (vrow + v) (ucol + 1);
                               patch_coord m (vrow + v) (ucol + 2); patch_coord m (vrow + v) (ucol + 3)])
                    [0; 1; 2; 3])
          j.

(** The body of the loops of Split (patch.cpp:1218-1273). *)
Definition bilinear_patch (m : mesh) (i j : Z) : piece :=
  let l := [patch_coord m i j; patch_coord m i (j + 1);
            patch_coord m (i + 1) j; patch_coord m (i + 1) (j + 1)] in
  mkPiece l l j.

(** SplitInternally (patch.cpp:969-1117) and Split (1198-1332). *)
Definition split_mesh (m : mesh) : list piece :=
  flat_map (fun i =>
    map (fun j => if m_cubic m then cubic_patch m i j else bilinear_patch m i j)
        (range (u_patches m)))
    (range (v_patches m)).

(** segmentsPerCurve (cubiccurves.cpp:598-604). *)
Definition segments_per_curve (n step : Z) (periodic : bool) : option Z :=
  if periodic then div n step else do a <- sub n 4; do b <- div a step; add b 1.

(** cUniform, cVarying, cVertex, cFaceVarying of the curve groups
    (curves.h:399-418, 457-471, cubiccurves.cpp:795-818); m_nTotalVerts
    (cubiccurves.cpp:634-638, linearcurves.cpp:395-406). *)
Fixpoint cubic_varying (s : Z) (periodic : bool) (step : Z) (nverts : list Z) : option Z :=
  match nverts with
  | [] => Some s
  | n :: r =>
      do k <- (if periodic then div n step
               else do a <- sub n 4; do b <- div a step; do c <- add b 1; add c 1);
      do s1 <- add s k;
      cubic_varying s1 periodic step r
  end.
Definition group_counts (cubic periodic : bool) (step : Z) (nverts : list Z) : option counts :=
  do total <- sum nverts;
  do v <- (if cubic then cubic_varying 0 periodic step nverts else Some total);
  Some (mkCounts (Z.of_nat (length nverts)) v total 0 0).

(** One Bezier control vertex of convertToBezierBasis (cubiccurves.cpp:671-741):
    row [bz_row] of the basis change applied to the vertices [bz_from]. *)
Record bezier := mkBezier { bz_from : list Z; bz_row : Z }.

(** The loop over segments (cubiccurves.cpp:699-735), [segs] of them. *)
Fixpoint convert_segments (segs : nat) (seg_vert start n step : Z) : list bezier :=
  match segs with
  | O => []
  | S k =>
      let p := [seg_vert + start; Z.rem (seg_vert + 1) n + start;
                Z.rem (seg_vert + 2) n + start; Z.rem (seg_vert + 3) n + start] in
      [mkBezier p 0; mkBezier p 1; mkBezier p 2; mkBezier p 3]
        ++ convert_segments k (seg_vert + step) start n step
  end.
(** The loop over curves (cubiccurves.cpp:691-737). *)
Fixpoint convert_curves (start : Z) (periodic : bool) (step : Z) (nverts : list Z) : option (list bezier) :=
  match nverts with
  | [] => Some []
  | n :: r =>
      do segs <- segments_per_curve n step periodic;
      do rest <- convert_curves (start + n) periodic step r;
      Some (convert_segments (Z.to_nat segs) 0 start n step ++ rest)
  end.

(** A segment made by CqCubicCurvesGroup::Split (cubiccurves.cpp:866-995):
    [points] are indices into the converted vertices. *)
Fixpoint cubic_segments (segs : nat) (pc vary nvary vertex_start vary_start uni : Z) : list piece :=
  match segs with
  | O => []
  | S k =>
      mkPiece [Z.rem (vary + 0) nvary + vary_start; Z.rem (vary + 1) nvary + vary_start]
              [4 * pc + vertex_start; 4 * pc + 1 + vertex_start;
               4 * pc + 2 + vertex_start; 4 * pc + 3 + vertex_start] uni
        :: cubic_segments k (pc + 1) (vary + 1) nvary vertex_start vary_start uni
  end.
Fixpoint split_cubic (vertex_start vary_start uni : Z) (periodic : bool) (step : Z) (nverts : list Z)
  : option (list piece) :=
  match nverts with
  | [] => Some []
  | n :: r =>
      do segs <- segments_per_curve n step periodic;
      let nvary := if periodic then segs else segs + 1 in
      do rest <- split_cubic (vertex_start + 4 * segs) (vary_start + nvary) (uni + 1) periodic step r;
      Some (cubic_segments (Z.to_nat segs) 0 0 nvary vertex_start vary_start uni ++ rest)
  end.

(** CqLinearCurvesGroup::Split (linearcurves.cpp:455-594): the segments of a curve
    and the value of vertexI after them. *)
Fixpoint linear_segments (segs : nat) (seg vert first n uni : Z) : list piece * Z :=
  match segs with
  | O => ([], vert)
  | S k =>
      let nxt := if seg =? n - 1 then first else vert + 1 in
      let '(l, v) := linear_segments k (seg + 1) (vert + 1) first n uni in
      (mkPiece [vert; nxt] [vert; nxt] uni :: l, v)
  end.
Fixpoint split_linear (vert uni : Z) (periodic : bool) (nverts : list Z) : list piece :=
  match nverts with
  | [] => []
  | n :: r =>
      let last := if periodic then n else n - 1 in
      let '(l, v) := linear_segments (Z.to_nat last) 0 vert vert n uni in
      l ++ split_linear (if periodic then v else v + 1) (uni + 1) periodic r
  end.

(** Dividing a group of curves.  The vertices of cubic segments are found in the
    converted array; a segment gets its four Bezier vertices from there. *)
Definition cubic_group (periodic : bool) (step : Z) (nverts : list Z)
  : option (list (piece * list (option bezier))) :=
  do c <- convert_curves 0 periodic step nverts;
  do l <- split_cubic 0 0 0 periodic step nverts;
  Some (map (fun p => (p, map (fun i => nth_error c (Z.to_nat i)) (points p))) l).

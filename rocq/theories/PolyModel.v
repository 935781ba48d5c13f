(** Model of how polygons are taken apart: the polygons of a PointsPolygons call, the
    bilinear patches made of one polygon, and the triangles made of general polygons.

    Modelled code: CqSurfacePointsPolygons::Split and CqPolygonBase::Split
    (/repo/libs/core/geometry/polygon.cpp:530-565, 71-318), CreatePhantomData
    (polygon.cpp:325-401), PolyIndex, FaceVaryingIndex, MeshIndex
    (/repo/libs/core/geometry/polygon.h:243-250, 491-498, 522-525),
    CqPolygonGeneral2D (/repo/libs/core/api/genpoly.h:49-143, genpoly.cpp:33-436),
    GeneralPolygon and PointsGeneralPolygons (/repo/libs/core/api/ri.cpp:1878-2014,
    2352-2570).

    Simplifications:
    - Coordinates are integers and arithmetic on them is exact.  Distances are compared
      by their squares; how a tie between two closest pairs of vertices is resolved
      (genpoly.cpp:309-340) is left open, [tie].
    - Positions are those of the vertex numbers used; that the numbers stay inside the
      arrays is C39.
    - Primitive variables are given as the places their values are taken from. *)

From Coq Require Import List Bool ZArith Arith.
Import ListNotations.
Open Scope Z_scope.

(* ---------- PointsPolygons ---------- *)

(** CqSurfacePointsPolygon: its number, where its face varying values begin, and its
    vertex numbers (polygon.h:367-375). *)
Record face := mkFace { f_index : Z; f_start : Z; f_verts : list Z }.

(** A number read as a TqUint (polygon.cpp:545). *)
Definition as_unsigned (n : Z) : Z := n mod 4294967296.

(** The loop over the vertices of one polygon (polygon.cpp:543-558): the numbers, [None]
    when one of them is not below the number of positions, and iP afterwards. *)
Fixpoint fill (size : Z) (indices : list Z) (count : nat) (iP : nat) (acc : list Z) : option (list Z) * nat :=
  match count with
  | O => (Some (rev acc), iP)
  | S k =>
      let x := nth iP indices 0 in
      if size <=? as_unsigned x then (None, iP)
      else fill size indices k (S iP) (x :: acc)
  end.
(** CqSurfacePointsPolygons::Split (polygon.cpp:530-565). *)
Fixpoint split_faces (size : Z) (indices : list Z) (counts : list nat) (poly : Z) (iP : nat) : list face :=
  match counts with
  | [] => []
  | n :: r =>
      match fill size indices n iP [] with
      | (Some vs, iP1) => mkFace poly (Z.of_nat iP) vs :: split_faces size indices r (poly + 1) iP1
      | (None, iP1) => split_faces size indices r (poly + 1) iP1
      end
  end.
Definition points_polygons (size : Z) (counts : list nat) (indices : list Z) : list face :=
  split_faces size indices counts 0 0.

(* ---------- One polygon ---------- *)

(** A bilinear patch: where the values of its corners are taken from, for varying and
    for face varying variables, where its uniform value is, and whether the fourth
    corner is a phantom. *)
Record patch := mkPatch { from_vertex : list Z; from_face : list Z; from_uniform : Z; phantom : bool }.

(** PolyIndex of CqSurfacePointsPolygon (polygon.h:491-494). *)
Definition poly_index (f : face) (i : nat) : Z :=
  if (i <? length (f_verts f))%nat then nth i (f_verts f) 0 else last (f_verts f) 0.
(** FaceVaryingIndex (polygon.h:495-498). *)
Definition face_index (f : face) (i : nat) : Z := f_start f + Z.of_nat i.

(** The loop of CqPolygonBase::Split (polygon.cpp:121-316), [i] = 2, 4, ..; [k] bounds
    the number of rounds. *)
Fixpoint split_loop (f : face) (n : nat) (k : nat) (i : nat) (b : nat) : list patch :=
  match k with
  | O => []
  | S k1 =>
      if (i <? n)%nat then
        let c := i in
        let d := if (i + 1 <? n)%nat then (i + 1)%nat else i in
        mkPatch [poly_index f 0; poly_index f b; poly_index f d; poly_index f c]
                [face_index f 0; face_index f b; face_index f d; face_index f c]
                (f_index f) (c =? d)%nat
        :: split_loop f n k1 (i + 2) d
      else []
  end.
Definition split_polygon (f : face) : list patch :=
  let n := length (f_verts f) in split_loop f n n 2 1.

(** CqSurfacePolygon of a Polygon call: its vertices are numbered from 0, MeshIndex is 0
    (polygon.h:147-150, 243-250). *)
Definition whole_polygon (n : nat) : face := mkFace 0 0 (map Z.of_nat (seq 0 n)).

(** The values of a variable at the corners (polygon.cpp:180-208, CreatePhantomData
    325-401). *)
Definition corner_values (p : patch) (from : list Z) (value : Z -> Z) : list Z :=
  let v0 := value (nth 0 from 0) in
  let v1 := value (nth 1 from 0) in
  let v2 := value (nth 2 from 0) in
  let v3 := value (nth 3 from 0) in
  [v0; v1; v2; if phantom p then (v1 - v0) + v2 else v3].

(* ---------- General polygons ---------- *)

Record point := mkPoint { px : Z; py : Z; pz : Z }.
Inductive axis := XY | XZ | YZ.
Inductive orientation := Unknown | Clockwise | AntiClockwise.
Definition orientation_eqb (a b : orientation) : bool :=
  match a, b with
  | Unknown, Unknown | Clockwise, Clockwise | AntiClockwise, AntiClockwise => true
  | _, _ => false
  end.

(** CqPolygonGeneral2D (genpoly.h:137-141). *)
Record polygon := mkPolygon { g_verts : list Z; g_orient : orientation; g_axis : axis; g_reverse : bool }.

(** operator[] (genpoly.h:93-111). *)
Definition project (a : axis) (p : point) : Z * Z :=
  match a with
  | XY => (px p, py p)
  | XZ => (px p, pz p)
  | YZ => (py p, pz p)
  end.

Section General.
Variable P : Z -> point.
Variable tie : polygon -> polygon -> nat -> nat -> nat -> nat -> bool.

Definition corner (g : polygon) (i : nat) : Z * Z := project (g_axis g) (P (nth i (g_verts g) 0)).

(** x_i y_j - x_j y_i (genpoly.cpp:127-134). *)
Definition term (g : polygon) (i j : nat) : Z :=
  fst (corner g i) * snd (corner g j) - fst (corner g j) * snd (corner g i).
(** The loop of CalcOrientation (genpoly.cpp:131-133). *)
Fixpoint area_loop (g : polygon) (k i : nat) (area : Z) : Z :=
  match k with
  | O => area
  | S k1 => area_loop g k1 (S i) (area + term g i (S i))
  end.
(** CalcOrientation (genpoly.cpp:121-141); without vertices it reads before the array. *)
Definition calc_orientation (g : polygon) : option polygon :=
  match g_verts g with
  | [] => None
  | _ =>
      let last := (length (g_verts g) - 1)%nat in
      let area := area_loop g last 0 (term g last 0) in
      Some (mkPolygon (g_verts g) (if 0 <=? area then AntiClockwise else Clockwise) (g_axis g) (g_reverse g))
  end.
(** SwapDirection (genpoly.cpp:100-115): the vertices are exchanged pairwise from the
    ends. *)
Definition swap_direction (g : polygon) : option polygon :=
  match calc_orientation (mkPolygon (rev (g_verts g)) (g_orient g) (g_axis g) (g_reverse g)) with
  | None => None
  | Some h => Some (mkPolygon (g_verts h) (g_orient h) (g_axis h) (negb (g_reverse h)))
  end.

(** CalcDeterminant (genpoly.cpp:149-182). *)
Definition determinant (g : polygon) (i1 i2 i3 : nat) : orientation :=
  let a := corner g i1 in let b := corner g i2 in let c := corner g i3 in
  let d := (fst b - fst a) * (snd c - snd a) - (fst c - fst a) * (snd b - snd a) in
  if 0 <? d then AntiClockwise else if d =? 0 then Unknown else Clockwise.

Definition same_point (a b : Z * Z) : bool := (fst a =? fst b) && (snd a =? snd b).
(** NoneInside (genpoly.cpp:190-228). *)
Fixpoint none_inside (g : polygon) (i1 i2 i3 : nat) (l : list nat) : bool :=
  match l with
  | [] => true
  | n :: r =>
      if (n =? i1)%nat || (n =? i2)%nat || (n =? i3)%nat then none_inside g i1 i2 i3 r
      else if orientation_eqb (determinant g i2 i1 n) (g_orient g)
              || orientation_eqb (determinant g i1 i3 n) (g_orient g)
              || orientation_eqb (determinant g i3 i2 n) (g_orient g)
           then none_inside g i1 i2 i3 r
      else if same_point (corner g n) (corner g i1) || same_point (corner g n) (corner g i2)
              || same_point (corner g n) (corner g i3)
           then none_inside g i1 i2 i3 r
      else false
  end.

(** The search for the closest vertices (genpoly.cpp:299-352); [None] is FLT_MAX. *)
Definition closest_step (g h : polygon) (i j : nat) (s : option Z * nat * nat) : option Z * nat * nat :=
  let '(best, a, b) := s in
  let x := fst (corner g i) - fst (corner h j) in
  let y := snd (corner g i) - snd (corner h j) in
  let d := x * x + y * y in
  match best with
  | None => (Some d, i, j)
  | Some m =>
      if d =? m then (if tie g h i j a b then (Some d, i, j) else s)
      else if d <? m then (Some d, i, j)
      else s
  end.
Definition closest (g h : polygon) : nat * nat :=
  let '(_, a, b) :=
    fold_left (fun s i => fold_left (fun s j => closest_step g h i j s) (seq 0 (length (g_verts h))) s)
              (seq 0 (length (g_verts g))) (None, 0%nat, 0%nat) in
  (a, b).
(** Combine (genpoly.cpp:286-376). *)
Definition combine_loops (g h : polygon) : polygon :=
  let '(a, b) := closest g h in
  mkPolygon (skipn a (g_verts g) ++ firstn (a + 1) (g_verts g)
             ++ skipn b (g_verts h) ++ firstn (b + 1) (g_verts h))
            (g_orient g) (g_axis g) (g_reverse g).

(** The vertices before and after position [c] of [n] (genpoly.cpp:403-411). *)
Definition previous (n c : nat) : nat := if (c =? 0)%nat then (n - 1)%nat else (c - 1)%nat.
Definition next (n c : nat) : nat :=
  if (c =? 0)%nat then 1%nat else if (c =? n - 1)%nat then 0%nat else (c + 1)%nat.
(** The search for a vertex that can be cut off (genpoly.cpp:401-425); [k] vertices
    are left to try. *)
Fixpoint find_ear (g : polygon) (l : list nat) (k c : nat) : option nat :=
  match k with
  | O => None
  | S k1 =>
      let p := nth (previous (length l) c) l 0%nat in
      let q := nth c l 0%nat in
      let r := nth (next (length l) c) l 0%nat in
      if orientation_eqb (determinant g p q r) (g_orient g) && none_inside g p q r l
      then Some c
      else find_ear g l k1 (S c)
  end.
(** A triangle with its vertex numbers in the order of the original loop
    (genpoly.cpp:431-443, 452-465). *)
Definition emit (g : polygon) (p q r : nat) : Z * Z * Z :=
  let v i := nth i (g_verts g) 0 in
  if g_reverse g then (v r, v q, v p) else (v p, v q, v r).
Definition remove_at (c : nat) (l : list nat) : list nat := firstn c l ++ skipn (c + 1) l.
(** The loop of Triangulate (genpoly.cpp:394-466). *)
Fixpoint cut_ears (g : polygon) (fuel : nat) (l : list nat) : list (Z * Z * Z) :=
  match fuel with
  | O => []
  | S f =>
      let n := length l in
      if (3 <? n)%nat then
        match find_ear g l n 0 with
        | None => []
        | Some c =>
            emit g (nth (previous n c) l 0%nat) (nth c l 0%nat) (nth (next n c) l 0%nat)
            :: cut_ears g f (remove_at c l)
        end
      else if (n =? 3)%nat then [emit g (nth 0 l 0%nat) (nth 1 l 0%nat) (nth 2 l 0%nat)]
      else []
  end.
Definition triangulate (g : polygon) : list (Z * Z * Z) :=
  cut_ears g (length (g_verts g)) (seq 0 (length (g_verts g))).

(** CalcAxis (genpoly.cpp:68-94). *)
Fixpoint axis_loop (vs : list Z) (normal : point) : point :=
  match vs with
  | [] => normal
  | a :: r =>
      match r with
      | b :: c :: _ =>
          let u := mkPoint (px (P b) - px (P a)) (py (P b) - py (P a)) (pz (P b) - pz (P a)) in
          let v := mkPoint (px (P c) - px (P b)) (py (P c) - py (P b)) (pz (P c) - pz (P b)) in
          let n := mkPoint (Z.abs (py u * pz v - pz u * py v)) (Z.abs (pz u * px v - px u * pz v))
                           (Z.abs (px u * py v - py u * px v)) in
          if Z.max (Z.max (px n) (py n)) (pz n) =? 0 then axis_loop r n else n
      | _ => normal
      end
  end.
Definition calc_axis (vs : list Z) : axis :=
  let n := axis_loop vs (mkPoint 1 0 0) in
  if (py n <? px n) && (pz n <? px n) then YZ
  else if (px n <? py n) && (pz n <? py n) then XZ
  else XY.

(** The axis of a GeneralPolygon: the smallest extent (ri.cpp:1906-1939). *)
Definition extent (coordinate : point -> Z) (first : Z) (vs : list Z) : Z :=
  fold_left (fun m v => Z.max m (coordinate (P v))) vs (coordinate (P first))
  - fold_left (fun m v => Z.min m (coordinate (P v))) vs (coordinate (P first)).
Definition extent_axis (first : Z) (vs : list Z) : axis :=
  let x := extent px first vs in let y := extent py first vs in let z := extent pz first vs in
  if (x <? y) && (x <? z) then YZ else if (y <? x) && (y <? z) then XZ else XY.

(** A loop, turned into the direction that is wanted (ri.cpp:1957-1992, 2432-2463). *)
Definition turn (want : orientation) (g : polygon) : option polygon :=
  match calc_orientation g with
  | None => None
  | Some h => if orientation_eqb (g_orient h) want then Some h else swap_direction h
  end.
Definition outer_direction (outside : bool) : orientation := if outside then AntiClockwise else Clockwise.

(** The loops of one polygon put together (ri.cpp:1943-1994, 2410-2466); [O] is the
    current orientation.  Without a loop the polygon is not set up (2470). *)
Fixpoint add_holes (O : bool) (g : polygon) (loops : list (axis * list Z)) : option polygon :=
  match loops with
  | [] => Some g
  | (a, vs) :: r =>
      match turn (outer_direction (negb O)) (mkPolygon vs Unknown a false) with
      | None => None
      | Some h => add_holes O (combine_loops g h) r
      end
  end.
Definition assemble (O : bool) (loops : list (axis * list Z)) : option polygon :=
  match loops with
  | [] => None
  | (a, vs) :: r =>
      match turn (outer_direction O) (mkPolygon vs Unknown a false) with
      | None => None
      | Some g =>
          match add_holes O g r with
          | None => None
          | Some h => calc_orientation h
          end
      end
  end.

(** The vertex numbers of the loops of a GeneralPolygon (ri.cpp:1943-1954). *)
Fixpoint number_loops (start : nat) (nverts : list nat) : list (list Z) :=
  match nverts with
  | [] => []
  | n :: r => map Z.of_nat (seq start n) :: number_loops (start + n) r
  end.
(** GeneralPolygon (ri.cpp:1878-2014): the triangles, and the orientation attribute
    afterwards. *)
Definition general_polygon (O : bool) (nverts : list nat) : option (list (Z * Z * Z) * bool) :=
  let n := fold_right plus 0%nat nverts in
  let a := extent_axis 0 (map Z.of_nat (seq 1 (n - 1))) in
  match assemble O (map (fun l => (a, l)) (number_loops 0 nverts)) with
  | None => None
  | Some g => Some (triangulate g, if g_reverse g then negb O else O)
  end.

(** The corners of triangles one after the other. *)
Definition corners (tris : list (Z * Z * Z)) : list Z :=
  flat_map (fun t => let '(a, b, c) := t in [a; b; c]) tris.
(** The entries of the face varying array for one corner (ri.cpp:2480-2492): all places
    of the polygon that have the vertex number. *)
Definition places (start : nat) (vs : list Z) (x : Z) : list Z :=
  map (fun i => Z.of_nat (start + i)) (filter (fun i => nth i vs 0 =? x) (seq 0 (length vs))).

(** PointsGeneralPolygons (ri.cpp:2398-2500): the triangles of all polygons, for each
    corner where its face varying value is, and for each triangle where its uniform
    value is (2540-2556).  A polygon is the list of its loops. *)
Fixpoint general_polygons (O : bool) (polys : list (list (list Z))) (start : nat) (number : Z) :
    option (list (Z * Z * Z) * list Z * list Z) :=
  match polys with
  | [] => Some ([], [], [])
  | loops :: r =>
      match assemble O (map (fun l => (calc_axis l, l)) loops) with
      | None => None
      | Some g =>
          let tris := triangulate g in
          let vs := concat loops in
          match general_polygons O r (start + length vs) (number + 1) with
          | None => None
          | Some (ts, fv, un) =>
              Some (tris ++ ts,
                    flat_map (places start vs) (corners tris) ++ fv,
                    repeat number (length tris) ++ un)
          end
      end
  end.
End General.

(** Model of trimming: libs/core/geometry/trimcurve.cpp:136-241 (points and lines
    against the loops), libs/core/micropolygon.cpp:753-858 and 1591-1628 (what becomes
    of a micropolygon and of a sample on it), libs/core/geometry/nurbs.h:346-357.

    Simplifications: numbers are exact rationals.  A loop is the list of the points of
    its curves (m_aCurvePoints, filled by CqTrimLoop::Prepare, which is not part of this
    model).  The grid has u and v (libs/core/micropolygon.cpp:762), its values of u and v
    are a function of the index, and no micropolygon is culled. *)

From Coq Require Import List Bool Arith QArith.
Import ListNotations.
Local Open Scope Q_scope.

(** CqVector2D. *)
Record point := Pt { px : Q; py : Q }.

(** The operator < of floats. *)
Definition less (a b : Q) : bool := negb (Qle_bool b a).

(** The body of the loop of trimcurve.cpp:154-166: does the segment from [b] to [a]
    flip the state? *)
Definition flips (v a b : point) : bool :=
  let x := px v in let y := py v in
  if (less (py a) y && Qle_bool y (py b)) || (less (py b) y && Qle_bool y (py a))
  then less (px a + (y - py a) / (py b - py a) * (px b - px a)) x
  else false.

(** The loop itself, trimcurve.cpp:152-167: [j] is the point before the rest [l]. *)
Fixpoint odd_nodes (v j : point) (l : list point) (odd : bool) : bool :=
  match l with
  | [] => odd
  | i :: r => odd_nodes v i r (if flips v i j then negb odd else odd)
  end.

(** CqTrimLoop::TrimPoint, trimcurve.cpp:145-169; j starts as the last point. *)
Definition loop_point (l : list point) (v : point) : bool :=
  odd_nodes v (last l (Pt 0 0)) l false.

(** The body of the loop of trimcurve.cpp:183-195: true if it returns true. *)
Definition hits (v1 v2 a b : point) : bool :=
  let x1 := px v1 in let y1 := py v1 in let x2 := px v2 in let y2 := py v2 in
  let x3 := px a in let y3 := py a in let x4 := px b in let y4 := py b in
  let d := (x2 - x1) * (y4 - y3) - (y2 - y1) * (x4 - x3) in
  if Qeq_bool d 0 then false
  else
    let r := ((y1 - y3) * (x4 - x3) - (x1 - x3) * (y4 - y3)) / d in
    let s := ((y1 - y3) * (x2 - x1) - (x1 - x3) * (y2 - y1)) / d in
    Qle_bool 0 r && Qle_bool 0 s && Qle_bool r 1 && Qle_bool s 1.

(** trimcurve.cpp:181-197. *)
Fixpoint any_hit (v1 v2 j : point) (l : list point) : bool :=
  match l with
  | [] => false
  | i :: r => if hits v1 v2 i j then true else any_hit v1 v2 i r
  end.

(** CqTrimLoop::LineIntersects, trimcurve.cpp:172-198. *)
Definition loop_line (l : list point) (v1 v2 : point) : bool :=
  any_hit v1 v2 (last l (Pt 0 0)) l.

(** CqTrimLoopArray::TrimPoint, trimcurve.cpp:211-225: true if the point is cut away. *)
Definition trim_point (loops : list (list point)) (v : point) : bool :=
  match loops with
  | [] => false
  | _ =>
    let crosses := fold_left (fun c l => (c + if loop_point l v then 1 else 0)%nat) loops O in
    negb (Nat.odd crosses)
  end.

(** CqTrimLoopArray::LineIntersects, trimcurve.cpp:228-241. *)
Fixpoint trim_line (loops : list (list point)) (v1 v2 : point) : bool :=
  match loops with
  | [] => false
  | l :: r => if loop_line l v1 v2 then true else trim_line r v1 v2
  end.

(** CqMicroPolyGrid::Split, micropolygon.cpp:772 and 784-838, for the micropolygon in
    column [iu] and row [iv] of a grid with [cu] columns: None if it is not added, else
    whether it is marked as trimmed.  [outside]: attribute trimcurve:sense is "outside". *)
Definition bust (outside : bool) (loops : list (list point)) (uv : nat -> point)
    (cu iu iv : nat) : option bool :=
  let index := (iv * (cu + 1) + iu)%nat in
  let a := uv index in
  let b := uv (index + 1)%nat in
  let c := uv (index + cu + 2)%nat in
  let d := uv (index + cu + 1)%nat in
  let ta := if outside then negb (trim_point loops a) else trim_point loops a in
  let tb := if outside then negb (trim_point loops b) else trim_point loops b in
  let tc := if outside then negb (trim_point loops c) else trim_point loops c in
  let td := if outside then negb (trim_point loops d) else trim_point loops d in
  if (ta && tb && tc && td)
     && (negb (trim_line loops a b) && negb (trim_line loops b c)
         && negb (trim_line loops c d) && negb (trim_line loops d a))
  then None
  else Some (ta || tb || tc || td).

(** BilinearEvaluate of libs/core/bilinear.h:190-226, one coordinate. *)
Definition bilinear (a b c d s t : Q) : Q :=
  let ab := if Qle_bool s 0 then a else if Qle_bool 1 s then b else (b - a) * s + a in
  let cd := if Qle_bool s 0 then c else if Qle_bool 1 s then d else (d - c) * s + c in
  if Qle_bool t 0 then ab else if Qle_bool 1 t then cd else (cd - ab) * t + ab.

(** The corners of CqMicroPolygon::Sample, micropolygon.cpp:1605-1621: the parameters of
    the surface at the place ([s], [t]) of the micropolygon. *)
Definition sample_uv (uv : nat -> point) (cu iu iv : nat) (s t : Q) : point :=
  let index := (iv * (cu + 1) + iu)%nat in
  let a := uv index in
  let b := uv (index + 1)%nat in
  let c := uv (index + cu + 1)%nat in
  let d := uv (index + cu + 2)%nat in
  Pt (bilinear (px a) (px b) (px c) (px d) s t) (bilinear (py a) (py b) (py c) (py d) s t).

(** CqMicroPolygon::Sample, micropolygon.cpp:1594-1628, and CqMicroPolygonMotion::Sample,
    1878-1883, for a sample that meets the micropolygon at ([s], [t]): is it a hit?
    Grids of triangles are left to C57. *)
Definition sample_hit (moving outside marked : bool) (loops : list (list point))
    (uv : nat -> point) (cu iu iv : nat) (s t : Q) : bool :=
  if moving then true
  else if marked
  then negb (trim_point loops (sample_uv uv cu iu iv s t) && negb outside)
  else true.

(** Both together: does the sample see the surface there? *)
Definition shown (moving outside : bool) (loops : list (list point))
    (uv : nat -> point) (cu iu iv : nat) (s t : Q) : bool :=
  match bust outside loops uv cu iu iv with
  | None => false
  | Some marked => sample_hit moving outside marked loops uv cu iu iv s t
  end.

(** What a trim curve is, without the code of aqsis: the rational B-spline curve of its
    order, knots and points, by the recursion of Cox and de Boor. *)

From Coq Require Import List Arith Bool QArith ZArith.
From Verif Require Import TrimModel NurbModel.
Import ListNotations.
Local Open Scope nat_scope.

Definition kn (c : curve) (i : nat) : Q := nth i (knots c) 0%Q.
Definition pt (c : curve) (i : nat) : vec := nth i (verts c) (Vec 0 0 0).

(** The parameters of the curve. *)
Definition bottom (c : curve) : Q := kn c (order c - 1).
Definition top (c : curve) : Q := kn c (cverts c).

(** The parameter [u] is in span [i]: spans are closed below and open above, but at the
    very end of the curve it is the other way round, so that the end belongs to the
    last one. *)
Definition in_span (c : curve) (u : Q) (i : nat) : bool :=
  if less u (top c) then Qle_bool (kn c i) u && less u (kn c (i + 1))
  else less (kn c i) u && Qle_bool u (kn c (i + 1)).

(** The basis functions of order [d + 1].  A quotient by zero counts as zero. *)
Fixpoint N (c : curve) (u : Q) (d i : nat) : Q :=
  match d with
  | O => if in_span c u i then 1 else 0
  | Datatypes.S e =>
      (u - kn c i) / (kn c (i + d)%nat - kn c i) * N c u e i +
      (kn c (i + d + 1)%nat - u) / (kn c (i + d + 1)%nat - kn c (i + 1)%nat) * N c u e (i + 1)%nat
  end%Q.

Fixpoint sum (f : nat -> Q) (n : nat) : Q :=
  match n with O => 0 | Datatypes.S n => sum f n + f n end%Q.

(** The weighted mean of the points, each coordinate over the third. *)
Definition blend (c : curve) (u : Q) (f : vec -> Q) : Q :=
  sum (fun i => N c u (order c - 1) i * f (pt c i))%Q (cverts c).

Definition curve_x (c : curve) (u : Q) : Q := (blend c u vx / blend c u vz)%Q.
Definition curve_y (c : curve) (u : Q) : Q := (blend c u vy / blend c u vz)%Q.

(** A curve as the interface asks for it: at least as many points as the order, as
    many knots as both together, and knots that do not decrease. *)
Definition wanted (c : curve) : Prop :=
  1 <= order c <= cverts c /\
  List.length (knots c) = order c + cverts c /\
  (forall i, i + 1 < List.length (knots c) -> (kn c i <= kn c (i + 1))%Q) /\
  (bottom c < top c)%Q /\
  Forall (fun p => (0 < vz p)%Q) (verts c).

(** The first and the last span are not empty. *)
Definition open_ends (c : curve) : Prop :=
  (bottom c < kn c (order c))%Q /\ (kn c (cverts c - 1) < top c)%Q.

(** The curve begins and ends at its first and last point. *)
Definition clamped (c : curve) : Prop :=
  (kn c 0 == bottom c)%Q /\ (kn c (List.length (knots c) - 1) == top c)%Q.

(** The point [q] is the point of the curve at [u]. *)
Definition at_parameter (c : curve) (u : Q) (q : point) : Prop :=
  (px q == curve_x c u)%Q /\ (py q == curve_y c u)%Q.

(** The parameter of piece [j] of [n]. *)
Definition parameter (c : curve) (n j : nat) : Q :=
  (bottom c + inject_Z (Z.of_nat j) * ((top c - bottom c) / inject_Z (Z.of_nat n)))%Q.

(** The points that a loop is to have: [n] of each curve, at even distances of the
    parameter, beginning with the first. *)
Definition wanted_points (pieces : curve -> nat) (cs : list curve) (l : list point) : Prop :=
  Forall2 (fun '(c, j) q => at_parameter c (parameter c (pieces c) j) q)
          (flat_map (fun c => map (pair c) (seq 0 (pieces c))) cs) l.

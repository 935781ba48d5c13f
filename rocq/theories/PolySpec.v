(** What is expected of the division of polygons. *)

From Coq Require Import List Bool ZArith.
From Verif Require Import PolyModel.
Import ListNotations.
Open Scope Z_scope.

(** A sum over the edges of a closed line through the given points. *)
Section Edges.
Context {T : Type}.
Variable F : T -> T -> Z.
Fixpoint along (l : list T) : Z :=
  match l with
  | a :: (b :: _) as r => F a b + along r
  | _ => 0
  end.
Definition around (l : list T) : Z :=
  match l with
  | [] => 0
  | a :: _ => along (l ++ [a])
  end.
End Edges.
(** An edge passed in the other direction counts against it. *)
Definition antisymmetric {T} (F : T -> T -> Z) : Prop := forall a b, F b a = - F a b.

Definition total (l : list Z) : Z := fold_right Z.add 0 l.

(** Twice the area to the left of a closed line. *)
Definition cross (a b : Z * Z) : Z := fst a * snd b - fst b * snd a.
Definition area2 (l : list (Z * Z)) : Z := around cross l.
(** Positive when [q] is to the left of the line from [a] to [b]. *)
Definition left_of (a b q : Z * Z) : Z :=
  (fst b - fst a) * (snd q - snd a) - (fst q - fst a) * (snd b - snd a).
(** How often a closed line winds round the point [q]: its crossings of the half line
    from [q] to the right, upwards less downwards. *)
Definition crossing (q a b : Z * Z) : Z :=
  if (snd a <=? snd q) && (snd q <? snd b) then (if 0 <? left_of a b q then 1 else 0)
  else if (snd b <=? snd q) && (snd q <? snd a) then (if left_of a b q <? 0 then -1 else 0)
  else 0.
Definition winding (q : Z * Z) (l : list (Z * Z)) : Z := around (crossing q) l.

(** The visible outline of a patch, as places in the list of corners: all four, or
    three if the fourth is a phantom. *)
Definition outline (p : patch) : list nat := if phantom p then [0; 1; 2]%nat else [0; 1; 3; 2]%nat.
Definition outline_of (p : patch) (from : list Z) : list Z := map (fun k => nth k from 0) (outline p).

(** A bilinear value, at u / m and v / m, times m * m. *)
Definition bilinear (c : list Z) (m u v : Z) : Z :=
  (m - u) * (m - v) * nth 0 c 0 + u * (m - v) * nth 1 c 0 + (m - u) * v * nth 2 c 0 + u * v * nth 3 c 0.

(** The vertices of the polygons of a call, and where they begin. *)
Fixpoint own_vertices (counts : list nat) (indices : list Z) : list (list Z) :=
  match counts with
  | [] => []
  | n :: r => firstn n indices :: own_vertices r (skipn n indices)
  end.
Fixpoint own_faces (counts : list nat) (indices : list Z) (number start : Z) : list face :=
  match counts with
  | [] => []
  | n :: r => mkFace number start (firstn n indices)
              :: own_faces r (skipn n indices) (number + 1) (start + Z.of_nat n)
  end.

(** The three positions of a triangle. *)
Definition positions (at_ : Z -> Z * Z) (t : Z * Z * Z) : list (Z * Z) :=
  let '(a, b, c) := t in [at_ a; at_ b; at_ c].

(** Turned to the left ([s] = 1) or to the right ([s] = -1) everywhere. *)
Definition convex (s : Z) (l : list (Z * Z)) : Prop :=
  forall i j k, (i < j)%nat -> (j < k)%nat -> (k < length l)%nat ->
    0 < s * left_of (nth i l (0, 0)) (nth j l (0, 0)) (nth k l (0, 0)).

(** 1 for a loop that runs anticlockwise or has no area, -1 for one that runs clockwise. *)
Definition direction (l : list (Z * Z)) : Z := if 0 <=? area2 l then 1 else -1.

(** [q] lies inside the triangle: on the same side of all three sides. *)
Definition within (q : Z * Z) (l : list (Z * Z)) : bool :=
  match l with
  | [a; b; c] =>
      ((0 <? left_of a b q) && (0 <? left_of b c q) && (0 <? left_of c a q))
      || ((left_of a b q <? 0) && (left_of b c q <? 0) && (left_of c a q <? 0))
  | _ => false
  end.
(** [q] lies on none of the lines through the sides. *)
Definition off_lines (q : Z * Z) (l : list (Z * Z)) : Prop :=
  match l with
  | [a; b; c] => left_of a b q <> 0 /\ left_of b c q <> 0 /\ left_of c a q <> 0
  | _ => True
  end.

(** The three vertices of a triangle. *)
Definition vertices (t : Z * Z * Z) : list Z := let '(a, b, c) := t in [a; b; c].

(** Triangle number [k] of a call has its own values: it belongs to a polygon of the
    call, its uniform value is that polygon's, and for each corner the face varying
    value is the one given for that vertex of the polygon. *)
Definition own_values (polys : list (list (list Z))) (ts : list (Z * Z * Z)) (fv un : list Z) (k : nat) : Prop :=
  exists before loops after, polys = before ++ loops :: after /\
    nth k un 0 = Z.of_nat (length before) /\
    forall j, (j < 3)%nat -> exists i, (i < length (concat loops))%nat /\
      nth (3 * k + j) fv 0 = Z.of_nat (length (concat (concat before)) + i) /\
      nth i (concat loops) 0 = nth j (vertices (nth k ts (0, 0, 0))) 0.

(** A point is on no line through two of the points. *)
Definition apart (q : Z * Z) (l : list (Z * Z)) : Prop :=
  forall i j, (i < j)%nat -> (j < length l)%nat -> left_of (nth i l (0, 0)) (nth j l (0, 0)) q <> 0.

(** The corner [q] between [p] and [r] can be cut off a loop that runs to the left
    ([s] = 1) or to the right ([s] = -1) and has the other vertices [rest]: it is turned like
    the loop, and none of the others is in the triangle, unless at one of its corners. *)
Definition can_cut (s : Z) (pos : nat -> Z * Z) (p q r : nat) (rest : list nat) : Prop :=
  Z.sgn (left_of (pos p) (pos q) (pos r)) = s /\
  forall x, In x rest ->
    (0 <= s * left_of (pos p) (pos q) (pos x) -> 0 <= s * left_of (pos q) (pos r) (pos x) ->
     0 <= s * left_of (pos r) (pos p) (pos x) -> pos x = pos p \/ pos x = pos q \/ pos x = pos r).
(** The same closed line, begun elsewhere. *)
Definition rotation {X} (l m : list X) : Prop := exists u v, l = u ++ v /\ m = v ++ u.
(** Some of the elements, in the same order. *)
Inductive sublist {X} : list X -> list X -> Prop :=
| sub_nil : sublist [] []
| sub_skip x l m : sublist l m -> sublist l (x :: m)
| sub_keep x l m : sublist l m -> sublist (x :: l) (x :: m).

(** Twice the area of a triangle as seen in a plane. *)
Definition shadow (a : axis) (p : point) : Z * Z :=
  match a with XY => (px p, py p) | XZ => (px p, pz p) | YZ => (py p, pz p) end.
Definition seen (a : axis) (u v w : point) : Z := Z.abs (left_of (shadow a u) (shadow a v) (shadow a w)).
(** The spread of a coordinate over some points. *)
Definition spread (c : point -> Z) (ps : list point) (d : Z) : Prop :=
  exists lo hi, In lo ps /\ In hi ps /\ d = c hi - c lo /\ forall p, In p ps -> c lo <= c p <= c hi.

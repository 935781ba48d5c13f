(** What image buffers are: a number for each channel of each pixel. *)

From Coq Require Import List Bool QArith Qabs Qminmax ZArith String.
From Verif Require Import ImageModel.
Import ListNotations.
Local Open Scope Z_scope.

(** Column [x] and row [y] are in the image, and [c] is one of its channels. *)
Definition inside (b : buf) (x y c : Z) : Prop := 0 <= x < bw b /\ 0 <= y < bh b /\ 0 <= c < chans b.

(** The memory is row by row, pixel by pixel, channel by channel. *)
Definition cell (b : buf) (d : list Q) (x y c : Z) : Q := nth (Z.to_nat ((y * bw b + x) * chans b + c)) d 0%Q.

(** An image as it is made: memory for all its pixels. *)
Definition fits (b : buf) (d : list Q) : Prop := Z.of_nat (List.length d) = bw b * bh b * chans b.
Definition sound (b : buf) : Prop := 0 <= bw b /\ 0 <= bh b /\ fits b (data b).

Definition kind_of (b : buf) (c : Z) : kind := snd (nth (Z.to_nat c) (names b) (""%string, Flt)).

(** The pixel [x], [y] is covered by a picture of the size of [src] whose corner is at
    [x0], [y0]. *)
Definition covers (src : buf) (x0 y0 x y : Z) : Prop :=
  x0 <= x < x0 + bw src /\ y0 <= y < y0 + bh src.

(** The place of a name. *)
Definition named (b : buf) (n : string) (c : Z) : Prop :=
  0 <= c < chans b /\ fst (nth (Z.to_nat c) (names b) (""%string, Flt)) = n /\
  forall i, 0 <= i < c -> fst (nth (Z.to_nat i) (names b) (""%string, Flt)) <> n.

(** The number is one the channel can hold. *)
Definition holds (k : kind) (v : Q) : Prop :=
  match k with
  | Int lo hi => lo < hi /\ exists z, v = inject_Z z /\ lo <= z <= hi
  | Flt => True
  end.

(** Every kind of number of the image has more than one value. *)
Definition proper (k : kind) : Prop := match k with Int lo hi => lo < hi | Flt => True end.
Definition well_typed (b : buf) : Prop := forall c, 0 <= c < chans b -> proper (kind_of b c).

(** What a stored number means: for whole numbers, its place between the least (0) and the
    greatest (1). *)
Definition level (k : kind) (v : Q) : Q :=
  match k with
  | Int lo hi => ((v - inject_Z lo) / (inject_Z hi - inject_Z lo))%Q
  | Flt => v
  end.

(** [v] is how a channel stores the level [f]: a floating point number as it is, a whole
    number as the nearest one, no further than the least and the greatest. *)
Definition stores (k : kind) (f v : Q) : Prop :=
  match k with
  | Int lo hi => exists z, v = inject_Z z /\ lo <= z <= hi /\
      (Qabs (v - (inject_Z lo + Qmax 0 (Qmin 1 f) * (inject_Z hi - inject_Z lo))) <= 1 # 2)%Q
  | Flt => (v == f)%Q
  end.

(** What lies over [under], with how much it covers. *)
Definition over (f alpha under : Q) : Q := (f + (1 - alpha) * under)%Q.

(** Squares of [t] pixels, grey at the corner and then white and grey in turn. *)
Definition chequer (t x y : Z) : Q := if Z.even (x / t + y / t) then (1 # 2)%Q else 1%Q.

(** The names are all there, and none is written twice. *)
Definition all_names (dst src : buf) (map_ : list (string * string)) : Prop :=
  NoDup (map fst map_) /\
  forall to from, In (to, from) map_ -> (exists c, named dst to c) /\ (exists j, named src from j).

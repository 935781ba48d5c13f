(** What "hidden" means, independently of the tree.

    A bucket has one sample in every subpixel, anywhere in it.  A history is a list of hits
    of samples by opaque surfaces, each with its subpixel and its depth. *)

From Coq Require Import List ZArith.
From Verif Require Import OcclModel.
Import ListNotations.
Open Scope Z_scope.

(** The sample of subpixel (x, y), which is [w] by [h] and counted from the corner
    (x0, y0), is at (px, py). *)
Definition in_subpixel (x0 y0 w h x y px py : Z) : Prop :=
  x0 + x * w <= px <= x0 + (x + 1) * w /\ y0 + y * h <= py <= y0 + (y + 1) * h.

(** The depths of the hits of one sample. *)
Definition hits_of (x y : Z) (l : list (Z * Z * Z)) : list Z :=
  map snd (filter (fun h => Z.eqb (fst (fst h)) x && Z.eqb (snd (fst h)) y)%bool l).

(** How many of them are closer than z. *)
Definition closer (z : Z) (l : list Z) : Z := Z.of_nat (length (filter (fun d => d <? z) l)).

(** The number of subdivisions is enough for the subpixels. *)
Definition covers_enough (covering : Z -> Z) : Prop := forall n, 1 <= n -> 0 <= covering n /\ n <= 2 ^ covering n.
(** A bucket with at least one subpixel. *)
Definition real_bucket (b : bucket) : Prop := 1 <= across b /\ 1 <= down b /\ 0 < wide b /\ 0 < high b.

(** The hits among what happens to a bucket; they are hits of samples of the bucket. *)
Definition hits (l : list event) : list (Z * Z * Z) :=
  flat_map (fun e => match e with Hit x y d => [(x, y, d)] | Update => [] end) l.
Definition inside (b : bucket) (e : event) : Prop :=
  match e with Hit x y _ => 0 <= x < across b /\ 0 <= y < down b | Update => True end.

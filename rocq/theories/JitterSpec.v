(** Specification of stratified sample patterns. *)
From Verif Require Import JitterModel.

(** What the random generator promises (C33): integers below the range, floats in [0, 1). *)
Definition rng_ok (g : rng) : Prop :=
  (forall c k, 0 < k -> ri g c k < k) /\ (forall c, 0 <= rf g c < 1)%Q.

(** [x] lies in the [k]-th of [m] equal intervals of [0, 1). *)
Definition in_stratum (m k : nat) (x : Q) : Prop := (q k <= x * q m /\ x * q m < q (S k))%Q.

Definition exactly_one (n : nat) (P : nat -> Prop) : Prop :=
  exists i, i < n /\ P i /\ forall j, j < n -> P j -> j = i.

(** A pattern of [numX * numY] points in the unit square: one in each cell of the [numX] by [numY] grid, one in each
    fine column and one in each fine row. *)
Definition stratified2d (numX numY : nat) (pt : nat -> Q * Q) : Prop :=
  let n := numX * numY in
  (forall ix iy, ix < numX -> iy < numY ->
     exactly_one n (fun k => in_stratum numX ix (fst (pt k)) /\ in_stratum numY iy (snd (pt k)))) /\
  (forall col, col < n -> exactly_one n (fun k => in_stratum n col (fst (pt k)))) /\
  (forall row, row < n -> exactly_one n (fun k => in_stratum n row (snd (pt k)))).

Definition stratified1d (n : nat) (x : nat -> Q) : Prop :=
  forall s, s < n -> exactly_one n (fun k => in_stratum n s (x k)).

Definition permutation_of_indices (n : nat) (f : nat -> nat) : Prop :=
  (forall i, i < n -> f i < n) /\ forall v, v < n -> exactly_one n (fun i => f i = v).

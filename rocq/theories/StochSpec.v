(** What sampling at random should give. *)

From Coq Require Import List Bool ZArith QArith.
From Verif Require Import TexModel TexSpec AccumSpec StochModel.
Import ListNotations.
Open Scope Z_scope.

(** Numbers that random number generators give: from 0 to before 1; the largest float before 1
    is 1 - 1/2^24. *)
Definition fraction (u : Q) : Prop := (0 <= u)%Q /\ (u <= 16777215 # 16777216)%Q.

(** Exactly [n] samples, all of them texels of the region with their values. *)
Definition samples_of {V} (l : list (Z * Z * V)) (n : Z) (s : support) (img : Z -> Z -> V) : Prop :=
  Z.of_nat (length l) = n /\ forall x y v, In (x, y, v) l -> within s x y /\ v = img x y.

(** An array of tiles after any use, of which some at random. *)
Inductive used_any {V} (f : file V) : array V -> Prop :=
| any_new : used_any f (new_array V f)
| any_visit a fresh s l b : used_any f a -> tiles_visit V fresh a s = Some (l, b) -> used_any f b
| any_texel a fresh x y v b : used_any f a -> 0 <= x < f_width V f -> 0 <= y < f_height V f ->
    texel V fresh a x y = Some (v, b) -> used_any f b
| any_random a fresh rand table s n l b : used_any f a -> stoch_visit V fresh rand table a s n = Some (l, b) -> used_any f b.

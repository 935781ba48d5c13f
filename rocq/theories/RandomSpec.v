(** Specification of the random numbers: the ranges, and the published MT19937 sequence. *)
From Verif Require Import RandomModel.
Open Scope Z_scope.

(** MT19937 (Matsumoto and Nishimura): word size 32, degree 624, middle word 397, separation point 31. *)
Definition mt_twist (u l : Z) : Z :=
  let y := Z.land u 0x80000000 + Z.land l 0x7fffffff in
  Z.lxor (y / 2) (if Z.odd y then 0x9908b0df else 0).

Definition is_mt_sequence (seed : Z) (x : nat -> Z) : Prop :=
  x 0%nat = seed mod 2 ^ 32 /\
  (forall i, (0 < i < 624)%nat ->
     x i = (1812433253 * Z.lxor (x (i - 1)%nat) (x (i - 1)%nat / 2 ^ 30) + Z.of_nat i) mod 2 ^ 32) /\
  (forall k, x (k + 624)%nat = Z.lxor (x (k + 397)%nat) (mt_twist (x k) (x (k + 1)%nat))).

Definition mt_temper (y0 : Z) : Z :=
  let y1 := Z.lxor y0 (y0 / 2 ^ 11) in
  let y2 := Z.lxor y1 (Z.land (y1 * 2 ^ 7) 0x9d2c5680) in
  let y3 := Z.lxor y2 (Z.land (y2 * 2 ^ 15) 0xefc60000) in
  Z.lxor y3 (y3 / 2 ^ 18).

(** Arguments for which the documentation promises a range: a positive 32-bit integer, and a positive float that is
    not tiny (subnormal). *)
Definition op_ok (o : op) : Prop :=
  match o with
  | RandomIntRange k => 0 < k < 2 ^ 32
  | RandomFloatRange x => is_float x /\ (Flocq.Core.Raux.bpow Flocq.Core.Zaux.radix2 (-125) <= x)%R
  | Reseed s => 0 <= s < 2 ^ 32
  | _ => True
  end.

(** The documented range of each result (random.cpp:173, 180, 190, 207). *)
Definition in_range (o : op) (r : result) : Prop :=
  match o, r with
  | (NewDefault | NewSeeded _ | Reseed _), RUnit => True
  | RandomInt, RInt z => 0 <= z < 2 ^ 32
  | RandomIntRange k, RInt z => 0 <= z < k
  | RandomFloat, RFloat x => (0 <= x < 1)%R
  | RandomFloatRange k, RFloat x => (0 <= x < k)%R
  | _, _ => False
  end.

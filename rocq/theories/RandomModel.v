(** Model of the random number generator (libs/math/random.cpp, include/aqsis/math/random.h): the generator's integer
    state exactly, and its single and double precision arithmetic with Flocq's rounding functions. *)
From Coq Require Export ZArith List Reals.
From Flocq Require Import Core.
Export ListNotations.
Open Scope Z_scope.

(** random.cpp:92-96 *)
Definition mt_n : nat := 624.
Definition mt_m : nat := 397.
Definition matrix_a : Z := 0x9908b0df.
Definition upper_mask : Z := 0x80000000.
Definition lower_mask : Z := 0x7fffffff.
Definition mask32 : Z := 0xffffffff.

(** random.cpp:99-100: the static state, shared by every CqRandom object.  Reading or writing the array outside its
    624 words is an error ([None]).  [mti] is N+1 when the array has not been initialised. *)
Record mtstate := mkmt { words : nat -> Z; mti : nat }.

Definition rd (w : nat -> Z) (i : nat) : option Z := if (i <? mt_n)%nat then Some (w i) else None.
Definition wr (w : nat -> Z) (i : nat) (v : Z) : option (nat -> Z) :=
  if (i <? mt_n)%nat then Some (fun k => if (k =? i)%nat then v else w k) else None.

Definition bind {A B} (x : option A) (f : A -> option B) : option B :=
  match x with Some a => f a | None => None end.
Notation "'do' a <- x ; f" := (bind x (fun a => f)) (at level 200, a name, x at level 100, f at level 200).

(** random.cpp:107-118: the loop of init_genrand from [i] on, [n] rounds left.  The unsigned long may have 32 or 64
    bits: the sum is below 2^63 and is masked to 32 bits, so the result is the same. *)
Fixpoint init_loop (n i : nat) (w : nat -> Z) : option (nat -> Z) :=
  match n with
  | O => Some w
  | S n' =>
      do p <- rd w (i - 1);
      do w' <- wr w i (Z.land (1812433253 * Z.lxor p (Z.shiftr p 30) + Z.of_nat i) mask32);
      init_loop n' (S i) w'
  end.

(** random.cpp:103-119 *)
Definition init_genrand (s : Z) (st : mtstate) : option mtstate :=
  do w <- wr (words st) 0 (Z.land s mask32);
  do w' <- init_loop (mt_n - 1) 1 w;
  Some (mkmt w' mt_n).

(** random.cpp:125, 138-139: mag01 *)
Definition mag01 (i : Z) : Z := if i =? 0 then 0 else matrix_a.

(** random.cpp:138-139, 143-144, 146-147: one word of the new block, from the words at [kk], [next] and [far] *)
Definition gen_word (w : nat -> Z) (kk next far : nat) : option (nat -> Z) :=
  do a <- rd w kk;
  do b <- rd w next;
  do f <- rd w far;
  let y := Z.lor (Z.land a upper_mask) (Z.land b lower_mask) in
  wr w kk (Z.lxor (Z.lxor f (Z.shiftr y 1)) (mag01 (Z.land y 1))).

(** random.cpp:136-140 and 141-145: the two loops, [far kk] being kk+M and kk+(M-N) *)
Fixpoint gen_loop (far : nat -> nat) (n kk : nat) (w : nat -> Z) : option (nat -> Z) :=
  match n with
  | O => Some w
  | S n' => do w' <- gen_word w kk (kk + 1) (far kk); gen_loop far n' (S kk) w'
  end.

(** random.cpp:136-147 *)
Definition gen_block (w : nat -> Z) : option (nat -> Z) :=
  do w1 <- gen_loop (fun kk => kk + mt_m)%nat (mt_n - mt_m) 0 w;
  do w2 <- gen_loop (fun kk => kk - (mt_n - mt_m))%nat (mt_n - 1 - (mt_n - mt_m)) (mt_n - mt_m) w1;
  gen_word w2 (mt_n - 1) 0 (mt_m - 1).

(** random.cpp:155-158 tempering *)
Definition tempering (y : Z) : Z :=
  let y := Z.lxor y (Z.shiftr y 11) in
  let y := Z.lxor y (Z.land (Z.shiftl y 7) 0x9d2c5680) in
  let y := Z.lxor y (Z.land (Z.shiftl y 15) 0xefc60000) in
  Z.lxor y (Z.shiftr y 18).

(** random.cpp:122-161 genrand_int32 *)
Definition genrand_int32 (st : mtstate) : option (Z * mtstate) :=
  do st1 <- (if (mt_n <=? mti st)%nat then
               do st0 <- (if (mti st =? mt_n + 1)%nat then init_genrand 5489 st else Some st);
               do w <- gen_block (words st0);
               Some (mkmt w 0)
             else Some st);
  do y <- rd (words st1) (mti st1);
  Some (tempering y, mkmt (words st1) (mti st1 + 1)).

(** Single and double precision, round to nearest even (the default IEEE mode that random.cpp:203 relies on); every
    operation is rounded to its own type (no excess precision).  Overflow is not modelled: all results here are at
    most the range asked for. *)
Definition f32 (x : R) : R := round radix2 (FLT_exp (-149) 24) ZnearestE x.
Definition f64 (x : R) : R := round radix2 (FLT_exp (-1074) 53) ZnearestE x.
Definition is_float (x : R) : Prop := generic_format radix2 (FLT_exp (-149) 24) x.

(** random.cpp:204, from the integer drawn: unsigned long times double constant, converted to float *)
Definition float_of_draw (y : Z) : R := f32 (f64 (f64 (IZR y) * f64 (1 / 4294967424))).

(** random.cpp:210-213 *)
Definition float_in_range (range : R) (y : Z) : R := f32 (range * float_of_draw y).

(** random.cpp:184-188 with lfloor of math.h:46-50; the range is converted to float *)
Definition int_in_range (range : Z) (y : Z) : Z :=
  let n := float_in_range (f32 (IZR range)) y in
  Ztrunc n - (if Rlt_bool n 0 then if Req_bool n (IZR (Ztrunc n)) then 0 else 1 else 0).

(** The public operations (random.h:88-115).  Constructing an object, with or without a seed, does nothing
    (random.cpp:168-171), and no operation looks at the object, so objects are not represented. *)
Inductive op :=
| NewDefault | NewSeeded (seed : Z) | Reseed (seed : Z)
| RandomInt | RandomIntRange (range : Z) | RandomFloat | RandomFloatRange (range : R).

Inductive result := RUnit | RInt (z : Z) | RFloat (x : R).

Definition exec (o : op) (st : mtstate) : option (result * mtstate) :=
  match o with
  | NewDefault | NewSeeded _ => Some (RUnit, st)
  | Reseed s => do st' <- init_genrand s st; Some (RUnit, st')
  | RandomInt => do r <- genrand_int32 st; Some (RInt (fst r), snd r)
  | RandomIntRange k => do r <- genrand_int32 st; Some (RInt (int_in_range k (fst r)), snd r)
  | RandomFloat => do r <- genrand_int32 st; Some (RFloat (float_of_draw (fst r)), snd r)
  | RandomFloatRange x => do r <- genrand_int32 st; Some (RFloat (float_in_range x (fst r)), snd r)
  end.

Fixpoint exec_all (l : list op) (st : mtstate) : option (list result * mtstate) :=
  match l with
  | [] => Some ([], st)
  | o :: l => do r <- exec o st; do rs <- exec_all l (snd r); Some (fst r :: fst rs, snd rs)
  end.

(** Program start: the array is not initialised *)
Definition start (junk : nat -> Z) : mtstate := mkmt junk (mt_n + 1).

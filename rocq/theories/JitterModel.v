(** Model of the multi-jittered sampler (libs/core/multijitter.{h,cpp}). *)
From Coq Require Export List Arith Bool Lia QArith.
Export ListNotations.
Open Scope nat_scope.

(** The random generator: the [c]-th draw gives [ri c k] for RandomInt(k) and [rf c] for RandomFloat().  What the
    generator guarantees is in JitterSpec.v. *)
Record rng := mkrng { ri : nat -> nat -> nat; rf : nat -> Q }.

(** Arrays are functions with an explicit length: access outside is an error ([None]). *)
Definition upd {A} (f : nat -> A) (i : nat) (v : A) : nat -> A := fun k => if k =? i then v else f k.

Definition swap (len : nat) (f : nat -> nat) (i j : nat) : option (nat -> nat) :=
  if (i <? len) && (j <? len) then Some (upd (upd f i (f j)) j (f i)) else None.

Definition store {A} (len : nat) (f : nat -> A) (i : nat) (v : A) : option (nat -> A) :=
  if i <? len then Some (upd f i v) else None.

(** multijitter.cpp:106-113, 119-126, 195-201: in-place shuffle of the cells [pos 0 .. pos (k-1)]; [c] counts draws *)
Fixpoint shuffle (g : rng) (len : nat) (pos : nat -> nat) (k : nat) (c : nat) (f : nat -> nat)
  : option (nat * (nat -> nat)) :=
  match k with
  | O | S O => Some (c, f)
  | S k' => match swap len f (pos k') (pos (ri g c k)) with
            | Some f' => shuffle g len pos k' (S c) f'
            | None => None
            end
  end.

(** [for (i = lo; i < lo + n; i++) body] with a state that may fail *)
Fixpoint for_ {S} (n lo : nat) (body : nat -> S -> option S) (s : S) : option S :=
  match n with
  | O => Some s
  | S n' => match body lo s with Some s' => for_ n' (Datatypes.S lo) body s' | None => None end
  end.

Definition cell_x (numX ix iy : nat) := 2 * (iy * numX + ix).
Definition cell_y (numX ix iy : nat) := 2 * (iy * numX + ix) + 1.

(** multijitter.cpp:83-128 multiJitterIndices on an array of [2*numX*numY] ints with arbitrary contents *)
Definition multi_jitter_indices (g : rng) (numX numY c : nat) (f : nat -> nat) : option (nat * (nat -> nat)) :=
  let len := 2 * (numX * numY) in
  match for_ numY 0 (fun iy f => for_ numX 0 (fun ix f =>
          match store len f (cell_x numX ix iy) iy with
          | Some f1 => store len f1 (cell_y numX ix iy) ix
          | None => None end) f) f with
  | None => None
  | Some f1 =>
      match for_ numY 0 (fun iy s => shuffle g len (fun ix => cell_y numX ix iy) numX (fst s) (snd s)) (c, f1) with
      | None => None
      | Some s => for_ numX 0 (fun ix s => shuffle g len (fun iy => cell_x numX ix iy) numY (fst s) (snd s)) s
      end
  end.

(** The three tables of the sampler (multijitter.h:80-82), each of length [len] *)
Record tables := mkt { t2d : nat -> Q * Q; t1d : nat -> Q; tidx : nat -> nat }.

Definition q (n : nat) : Q := inject_Z (Z.of_nat n).

(** multijitter.cpp:130-202 setupJitterPattern.  Exact arithmetic: the rounding of the positions is not modelled.
    [junk] is the uninitialised buffer of subcell indices; [offset] and [len] place the pattern in the tables. *)
Definition setup_jitter_pattern (g : rng) (numX numY offset len c : nat) (junk : nat -> nat) (t : tables)
  : option (nat * tables) :=
  let n := numX * numY in
  let two_d :=
    if (numX =? 1) && (numY =? 1) then
      (* multijitter.cpp:137-141; the third draw, the 1-d sample, is overwritten at 184-190 *)
      match store len (t2d t) offset (rf g c, rf g (c + 1)) with
      | Some a => Some (c + 3, a)
      | None => None end
    else
      match multi_jitter_indices g numX numY c junk with
      | None => None
      | Some (c1, idx) =>
          (* multijitter.cpp:152-171; [which] is [iy*numX + ix] *)
          for_ numY 0 (fun iy s => for_ numX 0 (fun ix s =>
             let which := iy * numX + ix in
             let '(c, a) := s in
             let xi := idx (2 * which) in
             let yi := idx (2 * which + 1) in
             let rx := rf g c in
             let ry := rf g (c + 1) in
             match store len a (offset + which)
                     ((q xi + rx) * (1 / q n) + q ix * (1 / q numX), (q yi + ry) * (1 / q n) + q iy * (1 / q numY))%Q with
             | Some a' => Some (c + 2, a')
             | None => None end) s) (c1, t2d t)
      end in
  match two_d with
  | None => None
  | Some (c2, a2) =>
      (* multijitter.cpp:174-190 *)
      let random1d := ((1 / q n) * rf g c2)%Q in
      match for_ n 0 (fun i s => let '(sample1d, a) := s in
                match store len a (offset + i) (sample1d + random1d)%Q with
                | Some a' => Some ((sample1d + 1 / q n)%Q, a')
                | None => None end) (0%Q, t1d t) with
      | None => None
      | Some (_, a1) =>
          (* multijitter.cpp:193-201 *)
          match for_ n 0 (fun i a => store len a (offset + i) i) (tidx t) with
          | None => None
          | Some ai =>
              match shuffle g len (fun j => offset + j) n (c2 + 1) ai with
              | None => None
              | Some (c3, ai') => Some (c3, mkt a2 a1 ai')
              end
          end
      end
  end.

(** multijitter.h:90-102: the constructor fills [cache] (250 in the code) patterns one after the other.
    [junk p] is the uninitialised index buffer met while building pattern [p]. *)
Definition make_sampler (g : rng) (numX numY cache c : nat) (junk : nat -> nat -> nat) (t : tables)
  : option (nat * tables) :=
  let n := numX * numY in
  for_ cache 0 (fun p s => setup_jitter_pattern g numX numY (p * n) (n * cache) (fst s) (junk p) (snd s)) (c, t).

(** multijitter.cpp:205-222: get2DSamples, get1DSamples and getShuffledIndices pick a random pattern; entry [k] of what
    they return is entry [which + k] of the table *)
Definition get_2d_samples (g : rng) (numX numY cache c : nat) (t : tables) (k : nat) : Q * Q :=
  t2d t (ri g c cache * (numX * numY) + k).
Definition get_1d_samples (g : rng) (numX numY cache c : nat) (t : tables) (k : nat) : Q :=
  t1d t (ri g c cache * (numX * numY) + k).
Definition get_shuffled_indices (g : rng) (numX numY cache c : nat) (t : tables) (k : nat) : nat :=
  tidx t (ri g c cache * (numX * numY) + k).

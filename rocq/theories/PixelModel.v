(** Model of the pixel pool and of the hit storage of one pixel.

    Modelled code: /repo/libs/core/imagepixel.h and imagepixel.cpp, together
    with the way bucketprocessor.cpp uses them (m_aieImage and the cache
    segments, 155, 1478-1570, 1645-1695).

    Simplifications:
    - A TqFloat is an uninterpreted integer code (its bits); FLT_MAX as an
      occluding depth is [None].
    - Sample positions, times and depth of field offsets are left out: every
      pixel that is about to be sampled gets fresh ones from setSamples()
      (bucketprocessor.cpp:180-181).  The CSG node of a hit is left out: it is
      written at every hit (bucketprocessor.cpp:1565).
    - Heap addresses are never reused by the allocator.  Use of a deleted
      pixel and of a null pointer is a failure ([None]), as is a failed
      assertion. *)

From Coq Require Import List Arith Bool ZArith.
Import ListNotations.

(** ** Lists as arrays *)

(** Assignment to an element of an array; no effect outside the array. *)
Fixpoint lset {A} (i : nat) (x : A) (l : list A) {struct l} : list A :=
  match l, i with
  | [], _ => []
  | _ :: t, 0 => x :: t
  | y :: t, S j => y :: lset j x t
  end.

(** Overwrite the entries named by the writes: [Some v] stores [v], [None]
    leaves the old value. *)
Fixpoint merge (w : list (option Z)) (old : list Z) : list Z :=
  match w, old with
  | Some v :: w', _ :: o' => v :: merge w' o'
  | None :: w', v :: o' => v :: merge w' o'
  | _, o => o
  end.

(** [p[0..n)] for a pointer [p] to element [i] of an array. *)
Definition block (i n : nat) (st : list Z) : list Z := firstn n (skipn i st).

(** Writes through a pointer to element [i]. *)
Definition write_block (i n : nat) (w : list (option Z)) (st : list Z) : list Z :=
  firstn i st ++ merge w (block i n st) ++ skipn (i + n) st.

(** std::vector<float>::resize: truncates, or appends zeros. *)
Definition resize (n : nat) (st : list Z) : list Z :=
  firstn n st ++ repeat 0%Z (n - length st).

(** ** One pixel *)

(** SqImageSample (imagepixel.h:76-118).  [None] is the index -1. *)
Record hit := mkHit { h_index : option nat; h_valid : bool }.

(** SqSampleData (imagepixel.h:124-157). *)
Record sdata := mkSD { d_hits : list hit; d_occl : hit; d_occlz : option Z }.

(** CqImagePixel (imagepixel.h:164-323), without the reference count. *)
Record pixel := mkPix { p_store : list Z; p_samples : list sdata; p_hasvalid : bool }.

Section Sizes.
  (** [N]: number of samples in a pixel (XSamples*YSamples); [W]:
      SqImageSample::sampleSize, which is set once before the first pixel is
      made (bucketprocessor.cpp:142). *)
  Variables N W : nat.

  (** CqImagePixel::CqImagePixel (imagepixel.cpp:47-65). *)
  Definition new_pixel : pixel :=
    mkPix (resize (N * W) [])
          (map (fun i => mkSD [] (mkHit (Some (i * W)) false) None) (seq 0 N))
          false.

  (** The body of the loop of CqImagePixel::clear (imagepixel.cpp:111-121). *)
  Definition clear_sample (i : nat) (s : sdata) : sdata :=
    mkSD [] (mkHit (Some (i * W)) false) None.

  Fixpoint mapi_from {A B} (f : nat -> A -> B) (i : nat) (l : list A) : list B :=
    match l with [] => [] | x :: t => f i x :: mapi_from f (i + 1) t end.

  (** CqImagePixel::clear (imagepixel.cpp:105-122). *)
  Definition clear (p : pixel) : pixel :=
    mkPix (resize (N * W) (p_store p)) (mapi_from clear_sample 0 (p_samples p)) false.

  (** CqImagePixel::sampleHitData (imagepixel.h:450-462): the position of the
      data of a hit; fails when an assertion does. *)
  Definition hit_data (p : pixel) (h : hit) : option nat :=
    match h_index h with
    | Some i => if i + W <=? length (p_store p) then Some i else None
    | None => None
    end.

  (** CqImagePixel::allocateHitData (imagepixel.h:464-474) on a new hit. *)
  Definition allocate_hit_data (p : pixel) (h : hit) : option (pixel * hit) :=
    match h_index h with
    | Some _ => None
    | None =>
        let n := length (p_store p) in
        Some (mkPix (resize (n + W) (p_store p)) (p_samples p) (p_hasvalid p),
              mkHit (Some n) (h_valid h))
    end.

  (** The storage part of CqBucketProcessor::StoreSample
      (bucketprocessor.cpp:1487-1569): a hit goes to the occluding storage or
      to a new entry of the sample's list.  [w] are the values written:
      StoreExtraData (1574-1640) skips the output variables that the surface
      does not have.  The choice of storage and depth is modelled in
      HitModel.v. *)
  Definition store (i : nat) (occluding : bool) (z : option Z) (w : list (option Z))
      (p : pixel) : option pixel :=
    match nth_error (p_samples p) i with
    | None => None
    | Some s =>
        if occluding then
          let h := mkHit (h_index (d_occl s)) true in
          match hit_data p h with
          | None => None
          | Some a =>
              Some (mkPix (write_block a W w (p_store p))
                          (lset i (mkSD (d_hits s) h z) (p_samples p)) true)
          end
        else
          match allocate_hit_data p (mkHit None false) with
          | None => None
          | Some (p', h) =>
              match hit_data p' h with
              | None => None
              | Some a =>
                  Some (mkPix (write_block a W w (p_store p'))
                              (lset i (mkSD (d_hits s ++ [h]) (d_occl s) (d_occlz s))
                                    (p_samples p')) true)
              end
          end
    end.

  Fixpoint pick {A} (l : list A) (order : list nat) : option (list A) :=
    match order with
    | [] => Some []
    | j :: r =>
        match nth_error l j, pick l r with
        | Some x, Some t => Some (x :: t)
        | _, _ => None
        end
    end.

  (** The storage part of CqImagePixel::Combine for one sample
      (imagepixel.cpp:150-330).  [order] is the arrangement of the hits after
      sorting and CSG processing, [w] the values written to the collapsed
      hit (colour, opacity, depth).  The values themselves are modelled in
      HitModel.v. *)
  Definition combine (i : nat) (order : list nat) (w : list (option Z)) (p : pixel)
      : option pixel :=
    match nth_error (p_samples p) i with
    | None => None
    | Some s =>
        match d_hits s with
        | _ :: _ =>
            let data := if h_valid (d_occl s) then d_hits s ++ [d_occl s] else d_hits s in
            match pick data order with
            | None => None
            | Some [] =>
                Some (mkPix (p_store p) (lset i (mkSD [] (d_occl s) (d_occlz s)) (p_samples p))
                            (p_hasvalid p))
            | Some (h :: t) =>
                match hit_data p h with
                | None => None
                | Some a =>
                    Some (mkPix (write_block a W w (p_store p))
                                (lset i (mkSD (h :: t) (mkHit (h_index h) true) (d_occlz s))
                                      (p_samples p))
                                (p_hasvalid p))
                end
            end
        | [] =>
            if h_valid (d_occl s) then
              match hit_data p (d_occl s) with
              | None => None
              | Some a => Some (mkPix (write_block a W w (p_store p)) (p_samples p) (p_hasvalid p))
              end
            else Some p
        end
    end.

  (** ** Pointers and the pool *)

  (** [m_heap]: a live pixel with its m_refCount, or [None] once deleted.
      [m_slots]: all pointers held outside the pool (the pixels of the bucket
      and those of the cache segments).  [m_pool]: CqPixelPool::m_pool, the
      last element of the vector first. *)
  Record mach := mkM {
    m_heap : list (option (nat * pixel));
    m_slots : list (option nat);
    m_pool : list nat }.

  Definition heap := list (option (nat * pixel)).

  Definition deref (h : heap) (a : nat) : option (nat * pixel) :=
    match nth_error h a with Some (Some c) => Some c | _ => None end.

  (** intrusive_ptr_add_ref (imagepixel.h:488-491). *)
  Definition add_ref (a : nat) (h : heap) : option heap :=
    match deref h a with
    | Some (rc, p) => Some (lset a (Some (rc + 1, p)) h)
    | None => None
    end.

  (** intrusive_ptr_release (imagepixel.h:493-497). *)
  Definition release (a : nat) (h : heap) : option heap :=
    match deref h a with
    | Some (rc, p) =>
        if (rc - 1 =? 0) then Some (lset a None h)
        else Some (lset a (Some (rc - 1, p)) h)
    | None => None
    end.

  Definition add_ref_opt (v : option nat) (h : heap) : option heap :=
    match v with Some a => add_ref a h | None => Some h end.
  Definition release_opt (v : option nat) (h : heap) : option heap :=
    match v with Some a => release a h | None => Some h end.

  Definition bind {A B} (x : option A) (f : A -> option B) : option B :=
    match x with Some a => f a | None => None end.

  (** Assignment to a boost::intrusive_ptr: the new pixel is referenced before
      the old one is released. *)
  Definition assign (k : nat) (v : option nat) (m : mach) : option mach :=
    match nth_error (m_slots m) k with
    | None => None
    | Some old =>
        bind (add_ref_opt v (m_heap m)) (fun h1 =>
        bind (release_opt old h1) (fun h2 =>
        Some (mkM h2 (lset k v (m_slots m)) (m_pool m))))
    end.

  Definition modify (a : nat) (f : pixel -> option pixel) (h : heap) : option heap :=
    match deref h a with
    | Some (rc, p) => match f p with Some p' => Some (lset a (Some (rc, p')) h) | None => None end
    | None => None
    end.

  (** CqPixelPool::allocate (imagepixel.h:517-529): the returned pointer is a
      temporary that holds one reference. *)
  Definition pool_allocate (m : mach) : option (mach * nat) :=
    match m_pool m with
    | a :: rest =>
        bind (add_ref a (m_heap m)) (fun h1 =>
        bind (release a h1) (fun h2 =>
        bind (modify a (fun p => Some (clear p)) h2) (fun h3 =>
        Some (mkM h3 (m_slots m) rest, a))))
    | [] =>
        let a := length (m_heap m) in
        bind (add_ref a (m_heap m ++ [Some (0, new_pixel)])) (fun h1 =>
        Some (mkM h1 (m_slots m) [], a))
    end.

  (** CqPixelPool::free (imagepixel.h:531-540) on the pointer in slot [k]. *)
  Definition pool_free (k : nat) (m : mach) : option mach :=
    match nth_error (m_slots m) k with
    | Some (Some a) =>
        match deref (m_heap m) a with
        | Some (rc, _) =>
            if rc =? 1 then
              bind (add_ref a (m_heap m)) (fun h1 =>
              assign k None (mkM h1 (m_slots m) (a :: m_pool m)))
            else Some m
        | None => None
        end
    | _ => None
    end.

  (** What the renderer does with pixel pointers. *)
  Inductive op :=
  | OAlloc (k : nat)            (* slot k = pool.allocate() *)
  | OFree (k : nat)             (* pool.free(slot k) *)
  | OCopy (k j : nat)           (* slot k = slot j *)
  | OReset (k : nat)            (* slot k = 0 *)
  | OClear (k : nat)            (* slot k -> clear() *)
  | OStore (k i : nat) (occluding : bool) (z : option Z) (w : list (option Z))
  | OCombine (k i : nat) (order : list nat) (w : list (option Z)).

  Definition through (k : nat) (f : pixel -> option pixel) (m : mach) : option mach :=
    match nth_error (m_slots m) k with
    | Some (Some a) =>
        bind (modify a f (m_heap m)) (fun h => Some (mkM h (m_slots m) (m_pool m)))
    | _ => None
    end.

  Definition step (o : op) (m : mach) : option mach :=
    match o with
    | OAlloc k =>
        bind (pool_allocate m) (fun r =>
          let (m1, a) := (r : mach * nat) in
          bind (assign k (Some a) m1) (fun m2 =>
          (* the temporary dies *)
          bind (release a (m_heap m2)) (fun h => Some (mkM h (m_slots m2) (m_pool m2)))))
    | OFree k => pool_free k m
    | OCopy k j =>
        match nth_error (m_slots m) j with
        | Some v => assign k v m
        | None => None
        end
    | OReset k => assign k None m
    | OClear k => through k (fun p => Some (clear p)) m
    | OStore k i occ z w => through k (store i occ z w) m
    | OCombine k i order w => through k (combine i order w) m
    end.

  Fixpoint run (ops : list op) (m : mach) : option mach :=
    match ops with
    | [] => Some m
    | o :: r => bind (step o m) (run r)
    end.

  (** Before the first bucket: [n] null pointers, an empty pool. *)
  Definition start (n : nat) : mach := mkM [] (repeat None n) [].

  (** ** What a client can read through a pointer *)

  (** The data of a hit, read through sampleHitData. *)
  Definition read_hit (p : pixel) (h : hit) : list Z :=
    match h_index h with Some i => block i W (p_store p) | None => [] end.

  (** A sample as a reader sees it: the listed hits, the occluding hit if
      its flag says it is valid, the occluding depth. *)
  Definition read_sample (p : pixel) (s : sdata) : list (list Z) * option (list Z) * option Z :=
    (map (read_hit p) (d_hits s),
     if h_valid (d_occl s) then Some (read_hit p (d_occl s)) else None,
     d_occlz s).

  Definition read_pixel (p : pixel) :=
    (map (read_sample p) (p_samples p), p_hasvalid p).

  (** What can be read through slot [k]. *)
  Definition read_slot (m : mach) (k : nat) :=
    match nth_error (m_slots m) k with
    | Some (Some a) =>
        match deref (m_heap m) a with Some (_, p) => Some (read_pixel p) | None => None end
    | _ => None
    end.
End Sizes.

(* Model of the rendering loop over buckets of the image buffer:
     libs/core/imagebuffer.cpp   SetImage 174-228, AddMPG 514-591, RenderImage 605-772,
                                 NextBucket 791-960
     libs/core/imagebuffer.h     Bucket 122-125, axialNeighbours 167-184
     libs/core/bucket.h          setCacheSegment, cacheSegments, clearCache
     libs/core/bucketprocessor.cpp  preProcess 95-206, process 208-239, postProcess 241-358,
                                 CombineElements 365-376, FilterBucket 381-744 (which elements of
                                 the image are read for a pixel), ImageElement 746-762,
                                 RenderMPG_Static 1097-1219 (which elements are visited),
                                 buildCacheSegment 1645-1662, applyCacheSegment 1664-1680,
                                 dropSegment 1682-1695
     include/aqsis/math/region.h CqRegion
   Simplifications:
     - an element of the image (CqImagePixel) is reduced to the position its samples were set
       to, the micropolygons which were sampled in it, how often its samples were combined and
       its flag m_hasValidSamples;
     - elements are shared by pointers, so they live in a heap; an element taken from the pool
       (CqPixelPool, imagepixel.h:339-362, 516-545) is as good as a new one, because free()
       only gives back elements nothing else points to and allocate() clears them;
     - a micropolygon hits every element its bound touches; occlusion, level of detail, motion
       and depth of field are left out here;
     - one bucket at a time (MULTIPROCESSING_NBUCKETS is 1), horizontal order (the only one);
     - the numbers are unbounded, the bounds of micropolygons and filter widths are rational. *)
From Coq Require Import ZArith QArith Qround List Bool.
Import ListNotations.
Local Open Scope Z_scope.

(* include/aqsis/math/region.h:39-62 CqRegion *)
Record region := Region { rx0 : Z; ry0 : Z; rx1 : Z; ry1 : Z }.
(* region.h:83-96 width(), height(), area() *)
Definition rwidth (r : region) : Z := rx1 r - rx0 r.
Definition rheight (r : region) : Z := ry1 r - ry0 r.
Definition rarea (r : region) : Z := rwidth r * rheight r.

(* The values of "for(i = a; i < b; ++i)". *)
Definition zrange (a b : Z) : list Z :=
  map (fun i => a + Z.of_nat i) (seq 0 (Z.to_nat (b - a))).
(* The pairs (x, y) of "for(y = yMin; y < yMax; ++y) for(x = xMin; x < xMax; ++x)". *)
Definition cells (r : region) : list (Z * Z) :=
  flat_map (fun y => map (fun x => (x, y)) (zrange (rx0 r) (rx1 r))) (zrange (ry0 r) (ry1 r)).

(* The options the image buffer reads (imagebuffer.cpp:178-194, optioncache.cpp:53-85):
   resolution, bucket size, filter width and the crop window (renderer.cpp:1619-1627). *)
Record options := Options {
  o_xres : Z; o_yres : Z; o_bx : Z; o_by : Z;
  o_fx : Q; o_fy : Q;
  o_cx0 : Z; o_cx1 : Z; o_cy0 : Z; o_cy1 : Z }.

(* libs/core/imagepixel.h:326 and the fields of CqImagePixel the loop depends on *)
Record mpoly := MP { m_id : nat; m_x0 : Q; m_y0 : Q; m_x1 : Q; m_y1 : Q }.
Record pixel := Pixel { p_pos : option (Z * Z); p_hits : list mpoly; p_comb : nat; p_valid : bool }.
Definition empty_pixel : pixel := Pixel None [] 0 false.

(* bucket.h:48-71 SqBucketCacheSegment *)
Inductive side := SLeft | SRight | STop | SBottom | STopLeft | SBottomLeft | STopRight | SBottomRight.
Definition side_eqb (a b : side) : bool :=
  match a, b with
  | SLeft, SLeft | SRight, SRight | STop, STop | SBottom, SBottom | STopLeft, STopLeft
  | SBottomLeft, SBottomLeft | STopRight, STopRight | SBottomRight, SBottomRight => true
  | _, _ => false
  end.
Record segment := Segment { g_size : Z; g_data : Z -> nat }.

Definition bpos := (Z * Z)%type.   (* column and row of a bucket *)
Definition bpos_eqb (a b : bpos) : bool := (fst a =? fst b) && (snd a =? snd b).

(* What FilterBucket makes of one pixel of the display region: nothing was hit in the bucket
   (bucketprocessor.cpp:669-686), or the elements that were filtered. *)
Inductive shown := Blank | Shown (es : list pixel).

Record state := State {
  s_heap : nat -> pixel;                       (* the elements *)
  s_next : nat;                                (* the next new element *)
  s_slots : Z -> nat;                          (* CqBucketProcessor::m_aieImage *)
  s_segs : bpos -> side -> option segment;     (* CqBucket::m_cacheSegments *)
  s_done : bpos -> bool;                       (* CqBucket::m_bProcessed *)
  s_valid : bool;                              (* CqBucketProcessor::m_hasValidSamples *)
  s_out : list ((Z * Z) * shown)               (* what was given to DisplayBucket, in order *)
}.

Definition set_heap h s := State h (s_next s) (s_slots s) (s_segs s) (s_done s) (s_valid s) (s_out s).
Definition set_slots a s := State (s_heap s) (s_next s) a (s_segs s) (s_done s) (s_valid s) (s_out s).
Definition set_segs g s := State (s_heap s) (s_next s) (s_slots s) g (s_done s) (s_valid s) (s_out s).
Definition set_done d s := State (s_heap s) (s_next s) (s_slots s) (s_segs s) d (s_valid s) (s_out s).
Definition set_valid v s := State (s_heap s) (s_next s) (s_slots s) (s_segs s) (s_done s) v (s_out s).
Definition set_out o s := State (s_heap s) (s_next s) (s_slots s) (s_segs s) (s_done s) (s_valid s) o.

Definition bind {A B} (a : option A) (f : A -> option B) : option B :=
  match a with Some x => f x | None => None end.
Notation "'do' x <- a ; b" := (bind a (fun x => b)) (at level 200, x pattern, b at level 200).
Fixpoint foldM {A B} (f : A -> B -> option A) (l : list B) (a : A) : option A :=
  match l with
  | [] => Some a
  | b :: l => do a' <- f a b; foldM f l a'
  end.

(* imagepixel.h:522-534 CqPixelPool::allocate: a new or cleared element *)
Definition alloc (s : state) : nat * state :=
  (s_next s,
   State (fun i => if Nat.eqb i (s_next s) then empty_pixel else s_heap s i) (S (s_next s))
         (s_slots s) (s_segs s) (s_done s) (s_valid s) (s_out s)).

Section Image.
Variable o : options.

(* bucketprocessor.cpp:36-37 m_DiscreteShiftX, m_DiscreteShiftY: lfloor(filter size / 2) *)
Definition shiftx : Z := Qfloor (o_fx o / 2).
Definition shifty : Z := Qfloor (o_fy o / 2).

(* imagebuffer.cpp:184-185 m_cXBuckets, m_cYBuckets; "/" of integers truncates *)
Definition cxb : Z := Z.quot (o_xres o - 1) (o_bx o) + 1.
Definition cyb : Z := Z.quot (o_yres o - 1) (o_by o) + 1.
(* imagebuffer.cpp:190-194 m_bucketRegion *)
Definition bregion : region :=
  Region (Z.quot (o_cx0 o) (o_bx o)) (Z.quot (o_cy0 o) (o_by o))
         (Z.quot (o_cx1 o - 1) (o_bx o) + 1) (Z.quot (o_cy1 o - 1) (o_by o) + 1).
(* imagebuffer.cpp:196-224 position and size of a bucket *)
Definition bucket_x (b : bpos) : Z := fst b * o_bx o.
Definition bucket_y (b : bpos) : Z := snd b * o_by o.
Definition bucket_w (b : bpos) : Z := Z.min (o_xres o - bucket_x b) (o_bx o).
Definition bucket_h (b : bpos) : Z := Z.min (o_yres o - bucket_y b) (o_by o).
(* m_Buckets[row][col] exists *)
Definition on_grid (b : bpos) : bool :=
  (0 <=? fst b) && (fst b <? cxb) && (0 <=? snd b) && (snd b <? cyb).

(* Width and height of m_DataRegion (bucketprocessor.cpp:106-109), the same for all buckets *)
Definition data_w : Z := o_bx o + 2 * shiftx.
Definition data_h : Z := o_by o + 2 * shifty.

(* bucketprocessor.cpp:54-69 setupCacheInformation *)
Definition cache_region (sd : side) : region :=
  let overlapx := shiftx * 2 in
  let overlapy := shifty * 2 in
  let width := o_bx o + overlapx in
  let height := o_by o + overlapy in
  match sd with
  | STopLeft => Region 0 0 overlapx overlapy
  | STop => Region overlapx 0 (width - overlapx) overlapy
  | STopRight => Region (width - overlapx) 0 width overlapy
  | SLeft => Region 0 overlapy overlapx (height - overlapy)
  | SRight => Region (width - overlapx) overlapy width (height - overlapy)
  | SBottomLeft => Region 0 (height - overlapy) overlapx height
  | SBottom => Region overlapx (height - overlapy) (width - overlapx) height
  | SBottomRight => Region (width - overlapx) (height - overlapy) width height
  end.

(* Access to m_aieImage: outside of the array is undefined. *)
Definition slot (i : Z) (s : state) : option nat :=
  if (0 <=? i) && (i <? data_w * data_h) then Some (s_slots s i) else None.
Definition put_slot (i : Z) (id : nat) (s : state) : option state :=
  if (0 <=? i) && (i <? data_w * data_h)
  then Some (set_slots (fun j => if j =? i then id else s_slots s j) s) else None.
(* Change the element m_aieImage[i] points to. *)
Definition modify (i : Z) (f : pixel -> pixel) (s : state) : option state :=
  do id <- slot i s;
  Some (set_heap (fun j => if Nat.eqb j id then f (s_heap s id) else s_heap s j) s).

(* bucketprocessor.cpp:1645-1662 buildCacheSegment; a negative number of elements makes
   std::vector::resize throw *)
Definition build_segment (sd : side) (s : state) : option (segment * state) :=
  let r := cache_region sd in
  if rarea r <? 0 then None else
  foldM (fun (a : segment * state) (c : Z * Z) =>
           let '(g, s) := a in
           let '(x, y) := c in
           let which := y * data_w + x in
           let k := (y - ry0 r) * rwidth r + (x - rx0 r) in
           do id <- slot which s;
           if (0 <=? k) && (k <? g_size g) then
             let g := Segment (g_size g) (fun j => if j =? k then id else g_data g j) in
             let '(n, s) := alloc s in
             do s <- put_slot which n s;
             Some (g, s)
           else None)
        (cells r) (Segment (rarea r) (fun _ => O), s).

(* bucketprocessor.cpp:1664-1680 applyCacheSegment *)
Definition apply_segment (sd : side) (g : segment) (s : state) : option state :=
  let r := cache_region sd in
  foldM (fun (s : state) (c : Z * Z) =>
           let '(x, y) := c in
           let which := y * data_w + x in
           let k := (y - ry0 r) * rwidth r + (x - rx0 r) in
           if (0 <=? k) && (k <? g_size g) then
             do s <- put_slot which (g_data g k) s;
             Some (set_valid (s_valid s || p_valid (s_heap s (g_data g k))) s)
           else None)
        (cells r) s.

(* bucketprocessor.cpp:1682-1695 dropSegment *)
Definition drop_segment (sd : side) (s : state) : option state :=
  foldM (fun (s : state) (c : Z * Z) =>
           let '(x, y) := c in
           let '(n, s) := alloc s in
           put_slot (y * data_w + x) n s)
        (cells (cache_region sd)) s.

(* bucket.h setCacheSegment: asserts that there is no segment on that side yet *)
Definition set_segment (b : bpos) (sd : side) (g : segment) (s : state) : option state :=
  match s_segs s b sd with
  | Some _ => None
  | None => Some (set_segs (fun b' sd' => if bpos_eqb b' b && side_eqb sd' sd then Some g
                                          else s_segs s b' sd') s)
  end.
Definition has_segment (b : bpos) (sd : side) (s : state) : bool :=
  match s_segs s b sd with Some _ => true | None => false end.

(* bucketprocessor.cpp:101-140 m_DisplayRegion and m_SampleRegion *)
Definition display_region (b : bpos) : region :=
  Region (bucket_x b) (bucket_y b) (bucket_x b + bucket_w b) (bucket_y b + bucket_h b).
Definition sample_region (b : bpos) (s : state) : region :=
  let sminx := Z.max (bucket_x b - shiftx) (o_cx0 o - shiftx) in
  let sminy := Z.max (bucket_y b - shifty) (o_cy0 o - shifty) in
  let smaxx := Z.min (bucket_x b + bucket_w b + shiftx) (o_cx1 o + shiftx) in
  let smaxy := Z.min (bucket_y b + bucket_h b + shifty) (o_cy1 o + shifty) in
  Region (if has_segment b SLeft s then sminx + shiftx * 2 else sminx)
         (if has_segment b STop s then sminy + shifty * 2 else sminy)
         (if has_segment b SRight s then smaxx - shiftx * 2 else smaxx)
         (if has_segment b SBottom s then smaxy - shifty * 2 else smaxy).

(* The index used for the element at (x, y) of the image: bucketprocessor.cpp:175 (preProcess),
   748-757 (ImageElement) and 367-371 (CombineElements) *)
Definition element (b : bpos) (x y : Z) : Z :=
  (y - bucket_y b + shifty) * data_w + (x - bucket_x b + shiftx).

(* bucketprocessor.cpp:163-181: clear the elements and set the positions of their samples *)
Definition set_samples (b : bpos) (r : region) (s : state) : option state :=
  foldM (fun (s : state) (c : Z * Z) =>
           modify (element b (fst c) (snd c)) (fun _ => Pixel (Some c) [] 0 false) s)
        (cells r) s.

(* bucketprocessor.cpp:185-201: the segments are put in place, in this order *)
Definition apply_sides : list side :=
  [SLeft; SRight; STop; SBottom; STopLeft; STopRight; SBottomLeft; SBottomRight].
Definition apply_cache (b : bpos) (s : state) : option state :=
  foldM (fun (s : state) (sd : side) =>
           match s_segs s b sd with
           | Some g => apply_segment sd g s
           | None => Some s
           end) apply_sides s.

(* bucketprocessor.cpp:1097-1219 RenderMPG_Static: the elements which are visited *)
Definition render_mp (b : bpos) (r : region) (s : state) (m : mpoly) : option state :=
  let ex := Z.min (Qceiling (m_x1 m)) (rx1 r) in
  let ey := Z.min (Qceiling (m_y1 m)) (ry1 r) in
  let sx := Z.max (Qfloor (m_x0 m)) (rx0 r) in
  let sy := Z.max (Qfloor (m_y0 m)) (ry0 r) in
  foldM (fun (s : state) (c : Z * Z) =>
           do s <- modify (element b (fst c) (snd c))
                     (fun p => Pixel (p_pos p) (p_hits p ++ [m]) (p_comb p) true) s;
           Some (set_valid true s))
        (cells (Region sx sy ex ey)) s.

(* bucketprocessor.cpp:365-376 CombineElements *)
Definition combine_elements (b : bpos) (r : region) (s : state) : option state :=
  foldM (fun (s : state) (c : Z * Z) =>
           modify (element b (fst c) (snd c))
                  (fun p => Pixel (p_pos p) (p_hits p) (S (p_comb p)) (p_valid p)) s)
        (cells r) s.

(* bucketprocessor.cpp:585-668 the elements filtered for the pixel (x, y): from the element at
   (x - xmax, y - ymax) on, 2*ymax+1 rows of 2*xmax+1 elements, a row being one row of the data
   region after the other *)
Definition filter_pixel (b : bpos) (s : state) (x y : Z) : option (list pixel) :=
  let start := element b (x - shiftx) (y - shifty) in
  foldM (fun (es : list pixel) (c : Z * Z) =>
           do id <- slot (start + snd c * data_w + fst c) s;
           Some (es ++ [s_heap s id]))
        (cells (Region 0 0 (2 * shiftx + 1) (2 * shifty + 1))) [].
(* bucketprocessor.cpp:381-686: the pixels of the display region in order *)
Definition filter_bucket (b : bpos) (s : state) : option state :=
  foldM (fun (s : state) (c : Z * Z) =>
           if s_valid s then
             do es <- filter_pixel b s (fst c) (snd c);
             Some (set_out (s_out s ++ [(c, Shown es)]) s)
           else Some (set_out (s_out s ++ [(c, Blank)]) s))
        (cells (display_region b)) s.

(* A corner segment is given to a neighbour that has none there, made at most once
   (bucketprocessor.cpp:266-353: the variables top_left, top_right, bottom_left, bottom_right). *)
Definition give_corner (mine : side) (nb : bpos) (theirs : side) (made : option segment) (s : state)
  : option (option segment * state) :=
  if has_segment nb theirs s then Some (made, s) else
  do gs <- match made with
           | Some g => Some (g, s)
           | None => build_segment mine s
           end;
  let '(g, s) := gs in
  do s <- set_segment nb theirs g s;
  Some (Some g, s).
(* One of the four blocks of bucketprocessor.cpp:263-353: the side [mine] goes to the neighbour
   as its side [theirs], then the two corners.  axialNeighbours (imagebuffer.h:167-184) only
   gives neighbours which exist. *)
Definition give_side (nb : bpos) (mine theirs : side) (c1 t1 : side) (c2 t2 : side)
    (m1 m2 : option segment) (s : state) : option (option segment * option segment * state) :=
  if on_grid nb && negb (s_done s nb) then
    do gs <- build_segment mine s;
    let '(g, s) := gs in
    do s <- set_segment nb theirs g s;
    do r1 <- give_corner c1 nb t1 m1 s;
    let '(m1, s) := r1 in
    do r2 <- give_corner c2 nb t2 m2 s;
    let '(m2, s) := r2 in
    Some (m1, m2, s)
  else Some (m1, m2, s).
Definition give_cache (b : bpos) (s : state) : option state :=
  let '(c, r) := b in
  do a1 <- give_side (c - 1, r) SLeft SRight STopLeft STopRight SBottomLeft SBottomRight None None s;
  let '(tl, bl, s) := a1 in
  do a2 <- give_side (c + 1, r) SRight SLeft STopRight STopLeft SBottomRight SBottomLeft None None s;
  let '(tr, br, s) := a2 in
  do a3 <- give_side (c, r - 1) STop SBottom STopLeft SBottomLeft STopRight SBottomRight tl tr s;
  let '(_, _, s) := a3 in
  do a4 <- give_side (c, r + 1) SBottom STop SBottomLeft STopLeft SBottomRight STopRight bl br s;
  let '(_, _, s) := a4 in
  Some s.

(* bucketprocessor.cpp:347-353: dropSegment for every segment of the bucket, then clearCache *)
Definition all_sides : list side :=
  [SLeft; SRight; STop; SBottom; STopLeft; SBottomLeft; STopRight; SBottomRight].
Definition drop_cache (b : bpos) (s : state) : option state :=
  do s <- foldM (fun (s : state) (sd : side) =>
                   if has_segment b sd s then drop_segment sd s else Some s) all_sides s;
  Some (set_segs (fun b' sd => if bpos_eqb b' b then None else s_segs s b' sd) s).

(* imagebuffer.cpp:715-757 for one bucket: setBucket, preProcess, process, postProcess,
   DisplayBucket, reset.  [mps] are the micropolygons which are rendered in the bucket. *)
Definition bucket_step (mps : list mpoly) (b : bpos) (s : state) : option state :=
  if negb (on_grid b) then None else
  let s := set_valid false s in
  let r := sample_region b s in
  do s <- set_samples b r s;
  do s <- apply_cache b s;
  do s <- foldM (render_mp b r) mps s;
  do s <- combine_elements b r s;
  do s <- filter_bucket b s;
  do s <- give_cache b s;
  do s <- drop_cache b s;
  Some (set_done (fun b' => if bpos_eqb b' b then true else s_done s b') s).

(* imagebuffer.cpp:791-803 NextBucket *)
Definition next_bucket (b : bpos) : option bpos :=
  let c := fst b + 1 in
  if c <? rx1 bregion then Some (c, snd b)
  else let r := snd b + 1 in
       if r <? ry1 bregion then Some (rx0 bregion, r) else None.

(* imagebuffer.cpp:706-765 the loop over the buckets, at most n of them *)
Fixpoint render_loop (n : nat) (mps : bpos -> list mpoly) (b : bpos) (s : state) : option state :=
  match n with
  | O => None
  | S n =>
    do s <- bucket_step (mps b) b s;
    match next_bucket b with
    | Some b' => render_loop n mps b' s
    | None => Some s
    end
  end.

(* bucketprocessor.cpp:142-160: when the first bucket is prepared, every element is allocated *)
Definition start_state : state :=
  State (fun _ => empty_pixel) (Z.to_nat (data_w * data_h)) Z.to_nat
        (fun _ _ => None) (fun _ => false) false [].

(* imagebuffer.cpp:226-227 (the first bucket) and RenderImage *)
Definition render_image (n : nat) (mps : bpos -> list mpoly) : option (list ((Z * Z) * shown)) :=
  do s <- render_loop n mps (rx0 bregion, ry0 bregion) start_state;
  Some (s_out s).

(* static_cast<TqInt> of a float truncates *)
Definition qtrunc (q : Q) : Z := if Qle_bool 0 q then Qfloor q else Qceiling q.

(* imagebuffer.cpp:514-591 AddMPG: the buckets a micropolygon is put into, if none of them is
   processed yet *)
Definition mp_buckets (m : mpoly) : list bpos :=
  let ltb a b := negb (Qle_bool b a) in
  if ltb (m_x1 m) (inject_Z (o_cx0 o) - o_fx o / 2)%Q
     || ltb (m_y1 m) (inject_Z (o_cy0 o) - o_fy o / 2)%Q
     || ltb (inject_Z (o_cx1 o) + o_fx o / 2)%Q (m_x0 m)
     || ltb (inject_Z (o_cy1 o) + o_fy o / 2)%Q (m_y0 m)
  then [] else
  let xa := qtrunc ((m_x0 m - inject_Z shiftx) / inject_Z (o_bx o))%Q in
  let ya := qtrunc ((m_y0 m - inject_Z shifty) / inject_Z (o_by o))%Q in
  let xb := qtrunc ((m_x1 m + inject_Z shiftx) / inject_Z (o_bx o))%Q in
  let yb := qtrunc ((m_y1 m + inject_Z shifty) / inject_Z (o_by o))%Q in
  if (xb <? rx0 bregion) || (yb <? ry0 bregion) || (rx1 bregion <=? xa) || (ry1 bregion <=? ya)
  then [] else
  let xa := Z.max xa (rx0 bregion) in
  let ya := Z.max ya (ry0 bregion) in
  let xb := Z.min xb (rx1 bregion - 1) in
  let yb := Z.min yb (ry1 bregion - 1) in
  flat_map (fun i => map (fun j => (i, j)) (zrange ya (yb + 1))) (zrange xa (xb + 1)).

(* The micropolygons waiting in a bucket when all of them were added before it is processed *)
Definition waiting (ms : list mpoly) (b : bpos) : list mpoly :=
  flat_map (fun m => map (fun _ => m) (filter (bpos_eqb b) (mp_buckets m))) ms.

End Image.

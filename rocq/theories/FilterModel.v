(* Model of the pixel filter:
     libs/core/bucketprocessor.cpp  FilterBucket 381-744 (without the imager),
                                    InitialiseFilterValues 811-856
     libs/core/channelbuffer.h      addChannel, allocate, operator(), indexOffset
   Simplifications:
     - rational numbers instead of floats, the filter is any function, FLT_MAX is a parameter;
     - only the branch that is used: the separable filter is switched off (436-440);
     - the samples of a pixel are given as a list; what is behind the access to the samples is
       BucketModel.v, how a sample gets its data PixelModel.v;
     - a division by a total weight of zero is an outcome of its own (None), as is an access
       outside of an array;
     - channels have at least one value, so that their places in the buffer differ. *)
From Coq Require Import ZArith QArith Qround List Bool.
From Verif Require Import BucketModel.
Import ListNotations.
Local Open Scope Z_scope.

(* SqSampleData::position and the occluding hit, if it is valid: its data *)
Record sample := Sample { sm_x : Q; sm_y : Q; sm_hit : option (list Q) }.

(* The options: samples per pixel, filter width and function *)
Record fopts := FOpts {
  f_xs : Z; f_ys : Z; f_w : Q; f_h : Q;
  f_fun : Q -> Q -> Q -> Q -> Q; f_max : Q }.

Section Filter.
Variable o : fopts.

(* m_DiscreteShiftX, m_DiscreteShiftY (36-37) *)
Definition fxmax : Z := Qfloor (f_w o / 2).
Definition fymax : Z := Qfloor (f_h o / 2).
(* xfwo2, yfwo2 (413-414, 826-827) *)
Definition fwo2x : Q := (inject_Z (Qceiling (f_w o)) * (1 # 2))%Q.
Definition fwo2y : Q := (inject_Z (Qceiling (f_h o)) * (1 # 2))%Q.
Definition subpixels : Z := f_xs o * f_ys o.
(* "v.x >= -xfwo2 && v.y >= -yfwo2 && v.x <= xfwo2 && v.y <= yfwo2" *)
Definition in_reach (x y : Q) : bool :=
  Qle_bool (- fwo2x) x && Qle_bool (- fwo2y) y && Qle_bool x fwo2x && Qle_bool y fwo2y.

(* An array of numbers: its size and contents *)
Record arr := Arr { a_size : Z; a_get : Z -> Q }.
Definition put (a : arr) (w : Z * Q) : option arr :=
  if (0 <=? fst w) && (fst w <? a_size a)
  then Some (Arr (a_size a) (fun j => if j =? fst w then snd w else a_get a j)) else None.
Definition get (a : arr) (i : Z) : option Q :=
  if (0 <=? i) && (i <? a_size a) then Some (a_get a i) else None.

(* bucketprocessor.cpp:811-856 InitialiseFilterValues *)
Definition table : option arr :=
  let pixels := (Qceiling (f_w o) + 1) * (Qceiling (f_h o) + 1) in
  foldM (fun a (p : Z * Z) =>
    let '(px, py) := p in
    let start := ((py + fymax) * (2 * fxmax + 1) + px + fxmax) * subpixels in
    foldM (fun a (s : Z * Z) =>
      let '(sx, sy) := s in
      let x := ((inject_Z sx + (1 # 2)) / inject_Z (f_xs o) + inject_Z px - (1 # 2))%Q in
      let y := ((inject_Z sy + (1 # 2)) / inject_Z (f_ys o) + inject_Z py - (1 # 2))%Q in
      let w := if in_reach x y
               then f_fun o x y (inject_Z (Qceiling (f_w o))) (inject_Z (Qceiling (f_h o)))
               else 0%Q in
      put a (start + (sy * f_xs o + sx), w))
      (cells (Region 0 0 (f_xs o) (f_ys o))) a)
    (cells (Region (- fxmax) (- fymax) (fxmax + 1) (fymax + 1)))
    (Arr (pixels * subpixels) (fun _ => 0%Q)).

(* gTot, SampleCount, samples *)
Record acc := Acc { c_tot : Q; c_count : Z; c_sum : list Q }.
(* "samples[k] += data[k] * g" for all k < datasize *)
Fixpoint add_data (sum data : list Q) (g : Q) : option (list Q) :=
  match sum, data with
  | [], _ => Some []
  | s :: sum, d :: data => do r <- add_data sum data g; Some ((s + d * g)%Q :: r)
  | _ :: _, [] => None
  end.

(* bucketprocessor.cpp:585-631 the samples around the pixel (x, y) *)
Definition gather (t : arr) (img : Z * Z -> list sample) (datasize : nat) (x y : Z) : option acc :=
  foldM (fun c (f : Z * Z) =>
    let '(fx, fy) := f in
    let index := ((fy + fymax) * (2 * fxmax + 1) + fx + fxmax) * subpixels in
    foldM (fun c (s : Z * Z) =>
      let '(sx, sy) := s in
      let k := sy * f_xs o + sx in
      do sm <- nth_error (img (x + fx, y + fy)) (Z.to_nat k);
      if in_reach (sm_x sm - (inject_Z x + (1 # 2))) (sm_y sm - (inject_Z y + (1 # 2))) then
        do g <- get t (index + k);
        let tot := (c_tot c + g)%Q in
        match sm_hit sm with
        | Some data => do sum <- add_data (c_sum c) data g; Some (Acc tot (c_count c + 1) sum)
        | None => Some (Acc tot (c_count c) (c_sum c))
        end
      else Some c)
      (cells (Region 0 0 (f_xs o) (f_ys o))) c)
    (cells (Region (- fxmax) (- fymax) (fxmax + 1) (fymax + 1)))
    (Acc 0 0 (repeat 0%Q datasize)).

(* channelbuffer.h addChannel: where the values of the channels are, each with its place in the
   data of a sample; channels are (offset, number of values) *)
Fixpoint slots (index : Z) (chans : list (Z * Z)) : list (Z * Z) :=
  match chans with
  | [] => []
  | (off, num) :: r => map (fun i => (index + i, off + i)) (zrange 0 num) ++ slots (index + num) r
  end.
Definition element_size (chans : list (Z * Z)) : Z := fold_right (fun c n => snd c + n) 0 chans.
(* bucketprocessor.cpp:389-399: Ci, Oi, a, z, coverage and those of the shaders *)
Definition all_channels (aovs : list (Z * Z)) : list (Z * Z) :=
  [(0, 3); (3, 3); (8, 1); (6, 1); (7, 1)] ++ aovs.
(* channelbuffer.h indexOffset *)
Definition offset (r : region) (chans : list (Z * Z)) (x y index : Z) : Z :=
  (y * rwidth r + x) * element_size chans + index.

(* bucketprocessor.cpp:634-662: the values of one pixel go into the buffer; the coverage *)
Definition store (r : region) (chans : list (Z * Z)) (b : arr) (c : acc) (x y : Z) : option (arr * Q) :=
  let at_ i := offset r chans (x - rx0 r) (y - ry0 r) i in
  if c_count c =? 0 then
    do b <- foldM (fun b (s : Z * Z) => put b (at_ (fst s), 0%Q)) (slots 0 chans) b;
    do b <- put b (at_ 7, f_max o);
    Some (b, 0%Q)
  else if Qeq_bool (c_tot c) 0 then None
  else
    do b <- foldM (fun b (s : Z * Z) =>
              do v <- nth_error (c_sum c) (Z.to_nat (snd s));
              put b (at_ (fst s), (v * (1 / c_tot c))%Q)) (slots 0 chans) b;
    Some (b, if subpixels <=? c_count c then 1%Q else (inject_Z (c_count c) / inject_Z subpixels)%Q).

(* bucketprocessor.cpp:585-668, and 696-712 for alpha and coverage. If m_hasValidSamples
   (valid) is not set, the loop 669-686 treats all pixels like one without samples. *)
Definition filter_bucket (valid : bool) (img : Z * Z -> list sample) (datasize : nat)
    (aovs : list (Z * Z)) (r : region) : option arr :=
  let chans := all_channels aovs in
  do t <- table;
  do bc <- foldM (fun (bc : arr * list Q) (p : Z * Z) =>
             let '(b, cs) := bc in
             let '(x, y) := p in
             do c <- (if valid then gather t img datasize x y else Some (Acc 0 0 []));
             do bv <- store r chans b c x y;
             Some (fst bv, cs ++ [snd bv]))
           (cells r) (Arr (rwidth r * rheight r * element_size chans) (fun _ => 0%Q), []);
  do bi <- foldM (fun (bi : arr * nat) (p : Z * Z) =>
             let '(b, i) := bi in
             let '(x, y) := p in
             do cov <- nth_error (snd bc) i;
             do o0 <- get b (offset r chans x y 3);
             do o1 <- get b (offset r chans x y (3 + 1));
             do o2 <- get b (offset r chans x y (3 + 2));
             do b <- put b (offset r chans x y 6, ((o0 + o1 + o2) / 3 * cov)%Q);
             do b <- put b (offset r chans x y 8, cov);
             Some (b, S i))
           (cells (Region 0 0 (rwidth r) (rheight r))) (fst bc, O);
  Some (fst bi).

(* The values of a channel at a pixel of the buffer: operator() const *)
Definition channel (b : arr) (r : region) (aovs : list (Z * Z)) (x y index num : Z) : list (option Q) :=
  map (fun i => get b (offset r (all_channels aovs) (x - rx0 r) (y - ry0 r) index + i)) (zrange 0 num).

End Filter.

(** Texture arrays: how the texels of a region are visited, in a flat buffer and in one
    held as tiles that are read from a file when they are needed, and how a region that
    leaves the texture is wrapped.

    Numbers are unbounded integers; a texel is one value of an arbitrary type [V] (the
    channels of a pixel are kept together in the code too), so that sizes are counted in
    pixels instead of bytes.  Memory is a function from places to values; [None] stands
    for an assertion that fails or a place outside an array. *)

From Coq Require Import List Bool ZArith.
Import ListNotations.
Open Scope Z_scope.

(** SqFilterSupport (filtersupport.h:88-112): from the first number to before the second. *)
Record support := mkSupport { sx0 : Z; sx1 : Z; sy0 : Z; sy1 : Z }.
(** SqFilterSupport1D::isEmpty (filtersupport.h:141-144). *)
Definition empty1 (start stop : Z) : bool := stop <=? start.
(** intersect (filtersupport.h:158-161, 201-204). *)
Definition intersect (s t : support) : support :=
  mkSupport (Z.max (sx0 s) (sx0 t)) (Z.min (sx1 s) (sx1 t)) (Z.max (sy0 s) (sy0 t)) (Z.min (sy1 s) (sy1 t)).
(** SqFilterSupport::isEmpty (filtersupport.h:184-187). *)
Definition is_empty (s : support) : bool := empty1 (sx0 s) (sx1 s) || empty1 (sy0 s) (sy1 s).
(** SqFilterSupport::inRange (filtersupport.h:152-155, 189-193). *)
Definition in_range (s : support) (x0 x1 y0 y1 : Z) : bool :=
  (x0 <=? sx0 s) && (sx1 s <=? x1) && (y0 <=? sy0 s) && (sy1 s <=? y1).

Section Arrays.
Variable V : Type.

(* ---------- Flat buffers ---------- *)

(** CqTextureBuffer (texturebuffer.h:63-246). *)
Record buffer := mkBuffer { b_width : Z; b_height : Z; b_data : Z -> V }.
(** value (texturebuffer.h:436-444), with its assertions. *)
Definition value (b : buffer) (x y : Z) : option V :=
  if (0 <=? x) && (x <? b_width b) && (0 <=? y) && (y <? b_height b)
  then Some (b_data b (y * b_width b + x)) else None.

(** CqTextureBuffer::CqIterator (texturebuffer.h:254-297, 527-575). *)
Record biter := mkBIter { bi_support : support; bi_x : Z; bi_y : Z }.
Definition buffer_begin (b : buffer) (s : support) : biter :=
  let t := intersect (mkSupport 0 (b_width b) 0 (b_height b)) s in
  mkBIter t (sx0 t) (if empty1 (sx0 t) (sx1 t) then sy1 t else sy0 t).
Definition buffer_next (i : biter) : biter :=
  let x := bi_x i + 1 in
  if sx1 (bi_support i) <=? x then mkBIter (bi_support i) (sx0 (bi_support i)) (bi_y i + 1)
  else mkBIter (bi_support i) x (bi_y i).
Definition buffer_inside (i : biter) : bool := bi_y i <? sy1 (bi_support i).

(** A loop over an iterator, as in filterTexture (filtertexture.h:233-234), at most [n]
    times round. *)
Fixpoint buffer_walk (b : buffer) (n : nat) (i : biter) : option (list (Z * Z * V)) :=
  if buffer_inside i then
    match n with
    | O => None
    | S m =>
        match value b (bi_x i) (bi_y i), buffer_walk b m (buffer_next i) with
        | Some v, Some r => Some ((bi_x i, bi_y i, v) :: r)
        | _, _ => None
        end
    end
  else Some [].
Definition buffer_visit (b : buffer) (s : support) : option (list (Z * Z * V) * buffer) :=
  match buffer_walk b (Z.to_nat (b_width b * b_height b)) (buffer_begin b s) with
  | Some l => Some (l, b)
  | None => None
  end.

(* ---------- Tiles ---------- *)

(** A tiled image file (itiledtexinputfile.h:70-192, tiledtiffinputfile.cpp:41-94): the size
    of the image, the size of its tiles, and what libtiff reads for the tile at column [x]
    and row [y] of tiles, always a whole tile. *)
Record file := mkFile { f_width : Z; f_height : Z; f_tile_width : Z; f_tile_height : Z;
                        f_stored : Z -> Z -> Z -> V }.

(** stridedCopy (tiffdirhandle.cpp:808-817): the memory afterwards, from element [i]. *)
Fixpoint strided_copy (n : nat) (i : Z) (dest : Z -> V) (dest_stride : Z) (src : Z -> V) (src_stride size : Z) : Z -> V :=
  match n with
  | O => dest
  | S m =>
      strided_copy m (i + 1)
        (fun k => if (i * dest_stride <=? k) && (k <? i * dest_stride + size)
                  then src (i * src_stride + (k - i * dest_stride)) else dest k)
        dest_stride src src_stride size
  end.

(** readTileImpl (tiledtiffinputfile.cpp:144-171); [fresh] is what the memory holds before. *)
Definition read_tile_impl (f : file) (fresh : Z -> V) (x y width height : Z) : Z -> V :=
  if (f_width f <? (x + 1) * f_tile_width f) || (f_height f <? (y + 1) * f_tile_height f)
  then strided_copy (Z.to_nat height) 0 fresh width (f_stored f x y) (f_tile_width f) width
  else f_stored f x y.
(** readTile (itiledtexinputfile.h:193-214). *)
Definition read_tile (f : file) (fresh : Z -> V) (x y : Z) : option buffer :=
  let w := if f_width f <? (x + 1) * f_tile_width f then f_width f - x * f_tile_width f else f_tile_width f in
  let h := if f_height f <? (y + 1) * f_tile_height f then f_height f - y * f_tile_height f else f_tile_height f in
  if (0 <? w) && (0 <? h) then Some (mkBuffer w h (read_tile_impl f fresh x y w h)) else None.

(** CqTextureTile (tilearray.h:326-393). *)
Record tile := mkTile { t_x0 : Z; t_y0 : Z; t_pixels : buffer }.

(** CqTileArray (tilearray.h:89-171, 477-491). *)
Record array := mkArray { a_file : file; a_tiles : list (option tile) }.
Definition width_in_tiles (f : file) : Z := Z.quot (f_width f - 1) (f_tile_width f) + 1.
Definition height_in_tiles (f : file) : Z := Z.quot (f_height f - 1) (f_tile_height f) + 1.
Definition new_array (f : file) : array :=
  mkArray f (repeat None (Z.to_nat (width_in_tiles f * height_in_tiles f))).

Fixpoint replace (n : nat) (t : tile) (l : list (option tile)) : list (option tile) :=
  match n, l with
  | O, _ :: r => Some t :: r
  | S m, x :: r => x :: replace m t r
  | _, [] => []
  end.
(** getTile (tilearray.h:534-548). *)
Definition get_tile (fresh : Z -> V) (a : array) (x y : Z) : option (tile * array) :=
  let f := a_file a in
  let k := y * width_in_tiles f + x in
  if (x <? width_in_tiles f) && (y <? height_in_tiles f) && (0 <=? k) then
    match nth_error (a_tiles a) (Z.to_nat k) with
    | None => None
    | Some (Some t) => Some (t, a)
    | Some None =>
        match read_tile f fresh x y with
        | None => None
        | Some b =>
            let t := mkTile (x * f_tile_width f) (y * f_tile_height f) b in
            Some (t, mkArray f (replace (Z.to_nat k) t (a_tiles a)))
        end
    end
  else None.

(** operator() (tilearray.h:511-516, 370-373). *)
Definition texel (fresh : Z -> V) (a : array) (x y : Z) : option (V * array) :=
  match get_tile fresh a (Z.quot x (f_tile_width (a_file a))) (Z.quot y (f_tile_height (a_file a))) with
  | None => None
  | Some (t, b) =>
      match value (t_pixels t) (x - t_x0 t) (y - t_y0 t) with
      | None => None
      | Some v => Some (v, b)
      end
  end.

(** CqTextureTile::begin (tilearray.h:375-380). *)
Definition tile_begin (t : tile) (s : support) : biter :=
  buffer_begin (t_pixels t) (mkSupport (sx0 s - t_x0 t) (sx1 s - t_x0 t) (sy0 s - t_y0 t) (sy1 s - t_y0 t)).

(** CqTileArray::CqIterator (tilearray.h:184-240); [ti_tile] is the tile that the current
    position is in. *)
Record titer := mkTIter { ti_support : support; ti_x0 : Z; ti_xend : Z; ti_yend : Z;
                          ti_x : Z; ti_y : Z; ti_tile : tile; ti_pos : biter }.
(** The constructor (tilearray.h:618-636), after begin (518-524). *)
Definition tiles_begin (fresh : Z -> V) (a : array) (s : support) : option (titer * array) :=
  let f := a_file a in
  let s := intersect s (mkSupport 0 (f_width f) 0 (f_height f)) in
  let x0 := Z.quot (sx0 s) (f_tile_width f) in
  let xend := Z.quot (sx1 s - 1) (f_tile_width f) + 1 in
  let yend := Z.quot (sy1 s - 1) (f_tile_height f) + 1 in
  let y := Z.quot (sy0 s) (f_tile_height f) in
  match get_tile fresh a (if empty1 (sx0 s) (sx1 s) then 0 else x0) (if empty1 (sy0 s) (sy1 s) then 0 else y) with
  | None => None
  | Some (t, b) => Some (mkTIter s x0 xend yend x0 (if is_empty s then yend else y) t (tile_begin t s), b)
  end.
(** inSupport (tilearray.h:591-595). *)
Definition tiles_inside (i : titer) : bool := ti_y i <? ti_yend i.
(** nextTile (tilearray.h:570-589). *)
Definition next_tile (fresh : Z -> V) (a : array) (i : titer) : option (titer * array) :=
  let x := ti_x i + 1 in
  let '(x, y) := if ti_xend i <=? x then (ti_x0 i, ti_y i + 1) else (x, ti_y i) in
  if y <? ti_yend i then
    match get_tile fresh a x y with
    | None => None
    | Some (t, b) => Some (mkTIter (ti_support i) (ti_x0 i) (ti_xend i) (ti_yend i) x y t (tile_begin t (ti_support i)), b)
    end
  else Some (mkTIter (ti_support i) (ti_x0 i) (ti_xend i) (ti_yend i) x y (ti_tile i) (ti_pos i), a).
(** operator++ (tilearray.h:553-564). *)
Definition tiles_next (fresh : Z -> V) (a : array) (i : titer) : option (titer * array) :=
  let p := buffer_next (ti_pos i) in
  let j := mkTIter (ti_support i) (ti_x0 i) (ti_xend i) (ti_yend i) (ti_x i) (ti_y i) (ti_tile i) p in
  if buffer_inside p then Some (j, a) else next_tile fresh a j.
(** x and y (tilearray.h:456-465, 597-607) and operator* (466-470, 609-614). *)
Definition tiles_x (i : titer) : Z := bi_x (ti_pos i) + t_x0 (ti_tile i).
Definition tiles_y (i : titer) : Z := bi_y (ti_pos i) + t_y0 (ti_tile i).
Definition tiles_value (i : titer) : option V := value (t_pixels (ti_tile i)) (bi_x (ti_pos i)) (bi_y (ti_pos i)).

Fixpoint tiles_walk (fresh : Z -> V) (a : array) (n : nat) (i : titer) : option (list (Z * Z * V) * array) :=
  if tiles_inside i then
    match n with
    | O => None
    | S m =>
        match tiles_value i, tiles_next fresh a i with
        | Some v, Some (j, b) =>
            match tiles_walk fresh b m j with
            | Some (r, c) => Some ((tiles_x i, tiles_y i, v) :: r, c)
            | None => None
            end
        | _, _ => None
        end
    end
  else Some ([], a).
Definition tiles_visit (fresh : Z -> V) (a : array) (s : support) : option (list (Z * Z * V) * array) :=
  match tiles_begin fresh a s with
  | None => None
  | Some (i, b) => tiles_walk fresh b (Z.to_nat (f_width (a_file a) * f_height (a_file a))) i
  end.

(* ---------- Wrapping ---------- *)

(** EqWrapMode (wrapmode.h:51-60). *)
Inductive wrap := Black | Periodic | Clamp | Trunc.
Definition is_black (w : wrap) : bool := match w with Black => true | _ => false end.
Definition is_clamp (w : wrap) : bool := match w with Clamp => true | _ => false end.

(** clamp (math.h:99-104). *)
Definition clamp (x low high : Z) : Z := if x <? low then low else if high <? x then high else x.

(** for(v = from; v < to; v += by), at most [n] times round. *)
Fixpoint count (n : nat) (from to by_ : Z) : list Z :=
  match n with
  | O => []
  | S m => if from <? to then from :: count m (from + by_) to by_ else []
  end.
Definition steps (from to by_ : Z) : list Z := count (Z.to_nat (to - from)) from to by_.

(** The division of two positive integers as floats: the quotient rounded to the nearest
    of 24 digits, ties to even, as a number of digits and a power of two.  (IEEE 754 single
    precision; results are never so small or large that the exponent is exhausted.) *)
Definition half_even (a b : Z) : Z :=
  let q := a / b in let r := a mod b in
  if 2 * r <? b then q else if b <? 2 * r then q + 1 else if Z.even q then q else q + 1.
Definition scale_down (a b e : Z) : Z := if 0 <=? e then half_even a (b * 2 ^ e) else half_even (a * 2 ^ (- e)) b.
Definition float_quotient (a b : Z) : Z * Z :=
  let e := Z.log2 a - Z.log2 b - 24 in
  let e := if (if 0 <=? e then b * 2 ^ (e + 24) <=? a else b * 2 ^ 24 <=? a * 2 ^ (- e)) then e + 1 else e in
  (scale_down a b e, e).
(** The largest integer below, and the smallest above. *)
Definition float_floor (m : Z * Z) : Z := let '(m, e) := m in if 0 <=? e then m * 2 ^ e else m / 2 ^ (- e).
Definition float_ceil (m : Z * Z) : Z := let '(m, e) := m in if 0 <=? e then m * 2 ^ e else - ((- m) / 2 ^ (- e)).
(** An integer made a float. *)
Definition float_of (a : Z) : Z := if 0 <? a then float_floor (float_quotient a 1) else a.
(** lfloor(TqFloat(start)/width) (filtertexture.h:247-248, math.h:46-50). *)
Definition float_div (start width : Z) : Z :=
  if 0 <? start then float_floor (float_quotient (float_of start) (float_of width))
  else if start <? 0 then - float_ceil (float_quotient (float_of (- start)) (float_of width))
  else 0.

Section Filter.
(** An array in some state, and the loop over the pixels of a region of it. *)
Variable St : Type.
Variable visit : St -> support -> option (list (Z * Z * V) * St).
Variables width height : Z.
(** The samples of a pixel of black (filtertexture.h:161). *)
Variable black : V.

Definition is_nil {X} (l : list X) : bool := match l with [] => true | _ => false end.
(** filterWrappedBuffer (filtertexture.h:142-220): the calls of accumulate. *)
Definition filter_wrapped (a : St) (s : support) (ws wt : wrap) (tlx tly : Z) : option (list (Z * Z * V) * St) :=
  let wrapx := negb (tlx =? 0) in
  let wrapy := negb (tly =? 0) in
  if negb wrapx && negb wrapy then None
  else
    let t := intersect s (mkSupport tlx (tlx + width) tly (tly + height)) in
    let xs := steps (sx0 t) (sx1 t) 1 in
    let ys := steps (sy0 t) (sy1 t) 1 in
    if (is_black ws && wrapx) || (is_black wt && wrapy) then
      Some (flat_map (fun x => map (fun y => (x, y, black)) ys) xs, a)
    else if is_clamp ws && wrapx then
      if is_clamp wt && wrapy then
        let cx := clamp tlx 0 (width - 1) in
        let cy := clamp tly 0 (height - 1) in
        match visit a (mkSupport cx (cx + 1) cy (cy + 1)) with
        | Some ((_, _, v) :: _, b) => Some (flat_map (fun x => map (fun y => (x, y, v)) ys) xs, b)
        | _ => None
        end
      else
        let cx := clamp tlx 0 (width - 1) in
        match visit a (mkSupport cx (cx + 1) (sy0 t) (sy1 t)) with
        | Some (l, b) => Some (flat_map (fun '(_, y, v) => map (fun x => (x, y, v)) xs) l, b)
        | None => None
        end
    else if is_clamp wt && wrapy then
      let cy := clamp tly 0 (height - 1) in
      match visit a (mkSupport (sx0 t) (sx1 t) cy (cy + 1)) with
      | Some (l, b) => Some (flat_map (fun '(x, _, v) => map (fun y => (x, y, v)) ys) l, b)
      | None => None
      end
    else
      match visit a (mkSupport (sx0 t - tlx) (sx1 t - tlx) (sy0 t - tly) (sy1 t - tly)) with
      | Some (l, b) => Some (map (fun '(x, y, v) => (x + tlx, y + tly, v)) l, b)
      | None => None
      end.

(** The two loops over the copies of the texture (filtertexture.h:250-264). *)
Fixpoint filter_copies (a : St) (s : support) (ws wt : wrap) (corners : list (Z * Z)) : option (list (Z * Z * V) * St) :=
  match corners with
  | [] => Some ([], a)
  | (tlx, tly) :: r =>
      if (tlx =? 0) && (tly =? 0) then filter_copies a s ws wt r
      else
        match filter_wrapped a s ws wt tlx tly with
        | None => None
        | Some (l, b) =>
            match filter_copies b s ws wt r with
            | None => None
            | Some (m, c) => Some (l ++ m, c)
            end
        end
  end.

(** filterTexture (filtertexture.h:222-266), for an accumulator that takes the samples. *)
Definition filter_texture (a : St) (s : support) (ws wt : wrap) : option (list (Z * Z * V) * St) :=
  match visit a s with
  | None => None
  | Some (l, b) =>
      if in_range s 0 width 0 height then Some (l, b)
      else
        let x0 := float_div (sx0 s) width * width in
        let y0 := float_div (sy0 s) height * height in
        match filter_copies b s ws wt
                (flat_map (fun x => map (pair x) (steps y0 (sy1 s) height)) (steps x0 (sx1 s) width)) with
        | None => None
        | Some (m, c) => Some (l ++ m, c)
        end
  end.
End Filter.
End Arrays.

(** Writing an image to a TIFF file and reading it back, tiled or in scanlines.

    As in TexModel, memory is a function from places to values, and a pixel is one value, so
    that sizes are counted in pixels instead of bytes.  libtiff is modelled as a store of
    whole tiles and of lines (what is written is read back). *)

From Coq Require Import List Bool ZArith.
From Verif Require Import TexModel.
Import ListNotations.
Open Scope Z_scope.

Section Tiff.
Variable V : Type.
(** libtiff may change the memory of a tile that it encodes (tiffoutputfile.cpp:142-144 says
    so of scanlines). *)
Variable trash : (Z -> V) -> Z -> V.

(** CqTiffOutputFile (tiffoutputfile.h) with the current image of the file: the size and the
    tiles of the header, the next line, and what is stored. *)
Record image_file := mkImageFile { i_width : Z; i_height : Z; i_tile : option (Z * Z); i_line : Z;
                                   i_tiles : Z -> Z -> Z -> V; i_lines : Z -> Z -> V }.

(** writeScanlinePixels (tiffoutputfile.cpp:134-156): [raw] is how far into the buffer. *)
Fixpoint scan_lines (b : buffer V) (n : nat) (line raw : Z) (lines : Z -> Z -> V) : Z -> Z -> V :=
  match n with
  | O => lines
  | S m => scan_lines b m (line + 1) (raw + b_width V b)
             (fun l k => if l =? line then b_data V b (raw + k) else lines l k)
  end.
Definition write_scanlines (f : image_file) (b : buffer V) : image_file :=
  mkImageFile (i_width f) (i_height f) (i_tile f) (i_line f + b_height V b) (i_tiles f)
    (scan_lines b (Z.to_nat (b_height V b)) (i_line f) 0 (i_lines f)).

(** The loop over the columns of tiles (tiffoutputfile.cpp:185-199); [mem] is tileBuf, [src]
    is how far srcBuf is into the buffer. *)
Fixpoint tile_columns (b : buffer V) (tw th line : Z) (n : nat) (col src : Z) (mem : Z -> V) (tiles : Z -> Z -> Z -> V) :
    (Z -> V) * (Z -> Z -> Z -> V) :=
  match n with
  | O => (mem, tiles)
  | S m =>
      let len := Z.min tw (b_width V b - col * tw) in
      let height := Z.min th (b_height V b - line) in
      let mem := strided_copy V (Z.to_nat height) 0 mem tw (fun k => b_data V b (src + k)) (b_width V b) len in
      tile_columns b tw th line m (col + 1) (src + tw) (trash mem)
        (fun tx ty k => if (tx =? Z.quot (col * tw) tw) && (ty =? Z.quot line th) then mem k else tiles tx ty k)
  end.
(** The loop over the rows of tiles (tiffoutputfile.cpp:180-201), at most [n] times round. *)
Fixpoint tile_lines (b : buffer V) (tw th stop : Z) (n : nat) (line raw : Z) (mem : Z -> V) (tiles : Z -> Z -> Z -> V) : Z -> Z -> Z -> V :=
  match n with
  | O => tiles
  | S m =>
      if line <? stop then
        let '(mem, tiles) := tile_columns b tw th line (Z.to_nat (Z.quot (b_width V b - 1) tw + 1)) 0 raw mem tiles in
        tile_lines b tw th stop m (line + th) (raw + b_width V b * th) mem tiles
      else tiles
  end.
(** writeTiledPixels (tiffoutputfile.cpp:158-202); [fresh] is the new memory of tileBuf. *)
Definition write_tiles (fresh : Z -> V) (f : image_file) (b : buffer V) (tw th : Z) : option image_file :=
  if negb (Z.rem (b_height V b) th =? 0) && negb (i_line f + b_height V b =? i_height f) then None
  else
    let stop := i_line f + b_height V b in
    Some (mkImageFile (i_width f) (i_height f) (i_tile f) stop
            (tile_lines b tw th stop (Z.to_nat (b_height V b)) (i_line f) 0 fresh (i_tiles f)) (i_lines f)).
(** writePixels (itexoutputfile.h:185-208) and writePixelsImpl (tiffoutputfile.cpp:204-215), for
    a buffer of the channels of the file; [None] is an exception. *)
Definition write_pixels (fresh : Z -> V) (f : image_file) (b : buffer V) : option image_file :=
  let n := Z.min (b_height V b) (i_height f - i_line f) in
  if b_width V b =? i_width f then
    if 0 <? n then
      let b := mkBuffer V (b_width V b) n (b_data V b) in
      match i_tile f with
      | Some (tw, th) => write_tiles fresh f b tw th
      | None => Some (write_scanlines f b)
      end
    else None
  else None.
(** The constructor (tiffoutputfile.cpp:49-56): a new file. *)
Definition new_file (tile : option (Z * Z)) (width height : Z) (tiles : Z -> Z -> Z -> V) (lines : Z -> Z -> V) : image_file :=
  mkImageFile width height tile 0 tiles lines.
(** Several calls of writePixels. *)
Fixpoint write_all (fresh : Z -> V) (f : image_file) (bs : list (buffer V)) : option image_file :=
  match bs with
  | [] => Some f
  | b :: r => match write_pixels fresh f b with Some g => write_all fresh g r | None => None end
  end.

(** _TIFFmemcpy of [n] lines of a tile (tiffinputfile.cpp:175-183). *)
Fixpoint copy_lines (n : nat) (dest : Z -> V) (at_ step : Z) (src : Z -> V) (from src_step size : Z) : Z -> V :=
  match n with
  | O => dest
  | S m => copy_lines m (fun k => if (at_ <=? k) && (k <? at_ + size) then src (from + (k - at_)) else dest k)
             (at_ + step) step src (from + src_step) src_step size
  end.
(** readPixelsTiled (tiffinputfile.cpp:122-182): the loop over the columns of tiles. *)
Fixpoint read_columns (tiles : Z -> Z -> Z -> V) (width tw th y skip height : Z) (n : nat) (x base : Z) (mem : Z -> V) : Z -> V :=
  match n with
  | O => mem
  | S m =>
      if x <? width then
        read_columns tiles width tw th y skip height m (x + tw) base
          (copy_lines (Z.to_nat height) mem (base + x) width (tiles (Z.quot x tw) (Z.quot y th)) (skip * tw) tw
             (Z.min tw (width - x)))
      else mem
  end.
Fixpoint read_rows (tiles : Z -> Z -> Z -> V) (width tw th start stop start_tile stop_tile : Z) (n : nat) (y base : Z) (mem : Z -> V) : Z -> V :=
  match n with
  | O => mem
  | S m =>
      if y <? stop_tile then
        let skip := if y =? start_tile then start - start_tile else 0 in
        let skip_end := if y + th =? stop_tile then stop_tile - stop else 0 in
        let height := th - skip - skip_end in
        read_rows tiles width tw th start stop start_tile stop_tile m (y + th) (base + width * height)
          (read_columns tiles width tw th y skip height (Z.to_nat width) 0 base mem)
      else mem
  end.
Definition read_tiles (f : image_file) (tw th : Z) (fresh : Z -> V) (start n : Z) : Z -> V :=
  let stop := start + n in
  let start_tile := Z.quot start th * th in
  let stop_tile := (Z.quot (stop - 1) th + 1) * th in
  read_rows (i_tiles f) (i_width f) tw th start stop start_tile stop_tile (Z.to_nat (stop_tile - start_tile)) start_tile 0 fresh.
(** readPixelsStripped (tiffinputfile.cpp:103-120). *)
Fixpoint read_lines (lines : Z -> Z -> V) (width : Z) (n : nat) (line base : Z) (mem : Z -> V) : Z -> V :=
  match n with
  | O => mem
  | S m => read_lines lines width m (line + 1) (base + width)
             (fun k => if (base <=? k) && (k <? base + width) then lines line (k - base) else mem k)
  end.
(** readPixels (itexinputfile.h:190-213) and readPixelsImpl (tiffinputfile.cpp:85-101), for
    formats that are read natively. *)
Definition read_pixels (f : image_file) (fresh : Z -> V) (start count : Z) : option (buffer V) :=
  let n := if count <=? 0 then i_height f - start else count in
  if (start <? 0) || (i_height f <=? start) || (i_height f <? start + n) then None
  else Some (mkBuffer V (i_width f) n
         match i_tile f with
         | Some (tw, th) => read_tiles f tw th fresh start n
         | None => read_lines (i_lines f) (i_width f) (Z.to_nat n) start 0 fresh
         end).
End Tiff.

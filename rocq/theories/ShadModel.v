(** Model of the writer of shadow maps (tools/displays/file/display.cpp:112-221 SaveAsShadowMap).  The values are exact
    numbers instead of floats; the 32 bit arithmetic does not wrap for pictures that fit into the memory.  A read or a write
    outside of a block of memory is [None]. *)
From Coq Require Export List Arith Bool QArith.
Export ListNotations.
Open Scope nat_scope.

(** Running a loop whose body may fail *)
Fixpoint loop {I S} (f : I -> S -> option S) (l : list I) (s : S) : option S :=
  match l with
  | nil => Some s
  | i :: l => match f i s with Some s => loop f l s | None => None end
  end.
Fixpoint store {T} (l : list T) (n : nat) (x : T) : option (list T) :=
  match l, n with
  | nil, _ => None
  | _ :: l, O => Some (x :: l)
  | a :: l, S n => match store l n x with Some l => Some (a :: l) | None => None end
  end.

(** The picture of the display: m_width, m_height, m_iFormatCount and m_data *)
Record image := mkimage { width : nat; height : nat; channels : nat; data : list Q }.

(** The file: the size of the picture and of its tiles, the tag SMINSAMPLEVALUE, and the tiles written, with the column and
    the row of their first pixel *)
Record file := mkfile { f_width : nat; f_height : nat; f_channels : nat; f_tw : nat; f_tl : nat; f_min : Q;
                        f_tiles : list ((nat * nat) * list Q) }.

(** display.cpp:169-178: the least value; FLT_MAX is the first argument *)
Definition min_sample (big : Q) (im : image) : option Q :=
  loop (fun y m =>
    loop (fun x (m : Q) =>
      match nth_error (data im) (y * width im + x) with
      | Some v => Some (if Qle_bool m v then m else v)
      | None => None
      end) (seq 0 (width im)) m)
  (seq 0 (height im)) big.

(** libtiff's TIFFWriteTile reads TIFFTileSize bytes, that is all channels of all pixels of the tile, and refuses a tile
    which begins outside of the picture *)
Definition write_tile (tw tl x y : nat) (tile : list Q) (f : file) : option file :=
  if (x <? f_width f) && (y <? f_height f) then
    if (tw * tl * f_channels f <=? List.length tile) then
      Some (mkfile (f_width f) (f_height f) (f_channels f) (f_tw f) (f_tl f) (f_min f)
                   (((x, y), firstn (tw * tl * f_channels f) tile) :: f_tiles f))
    else None
  else Some f.

(** display.cpp:193-212: one tile *)
Definition fill_tile (tw tl x y : nat) (im : image) : option (list Q) :=
  let n := channels im in
  let start := (y * width im + x) * n in
  loop (fun i tile =>
    loop (fun j tile =>
      if (x + j <? width im) && (y + i <? height im) then
        loop (fun c tile =>
          match nth_error (data im) (start + i * (width im * n) + (j * n + c)) with
          | Some v => store tile (i * tw * n + (j * n + c)) v
          | None => None
          end) (seq 0 n) tile
      else Some tile)
    (seq 0 tw) tile)
  (seq 0 tl) (repeat (0%Q) (tw * tl)).

(** display.cpp:180-214: all tiles.  The number of rows of tiles is computed from the width. *)
Definition save_tiles (tw tl : nat) (im : image) (m : Q) : option file :=
  let per_row := (width im + tw - 1) / tw in
  let count := per_row * ((width im + tl - 1) / tl) in
  loop (fun t f =>
    let x := (t mod per_row) * tw in
    let y := (t / per_row) * tl in
    match fill_tile tw tl x y im with
    | Some tile => write_tile tw tl x y tile f
    | None => None
    end)
  (seq 0 count) (mkfile (width im) (height im) (channels im) tw tl m nil).

Definition save_as_shadow_map (big : Q) (im : image) : option file :=
  match min_sample big im with
  | Some m => save_tiles 32 32 im m
  | None => None
  end.

(** What a reader finds in a file of tiles *)
From Verif Require Export ShadModel.

(** The tile which begins at (x, y): the one written last *)
Fixpoint tile_at (l : list ((nat * nat) * list Q)) (x y : nat) : option (list Q) :=
  match l with
  | nil => None
  | ((a, b), t) :: l => if (a =? x) && (b =? y) then Some t else tile_at l x y
  end.

(** The value of a channel of the pixel (x, y): in the tile which contains the pixel, by rows, all channels of a pixel
    together.  [None] if the file has no such tile. *)
Definition pixel (f : file) (x y c : nat) : option Q :=
  match tile_at (f_tiles f) (x / f_tw f * f_tw f) (y / f_tl f * f_tl f) with
  | Some t => nth_error t ((y mod f_tl f * f_tw f + x mod f_tw f) * f_channels f + c)
  | None => None
  end.

(** The value of the picture *)
Definition shown (im : image) (x y c : nat) : option Q := nth_error (data im) ((y * width im + x) * channels im + c).

Definition complete (im : image) : Prop := List.length (data im) = width im * height im * channels im.

(** How many tiles are needed to cover a length *)
Definition tiles_for (size n : nat) : nat := (n + size - 1) / size.

(** What is expected of the traversal and wrapping of textures. *)

From Coq Require Import List Bool ZArith.
From Verif Require Import TexModel.
Import ListNotations.
Open Scope Z_scope.

(** A texel belongs to a region. *)
Definition within (s : support) (x y : Z) : Prop := sx0 s <= x < sx1 s /\ sy0 s <= y < sy1 s.

(** The visits [l] are to the texels of [D], each once, with the value it has in the
    image [img]. *)
Definition each_once {V} (l : list (Z * Z * V)) (D : Z -> Z -> Prop) (img : Z -> Z -> V) : Prop :=
  NoDup (map fst l) /\ forall x y v, In (x, y, v) l <-> D x y /\ v = img x y.

(** A file of tiles holds the image: what it holds beyond the image does not matter. *)
Definition holds {V} (f : file V) (img : Z -> Z -> V) : Prop :=
  0 < f_width V f /\ 0 < f_height V f /\ 0 < f_tile_width V f /\ 0 < f_tile_height V f /\
  forall tx ty i j, 0 <= tx -> 0 <= ty -> 0 <= i < f_tile_width V f -> 0 <= j < f_tile_height V f ->
    tx * f_tile_width V f + i < f_width V f -> ty * f_tile_height V f + j < f_height V f ->
    f_stored V f tx ty (j * f_tile_width V f + i) = img (tx * f_tile_width V f + i) (ty * f_tile_height V f + j).
(** A flat buffer holds the image. *)
Definition buffer_holds {V} (b : buffer V) (img : Z -> Z -> V) : Prop :=
  forall x y, 0 <= x < b_width V b -> 0 <= y < b_height V b -> b_data V b (y * b_width V b + x) = img x y.

(** An array of tiles after any number of uses; memory for a tile may hold anything before
    the tile is read into it. *)
Inductive used {V} (f : file V) : array V -> Prop :=
| used_new : used f (new_array V f)
| used_visit a fresh s l b : used f a -> tiles_visit V fresh a s = Some (l, b) -> used f b
| used_texel a fresh x y v b : used f a -> 0 <= x < f_width V f -> 0 <= y < f_height V f ->
    texel V fresh a x y = Some (v, b) -> used f b.

(** One coordinate wrapped, by itself: where it is read from, if anywhere. *)
Definition wrapped (m : wrap) (size c : Z) : option Z :=
  if (0 <=? c) && (c <? size) then Some c
  else match m with
       | Black | Trunc => None
       | Periodic => Some (c mod size)
       | Clamp => Some (if c <? 0 then 0 else size - 1)
       end.
(** The texel wrapped in both directions. *)
Definition wrapped_texel {V} (black : V) (img : Z -> Z -> V) (ws wt : wrap) (width height x y : Z) : V :=
  match wrapped ws width x, wrapped wt height y with
  | Some i, Some j => img i j
  | _, _ => black
  end.
(** One direction is clamped and the other periodic. *)
Definition mixed (ws wt : wrap) : bool :=
  match ws, wt with Clamp, Periodic | Periodic, Clamp => true | _, _ => false end.
Definition outside (size c : Z) : Prop := c < 0 \/ size <= c.

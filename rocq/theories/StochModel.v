(** Sampling some of the texels of a region at random: how many samples each tile gets and
    where they are.

    Random numbers are given: [rand] are the results of RandomFloat in turn, and [table k i]
    the pair of numbers that the table of quasi-random numbers has for sample [i] after it
    was randomised for the [k]-th tile (randomtable.h:70-106).  Floats are as in TexModel. *)

From Coq Require Import List Bool ZArith QArith.
From Verif Require Import TexModel AccumModel.
Import ListNotations.
Open Scope Z_scope.

(** A float as a number. *)
Definition float_value (d : Z * Z) : Q :=
  let '(m, e) := d in if 0 <=? e then inject_Z (m * 2 ^ e) else (m # Z.to_pos (2 ^ (- e)))%Q.

(** How many of [rem] samples a tile of [ar] of the [left] texels gets (tilearray.h:677-687).
    [None]: there is nothing left, so that the division is by zero. *)
Definition tile_share (rem ar left : Z) (u : Q) : option Z :=
  if (0 <? ar) && (0 <? left) then
    let desired := float_quotient (float_of (float_of rem * float_of ar)) (float_of left) in
    let n := float_floor desired in
    Some (n + (if Qle_bool (float_value desired - inject_Z n) u then 0 else 1))
  else None.

(** lfloor(range*number) (texturebuffer.h:585-588). *)
Definition place (range : Z) (u : Q) : Z :=
  if 0 <? Qnum u then float_floor (float_quotient (float_of range * Qnum u) (Zpos (Qden u))) else 0.

Section Stoch.
Variable V : Type.

(** The samples of one tile: CqTextureBuffer::CqStochasticIterator (texturebuffer.h:578-645)
    and CqTextureTile (tilearray.h:399-407, 440-470); [i] is the number of the sample. *)
Fixpoint tile_samples (t : tile V) (s : support) (numbers : nat -> Q * Q) (n i : nat) : option (list (Z * Z * V)) :=
  match n with
  | O => Some []
  | S m =>
      let b := t_pixels V t in
      let r := intersect (mkSupport 0 (b_width V b) 0 (b_height V b))
                 (mkSupport (sx0 s - t_x0 V t) (sx1 s - t_x0 V t) (sy0 s - t_y0 V t) (sy1 s - t_y0 V t)) in
      let x := sx0 r + place (sx1 r - sx0 r) (fst (numbers i)) in
      let y := sy0 r + place (sy1 r - sy0 r) (snd (numbers i)) in
      match value V b x y, tile_samples t s numbers m (S i) with
      | Some v, Some l => Some ((x + t_x0 V t, y + t_y0 V t, v) :: l)
      | _, _ => None
      end
  end.

(** CqTileArray::CqStochasticIterator (tilearray.h:632-747) used as in
    filterTextureNowrapStochastic (filtertexture.h:279-291): the tiles in turn after tile
    ([x], [y]), at most [n]; [k] random numbers and [j] tables have been used. *)
Fixpoint stoch_walk (fresh : Z -> V) (rand : nat -> Q) (table : nat -> nat -> Q * Q) (s : support) (x0 xend : Z)
    (n : nat) (a : array V) (x y left rem : Z) (k j : nat) : option (list (Z * Z * V) * array V) :=
  if rem =? 0 then Some ([], a)
  else match n with
  | O => None
  | S m =>
      let '(x, y) := if xend <=? x + 1 then (x0, y + 1) else (x + 1, y) in
      let f := a_file V a in
      let ar := area (intersect s (mkSupport (x * f_tile_width V f) ((x + 1) * f_tile_width V f)
                                             (y * f_tile_height V f) ((y + 1) * f_tile_height V f))) in
      match tile_share rem ar left (rand k) with
      | None => None
      | Some num =>
          if num =? 0 then stoch_walk fresh rand table s x0 xend m a x y (left - ar) rem (S k) j
          else if num <? 0 then None
          else match get_tile V fresh a x y with
               | None => None
               | Some (t, b) =>
                   match tile_samples t s (table j) (Z.to_nat num) 0,
                         stoch_walk fresh rand table s x0 xend m b x y (left - ar) (rem - num) (S k) (S j) with
                   | Some l, Some (r, c) => Some (l ++ r, c)
                   | _, _ => None
                   end
               end
      end
  end.
(** beginStochastic (tilearray.h:526-532) and the constructor (721-747). *)
Definition stoch_visit (fresh : Z -> V) (rand : nat -> Q) (table : nat -> nat -> Q * Q) (a : array V) (s : support) (samples : Z) :
    option (list (Z * Z * V) * array V) :=
  let f := a_file V a in
  let s := intersect s (mkSupport 0 (f_width V f) 0 (f_height V f)) in
  if is_empty s then Some ([], a)
  else
    let x0 := Z.quot (sx0 s) (f_tile_width V f) in
    let xend := Z.quot (sx1 s - 1) (f_tile_width V f) + 1 in
    stoch_walk fresh rand table s x0 xend (Z.to_nat (f_width V f * f_height V f)) a (x0 - 1) (Z.quot (sy0 s) (f_tile_height V f))
      (area s) samples 0 0.
End Stoch.

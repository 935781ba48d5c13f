(** What is expected of mipmaps. *)

From Coq Require Import List Bool ZArith QArith Qround.
From Verif Require Import TexModel TexSpec AccumSpec.
Import ListNotations.
Open Scope Z_scope.

(** The size of level [i] of a texture of size [n]: divided by 2^i, and rounded up. *)
Definition level_size (n i : Z) : Z := - ((- n) / 2 ^ i).

(** Where texel [p] of the level below a level of size [n] is, in texels of that level: a texel of
    an even level is between two texels of the level above. *)
Definition above (n : Z) (p : Q) : Q := (2 * p + if Z.odd n then 0 else (1 # 2))%Q.
(** The same in texels of the texture itself, for level [i]. *)
Fixpoint place (n : Z) (i : nat) (p : Q) : Q :=
  match i with
  | O => p
  | S j => place n j (above (level_size n (Z.of_nat j)) p)
  end.

(** The texels that are combined for one at [c] (in texels of the level that they are from, which
    has the size [n]): those within half the width of the filter, or at least the nearest. *)
Definition reach (n : Z) (width : Q) : Q :=
  let least := (if Z.odd n then 1 else (1 # 2))%Q in
  let half := (width / 2)%Q in
  if Qle_bool least half then half else least.
Definition region (w h : Z) (xw yw cx cy : Q) : support :=
  mkSupport (Qceiling (cx - reach w xw)) (Qfloor (cx + reach w xw) + 1)
            (Qceiling (cy - reach h yw)) (Qfloor (cy + reach h yw) + 1).
(** The weight of texel ([x], [y]): the filter at its distance, in the scale of the new level. *)
Definition weight_at (F : Q -> Q -> Q -> Q -> Q) (xw yw cx cy : Q) (x y : Z) : Q :=
  F ((inject_Z x - cx) / 2)%Q ((inject_Z y - cy) / 2)%Q (xw / 2)%Q (yw / 2)%Q.

(** A share so small that it is left out. *)
Definition negligible (w : Q) : bool := negb (Qle_bool (1 # 100000) w) && negb (Qle_bool w (- (1 # 100000))).
Definition share (w : Z -> Z -> Q) (l : list (Z * Z)) (x y : Z) : Q :=
  let q := (w x y / sum w l)%Q in if negligible q then 0%Q else q.
(** No weight is left out. *)
Definition all_kept (w : Z -> Z -> Q) (l : list (Z * Z)) : Prop :=
  forall x y, In (x, y) l -> negligible (w x y / sum w l) = true -> (w x y == 0)%Q.

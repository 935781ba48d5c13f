(** What filtering and shadows should give. *)

From Coq Require Import List Bool ZArith QArith.
From Verif Require Import TexModel.
Import ListNotations.
Open Scope Z_scope.

Definition numbers (a b : Z) : list Z := map (fun k => a + Z.of_nat k) (seq 0 (Z.to_nat (b - a))).
(** The points of a region. *)
Definition points (s : support) : list (Z * Z) :=
  flat_map (fun y => map (fun x => (x, y)) (numbers (sx0 s) (sx1 s))) (numbers (sy0 s) (sy1 s)).
(** The sum of [g] over some points. *)
Definition sum (g : Z -> Z -> Q) (l : list (Z * Z)) : Q := fold_right (fun p s => g (fst p) (snd p) + s)%Q 0%Q l.

(** The mean of [v] weighted with [w]; if the weights have no sum, only the sum of the
    weighted values. *)
Definition mean (w v : Z -> Z -> Q) (l : list (Z * Z)) : Q :=
  if Qeq_bool (sum w l) 0 then sum (fun x y => w x y * v x y)%Q l
  else (sum (fun x y => w x y * v x y) l / sum w l)%Q.

(** How much a surface is in shadow of what is at [depth]: from none at [low] behind it to
    all at [high] behind it. *)
Definition shade (low high surface depth : Q) : Q :=
  let behind := (surface - depth)%Q in
  if negb (Qle_bool high low) then
    (* between the two *)
    let t := ((behind - low) / (high - low))%Q in
    if Qle_bool t 0 then 0%Q else if Qle_bool 1 t then 1%Q else t
  else if Qeq_bool high low then (if Qle_bool behind low then 0 else 1)%Q
  else (if Qle_bool high behind then 1 else 0)%Q.

(** The region inside an image. *)
Definition inside (s : support) (width height : Z) : support :=
  mkSupport (Z.max (sx0 s) 0) (Z.min (sx1 s) width) (Z.max (sy0 s) 0) (Z.min (sy1 s) height).

(** Specification of where a moving grid is and which samples see it. *)
From Verif Require Export MovModel MpgSpec.
Open Scope Q_scope.

(** A value known at some times: it keeps its first value before the first of them, its last value after the last of them,
    and changes evenly between two of them. *)
Fixpoint path (l : list (Q * Q)) (t : Q) : Q :=
  match l with
  | [] => 0
  | (t0, a) :: r =>
      if Qle_bool t t0 then a
      else match r with
           | [] => a
           | (t1, b) :: _ =>
               if Qle_bool t1 t then path r t
               else (1 - (t - t0) / (t1 - t0)) * a + (t - t0) / (t1 - t0) * b
           end
  end.

(** The grid as it is at time [t] *)
Definition grid_at (g : mgrid) (t : Q) : grid :=
  let coord (f : pt3 -> Q) i j := path (map (fun k => (fst k, f (snd k i j))) (mkeys g)) t in
  mkgrid (mcu g) (mcv g) (fun i j => mkpt (coord px i j) (coord py i j) (coord pz i j)) false.

Fixpoint rising (ts : list Q) : Prop :=
  match ts with
  | a :: ((b :: _) as r) => a < b /\ rising r
  | _ => True
  end.

(** The times of the grid rise, and the shutter opens and closes between the first and the last of them. *)
Definition covers (g : mgrid) (v : view) : Prop :=
  let ts := map fst (mkeys g) in
  rising ts /\ open_ v < close_time v /\
  (exists first rest, ts = first :: rest /\ first <= open_ v) /\
  (exists rest last, ts = rest ++ [last] /\ close_time v <= last).

(** At all times the micropolygons are convex, face the same way, and have no side shorter than 1/10000. *)
Definition steady (g : mgrid) (sign : Q) : Prop := forall t, same_way (grid_at g t) sign /\ long_sides (grid_at g t).

(** The samples of a pixel divide the time between them, in order. *)
Definition shared_time (v : view) (sd : msamples) : Prop :=
  forall x y k, is_sample (vxs v) (vys v) (vr v) (x, y, k) ->
    inject_Z k * (close_time v - open_ v) <= (mtime sd x y k - open_ v) * inject_Z (vxs v * vys v)
      < inject_Z (k + 1) * (close_time v - open_ v).

(** No sample lies on the border of its pixel. *)
Definition in_pixels (v : view) (sd : msamples) : Prop :=
  forall x y k, is_sample (vxs v) (vys v) (vr v) (x, y, k) ->
    inject_Z x < fst (mpos sd x y k) < inject_Z (x + 1) /\ inject_Z y < snd (mpos sd x y k) < inject_Z (y + 1).

(** The depths of micropolygon [m] at time [t] are not all beyond one of the clipping planes. *)
Definition unclipped (g : mgrid) (m : nat * nat) (v : view) (t : Q) : Prop :=
  let z k := pz (gp (grid_at g t) (fst k) (snd k)) in
  (exists k, corner m k /\ z k <= clip_far v) /\ (exists k, corner m k /\ clip_near v <= z k).

(** [t] does not divide the time of the shutter in the ratio of small numbers. *)
Definition between_slices (v : view) (t : Q) : Prop :=
  forall a b, (0 < a < b)%Z -> (b <= Z.max 4 (vxs v * vys v))%Z ->
    ~ (t - open_ v) * inject_Z b == (close_time v - open_ v) * inject_Z a.

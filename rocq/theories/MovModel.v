(** Model of sampling a moving micropolygon that is in focus (libs/core/micropolygon.cpp CqMicroPolygonMotion,
    libs/core/bucketprocessor.cpp RenderMPG_MBOrDof).  Exact arithmetic: the rounding of floats is not modelled, nor are
    values that do not fit into an int. *)
From Verif Require Export MpgModel.
Open Scope Q_scope.

(** CqBound *)
Record bound3 := mkbound3 { lo : pt3; hi : pt3 }.

(** micropolygon.cpp:1967-1985 CqMovingMicroPolygonKey::GetBound.  The caching of the result is left out. *)
Definition key_bound (p : nat -> pt3) : bound3 :=
  let m f := Qminb (f (p 0%nat)) (Qminb (f (p 1%nat)) (Qminb (f (p 2%nat)) (f (p 3%nat)))) in
  let x f := Qmaxb (f (p 0%nat)) (Qmaxb (f (p 1%nat)) (Qmaxb (f (p 2%nat)) (f (p 3%nat)))) in
  mkbound3 (mkpt (m px) (m py) (m pz)) (mkpt (x px) (x py) (x pz)).

(** bound.cpp:117-126 Encapsulate *)
Definition encapsulate (a b : bound3) : bound3 :=
  mkbound3 (mkpt (Qminb (px (lo a)) (px (lo b))) (Qminb (py (lo a)) (py (lo b))) (Qminb (pz (lo a)) (pz (lo b))))
           (mkpt (Qmaxb (px (hi a)) (px (hi b))) (Qmaxb (py (hi a)) (py (hi b))) (Qmaxb (pz (hi a)) (pz (hi b)))).

(** vector3d.h: sum, difference and multiple *)
Definition padd (a b : pt3) : pt3 := mkpt (px a + px b) (py a + py b) (pz a + pz b).
Definition psub (a b : pt3) : pt3 := mkpt (px a - px b) (py a - py b) (pz a - pz b).
Definition pmul (f : Q) (a : pt3) : pt3 := mkpt (f * px a) (f * py a) (f * pz a).

(** An element of m_Times and m_Keys (micropolygon.cpp:1952-1966 AppendKey): the time, and the corners in the order
    m_Point0 to m_Point3 *)
Notation key := (Q * (nat -> pt3))%type.

(** A moving grid: the points of each time.  micropolygon.cpp:662-711 in CqMicroPolyGrid::Split, for a camera that does
    not move: the times are the keys of a map, so they are in order. *)
Record mgrid := mkmgrid { mcu : nat; mcv : nat; mkeys : list (Q * (nat -> nat -> pt3)) }.

(** micropolygon.cpp:836-845: the keys of micropolygon (iu, iv) *)
Definition keys_of (g : mgrid) (iu iv : nat) : list key :=
  map (fun k => (fst k, fun c => match c with
                                 | 0%nat => snd k iu iv
                                 | 1%nat => snd k (S iu) iv
                                 | 2%nat => snd k iu (S iv)
                                 | _ => snd k (S iu) (S iv)
                                 end)) (mkeys g).

(** micropolygon.cpp:1698-1706: the number of pieces the time is cut into.  [None] where the code divides by 0.
    The whole part of the square root of q is that of the whole part of q. *)
Definition divisions (keys : list key) (ranges : Z) : option Z :=
  match keys with
  | [] => None
  | (_, p) :: _ =>
      let b := key_bound p in
      let q := snd (last keys (0, p)) in
      let len2 := (px (hi b) - px (lo b)) * (px (hi b) - px (lo b)) + (py (hi b) - py (lo b)) * (py (hi b) - py (lo b)) in
      let dx := px (p 0%nat) - px (q 0%nat) in
      let dy := py (p 0%nat) - py (q 0%nat) in
      if Qeq_bool len2 0 then None
      else Some (Z.min (Z.max 1 (Z.sqrt (Qfloor ((dx * dx + dy * dy) / len2)))) ranges)
  end.

(** micropolygon.cpp:1719-1720: the key at the end of the piece that ends at [time].  [None]: read outside of m_Times *)
Fixpoint end_key (fuel : nat) (keys : list key) (time : Q) (e : nat) : option nat :=
  match fuel with
  | O => None
  | S fuel =>
      match nth_error keys e with
      | None => None
      | Some (t, _) => if Qltb t time && (e <? length keys - 1)%nat then end_key fuel keys time (S e) else Some e
      end
  end.

(** micropolygon.cpp:1730-1732: the bound between two keys *)
Definition mid_bound (mix : Q) (a b : bound3) : bound3 :=
  mkbound3 (padd (lo a) (pmul mix (psub (lo b) (lo a)))) (padd (hi a) (pmul mix (psub (hi b) (hi a)))).

(** micropolygon.cpp:1739-1744: the keys after [s] up to [e] *)
Definition add_keys (keys : list key) (s e : nat) (b : bound3) : option bound3 :=
  fold_left (fun acc k => match acc, nth_error keys k with
                          | Some b, Some (_, p) => Some (encapsulate b (key_bound p))
                          | _, _ => None
                          end) (seq (S s) (e - s)) (Some b).

(** micropolygon.cpp:1716-1751: [n] more bounds, each with the time at which it starts *)
Fixpoint bounds_from (n : nat) (keys : list key) (dt time : Q) (s e : nat) (b : bound3) : option (list (bound3 * Q)) :=
  match n with
  | O => Some []
  | S n =>
      match end_key (length keys) keys time e with
      | None => None
      | Some e =>
          match nth_error keys (e - 1), nth_error keys e with
          | Some (t0, p0), Some (t1, p1) =>
              let mid := mid_bound ((time - t0) / (t1 - t0)) (key_bound p0) (key_bound p1) in
              match add_keys keys s (e - 1) (encapsulate b mid) with
              | None => None
              | Some b =>
                  match bounds_from n keys dt (time + dt) (Nat.max s (e - 1)) e mid with
                  | None => None
                  | Some l => Some ((b, time - dt) :: l)
                  end
              end
          | _, _ => None
          end
      end
  end.

(** micropolygon.cpp:1688-1754 BuildBoundList *)
Definition bound_list (keys : list key) (open close : Q) (ranges : Z) : option (list (bound3 * Q)) :=
  match keys, divisions keys ranges with
  | (_, p) :: _, Some d =>
      let dt := (close - open) / inject_Z d in
      bounds_from (Z.to_nat d) keys dt (open + dt) 0 1 (key_bound p)
  | _, _ => None
  end.

(** micropolygon.cpp:1779-1793: the keys around [time], for a time between the first and the last key *)
Fixpoint span (keys : list key) (time : Q) : option (key * key) :=
  match keys with
  | a :: ((b :: _) as r) => if Qle_bool (fst b) time then span r time else Some (a, b)
  | _ => None
  end.

(** micropolygon.cpp:1773-1794: a key with the corners to use as they are, or two keys and the weight of the second *)
Definition place (keys : list key) (time : Q) : option (key * option (key * Q)) :=
  match keys with
  | [] => None
  | first :: _ =>
      if Qltb (fst first) time then
        let back := last keys first in
        if Qle_bool (fst back) time then Some (back, None)
        else match span keys time with
             | None => None
             | Some (a, b) =>
                 if Qeq_bool (fst a) time then Some (a, None)
                 else Some (a, Some (b, (time - fst a) / (fst b - fst a)))
             end
      else Some (first, None)
  end.

Definition pmix (f : Q) (a b : pt3) : pt3 := padd (pmul (1 - f) a) (pmul f b).

(** micropolygon.cpp:1796-1812: the bound at the time of the sample *)
Definition tight_bound (w : key * option (key * Q)) : bound3 :=
  match w with
  | (a, None) => key_bound (snd a)
  | (a, Some (b, f)) =>
      let x := key_bound (snd a) in let y := key_bound (snd b) in
      mkbound3 (pmix f (lo x) (lo y)) (pmix f (hi x) (hi y))
  end.

(** micropolygon.cpp:1840-1859: the corners at the time of the sample *)
Definition points_at (w : key * option (key * Q)) (c : nat) : pt3 :=
  match w with
  | (a, None) => snd a c
  | (a, Some (b, f)) => pmix f (snd a c) (snd b c)
  end.

(** bound.h:144-151 Contains2D *)
Definition inside2d (b : bound3) (s : Q * Q) : bool :=
  negb (Qltb (fst s) (px (lo b)) || Qltb (px (hi b)) (fst s) || (Qltb (snd s) (py (lo b)) || Qltb (py (hi b)) (snd s))).

(** micropolygon.cpp:1770-1912 CqMicroPolygonMotion::Sample without depth of field, for a grid that is not triangular.
    The order of the corners is that of ComputeVertexOrder for the first key (micropolygon.cpp:713-720 leaves the points
    of that key in the grid's P).  cachePointInPolyTest (1390) sets m_LastFailedEdge to 0.  The outer [None]: read outside
    of the keys *)
Definition sample_moving (keys : list key) (time : Q) (s : Q * Q) : option (option Q) :=
  match keys, place keys time with
  | (_, p0) :: _, Some w =>
      Some (if inside2d (tight_bound w) s then fst (contains (vertex_order p0) (points_at w) 0 s) else None)
  | _, _ => None
  end.

Open Scope Z_scope.

(** Options: shutter times, clipping planes, samples of a pixel, and SampleRegion() *)
Record view := mkview { open_ : Q; close_time : Q; clip_near : Q; clip_far : Q; vxs : Z; vys : Z; vr : region }.

(** SqSampleData: with the time of the sample *)
Record msamples := mkmsamples { mpos : Z -> Z -> Z -> Q * Q; mtime : Z -> Z -> Z -> Q;
                                mocclz : Z -> Z -> Z -> Q; mdetail : Z -> Z -> Z -> Q }.

(** math.h:174-182 isClose with the default tolerance *)
Definition is_close (a b : Q) : bool :=
  let tol := (10 # 8388608)%Q in
  let d := Qabsb (a - b) in
  Qle_bool d (tol * Qabsb a) || Qle_bool d (tol * Qabsb b).

(** bucketprocessor.cpp:1262-1283: the samples looked at in each pixel: the loop runs once at least (1375-1464) *)
Definition index_range (v : view) (time0 time1 : Q) : Z * Z :=
  let n := vxs v * vys v in
  let '(t0, t1) :=
    if is_close (close_time v) (open_ v) then (0, n)
    else let per := (inject_Z n / (close_time v - open_ v))%Q in
         (Z.max 0 (Qfloor ((time0 - open_ v) * per)), Qceiling ((time1 - open_ v) * per)) in
  (t0, Z.max (t0 + 1) t1).

(** bucketprocessor.cpp:1380-1391, 1430-1462 for one sample.  [None] means that the sample does not exist in the pixel, or
    a read outside of the keys. *)
Definition look (keys : list key) (i : mpg_info) (sd : msamples) (v : view) (b : bound3) (time0 time1 : Q) (w : Z * Z * Z)
  : option (list (Z * Z * Z * Q)) :=
  let '(x, y, k) := w in
  if (k <? 0) || (vxs v * vys v <=? k) then None else
  let time := mtime sd x y k in
  if Qltb time time0 || Qltb time1 time then Some [] else
  if negb (inside2d b (mpos sd x y k)) then Some [] else
  if cullable i && Qltb (mocclz sd x y k) (pz (lo b)) then Some [] else
  if Qle_bool 0 (lod0 i) && (Qltb (mdetail sd x y k) (lod0 i) || Qle_bool (lod1 i) (mdetail sd x y k)) then Some [] else
  match sample_moving keys time (mpos sd x y k) with
  | None => None
  | Some None => Some []
  | Some (Some d) => Some [(x, y, k, d)]
  end.

Fixpoint collect {A B} (f : A -> option (list B)) (l : list A) : option (list B) :=
  match l with
  | [] => Some []
  | a :: l => match f a, collect f l with Some x, Some y => Some (x ++ y) | _, _ => None end
  end.

(** bucketprocessor.cpp:1253-1466 for one bound, which lasts from [time0] to [time1] *)
Definition render_bound (keys : list key) (i : mpg_info) (sd : msamples) (v : view) (b : bound3) (time0 time1 : Q)
  : option (list (Z * Z * Z * Q)) :=
  (* 1271 *)
  if Qltb time1 (open_ v) || Qltb (close_time v) time0 then Some [] else
  let '(t0, t1) := index_range v time0 time1 in
  (* 1295 *)
  if Qltb (clip_far v) (pz (lo b)) || Qltb (pz (hi b)) (clip_near v) then Some [] else
  (* 1336-1350 *)
  let eX := Z.min (Qceiling (px (hi b))) (xmax (vr v)) in
  let eY := Z.min (Qceiling (py (hi b))) (ymax (vr v)) in
  let sX := Z.max (Qfloor (px (lo b))) (xmin (vr v)) in
  let sY := Z.max (Qfloor (py (lo b))) (ymin (vr v)) in
  if (sX >=? eX) || (sY >=? eY) then Some [] else
  collect (look keys i sd v b time0 time1)
    (flat_map (fun iY => flat_map (fun iX => map (fun k => (iX, iY, k)) (zrange t0 t1)) (zrange sX eX)) (zrange sY eY)).

(** bucketprocessor.cpp:1253-1269: each bound lasts until the next one starts, the last one until the shutter closes. *)
Fixpoint render_bounds (keys : list key) (i : mpg_info) (sd : msamples) (v : view) (bs : list (bound3 * Q))
  : option (list (Z * Z * Z * Q)) :=
  match bs with
  | [] => Some []
  | (b, time0) :: bs =>
      let time1 := match bs with [] => close_time v | (_, t) :: _ => t end in
      match render_bound keys i sd v b time0 time1, render_bounds keys i sd v bs with
      | Some x, Some y => Some (x ++ y)
      | _, _ => None
      end
  end.

(** bucketprocessor.cpp:1221-1469 RenderMPG_MBOrDof for a moving micropolygon without depth of field *)
Definition render_moving (g : mgrid) (iu iv : nat) (i : mpg_info) (sd : msamples) (v : view) : option (list (Z * Z * Z * Q)) :=
  let keys := keys_of g iu iv in
  match bound_list keys (open_ v) (close_time v) (Z.max 4 (vxs v * vys v)) with
  | None => None
  | Some bs => render_bounds keys i sd v bs
  end.

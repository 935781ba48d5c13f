(** Model of sampling the micropolygons of a grid that does not move and is in focus
    (libs/core/micropolygon.cpp, libs/core/bilinear.h, libs/core/bucketprocessor.cpp).
    Exact arithmetic: the rounding of floats is not modelled. *)
From Coq Require Export List ZArith Bool Lia QArith Qround.
Export ListNotations.
Open Scope Q_scope.

(** CqVector3D: raster x and y, camera depth z *)
Record pt3 := mkpt { px : Q; py : Q; pz : Q }.

Definition Qltb (a b : Q) : bool := negb (Qle_bool b a).

(** vector3d.h Magnitude2 of a difference *)
Definition dist2 (a b : pt3) : Q :=
  (px a - px b) * (px a - px b) + (py a - py b) * (py a - py b) + (pz a - pz b) * (pz a - pz b).

(** The 1e-8 of micropolygon.cpp:1229-1263 *)
Definition tiny : Q := 1 # 100000000.
Definition close_ (a b : pt3) : bool := Qltb (dist2 a b) tiny.

(** m_IndexCode: the four two-bit fields at bits 0, 2, 4, 6 and Degeneracy_Mask (micropolygon.h:790).  The fields are kept
    apart instead of packed into a word. *)
Record order := mkorder { c0 : nat; c2 : nat; c4 : nat; c6 : nat; degenerate : bool }.

(** micropolygon.cpp:1207-1286 ComputeVertexOrder, on the vertices in grid order: [p 0] = A, [p 1] = B, [p 2] = D, [p 3] = C.
    [None] as the code of D is the -1 of the code. *)
Definition vertex_order (p : nat -> pt3) : order :=
  let a := p 0%nat in let b := p 1%nat in let d := p 2%nat in let c := p 3%nat in
  (* 1229-1263 *)
  let '(codeb, codec, coded) :=
    if close_ a b then (3%nat, 2%nat, None)
    else if close_ b c then (3%nat, 2%nat, None)
    else if close_ c d then (1%nat, 2%nat, None)
    else if close_ d a then (1%nat, 3%nat, None)
    else (1%nat, 3%nat, Some 2%nat) in
  let va := p 0%nat in let vb := p codeb in let vc := p codec in
  (* 1270 *)
  let flip := Qle_bool ((py va - py vb) * (px vb - px vc)) ((px va - px vb) * (py vb - py vc)) in
  (* 1274-1285 *)
  if flip then
    match coded with
    | None => mkorder 0 codeb codec 0 true
    | Some cd => mkorder 0 codeb codec cd false
    end
  else
    match coded with
    | None => mkorder 0 codec codeb 0 true
    | Some cd => mkorder 0 cd codec codeb false
    end.

(** One edge of the hit test cache: m_X, m_Y, m_XMultiplier, m_YMultiplier (micropolygon.h, CqHitTestCache) *)
Record edge := mkedge { eX : Q; eY : Q; xmul : Q; ymul : Q }.

Definition mk_edge (from to : pt3) : edge := mkedge (px from) (py from) (py to - py from) (px to - px from).

(** micropolygon.cpp:1360-1391 cachePointInPolyTest: edge number [e] *)
Definition cache_edge (o : order) (p : nat -> pt3) (e : nat) : edge :=
  let q0 := p (c2 o) in let q1 := p (c4 o) in let q2 := p (c6 o) in let q3 := p (c0 o) in
  match e with
  | 0%nat => mk_edge q3 q0
  | 1%nat => mk_edge q0 q1
  | 2%nat => if degenerate o then mk_edge q1 q3 else mk_edge q1 q2
  | _ => if degenerate o then mk_edge q1 q3 else mk_edge q2 q3
  end.

(** micropolygon.cpp:1316-1333: the point is on the wrong side of edge [e]; [e & 2] decides about points on the edge *)
Definition rejects (edges : nat -> edge) (e : nat) (s : Q * Q) : bool :=
  let g := edges e in
  let v := (snd s - eY g) * ymul g - (fst s - eX g) * xmul g in
  if (2 <=? e)%nat then Qltb v 0 else Qle_bool v 0.

(** micropolygon.cpp:1303-1338: [n] edges from edge [e] on, wrapping; the number of the edge that fails *)
Fixpoint failing_edge (edges : nat -> edge) (s : Q * Q) (n e : nat) : option nat :=
  match n with
  | O => None
  | S n' => if rejects edges e s then Some e else failing_edge edges s n' (Nat.modulo (e + 1) 4)
  end.

Definition vec := (Q * Q)%type.
Definition vadd (a b : vec) : vec := (fst a + fst b, snd a + snd b).
Definition vsub (a b : vec) : vec := (fst a - fst b, snd a - snd b).
Definition vscale (k : Q) (a : vec) : vec := (k * fst a, k * snd a).
Definition vcross (a b : vec) : Q := fst a * snd b - snd a * fst b.
Definition xy (p : pt3) : vec := (px p, py p).
Definition Qmaxb (a b : Q) : Q := if Qle_bool a b then b else a.
Definition Qminb (a b : Q) : Q := if Qle_bool a b then a else b.
Definition Qabsb (a : Q) : Q := if Qltb a 0 then - a else a.
Definition max_norm (a : vec) : Q := Qmaxb (Qabsb (fst a)) (Qabsb (snd a)).

(** bilinear.h:254-300 CqInvBilinear with setVertices(A, B, C, D): one or two steps of Newton's method from (1/2, 1/2).
    Division by zero gives 0 here (infinite or no number in the code). *)
Definition inv_bilinear (a b c d : vec) (p : vec) : vec :=
  let e := vsub b a in
  let f := vsub c a in
  let g := vadd (vsub (vscale (-1) e) c) d in
  let linear := Qltb (max_norm g) ((1 # 100) * Qmaxb (max_norm f) (max_norm e)) in
  let eval uv := vadd (vadd (vadd a (vscale (fst uv) e)) (vscale (snd uv) f)) (vscale (fst uv * snd uv) g) in
  let solve (check : bool) m1 m2 r :=
    let det := vcross m1 m2 in
    let inv := if check && Qeq_bool det 0 then det else / det in
    (inv * vcross r m2, inv * - vcross r m1) in
  let step check uv :=
    vsub uv (solve check (vadd e (vscale (snd uv) g)) (vadd f (vscale (fst uv) g)) (vsub (eval uv) p)) in
  let uv1 := step false (1 # 2, 1 # 2) in
  if linear then uv1 else step true uv1.

(** bilinear.h:210-217 bilerp *)
Definition bilerp (a b c d : Q) (uv : vec) : Q :=
  (1 - snd uv) * (1 - fst uv) * a + (1 - snd uv) * fst uv * b + snd uv * (1 - fst uv) * c + snd uv * fst uv * d.

(** micropolygon.cpp:1297-1341 fContains on a cache filled by cachePointInPolyTest; [last] is m_LastFailedEdge.
    The depth of a hit, and the new m_LastFailedEdge. *)
Definition contains (o : order) (p : nat -> pt3) (last : nat) (s : Q * Q) : option Q * nat :=
  match failing_edge (cache_edge o p) s 4 last with
  | Some e => (None, e)
  | None =>
      let uv := inv_bilinear (xy (p 0%nat)) (xy (p 1%nat)) (xy (p 2%nat)) (xy (p 3%nat)) s in
      (Some (bilerp (pz (p 0%nat)) (pz (p 1%nat)) (pz (p 2%nat)) (pz (p 3%nat)) uv), last)
  end.

(** A grid: [gp iu iv] is the point with index iv * (cu + 1) + iu of the variable P *)
Record grid := mkgrid { cu : nat; cv : nat; gp : nat -> nat -> pt3; triangular : bool }.

(** micropolygon.cpp:1196-1205, 1405-1410: the vertices of micropolygon (iu, iv), index iv * (cu + 1) + iu *)
Definition vertices (g : grid) (iu iv : nat) (k : nat) : pt3 :=
  match k with
  | 0%nat => gp g iu iv
  | 1%nat => gp g (S iu) iv
  | 2%nat => gp g iu (S iv)
  | _ => gp g (S iu) (S iv)
  end.

(** micropolygon.cpp:704-722, 733-748 in CqMicroPolyGrid::Split: the line that cuts off the phantom corner *)
Definition split_line (g : grid) : pt3 * pt3 :=
  let v0 := gp g 0 0 in
  let v1 := gp g (cu g) 0 in
  let v2 := gp g 0 (cv g) in
  if Qle_bool 0 ((px v1 - px v0) * (py v2 - py v0) - (py v1 - py v0) * (px v2 - px v0)) then (v1, v2) else (v2, v1).

(** micropolygon.cpp:1630-1654 *)
Definition beyond_split (g : grid) (s : Q * Q) : bool :=
  let '(a, b) := split_line g in
  Qle_bool ((py a - py b) * fst s + (px b - px a) * snd s + (px a * py b - px b * py a)) 0.

(** micropolygon.cpp:1562-1663 Sample without depth of field and trim curves *)
Definition sample (g : grid) (iu iv : nat) (last : nat) (s : Q * Q) : option Q * nat :=
  let p := vertices g iu iv in
  match contains (vertex_order p) p last s with
  | (Some d, l) => (if triangular g && beyond_split g s then None else Some d, l)
  | r => r
  end.

(** micropolygon.cpp:1668-1678 CalculateBound *)
Record bound := mkbound { bminx : Q; bminy : Q; bminz : Q; bmaxx : Q; bmaxy : Q }.

Definition min4 (a b c d : Q) : Q := Qminb (Qminb (Qminb a b) c) d.
Definition max4 (a b c d : Q) : Q := Qmaxb (Qmaxb (Qmaxb a b) c) d.

Definition calculate_bound (p : nat -> pt3) : bound :=
  let a := p 0%nat in let b := p 1%nat in let d := p 2%nat in let c := p 3%nat in
  mkbound (min4 (px a) (px b) (px c) (px d)) (min4 (py a) (py b) (py c) (py d)) (min4 (pz a) (pz b) (pz c) (pz d))
          (max4 (px a) (px b) (px c) (px d)) (max4 (py a) (py b) (py c) (py d)).

(** bound.h:144-151 Contains2D *)
Definition contains2d (b : bound) (s : Q * Q) : bool :=
  negb (Qltb (fst s) (bminx b) || Qltb (bmaxx b) (fst s) || (Qltb (snd s) (bminy b) || Qltb (bmaxy b) (snd s))).

Open Scope Z_scope.

(** SampleRegion() *)
Record region := mkregion { xmin : Z; ymin : Z; xmax : Z; ymax : Z }.

Definition zrange (a b : Z) : list Z := map (fun k => a + Z.of_nat k) (seq 0 (Z.to_nat (b - a))).

(** bucketprocessor.cpp:1120-1147, once for each direction: pixels [s, e) and the subsamples: those of the first pixel from
    the third component on, those of the last pixel up to the fourth *)
Definition extent (lo hi : Q) (rmin rmax samples : Z) : Z * Z * Z * Z :=
  let e := Z.min (Qceiling hi) rmax in
  let s := Z.max (Qfloor lo) rmin in
  let i := if Qltb lo (inject_Z s) then 0 else Qfloor ((lo - inject_Z s) * inject_Z samples) in
  let n := if Qltb (inject_Z e) hi then samples else Qceiling ((hi - (inject_Z e - 1)) * inject_Z samples) in
  (s, e, i, n).

(** bucketprocessor.cpp:1147-1176: pixel and index of the samples looked at, in this order *)
Definition visits (b : bound) (r : region) (xs ys : Z) : list (Z * Z * Z) :=
  let '(sX, eX, im, em) := extent (bminx b) (bmaxx b) (xmin r) (xmax r) xs in
  let '(sY, eY, ni, en) := extent (bminy b) (bmaxy b) (ymin r) (ymax r) ys in
  if (sX >=? eX) || (sY >=? eY) then [] else
  flat_map (fun iY => flat_map (fun iX =>
    let n0 := if iY =? sY then ni else 0 in
    let n1 := if iY =? eY - 1 then en else ys in
    let m0 := if iX =? sX then im else 0 in
    let m1 := if iX =? eX - 1 then em else xs in
    flat_map (fun n => map (fun m => (iX, iY, n * xs + m)) (zrange m0 m1)) (zrange n0 n1))
   (zrange sX eX)) (zrange sY eY).

(** SqSampleData: position, occlZ and detailLevel of the samples of the pixels *)
Record samples := mksamples { pos : Z -> Z -> Z -> Q * Q; occl_z : Z -> Z -> Z -> Q; detail : Z -> Z -> Z -> Q }.

(** bucketprocessor.cpp:1101-1104: m_CurrentMpgSampleInfo.isCullable, lodBounds *)
Record mpg_info := mkinfo { cullable : bool; lod0 : Q; lod1 : Q }.

(** bucketprocessor.cpp:1177-1213 for one sample: what StoreSample gets, and the new m_LastFailedEdge.
    [None] means the sample index does not exist in the pixel. *)
Definition visit (g : grid) (iu iv : nat) (i : mpg_info) (sd : samples) (xs ys : Z) (b : bound) (last : nat)
    (v : Z * Z * Z) : option (list (Z * Z * Z * Q) * nat) :=
  let '(x, y, k) := v in
  if (k <? 0) || (xs * ys <=? k) then None else
  if negb (contains2d b (pos sd x y k)) then Some ([], last) else
  if cullable i && Qltb (occl_z sd x y k) (bminz b) then Some ([], last) else
  if Qle_bool 0 (lod0 i) && (Qltb (detail sd x y k) (lod0 i) || Qle_bool (lod1 i) (detail sd x y k))
  then Some ([], last) else
  match sample g iu iv last (pos sd x y k) with
  | (Some d, l) => Some ([(x, y, k, d)], l)
  | (None, l) => Some ([], l)
  end.

Fixpoint visit_all (g : grid) (iu iv : nat) (i : mpg_info) (sd : samples) (xs ys : Z) (b : bound) (last : nat)
    (vs : list (Z * Z * Z)) : option (list (Z * Z * Z * Q)) :=
  match vs with
  | [] => Some []
  | v :: vs =>
      match visit g iu iv i sd xs ys b last v with
      | None => None
      | Some (h, l) => match visit_all g iu iv i sd xs ys b l vs with
                       | None => None
                       | Some hs => Some (h ++ hs)
                       end
      end
  end.

(** bucketprocessor.cpp:1097-1218 RenderMPG_Static: the hits of micropolygon (iu, iv), as (pixel, sample, depth).
    m_LastFailedEdge is 0 at first (micropolygon.cpp:1394). *)
Definition render_static (g : grid) (iu iv : nat) (i : mpg_info) (sd : samples) (xs ys : Z) (r : region)
  : option (list (Z * Z * Z * Q)) :=
  let b := calculate_bound (vertices g iu iv) in
  visit_all g iu iv i sd xs ys b 0 (visits b r xs ys).

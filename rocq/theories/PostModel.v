(* Model of how surfaces and micropolygons get into buckets:
     libs/core/imagebuffer.cpp      CullSurface 263-345, PostSurface 353-446,
                                    RepostSurface 449-507, AddMPG 514-591
     libs/core/bucketprocessor.cpp  process 208-239, RenderWaitingMPs 924-936,
                                    RenderSurface 942-1060
     libs/core/bucket.h             AddGPrim, pTopSurface, popSurface, AddMP
   Simplifications:
     - a surface is given by what becomes of it: its bound, and whether it is diced (into which
       micropolygons), split (into which surfaces) or discarded; so splitting ends;
     - the heap of surfaces of a bucket and the occlusion tree are replaced by choices: any
       waiting surface may be taken next, and any surface with a bound may be found hidden;
     - bounds are rational; the bound in camera space, its motion, displacement and depth of
       field are part of the given bound;
     - one bucket at a time, as in BucketModel.v. *)
From Coq Require Import ZArith QArith Qround List Bool.
From Verif Require Import BucketModel.
Import ListNotations.
Local Open Scope Z_scope.

Record box := Box { b_x0 : Q; b_y0 : Q; b_x1 : Q; b_y1 : Q }.

(* A surface.  The bound is the one in raster space before the filter width is added; None: the
   surface spans the plane of the eye (CullSurface 284-304 ForceUndiceable).  [gone] says that it
   is outside of the range of depths, or was split too often at that plane (266-268, 298-302). *)
Inductive surf :=
| Dice (bnd : option box) (gone : bool) (ms : list mpoly)
| Split (bnd : option box) (gone : bool) (parts : list surf)
| Discard (bnd : option box) (gone : bool).
Definition bound_of (s : surf) : option box :=
  match s with Dice b _ _ => b | Split b _ _ => b | Discard b _ => b end.
Definition is_gone (s : surf) : bool :=
  match s with Dice _ g _ => g | Split _ g _ => g | Discard _ g => g end.

Record pstate := PState {
  q_pending : list (bpos * surf);     (* CqBucket::m_gPrims of all buckets *)
  q_waiting : list (bpos * mpoly);    (* CqBucket::m_micropolygons of all buckets *)
  q_done : bpos -> bool;              (* CqBucket::m_bProcessed *)
  q_rendered : list (bpos * mpoly);   (* the calls of RenderMicroPoly *)
  q_hidden : list (bpos * surf)       (* the surfaces found hidden, and in which bucket *)
}.

Section Post.
Variable o : options.

(* imagebuffer.cpp:325-329 the bound grown by half the filter width *)
Definition grown (b : box) : box :=
  Box (b_x0 b - o_fx o / 2)%Q (b_y0 b - o_fy o / 2)%Q (b_x1 b + o_fx o / 2)%Q (b_y1 b + o_fy o / 2)%Q.
(* imagebuffer.cpp:263-345 CullSurface: None for a culled surface, else the cached bound if any *)
Definition cull_surface (s : surf) : option (option box) :=
  if is_gone s then None else
  match bound_of s with
  | None => Some None
  | Some b =>
    let b := grown b in
    let ltb x y := negb (Qle_bool y x) in
    if ltb (inject_Z (o_cx1 o)) (b_x0 b) || ltb (inject_Z (o_cy1 o)) (b_y0 b)
       || ltb (b_x1 b) (inject_Z (o_cx0 o)) || ltb (b_y1 b) (inject_Z (o_cy0 o))
    then None else Some (Some b)
  end.

(* math.h clamp *)
Definition clampz (x lo hi : Z) : Z := if x <? lo then lo else if hi <? x then hi else x.
(* bucket.h AddGPrim *)
Definition add_gprim (b : bpos) (s : surf) (st : pstate) : pstate :=
  PState (q_pending st ++ [(b, s)]) (q_waiting st) (q_done st) (q_rendered st) (q_hidden st).
(* imagebuffer.cpp:393-414 the buckets the bound of a surface touches *)
Definition post_range (b : option box) : region :=
  let '(x0, y0, x1, y1) :=
    match b with
    | None => (0, 0, 0, 0)
    | Some b => (Z.quot (qtrunc (b_x0 b)) (o_bx o), Z.quot (qtrunc (b_y0 b)) (o_by o),
                 Z.quot (qtrunc (b_x1 b)) (o_bx o), Z.quot (qtrunc (b_y1 b)) (o_by o))
    end in
  let r := bregion o in
  Region (clampz x0 (rx0 r) (rx1 r - 1)) (clampz y0 (ry0 r) (ry1 r - 1))
         (clampz x1 (rx0 r) (rx1 r - 1)) (clampz y1 (ry0 r) (ry1 r - 1)).
(* imagebuffer.cpp:416-444: the first one of them which is not processed *)
Definition post_surface (st : pstate) (s : surf) : pstate :=
  match cull_surface s with
  | None => st
  | Some b =>
    let r := post_range b in
    if q_done st (rx0 r, ry0 r) then
      let scan := map (fun x => (x, ry0 r)) (zrange (rx0 r + 1) (rx1 r + 1))
                  ++ cells (Region (rx0 r) (ry0 r + 1) (rx1 r + 1) (ry1 r + 1)) in
      match find (fun b => negb (q_done st b)) scan with
      | Some b => add_gprim b s st
      | None => st
      end
    else add_gprim (rx0 r, ry0 r) s st
  end.

(* imagebuffer.cpp:449-477 RepostSurface: the surface, which was hidden in the bucket [b], goes to
   the next bucket its bound [rb] touches *)
Definition repost_surface (b : bpos) (rb : box) (s : surf) (st : pstate) : pstate :=
  let nx := fst b + 1 in
  if (nx <? rx1 (bregion o)) && Qle_bool (inject_Z (bucket_x o b + bucket_w o b)) (b_x1 rb)
  then add_gprim (nx, snd b) s st
  else
    let ny := snd b + 1 in
    let nx := Z.max (rx0 (bregion o)) (Z.quot (Qfloor (b_x0 rb)) (o_bx o)) in
    if (nx <? rx1 (bregion o)) && (ny <? ry1 (bregion o))
       && Qle_bool (inject_Z (bucket_y o b + bucket_h o b)) (b_y1 rb)
    then add_gprim (nx, ny) s st else st.

(* imagebuffer.cpp:514-591 AddMPG *)
Definition add_mpg (st : pstate) (m : mpoly) : pstate :=
  PState (q_pending st)
         (q_waiting st ++ map (fun b => (b, m)) (filter (fun b => negb (q_done st b)) (mp_buckets o m)))
         (q_done st) (q_rendered st) (q_hidden st).

(* bucketprocessor.cpp:924-936 RenderWaitingMPs *)
Definition render_waiting (b : bpos) (st : pstate) : pstate :=
  PState (q_pending st)
         (filter (fun e => negb (bpos_eqb (fst e) b)) (q_waiting st))
         (q_done st)
         (q_rendered st ++ filter (fun e => bpos_eqb (fst e) b) (q_waiting st)) (q_hidden st).

(* bucketprocessor.cpp:942-1060 RenderSurface.  [hid] is the answer of the occlusion tree, which
   is only asked if the surface has a bound; a surface that spans the plane of the eye is not
   diceable. *)
Definition render_surface (b : bpos) (hid : bool) (s : surf) (st : pstate) : pstate :=
  match bound_of s with
  | Some rb =>
    if hid then
      repost_surface b (grown rb) s
        (PState (q_pending st) (q_waiting st) (q_done st) (q_rendered st) (q_hidden st ++ [(b, s)]))
    else
      match s with
      | Dice _ _ ms => fold_left add_mpg ms st
      | Split _ _ parts => fold_left post_surface parts st
      | Discard _ _ => st
      end
  | None =>
    match s with
    | Split _ _ parts => fold_left post_surface parts st
    | _ => st
    end
  end.

(* bucket.h:93-116 pTopSurface, popSurface: one of the surfaces waiting in the bucket *)
Fixpoint pick (b : bpos) (k : nat) (l : list (bpos * surf)) : option (surf * list (bpos * surf)) :=
  match l with
  | [] => None
  | (q, s) :: r =>
    if bpos_eqb q b then
      match k with
      | O => Some (s, r)
      | S k' => match pick b k' r with
                | Some (s', r') => Some (s', (q, s) :: r')
                | None => Some (s, r)
                end
      end
    else match pick b k r with
         | Some (s', r') => Some (s', (q, s) :: r')
         | None => None
         end
  end.

Variable choice : pstate -> nat * bool.

(* bucketprocessor.cpp:221-235 the loop of process, at most n rounds *)
Fixpoint surfaces (n : nat) (b : bpos) (st : pstate) : option pstate :=
  let '(k, hid) := choice st in
  match pick b k (q_pending st) with
  | None => Some st
  | Some (s, rest) =>
    match n with
    | O => None
    | S n => surfaces n b (render_waiting b (render_surface b hid s
               (PState rest (q_waiting st) (q_done st) (q_rendered st) (q_hidden st))))
    end
  end.
(* bucketprocessor.cpp:208-239 process, then SetProcessed in postProcess *)
Definition process (n : nat) (b : bpos) (st : pstate) : option pstate :=
  do st <- surfaces n b (render_waiting b st);
  let st := render_waiting b st in
  Some (PState (q_pending st) (q_waiting st)
               (fun b' => if bpos_eqb b' b then true else q_done st b') (q_rendered st) (q_hidden st)).
(* imagebuffer.cpp:706-765: all buckets, at most m *)
Fixpoint all_buckets (n m : nat) (b : bpos) (st : pstate) : option pstate :=
  match m with
  | O => None
  | S m =>
    do st <- process n b st;
    match next_bucket o b with
    | Some b' => all_buckets n m b' st
    | None => Some st
    end
  end.
(* every surface of the scene is posted before the rendering starts *)
Definition render_scene (n m : nat) (scene : list surf) : option pstate :=
  all_buckets n m (rx0 (bregion o), ry0 (bregion o))
    (fold_left post_surface scene (PState [] [] (fun _ => false) [] [])).

End Post.

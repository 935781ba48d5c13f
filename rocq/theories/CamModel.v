(** Model of the picture settings and the matrices of the projection:
    libs/core/api/ri.cpp:566-803, libs/core/options.cpp:40-160 and 290-299,
    libs/core/renderer.cpp:1619-1627.

    Simplifications: numbers are exact rationals, so a division by 0 gives 0 here and
    an infinite number in the code; the theorems exclude it.  The tangent of half the
    field of view is the argument [tan_half].  Transformations stand still (moving ones
    are C61).  Between WorldBegin and WorldEnd nothing changes the settings, so a world
    is one operation. *)

From Coq Require Import List Bool ZArith QArith Qround.
From Verif Require Import MatModel.
Import ListNotations.
Local Open Scope Q_scope.

Inductive projection := Orthographic | Perspective | NoProjection.

(** The system options of options.cpp:290-299 that are used here, with the flags of
    include/aqsis/core/ioptions.h:76-77. *)
Record options := Options {
  xres : Z; yres : Z; pixel_ratio : Q;
  crop_l : Q; crop_r : Q; crop_t : Q; crop_b : Q;
  frame_ratio : Q;
  win_l : Q; win_r : Q; win_t : Q; win_b : Q;
  proj : projection; fov : Q;
  near : Q; far : Q;
  ratio_set : bool; window_set : bool }.

(** FLT_EPSILON and FLT_MAX. *)
Definition epsilon : Q := 1 # 8388608.
Definition largest : Q := ((2 ^ 24 - 1) * 2 ^ 104)%Z # 1.

(** options.cpp:290-299 *)
Definition defaults : options :=
  Options 640 480 1 0 1 0 1 (4 # 3) (-4 # 3) (4 # 3) 1 (-1) Orthographic 90 epsilon largest false false.

(** ri.cpp:731-736 *)
Definition format (x y : Z) (a : Q) (o : options) : options :=
  Options x y (if negb (Qle_bool 0 a) then 1 else a) (crop_l o) (crop_r o) (crop_t o) (crop_b o) (frame_ratio o)
    (win_l o) (win_r o) (win_t o) (win_b o) (proj o) (fov o) (near o) (far o) (ratio_set o) (window_set o).

(** ri.cpp:742-747 *)
Definition aspect (a : Q) (o : options) : options :=
  Options (xres o) (yres o) (pixel_ratio o) (crop_l o) (crop_r o) (crop_t o) (crop_b o) a
    (win_l o) (win_r o) (win_t o) (win_b o) (proj o) (fov o) (near o) (far o) true (window_set o).

(** ri.cpp:754-763 *)
Definition screen_window (l r b t : Q) (o : options) : options :=
  Options (xres o) (yres o) (pixel_ratio o) (crop_l o) (crop_r o) (crop_t o) (crop_b o) (frame_ratio o)
    l r t b (proj o) (fov o) (near o) (far o) (ratio_set o) true.

(** ri.cpp:770-776 *)
Definition crop_window (x0 x1 y0 y1 : Q) (o : options) : options :=
  Options (xres o) (yres o) (pixel_ratio o) x0 x1 y0 y1 (frame_ratio o)
    (win_l o) (win_r o) (win_t o) (win_b o) (proj o) (fov o) (near o) (far o) (ratio_set o) (window_set o).

(** ri.cpp:782-805: an unknown name changes nothing, see [step]. *)
Definition projecting (p : projection) (angle : option Q) (o : options) : options :=
  Options (xres o) (yres o) (pixel_ratio o) (crop_l o) (crop_r o) (crop_t o) (crop_b o) (frame_ratio o)
    (win_l o) (win_r o) (win_t o) (win_b o) p (match angle with Some a => a | None => fov o end)
    (near o) (far o) (ratio_set o) (window_set o).

(** ri.cpp:811-815 *)
Definition clipping (n f : Q) (o : options) : options :=
  Options (xres o) (yres o) (pixel_ratio o) (crop_l o) (crop_r o) (crop_t o) (crop_b o) (frame_ratio o)
    (win_l o) (win_r o) (win_t o) (win_b o) (proj o) (fov o) n f (ratio_set o) (window_set o).

(** ri.cpp:590-597 *)
Definition derive_ratio (o : options) : options :=
  if ratio_set o then o
  else Options (xres o) (yres o) (pixel_ratio o) (crop_l o) (crop_r o) (crop_t o) (crop_b o)
         (inject_Z (xres o) * pixel_ratio o / inject_Z (yres o))
         (win_l o) (win_r o) (win_t o) (win_b o) (proj o) (fov o) (near o) (far o) (ratio_set o) (window_set o).

Definition with_window (l r t b : Q) (o : options) : options :=
  Options (xres o) (yres o) (pixel_ratio o) (crop_l o) (crop_r o) (crop_t o) (crop_b o) (frame_ratio o)
    l r t b (proj o) (fov o) (near o) (far o) (ratio_set o) (window_set o).

(** ri.cpp:599-618 *)
Definition derive_window (o : options) : options :=
  if window_set o then o
  else if Qle_bool 1 (frame_ratio o) then
    with_window (- frame_ratio o) (frame_ratio o) 1 (-1) o
  else with_window (-1) 1 (1 / frame_ratio o) (-1 / frame_ratio o) o.

Definition at_place (i j : nat) (x : Q) : nat * nat * Q := (i, j, x).

(** Identity, SetfIdentity(false) and some elements set. *)
Definition with_elements (l : list (nat * nat * Q)) : matrix :=
  Mat (fun i j => match find (fun '(a, b, _) => (a =? i)%nat && (b =? j)%nat) l with
                  | Some (_, _, x) => x
                  | None => if (i =? j)%nat then 1 else 0
                  end) false.

Section Camera.
(** tan(degToRad(fov)/2), options.cpp:89 *)
Variable tan_half : Q -> Q.

(** options.cpp:59-112 *)
Definition to_image (o : options) : matrix :=
  match proj o with
  | Orthographic =>
      with_elements [at_place 2 2 (2 / (far o - near o)); at_place 3 2 (- (far o + near o) / (far o - near o))]
  | Perspective =>
      let s := tan_half (fov o) in
      let a := far o / (far o - near o) in
      with_elements [at_place 0 0 (1 / s); at_place 1 1 (1 / s); at_place 2 2 (a); at_place 3 2 (- near o * a); at_place 2 3 (1); at_place 3 3 (0)]
  | NoProjection => identity
  end.

(** options.cpp:122-127 *)
Definition to_screen (o : options) : matrix :=
  let l := win_l o in let r := win_r o in let t := win_t o in let b := win_b o in
  with_elements [at_place 0 0 (2 / (r - l)); at_place 1 1 (2 / (t - b)); at_place 3 0 (- (r + l) / (r - l)); at_place 3 1 (- (t + b) / (t - b))].

(** options.cpp:136-139 *)
Definition frame_x (o : options) : Q :=
  if Qle_bool 1 (frame_ratio o) then inject_Z (xres o)
  else inject_Z (yres o) * frame_ratio o / pixel_ratio o.

Definition frame_y (o : options) : Q :=
  if negb (Qle_bool 1 (frame_ratio o)) then inject_Z (yres o)
  else inject_Z (xres o) * pixel_ratio o / frame_ratio o.

(** options.cpp:144-152 *)
Definition to_ndc : matrix :=
  times (times (scaling (1 # 2) (1 # 2) 1) (translate_by identity 1 1 0)) (scaling 1 (-1) 1).

Definition to_raster (o : options) : matrix := scaling (frame_x o) (frame_y o) 1.

(** options.cpp:129-133; [pre] is the transformation before the Projection request. *)
Definition camera_to_screen (o : options) (pre : option matrix) : matrix :=
  times (times (to_screen o) (match pre with Some m => m | None => identity end)) (to_image o).

(** What the renderer makes of a world: the three matrices of options.cpp:155-159
    (stored by SetmatScreen and so on, C62) and the crop window, renderer.cpp:1619-1627.
    [cam] is the matrix from the world to the camera. *)
Record picture := Picture {
  screen : matrix; ndc : matrix; raster : matrix;
  first_x : Z; end_x : Z; first_y : Z; end_y : Z }.

(** include/aqsis/math/math.h:99-104 clamp, and lceil, 58-62 *)
Definition clamp (x lo hi : Z) : Z := if (x <? lo)%Z then lo else if (hi <? x)%Z then hi else x.

Definition crop_border (res : Z) (x : Q) : Z := clamp (Qceiling (inject_Z res * x)) 0 res.

Definition picture_of (o : options) (pre : option matrix) (cam : matrix) : picture :=
  let c := camera_to_screen o pre in
  Picture (times c cam) (times (times to_ndc c) cam) (times (times (times (to_raster o) to_ndc) c) cam)
    (crop_border (xres o) (crop_l o)) (crop_border (xres o) (crop_r o))
    (crop_border (yres o) (crop_t o)) (crop_border (yres o) (crop_b o)).

(** The requests.  An unknown projection is [ProjectionRequest None]. *)
Inductive op :=
| Format (x y : Z) (a : Q)
| FrameAspectRatio (a : Q)
| ScreenWindow (l r b t : Q)
| CropWindow (x0 x1 y0 y1 : Q)
| ProjectionRequest (p : option projection) (angle : option Q)
| Clipping (n f : Q)
| ConcatTransform (m : matrix)
| Transform (m : matrix)
| FrameBegin
| FrameEnd
| World.

(** The options and the transformation of the main block and of the frame block, if
    there is one (graphicsstate.cpp, C22, C49), and the member of the renderer that
    Projection sets (renderer.h:551). *)
Record state := State {
  main : options * matrix;
  inner : option (options * matrix);
  pre : option matrix }.

Definition start : state := State (defaults, identity) None None.

Definition current (s : state) : options * matrix :=
  match inner s with Some c => c | None => main s end.

Definition with_current (c : options * matrix) (s : state) : state :=
  match inner s with
  | Some _ => State (main s) (Some c) (pre s)
  | None => State c None (pre s)
  end.

Definition set (f : options -> options) (s : state) : state :=
  with_current (f (fst (current s)), snd (current s)) s.

Definition move (f : matrix -> matrix) (s : state) : state :=
  with_current (fst (current s), f (snd (current s))) s.

Definition with_pre (m : matrix) (s : state) : state := State (main s) (inner s) (Some m).

Definition step (r : op) (s : state) : state * list picture :=
  match r with
  | Format x y a => (set (format x y a) s, [])
  | FrameAspectRatio a => (set (aspect a) s, [])
  | ScreenWindow l r b t => (set (screen_window l r b t) s, [])
  | CropWindow x0 x1 y0 y1 => (set (crop_window x0 x1 y0 y1) s, [])
  | ProjectionRequest None _ => (s, [])
  | ProjectionRequest (Some p) angle =>
      let s := set (projecting p angle) s in
      (move (fun _ => identity) (with_pre (snd (current s)) s), [])
  | Clipping n f => (set (clipping n f) s, [])
  | ConcatTransform m => (move (fun c => times c m) s, [])
  | Transform m => (move (fun _ => m) s, [])
  | FrameBegin =>
      (match inner s with None => State (main s) (Some (main s)) (pre s) | Some _ => s end, [])
  | FrameEnd => (State (main s) None (pre s), [])
  | World =>
      let s := set (fun o => derive_window (derive_ratio o)) s in
      (s, [picture_of (fst (current s)) (pre s) (snd (current s))])
  end.

Fixpoint run (l : list op) (s : state) : list picture :=
  match l with
  | [] => []
  | r :: l => let '(s, out) := step r s in out ++ run l s
  end.

Definition pictures (l : list op) : list picture := run l start.
End Camera.

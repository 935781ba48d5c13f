(** What the picture settings mean, without options blocks and matrices of the
    renderer: the requests in force at a world, the latest of each kind, and the place
    of a point in the picture. *)

From Coq Require Import List Bool ZArith QArith.
From Verif Require Import MatModel MatSpec CamModel.
Import ListNotations.
Local Open Scope Q_scope.

(** The requests outside frames and, in a frame, those of the frame, latest first. *)
Record scope := Scope { outside : list op; frame : option (list op) }.

Definition in_force (s : scope) : list op :=
  match frame s with Some f => f ++ outside s | None => outside s end.

Definition note (r : op) (s : scope) : scope :=
  match r with
  | FrameBegin => match frame s with None => Scope (outside s) (Some []) | Some _ => s end
  | FrameEnd => Scope (outside s) None
  | World => s
  | _ => match frame s with
         | Some f => Scope (outside s) (Some (r :: f))
         | None => Scope (r :: outside s) None
         end
  end.

(** For each world the requests in force. *)
Fixpoint worlds (l : list op) (s : scope) : list (list op) :=
  match l with
  | [] => []
  | World :: l => in_force s :: worlds l s
  | r :: l => worlds l (note r s)
  end.

Definition all_worlds (l : list op) : list (list op) := worlds l (Scope [] None).

(** The latest request that says something. *)
Fixpoint latest {A} (f : op -> option A) (l : list op) : option A :=
  match l with
  | [] => None
  | r :: l => match f r with Some a => Some a | None => latest f l end
  end.

Definition or_else {A} (x : option A) (d : A) : A := match x with Some a => a | None => d end.

Definition size (l : list op) : Z * Z * Q :=
  or_else (latest (fun r => match r with Format x y a => Some (x, y, if Qlt_le_dec a 0 then 1 else a) | _ => None end) l)
          (640%Z, 480%Z, 1).

Definition width (l : list op) : Z := fst (fst (size l)).
Definition height (l : list op) : Z := snd (fst (size l)).
Definition pixel (l : list op) : Q := snd (size l).

Definition asked_ratio (l : list op) : option Q :=
  latest (fun r => match r with FrameAspectRatio a => Some a | _ => None end) l.

(** The width of the picture divided by its height, in units of length. *)
Definition ratio (l : list op) : Q :=
  or_else (asked_ratio l) (inject_Z (width l) * pixel l / inject_Z (height l)).

(** Left, right, bottom and top of the screen window; the shorter side goes from -1 to 1. *)
Definition window (l : list op) : Q * Q * (Q * Q) :=
  or_else (latest (fun r => match r with ScreenWindow x0 x1 y0 y1 => Some (x0, x1, (y0, y1)) | _ => None end) l)
          (if Qlt_le_dec (ratio l) 1 then (-1, 1, (- (1 / ratio l), 1 / ratio l))
           else (- ratio l, ratio l, (-1, 1))).

Definition left_side (l : list op) : Q := fst (fst (window l)).
Definition right_side (l : list op) : Q := snd (fst (window l)).
Definition bottom_side (l : list op) : Q := fst (snd (window l)).
Definition top_side (l : list op) : Q := snd (snd (window l)).

Definition crop (l : list op) : Q * Q * (Q * Q) :=
  or_else (latest (fun r => match r with CropWindow x0 x1 y0 y1 => Some (x0, x1, (y0, y1)) | _ => None end) l)
          (0, 1, (0, 1)).

Definition kind (l : list op) : projection :=
  or_else (latest (fun r => match r with ProjectionRequest (Some p) _ => Some p | _ => None end) l) Orthographic.

Definition angle (l : list op) : Q :=
  or_else (latest (fun r => match r with ProjectionRequest (Some _) (Some a) => Some a | _ => None end) l) 90.

Definition clip (l : list op) : Q * Q :=
  or_else (latest (fun r => match r with Clipping n f => Some (n, f) | _ => None end) l) (epsilon, largest).

(** The transformation: the latest request acts first, a projection starts again. *)
Fixpoint way (l : list op) : elements :=
  match l with
  | [] => one
  | ConcatTransform m :: l => product (E m) (way l)
  | Transform m :: _ => E m
  | ProjectionRequest (Some _) _ :: _ => one
  | _ :: l => way l
  end.

(** What was there before the latest projection. *)
Fixpoint way_before (l : list op) : elements :=
  match l with
  | [] => one
  | ProjectionRequest (Some _) _ :: l => way l
  | _ :: l => way_before l
  end.

(** [p] is the image of the point [v]. *)
Definition image (A : elements) (v p : nat -> Q) : Prop :=
  let w := moved A (point v) 3%nat in
  ~ w == 0 /\ forall j, (j < 3)%nat -> p j * w == moved A (point v) j.

Definition triple (x y z : Q) : nat -> Q := fun j => match j with 0%nat => x | 1%nat => y | _ => z end.

Section Places.
Variable tan_half : Q -> Q.

(** The point [c] before the camera, seen on the image plane. *)
Definition projected (l : list op) (c : nat -> Q) : nat -> Q :=
  let '(n, f) := clip l in
  match kind l with
  | Perspective =>
      let z := c 2%nat in
      triple (c 0%nat / (z * tan_half (angle l))) (c 1%nat / (z * tan_half (angle l))) (f * (z - n) / ((f - n) * z))
  | Orthographic => triple (c 0%nat) (c 1%nat) (2 * (c 2%nat - n) / (f - n) - 1)
  | NoProjection => c
  end.

(** The largest window of the picture that has the ratio asked for. *)
Definition fits (l : list op) (fx fy : Q) : Prop :=
  fx * pixel l == ratio l * fy /\ fx <= inject_Z (width l) /\ fy <= inject_Z (height l) /\
  (fx == inject_Z (width l) \/ fy == inject_Z (height l)).

Definition goes_to (m : matrix) (v : nat -> Q) (x y z : Q) : Prop :=
  exists r, image3 m v = Some r /\ r 0%nat == x /\ r 1%nat == y /\ r 2%nat == z.

(** Each point of the world is shown at its place: a part of the screen window is the
    same part of the frame, from its top left corner. *)
Definition places (l : list op) (p : picture) (fx fy : Q) : Prop :=
  forall v c k,
  image (way l) v c -> (kind l = Perspective -> ~ c 2%nat == 0) ->
  image (way_before l) (projected l c) k ->
  let x := (k 0%nat - left_side l) / (right_side l - left_side l) in
  let y := (top_side l - k 1%nat) / (top_side l - bottom_side l) in
  goes_to (screen p) v (2 * x - 1) (1 - 2 * y) (k 2%nat) /\
  goes_to (ndc p) v x y (k 2%nat) /\
  goes_to (raster p) v (fx * x) (fy * y) (k 2%nat).

(** The pixels whose left or upper border is in the part [a, b) of the picture. *)
Definition pixels (res : Z) (a b : Q) (first last : Z) : Prop :=
  forall i : Z, (first <= i < last)%Z <->
    (0 <= i < res)%Z /\ a * inject_Z res <= inject_Z i /\ inject_Z i < b * inject_Z res.

Definition cropped (l : list op) (p : picture) : Prop :=
  let '(x0, x1, (y0, y1)) := crop l in
  pixels (width l) x0 x1 (first_x p) (end_x p) /\ pixels (height l) y0 y1 (first_y p) (end_y p).

Definition shows (l : list op) (p : picture) : Prop :=
  cropped l p /\ exists fx fy, fits l fx fy /\ places l p fx fy.

(** Settings that make sense. *)
Definition sensible (l : list op) : Prop :=
  (0 < width l)%Z /\ (0 < height l)%Z /\ 0 < pixel l /\ 0 < ratio l /\
  ~ left_side l == right_side l /\ ~ top_side l == bottom_side l /\
  ~ fst (clip l) == snd (clip l) /\
  (kind l = Perspective -> ~ tan_half (angle l) == 0).
End Places.

(** A ratio that was asked for goes with the shape of the picture: a frame that is wider
    than high is no higher than the picture, and so on. *)
Definition shaped (l : list op) : Prop :=
  asked_ratio l = None \/
  (1 <= ratio l /\ inject_Z (width l) * pixel l <= ratio l * inject_Z (height l)) \/
  (ratio l < 1 /\ ratio l * inject_Z (height l) <= inject_Z (width l) * pixel l).

(** No world sees a projection of a frame that has ended: [stale] tells that there was
    one since the latest projection, [inside] that the frame has a projection. *)
Fixpoint settled (stale : bool) (inside : option bool) (l : list op) : bool :=
  match l with
  | [] => true
  | ProjectionRequest (Some _) _ :: l => settled false (option_map (fun _ => true) inside) l
  | FrameBegin :: l => settled stale (match inside with None => Some false | x => x end) l
  | FrameEnd :: l => settled (stale || match inside with Some b => b | None => false end) None l
  | World :: l => negb stale && settled stale inside l
  | _ :: l => settled stale inside l
  end.

Definition honest_op (r : op) : Prop :=
  match r with ConcatTransform m => honest m | Transform m => honest m | _ => True end.

(** Model of the named coordinate systems: libs/core/renderer.{h,cpp}.

    Matrices are those of MatModel.v (exact rationals), transformations those of
    XformModel.v, names and their hashes those of HashModel.v.  [None] is an access
    outside the vector of coordinate systems, or a division by zero in an inverse. *)

From Coq Require Import List Arith Bool ZArith QArith String.
From Verif Require Import MatModel HashModel MotionModel XformModel.
Import ListNotations.
Local Open Scope nat_scope.

(** renderer.h:58-74 SqCoordSys; the name itself is not used again. *)
Record system := System { shash : Z; to_world : matrix; world_to : matrix }.

(** The members of the renderer (renderer.h:549, 590), the static variables of
    WhichMatToWorld and WhichMatWorldTo (renderer.cpp:1463, 1493) and of the file
    (renderer.cpp:65-66).  The static variables live as long as the program. *)
Record world := World {
  systems : list system;
  camera : xform;
  awhich : nat;
  bwhich : nat;
  key_v : matrix; result_v : matrix;
  key_n : matrix; result_n : matrix }.

Inductive outcome := Found (i : nat) | Missing | Outside.

(** The loops of renderer.cpp:1467-1474 and 1477-1484: the indices from [stop + n]
    (without it) down to [stop]. *)
Fixpoint down (h : Z) (l : list system) (stop n : nat) : outcome :=
  match n with
  | O => Missing
  | Datatypes.S n' =>
      match nth_error l (stop + n') with
      | None => Outside
      | Some s => if Z.eqb (shash s) h then Found (stop + n') else down h l stop n'
      end
  end.

(** renderer.cpp:1461-1487 WhichMatToWorld and 1491-1517 WhichMatWorldTo: the index
    found and the new value of the static variable, whose old value is [last]. *)
Definition which (h : Z) (l : list system) (last : nat) : option (option nat * nat) :=
  match down h l 0 (last + 1) with
  | Outside => None
  | Found i => Some (Some i, i)
  | Missing =>
      match down h l (last + 1) (List.length l - (last + 1)) with
      | Outside => None
      | Found i => Some (Some i, i)
      | Missing => Some (None, Nat.min last (List.length l - 1))
      end
  end.

Section Session.
Variable word : Z.

Definition hash_of (s : string) : Z := hash word (text s).

(** renderer.cpp:117-130: the standard systems, with the default matrices. *)
Definition standard : list system :=
  map (fun s => System (hash_of s) identity identity)
      ["__camera__"; "__current__"; "world"; "screen"; "NDC"; "raster"]%string.

(** renderer.cpp:85-130: a new renderer, whose camera is a new transformation. *)
Definition start : world := World standard new_xform 0 0 identity identity identity identity.

Definition new_renderer (w : world) : world :=
  World standard new_xform (awhich w) (bwhich w) (key_v w) (result_v w) (key_n w) (result_n w).

Definition with_systems (w : world) (l : list system) : world :=
  World l (camera w) (awhich w) (bwhich w) (key_v w) (result_v w) (key_n w) (result_n w).

Definition with_camera (w : world) (x : xform) : world :=
  World (systems w) x (awhich w) (bwhich w) (key_v w) (result_v w) (key_n w) (result_n w).

Definition with_a (w : world) (i : nat) : world :=
  World (systems w) (camera w) i (bwhich w) (key_v w) (result_v w) (key_n w) (result_n w).

Definition with_b (w : world) (i : nat) : world :=
  World (systems w) (camera w) (awhich w) i (key_v w) (result_v w) (key_n w) (result_n w).

Definition with_v (w : world) (k r : matrix) : world :=
  World (systems w) (camera w) (awhich w) (bwhich w) k r (key_n w) (result_n w).

Definition with_n (w : world) (k r : matrix) : world :=
  World (systems w) (camera w) (awhich w) (bwhich w) (key_v w) (result_v w) k r.

(** renderer.cpp:1092-1108 SetCoordSystem, with the inverse in [inv]. *)
Fixpoint set_system (h : Z) (m inv : matrix) (l : list system) : list system :=
  match l with
  | [] => [System h m inv]
  | s :: r => if Z.eqb (shash s) h then System (shash s) m inv :: r else s :: set_system h m inv r
  end.

(** renderer.h:288-318 SetmatScreen, SetmatNDC and SetmatRaster; [i] is 3, 4 or 5. *)
Fixpoint replace (i : nat) (f : system -> system) (l : list system) : option (list system) :=
  match l, i with
  | [], _ => None
  | s :: r, O => Some (f s :: r)
  | s :: r, Datatypes.S i' => option_map (cons s) (replace i' f r)
  end.

Definition set_view (i : nat) (m : matrix) (w : world) : option world :=
  if negb (Qeq_bool (determinant m) 0) then
    match inverse m with
    | None => None
    | Some inv => option_map (with_systems w) (replace i (fun s => System (shash s) inv m) (systems w))
    end
  else option_map (with_systems w) (replace i (fun s => System (shash s) identity m) (systems w)).

(** renderer.cpp:846-862 (the same in 905-922 and 968-985): the matrix from a space to
    the world.  [Some (w, None)] is "return false". *)
Definition from_space (n : name) (shader object : option xform) (t : time) (w : world)
  : option (world * option matrix) :=
  let fhash := hash word n in
  if Z.eqb fhash (hash_of "object") then
    match object with
    | None => Some (w, Some identity)
    | Some x => bind (mat_at x t) (fun m => Some (w, Some m))
    end
  else if Z.eqb fhash (hash_of "shader") then
    match shader with
    | None => Some (w, Some identity)
    | Some x => bind (mat_at x t) (fun m => Some (w, Some m))
    end
  else if Z.eqb fhash (hash_of "camera") || Z.eqb fhash (hash_of "current") then
    bind (mat_at (camera w) t) (fun m => bind (inverse m) (fun i => Some (w, Some i)))
  else
    bind (which fhash (systems w) (awhich w)) (fun '(found, last) =>
      let w := with_a w last in
      match found with
      | None => Some (w, None)
      | Some i => bind (nth_error (systems w) i) (fun s => Some (w, Some (to_world s)))
      end).

(** renderer.cpp:865-885 (924-942, 987-1004): from the world to a space. *)
Definition to_space (n : name) (shader object : option xform) (t : time) (w : world)
  : option (world * option matrix) :=
  let thash := hash word n in
  if Z.eqb thash (hash_of "object") then
    match object with
    | None => Some (w, Some identity)
    | Some x => bind (mat_at x t) (fun m => bind (inverse m) (fun i => Some (w, Some i)))
    end
  else if Z.eqb thash (hash_of "shader") then
    match shader with
    | None => Some (w, Some identity)
    | Some x => bind (mat_at x t) (fun m => bind (inverse m) (fun i => Some (w, Some i)))
    end
  else if Z.eqb thash (hash_of "camera") || Z.eqb thash (hash_of "current") then
    bind (mat_at (camera w) t) (fun m => Some (w, Some m))
  else
    bind (which thash (systems w) (bwhich w)) (fun '(found, last) =>
      let w := with_b w last in
      match found with
      | None => Some (w, None)
      | Some i => bind (nth_error (systems w) i) (fun s => Some (w, Some (world_to s)))
      end).

(** matSpaceToSpace, matVSpaceToSpace and matNSpaceToSpace. *)
Inductive kind := Points | Vectors | Normals.

(** renderer.cpp:947-960 and 1008-1022: what is kept from the question before.  The
    comparison of the bytes is that of the elements.  The matrix whose last row and
    column are replaced is MatModel.vector_transform. *)
Definition finish (k : kind) (result : matrix) (w : world) : option (world * matrix) :=
  match k with
  | Points => Some (w, result)
  | Vectors =>
      if negb (same_elements (key_v w) result) then
        let r := vector_transform result in Some (with_v w result r, r)
      else Some (w, result_v w)
  | Normals =>
      if negb (same_elements (key_n w) result) then
        bind (inverse (vector_transform result)) (fun i =>
          let r := transpose i in Some (with_n w result r, r))
      else Some (w, result_n w)
  end.

(** renderer.cpp:838-889, 897-962, 970-1025. *)
Definition ask (k : kind) (from to : name) (shader object : option xform) (t : time) (w : world)
  : option (world * option matrix) :=
  bind (from_space from shader object t w) (fun '(w, a) =>
    match a with
    | None => Some (w, None)
    | Some ma =>
        bind (to_space to shader object t w) (fun '(w, b) =>
          match b with
          | None => Some (w, None)
          | Some mb =>
              bind (finish k (MatModel.times mb ma) w) (fun '(w, r) => Some (w, Some r))
          end)
    end).

(** What the program does with coordinate systems: RiCoordinateSystem (ri.cpp:1703-1708,
    with the current matrix), the camera (renderer.h:322), the three matrices of the
    projection, questions, and a new renderer (RiBegin, ri.cpp:4030-4037). *)
Inductive view := Screen | NDC | Raster.

Definition view_index (v : view) : nat := match v with Screen => 3 | NDC => 4 | Raster => 5 end.

Inductive op :=
| Save (n : name) (m : matrix)
| Camera (x : xform)
| View (v : view) (m : matrix)
| Ask (k : kind) (from to : name) (shader object : option xform) (t : time)
| NewRenderer.

Definition step (o : op) (w : world) : option (world * list (option matrix)) :=
  match o with
  | Save n m =>
      bind (inverse m) (fun inv =>
        Some (with_systems w (set_system (hash word n) m inv (systems w)), []))
  | Camera x => Some (with_camera w x, [])
  | View v m => bind (set_view (view_index v) m w) (fun w => Some (w, []))
  | Ask k from to sh ob t => bind (ask k from to sh ob t w) (fun '(w, r) => Some (w, [r]))
  | NewRenderer => Some (new_renderer w, [])
  end.

Fixpoint run (l : list op) (w : world) : option (world * list (option matrix)) :=
  match l with
  | [] => Some (w, [])
  | o :: l =>
      bind (step o w) (fun '(w, out) =>
      bind (run l w) (fun '(w, out') => Some (w, out ++ out')))
  end.

Definition answers (l : list op) : option (list (option matrix)) := option_map snd (run l start).
End Session.

(** Model of the current transformation: libs/core/transform.cpp (CqTransform, on
    the key frames of libs/core/motion.h), the blocks which save it
    (libs/core/api/graphicsstate.{h,cpp}, libs/core/renderer.cpp) and the requests
    which change it (libs/core/api/ri.cpp).

    Matrices are those of MatModel.v (exact rationals), times and key frames those of
    MotionModel.v.  [None] is an assertion that fails or an access outside a vector.
    A division by zero in an inverse is [None] too. *)

From Coq Require Import List Arith Bool QArith ZArith.
From Verif Require Import MatModel MotionModel.
From Verif Require StateModel.
Import ListNotations.
Local Open Scope nat_scope.

(** libs/core/transform.h:52-60 SqTransformation. *)
Record key := Key { kmat : matrix; khand : bool }.

(** transform.cpp:36 and transform.h: the default key is the identity with
    handedness false. *)
Definition no_key : key := Key identity false.

(** transform.cpp:169, 202, 255: [!matTrans.fIdentity() && det < 0]. *)
Definition flips (m : matrix) : bool :=
  negb (idf m) && negb (Qle_bool 0 (determinant m)).

(** transform.cpp:366 and 234: here the flag is not looked at. *)
Definition det_negative (m : matrix) : bool := negb (Qle_bool 0 (determinant m)).

(** [(flip) ? !h : h]. *)
Definition turned (flip h : bool) : bool := if flip then negb h else h.

(** transform.cpp:362-369 ConcatMotionObjects. *)
Definition concat_keys (a b : key) : key :=
  Key (MatModel.times (kmat a) (kmat b)) (turned (det_negative (kmat b)) (khand a)).

(** transform.cpp:371-375 LinearInterpolateMotionObjects. *)
Definition between_keys (_ : Q) (a _ : key) : key := a.

(** transform.h: the members of CqTransform. *)
Record xform := Xform { slots : mspec key; moving : bool; fixed : matrix; hand : bool }.

(** transform.cpp:36 the default constructor. *)
Definition new_xform : xform := Xform (new_spec no_key) false identity false.

(** transform.cpp:290-300 matObjectToWorld and 323-329 GetHandedness. *)
Definition mat_at (x : xform) (t : time) : option matrix :=
  if moving x then option_map kmat (get_interpolated key between_keys t (slots x))
  else Some (fixed x).

Definition hand_at (x : xform) (t : time) : option bool :=
  if moving x then option_map khand (get_interpolated key between_keys t (slots x))
  else Some (hand x).

(** The key frame operations of motion.h, with CqTransform's concatenation. *)
Definition add_slot (t : time) (k : key) (x : xform) : option xform :=
  option_map (fun s => Xform s (moving x) (fixed x) (hand x)) (add_time_slot key t k (slots x)).

Definition concat_slot (t : time) (k : key) (x : xform) : option xform :=
  option_map (fun s => Xform s (moving x) (fixed x) (hand x))
             (concat_time_slot key concat_keys t k (slots x)).

Definition set_default (k : key) (x : xform) : xform :=
  Xform (mkspec (MotionModel.times (slots x)) (objects (slots x)) k) (moving x) (fixed x) (hand x).

Definition start_moving (x : xform) : xform := Xform (slots x) true (fixed x) (hand x).

(** transform.cpp:92-99 and 73-85: the constructor used for world blocks.  [now] is
    the time of the renderer. *)
Definition world_copy (now : time) (from : xform) : option xform :=
  match mat_at from now, hand_at from now with
  | Some m, Some h =>
      Some (set_default (Key m h) (Xform (slots from) false (fixed from) (hand from)))
  | _, _ => None
  end.

(** graphicsstate.cpp:268-279: the copy of a motion block. *)
Definition motion_copy (from : xform) : option xform :=
  let t0 := slot_time key 0 (slots from) in
  match mat_at from t0, hand_at from t0 with
  | Some m, Some h => Some (set_default (Key m h) from)
  | _, _ => None
  end.

(** transform.cpp:228-237: the loop over the later keys.  [mat0] is the matrix of the
    first key before the change. *)
Fixpoint spread (mat0 m : matrix) (hand0 : bool) (i n : nat) (x : xform) : option xform :=
  match n with
  | O => Some x
  | Datatypes.S n' =>
      let t := slot_time key (Z.of_nat i) (slots x) in
      match mat_at x t with
      | None => None
      | Some mi =>
          match inverse mi with
          | None => None
          | Some inv =>
              let offset := MatModel.times mat0 inv in
              match add_slot t (Key (MatModel.times offset m) (turned (det_negative offset) hand0)) x with
              | None => None
              | Some x' => spread mat0 m hand0 (i + 1) n' x'
              end
          end
      end
  end.

(** transform.cpp:199-245 SetTransform.  [camera] is the matrix from world to camera
    at the current time (renderer.cpp:838-889, where the space "world" has the
    identity), [block] tells whether the current block is a motion block. *)
Definition set_transform (block : bool) (camera : matrix) (t : time) (m : matrix) (x : xform)
  : option xform :=
  let h := turned (flips m) (flips camera) in
  if block then option_map start_moving (add_slot t (Key m h) x)
  else if moving x then
    let t0 := slot_time key 0 (slots x) in
    match mat_at x t0 with
    | None => None
    | Some mat0 =>
        match add_slot t0 (Key m h) x with
        | None => None
        | Some x' => spread mat0 m h 1 (List.length (MotionModel.times (slots x')) - 1) x'
        end
    end
  else Some (Xform (slots x) (moving x) m h).

(** transform.cpp:166-195 SetCurrentTransform. *)
Definition set_current (block : bool) (t : time) (m : matrix) (x : xform) : option xform :=
  let k := Key m (negb (flips m)) in
  if block then option_map start_moving (add_slot t k x)
  else if moving x then add_slot t k x
  else Some (set_default (Key m (flips m))
               (Xform (slots x) (moving x) m (turned (flips m) (hand x)))).

(** transform.cpp:252-283 ConcatCurrentTransform. *)
Definition concat_current (block : bool) (t : time) (m : matrix) (x : xform) : option xform :=
  let h := turned (flips m) (hand x) in
  let k := Key m h in
  if block then option_map start_moving (concat_slot t k x)
  else if moving x then
    Some (Xform (concat_all key concat_keys k (slots x)) (moving x) (fixed x) (hand x))
  else Some (set_default (Key m h) (Xform (slots x) (moving x) (MatModel.times (fixed x) m) h)).

(** graphicsstate.h: a block, with its kind, its transformation and, for motion
    blocks, its times and the number of the current one. *)
Record block := Block { kind : StateModel.btype; trans : xform; ts : list time; it : nat }.

Record state := State { blocks : list block; camera : xform; in_world : bool }.

Definition is_motion (k : StateModel.btype) : bool :=
  match k with StateModel.BMotion => true | _ => false end.

(** graphicsstate.h:842-848: the time of a motion block; beyond the last one it is 0. *)
Definition block_time (b : block) : time :=
  match nth_error (ts b) (it b) with Some t => t | None => 0%Z end.

(** The requests: ri.cpp:1551-1735.  Rotate and Skew make their matrices as in
    MatModel.v; here the matrix is the argument ([Turn]).  [Space] is
    CoordSysTransform for a space whose matrix to the world is the argument.
    [Other] is any other request that ends with AdvanceTime. *)
Inductive request :=
| Identity
| Transform (f : elements)
| ConcatTransform (f : elements)
| Perspective (tan_half : Q)
| Translate (x y z : Q)
| Turn (m : matrix)
| Scale (x y z : Q)
| Space (m : matrix)
| Other.

Inductive op :=
| Begin (k : StateModel.btype) (times : list time)
| End (k : StateModel.btype)
| Do (r : request)
| Primitive.

Section Session.
(** The option "Shutter", start of the shutter: renderer.cpp:515. *)
Variable shutter : time.

(** renderer.cpp:510-516 Time. *)
Definition now (b : block) : time := if is_motion (kind b) then block_time b else shutter.

(** graphicsstate.h:850-855 AdvanceTime, with its assertion. *)
Definition advance (b : block) : option block :=
  if is_motion (kind b) then
    if (Nat.leb (it b + 1) (List.length (ts b))) then
      Some (Block (kind b) (trans b) (ts b) (it b + 1))
    else None
  else Some b.

Definition with_trans (b : block) (x : xform) : block := Block (kind b) x (ts b) (it b).

(** renderer.cpp:641-648 ptransSetTime. *)
Definition ptrans_set (cam : xform) (m : matrix) (b : block) : option block :=
  match mat_at cam (now b) with
  | None => None
  | Some c => option_map (with_trans b) (set_transform (is_motion (kind b)) c (now b) m (trans b))
  end.

(** renderer.cpp:650-656 ptransSetCurrentTime. *)
Definition ptrans_set_current (m : matrix) (b : block) : option block :=
  option_map (with_trans b) (set_current (is_motion (kind b)) (now b) m (trans b)).

(** renderer.cpp:658-664 ptransConcatCurrentTime. *)
Definition ptrans_concat (m : matrix) (b : block) : option block :=
  option_map (with_trans b) (concat_current (is_motion (kind b)) (now b) m (trans b)).

(** ri.cpp:1627: the matrix of Perspective. *)
Definition perspective (fov : Q) : matrix :=
  full (fun i j => nth j (nth i [[1; 0; 0; 0]; [0; 1; 0; 0]; [0; 0; fov; fov]; [0; 0; - fov; 0]]%Q []) 0%Q).

Definition bind {A B} (a : option A) (f : A -> option B) : option B :=
  match a with Some a => f a | None => None end.

(** ri.cpp:1551-1735.  The default object transformation, renewed by WorldBegin
    (ri.cpp:634-635), is always a new one, that is the identity. *)
Definition request_step (r : request) (cam : xform) (world : bool) (b : block) : option block :=
  bind
    (match r with
     | Identity => ptrans_set cam identity b
     | Transform f =>
         if world then
           bind (mat_at new_xform (now b)) (fun d =>
           bind (ptrans_set cam d b) (fun b1 => ptrans_concat (full f) b1))
         else ptrans_set cam (full f) b
     | ConcatTransform f => ptrans_concat (full f) b
     | Perspective fov => ptrans_concat (perspective fov) b
     | Translate x y z => ptrans_concat (translation x y z) b
     | Turn m => ptrans_concat m b
     | Scale x y z => ptrans_concat (scaling x y z) b
     | Space m =>
         if world then
           bind (mat_at new_xform (now b)) (fun d =>
           bind (ptrans_set_current d b) (fun b1 => ptrans_concat m b1))
         else ptrans_set_current m b
     | Other => Some b
     end) advance.

(** renderer.cpp:190-350: a block that the current one does not allow is not opened.
    ri.cpp:575-650: WorldBegin takes the camera from the current transformation,
    opens the block and sets the transformation to the identity. *)
Definition begin_step (k : StateModel.btype) (tms : list time) (st : state) : option state :=
  match blocks st with
  | [] => None
  | b :: r =>
      let opened :=
        if StateModel.allows (kind b) k then
          match k with
          | StateModel.BWorld =>
              bind (world_copy (now b) (trans b)) (fun x => Some (Block k x [] 0 :: b :: r))
          | StateModel.BMotion =>
              bind (motion_copy (trans b)) (fun x => Some (Block k x tms 0 :: b :: r))
          | _ => Some (Block k (trans b) [] 0 :: b :: r)
          end
        else Some (b :: r) in
      match k with
      | StateModel.BWorld =>
          let cam := trans b in
          bind opened (fun bs =>
            match bs with
            | [] => None
            | b1 :: r1 => bind (ptrans_set cam identity b1) (fun b2 => Some (State (b2 :: r1) cam true))
            end)
      | _ => bind opened (fun bs => Some (State bs (camera st) (in_world st)))
      end
  end.

(** renderer.cpp:371-502: only a block of the right kind is closed; a motion block
    hands its transformation to the block around it.  ri.cpp:706 and 723: WorldEnd. *)
Definition end_step (k : StateModel.btype) (st : state) : option state :=
  match blocks st with
  | [] => None
  | b :: r =>
      let bs :=
        if StateModel.btype_eqb (kind b) k then
          if is_motion k then
            match r with
            | [] => None
            | p :: r' => Some (with_trans p (trans b) :: r')
            end
          else Some r
        else Some (b :: r) in
      bind bs (fun bs =>
        Some (State bs (camera st)
                    (match k with StateModel.BWorld => false | _ => in_world st end)))
  end.

(** What a primitive gets: the transformation of the moment and the camera. *)
Definition step (o : op) (st : state) : option (state * list (xform * xform)) :=
  match o with
  | Begin k tms => option_map (fun s => (s, [])) (begin_step k tms st)
  | End k => option_map (fun s => (s, [])) (end_step k st)
  | Do r =>
      match blocks st with
      | [] => None
      | b :: bs =>
          option_map (fun b' => (State (b' :: bs) (camera st) (in_world st), []))
                     (request_step r (camera st) (in_world st) b)
      end
  | Primitive =>
      match blocks st with
      | [] => None
      | b :: _ => Some (st, [(trans b, camera st)])
      end
  end.

Fixpoint run (l : list op) (st : state) : option (state * list (xform * xform)) :=
  match l with
  | [] => Some (st, [])
  | o :: l =>
      bind (step o st) (fun '(st, out) =>
      bind (run l st) (fun '(st, out') => Some (st, out ++ out')))
  end.

(** ri.cpp:4030-4042: RiBegin. *)
Definition start : option state :=
  bind (ptrans_set new_xform identity (Block StateModel.BMain new_xform [] 0)) (fun b =>
  Some (State [b] (trans b) false)).
End Session.

(** What requests that change the current transformation are expected to do, without
    the code of aqsis.

    A transformation is a function of time.  A request within a motion block acts at
    its own time alone, any other request at all times.  A block that is closed gives
    back the transformation of its beginning, but for motion blocks.  The world
    begins with the identity, and the transformation before it is the camera. *)

From Coq Require Import List Arith Bool QArith ZArith.
From Verif Require Import MatModel MatSpec MotionModel XformModel.
From Verif Require StateModel.
Import ListNotations.
Local Open Scope nat_scope.

(** The matrix of a perspective. *)
Definition perspective_spec (t : Q) : elements := fun i j =>
  match i, j with
  | 0, 0 | 1, 1 => 1%Q
  | 2, 2 | 2, 3 => t
  | 3, 2 => (- t)%Q
  | _, _ => 0%Q
  end.

(** What a request does to the transformation [A].  The image of a point under
    [product M A] is that under [A] of that under [M]. *)
Definition meant (r : request) (A : elements) : elements :=
  match r with
  | Identity => one
  | Transform f => f
  | ConcatTransform f => product f A
  | Perspective t => product (perspective_spec t) A
  | Translate x y z => product (translation_spec x y z) A
  | Turn m => product (E m) A
  | Scale x y z => product (scaling_spec x y z) A
  | Space m => E m
  | Other => A
  end.

(** A block: its kind, the transformation, the times at which it was changed by
    motion blocks, the times that a motion block has still to serve, the first of
    which is the next, and whether it is in the world. *)
Record sblock := SBlock {
  skind : StateModel.btype;
  val : time -> elements;
  keys : list time;
  still_to_do : list time;
  within : bool }.

Record sstate := SState { sblocks : list sblock; scamera : elements }.

(** A request.  Only requests for the transformation make a key. *)
Definition changes (r : request) : bool := match r with Other => false | _ => true end.

Definition do_request (r : request) (b : sblock) : option sblock :=
  match skind b with
  | StateModel.BMotion =>
      match still_to_do b with
      | [] => None
      | t :: rest =>
          Some (SBlock (skind b)
                  (fun u => if Z.eqb u t then meant r (val b u) else val b u)
                  (if changes r then t :: keys b else keys b) rest (within b))
      end
  | _ => Some (SBlock (skind b) (fun u => meant r (val b u)) (keys b) [] (within b))
  end.

(** What a primitive is to get: the transformation, its keys, the camera and whether
    it is in the world. *)
Record given := Given { gval : time -> elements; gkeys : list time; gcamera : elements; gworld : bool }.

(** [None] for programs that are not proper: blocks which are not closed in order or
    not allowed, and more requests in a motion block than it has times. *)
Definition sstep (shutter : time) (o : op) (s : sstate) : option (sstate * list given) :=
  match sblocks s with
  | [] => None
  | b :: r =>
      match o with
      | Begin k tms =>
          if StateModel.allows (skind b) k then
            match k with
            | StateModel.BWorld =>
                Some (SState (SBlock k (fun _ => one) [] [] true :: b :: r) (val b shutter), [])
            | StateModel.BMotion =>
                Some (SState (SBlock k (val b) (keys b) tms (within b) :: b :: r) (scamera s), [])
            | _ => Some (SState (SBlock k (val b) (keys b) [] (within b) :: b :: r) (scamera s), [])
            end
          else None
      | End k =>
          if StateModel.btype_eqb (skind b) k then
            match k, r with
            | StateModel.BMain, _ => None
            | StateModel.BMotion, p :: r' =>
                Some (SState (SBlock (skind p) (val b) (keys b) [] (within p) :: r') (scamera s), [])
            | _, _ => Some (SState r (scamera s), [])
            end
          else None
      | Do q =>
          match do_request q b with
          | Some b' => Some (SState (b' :: r) (scamera s), [])
          | None => None
          end
      | Primitive => Some (s, [Given (val b) (keys b) (scamera s) (within b)])
      end
  end.

Fixpoint srun (shutter : time) (l : list op) (s : sstate) : option (sstate * list given) :=
  match l with
  | [] => Some (s, [])
  | o :: l =>
      match sstep shutter o s with
      | None => None
      | Some (s1, out) =>
          match srun shutter l s1 with
          | None => None
          | Some (s2, out') => Some (s2, out ++ out')
          end
      end
  end.

Definition sstart : sstate := SState [SBlock StateModel.BMain (fun _ => one) [] [] false] one.

(** What aqsis does not do as expected, so that it is left out of the theorems which
    hold: a request that replaces the transformation, or the beginning of the world,
    while the transformation moves; a request in a motion block which adds a key to a
    transformation that moved before.  [old] are the keys at the beginning of the
    motion block. *)
Definition replaces (r : request) : bool :=
  match r with Identity | Transform _ | Space _ => true | _ => false end.

Definition old_keys (s : sstate) : list time :=
  match sblocks s with _ :: p :: _ => keys p | _ => [] end.

Definition simple (o : op) (s : sstate) : Prop :=
  match sblocks s with
  | [] => True
  | b :: _ =>
      match o with
      | Begin StateModel.BWorld _ => keys b = []
      | Do r =>
          (forall m, r = Turn m \/ r = Space m -> honest m) /\
          match skind b with
          | StateModel.BMotion =>
              replaces r = true \/ changes r = false \/ old_keys s = [] \/
              forall t, hd_error (still_to_do b) = Some t -> In t (keys b)
          | _ => replaces r = true -> keys b = []
          end
      | _ => True
      end
  end.

Fixpoint all_simple (shutter : time) (l : list op) (s : sstate) : Prop :=
  match l with
  | [] => True
  | o :: l =>
      simple o s /\
      match sstep shutter o s with
      | Some (s1, _) => all_simple shutter l s1
      | None => True
      end
  end.

(** The matrices are the ones expected: the transformation has exactly the keys, and
    at each of them (at all times, if there are none) the matrix. *)
Definition right_matrices (x cam : xform) (g : given) : Prop :=
  moving x = negb (match gkeys g with [] => true | _ => false end) /\
  (forall t, In t (MotionModel.times (slots x)) <-> In t (gkeys g)) /\
  (forall t, gkeys g = [] \/ In t (gkeys g) ->
     exists m, mat_at x t = Some m /\ same (E m) (gval g t)) /\
  (gworld g = true -> forall t, exists m, mat_at cam t = Some m /\ same (E m) (gcamera g)).

(** The handedness tells whether the way from the object to the camera is a
    reflection. *)
Definition right_handedness (x : xform) (g : given) : Prop :=
  gworld g = true ->
  forall t, gkeys g = [] \/ In t (gkeys g) ->
  ~ (det (product (gval g t) (gcamera g)) == 0)%Q ->
  exists h, hand_at x t = Some h /\
    (h = true <-> (det (product (gval g t) (gcamera g)) < 0)%Q).

(** Requests for named spaces. *)
Definition no_space (o : op) : Prop := forall m, o <> Do (Space m).

(** Programs without motion blocks, and with no matrix that is wrongly marked as the
    identity. *)
Definition still_op (o : op) : Prop :=
  match o with
  | Begin k _ => k <> StateModel.BMotion
  | Do (Turn m) | Do (Space m) => honest m
  | _ => True
  end.

(** What the primitives of a program get, and what they are to get; [None] if the
    program is not proper or the code fails. *)
Definition observed (shutter : time) (l : list op) : option (list (xform * xform)) :=
  match start shutter with
  | None => None
  | Some st => match run shutter l st with Some (_, o) => Some o | None => None end
  end.

Definition expected (shutter : time) (l : list op) : option (list given) :=
  match srun shutter l sstart with Some (_, o) => Some o | None => None end.

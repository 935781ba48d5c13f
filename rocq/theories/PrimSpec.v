(** When the reading of a geometry call stays inside the arrays that were given, and
    which calls are properly made. *)

From Coq Require Import List Bool ZArith.
From Verif Require Import MeshModel MeshSpec PrimModel.
Import ListNotations.
Open Scope Z_scope.

Definition params (cl : call) : list param :=
  match cl with
  | Polygon ps | GeneralPolygon _ _ ps | PointsPolygons _ _ ps | PointsGeneralPolygons _ _ _ ps
  | Patch _ ps | PatchMesh _ _ _ _ _ ps | NuPatch _ _ _ _ _ _ ps
  | SubdivisionMesh _ _ _ _ _ _ ps | Quadric ps | Points ps | Curves _ _ _ ps => ps
  | TrimCurve _ _ _ _ _ _ _ _ _ => []
  end.

(** The vertex numbers that belong to faces. *)
Definition face_verts (nverts verts : list Z) : list Z := firstn (Z.to_nat (total nverts)) verts.

(** The length of an array of a call.  [own] vertex values were copied. *)
Definition length_of (cl : call) (own : Z) (a : array) : Z :=
  match a, cl with
  | Own, _ => own
  | Loop n, _ => n
  | Values i, _ => match nth_error (params cl) i with Some p => p_len p | None => 0 end
  | Counts, PointsGeneralPolygons _ nverts _ _ => size nverts
  | Verts, PointsPolygons _ verts _ => size verts
  | Verts, PointsGeneralPolygons _ _ verts _ => size verts
  | Verts, SubdivisionMesh _ verts _ _ _ _ _ => size verts
  | Uknots, NuPatch _ _ uknots _ _ _ _ => uknots
  | Vknots, NuPatch _ _ _ _ _ vknots _ => vknots
  | Orders, TrimCurve _ order _ _ _ _ _ _ _ => size order
  | Lengths, TrimCurve _ _ _ _ _ n _ _ _ => size n
  | Knots, TrimCurve _ _ knots _ _ _ _ _ _ => knots
  | Us, TrimCurve _ _ _ _ _ _ us _ _ => us
  | Vs, TrimCurve _ _ _ _ _ _ _ vs _ => vs
  | Ws, TrimCurve _ _ _ _ _ _ _ _ ws => ws
  | Nargs, SubdivisionMesh _ _ _ nargs _ _ _ => size nargs
  | Intargs, SubdivisionMesh _ _ _ _ intargs _ _ => size intargs
  | Floatargs, SubdivisionMesh _ _ _ _ _ floatargs _ => floatargs
  | Around v, SubdivisionMesh nverts verts _ _ _ _ _ =>
      size (filter (Z.eqb v) (face_verts nverts verts))
  | _, _ => 0
  end.

Definition inside (cl : call) (own : Z) (r : read) : Prop :=
  forall i, lo r <= i < hi r -> 0 <= i < length_of cl own (r_array r).

(** Values of the base type in one element of a variable. *)
Definition width_of (t : ptype) : Z :=
  match t with Float | Integer | String_ => 1 | Point | Normal | Vector | Color => 3 | HPoint => 4 | Matrix => 16 end.
Definition element (p : param) : Z := width_of (p_type p) * p_array p.

(** The positions of a call that is given by its positions only: the first variable
    named P or Pw, with three or four numbers each. *)
Definition named_position (p : param) : option Z :=
  match p_name p with NameP => Some 3 | NamePw => Some 4 | _ => None end.
Inductive positions_given : list param -> Z -> Prop :=
| given_here p w n r : named_position p = Some w -> 0 <= n -> p_len p = w * n -> positions_given (p :: r) n
| given_later p r n : named_position p = None -> positions_given r n -> positions_given (p :: r) n.

(** Counts are not negative. *)
Definition nonneg (l : list Z) : Prop := Forall (fun x => 0 <= x) l.
Definition positive (l : list Z) : Prop := Forall (fun x => 0 < x) l.
(** A position variable has the room its name promises. *)
Definition proper_position (p : param) : Prop :=
  p_class p = Vertex ->
  match p_name p with
  | NameP => 3 <= element p
  | NamePz => 1 <= element p
  | NamePw => 4 <= element p
  | OtherName => True
  end.
Definition of_face (p : param) : Prop := p_class p = FaceVarying \/ p_class p = FaceVertex.

(** The tags of a subdivision mesh with their integers and number of floats. *)
Fixpoint tag_args (tags : list tag) (nargs intargs : list Z) : list (tag * list Z * Z) :=
  match tags, nargs with
  | t :: tr, ni :: nf :: nr =>
      (t, firstn (Z.to_nat ni) intargs, nf) :: tag_args tr nr (skipn (Z.to_nat ni) intargs)
  | _, _ => []
  end.
(** A vertex number that occurs in the faces, or is larger than all of them. *)
Definition known_vertex (fv : list Z) (x : Z) : Prop :=
  In x fv \/ 0 <= x /\ Forall (fun y => y < x) fv.
Definition proper_tag (fv : list Z) (a : tag * list Z * Z) : Prop :=
  match a with
  | (Crease, ints, nf) => 1 <= nf /\ Forall (known_vertex fv) ints
  | (Corner, ints, _) => Forall (known_vertex fv) ints
  | _ => True
  end.

Definition proper (vstep : Z) (cl : call) : Prop :=
  Forall proper_position (params cl) /\
  match cl with
  | GeneralPolygon nverts tris ps =>
      positive nverts /\ 0 < total nverts /\ fits_int (size tris) /\
      Forall (fun x => 0 <= x < total nverts) tris /\
      (Forall (fun p => p_class p <> Uniform /\ ~ of_face p) ps \/ size tris <= 3 <= total nverts)
  | PointsPolygons nverts verts _ => nonneg nverts /\ Forall fits_int verts
  | PointsGeneralPolygons nloops nverts verts _ => positive nloops /\ positive nverts /\ nonneg verts
  | PatchMesh _ _ _ _ _ ps => Forall (fun p => ~ of_face p) ps
  | NuPatch nu uorder _ nv vorder _ _ => uorder <= nu /\ vorder <= nv
  | TrimCurve ncurves order _ _ _ n _ _ _ => nonneg ncurves /\ nonneg order /\ nonneg n
  | SubdivisionMesh nverts verts tags nargs intargs _ _ =>
      nonneg nverts /\ nonneg verts /\ nonneg nargs /\
      Forall (proper_tag (face_verts nverts verts)) (tag_args tags nargs intargs)
  | Curves cubic nverts periodic _ =>
      Forall (fun n => enough cubic periodic n (if cubic then vstep else 1)) nverts
  | _ => True
  end.

(** For the converse: the arrays other than the variables have the lengths that the
    interface demands, and lengths are ints. *)
Fixpoint evens (l : list Z) : list Z := match l with [] => [] | x :: r => x :: odds r end
with odds (l : list Z) : list Z := match l with [] => [] | _ :: r => evens r end.

Definition right_arrays (ustep vstep : Z) (cl : call) : Prop :=
  match cl with
  | PointsPolygons nverts verts _ => size verts = total nverts /\ 0 < size verts /\ nonneg verts
  | PointsGeneralPolygons nloops nverts verts _ =>
      size nverts = total nloops /\ size verts = total nverts /\ 0 < size verts /\
      fits_int (size nverts)
  | PatchMesh cubic nu uper nv vper _ =>
      0 < nu /\ 0 < nv /\ enough cubic uper nu (if cubic then ustep else 1) /\
      enough cubic vper nv (if cubic then vstep else 1)
  | NuPatch nu uorder uknots nv vorder vknots _ =>
      0 < nu /\ 0 < nv /\ 0 < uorder /\ 0 < vorder /\ uknots = nu + uorder /\ vknots = nv + vorder
  | TrimCurve ncurves order knots mins maxs n us vs ws =>
      size order = total ncurves /\ knots = total order + total n /\ mins = size order /\
      maxs = size order /\ size n = size order /\ us = total n /\ vs = us /\ ws = us /\
      fits_int (size order) /\ fits_int knots
  | SubdivisionMesh nverts verts tags nargs intargs floatargs _ =>
      size verts = total nverts /\ 0 < size verts /\ size nargs = 2 * size tags /\
      size intargs = total (evens nargs) /\ floatargs = total (odds nargs) /\
      fits_int (size nargs) /\ fits_int (size intargs) /\ fits_int floatargs
  | _ => True
  end.

(** The variables: elements and lengths are ints, there is one position at most, of
    the width its name promises, and there is one where the call needs it. *)
Definition is_position (p : param) : bool :=
  match p_class p, p_name p with
  | Vertex, NameP | Vertex, NamePz | Vertex, NamePw => true
  | _, _ => false
  end.
Definition exact_position (p : param) : Prop :=
  p_class p = Vertex ->
  match p_name p with
  | NameP => element p = 3
  | NamePz => element p = 1
  | NamePw => element p = 4
  | OtherName => True
  end.
Definition needs_points (cl : call) : bool :=
  match cl with
  | Polygon _ | GeneralPolygon _ _ _ | PointsPolygons _ _ _ | Points _ | Curves _ _ _ _ => true
  | _ => false
  end.
Definition right_params (cl : call) : Prop :=
  Forall (fun p => 0 < p_array p /\ fits_int (element p) /\
    0 <= p_len p <= 2147483647 /\ exact_position p) (params cl) /\
  (size (filter is_position (params cl)) <= 1)%Z /\
  (needs_points cl = true -> exists p, In p (params cl) /\ (p_name p = NameP \/ p_name p = NamePw)) /\
  match cl with
  | NuPatch _ _ _ _ _ _ ps => Forall (fun p => p_class p <> Uniform) ps
  | Curves _ _ _ ps => Forall (fun p => ~ of_face p) ps
  | _ => True
  end.

(** Every entry of an array is read. *)
Definition read_whole (cl : call) (rs : list read) (a : array) : Prop :=
  forall i, 0 <= i < length_of cl 0 a -> exists r, In r rs /\ r_array r = a /\ lo r <= i < hi r.

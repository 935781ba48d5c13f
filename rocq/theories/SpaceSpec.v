(** What is expected of named coordinate systems, without the code of aqsis.

    A space has a way to the world and a way back.  A space that was saved has the
    matrix it was saved with, the last time, as its way to the world; the spaces of the
    projection are given by their way from the world; the camera is given by the way
    from the world too; "object" and "shader" are those of the question.  The way from
    a space to another leads over the world. *)

From Coq Require Import List Arith Bool ZArith QArith String.
From Verif Require Import MatModel MatSpec HashModel MotionModel XformModel SpaceModel.
Import ListNotations.
Local Open Scope nat_scope.

Inductive known := Saved (m : elements) | Viewed (m : elements).

(** The spaces, the latest first, and the camera. *)
Record sworld := SWorld { spaces : list (name * known); scamera : xform }.

Fixpoint name_eqb (a b : name) : bool :=
  match a, b with
  | [], [] => true
  | x :: a, y :: b => Z.eqb x y && name_eqb a b
  | _, _ => false
  end.

Fixpoint latest (n : name) (l : list (name * known)) : option known :=
  match l with
  | [] => None
  | (m, k) :: r => if name_eqb m n then Some k else latest n r
  end.

Definition is (n : name) (s : string) : bool := name_eqb n (text s).

Definition sstart : sworld :=
  SWorld (map (fun s => (text s, Saved one)) ["__camera__"; "__current__"; "world"; "screen"; "NDC"; "raster"]%string)
         new_xform.

Definition view_name (v : view) : name :=
  text (match v with Screen => "screen" | NDC => "NDC" | Raster => "raster" end)%string.

Definition sstep (o : op) (s : sworld) : sworld :=
  match o with
  | Save n m => SWorld ((n, Saved (E m)) :: spaces s) (scamera s)
  | Camera x => SWorld (spaces s) x
  | View v m => SWorld ((view_name v, Viewed (E m)) :: spaces s) (scamera s)
  | Ask _ _ _ _ _ _ => s
  | NewRenderer => sstart
  end.

(** The matrix of a transformation at a time is [A]; of none, the identity. *)
Definition given_by (x : option xform) (t : time) (A : elements) : Prop :=
  match x with
  | None => same A one
  | Some x => exists m, mat_at x t = Some m /\ same A (E m)
  end.

(** [A] and [B] lead there and back. *)
Definition back (A B : elements) : Prop := same (product A B) one.

(** [A] is the way from the space to the world. *)
Definition leads_to_world (s : sworld) (shader object : option xform) (t : time) (n : name) (A : elements) : Prop :=
  if is n "object" then given_by object t A
  else if is n "shader" then given_by shader t A
  else if is n "camera" || is n "current" then exists C, given_by (Some (scamera s)) t C /\ back C A
  else match latest n (spaces s) with
       | None => False
       | Some (Saved M) => same A M
       | Some (Viewed W) => if Qeq_bool (det W) 0 then same A one else back W A
       end.

(** [B] is the way from the world to the space. *)
Definition leads_from_world (s : sworld) (shader object : option xform) (t : time) (n : name) (B : elements) : Prop :=
  if is n "object" then exists A, given_by object t A /\ back A B
  else if is n "shader" then exists A, given_by shader t A /\ back A B
  else if is n "camera" || is n "current" then given_by (Some (scamera s)) t B
  else match latest n (spaces s) with
       | None => False
       | Some (Saved M) => back M B
       | Some (Viewed W) => same B W
       end.

Definition exists_space (s : sworld) (n : name) : bool :=
  is n "object" || is n "shader" || is n "camera" || is n "current"
  || match latest n (spaces s) with Some _ => true | None => false end.

(** The part of a matrix that acts on directions. *)
Definition linear (A : elements) : elements := fun i j =>
  if (i <? 3) && (j <? 3) then A i j else if i =? j then 1%Q else 0%Q.

Definition flipped (A : elements) : elements := fun i j => A j i.

(** The answer to a question.  Normals are multiplied with the transpose of the
    inverse. *)
Definition right_answer (s : sworld) (k : kind) (from to : name) (shader object : option xform) (t : time)
  (a : option matrix) : Prop :=
  if exists_space s from && exists_space s to then
    exists R A B, a = Some R /\
      leads_to_world s shader object t from A /\ leads_from_world s shader object t to B /\
      match k with
      | Points => same (E R) (product A B)
      | Vectors => same (E R) (linear (product A B))
      | Normals => same (product (linear (product A B)) (flipped (E R))) one
      end
  else a = None.

Fixpoint right_answers (l : list op) (s : sworld) (out : list (option matrix)) : Prop :=
  match l with
  | [] => out = []
  | Ask k from to sh ob t :: l =>
      match out with
      | [] => False
      | a :: out => right_answer s k from to sh ob t a /\ right_answers l s out
      end
  | o :: l => right_answers l (sstep o s) out
  end.

(** Matrices that can be inverted, and transformations that have only such. *)
Definition regular (m : matrix) : Prop := honest m /\ ~ (det (E m) == 0)%Q.

Definition regular_x (x : xform) : Prop := forall t, exists m, mat_at x t = Some m /\ regular m.

Definition regular_o (x : option xform) : Prop := match x with None => True | Some x => regular_x x end.

Definition fine (o : op) (s : sworld) : Prop :=
  match o with
  | Save n m => regular m
  | Camera x => regular_x x
  | View v m => honest m
  | Ask k from to sh ob t =>
      regular_o sh /\ regular_o ob /\
      (k = Normals -> forall A B, leads_to_world s sh ob t from A -> leads_from_world s sh ob t to B ->
         ~ (det (linear (product A B)) == 0)%Q)
  | NewRenderer => True
  end.

Fixpoint all_fine (l : list op) (s : sworld) : Prop :=
  match l with
  | [] => True
  | o :: l => fine o s /\ all_fine l (sstep o s)
  end.

(** The names in use: no two of them may have the same hash (see C25). *)
Definition reserved : list name :=
  map text ["object"; "shader"; "camera"; "current"; "__camera__"; "__current__"; "world"; "screen"; "NDC"; "raster"]%string.

Definition names_in (o : op) : list name :=
  match o with Save n _ => [n] | Ask _ a b _ _ _ => [a; b] | _ => [] end.

Definition told_apart (word : Z) (l : list op) : Prop :=
  forall a b, In a (reserved ++ flat_map names_in l) -> In b (reserved ++ flat_map names_in l) ->
    hash word a = hash word b -> a = b.

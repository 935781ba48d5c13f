(* What the surfaces of a scene stand for, without buckets. *)
From Coq Require Import ZArith QArith List Bool.
From Verif Require Import BucketModel PostModel.
Import ListNotations.

(* All micropolygons a surface is diced into in the end; surfaces outside of the range of depths
   have none. *)
Fixpoint micropolygons (s : surf) : list mpoly :=
  match s with
  | Dice _ gone ms => if gone then [] else ms
  | Split _ gone parts => if gone then [] else flat_map micropolygons parts
  | Discard _ _ => []
  end.

Definition inside (m : mpoly) (b : box) : Prop :=
  (b_x0 b <= m_x0 m /\ m_x1 m <= b_x1 b /\ b_y0 b <= m_y0 m /\ m_y1 m <= b_y1 b)%Q.

(* The bounds are honest: a bound holds all micropolygons of the surface; a surface in front of
   the eye has no parts that reach the plane of the eye; what reaches it is not diced. *)
Inductive honest : surf -> Prop :=
| honest_dice b gone ms :
    (forall m, In m ms -> inside m b) -> honest (Dice (Some b) gone ms)
| honest_split b gone parts :
    (forall p m, In p parts -> In m (micropolygons p) -> inside m b) ->
    (forall p, In p parts -> bound_of p <> None) ->
    (forall p, In p parts -> honest p) ->
    honest (Split (Some b) gone parts)
| honest_eye gone parts :
    (forall p, In p parts -> honest p) -> honest (Split None gone parts)
| honest_discard b gone : honest (Discard b gone).

(* What was rendered in a bucket, and what was hidden there. *)
Definition rendered_in (st : pstate) (b : bpos) : list mpoly :=
  map snd (filter (fun e => bpos_eqb (fst e) b) (q_rendered st)).
Definition hidden_in (st : pstate) (b : bpos) : list surf :=
  map snd (filter (fun e => bpos_eqb (fst e) b) (q_hidden st)).

(* The number of surfaces that may appear. *)
Fixpoint size (s : surf) : nat :=
  match s with
  | Split _ _ parts => S (fold_right (fun p n => size p + n)%nat O parts)
  | _ => 1
  end.
Definition sizes (l : list surf) : nat := fold_right (fun p n => size p + n)%nat O l.

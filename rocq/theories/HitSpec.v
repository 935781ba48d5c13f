(** What a sample must show, given all its hits from front to back. *)

From Coq Require Import List Bool QArith Sorting.Permutation Sorting.Sorted.
From Verif Require Import HitModel.
Import ListNotations.
Open Scope Q_scope.

(** How much light gets through a list of surfaces. *)
Definition through (ch : chan) (front : list hit) : Q :=
  fold_right (fun h t => (1 - h_opa h ch) * t) 1 front.

(** Sum over the hits, front to back, of what each contributes, dimmed by the
    surfaces in front of it. *)
Fixpoint seen_behind (ch : chan) (what : hit -> Q) (front : list hit) (l : list hit) : Q :=
  match l with
  | [] => 0
  | h :: t => through ch front * what h + seen_behind ch what (front ++ [h]) t
  end.
Definition seen (ch : chan) (what : hit -> Q) (l : list hit) : Q := seen_behind ch what [] l.

(** Colours are premultiplied by opacity; a matte object shows black. *)
Definition emits (ch : chan) (h : hit) : Q :=
  if is_matte (h_matte h) then 0 else h_col h ch.
Definition covers (ch : chan) (h : hit) : Q :=
  if is_matte (h_matte h) then 0 else h_opa h ch.

(** [l] is the list of the hits, front to back, at distinct depths. *)
Definition front_to_back (hits l : list hit) : Prop :=
  Permutation hits l /\ StronglySorted (fun a b => h_dep a < h_dep b) l.

(** std::sort: some arrangement with ascending depth. *)
Definition sorts (sort : list hit -> list hit) : Prop :=
  forall l, Permutation l (sort l) /\ StronglySorted (fun a b => h_dep a <= h_dep b) (sort l).

(** Hits the theorems are about: opacities between 0 and 1, no MatteAlpha, an
    opaque micropolygon has opacity 1, depth below FLT_MAX. *)
Definition ordinary (h : hit) : Prop :=
  (forall ch, 0 <= h_opa h ch <= 1) /\ h_matte h <> MatteAlpha /\
  (h_opq h = true -> forall ch, h_opa h ch == 1) /\ h_dep h < fltmax.

(** Depths of the hits that count as opaque, front to back. *)
Definition opaque_depths (thr : color) (l : list hit) : list Q :=
  map h_dep (List.filter (fun h => meets_all thr (h_opa h)) l).

Definition nearest (l : list Q) : Q := hd fltmax l.
Definition farthest (l : list Q) : Q := last l fltmax.
Definition midpoint (l : list Q) : Q :=
  (1 # 2) * (nearest l + nearest (tl l)).

(** Insertion sort, as an instance of [sorts]. *)
Fixpoint insert (h : hit) (l : list hit) : list hit :=
  match l with
  | [] => [h]
  | x :: t => if Qle_bool (h_dep h) (h_dep x) then h :: l else x :: insert h t
  end.
Definition isort (l : list hit) : list hit := fold_right insert [] l.

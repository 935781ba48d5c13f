(** What trimming means, without the formulas of the code. *)

From Coq Require Import List Bool Arith QArith.
From Verif Require Import TrimModel.
Import ListNotations.
Local Open Scope Q_scope.

(** The point at the fraction [t] of the way from [a] to [b]. *)
Definition between (a b : point) (t : Q) : point :=
  Pt (px a + t * (px b - px a)) (py a + t * (py b - py a)).

Definition same (p q : point) : Prop := px p == px q /\ py p == py q.

(** [p] lies on the segment from [a] to [b]. *)
Definition on (p a b : point) : Prop :=
  exists t, 0 <= t <= 1 /\ same p (between a b t).

(** The segments have a point in common. *)
Definition meet (p q a b : point) : Prop :=
  exists s t, 0 <= s <= 1 /\ 0 <= t <= 1 /\ same (between p q s) (between a b t).

(** The sides of a closed loop: from each point to the next, and back to the first. *)
Definition sides (l : list point) : list (point * point) :=
  match l with
  | [] => []
  | a :: r => combine l (r ++ [a])
  end.

(** No end of one segment lies on the other. *)
Definition clear (p q : point) (e : point * point) : Prop :=
  ~ on p (fst e) (snd e) /\ ~ on q (fst e) (snd e) /\ ~ on (fst e) p q /\ ~ on (snd e) p q.

(** The number of sides that the segment from [p] to [q] crosses. *)
Inductive crossed (p q : point) : list (point * point) -> nat -> Prop :=
| crossed_none : crossed p q [] 0
| crossed_yes a b l n : meet p q a b -> crossed p q l n -> crossed p q ((a, b) :: l) (S n)
| crossed_no a b l n : ~ meet p q a b -> crossed p q l n -> crossed p q ((a, b) :: l) n.

(** [q] lies beyond all points of the loop on one of its four sides. *)
Definition beyond (q : point) (l : list point) : Prop :=
  (forall a, In a l -> px a < px q) \/ (forall a, In a l -> px q < px a) \/
  (forall a, In a l -> py a < py q) \/ (forall a, In a l -> py q < py a).

(** The loop surrounds [p]: a way that leads straight from [p] to a place beyond the
    loop, and clear of the ends, crosses an odd number of sides. *)
Definition surrounds (l : list point) (p : point) : Prop :=
  exists q n, beyond q l /\ Forall (clear p q) (sides l) /\ crossed p q (sides l) n /\
    Nat.Odd n.

Definition not_surrounds (l : list point) (p : point) : Prop :=
  exists q n, beyond q l /\ Forall (clear p q) (sides l) /\ crossed p q (sides l) n /\
    Nat.Even n.

(** The point is cut away: there are loops, and an even number of them surrounds it. *)
Definition cut_away (loops : list (list point)) (p : point) : Prop :=
  exists bs, loops <> [] /\
    Forall2 (fun l (b : bool) => if b then surrounds l p else not_surrounds l p) loops bs /\
    Nat.Even (count_occ bool_dec bs true).

(** The point is left: there are no loops, or an odd number of them surrounds it. *)
Definition left_over (loops : list (list point)) (p : point) : Prop :=
  loops = [] \/ exists bs,
    Forall2 (fun l (b : bool) => if b then surrounds l p else not_surrounds l p) loops bs /\
    Nat.Odd (count_occ bool_dec bs true).

(** [p] lies in the box with the corners [a] and [c]. *)
Definition in_box (a c p : point) : Prop :=
  px a <= px p <= px c /\ py a <= py p <= py c.

(** The corners of the micropolygon in column [iu] and row [iv] are those of the box
    from [a] to [c]: u grows along the columns only, v along the rows only. *)
Definition box_of (uv : nat -> point) (cu iu iv : nat) (a c : point) : Prop :=
  px a < px c /\ py a < py c /\
  same (uv (iv * (cu + 1) + iu)%nat) a /\
  same (uv (iv * (cu + 1) + iu + 1)%nat) (Pt (px c) (py a)) /\
  same (uv ((iv + 1) * (cu + 1) + iu)%nat) (Pt (px a) (py c)) /\
  same (uv ((iv + 1) * (cu + 1) + iu + 1)%nat) c.

(** The place ([s], [t]) of the box. *)
Definition place (a c : point) (s t : Q) : point :=
  Pt (px a + s * (px c - px a)) (py a + t * (py c - py a)).

(** A side of a loop enters the box. *)
Definition enters (a c : point) (e : point * point) : Prop :=
  exists t, 0 <= t <= 1 /\ in_box a c (between (fst e) (snd e) t).

(** Specification of what the micropolygons of a grid cover. *)
From Verif Require Import MpgModel.
Open Scope Q_scope.

Definition qsum (l : list Q) : Q := fold_right Qplus 0 l.

Section Grid.
  Variable g : grid.

  Definition gx (k : nat * nat) : Q := px (gp g (fst k) (snd k)).
  Definition gy (k : nat * nat) : Q := py (gp g (fst k) (snd k)).

  (** [s] is a weighted mean of those grid points that [which] selects: it lies in their convex hull. *)
  Definition spanned (which : nat * nat -> Prop) (s : Q * Q) : Prop :=
    exists c : list (Q * (nat * nat)),
      Forall (fun wk => 0 <= fst wk /\ which (snd wk)) c /\
      qsum (map fst c) == 1 /\
      fst s == qsum (map (fun wk => fst wk * gx (snd wk)) c) /\
      snd s == qsum (map (fun wk => fst wk * gy (snd wk)) c).

  (** The corners of micropolygon [m] *)
  Definition corner (m k : nat * nat) : Prop :=
    (fst k = fst m \/ fst k = S (fst m)) /\ (snd k = snd m \/ snd k = S (snd m)).

  Definition is_mpg (m : nat * nat) : Prop := (fst m < cu g /\ snd m < cv g)%nat.

  (** The area of micropolygon [m], with its sides *)
  Definition in_mpg (m : nat * nat) (s : Q * Q) : Prop := spanned (corner m) s.

  (** On the border of the whole grid: between two neighbouring points that lie on it *)
  Definition on_border (s : Q * Q) : Prop :=
    (exists i, (i < cu g)%nat /\
       (spanned (fun k => corner (i, 0)%nat k /\ snd k = 0%nat) s \/
        spanned (fun k => (fst k = i \/ fst k = S i) /\ snd k = cv g) s)) \/
    (exists j, (j < cv g)%nat /\
       (spanned (fun k => corner (0, j)%nat k /\ fst k = 0%nat) s \/
        spanned (fun k => fst k = cu g /\ (snd k = j \/ snd k = S j)) s)).

  (** Going from [a] over [b] to [c], the area of the turn: positive to one side, negative to the other *)
  Definition turn (a b c : nat * nat) : Q := (gx b - gx a) * (gy c - gy b) - (gy b - gy a) * (gx c - gx b).

  (** Each of the four turns around micropolygon [m] goes to the side that [sign] gives: it is a convex quadrilateral. *)
  Definition turns (sign : Q) (m : nat * nat) : Prop :=
    let '(i, j) := m in
    0 < sign * turn (i, j) (S i, j) (S i, S j) /\
    0 < sign * turn (S i, j) (S i, S j) (i, S j) /\
    0 < sign * turn (S i, S j) (i, S j) (i, j) /\
    0 < sign * turn (i, S j) (i, j) (S i, j).

  (** All micropolygons are convex and face the same way. *)
  Definition same_way (sign : Q) : Prop := (sign == 1 \/ sign == -1) /\ forall m, is_mpg m -> turns sign m.

  (** What two micropolygons have in common is what their common grid points span: a side, a point or nothing. *)
  Definition not_folded : Prop :=
    forall m n s, is_mpg m -> is_mpg n -> m <> n -> in_mpg m s -> in_mpg n s ->
      spanned (fun k => corner m k /\ corner n k) s.

  (** Length of the side between two grid points is at least 1/10000. *)
  Definition long (a b : nat * nat) : Prop :=
    let p := gp g (fst a) (snd a) in let q := gp g (fst b) (snd b) in
    1 # 100000000 <= (px p - px q) ^ 2 + (py p - py q) ^ 2 + (pz p - pz q) ^ 2.

  Definition long_sides : Prop :=
    forall i j, ((i < cu g)%nat -> (j <= cv g)%nat -> long (i, j) (S i, j)) /\
                ((i <= cu g)%nat -> (j < cv g)%nat -> long (i, j) (i, S j)).
End Grid.

(** Sample [k] of pixel [x], [y] lies inside of its own cell when the pixel is cut into [xs] by [ys] cells. *)
Definition in_cells (xs ys : Z) (r : region) (position : Z -> Z -> Z -> Q * Q) : Prop :=
  forall x y m n, (xmin r <= x < xmax r)%Z -> (ymin r <= y < ymax r)%Z -> (0 <= m < xs)%Z -> (0 <= n < ys)%Z ->
    let p := position x y (n * xs + m)%Z in
    inject_Z m < (fst p - inject_Z x) * inject_Z xs < inject_Z (m + 1) /\
    inject_Z n < (snd p - inject_Z y) * inject_Z ys < inject_Z (n + 1).

(** A sample of the region *)
Definition is_sample (xs ys : Z) (r : region) (v : Z * Z * Z) : Prop :=
  let '(x, y, k) := v in (xmin r <= x < xmax r)%Z /\ (ymin r <= y < ymax r)%Z /\ (0 <= k < xs * ys)%Z.

Definition exactly_one_of {A} (P : A -> Prop) : Prop := exists a, P a /\ forall b, P b -> b = a.
Definition at_most_one {A} (P : A -> Prop) : Prop := forall a b, P a -> P b -> a = b.

(** The sides of micropolygon [m] are parallel. *)
Definition parallelogram (g : grid) (m : nat * nat) : Prop :=
  let '(i, j) := m in
  gx g (i, j) + gx g (S i, S j) == gx g (S i, j) + gx g (i, S j) /\
  gy g (i, j) + gy g (S i, S j) == gy g (S i, j) + gy g (i, S j).

(** The point of micropolygon [m] with the parameters [u] and [v], and its depth *)
Definition mix2 (u v a b c d : Q) : Q := (1 - u) * (1 - v) * a + u * (1 - v) * b + (1 - u) * v * c + u * v * d.

Definition point_of (g : grid) (m : nat * nat) (u v : Q) (s : Q * Q) (depth : Q) : Prop :=
  let '(i, j) := m in
  fst s == mix2 u v (gx g (i, j)) (gx g (S i, j)) (gx g (i, S j)) (gx g (S i, S j)) /\
  snd s == mix2 u v (gy g (i, j)) (gy g (S i, j)) (gy g (i, S j)) (gy g (S i, S j)) /\
  depth == mix2 u v (pz (gp g i j)) (pz (gp g (S i) j)) (pz (gp g i (S j))) (pz (gp g (S i) (S j))).

(** The corners of micropolygon [m] one after the other around it *)
Definition around (m : nat * nat) (n : nat) : nat * nat :=
  let '(i, j) := m in
  match n with O => (i, j) | 1%nat => (S i, j) | 2%nat => (S i, S j) | _ => (i, S j) end.

Definition coincide (g : grid) (a b : nat * nat) : Prop :=
  let p := gp g (fst a) (snd a) in let q := gp g (fst b) (snd b) in px p == px q /\ py p == py q /\ pz p == pz q.

(** Side [n] of micropolygon [m] has no length, so that it is a triangle. *)
Definition triangle (g : grid) (m : nat * nat) (n : nat) : Prop :=
  (n < 4)%nat /\ coincide g (around m n) (around m (Nat.modulo (S n) 4)) /\
  forall k, (k < 4)%nat -> k <> n -> long g (around m k) (around m (Nat.modulo (S k) 4)).

(** The three corners of this triangle do not lie on a line. *)
Definition has_area (g : grid) (m : nat * nat) (n : nat) : Prop :=
  ~ turn g (around m (Nat.modulo (n + 1) 4)) (around m (Nat.modulo (n + 2) 4)) (around m (Nat.modulo (n + 3) 4)) == 0.

(** [s] is a mean of the four corners with positive weights: it lies inside and not on a side. *)
Definition strictly_inside (g : grid) (m : nat * nat) (s : Q * Q) : Prop :=
  exists a b c d, 0 < a /\ 0 < b /\ 0 < c /\ 0 < d /\ a + b + c + d == 1 /\
    fst s == a * gx g (around m 0) + b * gx g (around m 1) + c * gx g (around m 2) + d * gx g (around m 3) /\
    snd s == a * gy g (around m 0) + b * gy g (around m 1) + c * gy g (around m 2) + d * gy g (around m 3).

(** [s] lies on the same side of the line through [a] and [b] as [c]. *)
Definition same_side (a b c s : Q * Q) : Prop :=
  let d p := (fst b - fst a) * (snd p - snd a) - (snd b - snd a) * (fst p - fst a) in 0 < d c * d s.

(** The same grid without its diagonal *)
Definition whole (g : grid) : grid := mkgrid (cu g) (cv g) (gp g) false.

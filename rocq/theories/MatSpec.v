(** What is expected of the matrices of aqsis, without their code.

    A point is a row of four coordinates; its image under a matrix is the row times
    the matrix.  So the image under "A * B" is that under A of that under B. *)

From Coq Require Import List Arith Bool QArith.
From Verif Require Import MatModel.
Import ListNotations.
Local Open Scope Q_scope.

Definition sum4 (f : nat -> Q) : Q := f 0%nat + f 1%nat + f 2%nat + f 3%nat.
Definition sum3 (f : nat -> Q) : Q := f 0%nat + f 1%nat + f 2%nat.

(** Equal in all sixteen elements. *)
Definition same (A B : elements) : Prop :=
  forall i j, (i < 4)%nat -> (j < 4)%nat -> A i j == B i j.

Definition one : elements := fun i j => if (i =? j)%nat then 1 else 0.

(** The product of two matrices, row by column. *)
Definition product (A B : elements) : elements :=
  fun i j => sum4 (fun k => A i k * B k j).

(** The row [v] times the matrix. *)
Definition moved (A : elements) (v : nat -> Q) : nat -> Q :=
  fun j => sum4 (fun i => v i * A i j).

(** The orders of 0, 1, 2, 3 and the number of pairs in the wrong order. *)
Fixpoint insertions (x : nat) (l : list nat) : list (list nat) :=
  match l with
  | [] => [[x]]
  | y :: r => (x :: l) :: map (cons y) (insertions x r)
  end.

Fixpoint orders (l : list nat) : list (list nat) :=
  match l with
  | [] => [[]]
  | x :: r => flat_map (insertions x) (orders r)
  end.

Fixpoint wrong_pairs (l : list nat) : nat :=
  match l with
  | [] => 0
  | x :: r => length (filter (fun y => y <? x)%nat r) + wrong_pairs r
  end.

(** The determinant by its definition: over all orders, the product of one element
    of each row and each column, with its sign. *)
Definition det (A : elements) : Q :=
  fold_right Qplus 0
    (map (fun p =>
            (if Nat.even (wrong_pairs p) then 1 else - (1)) *
            (A 0%nat (nth 0 p 0%nat) * A 1%nat (nth 1 p 0%nat)
             * A 2%nat (nth 2 p 0%nat) * A 3%nat (nth 3 p 0%nat)))
         (orders [0;1;2;3]%nat)).

(** A matrix that is marked as the identity is the identity. *)
Definition honest (m : matrix) : Prop := idf m = true -> same (E m) one.

(** What one can write with matrices. *)
Inductive mexp :=
| XIdentity
| XScaling (x y z : Q)
| XTranslation (x y z : Q)
| XFull (f : elements)
| XUniform (f : Q)
| XTimes (a b : mexp)
| XPremultiply (a b : mexp)
| XTimesNumber (a : mexp) (s : Q)
| XNumberTimes (s : Q) (a : mexp)
| XPlus (a b : mexp)
| XMinus (a b : mexp)
| XTranspose (a : mexp)
| XInverse (a : mexp)
| XScaleBy (a : mexp) (x y z : Q)
| XTranslateBy (a : mexp) (x y z : Q).

(** What the code makes of it. *)
Fixpoint eval (e : mexp) : option matrix :=
  let both (f : matrix -> matrix -> matrix) a b :=
    match eval a, eval b with Some A, Some B => Some (f A B) | _, _ => None end in
  match e with
  | XIdentity => Some identity
  | XScaling x y z => Some (scaling x y z)
  | XTranslation x y z => Some (translation x y z)
  | XFull f => Some (full f)
  | XUniform f => Some (uniform f)
  | XTimes a b => both times a b
  | XPremultiply a b => both premultiply a b
  | XTimesNumber a s => option_map (fun A => times_number A s) (eval a)
  | XNumberTimes s a => option_map (number_times s) (eval a)
  | XPlus a b => both plus a b
  | XMinus a b => both minus a b
  | XTranspose a => option_map transpose (eval a)
  | XInverse a => match eval a with Some A => inverse A | None => None end
  | XScaleBy a x y z => option_map (fun A => scale_by A x y z) (eval a)
  | XTranslateBy a x y z => option_map (fun A => translate_by A x y z) (eval a)
  end.

Definition scaling_spec (x y z : Q) : elements :=
  fun i j => if (i =? j)%nat then nth i [x; y; z; 1] 0 else 0.

Definition translation_spec (x y z : Q) : elements :=
  fun i j => if (i =? 3)%nat && (j <? 3)%nat then nth j [x; y; z] 0 else one i j.

(** What is meant by it. *)
Fixpoint means (e : mexp) (D : elements) : Prop :=
  match e with
  | XIdentity => same D one
  | XScaling x y z => same D (scaling_spec x y z)
  | XTranslation x y z => same D (translation_spec x y z)
  | XFull f => same D f
  | XUniform f => same D (fun i j => f * one i j)
  | XTimes a b => exists A B, means a A /\ means b B /\ same D (product B A)
  | XPremultiply a b => exists A B, means a A /\ means b B /\ same D (product A B)
  | XTimesNumber a s => exists A, means a A /\ same D (product A (scaling_spec s s s))
  | XNumberTimes s a => exists A, means a A /\ same D (fun i j => s * A i j)
  | XPlus a b => exists A B, means a A /\ means b B /\ same D (fun i j => A i j + B i j)
  | XMinus a b => exists A B, means a A /\ means b B /\ same D (fun i j => A i j - B i j)
  | XTranspose a => exists A, means a A /\ same D (fun i j => A j i)
  | XInverse a =>
    exists A, means a A /\ same (product A D) one /\ same (product D A) one
  | XScaleBy a x y z => exists A, means a A /\ same D (product A (scaling_spec x y z))
  | XTranslateBy a x y z =>
    exists A, means a A /\ same D (product A (translation_spec x y z))
  end.

(** Is a number multiplied from the left anywhere? *)
Fixpoint number_on_left (e : mexp) : bool :=
  match e with
  | XNumberTimes _ _ => true
  | XTimes a b | XPremultiply a b | XPlus a b | XMinus a b =>
    number_on_left a || number_on_left b
  | XTimesNumber a _ | XTranspose a | XInverse a | XScaleBy a _ _ _
  | XTranslateBy a _ _ _ => number_on_left a
  | _ => false
  end.

(** Is the inverse taken anywhere of a matrix whose determinant is 0? *)
Fixpoint inverts_singular (e : mexp) : Prop :=
  match e with
  | XInverse a => inverts_singular a \/ exists A, eval a = Some A /\ det (E A) == 0
  | XTimes a b | XPremultiply a b | XPlus a b | XMinus a b =>
    inverts_singular a \/ inverts_singular b
  | XTimesNumber a _ | XTranspose a | XNumberTimes _ a | XScaleBy a _ _ _
  | XTranslateBy a _ _ _ => inverts_singular a
  | _ => False
  end.

(** The point with three coordinates [v] as one with four. *)
Definition point (v : nat -> Q) : nat -> Q := fun j => if (j <? 3)%nat then v j else 1.

(** The vector product. *)
Definition cross (a v : nat -> Q) (j : nat) : Q :=
  match j with
  | 0%nat => a 1%nat * v 2%nat - a 2%nat * v 1%nat
  | 1%nat => a 2%nat * v 0%nat - a 0%nat * v 2%nat
  | _ => a 0%nat * v 1%nat - a 1%nat * v 0%nat
  end.

Definition dot (a v : nat -> Q) : Q := sum3 (fun i => a i * v i).

(** The sum of the squares of the elements. *)
Definition squares (A : elements) : Q := sum4 (fun i => sum4 (fun j => A i j * A i j)).

(** Two matrices agree to within the tolerance, relative to one of them. *)
Definition agree (A B : elements) (tol : Q) : Prop :=
  squares (fun i j => A i j - B i j) <= tol * tol * squares A \/
  squares (fun i j => A i j - B i j) <= tol * tol * squares B.

(** The shear of one axis: its unit vector gets the two other coordinates p and q. *)
Definition shear_spec (axis : nat) (p q : Q) : elements :=
  fun i j =>
    one i j + (if (i =? axis)%nat then
                 nth j (nth axis [[0; p; q]; [p; 0; q]; [p; q; 0]] []) 0
               else 0).

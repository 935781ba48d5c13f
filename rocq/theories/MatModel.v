(** Model of the 4x4 matrices of aqsis: include/aqsis/math/matrix.h and
    libs/math/matrix.cpp.

    Numbers are exact rationals: rounding, infinities and NaNs are not modelled.
    A division by zero, which the code does without a check, is [None].
    An array of elements is a function of the row and the column, of which only
    the numbers 0 to 3 matter. *)

From Coq Require Import List Arith Bool QArith Qabs.
Import ListNotations.
Local Open Scope Q_scope.

(** matrix.h:356 [m_elements]. *)
Notation elements := (nat -> nat -> Q).

(** matrix.h:355-360: the elements and the flag which says that the matrix is
    to be treated as the identity whatever its elements are. *)
Record matrix := Mat { E : elements; idf : bool }.

(** The values of the sixteen elements, worked out once.  It stands for the
    storing of the values in the array and changes nothing. *)
Definition stored (f : elements) : elements :=
  let t := map (fun i => map (f i) [0;1;2;3]%nat) [0;1;2;3]%nat in
  fun i j => nth j (nth i t []) 0.

(** matrix.h:398-401 and 498-521 [Identity]. *)
Definition identity : matrix :=
  Mat (fun i j => if (i =? j)%nat then 1 else 0) true.

(** matrix.h:404-417: the scaling matrix. *)
Definition scaling (xs ys zs : Q) : matrix :=
  if negb (Qeq_bool xs 1) || negb (Qeq_bool ys 1) || negb (Qeq_bool zs 1) then
    Mat (fun i j =>
           if (i =? j)%nat then
             match i with 0%nat => xs | 1%nat => ys | 2%nat => zs | _ => 1 end
           else 0) false
  else identity.

(** matrix.h:420-432: the translation matrix. *)
Definition translation (x y z : Q) : matrix :=
  if negb (Qeq_bool x 0) || negb (Qeq_bool y 0) || negb (Qeq_bool z 0) then
    Mat (fun i j =>
           match i, j with
           | 3%nat, 0%nat => x
           | 3%nat, 1%nat => y
           | 3%nat, 2%nat => z
           | _, _ => if (i =? j)%nat then 1 else 0
           end) false
  else identity.

(** matrix.h:448-481 and 838-884: a matrix from sixteen given numbers.  The flag
    is never set, not even if they are those of the identity. *)
Definition full (f : elements) : matrix := Mat f false.

(** matrix.h:483-494: the multiple of the identity. *)
Definition uniform (f : Q) : matrix :=
  if negb (Qeq_bool f 1) then Mat (fun i j => if (i =? j)%nat then f else 0) false
  else identity.

(** matrix.cpp:150-229 [operator*=] and matrix.h:636-641 [operator*]. *)
Definition times (this from : matrix) : matrix :=
  if idf this then from
  else if idf from then this
  else Mat (stored (fun i j =>
         E from i 0%nat * E this 0%nat j + E from i 1%nat * E this 1%nat j
         + E from i 2%nat * E this 2%nat j + E from i 3%nat * E this 3%nat j)) false.

(** matrix.cpp:232-311 [PreMultiply]. *)
Definition premultiply (this from : matrix) : matrix :=
  if idf this then from
  else if idf from then this
  else Mat (stored (fun i j =>
         E this i 0%nat * E from 0%nat j + E this i 1%nat * E from 1%nat j
         + E this i 2%nat * E from 2%nat j + E this i 3%nat * E from 3%nat j)) false.

(** matrix.h:673-685: the product with a number on the right. *)
Definition times_number (m : matrix) (s : Q) : matrix :=
  premultiply m (scaling s s s).

(** matrix.h:919-942: the product with a number on the left.  The flag is that of
    the matrix. *)
Definition number_times (s : Q) (m : matrix) : matrix :=
  Mat (fun i j => E m i j * s) (idf m).

(** matrix.h:752-781 [operator+=]. *)
Definition plus (m from : matrix) : matrix :=
  Mat (fun i j => E m i j + E from i j) false.

(** matrix.h:783-812 [operator-=]. *)
Definition minus (m from : matrix) : matrix :=
  Mat (fun i j => E m i j - E from i j) false.

(** matrix.h:886-917 [Transpose]. *)
Definition transpose (m : matrix) : matrix :=
  if idf m then m else Mat (fun i j => E m j i) false.

(** matrix.cpp:138-148 [Normalise]: the last element, by which the others are
    divided, is the last one changed. *)
Definition normalise (m : matrix) : option matrix :=
  if Qeq_bool (E m 3 3) 0 then None
  else Some (Mat (fun i j => E m i j / E m 3 3) (idf m)).

(** matrix.h:541-545 [Scale], 547-557 [Translate]. *)
Definition scale_by (m : matrix) (xs ys zs : Q) : matrix :=
  premultiply m (scaling xs ys zs).

Definition translate_by (m : matrix) (x y z : Q) : matrix :=
  if negb (Qeq_bool x 0) || negb (Qeq_bool y 0) || negb (Qeq_bool z 0)
  then premultiply m (translation x y z) else m.

(** matrix.h:559-590 [ShearX], [ShearY], [ShearZ]: the row of the sheared axis
    gets the two factors. *)
Definition shear_by (m : matrix) (axis : nat) (p q : Q) : matrix :=
  premultiply m
    (Mat (fun i j =>
            if (i =? j)%nat then 1
            else match axis, i, j with
                 | 0%nat, 0%nat, 1%nat => p | 0%nat, 0%nat, 2%nat => q
                 | 1%nat, 1%nat, 0%nat => p | 1%nat, 1%nat, 2%nat => q
                 | 2%nat, 2%nat, 0%nat => p | 2%nat, 2%nat, 1%nat => q
                 | _, _, _ => 0
                 end) false).

(** matrix.cpp:96-135 [Rotate] for an angle other than 0.  The sine, the cosine
    and the axis, already of length 1, are arguments. *)
Definition rotation (s c x y z : Q) : matrix :=
  let t := 1 - c in
  let txy := t * x * y in
  let sz := s * z in
  let txz := t * x * z in
  let sy := s * y in
  let tyz := t * y * z in
  let sx := s * x in
  Mat (fun i j =>
         match i, j with
         | 0%nat, 0%nat => t * x * x + c
         | 1%nat, 1%nat => t * y * y + c
         | 2%nat, 2%nat => t * z * z + c
         | 0%nat, 1%nat => txy + sz
         | 1%nat, 0%nat => txy - sz
         | 0%nat, 2%nat => txz - sy
         | 2%nat, 0%nat => txz + sy
         | 1%nat, 2%nat => tyz + sx
         | 2%nat, 1%nat => tyz - sx
         | _, _ => if (i =? j)%nat then 1 else 0
         end) false.

Definition rotate_by (m : matrix) (s c x y z : Q) : matrix :=
  premultiply m (rotation s c x y z).

(** matrix.cpp:66-90: the skewing matrix, for an angle within the axes.  The three
    directions [right], [d1ortho] and [d2] and the factor [s] are arguments. *)
Definition skewing (r o d : nat -> Q) (s : Q) : matrix :=
  let rot := full (fun i j =>
    match i, j with
    | 3%nat, 3%nat => 1
    | 3%nat, _ | _, 3%nat => 0
    | _, 0%nat => r i
    | _, 1%nat => o i
    | _, _ => d i
    end) in
  let skw := full (fun i j =>
    match i, j with
    | 1%nat, 2%nat => s
    | _, _ => if (i =? j)%nat then 1 else 0
    end) in
  times (times (transpose rot) skw) rot.

(** matrix.cpp:428-441 [det2x2], [det3x3] and 446-473 [Determinant]. *)
Definition det2 (a b c d : Q) : Q := a * d - b * c.

Definition det3 (a1 a2 a3 b1 b2 b3 c1 c2 c3 : Q) : Q :=
  a1 * det2 b2 b3 c2 c3 - b1 * det2 a2 a3 c2 c3 + c1 * det2 a2 a3 b2 b3.

Definition determinant (m : matrix) : Q :=
  let a1 := E m 0 0 in let b1 := E m 0 1 in let c1 := E m 0 2 in let d1 := E m 0 3 in
  let a2 := E m 1 0 in let b2 := E m 1 1 in let c2 := E m 1 2 in let d2 := E m 1 3 in
  let a3 := E m 2 0 in let b3 := E m 2 1 in let c3 := E m 2 2 in let d3 := E m 2 3 in
  let a4 := E m 3 0 in let b4 := E m 3 1 in let c4 := E m 3 2 in let d4 := E m 3 3 in
  a1 * det3 b2 b3 b4 c2 c3 c4 d2 d3 d4 - b1 * det3 a2 a3 a4 c2 c3 c4 d2 d3 d4
  + c1 * det3 a2 a3 a4 b2 b3 b4 d2 d3 d4 - d1 * det3 a2 a3 a4 b2 b3 b4 c2 c3 c4.

(** matrix.cpp:336-343: the row, from [j] downwards, of the greatest element of
    column [j]. *)
Definition pivot (a : elements) (j : nat) : nat :=
  fold_left (fun i1 i => if negb (Qle_bool (Qabs (a i j)) (Qabs (a i1 j))) then i else i1)
            (seq (j + 1) (3 - j)) j.

(** matrix.cpp:345-375. *)
Definition swap_rows (a : elements) (i1 j : nat) : elements :=
  stored (fun r c => if (r =? i1)%nat then a j c else if (r =? j)%nat then a i1 c else a r c).

(** matrix.cpp:334-416: one column of the elimination, of the matrix [a] and of
    what becomes its inverse, [b].  Row [j] is scaled from column [j] on, then the
    other rows, each from its own elements and those of row [j]. *)
Definition eliminate (ab : elements * elements) (j : nat) : option (elements * elements) :=
  let '(a, b) := ab in
  let i1 := pivot a j in
  let a := if (i1 =? j)%nat then a else swap_rows a i1 j in
  let b := if (i1 =? j)%nat then b else swap_rows b i1 j in
  if Qeq_bool (a j j) 0 then None
  else
    let scale := 1 / a j j in
    let b := stored (fun r c => if (r =? j)%nat then b r c * scale else b r c) in
    let a := stored (fun r c => if (r =? j)%nat then
                                  if (c <? j)%nat then a r c
                                  else if (c =? j)%nat then 1 else a r c * scale
                                else a r c) in
    let b := stored (fun r c => if (r =? j)%nat then b r c
                                else b r c - a r j * b j c) in
    let a := stored (fun r c => if (r =? j)%nat then a r c
                                else if (c <? j)%nat then a r c
                                else if (c =? j)%nat then 0
                                else a r c - a r j * a j c) in
    Some (a, b).

(** matrix.cpp:315-420 [Inverse]. *)
Definition inverse (m : matrix) : option matrix :=
  if idf m then Some m
  else
    match eliminate (E m, E identity) 0 with
    | None => None
    | Some ab =>
      match eliminate ab 1 with
      | None => None
      | Some ab =>
        match eliminate ab 2 with
        | None => None
        | Some ab =>
          match eliminate ab 3 with
          | None => None
          | Some (_, b) => Some (Mat b false)
          end
        end
      end
    end.

(** matrix.h:687-715: the image of a point of four coordinates. *)
Definition image4 (m : matrix) (v : nat -> Q) : nat -> Q :=
  if idf m then v
  else fun j => E m 0 j * v 0%nat + E m 1 j * v 1%nat + E m 2 j * v 2%nat + E m 3 j * v 3%nat.

(** matrix.h:643-671 [PreMultiply] and 944-947: a row of coordinates from the right. *)
Definition premultiply4 (m : matrix) (v : nat -> Q) : nat -> Q :=
  if idf m then v
  else fun i => E m i 0 * v 0%nat + E m i 1 * v 1%nat + E m i 2 * v 2%nat + E m i 3 * v 3%nat.

(** matrix.h:717-750: the image of a point of three coordinates. *)
Definition image3 (m : matrix) (v : nat -> Q) : option (nat -> Q) :=
  if idf m then Some v
  else
    let h := E m 0 3 * v 0%nat + E m 1 3 * v 1%nat + E m 2 3 * v 2%nat + E m 3 3 in
    let r := fun j => E m 0 j * v 0%nat + E m 1 j * v 1%nat + E m 2 j * v 2%nat + E m 3 j in
    if Qeq_bool h 1 then Some r
    else if Qeq_bool h 0 then None
    else let invh := 1 / h in Some (fun j => r j * invh).

(** matrix.h:949-973 [operator==]. *)
Definition same_elements (a b : matrix) : bool :=
  forallb (fun i => forallb (fun j => Qeq_bool (E a i j) (E b i j)) [0;1;2;3]%nat) [0;1;2;3]%nat.

(** matrix.h:981-989 [vectorTransform]: the flag stays. *)
Definition vector_transform (m : matrix) : matrix :=
  Mat (fun i j =>
         match i, j with
         | 3%nat, 3%nat => 1
         | 3%nat, _ | _, 3%nat => 0
         | _, _ => E m i j
         end) (idf m).

(** matrix.h:992-995 [normalTransform]. *)
Definition normal_transform (m : matrix) : option matrix :=
  option_map transpose (inverse (vector_transform m)).

(** matrix.cpp:524-535: the sums of [isClose]. *)
Definition norms (a b : elements) : Q * Q * Q :=
  fold_left (fun s ij =>
    let '(n1, n2, d) := s in
    let x := a (fst ij) (snd ij) in
    let y := b (fst ij) (snd ij) in
    (n1 + x * x, n2 + y * y, d + (x - y) * (x - y)))
    (list_prod [0;1;2;3]%nat [0;1;2;3]%nat) (0, 0, 0).

Definition close_elements (a b : elements) (tol : Q) : bool :=
  let '(n1, n2, d) := norms a b in
  Qle_bool d (tol * tol * n1) || Qle_bool d (tol * tol * n2).

(** matrix.h:377-378: the tolerance which is used when none is given, ten times the
    distance of 1 from the next float. *)
Definition default_tolerance : Q := 10 * (1 # 8388608).

(** matrix.cpp:502-537 [isClose], for two different variables.  The calls for the
    flagged matrices give no tolerance. *)
Definition is_close (m1 m2 : matrix) (tol : Q) : bool :=
  if idf m1 && idf m2 then true
  else if idf m1 then close_elements (E m2) (E identity) default_tolerance
  else if idf m2 then close_elements (E m1) (E identity) default_tolerance
  else close_elements (E m1) (E m2) tol.

(** C60: the arithmetic of matrices gives the transformations one writes. *)

From Coq Require Import List Arith Bool QArith Lia Lqa.
From Verif Require Import MatModel MatSpec MatProofs.
Import ListNotations.
Local Open Scope Q_scope.

(** Whatever is written with scalings, translations, given matrices, products, sums,
    differences, transposes and inverses, however deeply, has the elements that are
    meant.  Missing: products with a number on the left, see
    [C60_number_on_left_refuted]. *)
Theorem C60_expressions_partial : forall e M,
  number_on_left e = false -> eval e = Some M -> means e (E M).
Proof. intros e M L EV. exact (proj1 (means_ok e M L EV)). Qed.
Print Assumptions C60_expressions_partial.

(** It has a value unless the inverse of a matrix of determinant 0 is taken in it. *)
Theorem C60_defined_partial : forall e,
  number_on_left e = false -> (eval e = None <-> inverts_singular e).
Proof. exact defined_ok. Qed.
Print Assumptions C60_defined_partial.

(** The image of a point is the point times the matrix, also if the matrix is marked
    as the identity; the image under a product is the image of the image. *)
Theorem C60_points_partial : forall a b A B v j,
  number_on_left a = false -> number_on_left b = false ->
  eval a = Some A -> eval b = Some B -> (j < 4)%nat ->
  image4 A v j == moved (E A) v j /\
  premultiply4 A v j == sum4 (fun k => E A j k * v k) /\
  image4 (times A B) v j == image4 A (image4 B v) j.
Proof.
  intros a b A B v j La Lb EA EB Hj.
  destruct (means_ok a A La EA) as [_ HA]. destruct (means_ok b B Lb EB) as [_ HB].
  split; [apply image4_ok; assumption|]. split; [apply premultiply4_ok; assumption|].
  apply image4_times; assumption.
Qed.
Print Assumptions C60_points_partial.

(** Points of three coordinates are divided by the fourth, and have no image only if
    that is 0. *)
Theorem C60_projected_partial : forall a A v,
  number_on_left a = false -> eval a = Some A ->
  (image3 A v = None <-> moved (E A) (point v) 3%nat == 0) /\
  (forall r j, image3 A v = Some r -> (j < 3)%nat ->
     r j * moved (E A) (point v) 3%nat == moved (E A) (point v) j).
Proof.
  intros a A v L EV. destruct (means_ok a A L EV) as [_ H].
  assert (K := image3_ok A v H). destruct (image3 A v) as [r|].
  - destruct K as [N P]. split.
    + split; [discriminate | contradiction].
    + intros r' j E0 Hj. inversion E0; subst r'. apply P. exact Hj.
  - split; [split; auto | intros r j E0; discriminate].
Qed.
Print Assumptions C60_projected_partial.

Theorem C60_projected_product_partial : forall a b A B v p q,
  number_on_left a = false -> number_on_left b = false ->
  eval a = Some A -> eval b = Some B ->
  image3 B v = Some p -> image3 A p = Some q ->
  exists r, image3 (times A B) v = Some r /\ forall j, (j < 3)%nat -> r j == q j.
Proof.
  intros a b A B v p q La Lb EA EB.
  destruct (means_ok a A La EA) as [_ HA]. destruct (means_ok b B Lb EB) as [_ HB].
  apply image3_times; assumption.
Qed.
Print Assumptions C60_projected_product_partial.

(** The determinant is the one of the definition.  That of a product is the product of
    those of the factors, and that of an inverse the reciprocal. *)
Theorem C60_determinant : forall m, determinant m == det (E m).
Proof. exact determinant_is. Qed.
Print Assumptions C60_determinant.

Theorem C60_determinant_product_partial : forall a b A B,
  number_on_left a = false -> number_on_left b = false ->
  eval a = Some A -> eval b = Some B ->
  determinant (times A B) == determinant A * determinant B /\
  (forall C, inverse A = Some C -> determinant A * determinant C == 1).
Proof.
  intros a b A B La Lb EA EB.
  destruct (means_ok a A La EA) as [_ HA]. destruct (means_ok b B Lb EB) as [_ HB].
  split; [apply determinant_times; assumption|].
  intros C. apply determinant_inverse. exact HA.
Qed.
Print Assumptions C60_determinant_product_partial.

(** A rotation turns every vector about the axis by the angle with the given sine and
    cosine; it keeps lengths, angles and the orientation. *)
Theorem C60_rotation : forall s c x y z v,
  s * s + c * c == 1 -> x * x + y * y + z * z == 1 ->
  let R := rotation s c x y z in
  let a := fun i => match i with 0%nat => x | 1%nat => y | _ => z end in
  (forall j, (j < 3)%nat ->
     image4 R v j == c * v j + s * cross a v j + (1 - c) * dot a v * a j) /\
  image4 R v 3%nat == v 3%nat /\
  determinant R == 1 /\
  same (product (E R) (fun i j => E R j i)) one.
Proof.
  intros s c x y z v H1 H2 R a.
  assert (HR : honest R) by (intro K; discriminate K).
  destruct (rotation_orthogonal s c x y z H1 H2) as [D O].
  split; [|split; [|split; [|exact O]]].
  - intros j Hj. rewrite image4_ok by (try exact HR; lia). apply rotation_moves. exact Hj.
  - unfold R, image4, rotation. cbn [idf E Nat.eqb]. ring.
  - rewrite determinant_is. exact D.
Qed.
Print Assumptions C60_rotation.

(** A skew with the orthogonal directions r, o, d of length 1 moves a point along d,
    by s times its distance from the plane of r and d. *)
Theorem C60_skew : forall r o d s v,
  dot r r == 1 -> dot o o == 1 -> dot d d == 1 ->
  dot r o == 0 -> dot r d == 0 -> dot o d == 0 ->
  (forall j, (j < 3)%nat ->
     image4 (skewing r o d s) v j == v j + s * dot v o * d j) /\
  image4 (skewing r o d s) v 3%nat == v 3%nat.
Proof.
  intros r o d s v RR OO DD RO RD OD.
  (* the columns of an orthogonal matrix *)
  assert (K : forall i k, (i < 3)%nat -> (k < 3)%nat ->
     r i * r k + o i * o k + d i * d k == if (i =? k)%nat then 1 else 0).
  { set (Rm := fun i j : nat => match i, j with
       | 3%nat, 3%nat => 1 | 3%nat, _ | _, 3%nat => 0
       | 0%nat, _ => r j | 1%nat, _ => o j | _, _ => d j end : Q).
    assert (L : same (product Rm (fun i j => Rm j i)) one).
    { intros i j Hi Hj. unfold product, sum4, Rm, one.
      unfold dot, sum3 in RR, OO, DD, RO, RD, OD.
      destruct i as [|[|[|[|i]]]]; try lia; destruct j as [|[|[|[|j]]]]; try lia;
        cbn [Nat.eqb]; lra. }
    apply left_inverse_right in L.
    intros i k Hi Hk. assert (Q := L i k (ltac:(lia)) (ltac:(lia))).
    unfold product, sum4, Rm, one in Q.
    destruct i as [|[|[|i]]]; try lia; destruct k as [|[|[|k]]]; try lia;
      cbn [Nat.eqb] in Q |- *; lra. }
  destruct (skewing_moves r o d s v RR OO DD RO RD OD K) as [M1 M3].
  assert (HS : honest (skewing r o d s)).
  { intro F. unfold skewing, times, transpose, full in F. cbn [idf] in F. discriminate F. }
  split.
  - intros j Hj. rewrite image4_ok by (try exact HS; lia). apply M1. exact Hj.
  - rewrite image4_ok by (try exact HS; lia). exact M3.
Qed.
Print Assumptions C60_skew.

(** A normal and a vector on the surface keep their scalar product, so that a normal
    stays normal. *)
Theorem C60_normals_partial : forall e M N v n v' n',
  number_on_left e = false -> eval e = Some M ->
  normal_transform M = Some N ->
  image3 (vector_transform M) v = Some v' -> image3 N n = Some n' ->
  dot n' v' == dot n v.
Proof.
  intros e M N v n v' n' L EV. destruct (means_ok e M L EV) as [_ H].
  apply normals_kept. exact H.
Qed.
Print Assumptions C60_normals_partial.

(** Shears and rotations are added to what a matrix does so far, first. *)
Theorem C60_added_partial : forall a A axis p q s c x y z,
  number_on_left a = false -> eval a = Some A ->
  ((axis < 3)%nat -> same (E (shear_by A axis p q)) (product (E A) (shear_spec axis p q))) /\
  same (E (rotate_by A s c x y z)) (product (E A) (E (rotation s c x y z))).
Proof.
  intros a A axis p q s c x y z L EV. destruct (means_ok a A L EV) as [_ H].
  split; [intros Hx; apply shear_ok; assumption | apply rotate_by_ok; exact H].
Qed.
Print Assumptions C60_added_partial.

(** Normalising is possible unless the last element is 0; it makes that 1 and does not
    change the image of any point. *)
Theorem C60_normalise_partial : forall a A,
  number_on_left a = false -> eval a = Some A ->
  (normalise A = None <-> E A 3%nat 3%nat == 0) /\
  (forall N, normalise A = Some N ->
     E N 3%nat 3%nat == 1 /\
     forall v, match image3 A v, image3 N v with
               | Some p, Some q => forall j, (j < 3)%nat -> p j == q j
               | None, None => True
               | _, _ => False
               end).
Proof.
  intros a A L EV. destruct (means_ok a A L EV) as [_ H].
  assert (K := normalise_ok A H). split.
  - destruct (normalise A) as [N|]; [|split; auto].
    destruct K as [NZ _]. split; [discriminate | contradiction].
  - intros N EN. split.
    + rewrite EN in K. destruct K as [NZ [_ S]].
      assert (Q := S 3%nat 3%nat (ltac:(lia)) (ltac:(lia))). cbn beta in Q.
      assert (Z : (E N 3%nat 3%nat - 1) * E A 3%nat 3%nat == 0) by lra.
      apply Qmult_integral in Z. destruct Z as [Z|Z]; [lra | contradiction].
    + intros v. apply normalise_points; assumption.
Qed.
Print Assumptions C60_normalise_partial.

(** Two matrices are equal if all their elements are. *)
Theorem C60_equal : forall a b, same_elements a b = true <-> same (E a) (E b).
Proof. exact same_elements_ok. Qed.
Print Assumptions C60_equal.

(** Two matrices of which none is marked are close if they agree to within the
    tolerance. *)
Theorem C60_close_partial : forall m1 m2 tol,
  idf m1 = false -> idf m2 = false ->
  (is_close m1 m2 tol = true <-> agree (E m1) (E m2) tol).
Proof.
  intros m1 m2 tol F1 F2. unfold is_close. rewrite F1, F2. cbn [andb]. apply close_ok.
Qed.
Print Assumptions C60_close_partial.

(** A number before a matrix multiplies its elements.  If the matrix was not marked as
    the identity, the product acts on points as its elements say. *)
Theorem C60_number_on_left_partial : forall s a A,
  number_on_left a = false -> eval a = Some A ->
  exists D, eval (XNumberTimes s a) = Some D /\ means (XNumberTimes s a) (E D) /\
    (idf A = false -> honest D /\ forall v j, (j < 4)%nat -> image4 D v j == moved (E D) v j).
Proof.
  intros s a A N EA. pose proof (C60_expressions_partial a A N EA) as MA.
  exists (number_times s A). split; [cbn [eval]; rewrite EA; reflexivity|]. split.
  - cbn [means]. exists (E A). split; [exact MA|]. intros i j Hi Hj. cbn [number_times E]. ring.
  - intros F. assert (F' : idf (number_times s A) = false) by exact F. split; [intros X; congruence|].
    intros v j Hj. unfold image4. rewrite F'. unfold moved, sum4. ring.
Qed.
Print Assumptions C60_number_on_left_partial.

(** Refuted: twice the identity moves no point, since it is still marked. *)
Theorem C60_number_on_left_refuted :
  ~ (forall e M v j, eval e = Some M -> (j < 4)%nat -> image4 M v j == moved (E M) v j).
Proof.
  intro H.
  specialize (H (XNumberTimes 2 XIdentity) _ (fun _ => 1) 0%nat eq_refl (ltac:(lia))).
  vm_compute in H. discriminate H.
Qed.
Print Assumptions C60_number_on_left_refuted.

(** Refuted: the given tolerance counts for all matrices.  For a matrix marked as the
    identity another is used. *)
Theorem C60_close_refuted :
  ~ (forall a b A B tol, number_on_left a = false -> number_on_left b = false ->
       eval a = Some A -> eval b = Some B ->
       (is_close A B tol = true <-> agree (E A) (E B) tol)).
Proof.
  intro H.
  destruct (H XIdentity (XScaling (9 # 8) 1 1) _ _ 1 eq_refl eq_refl eq_refl eq_refl) as [_ K].
  assert (C : is_close identity (scaling (9 # 8) 1 1) 1 = true).
  { apply K. left. vm_compute. discriminate. }
  vm_compute in C. discriminate C.
Qed.
Print Assumptions C60_close_refuted.

(** * The hypotheses are met *)

(** A matrix which needs its rows exchanged. *)
Definition sample : elements :=
  fun i j => nth j (nth i [[0;2;0;1]; [1;0;0;0]; [0;1;3;0]; [0;0;1;1]] []) 0.

(** The values of a matrix, for looking at. *)
Definition rows (e : mexp) : list (list Q) :=
  match eval e with
  | Some M => map (fun i => map (fun j => Qred (E M i j)) [0;1;2;3]%nat) [0;1;2;3]%nat
  | None => []
  end.

Example C60_inverse_met :
  rows (XInverse (XFull sample))
  = [[0; 1; 0; 0]; [3#7; 0; 1#7; -3#7]; [-1#7; 0; 2#7; 1#7]; [1#7; 0; -2#7; 6#7]]%Q /\
  Qred (determinant (full sample)) = (-7)%Q.
Proof. vm_compute. split; reflexivity. Qed.

Example C60_expression_met :
  rows (XTimes (XScaling 2 1 1) (XTranslateBy (XTranspose (XTranslation 1 2 3)) 1 0 0))
  = [[4; 0; 0; 1]; [4; 1; 0; 2]; [6; 0; 1; 3]; [2; 0; 0; 1]]%Q /\
  rows (XTimes (XScaling 2 1 1) (XTranslation 1 0 0))
  = [[2; 0; 0; 0]; [0; 1; 0; 0]; [0; 0; 1; 0]; [2; 0; 0; 1]]%Q /\
  rows (XPremultiply (XScaling 2 1 1) (XTranslation 1 0 0))
  = [[2; 0; 0; 0]; [0; 1; 0; 0]; [0; 0; 1; 0]; [1; 0; 0; 1]]%Q.
Proof. vm_compute. repeat split. Qed.

(** A singular matrix: no inverse. *)
Example C60_singular_met :
  eval (XInverse (XScaling 0 1 1)) = None /\ inverts_singular (XInverse (XScaling 0 1 1)).
Proof.
  split; [vm_compute; reflexivity|]. right. exists (scaling 0 1 1).
  split; [reflexivity | vm_compute; reflexivity].
Qed.

(** A rotation by the angle of sine 3/5 and cosine 4/5 about an oblique axis. *)
Example C60_rotation_met :
  (3#5) * (3#5) + (4#5) * (4#5) == 1 /\
  (2#3) * (2#3) + (1#3) * (1#3) + (2#3) * (2#3) == 1 /\
  map (fun j => Qred (image4 (rotation (3#5) (4#5) 0 0 1) (fun i => match i with 0%nat => 1 | _ => 0 end) j))
      [0;1;2;3]%nat = [4#5; 3#5; 0; 0]%Q.
Proof. vm_compute. repeat split. Qed.

(** A skew of the y axis towards z. *)
Example C60_skew_met :
  let r := fun i => match i with 0%nat => 1 | _ => 0 end in
  let o := fun i => match i with 1%nat => 1 | _ => 0 end in
  let d := fun i => match i with 2%nat => 1 | _ => 0 end in
  dot r r == 1 /\ dot o o == 1 /\ dot d d == 1 /\ dot r o == 0 /\ dot r d == 0 /\
  dot o d == 0 /\
  map (fun j => Qred (image4 (skewing r o d 2) (fun i => match i with 0%nat => 5 | 1%nat => 3 | _ => 1 end) j))
      [0;1;2;3]%nat = [5; 3; 7; 1]%Q.
Proof. vm_compute. repeat split. Qed.

(** The normal of a plane that is scaled. *)
Example C60_normals_met :
  match normal_transform (scaling 2 1 1) with
  | Some N =>
    match image3 (vector_transform (scaling 2 1 1)) (fun i => match i with 0%nat => 1 | 1%nat => -1 | _ => 0 end),
          image3 N (fun i => match i with 2%nat => 0 | _ => 1 end) with
    | Some v, Some n =>
      (map (fun j => Qred (v j)) [0;1;2]%nat, map (fun j => Qred (n j)) [0;1;2]%nat)
    | _, _ => ([], [])
    end
  | None => ([], [])
  end = ([2; -1; 0]%Q, [1#2; 1; 0]%Q).
Proof. vm_compute. reflexivity. Qed.

(** A perspective view of a point, and a point that has no image. *)
Example C60_projected_met :
  let m := full (fun i j => nth j (nth i [[1;0;0;0]; [0;1;0;0]; [0;0;1;1]; [0;0;-1;0]] []) 0) in
  match image3 m (fun i => match i with 0%nat => 4 | 1%nat => 6 | _ => 2 end) with
  | Some r => map (fun j => Qred (r j)) [0;1;2]%nat
  | None => []
  end = [2; 3; 1#2]%Q /\
  image3 m (fun i => match i with 2%nat => 0 | _ => 1 end) = None.
Proof. vm_compute. split; reflexivity. Qed.

(** C65: the trim loops are the curves that were given. *)

From Coq Require Import List Arith Bool QArith ZArith Lia Lqa.
From Verif Require Import TrimModel NurbModel NurbSpec NurbProofs NurbMath NurbClamp.
Import ListNotations.
Local Open Scope nat_scope.

(** Each curve of each loop arrives as it was given: whatever the loops, the arrays
    that describe them are read as these loops. *)
Theorem C65_request : forall (loops : list (list curve)) min max,
  Forall (Forall (fun c => List.length (knots c) = order c + List.length (verts c))) loops ->
  let all := concat loops in
  let points := flat_map verts all in
  trim_curve (map (@List.length curve) loops) (map order all) (flat_map knots all) min max
    (map (fun c => List.length (verts c)) all) (map vx points) (map vy points) (map vz points)
  = Some loops.
Proof. intros loops min max F. exact (read_loops_ok loops [] F). Qed.
Print Assumptions C65_request.

(** Within the parameters of a curve, the point that is computed is the point of the
    rational B-spline curve. *)
Theorem C65_point : forall c u,
  wanted c -> open_ends c -> (bottom c <= u)%Q -> (u <= top c)%Q ->
  exists q, evaluate c u = Some q /\ at_parameter c u q.
Proof. intros. apply evaluate_ok; auto. Qed.
Print Assumptions C65_point.

(** It is never outside a strip that has all points of the curve. *)
Theorem C65_hull : forall c u q a b,
  wanted c -> open_ends c -> (bottom c <= u)%Q -> (u <= top c)%Q -> evaluate c u = Some q ->
  ((forall p, In p (verts c) -> a <= vx p / vz p /\ vx p / vz p <= b)%Q -> (a <= px q /\ px q <= b)%Q) /\
  ((forall p, In p (verts c) -> a <= vy p / vz p /\ vy p / vz p <= b)%Q -> (a <= py q /\ py q <= b)%Q).
Proof.
  intros c u q a b WA OE A B E.
  destruct (evaluate_ok c WA OE u A B) as (q' & E' & X & Y). rewrite E in E'. injection E' as <-.
  destruct (find_span_ok c WA OE u A B) as (k & _ & S).
  assert (G : forall f, (forall p, In p (verts c) -> a <= f p / vz p /\ f p / vz p <= b)%Q ->
    (a <= blend c u f / blend c u vz /\ blend c u f / blend c u vz <= b)%Q).
  { intros f H. apply (hull c WA u k f a b S). intros i I.
    assert (P := weights_pos c WA i I).
    destruct (H (pt c i)) as [H1 H2]; [apply nth_In; auto|].
    assert (M : (f (pt c i) == f (pt c i) / vz (pt c i) * vz (pt c i))%Q) by (field; lra).
    set (z := vz (pt c i)) in *. set (r := (f (pt c i) / z)%Q) in *. clearbody r.
    rewrite M. clear - P H1 H2. split; nra. }
  unfold curve_x in X. unfold curve_y in Y.
  split; intros H; apply G in H; lra.
Qed.
Print Assumptions C65_hull.

(** A clamped curve begins at its first and ends at its last point. *)
Theorem C65_ends : forall c,
  wanted c -> open_ends c -> clamped c ->
  exists q0 q1, evaluate c (bottom c) = Some q0 /\ evaluate c (top c) = Some q1 /\
    (px q0 == vx (pt c 0) / vz (pt c 0))%Q /\ (py q0 == vy (pt c 0) / vz (pt c 0))%Q /\
    (px q1 == vx (pt c (cverts c - 1)) / vz (pt c (cverts c - 1)))%Q /\
    (py q1 == vy (pt c (cverts c - 1)) / vz (pt c (cverts c - 1)))%Q.
Proof.
  intros c WA OE CL. assert (BT : (bottom c < top c)%Q) by apply WA.
  destruct (evaluate_ok c WA OE (bottom c)) as (q0 & E0 & X0 & Y0); [lra|lra|].
  destruct (evaluate_ok c WA OE (top c)) as (q1 & E1 & X1 & Y1); [lra|lra|].
  exists q0, q1. unfold curve_x, curve_y in *.
  rewrite !(blend_low c WA OE CL) in *. rewrite !(blend_high c WA OE CL) in *. auto 8.
Qed.
Print Assumptions C65_ends.

(** Any curve with spans at its ends is replaced by one of the same order and number of
    points that begins and ends at its first and last point, and is the same curve. *)
Theorem C65_clamp : forall c,
  wanted c -> open_ends c ->
  exists c', clamp c = Some c' /\ order c' = order c /\ cverts c' = cverts c /\
    wanted c' /\ open_ends c' /\ clamped c' /\ (bottom c' == bottom c)%Q /\ (top c' == top c)%Q /\
    forall u q, (bottom c <= u)%Q -> (u <= top c)%Q -> at_parameter c' u q <-> at_parameter c u q.
Proof.
  intros c WA OE. destruct (clamp_ok c WA OE) as (c' & H1 & H2 & H3 & H4 & H5 & H6 & H7 & H8 & H9).
  exists c'. do 8 (split; [assumption|]). intros u q A B. apply at_clamped. auto.
Qed.
Print Assumptions C65_clamp.

(** The points of a loop: those of the curves, in order, at even distances of the
    parameter, whether the knots are clamped or not. *)
Theorem C65_loop : forall pieces cs,
  Forall (fun c => wanted c /\ open_ends c) cs ->
  exists l, prepare pieces cs = Some l /\ wanted_points pieces cs l.
Proof. intros. apply prepare_all. auto. Qed.
Print Assumptions C65_loop.

(** * Examples *)

Definition q (z : Z) : Q := inject_Z z.
Definition given (o : nat) (ks : list Z) (ps : list (Z * Z * Z)) : curve :=
  Curve o (map q ks) (map (fun '(a, b, w) => Vec (q a) (q b) (q w)) ps).

(** A quarter of a circle, a line with a corner, and a curve of order 3 with two spans. *)
Definition quarter : curve := given 3 [0; 0; 0; 1; 1; 1]%Z [(1, 0, 1); (1, 1, 1); (0, 2, 2)]%Z.
Definition corner : curve := given 2 [0; 0; 1; 3; 3]%Z [(0, 1, 1); (0, 0, 1); (1, 0, 1)]%Z.
Definition bow : curve := given 3 [0; 0; 0; 1; 2; 2; 2]%Z [(0, 0, 1); (0, 2, 2); (4, 2, 1); (4, 0, 1)]%Z.
(** The same without clamping. *)
Definition free : curve := given 4 [0; 1; 2; 3; 4; 5; 6; 7; 8]%Z
  [(0, 0, 1); (1, 3, 2); (2, 1, 1); (4, 0, 1); (3, 1, 3)]%Z.

Lemma wanted_test : forall c,
  (1 <=? order c) && (order c <=? cverts c) && (List.length (knots c) =? order c + cverts c) &&
  forallb (fun i => Qle_bool (kn c i) (kn c (i + 1))) (seq 0 (List.length (knots c) - 1)) &&
  less (bottom c) (top c) && forallb (fun p => less 0 (vz p)) (verts c) = true -> wanted c.
Proof.
  intros c H. rewrite !andb_true_iff, !forallb_forall in H.
  destruct H as (((((H1 & H2) & H3) & H4) & H5) & H6).
  split; [split; [now apply Nat.leb_le|now apply Nat.leb_le]|].
  split; [now apply Nat.eqb_eq|]. split.
  - intros i I. apply Qle_bool_iff. apply H4. apply in_seq. lia.
  - split; [now apply less_iff|]. apply Forall_forall. intros p P. apply less_iff. auto.
Qed.

Example good_curves : Forall (fun c => wanted c /\ open_ends c /\ clamped c) [quarter; corner; bow].
Proof.
  repeat constructor;
    try (apply wanted_test; vm_compute; reflexivity); vm_compute; reflexivity.
Qed.

Example free_fine : wanted free /\ open_ends free.
Proof. split; [apply wanted_test; vm_compute; reflexivity|repeat constructor]. Qed.

Definition seen (o : option point) : option (Q * Q) := option_map (fun p => (Qred (px p), Qred (py p))) o.

Example points_seen :
  map (fun u => seen (evaluate quarter u)) [0; 1 # 2; 1]%Q =
    [Some (1, 0); Some (3 # 5, 4 # 5); Some (0, 1)]%Q /\
  map (fun u => seen (evaluate corner u)) [1 # 2; 1; 2; 3]%Q =
    [Some (0, 1 # 2); Some (0, 0); Some (1 # 2, 0); Some (1, 0)]%Q /\
  map (fun u => seen (evaluate bow u)) [1; 2]%Q = [Some (4 # 3, 4 # 3); Some (4, 0)]%Q /\
  map (fun u => seen (evaluate free u)) [3; 4; 5]%Q =
    [Some (3 # 5, 13 # 10); Some (13 # 7, 1); Some (21 # 8, 1 # 4)]%Q.
Proof. vm_compute. repeat split. Qed.

Example loop_seen :
  option_map (map (fun p => (Qred (px p), Qred (py p)))) (prepare (fun c => cverts c - 1) [corner; quarter]) =
  Some [(0, 1); (1 # 4, 0); (1, 0); (3 # 5, 4 # 5)]%Q.
Proof. vm_compute. reflexivity. Qed.

(** The curve without clamping is clamped, and its points stay. *)
Definition half : curve := given 3 [0; 1; 2; 5; 5; 6]%Z [(0, 0, 1); (1, 3, 2); (2, 1, 1)]%Z.

Example half_fine : wanted half /\ open_ends half /\ ~ clamped half.
Proof.
  split; [apply wanted_test; vm_compute; reflexivity|]. split; [repeat constructor|].
  intros [H _]. revert H. vm_compute. discriminate.
Qed.

Example clamped_seen :
  option_map (fun c => map Qred (knots c)) (clamp half) = Some [2; 2; 2; 5; 5; 5]%Q /\
  option_map (map (fun p => (Qred (px p), Qred (py p)))) (prepare (fun _ => 2) [free; half]) =
  Some [(3 # 5, 13 # 10); (13 # 7, 1); (1 # 5, 3 # 5); (17 # 25, 31 # 25)]%Q.
Proof. vm_compute. split; reflexivity. Qed.

(** * What does not hold *)

(** The range of the parameter that is asked for is not looked at. *)
Definition line : curve := given 2 [0; 0; 1; 1]%Z [(0, 0, 1); (1, 0, 1)]%Z.

Lemma line_x : forall u, (0 <= u)%Q -> (u < 1)%Q -> (curve_x line u == u)%Q.
Proof.
  intros u A B.
  assert (I : forall i, i + 1 < 4 -> in_span line u i = (i =? 1)).
  { assert (W : wanted line) by (apply wanted_test; vm_compute; reflexivity).
    apply (in_span_below line W).
    - change (top line) with 1%Q. exact B.
    - vm_compute. lia.
    - change (kn line 1) with 0%Q. exact A.
    - change (kn line (1 + 1)) with 1%Q. exact B. }
  assert (G : forall f, (blend line u f == (1 - u) * f (pt line 0) + u * f (pt line 1))%Q).
  { intros f. unfold blend. change (cverts line) with 2. change (order line - 1) with 1.
    cbn [sum N Nat.add]. rewrite !I by lia. cbn [Nat.eqb].
    rewrite !Qmult_0_r. change (kn line 1) with 0%Q. change (kn line 2) with 1%Q. field. }
  unfold curve_x. rewrite !G.
  change (vx (pt line 0)) with 0%Q. change (vx (pt line 1)) with 1%Q.
  change (vz (pt line 0)) with 1%Q. change (vz (pt line 1)) with 1%Q. field. lra.
Qed.

Theorem C65_range_refuted : exists c min max l p,
  wanted c /\ open_ends c /\ clamped c /\ (bottom c <= min)%Q /\ (min < max)%Q /\ (max <= top c)%Q /\
  trim_curve [1] [order c] (knots c) [min] [max] [cverts c] (map vx (verts c)) (map vy (verts c)) (map vz (verts c))
    = Some [[c]] /\
  prepare (fun _ => 4) [c] = Some l /\ In p l /\
  forall u, (min <= u)%Q -> (u <= max)%Q -> ~ at_parameter c u p.
Proof.
  exists line, 0%Q, (1 # 2)%Q.
  eexists. eexists. split; [apply wanted_test; vm_compute; reflexivity|].
  split; [vm_compute; split; reflexivity|]. split; [vm_compute; split; reflexivity|].
  do 3 (split; [vm_compute; try discriminate; reflexivity|]).
  split; [reflexivity|].
  split; [vm_compute; reflexivity|].
  split; [do 3 right; left; reflexivity|].
  intros u A B [X _]. rewrite line_x in X by lra. cbn [px] in X.
  assert (Y : (u == 3 # 4)%Q) by (rewrite <- X; reflexivity). lra.
Qed.
Print Assumptions C65_range_refuted.

(** With more equal knots at the beginning than the order asks for, the first point is
    a division of zero by zero. *)
Theorem C65_empty_span_refuted : exists c, wanted c /\ clamped c /\ evaluate c (bottom c) = None.
Proof.
  exists (given 2 [0; 0; 0; 1; 1]%Z [(0, 1, 1); (0, 0, 1); (1, 0, 1)]%Z).
  split; [apply wanted_test; vm_compute; reflexivity|]. split; [vm_compute; split; reflexivity|].
  vm_compute. reflexivity.
Qed.
Print Assumptions C65_empty_span_refuted.

(** A curve whose last part is not on the next curve: its end is not a point of the loop. *)
Theorem C65_end_refuted : exists c pieces l,
  wanted c /\ open_ends c /\ clamped c /\ 0 < pieces /\ prepare (fun _ => pieces) [c] = Some l /\
  forall p, In p l -> ~ at_parameter c (top c) p.
Proof.
  exists line, 2. eexists. split; [apply wanted_test; vm_compute; reflexivity|].
  split; [vm_compute; split; reflexivity|]. split; [vm_compute; split; reflexivity|].
  split; [lia|]. split; [vm_compute; reflexivity|].
  intros p [<-|[<-|[]]] [X _]; revert X; vm_compute; discriminate.
Qed.
Print Assumptions C65_end_refuted.

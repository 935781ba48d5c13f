(** C64: trimming keeps the part of a surface that its trim curves enclose. *)

From Coq Require Import List Bool Arith Lia QArith Lqa.
From Verif Require Import TrimModel TrimSpec TrimProofs.
Import ListNotations.
Local Open Scope Q_scope.

(** Which points are cut away does not depend on the way one looks: whatever straight way
    leads out of the loops, the number of sides it crosses decides. *)
Theorem C64_points loops p :
  (cut_away loops p -> trim_point loops p = true) /\
  (left_over loops p -> trim_point loops p = false).
Proof. split; [apply cut_away_point|apply left_over_point]. Qed.
Print Assumptions C64_points.

(** Every point that is not on a curve is either cut away or left. *)
Theorem C64_decided loops p :
  (forall l a b, In l loops -> In (a, b) (sides l) -> ~ on p a b) ->
  cut_away loops p \/ left_over loops p.
Proof. apply decided. Qed.
Print Assumptions C64_decided.

(** A line that is not reported to meet the curves does not lead from a point that is cut
    away to one that is left. *)
Theorem C64_lines loops p q : trim_line loops p q = false ->
  trim_point loops p = trim_point loops q.
Proof. apply trim_line_same. Qed.
Print Assumptions C64_lines.

(** Each crossing changes the answer. *)
Theorem C64_crossings l p q n : Forall (clear p q) (sides l) -> crossed p q (sides l) n ->
  (loop_point l p = loop_point l q <-> Nat.Even n).
Proof.
  intros F C. pose proof (loop_crossed l p q n F C) as X.
  rewrite <- Nat.even_spec, <- Nat.negb_odd, <- X.
  destruct (loop_point l p), (loop_point l q); cbn; split; congruence.
Qed.
Print Assumptions C64_crossings.

(** The parameters at a place of a micropolygon of any shape lie between those of its four
    corners, each as near as the place is. *)
Theorem C64_parameters uv cu iu iv s t : 0 <= s <= 1 -> 0 <= t <= 1 ->
  let k := (iv * (cu + 1) + iu)%nat in
  let mean f := (1 - s) * (1 - t) * f (uv k) + s * (1 - t) * f (uv (k + 1)%nat)
                + (1 - s) * t * f (uv (k + cu + 1)%nat) + s * t * f (uv (k + cu + 2)%nat) in
  px (sample_uv uv cu iu iv s t) == mean px /\ py (sample_uv uv cu iu iv s t) == mean py.
Proof.
  intros S T k mean.
  assert (B : forall a b c d, bilinear a b c d s t ==
    (1 - s) * (1 - t) * a + s * (1 - t) * b + (1 - s) * t * c + s * t * d).
  { intros a b c d. unfold bilinear.
    assert (X : forall u x y, 0 <= u <= 1 -> (if Qle_bool u 0 then x else if Qle_bool 1 u then y else (y - x) * u + x) == (1 - u) * x + u * y).
    { intros u x y U. destruct (Qle_bool u 0) eqn:E1; [apply Qle_bool_iff in E1; assert (E : u == 0) by lra; rewrite E; ring|].
      destruct (Qle_bool 1 u) eqn:E2; [apply Qle_bool_iff in E2; assert (E : u == 1) by lra; rewrite E; ring|ring]. }
    rewrite (X t _ _ T), (X s a b S), (X s c d S). ring. }
  unfold sample_uv, mean, k. cbn [px py]. split; apply B.
Qed.
Print Assumptions C64_parameters.

(** What is seen of a still micropolygon, with the sense "inside", is what the curves
    leave of it.  Missing for the full property: loops that lie wholly in the
    micropolygon, curves that enter it without cutting away a corner, moving surfaces,
    and the sense "outside"; these are refuted below. *)
Theorem C64_shown_partial loops uv cu iu iv a c s t :
  box_of uv cu iu iv a c -> 0 <= s <= 1 -> 0 <= t <= 1 ->
  (forall l, In l loops -> (exists o, In o l /\ ~ in_box a c o)
     \/ forall e, In e (sides l) -> ~ enters a c e) ->
  (forall l e, In l loops -> In e (sides l) -> ~ enters a c e) \/
  (exists k, In k [a; Pt (px c) (py a); Pt (px a) (py c); c] /\ cut_away loops k) ->
  (cut_away loops (place a c s t) -> shown false false loops uv cu iu iv s t = false) /\
  (left_over loops (place a c s t) -> shown false false loops uv cu iu iv s t = true).
Proof.
  intros BOX S T BIG SEEN.
  assert (W : px a < px c) by (destruct BOX; assumption).
  assert (H : py a < py c) by (destruct BOX as (_ & H & _); exact H).
  assert (E : shown false false loops uv cu iu iv s t = negb (trim_point loops (place a c s t))).
  { apply (shown_right loops uv cu iu iv a c s t BOX W H S T BIG).
    destruct SEEN as [N|(k & I & K)]; [left; exact N|right].
    apply cut_away_point in K. cbn [In] in I.
    destruct I as [<-|[<-|[<-|[<-|[]]]]]; auto. }
  split; intro K; rewrite E.
  - apply cut_away_point in K. rewrite K. reflexivity.
  - apply left_over_point in K. rewrite K. reflexivity.
Qed.
Print Assumptions C64_shown_partial.

(** * Where the code does something else *)

(** A grid of one micropolygon, from 0 to 1 in u and v. *)
Definition unit_grid (i : nat) : point :=
  match i with
  | O => Pt 0 0
  | 1%nat => Pt 1 0
  | 2%nat => Pt 0 1
  | _ => Pt 1 1
  end.

Lemma unit_box : box_of unit_grid 1 0 0 (Pt 0 0) (Pt 1 1).
Proof. unfold box_of, same. cbn. repeat split; reflexivity. Qed.

(** Deciding a point against one loop, off its sides. *)
Lemma one_left l p : (forall a b, In (a, b) (sides l) -> ~ on p a b) ->
  trim_point [l] p = false -> left_over [l] p.
Proof.
  intros O T. destruct (decided [l] p) as [C|L]; [|exfalso|exact L].
  - intros k a b [<-|[]]. apply O.
  - apply cut_away_point in C. congruence.
Qed.

Lemma one_cut l p : (forall a b, In (a, b) (sides l) -> ~ on p a b) ->
  trim_point [l] p = true -> cut_away [l] p.
Proof.
  intros O T. destruct (decided [l] p) as [C|L]; [|exact C|exfalso].
  - intros k a b [<-|[]]. apply O.
  - apply left_over_point in L. congruence.
Qed.

Ltac off_sides := let I := fresh in intros ? ? I; cbn [sides combine app] in I;
  repeat (destruct I as [I|I];
    [injection I as <- <-; intros (k & K & [X Y]); unfold between in X, Y; cbn [px py] in X, Y; lra
    |]); destruct I.

Definition inner_loop : list point :=
  [Pt (1#4) (1#4); Pt (3#4) (1#4); Pt (3#4) (3#4); Pt (1#4) (3#4)].

(** A loop that lies within one micropolygon is lost. *)
Theorem C64_inner_loop_refuted :
  exists loops uv cu iu iv a c s t, box_of uv cu iu iv a c /\ 0 <= s <= 1 /\ 0 <= t <= 1 /\
    left_over loops (place a c s t) /\ shown false false loops uv cu iu iv s t = false.
Proof.
  exists [inner_loop], unit_grid, 1%nat, 0%nat, 0%nat, (Pt 0 0), (Pt 1 1), (1#2), (1#2).
  split; [exact unit_box|]. split; [lra|]. split; [lra|]. split; [|vm_compute; reflexivity].
  apply one_left; [unfold place, inner_loop; off_sides|vm_compute; reflexivity].
Qed.
Print Assumptions C64_inner_loop_refuted.

Definition notched_loop : list point :=
  [Pt (-1) (-1); Pt 2 (-1); Pt 2 2; Pt (-1) 2; Pt (-1) (3#4); Pt (3#4) (1#2); Pt (-1) (1#4)].

(** A notch between the corners of a micropolygon is not cut. *)
Theorem C64_notch_refuted :
  exists loops uv cu iu iv a c s t, box_of uv cu iu iv a c /\ 0 <= s <= 1 /\ 0 <= t <= 1 /\
    cut_away loops (place a c s t) /\ shown false false loops uv cu iu iv s t = true.
Proof.
  exists [notched_loop], unit_grid, 1%nat, 0%nat, 0%nat, (Pt 0 0), (Pt 1 1), (1#4), (1#2).
  split; [exact unit_box|]. split; [lra|]. split; [lra|]. split; [|vm_compute; reflexivity].
  apply one_cut; [unfold place, notched_loop; off_sides|vm_compute; reflexivity].
Qed.
Print Assumptions C64_notch_refuted.

Definition half_loop : list point := [Pt (-1) (-1); Pt (1#2) (-1); Pt (1#2) 2; Pt (-1) 2].

(** With the sense "outside", micropolygons on the curve are not cut. *)
Theorem C64_outside_refuted :
  exists loops uv cu iu iv a c s t, box_of uv cu iu iv a c /\ 0 <= s <= 1 /\ 0 <= t <= 1 /\
    left_over loops (place a c s t) /\ shown false true loops uv cu iu iv s t = true.
Proof.
  exists [half_loop], unit_grid, 1%nat, 0%nat, 0%nat, (Pt 0 0), (Pt 1 1), (1#4), (1#4).
  split; [exact unit_box|]. split; [lra|]. split; [lra|]. split; [|vm_compute; reflexivity].
  apply one_left; [unfold place, half_loop; off_sides|vm_compute; reflexivity].
Qed.
Print Assumptions C64_outside_refuted.

(** With the sense "outside" and no curves, the surface vanishes. *)
Theorem C64_no_curves_refuted uv cu iu iv s t : shown false true [] uv cu iu iv s t = false.
Proof. reflexivity. Qed.
Print Assumptions C64_no_curves_refuted.

(** Moving surfaces are not cut where the curve passes through a micropolygon. *)
Theorem C64_moving_refuted :
  exists loops uv cu iu iv a c s t, box_of uv cu iu iv a c /\ 0 <= s <= 1 /\ 0 <= t <= 1 /\
    cut_away loops (place a c s t) /\ shown true false loops uv cu iu iv s t = true.
Proof.
  exists [half_loop], unit_grid, 1%nat, 0%nat, 0%nat, (Pt 0 0), (Pt 1 1), (3#4), (1#4).
  split; [exact unit_box|]. split; [lra|]. split; [lra|]. split; [|vm_compute; reflexivity].
  apply one_cut; [unfold place, half_loop; off_sides|vm_compute; reflexivity].
Qed.
Print Assumptions C64_moving_refuted.

(** * The hypotheses are met *)

(** A curve through the middle of a micropolygon meets those of [C64_shown_partial], and
    cuts one half. *)
Example half_cut :
  (forall l, In l [half_loop] -> (exists o, In o l /\ ~ in_box (Pt 0 0) (Pt 1 1) o)
     \/ forall e, In e (sides l) -> ~ enters (Pt 0 0) (Pt 1 1) e) /\
  (exists k, In k [Pt 0 0; Pt 1 0; Pt 0 1; Pt 1 1] /\ cut_away [half_loop] k) /\
  cut_away [half_loop] (place (Pt 0 0) (Pt 1 1) (3#4) (1#4)) /\
  left_over [half_loop] (place (Pt 0 0) (Pt 1 1) (1#4) (1#4)) /\
  shown false false [half_loop] unit_grid 1 0 0 (3#4) (1#4) = false /\
  shown false false [half_loop] unit_grid 1 0 0 (1#4) (1#4) = true.
Proof.
  split.
  { intros l [<-|[]]. left. exists (Pt (-1) (-1)). split; [left; reflexivity|].
    unfold in_box. cbn [px py]. lra. }
  split.
  { exists (Pt 1 0). split; [cbn; auto|].
    apply one_cut; [unfold half_loop; off_sides|vm_compute; reflexivity]. }
  split; [apply one_cut; [unfold place, half_loop; off_sides|vm_compute; reflexivity]|].
  split; [apply one_left; [unfold place, half_loop; off_sides|vm_compute; reflexivity]|].
  split; vm_compute; reflexivity.
Qed.

(** A micropolygon without corners left and away from the curve is not added. *)
Example far_discarded :
  bust false [half_loop] (fun i => Pt (px (unit_grid i) + 5) (py (unit_grid i))) 1 0 0 = None.
Proof. vm_compute. reflexivity. Qed.

(** A line that is not reported, and one that is. *)
Example lines : trim_line [inner_loop] (Pt 0 0) (Pt 1 0) = false /\
  trim_line [inner_loop] (Pt 0 0) (Pt (1#2) (1#2)) = true.
Proof. split; vm_compute; reflexivity. Qed.

(** A hole in a loop: two loops surround, the point is cut away. *)
Example hole : trim_point [notched_loop; inner_loop] (Pt (7#8) (7#8)) = false /\
  trim_point [half_loop; inner_loop] (Pt (3#8) (3#8)) = true.
Proof. split; vm_compute; reflexivity. Qed.

(** C41, C42, C43: polygons are divided without losing anything. *)

From Coq Require Import List Bool ZArith Arith Lia.
From Verif Require Import PolyModel PolySpec PolyProofs.
Import ListNotations.
Open Scope Z_scope.

(* ---------- C41 ---------- *)

(** Each polygon of a PointsPolygons call is drawn with its own vertices, number and
    place of face varying values, when all vertex numbers that belong to the call are
    numbers of vertices. *)
Theorem C41_own_partial : forall (size : Z) (counts : list nat) (indices : list Z),
  size <= 4294967296 ->
  (fold_right plus 0%nat counts <= length indices)%nat ->
  Forall (fun x => 0 <= x < size) (firstn (fold_right plus 0%nat counts) indices) ->
  points_polygons size counts indices = own_faces counts indices 0 0.
Proof.
  intros size counts indices HS L G. unfold points_polygons.
  rewrite <- (app_nil_r counts) at 1. rewrite split_faces_good; auto. cbn [split_faces]. now rewrite app_nil_r.
Qed.
Print Assumptions C41_own_partial.
Example C41_own_case :
  points_polygons 5 [3; 4]%nat [0; 1; 2; 4; 3; 2; 1]
  = [mkFace 0 0 [0; 1; 2]; mkFace 1 3 [4; 3; 2; 1]].
Proof. reflexivity. Qed.

(** Up to the first polygon with a wrong vertex number the polygons are right. *)
Theorem C41_before_partial : forall (size : Z) (good_counts counts : list nat) (indices : list Z),
  size <= 4294967296 ->
  (fold_right plus 0%nat good_counts <= length indices)%nat ->
  Forall (fun x => 0 <= x < size) (firstn (fold_right plus 0%nat good_counts) indices) ->
  firstn (length good_counts) (points_polygons size (good_counts ++ counts) indices)
  = own_faces good_counts indices 0 0.
Proof.
  intros size gs counts indices HS L G. unfold points_polygons. rewrite split_faces_good; auto. cbn [skipn].
  assert (E : forall cs ix n s, length (own_faces cs ix n s) = length cs)
    by (induction cs; intros; cbn; congruence).
  rewrite firstn_app. change (Z.of_nat 0) with 0. rewrite E, Nat.sub_diag, firstn_O, app_nil_r.
  apply firstn_all2. now rewrite E.
Qed.
Print Assumptions C41_before_partial.

(** After one wrong vertex number all the other polygons are lost: the second of three
    polygons names vertex -1, and the third, which is in order, is not drawn. *)
Theorem C41_refuted : exists (size : Z) (counts : list nat) (indices : list Z) (f : face),
  In f (own_faces counts indices 0 0) /\ Forall (fun x => 0 <= x < size) (f_verts f) /\
  ~ In f (points_polygons size counts indices).
Proof.
  exists 3, [3; 3; 3]%nat, [0; 1; 2; 0; -1; 2; 0; 1; 2], (mkFace 2 6 [0; 1; 2]).
  split; [cbn; auto|]. split; [repeat constructor; cbn; lia|]. cbn. intros [H|[]]. discriminate.
Qed.
Print Assumptions C41_refuted.

(* ---------- C42 ---------- *)

(** A polygon and its pieces have the same edges: every quantity summed over the edges of
    closed lines, in which an edge passed backwards counts negatively, is the same for
    the polygon and for the outlines of the pieces together. *)
Theorem C42_edges : forall (T : Type) (F : T -> T -> Z) (pos : Z -> T) (f : face), antisymmetric F ->
  total (map (fun p => around F (map pos (outline_of p (from_vertex p)))) (split_polygon f))
  = around F (map pos (f_verts f)).
Proof. intros T F pos f A. exact (split_polygon_cover F A pos f). Qed.
Print Assumptions C42_edges.

(** The pieces together have the area of the polygon ... *)
Theorem C42_area : forall (pos : Z -> Z * Z) (f : face),
  total (map (fun p => area2 (map pos (outline_of p (from_vertex p)))) (split_polygon f))
  = area2 (map pos (f_verts f)).
Proof. intros. exact (split_polygon_cover cross antisymmetric_cross pos f). Qed.
Print Assumptions C42_area.
(** ... and wind round each point as often as the polygon does. *)
Theorem C42_winding : forall (q : Z * Z) (pos : Z -> Z * Z) (f : face),
  total (map (fun p => winding q (map pos (outline_of p (from_vertex p)))) (split_polygon f))
  = winding q (map pos (f_verts f)).
Proof. intros. exact (split_polygon_cover _ (antisymmetric_crossing q) pos f). Qed.
Print Assumptions C42_winding.

(** The pieces of a convex polygon are convex and turned like it. *)
Theorem C42_convex : forall (pos : Z -> Z * Z) (f : face) (s : Z) (p : patch),
  convex s (map pos (f_verts f)) -> In p (split_polygon f) ->
  convex s (map pos (outline_of p (from_vertex p))).
Proof. intros pos f s p C I. exact (split_convex f pos s p C I). Qed.
Print Assumptions C42_convex.
(** A point a convex polygon goes round is in one piece, and any other in none; points on
    a line through two vertices excepted. *)
Theorem C42_once : forall (q : Z * Z) (pos : Z -> Z * Z) (f : face) (s : Z), s = 1 \/ s = -1 ->
  convex s (map pos (f_verts f)) -> apart q (map pos (f_verts f)) ->
  let inside p := negb (winding q (map pos (outline_of p (from_vertex p))) =? 0) in
  length (filter inside (split_polygon f)) = if winding q (map pos (f_verts f)) =? 0 then 0%nat else 1%nat.
Proof.
  intros q pos f s S1 C Q inside. pose proof (C42_winding q pos f) as W.
  pose proof (convex_once s q _ S1 C Q) as K.
  assert (H : forall l, (forall p, In p l -> In p (split_polygon f)) ->
    s * total (map (fun p => winding q (map pos (outline_of p (from_vertex p)))) l) = Z.of_nat (length (filter inside l))).
  { induction l as [|p l IH]; intros I; [cbn; unfold total; cbn; lia|]. cbn [map filter]. unfold total. cbn [fold_right].
    change (fold_right Z.add 0) with total. rewrite Z.mul_add_distr_l, IH by (intros; apply I; now right).
    unfold inside at 2. destruct (split_once f pos s q p S1 C Q (I p (or_introl eq_refl))) as [E|E]; rewrite E.
    - replace (winding q _ =? 0) with true by (symmetry; apply Z.eqb_eq; nia). reflexivity.
    - replace (winding q _ =? 0) with false by (symmetry; apply Z.eqb_neq; nia). cbn [negb length]. lia. }
  specialize (H _ (fun p I => I)). rewrite W in H.
  destruct (Z.eqb_spec (winding q (map pos (f_verts f))) 0) as [E|E]; [rewrite E in H; lia|].
  destruct K as [K|K]; [exfalso; nia|lia].
Qed.
Print Assumptions C42_once.
Example C42_once_case : let pos := fun v => nth (Z.to_nat v) [(0, 0); (4, 0); (6, 3); (3, 7); (-1, 4)] (0, 0) in
  let l := [0; 1; 2; 3; 4] in
  convex 1 (map pos l) /\ apart (3, 1) (map pos l) /\ winding (3, 1) (map pos l) = 1.
Proof.
  cbv zeta. repeat split.
  - intros i j k L1 L2 L3. cbn in L3.
    destruct i as [|[|[|i]]]; destruct j as [|[|[|[|j]]]]; destruct k as [|[|[|[|[|k]]]]]; try lia; vm_compute; reflexivity.
  - intros i j L1 L2. cbn in L2.
    destruct i as [|[|[|[|i]]]]; destruct j as [|[|[|[|[|j]]]]]; try lia; vm_compute; discriminate.
Qed.
(** Every corner of a piece is a corner of the polygon: position, varying values and face
    varying values come from the same vertex, and the uniform value is the polygon's. *)
Theorem C42_corners : forall (f : face) (p : patch), In p (split_polygon f) ->
  exists at_ : list nat, length at_ = 4%nat /\ Forall (fun c => (c < length (f_verts f))%nat) at_ /\
    from_vertex p = map (fun c => nth c (f_verts f) 0) at_ /\
    from_face p = map (fun c => f_start f + Z.of_nat c) at_ /\
    from_uniform p = f_index f.
Proof.
  intros f p I. pose proof (split_polygon_of f) as H. rewrite Forall_forall in H.
  destruct (H p I) as (i & j & k & l & L1 & L2 & L3 & L4 & E1 & E2 & E3).
  exists [i; j; k; l]. repeat split; auto; repeat constructor; auto.
Qed.
Print Assumptions C42_corners.

(** A polygon of n vertices has (n-1)/2 pieces; the corners of a piece are different places
    of the polygon, all four or, with a phantom, three and the last again. *)
Theorem C42_pieces : forall (f : face) (p : patch), (3 <= length (f_verts f))%nat ->
  length (split_polygon f) = ((length (f_verts f) - 1) / 2)%nat /\
  (In p (split_polygon f) ->
     if phantom p
     then NoDup (firstn 3 (from_face p)) /\ nth 2 (from_face p) 0 = nth 3 (from_face p) 0
     else NoDup (from_face p)).
Proof.
  intros f p L. unfold split_polygon.
  destruct (split_loop_pieces f (length (f_verts f)) (length (f_verts f)) 2 1 eq_refl ltac:(lia) ltac:(lia)) as [ F G ].
  split; [ rewrite G; f_equal; lia | ].
  intros I. rewrite Forall_forall in F. exact (proj2 (F p I)).
Qed.
Print Assumptions C42_pieces.
Example C42_pieces_case :
  map phantom (split_polygon (mkFace 0 0 [0; 1; 2; 3; 4])) = [false; true] /\
  map phantom (split_polygon (mkFace 0 0 [0; 1; 2; 3; 4; 5])) = [false; false].
Proof. split; reflexivity. Qed.

(** Over a triangular piece every value is interpolated linearly between its three
    vertices: at (u / m, v / m) the weights are m - u - v, u and v. *)
Theorem C42_linear : forall (f : face) (p : patch) (value : Z -> Z) (from : list Z) (m u v : Z),
  In p (split_polygon f) -> phantom p = true ->
  bilinear (corner_values p from value) m u v
  = m * ((m - u - v) * value (nth 0 from 0) + u * value (nth 1 from 0) + v * value (nth 2 from 0)).
Proof. intros f p value from m u v _ H. unfold bilinear, corner_values. rewrite H. cbn [nth]. ring. Qed.
Print Assumptions C42_linear.
(** Over the others the values at the corners are those of the vertices. *)
Theorem C42_four : forall (f : face) (p : patch) (value : Z -> Z) (from : list Z),
  In p (split_polygon f) -> phantom p = false -> length from = 4%nat ->
  corner_values p from value = map value from.
Proof.
  intros f p value from _ H L. unfold corner_values. rewrite H.
  destruct from as [|a [|b [|c [|d [|e r]]]]]; try discriminate. reflexivity.
Qed.
Print Assumptions C42_four.

Example C42_pentagon :
  split_polygon (mkFace 7 10 [4; 8; 2; 6; 5])
  = [mkPatch [4; 8; 6; 2] [10; 11; 13; 12] 7 false; mkPatch [4; 6; 5; 5] [10; 13; 14; 14] 7 true].
Proof. reflexivity. Qed.

(* ---------- C43 ---------- *)

Section C43.
Variable P : Z -> point.
Variable tie : polygon -> polygon -> nat -> nat -> nat -> nat -> bool.

(** The loops of a polygon, each with the plane it is looked at in, and the direction it
    runs in there. *)
Definition heading (loop : axis * list Z) : Z :=
  direction (map (fun v => project (fst loop) (P v)) (snd loop)).

(** When the division goes on to the last triangle, there are as many triangles as
    vertices, each hole counting for two more, less two.  Then every quantity summed
    over edges is that of the outer loop less those of the holes, all in the direction of
    the outer loop, whatever the current orientation. *)
Theorem C43_edges_partial : forall (T : Type) (F : T -> T -> Z) (pos : Z -> T) (O : bool)
    (outer : axis * list Z) (holes : list (axis * list Z)) (g : polygon),
  antisymmetric F ->
  assemble P tie O (outer :: holes) = Some g ->
  (length (triangulate P g) + 2
   = length (snd outer) + fold_right (fun h n => length (snd h) + 2 + n) 0 holes)%nat ->
  total (map (fun t => around F (map pos (vertices t))) (triangulate P g))
  = around F (map pos (snd outer))
    - heading outer * total (map (fun h => heading h * around F (map pos (snd h))) holes).
Proof.
  intros T F pos O [a vs] holes g A E L. cbn [snd] in *.
  destruct (assemble_spec P tie F A pos O a vs holes g E) as (E1 & E2 & E3 & E4 & E5 & E6).
  change (fold_right _ 0%nat holes) with (loop_lengths holes) in L. rewrite <- E4 in L.
  pose proof (triangulate_sum P F A pos g L) as S1.
  transitivity (total (map (tri_sum F pos) (triangulate P g))).
  { f_equal. apply map_ext. intros [[x y] z]. reflexivity. }
  rewrite S1, E1, E3. unfold hole_sum. change (dir P a vs) with (heading (a, vs)).
  change (fun h : axis * list Z => dir P (fst h) (snd h) * around F (map pos (snd h)))
    with (fun h : axis * list Z => heading h * around F (map pos (snd h))).
  set (H := total _).
  assert (D : heading (a, vs) * heading (a, vs) = 1).
  { change (heading (a, vs)) with (dir P a vs). destruct (dir_cases P a vs) as [-> | ->]; reflexivity. }
  assert (S2 : sign O * sign O = 1) by (destruct O; reflexivity).
  replace (sign O * heading (a, vs) * (sign O * (heading (a, vs) * around F (map pos vs) - H)))
    with ((sign O * sign O) * (heading (a, vs) * heading (a, vs)) * around F (map pos vs) - (sign O * sign O) * heading (a, vs) * H) by ring.
  rewrite D, S2. ring.
Qed.

(** All loops looked at in the same plane: the area is that of the outer loop less those
    of the holes. *)
Lemma heading_area a vs : heading (a, vs) * area2 (map (fun v => project a (P v)) vs)
  = Z.abs (area2 (map (fun v => project a (P v)) vs)).
Proof. unfold heading, direction. cbn [fst snd]. destruct (0 <=? _) eqn:E; [apply Z.leb_le in E|apply Z.leb_gt in E]; lia. Qed.
Lemma heading_square l : heading l * heading l = 1.
Proof. destruct l as [a vs]. change (heading (a, vs)) with (dir P a vs). destruct (dir_cases P a vs) as [-> | ->]; reflexivity. Qed.
Lemma heading_cases l : heading l = 1 \/ heading l = -1.
Proof. destruct l as [a vs]. apply dir_cases. Qed.

Theorem C43_area_partial : forall (O : bool) (a : axis) (outer : list Z) (holes : list (list Z)) (g : polygon),
  let area l := area2 (map (fun v => project a (P v)) l) in
  assemble P tie O (map (fun l => (a, l)) (outer :: holes)) = Some g ->
  (length (triangulate P g) + 2 = length outer + fold_right (fun h n => length h + 2 + n) 0 holes)%nat ->
  heading (a, outer) * total (map (fun t => area (vertices t)) (triangulate P g))
  = Z.abs (area outer) - total (map (fun h => Z.abs (area h)) holes).
Proof.
  intros O a outer holes g area E L.
  pose proof (C43_edges_partial _ cross (fun v => project a (P v)) O (a, outer) (map (fun l => (a, l)) holes) g
    antisymmetric_cross E) as H. cbn [snd] in H.
  assert (LL : fold_right (fun h n => (length (snd h) + 2 + n)%nat) 0%nat (map (fun l : list Z => (a, l)) holes)
    = fold_right (fun h n => (length h + 2 + n)%nat) 0%nat holes).
  { clear. induction holes; cbn [map fold_right snd]; congruence. }
  rewrite LL in H. specialize (H L).
  change (fun t => around cross (map (fun v => project a (P v)) (vertices t))) with (fun t => area (vertices t)) in H.
  rewrite H, Z.mul_sub_distr_l, Z.mul_assoc, heading_square.
  change (around cross (map (fun v => project a (P v)) outer)) with (area outer).
  rewrite Z.mul_1_l. unfold area at 1. rewrite heading_area. f_equal. f_equal. rewrite map_map. apply map_ext. intros h. cbn [snd].
  exact (heading_area a h).
Qed.

(** Each point is in as many triangles as the polygon winds round it, counted in the
    direction of the outer loop, when the last triangle is turned like the others.  In
    particular the triangles of a polygon with holes that does not cut itself do not
    overlap, leave no gap and stay out of the holes. *)
Lemma outer_sign O a outer holes g :
  assemble P tie O (map (fun l => (a, l)) (outer :: holes)) = Some g ->
  total (map (fun h => Z.abs (area2 (map (fun v => project a (P v)) h))) holes)
    < Z.abs (area2 (map (fun v => project a (P v)) outer)) ->
  g_axis g = a /\ sign (negb (g_reverse g)) * osign (g_orient g) = heading (a, outer) /\
  length (g_verts g) = (length outer + fold_right (fun h n => length h + 2 + n) 0 holes)%nat.
Proof.
  intros E D. cbn [map] in E.
  destruct (assemble_spec P tie cross antisymmetric_cross (fun v => project a (P v)) O a outer _ g E) as (E1 & E2 & E3 & E4 & E5 & E6).
  split; [exact E2|]. split.
  - assert (HS : hole_sum P cross (fun v => project a (P v)) (map (fun l => (a, l)) holes) =
      total (map (fun h => Z.abs (area2 (map (fun v => project a (P v)) h))) holes)).
    { unfold hole_sum. rewrite map_map. f_equal. apply map_ext. intros h. exact (heading_area a h). }
    rewrite HS in E1. change (dir P a outer) with (heading (a, outer)) in *.
    change (around cross (map (fun v => project a (P v)) outer)) with (area2 (map (fun v => project a (P v)) outer)) in E1.
    rewrite heading_area in E1.
    change (around cross (map (fun v => project a (P v)) (g_verts g))) with (area2 (map (fun v => project a (P v)) (g_verts g))) in E1.
    rewrite E6, E3. rewrite E1. destruct O; cbn [sign].
    + replace (0 <=? _) with true by (symmetry; apply Z.leb_le; lia). cbn [osign]. lia.
    + replace (0 <=? _) with false by (symmetry; apply Z.leb_gt; lia). cbn [osign]. lia.
  - rewrite E4. f_equal. clear. unfold loop_lengths. induction holes; cbn [map fold_right snd]; congruence.
Qed.

(** All triangles but the last are turned like the outer loop, when the holes are smaller
    than the outer loop. *)
Theorem C43_direction_partial : forall (O : bool) (a : axis) (outer : list Z) (holes : list (list Z)) (g : polygon),
  let area l := area2 (map (fun v => project a (P v)) l) in
  assemble P tie O (map (fun l => (a, l)) (outer :: holes)) = Some g ->
  total (map (fun h => Z.abs (area h)) holes) < Z.abs (area outer) ->
  forall k, (k + 3 < length outer + fold_right (fun h n => length h + 2 + n) 0 holes)%nat ->
    (k < length (triangulate P g))%nat ->
    Z.sgn (area (vertices (nth k (triangulate P g) (0, 0, 0)))) = heading (a, outer).
Proof.
  intros O a outer holes g area E D k K1 K2.
  destruct (outer_sign O a outer holes g E D) as (E2 & E3 & E4).
  pose proof (cut_ears_direction P g (length (g_verts g)) (seq 0 (length (g_verts g))) ltac:(now rewrite seq_length)) as H.
  change (cut_ears P g (length (g_verts g)) (seq 0 (length (g_verts g)))) with (triangulate P g) in H.
  rewrite E3, E2, seq_length in H. rewrite Forall_forall in H.
  assert (PV : forall t, area (vertices t) = tri_area P a t) by (intros [[x y] z]; reflexivity). rewrite PV. apply H.
  rewrite <- (firstn_skipn (length (g_verts g) - 3) (triangulate P g)) at 1.
  rewrite app_nth1 by (rewrite firstn_length; lia). apply nth_In. rewrite firstn_length. lia.
Qed.

Theorem C43_cover_partial : forall (O : bool) (a : axis) (outer : list Z) (holes : list (list Z)) (g : polygon) (q : Z * Z),
  let flat l := map (fun v => project a (P v)) l in
  let tris := triangulate P g in
  assemble P tie O (map (fun l => (a, l)) (outer :: holes)) = Some g ->
  (length tris + 2 = length outer + fold_right (fun h n => length h + 2 + n) 0 holes)%nat ->
  (forall t, In t tris -> Z.sgn (area2 (flat (vertices t))) = heading (a, outer)) ->
  (forall t, In t tris -> off_lines q (flat (vertices t))) ->
  Z.of_nat (length (filter (fun t => within q (flat (vertices t))) tris))
  = heading (a, outer) * winding q (flat outer)
    - total (map (fun h => heading (a, h) * winding q (flat h)) holes).
Proof.
  intros O a outer holes g q flat tris E L D Q.
  pose proof (C43_edges_partial _ (crossing q) (fun v => project a (P v)) O (a, outer) (map (fun l => (a, l)) holes) g
    (antisymmetric_crossing q) E) as H. cbn [snd] in H.
  assert (LL : fold_right (fun h n => (length (snd h) + 2 + n)%nat) 0%nat (map (fun l : list Z => (a, l)) holes)
    = fold_right (fun h n => (length h + 2 + n)%nat) 0%nat holes).
  { clear. induction holes; cbn [map fold_right snd]; congruence. }
  rewrite LL in H. specialize (H L). rewrite map_map in H. cbn [snd] in H.
  assert (PV : forall t, flat (vertices t) = positions (fun v => project a (P v)) t) by (intros [[x y] z]; reflexivity).
  pose proof (count_within (fun v => project a (P v)) (heading (a, outer)) q tris (heading_cases _)) as C.
  rewrite (Forall_forall _ tris), (Forall_forall _ tris) in C.
  assert (C1 := C (fun t I => eq_trans (f_equal (fun l => Z.sgn (area2 l)) (eq_sym (PV t))) (D t I))
    (fun t I => eq_ind _ (off_lines q) (Q t I) _ (PV t))). clear C.
  rewrite (map_ext _ (fun t => around (crossing q) (flat (vertices t)))) in C1.
  2: { intros t. rewrite PV. reflexivity. }
  fold tris in H. unfold flat in C1 at 1. rewrite H in C1.
  rewrite (filter_ext _ (fun t => within q (flat (vertices t)))) in C1.
  2: { intros t. now rewrite PV. }
  change (around (crossing q) (map (fun v => project a (P v)) outer)) with (winding q (flat outer)) in C1.
  set (n := Z.of_nat _) in *. set (w := winding q (flat outer)) in *.
  change (fun x : list Z => heading (a, x) * around (crossing q) (map (fun v => project a (P v)) x))
    with (fun h : list Z => heading (a, h) * winding q (flat h)) in C1.
  set (t := total _) in *. pose proof (heading_square (a, outer)) as HH.
  assert (n = heading (a, outer) * (heading (a, outer) * n)) by (rewrite Z.mul_assoc, HH; lia).
  rewrite H0, <- C1. rewrite Z.mul_sub_distr_l, Z.mul_assoc, HH. lia.
Qed.

(** The vertices of the triangles are those of the polygon. *)
Theorem C43_vertices_partial : forall (O : bool) (outer : axis * list Z) (holes : list (axis * list Z)) (g : polygon) t x,
  assemble P tie O (outer :: holes) = Some g -> In t (triangulate P g) -> In x (vertices t) ->
  In x (concat (map snd (outer :: holes))).
Proof.
  intros O [a vs] holes g t x E I J.
  pose proof (triangulate_in P g) as T. rewrite Forall_forall in T. specialize (T t I).
  destruct (assemble_spec P tie (fun _ _ : unit => 0) (fun _ _ => eq_refl) (fun _ => tt) O a vs holes g E) as (_ & _ & _ & _ & V & _).
  cbn. apply in_or_app. apply V. destruct t as [[u v] w]. cbn in T, J. destruct T as (T1 & T2 & T3).
  destruct J as [<-|[<-|[<-|[]]]]; assumption.
Qed.

(** The division of a convex loop goes on to the last triangle, in both directions, and all
    triangles are turned like the loop. *)
Theorem C43_convex_partial : forall (O : bool) (a : axis) (vs : list Z) (s : Z) (g : polygon),
  let area l := area2 (map (fun v => project a (P v)) l) in
  s = 1 \/ s = -1 -> convex s (map (fun v => project a (P v)) vs) -> (3 <= length vs)%nat ->
  assemble P tie O [(a, vs)] = Some g ->
  (length (triangulate P g) + 2 = length vs)%nat /\
  forall t, In t (triangulate P g) -> Z.sgn (area (vertices t)) = s.
Proof.
  intros O a vs s g area S1 C L E. destruct (convex_complete P tie O a vs s g C S1 L E) as (H1 & H2 & H3 & H4).
  split; [lia|].
  pose proof (convex_area _ _ C ltac:(now rewrite map_length)) as AR.
  assert (HS : heading (a, vs) = s).
  { unfold heading, direction. cbn [fst snd]. destruct S1 as [-> | ->].
    - replace (0 <=? _) with true by (symmetry; apply Z.leb_le; lia). reflexivity.
    - replace (0 <=? _) with false by (symmetry; apply Z.leb_gt; lia). reflexivity. }
  destruct (outer_sign O a vs [] g E) as (_ & E3 & _); [cbn; nia|]. rewrite HS in E3.
  pose proof (bowed_direction P g H4 (length (g_verts g)) (seq 0 (length (g_verts g)))) as F.
  rewrite seq_length, E3, H3 in F. intros t I.
  assert (PV : area (vertices t) = tri_area P a t) by (destruct t as [[x y] z]; reflexivity). rewrite PV.
  revert t I PV. refine (fun t I _ => proj1 (Forall_forall _ _) (F (le_n _) _ _) t I).
  - intros i j L1 L2. rewrite seq_length in L2. rewrite !seq_nth by lia. lia.
  - intros x J. apply in_seq in J. lia.
Qed.

(** No vertex of a triangle lies inside a triangle cut off before it. *)
Theorem C43_clear_partial : forall (O : bool) (a : axis) (outer : list Z) (holes : list (axis * list Z)) (g : polygon) i j x,
  let tris := triangulate P g in
  assemble P tie O ((a, outer) :: holes) = Some g ->
  (i < j)%nat -> (j < length tris)%nat -> In x (vertices (nth j tris (0, 0, 0))) ->
  within (project a (P x)) (map (fun v => project a (P v)) (vertices (nth i tris (0, 0, 0)))) = false.
Proof.
  intros O a outer holes g i j x tris E L1 L2 I.
  destruct (assemble_spec P tie (fun _ _ : unit => 0) (fun _ _ => eq_refl) (fun _ => tt) _ _ _ _ _ E) as (_ & EA & _ & _ & _ & EO).
  assert (K : g_orient g <> Unknown) by (rewrite EO; destruct (0 <=? _); discriminate).
  pose proof (clear_nth (fun v => project (g_axis g) (P v)) tris (cut_ears_clear P g K _ _) i j x L1 L2 I) as H.
  rewrite EA in H. destruct (nth i tris (0, 0, 0)) as [[u v] w]. exact H.
Qed.

(** When the division does not reach the last triangle, it is because more than three
    vertices are left of which none can be cut off. *)
Theorem C43_stuck_partial : forall (O : bool) (a : axis) (outer : list Z) (holes : list (axis * list Z)) (g : polygon),
  assemble P tie O ((a, outer) :: holes) = Some g ->
  (3 <= length (g_verts g))%nat ->
  let at_ := fun i => project a (P (nth i (g_verts g) 0)) in
  (length (triangulate P g) + 2 = length (g_verts g))%nat \/
  exists left, sublist left (seq 0 (length (g_verts g))) /\ (3 < length left)%nat /\
    (length (triangulate P g) + length left = length (g_verts g))%nat /\
    forall p q r rest, rotation left (p :: q :: r :: rest) ->
      ~ can_cut (direction (map (fun v => project a (P v)) (g_verts g))) at_ p q r rest.
Proof.
  intros O a outer holes g H L at_.
  destruct (assemble_spec P tie (fun _ _ : Z => 0) ltac:(intros ? ?; reflexivity) (fun v => v) O a outer holes g H) as (_ & Ea & _ & _ & _ & Eo).
  assert (K : g_orient g <> Unknown) by (rewrite Eo; destruct (0 <=? _); discriminate).
  assert (E : osign (g_orient g) = direction (map (fun v => project a (P v)) (g_verts g)))
    by (rewrite Eo; unfold direction; destruct (0 <=? _); reflexivity).
  assert (X := cut_ears_stuck P g K (length (g_verts g)) (seq 0 (length (g_verts g)))).
  rewrite !seq_length, E in X. unfold corner in X. rewrite Ea in X. exact (X ltac:(lia) L).
Qed.

(** The loops of a GeneralPolygon are the vertices of the call, in order. *)
Theorem C43_loops_partial : forall (O : bool) (nverts : list nat), let n := fold_right plus 0%nat nverts in
  general_polygon P tie O nverts =
  match assemble P tie O (map (pair (extent_axis P 0 (map Z.of_nat (seq 1 (n - 1))))) (own_vertices nverts (map Z.of_nat (seq 0 n)))) with
  | None => None
  | Some g => Some (triangulate P g, if g_reverse g then negb O else O)
  end.
Proof. intros O nverts n. unfold general_polygon. rewrite number_loops_own. reflexivity. Qed.

(** A GeneralPolygon is divided in the plane that leaves out the coordinate in which it
    is thinnest. *)
Theorem C43_extent_partial : forall (first : Z) (vs : list Z) (x y z : Z),
  spread px (map P (first :: vs)) x -> spread py (map P (first :: vs)) y -> spread pz (map P (first :: vs)) z ->
  (x < y -> x < z -> extent_axis P first vs = YZ) /\
  (y < x -> y < z -> extent_axis P first vs = XZ) /\
  (z < x -> z < y -> extent_axis P first vs = XY).
Proof.
  intros first vs x y z X Y Z. apply extent_spread in X, Y, Z. unfold extent_axis. rewrite X, Y, Z.
  repeat split; intros A B.
  - rewrite (proj2 (Z.ltb_lt _ _) A), (proj2 (Z.ltb_lt _ _) B). reflexivity.
  - replace (x <? y) with false by (symmetry; apply Z.ltb_ge; lia). cbn [andb].
    rewrite (proj2 (Z.ltb_lt _ _) A), (proj2 (Z.ltb_lt _ _) B). reflexivity.
  - replace (x <? z) with false by (symmetry; apply Z.ltb_ge; lia).
    replace (y <? z) with false by (symmetry; apply Z.ltb_ge; lia). rewrite !andb_false_r. reflexivity.
Qed.

(** A loop of PointsGeneralPolygons is divided in the plane in which its first corner that
    is not straight is seen largest. *)
Theorem C43_plane_partial : forall (straight : list Z) (u v w : Z) (rest : list Z) (a : axis),
  (forall k, (k < length straight)%nat -> forall b : axis,
     let l := straight ++ [u; v; w] in seen b (P (nth k l 0)) (P (nth (k + 1) l 0)) (P (nth (k + 2) l 0)) = 0) ->
  (forall b, b <> a -> seen b (P u) (P v) (P w) < seen a (P u) (P v) (P w)) ->
  calc_axis P (straight ++ u :: v :: w :: rest) = a.
Proof.
  intros pre u v w rest a F M. unfold calc_axis.
  assert (N : forall b, 0 <= seen b (P u) (P v) (P w)) by (intros; apply Z.abs_nonneg).
  rewrite axis_loop_first; [ | exact F | ].
  - cbn [px py pz]. set (m := seen) in *. destruct a.
    + assert (M1 := M XZ ltac:(discriminate)). assert (M2 := M YZ ltac:(discriminate)).
      replace (m XY _ _ _ <? m YZ _ _ _) with false by (symmetry; apply Z.ltb_ge; lia).
      replace (m XY _ _ _ <? m XZ _ _ _) with false by (symmetry; apply Z.ltb_ge; lia).
      rewrite !andb_false_r. reflexivity.
    + assert (M1 := M XY ltac:(discriminate)). assert (M2 := M YZ ltac:(discriminate)).
      replace (m XZ _ _ _ <? m YZ _ _ _) with false by (symmetry; apply Z.ltb_ge; lia). cbn [andb].
      rewrite (proj2 (Z.ltb_lt _ _) M1), (proj2 (Z.ltb_lt _ _) M2). reflexivity.
    + assert (M1 := M XY ltac:(discriminate)). assert (M2 := M XZ ltac:(discriminate)).
      rewrite (proj2 (Z.ltb_lt _ _) M1), (proj2 (Z.ltb_lt _ _) M2). reflexivity.
  - exists a. destruct a; [ assert (M1 := M XZ ltac:(discriminate)); specialize (N XZ)
      | assert (M1 := M XY ltac:(discriminate)); specialize (N XY) | assert (M1 := M XY ltac:(discriminate)); specialize (N XY) ]; lia.
Qed.

(** Every triangle of a PointsGeneralPolygons call has the values of its own polygon and
    vertices, when no polygon uses a vertex twice. *)
Theorem C43_values_partial : forall (O : bool) (polys : list (list (list Z))) ts fv un,
  Forall (fun loops => NoDup (concat loops)) polys ->
  general_polygons P tie O polys 0 0 = Some (ts, fv, un) ->
  length fv = (3 * length ts)%nat /\ length un = length ts /\
  forall k, (k < length ts)%nat -> own_values polys ts fv un k.
Proof.
  intros O polys ts fv un ND E. destruct (general_polygons_spec P tie O polys 0 0 ts fv un ND E) as (L1 & L2 & H).
  split; [exact L1|]. split; [exact L2|]. intros k K. destruct (H k K) as (b & l & r & E1 & E2 & E3).
  exists b, l, r. split; [exact E1|]. split; [exact E2|]. exact E3.
Qed.

(** A GeneralPolygon call leaves the orientation as it was just when its outer loop
    already runs in the direction the orientation asks for. *)
Theorem C43_orientation_partial : forall (O : bool) (n : nat) (nverts : list nat) tris O',
  general_polygon P tie O (n :: nverts) = Some (tris, O') ->
  let a := extent_axis P 0 (map Z.of_nat (seq 1 (n + fold_right plus 0 nverts - 1)%nat)) in
  (O' = O <-> heading (a, map Z.of_nat (seq 0 n)) = if O then 1 else -1).
Proof.
  intros O n nverts tris O' E a. unfold general_polygon in E. cbn [fold_right number_loops map] in E. fold a in E.
  destruct (assemble P tie O _) as [g|] eqn:G; [|discriminate].
  destruct (assemble_spec P tie (fun _ _ : unit => 0) (fun _ _ => eq_refl) (fun _ => tt) _ _ _ _ _ G) as (_ & _ & S1 & _).
  change (dir P a (map Z.of_nat (seq 0 n))) with (heading (a, map Z.of_nat (seq 0 n))) in S1.
  inversion E; subst. destruct (g_reverse g), O; cbn [negb sign] in *; split; intros; try lia; try discriminate; reflexivity.
Qed.
End C43.
Print Assumptions C43_edges_partial.
Print Assumptions C43_area_partial.
Print Assumptions C43_direction_partial.
Print Assumptions C43_cover_partial.
Print Assumptions C43_vertices_partial.
Print Assumptions C43_convex_partial.
Print Assumptions C43_clear_partial.
Print Assumptions C43_values_partial.
Print Assumptions C43_orientation_partial.
Print Assumptions C43_stuck_partial.
Print Assumptions C43_loops_partial.
Print Assumptions C43_extent_partial.
Print Assumptions C43_plane_partial.

(** Positions given by a table. *)
Definition table (l : list (Z * Z * Z)) (v : Z) : point :=
  let '(x, y, z) := nth (Z.to_nat v) l (0, 0, 0) in mkPoint x y z.
Definition no_tie : polygon -> polygon -> nat -> nat -> nat -> nat -> bool := fun _ _ _ _ _ _ => false.

(** A square with a square hole meets what the theorems ask for: eight triangles, all
    turned like the outer loop, for both orientations. *)
Definition framed : Z -> point :=
  table [(0, 0, 0); (9, 0, 0); (9, 9, 0); (0, 9, 0); (3, 3, 0); (6, 3, 0); (6, 6, 0); (3, 6, 0)].
Example C43_frame : forall O, exists g,
  assemble framed no_tie O (map (fun l => (XY, l)) [[0; 1; 2; 3]; [4; 5; 6; 7]]) = Some g /\
  (length (triangulate framed g) + 2 = 4 + (4 + 2 + 0))%nat /\
  (forall t, In t (triangulate framed g) ->
     Z.sgn (area2 (map (fun v => project XY (framed v)) (vertices t))) = heading framed (XY, [0; 1; 2; 3])).
Proof.
  intros [|]; eexists; (split; [vm_compute; reflexivity|]); (split; [reflexivity|]);
    intros t I; vm_compute in I; repeat (destruct I as [<-|I]; [vm_compute; reflexivity|]); destruct I.
Qed.
Example C43_frame_values :
  general_polygons framed no_tie false [[[0; 1; 2]]; [[0; 1; 2; 3]; [4; 5; 6; 7]]] 0 0
  = Some ([(0, 1, 2); (2, 3, 7); (7, 3, 0); (4, 7, 0); (4, 0, 1); (5, 4, 1); (5, 1, 2); (6, 5, 2); (7, 6, 2)],
          [0; 1; 2; 5; 6; 10; 10; 6; 3; 7; 10; 3; 7; 3; 4; 8; 7; 4; 8; 4; 5; 9; 8; 5; 10; 9; 5],
          [0; 1; 1; 1; 1; 1; 1; 1; 1]).
Proof. vm_compute. reflexivity. Qed.
(** A wall that begins with a straight corner is looked at from the side; a flat plate
    from above. *)
Example C43_plane_case :
  calc_axis (table [(5, 0, 0); (5, 2, 0); (5, 9, 0); (5, 9, 9)]) [0; 1; 2; 3] = YZ.
Proof.
  apply (C43_plane_partial _ [0] 1 2 3 [] YZ).
  - intros [ | k ] L b; [ destruct b; reflexivity | cbn in L; lia ].
  - intros [ | | ] N; [ reflexivity | reflexivity | congruence ].
Qed.
Example C43_extent_case : extent_axis framed 0 [1; 2; 3] = XY.
Proof.
  assert (X : spread px (map framed (0 :: [1; 2; 3])) 9).
  { exists (framed 0), (framed 1). split; [ cbn [map In]; tauto | split; [ cbn [map In]; tauto | split; [ reflexivity | ] ] ].
    intros p I. cbn [map In] in I. repeat destruct I as [ <- | I ]; try (vm_compute; split; discriminate). destruct I. }
  assert (Y : spread py (map framed (0 :: [1; 2; 3])) 9).
  { exists (framed 0), (framed 2). split; [ cbn [map In]; tauto | split; [ cbn [map In]; tauto | split; [ reflexivity | ] ] ].
    intros p I. cbn [map In] in I. repeat destruct I as [ <- | I ]; try (vm_compute; split; discriminate). destruct I. }
  assert (Z : spread pz (map framed (0 :: [1; 2; 3])) 0).
  { exists (framed 0), (framed 1). split; [ cbn [map In]; tauto | split; [ cbn [map In]; tauto | split; [ reflexivity | ] ] ].
    intros p I. cbn [map In] in I. repeat destruct I as [ <- | I ]; try (vm_compute; split; discriminate). destruct I. }
  apply (proj2 (proj2 (C43_extent_partial framed 0 [1; 2; 3] 9 9 0 X Y Z))); lia.
Qed.
(** A loop that cuts itself and is left with vertices. *)
Definition tangled : Z -> point := table [(3, 2, 0); (0, 4, 0); (4, 4, 0); (4, 2, 0); (3, 4, 0); (0, 1, 0)].
Example C43_stuck_case : exists g,
  assemble tangled no_tie true [(XY, [0; 1; 2; 3; 4; 5])] = Some g /\
  (length (triangulate tangled g) + 2 < length (g_verts g))%nat.
Proof. eexists. split; [ vm_compute; reflexivity | vm_compute; lia ]. Qed.
Example C43_convex_case : convex 1 (map (fun v => project XY (framed v)) [0; 1; 2; 3]).
Proof.
  intros i j k L1 L2 L3. cbn [map length] in L3.
  destruct i as [|[|[|i]]]; destruct j as [|[|[|j]]]; destruct k as [|[|[|[|k]]]]; try lia; vm_compute; reflexivity.
Qed.

(** An upright wall at 45 degrees is looked at along itself and vanishes: a rectangle
    gives no triangle, in both calls. *)
Definition wall : Z -> point := table [(0, 0, 0); (1, 1, 0); (1, 1, 3); (0, 0, 3)].
Theorem C43_wall_refuted : forall tie O,
  general_polygon wall tie O [4%nat] = Some ([], O) \/ general_polygon wall tie O [4%nat] = Some ([], negb O).
Proof. intros tie [|]; [left|right]; vm_compute; reflexivity. Qed.
Print Assumptions C43_wall_refuted.
Theorem C43_points_wall_refuted : forall tie O,
  general_polygons wall tie O [[[0; 1; 2; 3]]] 0 0 = Some ([], [], []).
Proof. intros tie [|]; vm_compute; reflexivity. Qed.
Print Assumptions C43_points_wall_refuted.

(** A hole is joined to the closest vertex even across the outside: in the left arm of a
    U-shaped polygon a hole whose closest vertex is on the right arm.  The division stops
    before the last triangle, and a point between the arms, outside the polygon, is in one
    of the triangles. *)
Definition arms : Z -> point :=
  table [(0, 0, 0); (90, 0, 0); (90, 200, 0); (50, 200, 0); (50, 100, 0); (50, 20, 0); (40, 20, 0); (40, 200, 0);
         (0, 200, 0); (10, 100, 0); (20, 90, 0); (30, 100, 0); (20, 110, 0)].
Theorem C43_bridge_refuted : forall tie, exists g,
  let flat l := map (fun v => project XY (arms v)) l in
  assemble arms tie true [(XY, [0; 1; 2; 3; 4; 5; 6; 7; 8]); (XY, [9; 10; 11; 12])] = Some g /\
  (length (triangulate arms g) + 2 < 9 + (4 + 2))%nat /\
  winding (45, 101) (flat [0; 1; 2; 3; 4; 5; 6; 7; 8]) = 0 /\
  Forall (fun v => winding (project XY (arms v)) (flat [0; 1; 2; 3; 4; 5; 6; 7; 8]) = 1) [9; 10; 11; 12] /\
  exists t, In t (triangulate arms g) /\ within (45, 101) (flat (vertices t)) = true.
Proof.
  intros tie. eexists. cbv zeta.
  split.
  { unfold assemble. cbn -[combine_loops calc_orientation turn].
    match goal with |- context [turn arms ?w ?g] => let r := eval vm_compute in (turn arms w g) in change (turn arms w g) with r end.
    cbv iota. cbn [negb outer_direction].
    match goal with |- context [turn arms ?w ?g] => let r := eval vm_compute in (turn arms w g) in change (turn arms w g) with r end.
    cbv iota. unfold combine_loops.
    match goal with |- context [closest arms tie ?g ?h] => assert (C : closest arms tie g h = (4%nat, 1%nat)) end.
    { vm_compute. reflexivity. }
    rewrite C. vm_compute. reflexivity. }
  split; [vm_compute; lia|]. split; [vm_compute; reflexivity|]. split; [repeat constructor|].
  exists (12, 11, 4). split; [vm_compute; tauto|vm_compute; reflexivity].
Qed.
Print Assumptions C43_bridge_refuted.

(** A GeneralPolygon whose outer loop runs against the orientation turns the orientation
    of all that follows. *)
Theorem C43_orientation_refuted : exists tris,
  general_polygon framed no_tie false [4%nat; 4%nat] = Some (tris, true).
Proof. eexists. vm_compute. reflexivity. Qed.
Print Assumptions C43_orientation_refuted.

(** A vertex used twice in a polygon has two places, and all later face varying values
    are shifted. *)
Theorem C43_values_refuted : forall tie, exists ts fv un,
  general_polygons (table [(0, 0, 0); (4, 0, 0); (4, 4, 0); (0, 4, 0); (2, 2, 0)]) tie true
    [[[0; 1; 2; 4; 2; 3]]; [[0; 1; 2]]] 0 0 = Some (ts, fv, un) /\
  length fv <> (3 * length ts)%nat /\ ~ own_values [[[0; 1; 2; 4; 2; 3]]; [[0; 1; 2]]] ts fv un 4.
Proof.
  intros tie. eexists _, _, _. split; [vm_compute; reflexivity|]. split; [discriminate|].
  intros (b & l & r & E1 & E2 & E3). cbn in E2. assert (L : length b = 1%nat) by lia.
  destruct b as [|x [|y b]]; try discriminate. cbn in E1. inversion E1; subst.
  destruct (E3 0%nat ltac:(lia)) as (i & I1 & I2 & I3). cbn in I1, I2, I3. lia.
Qed.
Print Assumptions C43_values_refuted.

(** A loop without vertices, or a polygon without loops, has no defined outcome. *)
Theorem C43_empty_refuted : forall P tie O,
  general_polygon P tie O [0%nat] = None /\ general_polygons P tie O [[]] 0 0 = None.
Proof. intros. split; reflexivity. Qed.
Print Assumptions C43_empty_refuted.

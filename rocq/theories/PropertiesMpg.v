(** C57: adjoining micropolygons leave no hole and do not overlap. *)
From Verif Require Import MpgModel MpgSpec MpgProofs.
From Coq Require Import Lqa.
Open Scope Q_scope.

(** Whether and how deep a micropolygon is hit does not depend on what was sampled before. *)
Theorem C57_memory : forall g m s last last', (last < 4)%nat -> (last' < 4)%nat ->
  fst (sample g (fst m) (snd m) last s) = fst (sample g (fst m) (snd m) last' s) /\
  (snd (sample g (fst m) (snd m) last s) < 4)%nat.
Proof. intros g m s l l' H H'. split; [apply sample_last; assumption|apply sample_lt; exact H]. Qed.
Print Assumptions C57_memory.

(** A point that is hit lies in the micropolygon. *)
Theorem C57_inside_partial : forall g sign, triangular g = false -> long_sides g -> same_way g sign ->
  forall m s last d, (last < 4)%nat -> is_mpg g m -> fst (sample g (fst m) (snd m) last s) = Some d -> in_mpg g m s.
Proof.
  intros g sign HT HL HS m s l d Hl M H. apply (hit_inside g sign HT HL HS m s M). apply (hit_last g m l s Hl). rewrite H. discriminate.
Qed.
Print Assumptions C57_inside_partial.

(** No point is hit by two micropolygons of a grid. *)
Theorem C57_overlap_partial : forall g sign, triangular g = false -> long_sides g -> same_way g sign -> not_folded g ->
  forall s last, (last < 4)%nat ->
    at_most_one (fun m => is_mpg g m /\ exists d, fst (sample g (fst m) (snd m) last s) = Some d).
Proof.
  intros g sign HT HL HS NF s l Hl m n [M [d Hm]] [N [e Hn]].
  apply (hit_once g sign HT HL HS m n s NF M N); apply (hit_last g _ l s Hl); congruence.
Qed.
Print Assumptions C57_overlap_partial.

(** A point of the grid that is not on its border is hit by exactly one micropolygon. *)
Theorem C57_once_partial : forall g sign, triangular g = false -> long_sides g -> same_way g sign -> not_folded g ->
  forall s m last, (last < 4)%nat -> is_mpg g m -> in_mpg g m s -> ~ on_border g s ->
    exactly_one_of (fun n => is_mpg g n /\ exists d, fst (sample g (fst n) (snd n) last s) = Some d).
Proof.
  intros g sign HT HL HS NF s m l Hl M H NB.
  destruct (hit_some g sign HT HL HS m s M H NB) as (n & N & Hn). exists n. split.
  - split; [exact N|]. apply (hit_last g n l s Hl) in Hn. destruct (fst (sample g (fst n) (snd n) l s)); [eauto|congruence].
  - intros k K. apply (C57_overlap_partial g sign HT HL HS NF s l Hl k n K).
    split; [exact N|]. apply (hit_last g n l s Hl) in Hn. destruct (fst (sample g (fst n) (snd n) l s)); [eauto|congruence].
Qed.
Print Assumptions C57_once_partial.

(** Rendering a micropolygon looks only at samples that exist, and hits none twice. *)
Theorem C57_safe : forall g m i sd xs ys r, (0 < xs)%Z -> (0 < ys)%Z ->
  exists hits, render_static g (fst m) (snd m) i sd xs ys r = Some hits /\ NoDup (map fst hits) /\
    forall v d, In (v, d) hits -> is_sample xs ys r v.
Proof.
  intros g m i sd xs ys r Hx Hy. destruct (render_ok g (fst m) (snd m) i sd xs ys r Hx Hy) as (hs & E & N & H).
  exists hs. split; [exact E|]. split; [exact N|]. intros v d I. apply H in I. exact (visits_ok _ r xs ys v Hx Hy (proj1 I)).
Qed.
Print Assumptions C57_safe.

(** The hits of a micropolygon are the samples that it contains, except for those behind what hides them and for those
    of another level of detail. *)
Theorem C57_stored_partial : forall g sign, triangular g = false -> long_sides g -> same_way g sign ->
  forall sd xs ys r, (0 < xs)%Z -> (0 < ys)%Z -> in_cells xs ys r (pos sd) ->
  forall m i x y k d last, (last < 4)%nat -> is_mpg g m -> is_sample xs ys r (x, y, k) ->
    (exists hits, render_static g (fst m) (snd m) i sd xs ys r = Some hits /\ In (x, y, k, d) hits) <->
    fst (sample g (fst m) (snd m) last (pos sd x y k)) = Some d /\
    ~ (cullable i = true /\ occl_z sd x y k < bminz (calculate_bound (vertices g (fst m) (snd m)))) /\
    ~ (0 <= lod0 i /\ ~ (lod0 i <= detail sd x y k < lod1 i)).
Proof.
  intros g sign HT HL HS sd xs ys r Hx Hy HC m i x y k d l Hl M IS.
  exact (stored_samples g r xs ys sd i Hx Hy HC m x y k d l (fun s => hit_inside g sign HT HL HS m s M) Hl IS).
Qed.
Print Assumptions C57_stored_partial.

(** Every sample of the region that lies on the grid and not on its border gets a hit of exactly one micropolygon. *)
Theorem C57_samples_partial : forall g sign, triangular g = false -> long_sides g -> same_way g sign -> not_folded g ->
  forall sd xs ys r, (0 < xs)%Z -> (0 < ys)%Z -> in_cells xs ys r (pos sd) ->
  forall x y k m i, is_sample xs ys r (x, y, k) -> is_mpg g m -> in_mpg g m (pos sd x y k) -> ~ on_border g (pos sd x y k) ->
    cullable i = false -> lod0 i < 0 ->
    exactly_one_of (fun n => is_mpg g n /\
      exists hits d, render_static g (fst n) (snd n) i sd xs ys r = Some hits /\ In (x, y, k, d) hits).
Proof.
  intros g sign HT HL HS NF sd xs ys r Hx Hy HC x y k m i IS M H NB NC NL.
  destruct (C57_once_partial g sign HT HL HS NF (pos sd x y k) m 0 ltac:(lia) M H NB) as (n & [N [d Hn]] & U).
  exists n. split.
  - split; [exact N|].
    destruct (proj2 (C57_stored_partial g sign HT HL HS sd xs ys r Hx Hy HC n i x y k d 0 ltac:(lia) N IS)) as (hs & E & I).
    + split; [exact Hn|]. split; [rewrite NC; intros [C _]; discriminate|lra].
    + eauto.
  - intros n' [N' (hs & d' & E & I)]. apply U. split; [exact N'|]. exists d'.
    apply (C57_stored_partial g sign HT HL HS sd xs ys r Hx Hy HC n' i x y k d' 0 ltac:(lia) N' IS). eauto.
Qed.
Print Assumptions C57_samples_partial.

(** The depth of a hit is the depth of the micropolygon at that point, if its sides are parallel. *)
Theorem C57_depth_partial : forall g sign, triangular g = false -> long_sides g -> same_way g sign ->
  forall m s last d, (last < 4)%nat -> is_mpg g m -> parallelogram g m ->
    fst (sample g (fst m) (snd m) last s) = Some d ->
    exists u v, 0 <= u <= 1 /\ 0 <= v <= 1 /\ point_of g m u v s d.
Proof. intros g sign HT HL HS m s l d Hl M PA H. exact (depth_of g sign HT HL HS m s l d Hl M PA H). Qed.
Print Assumptions C57_depth_partial.

(** A hit that is left out because it is hidden is farther away than what hides it. *)
Theorem C57_culled_partial : forall g sign, triangular g = false -> long_sides g -> same_way g sign ->
  forall m s last d hidden_from, (last < 4)%nat -> is_mpg g m -> parallelogram g m ->
    fst (sample g (fst m) (snd m) last s) = Some d ->
    hidden_from < bminz (calculate_bound (vertices g (fst m) (snd m))) -> hidden_from < d.
Proof.
  intros g sign HT HL HS m s l d h Hl M PA H Hh.
  destruct (depth_of g sign HT HL HS m s l d Hl M PA H) as (u & v & Hu & Hv & PO).
  eapply Qlt_le_trans; [exact Hh|]. exact (depth_bound g m s d u v Hu Hv PO).
Qed.
Print Assumptions C57_culled_partial.

(** A micropolygon with a side of no length is the triangle of its corners: it is hit nowhere else, and inside of it everywhere. *)
Theorem C57_triangle_partial : forall g m n, triangular g = false -> triangle g m n ->
  forall s last, (last < 4)%nat ->
    (fst (sample g (fst m) (snd m) last s) <> None -> in_mpg g m s) /\
    (has_area g m n -> strictly_inside g m s -> fst (sample g (fst m) (snd m) last s) <> None).
Proof.
  intros g m n HT T s l Hl. rewrite (hit_last g m l s Hl). split.
  - apply (triangle_hit_inside g m n s HT T).
  - apply (triangle_inside_hit g m n s HT T).
Qed.
Print Assumptions C57_triangle_partial.

(** Its hits, too, are the samples that it contains. *)
Theorem C57_triangle_stored_partial : forall g m n, triangular g = false -> triangle g m n ->
  forall sd xs ys r, (0 < xs)%Z -> (0 < ys)%Z -> in_cells xs ys r (pos sd) ->
  forall i x y k d last, (last < 4)%nat -> is_sample xs ys r (x, y, k) ->
    (exists hits, render_static g (fst m) (snd m) i sd xs ys r = Some hits /\ In (x, y, k, d) hits) <->
    fst (sample g (fst m) (snd m) last (pos sd x y k)) = Some d /\
    ~ (cullable i = true /\ occl_z sd x y k < bminz (calculate_bound (vertices g (fst m) (snd m)))) /\
    ~ (0 <= lod0 i /\ ~ (lod0 i <= detail sd x y k < lod1 i)).
Proof.
  intros g m n HT T sd xs ys r Hx Hy HC i x y k d l Hl IS.
  exact (stored_samples g r xs ys sd i Hx Hy HC m x y k d l (fun s => triangle_hit_inside g m n s HT T) Hl IS).
Qed.
Print Assumptions C57_triangle_stored_partial.

(** A triangular grid is hit where the whole grid is hit, on the side of the diagonal on which its first point lies. *)
Theorem C57_diagonal_partial : forall g, triangular g = true ->
  ~ turn g (0, 0)%nat (cu g, 0)%nat (0%nat, cv g) == 0 ->
  forall m s last d,
    fst (sample g (fst m) (snd m) last s) = Some d <->
    fst (sample (whole g) (fst m) (snd m) last s) = Some d /\
    same_side (gx g (cu g, 0%nat), gy g (cu g, 0%nat)) (gx g (0%nat, cv g), gy g (0%nat, cv g)) (gx g (0, 0)%nat, gy g (0, 0)%nat) s.
Proof.
  intros g HT NZ m s l d.
  assert (NZ' : ~ side (gxy g (0, 0)%nat) (gxy g (cu g, 0)%nat) (gxy g (0%nat, cv g)) == 0).
  { intro E. apply NZ. rewrite <- E. unfold turn, side, gxy. cbn [fst snd]. ring. }
  pose proof (beyond_split_iff g s NZ') as B. unfold gxy in B. rewrite <- B. clear B NZ NZ'.
  unfold sample. rewrite HT. cbn [whole triangular].
  assert (E : vertices (whole g) (fst m) (snd m) = vertices g (fst m) (snd m)) by reflexivity. rewrite E.
  destruct (contains _ _ l s) as [[e|] k]; cbn [fst andb]; [|split; [discriminate|intros [F _]; discriminate]].
  destruct (beyond_split g s); split.
  - discriminate.
  - intros [_ F]. discriminate.
  - auto.
  - intros [F _]. exact F.
Qed.
Print Assumptions C57_diagonal_partial.

(** ** What does not hold *)

Definition pt (x y z : Z) : pt3 := mkpt (inject_Z x) (inject_Z y) (inject_Z z).

(** A micropolygon whose first side has no length: points between it and the next are lost. *)
Definition fan : grid := mkgrid 1 2 (fun i j =>
  match j with O => pt 2 0 1 | 1%nat => pt (4 * Z.of_nat i) 2 1 | _ => pt (4 * Z.of_nat i) 4 1 end) false.

Theorem C57_degenerate_refuted : exists s,
  in_mpg fan (0, 0)%nat s /\ in_mpg fan (0, 1)%nat s /\ ~ on_border fan s /\
  forall m last, is_mpg fan m -> (last < 4)%nat -> fst (sample fan (fst m) (snd m) last s) = None.
Proof.
  exists (1 # 1, 2 # 1). split; [|split; [|split]].
  - exists [(3 # 4, (0, 1)%nat); (1 # 4, (1, 1)%nat)]. split; [|vm_compute; auto].
    repeat (apply Forall_cons; [split; [vm_compute; discriminate|unfold corner; cbn [fst snd]; auto]|]). apply Forall_nil.
  - exists [(3 # 4, (0, 1)%nat); (1 # 4, (1, 1)%nat)]. split; [|vm_compute; auto].
    repeat (apply Forall_cons; [split; [vm_compute; discriminate|unfold corner; cbn [fst snd]; auto]|]). apply Forall_nil.
  - intros [(i & Hi & [H|H])|(j & Hj & [H|H])].
    + pose proof (spanned_zero fan _ _ (0, 0) (1, 0) H) as Z. specialize (Z ltac:(intros [a b] [_ E]; cbn [snd] in E; subst b;
        unfold side, gxy, gx, gy; cbn [fst snd fan gp pt px py]; vm_compute; reflexivity)). discriminate Z.
    + pose proof (spanned_zero fan _ _ (0, 4) (1, 4) H) as Z. specialize (Z ltac:(intros [a b] [_ E]; cbn [fan cv snd] in E; subst b;
        unfold side, gxy, gx, gy; cbn [fst snd fan gp pt px py]; rewrite ?Qmult_0_l, ?Qmult_0_r; ring)). discriminate Z.
    + destruct j as [|[|j]]; [| |cbn [fan cv] in Hj; lia].
      * pose proof (spanned_zero fan _ _ (2, 0) (0, 2) H) as Z.
        specialize (Z ltac:(intros [a b] [[_ E] F]; cbn [fst snd] in E, F; subst a; destruct E as [->| ->]; reflexivity)). discriminate Z.
      * pose proof (spanned_zero fan _ _ (0, 0) (0, 1) H) as Z.
        specialize (Z ltac:(intros [a b] [[_ E] F]; cbn [fst snd] in E, F; subst a; destruct E as [->| ->]; reflexivity)). discriminate Z.
    + destruct j as [|[|j]]; [| |cbn [fan cv] in Hj; lia].
      * pose proof (spanned_zero fan _ _ (2, 0) (4, 2) H) as Z.
        specialize (Z ltac:(intros [a b] [F E]; cbn [fst snd fan cu] in E, F; subst a; destruct E as [->| ->]; reflexivity)). discriminate Z.
      * pose proof (spanned_zero fan _ _ (4, 0) (4, 1) H) as Z.
        specialize (Z ltac:(intros [a b] [F E]; cbn [fst snd fan cu] in E, F; subst a; destruct E as [->| ->]; reflexivity)). discriminate Z.
  - intros [i j] l [M1 M2] Hl. cbn [fst snd fan cu cv] in *. rewrite (sample_last fan i j l 0 _ Hl ltac:(lia)).
    assert (i = 0%nat) by lia. subst i. destruct j as [|[|j]]; [reflexivity|reflexivity|lia].
Qed.
Print Assumptions C57_degenerate_refuted.

(** Two triangles with a common longest side: the points of this side are lost. *)
Definition lower_triangle : grid := mkgrid 1 1 (fun i j => pt (4 * Z.of_nat i) (4 * Z.of_nat j) 1) true.
Definition upper_triangle : grid := mkgrid 1 1 (fun i j => pt (4 - 4 * Z.of_nat i) (4 - 4 * Z.of_nat j) 1) true.

Theorem C57_triangles_refuted : exists s,
  spanned lower_triangle (fun k => k = (1, 0)%nat \/ k = (0, 1)%nat) s /\
  spanned upper_triangle (fun k => k = (1, 0)%nat \/ k = (0, 1)%nat) s /\
  (forall last, (last < 4)%nat -> fst (sample lower_triangle 0 0 last s) = None /\ fst (sample upper_triangle 0 0 last s) = None) /\
  fst (sample lower_triangle 0 0 0 (1 # 1, 1 # 1)) <> None /\ fst (sample upper_triangle 0 0 0 (3 # 1, 3 # 1)) <> None.
Proof.
  exists (1 # 1, 3 # 1). split; [|split; [|split; [|split]]].
  - exists [(1 # 4, (1, 0)%nat); (3 # 4, (0, 1)%nat)]. split; [|vm_compute; auto].
    repeat (apply Forall_cons; [split; [vm_compute; discriminate|cbn [snd]; auto]|]). apply Forall_nil.
  - exists [(3 # 4, (1, 0)%nat); (1 # 4, (0, 1)%nat)]. split; [|vm_compute; auto].
    repeat (apply Forall_cons; [split; [vm_compute; discriminate|cbn [snd]; auto]|]). apply Forall_nil.
  - intros l Hl. rewrite (sample_last lower_triangle 0 0 l 0 _ Hl ltac:(lia)), (sample_last upper_triangle 0 0 l 0 _ Hl ltac:(lia)).
    split; reflexivity.
  - vm_compute. discriminate.
  - vm_compute. discriminate.
Qed.
Print Assumptions C57_triangles_refuted.

(** A sample exactly on the border of its pixel, on the side where two micropolygons meet: one of them does not own the
    side, the other does not look at the pixel. *)
Definition pair_ : grid := mkgrid 2 1 (fun i j => pt (2 - Z.of_nat i) (1 - Z.of_nat j) 1) false.
Definition on_pixel_border : samples :=
  mksamples (fun x y _ => (inject_Z x, inject_Z y + (1 # 2))) (fun _ _ _ => 0) (fun _ _ _ => 0).

Theorem C57_pixel_border_refuted :
  in_mpg pair_ (0, 0)%nat (pos on_pixel_border 1 0 0) /\ in_mpg pair_ (1, 0)%nat (pos on_pixel_border 1 0 0) /\
  forall m, is_mpg pair_ m ->
    render_static pair_ (fst m) (snd m) (mkinfo false (-1) 0) on_pixel_border 1 1 (mkregion 0 0 5 5) = Some [].
Proof.
  split; [|split].
  - exists [(1 # 2, (1, 0)%nat); (1 # 2, (1, 1)%nat)]. split; [|vm_compute; auto].
    repeat (apply Forall_cons; [split; [vm_compute; discriminate|unfold corner; cbn [fst snd]; auto]|]). apply Forall_nil.
  - exists [(1 # 2, (1, 0)%nat); (1 # 2, (1, 1)%nat)]. split; [|vm_compute; auto].
    repeat (apply Forall_cons; [split; [vm_compute; discriminate|unfold corner; cbn [fst snd]; auto]|]). apply Forall_nil.
  - intros [i j] [M1 M2]. cbn [fst snd pair_ cu cv] in *. assert (j = 0%nat) by lia. subst j.
    destruct i as [|[|i]]; [reflexivity|reflexivity|lia].
Qed.
Print Assumptions C57_pixel_border_refuted.

(** The depth of a hit of a micropolygon whose sides are not parallel is not the depth of any of its points there. *)
Definition kite : grid := mkgrid 1 1 (fun i j =>
  match i, j with O, O => pt 0 0 1 | O, _ => pt 0 4 1 | _, O => pt 4 0 1 | _, _ => pt 12 12 9 end) false.

Theorem C57_depth_refuted : exists u v s d,
  0 <= u <= 1 /\ 0 <= v <= 1 /\ point_of kite (0, 0)%nat u v s d /\
  exists d', fst (sample kite 0 0 0 s) = Some d' /\ ~ d' == d.
Proof.
  exists (1 # 4), (1 # 4), (3 # 2, 3 # 2), (3 # 2). repeat split; try (vm_compute; discriminate); try reflexivity.
  eexists. split; [vm_compute; reflexivity|]. vm_compute. discriminate.
Qed.
Print Assumptions C57_depth_refuted.

(** ** Non-vacuity *)

(** A grid of 3 by 2 micropolygons, each one pixel and a half wide and high, tilted *)
Definition tiles : grid := mkgrid 3 2 (fun i j =>
  mkpt ((3 # 2) * inject_Z (Z.of_nat i)) ((3 # 2) * inject_Z (Z.of_nat j)) (inject_Z (5 + Z.of_nat i))) false.

Lemma S_inject n : inject_Z (Z.of_nat (S n)) == inject_Z (Z.of_nat n) + 1.
Proof. rewrite Nat2Z.inj_succ. unfold Z.succ. rewrite inject_Z_plus. reflexivity. Qed.

Example tiles_long : long_sides tiles.
Proof.
  intros i j. unfold long, tiles. cbn [gp fst snd px py pz cu cv]. split; intros _ _.
  - rewrite S_inject. replace (5 + Z.of_nat (S i))%Z with (5 + Z.of_nat i + 1)%Z by lia. rewrite (inject_Z_plus _ 1).
    change (inject_Z 1) with 1. generalize (inject_Z (Z.of_nat i)), (inject_Z (5 + Z.of_nat i)), (inject_Z (Z.of_nat j)).
    intros a b c. simpl.
    assert (E : ((3 # 2) * a - (3 # 2) * (a + 1)) * ((3 # 2) * a - (3 # 2) * (a + 1)) + ((3 # 2) * c - (3 # 2) * c) * ((3 # 2) * c - (3 # 2) * c) +
                (b - (b + 1)) * (b - (b + 1)) == 13 # 4) by ring.
    rewrite E. vm_compute. discriminate.
  - rewrite S_inject. generalize (inject_Z (Z.of_nat i)), (inject_Z (5 + Z.of_nat i)), (inject_Z (Z.of_nat j)).
    intros a b c. simpl.
    assert (E : ((3 # 2) * a - (3 # 2) * a) * ((3 # 2) * a - (3 # 2) * a) + ((3 # 2) * c - (3 # 2) * (c + 1)) * ((3 # 2) * c - (3 # 2) * (c + 1)) +
                (b - b) * (b - b) == 9 # 4) by ring.
    rewrite E. vm_compute. discriminate.
Qed.

Example tiles_way : same_way tiles 1.
Proof.
  split; [left; reflexivity|]. intros [i j] _. unfold turns, turn, gx, gy, tiles. cbn [gp fst snd px py].
  rewrite !S_inject. generalize (inject_Z (Z.of_nat i)), (inject_Z (Z.of_nat j)). intros a b. repeat split; lra.
Qed.

Lemma tiles_in m s : in_mpg tiles m s ->
  inject_Z (Z.of_nat (fst m)) <= (2 # 3) * fst s <= inject_Z (Z.of_nat (fst m)) + 1 /\
  inject_Z (Z.of_nat (snd m)) <= (2 # 3) * snd s <= inject_Z (Z.of_nat (snd m)) + 1.
Proof.
  intro H. pose proof (in_bound tiles m s H) as B. destruct m as [i j]. cbv zeta in B.
  unfold calculate_bound, tiles in B. cbn [vertices gp bminx bmaxx bminy bmaxy px py fst snd] in *.
  unfold min4, max4, Qminb, Qmaxb in B.
  pose proof (S_inject i) as Ei. pose proof (S_inject j) as Ej.
  set (a := inject_Z (Z.of_nat i)) in *. set (b := inject_Z (Z.of_nat j)) in *.
  set (a' := inject_Z (Z.of_nat (S i))) in *. set (b' := inject_Z (Z.of_nat (S j))) in *. clearbody a b a' b'.
  repeat match type of B with
  | context [Qle_bool ?x ?y] => let E := fresh in destruct (Qle_bool x y) eqn:E;
      [apply Qle_bool_iff in E|apply Qleb_false in E]
  end; lra.
Qed.

(** A coordinate in two intervals is a mean of their common ends. *)
Lemma common_ends i k x : inject_Z (Z.of_nat i) <= x <= inject_Z (Z.of_nat i) + 1 ->
  inject_Z (Z.of_nat k) <= x <= inject_Z (Z.of_nat k) + 1 ->
  exists a b w, 0 <= w <= 1 /\ x == (1 - w) * inject_Z (Z.of_nat a) + w * inject_Z (Z.of_nat b) /\
    (a = i \/ a = S i) /\ (a = k \/ a = S k) /\ (b = i \/ b = S i) /\ (b = k \/ b = S k).
Proof.
  intros H K. destruct (Nat.lt_trichotomy i k) as [L|[->|L]].
  - assert (inject_Z (Z.of_nat (S i)) <= inject_Z (Z.of_nat k)) by (rewrite <- Zle_Qle; lia). rewrite S_inject in H0.
    assert (k = S i).
    { destruct (Nat.eq_dec k (S i)) as [E|E]; [exact E|exfalso].
      assert (inject_Z (Z.of_nat (S (S i))) <= inject_Z (Z.of_nat k)) by (rewrite <- Zle_Qle; lia). rewrite !S_inject in H1. lra. }
    subst k. exists (S i), (S i), 0. rewrite S_inject in *. repeat split; auto; lra.
  - exists k, (S k), (x - inject_Z (Z.of_nat k)). rewrite S_inject. repeat split; auto; lra.
  - assert (inject_Z (Z.of_nat (S k)) <= inject_Z (Z.of_nat i)) by (rewrite <- Zle_Qle; lia). rewrite S_inject in H0.
    assert (i = S k).
    { destruct (Nat.eq_dec i (S k)) as [E|E]; [exact E|exfalso].
      assert (inject_Z (Z.of_nat (S (S k))) <= inject_Z (Z.of_nat i)) by (rewrite <- Zle_Qle; lia). rewrite !S_inject in H1. lra. }
    subst i. exists (S k), (S k), 0. rewrite S_inject in *. repeat split; auto; lra.
Qed.

Example tiles_flat : not_folded tiles.
Proof.
  intros m n s M N NE Hm Hn. destruct (tiles_in m s Hm) as [X1 Y1]. destruct (tiles_in n s Hn) as [X2 Y2].
  destruct (common_ends _ _ _ X1 X2) as (a & b & w & Hw & EX & A1 & A2 & B1 & B2).
  destruct (common_ends _ _ _ Y1 Y2) as (c & d & z & Hz & EY & C1 & C2 & D1 & D2).
  exists [((1 - w) * (1 - z), (a, c)); (w * (1 - z), (b, c)); ((1 - w) * z, (a, d)); (w * z, (b, d))].
  split; [|split; [|split]].
  - repeat (apply Forall_cons; [cbn [fst snd]; split; [apply Qmult_le_0_compat; lra|unfold corner; cbn [fst snd]; tauto]|]). apply Forall_nil.
  - cbn [map fst snd qsum fold_right]. ring.
  - cbn [map fst snd qsum fold_right]. unfold gx, tiles. cbn [gp fst snd px].
    setoid_replace (fst s) with ((3 # 2) * ((2 # 3) * fst s)) by ring. rewrite EX. ring.
  - cbn [map fst snd qsum fold_right]. unfold gy, tiles. cbn [gp fst snd py].
    setoid_replace (snd s) with ((3 # 2) * ((2 # 3) * snd s)) by ring. rewrite EY. ring.
Qed.

Example tiles_parallel : forall m, parallelogram tiles m.
Proof. intros [i j]. unfold parallelogram, gx, gy, tiles. cbn [gp fst snd px py]. split; ring. Qed.

(** The middles of the cells *)
Definition middles : samples :=
  mksamples (fun x y k => (inject_Z x + inject_Z (2 * (k mod 2) + 1) / 4, inject_Z y + inject_Z (2 * (k / 2) + 1) / 4))
            (fun _ _ _ => 100) (fun _ _ _ => 0).

Example middles_in : in_cells 2 2 (mkregion 0 0 5 3) (pos middles).
Proof.
  intros x y m n _ _ Hm Hn. cbn [pos middles fst snd].
  assert (E1 : ((n * 2 + m) mod 2 = m)%Z) by (rewrite Z.add_comm, Z.mod_add, Z.mod_small; lia).
  assert (E2 : ((n * 2 + m) / 2 = n)%Z) by (rewrite Z.add_comm, Z.div_add, Z.div_small; lia).
  rewrite E1, E2. rewrite !inject_Z_plus, !inject_Z_mult. change (inject_Z 2) with 2. change (inject_Z 1) with 1.
  generalize (inject_Z x), (inject_Z y), (inject_Z m), (inject_Z n). intros a b c d.
  setoid_replace ((a + (2 * c + 1) / 4 - a) * 2) with (c + (1 # 2)) by field.
  setoid_replace ((b + (2 * d + 1) / 4 - b) * 2) with (d + (1 # 2)) by field.
  repeat split; lra.
Qed.

(** All hits together: samples 5 by 3 pixels of 4, less the half pixel beyond the right border *)
Example tiles_hits :
  map (fun m => match render_static tiles (fst m) (snd m) (mkinfo false (-1) 0) middles 2 2 (mkregion 0 0 5 3) with
                | Some hs => length hs | None => 0%nat end)
      [(0, 0); (1, 0); (2, 0); (0, 1); (1, 1); (2, 1)]%nat = [9; 9; 9; 9; 9; 9]%nat.
Proof. vm_compute. reflexivity. Qed.

(** The corner where four micropolygons meet belongs to one of them, the same from whichever side they are seen. *)
Example tiles_corner :
  map (fun m => fst (sample tiles (fst m) (snd m) 2 (3 # 2, 3 # 2))) [(0, 0); (1, 0); (0, 1); (1, 1)]%nat <> [] /\
  filter (fun m => match fst (sample tiles (fst m) (snd m) 2 (3 # 2, 3 # 2)) with Some _ => true | None => false end)
    [(0, 0); (1, 0); (0, 1); (1, 1)]%nat = [(1, 0)%nat].
Proof. split; [discriminate|vm_compute; reflexivity]. Qed.

Example tiles_inner : in_mpg tiles (0, 0)%nat (3 # 2, 3 # 2) /\ ~ on_border tiles (3 # 2, 3 # 2).
Proof.
  split.
  - exists [(1, (1, 1)%nat)]. split; [|vm_compute; auto]. apply Forall_cons; [split; [vm_compute; discriminate|unfold corner; cbn [fst snd]; auto]|]. apply Forall_nil.
  - assert (SY : forall c (W : nat * nat -> Prop), (forall k, W k -> snd k = c) -> spanned tiles W (3 # 2, 3 # 2) -> inject_Z (Z.of_nat c) == 1).
    { intros c W HW H. pose proof (spanned_zero tiles W _ (0, (3 # 2) * inject_Z (Z.of_nat c)) (1, (3 # 2) * inject_Z (Z.of_nat c)) H) as Z.
      specialize (Z ltac:(intros k K; unfold side, gxy, gx, gy, tiles; cbn [fst snd gp px py]; rewrite (HW k K); ring)).
      unfold side in Z. cbn [fst snd] in Z. lra. }
    assert (SX : forall c (W : nat * nat -> Prop), (forall k, W k -> fst k = c) -> spanned tiles W (3 # 2, 3 # 2) -> inject_Z (Z.of_nat c) == 1).
    { intros c W HW H. pose proof (spanned_zero tiles W _ ((3 # 2) * inject_Z (Z.of_nat c), 0) ((3 # 2) * inject_Z (Z.of_nat c), 1) H) as Z.
      specialize (Z ltac:(intros k K; unfold side, gxy, gx, gy, tiles; cbn [fst snd gp px py]; rewrite (HW k K); ring)).
      unfold side in Z. cbn [fst snd] in Z. lra. }
    intros [(i & Hi & [H|H])|(j & Hj & [H|H])].
    + apply (SY 0%nat) in H; [vm_compute in H; discriminate|]. intros k [_ E]. exact E.
    + apply (SY 2%nat) in H; [vm_compute in H; discriminate|]. intros k [_ E]. exact E.
    + apply (SX 0%nat) in H; [vm_compute in H; discriminate|]. intros k [_ E]. exact E.
    + apply (SX 3%nat) in H; [vm_compute in H; discriminate|]. intros k [E _]. exact E.
Qed.

(** The first micropolygon of [fan] is a triangle; inside of it the point (2, 1). *)
Example fan_triangle : triangle fan (0, 0)%nat 0 /\ has_area fan (0, 0)%nat 0 /\ strictly_inside fan (0, 0)%nat (2 # 1, 1 # 1).
Proof.
  split; [|split].
  - split; [lia|]. split; [repeat split; reflexivity|].
    intros [|[|[|[|k]]]] Hk NE; try lia; vm_compute; discriminate.
  - vm_compute. discriminate.
  - exists (1 # 4), (1 # 4), (1 # 4), (1 # 4). repeat split; vm_compute; reflexivity.
Qed.

(** A triangular grid of 2 by 2: its diagonal runs from (4, 0) to (0, 4). *)
Definition half_sheet : grid := mkgrid 2 2 (fun i j => pt (2 * Z.of_nat i) (2 * Z.of_nat j) 1) true.

Example half_sheet_diagonal : ~ turn half_sheet (0, 0)%nat (2, 0)%nat (0, 2)%nat == 0 /\
  fst (sample half_sheet 1 0 0 (5 # 2, 1 # 1)) <> None /\ fst (sample half_sheet 1 0 0 (7 # 2, 1 # 1)) = None /\
  fst (sample (whole half_sheet) 1 0 0 (7 # 2, 1 # 1)) <> None.
Proof. repeat split; vm_compute; discriminate || reflexivity. Qed.

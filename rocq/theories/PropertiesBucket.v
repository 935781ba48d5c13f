(* C51: the picture does not depend on the buckets it is rendered in. *)
From Coq Require Import ZArith QArith Qround List Bool Lia.
From Verif Require Import BucketModel BucketSpec BucketProofs.
Import ListNotations.
Local Open Scope Z_scope.

(* For all options with buckets that are large enough for the filter, and all micropolygons:
   rendering ends without leaving any array, no pixel is shown twice, and every pixel of the
   crop window is shown, and none outside of the picture; it is made of the samples at all positions the filter reaches from it and, at
   each of them, of all micropolygons which touch it, combined exactly once.
   Missing: smaller buckets and empty crop windows (refuted below), and the pixels of the
   outermost buckets that are outside of the crop window. *)
Theorem C51_picture_partial : forall o ms n,
  sensible o -> large_buckets o ->
  rwidth (bregion o) * rheight (bregion o) <= Z.of_nat n ->
  exists out, render_image o n (waiting o ms) = Some out /\
    NoDup (map fst out) /\
    (forall p, In p (map fst out) -> 0 <= fst p < o_xres o /\ 0 <= snd p < o_yres o) /\
    forall x y, o_cx0 o <= x < o_cx1 o -> o_cy0 o <= y < o_cy1 o ->
      exists v, In ((x, y), v) out /\ made_of v (ingredients ms o x y).
Proof. intros o ms n S L N. apply picture_spec; auto. Qed.
Print Assumptions C51_picture_partial.

(* Two bucket sizes: the same pixel is made of the same things. *)
Theorem C51_size_partial : forall o o' ms n out out',
  o_xres o' = o_xres o -> o_yres o' = o_yres o -> o_fx o' = o_fx o -> o_fy o' = o_fy o ->
  o_cx0 o' = o_cx0 o -> o_cx1 o' = o_cx1 o -> o_cy0 o' = o_cy0 o -> o_cy1 o' = o_cy1 o ->
  sensible o -> sensible o' -> large_buckets o -> large_buckets o' ->
  rwidth (bregion o) * rheight (bregion o) <= Z.of_nat n ->
  rwidth (bregion o') * rheight (bregion o') <= Z.of_nat n ->
  render_image o n (waiting o ms) = Some out ->
  render_image o' n (waiting o' ms) = Some out' ->
  forall x y v v', o_cx0 o <= x < o_cx1 o -> o_cy0 o <= y < o_cy1 o ->
    In ((x, y), v) out -> In ((x, y), v') out' ->
    exists l, made_of v l /\ made_of v' l.
Proof.
  intros o o' ms n out out' A1 A2 A3 A4 A5 A6 A7 A8 S S' L L' N N' E E' x y v v' X Y I I'.
  assert (U : forall (l : list ((Z * Z) * shown)) p a b, NoDup (map fst l) -> In (p, a) l -> In (p, b) l -> a = b).
  { clear. induction l as [|[q c] l IH]; intros p a b N I J; [destruct I|]. cbn in N. inversion N; subst.
    destruct I as [I|I], J as [J|J]; try congruence.
    - injection I as -> ->. elim H1. apply in_map_iff. exists (p, b). auto.
    - injection J as -> ->. elim H1. apply in_map_iff. exists (p, a). auto.
    - eauto. }
  destruct (C51_picture_partial o ms n S L N) as (o1 & E1 & D1 & _ & H1).
  destruct (C51_picture_partial o' ms n S' L' N') as (o2 & E2 & D2 & _ & H2).
  rewrite E in E1. injection E1 as <-. rewrite E' in E2. injection E2 as <-.
  destruct (H1 x y X Y) as (w & W1 & W2). destruct (H2 x y) as (w' & W3 & W4); try lia.
  assert (v = w) by (eapply U; [exact D1 | exact I | exact W1]).
  assert (v' = w') by (eapply U; [exact D2 | exact I' | exact W3]). subst.
  exists (ingredients ms o x y). split; auto.
  unfold ingredients in *. rewrite A3, A4 in W4. auto.
Qed.
Print Assumptions C51_size_partial.

(* Every micropolygon waits, exactly once, in the bucket which samples the position it touches. *)
Theorem C51_waiting_partial : forall o ms x y,
  sensible o -> large_buckets o -> o_cx0 o <= x < o_cx1 o -> o_cy0 o <= y < o_cy1 o ->
  exists b, filter (touches (x, y)) (waiting o ms b) = filter (touches (x, y)) ms.
Proof.
  intros o ms x y S L X Y. exists (owner o (x, y)). apply waiting_spec; auto.
  pose proof (sx_nonneg o S). pose proof (sy_nonneg o S). split; cbn [fst snd]; lia.
Qed.
Print Assumptions C51_waiting_partial.

(* A bucket smaller than the region two buckets share: with buckets of one pixel and the default
   filter of 2x2 the size of a segment becomes negative and rendering stops, even for an empty
   scene; so it does with the default buckets of 16x16 and a filter of 18x18. *)
Theorem C51_small_buckets_refuted :
  exists o, sensible o /\ ~ large_buckets o /\ forall n, render_image o n (waiting o []) = None.
Proof.
  exists (Options 2 1 1 1 2 2 0 2 0 1). split; [repeat split; cbn; discriminate || lia|].
  split; [intros [A _]; vm_compute in A; contradiction A; reflexivity|].
  intros [|n]; [reflexivity|]. unfold render_image. cbn [render_loop].
  replace (bucket_step _ _ _ _) with (@None state) by (vm_compute; reflexivity). reflexivity.
Qed.
Print Assumptions C51_small_buckets_refuted.

(* An empty crop window at the right border: the first bucket does not exist. *)
Theorem C51_empty_crop_refuted :
  exists o, o_cx0 o = o_cx1 o /\ o_cx1 o <= o_xres o /\ large_buckets o /\
    forall n, render_image o n (waiting o []) = None.
Proof.
  exists (Options 4 4 2 2 2 2 4 4 0 4). split; [reflexivity|]. split; [cbn; lia|].
  split; [split; vm_compute; discriminate|].
  intros [|n]; [reflexivity|]. unfold render_image. cbn [render_loop].
  replace (bucket_step _ _ _ _) with (@None state) by (vm_compute; reflexivity). reflexivity.
Qed.
Print Assumptions C51_empty_crop_refuted.

(* The pixel of the outermost bucket which is outside of the crop window is shown as well, made
   of elements that were not sampled. *)
Theorem C51_outside_crop_refuted :
  exists o ms out v, sensible o /\ large_buckets o /\
    render_image o 1 (waiting o ms) = Some out /\ In ((0, 0), v) out /\
    ~ made_of v (ingredients ms o 0 0).
Proof.
  set (o := Options 4 1 4 1 0 0 2 4 0 1).
  set (m := MP 1 0 0 4 1).
  exists o, [m].
  destruct (render_image o 1 (waiting o [m])) as [out|] eqn:E; [|vm_compute in E; discriminate].
  exists out. vm_compute in E. injection E as <-.
  eexists. split; [repeat split; cbn; discriminate || lia|].
  split; [split; vm_compute; discriminate|]. split; [reflexivity|].
  split; [left; reflexivity|]. vm_compute. discriminate.
Qed.
Print Assumptions C51_outside_crop_refuted.

(* ---- examples ---- *)
(* A picture of 7x5 pixels with a crop window, buckets of 3x2 and a filter of 2x2: six buckets,
   some of them partial. *)
Definition ex_o : options := Options 7 5 3 2 2 2 1 6 0 5.
Definition ex_o' : options := Options 7 5 7 5 2 2 1 6 0 5.
Definition ex_ms : list mpoly :=
  [MP 1 (1 # 2) (1 # 2) (9 # 2) (7 # 2); MP 2 (5 # 2) 1 (7 # 2) (3 # 2); MP 3 5 3 7 5].
Example ex_sensible : sensible ex_o /\ sensible ex_o' /\ large_buckets ex_o /\ large_buckets ex_o'.
Proof. repeat split; vm_compute; discriminate || reflexivity. Qed.
Example ex_buckets : rwidth (bregion ex_o) * rheight (bregion ex_o) = 6 /\
                     rwidth (bregion ex_o') * rheight (bregion ex_o') = 1.
Proof. split; vm_compute; reflexivity. Qed.
(* the pixel (3,2) at the corner of four buckets, in both pictures *)
Definition pixel_of (out : option (list ((Z * Z) * shown))) (p : Z * Z) : list (list (option (Z * Z) * list nat * nat)) :=
  match out with
  | None => []
  | Some l => map (fun e => match snd e with
                            | Blank => []
                            | Shown es => map (fun e => (p_pos e, map m_id (p_hits e), p_comb e)) es
                            end) (filter (fun e => bpos_eqb (fst e) p) l)
  end.
Example ex_pixel :
  pixel_of (render_image ex_o 6 (waiting ex_o ex_ms)) (3, 2) =
  [[ (Some (2, 1), [1%nat; 2%nat], 1%nat); (Some (3, 1), [1%nat; 2%nat], 1%nat); (Some (4, 1), [1%nat], 1%nat);
     (Some (2, 2), [1%nat], 1%nat); (Some (3, 2), [1%nat], 1%nat); (Some (4, 2), [1%nat], 1%nat);
     (Some (2, 3), [1%nat], 1%nat); (Some (3, 3), [1%nat], 1%nat); (Some (4, 3), [1%nat], 1%nat) ]]
  /\ pixel_of (render_image ex_o' 1 (waiting ex_o' ex_ms)) (3, 2) =
     pixel_of (render_image ex_o 6 (waiting ex_o ex_ms)) (3, 2).
Proof. split; vm_compute; reflexivity. Qed.

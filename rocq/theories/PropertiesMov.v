(** C58: a moving micropolygon is seen by every sample at the place it has at the time of the sample. *)
From Verif Require Import MovSpec MpgProofs MovProofs PropertiesMpg.
From Coq Require Import Lqa.
Open Scope Q_scope.

(** All hits that are stored are hits, by samples of the region, of the micropolygon as it is at the time of the sample. *)
Theorem C58_stored_partial : forall g sign v, covers g v -> steady g sign -> (0 < vxs v)%Z -> (0 < vys v)%Z ->
  forall m i sd, (fst m < mcu g /\ snd m < mcv g)%nat ->
  exists hits, render_moving g (fst m) (snd m) i sd v = Some hits /\
    forall x y k d, In (x, y, k, d) hits ->
      is_sample (vxs v) (vys v) (vr v) (x, y, k) /\
      fst (sample (grid_at g (mtime sd x y k)) (fst m) (snd m) 0 (mpos sd x y k)) = Some d.
Proof.
  intros g sign v HC HS Hx Hy [iu iv] i sd HM. cbn [fst snd] in *.
  destruct (bound_list_ok g sign v iu iv HC HS HM) as (D & l & HD & EL & HL & Hl).
  unfold render_moving. rewrite EL.
  destruct (render_bounds_in (keys_of g iu iv) i sd v l) as (out & EO & Q).
  { intros j b t0 E. exact (bound_renders g sign v iu iv HC HS HM Hx Hy l D HD HL Hl i sd j b t0 E). }
  exists out. split; [exact EO|]. intros x y k d I. split.
  - apply Q in I. destruct I as (j & b & t0 & o & A1 & A2 & A3). rewrite render_bound_looked in A2.
    destruct (proj2 (collect_nodup _ _ _ _ _ _ _ _ _ (looked_nodup v b t0 _) A2) _ _ A3) as (B & _).
    apply looked_in in B. destruct (index_ok g v iu iv HC HM Hx Hy l D HD HL Hl j b t0 A1) as [C1 C2].
    unfold is_sample. lia.
  - destruct (render_bounds_sound _ _ _ _ _ _ EO _ _ I) as [S _]. cbn [at_time at_pos] in S.
    rewrite (sample_moving_eq g sign v iu iv HC HS HM) in S. congruence.
Qed.
Print Assumptions C58_stored_partial.

(** Each sample of the region that hits the micropolygon as it is at the time of the sample is stored, unless the
    micropolygon is then hidden, clipped or of another level of detail. *)
Theorem C58_seen_partial : forall g sign v, covers g v -> steady g sign -> (0 < vxs v)%Z -> (0 < vys v)%Z ->
  forall m i sd, (fst m < mcu g /\ snd m < mcv g)%nat -> shared_time v sd -> in_pixels v sd ->
  forall x y k d, is_sample (vxs v) (vys v) (vr v) (x, y, k) ->
    fst (sample (grid_at g (mtime sd x y k)) (fst m) (snd m) 0 (mpos sd x y k)) = Some d ->
    unclipped g m v (mtime sd x y k) ->
    (cullable i = false \/
     exists c, corner m c /\ pz (gp (grid_at g (mtime sd x y k)) (fst c) (snd c)) <= mocclz sd x y k) ->
    (lod0 i < 0 \/ lod0 i <= mdetail sd x y k < lod1 i) ->
    exists hits, render_moving g (fst m) (snd m) i sd v = Some hits /\ In (x, y, k, d) hits.
Proof.
  intros g sign v HC HS Hx Hy [iu iv] i sd HM ST IP x y k d IS HIT [(cf & CF & ZF) (cn & CN & ZN)] CU LO. cbn [fst snd] in *.
  destruct (bound_list_ok g sign v iu iv HC HS HM) as (D & l & HD & EL & HL & Hl).
  unfold render_moving. rewrite EL.
  destruct (render_bounds_in (keys_of g iu iv) i sd v l) as (out & EO & Q).
  { intros j b t0 E. exact (bound_renders g sign v iu iv HC HS HM Hx Hy l D HD HL Hl i sd j b t0 E). }
  exists out. split; [exact EO|]. apply Q. clear Q EO out.
  set (t := mtime sd x y k) in *. destruct (ST x y k IS) as [T1 T2]. fold t in T1, T2.
  pose proof (open_lt g v HC) as OL. unfold is_sample in IS. destruct IS as (IX & IY & IK).
  assert (QN : 0 < inject_Z (vxs v * vys v)) by (change 0 with (inject_Z 0); rewrite <- Zlt_Qlt; lia).
  assert (K0 : 0 <= inject_Z k) by (change 0 with (inject_Z 0); rewrite <- Zle_Qle; lia).
  assert (K1 : inject_Z (k + 1) <= inject_Z (vxs v * vys v)) by (rewrite <- Zle_Qle; lia).
  assert (H1 : open_ v <= t).
  { apply Qnot_lt_le. intro L. assert (0 < (open_ v - t) * inject_Z (vxs v * vys v)) by (rewrite <- (Qmult_0_l (inject_Z (vxs v * vys v))); apply Qmult_lt_r; lra).
    assert (0 <= inject_Z k * (close_time v - open_ v)) by (apply Qmult_le_0_compat; lra). lra. }
  assert (H2 : t < close_time v).
  { apply Qnot_le_lt. intro L. assert (0 <= (t - close_time v) * inject_Z (vxs v * vys v)) by (apply Qmult_le_0_compat; lra).
    assert (0 <= (inject_Z (vxs v * vys v) - inject_Z (k + 1)) * (close_time v - open_ v)) by (apply Qmult_le_0_compat; lra). lra. }
  destruct (part_of g v iu iv HC HM l D HD HL Hl t H1 H2) as (j & b & t0 & E & P1 & P2).
  assert (P3 : t <= t0 + (close_time v - open_ v) / inject_Z D) by (rewrite <- (next_eq g v iu iv HM l D HD HL Hl j b t0 E); lra).
  pose proof (under_wraps g v iu iv HC b t (proj2 (Hl _ _ _ E) t P1 P3)) as W.
  destruct (HS t) as [SW LS].
  assert (IN : in_mpg (grid_at g t) (iu, iv) (mpos sd x y k)).
  { apply (hit_inside (grid_at g t) sign eq_refl LS SW (iu, iv) _ HM). unfold is_hit. cbn [fst snd]. rewrite HIT. discriminate. }
  pose proof (wraps_hit g iu iv HM b t _ W IN) as IB. pose proof IB as IB'. apply inside2d_iff in IB'. destruct IB' as [[X1 X2] [Y1 Y2]].
  destruct (IP x y k ltac:(unfold is_sample; auto)) as [[PX1 PX2] [PY1 PY2]].
  assert (WC : forall c, corner (iu, iv) c -> pz (lo b) <= pz (gp (grid_at g t) (fst c) (snd c)) <= pz (hi b)).
  { intros c C. apply corner_cases in C. destruct C as [->|[->|[->| ->]]]; cbn [fst snd].
    all: first [exact (proj2 (proj2 (W 0%nat ltac:(lia))))|exact (proj2 (proj2 (W 1%nat ltac:(lia))))|exact (proj2 (proj2 (W 2%nat ltac:(lia))))|exact (proj2 (proj2 (W 3%nat ltac:(lia))))]. }
  destruct (bound_renders g sign v iu iv HC HS HM Hx Hy l D HD HL Hl i sd j b t0 E) as [o EO].
  exists j, b, t0, o. split; [exact E|]. split; [exact EO|]. rewrite render_bound_looked in EO.
  destruct (collect_in (look (keys_of g iu iv) i sd v b t0 (next_time v l j)) (looked v b t0 (next_time v l j))) as (out & EO' & Q).
  { intros [[x' y'] k'] I. apply look_some.
    - intros t' s'. eexists. apply (sample_moving_eq g sign v iu iv HC HS HM).
    - apply looked_in in I. destruct (index_ok g v iu iv HC HM Hx Hy l D HD HL Hl _ _ _ E). lia. }
  rewrite EO' in EO. injection EO as ->. apply Q. exists (x, y, k), [(x, y, k, d)]. split; [|split; [|left; reflexivity]].
  - apply looked_in. destruct (start_range g v iu iv HC HM l D HD HL Hl j b t0 E) as (S1 & S2 & S3).
    split; [lra|]. split; [lra|]. pose proof (WC cf CF). pose proof (WC cn CN). split; [lra|]. split; [lra|].
    assert (Qfloor (px (lo b)) < x + 1)%Z by (apply Qfloor_lt_Z; lra).
    assert (x < Qceiling (px (hi b)))%Z by (apply Qceiling_gt_Z; lra).
    assert (Qfloor (py (lo b)) < y + 1)%Z by (apply Qfloor_lt_Z; lra).
    assert (y < Qceiling (py (hi b)))%Z by (apply Qceiling_gt_Z; lra).
    split; [lia|]. split; [lia|].
    exact (in_index g v iu iv HC HM Hx Hy l D HD HL j b t0 t k E P1 P2 IK T1 T2).
  - cbn [look]. replace ((k <? 0) || (vxs v * vys v <=? k))%Z with false by lia. cbv zeta. fold t.
    assert (B1 : Qltb t t0 = false) by (apply Qltb_false; exact P1).
    assert (B2 : Qltb (next_time v l j) t = false) by (apply Qltb_false; lra).
    rewrite B1, B2, IB. cbn [orb negb].
    assert (B3 : cullable i && Qltb (mocclz sd x y k) (pz (lo b)) = false).
    { destruct CU as [->|(c & C & Z)]; [reflexivity|]. apply andb_false_iff. right. apply Qltb_false. pose proof (WC c C). lra. }
    rewrite B3.
    assert (B4 : Qle_bool 0 (lod0 i) && (Qltb (mdetail sd x y k) (lod0 i) || Qle_bool (lod1 i) (mdetail sd x y k)) = false).
    { apply andb_false_iff. destruct LO as [L|[L1 L2]]; [left; apply Qleb_false; exact L|right].
      apply orb_false_iff. split; [apply Qltb_false; exact L1|apply Qleb_false; exact L2]. }
    rewrite B4. rewrite (sample_moving_eq g sign v iu iv HC HS HM), HIT. reflexivity.
Qed.
Print Assumptions C58_seen_partial.

(** A sample stores a micropolygon once only, if its time is none of those where the parts of the time meet. *)
Theorem C58_once_partial : forall g sign v, covers g v -> steady g sign -> (0 < vxs v)%Z -> (0 < vys v)%Z ->
  forall m i sd hits x y k (same : forall a b : Z * Z * Z, {a = b} + {a <> b}), (fst m < mcu g /\ snd m < mcv g)%nat ->
    render_moving g (fst m) (snd m) i sd v = Some hits -> between_slices v (mtime sd x y k) ->
    (count_occ same (map fst hits) (x, y, k) <= 1)%nat.
Proof.
  intros g sign v HC HS Hx Hy [iu iv] i sd hits x y k same HM ER BS. cbn [fst snd] in *.
  destruct (bound_list_ok g sign v iu iv HC HS HM) as (D & l & HD & EL & HL & Hl).
  unfold render_moving in ER. rewrite EL in ER. apply (render_bounds_once same _ _ _ _ _ _ _ ER).
  intros j j' b b' t0 t0' E E' [A1 A2] [B1 B2]. cbn [at_time] in *.
  rewrite (next_eq g v iu iv HM l D HD HL Hl _ _ _ E) in A2. rewrite (next_eq g v iu iv HM l D HD HL Hl _ _ _ E') in B2.
  rewrite (proj1 (Hl _ _ _ E)) in A1, A2. rewrite (proj1 (Hl _ _ _ E')) in B1, B2.
  pose proof (i_lt g v iu iv HM l D HD HL _ _ _ E) as LI. pose proof (i_lt g v iu iv HM l D HD HL _ _ _ E') as LI'.
  pose proof (D_pos g v iu iv HM l D HD HL) as DP. pose proof (dt_pos g v iu iv HC HM l D HD HL) as DT.
  set (dt := (close_time v - open_ v) / inject_Z D) in *. set (t := mtime sd x y k) in *.
  assert (ED : inject_Z D * dt == close_time v - open_ v) by (unfold dt; field; lra). clearbody dt.
  assert (G : forall p q : nat, (p < q)%nat -> (Z.of_nat q < D)%Z ->
    t <= open_ v + inject_Z (Z.of_nat p) * dt + dt -> open_ v + inject_Z (Z.of_nat q) * dt <= t -> False).
  { intros p q L LQ C1 C2.
    assert (Q1 : inject_Z (Z.of_nat p) + 1 <= inject_Z (Z.of_nat q)).
    { change 1 with (inject_Z 1). rewrite <- inject_Z_plus, <- Zle_Qle. lia. }
    assert (0 <= (inject_Z (Z.of_nat q) - inject_Z (Z.of_nat p) - 1) * dt) by (apply Qmult_le_0_compat; lra).
    assert (ET : t - open_ v == inject_Z (Z.of_nat q) * dt) by lra.
    apply (BS (Z.of_nat q) D); [lia|lia|]. fold t. rewrite ET, <- ED. ring. }
  destruct (Nat.lt_trichotomy j j') as [L|[EQ|L]]; [|exact EQ|].
  - exfalso. exact (G j j' L LI' A2 B1).
  - exfalso. exact (G j' j L LI B2 A1).
Qed.
Print Assumptions C58_once_partial.

(** A sample of the region that lies on the grid as it is at the time of the sample, and not on its border, gets a hit of
    exactly one of its micropolygons. *)
Theorem C58_samples_partial : forall g sign v, covers g v -> steady g sign -> (0 < vxs v)%Z -> (0 < vys v)%Z ->
  forall i sd, shared_time v sd -> in_pixels v sd -> cullable i = false -> lod0 i < 0 ->
  forall x y k m, is_sample (vxs v) (vys v) (vr v) (x, y, k) -> (fst m < mcu g /\ snd m < mcv g)%nat ->
    let now := grid_at g (mtime sd x y k) in
    not_folded now -> in_mpg now m (mpos sd x y k) -> ~ on_border now (mpos sd x y k) ->
    (forall n, unclipped g n v (mtime sd x y k)) ->
    exactly_one_of (fun n => (fst n < mcu g /\ snd n < mcv g)%nat /\
      exists hits d, render_moving g (fst n) (snd n) i sd v = Some hits /\ In (x, y, k, d) hits).
Proof.
  intros g sign v HC HS Hx Hy i sd ST IP NC NL x y k m IS M now NF IN NB UC.
  destruct (HS (mtime sd x y k)) as [SW LS].
  destruct (C57_once_partial now sign eq_refl LS SW NF (mpos sd x y k) m 0 ltac:(lia) M IN NB) as (n & [N [d Hn]] & U).
  exists n. split.
  - split; [exact N|].
    destruct (C58_seen_partial g sign v HC HS Hx Hy n i sd N ST IP x y k d IS Hn (UC n) (or_introl NC) (or_introl NL)) as (hs & E & I).
    eauto.
  - intros n' [N' (hs & d' & E & I)]. apply U. split; [exact N'|]. exists d'.
    destruct (C58_stored_partial g sign v HC HS Hx Hy n' i sd N') as (hs' & E' & H). rewrite E in E'. injection E' as <-.
    exact (proj2 (H x y k d' I)).
Qed.
Print Assumptions C58_samples_partial.

(** ** Non-vacuity *)

(** Two by one micropolygons, each two pixels by one, that move six pixels to the right while the shutter is open, at
    first slowly and then faster *)
Definition train : mgrid := mkmgrid 2 1
  [(0, fun i j => pt (2 * Z.of_nat i) (Z.of_nat j) 5);
   (1 # 2, fun i j => pt (2 * Z.of_nat i + 1) (Z.of_nat j) 5);
   (1, fun i j => pt (2 * Z.of_nat i + 6) (Z.of_nat j) 5)].

Definition shift (t : Q) : Q := path [(0, 0); (1 # 2, 1); (1, 6)] t.

Lemma train_x i j t : px (gp (grid_at train t) i j) == 2 * inject_Z (Z.of_nat i) + shift t.
Proof.
  cbn [grid_at gp px mkeys train map fst snd pt]. unfold shift. rewrite !inject_Z_plus, !inject_Z_mult.
  change (inject_Z 2) with 2. change (inject_Z 1) with 1. change (inject_Z 6) with 6.
  set (a := inject_Z (Z.of_nat i)). clearbody a.
  unfold path. destruct (Qle_bool t 0); [ring|]. destruct (Qle_bool (1 # 2) t); [|field].
  destruct (Qle_bool t (1 # 2)); [ring|]. destruct (Qle_bool 1 t); [|field]. destruct (Qle_bool t 1); ring.
Qed.

Lemma path_flat a l t : Forall (fun p => snd p = a) l -> rising (map fst l) -> l <> [] -> path l t == a.
Proof.
  induction l as [|[t0 b] l IH]; intros F R N; [congruence|]. inversion F as [|p l' E F']; subst. cbn [snd].
  destruct l as [|[t1 c] l].
  - cbn [path]. destruct (Qle_bool t t0); reflexivity.
  - specialize (IH F' (rising_tail _ _ R) ltac:(discriminate)).
    inversion F' as [|p l' E' F'']; subst. cbn [snd] in *. subst c. destruct R as [R _]. cbn [fst] in R.
    destruct (Qlt_le_dec t0 t) as [L|L]; [|rewrite path_first by exact L; reflexivity].
    destruct (Qlt_le_dec t t1) as [K|K]; [rewrite path_mid by assumption; ring|].
    rewrite path_skip by lra. exact IH.
Qed.

Lemma train_y i j t : py (gp (grid_at train t) i j) == inject_Z (Z.of_nat j).
Proof.
  cbn [grid_at gp py mkeys train map fst snd pt]. apply path_flat; [repeat constructor| |discriminate].
  cbn [map fst rising]. repeat split; lra.
Qed.

Example train_steady : steady train 1.
Proof.
  intro t. split.
  - split; [left; reflexivity|]. intros [i j] _. unfold turns, turn, gx, gy. cbn [fst snd]. rewrite !train_x, !train_y, !S_inject.
    generalize (inject_Z (Z.of_nat i)), (inject_Z (Z.of_nat j)), (shift t). intros a b c. repeat split; lra.
  - intros i j. unfold long. cbn [fst snd].
    assert (Z : forall i j, pz (gp (grid_at train t) i j) == 5).
    { intros a b. cbn [grid_at gp pz mkeys train map fst snd pt]. apply path_flat; [repeat constructor| |discriminate].
      cbn [map fst rising]. repeat split; lra. }
    assert (SQ : forall z : Q, z ^ 2 == z * z) by (intro; ring).
    split; intros _ _; rewrite !SQ, !train_x, !train_y, !Z, !S_inject;
      generalize (inject_Z (Z.of_nat i)), (inject_Z (Z.of_nat j)), (shift t); intros a b c.
    + assert (E : (2 * a + c - (2 * (a + 1) + c)) * (2 * a + c - (2 * (a + 1) + c)) + (b - b) * (b - b) + (5 - 5) * (5 - 5) == 4) by ring.
      rewrite E. vm_compute. discriminate.
    + assert (E : (2 * a + c - (2 * a + c)) * (2 * a + c - (2 * a + c)) + (b - (b + 1)) * (b - (b + 1)) + (5 - 5) * (5 - 5) == 1) by ring.
      rewrite E. vm_compute. discriminate.
Qed.

Definition stage : view := mkview 0 1 1 100 2 2 (mkregion 0 0 10 1).

Example train_covers : covers train stage.
Proof.
  split; [cbn; repeat split; lra|]. split; [cbn; lra|]. split.
  - exists 0, [1 # 2; 1]. split; [reflexivity|cbn; lra].
  - exists [0; 1 # 2], 1. split; [reflexivity|cbn; lra].
Qed.

(** Samples in the middles of the cells; sample k has a time in the k-th quarter. *)
Definition shots : msamples :=
  mkmsamples (pos middles) (fun x y k => (inject_Z k + (2 # 5)) / 4) (fun _ _ _ => 100) (fun _ _ _ => 0).

Example shots_shared : shared_time stage shots.
Proof.
  intros x y k _. cbn [stage shots mtime open_ close_time vxs vys]. rewrite inject_Z_plus. change (inject_Z 1) with 1.
  change (inject_Z (2 * 2)) with 4. generalize (inject_Z k). intro q.
  setoid_replace (((q + (2 # 5)) / 4 - 0) * 4) with (q + (2 # 5)) by field. split; lra.
Qed.

Example shots_inside : in_pixels stage shots.
Proof.
  intros x y k (Hx & Hy & Hk). cbn [stage vxs vys vr xmin xmax ymin ymax shots mpos middles pos] in *.
  pose proof (Z.mod_pos_bound k 2 ltac:(lia)) as M. assert (DV : (0 <= k / 2 < 2)%Z) by (split; [apply Z.div_pos; lia|apply Z.div_lt_upper_bound; lia]).
  cbn [fst snd]. rewrite (inject_Z_plus x 1), (inject_Z_plus y 1). change (inject_Z 1) with 1.
  assert (A : 0 < inject_Z (2 * (k mod 2) + 1) / 4 < 1).
  { split; [apply Qlt_shift_div_l|apply Qlt_shift_div_r]; try lra; [change (0 * 4) with (inject_Z 0)|change (1 * 4) with (inject_Z 4)];
      rewrite <- Zlt_Qlt; lia. }
  assert (B : 0 < inject_Z (2 * (k / 2) + 1) / 4 < 1).
  { split; [apply Qlt_shift_div_l|apply Qlt_shift_div_r]; try lra; [change (0 * 4) with (inject_Z 0)|change (1 * 4) with (inject_Z 4)];
      rewrite <- Zlt_Qlt; lia. }
  repeat split; lra.
Qed.

Example shots_unclipped : forall n x y k, unclipped train n stage (mtime shots x y k).
Proof.
  intros n x y k. unfold unclipped. cbv zeta.
  assert (Z : pz (gp (grid_at train (mtime shots x y k)) (fst n) (snd n)) == 5).
  { cbn [grid_at gp pz mkeys train map fst snd pt]. apply path_flat; [repeat constructor| |discriminate].
    cbn [map fst rising]. repeat split; lra. }
  split; exists n; (split; [unfold corner; auto|]); rewrite Z; cbn; lra.
Qed.

Example shots_apart : between_slices stage (mtime shots 0 0 1).
Proof.
  intros a b H1 H2. cbn [stage vxs vys open_ close_time shots mtime] in *. intro E.
  assert (E' : (7 # 20) * inject_Z b == inject_Z a).
  { setoid_replace (inject_Z a) with ((1 - 0) * inject_Z a) by ring. rewrite <- E. change (inject_Z 1) with 1. field. }
  unfold Qeq, Qmult, inject_Z in E'. cbn [Qnum Qden] in E'. lia.
Qed.

(** Where the second micropolygon is seen: farther to the right by the later samples *)
Example train_hits :
  match render_moving train 1 0 (mkinfo false (-1) 0) shots stage with Some hs => Some (map fst hs) | None => None end =
  Some [(2, 0, 0); (2, 0, 1); (3, 0, 0); (3, 0, 1); (4, 0, 2); (5, 0, 2); (6, 0, 3); (7, 0, 3)]%Z.
Proof. vm_compute. reflexivity. Qed.

(** ** What does not hold *)

Definition plain : mpg_info := mkinfo false (-1) 0.

Definition same_sample (a b : Z * Z * Z) : bool :=
  let '(x, y, k) := a in let '(x', y', k') := b in (x =? x')%Z && (y =? y')%Z && (k =? k')%Z.

Lemma same_sample_iff a b : same_sample a b = true <-> a = b.
Proof.
  destruct a as [[x y] k], b as [[x' y'] k']. unfold same_sample. rewrite !andb_true_iff, !Z.eqb_eq. split; [|intro E; injection E; auto].
  intros [[-> ->] ->]. reflexivity.
Qed.

Definition times_seen (r : option (list (Z * Z * Z * Q))) (w : Z * Z * Z) : option nat :=
  match r with Some hs => Some (length (filter (same_sample w) (map fst hs))) | None => None end.

Lemma never_seen r w : times_seen r w = Some 0%nat -> exists hits, r = Some hits /\ forall d, ~ In (w, d) hits.
Proof.
  destruct r as [hs|]; [|discriminate]. intro E. injection E as E. exists hs. split; [reflexivity|]. intros d I.
  assert (J : In w (filter (same_sample w) (map fst hs))).
  { apply filter_In. split; [apply in_map_iff; exists (w, d); auto|]. apply same_sample_iff. reflexivity. }
  destruct (filter _ _); [destruct J|discriminate].
Qed.

Lemma seen_times same r w n : times_seen r w = Some n -> exists hits, r = Some hits /\ count_occ same (map fst hits) w = n.
Proof.
  destruct r as [hs|]; [|discriminate]. intro E. injection E as <-. exists hs. split; [reflexivity|].
  generalize (map fst hs). intro l. induction l as [|a l IH]; [reflexivity|]. cbn [filter].
  destruct (same_sample w a) eqn:S.
  - apply same_sample_iff in S. subst a. rewrite count_occ_cons_eq by reflexivity. cbn [length]. rewrite IH. reflexivity.
  - rewrite count_occ_cons_neq; [exact IH|]. intros ->. rewrite (proj2 (same_sample_iff w w) eq_refl) in S. discriminate.
Qed.

Definition some {A} (o : option A) : bool := match o with Some _ => true | None => false end.

Lemma some_not_none {A} (o : option A) : some o = true -> o <> None.
Proof. destruct o; discriminate. Qed.

(** The movement ends before the shutter closes: the micropolygon stands still then, but the later samples do not see it. *)
Definition early_end : mgrid := mkmgrid 1 1
  [(0, fun i j => pt (Z.of_nat i) (Z.of_nat j) 5); (1 # 2, fun i j => pt (Z.of_nat i + 6) (Z.of_nat j) 5)].

Theorem C58_early_end_refuted :
  rising (map fst (mkeys early_end)) /\ shared_time stage shots /\ in_pixels stage shots /\
  fst (sample (grid_at early_end (mtime shots 6 0 3)) 0 0 0 (mpos shots 6 0 3)) <> None /\
  exists hits, render_moving early_end 0 0 plain shots stage = Some hits /\ forall d, ~ In (6, 0, 3, d)%Z hits.
Proof.
  split; [cbn; repeat split; lra|]. split; [exact shots_shared|]. split; [exact shots_inside|]. split; [apply some_not_none; vm_compute; reflexivity|].
  apply never_seen. vm_compute. reflexivity.
Qed.
Print Assumptions C58_early_end_refuted.

(** Samples that all have the time at which the shutter opens, as those of a pattern without jitter have: only the first
    ones of each pixel see the micropolygon. *)
Definition at_once : msamples := mkmsamples (pos middles) (fun _ _ _ => 0) (fun _ _ _ => 100) (fun _ _ _ => 0).

Theorem C58_no_jitter_refuted :
  in_pixels stage at_once /\ covers train stage /\ steady train 1 /\
  fst (sample (grid_at train (mtime at_once 0 0 3)) 0 0 0 (mpos at_once 0 0 3)) <> None /\
  exists hits, render_moving train 0 0 plain at_once stage = Some hits /\ forall d, ~ In (0, 0, 3, d)%Z hits.
Proof.
  split; [exact shots_inside|]. split; [exact train_covers|]. split; [exact train_steady|]. split; [apply some_not_none; vm_compute; reflexivity|].
  apply never_seen. vm_compute. reflexivity.
Qed.
Print Assumptions C58_no_jitter_refuted.

(** A sample with a time at which two parts of the time meet sees the micropolygon twice. *)
Definition bar : mgrid := mkmgrid 1 1
  [(0, fun i j => pt (2 * Z.of_nat i) (Z.of_nat j) 5); (1, fun i j => pt (2 * Z.of_nat i + 6) (Z.of_nat j) 5)].
Definition one_shot : view := mkview 0 1 1 100 1 1 (mkregion 0 0 10 1).
Definition half_way : msamples :=
  mkmsamples (fun x y k => (inject_Z x + (1 # 4), inject_Z y + (1 # 4))) (fun _ _ _ => 1 # 2) (fun _ _ _ => 100) (fun _ _ _ => 0).

Theorem C58_twice_refuted :
  covers bar one_shot /\ shared_time one_shot half_way /\
  exists hits same, render_moving bar 0 0 plain half_way one_shot = Some hits /\ count_occ same (map fst hits) (4, 0, 0)%Z = 2%nat.
Proof.
  split; [|split].
  - split; [cbn; repeat split; lra|]. split; [cbn; lra|]. split; [exists 0, [1]; split; [reflexivity|cbn; lra]|].
    exists [0], 1. split; [reflexivity|cbn; lra].
  - intros x y k (_ & _ & Hk). cbn [one_shot vxs vys] in Hk. assert (k = 0)%Z by lia. subst k. vm_compute. split; [discriminate|reflexivity].
  - assert (same : forall a b : Z * Z * Z, {a = b} + {a <> b}) by (repeat decide equality).
    destruct (seen_times same (render_moving bar 0 0 plain half_way one_shot) (4, 0, 0)%Z 2) as (hits & E & C); [vm_compute; reflexivity|].
    exists hits, same. auto.
Qed.
Print Assumptions C58_twice_refuted.

(** The shutter closes when it opens: samples see a micropolygon that moves as often as it moves by its own size. *)
Definition frozen : view := mkview 0 0 1 100 1 1 (mkregion 0 0 10 1).
Definition at_open : msamples :=
  mkmsamples (fun x y k => (inject_Z x + (1 # 4), inject_Z y + (1 # 4))) (fun _ _ _ => 0) (fun _ _ _ => 100) (fun _ _ _ => 0).

Theorem C58_frozen_refuted :
  exists hits same, render_moving bar 0 0 plain at_open frozen = Some hits /\ count_occ same (map fst hits) (1, 0, 0)%Z = 2%nat.
Proof.
  assert (same : forall a b : Z * Z * Z, {a = b} + {a <> b}) by (repeat decide equality).
  destruct (seen_times same (render_moving bar 0 0 plain at_open frozen) (1, 0, 0)%Z 2) as (hits & E & C); [vm_compute; reflexivity|].
  exists hits, same. auto.
Qed.
Print Assumptions C58_frozen_refuted.

(** A micropolygon that turns its other side to the viewer while it moves is not seen any more. *)
Definition turning : mgrid := mkmgrid 1 1
  [(0, fun i j => pt (4 * Z.of_nat i) (Z.of_nat j) 5); (1, fun i j => pt (4 - 4 * Z.of_nat i) (Z.of_nat j) 5)].

Theorem C58_turning_refuted :
  covers turning stage /\ shared_time stage shots /\ in_pixels stage shots /\
  (in_mpg (grid_at turning (mtime shots 2 0 3)) (0, 0)%nat (mpos shots 2 0 3) /\
   fst (sample (grid_at turning (mtime shots 2 0 3)) 0 0 0 (mpos shots 2 0 3)) <> None) /\
  exists hits, render_moving turning 0 0 plain shots stage = Some hits /\ forall d, ~ In (2, 0, 3, d)%Z hits.
Proof.
  split; [|split; [exact shots_shared|split; [exact shots_inside|split; [split|]]]].
  - split; [cbn; repeat split; lra|]. split; [cbn; lra|]. split; [exists 0, [1]; split; [reflexivity|cbn; lra]|].
    exists [0], 1. split; [reflexivity|cbn; lra].
  - apply (hit_inside (grid_at turning (mtime shots 2 0 3)) (-1) eq_refl).
    + intros [|[|i]] [|[|j]]; cbn [grid_at cu cv turning mcu mcv]; split; intros; try lia; unfold long; vm_compute; discriminate.
    + split; [right; reflexivity|]. intros [[|i] [|j]] [M1 M2]; cbn [fst snd grid_at cu cv turning mcu mcv] in M1, M2; try lia.
      vm_compute. repeat split.
    + split; cbn; lia.
    + apply some_not_none. vm_compute. reflexivity.
  - apply some_not_none. vm_compute. reflexivity.
  - apply never_seen. vm_compute. reflexivity.
Qed.
Print Assumptions C58_turning_refuted.

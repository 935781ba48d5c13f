From Coq Require Import ZArith QArith Qround List Bool Lia Permutation Sorted FinFun Lqa.
From Verif Require Import BucketModel BucketSpec BucketProofs PostModel PostSpec.
Import ListNotations.
Local Open Scope Z_scope.

(* the order of the loop over the buckets *)
Definition ble (a b : bpos) : bool := (snd a <? snd b) || ((snd a =? snd b) && (fst a <=? fst b)).
Lemma ble_iff : forall a b, ble a b = true <-> snd a < snd b \/ (snd a = snd b /\ fst a <= fst b).
Proof. intros. unfold ble. rewrite orb_true_iff, andb_true_iff, Z.ltb_lt, Z.eqb_eq, Z.leb_le. lia. Qed.
Lemma ble_false : forall a b, ble a b = false <-> snd b < snd a \/ (snd a = snd b /\ fst b < fst a).
Proof. intros. rewrite <- not_true_iff_false, ble_iff. lia. Qed.

Definition at_ {A} (b : bpos) (l : list (bpos * A)) : list A :=
  map snd (filter (fun e => bpos_eqb (fst e) b) l).
Lemma at_app {A} b (l1 l2 : list (bpos * A)) : at_ b (l1 ++ l2) = at_ b l1 ++ at_ b l2.
Proof. unfold at_. rewrite filter_app, map_app. auto. Qed.

Lemma SS_app {A} (R : A -> A -> Prop) l1 l2 :
  StronglySorted R l1 -> StronglySorted R l2 -> (forall x y, In x l1 -> In y l2 -> R x y) ->
  StronglySorted R (l1 ++ l2).
Proof.
  induction l1 as [|x l1 IH]; intros S1 S2 H; auto. cbn [app]. inversion S1; subst. constructor.
  - apply IH; auto. intros; apply H; auto. right; auto.
  - apply Forall_app. split; auto. apply Forall_forall. intros. apply H; auto. left; auto.
Qed.
Lemma SS_map {A B} (R : A -> A -> Prop) (Q : B -> B -> Prop) (f : A -> B) l :
  StronglySorted R l -> (forall x y, R x y -> Q (f x) (f y)) -> StronglySorted Q (map f l).
Proof.
  induction l as [|x l IH]; intros S H; cbn [map]; [constructor|]. inversion S; subst. constructor; auto.
  rewrite Forall_map. eapply Forall_impl; [|eassumption]. auto.
Qed.
Lemma SS_seq : forall n a, StronglySorted lt (seq a n).
Proof.
  induction n as [|n IH]; intros a; cbn [seq]; constructor; auto.
  apply Forall_forall. intros x I. apply in_seq in I. lia.
Qed.
Lemma zrange_sorted : forall a b, StronglySorted Z.lt (zrange a b).
Proof. intros. unfold zrange. eapply SS_map; [apply SS_seq|]. cbn. lia. Qed.
Lemma SS_flat_map {A B} (R : A -> A -> Prop) (Q : B -> B -> Prop) (f : A -> list B) l :
  StronglySorted R l -> (forall a, StronglySorted Q (f a)) ->
  (forall a b x y, R a b -> In x (f a) -> In y (f b) -> Q x y) -> StronglySorted Q (flat_map f l).
Proof.
  intros S F H. induction l as [|a l IH]; cbn [flat_map]; [constructor|]. inversion S; subst.
  apply SS_app; auto. intros x y I J. apply in_flat_map in J. destruct J as (b & J & K).
  rewrite Forall_forall in H3. eauto.
Qed.
Definition bleP (a b : bpos) : Prop := ble a b = true.
Lemma cells_sorted : forall r, StronglySorted bleP (cells r).
Proof.
  intros r. unfold cells. eapply SS_flat_map; [apply zrange_sorted | |].
  - intros y. eapply SS_map; [apply zrange_sorted|]. intros. apply ble_iff. cbn [fst snd]. lia.
  - intros a b x y L I J. apply in_map_iff in I, J. destruct I as (i & <- & _), J as (j & <- & _).
    apply ble_iff. cbn [fst snd]. lia.
Qed.
Lemma ble_refl : forall a, ble a a = true.
Proof. intros. apply ble_iff. lia. Qed.
Lemma find_sorted : forall f l x, StronglySorted bleP l -> find f l = Some x ->
  forall y, In y l -> f y = true -> ble x y = true.
Proof.
  intros f. induction l as [|a l IH]; intros x S E y I F; [destruct I|]. cbn [find] in E. inversion S; subst.
  destruct (f a) eqn:Q.
  - injection E as <-. destruct I as [->|I]; [apply ble_refl|]. rewrite Forall_forall in H2. apply H2; auto.
  - destruct I as [->|I]; [congruence | eauto].
Qed.

Section Proofs.
Variable o : options.
Hypothesis SENS : sensible o.

Local Notation R := (bregion o).
Let first : bpos := (rx0 R, ry0 R).
Local Notation inreg := (in_region o).
Lemma inreg_iff : forall b, inreg b <-> rx0 R <= fst b < rx1 R /\ ry0 R <= snd b < ry1 R.
Proof. intros b. unfold in_region, inr. reflexivity. Qed.

(* ---- the buckets a bound touches ---- *)
Definition spans (B : box) (q : bpos) : Prop :=
  (b_x0 B < inject_Z ((fst q + 1) * o_bx o))%Q /\ (inject_Z (fst q * o_bx o) <= b_x1 B)%Q /\
  (b_y0 B < inject_Z ((snd q + 1) * o_by o))%Q /\ (inject_Z (snd q * o_by o) <= b_y1 B)%Q /\
  (b_x0 B <= inject_Z (o_cx1 o))%Q /\ (b_y0 B <= inject_Z (o_cy1 o))%Q /\
  (inject_Z (o_cx0 o) <= b_x1 B)%Q /\ (inject_Z (o_cy0 o) <= b_y1 B)%Q.

Lemma q_pos : forall d, 1 <= d -> (0 < inject_Z d)%Q.
Proof. intros. change 0%Q with (inject_Z 0). rewrite <- Zlt_Qlt. lia. Qed.
Lemma low_one : forall (x0 f : Q) bs q, 1 <= bs ->
  qtrunc ((x0 - inject_Z (Qfloor (f / 2))) / inject_Z bs)%Q <= q ->
  (x0 - f / 2 < inject_Z ((q + 1) * bs))%Q.
Proof.
  intros x0 f bs q B L. pose proof (trunc_floor ((x0 - inject_Z (Qfloor (f / 2))) / inject_Z bs)%Q) as T.
  assert (F : Qfloor ((x0 - inject_Z (Qfloor (f / 2))) / inject_Z bs)%Q <= q) by lia.
  apply qfloor_le in F. apply Qnot_le_lt in F.
  assert (G : (x0 - inject_Z (Qfloor (f / 2)) < inject_Z ((q + 1) * bs))%Q).
  { rewrite inject_Z_mult. apply Qnot_le_lt. intros C. apply (Qlt_not_le _ _ F).
    apply Qle_shift_div_l; [apply q_pos; auto | auto]. }
  pose proof (Qfloor_le (f / 2)). lra.
Qed.
Lemma high_one : forall (x1 f : Q) bs q c, 1 <= bs -> 0 <= q -> 0 <= c ->
  q <= qtrunc ((x1 + inject_Z (Qfloor (f / 2))) / inject_Z bs)%Q ->
  (inject_Z c - f / 2 <= x1)%Q ->
  (inject_Z (q * bs) <= x1 + f / 2)%Q.
Proof.
  intros x1 f bs q c B Q0 C0 L C. set (y := ((x1 + inject_Z (Qfloor (f / 2))) / inject_Z bs)%Q) in *.
  destruct (trunc_cases y) as [T|T].
  - rewrite T in L.
    assert (F : (inject_Z q <= y)%Q).
    { eapply Qle_trans; [|apply Qfloor_le]. rewrite <- Zle_Qle. auto. }
    assert (G : (inject_Z (q * bs) <= x1 + inject_Z (Qfloor (f / 2)))%Q).
    { rewrite inject_Z_mult. pose proof (q_pos bs B) as P. unfold y in F.
      apply (Qmult_le_compat_r _ _ (inject_Z bs)) in F; [|apply Qlt_le_weak; auto].
      assert (E : ((x1 + inject_Z (Qfloor (f / 2))) / inject_Z bs * inject_Z bs == x1 + inject_Z (Qfloor (f / 2)))%Q)
        by (field; intros Z; rewrite Z in P; apply (Qlt_irrefl 0); auto).
      rewrite E in F. auto. }
    pose proof (Qfloor_le (f / 2)). lra.
  - assert (q = 0) by lia. subst q. change (inject_Z (0 * bs)) with 0%Q.
    assert (0 <= inject_Z c)%Q by (change 0%Q with (inject_Z 0); rewrite <- Zle_Qle; auto). lra.
Qed.

Lemma ltb_false : forall a b : Q, negb (Qle_bool b a) = false <-> (b <= a)%Q.
Proof. intros. rewrite negb_false_iff, Qle_bool_iff. reflexivity. Qed.
Lemma touched : forall m b q, inside m b -> In q (mp_buckets o m) -> inreg q /\ spans (grown o b) q.
Proof.
  intros m b q (I1 & I2 & I3 & I4) J. unfold mp_buckets in J. cbv zeta in J.
  destruct (_ || _) eqn:C; [destruct J|]. rewrite !orb_false_iff, !ltb_false in C. destruct C as (((C1 & C2) & C3) & C4).
  destruct (_ || _) eqn:D; [destruct J|].
  rewrite !orb_false_iff in D. rewrite !Z.ltb_ge, !Z.leb_gt in D.
  apply in_flat_map in J. destruct J as (i & Ji & J). apply in_map_iff in J. destruct J as (j & <- & Jj).
  apply zrange_in in Ji, Jj.   pose proof (region_bounds o SENS) as (B1 & B2 & B3 & B4 & B5 & B6 & _).
  destruct SENS as (S1 & S2 & S3 & S4 & S5 & S6 & S7 & S8).
  split; [apply (proj2 (inreg_iff _)); cbn [fst snd]; lia|].
  unfold spans, grown. cbn [b_x0 b_x1 b_y0 b_y1 fst snd].
  assert (X0 : (m_x0 m - o_fx o / 2 < inject_Z ((i + 1) * o_bx o))%Q) by (apply low_one; [lia | fold (shiftx o); lia]).
  assert (Y0 : (m_y0 m - o_fy o / 2 < inject_Z ((j + 1) * o_by o))%Q) by (apply low_one; [lia | fold (shifty o); lia]).
  assert (X1 : (inject_Z (i * o_bx o) <= m_x1 m + o_fx o / 2)%Q)
    by (apply high_one with (c := o_cx0 o); [lia | lia | lia | fold (shiftx o); lia | auto]).
  assert (Y1 : (inject_Z (j * o_by o) <= m_y1 m + o_fy o / 2)%Q)
    by (apply high_one with (c := o_cy0 o); [lia | lia | lia | fold (shifty o); lia | auto]).
  repeat split; lra.
Qed.

Lemma waiting_nil : forall ms q, (forall m, In m ms -> ~ In q (mp_buckets o m)) -> waiting o ms q = [].
Proof.
  intros ms q H. unfold waiting. induction ms as [|m ms IH]; auto. cbn [flat_map].
  rewrite IH by (intros; apply H; right; auto).
  assert (E : filter (bpos_eqb q) (mp_buckets o m) = []).
  { specialize (H m (or_introl eq_refl)). induction (mp_buckets o m) as [|x l IH']; auto. cbn [filter].
    destruct (bpos_eqb q x) eqn:Q.
    - apply bpos_eqb_eq in Q. subst. elim H. left; auto.
    - apply IH'. intros J. apply H. right; auto. }
  rewrite E. auto.
Qed.
Lemma waiting_app : forall l1 l2 b, waiting o (l1 ++ l2) b = waiting o l1 b ++ waiting o l2 b.
Proof. intros. unfold waiting. apply flat_map_app. Qed.
Lemma waiting_flat : forall l b, waiting o (flat_map micropolygons l) b = flat_map (fun s => waiting o (micropolygons s) b) l.
Proof. induction l as [|s l IH]; intros b; auto. cbn [flat_map]. rewrite waiting_app, IH. auto. Qed.

Lemma honest_inside : forall s b, honest s -> bound_of s = Some b -> forall m, In m (micropolygons s) -> inside m b.
Proof.
  intros s b H E m I. destruct H; cbn in E; try injection E as ->; try discriminate; cbn in I.
  - destruct gone; [destruct I | auto].
  - destruct gone; [destruct I|]. apply in_flat_map in I. destruct I as (p & I & J). eauto.
  - destruct I.
Qed.
Lemma no_span : forall s b q, honest s -> bound_of s = Some b -> ~ spans (grown o b) q ->
  waiting o (micropolygons s) q = [].
Proof.
  intros s b q H E N. apply waiting_nil. intros m I J. apply N.
  apply (touched m b q); auto. eapply honest_inside; eauto.
Qed.

(* ---- one direction of the range of buckets ---- *)
Lemma range_low : forall (x : Q) bs q lo hi, 1 <= bs -> 0 <= lo -> lo <= q < hi ->
  (x < inject_Z ((q + 1) * bs))%Q -> clampz (Z.quot (qtrunc x) bs) lo (hi - 1) <= q.
Proof.
  intros x bs q lo hi B L Q0 H. unfold clampz.
  assert (Z.quot (qtrunc x) bs <= q).
  { destruct (trunc_cases x) as [T|T].
    - rewrite T. assert (F : Qfloor x < (q + 1) * bs).
      { apply Z.nle_gt. intros C. apply (Qlt_not_le _ _ H). eapply Qle_trans; [|apply Qfloor_le].
        rewrite <- Zle_Qle. auto. }
      destruct (Z.le_gt_cases 0 (Qfloor x)) as [P|P].
      + rewrite Z.quot_div_nonneg by lia. assert (Qfloor x / bs < q + 1); [|lia]. apply Z.div_lt_upper_bound; lia.
      + assert (Z.quot (Qfloor x) bs <= 0); [|lia]. rewrite <- (Z.opp_involutive (Qfloor x)).
        rewrite Z.quot_opp_l by lia. pose proof (Z.quot_pos (- Qfloor x) bs). lia.
    - assert (Z.quot (qtrunc x) bs <= 0); [|lia]. rewrite <- (Z.opp_involutive (qtrunc x)).
      rewrite Z.quot_opp_l by lia. pose proof (Z.quot_pos (- qtrunc x) bs). lia. }
  destruct (Z.ltb_spec (Z.quot (qtrunc x) bs) lo); [lia|].
  destruct (Z.ltb_spec (hi - 1) (Z.quot (qtrunc x) bs)); lia.
Qed.
Lemma range_high : forall (x : Q) bs q lo hi, 1 <= bs -> 0 <= lo -> lo <= q < hi ->
  (inject_Z (q * bs) <= x)%Q -> q <= clampz (Z.quot (qtrunc x) bs) lo (hi - 1).
Proof.
  intros x bs q lo hi B L Q0 H. unfold clampz.
  assert (q <= Z.quot (qtrunc x) bs).
  { assert (F : q * bs <= Qfloor x) by (rewrite <- (Qfloor_Z (q * bs)); apply Qfloor_resp_le; auto).
    pose proof (trunc_floor x). assert (0 <= q * bs) by nia.
    rewrite Z.quot_div_nonneg by lia. apply Z.div_le_lower_bound; lia. }
  destruct (Z.ltb_spec (Z.quot (qtrunc x) bs) lo); [lia|].
  destruct (Z.ltb_spec (hi - 1) (Z.quot (qtrunc x) bs)); lia.
Qed.
Lemma clamp_in : forall x lo hi, lo < hi -> lo <= clampz x lo (hi - 1) < hi.
Proof. intros. unfold clampz. destruct (Z.ltb_spec x lo); [lia|]. destruct (Z.ltb_spec (hi - 1) x); lia. Qed.

Lemma post_range_in : forall b, let r := post_range o b in
  rx0 R <= rx0 r < rx1 R /\ rx0 R <= rx1 r < rx1 R /\ ry0 R <= ry0 r < ry1 R /\ ry0 R <= ry1 r < ry1 R.
Proof.
  intros b. pose proof (region_bounds o SENS) as (_ & _ & _ & _ & B5 & B6 & _).
  unfold post_range. destruct b as [b|]; cbn [rx0 rx1 ry0 ry1]; repeat split; apply clamp_in; lia.
Qed.
Lemma post_range_spans : forall B q, inreg q -> spans B q -> let r := post_range o (Some B) in
  rx0 r <= fst q <= rx1 r /\ ry0 r <= snd q <= ry1 r.
Proof.
  intros B q I (H1 & H2 & H3 & H4 & _). apply (proj1 (inreg_iff _)) in I.   pose proof (region_bounds o SENS) as (_ & _ & _ & _ & B5 & B6 & _).
  destruct SENS as (S1 & S2 & _). cbn [post_range rx0 rx1 ry0 ry1].
  repeat split; (apply range_low || apply range_high); auto; lia.
Qed.
Lemma post_range_none : post_range o None = Region (rx0 R) (ry0 R) (rx0 R) (ry0 R).
Proof.
  pose proof (region_bounds o SENS) as (_ & _ & _ & _ & B5 & B6 & _).
  assert (Z0 : forall lo hi, 0 <= lo < hi -> clampz 0 lo (hi - 1) = lo).
  { intros lo hi H. unfold clampz. destruct (Z.ltb_spec 0 lo); auto. destruct (Z.ltb_spec (hi - 1) 0); lia. }
  unfold post_range. rewrite !Z0 by auto. reflexivity.
Qed.

(* ---- the invariant ---- *)
Definition contrib (b : bpos) (e : bpos * surf) : list mpoly :=
  if ble (fst e) b then waiting o (micropolygons (snd e)) b else [].
Definition total (st : pstate) (b : bpos) : list mpoly :=
  at_ b (q_rendered st) ++ at_ b (q_waiting st)
  ++ flat_map (fun s => waiting o (micropolygons s) b) (at_ b (q_hidden st))
  ++ flat_map (contrib b) (q_pending st).

Definition okp (c : bpos) (e : bpos * surf) : Prop :=
  inreg (fst e) /\ ble c (fst e) = true /\ honest (snd e) /\ is_gone (snd e) = false /\
  (bound_of (snd e) = None -> fst e = first).
Definition done_ok (c : bpos) (st : pstate) : Prop := forall b, inreg b -> q_done st b = negb (ble c b).

Definition bsize (b : bpos) (l : list (bpos * surf)) : nat := sizes (at_ b l).
Definition asize (l : list (bpos * surf)) : nat := sizes (map snd l).
Lemma sizes_app : forall l1 l2, sizes (l1 ++ l2) = (sizes l1 + sizes l2)%nat.
Proof. induction l1 as [|x l1 IH]; intros; cbn [app sizes fold_right]; auto. fold (sizes (l1 ++ l2)) (sizes l1). rewrite IH. lia. Qed.

Lemma post_spec : forall c st s, inreg c -> done_ok c st -> honest s -> (bound_of s = None -> c = first) ->
  exists l, q_pending (post_surface o st s) = q_pending st ++ l /\
    Forall (okp c) l /\ (sizes (map snd l) <= size s)%nat /\
    q_waiting (post_surface o st s) = q_waiting st /\ q_done (post_surface o st s) = q_done st /\
    q_rendered (post_surface o st s) = q_rendered st /\ q_hidden (post_surface o st s) = q_hidden st /\
    forall b, inreg b ->
      flat_map (contrib b) l = if ble c b then waiting o (micropolygons s) b else [].
Proof.
  intros c st s C D H U.
  (* nothing is posted *)
  assert (NO : (forall b, inreg b -> ble c b = true -> waiting o (micropolygons s) b = []) ->
    exists l, q_pending st = q_pending st ++ l /\ Forall (okp c) l /\ (sizes (map snd l) <= size s)%nat /\
      q_waiting st = q_waiting st /\ q_done st = q_done st /\ q_rendered st = q_rendered st /\ q_hidden st = q_hidden st /\
      forall b, inreg b -> flat_map (contrib b) l = if ble c b then waiting o (micropolygons s) b else []).
  { intros Z. exists []. rewrite app_nil_r. cbn [map sizes fold_right flat_map]. repeat split; auto; try lia.
    intros b I. destruct (ble c b) eqn:E; auto. symmetry. auto. }
  (* posted in q *)
  assert (YES : forall q, is_gone s = false -> inreg q -> ble c q = true -> (bound_of s = None -> q = first) ->
    (forall b, inreg b -> ble c b = true -> ble q b = false -> waiting o (micropolygons s) b = []) ->
    exists l, q_pending (add_gprim q s st) = q_pending st ++ l /\ Forall (okp c) l /\ (sizes (map snd l) <= size s)%nat /\
      q_waiting (add_gprim q s st) = q_waiting st /\ q_done (add_gprim q s st) = q_done st /\
      q_rendered (add_gprim q s st) = q_rendered st /\ q_hidden (add_gprim q s st) = q_hidden st /\
      forall b, inreg b -> flat_map (contrib b) l = if ble c b then waiting o (micropolygons s) b else []).
  { intros q G Q1 Q2 Q3 Q4. exists [(q, s)]. unfold add_gprim. cbn [q_pending q_waiting q_done q_rendered q_hidden map snd sizes fold_right].
    repeat split; auto.
    - constructor; [|constructor]. unfold okp. cbn [fst snd]. auto.
    - lia.
    - intros b I. cbn [flat_map]. rewrite app_nil_r. unfold contrib. cbn [fst snd].
      destruct (ble q b) eqn:E1.
      + assert (E2 : ble c b = true) by (apply ble_iff; apply ble_iff in Q2, E1; lia). rewrite E2. auto.
      + destruct (ble c b) eqn:E2; auto. symmetry. apply Q4; auto. }
  unfold post_surface. destruct (cull_surface o s) as [ob|] eqn:CU.
  - assert (G : is_gone s = false) by (unfold cull_surface in CU; destruct (is_gone s); [discriminate | auto]).
    cbv zeta. set (r := post_range o ob). pose proof (post_range_in ob) as PR. cbv zeta in PR. fold r in PR.
    assert (F0 : inreg (rx0 r, ry0 r)) by (apply (proj2 (inreg_iff _)); cbn [fst snd]; lia).
    (* which buckets matter *)
    assert (MAT : forall b, inreg b -> waiting o (micropolygons s) b <> [] ->
              ob = None \/ (rx0 r <= fst b <= rx1 r /\ ry0 r <= snd b <= ry1 r)).
    { intros b I W. unfold cull_surface in CU. rewrite G in CU. destruct (bound_of s) as [bb|] eqn:E.
      - right. destruct (_ || _) in CU; [discriminate|]. injection CU as <-.
        apply post_range_spans; auto.
        assert (DN : forall P : Prop, ~ ~ P -> (P \/ ~ P) -> P) by tauto.
        apply DN.
        + intros N. apply W. eapply no_span; eauto.
        + assert (QD : forall x y : Q, (x <= y)%Q \/ ~ (x <= y)%Q)
            by (intros x y; destruct (Qlt_le_dec y x) as [L|L]; [right; apply Qlt_not_le; auto | left; auto]).
          assert (QL : forall x y : Q, (x < y)%Q \/ ~ (x < y)%Q)
            by (intros x y; destruct (Qlt_le_dec x y) as [L|L]; [left; auto | right; apply Qle_not_lt; auto]).
          assert (AND : forall P Q' : Prop, P \/ ~ P -> Q' \/ ~ Q' -> (P /\ Q') \/ ~ (P /\ Q')) by tauto.
          unfold spans. repeat (apply AND); auto.
      - left. congruence. }
    assert (OBN : ob = None -> c = first).
    { intros ->. apply U. unfold cull_surface in CU. rewrite G in CU. destruct (bound_of s); auto.
      destruct (_ || _) in CU; discriminate. }
    assert (BN : bound_of s = None -> (rx0 r, ry0 r) = first /\ ob = None).
    { intros E. unfold cull_surface in CU. rewrite G, E in CU. injection CU as <-. split; auto.
      unfold r. rewrite post_range_none. reflexivity. }
    destruct (q_done st (rx0 r, ry0 r)) eqn:DN.
    + rewrite D in DN by auto. apply negb_true_iff in DN.
      assert (NN : ob <> None).
      { intros E. specialize (OBN E). subst ob. unfold r in DN. rewrite post_range_none in DN. cbn [rx0 ry0] in DN.
        fold first in DN. rewrite <- OBN, ble_refl in DN. discriminate. }
      set (scan := map (fun x => (x, ry0 r)) (zrange (rx0 r + 1) (rx1 r + 1))
                   ++ cells (Region (rx0 r) (ry0 r + 1) (rx1 r + 1) (ry1 r + 1))).
      assert (SC : forall b, In b scan -> inreg b).
      { intros b I. apply (proj2 (inreg_iff _)). unfold scan in I. apply in_app_or in I. destruct I as [I|I].
        - apply in_map_iff in I. destruct I as (x & <- & I). apply zrange_in in I. cbn [fst snd]. lia.
        - apply cells_in in I. destruct I as [I1 I2]. cbn [rx0 rx1 ry0 ry1] in I1, I2. lia. }
      assert (SI : forall b, rx0 r <= fst b <= rx1 r -> ry0 r <= snd b <= ry1 r -> b <> (rx0 r, ry0 r) -> In b scan).
      { intros [x y] A1 A2 N. cbn [fst snd] in *. unfold scan. apply in_or_app.
        destruct (Z.eq_dec y (ry0 r)) as [->|NE].
        - left. apply in_map_iff. exists x. split; auto. apply zrange_in.
          assert (x <> rx0 r) by (intros ->; apply N; auto). lia.
        - right. apply cells_in. split; cbn [rx0 rx1 ry0 ry1 fst snd]; lia. }
      assert (SS : StronglySorted bleP scan).
      { apply SS_app; [|apply cells_sorted|].
        - eapply SS_map; [apply zrange_sorted|]. intros. apply ble_iff. cbn [fst snd]. lia.
        - intros x y I J. apply in_map_iff in I. destruct I as (i & <- & _). apply cells_in in J. destruct J as [_ J].
          cbn [ry0 ry1] in J. apply ble_iff. cbn [fst snd]. lia. }
      assert (NE : forall b, ble c b = true -> b <> (rx0 r, ry0 r)) by (intros b L ->; congruence).
      destruct (find (fun b => negb (q_done st b)) scan) as [q|] eqn:FI.
      * pose proof (find_some _ _ FI) as [QI QD]. specialize (SC q QI) as QR. rewrite D, negb_involutive in QD by auto.
        apply YES; auto.
        { intros E. destruct (BN E). contradiction. }
        intros b I L N. destruct (waiting o (micropolygons s) b) eqn:W; auto. exfalso.
        destruct (MAT b I) as [E|[A1 A2]]; [congruence | contradiction |].
        assert (ble q b = true); [|congruence].
        apply (find_sorted _ _ _ SS FI); [apply SI; auto|]. rewrite D by auto. rewrite L. auto.
      * apply NO. intros b I L. destruct (waiting o (micropolygons s) b) eqn:W; auto. exfalso.
        destruct (MAT b I) as [E|[A1 A2]]; [congruence | contradiction |].
        pose proof (find_none _ _ FI b (SI b A1 A2 (NE b L))) as FN. cbn beta in FN. rewrite D, L in FN by auto. discriminate.
    + rewrite D in DN by auto. apply negb_false_iff in DN. apply YES; auto.
      { intros E. apply BN; auto. }
      intros b I L N. destruct (waiting o (micropolygons s) b) eqn:W; auto. exfalso.
      destruct (MAT b I) as [E|[A1 A2]]; [congruence | |].
      * apply ble_false in N. subst ob. unfold r in N. rewrite post_range_none in N. cbn [rx0 ry0 fst snd] in N.
        apply (proj1 (inreg_iff _)) in I. lia.
      * apply ble_false in N. cbn [fst snd] in N. lia.
  - apply NO. intros b I L. unfold cull_surface in CU. destruct (is_gone s) eqn:G.
    + destruct s; cbn in G; subst; reflexivity.
    + destruct (bound_of s) as [bb|] eqn:E; [|discriminate]. destruct (_ || _) eqn:CR in CU; [|discriminate].
      eapply no_span; eauto. intros (_ & _ & _ & _ & P1 & P2 & P3 & P4).
      apply ltb_false in P1, P2, P3, P4. rewrite P1, P2, P3, P4 in CR. discriminate.
Qed.

Lemma total_ext : forall st st' b l, q_rendered st' = q_rendered st -> q_waiting st' = q_waiting st ->
  q_hidden st' = q_hidden st -> q_pending st' = q_pending st ++ l ->
  total st' b = total st b ++ flat_map (contrib b) l.
Proof. intros st st' b l E1 E2 E3 E4. unfold total. rewrite E1, E2, E3, E4, flat_map_app, !app_assoc. auto. Qed.

Lemma posts_spec : forall c parts st, inreg c -> done_ok c st ->
  (forall p, In p parts -> honest p) -> (forall p, In p parts -> bound_of p = None -> c = first) ->
  exists l, q_pending (fold_left (post_surface o) parts st) = q_pending st ++ l /\
    Forall (okp c) l /\ (sizes (map snd l) <= sizes parts)%nat /\
    q_waiting (fold_left (post_surface o) parts st) = q_waiting st /\
    q_done (fold_left (post_surface o) parts st) = q_done st /\
    q_rendered (fold_left (post_surface o) parts st) = q_rendered st /\
    q_hidden (fold_left (post_surface o) parts st) = q_hidden st /\
    forall b, inreg b ->
      flat_map (contrib b) l = if ble c b then waiting o (flat_map micropolygons parts) b else [].
Proof.
  intros c. induction parts as [|p parts IH]; intros st C D H U.
  - exists []. cbn [fold_left map sizes fold_right flat_map]. rewrite app_nil_r. repeat split; auto.
    intros b I. destruct (ble c b); auto.
  - cbn [fold_left].
    destruct (post_spec c st p C D (H p (or_introl eq_refl)) (U p (or_introl eq_refl))) as (l1 & A1 & A2 & A3 & A4 & A5 & A6 & A7 & A8).
    destruct (IH (post_surface o st p) C) as (l2 & B1 & B2 & B3 & B4 & B5 & B6 & B7 & B8).
    { unfold done_ok. rewrite A5. auto. }
    { intros; apply H; right; auto. }
    { intros q I; apply U; right; auto. }
    exists (l1 ++ l2). rewrite B1, A1, <- app_assoc. split; [auto|]. split; [apply Forall_app; auto|].
    rewrite map_app, sizes_app. cbn [sizes fold_right]. fold (sizes parts). split; [lia|].
    rewrite B4, B5, B6, B7. repeat split; auto.
    intros b I. rewrite flat_map_app, A8, B8 by auto. cbn [flat_map]. rewrite waiting_app. destruct (ble c b); auto.
Qed.

(* ---- micropolygons ---- *)
Lemma add_spec : forall c st m b, done_ok c st -> inreg b ->
  at_ b (q_waiting (add_mpg o st m)) = at_ b (q_waiting st) ++ if ble c b then waiting o [m] b else [].
Proof.
  intros c st m b D I. unfold add_mpg. cbn [q_waiting]. rewrite at_app. f_equal.
  unfold waiting, at_. cbn [flat_map]. rewrite app_nil_r.
  assert (H : forall l, map snd (filter (fun e => bpos_eqb (fst e) b) (map (fun q : bpos => (q, m)) (filter (fun q => negb (q_done st q)) l)))
            = if ble c b then map (fun _ => m) (filter (bpos_eqb b) l) else []).
  { induction l as [|q l IH]; cbn [filter map]; [destruct (ble c b); auto|].
    destruct (bpos_eqb b q) eqn:E.
    - apply bpos_eqb_eq in E. subst q. rewrite D by auto. rewrite negb_involutive. destruct (ble c b) eqn:L.
      + cbn [map filter fst]. rewrite bpos_eqb_refl. cbn [map snd]. rewrite IH. auto.
      + auto.
    - destruct (negb (q_done st q)); cbn [map filter fst]; auto.
      assert (N : bpos_eqb q b = false) by (apply bpos_eqb_neq; intros ->; rewrite bpos_eqb_refl in E; discriminate).
      rewrite N. auto. }
  apply H.
Qed.
Lemma mp_buckets_in : forall m q, In q (mp_buckets o m) -> inreg q.
Proof.
  intros m q I. apply (touched m (Box (m_x0 m) (m_y0 m) (m_x1 m) (m_y1 m)) q); auto.
  unfold inside. cbn. repeat split; apply Qle_refl.
Qed.
Definition okw (c : bpos) (e : bpos * mpoly) : Prop := inreg (fst e) /\ ble c (fst e) = true.
Lemma adds_spec : forall c ms st, done_ok c st -> Forall (okw c) (q_waiting st) ->
  let st' := fold_left (add_mpg o) ms st in
  q_pending st' = q_pending st /\ q_done st' = q_done st /\ q_rendered st' = q_rendered st /\ q_hidden st' = q_hidden st /\
  Forall (okw c) (q_waiting st') /\
  forall b, inreg b -> at_ b (q_waiting st') = at_ b (q_waiting st) ++ if ble c b then waiting o ms b else [].
Proof.
  intros c. induction ms as [|m ms IH]; intros st D W; cbn [fold_left]; cbv zeta.
  - repeat split; auto. intros b I. change (waiting o [] b) with (@nil mpoly). destruct (ble c b); rewrite app_nil_r; auto.
  - assert (W' : Forall (okw c) (q_waiting (add_mpg o st m))).
    { unfold add_mpg. cbn [q_waiting]. apply Forall_app. split; auto. apply Forall_forall. intros e I.
      apply in_map_iff in I. destruct I as (q & <- & I). apply filter_In in I. destruct I as [I1 I2].
      pose proof (mp_buckets_in _ _ I1) as QI. rewrite D, negb_involutive in I2 by auto. split; auto. }
    destruct (IH (add_mpg o st m) D W') as (A1 & A2 & A3 & A4 & A5 & A6). cbv zeta in *.
    rewrite A1, A2, A3, A4. repeat split; auto.
    intros b I. rewrite A6, (add_spec c) by auto. rewrite <- app_assoc. f_equal.
    change (m :: ms) with ([m] ++ ms). rewrite waiting_app. destruct (ble c b); auto.
Qed.

(* ---- reposting ---- *)
Lemma repost_spec : forall c s rb st, inreg c -> honest s -> bound_of s = Some rb -> is_gone s = false ->
  exists l, q_pending (repost_surface o c (grown o rb) s st) = q_pending st ++ l /\
    Forall (okp c) l /\ at_ c l = [] /\ (sizes (map snd l) <= size s)%nat /\
    q_waiting (repost_surface o c (grown o rb) s st) = q_waiting st /\
    q_done (repost_surface o c (grown o rb) s st) = q_done st /\
    q_rendered (repost_surface o c (grown o rb) s st) = q_rendered st /\
    q_hidden (repost_surface o c (grown o rb) s st) = q_hidden st /\
    forall b, inreg b ->
      flat_map (contrib b) l = if ble c b && negb (bpos_eqb c b) then waiting o (micropolygons s) b else [].
Proof.
  intros c s rb st C H E G. pose proof C as C'. apply (proj1 (inreg_iff _)) in C'.   pose proof (region_bounds o SENS) as (B1 & B2 & B3 & B4 & B5 & B6 & _).
  pose proof SENS as (S1 & S2 & S3 & S4 & S5 & S6 & S7 & S8).
  assert (YES : forall q, inreg q -> ble c q = true -> q <> c ->
    (forall b, inreg b -> ble c b = true -> b <> c -> ble q b = false -> ~ spans (grown o rb) b) ->
    exists l, q_pending (add_gprim q s st) = q_pending st ++ l /\ Forall (okp c) l /\ at_ c l = [] /\ (sizes (map snd l) <= size s)%nat /\
      q_waiting (add_gprim q s st) = q_waiting st /\ q_done (add_gprim q s st) = q_done st /\
      q_rendered (add_gprim q s st) = q_rendered st /\ q_hidden (add_gprim q s st) = q_hidden st /\
      forall b, inreg b -> flat_map (contrib b) l =
        if ble c b && negb (bpos_eqb c b) then waiting o (micropolygons s) b else []).
  { intros q Q1 Q2 Q3 Q4. exists [(q, s)]. unfold add_gprim. cbn [q_pending q_waiting q_done q_rendered q_hidden map snd sizes fold_right].
    repeat split; auto.
    - constructor; [|constructor]. refine (conj Q1 (conj Q2 (conj H (conj G _)))). cbn [snd]. congruence.
    - unfold at_. cbn [filter fst]. rewrite bpos_eqb_neq by auto. auto.
    - lia.
    - intros b I. cbn [flat_map]. rewrite app_nil_r. unfold contrib. cbn [fst snd].
      destruct (ble q b) eqn:E1.
      + assert (E2 : ble c b = true) by (apply ble_iff; apply ble_iff in Q2, E1; lia). rewrite E2.
        assert (E3 : bpos_eqb c b = false).
        { apply bpos_eqb_neq. intros ->. apply Q3. destruct q as [qx qy], b as [x y]. apply ble_iff in Q2, E1. cbn [fst snd] in *. f_equal; lia. }
        rewrite E3. auto.
      + destruct (ble c b) eqn:E2; auto. destruct (bpos_eqb c b) eqn:E3; auto. cbn [andb negb]. symmetry.
        eapply no_span; eauto. apply Q4; auto. intros ->. rewrite bpos_eqb_refl in E3. discriminate. }
  assert (NO : (forall b, inreg b -> ble c b = true -> b <> c -> ~ spans (grown o rb) b) ->
    exists l, q_pending st = q_pending st ++ l /\ Forall (okp c) l /\ at_ c l = [] /\ (sizes (map snd l) <= size s)%nat /\
      q_waiting st = q_waiting st /\ q_done st = q_done st /\ q_rendered st = q_rendered st /\ q_hidden st = q_hidden st /\
      forall b, inreg b -> flat_map (contrib b) l =
        if ble c b && negb (bpos_eqb c b) then waiting o (micropolygons s) b else []).
  { intros Z. exists []. rewrite app_nil_r. cbn [map sizes fold_right flat_map]. repeat split; auto; try lia.
    intros b I. destruct (ble c b) eqn:E2; auto. destruct (bpos_eqb c b) eqn:E3; auto. cbn [andb negb]. symmetry.
    eapply no_span; eauto. apply Z; auto. intros ->. rewrite bpos_eqb_refl in E3. discriminate. }
  assert (QX : forall z x, Qle_bool (inject_Z z) x = false -> forall z', z <= z' -> ~ (inject_Z z' <= x)%Q).
  { intros z x F z' L Q1. assert (inject_Z z <= x)%Q by (eapply Qle_trans; [|exact Q1]; rewrite <- Zle_Qle; auto).
    apply Qle_bool_iff in H0. congruence. }
  assert (BW : bucket_x o c + bucket_w o c <= (fst c + 1) * o_bx o) by (unfold bucket_x, bucket_w; lia).
  assert (BH : bucket_y o c + bucket_h o c <= (snd c + 1) * o_by o) by (unfold bucket_y, bucket_h; lia).
  unfold repost_surface. cbv zeta.
  destruct ((fst c + 1 <? rx1 (bregion o)) && _) eqn:RT.
  - apply andb_true_iff in RT. destruct RT as [RT _]. apply Z.ltb_lt in RT. apply YES.
    + apply (proj2 (inreg_iff _)).  cbn [fst snd]. lia.
    + apply ble_iff. cbn [fst snd]. lia.
    + intros Q0. apply (f_equal fst) in Q0. cbn [fst] in Q0. lia.
    + intros b I L N F. exfalso. apply N. apply ble_iff in L. apply ble_false in F. cbn [fst snd] in F.
      destruct b as [x y], c as [cx cy]. cbn [fst snd] in *. f_equal; lia.
  - assert (ROW : forall b, inreg b -> ble c b = true -> b <> c -> snd b = snd c -> ~ spans (grown o rb) b).
    { intros b I L N Y (_ & P2 & _). apply (proj1 (inreg_iff _)) in I. apply ble_iff in L.
      assert (fst c < fst b).
      { assert (fst b <> fst c) by (intros X; apply N; destruct b, c; cbn [fst snd] in *; congruence). lia. }
      apply andb_false_iff in RT. destruct RT as [RT|RT]; [apply Z.ltb_ge in RT; lia|].
      eapply QX; [exact RT | | exact P2]. nia. }
    destruct (_ && _ && _) eqn:DN.
    + rewrite !andb_true_iff, !Z.ltb_lt in DN. destruct DN as [[D1 D2] _]. apply YES.
      * apply (proj2 (inreg_iff _)).  cbn [fst snd]. lia.
      * apply ble_iff. cbn [fst snd]. lia.
      * intros Q0. apply (f_equal snd) in Q0. cbn [snd] in Q0. lia.
      * intros b I L N F. destruct (Z.eq_dec (snd b) (snd c)) as [Y|Y]; [auto|].
        apply ble_iff in L. apply ble_false in F. cbn [fst snd] in F.
        intros (P1 & _). apply (proj1 (inreg_iff _)) in I.         assert (Z.quot (Qfloor (b_x0 (grown o rb))) (o_bx o) <= fst b); [|lia].
        assert (FL : Qfloor (b_x0 (grown o rb)) < (fst b + 1) * o_bx o).
        { apply Z.nle_gt. intros CC. apply (Qlt_not_le _ _ P1). eapply Qle_trans; [|apply Qfloor_le]. rewrite <- Zle_Qle. auto. }
        destruct (Z.le_gt_cases 0 (Qfloor (b_x0 (grown o rb)))) as [P|P].
        -- rewrite Z.quot_div_nonneg by lia. assert (Qfloor (b_x0 (grown o rb)) / o_bx o < fst b + 1); [|lia]. apply Z.div_lt_upper_bound; lia.
        -- assert (Z.quot (Qfloor (b_x0 (grown o rb))) (o_bx o) <= 0); [|lia].
           rewrite <- (Z.opp_involutive (Qfloor (b_x0 (grown o rb)))). rewrite Z.quot_opp_l by lia.
           pose proof (Z.quot_pos (- Qfloor (b_x0 (grown o rb))) (o_bx o)). lia.
    + apply NO. intros b I L N. destruct (Z.eq_dec (snd b) (snd c)) as [Y|Y]; [auto|].
      intros (P1 & P2 & P3 & P4 & _). apply (proj1 (inreg_iff _)) in I. apply ble_iff in L.
      rewrite !andb_false_iff, !Z.ltb_ge in DN. destruct DN as [[D1|D1]|D1].
      * assert (rx1 (bregion o) <= Z.quot (Qfloor (b_x0 (grown o rb))) (o_bx o)) by lia.
        assert (FL : Qfloor (b_x0 (grown o rb)) < (fst b + 1) * o_bx o).
        { apply Z.nle_gt. intros CC. apply (Qlt_not_le _ _ P1). eapply Qle_trans; [|apply Qfloor_le]. rewrite <- Zle_Qle. auto. }
        destruct (Z.le_gt_cases 0 (Qfloor (b_x0 (grown o rb)))) as [P|P].
        -- rewrite Z.quot_div_nonneg in H0 by lia. assert (Qfloor (b_x0 (grown o rb)) / o_bx o < fst b + 1); [|lia]. apply Z.div_lt_upper_bound; lia.
        -- assert (Z.quot (Qfloor (b_x0 (grown o rb))) (o_bx o) <= 0); [|lia].
           rewrite <- (Z.opp_involutive (Qfloor (b_x0 (grown o rb)))). rewrite Z.quot_opp_l by lia.
           pose proof (Z.quot_pos (- Qfloor (b_x0 (grown o rb))) (o_bx o)). lia.
      * lia.
      * eapply QX; [exact D1 | | exact P4]. nia.
Qed.

(* ---- one surface ---- *)
Lemma pick_some : forall b l k s r, pick b k l = Some (s, r) -> Permutation l ((b, s) :: r).
Proof.
  intros b. induction l as [|[q t] l IH]; intros k s r E; cbn [pick] in E; [discriminate|].
  destruct (bpos_eqb q b) eqn:Q.
  - apply bpos_eqb_eq in Q. subst q. destruct k as [|k].
    + injection E as <- <-. apply Permutation_refl.
    + destruct (pick b k l) as [[s' r']|] eqn:P.
      * injection E as <- <-. apply IH in P. rewrite P. apply perm_swap.
      * injection E as <- <-. apply Permutation_refl.
  - destruct (pick b k l) as [[s' r']|] eqn:P; [|discriminate]. injection E as <- <-. apply IH in P. rewrite P. apply perm_swap.
Qed.
Lemma pick_none : forall b l k, pick b k l = None -> at_ b l = [].
Proof.
  intros b. induction l as [|[q t] l IH]; intros k E; cbn [pick] in E; auto. unfold at_. cbn [filter fst].
  destruct (bpos_eqb q b) eqn:Q.
  - destruct k; [discriminate|]. destruct (pick b k l) as [[? ?]|]; discriminate.
  - destruct (pick b k l) as [[? ?]|] eqn:P; [discriminate|]. eapply IH; eauto.
Qed.

Variable all : list mpoly.
Record INV (c : bpos) (st : pstate) : Prop := {
  i_done : done_ok c st;
  i_pend : Forall (okp c) (q_pending st);
  i_wait : Forall (okw c) (q_waiting st);
  i_total : forall b, inreg b -> Permutation (total st b) (waiting o all b)
}.

Lemma rw_total : forall c st b, Permutation (total (render_waiting c st) b) (total st b).
Proof.
  intros c st b. unfold total, render_waiting. cbn [q_rendered q_waiting q_hidden q_pending].
  rewrite at_app, <- app_assoc. apply Permutation_app_head. rewrite !app_assoc. do 2 apply Permutation_app_tail.
  unfold at_. induction (q_waiting st) as [|[q m] l IH]; cbn [filter fst map app]; auto.
  destruct (bpos_eqb q c) eqn:E1; cbn [negb filter fst]; destruct (bpos_eqb q b) eqn:E2; cbn [map snd app]; auto.
  rewrite <- Permutation_middle. auto.
Qed.
Lemma rw_inv : forall c st, INV c st -> INV c (render_waiting c st).
Proof.
  intros c st [A B C D]. constructor; cbn [render_waiting q_done q_pending q_waiting]; auto.
  - apply Forall_forall. intros e I. apply filter_In in I. rewrite Forall_forall in C. apply C. apply I.
  - intros b I. rewrite rw_total. auto.
Qed.
Lemma rw_none : forall c st, at_ c (q_waiting (render_waiting c st)) = [].
Proof.
  intros c st. cbn [render_waiting q_waiting]. unfold at_. induction (q_waiting st) as [|[q m] l IH]; auto.
  cbn [filter fst]. destruct (bpos_eqb q c) eqn:E; cbn [negb filter fst]; auto. rewrite E. auto.
Qed.

Lemma size_pos : forall s, (1 <= size s)%nat.
Proof. destruct s; cbn; lia. Qed.
Lemma bsize_le : forall b l, (bsize b l <= asize l)%nat.
Proof.
  intros b. unfold bsize, asize, at_. induction l as [|[q s] l IH]; cbn [filter fst]; [auto|].
  destruct (bpos_eqb q b); cbn [map snd sizes fold_right] in *; fold (sizes (map snd l)) in *; try lia.
  fold (sizes (map snd (filter (fun e => bpos_eqb (fst e) b) l))). lia.
Qed.
Lemma sizes_perm : forall l l', Permutation l l' -> sizes l = sizes l'.
Proof. induction 1; cbn [sizes fold_right] in *; fold sizes; unfold sizes in *; lia. Qed.
Lemma filter_perm {A} (f : A -> bool) l l' : Permutation l l' -> Permutation (filter f l) (filter f l').
Proof.
  induction 1; cbn [filter]; auto.
  - destruct (f x); auto.
  - destruct (f x), (f y); auto. apply perm_swap.
  - etransitivity; eauto.
Qed.
Lemma at_perm {A} b (l l' : list (bpos * A)) : Permutation l l' -> Permutation (at_ b l) (at_ b l').
Proof. intros. apply Permutation_map, filter_perm. auto. Qed.
Lemma flat_perm {A B} (f : A -> list B) l l' : Permutation l l' -> Permutation (flat_map f l) (flat_map f l').
Proof.
  induction 1; cbn [flat_map]; auto.
  - apply Permutation_app_head. auto.
  - rewrite !app_assoc. apply Permutation_app_tail. apply Permutation_app_comm.
  - etransitivity; eauto.
Qed.
Lemma asize_app : forall l1 l2, asize (l1 ++ l2) = (asize l1 + asize l2)%nat.
Proof. intros. unfold asize. rewrite map_app. apply sizes_app. Qed.
Lemma bsize_app : forall b l1 l2, bsize b (l1 ++ l2) = (bsize b l1 + bsize b l2)%nat.
Proof. intros. unfold bsize. rewrite at_app. apply sizes_app. Qed.

Lemma surface_spec : forall c hid st s rest, inreg c -> INV c st -> Permutation (q_pending st) ((c, s) :: rest) ->
  let st' := render_surface o c hid s (PState rest (q_waiting st) (q_done st) (q_rendered st) (q_hidden st)) in
  INV c st' /\ (bsize c (q_pending st') < bsize c (q_pending st))%nat /\ (asize (q_pending st') <= asize (q_pending st))%nat.
Proof.
  intros c hid st s rest C [I1 I2 I3 I4] P. cbv zeta.
  rewrite P in I2. apply Forall_cons_iff in I2. destruct I2 as [(K1 & K2 & K3 & K4 & K5) I2]. cbn [fst snd] in *.
  assert (SB : bsize c (q_pending st) = (size s + bsize c rest)%nat).
  { unfold bsize. rewrite (sizes_perm _ _ (at_perm c _ _ P)). unfold at_. cbn [filter fst]. rewrite bpos_eqb_refl. reflexivity. }
  assert (SA : asize (q_pending st) = (size s + asize rest)%nat).
  { unfold asize. rewrite (sizes_perm _ _ (Permutation_map snd P)). reflexivity. }
  rewrite SB, SA. pose proof (size_pos s) as SP.
  set (st1 := PState rest (q_waiting st) (q_done st) (q_rendered st) (q_hidden st)).
  assert (T1 : forall b, inreg b -> Permutation (total st1 b ++ if ble c b then waiting o (micropolygons s) b else []) (waiting o all b)).
  { intros b I. rewrite <- I4 by auto. unfold total, st1. cbn [q_rendered q_waiting q_hidden q_pending].
    rewrite <- !app_assoc. do 3 apply Permutation_app_head. rewrite (flat_perm _ _ _ P). cbn [flat_map]. unfold contrib at 2. cbn [fst snd].
    apply Permutation_app_comm. }
  assert (SPLIT : forall ob parts, s = Split ob false parts ->
     let st' := fold_left (post_surface o) parts st1 in
     INV c st' /\ (bsize c (q_pending st') < size s + bsize c rest)%nat /\ (asize (q_pending st') <= size s + asize rest)%nat).
  { intros ob parts ->. cbn [bound_of is_gone micropolygons] in *. cbv zeta.
    destruct (posts_spec c parts st1 C) as (l & L1 & L2 & L3 & L4 & L5 & L6 & L7 & L8).
    - exact I1.
    - inversion K3; subst; auto.
    - intros p J E. inversion K3; subst; [|auto]. elim (H3 p J E).
    - rewrite L1. cbn [st1 q_pending] in *. rewrite bsize_app, asize_app. pose proof (bsize_le c l). unfold asize in *.
      assert (SZ : size (Split ob false parts) = S (sizes parts)) by reflexivity. rewrite SZ. split; [|lia].
      constructor.
      + unfold done_ok. rewrite L5. exact I1.
      + rewrite L1. apply Forall_app. auto.
      + rewrite L4. auto.
      + intros b I. rewrite (total_ext st1 _ b l) by auto. rewrite L8 by auto. apply T1. auto. }
  assert (DROP : (forall b, inreg b -> waiting o (micropolygons s) b = []) ->
     INV c st1 /\ (bsize c (q_pending st1) < size s + bsize c rest)%nat /\ (asize (q_pending st1) <= size s + asize rest)%nat).
  { intros Z. split; [|cbn [st1 q_pending]; lia]. constructor; cbn [st1 q_done q_pending q_waiting]; auto.
    intros b I. rewrite <- T1 by auto. rewrite Z by auto. destruct (ble c b); rewrite app_nil_r; auto. }
  unfold render_surface. destruct (bound_of s) as [rb|] eqn:E.
  - destruct hid.
    + set (st2 := PState (q_pending st1) (q_waiting st1) (q_done st1) (q_rendered st1) (q_hidden st1 ++ [(c, s)])).
      destruct (repost_spec c s rb st2 C K3 E K4) as (l & L1 & L2 & L3 & L4 & L5 & L6 & L7 & L8 & L9).
      rewrite L1. cbn [st2 st1 q_pending] in *. rewrite bsize_app, asize_app.
      assert (LB : bsize c l = O) by (unfold bsize; rewrite L3; auto). unfold asize in *. split; [|lia].
      constructor.
      * unfold done_ok. rewrite L6. exact I1.
      * rewrite L1. apply Forall_app. auto.
      * rewrite L5. auto.
      * intros b I. rewrite (total_ext st2 _ b l) by auto. rewrite L9 by auto. rewrite <- T1 by auto.
        unfold total, st2, st1. cbn [q_rendered q_waiting q_hidden q_pending].
        rewrite at_app, flat_map_app, <- !app_assoc. do 3 apply Permutation_app_head.
        unfold at_. cbn [filter fst]. destruct (bpos_eqb c b) eqn:Q.
        -- apply bpos_eqb_eq in Q. subst b. rewrite ble_refl. cbn [andb negb map snd flat_map].
           rewrite !app_nil_r. apply Permutation_app_comm.
        -- rewrite andb_true_r. cbn [map flat_map app]. auto.
    + destruct s as [ob g ms|ob g parts|ob g]; cbn [is_gone] in K4; subst g.
      * destruct (adds_spec c ms st1) as (A1 & A2 & A3 & A4 & A5 & A6); auto. cbv zeta in *.
        rewrite A1. cbn [st1 q_pending]. split; [|cbn [size] in *; lia]. constructor.
        -- unfold done_ok. rewrite A2. exact I1.
        -- rewrite A1. auto.
        -- auto.
        -- intros b I. rewrite <- T1 by auto. unfold total. rewrite A1, A3, A4, A6 by auto. cbn [micropolygons].
           rewrite <- !app_assoc. do 2 apply Permutation_app_head.
           etransitivity; [apply Permutation_app_comm|]. rewrite <- app_assoc. apply Permutation_refl.
      * apply (SPLIT ob parts). auto.
      * apply DROP. intros b I. reflexivity.
  - destruct s as [ob g ms|ob g parts|ob g]; cbn [is_gone] in K4; subst g.
    + cbn in E. subst. inversion K3.
    + apply (SPLIT ob parts). auto.
    + apply DROP. intros b I. reflexivity.
Qed.

Variable choice : pstate -> nat * bool.

Lemma surfaces_spec : forall n c st, inreg c -> INV c st -> (bsize c (q_pending st) <= n)%nat ->
  exists st', surfaces o choice n c st = Some st' /\ INV c st' /\ at_ c (q_pending st') = [] /\
    (asize (q_pending st') <= asize (q_pending st))%nat.
Proof.
  induction n as [|n IH]; intros c st C I N; cbn [surfaces]; destruct (choice st) as [k hid];
    destruct (pick c k (q_pending st)) as [[s rest]|] eqn:P.
  - apply pick_some in P. unfold bsize in N. rewrite (sizes_perm _ _ (at_perm c _ _ P)) in N.
    unfold at_ in N. cbn [filter fst] in N. rewrite bpos_eqb_refl in N. cbn [map sizes fold_right snd] in N.
    pose proof (size_pos s). lia.
  - apply pick_none in P. eauto.
  - apply pick_some in P. destruct (surface_spec c hid st s rest C I P) as (A & B & D). cbv zeta in *.
    destruct (IH c (render_waiting c (render_surface o c hid s (PState rest (q_waiting st) (q_done st) (q_rendered st) (q_hidden st)))) C) as (st' & E1 & E2 & E3 & E4).
    + apply rw_inv. auto.
    + cbn [render_waiting q_pending]. lia.
    + exists st'. split; [auto|]. split; [auto|]. split; [auto|]. cbn [render_waiting q_pending] in E4. lia.
  - apply pick_none in P. eauto.
Qed.

(* the state after the bucket c: c is done, nothing of it is left *)
Lemma process_spec : forall n c st, inreg c -> INV c st -> (asize (q_pending st) <= n)%nat ->
  exists st', process o choice n c st = Some st' /\
    (forall b, inreg b -> q_done st' b = negb (ble c b) || bpos_eqb b c) /\
    Forall (fun e => okp c e /\ fst e <> c) (q_pending st') /\
    Forall (fun e => okw c e /\ fst e <> c) (q_waiting st') /\
    (forall b, inreg b -> Permutation (total st' b) (waiting o all b)) /\
    (asize (q_pending st') <= n)%nat.
Proof.
  intros n c st C I N. unfold process.
  destruct (surfaces_spec n c (render_waiting c st) C (rw_inv c st I)) as (st' & E1 & E2 & E3 & E4).
  { cbn [render_waiting q_pending]. pose proof (bsize_le c (q_pending st)). lia. }
  rewrite E1. cbn [bind]. eexists. split; [reflexivity|].
  pose proof (rw_inv c st' E2) as [F1 F2 F3 F4]. pose proof (rw_none c st') as F5.
  cbn [q_done q_pending q_waiting]. split; [|split; [|split; [|split]]].
  - intros b J. cbn [render_waiting q_done] in *. destruct (bpos_eqb b c) eqn:Q; [rewrite orb_true_r; auto|].
    rewrite orb_false_r. apply F1. auto.
  - rewrite Forall_forall in F2 |- *. intros e J. split; auto. intros X.
    assert (K : In (snd e) (at_ c (q_pending st'))).
    { unfold at_. apply in_map. apply filter_In. split; [exact J|]. rewrite X. apply bpos_eqb_refl. }
    rewrite E3 in K. destruct K.
  - rewrite Forall_forall in F3 |- *. intros e J. split; auto. intros X.
    assert (K : In (snd e) (at_ c (q_waiting (render_waiting c st')))).
    { unfold at_. apply in_map. apply filter_In. split; [exact J|]. rewrite X. apply bpos_eqb_refl. }
    rewrite F5 in K. destruct K.
  - intros b J. apply F4. auto.
  - cbn [render_waiting q_pending] in *. lia.
Qed.

Lemma next_inv : forall c c' st, inreg c -> next_bucket o c = Some c' ->
  (forall b, inreg b -> q_done st b = negb (ble c b) || bpos_eqb b c) ->
  Forall (fun e => okp c e /\ fst e <> c) (q_pending st) ->
  Forall (fun e => okw c e /\ fst e <> c) (q_waiting st) ->
  (forall b, inreg b -> Permutation (total st b) (waiting o all b)) ->
  inreg c' /\ INV c' st.
Proof.
  intros c c' st C E D P W T. pose proof (region_bounds o SENS) as (_ & _ & _ & _ & B5 & B6 & _).
  apply (proj1 (inreg_iff _)) in C.   assert (X : inreg c' /\ forall b, inreg b -> ble c' b = ble c b && negb (bpos_eqb b c)).
  { unfold next_bucket in E. destruct (Z.ltb_spec (fst c + 1) (rx1 (bregion o))).
    - injection E as <-. split; [apply (proj2 (inreg_iff _)); cbn [fst snd]; lia|]. intros b I. apply (proj1 (inreg_iff _)) in I.       apply eq_true_iff_eq. rewrite andb_true_iff, negb_true_iff, <- not_true_iff_false, bpos_eqb_eq, !ble_iff.
      destruct b as [x y], c as [cx cy]. cbn [fst snd] in *. split.
      + intros Q. split; [lia|]. intros Q'. injection Q' as -> ->. lia.
      + intros [Q Q']. destruct (Z.eq_dec y cy) as [->|]; [|lia]. destruct (Z.eq_dec x cx) as [->|]; [|lia]. elim Q'. auto.
    - destruct (Z.ltb_spec (snd c + 1) (ry1 (bregion o))); [|discriminate].
      assert (E' : c' = (rx0 R, snd c + 1)) by congruence. subst c'. clear E. split; [apply (proj2 (inreg_iff _)); cbn [fst snd]; lia|]. intros b I. apply (proj1 (inreg_iff _)) in I.       apply eq_true_iff_eq. rewrite andb_true_iff, negb_true_iff, <- not_true_iff_false, bpos_eqb_eq, !ble_iff.
      destruct b as [x y], c as [cx cy]. cbn [fst snd] in *. split.
      + intros Q. split; [lia|]. intros Q'. injection Q' as -> ->. lia.
      + intros [Q Q']. destruct (Z.eq_dec y cy) as [->|]; [|lia]. destruct (Z.eq_dec x cx) as [->|]; [|lia]. elim Q'. auto. }
  destruct X as [X1 X2]. split; auto. constructor.
  - intros b I. rewrite D, X2 by auto. destruct (ble c b), (bpos_eqb b c); auto.
  - eapply Forall_impl; [|exact P]. intros e [(K1 & K2 & K3 & K4 & K5) N]. 
    refine (conj K1 (conj _ (conj K3 (conj K4 K5)))).
    rewrite X2 by auto. rewrite K2, bpos_eqb_neq by auto. auto.
  - eapply Forall_impl; [|exact W]. intros e [(K1 & K2) N]. split; auto.
    rewrite X2 by auto. rewrite K2, bpos_eqb_neq by auto. auto.
  - auto.
Qed.

Lemma last_bucket : forall c b, inreg c -> next_bucket o c = None -> inreg b -> ble c b = true -> b = c.
Proof.
  intros c b C E I L. apply (proj1 (inreg_iff _)) in C; apply (proj1 (inreg_iff _)) in I. unfold next_bucket in E.
  destruct (Z.ltb_spec (fst c + 1) (rx1 (bregion o))); [discriminate|].
  destruct (Z.ltb_spec (snd c + 1) (ry1 (bregion o))); [discriminate|].
  apply ble_iff in L. destruct b, c. cbn [fst snd] in *. f_equal; lia.
Qed.

Lemma loop_ok : forall n m c st, inreg c -> INV c st -> (asize (q_pending st) <= n)%nat ->
  (ry1 R - 1 - snd c) * rwidth R + (rx1 R - fst c) <= Z.of_nat m ->
  exists st', all_buckets o choice n m c st = Some st' /\ q_pending st' = [] /\ q_waiting st' = [] /\
    forall b, inreg b -> Permutation (total st' b) (waiting o all b).
Proof.
  intros n. induction m as [|m IH]; intros c st C I N M.
  - exfalso. apply (proj1 (inreg_iff _)) in C. unfold rwidth in M. nia.
  - cbn [all_buckets]. destruct (process_spec n c st C I N) as (st' & E & D & P & W & T & A).
    rewrite E. cbn [bind]. destruct (next_bucket o c) as [c'|] eqn:NX.
    + destruct (next_inv c c' st' C NX D P W T) as [C' I']. apply IH; auto.
      pose proof (region_bounds o SENS) as (_ & _ & _ & _ & B5 & B6 & _).
      apply (proj1 (inreg_iff _)) in C. unfold next_bucket in NX. unfold rwidth in *.
      destruct (Z.ltb_spec (fst c + 1) (rx1 R)).
      * injection NX as <-. cbn [fst snd]. lia.
      * destruct (Z.ltb_spec (snd c + 1) (ry1 R)); [|discriminate]. assert (E' : c' = (rx0 R, snd c + 1)) by congruence. subst c'. cbn [fst snd]. nia.
    + exists st'. split; [auto|].
      assert (P0 : q_pending st' = []).
      { destruct (q_pending st') as [|e l]; auto. apply Forall_cons_iff in P. destruct P as [[(K1 & K2 & _) K3] _].
        elim K3. apply last_bucket; auto. }
      assert (W0 : q_waiting st' = []).
      { destruct (q_waiting st') as [|e l]; auto. apply Forall_cons_iff in W. destruct W as [[(K1 & K2) K3] _].
        elim K3. apply last_bucket; auto. }
      auto.
Qed.
End Proofs.

Lemma render_scene_spec : forall o choice scene n m, sensible o -> Forall honest scene ->
  (sizes scene <= n)%nat -> rwidth (bregion o) * rheight (bregion o) <= Z.of_nat m ->
  exists st, render_scene o choice n m scene = Some st /\ q_pending st = [] /\ q_waiting st = [] /\
    forall b, in_region o b ->
      Permutation (rendered_in st b ++ flat_map (fun s => waiting o (micropolygons s) b) (hidden_in st b))
                  (waiting o (flat_map micropolygons scene) b).
Proof.
  intros o choice scene n m S H N M.
  pose proof (region_bounds o S) as (_ & _ & _ & _ & B5 & B6 & _).
  set (c := (rx0 (bregion o), ry0 (bregion o))).
  assert (C : in_region o c) by (apply (proj2 (inreg_iff _ _)); unfold c; cbn [fst snd]; lia).
  set (st0 := PState [] [] (fun _ => false) [] []).
  assert (D0 : done_ok o c st0).
  { intros b I. cbn [st0 q_done]. apply (proj1 (inreg_iff _ _)) in I. symmetry. apply negb_false_iff. apply ble_iff. unfold c; cbn [fst snd]. lia. }
  rewrite Forall_forall in H.
  destruct (posts_spec o S c scene st0 C D0 H) as (l & L1 & L2 & L3 & L4 & L5 & L6 & L7 & L8); [reflexivity|].
  set (st1 := fold_left (post_surface o) scene st0) in *.
  destruct (loop_ok o S (flat_map micropolygons scene) choice n m c st1 C) as (st & E1 & E2 & E3 & E4).
  - constructor.
    + unfold done_ok. rewrite L5. exact D0.
    + rewrite L1. exact L2.
    + rewrite L4. constructor.
    + intros b I. rewrite (total_ext o st0 st1 b l) by auto. rewrite L8 by auto. cbn [st0 total at_ filter map flat_map q_rendered q_waiting q_hidden q_pending app].
      unfold total. cbn. assert (E : ble c b = true).
      { apply (proj1 (inreg_iff _ _)) in I. apply ble_iff. unfold c; cbn [fst snd]. lia. }
      rewrite E. auto.
  - rewrite L1. cbn [st0 q_pending app]. unfold asize. lia.
  - unfold c; cbn [fst snd]. unfold rwidth, rheight in *. nia.
  - exists st. split; [exact E1|]. split; [auto|]. split; [auto|]. intros b I. rewrite <- E4 by auto.
    unfold total. rewrite E2, E3. cbn [flat_map at_ filter map app]. rewrite app_nil_r. apply Permutation_refl.
Qed.

(* ---- nothing is hidden if the tests never say so ---- *)
Lemma post_hidden : forall o st s, q_hidden (post_surface o st s) = q_hidden st.
Proof.
  intros. unfold post_surface. destruct (cull_surface o s); auto. cbv zeta.
  destruct (q_done st _); [destruct (find _ _)|]; reflexivity.
Qed.
Lemma posts_hidden : forall o l st, q_hidden (fold_left (post_surface o) l st) = q_hidden st.
Proof. induction l as [|s l IH]; intros st; cbn [fold_left]; auto. rewrite IH, post_hidden. auto. Qed.
Lemma adds_hidden : forall o l st, q_hidden (fold_left (add_mpg o) l st) = q_hidden st.
Proof. induction l as [|s l IH]; intros st; cbn [fold_left]; auto. rewrite IH. auto. Qed.
Lemma surface_hidden : forall o b s st, q_hidden (render_surface o b false s st) = q_hidden st.
Proof.
  intros. unfold render_surface. destruct (bound_of s), s; auto; try apply posts_hidden. apply adds_hidden.
Qed.
Lemma surfaces_hidden : forall o choice, (forall st, snd (choice st) = false) -> forall n b st st',
  surfaces o choice n b st = Some st' -> q_hidden st' = q_hidden st.
Proof.
  intros o choice NH. induction n as [|n IH]; intros b st st' E; cbn [surfaces] in E;
    pose proof (NH st) as H; destruct (choice st) as [k hid]; cbn [snd] in H; subst hid;
    destruct (pick b k (q_pending st)) as [[s r]|]; try discriminate; try (injection E as <-; auto).
  apply IH in E. rewrite E. cbn [render_waiting q_hidden]. rewrite surface_hidden. auto.
Qed.
Lemma nothing_hidden : forall o choice n m scene st, (forall st, snd (choice st) = false) ->
  render_scene o choice n m scene = Some st -> q_hidden st = [].
Proof.
  intros o choice n m scene st NH E. unfold render_scene in E.
  assert (H : forall m b st0, all_buckets o choice n m b st0 = Some st -> q_hidden st = q_hidden st0).
  { clear E m. induction m as [|m IH]; intros b st0 E; cbn [all_buckets] in E; [discriminate|].
    unfold process in E. destruct (surfaces o choice n b (render_waiting b st0)) as [st1|] eqn:E1; [|discriminate].
    cbn [bind] in E. apply surfaces_hidden in E1; [|auto]. cbn [render_waiting q_hidden] in E1.
    destruct (next_bucket o b) as [b'|].
    - apply IH in E. rewrite E. cbn [q_hidden render_waiting]. auto.
    - injection E as <-. cbn [q_hidden render_waiting]. auto. }
  apply H in E. rewrite E, posts_hidden. reflexivity.
Qed.

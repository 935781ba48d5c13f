From Coq Require Import ZArith QArith Qround List Bool Lia Arith FinFun.
From Verif Require Import BucketModel BucketSpec.
Import ListNotations.
Local Open Scope Z_scope.

(* ---- lists of positions ---- *)
Lemma zrange_in : forall a b i, In i (zrange a b) <-> a <= i < b.
Proof.
  intros. unfold zrange. rewrite in_map_iff. split.
  - intros (k & E & I). apply in_seq in I. lia.
  - intros H. exists (Z.to_nat (i - a)). rewrite in_seq. lia.
Qed.
Lemma zrange_nodup : forall a b, NoDup (zrange a b).
Proof.
  intros. unfold zrange. apply Injective_map_NoDup; [intros x y; lia | apply seq_NoDup].
Qed.
Definition inr (r : region) (c : Z * Z) : Prop := rx0 r <= fst c < rx1 r /\ ry0 r <= snd c < ry1 r.
Lemma cells_in : forall r c, In c (cells r) <-> inr r c.
Proof.
  intros r [x y]. unfold cells, inr. rewrite in_flat_map. cbn [fst snd]. split.
  - intros (y' & I & J). apply in_map_iff in J. destruct J as (x' & E & J).
    injection E as -> ->. rewrite zrange_in in I, J. lia.
  - intros [A B]. exists y. rewrite zrange_in. split; [lia|]. apply in_map_iff. exists x.
    rewrite zrange_in. auto.
Qed.
Lemma NoDup_flat_map {A B} (f : A -> list B) l :
  NoDup l -> (forall a, In a l -> NoDup (f a)) ->
  (forall a b x, In a l -> In b l -> In x (f a) -> In x (f b) -> a = b) -> NoDup (flat_map f l).
Proof.
  induction l as [|a l IH]; intros N F D; cbn [flat_map]; [constructor|].
  inversion N; subst.
  assert (G : NoDup (flat_map f l)).
  { apply IH; auto.
    - intros b I. apply F. right; auto.
    - intros a0 b x I J. apply D; right; auto. }
  assert (Fa : NoDup (f a)) by (apply F; left; auto).
  clear IH. revert Fa. generalize (fun x => D a x).
  assert (Q : forall x, In x (f a) -> ~ In x (flat_map f l)).
  { intros x I J. apply in_flat_map in J. destruct J as (b & J & K).
    assert (a = b) by (apply (D a b x); auto; [left; auto | right; auto]). subst. contradiction. }
  intros _ Fa. revert Q Fa. generalize (f a). clear - G. induction l0 as [|x l0 IH]; intros Q N; cbn; auto.
  inversion N; subst. constructor.
  - rewrite in_app_iff. intros [I|I]; [contradiction|]. apply (Q x); [left; auto | auto].
  - apply IH; auto. intros y I. apply Q. right; auto.
Qed.
Lemma NoDup_app2 {A} (l1 l2 : list A) :
  NoDup l1 -> NoDup l2 -> (forall x, In x l1 -> ~ In x l2) -> NoDup (l1 ++ l2).
Proof.
  induction l1 as [|x l1 IH]; intros N1 N2 D; cbn [app]; auto. inversion N1; subst. constructor.
  - rewrite in_app_iff. intros [J|J]; [contradiction|]. apply (D x); [left; auto | auto].
  - apply IH; auto. intros y J. apply D. right; auto.
Qed.
Lemma cells_nodup : forall r, NoDup (cells r).
Proof.
  intros. unfold cells. apply NoDup_flat_map.
  - apply zrange_nodup.
  - intros. apply Injective_map_NoDup; [intros x y E; congruence | apply zrange_nodup].
  - intros a b x _ _ I J. apply in_map_iff in I, J. destruct I as (? & <- & _). destruct J as (? & E & _).
    congruence.
Qed.

Lemma foldM_app {A B} (f : A -> B -> option A) l1 l2 a :
  foldM f (l1 ++ l2) a = bind (foldM f l1 a) (foldM f l2).
Proof.
  revert a. induction l1 as [|b l1 IH]; intros; cbn [foldM app bind]; auto.
  destruct (f a b); cbn [bind]; auto.
Qed.

Lemma bpos_eqb_eq : forall a b, bpos_eqb a b = true <-> a = b.
Proof.
  intros [a1 a2] [b1 b2]. unfold bpos_eqb. cbn [fst snd]. rewrite andb_true_iff, !Z.eqb_eq.
  split; [intros [-> ->]; auto | intros E; inversion E; auto].
Qed.
Lemma bpos_eqb_refl : forall a, bpos_eqb a a = true.
Proof. intros. apply bpos_eqb_eq. auto. Qed.
Lemma bpos_eqb_neq : forall a b, a <> b -> bpos_eqb a b = false.
Proof. intros a b N. destruct (bpos_eqb a b) eqn:E; auto. apply bpos_eqb_eq in E. contradiction. Qed.
Lemma side_eqb_eq : forall a b, side_eqb a b = true <-> a = b.
Proof. intros [] []; cbn; split; congruence. Qed.

Section Proofs.
Variable o : options.
Hypothesis SENS : sensible o.
Hypothesis LARGE : large_buckets o.

Notation sx := (shiftx o).
Notation sy := (shifty o).
Notation dw := (data_w o).
Notation dh := (data_h o).

Lemma q_half_nonneg : forall q, (0 <= q)%Q -> 0 <= Qfloor (q / 2).
Proof.
  intros q H. change 0 with (Qfloor 0). apply Qfloor_resp_le.
  apply Qle_shift_div_l; [reflexivity|]. rewrite Qmult_0_l. exact H.
Qed.
Lemma sx_nonneg : 0 <= sx.
Proof. apply q_half_nonneg. apply SENS. Qed.
Lemma sy_nonneg : 0 <= sy.
Proof. apply q_half_nonneg. apply SENS. Qed.
Lemma bx_pos : 1 <= o_bx o. Proof. apply SENS. Qed.
Lemma by_pos : 1 <= o_by o. Proof. apply SENS. Qed.
Lemma lx : 2 * sx <= o_bx o. Proof. apply LARGE. Qed.
Lemma ly : 2 * sy <= o_by o. Proof. apply LARGE. Qed.

Ltac facts := pose proof sx_nonneg; pose proof sy_nonneg; pose proof bx_pos; pose proof by_pos;
  pose proof lx; pose proof ly.

Definition dom (i : Z) : Prop := 0 <= i < dw * dh.
Definition data : region := Region 0 0 dw dh.
Definition idx (c : Z * Z) : Z := snd c * dw + fst c.

Lemma idx_dom : forall c, inr data c -> dom (idx c).
Proof.
  intros [x y] [A B]. unfold dom, idx, data in *. cbn [fst snd rx0 rx1 ry0 ry1] in *. nia.
Qed.
Lemma idx_inj : forall c c', inr data c -> inr data c' -> idx c = idx c' -> c = c'.
Proof.
  intros [x y] [x' y'] [A B] [A' B'] E. unfold idx, data in *. cbn [fst snd rx0 rx1 ry0 ry1] in *.
  assert (y = y') by nia. subst. f_equal. lia.
Qed.
Lemma dom_idx : forall i, dom i -> exists c, inr data c /\ idx c = i.
Proof.
  intros i H. unfold dom in H. facts. assert (0 < dw) by (unfold data_w; lia).
  exists (i mod dw, i / dw). unfold inr, idx, data. cbn [fst snd rx0 rx1 ry0 ry1].
  pose proof (Z.mod_pos_bound i dw). pose proof (Z.div_mod i dw).
  repeat split; try lia.
  - apply Z.div_pos; lia.
  - apply Z.div_lt_upper_bound; lia.
Qed.
Lemma dom_b : forall i, dom i -> (0 <=? i) && (i <? dw * dh) = true.
Proof. intros i H. unfold dom in H. rewrite andb_true_iff, Z.leb_le, Z.ltb_lt. auto. Qed.

Lemma cache_in_data : forall sd c, inr (cache_region o sd) c -> inr data c.
Proof.
  intros sd [x y] [A B]. facts. unfold data, data_w, data_h, inr in *.
  destruct sd; cbn [cache_region rx0 rx1 ry0 ry1 fst snd] in *; lia.
Qed.
Lemma cache_area : forall sd, 0 <= rwidth (cache_region o sd) /\ 0 <= rheight (cache_region o sd).
Proof.
  intros sd. facts. unfold rwidth, rheight.
  destruct sd; cbn [cache_region rx0 rx1 ry0 ry1]; lia.
Qed.
Lemma cache_disjoint : forall s1 s2 c, inr (cache_region o s1) c -> inr (cache_region o s2) c -> s1 = s2.
Proof.
  intros s1 s2 [x y] [A B] [C D]. facts.
  destruct s1, s2; cbn [cache_region rx0 rx1 ry0 ry1 fst snd] in *; auto; lia.
Qed.

(* index inside a segment *)
Definition kk (r : region) (c : Z * Z) : Z := (snd c - ry0 r) * rwidth r + (fst c - rx0 r).
Lemma kk_range : forall r c, inr r c -> 0 <= kk r c < rarea r.
Proof.
  intros r [x y] [A B]. unfold kk, rarea, rwidth, rheight. cbn [fst snd] in *. nia.
Qed.
Lemma kk_inj : forall r c c', inr r c -> inr r c' -> kk r c = kk r c' -> c = c'.
Proof.
  intros r [x y] [x' y'] [A B] [A' B'] E. unfold kk, rwidth in *. cbn [fst snd] in *.
  assert (y = y') by nia. subst. f_equal. lia.
Qed.
Lemma kk_onto : forall r k, 0 <= rwidth r -> 0 <= rheight r -> 0 <= k < rarea r ->
  exists c, inr r c /\ kk r c = k.
Proof.
  intros r k W H K. unfold rarea in K. assert (0 < rwidth r) by nia.
  exists (k mod rwidth r + rx0 r, k / rwidth r + ry0 r). unfold inr, kk. cbn [fst snd].
  pose proof (Z.mod_pos_bound k (rwidth r)). pose proof (Z.div_mod k (rwidth r)).
  assert (0 <= k / rwidth r) by (apply Z.div_pos; lia).
  assert (k / rwidth r < rheight r) by (apply Z.div_lt_upper_bound; lia).
  unfold rwidth, rheight in *. repeat split; lia.
Qed.

(* ---- the loops over elements ---- *)
Lemma modify_cells : forall (ix : Z * Z -> Z) (f : Z * Z -> pixel -> pixel) l s,
  NoDup l -> (forall c, In c l -> dom (ix c)) ->
  (forall c c', In c l -> In c' l -> s_slots s (ix c) = s_slots s (ix c') -> c = c') ->
  exists h, foldM (fun s c => modify o (ix c) (f c) s) l s = Some (set_heap h s) /\
    (forall c, In c l -> h (s_slots s (ix c)) = f c (s_heap s (s_slots s (ix c)))) /\
    (forall i, (forall c, In c l -> s_slots s (ix c) <> i) -> h i = s_heap s i).
Proof.
  intros ix f l. induction l as [|c l IH]; intros s N D U.
  - exists (s_heap s). cbn [foldM]. destruct s; cbn. repeat split; auto. intros c [].
  - inversion N; subst. cbn [foldM]. unfold modify at 1, slot at 1.
    rewrite dom_b by (apply D; left; auto). cbn [bind].
    set (s1 := set_heap _ s).
    destruct (IH s1) as (h & E & A & B); auto.
    { intros c' I. apply D. right; auto. }
    { intros c' c'' I J. apply U; right; auto. }
    exists h. split; [exact E|].
    assert (NE : forall c', In c' l -> s_slots s (ix c') <> s_slots s (ix c)).
    { intros c' I Q. apply U in Q; [subst; contradiction | right; auto | left; auto]. }
    split.
    + intros c' [<-|I].
      * rewrite B by (intros c' I; apply NE; auto). cbn. rewrite Nat.eqb_refl. auto.
      * change (s_slots s (ix c')) with (s_slots s1 (ix c')). rewrite A by auto. f_equal. cbn.
        rewrite (proj2 (Nat.eqb_neq _ _)) by (apply NE; auto). auto.
    + intros i H. rewrite B by (intros c' I; apply H; right; auto). cbn.
      rewrite (proj2 (Nat.eqb_neq _ _)); auto. intros Q. apply (H c); [left; auto | auto].
Qed.

Lemma set_valid_valid : forall a b s, set_valid a (set_valid b s) = set_valid a s.
Proof. reflexivity. Qed.
Lemma set_valid_same : forall s, set_valid (s_valid s) s = s.
Proof. intros []; reflexivity. Qed.
Lemma set_heap_same : forall s, set_heap (s_heap s) s = s.
Proof. intros []; reflexivity. Qed.
Lemma set_slots_same : forall s, set_slots (s_slots s) s = s.
Proof. intros []; reflexivity. Qed.

Lemma render_cells : forall (ix : Z * Z -> Z) (f : pixel -> pixel) l s,
  NoDup l -> (forall c, In c l -> dom (ix c)) ->
  (forall c c', In c l -> In c' l -> s_slots s (ix c) = s_slots s (ix c') -> c = c') ->
  exists h v, foldM (fun s c => bind (modify o (ix c) f s) (fun s => Some (set_valid true s))) l s
              = Some (set_valid v (set_heap h s)) /\
    (forall c, In c l -> h (s_slots s (ix c)) = f (s_heap s (s_slots s (ix c)))) /\
    (forall i, (forall c, In c l -> s_slots s (ix c) <> i) -> h i = s_heap s i) /\
    (v = false -> l = [] /\ s_valid s = false).
Proof.
  intros ix f l. induction l as [|c l IH]; intros s N D U.
  - exists (s_heap s), (s_valid s). cbn [foldM]. destruct s; cbn. repeat split; auto. intros c [].
  - inversion N; subst. cbn [foldM]. unfold modify at 1, slot at 1.
    rewrite dom_b by (apply D; left; auto). cbn [bind].
    set (s1 := set_valid true _).
    destruct (IH s1) as (h & v & E & A & B & C); auto.
    { intros c' I. apply D. right; auto. }
    { intros c' c'' I J. apply U; right; auto. }
    exists h, v. split; [exact E|].
    assert (NE : forall c', In c' l -> s_slots s (ix c') <> s_slots s (ix c)).
    { intros c' I Q. apply U in Q; [subst; contradiction | right; auto | left; auto]. }
    split; [|split].
    + intros c' [<-|I].
      * rewrite B by (intros c' I; apply NE; auto). cbn. rewrite Nat.eqb_refl. auto.
      * change (s_slots s (ix c')) with (s_slots s1 (ix c')). rewrite A by auto. f_equal. cbn.
        rewrite (proj2 (Nat.eqb_neq _ _)) by (apply NE; auto). auto.
    + intros i H. rewrite B by (intros c' I; apply H; right; auto). cbn.
      rewrite (proj2 (Nat.eqb_neq _ _)); auto. intros Q. apply (H c); [left; auto | auto].
    + intros V. destruct (C V) as [_ X]. discriminate.
Qed.

(* ---- putting a segment in place ---- *)
Lemma apply_cells : forall r g l s,
  NoDup l -> (forall c, In c l -> inr data c /\ inr r c) -> g_size g = rarea r ->
  exists a v,
    foldM (fun (s : state) (c : Z * Z) =>
           let '(x, y) := c in
           let which := y * dw + x in
           let k := (y - ry0 r) * rwidth r + (x - rx0 r) in
           if (0 <=? k) && (k <? g_size g) then
             do s <- put_slot o which (g_data g k) s;
             Some (set_valid (s_valid s || p_valid (s_heap s (g_data g k))) s)
           else None) l s = Some (set_valid v (set_slots a s)) /\
    (forall c, In c l -> a (idx c) = g_data g (kk r c)) /\
    (forall i, (forall c, In c l -> idx c <> i) -> a i = s_slots s i) /\
    (v = false -> s_valid s = false /\ forall c, In c l -> p_valid (s_heap s (g_data g (kk r c))) = false).
Proof.
  intros r g l. induction l as [|c l IH]; intros s N D G.
  - exists (s_slots s), (s_valid s). cbn [foldM]. destruct s; cbn. repeat split; auto; intros c [].
  - inversion N; subst. cbn [foldM]. destruct c as [x y].
    destruct (D (x, y)) as [D1 D2]; [left; auto|].
    pose proof (kk_range _ _ D2) as K. unfold kk in K. cbn [fst snd] in K.
    rewrite G. replace (_ && _) with true
      by (symmetry; rewrite andb_true_iff, Z.leb_le, Z.ltb_lt; lia).
    unfold put_slot at 1. pose proof (idx_dom _ D1) as DD. unfold idx in DD. cbn [fst snd] in DD.
    rewrite dom_b by auto. cbn [bind].
    set (s1 := set_valid _ _).
    destruct (IH s1) as (a & v & E & A & B & C); auto.
    { intros c I. apply D. right; auto. }
    exists a, v. rewrite G in E. split; [exact E|].
    assert (NE : forall c', In c' l -> idx c' <> idx (x, y)).
    { intros c' I Q. apply idx_inj in Q; [subst; contradiction | apply D; right; auto | auto]. }
    split; [|split].
    + intros c' [<-|I]; auto.
      rewrite B by auto. unfold s1, idx, kk. cbn [s_slots set_valid set_slots fst snd].
      rewrite Z.eqb_refl. auto.
    + intros i HH. rewrite B by (intros c' I; apply HH; right; auto). unfold s1. cbn [s_slots set_valid set_slots].
      rewrite (proj2 (Z.eqb_neq _ _)); auto. intros Q. apply (HH (x, y)); [left; auto | auto].
    + intros V. destruct (C V) as [X Y]. unfold s1 in X. cbn [s_valid set_valid set_slots] in X.
      apply orb_false_iff in X. destruct X as [X1 X2]. split; [exact X1|].
      intros c' [<-|I]; [exact X2 | apply Y; auto].
Qed.

(* ---- giving a segment away and dropping one: the slots get new elements ---- *)
(* relative to a state [s5]: the slots in [F] have new elements, nothing else has changed *)
Definition refreshed (s5 s : state) (F : Z -> Prop) : Prop :=
  (s_next s5 <= s_next s)%nat /\
  (forall i, (i < s_next s5)%nat -> s_heap s i = s_heap s5 i) /\
  (forall i, dom i -> ~ F i -> s_slots s i = s_slots s5 i) /\
  (forall i, dom i -> F i -> (s_next s5 <= s_slots s i < s_next s)%nat) /\
  (forall i j, dom i -> dom j -> F i -> F j -> s_slots s i = s_slots s j -> i = j).

Definition add_cells (F : Z -> Prop) (l : list (Z * Z)) (i : Z) : Prop := F i \/ exists c, In c l /\ idx c = i.

(* nothing but the heap, the counter and the slots differ *)
Definition same_rest (s s' : state) : Prop :=
  s_segs s' = s_segs s /\ s_done s' = s_done s /\ s_valid s' = s_valid s /\ s_out s' = s_out s.
Lemma same_rest_trans : forall a b c, same_rest a b -> same_rest b c -> same_rest a c.
Proof. unfold same_rest. intros a b c (A & B & C & D) (A' & B' & C' & D'). repeat split; congruence. Qed.

Lemma refresh_one : forall s5 s F c,
  refreshed s5 s F -> inr data c ->
  exists s', put_slot o (idx c) (fst (alloc s)) (snd (alloc s)) = Some s' /\
    refreshed s5 s' (add_cells F [c]) /\ same_rest s s' /\
    (forall i, i <> idx c -> s_slots s' i = s_slots s i).
Proof.
  intros s5 s F c (R1 & R2 & R3 & R4 & R5) D.
  pose proof (idx_dom _ D) as DD. unfold put_slot. rewrite dom_b by auto.
  eexists. split; [reflexivity|]. unfold alloc. cbn [fst snd].
  split; [|split].
  - repeat split; cbn [set_slots s_next s_heap s_slots].
    + lia.
    + intros i I. rewrite (proj2 (Nat.eqb_neq _ _)) by lia. auto.
    + intros i I NF. assert (i <> idx c).
      { intros ->. apply NF. right. exists c. split; [left; auto | auto]. }
      rewrite (proj2 (Z.eqb_neq _ _)) by auto. apply R3; auto. intros F'. apply NF. left; auto.
    + destruct (Z.eqb_spec i (idx c)); [lia|].
      destruct H0 as [F'|(c' & [<-|[]] & Q)]; [apply R4; auto | congruence].
    + destruct (Z.eqb_spec i (idx c)); [lia|].
      destruct H0 as [F'|(c' & [<-|[]] & Q)]; [pose proof (R4 i H F'); lia | congruence].
    + intros i j I J FI FJ. destruct (Z.eqb_spec i (idx c)), (Z.eqb_spec j (idx c)); try congruence.
      * destruct FJ as [F'|(c' & [<-|[]] & Q)]; [pose proof (R4 j J F'); lia | congruence].
      * destruct FI as [F'|(c' & [<-|[]] & Q)]; [pose proof (R4 i I F'); lia | congruence].
      * destruct FI as [F'|(c' & [<-|[]] & Q)]; [|congruence].
        destruct FJ as [F''|(c' & [<-|[]] & Q)]; [|congruence]. apply R5; auto.
  - repeat split.
  - intros i N. cbn [set_slots s_slots]. rewrite (proj2 (Z.eqb_neq _ _)) by auto. auto.
Qed.

Lemma refreshed_ext : forall s5 s F G, (forall i, F i <-> G i) -> refreshed s5 s F -> refreshed s5 s G.
Proof.
  intros s5 s F G E (R1 & R2 & R3 & R4 & R5). repeat split; auto.
  - intros i D N. apply R3; auto. rewrite E. auto.
  - apply R4; auto. apply E; auto.
  - apply R4; auto. apply E; auto.
  - intros i j D D' A B. apply R5; auto; apply E; auto.
Qed.

Lemma drop_cells : forall s5 l s F,
  refreshed s5 s F -> (forall c, In c l -> inr data c) ->
  exists s', foldM (fun (s : state) (c : Z * Z) =>
           let '(x, y) := c in
           let '(n, s) := alloc s in
           put_slot o (y * dw + x) n s) l s = Some s' /\
    refreshed s5 s' (add_cells F l) /\ same_rest s s'.
Proof.
  intros s5 l. induction l as [|c l IH]; intros s F R D.
  - exists s. split; [reflexivity|]. split; [|repeat split].
    eapply refreshed_ext; [|exact R]. intros i. unfold add_cells. split; [auto|].
    intros [A|(c & [] & _)]; auto.
  - destruct (refresh_one s5 s F c R) as (s1 & E & R1 & S1 & _); [apply D; left; auto|].
    destruct (IH s1 (add_cells F [c]) R1) as (s2 & E2 & R2 & S2); [intros c' I; apply D; right; auto|].
    exists s2. cbn [foldM]. destruct c as [x y]. unfold idx in E. cbn [fst snd alloc] in E.
    cbn [alloc]. rewrite E. cbn [bind]. split; [exact E2|].
    split; [|eapply same_rest_trans; eauto].
    eapply refreshed_ext; [|exact R2]. intros i. unfold add_cells. split.
    + intros [[A|(c & [<-|[]] & Q)]|(c & I & Q)]; auto; right; [exists (x, y) | exists c]; cbn; auto.
    + intros [A|(c & [<-|I] & Q)]; auto; [left; right; exists (x, y); cbn; auto | right; eauto].
Qed.

Lemma build_cells : forall s5 r l s F g,
  refreshed s5 s F -> NoDup l -> (forall c, In c l -> inr data c /\ inr r c) -> g_size g = rarea r ->
  exists g' s', foldM (fun (a : segment * state) (c : Z * Z) =>
           let '(g, s) := a in
           let '(x, y) := c in
           let which := y * dw + x in
           let k := (y - ry0 r) * rwidth r + (x - rx0 r) in
           do id <- slot o which s;
           if (0 <=? k) && (k <? g_size g) then
             let g := Segment (g_size g) (fun j => if j =? k then id else g_data g j) in
             let '(n, s) := alloc s in
             do s <- put_slot o which n s;
             Some (g, s)
           else None) l (g, s) = Some (g', s') /\
    refreshed s5 s' (add_cells F l) /\ same_rest s s' /\ g_size g' = g_size g /\
    (forall c, In c l -> g_data g' (kk r c) = s_slots s (idx c)) /\
    (forall k, (forall c, In c l -> kk r c <> k) -> g_data g' k = g_data g k).
Proof.
  intros s5 r l. induction l as [|c l IH]; intros s F g R N D G.
  - exists g, s. split; [reflexivity|]. split; [|repeat split; auto; intros c []].
    eapply refreshed_ext; [|exact R]. intros i. unfold add_cells. split; [auto|].
    intros [A|(c & [] & _)]; auto.
  - inversion N; subst. destruct (D c) as [D1 D2]; [left; auto|].
    destruct (refresh_one s5 s F c R D1) as (s1 & E & R1 & S1 & SL).
    destruct (IH s1 (add_cells F [c])
       (Segment (g_size g) (fun j => if j =? kk r c then s_slots s (idx c) else g_data g j)) R1)
       as (g2 & s2 & E2 & R2 & S2 & Z2 & DA & DB); auto; [intros c' I; apply D; right; auto|].
    exists g2, s2. cbn [foldM]. pose proof (idx_dom _ D1) as DD. pose proof (kk_range _ _ D2) as K.
    destruct c as [x y]. unfold idx in E, E2, DD. unfold kk in K, E2.
    cbn [fst snd alloc] in E, E2, DD, K.
    unfold slot at 1. rewrite dom_b by auto. cbn [bind].
    replace (_ && _) with true
      by (symmetry; rewrite andb_true_iff, Z.leb_le, Z.ltb_lt; lia).
    cbn [alloc]. rewrite E. cbn [bind]. split; [exact E2|].
    split; [|split; [|split; [|split]]].
    + eapply refreshed_ext; [|exact R2]. intros i. unfold add_cells. split.
      * intros [[A|(c & [<-|[]] & Q)]|(c & I & Q)]; auto; right; [exists (x, y) | exists c]; cbn; auto.
      * intros [A|(c & [<-|I] & Q)]; auto; [left; right; exists (x, y); cbn; auto | right; eauto].
    + eapply same_rest_trans; eauto.
    + rewrite Z2. reflexivity.
    + intros c' [<-|I].
      * rewrite DB.
        -- cbn [g_data]. rewrite Z.eqb_refl. auto.
        -- intros c' I Q. apply kk_inj in Q; [subst; contradiction | apply D; right; auto | auto].
      * rewrite DA by auto. apply SL. intros Q.
        apply idx_inj in Q; [subst; contradiction | apply D; right; auto | auto].
    + intros k HK. rewrite DB by (intros c' I; apply HK; right; auto). cbn [g_data].
      rewrite (proj2 (Z.eqb_neq _ _)); auto. intros Q. apply (HK (x, y)); [left; auto | auto].
Qed.

Definition reg_idx (sd : side) (i : Z) : Prop := exists c, inr (cache_region o sd) c /\ idx c = i.

Lemma build_spec : forall s5 sd s F,
  refreshed s5 s F ->
  exists g s', build_segment o sd s = Some (g, s') /\
    refreshed s5 s' (fun i => F i \/ reg_idx sd i) /\ same_rest s s' /\
    g_size g = rarea (cache_region o sd) /\
    (forall c, inr (cache_region o sd) c -> g_data g (kk (cache_region o sd) c) = s_slots s (idx c)).
Proof.
  intros s5 sd s F R. unfold build_segment.
  destruct (cache_area sd) as [W HH].
  rewrite (proj2 (Z.ltb_ge _ _)) by (unfold rarea; nia).
  destruct (build_cells s5 (cache_region o sd) (cells (cache_region o sd)) s F
     (Segment (rarea (cache_region o sd)) (fun _ => O)) R) as (g & s' & E & R' & S' & Z' & DA & _).
  - apply cells_nodup.
  - intros c I. apply cells_in in I. split; [eapply cache_in_data; eauto | auto].
  - reflexivity.
  - exists g, s'. split; [exact E|]. split; [|split; [|split]]; auto.
    + eapply refreshed_ext; [|exact R']. intros i. unfold add_cells, reg_idx. split.
      * intros [A|(c & I & Q)]; auto. right. exists c. rewrite <- cells_in. auto.
      * intros [A|(c & I & Q)]; auto. right. exists c. rewrite cells_in. auto.
    + intros c I. apply DA. apply cells_in. auto.
Qed.

Lemma drop_spec : forall s5 sd s F,
  refreshed s5 s F ->
  exists s', drop_segment o sd s = Some s' /\
    refreshed s5 s' (fun i => F i \/ reg_idx sd i) /\ same_rest s s'.
Proof.
  intros s5 sd s F R. unfold drop_segment.
  destruct (drop_cells s5 (cells (cache_region o sd)) s F R) as (s' & E & R' & S').
  - intros c I. apply cells_in in I. eapply cache_in_data; eauto.
  - exists s'. split; [exact E|]. split; auto.
    eapply refreshed_ext; [|exact R']. intros i. unfold add_cells, reg_idx. split.
    + intros [A|(c & I & Q)]; auto. right. exists c. rewrite <- cells_in. auto.
    + intros [A|(c & I & Q)]; auto. right. exists c. rewrite cells_in. auto.
Qed.


(* ---- positions ---- *)
Definition glob (b : bpos) (c : Z * Z) : Z * Z :=
  (bucket_x o b - sx + fst c, bucket_y o b - sy + snd c).
Definition loc (b : bpos) (p : Z * Z) : Z * Z :=
  (fst p - bucket_x o b + sx, snd p - bucket_y o b + sy).
Lemma loc_glob : forall b c, loc b (glob b c) = c.
Proof. intros b [x y]. unfold loc, glob. cbn [fst snd]. f_equal; lia. Qed.
Lemma glob_loc : forall b p, glob b (loc b p) = p.
Proof. intros b [x y]. unfold loc, glob. cbn [fst snd]. f_equal; lia. Qed.
Lemma element_idx : forall b x y, element o b x y = idx (loc b (x, y)).
Proof. intros. unfold element, idx, loc. cbn [fst snd]. reflexivity. Qed.
Lemma loc_inj : forall b p q, loc b p = loc b q -> p = q.
Proof. intros b p q E. rewrite <- (glob_loc b p), E. apply glob_loc. Qed.

(* the positions any pixel of the crop window needs *)
Definition ext (p : Z * Z) : Prop :=
  o_cx0 o - sx <= fst p < o_cx1 o + sx /\ o_cy0 o - sy <= snd p < o_cy1 o + sy.

Lemma quot_div : forall a b, 0 <= a -> 1 <= b -> Z.quot a b = a / b.
Proof. intros. apply Z.quot_div_nonneg; lia. Qed.
Lemma bregion_eq : bregion o = Region (o_cx0 o / o_bx o) (o_cy0 o / o_by o)
                                      ((o_cx1 o - 1) / o_bx o + 1) ((o_cy1 o - 1) / o_by o + 1).
Proof. unfold bregion. destruct SENS as (A & B & _ & _ & C & D & E & F). rewrite !quot_div by lia. auto. Qed.
Lemma cxb_eq : cxb o = (o_xres o - 1) / o_bx o + 1.
Proof. unfold cxb. destruct SENS as (A & B & _ & _ & C & D & E & F). rewrite quot_div by lia. auto. Qed.
Lemma cyb_eq : cyb o = (o_yres o - 1) / o_by o + 1.
Proof. unfold cyb. destruct SENS as (A & B & _ & _ & C & D & E & F). rewrite quot_div by lia. auto. Qed.

Definition in_region (b : bpos) : Prop := inr (bregion o) b.

(* all that is used about the region of buckets *)
Lemma region_bounds : 
  rx0 (bregion o) * o_bx o <= o_cx0 o < (rx0 (bregion o) + 1) * o_bx o /\
  ry0 (bregion o) * o_by o <= o_cy0 o < (ry0 (bregion o) + 1) * o_by o /\
  (rx1 (bregion o) - 1) * o_bx o < o_cx1 o <= rx1 (bregion o) * o_bx o /\
  (ry1 (bregion o) - 1) * o_by o < o_cy1 o <= ry1 (bregion o) * o_by o /\
  0 <= rx0 (bregion o) < rx1 (bregion o) /\ 0 <= ry0 (bregion o) < ry1 (bregion o) /\
  rx1 (bregion o) <= cxb o /\ ry1 (bregion o) <= cyb o.
Proof.
  rewrite bregion_eq, cxb_eq, cyb_eq. cbn [rx0 rx1 ry0 ry1].
  destruct SENS as (A & B & _ & _ & C & D & E & F).
  pose proof (Z.div_mod (o_cx0 o) (o_bx o)). pose proof (Z.mod_pos_bound (o_cx0 o) (o_bx o)).
  pose proof (Z.div_mod (o_cy0 o) (o_by o)). pose proof (Z.mod_pos_bound (o_cy0 o) (o_by o)).
  pose proof (Z.div_mod (o_cx1 o - 1) (o_bx o)). pose proof (Z.mod_pos_bound (o_cx1 o - 1) (o_bx o)).
  pose proof (Z.div_mod (o_cy1 o - 1) (o_by o)). pose proof (Z.mod_pos_bound (o_cy1 o - 1) (o_by o)).
  assert (0 <= o_cx0 o / o_bx o) by (apply Z.div_pos; lia).
  assert (0 <= o_cy0 o / o_by o) by (apply Z.div_pos; lia).
  assert (o_cx0 o / o_bx o <= (o_cx1 o - 1) / o_bx o) by (apply Z.div_le_mono; lia).
  assert (o_cy0 o / o_by o <= (o_cy1 o - 1) / o_by o) by (apply Z.div_le_mono; lia).
  assert ((o_cx1 o - 1) / o_bx o <= (o_xres o - 1) / o_bx o) by (apply Z.div_le_mono; lia).
  assert ((o_cy1 o - 1) / o_by o <= (o_yres o - 1) / o_by o) by (apply Z.div_le_mono; lia).
  repeat split; lia.
Qed.
Lemma region_grid : forall b, in_region b -> on_grid o b = true.
Proof.
  intros [c r] [A B]. pose proof region_bounds as (_ & _ & _ & _ & X & Y & Z1 & Z2). unfold on_grid. cbn [fst snd] in *.
  rewrite !andb_true_iff, !Z.leb_le, !Z.ltb_lt. lia.
Qed.

(* the bucket whose turn it is to sample a position *)
Definition owner (p : Z * Z) : bpos :=
  (Z.max (rx0 (bregion o)) (Z.min (rx1 (bregion o) - 1) ((fst p - sx) / o_bx o)),
   Z.max (ry0 (bregion o)) (Z.min (ry1 (bregion o) - 1) ((snd p - sy) / o_by o))).

Lemma owner_one : forall lo hi c s bs x,
  lo <= c < hi -> 1 <= bs -> (lo < c -> c * bs + s <= x) -> (c < hi - 1 -> x < c * bs + bs + s) ->
  Z.max lo (Z.min (hi - 1) ((x - s) / bs)) = c.
Proof.
  intros. assert (lo < c -> c <= (x - s) / bs).
  { intros L. apply Z.div_le_lower_bound; [lia|]. specialize (H1 L). lia. }
  assert (c < hi - 1 -> (x - s) / bs <= c).
  { intros L. assert ((x - s) / bs < c + 1); [|lia]. apply Z.div_lt_upper_bound; [lia|]. specialize (H2 L). lia. }
  lia.
Qed.

Section Render.
Variable mps : bpos -> list mpoly.

Definition some_hit (l : list mpoly) : bool := match l with [] => false | _ => true end.
Definition final (p : Z * Z) : pixel :=
  let hs := filter (touches p) (mps (owner p)) in Pixel (Some p) hs 1 (some_hit hs).

(* ---- the invariant between two buckets ---- *)
Definition pres (P : bpos -> bool) (b : bpos) (sd : side) : bool :=
  let '(c, r) := b in
  match sd with
  | SLeft => P (c - 1, r)
  | SRight => P (c + 1, r)
  | STop => P (c, r - 1)
  | SBottom => P (c, r + 1)
  | STopLeft => P (c - 1, r) || P (c, r - 1)
  | STopRight => P (c + 1, r) || P (c, r - 1)
  | SBottomLeft => P (c - 1, r) || P (c, r + 1)
  | SBottomRight => P (c + 1, r) || P (c, r + 1)
  end.

Definition uniq (s : state) : Prop :=
  forall i j, dom i -> dom j -> s_slots s i = s_slots s j -> i = j.
Definition low (s : state) : Prop := forall i, dom i -> (s_slots s i < s_next s)%nat.
Definition apart (s : state) : Prop := forall b sd g k,
  s_segs s b sd = Some g -> 0 <= k < g_size g ->
  (g_data g k < s_next s)%nat /\ forall i, dom i -> s_slots s i <> g_data g k.
Definition seg_ok (h : nat -> pixel) (b : bpos) (sd : side) (g : segment) : Prop :=
  g_size g = rarea (cache_region o sd) /\
  forall c, inr (cache_region o sd) c -> ext (glob b c) ->
    h (g_data g (kk (cache_region o sd) c)) = final (glob b c).

Record inv (P : bpos -> bool) (s : state) : Prop := {
  i_uniq : uniq s;
  i_low : low s;
  i_apart : apart s;
  i_segs : forall b sd g, s_segs s b sd = Some g -> seg_ok (s_heap s) b sd g;
  i_pres : forall b sd, on_grid o b = true -> P b = false -> has_segment b sd s = pres P b sd;
  i_done : forall b, s_done s b = P b
}.

(* the buckets before b in the order of the loop *)
Definition before (b : bpos) (b' : bpos) : bool :=
  (rx0 (bregion o) <=? fst b') && (fst b' <? rx1 (bregion o)) && (ry0 (bregion o) <=? snd b') &&
  ((snd b' <? snd b) || ((snd b' =? snd b) && (fst b' <? fst b))).

Lemma before_iff : forall b b', before b b' = true <->
  rx0 (bregion o) <= fst b' < rx1 (bregion o) /\ ry0 (bregion o) <= snd b' /\
  (snd b' < snd b \/ (snd b' = snd b /\ fst b' < fst b)).
Proof.
  intros. unfold before. rewrite !andb_true_iff, orb_true_iff, andb_true_iff, !Z.leb_le, !Z.ltb_lt, Z.eqb_eq. lia.
Qed.
Lemma before_false : forall b b', before b b' = false <->
  ~ (rx0 (bregion o) <= fst b' < rx1 (bregion o) /\ ry0 (bregion o) <= snd b' /\
  (snd b' < snd b \/ (snd b' = snd b /\ fst b' < fst b))).
Proof. intros. rewrite <- before_iff. destruct (before b b'); split; congruence. Qed.

Lemma pres_current : forall b sd, in_region b ->
  pres (before b) b sd =
  match sd with
  | SLeft | SBottomLeft => rx0 (bregion o) <? fst b
  | STop | STopRight => ry0 (bregion o) <? snd b
  | STopLeft => (rx0 (bregion o) <? fst b) || (ry0 (bregion o) <? snd b)
  | _ => false
  end.
Proof.
  intros [c r] sd [A B]. cbn [fst snd] in *.
  apply eq_true_iff_eq.
  destruct sd; unfold pres; rewrite ?orb_true_iff, ?before_iff, ?Z.ltb_lt; cbn [fst snd];
  (split; intros H; try discriminate; lia).
Qed.
Lemma not_before_self : forall b, before b b = false.
Proof. intros [c r]. apply before_false. cbn [fst snd]. lia. Qed.

(* the part of the data region the current bucket samples *)
Definition sregion (b : bpos) : region :=
  Region (if rx0 (bregion o) <? fst b then bucket_x o b + sx else Z.max (bucket_x o b - sx) (o_cx0 o - sx))
         (if ry0 (bregion o) <? snd b then bucket_y o b + sy else Z.max (bucket_y o b - sy) (o_cy0 o - sy))
         (Z.min (bucket_x o b + bucket_w o b + sx) (o_cx1 o + sx))
         (Z.min (bucket_y o b + bucket_h o b + sy) (o_cy1 o + sy)).

Lemma sample_region_eq : forall b s, in_region b -> inv (before b) s -> sample_region o b s = sregion b.
Proof.
  intros b s R I.
  assert (PR : forall sd, has_segment b sd s = pres (before b) b sd).
  { intros sd. apply (i_pres _ _ I); [apply region_grid; auto | apply not_before_self]. }
  unfold sample_region, sregion. rewrite !PR, !pres_current by auto.
  pose proof region_bounds as (X0 & Y0 & X1 & Y1 & _). unfold bucket_x, bucket_y. facts.
  destruct b as [c r]. destruct R as [A B]. cbn [fst snd] in *.
  f_equal.
  - destruct (Z.ltb_spec (rx0 (bregion o)) c); [|reflexivity].
    assert (o_cx0 o < c * o_bx o) by nia. lia.
  - destruct (Z.ltb_spec (ry0 (bregion o)) r); [|reflexivity].
    assert (o_cy0 o < r * o_by o) by nia. lia.
Qed.

Lemma bucket_size : forall b, bucket_w o b <= o_bx o /\ bucket_h o b <= o_by o.
Proof. intros. unfold bucket_w, bucket_h. lia. Qed.

Lemma sregion_data : forall b p, inr (sregion b) p -> inr data (loc b p).
Proof.
  intros b [x y] [A B]. unfold sregion in *. cbn [rx0 rx1 ry0 ry1 fst snd] in *.
  pose proof (bucket_size b). facts.
  unfold inr, data, loc, data_w, data_h. cbn [rx0 rx1 ry0 ry1 fst snd].
  destruct (rx0 (bregion o) <? fst b), (ry0 (bregion o) <? snd b); lia.
Qed.
Lemma sregion_owner : forall b p, in_region b -> inr (sregion b) p -> owner p = b.
Proof.
  intros [c r] [x y] [A B] [C D]. unfold sregion, bucket_x, bucket_y, bucket_w, bucket_h in *. cbn [rx0 rx1 ry0 ry1 fst snd] in *.
  unfold bucket_x, bucket_y in *. cbn [fst snd] in *.
  unfold owner. cbn [fst snd]. facts. f_equal; apply owner_one; try lia.
  - intros L. rewrite (proj2 (Z.ltb_lt _ _) L) in C. lia.
  - intros L. rewrite (proj2 (Z.ltb_lt _ _) L) in D. lia.
Qed.
(* a cell of the data region is sampled, or in a segment which was handed over, or not needed *)
Lemma covered : forall b c, in_region b -> inr data c -> ext (glob b c) ->
  inr (sregion b) (glob b c) \/
  exists sd, pres (before b) b sd = true /\ inr (cache_region o sd) c.
Proof.
  intros b [x y] R D X. pose proof region_bounds as (X0 & Y0 & X1 & Y1 & _ & _ & G1 & G2). facts.
  assert (XR : o_cx1 o <= o_xres o /\ o_cy1 o <= o_yres o) by (split; apply SENS).
  destruct b as [c r]. pose proof R as [A B].
  unfold ext, glob, inr, data, data_w, data_h in *. cbn [rx0 rx1 ry0 ry1 fst snd] in *.
  destruct (Z.ltb_spec (rx0 (bregion o)) c) as [LC|LC];
  [destruct (Z.lt_ge_cases x (2 * sx)) as [LX|LX]|].
  - right. destruct (Z.lt_ge_cases y (2 * sy)) as [L1|L1];
      [|destruct (Z.lt_ge_cases y (o_by o)) as [L2|L2]];
    [exists STopLeft | exists SLeft | exists SBottomLeft]; rewrite pres_current by auto; cbn [fst];
    rewrite (proj2 (Z.ltb_lt _ _) LC); (split; [reflexivity|]);
    cbn [cache_region rx0 rx1 ry0 ry1]; lia.
  - destruct (Z.ltb_spec (ry0 (bregion o)) r) as [LR|LR];
    [destruct (Z.lt_ge_cases y (2 * sy)) as [LY|LY]|].
    + right. destruct (Z.lt_ge_cases x (o_bx o)) as [L2|L2];
      [exists STop | exists STopRight]; rewrite pres_current by auto; cbn [snd];
      rewrite (proj2 (Z.ltb_lt _ _) LR); (split; [reflexivity|]);
      cbn [cache_region rx0 rx1 ry0 ry1]; lia.
    + left. unfold sregion, bucket_w, bucket_h, bucket_x, bucket_y in *. cbn [rx0 rx1 ry0 ry1 fst snd] in *.
      rewrite (proj2 (Z.ltb_lt _ _) LC), (proj2 (Z.ltb_lt _ _) LR).
      assert (c * o_bx o - sx + x < o_xres o + sx) by lia.
      assert (r * o_by o - sy + y < o_yres o + sy) by lia. lia.
    + left. unfold sregion, bucket_w, bucket_h, bucket_x, bucket_y in *. cbn [rx0 rx1 ry0 ry1 fst snd] in *.
      rewrite (proj2 (Z.ltb_lt _ _) LC), (proj2 (Z.ltb_ge _ _) LR).
      lia.
  - destruct (Z.ltb_spec (ry0 (bregion o)) r) as [LR|LR];
    [destruct (Z.lt_ge_cases y (2 * sy)) as [LY|LY]|].
    + right. destruct (Z.lt_ge_cases x (2 * sx)) as [L1|L1];
      [|destruct (Z.lt_ge_cases x (o_bx o)) as [L2|L2]];
      [exists STopLeft | exists STop | exists STopRight]; rewrite pres_current by auto; cbn [fst snd];
      rewrite (proj2 (Z.ltb_lt _ _) LR), ?orb_true_r; (split; [reflexivity|]);
      cbn [cache_region rx0 rx1 ry0 ry1]; lia.
    + left. unfold sregion, bucket_w, bucket_h, bucket_x, bucket_y in *. cbn [rx0 rx1 ry0 ry1 fst snd] in *.
      rewrite (proj2 (Z.ltb_ge _ _) LC), (proj2 (Z.ltb_lt _ _) LR). lia.
    + left. unfold sregion, bucket_w, bucket_h, bucket_x, bucket_y in *. cbn [rx0 rx1 ry0 ry1 fst snd] in *.
      rewrite (proj2 (Z.ltb_ge _ _) LC), (proj2 (Z.ltb_ge _ _) LR). lia.
Qed.
(* what is sampled does not overlap with what is handed over *)
Lemma sampled_not_handed : forall b p sd, in_region b -> inr (sregion b) p ->
  pres (before b) b sd = true -> ~ inr (cache_region o sd) (loc b p).
Proof.
  intros b [x y] sd R [C D] PR [E F]. rewrite pres_current in PR by auto. facts.
  unfold sregion, loc in *. cbn [rx0 rx1 ry0 ry1 fst snd] in *.
  pose proof region_bounds as (X0 & Y0 & _).
  destruct sd; cbn [cache_region rx0 rx1 ry0 ry1] in *; try discriminate;
  try (rewrite PR in *; lia).
  apply orb_true_iff in PR. destruct PR as [PR|PR]; rewrite PR in *; lia.
Qed.

(* ---- sampling a bucket ---- *)
Lemma qfloor_le : forall (q : Q) (z : Z), Qfloor q <= z <-> ~ (inject_Z (z + 1) <= q)%Q.
Proof.
  intros q z. split.
  - intros L H. apply Qfloor_resp_le in H. rewrite Qfloor_Z in H. lia.
  - intros H. destruct (Z.le_gt_cases (Qfloor q) z) as [L|L]; auto. exfalso. apply H.
    apply Qle_trans with (inject_Z (Qfloor q)); [|apply Qfloor_le].
    rewrite <- Zle_Qle. lia.
Qed.
Lemma lt_qceiling : forall (q : Q) (z : Z), z < Qceiling q <-> ~ (q <= inject_Z z)%Q.
Proof.
  intros q z. split.
  - intros L H. apply Qceiling_resp_le in H. rewrite Qceiling_Z in H. lia.
  - intros H. destruct (Z.lt_ge_cases z (Qceiling q)) as [L|L]; auto. exfalso. apply H.
    apply Qle_trans with (inject_Z (Qceiling q)); [apply Qle_ceiling|].
    rewrite <- Zle_Qle. lia.
Qed.
Lemma touches_box : forall p m, touches p m = true <->
  (Qfloor (m_x0 m) <= fst p < Qceiling (m_x1 m) /\ Qfloor (m_y0 m) <= snd p < Qceiling (m_y1 m)).
Proof.
  intros p m. unfold touches. rewrite !andb_true_iff, !negb_true_iff.
  assert (B : forall a b, Qle_bool a b = false <-> ~ (a <= b)%Q).
  { intros a b. rewrite <- Qle_bool_iff. destruct (Qle_bool a b); split; congruence. }
  rewrite !B, !qfloor_le, !lt_qceiling. tauto.
Qed.

Lemma render_ms : forall b ms s,
  (forall p q, inr (sregion b) p -> inr (sregion b) q ->
     s_slots s (idx (loc b p)) = s_slots s (idx (loc b q)) -> p = q) ->
  exists h v, foldM (render_mp o b (sregion b)) ms s = Some (set_valid v (set_heap h s)) /\
    (forall p, inr (sregion b) p ->
       let e := s_heap s (s_slots s (idx (loc b p))) in
       h (s_slots s (idx (loc b p))) =
       Pixel (p_pos e) (p_hits e ++ filter (touches p) ms) (p_comb e)
             (p_valid e || some_hit (filter (touches p) ms))) /\
    (forall i, (forall p, inr (sregion b) p -> s_slots s (idx (loc b p)) <> i) -> h i = s_heap s i) /\
    (v = false -> s_valid s = false /\ forall p, inr (sregion b) p -> filter (touches p) ms = []).
Proof.
  intros b ms. induction ms as [|m ms IH]; intros s U.
  - exists (s_heap s), (s_valid s). cbn [foldM filter]. split; [destruct s; reflexivity|].
    split; [|auto]. intros p I. rewrite app_nil_r, orb_false_r. destruct (s_heap s _); reflexivity.
  - cbn [foldM].
    destruct (render_cells (fun c => element o b (fst c) (snd c))
       (fun p => Pixel (p_pos p) (p_hits p ++ [m]) (p_comb p) true)
       (cells (Region (Z.max (Qfloor (m_x0 m)) (rx0 (sregion b))) (Z.max (Qfloor (m_y0 m)) (ry0 (sregion b)))
                      (Z.min (Qceiling (m_x1 m)) (rx1 (sregion b))) (Z.min (Qceiling (m_y1 m)) (ry1 (sregion b))))) s)
      as (h & v & E & A & B & C).
    { apply cells_nodup. }
    { intros [x y] I. apply cells_in in I. cbn [fst snd]. rewrite element_idx. apply idx_dom.
      apply sregion_data. unfold inr in *. cbn [rx0 rx1 ry0 ry1 fst snd] in *. lia. }
    { intros [x y] [x' y'] I J. apply cells_in in I, J. cbn [fst snd]. rewrite !element_idx.
      apply U; unfold inr in *; cbn [rx0 rx1 ry0 ry1 fst snd] in *; lia. }
    unfold render_mp at 1. rewrite E. cbn [bind].
    set (box := cells _) in *.
    assert (BOX : forall p, inr (sregion b) p -> (In p box <-> touches p m = true)).
    { intros p I. unfold box. rewrite cells_in, touches_box. unfold inr in *. cbn [rx0 rx1 ry0 ry1] in *. lia. }
    assert (BOX2 : forall p, In p box -> inr (sregion b) p).
    { intros p I. unfold box in I. apply cells_in in I. unfold inr in *. cbn [rx0 rx1 ry0 ry1] in *. lia. }
    destruct (IH (set_valid v (set_heap h s))) as (h2 & v2 & E2 & A2 & B2 & C2); [exact U|].
    exists h2, v2. split; [exact E2|]. cbn [s_heap s_slots s_valid set_valid set_heap] in *.
    assert (HP : forall p, inr (sregion b) p ->
       h (s_slots s (idx (loc b p))) = if touches p m
         then (fun e => Pixel (p_pos e) (p_hits e ++ [m]) (p_comb e) true) (s_heap s (s_slots s (idx (loc b p))))
         else s_heap s (s_slots s (idx (loc b p)))).
    { intros p I. destruct (touches p m) eqn:T.
      - specialize (A p). rewrite element_idx in A. destruct p as [x y]. cbn [fst snd] in A. apply A.
        apply BOX; auto.
      - apply B. intros [x y] J Q. cbn [fst snd] in Q. rewrite element_idx in Q.
        apply U in Q; auto. subst. apply BOX in J; auto. congruence. }
    split; [|split].
    + intros p I. rewrite A2 by auto. rewrite HP by auto. cbn [filter].
      destruct (touches p m); cbn [p_pos p_hits p_comb p_valid].
      * rewrite <- app_assoc. cbn [app some_hit]. rewrite orb_true_r. reflexivity.
      * reflexivity.
    + intros i H. rewrite B2 by auto. apply B. intros [x y] I. cbn [fst snd]. rewrite element_idx. apply H. apply BOX2; auto.
    + intros V. destruct (C2 V) as [V1 N1]. cbn in V1. destruct (C V1) as [NB V0]. split; auto.
      intros p I. cbn [filter]. destruct (touches p m) eqn:T; [|apply N1; auto].
      apply (BOX p I) in T. rewrite NB in T. destruct T.
Qed.

Lemma apply_side : forall sd g s, g_size g = rarea (cache_region o sd) ->
  exists a v, apply_segment o sd g s = Some (set_valid v (set_slots a s)) /\
    (forall c, inr (cache_region o sd) c -> a (idx c) = g_data g (kk (cache_region o sd) c)) /\
    (forall c, inr data c -> ~ inr (cache_region o sd) c -> a (idx c) = s_slots s (idx c)) /\
    (v = false -> s_valid s = false /\
       forall c, inr (cache_region o sd) c -> p_valid (s_heap s (g_data g (kk (cache_region o sd) c))) = false).
Proof.
  intros sd g s G. unfold apply_segment.
  destruct (apply_cells (cache_region o sd) g (cells (cache_region o sd)) s) as (a & v & E & A & B & C).
  - apply cells_nodup.
  - intros c I. apply cells_in in I. split; [eapply cache_in_data; eauto | auto].
  - auto.
  - exists a, v. split; [exact E|]. split; [|split].
    + intros c I. apply A. apply cells_in. auto.
    + intros c I N. apply B. intros c' J Q. apply cells_in in J. apply idx_inj in Q; auto.
      * subst. contradiction.
      * eapply cache_in_data; eauto.
    + intros V. destruct (C V) as [X Y]. split; auto. intros c I. apply Y. apply cells_in. auto.
Qed.

Lemma apply_all : forall b l s, NoDup l ->
  (forall sd g, s_segs s b sd = Some g -> g_size g = rarea (cache_region o sd)) ->
  exists a v, foldM (fun (s : state) (sd : side) =>
           match s_segs s b sd with
           | Some g => apply_segment o sd g s
           | None => Some s
           end) l s = Some (set_valid v (set_slots a s)) /\
    (forall sd g c, In sd l -> s_segs s b sd = Some g -> inr (cache_region o sd) c ->
       a (idx c) = g_data g (kk (cache_region o sd) c)) /\
    (forall c, inr data c -> (forall sd, In sd l -> s_segs s b sd <> None -> ~ inr (cache_region o sd) c) ->
       a (idx c) = s_slots s (idx c)) /\
    (v = false -> s_valid s = false /\
       forall sd g c, In sd l -> s_segs s b sd = Some g -> inr (cache_region o sd) c ->
         p_valid (s_heap s (g_data g (kk (cache_region o sd) c))) = false).
Proof.
  intros b l. induction l as [|sd l IH]; intros s N G.
  - exists (s_slots s), (s_valid s). cbn [foldM]. split; [destruct s; reflexivity|].
    split; [intros sd g c []|]. split; [auto|]. intros V. split; auto. intros sd g c [].
  - inversion N; subst. cbn [foldM]. destruct (s_segs s b sd) as [g|] eqn:SG.
    + destruct (apply_side sd g s) as (a1 & v1 & E1 & A1 & B1 & C1); [apply G; auto|].
      rewrite E1. cbn [bind].
      destruct (IH (set_valid v1 (set_slots a1 s))) as (a & v & E & A & B & C); auto.
      exists a, v. split; [exact E|]. cbn [s_segs s_slots s_heap s_valid set_valid set_slots] in *.
      split; [|split].
      * intros sd' g' c [<-|I] S' R'.
        -- rewrite SG in S'. injection S' as <-. rewrite <- A1 by auto. apply B.
           ++ eapply cache_in_data; eauto.
           ++ intros sd' I' _ R''. assert (sd = sd') by (eapply cache_disjoint; eauto). subst. contradiction.
        -- apply A; auto.
      * intros c D NC. rewrite B; auto.
        -- apply B1; auto. apply NC; [left; auto | congruence].
        -- intros sd' I'. apply NC. right; auto.
      * intros V. destruct (C V) as [V1 Y]. cbn in V1. destruct (C1 V1) as [V0 Y0]. split; auto.
        intros sd' g' c [<-|I] S' R'.
        -- rewrite SG in S'. injection S' as <-. apply Y0; auto.
        -- eapply Y; eauto.
    + cbn [bind]. destruct (IH s) as (a & v & E & A & B & C); auto.
      exists a, v. split; [exact E|]. split; [|split].
      * intros sd' g' c [<-|I] S' R'; [congruence | apply A; auto].
      * intros c D NC. apply B; auto. intros sd' I'. apply NC. right; auto.
      * intros V. destruct (C V) as [V0 Y]. split; auto.
        intros sd' g' c [<-|I] S' R'; [congruence | eapply Y; eauto].
Qed.

Definition sampled (b : bpos) (s : state) : option state :=
  let r := sample_region o b (set_valid false s) in
  do s <- set_samples o b r (set_valid false s);
  do s <- apply_cache o b s;
  do s <- foldM (render_mp o b r) (mps b) s;
  combine_elements o b r s.

Lemma all_applied : forall sd, In sd apply_sides.
Proof. intros []; cbn; auto 10. Qed.
Lemma apply_sides_nodup : NoDup apply_sides.
Proof. repeat (constructor; [cbn; intuition discriminate|]). constructor. Qed.

Lemma sampled_spec : forall b s, in_region b -> inv (before b) s ->
  exists h a v, sampled b s = Some (set_valid v (set_slots a (set_heap h s))) /\
    (forall c, inr data c -> ext (glob b c) -> h (a (idx c)) = final (glob b c)) /\
    (forall i, (forall c, inr data c -> s_slots s (idx c) <> i) -> h i = s_heap s i) /\
    (forall sd g c, s_segs s b sd = Some g -> inr (cache_region o sd) c ->
       a (idx c) = g_data g (kk (cache_region o sd) c)) /\
    (forall c, inr data c -> (forall sd, s_segs s b sd <> None -> ~ inr (cache_region o sd) c) ->
       a (idx c) = s_slots s (idx c)) /\
    (v = false -> forall c, inr data c -> ext (glob b c) -> p_hits (final (glob b c)) = []).
Proof.
  intros b s R I. unfold sampled.
  change (sample_region o b (set_valid false s)) with (sample_region o b s).
  rewrite sample_region_eq by auto.
  assert (U : forall p q, inr (sregion b) p -> inr (sregion b) q ->
     s_slots s (idx (loc b p)) = s_slots s (idx (loc b q)) -> p = q).
  { intros p q A B E. apply (i_uniq _ _ I) in E; try (apply idx_dom, sregion_data; auto).
    apply idx_inj in E; try (apply sregion_data; auto). apply loc_inj in E. auto. }
  assert (PR : forall sd, s_segs s b sd <> None -> pres (before b) b sd = true).
  { intros sd N. rewrite <- (i_pres _ _ I b sd); [|apply region_grid; auto | apply not_before_self].
    unfold has_segment. destruct (s_segs s b sd); congruence. }
  assert (PR2 : forall sd, pres (before b) b sd = true -> exists g, s_segs s b sd = Some g).
  { intros sd N. rewrite <- (i_pres _ _ I b sd) in N; [|apply region_grid; auto | apply not_before_self].
    unfold has_segment in N. destruct (s_segs s b sd); [eauto | discriminate]. }
  (* the samples are set *)
  destruct (modify_cells (fun c => element o b (fst c) (snd c)) (fun c _ => Pixel (Some c) [] 0 false)
             (cells (sregion b)) (set_valid false s)) as (h1 & E1 & A1 & B1).
  { apply cells_nodup. }
  { intros [x y] J. apply cells_in in J. cbn [fst snd]. rewrite element_idx. apply idx_dom, sregion_data; auto. }
  { intros [x y] [x' y'] J K. apply cells_in in J, K. cbn [fst snd]. rewrite !element_idx. apply U; auto. }
  unfold set_samples. rewrite E1. cbn [bind].
  (* the segments are put in place *)
  unfold apply_cache.
  destruct (apply_all b apply_sides (set_heap h1 (set_valid false s))) as (a & v2 & E2 & A2 & B2 & C2).
  { apply apply_sides_nodup. }
  { intros sd g SG. apply (i_segs _ _ I b sd g SG). }
  rewrite E2. cbn [bind]. cbn [s_segs s_slots s_heap s_valid set_valid set_slots set_heap] in *.
  assert (SAME : forall p, inr (sregion b) p -> a (idx (loc b p)) = s_slots s (idx (loc b p))).
  { intros p J. apply B2; [apply sregion_data; auto|]. intros sd _ SG. apply sampled_not_handed; auto. }
  (* the micropolygons are rendered *)
  destruct (render_ms b (mps b) (set_valid v2 (set_slots a (set_heap h1 (set_valid false s)))))
    as (h3 & v3 & E3 & A3 & B3 & C3).
  { cbn [s_slots set_valid set_slots set_heap]. intros p q J K. rewrite !SAME by auto. apply U; auto. }
  rewrite E3. cbn [bind]. cbn [s_segs s_slots s_heap s_valid set_valid set_slots set_heap] in *.
  (* and combined *)
  unfold combine_elements.
  destruct (modify_cells (fun c => element o b (fst c) (snd c))
             (fun c p => Pixel (p_pos p) (p_hits p) (S (p_comb p)) (p_valid p))
             (cells (sregion b)) (set_valid v3 (set_heap h3 (set_valid v2 (set_slots a (set_heap h1 (set_valid false s)))))))
     as (h4 & E4 & A4 & B4).
  { apply cells_nodup. }
  { intros [x y] J. apply cells_in in J. cbn [fst snd]. rewrite element_idx. apply idx_dom, sregion_data; auto. }
  { intros [x y] [x' y'] J K. apply cells_in in J, K. cbn [fst snd s_slots set_valid set_slots set_heap].
    rewrite !element_idx, !SAME by auto. apply U; auto. }
  rewrite E4. cbn [s_segs s_slots s_heap s_valid set_valid set_slots set_heap] in *.
  exists h4, a, v3.
  assert (FIN : forall p, inr (sregion b) p -> h4 (s_slots s (idx (loc b p))) = final p).
  { intros p J. rewrite <- SAME by auto. destruct p as [x y].
    specialize (A4 (x, y)). cbn [fst snd] in A4. rewrite element_idx in A4. rewrite A4 by (apply cells_in; auto).
    specialize (A3 (x, y) J). cbn zeta in A3. rewrite A3.
    specialize (A1 (x, y)). cbn [fst snd] in A1. rewrite element_idx in A1.
    rewrite SAME by auto. rewrite A1 by (apply cells_in; auto). cbn [p_pos p_hits p_comb p_valid app orb].
    unfold final. rewrite (sregion_owner b) by auto. reflexivity. }
  assert (OLD : forall i, (forall p, inr (sregion b) p -> s_slots s (idx (loc b p)) <> i) -> h4 i = s_heap s i).
  { intros i N. rewrite B4.
    2:{ intros [x y] J. apply cells_in in J. cbn [fst snd]. rewrite element_idx. rewrite SAME by auto. apply N; auto. }
    rewrite B3 by (intros p J; rewrite SAME by auto; apply N; auto).
    apply B1. intros [x y] J. apply cells_in in J. cbn [fst snd]. rewrite element_idx. apply N; auto. }
  assert (SEGID : forall sd g c, s_segs s b sd = Some g -> inr (cache_region o sd) c ->
      forall i, dom i -> s_slots s i <> g_data g (kk (cache_region o sd) c)).
  { intros sd g c SG RC. refine (proj2 (i_apart _ _ I b sd g _ SG _)).
    destruct (i_segs _ _ I b sd g SG) as [-> _]. apply kk_range; auto. }
  split; [reflexivity|]. split; [|split; [|split; [|split]]].
  - intros c D X. destruct (covered b c R D X) as [SR|(sd & PS & RC)].
    + pose proof (FIN _ SR) as F. rewrite loc_glob in F. rewrite <- F. f_equal.
      pose proof (SAME _ SR) as S'. rewrite loc_glob in S'. auto.
    + destruct (PR2 sd PS) as [g SG]. rewrite (A2 sd g c) by (auto using all_applied).
      rewrite OLD.
      * apply (i_segs _ _ I b sd g SG); auto.
      * intros p J. apply (SEGID sd g c SG RC). apply idx_dom, sregion_data; auto.
  - intros i N. apply OLD. intros p J. apply N. apply sregion_data; auto.
  - intros sd g c SG RC. apply A2; auto using all_applied.
  - intros c D N. apply B2; auto.
  - intros V c D X. destruct (C3 V) as [V2 N3]. destruct (C2 V2) as [_ N2].
    destruct (covered b c R D X) as [SR|(sd & PS & RC)].
    + unfold final. cbn [p_hits]. rewrite (sregion_owner b) by auto. apply N3; auto.
    + destruct (PR2 sd PS) as [g SG]. specialize (N2 sd g c (all_applied sd) SG RC).
      assert (Q : h1 (g_data g (kk (cache_region o sd) c)) = final (glob b c)).
      { rewrite B1.
        - apply (i_segs _ _ I b sd g SG); auto.
        - intros [x y] J. apply cells_in in J. cbn [fst snd]. rewrite element_idx.
          apply (SEGID sd g c SG RC). apply idx_dom, sregion_data; auto. }
      rewrite Q in N2. unfold final in *. cbn [p_valid p_hits] in *.
      destruct (filter _ _); [reflexivity | discriminate].
Qed.


(* ---- handing over to the neighbours ---- *)
Definition fits (b : bpos) (mine : side) (b' : bpos) (sd : side) : Prop :=
  let r := cache_region o mine in
  let r' := cache_region o sd in
  rx0 r + bucket_x o b = rx0 r' + bucket_x o b' /\ rx1 r + bucket_x o b = rx1 r' + bucket_x o b' /\
  ry0 r + bucket_y o b = ry0 r' + bucket_y o b' /\ ry1 r + bucket_y o b = ry1 r' + bucket_y o b'.
Lemma fits_area : forall b mine b' sd, fits b mine b' sd ->
  rarea (cache_region o mine) = rarea (cache_region o sd).
Proof. intros b mine b' sd (A & B & C & D). unfold rarea, rwidth, rheight. f_equal; lia. Qed.
Lemma fits_cell : forall b mine b' sd c, fits b mine b' sd -> inr (cache_region o sd) c ->
  exists c', inr (cache_region o mine) c' /\ glob b c' = glob b' c /\
             kk (cache_region o mine) c' = kk (cache_region o sd) c.
Proof.
  intros b mine b' sd [x y] (A & B & C & D) [I J]. cbn [fst snd] in *.
  exists (x + bucket_x o b' - bucket_x o b, y + bucket_y o b' - bucket_y o b).
  split; [unfold inr; cbn [fst snd]; lia|]. split; [unfold glob; cbn [fst snd]; f_equal; lia|].
  unfold kk, rwidth. cbn [fst snd]. f_equal; [f_equal; lia | lia].
Qed.

Definition good (s5 : state) (mine : side) (g : segment) : Prop :=
  g_size g = rarea (cache_region o mine) /\
  forall c, inr (cache_region o mine) c -> g_data g (kk (cache_region o mine) c) = s_slots s5 (idx c).
Definition taken (L : list side) (i : Z) : Prop := exists sd, In sd L /\ reg_idx sd i.

Record giv (b : bpos) (s5 s : state) (L : list side) (K : bpos -> side -> Prop) : Prop := {
  v_ref : refreshed s5 s (taken L);
  v_done : s_done s = s_done s5;
  v_out : s_out s = s_out s5;
  v_old : forall b' sd g, s_segs s5 b' sd = Some g -> s_segs s b' sd = Some g;
  v_new : forall b' sd g, s_segs s b' sd = Some g ->
            s_segs s5 b' sd = Some g \/
            (K b' sd /\ exists mine, In mine L /\ fits b mine b' sd /\ good s5 mine g);
  v_has : forall b' sd, K b' sd -> s_segs s b' sd <> None
}.
Definition corner_ok (s5 : state) (made : option segment) (mine : side) (L : list side) : Prop :=
  match made with
  | None => ~ In mine L
  | Some g => In mine L /\ good s5 mine g
  end.

Lemma not_taken : forall L mine c, ~ In mine L -> inr (cache_region o mine) c -> ~ taken L (idx c).
Proof.
  intros L mine c N I (sd & J & c' & I' & E).
  apply idx_inj in E; try (eapply cache_in_data; eauto). subst.
  assert (sd = mine) by (eapply cache_disjoint; eauto). subst. contradiction.
Qed.

Lemma build_giv : forall b s5 s L K mine, giv b s5 s L K -> ~ In mine L ->
  exists g s', build_segment o mine s = Some (g, s') /\ giv b s5 s' (mine :: L) K /\ good s5 mine g /\
    s_segs s' = s_segs s.
Proof.
  intros b s5 s L K mine V N.
  destruct (build_spec s5 mine s (taken L) (v_ref _ _ _ _ _ V)) as (g & s' & E & R & (S1 & S2 & S3 & S4) & Z & D).
  exists g, s'. split; [exact E|]. split; [|split]; auto.
  - constructor.
    + eapply refreshed_ext; [|exact R]. intros i. unfold taken. split.
      * intros [(sd & I & J)|I]; [exists sd; cbn; auto | exists mine; cbn; auto].
      * intros (sd & [<-|I] & J); [auto | left; exists sd; auto].
    + rewrite S2. apply V.
    + rewrite S4. apply V.
    + rewrite S1. apply V.
    + rewrite S1. intros b' sd g' SG. destruct (v_new _ _ _ _ _ V _ _ _ SG) as [A|(A & m & I & F & G)]; auto.
      right. split; auto. exists m. cbn. auto.
    + rewrite S1. apply V.
  - split; auto. intros c I. rewrite D by auto.
    destruct (v_ref _ _ _ _ _ V) as (_ & _ & R3 & _).
    apply R3; [apply idx_dom; eapply cache_in_data; eauto | eapply not_taken; eauto].
Qed.

Lemma set_giv : forall b s5 s L K mine nb theirs g, giv b s5 s L K ->
  In mine L -> good s5 mine g -> fits b mine nb theirs -> s_segs s nb theirs = None ->
  exists s', set_segment nb theirs g s = Some s' /\
    giv b s5 s' L (fun b' sd => K b' sd \/ (b' = nb /\ sd = theirs)).
Proof.
  intros b s5 s L K mine nb theirs g V I G F N. unfold set_segment. rewrite N.
  eexists. split; [reflexivity|].
  assert (LOOK : forall b' sd, (bpos_eqb b' nb && side_eqb sd theirs = true /\ b' = nb /\ sd = theirs) \/
                 (bpos_eqb b' nb && side_eqb sd theirs = false /\ ~ (b' = nb /\ sd = theirs))).
  { intros b' sd. destruct (bpos_eqb b' nb && side_eqb sd theirs) eqn:Q.
    - left. apply andb_true_iff in Q. rewrite bpos_eqb_eq, side_eqb_eq in Q. tauto.
    - right. split; auto. intros [-> ->]. rewrite bpos_eqb_refl in Q.
      rewrite (proj2 (side_eqb_eq _ _)) in Q; [discriminate | auto]. }
  constructor; cbn [s_segs s_done s_out set_segs]; try exact (v_ref _ _ _ _ _ V);
    try exact (v_done _ _ _ _ _ V); try exact (v_out _ _ _ _ _ V).
  - intros b' sd g' SG. destruct (LOOK b' sd) as [(-> & -> & ->)|(-> & _)].
    + apply (v_old _ _ _ _ _ V) in SG. congruence.
    + apply V; auto.
  - intros b' sd g'. destruct (LOOK b' sd) as [(-> & -> & ->)|(-> & NE)].
    + intros [= <-]. right. split; [auto|]. exists mine. auto.
    + intros SG. destruct (v_new _ _ _ _ _ V _ _ _ SG) as [A|(A & m & B)]; auto. right. split; eauto.
  - intros b' sd KK. destruct (LOOK b' sd) as [(-> & -> & ->)|(-> & NE)]; [congruence|].
    destruct KK as [KK|KK]; [apply V; auto | contradiction].
Qed.

Lemma corner_giv : forall b s5 s L K mine nb theirs made, giv b s5 s L K ->
  corner_ok s5 made mine L -> fits b mine nb theirs ->
  exists made' s' L', give_corner o mine nb theirs made s = Some (made', s') /\
    giv b s5 s' L' (fun b' sd => K b' sd \/ (b' = nb /\ sd = theirs)) /\
    corner_ok s5 made' mine L' /\
    (forall sd, sd <> mine -> (In sd L' <-> In sd L)).
Proof.
  intros b s5 s L K mine nb theirs made V C F. unfold give_corner, has_segment.
  destruct (s_segs s nb theirs) as [g0|] eqn:SG.
  - exists made, s, L. split; [reflexivity|]. split; [|split; [auto | tauto]].
    destruct V as [V1 V2 V3 V4 V5 V6]. constructor; auto.
    + intros b' sd g G. destruct (V5 _ _ _ G) as [A|(A & B)]; auto.
    + intros b' sd [KK|[-> ->]]; [auto | congruence].
  - destruct made as [g|].
    + cbn [bind]. destruct C as [I G].
      destruct (set_giv b s5 s L K mine nb theirs g V I G F SG) as (s' & E & V').
      rewrite E. cbn [bind]. exists (Some g), s', L. split; [reflexivity|]. split; [auto|].
      split; [split; auto | tauto].
    + cbn in C. destruct (build_giv b s5 s L K mine V C) as (g & s1 & E1 & V1 & G & SS).
      rewrite E1. cbn [bind].
      destruct (set_giv b s5 s1 (mine :: L) K mine nb theirs g V1) as (s' & E & V'); auto.
      { left; auto. } { congruence. }
      rewrite E. cbn [bind]. exists (Some g), s', (mine :: L). split; [reflexivity|]. split; [auto|].
      split; [split; cbn; auto|]. intros sd NE. cbn. split; [intros [<-|A]; [congruence|auto] | auto].
Qed.

Definition open (s5 : state) (nb : bpos) : Prop := on_grid o nb = true /\ s_done s5 nb = false.

Lemma side_giv : forall b s5 s L K nb mine theirs c1 t1 c2 t2 m1 m2, giv b s5 s L K ->
  ~ In mine L -> corner_ok s5 m1 c1 L -> corner_ok s5 m2 c2 L ->
  mine <> c1 -> mine <> c2 -> c1 <> c2 ->
  fits b mine nb theirs -> fits b c1 nb t1 -> fits b c2 nb t2 ->
  (open s5 nb -> s_segs s nb theirs = None) ->
  exists m1' m2' s' L', give_side o nb mine theirs c1 t1 c2 t2 m1 m2 s = Some (m1', m2', s') /\
    giv b s5 s' L' (fun b' sd => K b' sd \/ (open s5 nb /\ b' = nb /\ (sd = theirs \/ sd = t1 \/ sd = t2))) /\
    corner_ok s5 m1' c1 L' /\ corner_ok s5 m2' c2 L' /\
    (forall sd, sd <> mine -> sd <> c1 -> sd <> c2 -> (In sd L' <-> In sd L)).
Proof.
  intros b s5 s L K nb mine theirs c1 t1 c2 t2 m1 m2 V N C1 C2 D1 D2 D3 F F1 F2 FREE.
  unfold give_side. rewrite (v_done _ _ _ _ _ V).
  destruct (on_grid o nb && negb (s_done s5 nb)) eqn:OP.
  - apply andb_true_iff in OP. rewrite negb_true_iff in OP. pose proof (OP : open s5 nb) as OPN.
    destruct (build_giv b s5 s L K mine V N) as (g & s1 & E1 & V1 & G & SS).
    rewrite E1. cbn [bind].
    destruct (set_giv b s5 s1 (mine :: L) K mine nb theirs g V1) as (s2 & E2 & V2); auto.
    { left; auto. } { rewrite SS. auto. }
    rewrite E2. cbn [bind].
    destruct (corner_giv b s5 s2 (mine :: L) _ c1 nb t1 m1 V2) as (m1' & s3 & L3 & E3 & V3 & C3 & L3'); auto.
    { destruct m1; cbn in *; [tauto|]. intros [Q|Q]; [congruence | contradiction]. }
    rewrite E3. cbn [bind].
    destruct (corner_giv b s5 s3 L3 _ c2 nb t2 m2 V3) as (m2' & s4 & L4 & E4 & V4 & C4 & L4'); auto.
    { destruct m2; cbn in *.
      - rewrite L3' by auto. cbn. tauto.
      - rewrite L3' by auto. cbn. intros [Q|Q]; [congruence | contradiction]. }
    rewrite E4. cbn [bind]. exists m1', m2', s4, L4. split; [reflexivity|]. split; [|split; [|split]]; auto.
    + destruct V4 as [W1 W2 W3 W4 W5 W6]. constructor; auto.
      * intros b' sd g' SG. destruct (W5 _ _ _ SG) as [A|(A & B)]; auto. right. split; auto.
        destruct A as [[[A|[-> ->]]|[-> ->]]|[-> ->]]; auto 8.
      * intros b' sd A. apply W6. destruct A as [A|(_ & -> & [->|[->| ->]])]; auto 8.
    + destruct m1' as [g1|]; cbn in *.
      * rewrite L4' by auto. auto.
      * rewrite L4' by auto. auto.
    + intros sd A B C. rewrite L4', L3' by auto. cbn. split; [intros [Q|Q]; [congruence | auto] | auto].
  - exists m1, m2, s, L. split; [reflexivity|]. split; [|split; [|split]]; auto; [|tauto].
    destruct V as [W1 W2 W3 W4 W5 W6]. constructor; auto.
    + intros b' sd g' SG. destruct (W5 _ _ _ SG) as [A|(A & B)]; auto.
    + intros b' sd [A|([O1 O2] & _)]; auto. rewrite O1, O2 in OP. discriminate.
Qed.

Definition given (s5 : state) (b b' : bpos) (sd : side) : Prop :=
  let '(c, r) := b in
  open s5 b' /\
  ((b' = (c - 1, r) /\ (sd = SRight \/ sd = STopRight \/ sd = SBottomRight)) \/
   (b' = (c + 1, r) /\ (sd = SLeft \/ sd = STopLeft \/ sd = SBottomLeft)) \/
   (b' = (c, r - 1) /\ (sd = SBottom \/ sd = SBottomLeft \/ sd = SBottomRight)) \/
   (b' = (c, r + 1) /\ (sd = STop \/ sd = STopLeft \/ sd = STopRight))).

Ltac fit := unfold fits, bucket_x, bucket_y; cbn [cache_region rx0 rx1 ry0 ry1 fst snd]; lia.

Lemma give_spec : forall b s5,
  (forall b' sd, open s5 b' -> has_segment b' sd s5 = pres (before b) b' sd) ->
  exists s' L, give_cache o b s5 = Some s' /\ giv b s5 s' L (given s5 b).
Proof.
  intros [c r] s5 PRES.
  assert (FREE : forall b' sd, open s5 b' -> pres (before (c, r)) b' sd = false -> s_segs s5 b' sd = None).
  { intros b' sd OP Q. rewrite <- PRES in Q by auto. unfold has_segment in Q. destruct (s_segs s5 b' sd); congruence. }
  assert (LATER : forall s L K b' sd, giv (c, r) s5 s L K -> s_segs s5 b' sd = None -> ~ K b' sd -> s_segs s b' sd = None).
  { intros s L K b' sd V A B. destruct (s_segs s b' sd) as [g|] eqn:SG; auto.
    destruct (v_new _ _ _ _ _ V _ _ _ SG) as [Q|[Q _]]; [congruence | contradiction]. }
  unfold give_cache.
  assert (V0 : giv (c, r) s5 s5 [] (fun _ _ => False)).
  { constructor; auto.
    assert (NT : forall i, ~ taken [] i) by (intros i (sd & [] & _)).
    split; [lia|]. split; [auto|]. split; [auto|].
    split; intros i; [intros _ T | intros j _ _ T]; elim (NT _ T). }
  edestruct (side_giv (c, r) s5 s5 [] _ (c - 1, r) SLeft SRight STopLeft STopRight SBottomLeft SBottomRight None None V0)
    as (tl & bl & s1 & L1 & E1 & V1 & CTL1 & CBL1 & N1); try fit; try congruence; try (cbn; tauto).
  { intros OP. apply FREE; auto. cbn [pres]. apply before_false. cbn [fst snd]. lia. }
  rewrite E1. cbn [bind].
  edestruct (side_giv (c, r) s5 s1 L1 _ (c + 1, r) SRight SLeft STopRight STopLeft SBottomRight SBottomLeft None None V1)
    as (tr & br & s2 & L2 & E2 & V2 & CTR2 & CBR2 & N2); try fit; try congruence.
  { rewrite N1 by congruence. cbn. tauto. }
  { cbn. rewrite N1 by congruence. cbn. tauto. }
  { cbn. rewrite N1 by congruence. cbn. tauto. }
  { intros OP. eapply LATER; [exact V1 | |].
    - apply FREE; auto. cbn [pres]. apply before_false. cbn [fst snd]. lia.
    - intros [[]|(_ & Q & _)]. injection Q. lia. }
  rewrite E2. cbn [bind].
  assert (CTL2 : corner_ok s5 tl STopLeft L2).
  { destruct tl; cbn in *; rewrite N2 by congruence; auto. }
  assert (CBL2 : corner_ok s5 bl SBottomLeft L2).
  { destruct bl; cbn in *; rewrite N2 by congruence; auto. }
  edestruct (side_giv (c, r) s5 s2 L2 _ (c, r - 1) STop SBottom STopLeft SBottomLeft STopRight SBottomRight tl tr V2)
    as (tl3 & tr3 & s3 & L3 & E3 & V3 & _ & _ & N3); try fit; try congruence; auto.
  { rewrite N2, N1 by congruence. cbn. tauto. }
  { intros OP. eapply LATER; [exact V2 | |].
    - apply FREE; auto. cbn [pres]. apply before_false. cbn [fst snd]. lia.
    - intros [[[]|(_ & Q & _)]|(_ & Q & _)]; injection Q; lia. }
  rewrite E3. cbn [bind].
  assert (CBL3 : corner_ok s5 bl SBottomLeft L3).
  { destruct bl; cbn in *; rewrite N3 by congruence; auto. }
  assert (CBR3 : corner_ok s5 br SBottomRight L3).
  { destruct br; cbn in *; rewrite N3 by congruence; auto. }
  edestruct (side_giv (c, r) s5 s3 L3 _ (c, r + 1) SBottom STop SBottomLeft STopLeft SBottomRight STopRight bl br V3)
    as (bl4 & br4 & s4 & L4 & E4 & V4 & _ & _ & N4); try fit; try congruence; auto.
  { rewrite N3, N2, N1 by congruence. cbn. tauto. }
  { intros OP. eapply LATER; [exact V3 | |].
    - apply FREE; auto. cbn [pres]. apply before_false. cbn [fst snd]. lia.
    - intros [[[[]|(_ & Q & _)]|(_ & Q & _)]|(_ & Q & _)]; injection Q; lia. }
  rewrite E4. cbn [bind]. exists s4, L4. split; [reflexivity|].
  destruct V4 as [W1 W2 W3 W4 W5 W6]. constructor; auto.
  - intros b' sd g SG. destruct (W5 _ _ _ SG) as [A|(A & B)]; auto. right. split; auto.
    unfold given. destruct A as [[[[[]|(P1 & -> & P3)]|(P1 & -> & P3)]|(P1 & -> & P3)]|(P1 & -> & P3)]; split; tauto.
  - intros b' sd G. apply W6. unfold given in G. destruct G as (OP & [[-> G]|[[-> G]|[[-> G]|[-> G]]]]); tauto.
Qed.

(* ---- dropping the own segments ---- *)
Lemma drop_list : forall b s5 l s (F : Z -> Prop), refreshed s5 s F ->
  exists s', foldM (fun (s : state) (sd : side) =>
                   if has_segment b sd s then drop_segment o sd s else Some s) l s = Some s' /\
    same_rest s s' /\
    refreshed s5 s' (fun i => F i \/ exists sd, In sd l /\ has_segment b sd s = true /\ reg_idx sd i).
Proof.
  intros b s5 l. induction l as [|sd l IH]; intros s F R.
  - exists s. split; [reflexivity|]. split; [repeat split|]. eapply refreshed_ext; [|exact R].
    intros i. split; [auto|]. intros [A|(sd & [] & _)]; auto.
  - cbn [foldM]. destruct (has_segment b sd s) eqn:HS.
    + destruct (drop_spec s5 sd s F R) as (s1 & E1 & R1 & S1).
      rewrite E1. cbn [bind]. destruct (IH s1 _ R1) as (s2 & E2 & S2 & R2).
      exists s2. split; [exact E2|]. split; [eapply same_rest_trans; eauto|].
      assert (HH : forall sd, has_segment b sd s1 = has_segment b sd s).
      { intros sd'. unfold has_segment. destruct S1 as (-> & _). auto. }
      eapply refreshed_ext; [|exact R2]. intros i. split.
      * intros [[A|A]|(sd' & I & J & A)]; [auto | right; exists sd; cbn; auto |].
        right. exists sd'. rewrite <- HH. cbn. auto.
      * intros [A|(sd' & [<-|I] & J & A)]; auto. right. exists sd'. rewrite HH. auto.
    + cbn [bind]. destruct (IH s F R) as (s2 & E2 & S2 & R2). exists s2. split; [exact E2|]. split; auto.
      eapply refreshed_ext; [|exact R2]. intros i. split.
      * intros [A|(sd' & I & J & A)]; auto. right. exists sd'. cbn. auto.
      * intros [A|(sd' & [<-|I] & J & A)]; auto; [congruence|]. right. exists sd'. auto.
Qed.
Lemma all_dropped : forall sd, In sd all_sides.
Proof. intros []; cbn; auto 10. Qed.

(* ---- filtering ---- *)
Definition offsets : list (Z * Z) := cells (Region 0 0 (2 * sx + 1) (2 * sy + 1)).
Definition seen (b : bpos) (s : state) (p : Z * Z) : shown :=
  if s_valid s then
    Shown (map (fun d => s_heap s (s_slots s (idx (loc b (fst p + fst d - sx, snd p + snd d - sy))))) offsets)
  else Blank.

Lemma foldM_collect {B C} (f : B -> option C) (g : B -> C) l acc :
  (forall x, In x l -> f x = Some (g x)) ->
  foldM (fun es x => do e <- f x; Some (es ++ [e])) l acc = Some (acc ++ map g l).
Proof.
  revert acc. induction l as [|x l IH]; intros acc H; cbn [foldM map]; [rewrite app_nil_r; auto|].
  rewrite H by (left; auto). cbn [bind]. rewrite IH by (intros y I; apply H; right; auto).
  rewrite <- app_assoc. auto.
Qed.

Lemma foldM_ext {A B} (f g : A -> B -> option A) l a :
  (forall a x, In x l -> f a x = g a x) -> foldM f l a = foldM g l a.
Proof.
  revert a. induction l as [|x l IH]; intros a H; cbn [foldM]; auto.
  rewrite H by (left; auto). destruct (g a x); cbn [bind]; auto. apply IH. intros. apply H. right; auto.
Qed.

Lemma seen_in_data : forall b p d, inr (display_region o b) p -> In d offsets ->
  inr data (loc b (fst p + fst d - sx, snd p + snd d - sy)).
Proof.
  intros b p d [A B] I. unfold offsets in I. apply cells_in in I. destruct I as [C D].
  unfold display_region in *. cbn [rx0 rx1 ry0 ry1] in *. pose proof (bucket_size b). facts.
  unfold inr, data, loc, data_w, data_h. cbn [rx0 rx1 ry0 ry1 fst snd]. lia.
Qed.

Lemma filter_pixel_spec : forall b s p, inr (display_region o b) p ->
  filter_pixel o b s (fst p) (snd p) =
  Some (map (fun d => s_heap s (s_slots s (idx (loc b (fst p + fst d - sx, snd p + snd d - sy))))) offsets).
Proof.
  intros b s p I. unfold filter_pixel.
  rewrite <- (app_nil_l (map _ offsets)).
  rewrite <- (foldM_collect (fun d => do id <- slot o (idx (loc b (fst p + fst d - sx, snd p + snd d - sy))) s;
                              Some (s_heap s id))).
  - apply foldM_ext. intros es d _.
    replace (element o b (fst p - sx) (snd p - sy) + snd d * dw + fst d)
      with (idx (loc b (fst p + fst d - sx, snd p + snd d - sy))).
    + destruct (slot o _ s); reflexivity.
    + unfold element, idx, loc. cbn [fst snd]. ring.
  - intros d J. unfold slot. rewrite dom_b; [reflexivity|]. apply idx_dom, seen_in_data; auto.
Qed.

Lemma filter_spec : forall b s,
  filter_bucket o b s = Some (set_out (s_out s ++ map (fun c => (c, seen b s c)) (cells (display_region o b))) s).
Proof.
  intros b s. unfold filter_bucket.
  assert (D : forall c, In c (cells (display_region o b)) -> inr (display_region o b) c) by (intros c; apply cells_in).
  revert D. generalize (cells (display_region o b)) as l. intros l D.
  assert (G : forall out, foldM (fun (s : state) (c : Z * Z) =>
           if s_valid s then
             do es <- filter_pixel o b s (fst c) (snd c);
             Some (set_out (s_out s ++ [(c, Shown es)]) s)
           else Some (set_out (s_out s ++ [(c, Blank)]) s)) l (set_out out s)
           = Some (set_out (out ++ map (fun c => (c, seen b s c)) l) s)).
  { induction l as [|c l IH]; intros out; cbn [foldM map]; [rewrite app_nil_r; auto|].
    assert (Q : (if s_valid (set_out out s) then
             do es <- filter_pixel o b (set_out out s) (fst c) (snd c);
             Some (set_out (s_out (set_out out s) ++ [(c, Shown es)]) (set_out out s))
           else Some (set_out (s_out (set_out out s) ++ [(c, Blank)]) (set_out out s)))
           = Some (set_out (out ++ [(c, seen b s c)]) s)).
    { rewrite filter_pixel_spec by (apply D; left; auto). unfold seen. cbn. destruct (s_valid s); reflexivity. }
    rewrite Q. cbn [bind]. rewrite IH by (intros c' I; apply D; right; auto). rewrite <- app_assoc. reflexivity. }
  specialize (G (s_out s)). destruct s. exact G.
Qed.

(* what the pixel is made of, in terms of [final] *)
Definition right_value (p : Z * Z) (v : shown) : Prop :=
  match v with
  | Shown es => es = map (fun d => final (fst p + fst d - sx, snd p + snd d - sy)) offsets
  | Blank => forall d, In d offsets -> p_hits (final (fst p + fst d - sx, snd p + snd d - sy)) = []
  end.
Definition in_crop (p : Z * Z) : Prop :=
  o_cx0 o <= fst p < o_cx1 o /\ o_cy0 o <= snd p < o_cy1 o.
Lemma crop_ext : forall p d, in_crop p -> In d offsets -> ext (fst p + fst d - sx, snd p + snd d - sy).
Proof.
  intros p d [A B] I. unfold offsets in I. apply cells_in in I. destruct I as [C D].
  cbn [rx0 rx1 ry0 ry1] in *. unfold ext. cbn [fst snd]. lia.
Qed.

Definition home (p : Z * Z) : bpos := (fst p / o_bx o, snd p / o_by o).
Lemma home_display : forall b p, inr (display_region o b) p -> home p = b.
Proof.
  intros [c r] [x y] [A B]. unfold display_region, bucket_w, bucket_h, bucket_x, bucket_y, home in *.
  cbn [rx0 rx1 ry0 ry1 fst snd] in *. unfold bucket_x, bucket_y in *. cbn [fst snd] in *. facts.
  f_equal; symmetry.
  - apply Z.div_unique with (x - c * o_bx o); lia.
  - apply Z.div_unique with (y - r * o_by o); lia.
Qed.
Lemma crop_home : forall p, in_crop p -> in_region (home p) /\ inr (display_region o (home p)) p.
Proof.
  intros [x y] [A B]. cbn [fst snd] in *. facts.
  assert (XR : o_cx1 o <= o_xres o /\ o_cy1 o <= o_yres o /\ 0 <= o_cx0 o /\ 0 <= o_cy0 o) by (repeat split; apply SENS).
  unfold in_region, inr, display_region, bucket_w, bucket_h, bucket_x, bucket_y, home. rewrite bregion_eq.
  cbn [rx0 rx1 ry0 ry1 fst snd]. unfold bucket_x, bucket_y. cbn [fst snd].
  pose proof (Z.div_mod x (o_bx o)). pose proof (Z.mod_pos_bound x (o_bx o)).
  pose proof (Z.div_mod y (o_by o)). pose proof (Z.mod_pos_bound y (o_by o)).
  assert (o_cx0 o / o_bx o <= x / o_bx o) by (apply Z.div_le_mono; lia).
  assert (o_cy0 o / o_by o <= y / o_by o) by (apply Z.div_le_mono; lia).
  assert (x / o_bx o <= (o_cx1 o - 1) / o_bx o) by (apply Z.div_le_mono; lia).
  assert (y / o_by o <= (o_cy1 o - 1) / o_by o) by (apply Z.div_le_mono; lia).
  lia.
Qed.

Definition in_picture (p : Z * Z) : Prop := 0 <= fst p < o_xres o /\ 0 <= snd p < o_yres o.
Lemma display_picture : forall b p, in_region b -> inr (display_region o b) p -> in_picture p.
Proof.
  intros [c r] [x y] [R1 R2] [A B]. unfold display_region, bucket_w, bucket_h, in_picture in *.
  cbn [rx0 rx1 ry0 ry1 fst snd] in *. unfold bucket_x, bucket_y in *. cbn [fst snd] in *. facts.
  pose proof region_bounds as (_ & _ & _ & _ & RW & RH & _). nia.
Qed.

Definition out_ok (P : bpos -> bool) (out : list ((Z * Z) * shown)) : Prop :=
  NoDup (map fst out) /\
  (forall p, In p (map fst out) -> P (home p) = true /\ in_picture p) /\
  (forall p, in_crop p -> P (home p) = true -> exists v, In (p, v) out /\ right_value p v).

(* ---- one bucket ---- *)
Definition after (b : bpos) (b' : bpos) : bool := before b b' || bpos_eqb b' b.

Lemma given_pres : forall s5 b b' sd, open s5 b' -> b' <> b ->
  (pres (after b) b' sd = true <-> pres (before b) b' sd = true \/ given s5 b b' sd).
Proof.
  intros s5 [c r] [c' r'] sd OP NE.
  assert (E : forall x y, after (c, r) (x, y) = true <-> before (c, r) (x, y) = true \/ (x = c /\ y = r)).
  { intros x y. unfold after. rewrite orb_true_iff, bpos_eqb_eq. split; intros [A|A]; auto; right; [inversion A; auto | destruct A; subst; auto]. }
  assert (PE : forall x y x' y' : Z, (x, y) = (x', y') <-> x = x' /\ y = y').
  { intros. split; [intros A; inversion A; auto | intros [-> ->]; auto]. }
  unfold given. rewrite !PE.
  assert (A1 : c' - 1 = c <-> c' = c + 1) by lia. assert (A2 : c' + 1 = c <-> c' = c - 1) by lia.
  assert (A3 : r' - 1 = r <-> r' = r + 1) by lia. assert (A4 : r' + 1 = r <-> r' = r - 1) by lia.
  destruct sd; cbn [pres]; rewrite ?orb_true_iff, !E, ?A1, ?A2, ?A3, ?A4; clear - OP; intuition discriminate.
Qed.

Lemma step_eq : forall b s, on_grid o b = true ->
  bucket_step o (mps b) b s =
  (do s <- sampled b s;
   do s <- filter_bucket o b s;
   do s <- give_cache o b s;
   do s <- drop_cache o b s;
   Some (set_done (fun b' => if bpos_eqb b' b then true else s_done s b') s)).
Proof.
  intros b s G. unfold bucket_step, sampled. rewrite G. cbn [negb]. cbv zeta.
  destruct (set_samples _ _ _ _); [|reflexivity]. cbn [bind].
  destruct (apply_cache _ _ _); [|reflexivity]. cbn [bind].
  destruct (foldM _ _ _); reflexivity.
Qed.

Lemma step_spec : forall b s, in_region b -> inv (before b) s -> out_ok (before b) (s_out s) ->
  exists s', bucket_step o (mps b) b s = Some s' /\ inv (after b) s' /\ out_ok (after b) (s_out s').
Proof.
  intros b s R I OUT. rewrite step_eq by (apply region_grid; auto).
  destruct (sampled_spec b s R I) as (h & a & v & E1 & FIN & OLD & HANDED & KEPT & VAL).
  rewrite E1. cbn [bind]. rewrite filter_spec. cbn [bind].
  set (s5 := set_out _ _).
  assert (S5 : s_heap s5 = h /\ s_slots s5 = a /\ s_next s5 = s_next s /\ s_segs s5 = s_segs s /\ s_done s5 = s_done s)
    by (repeat split).
  destruct S5 as (H5 & A5 & N5 & G5 & D5).
  (* the slots of the bucket after sampling *)
  assert (SLOT : forall c, inr data c ->
     (exists sd g, s_segs s b sd = Some g /\ inr (cache_region o sd) c /\ a (idx c) = g_data g (kk (cache_region o sd) c)) \/
     ((forall sd, s_segs s b sd <> None -> ~ inr (cache_region o sd) c) /\ a (idx c) = s_slots s (idx c))).
  { intros c D.
    assert (DEC : (exists sd, s_segs s b sd <> None /\ inr (cache_region o sd) c) \/
                  (forall sd, s_segs s b sd <> None -> ~ inr (cache_region o sd) c)).
    { assert (X : forall l, (exists sd, In sd l /\ s_segs s b sd <> None /\ inr (cache_region o sd) c) \/
                            (forall sd, In sd l -> s_segs s b sd <> None -> ~ inr (cache_region o sd) c)).
      { induction l as [|sd l [(sd' & Q1 & Q2)|Q]].
        - right. intros sd [].
        - left. exists sd'. cbn. auto.
        - assert (DD : inr (cache_region o sd) c \/ ~ inr (cache_region o sd) c) by (unfold inr; lia).
          destruct (s_segs s b sd) as [g|] eqn:SG.
          + destruct DD as [DD|DD].
            * left. exists sd. cbn. split; [auto|]. split; [congruence | auto].
            * right. intros sd' [<-|J] K; auto.
          + right. intros sd' [<-|J] K; [congruence | auto]. }
      destruct (X all_sides) as [(sd & _ & Q)|Q]; [left; eauto|]. right. intros sd. apply Q. apply all_dropped. }
    destruct DEC as [(sd & SG & RC)|N].
    - left. destruct (s_segs s b sd) as [g|] eqn:Q; [|congruence]. exists sd, g. auto.
    - right. split; auto. }
  assert (LOW : forall c, inr data c -> (a (idx c) < s_next s)%nat).
  { intros c D. destruct (SLOT c D) as [(sd & g & SG & RC & ->)|[_ ->]].
    - apply (i_apart _ _ I b sd g _ SG). destruct (i_segs _ _ I b sd g SG) as [-> _]. apply kk_range; auto.
    - apply (i_low _ _ I). apply idx_dom; auto. }
  (* the neighbours *)
  destruct (give_spec b s5) as (s6 & L & E6 & V).
  { intros b' sd [O1 O2]. rewrite D5, (i_done _ _ I) in O2. rewrite <- (i_pres _ _ I) by auto.
    unfold has_segment. rewrite G5. auto. }
  rewrite E6. cbn [bind].
  unfold drop_cache.
  destruct (drop_list b s5 all_sides s6 _ (v_ref _ _ _ _ _ V)) as (s7 & E7 & (SR1 & SR2 & SR3 & SR4) & RF).
  rewrite E7. cbn [bind]. eexists. split; [reflexivity|].
  assert (OWN : forall sd, s_segs s6 b sd = s_segs s b sd).
  { intros sd. destruct (s_segs s6 b sd) as [g|] eqn:Q.
    - destruct (v_new _ _ _ _ _ V _ _ _ Q) as [A|(A & _)]; [congruence|].
      exfalso. unfold given in A. destruct b as [c r]. destruct A as (_ & A).
      destruct A as [[A _]|[[A _]|[[A _]|[A _]]]]; injection A; lia.
    - destruct (s_segs s b sd) as [g|] eqn:Q2; auto. rewrite <- G5 in Q2.
      apply (v_old _ _ _ _ _ V) in Q2. congruence. }
  match type of RF with refreshed _ _ ?f => set (F := f) in * end.
  destruct RF as (R1 & R2 & R3 & R4 & R5).
  assert (FH : forall sd c, s_segs s b sd <> None -> inr (cache_region o sd) c -> F (idx c)).
  { intros sd c N RC. right. exists sd. split; [apply all_dropped|]. split; [|exists c; auto].
    unfold has_segment. rewrite OWN. destruct (s_segs s b sd); congruence. }
  assert (NF : forall i, dom i -> ~ F i -> s_slots s7 i = s_slots s i).
  { intros i D N. rewrite R3 by auto. rewrite A5. destruct (dom_idx _ D) as (c & DC & <-).
    destruct (SLOT c DC) as [(sd & g & SG & RC & _)|[_ ->]]; auto.
    exfalso. apply N. apply (FH sd); [congruence | auto]. }
  assert (DECF : forall i, dom i -> F i \/ ~ F i).
  { intros i D. destruct (Nat.lt_ge_cases (s_slots s7 i) (s_next s5)) as [Q|Q].
    - right. intros Fi. pose proof (R4 i D Fi). lia.
    - left. destruct (dom_idx _ D) as (c & DC & <-).
      assert (X : forall l, (exists sd, In sd l /\ inr (cache_region o sd) c) \/ (forall sd, In sd l -> ~ inr (cache_region o sd) c)).
      { induction l as [|sd l [(sd' & Q1 & Q2)|Q']]; [right; intros sd [] | left; exists sd'; cbn; auto |].
        assert (DD : inr (cache_region o sd) c \/ ~ inr (cache_region o sd) c) by (unfold inr; lia).
        destruct DD; [left; exists sd; cbn; auto | right; intros sd' [<-|J]; auto]. }
      assert (NN : ~ ~ F (idx c)).
      { intros NF'. rewrite NF in Q by auto. pose proof (i_low _ _ I _ D). lia. }
      destruct (X L) as [(sd & J & RC)|NL]; [left; exists sd; split; auto; exists c; auto|].
      destruct (X (filter (fun sd => has_segment b sd s6) all_sides)) as [(sd & J & RC)|NS].
      + apply filter_In in J. right. exists sd. split; [tauto|]. split; [tauto|]. exists c; auto.
      + exfalso. apply NN. intros [(sd & J & c' & RC & Q')|(sd & J & HS & c' & RC & Q')];
        (apply idx_inj in Q'; [subst c' | eapply cache_in_data; eauto | auto]).
        * apply (NL sd); auto.
        * apply (NS sd); auto. apply filter_In. auto. }
  split; [constructor|]; cbn [s_heap s_next s_slots s_segs s_done s_valid s_out set_done set_segs].
  - (* uniq *)
    intros i j Di Dj E. cbn [s_slots set_done set_segs] in E.
    destruct (DECF i Di) as [Fi|Fi], (DECF j Dj) as [Fj|Fj].
    + apply R5; auto.
    + pose proof (R4 i Di Fi). rewrite (NF j) in E by auto. pose proof (i_low _ _ I j Dj). lia.
    + pose proof (R4 j Dj Fj). rewrite (NF i) in E by auto. pose proof (i_low _ _ I i Di). lia.
    + rewrite !NF in E by auto. apply (i_uniq _ _ I); auto.
  - (* low *)
    intros i Di. cbn [s_slots s_next set_done set_segs]. destruct (DECF i Di) as [Fi|Fi].
    + apply R4; auto.
    + rewrite NF by auto. pose proof (i_low _ _ I i Di). lia.
  - (* apart *)
    intros b' sd g k. cbn [s_slots s_next s_segs set_done set_segs].
    destruct (bpos_eqb b' b); [discriminate|]. rewrite SR1. intros SG K.
    assert (G : (g_data g k < s_next s)%nat /\ forall i, dom i -> ~ F i -> s_slots s i <> g_data g k).
    { destruct (v_new _ _ _ _ _ V _ _ _ SG) as [A|(A & mine & IM & FT & GZ & GD)].
      - rewrite G5 in A. destruct (i_apart _ _ I b' sd g k A K) as [X Y]. auto.
      - rewrite GZ in K. destruct (kk_onto _ _ (proj1 (cache_area mine)) (proj2 (cache_area mine)) K) as (c & RC & <-).
        pose proof (cache_in_data _ _ RC) as DC.
        rewrite GD, A5 by auto. split; [apply LOW; auto|].
        intros i Di Fi E. destruct (SLOT c DC) as [(sd0 & g0 & SG0 & RC0 & Q)|[_ Q]]; rewrite Q in E.
        + refine (proj2 (i_apart _ _ I b sd0 g0 _ SG0 _) i Di E).
          destruct (i_segs _ _ I b sd0 g0 SG0) as [-> _]. apply kk_range; auto.
        + apply (i_uniq _ _ I) in E; [|auto | apply idx_dom; auto]. subst i. apply Fi.
          left. exists mine. split; auto. exists c; auto. }
    destruct G as [G1 G2]. split; [lia|]. intros i Di. destruct (DECF i Di) as [Fi|Fi].
    + pose proof (R4 i Di Fi). lia.
    + rewrite NF by auto. apply G2; auto.
  - (* the segments *)
    intros b' sd g. destruct (bpos_eqb b' b); [discriminate|]. rewrite SR1. intros SG.
    destruct (v_new _ _ _ _ _ V _ _ _ SG) as [A|(A & mine & IM & FT & GZ & GD)].
    + rewrite G5 in A. destruct (i_segs _ _ I b' sd g A) as [Z1 Z2]. split; auto.
      intros c RC X. pose proof (i_apart _ _ I b' sd g (kk (cache_region o sd) c) A) as AP.
      rewrite Z1 in AP. specialize (AP (kk_range _ _ RC)). destruct AP as [AP1 AP2].
      rewrite R2 by lia. rewrite H5. rewrite OLD; [apply Z2; auto|].
      intros c' D'. apply AP2. apply idx_dom; auto.
    + split; [rewrite GZ; eapply fits_area; eauto|].
      intros c RC X. destruct (fits_cell b mine b' sd c FT RC) as (c' & RC' & GL & KE).
      rewrite <- KE, GD by auto. pose proof (cache_in_data _ _ RC') as DC. rewrite A5.
      rewrite R2 by (rewrite N5; apply LOW; auto). rewrite H5, FIN; [congruence | auto |]. rewrite GL. auto.
  - (* presence *)
    intros b' sd G P'. unfold after in P'. apply orb_false_iff in P'. destruct P' as [P1 P2].
    assert (NE : b' <> b) by (intros ->; rewrite bpos_eqb_refl in P2; discriminate).
    unfold has_segment. cbn [s_segs set_done set_segs]. rewrite P2, SR1.
    assert (OP : open s5 b'). { split; auto. rewrite D5, (i_done _ _ I). auto. }
    apply eq_true_iff_eq. rewrite (given_pres s5) by auto. rewrite <- (i_pres _ _ I) by auto.
    unfold has_segment. rewrite <- G5. destruct (s_segs s6 b' sd) as [g|] eqn:Q.
    + split; auto. intros _. destruct (v_new _ _ _ _ _ V _ _ _ Q) as [A|(A & _)]; [rewrite A; auto | auto].
    + split; [discriminate|]. intros [A|A].
      * destruct (s_segs s5 b' sd) as [g|] eqn:Q2; [|discriminate]. apply (v_old _ _ _ _ _ V) in Q2. congruence.
      * apply (v_has _ _ _ _ _ V) in A. congruence.
  - (* done *)
    intros b'. rewrite SR2, (v_done _ _ _ _ _ V), D5, (i_done _ _ I). unfold after.
    destruct (bpos_eqb b' b); [rewrite orb_true_r | rewrite orb_false_r]; auto.
  - (* the picture so far *)
    rewrite SR4, (v_out _ _ _ _ _ V). unfold s5. cbn [s_out set_out set_valid set_slots set_heap].
    set (sF := set_valid v _). destruct OUT as (O1 & O2 & O3).
    assert (MF : map fst (map (fun c => (c, seen b sF c)) (cells (display_region o b))) = cells (display_region o b)).
    { rewrite map_map. cbn [fst]. apply map_id. }
    split; [|split].
    + rewrite map_app, MF. apply NoDup_app2; auto; [apply cells_nodup|].
      intros p J K. apply cells_in in K. apply home_display in K. apply O2 in J. rewrite K, not_before_self in J. destruct J. discriminate.
    + intros p. rewrite map_app, MF, in_app_iff. unfold after. intros [J|J].
      * destruct (O2 p J) as [J1 J2]. rewrite J1. auto.
      * apply cells_in in J. split; [|apply (display_picture b); auto].
        rewrite (home_display b p J), bpos_eqb_refl, orb_true_r. auto.
    + intros p CR Q. unfold after in Q. apply orb_true_iff in Q. destruct Q as [Q|Q].
      * destruct (O3 p CR Q) as (w & J & K). exists w. rewrite in_app_iff. auto.
      * apply bpos_eqb_eq in Q. destruct (crop_home p CR) as [_ DI]. rewrite Q in DI.
        exists (seen b sF p). rewrite in_app_iff. split.
        -- right. apply in_map_iff. exists p. split; auto. apply cells_in. auto.
        -- unfold right_value, seen. cbn [s_valid s_heap s_slots sF set_valid set_slots set_heap].
           destruct v.
           ++ apply map_ext_in. intros d J.
              rewrite FIN; [rewrite glob_loc; auto | apply seen_in_data; auto |].
              rewrite glob_loc. apply crop_ext; auto.
           ++ intros d J. rewrite <- (glob_loc b (_, _)). apply VAL; auto.
              ** apply seen_in_data; auto.
              ** rewrite glob_loc. apply crop_ext; auto.
Qed.

(* ---- all buckets ---- *)
Lemma inv_ext : forall P Q s, (forall b, P b = Q b) -> inv P s -> inv Q s.
Proof.
  intros P Q s E [I1 I2 I3 I4 I5 I6]. constructor; auto.
  - intros b sd G N. rewrite I5; auto; [|rewrite E; auto]. destruct b as [c r]. destruct sd; cbn [pres]; rewrite !E; auto.
  - intros b. rewrite I6. auto.
Qed.
Lemma out_ext : forall P Q l, (forall b, P b = Q b) -> out_ok P l -> out_ok Q l.
Proof.
  intros P Q l E (A & B & C). split; [auto|]. split.
  - intros p J. rewrite <- E. auto.
  - intros p J K. apply C; auto. rewrite E; auto.
Qed.

Lemma start_inv : inv (before (rx0 (bregion o), ry0 (bregion o))) (start_state o).
Proof.
  assert (NB : forall b, before (rx0 (bregion o), ry0 (bregion o)) b = false).
  { intros b. apply before_false. cbn [fst snd]. lia. }
  unfold start_state. constructor.
  - intros i j Di Dj E. cbn in E. unfold dom in *. lia.
  - intros i Di. cbn. unfold dom in *. lia.
  - intros b sd g k SG. discriminate.
  - intros b sd g SG. discriminate.
  - intros [c r] sd _ _. destruct sd; cbn [pres]; rewrite !NB; auto.
  - intros b. rewrite NB. auto.
Qed.

Lemma loop_spec : forall n b s, in_region b -> inv (before b) s -> out_ok (before b) (s_out s) ->
  (ry1 (bregion o) - 1 - snd b) * rwidth (bregion o) + (rx1 (bregion o) - fst b) <= Z.of_nat n ->
  exists s', render_loop o n mps b s = Some s' /\ NoDup (map fst (s_out s')) /\
    (forall p, In p (map fst (s_out s')) -> in_picture p) /\
    forall p, in_crop p -> exists v, In (p, v) (s_out s') /\ right_value p v.
Proof.
  induction n as [|n IH]; intros b s R I OUT N.
  - exfalso. destruct R as [A B]. unfold rwidth in N. nia.
  - cbn [render_loop]. destruct (step_spec b s R I OUT) as (s1 & E1 & I1 & O1).
    rewrite E1. cbn [bind]. unfold next_bucket.
    destruct (Z.ltb_spec (fst b + 1) (rx1 (bregion o))).
    + assert (EQ : forall b', after b b' = before (fst b + 1, snd b) b').
      { intros b'. apply eq_true_iff_eq. unfold after. rewrite orb_true_iff, !before_iff, bpos_eqb_eq.
        destruct R as [A B]. destruct b as [c r], b' as [c' r']. cbn [fst snd] in *.
        split.
        - intros [Q|Q]; [lia | inversion Q; lia].
        - intros Q. destruct (Z.eq_dec r' r), (Z.eq_dec c' c); try (left; lia). right. congruence. }
      apply IH.
      * destruct R as [A B]. split; cbn [fst snd]; lia.
      * eapply inv_ext; [exact EQ | auto].
      * eapply out_ext; [exact EQ | auto].
      * cbn [fst snd]. lia.
    + destruct (Z.ltb_spec (snd b + 1) (ry1 (bregion o))).
      * assert (EQ : forall b', after b b' = before (rx0 (bregion o), snd b + 1) b').
        { intros b'. apply eq_true_iff_eq. unfold after. rewrite orb_true_iff, !before_iff, bpos_eqb_eq.
          destruct R as [A B]. destruct b as [c r], b' as [c' r']. cbn [fst snd] in *.
          split.
          - intros [Q|Q]; [lia | inversion Q; lia].
          - intros Q. destruct (Z.eq_dec r' r), (Z.eq_dec c' c); try (left; lia). right. congruence. }
        pose proof region_bounds as (_ & _ & _ & _ & W & _).
        apply IH.
        -- destruct R as [A B]. split; cbn [fst snd]; lia.
        -- eapply inv_ext; [exact EQ | auto].
        -- eapply out_ext; [exact EQ | auto].
        -- cbn [fst snd]. destruct R as [A B]. unfold rwidth in *. nia.
      * exists s1. split; [auto|]. destruct O1 as (O1 & O2 & O3). split; [auto|].
        split; [intros p J; apply (O2 p J)|]. intros p CR. apply O3; auto. destruct (crop_home p CR) as [HR _].
        unfold after. apply orb_true_iff. rewrite before_iff, bpos_eqb_eq. destruct HR as [A B], R as [C D].
        destruct (home p) as [c' r'], b as [c r]. cbn [fst snd] in *.
        destruct (Z.eq_dec r' r), (Z.eq_dec c' c); try (left; lia). right. congruence.
Qed.

Lemma image_spec : forall n, rarea (bregion o) <= Z.of_nat n ->
  exists out, render_image o n mps = Some out /\ NoDup (map fst out) /\
    (forall p, In p (map fst out) -> in_picture p) /\
    forall p, in_crop p -> exists v, In (p, v) out /\ right_value p v.
Proof.
  intros n N. unfold render_image. pose proof region_bounds as (_ & _ & _ & _ & W & H & _).
  destruct (loop_spec n (rx0 (bregion o), ry0 (bregion o)) (start_state o)) as (s' & E & A & B).
  - split; cbn [fst snd]; lia.
  - apply start_inv.
  - split; [constructor|]. split; [intros p []|]. intros p _ Q. exfalso.
    apply before_iff in Q. cbn [fst snd] in Q. lia.
  - cbn [fst snd]. unfold rarea, rwidth, rheight in *. nia.
  - exists (s_out s'). rewrite E. cbn [bind]. auto.
Qed.

End Render.

(* ---- which micropolygons wait in which bucket ---- *)
Lemma trunc_floor : forall q, Qfloor q <= qtrunc q.
Proof.
  intros q. unfold qtrunc. destruct (Qle_bool 0 q); [lia|].
  rewrite (Zle_Qle (Qfloor q)). eapply Qle_trans; [apply Qfloor_le | apply Qle_ceiling].
Qed.
Lemma trunc_cases : forall q, qtrunc q = Qfloor q \/ qtrunc q <= 0.
Proof.
  intros q. unfold qtrunc. destruct (Qle_bool 0 q) eqn:E; [auto|]. right.
  change 0 with (Qceiling 0). apply Qceiling_resp_le.
  assert (~ (0 <= q)%Q) by (rewrite <- Qle_bool_iff; congruence).
  apply Qlt_le_weak. apply Qnot_le_lt. auto.
Qed.
Lemma qfloor_div : forall (q : Q) (z d : Z), 1 <= d -> z * d <= Qfloor q -> z <= Qfloor (q / inject_Z d).
Proof.
  intros q z d D H. rewrite <- (Qfloor_Z z). apply Qfloor_resp_le.
  apply Qle_shift_div_l.
  - change 0%Q with (inject_Z 0). rewrite <- Zlt_Qlt. lia.
  - rewrite <- inject_Z_mult. apply Qle_trans with (inject_Z (Qfloor q)); [|apply Qfloor_le].
    rewrite <- Zle_Qle. lia.
Qed.
Lemma qfloor_div_le : forall (q : Q) (z d : Z), 1 <= d -> Qfloor q < (z + 1) * d -> Qfloor (q / inject_Z d) <= z.
Proof.
  intros q z d D H. apply qfloor_le. intros L.
  assert (P : (0 < inject_Z d)%Q) by (change 0%Q with (inject_Z 0); rewrite <- Zlt_Qlt; lia).
  assert (Q1 : (inject_Z ((z + 1) * d) <= q)%Q).
  { rewrite inject_Z_mult. apply Qle_trans with (q / inject_Z d * inject_Z d)%Q.
    - apply Qmult_le_compat_r; [auto | apply Qlt_le_weak; auto].
    - rewrite Qmult_comm, Qmult_div_r; [apply Qle_refl|]. intros Q0. rewrite Q0 in P. apply (Qlt_irrefl 0); auto. }
  apply Qfloor_resp_le in Q1. rewrite Qfloor_Z in Q1. lia.
Qed.
Lemma qfloor_plus : forall (q : Q) z, Qfloor (q + inject_Z z) = Qfloor q + z.
Proof.
  intros [n d] z. unfold Qplus, inject_Z. cbn [Qnum Qden]. unfold Qfloor.
  rewrite Pos.mul_1_r. rewrite Z.mul_1_r. rewrite Z.div_add by lia. auto.
Qed.
Lemma qfloor_minus : forall (q : Q) z, Qfloor (q - inject_Z z) = Qfloor q - z.
Proof.
  intros. unfold Qminus. rewrite <- inject_Z_opp, qfloor_plus. lia.
Qed.

(* one direction: low end, high end *)
Lemma lowest_bucket : forall (x0 : Q) px s bs lo hi, 1 <= bs -> 0 <= lo -> Qfloor x0 <= px ->
  (px - s) / bs <= hi - 1 -> lo < hi ->
  let xa := qtrunc ((x0 - inject_Z s) / inject_Z bs)%Q in
  Z.max xa lo <= Z.max lo (Z.min (hi - 1) ((px - s) / bs)) /\ xa < hi.
Proof.
  intros x0 px s bs lo hi B L F H LH xa. unfold xa.
  destruct (trunc_cases ((x0 - inject_Z s) / inject_Z bs)%Q) as [->|Q]; [|lia].
  assert (Qfloor ((x0 - inject_Z s) / inject_Z bs) <= (px - s) / bs); [|lia].
  apply qfloor_div_le; [lia|]. rewrite qfloor_minus.
  pose proof (Z.div_mod (px - s) bs). pose proof (Z.mod_pos_bound (px - s) bs). lia.
Qed.
Lemma highest_bucket : forall (x1 : Q) px s bs lo hi cx0, 1 <= bs -> 0 <= s -> px <= Qfloor x1 ->
  cx0 - s <= px -> lo * bs <= cx0 -> lo < hi ->
  let xb := qtrunc ((x1 + inject_Z s) / inject_Z bs)%Q in
  Z.max lo (Z.min (hi - 1) ((px - s) / bs)) <= Z.min xb (hi - 1) /\ lo <= xb.
Proof.
  intros x1 px s bs lo hi cx0 B S F C L LH xb. unfold xb.
  pose proof (trunc_floor ((x1 + inject_Z s) / inject_Z bs)%Q).
  assert (lo <= Qfloor ((x1 + inject_Z s) / inject_Z bs)).
  { apply qfloor_div; [lia|]. rewrite qfloor_plus. lia. }
  assert ((px - s) / bs <= Qfloor ((x1 + inject_Z s) / inject_Z bs)).
  { apply qfloor_div; [lia|]. rewrite qfloor_plus.
    pose proof (Z.div_mod (px - s) bs). pose proof (Z.mod_pos_bound (px - s) bs). lia. }
  lia.
Qed.

Lemma filter_one {A} (f : A -> bool) (a : A) l :
  (forall x, f x = true <-> x = a) -> NoDup l -> In a l -> filter f l = [a].
Proof.
  intros E. induction l as [|x l IH]; intros N I; [destruct I|]. inversion N; subst. cbn [filter].
  destruct (f x) eqn:Q.
  - apply E in Q. subst. f_equal. assert (Z : forall l, ~ In a l -> filter f l = []).
    { clear - E. induction l as [|y l IH]; intros N; cbn [filter]; auto. destruct (f y) eqn:Q.
      - apply E in Q. subst. elim N. left; auto.
      - apply IH. intros J. apply N. right; auto. }
    apply Z; auto.
  - destruct I as [->|I]; [|auto]. rewrite (proj2 (E a) eq_refl) in Q. discriminate.
Qed.

Lemma half_le : forall (z : Z) f, (inject_Z z - f / 2 <= inject_Z (z - Qfloor (f / 2)))%Q /\
  (inject_Z (z + Qfloor (f / 2)) <= inject_Z z + f / 2)%Q.
Proof.
  intros z f. pose proof (Qfloor_le (f / 2)). unfold Z.sub. rewrite !inject_Z_plus, inject_Z_opp. split.
  - unfold Qminus. apply Qplus_le_compat; [apply Qle_refl | apply Qopp_le_compat; auto].
  - apply Qplus_le_compat; [apply Qle_refl | auto].
Qed.

Lemma touching_waits : forall p m, ext p -> touches p m = true ->
  filter (bpos_eqb (owner p)) (mp_buckets o m) = [owner p].
Proof.
  intros p m [X Y] T. apply touches_box in T. destruct T as [[TX0 TX1] [TY0 TY1]].
  pose proof region_bounds as (B1 & B2 & B3 & B4 & B5 & B6 & _). facts.
  apply filter_one.
  { intros x. rewrite bpos_eqb_eq. split; auto. }
  { unfold mp_buckets. cbv zeta. destruct (_ || _); [constructor|]. destruct (_ || _); [constructor|].
    apply NoDup_flat_map; [apply zrange_nodup | |].
    - intros. apply Injective_map_NoDup; [intros x y E; congruence | apply zrange_nodup].
    - intros a b x _ _ I J. apply in_map_iff in I, J. destruct I as (? & <- & _). destruct J as (? & E & _).
      congruence. }
  assert (NL : forall a b : Q, (b <= a)%Q -> negb (Qle_bool b a) = false).
  { intros a b L. apply Qle_bool_iff in L. rewrite L. auto. }
  apply lt_qceiling in TX1, TY1. pose proof TX0 as TX0'. pose proof TY0 as TY0'. apply qfloor_le in TX0', TY0'.
  apply Qnot_le_lt, Qlt_le_weak in TX1, TY1, TX0', TY0'.
  assert (FX : fst p <= Qfloor (m_x1 m)) by (rewrite <- (Qfloor_Z (fst p)); apply Qfloor_resp_le; auto).
  assert (FY : snd p <= Qfloor (m_y1 m)) by (rewrite <- (Qfloor_Z (snd p)); apply Qfloor_resp_le; auto).
  unfold mp_buckets. cbv zeta.
  rewrite NL by (eapply Qle_trans; [apply half_le|]; eapply Qle_trans; [|exact TX1]; rewrite <- Zle_Qle; unfold shiftx in X; lia).
  rewrite NL by (eapply Qle_trans; [apply half_le|]; eapply Qle_trans; [|exact TY1]; rewrite <- Zle_Qle; unfold shifty in Y; lia).
  rewrite NL by (eapply Qle_trans; [|apply half_le]; eapply Qle_trans; [exact TX0'|]; rewrite <- Zle_Qle; unfold shiftx in X; lia).
  rewrite NL by (eapply Qle_trans; [|apply half_le]; eapply Qle_trans; [exact TY0'|]; rewrite <- Zle_Qle; unfold shifty in Y; lia).
  cbn [orb].
  destruct (lowest_bucket (m_x0 m) (fst p) sx (o_bx o) (rx0 (bregion o)) (rx1 (bregion o))) as [LX1 LX2]; try lia.
  { apply Z.lt_le_pred. replace (Z.pred (rx1 (bregion o))) with (rx1 (bregion o) - 1) by lia. 
    assert ((fst p - sx) / o_bx o < rx1 (bregion o)); [|lia]. apply Z.div_lt_upper_bound; lia. }
  destruct (lowest_bucket (m_y0 m) (snd p) sy (o_by o) (ry0 (bregion o)) (ry1 (bregion o))) as [LY1 LY2]; try lia.
  { assert ((snd p - sy) / o_by o < ry1 (bregion o)); [|lia]. apply Z.div_lt_upper_bound; lia. }
  destruct (highest_bucket (m_x1 m) (fst p) sx (o_bx o) (rx0 (bregion o)) (rx1 (bregion o)) (o_cx0 o)) as [HX1 HX2]; try lia.
  destruct (highest_bucket (m_y1 m) (snd p) sy (o_by o) (ry0 (bregion o)) (ry1 (bregion o)) (o_cy0 o)) as [HY1 HY2]; try lia.
  rewrite (proj2 (Z.ltb_ge _ _)) by exact HX2. rewrite (proj2 (Z.ltb_ge _ _)) by exact HY2.
  rewrite (proj2 (Z.leb_gt _ _)) by exact LX2. rewrite (proj2 (Z.leb_gt _ _)) by exact LY2. cbn [orb].
  apply in_flat_map. exists (fst (owner p)). unfold owner. cbn [fst]. rewrite zrange_in. split; [lia|].
  apply in_map_iff. eexists. split; [reflexivity|]. rewrite zrange_in. lia.
Qed.

Lemma waiting_spec : forall ms p, ext p ->
  filter (touches p) (waiting o ms (owner p)) = filter (touches p) ms.
Proof.
  intros ms p X. unfold waiting. induction ms as [|m ms IH]; [reflexivity|]. cbn [flat_map].
  rewrite filter_app, IH. cbn [filter]. destruct (touches p m) eqn:T.
  - rewrite touching_waits by auto. cbn [map filter]. rewrite T. reflexivity.
  - assert (Z : forall l : list bpos, filter (touches p) (map (fun _ => m) l) = []).
    { induction l as [|b l IH']; cbn [map filter]; auto. rewrite T. auto. }
    rewrite Z. reflexivity.
Qed.

Lemma around_offsets : forall x y,
  around (Qfloor (o_fy o / 2)) (Qfloor (o_fx o / 2)) x y =
  map (fun d => (x + fst d - sx, y + snd d - sy)) offsets.
Proof.
  intros x y. unfold around, offsets, cells, zrange. cbn [rx0 rx1 ry0 ry1].
  fold (shiftx o) (shifty o). rewrite !Z.sub_0_r.
  generalize (seq 0 (Z.to_nat (2 * sy + 1))) as l.
  induction l as [|j l IH]; cbn [map flat_map]; auto. rewrite map_app, <- IH. f_equal.
  rewrite !map_map. apply map_ext. intros i. cbn [fst snd]. f_equal; lia.
Qed.

Lemma right_made_of : forall ms p v, in_crop p -> right_value (waiting o ms) p v ->
  made_of v (ingredients ms o (fst p) (snd p)).
Proof.
  intros ms p v CR RV. unfold ingredients. rewrite around_offsets, map_map.
  assert (H : forall d, In d offsets ->
     filter (touches (fst p + fst d - sx, snd p + snd d - sy)) (waiting o ms (owner (fst p + fst d - sx, snd p + snd d - sy)))
     = filter (touches (fst p + fst d - sx, snd p + snd d - sy)) ms).
  { intros d J. apply waiting_spec. apply crop_ext; auto. }
  destruct v as [|es]; cbn [right_value made_of] in *.
  - intros i J. apply in_map_iff in J. destruct J as (d & <- & J). cbn [snd]. rewrite <- H by auto. apply RV. auto.
  - subst es. rewrite !map_map. apply map_ext_in. intros d J. unfold final. cbn [p_pos p_hits p_comb fst snd].
    rewrite H by auto. reflexivity.
Qed.

Lemma picture_spec : forall ms n, rarea (bregion o) <= Z.of_nat n ->
  exists out, render_image o n (waiting o ms) = Some out /\ NoDup (map fst out) /\
    (forall p, In p (map fst out) -> 0 <= fst p < o_xres o /\ 0 <= snd p < o_yres o) /\
    forall x y, o_cx0 o <= x < o_cx1 o -> o_cy0 o <= y < o_cy1 o ->
      exists v, In ((x, y), v) out /\ made_of v (ingredients ms o x y).
Proof.
  intros ms n N. destruct (image_spec (waiting o ms) n N) as (out & E & ND & IP & H).
  exists out. split; [auto|]. split; [auto|]. split; [exact IP|]. intros x y X Y.
  destruct (H (x, y)) as (v & I & RV); [split; auto|]. exists v. split; auto.
  apply (right_made_of ms (x, y)); [split; auto | auto].
Qed.


End Proofs.

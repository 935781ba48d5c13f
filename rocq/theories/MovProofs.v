(** Proofs about moving micropolygons. *)
From Verif Require Import MovSpec MpgProofs.
From Coq Require Import Lqa.
Open Scope Q_scope.

(** ** Paths *)

Lemma rising_tail a l : rising (a :: l) -> rising l.
Proof. destruct l; [trivial|]. intros [_ H]. exact H. Qed.

Lemma rising_head l : forall a j t, rising (a :: l) -> nth_error l j = Some t -> a < t.
Proof.
  induction l as [|b l IH]; intros a j t R E; [destruct j; discriminate|].
  destruct R as [H R]. destruct j as [|j]; cbn [nth_error] in E; [injection E as <-; exact H|].
  eapply Qlt_trans; [exact H|]. exact (IH b j t R E).
Qed.

Lemma rising_nth l : forall i j s t, rising l -> (i < j)%nat -> nth_error l i = Some s -> nth_error l j = Some t -> s < t.
Proof.
  induction l as [|a l IH]; intros i j s t R L Ei Ej; [destruct i; discriminate|].
  destruct j as [|j]; [lia|]. cbn [nth_error] in Ej. destruct i as [|i].
  - injection Ei as <-. exact (rising_head l a j t R Ej).
  - apply (IH i j s t (rising_tail _ _ R)); [lia|exact Ei|exact Ej].
Qed.

Lemma rising_nth_le l i j s t : rising l -> (i <= j)%nat -> nth_error l i = Some s -> nth_error l j = Some t -> s <= t.
Proof.
  intros R L Ei Ej. destruct (Nat.eq_dec i j) as [<-|N]; [rewrite Ei in Ej; injection Ej as <-; apply Qle_refl|].
  apply Qlt_le_weak. apply (rising_nth l i j s t R); [lia|exact Ei|exact Ej].
Qed.

Lemma path_first t0 a r t : t <= t0 -> path ((t0, a) :: r) t = a.
Proof. intro H. cbn [path]. apply Qle_bool_iff in H. rewrite H. reflexivity. Qed.

Lemma path_skip t0 a t1 b r t : t0 < t -> t1 <= t -> path ((t0, a) :: (t1, b) :: r) t = path ((t1, b) :: r) t.
Proof.
  intros H1 H2. cbn [path]. assert (E : Qle_bool t t0 = false) by (apply Qleb_false; exact H1). rewrite E.
  apply Qle_bool_iff in H2. rewrite H2. reflexivity.
Qed.

Lemma path_mid t0 a t1 b r t : t0 < t -> t < t1 ->
  path ((t0, a) :: (t1, b) :: r) t = (1 - (t - t0) / (t1 - t0)) * a + (t - t0) / (t1 - t0) * b.
Proof.
  intros H1 H2. cbn [path]. assert (E : Qle_bool t t0 = false) by (apply Qleb_false; exact H1). rewrite E.
  assert (E' : Qle_bool t1 t = false) by (apply Qleb_false; exact H2). rewrite E'. reflexivity.
Qed.

Lemma path_seg l : forall i t0 a t1 b t, rising (map fst l) -> nth_error l i = Some (t0, a) -> nth_error l (S i) = Some (t1, b) ->
  t0 <= t -> t <= t1 -> path l t == a + (b - a) * ((t - t0) / (t1 - t0)).
Proof.
  induction l as [|[s c] l IH]; intros i t0 a t1 b t R E0 E1 H0 H1; [destruct i; discriminate|].
  destruct i as [|i].
  - cbn [nth_error] in E0. injection E0 as -> ->. destruct l as [|[s1 c1] l]; [discriminate|].
    cbn [nth_error] in E1. injection E1 as -> ->. cbn [map fst] in R. destruct R as [R _].
    assert (N : ~ t1 - t0 == 0) by lra.
    destruct (Qlt_le_dec t0 t) as [L|L].
    + destruct (Qlt_le_dec t t1) as [K|K].
      * rewrite path_mid by assumption. ring.
      * rewrite path_skip by assumption. rewrite path_first by exact H1. assert (E : t == t1) by lra.
        rewrite E. field. exact N.
    + rewrite path_first by exact L. assert (E : t == t0) by lra. rewrite E. field. exact N.
  - cbn [nth_error] in E0, E1. destruct l as [|[s1 c1] l]; [destruct i; discriminate|].
    pose proof (rising_tail _ _ R) as R'. cbn [map fst] in R. destruct R as [R _].
    assert (s1 <= t).
    { eapply Qle_trans; [|exact H0]. apply (rising_nth_le (map fst ((s1, c1) :: l)) 0 i s1 t0 R'); [lia|reflexivity|].
      rewrite nth_error_map, E0. reflexivity. }
    rewrite path_skip by lra. exact (IH i t0 a t1 b t R' E0 E1 H0 H1).
Qed.

Lemma nth_first {A B} (l : list (A * B)) a : hd_error (map fst l) = Some a -> exists x, nth_error l 0 = Some (a, x).
Proof. destruct l as [|[b x] l]; [discriminate|]. cbn [map fst hd_error nth_error]. intro E. injection E as ->. eauto. Qed.

(** Between two times of the list there is a part of the path around each time. *)
Lemma find_seg {A} (l : list (Q * A)) : forall t t0 x n tn y, rising (map fst l) -> nth_error l 0 = Some (t0, x) -> nth_error l n = Some (tn, y) ->
  (0 < n)%nat -> t0 <= t -> t <= tn ->
  exists i s a u b, nth_error l i = Some (s, a) /\ nth_error l (S i) = Some (u, b) /\ s <= t /\ t <= u /\ (i < n)%nat.
Proof.
  intros t t0 x n. revert l t t0 x.
  induction n as [|n IH]; intros l t t0 x tn y R E0 En Hn H0 H1; [lia|].
  destruct l as [|[s c] l]; [discriminate|]. cbn [nth_error] in E0, En. injection E0 as -> ->.
  destruct l as [|[s1 c1] l]; [destruct n; discriminate|].
  destruct (Qlt_le_dec s1 t) as [L|L].
  - destruct n as [|n].
    + cbn [nth_error] in En. injection En as -> ->. lra.
    + destruct (IH ((s1, c1) :: l) t s1 c1 tn y (rising_tail _ _ R) eq_refl En ltac:(lia) (Qlt_le_weak _ _ L) H1)
        as (i & s & a & u & b & A1 & A2 & A3 & A4 & A5).
      exists (S i), s, a, u, b. repeat split; try assumption; lia.
  - exists 0%nat, t0, x, s1, c1. repeat split; try assumption; lia.
Qed.

Lemma linear_between a b t0 t1 s u t c : t0 < t1 -> s <= t -> t <= u ->
  c <= a + (b - a) * ((s - t0) / (t1 - t0)) -> c <= a + (b - a) * ((u - t0) / (t1 - t0)) ->
  c <= a + (b - a) * ((t - t0) / (t1 - t0)).
Proof.
  intros H Hs Hu C1 C2.
  assert (E : forall x, (b - a) * ((x - t0) / (t1 - t0)) == (b - a) / (t1 - t0) * (x - t0)) by (intro x; field; lra).
  rewrite E in C1, C2 |- *. set (m := (b - a) / (t1 - t0)) in *. clearbody m. clear E.
  destruct (Qlt_le_dec m 0) as [M|M].
  - assert (m * (u - t0) <= m * (t - t0)).
    { assert (0 <= (- m) * (u - t)) by (apply Qmult_le_0_compat; lra). lra. }
    lra.
  - assert (m * (s - t0) <= m * (t - t0)).
    { assert (0 <= m * (t - s)) by (apply Qmult_le_0_compat; lra). lra. }
    lra.
Qed.

(** A number below the path at two times and at all times of the list between them is below it between them. *)
Lemma path_above l c first x n tn y T U : rising (map fst l) -> nth_error l 0 = Some (first, x) -> nth_error l n = Some (tn, y) ->
  (0 < n)%nat -> first <= T -> U <= tn -> c <= path l T -> c <= path l U ->
  (forall k t a, nth_error l k = Some (t, a) -> T < t -> t < U -> c <= a) ->
  forall t, T <= t -> t <= U -> c <= path l t.
Proof.
  intros R E0 En Hn HT HU CT CU CK t H1 H2.
  destruct (find_seg l t first x n tn y R E0 En Hn ltac:(lra) ltac:(lra)) as (i & s & a & u & b & A1 & A2 & A3 & A4 & A5).
  assert (SU : s < u). { apply (rising_nth (map fst l) i (S i) s u R); [lia|rewrite nth_error_map, A1; reflexivity|rewrite nth_error_map, A2; reflexivity]. }
  rewrite (path_seg l i s a u b t R A1 A2 A3 A4).
  assert (VA : a == a + (b - a) * ((s - s) / (u - s))) by (field; lra).
  assert (VB : b == a + (b - a) * ((u - s) / (u - s))) by (field; lra).
  (* the left end *)
  assert (exists p, s <= p /\ p <= t /\ c <= a + (b - a) * ((p - s) / (u - s))) as (p & P1 & P2 & P3).
  { destruct (Qlt_le_dec T s) as [L|L].
    - destruct (Qlt_le_dec s U) as [K|K].
      + exists s. repeat split; [lra|lra|]. rewrite <- VA. apply (CK i s a A1 L K).
      + exists U. repeat split; [lra|lra|]. rewrite <- (path_seg l i s a u b U R A1 A2 ltac:(lra) ltac:(lra)). exact CU.
    - exists T. repeat split; [lra|lra|]. rewrite <- (path_seg l i s a u b T R A1 A2 L ltac:(lra)). exact CT. }
  assert (exists q, t <= q /\ q <= u /\ c <= a + (b - a) * ((q - s) / (u - s))) as (q & Q1 & Q2 & Q3).
  { destruct (Qlt_le_dec u U) as [L|L].
    - destruct (Qlt_le_dec T u) as [K|K].
      + exists u. repeat split; [lra|lra|]. rewrite <- VB. apply (CK (S i) u b A2 K L).
      + exists T. repeat split; [lra|lra|]. rewrite <- (path_seg l i s a u b T R A1 A2 ltac:(lra) ltac:(lra)). exact CT.
    - exists U. repeat split; [lra|lra|]. rewrite <- (path_seg l i s a u b U R A1 A2 ltac:(lra) L). exact CU. }
  exact (linear_between a b s u p q t c SU P2 Q1 P3 Q3).
Qed.

(** A path all of whose values are below those of another is below it. *)
Lemma path_mono {A} (f h : A -> Q) (l : list (Q * A)) t : rising (map fst l) -> (forall k, In k l -> f (snd k) <= h (snd k)) ->
  path (map (fun k => (fst k, f (snd k))) l) t <= path (map (fun k => (fst k, h (snd k))) l) t.
Proof.
  induction l as [|[t0 a] l IH]; intros R H; [apply Qle_refl|].
  cbn [map fst snd]. destruct l as [|[t1 b] l].
  - cbn [map path]. destruct (Qle_bool t t0); apply (H (t0, a)); left; reflexivity.
  - cbn [map fst snd] in IH |- *. pose proof (rising_tail _ _ R) as R'. destruct R as [R _].
    pose proof (H (t0, a) ltac:(left; reflexivity)) as Ha. pose proof (H (t1, b) ltac:(right; left; reflexivity)) as Hb.
    cbn [snd fst] in Ha, Hb, R.
    destruct (Qlt_le_dec t0 t) as [L|L]; [|rewrite !path_first by exact L; exact Ha].
    destruct (Qlt_le_dec t t1) as [K|K].
    + rewrite !path_mid by assumption.
      assert (F : 0 <= (t - t0) / (t1 - t0) <= 1).
      { split; [apply Qle_shift_div_l; lra|apply Qle_shift_div_r; lra]. }
      set (w := (t - t0) / (t1 - t0)) in *. clearbody w.
      assert (0 <= (1 - w) * (h a - f a)) by (apply Qmult_le_0_compat; lra).
      assert (0 <= w * (h b - f b)) by (apply Qmult_le_0_compat; lra). lra.
    + rewrite !path_skip by assumption. apply IH; [exact R'|]. intros k I. apply H. right. exact I.
Qed.

Lemma path_neg {A} (f : A -> Q) (l : list (Q * A)) t : rising (map fst l) ->
  path (map (fun k => (fst k, - f (snd k))) l) t == - path (map (fun k => (fst k, f (snd k))) l) t.
Proof.
  induction l as [|[t0 a] l IH]; intro R; [reflexivity|].
  cbn [map fst snd]. destruct l as [|[t1 b] l].
  - cbn [map path]. destruct (Qle_bool t t0); reflexivity.
  - cbn [map fst snd] in IH |- *. pose proof (rising_tail _ _ R) as R'. destruct R as [R _]. cbn [fst] in R.
    destruct (Qlt_le_dec t0 t) as [L|L]; [|rewrite !path_first by exact L; reflexivity].
    destruct (Qlt_le_dec t t1) as [K|K].
    + rewrite !path_mid by assumption. ring.
    + rewrite !path_skip by assumption. apply IH. exact R'.
Qed.

(** ** The place of the micropolygon at a time *)

Definition val (f : (nat -> pt3) -> Q) (w : key * option (key * Q)) : Q :=
  match w with
  | (a, None) => f (snd a)
  | (a, Some (b, m)) => (1 - m) * f (snd a) + m * f (snd b)
  end.

Definition track (f : (nat -> pt3) -> Q) (keys : list key) (t : Q) : Q := path (map (fun k => (fst k, f (snd k))) keys) t.

Lemma track_last f keys d : forall t, rising (map fst keys) -> keys <> [] -> fst (last keys d) <= t ->
  track f keys t = f (snd (last keys d)).
Proof.
  unfold track. induction keys as [|[t0 a] keys IH]; intros t R N L; [congruence|].
  destruct keys as [|[t1 b] keys].
  - cbn [map path last fst snd]. destruct (Qle_bool t t0); reflexivity.
  - pose proof (rising_tail _ _ R) as R'. 
    change (last ((t0, a) :: (t1, b) :: keys) d) with (last ((t1, b) :: keys) d) in *.
    assert (t1 <= fst (last ((t1, b) :: keys) d)).
    { clear IH L N R. revert t1 b R'. induction keys as [|[t2 c] keys IH]; intros t1 b R'; [apply Qle_refl|].
      change (last ((t1, b) :: (t2, c) :: keys) d) with (last ((t2, c) :: keys) d).
      pose proof (IH t2 c (rising_tail _ _ R')). destruct R' as [R' _]. cbn [fst] in R'. lra. }
    destruct R as [R _]. cbn [fst] in R. cbn [map fst snd]. rewrite path_skip by lra.
    exact (IH t R' ltac:(discriminate) L).
Qed.

Lemma span_track keys : forall t d, rising (map fst keys) -> (exists a r, keys = a :: r /\ fst a <= t) -> t < fst (last keys d) ->
  exists a b, span keys t = Some (a, b) /\ fst a <= t /\ t < fst b /\
    forall f, track f keys t = (if Qeq_bool (fst a) t then f (snd a)
                                else (1 - (t - fst a) / (fst b - fst a)) * f (snd a) + (t - fst a) / (fst b - fst a) * f (snd b)).
Proof.
  induction keys as [|[t0 p0] keys IH]; intros t d R (a & r & E & H0) L; [discriminate|]. injection E as <- <-. cbn [fst] in H0.
  destruct keys as [|[t1 p1] keys]; [cbn [last fst] in L; lra|].
  change (last ((t0, p0) :: (t1, p1) :: keys) d) with (last ((t1, p1) :: keys) d) in L.
  pose proof (rising_tail _ _ R) as R'. destruct R as [R _]. cbn [fst] in R.
  change (span ((t0, p0) :: (t1, p1) :: keys) t) with (if Qle_bool t1 t then span ((t1, p1) :: keys) t else Some ((t0, p0), (t1, p1))).
  destruct (Qle_bool t1 t) eqn:E1.
  - apply Qle_bool_iff in E1. destruct (IH t d R' ltac:(exists (t1, p1), keys; auto) L) as (a & b & A1 & A2 & A3 & A4).
    exists a, b. split; [exact A1|]. split; [exact A2|]. split; [exact A3|]. intro f. rewrite <- A4. unfold track. cbn [map fst snd].
    rewrite path_skip by lra. reflexivity.
  - apply Qleb_false in E1. exists (t0, p0), (t1, p1). split; [reflexivity|]. split; [exact H0|]. split; [exact E1|]. intro f.
    unfold track. cbn [map fst snd]. destruct (Qeq_bool t0 t) eqn:E.
    + apply Qeq_bool_iff in E. rewrite path_first by lra. reflexivity.
    + rewrite path_mid; [reflexivity| |exact E1]. apply Qeq_bool_neq in E. lra.
Qed.

Lemma place_track keys t : rising (map fst keys) -> keys <> [] ->
  exists w, place keys t = Some w /\ forall f, val f w = track f keys t.
Proof.
  intros R N. destruct keys as [|[t0 p0] keys]; [congruence|]. unfold place. cbn [fst].
  destruct (Qltb t0 t) eqn:E0.
  - apply Qltb_iff in E0. cbv zeta. match goal with |- context [Qle_bool ?a t] => destruct (Qle_bool a t) eqn:E1 end.
    + apply Qle_bool_iff in E1. eexists. split; [reflexivity|]. intro f. symmetry.
      apply (track_last f _ _ t R N E1).
    + apply Qleb_false in E1.
      destruct (span_track _ t (t0, p0) R ltac:(exists (t0, p0), keys; split; [reflexivity|apply Qlt_le_weak; exact E0]) E1)
        as (a & b & A1 & A2 & A3 & A4).
      rewrite A1. destruct (Qeq_bool (fst a) t) eqn:E.
      * eexists. split; [reflexivity|]. intro f. rewrite A4. reflexivity.
      * eexists. split; [reflexivity|]. intro f. rewrite A4. reflexivity.
  - apply Qltb_false in E0. eexists. split; [reflexivity|]. intro f. unfold track. cbn [map fst snd]. rewrite path_first by exact E0. reflexivity.
Qed.

Lemma points_val w c : points_at w c = mkpt (val (fun p => px (p c)) w) (val (fun p => py (p c)) w) (val (fun p => pz (p c)) w).
Proof.
  destruct w as [a [[b m]|]]; unfold points_at, val.
  - reflexivity.
  - destruct (snd a c); reflexivity.
Qed.

Lemma tight_val w : tight_bound w =
  mkbound3 (mkpt (val (fun p => px (lo (key_bound p))) w) (val (fun p => py (lo (key_bound p))) w) (val (fun p => pz (lo (key_bound p))) w))
           (mkpt (val (fun p => px (hi (key_bound p))) w) (val (fun p => py (hi (key_bound p))) w) (val (fun p => pz (hi (key_bound p))) w)).
Proof. destruct w as [a [[b m]|]]; reflexivity. Qed.

Lemma contains_ext o p q l s : (forall k, p k = q k) -> contains o p l s = contains o q l s.
Proof.
  intro H. unfold contains. rewrite !H.
  assert (E : forall e, cache_edge o p e = cache_edge o q e) by (intro e; unfold cache_edge; rewrite !H; reflexivity).
  assert (F : forall n e, failing_edge (cache_edge o p) s n e = failing_edge (cache_edge o q) s n e).
  { induction n as [|n IH]; intro e; [reflexivity|]. cbn [failing_edge]. unfold rejects. rewrite E.
    destruct (if (2 <=? e)%nat then _ else _); [reflexivity|apply IH]. }
  rewrite F. reflexivity.
Qed.

Lemma vertex_order_ext p q : (forall k, p k = q k) -> vertex_order p = vertex_order q.
Proof.
  intro H. unfold vertex_order. rewrite !H.
  destruct (close_ _ _); [rewrite !H; reflexivity|]. destruct (close_ _ _); [rewrite !H; reflexivity|].
  destruct (close_ _ _); [rewrite !H; reflexivity|]. destruct (close_ _ _); rewrite !H; reflexivity.
Qed.

Lemma keys_times g iu iv : map fst (keys_of g iu iv) = map fst (mkeys g).
Proof. unfold keys_of. rewrite map_map. reflexivity. Qed.

Lemma track_grid g iu iv t c : vertices (grid_at g t) iu iv c =
  mkpt (track (fun p => px (p c)) (keys_of g iu iv) t) (track (fun p => py (p c)) (keys_of g iu iv) t) (track (fun p => pz (p c)) (keys_of g iu iv) t).
Proof.
  unfold track, keys_of. rewrite !map_map. cbn [fst snd].
  destruct c as [|[|[|c]]]; reflexivity.
Qed.

(** The corners that the code uses are those of the grid at that time. *)
Lemma place_grid g iu iv t : rising (map fst (mkeys g)) -> mkeys g <> [] ->
  exists w, place (keys_of g iu iv) t = Some w /\ (forall c, points_at w c = vertices (grid_at g t) iu iv c) /\
    forall f, val f w = track f (keys_of g iu iv) t.
Proof.
  intros R N. destruct (place_track (keys_of g iu iv) t) as (w & W & V).
  - rewrite keys_times. exact R.
  - unfold keys_of. destruct (mkeys g); [congruence|discriminate].
  - exists w. split; [exact W|]. split; [|exact V]. intro c. rewrite points_val, track_grid, !V. reflexivity.
Qed.

Lemma first_grid g iu iv t p r : keys_of g iu iv = (t, p) :: r -> forall c, p c = vertices (grid_at g t) iu iv c.
Proof.
  intros E c. rewrite track_grid. unfold track. rewrite E. cbn [map fst snd]. rewrite !path_first by apply Qle_refl.
  destruct (p c); reflexivity.
Qed.

Lemma order_steady g sign iu iv t t' : steady g sign -> is_mpg (grid_at g t) (iu, iv) ->
  vertex_order (vertices (grid_at g t) iu iv) = vertex_order (vertices (grid_at g t') iu iv).
Proof.
  intros S M. destruct (S t) as [[SG W] L]. destruct (S t') as [[_ W'] L'].
  assert (M' : is_mpg (grid_at g t') (iu, iv)) by exact M.
  destruct (vertex_order_flip _ iu iv M L) as [F1 F2]. destruct (vertex_order_flip _ iu iv M' L') as [F1' F2'].
  pose proof (proj1 (W _ M)) as T. pose proof (proj1 (W' _ M')) as T'.
  destruct SG as [SG|SG].
  - rewrite F1, F1'; [reflexivity|rewrite SG in T'; lra|rewrite SG in T; lra].
  - rewrite F2, F2'; [reflexivity|rewrite SG in T'; lra|rewrite SG in T; lra].
Qed.

(** ** The bounds of the parts of the time *)

Record low (f : bound3 -> Q) : Prop := mklow {
  low_enc : forall a b, f (encapsulate a b) <= f a /\ f (encapsulate a b) <= f b;
  low_mid : forall m a b, f (mid_bound m a b) == f a + m * (f b - f a) }.

Lemma low_minx : low (fun b => px (lo b)).
Proof. split; intros; cbn; [apply Qminb_le|ring]. Qed.
Lemma low_miny : low (fun b => py (lo b)).
Proof. split; intros; cbn; [apply Qminb_le|ring]. Qed.
Lemma low_minz : low (fun b => pz (lo b)).
Proof. split; intros; cbn; [apply Qminb_le|ring]. Qed.
Lemma low_maxx : low (fun b => - px (hi b)).
Proof. split; intros; cbn; [destruct (Qmaxb_ge (px (hi a)) (px (hi b))); split; lra|ring]. Qed.
Lemma low_maxy : low (fun b => - py (hi b)).
Proof. split; intros; cbn; [destruct (Qmaxb_ge (py (hi a)) (py (hi b))); split; lra|ring]. Qed.
Lemma low_maxz : low (fun b => - pz (hi b)).
Proof. split; intros; cbn; [destruct (Qmaxb_ge (pz (hi a)) (pz (hi b))); split; lra|ring]. Qed.

Section Bounds.
  Variable keys : list key.
  Hypothesis R : rising (map fst keys).
  Variables (N : nat) (tlast : Q) (plast : nat -> pt3).
  Hypothesis HN : length keys = S N.
  Hypothesis HNpos : (0 < N)%nat.
  Hypothesis Hlast : nth_error keys N = Some (tlast, plast).

  Lemma time_nth i t p : nth_error keys i = Some (t, p) -> nth_error (map fst keys) i = Some t.
  Proof. intro E. rewrite nth_error_map, E. reflexivity. Qed.

  Lemma end_key_ok fuel : forall time e, (e <= N)%nat -> (N - e < fuel)%nat -> time <= tlast ->
    exists e' t p, end_key fuel keys time e = Some e' /\ (e <= e')%nat /\ (e' <= N)%nat /\ nth_error keys e' = Some (t, p) /\ time <= t /\
      (e' = e \/ exists t' p', nth_error keys (e' - 1) = Some (t', p') /\ t' < time).
  Proof.
    induction fuel as [|fuel IH]; intros time e He Hf Ht; [lia|].
    destruct (nth_error keys e) as [[t p]|] eqn:E; [|apply nth_error_None in E; lia].
    cbn [end_key]. rewrite E. rewrite HN. destruct (Qltb t time) eqn:L.
    - apply Qltb_iff in L. cbn [andb]. destruct (e <? S N - 1)%nat eqn:B.
      + apply Nat.ltb_lt in B. destruct (IH time (S e) ltac:(lia) ltac:(lia) Ht) as (e' & t' & p' & A1 & A2 & A3 & A4 & A5 & A6).
        exists e', t', p'. split; [exact A1|]. split; [lia|]. split; [exact A3|]. split; [exact A4|]. split; [exact A5|]. right.
        destruct A6 as [->|A6]; [|exact A6]. exists t, p. replace (S e - 1)%nat with e by lia. auto.
      + apply Nat.ltb_ge in B. assert (e = N) by lia. subst e. rewrite Hlast in E. injection E as -> ->. lra.
    - apply Qltb_false in L. cbn [andb]. exists e, t, p. repeat split; auto.
  Qed.

  Lemma add_keys_ok s e b : (e <= N)%nat -> exists b', add_keys keys s e b = Some b' /\
    forall f, low f -> f b' <= f b /\ forall k t p, (s < k <= e)%nat -> nth_error keys k = Some (t, p) -> f b' <= f (key_bound p).
  Proof.
    intro He. unfold add_keys. remember (e - s)%nat as n eqn:En. revert s b En.
    induction n as [|n IH]; intros s b En; cbn [seq fold_left].
    - exists b. split; [reflexivity|]. intros f F. split; [apply Qle_refl|]. intros; lia.
    - destruct (nth_error keys (S s)) as [[t p]|] eqn:E; [|apply nth_error_None in E; lia].
      destruct (IH (S s) (encapsulate b (key_bound p)) ltac:(lia)) as (b' & A1 & A2). exists b'. split; [exact A1|].
      intros f F. destruct (A2 f F) as [B1 B2]. destruct (low_enc f F b (key_bound p)) as [C1 C2]. split; [lra|].
      intros k t' p' Hk E'. destruct (Nat.eq_dec k (S s)) as [->|NE].
      + rewrite E in E'. injection E' as <- <-. lra.
      + apply (B2 k t' p'); [lia|exact E'].
  Qed.

  Lemma track_nth (f : (nat -> pt3) -> Q) i t p : nth_error keys i = Some (t, p) ->
    nth_error (map (fun k => (fst k, f (snd k))) keys) i = Some (t, f p).
  Proof. intro E. rewrite nth_error_map, E. reflexivity. Qed.

  Lemma track_rising (f : (nat -> pt3) -> Q) : rising (map fst (map (fun k => (fst k, f (snd k))) keys)).
  Proof. rewrite map_map. exact R. Qed.

  Variable dt : Q.
  Hypothesis Hdt : 0 < dt.

  Definition under (b : bound3) (t : Q) : Prop := forall f, low f -> f b <= track (fun p => f (key_bound p)) keys t.

  Lemma bounds_from_ok n : forall time s ts ps b T, (s < N)%nat -> nth_error keys s = Some (ts, ps) -> ts <= T -> T <= time - dt ->
    under b T -> time + inject_Z (Z.of_nat n) * dt <= tlast + dt ->
    exists l, bounds_from n keys dt time s (S s) b = Some l /\ length l = n /\
      forall i b t0, nth_error l i = Some (b, t0) -> t0 == time - dt + inject_Z (Z.of_nat i) * dt /\
        forall t, t0 <= t -> t <= t0 + dt -> under b t.
  Proof.
    induction n as [|n IH]; intros time s ts ps b T Hs Es HT HTt HU HE.
    - exists []. repeat split; try reflexivity; destruct i; discriminate.
    - rewrite Nat2Z.inj_succ in HE. unfold Z.succ in HE. rewrite inject_Z_plus in HE. change (inject_Z 1) with 1 in HE.
      assert (Hn : 0 <= inject_Z (Z.of_nat n) * dt).
      { apply Qmult_le_0_compat; [|lra]. change 0 with (inject_Z 0). rewrite <- Zle_Qle. lia. }
      assert (HE' : time + inject_Z (Z.of_nat n) * dt <= tlast) by lra.
      destruct (end_key_ok (length keys) time (S s) ltac:(lia) ltac:(lia) ltac:(lra)) as (e & t1 & p1 & A1 & A2 & A3 & A4 & A5 & A6).
      cbn [bounds_from]. rewrite A1.
      destruct (nth_error keys (e - 1)) as [[te pe]|] eqn:E0; [|apply nth_error_None in E0; lia].
      rewrite A4. cbv zeta.
      assert (Hte : te <= time).
      { destruct A6 as [->|(t' & p' & B1 & B2)].
        - replace (S s - 1)%nat with s in E0 by lia. rewrite Es in E0. injection E0 as <- <-. lra.
        - injection B1 as <- <-. lra. }
      set (mid := mid_bound ((time - te) / (t1 - te)) (key_bound pe) (key_bound p1)).
      assert (UM : under mid time).
      { intros f F. unfold mid. rewrite (low_mid f F). unfold track.
        assert (A4' : nth_error keys (S (e - 1)) = Some (t1, p1)) by (replace (S (e - 1)) with e by lia; exact A4).
        pose proof (path_seg (map (fun k => (fst k, f (key_bound (snd k)))) keys) (e - 1) te _ t1 _ time
                      (track_rising (fun p => f (key_bound p))) (track_nth (fun p => f (key_bound p)) _ _ _ E0)
                      (track_nth (fun p => f (key_bound p)) _ _ _ A4') Hte A5) as PS.
        cbv beta in PS. rewrite PS. lra. }
      destruct (add_keys_ok s (e - 1) (encapsulate b mid) ltac:(lia)) as (b' & B1 & B2). rewrite B1.
      destruct (IH (time + dt) (e - 1)%nat te pe mid time ltac:(lia) E0 Hte ltac:(lra) UM ltac:(lra)) as (l & C1 & C2 & C3).
      replace (Nat.max s (e - 1)) with (e - 1)%nat by lia. replace (S (e - 1)) with e in C1 by lia.
      rewrite C1. eexists. split; [reflexivity|]. split; [cbn [length]; rewrite C2; reflexivity|].
      intros i b'' t0 Ei. destruct i as [|i].
      + cbn [nth_error] in Ei. injection Ei as <- <-. split; [change (inject_Z (Z.of_nat 0)) with 0; ring|].
        intros t H1 H2 f F. destruct (B2 f F) as [D1 D2]. destruct (low_enc f F b mid) as [F1 F2].
        destruct (nth_error keys 0) as [[tf pf]|] eqn:Ef; [|apply nth_error_None in Ef; lia].
        apply (path_above _ (f b') tf (f (key_bound pf)) N tlast (f (key_bound plast)) T time (track_rising _)
                 (track_nth (fun p => f (key_bound p)) _ _ _ Ef) (track_nth (fun p => f (key_bound p)) _ _ _ Hlast) HNpos).
        * eapply Qle_trans; [|exact HT]. exact (rising_nth_le _ 0 s tf ts R ltac:(lia) (time_nth _ _ _ Ef) (time_nth _ _ _ Es)).
        * lra.
        * pose proof (HU f F) as HUf. unfold track in HUf. lra.
        * pose proof (UM f F) as UMf. unfold track in UMf. lra.
        * intros k t' a Ek K1 K2. rewrite nth_error_map in Ek. destruct (nth_error keys k) as [[tk pk]|] eqn:EK; [|discriminate].
          cbn [option_map fst snd] in Ek. injection Ek as <- <-. apply (D2 k tk pk); [|exact EK]. split.
          -- destruct (le_lt_dec k s) as [L|L]; [|exact L]. exfalso.
             pose proof (rising_nth_le _ k s tk ts R L (time_nth _ _ _ EK) (time_nth _ _ _ Es)). lra.
          -- destruct (le_lt_dec e k) as [L|L]; [|lia]. exfalso.
             pose proof (rising_nth_le _ e k t1 tk R L (time_nth _ _ _ A4) (time_nth _ _ _ EK)). lra.
        * lra.
        * lra.
      + cbn [nth_error] in Ei. destruct (C3 i b'' t0 Ei) as [G1 G2]. split; [|exact G2]. rewrite G1.
        rewrite Nat2Z.inj_succ. unfold Z.succ. rewrite inject_Z_plus. change (inject_Z 1) with 1. ring.
  Qed.
End Bounds.

Lemma key_bound_in p c : (c < 4)%nat ->
  (px (lo (key_bound p)) <= px (p c) <= px (hi (key_bound p))) /\
  (py (lo (key_bound p)) <= py (p c) <= py (hi (key_bound p))) /\
  (pz (lo (key_bound p)) <= pz (p c) <= pz (hi (key_bound p))).
Proof.
  intro H.
  assert (G : forall f : pt3 -> Q,
    Qminb (f (p 0%nat)) (Qminb (f (p 1%nat)) (Qminb (f (p 2%nat)) (f (p 3%nat)))) <= f (p c) /\
    f (p c) <= Qmaxb (f (p 0%nat)) (Qmaxb (f (p 1%nat)) (Qmaxb (f (p 2%nat)) (f (p 3%nat))))).
  { intro f.
    destruct (Qminb_le (f (p 0%nat)) (Qminb (f (p 1%nat)) (Qminb (f (p 2%nat)) (f (p 3%nat))))).
    destruct (Qminb_le (f (p 1%nat)) (Qminb (f (p 2%nat)) (f (p 3%nat)))).
    destruct (Qminb_le (f (p 2%nat)) (f (p 3%nat))).
    destruct (Qmaxb_ge (f (p 0%nat)) (Qmaxb (f (p 1%nat)) (Qmaxb (f (p 2%nat)) (f (p 3%nat))))).
    destruct (Qmaxb_ge (f (p 1%nat)) (Qmaxb (f (p 2%nat)) (f (p 3%nat)))).
    destruct (Qmaxb_ge (f (p 2%nat)) (f (p 3%nat))).
    destruct c as [|[|[|[|c]]]]; [| | | |lia]; split; lra. }
  pose proof (G px) as G1. pose proof (G py) as G2. pose proof (G pz) as G3. cbn [key_bound lo hi px py pz]. tauto.
Qed.

Section Moving.
  Variables (g : mgrid) (sign : Q) (v : view) (iu iv : nat).
  Hypothesis HC : covers g v.
  Hypothesis HS : steady g sign.
  Hypothesis HM : (iu < mcu g /\ iv < mcv g)%nat.
  Hypothesis Hx : (0 < vxs v)%Z.
  Hypothesis Hy : (0 < vys v)%Z.

  Local Notation keys := (keys_of g iu iv).
  Local Notation n := (vxs v * vys v)%Z.

  Lemma m_is t : is_mpg (grid_at g t) (iu, iv).
  Proof. exact HM. Qed.

  Lemma keys_nonempty : mkeys g <> [].
  Proof. destruct HC as (_ & _ & (a & r & E & _) & _). destruct (mkeys g); [discriminate|discriminate]. Qed.

  Lemma keys_shape : exists t0 p0 r tl pl N, keys = (t0, p0) :: r /\ t0 <= open_ v /\ length keys = S N /\ (0 < N)%nat /\
    nth_error keys N = Some (tl, pl) /\ close_time v <= tl.
  Proof.
    destruct HC as (R & OC & (a & r & E1 & H1) & (r' & b & E2 & H2)).
    assert (E3 : map fst keys = a :: r) by (rewrite keys_times; exact E1).
    assert (E4 : map fst keys = r' ++ [b]) by (rewrite keys_times; exact E2).
    destruct keys as [|[t0 p0] ks] eqn:EK; [discriminate|].
    assert (HL : length ((t0, p0) :: ks) = S (length r')).
    { rewrite <- (map_length fst), E4, app_length. cbn [length]. lia. }
    assert (HN : nth_error (map fst ((t0, p0) :: ks)) (length r') = Some b).
    { rewrite E4, nth_error_app2 by lia. rewrite Nat.sub_diag. reflexivity. }
    rewrite nth_error_map in HN. destruct (nth_error ((t0, p0) :: ks) (length r')) as [[tl pl]|] eqn:EL; [|discriminate].
    cbn [option_map fst] in HN. injection HN as ->. injection E3 as -> E3.
    exists a, p0, ks, b, pl, (length r'). repeat split; try assumption.
    destruct r' as [|c r']; [|cbn [length]; lia]. exfalso. cbn [length nth_error] in EL. injection EL as -> ->. lra.
  Qed.

  Lemma divisions_ok : exists D, divisions keys (Z.max 4 n) = Some D /\ (1 <= D <= Z.max 4 n)%Z.
  Proof.
    destruct keys_shape as (t0 & p0 & r & tl & pl & N & E & _). unfold divisions. rewrite E. cbv zeta.
    match goal with |- context [Qeq_bool ?a 0] => destruct (Qeq_bool a 0) eqn:Z end.
    - exfalso. apply Qeq_bool_iff in Z.
      pose proof (first_grid g iu iv t0 p0 r E) as FG. destruct (HS t0) as [[SG W] _]. specialize (W _ (m_is t0)).
      assert (X : px (hi (key_bound p0)) - px (lo (key_bound p0)) == 0 /\ py (hi (key_bound p0)) - py (lo (key_bound p0)) == 0).
      { set (a := px (hi (key_bound p0)) - px (lo (key_bound p0))) in *. set (b := py (hi (key_bound p0)) - py (lo (key_bound p0))) in *.
        clearbody a b. assert (A : 0 <= a * a) by (destruct (Qlt_le_dec a 0); [setoid_replace (a * a) with ((- a) * (- a)) by ring; apply Qmult_le_0_compat; lra|apply Qmult_le_0_compat; assumption]).
        assert (B : 0 <= b * b) by (destruct (Qlt_le_dec b 0); [setoid_replace (b * b) with ((- b) * (- b)) by ring; apply Qmult_le_0_compat; lra|apply Qmult_le_0_compat; assumption]).
        split.
        - assert (a * a == 0) by lra. destruct (Qmult_integral _ _ H); assumption.
        - assert (b * b == 0) by lra. destruct (Qmult_integral _ _ H); assumption. }
      pose proof (key_bound_in p0 0 ltac:(lia)) as K0. pose proof (key_bound_in p0 1 ltac:(lia)) as K1.
      pose proof (key_bound_in p0 3 ltac:(lia)) as K3. rewrite !FG in K0, K1, K3.
      destruct W as [W _]. unfold turn, gx, gy in W. cbn [fst snd vertices] in *.
      set (x0 := px (gp (grid_at g t0) iu iv)) in *. set (y0 := py (gp (grid_at g t0) iu iv)) in *.
      set (x1 := px (gp (grid_at g t0) (S iu) iv)) in *. set (y1 := py (gp (grid_at g t0) (S iu) iv)) in *.
      set (x3 := px (gp (grid_at g t0) (S iu) (S iv))) in *. set (y3 := py (gp (grid_at g t0) (S iu) (S iv))) in *.
      assert (E1 : x1 - x0 == 0) by lra. assert (E2 : y1 - y0 == 0) by lra. rewrite E1, E2 in W. lra.
    - eexists. split; [reflexivity|]. lia.
  Qed.

  (** Each bound contains the micropolygon during its time. *)
  Lemma bound_list_ok : exists D l, (1 <= D <= Z.max 4 n)%Z /\ bound_list keys (open_ v) (close_time v) (Z.max 4 n) = Some l /\
    length l = Z.to_nat D /\
    forall i b t0, nth_error l i = Some (b, t0) ->
      t0 == open_ v + inject_Z (Z.of_nat i) * ((close_time v - open_ v) / inject_Z D) /\
      forall t, t0 <= t -> t <= t0 + (close_time v - open_ v) / inject_Z D -> under keys b t.
  Proof.
    destruct divisions_ok as (D & ED & HD). destruct keys_shape as (t0 & p0 & r & tl & pl & N & E & HF & HL & HN & EL & HCl).
    exists D. destruct HC as (R & OC & _ & _).
    assert (DP : 0 < inject_Z D) by (change 0 with (inject_Z 0); rewrite <- Zlt_Qlt; lia).
    assert (DT : 0 < (close_time v - open_ v) / inject_Z D) by (apply Qlt_shift_div_l; lra).
    set (dt := (close_time v - open_ v) / inject_Z D) in *.
    assert (R' : rising (map fst keys)) by (rewrite keys_times; exact R).
    assert (E0 : nth_error keys 0 = Some (t0, p0)) by (rewrite E; reflexivity).
    destruct (bounds_from_ok keys R' N tl pl HL HN EL dt DT (Z.to_nat D) (open_ v + dt) 0 t0 p0 (key_bound p0) t0) as (l & B1 & B2 & B3).
    - exact HN.
    - exact E0.
    - apply Qle_refl.
    - lra.
    - intros f F. unfold track. rewrite E. cbn [map fst snd]. rewrite path_first by apply Qle_refl. apply Qle_refl.
    - rewrite Z2Nat.id by lia.
      assert (inject_Z D * dt == close_time v - open_ v) by (unfold dt; field; lra). lra.
    - exists l. split; [exact HD|]. split; [unfold bound_list; rewrite E in ED, B1 |- *; rewrite ED; exact B1|]. split; [exact B2|].
      intros i b s Ei. destruct (B3 i b s Ei) as [A1 A2]. split; [rewrite A1; ring|exact A2].
  Qed.
End Moving.

(** ** The samples looked at *)

Open Scope Z_scope.

Definition at_time (sd : msamples) (w : Z * Z * Z) : Q := let '(x, y, k) := w in mtime sd x y k.
Definition at_pos (sd : msamples) (w : Z * Z * Z) : Q * Q := let '(x, y, k) := w in mpos sd x y k.
Definition at_occl (sd : msamples) (w : Z * Z * Z) : Q := let '(x, y, k) := w in mocclz sd x y k.
Definition at_detail (sd : msamples) (w : Z * Z * Z) : Q := let '(x, y, k) := w in mdetail sd x y k.

Lemma collect_in {A B} (f : A -> option (list B)) l : (forall a, In a l -> exists o, f a = Some o) ->
  exists out, collect f l = Some out /\ forall h, In h out <-> exists a o, In a l /\ f a = Some o /\ In h o.
Proof.
  induction l as [|a l IH]; intro H.
  - exists []. split; [reflexivity|]. intro h. split; [intros []|intros (a & o & [] & _)].
  - destruct (H a ltac:(left; reflexivity)) as [o E]. destruct (IH ltac:(intros b I; apply H; right; exact I)) as (out & E' & Q).
    exists (o ++ out). split; [cbn [collect]; rewrite E, E'; reflexivity|]. intro h. rewrite in_app_iff, Q. split.
    + intros [I|(b & o' & I & F & J)]; [exists a, o; repeat split; auto; left; reflexivity|exists b, o'; repeat split; auto; right; exact I].
    + intros (b & o' & [<-|I] & F & J); [left; congruence|right; exists b, o'; auto].
Qed.

Lemma look_cases keys i sd v b time0 time1 w o : look keys i sd v b time0 time1 w = Some o ->
  o = [] \/ exists d, o = [(w, d)] /\ sample_moving keys (at_time sd w) (at_pos sd w) = Some (Some d) /\
    (time0 <= at_time sd w <= time1)%Q.
Proof.
  destruct w as [[x y] k]. cbn [look at_time at_pos]. destruct (_ || _)%bool; [discriminate|]. cbv zeta.
  destruct (Qltb (mtime sd x y k) time0 || Qltb time1 (mtime sd x y k)) eqn:T; [intro E; injection E as <-; left; reflexivity|].
  destruct (negb _); [intro E; injection E as <-; left; reflexivity|].
  destruct (_ && _)%bool; [intro E; injection E as <-; left; reflexivity|].
  destruct (_ && _)%bool; [intro E; injection E as <-; left; reflexivity|].
  destruct (sample_moving _ _ _) as [[d|]|] eqn:S; intro E; [|injection E as <-; left; reflexivity|discriminate].
  injection E as <-. right. exists d. split; [reflexivity|]. split; [reflexivity|]. apply orb_false_iff in T.
  destruct T as [T1 T2]. apply Qltb_false in T1. apply Qltb_false in T2. auto.
Qed.

Section Look.
  Variables (keys : list key) (i : mpg_info) (sd : msamples) (v : view).
  Hypothesis Hs : forall t s, exists r, sample_moving keys t s = Some r.

  Lemma look_some b time0 time1 w : (let '(x, y, k) := w in 0 <= k < vxs v * vys v) ->
    exists o, look keys i sd v b time0 time1 w = Some o.
  Proof.
    destruct w as [[x y] k]. intro H. cbn [look]. replace ((k <? 0) || (vxs v * vys v <=? k))%bool with false by lia. cbv zeta.
    repeat match goal with |- exists o, (if ?c then _ else _) = Some o => destruct c; [eexists; reflexivity|] end.
    destruct (Hs (mtime sd x y k) (mpos sd x y k)) as [r ->]. destruct r; eexists; reflexivity.
  Qed.

  Definition looked (b : bound3) (time0 time1 : Q) : list (Z * Z * Z) :=
    let '(t0, t1) := index_range v time0 time1 in
    let eX := Z.min (Qceiling (px (hi b))) (xmax (vr v)) in
    let eY := Z.min (Qceiling (py (hi b))) (ymax (vr v)) in
    let sX := Z.max (Qfloor (px (lo b))) (xmin (vr v)) in
    let sY := Z.max (Qfloor (py (lo b))) (ymin (vr v)) in
    if Qltb time1 (open_ v) || Qltb (close_time v) time0 || (Qltb (clip_far v) (pz (lo b)) || Qltb (pz (hi b)) (clip_near v)) then []
    else flat_map (fun iY => flat_map (fun iX => map (fun k => (iX, iY, k)) (zrange t0 t1)) (zrange sX eX)) (zrange sY eY).

  Lemma zrange_empty a b : b <= a -> zrange a b = [].
  Proof. intro H. unfold zrange. replace (Z.to_nat (b - a)) with 0%nat by lia. reflexivity. Qed.

  Lemma flat_map_empty {A B} (f : A -> list B) l : (forall a, f a = []) -> flat_map f l = [].
  Proof. intro H. induction l as [|a l IH]; [reflexivity|]. cbn [flat_map]. rewrite H, IH. reflexivity. Qed.

  Lemma render_bound_looked b time0 time1 :
    render_bound keys i sd v b time0 time1 = collect (look keys i sd v b time0 time1) (looked b time0 time1).
  Proof.
    unfold render_bound, looked. destruct (index_range v time0 time1) as [t0 t1].
    destruct (_ || _)%bool; [reflexivity|]. cbn [orb]. destruct (_ || _)%bool; [reflexivity|]. cbv zeta.
    match goal with |- context [(?a >=? ?b) || (?c >=? ?d)] => destruct ((a >=? b) || (c >=? d))%bool eqn:E end; [|reflexivity].
    apply orb_true_iff in E. destruct E as [E|E].
    - rewrite (flat_map_empty _ (zrange _ _)); [reflexivity|]. intro y. rewrite (zrange_empty (Z.max (Qfloor (px (lo b))) (xmin (vr v))) (Z.min (Qceiling (px (hi b))) (xmax (vr v)))) by lia. reflexivity.
    - rewrite (zrange_empty (Z.max (Qfloor (py (lo b))) (ymin (vr v))) (Z.min (Qceiling (py (hi b))) (ymax (vr v)))) by lia. reflexivity.
  Qed.

  Lemma looked_in b time0 time1 x y k : In (x, y, k) (looked b time0 time1) <->
    ~ (time1 < open_ v)%Q /\ ~ (close_time v < time0)%Q /\ ~ (clip_far v < pz (lo b))%Q /\ ~ (pz (hi b) < clip_near v)%Q /\
    Z.max (Qfloor (px (lo b))) (xmin (vr v)) <= x < Z.min (Qceiling (px (hi b))) (xmax (vr v)) /\
    Z.max (Qfloor (py (lo b))) (ymin (vr v)) <= y < Z.min (Qceiling (py (hi b))) (ymax (vr v)) /\
    fst (index_range v time0 time1) <= k < snd (index_range v time0 time1).
  Proof.
    unfold looked. destruct (index_range v time0 time1) as [t0 t1]. cbn [fst snd].
    destruct (Qltb time1 (open_ v)) eqn:E1.
    { apply Qltb_iff in E1. cbn [orb]. split; [intros []|tauto]. }
    destruct (Qltb (close_time v) time0) eqn:E2.
    { apply Qltb_iff in E2. cbn [orb]. split; [intros []|tauto]. }
    destruct (Qltb (clip_far v) (pz (lo b))) eqn:E3.
    { apply Qltb_iff in E3. cbn [orb]. split; [intros []|tauto]. }
    destruct (Qltb (pz (hi b)) (clip_near v)) eqn:E4.
    { apply Qltb_iff in E4. cbn [orb]. split; [intros []|tauto]. }
    apply Qltb_false in E1, E2, E3, E4. cbn [orb].
    apply Qle_not_lt in E1. apply Qle_not_lt in E2. apply Qle_not_lt in E3. apply Qle_not_lt in E4.
    rewrite in_flat_map. split.
    - intros (iY & IY & J). apply in_flat_map in J. destruct J as (iX & IX & J). apply in_map_iff in J. destruct J as (k' & EQ & IK).
      injection EQ as -> -> ->. apply zrange_in in IY. apply zrange_in in IX. apply zrange_in in IK. tauto.
    - intros (_ & _ & _ & _ & X & Y & K). exists y. split; [apply zrange_in; exact Y|]. apply in_flat_map. exists x.
      split; [apply zrange_in; exact X|]. apply in_map_iff. exists k. split; [reflexivity|apply zrange_in; exact K].
  Qed.

  Lemma looked_nodup b time0 time1 : NoDup (looked b time0 time1).
  Proof.
    unfold looked. destruct (index_range v time0 time1) as [t0 t1]. destruct (_ || _)%bool; [constructor|].
    apply (NoDup_flat_map_key _ (fun w => snd (fst w))); [apply zrange_nodup| |].
    - intros y _. apply (NoDup_flat_map_key _ (fun w => fst (fst w))); [apply zrange_nodup| |].
      + intros x _. apply FinFun.Injective_map_NoDup; [intros a c E; congruence|apply zrange_nodup].
      + intros x w _ I. apply in_map_iff in I. destruct I as (k & <- & _). reflexivity.
    - intros y w _ I. apply in_flat_map in I. destruct I as (x & _ & I). apply in_map_iff in I. destruct I as (k & <- & _). reflexivity.
  Qed.
End Look.

Lemma collect_nodup keys i sd v b time0 time1 l : forall out, NoDup l -> collect (look keys i sd v b time0 time1) l = Some out ->
  NoDup (map fst out) /\ forall w d, In (w, d) out -> In w l /\ sample_moving keys (at_time sd w) (at_pos sd w) = Some (Some d) /\
    (time0 <= at_time sd w <= time1)%Q.
Proof.
  induction l as [|a l IH]; intros out N E; cbn [collect] in E.
  - injection E as <-. split; [constructor|intros w d []].
  - destruct (look keys i sd v b time0 time1 a) as [o|] eqn:L; [|discriminate].
    destruct (collect _ l) as [o'|] eqn:C; [|discriminate]. injection E as <-.
    apply NoDup_cons_iff in N. destruct N as [Na N]. destruct (IH o' N eq_refl) as [A1 A2].
    destruct (look_cases _ _ _ _ _ _ _ _ _ L) as [->|(d & -> & S & T)].
    + split; [exact A1|]. intros w d I. destruct (A2 w d I) as (B1 & B2 & B3). split; [right; exact B1|auto].
    + split.
      * cbn [app map fst]. constructor; [|exact A1]. intro I. apply in_map_iff in I. destruct I as ([w e] & W & I). cbn [fst] in W. subst w.
        apply Na. exact (proj1 (A2 _ _ I)).
      * intros w e [I|I].
        -- injection I as <- <-. split; [left; reflexivity|auto].
        -- destruct (A2 w e I) as (B1 & B2 & B3). split; [right; exact B1|auto].
Qed.

Definition next_time (v : view) (bs : list (bound3 * Q)) (i : nat) : Q :=
  match nth_error bs (S i) with Some (_, t) => t | None => close_time v end.

Lemma render_bounds_in keys i sd v bs :
  (forall j b t0, nth_error bs j = Some (b, t0) -> exists o, render_bound keys i sd v b t0 (next_time v bs j) = Some o) ->
  exists out, render_bounds keys i sd v bs = Some out /\
    forall h, In h out <-> exists j b t0 o, nth_error bs j = Some (b, t0) /\
      render_bound keys i sd v b t0 (next_time v bs j) = Some o /\ In h o.
Proof.
  induction bs as [|[b0 s0] bs IH]; intro H.
  - exists []. split; [reflexivity|]. intro h. split; [intros []|intros (j & b & t0 & o & E & _); destruct j; discriminate].
  - destruct (H 0%nat b0 s0 eq_refl) as [o E].
    destruct (IH ltac:(intros j b t0 Ej; exact (H (S j) b t0 Ej))) as (out & EO & Q).
    assert (NT : next_time v ((b0, s0) :: bs) 0 = match bs with [] => close_time v | (_, t) :: _ => t end).
    { unfold next_time. destruct bs as [|[b1 s1] bs]; reflexivity. }
    exists (o ++ out). split; [cbn [render_bounds]; rewrite <- NT, E, EO; reflexivity|].
    intro h. rewrite in_app_iff, Q. split.
    + intros [I|(j & b & t0 & o' & A1 & A2 & A3)]; [exists 0%nat, b0, s0, o; auto|exists (S j), b, t0, o'; auto].
    + intros (j & b & t0 & o' & A1 & A2 & A3). destruct j as [|j].
      * left. injection A1 as <- <-. congruence.
      * right. exists j, b, t0, o'. auto.
Qed.

Lemma render_bounds_sound keys i sd v bs : forall out, render_bounds keys i sd v bs = Some out ->
  forall w d, In (w, d) out -> sample_moving keys (at_time sd w) (at_pos sd w) = Some (Some d) /\
    exists j b t0, nth_error bs j = Some (b, t0) /\ (t0 <= at_time sd w <= next_time v bs j)%Q.
Proof.
  induction bs as [|[b0 s0] bs IH]; intros out E w d I; cbn [render_bounds] in E; [injection E as <-; destruct I|].
  set (t1 := match bs with [] => close_time v | (_, t) :: _ => t end) in *.
  assert (NT : next_time v ((b0, s0) :: bs) 0 = t1) by (unfold next_time, t1; destruct bs as [|[b1 s1] bs]; reflexivity).
  destruct (render_bound keys i sd v b0 s0 t1) as [x|] eqn:X; [|discriminate].
  destruct (render_bounds keys i sd v bs) as [y|] eqn:Y; [|discriminate]. injection E as <-.
  apply in_app_iff in I. destruct I as [I|I].
  - rewrite render_bound_looked in X.
    destruct (proj2 (collect_nodup _ _ _ _ _ _ _ _ _ (looked_nodup v b0 s0 t1) X) w d I) as (_ & A & B).
    split; [exact A|]. exists 0%nat, b0, s0. rewrite NT. auto.
  - destruct (IH y eq_refl w d I) as (A & j & b & t0 & B & C). split; [exact A|]. exists (S j), b, t0. auto.
Qed.

Lemma render_bounds_once dec keys i sd v w bs : forall out, render_bounds keys i sd v bs = Some out ->
  (forall j j' b b' t0 t0', nth_error bs j = Some (b, t0) -> nth_error bs j' = Some (b', t0') ->
     (t0 <= at_time sd w <= next_time v bs j)%Q -> (t0' <= at_time sd w <= next_time v bs j')%Q -> j = j') ->
  (count_occ dec (map fst out) w <= 1)%nat.
Proof.
  induction bs as [|[b0 s0] bs IH]; intros out E U; cbn [render_bounds] in E; [injection E as <-; cbn; lia|].
  set (t1 := match bs with [] => close_time v | (_, t) :: _ => t end) in *.
  assert (NT : next_time v ((b0, s0) :: bs) 0 = t1) by (unfold next_time, t1; destruct bs as [|[b1 s1] bs]; reflexivity).
  destruct (render_bound keys i sd v b0 s0 t1) as [x|] eqn:X; [|discriminate].
  destruct (render_bounds keys i sd v bs) as [y|] eqn:Y; [|discriminate]. injection E as <-.
  rewrite map_app, count_occ_app. rewrite render_bound_looked in X.
  destruct (collect_nodup _ _ _ _ _ _ _ _ _ (looked_nodup v b0 s0 t1) X) as [ND IN].
  assert (CX : (count_occ dec (map fst x) w <= 1)%nat) by (apply NoDup_count_occ; exact ND).
  assert (CY : (count_occ dec (map fst y) w <= 1)%nat).
  { apply (IH y eq_refl). intros j j' b b' t0 t0' A1 A2 A3 A4.
    pose proof (U (S j) (S j') b b' t0 t0' A1 A2 A3 A4). lia. }
  destruct (Nat.eq_dec (count_occ dec (map fst x) w) 0) as [Z|Z]; [lia|].
  assert (IX : In w (map fst x)) by (apply (count_occ_In dec); lia).
  apply in_map_iff in IX. destruct IX as ([w' d] & E' & IX). cbn [fst] in E'. subst w'.
  destruct (IN w d IX) as (_ & _ & T).
  assert (NY : ~ In w (map fst y)).
  { intro IY. apply in_map_iff in IY. destruct IY as ([w' d'] & E' & IY). cbn [fst] in E'. subst w'.
    destruct (render_bounds_sound _ _ _ _ _ y Y w d' IY) as (_ & j & b & t0 & B & C).
    pose proof (U 0%nat (S j) b0 b s0 t0 eq_refl B ltac:(rewrite NT; exact T) C). lia. }
  apply (count_occ_not_In dec) in NY. lia.
Qed.

Open Scope Q_scope.

Lemma Qminb_glb x a b : x <= a -> x <= b -> x <= Qminb a b.
Proof. unfold Qminb. destruct (Qle_bool a b); auto. Qed.
Lemma Qmaxb_lub x a b : a <= x -> b <= x -> Qmaxb a b <= x.
Proof. unfold Qmaxb. destruct (Qle_bool a b); auto. Qed.

Lemma inside2d_iff b s : inside2d b s = true <-> px (lo b) <= fst s <= px (hi b) /\ py (lo b) <= snd s <= py (hi b).
Proof.
  unfold inside2d. rewrite negb_true_iff, !orb_false_iff, !Qltb_false. tauto.
Qed.

Section Moving2.
  Variables (g : mgrid) (sign : Q) (v : view) (iu iv : nat).
  Hypothesis HC : covers g v.
  Hypothesis HS : steady g sign.
  Hypothesis HM : (iu < mcu g /\ iv < mcv g)%nat.
  Hypothesis Hx : (0 < vxs v)%Z.
  Hypothesis Hy : (0 < vys v)%Z.

  Local Notation keys := (keys_of g iu iv).
  Local Notation n := (vxs v * vys v)%Z.

  Lemma n_pos : (0 < n)%Z.
  Proof. apply Z.mul_pos_pos; assumption. Qed.

  Lemma keys_rise : rising (map fst keys).
  Proof. rewrite keys_times. exact (proj1 HC). Qed.

  (** [b] contains the corners at time [t]. *)
  Definition wraps (b : bound3) (t : Q) : Prop := forall c, (c < 4)%nat ->
    let p := vertices (grid_at g t) iu iv c in
    (px (lo b) <= px p <= px (hi b)) /\ (py (lo b) <= py p <= py (hi b)) /\ (pz (lo b) <= pz p <= pz (hi b)).

  Lemma track_le f h t : (forall p, f p <= h p) -> track f keys t <= track h keys t.
  Proof. intro H. unfold track. apply path_mono; [exact keys_rise|]. intros k _. apply H. Qed.

  Lemma track_neg f t : track (fun p => - f p) keys t == - track f keys t.
  Proof. unfold track. exact (path_neg f keys t keys_rise). Qed.

  Lemma under_wraps b t : under keys b t -> wraps b t.
  Proof.
    intros U c Hc. cbv zeta. rewrite track_grid. cbn [px py pz].
    pose proof (U _ low_minx) as A1. pose proof (U _ low_miny) as A2. pose proof (U _ low_minz) as A3.
    pose proof (U _ low_maxx) as B1. pose proof (U _ low_maxy) as B2. pose proof (U _ low_maxz) as B3.
    cbv beta in *.
    rewrite (track_neg (fun p => px (hi (key_bound p)))) in B1. rewrite (track_neg (fun p => py (hi (key_bound p)))) in B2.
    rewrite (track_neg (fun p => pz (hi (key_bound p)))) in B3.
    pose proof (track_le (fun p => px (lo (key_bound p))) (fun p => px (p c)) t (fun p => proj1 (proj1 (key_bound_in p c Hc)))) as C1.
    pose proof (track_le (fun p => px (p c)) (fun p => px (hi (key_bound p))) t (fun p => proj2 (proj1 (key_bound_in p c Hc)))) as D1.
    pose proof (track_le (fun p => py (lo (key_bound p))) (fun p => py (p c)) t (fun p => proj1 (proj1 (proj2 (key_bound_in p c Hc))))) as C2.
    pose proof (track_le (fun p => py (p c)) (fun p => py (hi (key_bound p))) t (fun p => proj2 (proj1 (proj2 (key_bound_in p c Hc))))) as D2.
    pose proof (track_le (fun p => pz (lo (key_bound p))) (fun p => pz (p c)) t (fun p => proj1 (proj2 (proj2 (key_bound_in p c Hc))))) as C3.
    pose proof (track_le (fun p => pz (p c)) (fun p => pz (hi (key_bound p))) t (fun p => proj2 (proj2 (proj2 (key_bound_in p c Hc))))) as D3.
    repeat split; lra.
  Qed.

  Lemma tight_wraps w t : (forall f, val f w = track f keys t) -> wraps (tight_bound w) t.
  Proof.
    intros V c Hc. cbv zeta. rewrite track_grid, tight_val. cbn [px py pz lo hi]. rewrite !V.
    repeat split; apply track_le; intro p; destruct (key_bound_in p c Hc) as ([? ?] & [? ?] & [? ?]); assumption.
  Qed.

  Lemma wraps_hit b t s : wraps b t -> in_mpg (grid_at g t) (iu, iv) s -> inside2d b s = true.
  Proof.
    intros W I. apply in_bound in I. cbv zeta in I. unfold calculate_bound in I. cbn [bminx bminy bmaxx bmaxy fst snd] in I.
    unfold min4, max4 in I. apply inside2d_iff.
    destruct (W 0%nat ltac:(lia)) as ([X0 X0'] & [Y0 Y0'] & _). destruct (W 1%nat ltac:(lia)) as ([X1 X1'] & [Y1 Y1'] & _).
    destruct (W 2%nat ltac:(lia)) as ([X2 X2'] & [Y2 Y2'] & _). destruct (W 3%nat ltac:(lia)) as ([X3 X3'] & [Y3 Y3'] & _).
    destruct I as [[I1 I2] [I3 I4]].
    split; split.
    - eapply Qle_trans; [|exact I1]. repeat apply Qminb_glb; assumption.
    - eapply Qle_trans; [exact I2|]. repeat apply Qmaxb_lub; assumption.
    - eapply Qle_trans; [|exact I3]. repeat apply Qminb_glb; assumption.
    - eapply Qle_trans; [exact I4|]. repeat apply Qmaxb_lub; assumption.
  Qed.

  (** What the code sees of the moving micropolygon is what it would see of the grid that stands still as it is at that time. *)
  Lemma sample_moving_eq t s : sample_moving keys t s = Some (fst (sample (grid_at g t) iu iv 0 s)).
  Proof.
    destruct (keys_shape g v iu iv HC HM) as (t0 & p0 & r & tl & pl & N & E & _).
    destruct (place_grid g iu iv t (proj1 HC) (keys_nonempty g v HC)) as (w & W1 & W2 & W3).
    unfold sample_moving. rewrite E in W1 |- *. rewrite W1. f_equal.
    assert (EO : vertex_order p0 = vertex_order (vertices (grid_at g t) iu iv)).
    { rewrite (vertex_order_ext p0 (vertices (grid_at g t0) iu iv) (first_grid g iu iv t0 p0 r E)).
      apply (order_steady g sign iu iv t0 t HS). exact HM. }
    assert (ES : fst (sample (grid_at g t) iu iv 0 s) = fst (contains (vertex_order p0) (points_at w) 0 s)).
    { unfold sample. rewrite EO, (contains_ext _ (points_at w) (vertices (grid_at g t) iu iv) 0 s W2).
      destruct (contains _ _ 0 s) as [[d|] l]; reflexivity. }
    destruct (inside2d (tight_bound w) s) eqn:I; [symmetry; exact ES|].
    destruct (fst (sample (grid_at g t) iu iv 0 s)) as [d|] eqn:H; [|reflexivity]. exfalso.
    destruct (HS t) as [SW LS].
    assert (IN : in_mpg (grid_at g t) (iu, iv) s).
    { apply (hit_inside (grid_at g t) sign eq_refl LS SW (iu, iv) s HM). unfold is_hit. cbn [fst snd]. rewrite H. discriminate. }
    rewrite (wraps_hit _ t s (tight_wraps w t W3) IN) in I. discriminate.
  Qed.

  Variable l : list (bound3 * Q).
  Variable D : Z.
  Hypothesis HD : (1 <= D <= Z.max 4 n)%Z.
  Hypothesis HL : length l = Z.to_nat D.
  Hypothesis Hl : forall i b t0, nth_error l i = Some (b, t0) ->
      t0 == open_ v + inject_Z (Z.of_nat i) * ((close_time v - open_ v) / inject_Z D) /\
      forall t, t0 <= t -> t <= t0 + (close_time v - open_ v) / inject_Z D -> under keys b t.

  Lemma D_pos : 0 < inject_Z D.
  Proof. change 0 with (inject_Z 0). rewrite <- Zlt_Qlt. lia. Qed.

  Lemma open_lt : open_ v < close_time v.
  Proof. exact (proj1 (proj2 HC)). Qed.

  Lemma dt_pos : 0 < (close_time v - open_ v) / inject_Z D.
  Proof. pose proof D_pos. pose proof open_lt. apply Qlt_shift_div_l; lra. Qed.

  Lemma next_eq i b t0 : nth_error l i = Some (b, t0) -> next_time v l i == t0 + (close_time v - open_ v) / inject_Z D.
  Proof.
    intro E. pose proof D_pos as DP. unfold next_time. destruct (nth_error l (S i)) as [[b' t1]|] eqn:E'.
    - rewrite (proj1 (Hl _ _ _ E)), (proj1 (Hl _ _ _ E')). rewrite Nat2Z.inj_succ. unfold Z.succ. rewrite inject_Z_plus.
      change (inject_Z 1) with 1. ring.
    - apply nth_error_None in E'. assert (Li : (i < length l)%nat) by (apply nth_error_Some; congruence).
      rewrite (proj1 (Hl _ _ _ E)). assert (EI : Z.of_nat i = (D - 1)%Z) by lia. rewrite EI. unfold Z.sub. rewrite inject_Z_plus.
      change (inject_Z (-(1))) with (-(1)). field. lra.
  Qed.

  Lemma i_lt i b t0 : nth_error l i = Some (b, t0) -> (Z.of_nat i < D)%Z.
  Proof. intro E. assert (Li : (i < length l)%nat) by (apply nth_error_Some; congruence). lia. Qed.

  Lemma start_range i b t0 : nth_error l i = Some (b, t0) -> open_ v <= t0 /\ t0 < close_time v /\ next_time v l i <= close_time v.
  Proof.
    intro E. pose proof D_pos as DP. pose proof dt_pos as DT. pose proof (i_lt _ _ _ E) as IL.
    rewrite (next_eq _ _ _ E). rewrite (proj1 (Hl _ _ _ E)). set (dt := (close_time v - open_ v) / inject_Z D) in *.
    assert (ED : inject_Z D * dt == close_time v - open_ v) by (unfold dt; field; lra). clearbody dt.
    assert (0 <= inject_Z (Z.of_nat i)) by (change 0 with (inject_Z 0); rewrite <- Zle_Qle; lia).
    assert (inject_Z (Z.of_nat i) <= inject_Z D - 1).
    { change 1 with (inject_Z 1). unfold Qminus. rewrite <- (inject_Z_opp 1), <- inject_Z_plus, <- Zle_Qle. lia. }
    assert (0 <= inject_Z (Z.of_nat i) * dt) by (apply Qmult_le_0_compat; lra).
    assert (0 <= (inject_Z D - 1 - inject_Z (Z.of_nat i)) * dt) by (apply Qmult_le_0_compat; lra).
    repeat split; lra.
  Qed.

  Lemma index_ok i b t0 : nth_error l i = Some (b, t0) ->
    (0 <= fst (index_range v t0 (next_time v l i)) /\ snd (index_range v t0 (next_time v l i)) <= n)%Z.
  Proof.
    intro E. pose proof n_pos as NP. destruct (start_range _ _ _ E) as (A1 & A2 & A3). pose proof open_lt as OL. unfold index_range.
    destruct (is_close _ _); cbn [fst snd]; [lia|].
    assert (QN : 0 < inject_Z n) by (change 0 with (inject_Z 0); rewrite <- Zlt_Qlt; exact NP).
    set (per := inject_Z n / (close_time v - open_ v)).
    assert (EP : (close_time v - open_ v) * per == inject_Z n) by (unfold per; field; lra).
    assert (PP : 0 < per) by (unfold per; apply Qlt_shift_div_l; lra). clearbody per.
    split; [lia|].
    assert (F : (Qfloor ((t0 - open_ v) * per) < n)%Z).
    { apply Qfloor_lt_Z. rewrite <- EP. apply Qmult_lt_r; lra. }
    assert (C : (Qceiling ((next_time v l i - open_ v) * per) <= n)%Z).
    { apply Qceiling_le_Z. rewrite <- EP. apply Qmult_le_r; lra. }
    lia.
  Qed.

  Lemma bound_renders i' sd i b t0 : nth_error l i = Some (b, t0) ->
    exists o, render_bound keys i' sd v b t0 (next_time v l i) = Some o.
  Proof.
    intro E. rewrite render_bound_looked.
    destruct (collect_in (look keys i' sd v b t0 (next_time v l i)) (looked v b t0 (next_time v l i))) as (out & EO & _).
    - intros [[x y] k] I. apply look_some.
      + intros t s. eexists. apply sample_moving_eq.
      + apply looked_in in I. destruct (index_ok _ _ _ E). lia.
    - eauto.
  Qed.

  (** The part of the time in which a sample lies *)
  Lemma part_of t : open_ v <= t -> t < close_time v ->
    exists i b t0, nth_error l i = Some (b, t0) /\ t0 <= t /\ t < next_time v l i.
  Proof.
    intros H1 H2. pose proof D_pos as DP. pose proof dt_pos as DT.
    set (dt := (close_time v - open_ v) / inject_Z D) in *.
    assert (ED : inject_Z D * dt == close_time v - open_ v) by (unfold dt; field; lra).
    set (q := Qfloor ((t - open_ v) / dt)).
    assert (F1 : inject_Z q <= (t - open_ v) / dt) by (unfold q; apply Qfloor_le).
    assert (F2 : (t - open_ v) / dt < inject_Z (q + 1)) by (unfold q; apply Qlt_floor).
    assert (EQ : (t - open_ v) / dt * dt == t - open_ v) by (field; lra).
    assert (Q0 : (0 <= q)%Z) by (unfold q; apply Qfloor_le_Z; change (inject_Z 0) with 0; apply Qle_shift_div_l; lra).
    assert (QD : (q < D)%Z).
    { rewrite Zlt_Qlt. eapply Qle_lt_trans; [exact F1|]. apply Qlt_shift_div_r; lra. }
    destruct (nth_error l (Z.to_nat q)) as [[b t0]|] eqn:E; [|apply nth_error_None in E; lia].
    exists (Z.to_nat q), b, t0. split; [exact E|]. rewrite (next_eq _ _ _ E). rewrite (proj1 (Hl _ _ _ E)). rewrite Z2Nat.id by exact Q0.
    fold dt. clearbody dt q. rewrite inject_Z_plus in F2. change (inject_Z 1) with 1 in F2.
    set (z := (t - open_ v) / dt) in *. clearbody z.
    assert (0 <= (z - inject_Z q) * dt) by (apply Qmult_le_0_compat; lra).
    assert (0 < (inject_Z q + 1 - z) * dt) by (rewrite <- (Qmult_0_l dt); apply Qmult_lt_r; lra). split; lra.
  Qed.

  Lemma in_index i b t0 t k : nth_error l i = Some (b, t0) -> t0 <= t -> t < next_time v l i -> (0 <= k < n)%Z ->
    inject_Z k * (close_time v - open_ v) <= (t - open_ v) * inject_Z n -> (t - open_ v) * inject_Z n < inject_Z (k + 1) * (close_time v - open_ v) ->
    (fst (index_range v t0 (next_time v l i)) <= k < snd (index_range v t0 (next_time v l i)))%Z.
  Proof.
    intros E H1 H2 HK K1 K2. pose proof open_lt as OL. pose proof n_pos as NP. unfold index_range.
    destruct (is_close _ _); cbn [fst snd]; [lia|].
    assert (QN : 0 < inject_Z n) by (change 0 with (inject_Z 0); rewrite <- Zlt_Qlt; exact NP).
    set (T := close_time v - open_ v) in *. assert (TP : 0 < T) by (unfold T; lra).
    set (per := inject_Z n / T).
    assert (EP : forall x, x * per == x * inject_Z n / T) by (intro x; unfold per; field; lra).
    assert (PP : 0 < per) by (unfold per; apply Qlt_shift_div_l; lra).
    assert (P1 : inject_Z k <= (t - open_ v) * per) by (rewrite EP; apply Qle_shift_div_l; [exact TP|exact K1]).
    assert (P2 : (t - open_ v) * per < inject_Z (k + 1)) by (rewrite EP; apply Qlt_shift_div_r; [exact TP|exact K2]).
    clearbody per.
    assert (F : (Qfloor ((t0 - open_ v) * per) < k + 1)%Z).
    { apply Qfloor_lt_Z. eapply Qle_lt_trans; [|exact P2]. apply Qmult_le_r; lra. }
    assert (C : (k < Qceiling ((next_time v l i - open_ v) * per))%Z).
    { apply Qceiling_gt_Z. eapply Qle_lt_trans; [exact P1|]. apply Qmult_lt_r; lra. }
    lia.
  Qed.
End Moving2.

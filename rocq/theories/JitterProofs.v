From Verif Require Import JitterModel JitterSpec.
From Coq Require Import Permutation Lqa.
Open Scope nat_scope.

Lemma for_inv : forall S (P : nat -> S -> Prop) body n lo s,
  P lo s ->
  (forall i s, lo <= i < lo + n -> P i s -> exists s', body i s = Some s' /\ P (Datatypes.S i) s') ->
  exists s', for_ n lo body s = Some s' /\ P (lo + n) s'.
Proof.
  intros S P body n; induction n as [|n IH]; intros lo s H0 Hb; cbn.
  - exists s; split; auto; now rewrite Nat.add_0_r.
  - destruct (Hb lo s ltac:(lia) H0) as (s1 & E & H1); rewrite E.
    destruct (IH (Datatypes.S lo) s1 H1) as (s2 & E2 & H2).
    { intros; apply Hb; auto; lia. }
    exists s2; split; auto. now replace (lo + Datatypes.S n) with (Datatypes.S lo + n) by lia.
Qed.

Lemma upd_eq : forall A (f : nat -> A) i v, upd f i v i = v.
Proof. intros; unfold upd; now rewrite Nat.eqb_refl. Qed.
Lemma upd_neq : forall A (f : nat -> A) i v k, k <> i -> upd f i v k = f k.
Proof. intros; unfold upd. now apply Nat.eqb_neq in H; rewrite H. Qed.

Lemma store_ok : forall A len (f : nat -> A) i v, i < len -> store len f i v = Some (upd f i v).
Proof. intros; unfold store. now apply Nat.ltb_lt in H; rewrite H. Qed.

Lemma swap_ok : forall len f i j, i < len -> j < len -> swap len f i j = Some (upd (upd f i (f j)) j (f i)).
Proof. intros; unfold swap. apply Nat.ltb_lt in H, H0; now rewrite H, H0. Qed.

(** values at the cells of [pos] form a permutation of [0..K-1] *)
Definition perm_at (K : nat) (pos : nat -> nat) (f : nat -> nat) : Prop :=
  (forall i, i < K -> f (pos i) < K) /\ (forall i j, i < K -> j < K -> f (pos i) = f (pos j) -> i = j).

Definition inj_at (K : nat) (pos : nat -> nat) := forall i j, i < K -> j < K -> pos i = pos j -> i = j.

Lemma swap_perm : forall K pos f a b, inj_at K pos -> a < K -> b < K -> perm_at K pos f ->
  perm_at K pos (upd (upd f (pos a) (f (pos b))) (pos b) (f (pos a))).
Proof.
  intros K pos f a b Hi Ha Hb [Hr Hj].
  assert (V : forall i, i < K -> upd (upd f (pos a) (f (pos b))) (pos b) (f (pos a)) (pos i) =
     f (pos (if i =? b then a else if i =? a then b else i))).
  { intros i Hlt. destruct (Nat.eqb_spec i b) as [->|N]; [now rewrite upd_eq|].
    rewrite upd_neq by (intro E; apply N, Hi; auto).
    destruct (Nat.eqb_spec i a) as [->|N']; [now rewrite upd_eq|].
    rewrite upd_neq; [auto|]. intro E; apply N', Hi; auto. }
  split.
  - intros i Hlt; rewrite V by auto. apply Hr. destruct (i =? b), (i =? a); auto.
  - intros i j Hi1 Hj1; rewrite !V by auto. intro E; apply Hj in E.
    + destruct (Nat.eqb_spec i b), (Nat.eqb_spec i a), (Nat.eqb_spec j b), (Nat.eqb_spec j a); lia.
    + destruct (i =? b), (i =? a); auto.
    + destruct (j =? b), (j =? a); auto.
Qed.

Lemma shuffle_spec : forall g len pos K, rng_ok g -> inj_at K pos -> (forall i, i < K -> pos i < len) ->
  forall k c f, k <= K -> perm_at K pos f ->
  exists c' f', shuffle g len pos k c f = Some (c', f') /\ perm_at K pos f' /\
    forall m, (forall i, i < K -> m <> pos i) -> f' m = f m.
Proof.
  intros g len pos K [Hg _] Hi Hl k; induction k as [|k IH]; intros c f Hk Hp.
  - exists c, f; cbn; auto.
  - destruct k as [|k]; [exists c, f; cbn; auto|].
    set (j := ri g c (S (S k))).
    assert (Hjl : j < S (S k)) by (apply Hg; lia).
    cbn [shuffle]. fold j. rewrite swap_ok by (apply Hl; lia).
    destruct (IH (S c) (upd (upd f (pos (S k)) (f (pos j))) (pos j) (f (pos (S k)))) ltac:(lia)) as (c' & f' & E & P & F).
    { apply swap_perm; auto; lia. }
    exists c', f'; split; [exact E|split; auto].
    intros m Hm; rewrite F by auto. rewrite !upd_neq by (apply Hm; lia). auto.
Qed.

Lemma grid_eq : forall n x y x' y', x < n -> x' < n -> y * n + x = y' * n + x' -> x = x' /\ y = y'.
Proof.
  intros n x y x' y' H H' E.
  assert (y = y') by (destruct (Nat.lt_trichotomy y y') as [L|[L|L]]; auto; nia). subst; split; auto; lia.
Qed.

Lemma grid_lt : forall n m x y, x < n -> y < m -> y * n + x < n * m.
Proof. intros; nia. Qed.

Lemma mji_spec : forall g numX numY c junk, rng_ok g ->
  exists c' f, multi_jitter_indices g numX numY c junk = Some (c', f) /\
    (forall ix, ix < numX -> perm_at numY (fun iy => cell_x numX ix iy) f) /\
    (forall iy, iy < numY -> perm_at numX (fun ix => cell_y numX ix iy) f).
Proof.
  intros g numX numY c junk Hg. unfold multi_jitter_indices. cbv zeta.
  set (len := 2 * (numX * numY)).
  assert (Lx : forall ix iy, ix < numX -> iy < numY -> cell_x numX ix iy < len)
    by (intros; unfold cell_x, len; pose proof (grid_lt numX numY ix iy); lia).
  assert (Ly : forall ix iy, ix < numX -> iy < numY -> cell_y numX ix iy < len)
    by (intros; unfold cell_y, len; pose proof (grid_lt numX numY ix iy); lia).
  assert (Xx : forall a b a' b', a < numX -> a' < numX -> cell_x numX a b = cell_x numX a' b' -> a = a' /\ b = b')
    by (unfold cell_x; intros; apply (grid_eq numX); lia).
  assert (Yy : forall a b a' b', a < numX -> a' < numX -> cell_y numX a b = cell_y numX a' b' -> a = a' /\ b = b')
    by (unfold cell_y; intros; apply (grid_eq numX); lia).
  assert (Xy : forall a b a' b', cell_x numX a b <> cell_y numX a' b') by (unfold cell_x, cell_y; intros; lia).
  (* initialisation *)
  pose (done := fun iy ix y x => y < iy \/ (y = iy /\ x < ix)).
  pose (I := fun iy ix (f : nat -> nat) => forall y x, y < numY -> x < numX -> done iy ix y x ->
     f (cell_x numX x y) = y /\ f (cell_y numX x y) = x).
  destruct (for_inv _ (fun iy f => I iy 0 f)
     (fun iy f => for_ numX 0 (fun ix f =>
          match store len f (cell_x numX ix iy) iy with
          | Some f1 => store len f1 (cell_y numX ix iy) ix
          | None => None end) f) numY 0 junk) as (f1 & E1 & I1).
  { intros y x _ _ [H|[H H']]; lia. }
  { intros iy f Hiy HI.
    destruct (for_inv _ (fun ix f => I iy ix f) (fun ix f =>
          match store len f (cell_x numX ix iy) iy with
          | Some f1 => store len f1 (cell_y numX ix iy) ix
          | None => None end) numX 0 f) as (f' & E' & I').
    - exact HI.
    - intros ix f0 Hix H0. rewrite store_ok by (apply Lx; lia). rewrite store_ok by (apply Ly; lia).
      eexists; split; [reflexivity|]. intros y x Hy Hx Hd.
      destruct (Nat.eq_dec y iy) as [->|Ny]; [destruct (Nat.eq_dec x ix) as [->|Nx]|].
      + split; [rewrite upd_neq by apply Xy; now rewrite upd_eq | now rewrite upd_eq].
      + split.
        * rewrite upd_neq by apply Xy. rewrite upd_neq by (intro E; apply Xx in E; lia).
          apply (H0 iy x); auto. destruct Hd; [left|right]; lia.
        * rewrite upd_neq by (intro E; apply Yy in E; lia). rewrite upd_neq by (intro E; symmetry in E; now apply Xy in E).
          apply (H0 iy x); auto. destruct Hd; [left|right]; lia.
      + split.
        * rewrite upd_neq by apply Xy. rewrite upd_neq by (intro E; apply Xx in E; lia).
          apply (H0 y x); auto. destruct Hd; [left|left]; lia.
        * rewrite upd_neq by (intro E; apply Yy in E; lia). rewrite upd_neq by (intro E; symmetry in E; now apply Xy in E).
          apply (H0 y x); auto. destruct Hd; [left|left]; lia.
    - exists f'; split; auto. intros y x Hy Hx Hd. apply I'; auto.
      destruct Hd as [Hd|Hd]; [|lia]. destruct (Nat.eq_dec y iy); [right; lia|left; lia]. }
  rewrite E1.
  assert (V1 : forall y x, y < numY -> x < numX -> f1 (cell_x numX x y) = y /\ f1 (cell_y numX x y) = x)
    by (intros; apply I1; auto; left; lia).
  (* rows *)
  pose (Q1 := fun (f : nat -> nat) => (forall ix, ix < numX -> perm_at numY (fun iy => cell_x numX ix iy) f) /\
    (forall iy, iy < numY -> perm_at numX (fun ix => cell_y numX ix iy) f)).
  assert (Q10 : Q1 f1).
  { split; intros k Hk; split.
    - intros i Hi; destruct (V1 i k) as [-> _]; auto.
    - intros i j Hi Hj E. destruct (V1 i k) as [E1' _]; auto; destruct (V1 j k) as [E2' _]; auto; congruence.
    - intros i Hi; destruct (V1 k i) as [_ ->]; auto.
    - intros i j Hi Hj E. destruct (V1 k i) as [_ E1']; auto; destruct (V1 k j) as [_ E2']; auto; congruence. }
  destruct (for_inv _ (fun _ s => Q1 (snd s))
     (fun iy s => shuffle g len (fun ix => cell_y numX ix iy) numX (fst s) (snd s)) numY 0 (c, f1)) as ([c2 f2] & E2 & I2).
  { exact Q10. }
  { intros iy [c0 f0] Hiy [H1 H2]; cbn [fst snd] in *.
    destruct (shuffle_spec g len (fun ix => cell_y numX ix iy) numX Hg) with (k := numX) (c := c0) (f := f0) as (c' & f' & E & P & F).
    - intros i j Hi Hj E; now apply Yy in E.
    - intros; apply Ly; lia.
    - lia.
    - apply H2; lia.
    - exists (c', f'); split; auto. cbn [snd]. split.
      + intros ix Hix. destruct (H1 ix Hix) as [A B]. split; intros; rewrite !F in * by (intros; apply Xy); auto.
      + intros y Hy. destruct (Nat.eq_dec y iy) as [->|N]; auto.
        destruct (H2 y Hy) as [A B].
        split; intros; rewrite !F in * by (intros ? ? E'; apply Yy in E'; lia); auto. }
  rewrite E2.
  destruct (for_inv _ (fun _ s => Q1 (snd s))
     (fun ix s => shuffle g len (fun iy => cell_x numX ix iy) numY (fst s) (snd s)) numX 0 (c2, f2)) as ([c3 f3] & E3 & I3).
  { exact I2. }
  { intros ix [c0 f0] Hix [H1 H2]; cbn [fst snd] in *.
    destruct (shuffle_spec g len (fun iy => cell_x numX ix iy) numY Hg) with (k := numY) (c := c0) (f := f0) as (c' & f' & E & P & F).
    - intros i j Hi Hj E; apply Xx in E; lia.
    - intros; apply Lx; lia.
    - lia.
    - apply H1; lia.
    - exists (c', f'); split; auto. cbn [snd]. split.
      + intros x Hx. destruct (Nat.eq_dec x ix) as [->|N]; auto.
        destruct (H1 x Hx) as [A B].
        split; intros; rewrite !F in * by (intros ? ? E'; apply Xx in E'; lia); auto.
      + intros iy Hiy. destruct (H2 iy Hiy) as [A B].
        split; intros; rewrite !F in * by (intros ? ? E'; symmetry in E'; now apply Xy in E'); auto. }
  exists c3, f3; split; auto.
Qed.

(** ** Rational strata *)
Lemma q_add : forall a b, (q (a + b) == q a + q b)%Q.
Proof. intros; unfold q. rewrite Nat2Z.inj_add, inject_Z_plus. reflexivity. Qed.
Lemma q_mul : forall a b, (q (a * b) == q a * q b)%Q.
Proof. intros; unfold q. rewrite Nat2Z.inj_mul, inject_Z_mult. reflexivity. Qed.
Lemma q_S : forall a, (q (S a) == q a + 1)%Q.
Proof. intros. rewrite <- Nat.add_1_r, q_add. reflexivity. Qed.
Lemma q_lt : forall a b, (q a < q b)%Q <-> a < b.
Proof. intros; unfold q. rewrite <- Zlt_Qlt. lia. Qed.
Lemma q_le : forall a b, (q a <= q b)%Q <-> a <= b.
Proof. intros; unfold q. rewrite <- Zle_Qle. lia. Qed.
Lemma q_nz : forall a, 0 < a -> ~ (q a == 0)%Q.
Proof. intros a H E. assert (q 0 < q a)%Q by now apply q_lt. rewrite E in H0. now apply Qlt_irrefl in H0. Qed.

Lemma stratum_unique : forall m k k' x, in_stratum m k x -> in_stratum m k' x -> k = k'.
Proof.
  intros m k k' x [A B] [A' B'].
  assert (k < S k') by (apply q_lt; eapply Qle_lt_trans; eauto).
  assert (k' < S k) by (apply q_lt; eapply Qle_lt_trans; eauto). lia.
Qed.

Lemma stratum_ext : forall m k x y, (x == y)%Q -> in_stratum m k x -> in_stratum m k y.
Proof. intros m k x y E [A B]; split; now rewrite <- E. Qed.

Lemma stratum_of : forall n a r x, (x * q n == q a + r)%Q -> (0 <= r < 1)%Q -> in_stratum n a x.
Proof. intros n a r x E [R1 R2]; split; rewrite E; [|rewrite q_S]; lra. Qed.

Lemma coarse_of : forall m k a i r x, 0 < k -> (x * q (m * k) == q (i + a * k) + r)%Q -> (0 <= r < 1)%Q -> i < k ->
  in_stratum m a x.
Proof.
  intros m k a i r x Hk E [R1 R2] Hi.
  assert (P : (0 < q k)%Q) by (now apply (q_lt 0)).
  assert (E' : (x * q m * q k == q i + q a * q k + r)%Q)
    by (rewrite <- Qmult_assoc, <- q_mul, E, q_add, q_mul; reflexivity).
  assert (I0 : (0 <= q i)%Q) by (apply (q_le 0); lia).
  assert (I1 : (q i + 1 <= q k)%Q) by (rewrite <- q_S; apply q_le; lia).
  split.
  - apply (Qmult_le_r _ _ (q k) P). rewrite E'. lra.
  - apply (Qmult_lt_r _ _ (q k) P). rewrite E', q_S. lra.
Qed.

Lemma fine_pos : forall n m xi ix r, 0 < n -> 0 < m ->
  (((q xi + r) * (1 / q (n * m)) + q ix * (1 / q n)) * q (n * m) == q (xi + ix * m) + r)%Q.
Proof.
  intros. rewrite q_add, !q_mul. field. split; apply q_nz; auto.
Qed.

(** ** Pigeonhole *)
Lemma surj_of_inj : forall n f, (forall i, i < n -> f i < n) -> (forall i j, i < n -> j < n -> f i = f j -> i = j) ->
  forall v, v < n -> exists i, i < n /\ f i = v.
Proof.
  intros n f Hr Hj v Hv.
  assert (ND : NoDup (map f (seq 0 n))).
  { assert (G : forall l, NoDup l -> (forall i, In i l -> i < n) -> NoDup (map f l)).
    { induction l as [|a l IH]; intros N B; cbn; constructor.
      - inversion N as [|? ? Na Nl]; subst. intro I; apply in_map_iff in I as (b & E & Ib).
        apply Hj in E; [subst; auto| |]; apply B; cbn; auto.
      - inversion N; subst. apply IH; auto. intros; apply B; cbn; auto. }
    apply G; [apply seq_NoDup|]. intros i Hi; apply in_seq in Hi; lia. }
  assert (incl (seq 0 n) (map f (seq 0 n))).
  { apply NoDup_length_incl; auto.
    - now rewrite map_length, seq_length.
    - intros w Hw; apply in_map_iff in Hw as (i & <- & Hi). apply in_seq in Hi. apply in_seq. specialize (Hr i). lia. }
  specialize (H v). rewrite in_map_iff in H. destruct H as (i & E & Hi); [apply in_seq; lia|].
  exists i; apply in_seq in Hi; split; auto; lia.
Qed.

Lemma perm_indices : forall n f, perm_at n (fun i => i) f -> permutation_of_indices n f.
Proof.
  intros n f [Hr Hj]; split; auto. intros v Hv.
  destruct (surj_of_inj n f Hr Hj v Hv) as (i & Hi & E).
  exists i; repeat split; auto. intros j Hj1 Ej; apply Hj; auto; congruence.
Qed.

(** ** One pattern *)
Definition strat_at (numX numY : nat) (off : nat) (t : tables) : Prop :=
  stratified2d numX numY (fun k => t2d t (off + k)) /\
  stratified1d (numX * numY) (fun k => t1d t (off + k)) /\
  permutation_of_indices (numX * numY) (fun k => tidx t (off + k)).

Definition frame (off n : nat) (t t' : tables) : Prop :=
  forall m, m < off \/ off + n <= m -> t2d t' m = t2d t m /\ t1d t' m = t1d t m /\ tidx t' m = tidx t m.

Lemma points_stratified : forall numX numY (pt : nat -> Q * Q) xi yi rx ry, 0 < numX -> 0 < numY ->
  (forall ix iy, ix < numX -> iy < numY ->
     let w := iy * numX + ix in
     (0 <= rx w < 1)%Q /\ (0 <= ry w < 1)%Q /\
     (fst (pt w) * q (numX * numY) == q (xi ix iy + ix * numY) + rx w)%Q /\
     (snd (pt w) * q (numX * numY) == q (yi ix iy + iy * numX) + ry w)%Q) ->
  (forall ix, ix < numX -> (forall iy, iy < numY -> xi ix iy < numY) /\
     (forall i j, i < numY -> j < numY -> xi ix i = xi ix j -> i = j)) ->
  (forall iy, iy < numY -> (forall ix, ix < numX -> yi ix iy < numX) /\
     (forall i j, i < numX -> j < numX -> yi i iy = yi j iy -> i = j)) ->
  stratified2d numX numY pt.
Proof.
  intros numX numY pt xi yi rx ry HX HY Hpt Hxi Hyi.
  assert (W : forall k, k < numX * numY -> exists ix iy, ix < numX /\ iy < numY /\ k = iy * numX + ix).
  { intros k Hk. exists (k mod numX), (k / numX). repeat split.
    - apply Nat.mod_upper_bound; lia.
    - apply Nat.div_lt_upper_bound; lia.
    - pose proof (Nat.div_mod k numX); lia. }
  assert (Cx : forall ix iy, ix < numX -> iy < numY -> in_stratum numX ix (fst (pt (iy * numX + ix)))).
  { intros ix iy A B. destruct (Hpt ix iy A B) as (R1 & R2 & E1 & E2).
    eapply coarse_of; [apply HY|exact E1|exact R1|]. now apply (Hxi ix). }
  assert (Cy : forall ix iy, ix < numX -> iy < numY -> in_stratum numY iy (snd (pt (iy * numX + ix)))).
  { intros ix iy A B. destruct (Hpt ix iy A B) as (R1 & R2 & E1 & E2).
    rewrite (Nat.mul_comm numX numY) in E2.
    eapply coarse_of; [apply HX|exact E2|exact R2|]. now apply (Hyi iy). }
  assert (Fx : forall ix iy, ix < numX -> iy < numY ->
     in_stratum (numX * numY) (xi ix iy + ix * numY) (fst (pt (iy * numX + ix)))).
  { intros ix iy A B. destruct (Hpt ix iy A B) as (R1 & R2 & E1 & E2). eapply stratum_of; eauto. }
  assert (Fy : forall ix iy, ix < numX -> iy < numY ->
     in_stratum (numX * numY) (yi ix iy + iy * numX) (snd (pt (iy * numX + ix)))).
  { intros ix iy A B. destruct (Hpt ix iy A B) as (R1 & R2 & E1 & E2). eapply stratum_of; eauto. }
  repeat split.
  - intros ix iy A B. exists (iy * numX + ix). split; [|split; [split; auto|]].
    + apply grid_lt; auto.
    + intros j Hj [S1 S2]. destruct (W j Hj) as (x & y & X & Y & ->).
      rewrite (stratum_unique _ _ _ _ S1 (Cx x y X Y)), (stratum_unique _ _ _ _ S2 (Cy x y X Y)). auto.
  - intros col Hc.
    set (ix := col / numY). assert (Hix : ix < numX) by (apply Nat.div_lt_upper_bound; lia).
    assert (Hm : col mod numY < numY) by (apply Nat.mod_upper_bound; lia).
    destruct (Hxi ix Hix) as [Rx Ix].
    destruct (surj_of_inj numY (xi ix) Rx Ix (col mod numY) Hm) as (iy & Hiy & E).
    assert (Ec : col = xi ix iy + ix * numY) by (rewrite E; unfold ix; pose proof (Nat.div_mod col numY); lia).
    exists (iy * numX + ix). split; [apply grid_lt; auto|split; [rewrite Ec; auto|]].
    intros j Hj S1. destruct (W j Hj) as (x & y & X & Y & ->).
    pose proof (stratum_unique _ _ _ _ S1 (Fx x y X Y)) as U. rewrite Ec in U.
    destruct (grid_eq numY (xi ix iy) ix (xi x y) x) as [U1 U2]; [auto|now apply Hxi|lia|].
    subst x. apply Ix in U1; [now rewrite U1|auto..].
  - intros row Hc.
    set (iy := row / numX). assert (Hiy : iy < numY) by (apply Nat.div_lt_upper_bound; lia).
    assert (Hm : row mod numX < numX) by (apply Nat.mod_upper_bound; lia).
    destruct (Hyi iy Hiy) as [Ry Iy].
    destruct (surj_of_inj numX (fun ix => yi ix iy) Ry Iy (row mod numX) Hm) as (ix & Hix & E).
    assert (Ec : row = yi ix iy + iy * numX) by (rewrite E; unfold iy; pose proof (Nat.div_mod row numX); lia).
    exists (iy * numX + ix). split; [apply grid_lt; auto|split; [rewrite Ec; auto|]].
    intros j Hj S1. destruct (W j Hj) as (x & y & X & Y & ->).
    pose proof (stratum_unique _ _ _ _ S1 (Fy x y X Y)) as U. rewrite Ec in U.
    destruct (grid_eq numX (yi ix iy) iy (yi x y) y) as [U1 U2]; [auto|now apply Hyi|lia|].
    subst y. apply Iy in U1; [now rewrite U1|auto..].
Qed.

Lemma setup_spec : forall g numX numY off len c junk t, rng_ok g -> 0 < numX -> 0 < numY ->
  off + numX * numY <= len ->
  exists c' t', setup_jitter_pattern g numX numY off len c junk t = Some (c', t') /\
    strat_at numX numY off t' /\ frame off (numX * numY) t t'.
Proof.
  intros g numX numY off len c junk t Hg HX HY Hlen. pose proof Hg as [Hri Hrf].
  unfold setup_jitter_pattern. cbv zeta.
  set (n := numX * numY) in *.
  assert (Hn : 0 < n) by (unfold n; nia).
  match goal with |- context [match ?td with Some _ => _ | None => None end] => set (two_d := td) end.
  assert (T2 : exists c2 a2, two_d = Some (c2, a2) /\ stratified2d numX numY (fun k => a2 (off + k)) /\
    forall m, m < off \/ off + n <= m -> a2 m = t2d t m).
  { unfold two_d; clear two_d. destruct ((numX =? 1) && (numY =? 1)) eqn:One.
    - apply andb_true_iff in One as [A B]. apply Nat.eqb_eq in A, B.
      rewrite store_ok by lia. do 2 eexists; split; [reflexivity|]. split.
      + apply (points_stratified numX numY _ (fun _ _ => 0) (fun _ _ => 0) (fun _ => rf g c) (fun _ => rf g (c + 1))); auto.
        * intros ix iy Hx Hy w. assert (ix = 0) by lia. assert (iy = 0) by lia. unfold w. subst ix iy. cbn [Nat.mul Nat.add].
          rewrite Nat.add_0_r, upd_eq. cbn [fst snd]. rewrite A, B. cbn.
          repeat split; try apply Hrf; unfold q; cbn; ring.
        * intros; split; intros; lia.
        * intros; split; intros; lia.
      + intros m Hm; apply upd_neq. lia.
    - destruct (mji_spec g numX numY c junk Hg) as (c1 & idx & E & Px & Py). rewrite E.
      pose (isRand := fun r : Q => (0 <= r < 1)%Q).
      pose (good := fun (a : nat -> Q * Q) x y =>
         exists rx ry, isRand rx /\ isRand ry /\
          (fst (a (off + (y * numX + x))%nat) * q n == q (idx (cell_x numX x y) + x * numY) + rx)%Q /\
          (snd (a (off + (y * numX + x))%nat) * q n == q (idx (cell_y numX x y) + y * numX) + ry)%Q).
      pose (J := fun iy ix (s : nat * (nat -> Q * Q)) =>
        (forall y x, y < numY -> x < numX -> y < iy \/ (y = iy /\ x < ix) -> good (snd s) x y) /\
        (forall m, m < off \/ off + n <= m -> snd s m = t2d t m)).
      match goal with |- context [for_ numY 0 ?b ?st] =>
        destruct (for_inv _ (fun iy s => J iy 0 s) b numY 0 st) as ([c2 a2] & E2 & J2 & J3) end.
      + split; [intros; lia|auto].
      + intros iy s Hiy HJ.
        match goal with |- context [for_ numX 0 ?b s] =>
          destruct (for_inv _ (fun ix s => J iy ix s) b numX 0 s) as (s2 & E2 & J2 & J3) end.
        * exact HJ.
        * intros ix [c0 a0] Hix [G1 G2]. cbn [fst snd] in *.
          assert (Hw : iy * numX + ix < n) by (apply grid_lt; lia).
          rewrite store_ok by lia. eexists; split; [reflexivity|]. split; cbn [snd].
          -- intros y x Hy Hx Hd. unfold good.
             destruct (Nat.eq_dec (y * numX + x) (iy * numX + ix)) as [Ew|Nw].
             ++ apply grid_eq in Ew; try lia. destruct Ew; subst x y. rewrite upd_eq; cbn [fst snd].
                exists (rf g c0), (rf g (c0 + 1)). split; [apply Hrf|split; [apply Hrf|]]. split.
                ** apply fine_pos; auto.
                ** unfold n. rewrite (Nat.mul_comm numX numY). apply fine_pos; auto.
             ++ rewrite upd_neq by lia. apply G1; auto.
                destruct Hd as [Hd|[-> Hd]]; [left; lia|].
                destruct (Nat.eq_dec x ix); [subst; congruence|right; lia].
          -- intros m Hm. rewrite upd_neq by lia. auto.
        * exists s2; split; auto. split; [|auto]. intros y x Hy Hx Hd; apply J2; auto.
          destruct (Nat.eq_dec y iy); [right; lia|left; lia].
      + cbn [fst snd] in *. exists c2, a2. split; [exact E2|]. split; [|exact J3].
        assert (HG : forall ix iy, ix < numX -> iy < numY -> good a2 ix iy) by (intros; apply J2; auto; lia).
        (* the jitters are determined by the points *)
        apply (points_stratified numX numY _ (fun ix iy => idx (cell_x numX ix iy)) (fun ix iy => idx (cell_y numX ix iy))
          (fun w => (fst (a2 (off + w)%nat) * q n - q (idx (2 * w)%nat + (w mod numX) * numY))%Q)
          (fun w => (snd (a2 (off + w)%nat) * q n - q (idx (2 * w + 1)%nat + (w / numX) * numX))%Q)); auto.
        * intros ix iy Hx Hy w. destruct (HG ix iy Hx Hy) as (rx & ry & R1 & R2 & E1 & E3).
          assert (M : w mod numX = ix) by (unfold w; rewrite Nat.add_comm, Nat.mod_add, Nat.mod_small; lia).
          assert (D : w / numX = iy) by (unfold w; rewrite Nat.div_add_l, Nat.div_small; lia).
          rewrite M, D. change (2 * w) with (cell_x numX ix iy). change (cell_x numX ix iy + 1) with (cell_y numX ix iy).
          unfold w. fold n. unfold isRand in *. cbv beta. rewrite E1, E3. clear - R1 R2.
          destruct R1, R2.
          repeat split; try ring; lra. }
  destruct T2 as (c2 & a2 & E2 & S2 & F2). rewrite E2. clear two_d E2.
  set (r1 := (1 / q n * rf g c2)%Q).
  match goal with |- context [for_ n 0 ?b (0%Q, t1d t)] =>
    destruct (for_inv _ (fun i (s : Q * (nat -> Q)) => (fst s == q i * (1 / q n))%Q /\
      (forall k, k < i -> (snd s (off + k)%nat == q k * (1 / q n) + r1)%Q) /\
      (forall m, m < off \/ off + n <= m -> snd s m = t1d t m)) b n 0 (0%Q, t1d t)) as ([s1 a1] & E1 & _ & S1 & F1) end.
  { cbn; split; [|split; auto; intros; lia]. unfold q; cbn. field. apply (q_nz n); auto. }
  { intros i [s a] Hi (H1 & H2 & H3). cbn [fst snd] in *. rewrite store_ok by lia.
    eexists; split; [reflexivity|]. cbn [fst snd]. split; [|split].
    - rewrite H1, q_S. field. apply q_nz; auto.
    - intros k Hk. destruct (Nat.eq_dec k i) as [->|N]; [rewrite upd_eq, H1; reflexivity|].
      rewrite upd_neq by lia. apply H2; lia.
    - intros m Hm; rewrite upd_neq by lia; auto. }
  rewrite E1. cbn [fst snd] in *.
  match goal with |- context [for_ n 0 ?b (tidx t)] =>
    destruct (for_inv _ (fun i (a : nat -> nat) => (forall k, k < i -> a (off + k) = k) /\
      (forall m, m < off \/ off + n <= m -> a m = tidx t m)) b n 0 (tidx t)) as (ai & E3 & S3 & F3) end.
  { split; auto; intros; lia. }
  { intros i a Hi (H2 & H3). rewrite store_ok by lia. eexists; split; [reflexivity|]. split.
    - intros k Hk. destruct (Nat.eq_dec k i) as [->|N]; [now rewrite upd_eq|]. rewrite upd_neq by lia. apply H2; lia.
    - intros m Hm; rewrite upd_neq by lia; auto. }
  rewrite E3. cbn [Nat.add] in S3.
  destruct (shuffle_spec g len (fun j => off + j) n Hg) with (k := n) (c := c2 + 1) (f := ai) as (c3 & ai' & E4 & P4 & F4).
  { intros i j Hi Hj E; lia. }
  { intros; lia. }
  { lia. }
  { split; intros; rewrite ?S3 in * by lia; lia. }
  rewrite E4. exists c3, (mkt a2 a1 ai'). split; [reflexivity|]. split; [split; [|split]|]; cbn [t2d t1d tidx].
  - exact S2.
  - intros s Hs. fold n.
    assert (HS : forall k, k < n -> in_stratum n k (a1 (off + k))).
    { intros k Hk. apply stratum_of with (r := rf g c2); [|apply Hrf]. rewrite S1 by lia. unfold r1. field. apply q_nz; auto. }
    exists s; repeat split; auto; try apply HS; auto. intros j Hj E. eapply stratum_unique; [|eauto]. auto.
  - fold n. now apply perm_indices.
  - intros m Hm; cbn [t2d t1d tidx]. split; [auto|split; [auto|]]. rewrite F4; [auto|]. intros; lia.
Qed.

Lemma exactly_one_ext : forall n P R, (forall k, k < n -> P k <-> R k) -> exactly_one n P -> exactly_one n R.
Proof.
  intros n P R H (i & Hi & Pi & U); exists i; repeat split; auto; [now apply H|].
  intros j Hj Rj; apply U; auto; now apply H.
Qed.

Lemma strat_frame : forall numX numY off t t',
  (forall k, k < numX * numY -> t2d t' (off + k) = t2d t (off + k) /\ t1d t' (off + k) = t1d t (off + k) /\
     tidx t' (off + k) = tidx t (off + k)) ->
  strat_at numX numY off t -> strat_at numX numY off t'.
Proof.
  intros numX numY off t t' F ((A & B & C) & D & E & G). split; [split; [|split]|split; [|split]].
  - intros ix iy Hx Hy; eapply exactly_one_ext; [|apply A; eauto]. intros k Hk; cbv beta; destruct (F k Hk) as (-> & _); tauto.
  - intros ix Hx; eapply exactly_one_ext; [|apply B; eauto]. intros k Hk; cbv beta; destruct (F k Hk) as (-> & _); tauto.
  - intros ix Hx; eapply exactly_one_ext; [|apply C; eauto]. intros k Hk; cbv beta; destruct (F k Hk) as (-> & _); tauto.
  - intros s Hs; eapply exactly_one_ext; [|apply D; eauto]. intros k Hk; cbv beta; destruct (F k Hk) as (_ & -> & _); tauto.
  - intros i Hi; destruct (F i Hi) as (_ & _ & ->); auto.
  - intros s Hs; eapply exactly_one_ext; [|apply G; eauto]. intros k Hk; cbv beta; destruct (F k Hk) as (_ & _ & ->); tauto.
Qed.

Theorem sampler_stratified : forall g numX numY cache c junk t, rng_ok g -> 0 < numX -> 0 < numY ->
  exists c' t', make_sampler g numX numY cache c junk t = Some (c', t') /\
    forall p, p < cache -> strat_at numX numY (p * (numX * numY)) t'.
Proof.
  intros g numX numY cache c junk t Hg HX HY. unfold make_sampler. cbv zeta.
  match goal with |- context [for_ cache 0 ?b ?st] =>
    destruct (for_inv _ (fun i (s : nat * tables) => forall p, p < i -> strat_at numX numY (p * (numX * numY)) (snd s))
       b cache 0 st) as ([c' t'] & E & H) end.
  - intros; lia.
  - intros i [c0 t0] Hi H; cbn [fst snd] in *.
    destruct (setup_spec g numX numY (i * (numX * numY)) (numX * numY * cache) c0 (junk i) t0 Hg HX HY) as (c1 & t1 & E & S1 & F1).
    { nia. }
    rewrite E. eexists; split; [reflexivity|]. cbn [snd]. intros p Hp.
    destruct (Nat.eq_dec p i) as [->|N]; auto.
    apply strat_frame with (t := t0); [|apply H; lia]. intros k Hk. apply F1. left. nia.
  - exists c', t'; auto.
Qed.

Theorem sampler_requests : forall g numX numY cache c junk t,
  rng_ok g -> 0 < numX -> 0 < numY -> 0 < cache ->
  exists c' t', make_sampler g numX numY cache c junk t = Some (c', t') /\
    forall d,
      stratified2d numX numY (get_2d_samples g numX numY cache d t') /\
      stratified1d (numX * numY) (get_1d_samples g numX numY cache d t') /\
      permutation_of_indices (numX * numY) (get_shuffled_indices g numX numY cache d t').
Proof.
  intros g numX numY cache c junk t Hg HX HY HC.
  destruct (sampler_stratified g numX numY cache c junk t Hg HX HY) as (c' & t' & E & H).
  exists c', t'; split; auto. intros d. apply (H (ri g d cache)). now apply Hg.
Qed.

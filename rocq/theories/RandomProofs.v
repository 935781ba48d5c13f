From Verif Require Import RandomModel RandomSpec.
From Coq Require Import Lia Arith Bool Psatz.
From Flocq Require Import Core Relative.
Open Scope Z_scope.

(** ** Bits *)
Lemma shiftr_div : forall a k, 0 <= k -> Z.shiftr a k = a / 2 ^ k.
Proof. intros; now rewrite Z.shiftr_div_pow2. Qed.

Definition w32 (a : Z) := 0 <= a < 2 ^ 32.

Lemma w32_shift : forall a, w32 a <-> 0 <= a /\ Z.shiftr a 32 = 0.
Proof.
  intros a; unfold w32. rewrite shiftr_div by lia. split.
  - intros [A B]; split; auto. now apply Z.div_small.
  - intros [A B]; split; auto. apply Z.div_small_iff in B; lia.
Qed.

Lemma w32_lxor : forall a b, w32 a -> w32 b -> w32 (Z.lxor a b).
Proof.
  intros a b Ha Hb; apply w32_shift in Ha as [A1 A2], Hb as [B1 B2]. apply w32_shift; split.
  - apply Z.lxor_nonneg; tauto.
  - now rewrite Z.shiftr_lxor, A2, B2.
Qed.

Lemma w32_land_r : forall a b, 0 <= a -> w32 b -> w32 (Z.land a b).
Proof.
  intros a b Ha Hb; apply w32_shift in Hb as [B1 B2]. apply w32_shift; split.
  - apply Z.land_nonneg; tauto.
  - now rewrite Z.shiftr_land, B2, Z.land_0_r.
Qed.

Lemma w32_shiftr : forall a k, 0 <= k -> w32 a -> w32 (Z.shiftr a k).
Proof.
  intros a k Hk [A B]. rewrite shiftr_div by auto. split.
  - apply Z.div_pos; auto. apply Z.pow_pos_nonneg; lia.
  - apply Z.le_lt_trans with a; auto. apply Z.div_le_upper_bound; [apply Z.pow_pos_nonneg; lia|].
    assert (0 < 2 ^ k) by (apply Z.pow_pos_nonneg; lia). nia.
Qed.

Lemma tempering_spec : forall y, tempering y = mt_temper y.
Proof.
  intros y. unfold tempering, mt_temper. rewrite !shiftr_div by lia. rewrite !Z.shiftl_mul_pow2 by lia. reflexivity.
Qed.

Lemma tempering_w32 : forall y, w32 y -> w32 (tempering y).
Proof.
  intros y H. unfold tempering.
  assert (N : forall a, w32 a -> 0 <= a) by (intros a [A _]; auto).
  assert (H1 : w32 (Z.lxor y (Z.shiftr y 11))) by (apply w32_lxor; auto; apply w32_shiftr; auto; lia).
  revert H1; generalize (Z.lxor y (Z.shiftr y 11)); clear y H; intros y H.
  assert (H1 : w32 (Z.lxor y (Z.land (Z.shiftl y 7) 2636928640))).
  { apply w32_lxor; auto. apply w32_land_r; [apply Z.shiftl_nonneg, N; auto|split; reflexivity || lia]. }
  revert H1; generalize (Z.lxor y (Z.land (Z.shiftl y 7) 2636928640)); clear y H; intros y H.
  assert (H1 : w32 (Z.lxor y (Z.land (Z.shiftl y 15) 4022730752))).
  { apply w32_lxor; auto. apply w32_land_r; [apply Z.shiftl_nonneg, N; auto|split; reflexivity || lia]. }
  revert H1; generalize (Z.lxor y (Z.land (Z.shiftl y 15) 4022730752)); clear y H; intros y H.
  apply w32_lxor; auto. apply w32_shiftr; auto; lia.
Qed.

Lemma land_mask : forall a, Z.land a mask32 = a mod 2 ^ 32.
Proof. intros; change mask32 with (Z.ones 32). now rewrite Z.land_ones. Qed.

Lemma disjoint_lor : forall a b, Z.land a b = 0 -> Z.lor a b = a + b.
Proof. intros a b H. rewrite Z.add_nocarry_lxor by auto. now rewrite Z.lxor_lor. Qed.

Lemma gen_twist : forall f u l,
  let y := Z.lor (Z.land u upper_mask) (Z.land l lower_mask) in
  Z.lxor (Z.lxor f (Z.shiftr y 1)) (mag01 (Z.land y 1)) = Z.lxor f (mt_twist u l).
Proof.
  intros f u l y. unfold mt_twist.
  assert (Y : y = Z.land u 2147483648 + Z.land l 2147483647).
  { unfold y, upper_mask, lower_mask. apply disjoint_lor.
    rewrite (Z.land_comm l), Z.land_assoc, <- (Z.land_assoc u).
    change (Z.land 2147483648 2147483647) with 0. now rewrite Z.land_0_r, Z.land_0_l. }
  rewrite <- Y. rewrite Z.lxor_assoc. f_equal. rewrite shiftr_div by lia. f_equal.
  change 1 with (Z.ones 1) at 1. rewrite Z.land_ones by lia. unfold mag01, matrix_a.
  change (2 ^ 1) with 2. rewrite Zmod_odd. destruct (Z.odd y); reflexivity.
Qed.

Lemma twist_w32 : forall u l, w32 (mt_twist u l).
Proof.
  intros u l. unfold mt_twist.
  set (y := Z.land u 2147483648 + Z.land l 2147483647).
  assert (Y : w32 y).
  { assert (A : w32 (Z.land u 2147483648)).
    { rewrite Z.land_comm. apply w32_shift. split; [apply Z.land_nonneg; left; lia|].
      rewrite Z.shiftr_land. change (Z.shiftr 2147483648 32) with 0. apply Z.land_0_l. }
    assert (B : w32 (Z.land l 2147483647)).
    { rewrite Z.land_comm. apply w32_shift. split; [apply Z.land_nonneg; left; lia|].
      rewrite Z.shiftr_land. change (Z.shiftr 2147483647 32) with 0. apply Z.land_0_l. }
    assert (E : y = Z.lor (Z.land u 2147483648) (Z.land l 2147483647)).
    { symmetry; apply disjoint_lor.
      rewrite (Z.land_comm l), Z.land_assoc, <- (Z.land_assoc u).
      change (Z.land 2147483648 2147483647) with 0. now rewrite Z.land_0_r, Z.land_0_l. }
    rewrite E. apply w32_shift in A as [A1 A2], B as [B1 B2]. apply w32_shift; split.
    - apply Z.lor_nonneg; tauto.
    - rewrite Z.shiftr_lor, A2, B2. reflexivity. }
  apply w32_lxor.
  - change 2 with (2 ^ 1) at 1. rewrite <- (shiftr_div y 1) by lia. apply w32_shiftr; auto; lia.
  - destruct (Z.odd y); split; lia || reflexivity.
Qed.

(** ** The MT19937 sequence exists *)
Fixpoint init_word (s : Z) (i : nat) : Z :=
  match i with
  | O => s mod 2 ^ 32
  | S j => (1812433253 * Z.lxor (init_word s j) (init_word s j / 2 ^ 30) + Z.of_nat i) mod 2 ^ 32
  end.

Fixpoint mtx (s : Z) (fuel k : nat) : Z :=
  match fuel with
  | O => 0
  | S f => if (k <? 624)%nat then init_word s k
           else Z.lxor (mtx s f (k - 227)) (mt_twist (mtx s f (k - 624)) (mtx s f (k - 623)))
  end.

Definition mt_x (s : Z) (k : nat) : Z := mtx s (S k) k.

Lemma mtx_fuel : forall s k f f', (k < f)%nat -> (k < f')%nat -> mtx s f k = mtx s f' k.
Proof.
  intros s k. induction k as [k IH] using lt_wf_ind. intros f f' Hf Hf'.
  destruct f as [|f]; [lia|]. destruct f' as [|f']; [lia|]. cbn [mtx].
  destruct (Nat.ltb_spec k 624); auto.
  rewrite (IH (k - 227)%nat) with (f' := f'), (IH (k - 624)%nat) with (f' := f'), (IH (k - 623)%nat) with (f' := f'); auto; lia.
Qed.

Lemma mt_x_small : forall s k, (k < 624)%nat -> mt_x s k = init_word s k.
Proof. intros s k H. unfold mt_x. cbn [mtx]. apply Nat.ltb_lt in H. now rewrite H. Qed.

Lemma mt_x_is : forall s, is_mt_sequence s (mt_x s).
Proof.
  intros s. split; [|split].
  - now rewrite mt_x_small by lia.
  - intros i Hi. rewrite !mt_x_small by lia. destruct i as [|j]; [lia|]. replace (S j - 1)%nat with j by lia. reflexivity.
  - intros k. unfold mt_x at 1. cbn [mtx]. destruct (Nat.ltb_spec (k + 624) 624); [lia|].
    replace (k + 624 - 227)%nat with (k + 397)%nat by lia. replace (k + 624 - 624)%nat with k by lia.
    replace (k + 624 - 623)%nat with (k + 1)%nat by lia. unfold mt_x.
    f_equal; [|f_equal]; apply mtx_fuel; lia.
Qed.

Lemma mt_seq_w32 : forall s x, is_mt_sequence s x -> forall k, w32 (x k).
Proof.
  intros s x (H0 & H1 & H2) k. induction k as [k IH] using lt_wf_ind.
  destruct (Nat.eq_dec k 0) as [->|N]; [rewrite H0; apply Z.mod_pos_bound; lia|].
  destruct (Nat.lt_ge_cases k 624) as [L|L]; [rewrite H1 by lia; apply Z.mod_pos_bound; lia|].
  replace k with (k - 624 + 624)%nat by lia. rewrite H2. apply w32_lxor; [apply IH; lia|apply twist_w32].
Qed.

(** ** The array code *)
Lemma rd_ok : forall w i, (i < 624)%nat -> rd w i = Some (w i).
Proof. intros w i H. unfold rd. change mt_n with 624%nat. apply Nat.ltb_lt in H. now rewrite H. Qed.
Definition wset (w : nat -> Z) i v := fun k => if (k =? i)%nat then v else w k.
Lemma wr_ok : forall w i v, (i < 624)%nat -> wr w i v = Some (wset w i v).
Proof. intros w i v H. unfold wr. change mt_n with 624%nat. apply Nat.ltb_lt in H. now rewrite H. Qed.
Lemma wset_eq : forall w i v, wset w i v i = v.
Proof. intros; unfold wset; now rewrite Nat.eqb_refl. Qed.
Lemma wset_neq : forall w i v k, k <> i -> wset w i v k = w k.
Proof. intros; unfold wset. apply Nat.eqb_neq in H; now rewrite H. Qed.

Lemma init_loop_spec : forall s x, is_mt_sequence s x -> forall n i w, (0 < i)%nat -> (i + n <= 624)%nat ->
  (forall k, (k < i)%nat -> w k = x k) ->
  exists w', init_loop n i w = Some w' /\ forall k, (k < i + n)%nat -> w' k = x k.
Proof.
  intros s x (H0 & H1 & H2) n; induction n as [|n IH]; intros i w Hi Hn Hw.
  - exists w; split; auto. intros; apply Hw; lia.
  - cbn [init_loop]. rewrite rd_ok by lia. cbn [bind]. rewrite wr_ok by lia. cbn [bind].
    destruct (IH (S i) (wset w i (Z.land (1812433253 * Z.lxor (w (i - 1)%nat) (Z.shiftr (w (i - 1)%nat) 30) + Z.of_nat i) mask32)))
      as (w' & E & Hw'); [lia|lia| |].
    + intros k Hk. destruct (Nat.eq_dec k i) as [->|N]; [|rewrite wset_neq by auto; apply Hw; lia].
      rewrite wset_eq, land_mask, shiftr_div, Hw by lia. now rewrite (H1 i) by lia.
    + exists w'; split; auto. intros k Hk; apply Hw'; lia.
Qed.

Lemma init_genrand_spec : forall s x st, is_mt_sequence s x ->
  exists w, init_genrand s st = Some (mkmt w 624) /\ forall k, (k < 624)%nat -> w k = x k.
Proof.
  intros s x st H. unfold init_genrand. rewrite wr_ok by lia. cbn [bind].
  destruct (init_loop_spec s x H (mt_n - 1) 1 (wset (words st) 0 (Z.land s mask32))) as (w' & E & Hw).
  - lia.
  - unfold mt_n; lia.
  - intros k Hk. replace k with 0%nat by lia. rewrite wset_eq, land_mask. symmetry; apply H.
  - rewrite E. cbn [bind]. exists w'; split; [reflexivity|]. intros k Hk; apply Hw. unfold mt_n; lia.
Qed.

(** word [k] of the array while word [base+624+kk] is about to be produced *)
Definition mid (x : nat -> Z) (base kk : nat) (w : nat -> Z) : Prop :=
  forall i, (i < 624)%nat -> w i = x (if (i <? kk)%nat then base + 624 + i else base + i)%nat.

Lemma gen_word_spec : forall s x base kk next far w, is_mt_sequence s x -> mid x base kk w ->
  (kk < 624)%nat -> (next < 624)%nat -> (far < 624)%nat ->
  w next = x (base + kk + 1)%nat -> w far = x (base + kk + 397)%nat ->
  exists w', gen_word w kk next far = Some w' /\ mid x base (S kk) w'.
Proof.
  intros s x base kk next far w (H0 & H1 & H2) Hm Hk Hn Hf En Ef. unfold gen_word.
  rewrite !rd_ok by auto. cbn [bind]. rewrite wr_ok by auto. eexists; split; [reflexivity|].
  intros i Hi. destruct (Nat.eq_dec i kk) as [->|N].
  - rewrite wset_eq. destruct (Nat.ltb_spec kk (S kk)); [|lia].
    rewrite gen_twist, En, Ef, (Hm kk Hk). destruct (Nat.ltb_spec kk kk); [lia|].
    replace (base + 624 + kk)%nat with (base + kk + 624)%nat by lia. now rewrite H2.
  - rewrite wset_neq by auto. rewrite (Hm i Hi).
    destruct (Nat.ltb_spec i kk), (Nat.ltb_spec i (S kk)); auto; lia.
Qed.

Lemma gen_loop1_spec : forall s x base, is_mt_sequence s x -> forall n kk w, (kk + n <= 227)%nat -> mid x base kk w ->
  exists w', gen_loop (fun kk => kk + mt_m)%nat n kk w = Some w' /\ mid x base (kk + n) w'.
Proof.
  intros s x base H n; induction n as [|n IH]; intros kk w Hk Hm.
  - exists w; split; auto. now rewrite Nat.add_0_r.
  - cbn [gen_loop].
    destruct (gen_word_spec s x base kk (kk + 1) (kk + mt_m) w) as (w1 & E1 & M1); auto; unfold mt_m; try lia.
    + rewrite (Hm (kk + 1)%nat) by lia. destruct (Nat.ltb_spec (kk + 1) kk); [lia|]. f_equal; lia.
    + rewrite (Hm (kk + 397)%nat) by lia. destruct (Nat.ltb_spec (kk + 397) kk); [lia|]. f_equal; lia.
    + unfold mt_m in E1. rewrite E1. cbn [bind]. destruct (IH (S kk) w1) as (w2 & E2 & M2); [lia|auto|].
      exists w2; split; auto. now replace (kk + S n)%nat with (S kk + n)%nat by lia.
Qed.

Lemma gen_loop2_spec : forall s x base, is_mt_sequence s x -> forall n kk w, (227 <= kk)%nat -> (kk + n <= 623)%nat -> mid x base kk w ->
  exists w', gen_loop (fun kk => kk - (mt_n - mt_m))%nat n kk w = Some w' /\ mid x base (kk + n) w'.
Proof.
  intros s x base H n; induction n as [|n IH]; intros kk w Hk0 Hk Hm.
  - exists w; split; auto. now rewrite Nat.add_0_r.
  - cbn [gen_loop].
    assert (EM : (mt_n - mt_m = 227)%nat) by reflexivity. rewrite EM in *.
    destruct (gen_word_spec s x base kk (kk + 1) (kk - 227) w) as (w1 & E1 & M1); auto; try lia.
    + rewrite (Hm (kk + 1)%nat) by lia. destruct (Nat.ltb_spec (kk + 1) kk); [lia|]. f_equal; lia.
    + rewrite (Hm (kk - 227)%nat) by lia. destruct (Nat.ltb_spec (kk - 227) kk); [|lia]. f_equal; lia.
    + rewrite E1. cbn [bind]. destruct (IH (S kk) w1) as (w2 & E2 & M2); [lia|lia|auto|].
      exists w2; split; auto. now replace (kk + S n)%nat with (S kk + n)%nat by lia.
Qed.

Lemma gen_block_spec : forall s x base w, is_mt_sequence s x -> (forall i, (i < 624)%nat -> w i = x (base + i)%nat) ->
  exists w', gen_block w = Some w' /\ forall i, (i < 624)%nat -> w' i = x (base + 624 + i)%nat.
Proof.
  intros s x base w H Hw. unfold gen_block.
  assert (EM : (mt_n - mt_m = 227)%nat) by reflexivity.
  assert (EN : (mt_n - 1 - 227 = 396)%nat) by reflexivity.
  assert (EO : (mt_n - 1 = 623)%nat) by reflexivity.
  assert (EP : (mt_m - 1 = 396)%nat) by reflexivity.
  pose proof (gen_loop2_spec s x base H 396 227) as L2. rewrite EM in *. rewrite EN, EO, EP.
  destruct (gen_loop1_spec s x base H 227 0 w) as (w1 & E1 & M1); [lia| |].
  { intros i Hi; cbn. now apply Hw. }
  rewrite E1. cbn [bind].
  destruct (L2 w1) as (w2 & E2 & M2); [lia|lia|exact M1|].
  rewrite E2. cbn [bind]. change (227 + 396)%nat with 623%nat in M2.
  destruct (gen_word_spec s x base 623 0 396 w2) as (w3 & E3 & M3); auto; try lia.
  - rewrite (M2 0%nat) by lia. destruct (Nat.ltb_spec 0 623); [|lia]. f_equal; lia.
  - rewrite (M2 396%nat) by lia. destruct (Nat.ltb_spec 396 623); [|lia]. f_equal; lia.
  - exists w3; split; auto. intros i Hi. rewrite (M3 i Hi).
    destruct (Nat.ltb_spec i 624); [reflexivity|lia].
Qed.

(** The state after Reseed(s) and [j] draws *)
Definition at_draw (x : nat -> Z) (j : nat) (st : mtstate) : Prop :=
  exists base, (base + mti st = 624 + j)%nat /\ (mti st <= 624)%nat /\ forall i, (i < 624)%nat -> words st i = x (base + i)%nat.

Lemma draw_spec : forall s x j st, is_mt_sequence s x -> at_draw x j st ->
  exists st', genrand_int32 st = Some (mt_temper (x (624 + j)%nat), st') /\ at_draw x (S j) st'.
Proof.
  intros s x j [w i] H (base & Eb & Hi & Hw). cbn [words RandomModel.mti] in *. unfold genrand_int32. cbn [words RandomModel.mti].
  change mt_n with 624%nat.
  destruct (Nat.leb_spec 624 i) as [L|L].
  - assert (i = 624)%nat by lia. subst i. destruct (Nat.eqb_spec 624 (624 + 1)); [lia|]. cbn [bind words].
    destruct (gen_block_spec s x base w H Hw) as (w' & E & Hw'). rewrite E. cbn [bind words RandomModel.mti].
    rewrite rd_ok by lia. cbn [bind].
    rewrite tempering_spec, Hw' by lia. replace (base + 624 + 0)%nat with (624 + j)%nat by lia.
    eexists; split; [reflexivity|]. exists (base + 624)%nat. cbn [words RandomModel.mti]. repeat split; [lia|lia|].
    intros; now apply Hw'.
  - cbn [bind words RandomModel.mti]. rewrite rd_ok by lia. cbn [bind]. rewrite tempering_spec, Hw by lia. rewrite Eb.
    eexists; split; [reflexivity|]. exists base. cbn [words RandomModel.mti]. repeat split; [lia|lia|auto].
Qed.

Lemma reseed_spec : forall s x st, is_mt_sequence s x ->
  exists st', init_genrand s st = Some st' /\ at_draw x 0 st'.
Proof.
  intros s x st H. destruct (init_genrand_spec s x st H) as (w & E & Hw).
  exists (mkmt w 624); split; auto. exists 0%nat. cbn [words RandomModel.mti]. repeat split; auto; lia.
Qed.

Definition draws (n : nat) : list op := repeat RandomInt n.

Lemma draws_spec : forall s x, is_mt_sequence s x -> forall n j st, at_draw x j st ->
  exists st', exec_all (draws n) st = Some (map (fun k => RInt (mt_temper (x (624 + k)%nat))) (seq j n), st').
Proof.
  intros s x H n; induction n as [|n IH]; intros j st A.
  - exists st; reflexivity.
  - cbn [draws repeat exec_all exec]. destruct (draw_spec s x j st H A) as (st1 & E & A1). rewrite E. cbn [bind fst snd].
    destruct (IH (S j) st1 A1) as (st2 & E2). unfold draws in E2. rewrite E2. cbn [bind fst snd]. exists st2. reflexivity.
Qed.

Theorem reseed_gives_mt19937 : forall seed st, exists x,
  is_mt_sequence seed x /\
  forall n, exists st', exec_all (Reseed seed :: draws n) st =
    Some (RUnit :: map (fun k => RInt (mt_temper (x (624 + k)%nat))) (seq 0 n), st').
Proof.
  intros seed st. exists (mt_x seed). split; [apply mt_x_is|]. intros n.
  destruct (reseed_spec seed (mt_x seed) st (mt_x_is seed)) as (st1 & E1 & A1).
  cbn [exec_all exec]. rewrite E1. cbn [bind fst snd].
  destruct (draws_spec seed (mt_x seed) (mt_x_is seed) n 0 st1 A1) as (st2 & E2). rewrite E2. cbn [bind fst snd].
  exists st2; reflexivity.
Qed.

(** ** Floats *)
Open Scope R_scope.
Notation fexp32 := (FLT_exp (-149) 24).
Notation fexp64 := (FLT_exp (-1074) 53).
Local Instance prec24 : Prec_gt_0 24. Proof. reflexivity. Qed.
Local Instance prec53 : Prec_gt_0 53. Proof. reflexivity. Qed.
Local Instance valid32 : Valid_exp fexp32. Proof. apply FLT_exp_valid. reflexivity. Qed.
Local Instance valid64 : Valid_exp fexp64. Proof. apply FLT_exp_valid. reflexivity. Qed.

Definition umax : R := 1 - bpow radix2 (-24).

Lemma umax_float : is_float umax.
Proof.
  unfold is_float. apply generic_format_FLT. exists (Float radix2 (2 ^ 24 - 1) (-24)).
  - unfold umax, F2R. cbn [Fnum Fexp]. rewrite minus_IZR. change (IZR (2 ^ 24)) with (bpow radix2 24).
    rewrite Rmult_minus_distr_r, <- bpow_plus. cbn. lra.
  - cbn; lia.
  - cbn; lia.
Qed.

Lemma succ_umax : succ radix2 fexp32 umax = 1.
Proof.
  assert (P : 1 / 2 <= umax < 1).
  { unfold umax. cbn. split; lra. }
  rewrite succ_eq_pos by lra.
  rewrite ulp_neq_0 by lra. unfold cexp.
  rewrite (mag_unique radix2 umax 0).
  - unfold FLT_exp, umax. cbn. lra.
  - rewrite Rabs_pos_eq by lra. cbn. lra.
Qed.

Lemma round32_le_umax : forall v, v < 1 - bpow radix2 (-25) -> f32 v <= umax.
Proof.
  intros v Hv. apply round_N_le_midp; [apply valid32|apply umax_float|].
  rewrite succ_umax. unfold umax. cbn in *. lra.
Qed.

Lemma f64_int_exact : forall y : Z, (0 <= y < 2 ^ 32)%Z -> f64 (IZR y) = IZR y.
Proof.
  intros y Hy. apply round_generic; [apply valid_rnd_N|]. apply generic_format_FLT.
  exists (Float radix2 y 0).
  - unfold F2R; cbn. lra.
  - cbn. rewrite Z.abs_eq by lia. change (Z.pow_pos 2 53) with (2 ^ 53)%Z. lia.
  - cbn; lia.
Qed.

(** relative error of a double operation in the normal range *)
Lemma f64_upper : forall x, 0 <= x -> bpow radix2 (-1022) <= x -> f64 x <= x * (1 + bpow radix2 (-53)).
Proof.
  intros x H0 H. unfold f64.
  assert (N : Rabs (round radix2 fexp64 ZnearestE x - x) <= / 2 * bpow radix2 (-53 + 1) * Rabs x).
  { change (-53 + 1)%Z with (-(53) + 1)%Z. apply relative_error_N_FLT; [reflexivity|].
    rewrite Rabs_pos_eq by auto. exact H. }
  rewrite (Rabs_pos_eq x) in N by auto. apply Rabs_le_inv in N. destruct N as [_ N].
  replace (/ 2 * bpow radix2 (-53 + 1)) with (bpow radix2 (-53)) in N.
  - lra.
  - cbn. lra.
Qed.

Lemma f64_mono : forall x y, x <= y -> f64 x <= f64 y.
Proof. intros; apply round_le; auto; [apply valid64|apply valid_rnd_N]. Qed.
Lemma f32_mono : forall x y, x <= y -> f32 x <= f32 y.
Proof. intros; apply round_le; auto; [apply valid32|apply valid_rnd_N]. Qed.
Lemma f64_0 : f64 0 = 0.
Proof. apply round_0, valid_rnd_N. Qed.
Lemma f32_0 : f32 0 = 0.
Proof. apply round_0, valid_rnd_N. Qed.

Definition cst : R := f64 (1 / 4294967424).

Lemma cst_bounds : 0 <= cst <= 1 / 4294967424 * (1 + bpow radix2 (-53)).
Proof.
  unfold cst. split.
  - rewrite <- f64_0. apply f64_mono. lra.
  - apply f64_upper; [lra|].
    apply Rle_trans with (bpow radix2 (-40)); [apply bpow_le; lia|]. cbn. lra.
Qed.

Lemma float_of_draw_bounds : forall y, (0 <= y < 2 ^ 32)%Z -> 0 <= float_of_draw y <= umax.
Proof.
  intros y Hy. unfold float_of_draw. rewrite f64_int_exact by auto. fold cst.
  assert (Y : 0 <= IZR y <= 4294967295) by (split; apply IZR_le; lia).
  pose proof cst_bounds as [C0 C1].
  split.
  - rewrite <- f32_0. apply f32_mono. rewrite <- f64_0. apply f64_mono. nra.
  - apply round32_le_umax.
    apply Rle_lt_trans with (f64 (4294967295 * (1 / 4294967424 * (1 + bpow radix2 (-53))))).
    + apply f64_mono. apply Rmult_le_compat; lra.
    + eapply Rle_lt_trans; [apply f64_upper|].
      * assert (0 < bpow radix2 (-53)) by apply bpow_gt_0. nra.
      * apply Rle_trans with (bpow radix2 (-1)); [apply bpow_le; lia|].
        assert (0 < bpow radix2 (-53)) by apply bpow_gt_0. change (bpow radix2 (-1)) with (/ 2). nra.
      * change (bpow radix2 (-53)) with (/ 9007199254740992). change (bpow radix2 (-25)) with (/ 33554432). lra.
Qed.

(** scaling by a factor at most [umax] rounds below *)
Lemma scale_below : forall F u, is_float F -> bpow radix2 (-125) <= F -> 0 <= u <= umax ->
  0 <= f32 (F * u) <= pred radix2 fexp32 F.
Proof.
  intros F u HF HF1 [Hu0 Hu].
  assert (FP : 0 < F) by (eapply Rlt_le_trans; [apply bpow_gt_0|exact HF1]).
  set (p := pred radix2 fexp32 F).
  assert (Fp : is_float p) by (apply generic_format_pred; auto; apply valid32).
  assert (Sp : succ radix2 fexp32 p = F) by (apply succ_pred; auto; apply valid32).
  assert (Pp : bpow radix2 (-126) <= p).
  { apply pred_ge_gt; [apply valid32| |exact HF|].
    - apply generic_format_bpow. cbn. lia.
    - eapply Rlt_le_trans; [|exact HF1]. apply bpow_lt. lia. }
  assert (P0 : 0 < p) by (eapply Rlt_le_trans; [apply bpow_gt_0|exact Pp]).
  split.
  - rewrite <- f32_0. apply f32_mono. apply Rmult_le_pos; lra.
  - apply round_N_le_midp; [apply valid32|exact Fp|]. rewrite Sp.
    apply Rle_lt_trans with (F * umax); [apply Rmult_le_compat_l; lra|].
    rewrite succ_eq_pos in Sp by lra.
    assert (U : ulp radix2 fexp32 p <= p * bpow radix2 (1 - 24)).
    { rewrite <- (Rabs_pos_eq p) at 2 by lra. apply ulp_FLT_le. rewrite Rabs_pos_eq by lra. exact Pp. }
    assert (U0 : 0 < ulp radix2 fexp32 p).
    { rewrite ulp_neq_0 by lra. apply bpow_gt_0. }
    set (e := ulp radix2 fexp32 p) in *. unfold umax. rewrite <- Sp.
    change (bpow radix2 (1 - 24)) with (/ 8388608) in U. change (bpow radix2 (-24)) with (/ 16777216). lra.
Qed.

Lemma float_in_range_ok : forall r y, (0 <= y < 2 ^ 32)%Z -> is_float r -> bpow radix2 (-125) <= r ->
  0 <= float_in_range r y < r.
Proof.
  intros r y Hy Hr Hr1. unfold float_in_range.
  destruct (scale_below r (float_of_draw y) Hr Hr1 (float_of_draw_bounds y Hy)) as [A B]. split; auto.
  eapply Rle_lt_trans; [exact B|]. apply pred_lt_id. pose proof (bpow_gt_0 radix2 (-125)). lra.
Qed.

Lemma int_in_range_ok : forall k y, (0 <= y < 2 ^ 32)%Z -> (0 < k < 2 ^ 32)%Z -> (0 <= int_in_range k y < k)%Z.
Proof.
  intros k y Hy Hk. unfold int_in_range, float_in_range.
  set (F := f32 (IZR k)).
  assert (HF : is_float F) by (apply generic_format_round; [apply valid32|apply valid_rnd_N]).
  assert (F1 : 1 <= F).
  { assert (E : f32 1 = 1).
    { apply round_generic; [apply valid_rnd_N|]. change 1 with (bpow radix2 0). apply generic_format_bpow. cbn; lia. }
    rewrite <- E. apply f32_mono. apply IZR_le. lia. }
  assert (B125 : bpow radix2 (-125) <= F).
  { eapply Rle_trans; [|exact F1]. change 1 with (bpow radix2 0). apply bpow_le; lia. }
  destruct (scale_below F (float_of_draw y) HF B125 (float_of_draw_bounds y Hy)) as [A B].
  set (n := f32 (F * float_of_draw y)) in *. cbv zeta.
  assert (L : n < IZR k).
  { apply Rnot_le_lt. intro C.
    assert (C1 : IZR k <= pred radix2 fexp32 F) by lra.
    apply f32_mono in C1. fold F in C1.
    assert (C2 : f32 (pred radix2 fexp32 F) = pred radix2 fexp32 F)
      by (apply round_generic; [apply valid_rnd_N|apply generic_format_pred; auto; apply valid32]).
    rewrite C2 in C1. pose proof (pred_lt_id radix2 fexp32 F). lra. }
  rewrite Rlt_bool_false by lra. rewrite Z.sub_0_r. rewrite Ztrunc_floor by lra.
  split.
  - apply Zfloor_lub. cbn. lra.
  - apply lt_IZR. eapply Rle_lt_trans; [apply Zfloor_lb|exact L].
Qed.

(** ** All histories *)
Close Scope R_scope.
Open Scope Z_scope.
Definition good (st : mtstate) : Prop :=
  (mti st = 625)%nat \/ exists s x j, is_mt_sequence s x /\ at_draw x j st.

Lemma good_draw : forall st, good st -> exists y st', genrand_int32 st = Some (y, st') /\ w32 y /\ good st'.
Proof.
  assert (D : forall s x j st, is_mt_sequence s x -> at_draw x j st ->
    exists y st', genrand_int32 st = Some (y, st') /\ w32 y /\ good st').
  { intros s x j st H A. destruct (draw_spec s x j st H A) as (st' & E & A').
    exists (mt_temper (x (624 + j)%nat)), st'. split; auto. split.
    - rewrite <- tempering_spec. apply tempering_w32. eapply mt_seq_w32; eauto.
    - right; eauto 6. }
  intros st [H|(s & x & j & H & A)]; [|eauto].
  destruct (reseed_spec 5489 (mt_x 5489) st (mt_x_is _)) as (st1 & E1 & A1).
  destruct (D _ _ _ _ (mt_x_is _) A1) as (y & st' & E & W & G).
  exists y, st'; split; [|auto].
  rewrite <- E. unfold genrand_int32. rewrite H. change mt_n with 624%nat.
  destruct (Nat.leb_spec 624 625); [|lia]. destruct (Nat.eqb_spec 625 (624 + 1)); [|lia].
  rewrite E1. cbn [bind].
  destruct A1 as (b & Eb & Hb & Hw).
  destruct (init_genrand_spec 5489 _ st (mt_x_is _)) as (w & E2 & _). rewrite E1 in E2. injection E2 as ->. cbn [RandomModel.mti].
  destruct (Nat.leb_spec 624 624); [|lia]. destruct (Nat.eqb_spec 624 (624 + 1)); [lia|]. cbn [bind words]. reflexivity.
Qed.

Lemma exec_ok : forall o st, good st -> op_ok o -> exists r st', exec o st = Some (r, st') /\ in_range o r /\ good st'.
Proof.
  intros o st G Ho. destruct o; cbn [exec].
  - do 2 eexists; split; [reflexivity|]. split; [exact I|auto].
  - do 2 eexists; split; [reflexivity|]. split; [exact I|auto].
  - destruct (reseed_spec seed (mt_x seed) st (mt_x_is _)) as (st1 & E & A). rewrite E. cbn [bind].
    do 2 eexists; split; [reflexivity|]. split; [exact I|]. right; eauto using mt_x_is.
  - destruct (good_draw st G) as (y & st' & E & W & G'). rewrite E; cbn [bind fst snd].
    do 2 eexists; split; [reflexivity|]. split; [exact W|auto].
  - destruct (good_draw st G) as (y & st' & E & W & G'). rewrite E; cbn [bind fst snd].
    do 2 eexists; split; [reflexivity|]. split; [|auto]. cbn. apply int_in_range_ok; auto.
  - destruct (good_draw st G) as (y & st' & E & W & G'). rewrite E; cbn [bind fst snd].
    do 2 eexists; split; [reflexivity|]. split; [|auto]. cbn.
    pose proof (float_of_draw_bounds y W) as [A B]. split; auto. eapply Rle_lt_trans; [exact B|].
    unfold umax. pose proof (bpow_gt_0 radix2 (-24)). lra.
  - destruct (good_draw st G) as (y & st' & E & W & G'). rewrite E; cbn [bind fst snd].
    do 2 eexists; split; [reflexivity|]. split; [|auto]. destruct Ho. cbn. now apply float_in_range_ok.
Qed.

Theorem exec_all_ok : forall l junk, Forall op_ok l ->
  exists rs st', exec_all l (start junk) = Some (rs, st') /\ Forall2 in_range l rs.
Proof.
  assert (G : forall l st, good st -> Forall op_ok l ->
    exists rs st', exec_all l st = Some (rs, st') /\ Forall2 in_range l rs).
  { induction l as [|o l IH]; intros st Hg Hl.
    - exists [], st; split; constructor.
    - inversion Hl; subst. destruct (exec_ok o st Hg) as (r & st1 & E & R1 & G1); auto.
      destruct (IH st1 G1) as (rs & st2 & E2 & R2); auto.
      cbn [exec_all]. rewrite E; cbn [bind fst snd]. rewrite E2; cbn [bind fst snd].
      do 2 eexists; split; [reflexivity|]. constructor; auto. }
  intros l junk Hl. apply G; auto. left. reflexivity.
Qed.

Lemma f64_lower : forall x, (0 <= x -> bpow radix2 (-1022) <= x -> x * (1 - bpow radix2 (-53)) <= f64 x)%R.
Proof.
  intros x H0 H. unfold f64.
  assert (N : (Rabs (round radix2 fexp64 ZnearestE x - x) <= / 2 * bpow radix2 (-53 + 1) * Rabs x)%R).
  { change (-53 + 1)%Z with (-(53) + 1)%Z. apply relative_error_N_FLT; [reflexivity|].
    rewrite Rabs_pos_eq by auto. exact H. }
  rewrite (Rabs_pos_eq x) in N by auto. apply Rabs_le_inv in N. destruct N as [N _].
  replace (/ 2 * bpow radix2 (-53 + 1))%R with (bpow radix2 (-53)) in N.
  - lra.
  - cbn. lra.
Qed.

(** The smallest positive float times the largest draw rounds back up to the range itself. *)
Theorem tiny_range : exists y, 0 <= y < 2 ^ 32 /\ is_float (bpow radix2 (-149)) /\
  float_in_range (bpow radix2 (-149)) y = bpow radix2 (-149).
Proof.
  exists (2 ^ 32 - 1). split; [lia|].
  assert (G : is_float (bpow radix2 (-149))) by (apply generic_format_bpow; cbn; lia).
  split; [exact G|].
  assert (U : (3 / 4 <= float_of_draw (2 ^ 32 - 1))%R).
  { unfold float_of_draw. rewrite f64_int_exact by lia. fold cst.
    assert (C : (1 / 4294967424 * (1 - bpow radix2 (-53)) <= cst)%R).
    { apply f64_lower; [lra|]. apply Rle_trans with (bpow radix2 (-40)); [apply bpow_le; lia|]. cbn. lra. }
    change (bpow radix2 (-53)) with (/ 9007199254740992)%R in C.
    assert (E : f32 (3 / 4) = (3 / 4)%R).
    { apply round_generic; [apply valid_rnd_N|]. apply generic_format_FLT. exists (Float radix2 3 (-2)); cbn; try lia.
      unfold F2R; cbn; lra. }
    assert (E' : f64 (3 / 4) = (3 / 4)%R).
    { apply round_generic; [apply valid_rnd_N|]. apply generic_format_FLT. exists (Float radix2 3 (-2)); cbn; try lia.
      unfold F2R; cbn; lra. }
    rewrite <- E. apply f32_mono. rewrite <- E'. apply f64_mono.
    change (IZR (2 ^ 32 - 1)) with 4294967295%R. lra. }
  assert (V : (float_of_draw (2 ^ 32 - 1) <= 1)%R).
  { pose proof (float_of_draw_bounds (2 ^ 32 - 1) ltac:(lia)) as [_ B]. unfold umax in B.
    pose proof (bpow_gt_0 radix2 (-24)). lra. }
  pose proof (bpow_gt_0 radix2 (-149)) as P.
  unfold float_in_range. apply Rle_antisym.
  - rewrite <- (round_generic radix2 fexp32 ZnearestE (bpow radix2 (-149)) G) at 2. apply f32_mono. nra.
  - apply round_N_ge_midp; [apply valid32|exact G|].
    assert (E : pred radix2 fexp32 (bpow radix2 (-149)) = 0%R).
    { rewrite pred_bpow. change (fexp32 (-149)) with (-149)%Z. ring. }
    rewrite E. nra.
Qed.

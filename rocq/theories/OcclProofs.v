(** Proofs about the occlusion tree. *)

From Coq Require Import List Bool ZArith Lia Arith.
From Verif Require Import OcclModel OcclSpec.
Import ListNotations.
Open Scope Z_scope.

(** * Interlaced bits *)
Fixpoint inter (fuel : nat) (u v : Z) : Z :=
  match fuel with O => 0 | S f => u mod 2 + 2 * inter f v (u / 2) end.

Lemma inter_zero n : inter n 0 0 = 0.
Proof. induction n; cbn [inter]; [ reflexivity | ]. rewrite Z.div_0_l, Z.mod_0_l, IHn; lia. Qed.

Lemma inter_nonneg n : forall u v, 0 <= u -> 0 <= v -> 0 <= inter n u v.
Proof.
  induction n; intros u v Hu Hv; cbn [inter]; [ lia | ].
  assert (0 <= u mod 2 < 2) by (apply Z.mod_pos_bound; lia).
  assert (0 <= u / 2) by (apply Z.div_pos; lia).
  specialize (IHn v (u / 2) Hv H0). lia.
Qed.

(** With bits enough the fuel does not matter. *)
Lemma inter_fuel n : forall a bb m u v, 0 <= u < 2 ^ Z.of_nat a -> 0 <= v < 2 ^ Z.of_nat bb ->
  (bb <= a <= S bb)%nat -> (n = a + bb)%nat -> (n <= m)%nat -> inter m u v = inter n u v.
Proof.
  induction n; intros a bb m u v Hu Hv Hab Hn Hm.
  - assert (a = 0%nat) by lia. assert (bb = 0%nat) by lia. subst. cbn in Hu, Hv.
    replace u with 0 by lia. replace v with 0 by lia. apply inter_zero.
  - destruct m; [ lia | ]. cbn [inter]. f_equal. f_equal.
    destruct a; [ lia | ].
    apply (IHn bb a); try lia.
    rewrite Nat2Z.inj_succ, Z.pow_succ_r in Hu by lia.
    split; [ apply Z.div_pos; lia | apply Z.div_lt_upper_bound; lia ].
Qed.

Lemma inter_bound n : forall a bb u v, 0 <= u < 2 ^ Z.of_nat a -> 0 <= v < 2 ^ Z.of_nat bb ->
  (bb <= a <= S bb)%nat -> (n = a + bb)%nat -> inter n u v < 2 ^ Z.of_nat n.
Proof.
  induction n; intros a bb u v Hu Hv Hab Hn; cbn [inter].
  - reflexivity.
  - destruct a; [ lia | ].
    assert (Hq : 0 <= u / 2 < 2 ^ Z.of_nat a).
    { rewrite Nat2Z.inj_succ, Z.pow_succ_r in Hu by lia.
      split; [ apply Z.div_pos; lia | apply Z.div_lt_upper_bound; lia ]. }
    assert (IH := IHn bb a v (u / 2) Hv Hq ltac:(lia) ltac:(lia)).
    assert (0 <= u mod 2 < 2) by (apply Z.mod_pos_bound; lia).
    rewrite Nat2Z.inj_succ, Z.pow_succ_r by lia. lia.
Qed.

(** * The code's interlacing *)
Lemma lor_bit r k : 0 <= r < 2 -> 0 <= k -> Z.lor r (2 * k) = r + 2 * k.
Proof.
  intros Hr Hk. destruct (Z.eq_dec r 0) as [ -> | ]; [ rewrite Z.lor_0_l; lia | ].
  replace r with 1 by lia. destruct k as [ | p | p ]; try lia; reflexivity.
Qed.

Lemma inter_two n u v : 0 <= u -> 0 <= v ->
  inter (S (S n)) u v = Z.lor (Z.land u 1) (Z.lor (Z.shiftl (Z.land v 1) 1) (Z.shiftl (inter n (Z.shiftr u 1) (Z.shiftr v 1)) 2)).
Proof.
  intros Hu Hv. cbn [inter].
  rewrite !(Z.land_ones _ 1), !Z.shiftr_div_pow2 by lia. rewrite !Z.shiftl_mul_pow2 by lia.
  change (2 ^ 1) with 2. change (2 ^ 2) with 4.
  assert (A : 0 <= u / 2) by (apply Z.div_pos; lia). assert (B : 0 <= v / 2) by (apply Z.div_pos; lia).
  assert (C : 0 <= u mod 2 < 2) by (apply Z.mod_pos_bound; lia).
  assert (D : 0 <= v mod 2 < 2) by (apply Z.mod_pos_bound; lia).
  assert (E := inter_nonneg n _ _ A B).
  set (J := inter n (u / 2) (v / 2)) in *.
  replace (Z.lor (v mod 2 * 2) (J * 4)) with (2 * (v mod 2 + 2 * J)).
  - rewrite lor_bit by lia. reflexivity.
  - replace (v mod 2 * 2) with (Z.shiftl (v mod 2) 1) by (rewrite Z.shiftl_mul_pow2 by lia; reflexivity).
    replace (J * 4) with (Z.shiftl (2 * J) 1) by (rewrite Z.shiftl_mul_pow2 by lia; change (2 ^ 1) with 2; lia).
    rewrite <- Z.shiftl_lor, lor_bit, Z.shiftl_mul_pow2 by lia. change (2 ^ 1) with 2. lia.
Qed.

Lemma interlace_lor fuel : forall n x y index bit, 0 <= x -> 0 <= y -> 0 <= bit ->
  x < 2 ^ Z.of_nat n -> y < 2 ^ Z.of_nat n -> (n < fuel)%nat ->
  interlace fuel x y index bit = Some (Z.lor index (Z.shiftl (inter (2 * n) x y) bit) - 1).
Proof.
  induction fuel; intros n x y index bit Hx Hy Hb Bx By Hf; [ lia | ]. cbn [interlace].
  destruct ((x =? 0) && (y =? 0)) eqn:E.
  - apply andb_true_iff in E as [ E1 E2 ]. rewrite E1, E2. cbn [negb orb].
    apply Z.eqb_eq in E1, E2. subst. rewrite inter_zero, Z.shiftl_0_l, Z.lor_0_r. reflexivity.
  - replace (negb (x =? 0) || negb (y =? 0)) with true
      by (destruct (x =? 0), (y =? 0); try discriminate; reflexivity).
    destruct n as [ | n ].
    { cbn in Bx, By. replace x with 0 in E by lia. replace y with 0 in E by lia. discriminate. }
    rewrite Nat2Z.inj_succ, Z.pow_succ_r in Bx, By by lia.
    assert (Hx2 : 0 <= Z.shiftr x 1) by (apply Z.shiftr_nonneg; lia).
    assert (Hy2 : 0 <= Z.shiftr y 1) by (apply Z.shiftr_nonneg; lia).
    rewrite (IHfuel n); try lia;
      [ | rewrite Z.shiftr_div_pow2 by lia; apply Z.div_lt_upper_bound; lia
        | rewrite Z.shiftr_div_pow2 by lia; apply Z.div_lt_upper_bound; lia ].
    replace (2 * S n)%nat with (S (S (2 * n))) by lia.
    rewrite inter_two by lia. rewrite !Z.shiftl_lor, !Z.shiftl_shiftl by lia.
    rewrite <- !Z.lor_assoc. replace (1 + bit) with (bit + 1) by lia.
    replace (2 + bit) with (bit + 2) by lia. reflexivity.
Qed.

Lemma lor_high n : forall k, 0 <= k < 2 ^ Z.of_nat n -> Z.lor (2 ^ Z.of_nat n) k = 2 ^ Z.of_nat n + k.
Proof.
  induction n; intros k Hk.
  - cbn in *. replace k with 0 by lia. reflexivity.
  - rewrite Nat2Z.inj_succ, Z.pow_succ_r in * by lia.
    assert (Hd := Z.div_mod k 2 ltac:(lia)).
    assert (Hm : 0 <= k mod 2 < 2) by (apply Z.mod_pos_bound; lia).
    assert (Hq : 0 <= k / 2 < 2 ^ Z.of_nat n)
      by (split; [ apply Z.div_pos; lia | apply Z.div_lt_upper_bound; lia ]).
    specialize (IHn _ Hq).
    set (q := k / 2) in *. set (r := k mod 2) in *. set (P := 2 ^ Z.of_nat n) in *.
    assert (0 < P) by (apply Z.pow_pos_nonneg; lia).
    assert (Hkr : k = Z.lor r (2 * q)) by (rewrite lor_bit by lia; lia).
    rewrite Hkr at 1. rewrite (Z.lor_comm r), Z.lor_assoc.
    replace (Z.lor (2 * P) (2 * q)) with (2 * Z.lor P q).
    + rewrite Z.lor_comm, lor_bit; [ | lia | apply Z.lor_nonneg; lia ]. rewrite IHn. lia.
    + replace (2 * Z.lor P q) with (Z.lor P q * 2 ^ 1) by (change (2 ^ 1) with 2; lia).
      rewrite <- Z.shiftl_mul_pow2, Z.shiftl_lor, !Z.shiftl_mul_pow2 by lia.
      change (2 ^ 1) with 2. f_equal; lia.
Qed.

(** The number of the leaf of (u, v), u being the coordinate split last. *)
Lemma interlace_leaf fuel a bb u v : 0 <= u < 2 ^ Z.of_nat a -> 0 <= v < 2 ^ Z.of_nat bb ->
  (bb <= a <= S bb)%nat -> (a < fuel)%nat ->
  interlace fuel u v (Z.shiftl 1 (Z.of_nat (a + bb))) 0 = Some (2 ^ Z.of_nat (a + bb) + inter (a + bb) u v - 1).
Proof.
  intros Hu Hv Hab Hf.
  rewrite (interlace_lor fuel a); try lia.
  - rewrite Z.shiftl_0_r, Z.shiftl_1_l.
    rewrite (inter_fuel (a + bb) a bb (2 * a)); try lia.
    rewrite lor_high; [ reflexivity | ].
    split; [ apply inter_nonneg; lia | apply (inter_bound _ a bb); lia ].
  - apply Z.lt_le_trans with (1 := proj2 Hv). apply Z.pow_le_mono_r; lia.
Qed.

(** * The vector of depths *)
Lemma set_nth_length t : forall i d, length (set_nth t i d) = length t.
Proof. induction t; intros [ | i ] d; cbn; congruence. Qed.
Lemma set_length t i d : length (set t i d) = length t.
Proof. apply set_nth_length. Qed.
Lemma set_nth_same t : forall i d, (i < length t)%nat -> nth i (set_nth t i d) 0 = d.
Proof.
  induction t; intros [ | i ] d H; cbn in H |- *; try lia; try reflexivity. apply IHt. lia.
Qed.
Lemma set_nth_other t : forall i j d, i <> j -> nth j (set_nth t i d) 0 = nth j t 0.
Proof.
  induction t; intros [ | i ] [ | j ] d H; cbn; try reflexivity; try congruence.
  apply IHt. congruence.
Qed.
Lemma get_set_same t i d : 0 <= i < Z.of_nat (length t) -> get (set t i d) i = d.
Proof. intros H. apply set_nth_same. lia. Qed.
Lemma get_set_other t i j d : 0 <= i -> 0 <= j -> i <> j -> get (set t i d) j = get t j.
Proof. intros H1 H2 H3. apply set_nth_other. lia. Qed.

(** Every inner node is at least as deep as its children. *)
Definition heap (m : Z) (t : list Z) : Prop :=
  forall i, 0 <= i < m -> get t (2 * i + 1) <= get t i /\ get t (2 * i + 2) <= get t i.
Definition tight (m : Z) (t : list Z) : Prop :=
  forall i, 0 <= i < m -> get t i = Z.max (get t (2 * i + 1)) (get t (2 * i + 2)).
Lemma tight_heap m t : tight m t -> heap m t.
Proof. intros H i Hi. rewrite (H i Hi). lia. Qed.

Lemma propagate_loop_spec k : forall t, Z.of_nat k <= Z.of_nat (length t) ->
  length (propagate_loop k t) = length t /\
  (forall j, Z.of_nat k <= j -> get (propagate_loop k t) j = get t j) /\
  tight (Z.of_nat k) (propagate_loop k t).
Proof.
  induction k; intros t Hk; cbn [propagate_loop].
  - split; [ reflexivity | split; [ reflexivity | intros i Hi; lia ] ].
  - set (t1 := set t (Z.of_nat k) (Z.max (get t (2 * Z.of_nat k + 1)) (get t (2 * Z.of_nat k + 2)))).
    assert (L1 : length t1 = length t) by apply set_length.
    destruct (IHk t1 ltac:(lia)) as (L & O & T).
    split; [ congruence | split ].
    + intros j Hj. rewrite O by lia. apply get_set_other; lia.
    + intros i Hi. destruct (Z.eq_dec i (Z.of_nat k)) as [ -> | Hn ].
      * rewrite !O by lia. unfold t1. rewrite get_set_same, !get_set_other by lia. reflexivity.
      * apply T. lia.
Qed.

(** * The shape of the tree *)
Lemma shape_facts covering b : covers_enough covering -> real_bucket b ->
  exists dx dy, tree_shape covering b = mkShape (Z.of_nat dx) (Z.of_nat dy) (dy <=? dx)%nat /\
    across b <= 2 ^ Z.of_nat dx /\ down b <= 2 ^ Z.of_nat dy /\ (dx <= S dy)%nat /\ (dy <= S dx)%nat.
Proof.
  intros Hc (Ha & Hd & _ & _). destruct (Hc _ Ha) as [ C1 C2 ], (Hc _ Hd) as [ D1 D2 ].
  unfold tree_shape. set (p := covering (across b)) in *. set (q := covering (down b)) in *.
  assert (M : forall i j, 0 <= i -> i <= j -> 2 ^ i <= 2 ^ j) by (intros; apply Z.pow_le_mono_r; lia).
  destruct (Z.ltb_spec p q) as [ E | E ].
  - exists (Z.to_nat (q - 1)), (Z.to_nat q). rewrite !Z2Nat.id by lia.
    specialize (M p (q - 1) ltac:(lia) ltac:(lia)).
    split; [ | lia ].
    destruct (Z.leb_spec q (q - 1)); destruct (Nat.leb_spec (Z.to_nat q) (Z.to_nat (q - 1))); try lia; reflexivity.
  - destruct (Z.ltb_spec q p) as [ F | F ].
    + exists (Z.to_nat p), (Z.to_nat (p - 1)). rewrite !Z2Nat.id by lia.
      specialize (M q (p - 1) ltac:(lia) ltac:(lia)).
      split; [ | lia ].
      destruct (Z.leb_spec (p - 1) p); destruct (Nat.leb_spec (Z.to_nat (p - 1)) (Z.to_nat p)); try lia; reflexivity.
    + assert (p = q) by lia. exists (Z.to_nat p), (Z.to_nat q). rewrite !Z2Nat.id by lia.
      split; [ | lia ].
      destruct (Z.leb_spec q p); destruct (Nat.leb_spec (Z.to_nat q) (Z.to_nat p)); try lia; reflexivity.
Qed.

Section Walk.
Variables (dx dy : nat).
Hypothesis (Dxy : (dx <= S dy)%nat) (Dyx : (dy <= S dx)%nat).
Let x_first := (dy <=? dx)%nat.
(** Whether the last level but one would be followed by a split in x. *)
Definition leaf_split : bool := xorb x_first (Nat.odd (dx + dy)).

Definition leaf_number (x y : Z) : Z :=
  2 ^ Z.of_nat (dx + dy) + (if leaf_split then inter (dx + dy) y x else inter (dx + dy) x y) - 1.

Lemma leaf_split_cases : if leaf_split then (dx <= dy)%nat else (dx = S dy)%nat.
Proof.
  unfold leaf_split, x_first. clear x_first.
  assert (dx = dy \/ dx = S dy \/ dy = S dx) as [ -> | [ -> | -> ] ] by lia.
  - rewrite Nat.leb_refl. rewrite Nat.odd_add. destruct (Nat.odd dy); cbn; lia.
  - replace (dy <=? S dy)%nat with true by (symmetry; apply Nat.leb_le; lia).
    rewrite Nat.odd_add, Nat.odd_succ, <- Nat.negb_odd. destruct (Nat.odd dy); cbn; lia.
  - replace (S dx <=? dx)%nat with false by (symmetry; apply Nat.leb_gt; lia).
    rewrite Nat.odd_add, Nat.odd_succ, <- Nat.negb_odd. destruct (Nat.odd dx); cbn; lia.
Qed.

Lemma tree_index_leaf x y : 0 <= x < 2 ^ Z.of_nat dx -> 0 <= y < 2 ^ Z.of_nat dy ->
  tree_index (Z.of_nat dx + Z.of_nat dy + 1) x_first x y = Some (leaf_number x y).
Proof.
  intros Hx Hy. unfold tree_index.
  assert (Hs : xorb (negb x_first) ((Z.of_nat dx + Z.of_nat dy + 1) mod 2 =? 1) = leaf_split).
  { unfold leaf_split. rewrite <- Nat2Z.inj_add.
    assert (Hm : ((Z.of_nat (dx + dy) + 1) mod 2 =? 1) = negb (Nat.odd (dx + dy))).
    { rewrite Nat.negb_odd. destruct (Nat.even (dx + dy)) eqn:E.
      - apply Nat.even_spec in E as [ k -> ]. apply Z.eqb_eq.
        replace (Z.of_nat (2 * k) + 1) with (1 + Z.of_nat k * 2) by lia. rewrite Z.mod_add by lia. reflexivity.
      - assert (O : Nat.odd (dx + dy) = true) by (unfold Nat.odd; rewrite E; reflexivity).
        apply Nat.odd_spec in O as [ k -> ]. apply Z.eqb_neq.
        replace (Z.of_nat (2 * k + 1) + 1) with (Z.of_nat (k + 1) * 2) by lia. rewrite Z.mod_mul by lia. lia. }
    rewrite Hm. destruct x_first, (Nat.odd (dx + dy)); reflexivity. }
  rewrite Hs. replace (Z.of_nat dx + Z.of_nat dy + 1 - 1) with (Z.of_nat (dx + dy)) by lia.
  assert (Hl := leaf_split_cases). unfold leaf_number. destruct leaf_split.
  - replace (dx + dy)%nat with (dy + dx)%nat by lia. apply interlace_leaf; try assumption; lia.
  - apply interlace_leaf; try assumption; lia.
Qed.

Lemma leaf_range x y : 0 <= x < 2 ^ Z.of_nat dx -> 0 <= y < 2 ^ Z.of_nat dy ->
  2 ^ Z.of_nat (dx + dy) - 1 <= leaf_number x y < 2 * 2 ^ Z.of_nat (dx + dy) - 1.
Proof.
  intros Hx Hy. unfold leaf_number. assert (Hl := leaf_split_cases). destruct leaf_split.
  - assert (A := inter_nonneg (dx + dy) y x ltac:(lia) ltac:(lia)).
    assert (B := inter_bound (dx + dy) dy dx y x Hy Hx ltac:(lia) ltac:(lia)). lia.
  - assert (A := inter_nonneg (dx + dy) x y ltac:(lia) ltac:(lia)).
    assert (B := inter_bound (dx + dy) dx dy x y Hx Hy ltac:(lia) ltac:(lia)). lia.
Qed.

Lemma inter_inj n : forall a bb u v u2 v2, 0 <= u < 2 ^ Z.of_nat a -> 0 <= v < 2 ^ Z.of_nat bb ->
  0 <= u2 < 2 ^ Z.of_nat a -> 0 <= v2 < 2 ^ Z.of_nat bb ->
  (bb <= a <= S bb)%nat -> (n = a + bb)%nat -> inter n u v = inter n u2 v2 -> u = u2 /\ v = v2.
Proof.
  induction n; intros a bb u v u2 v2 Hu Hv Hu2 Hv2 Hab Hn HE.
  - assert (a = 0%nat) by lia. assert (bb = 0%nat) by lia. subst. cbn in *. lia.
  - destruct a; [ lia | ]. rewrite Nat2Z.inj_succ, Z.pow_succ_r in Hu, Hu2 by lia.
    cbn [inter] in HE.
    assert (0 <= u mod 2 < 2) by (apply Z.mod_pos_bound; lia).
    assert (0 <= u2 mod 2 < 2) by (apply Z.mod_pos_bound; lia).
    assert (D1 := Z.div_mod u 2 ltac:(lia)). assert (D2 := Z.div_mod u2 2 ltac:(lia)).
    assert (Q1 : 0 <= u / 2 < 2 ^ Z.of_nat a)
      by (split; [ apply Z.div_pos; lia | apply Z.div_lt_upper_bound; lia ]).
    assert (Q2 : 0 <= u2 / 2 < 2 ^ Z.of_nat a)
      by (split; [ apply Z.div_pos; lia | apply Z.div_lt_upper_bound; lia ]).
    destruct (IHn bb a v (u / 2) v2 (u2 / 2)) as [ E1 E2 ]; try assumption; lia.
Qed.

Lemma leaf_inj x y x2 y2 : 0 <= x < 2 ^ Z.of_nat dx -> 0 <= y < 2 ^ Z.of_nat dy ->
  0 <= x2 < 2 ^ Z.of_nat dx -> 0 <= y2 < 2 ^ Z.of_nat dy ->
  leaf_number x y = leaf_number x2 y2 -> x = x2 /\ y = y2.
Proof.
  intros Hx Hy Hx2 Hy2. unfold leaf_number. assert (Hl := leaf_split_cases). destruct leaf_split; intros E.
  - destruct (inter_inj (dx + dy) dy dx y x y2 x2); try assumption; lia.
  - destruct (inter_inj (dx + dy) dx dy x y x2 y2); try assumption; lia.
Qed.

(** * Nodes over a subpixel *)
Variables (x0 y0 w h : Z).

(** The node is over subpixel (x, y): [kx] and [ky] splits are still to be made below it,
    [ax] and [ay] have been made above it. *)
Record over (x y : Z) (kx ky ax ay : nat) (n : node) : Prop := mkOver {
  ov_x : n_min_x n = x0 + w * (x / 2 ^ Z.of_nat kx * 2 ^ Z.of_nat kx);
  ov_x1 : n_max_x n = n_min_x n + w * 2 ^ Z.of_nat kx;
  ov_y : n_min_y n = y0 + h * (y / 2 ^ Z.of_nat ky * 2 ^ Z.of_nat ky);
  ov_y1 : n_max_y n = n_min_y n + h * 2 ^ Z.of_nat ky;
  ov_ax : (ax + kx = dx)%nat;
  ov_ay : (ay + ky = dy)%nat;
  ov_split : if n_split_x n then (ky <= kx <= S ky /\ ax <= ay <= S ax)%nat
             else (kx <= ky <= S kx /\ ay <= ax <= S ay)%nat;
  ov_leaf : n_split_x n = xorb leaf_split (Nat.odd (kx + ky));
  ov_index : n_index n + 1 = 2 ^ Z.of_nat (ax + ay) +
    (if n_split_x n then inter (ax + ay) (y / 2 ^ Z.of_nat ky) (x / 2 ^ Z.of_nat kx)
     else inter (ax + ay) (x / 2 ^ Z.of_nat kx) (y / 2 ^ Z.of_nat ky))
}.

Lemma over_root x y : 0 <= x < 2 ^ Z.of_nat dx -> 0 <= y < 2 ^ Z.of_nat dy ->
  over x y dx dy 0 0 (mkNode x0 y0 (x0 + 2 ^ Z.of_nat dx * w) (y0 + 2 ^ Z.of_nat dy * h) 0 x_first).
Proof.
  intros Hx Hy. constructor; cbn [n_min_x n_min_y n_max_x n_max_y n_index n_split_x].
  - rewrite Z.div_small by lia. lia.
  - lia.
  - rewrite Z.div_small by lia. lia.
  - lia.
  - lia.
  - lia.
  - unfold x_first. destruct (Nat.leb_spec dy dx); lia.
  - unfold leaf_split. destruct x_first, (Nat.odd (dx + dy)); reflexivity.
  - cbn [Nat.add inter]. cbn. destruct x_first; reflexivity.
Qed.

Lemma half x k : 0 <= x -> x / 2 ^ Z.of_nat (S k) = x / 2 ^ Z.of_nat k / 2.
Proof.
  intros Hx. rewrite Nat2Z.inj_succ, Z.pow_succ_r by lia.
  rewrite Z.div_div; [ f_equal; lia | | lia ]. apply Z.pow_nonzero; lia.
Qed.

Lemma odd_drop k j : Nat.odd (S k + j) = negb (Nat.odd (k + j)).
Proof. cbn [Nat.add]. rewrite Nat.odd_succ, <- Nat.negb_odd. reflexivity. Qed.

Definition halves (n : node) : list node :=
  if n_split_x n then
    let avg := (n_max_x n + n_min_x n) / 2 in
    [mkNode avg (n_min_y n) (n_max_x n) (n_max_y n) (n_index n * 2 + 2) (negb (n_split_x n));
     mkNode (n_min_x n) (n_min_y n) avg (n_max_y n) (n_index n * 2 + 1) (negb (n_split_x n))]
  else
    let avg := (n_max_y n + n_min_y n) / 2 in
    [mkNode (n_min_x n) avg (n_max_x n) (n_max_y n) (n_index n * 2 + 2) (negb (n_split_x n));
     mkNode (n_min_x n) (n_min_y n) (n_max_x n) avg (n_index n * 2 + 1) (negb (n_split_x n))].

Lemma middle m c k : (m + c * 2 ^ Z.of_nat (S k) + m) / 2 = m + c * 2 ^ Z.of_nat k.
Proof.
  rewrite Nat2Z.inj_succ, Z.pow_succ_r by lia.
  replace (m + c * (2 * 2 ^ Z.of_nat k) + m) with ((m + c * 2 ^ Z.of_nat k) * 2) by ring.
  apply Z.div_mul. lia.
Qed.

Lemma over_half x y kx ky ax ay n : 0 <= x -> 0 <= y -> over x y kx ky ax ay n -> (0 < kx + ky)%nat ->
  exists c kx2 ky2 ax2 ay2, In c (halves n) /\ over x y kx2 ky2 ax2 ay2 c /\ (S (kx2 + ky2) = kx + ky)%nat /\
    (n_index c = 2 * n_index n + 1 \/ n_index c = 2 * n_index n + 2) /\
    (if n_split_x n then ky2 = ky /\ n_index c = 2 * n_index n + 1 + (x / 2 ^ Z.of_nat kx2) mod 2
     else kx2 = kx /\ n_index c = 2 * n_index n + 1 + (y / 2 ^ Z.of_nat ky2) mod 2).
Proof.
  intros Hx Hy [ X X1 Y Y1 AX AY SP LF IX ] Hk. unfold halves.
  destruct (n_split_x n) eqn:Esp.
  - destruct kx as [ | kx ]; [ lia | ].
    rewrite half in X, IX by assumption. set (c := x / 2 ^ Z.of_nat kx) in *.
    assert (Dm := Z.div_mod c 2 ltac:(lia)). assert (Bm : 0 <= c mod 2 < 2) by (apply Z.mod_pos_bound; lia).
    rewrite X1. rewrite (middle (n_min_x n) w kx).
    rewrite Nat2Z.inj_succ, Z.pow_succ_r in X, X1 |- * by lia.
    assert (P2 : 2 ^ Z.of_nat (S ax + ay) = 2 * 2 ^ Z.of_nat (ax + ay)).
    { cbn [Nat.add]. rewrite Nat2Z.inj_succ, Z.pow_succ_r by lia. reflexivity. }
    destruct (Z.eq_dec (c mod 2) 0) as [ E | E ].
    + eexists _, kx, ky, (S ax), ay. split; [ right; left; reflexivity | ].
      split; [ | split; [ lia | cbn [n_index n_split_x]; fold c; split; [ left; lia | split; [ reflexivity | lia ] ] ] ].
      constructor; cbn [n_min_x n_min_y n_max_x n_max_y n_index n_split_x negb]; fold c; try lia.
      * rewrite odd_drop in LF. destruct leaf_split, (Nat.odd (kx + ky)); cbn in *; congruence.
      * rewrite P2. cbn [Nat.add inter]. rewrite E. lia.
    + assert (E1 : c mod 2 = 1) by lia. eexists _, kx, ky, (S ax), ay. split; [ left; reflexivity | ].
      split; [ | split; [ lia | cbn [n_index n_split_x]; fold c; split; [ right; lia | split; [ reflexivity | lia ] ] ] ].
      constructor; cbn [n_min_x n_min_y n_max_x n_max_y n_index n_split_x negb]; fold c; try lia.
      * rewrite odd_drop in LF. destruct leaf_split, (Nat.odd (kx + ky)); cbn in *; congruence.
      * rewrite P2. cbn [Nat.add inter]. rewrite E1. lia.
  - destruct ky as [ | ky ]; [ lia | ].
    rewrite half in Y, IX by assumption. set (c := y / 2 ^ Z.of_nat ky) in *.
    assert (Dm := Z.div_mod c 2 ltac:(lia)). assert (Bm : 0 <= c mod 2 < 2) by (apply Z.mod_pos_bound; lia).
    rewrite Y1. rewrite (middle (n_min_y n) h ky).
    rewrite Nat2Z.inj_succ, Z.pow_succ_r in Y, Y1 |- * by lia.
    assert (P2 : 2 ^ Z.of_nat (ax + S ay) = 2 * 2 ^ Z.of_nat (ax + ay)).
    { rewrite Nat.add_succ_r. rewrite Nat2Z.inj_succ, Z.pow_succ_r by lia. reflexivity. }
    rewrite Nat.add_succ_r, <- Nat.add_succ_l, odd_drop in LF.
    destruct (Z.eq_dec (c mod 2) 0) as [ E | E ].
    + eexists _, kx, ky, ax, (S ay). split; [ right; left; reflexivity | ].
      split; [ | split; [ lia | cbn [n_index n_split_x]; fold c; split; [ left; lia | split; [ reflexivity | lia ] ] ] ].
      constructor; cbn [n_min_x n_min_y n_max_x n_max_y n_index n_split_x negb]; fold c; try lia.
      * destruct leaf_split, (Nat.odd (kx + ky)); cbn in *; congruence.
      * rewrite P2, Nat.add_succ_r. cbn [inter]. rewrite E. lia.
    + assert (E1 : c mod 2 = 1) by lia. eexists _, kx, ky, ax, (S ay). split; [ left; reflexivity | ].
      split; [ | split; [ lia | cbn [n_index n_split_x]; fold c; split; [ right; lia | split; [ reflexivity | lia ] ] ] ].
      constructor; cbn [n_min_x n_min_y n_max_x n_max_y n_index n_split_x negb]; fold c; try lia.
      * destruct leaf_split, (Nat.odd (kx + ky)); cbn in *; congruence.
      * rewrite P2, Nat.add_succ_r. cbn [inter]. rewrite E1. lia.
Qed.

(** Both halves are over some subpixel. *)
Lemma over_both x y kx ky ax ay n c : 0 <= x < 2 ^ Z.of_nat dx -> 0 <= y < 2 ^ Z.of_nat dy ->
  over x y kx ky ax ay n -> (0 < kx + ky)%nat -> In c (halves n) ->
  exists x2 y2 kx2 ky2 ax2 ay2, 0 <= x2 < 2 ^ Z.of_nat dx /\ 0 <= y2 < 2 ^ Z.of_nat dy /\
    over x2 y2 kx2 ky2 ax2 ay2 c /\ (S (kx2 + ky2) = kx + ky)%nat.
Proof.
  intros Hx Hy Ho Hk Hc.
  assert (Hin : exists e, (e = 0 \/ e = 1) /\ n_index c = 2 * n_index n + 1 + e).
  { unfold halves in Hc. destruct (n_split_x n); destruct Hc as [ <- | [ <- | [] ] ]; cbn [n_index];
      [ exists 1 | exists 0 | exists 1 | exists 0 ]; lia. }
  destruct Hin as (e & He & Ei).
  assert (Hd : forall c2, In c2 (halves n) -> n_index c2 = n_index c -> c2 = c).
  { intros c2 H2 E2. revert Hc H2 E2. unfold halves.
    destruct (n_split_x n); intros [ <- | [ <- | [] ] ] [ <- | [ <- | [] ] ]; cbn [n_index]; intros; try reflexivity; lia. }
  assert (Pick : forall v k a, 0 <= v < 2 ^ Z.of_nat (a + S k) -> 
    let v2 := (2 * (v / 2 ^ Z.of_nat (S k)) + e) * 2 ^ Z.of_nat k in
    0 <= v2 < 2 ^ Z.of_nat (a + S k) /\ v2 / 2 ^ Z.of_nat (S k) = v / 2 ^ Z.of_nat (S k) /\ (v2 / 2 ^ Z.of_nat k) mod 2 = e).
  { intros v k a Hv v2. assert (P : 0 < 2 ^ Z.of_nat k) by (apply Z.pow_pos_nonneg; lia).
    assert (Q : 0 < 2 ^ Z.of_nat a) by (apply Z.pow_pos_nonneg; lia).
    set (u := v / 2 ^ Z.of_nat (S k)) in *.
    assert (Hu : 0 <= u < 2 ^ Z.of_nat a).
    { unfold u. rewrite Nat2Z.inj_add, Z.pow_add_r in Hv by lia.
      split; [ apply Z.div_pos; [ lia | apply Z.pow_pos_nonneg; lia ] | apply Z.div_lt_upper_bound; [ apply Z.pow_pos_nonneg; lia | lia ] ]. }
    assert (E1 : v2 / 2 ^ Z.of_nat k = 2 * u + e) by (unfold v2; apply Z.div_mul; lia).
    assert (PA : 2 ^ Z.of_nat (a + S k) = 2 ^ Z.of_nat a * (2 * 2 ^ Z.of_nat k)).
    { rewrite Nat2Z.inj_add, Z.pow_add_r, (Nat2Z.inj_succ k), Z.pow_succ_r by lia. reflexivity. }
    split; [ | split ].
    - rewrite PA. unfold v2. destruct He; subst e; nia.
    - rewrite half by (unfold v2; destruct He; subst e; nia). rewrite E1.
      rewrite (Z.mul_comm 2 u), Z.add_comm, Z.div_add by lia. destruct He; subst e; reflexivity.
    - rewrite E1. rewrite Z.add_comm, Z.mul_comm, Z.mod_add by lia. destruct He; subst e; reflexivity. }
  assert (AX := ov_ax _ _ _ _ _ _ _ Ho). assert (AY := ov_ay _ _ _ _ _ _ _ Ho).
  assert (SP := ov_split _ _ _ _ _ _ _ Ho).
  destruct (n_split_x n) eqn:Esp.
  - destruct kx as [ | kx ]; [ lia | ]. rewrite <- AX in Hx.
    destruct (Pick x kx ax Hx) as (R & D & M). set (x2 := (2 * (x / 2 ^ Z.of_nat (S kx)) + e) * 2 ^ Z.of_nat kx) in *.
    rewrite AX in R.
    assert (Ho2 : over x2 y (S kx) ky ax ay n).
    { destruct Ho. constructor; try assumption; rewrite D; assumption. }
    destruct (over_half _ _ _ _ _ _ _ (proj1 R) (proj1 Hy) Ho2 Hk)
      as (c2 & kx2 & ky2 & ax2 & ay2 & H2 & Hoc & Hs & _ & Hi).
    rewrite Esp in Hi. destruct Hi as [ -> Hi ]. replace kx2 with kx in * by lia. rewrite M in Hi.
    rewrite <- (Hd c2 H2 ltac:(lia)). exists x2, y, kx, ky, ax2, ay2. split; [ lia | split; [ lia | split; [ exact Hoc | lia ] ] ].
  - destruct ky as [ | ky ]; [ lia | ]. rewrite <- AY in Hy.
    destruct (Pick y ky ay Hy) as (R & D & M). set (y2 := (2 * (y / 2 ^ Z.of_nat (S ky)) + e) * 2 ^ Z.of_nat ky) in *.
    rewrite AY in R.
    assert (Ho2 : over x y2 kx (S ky) ax ay n).
    { destruct Ho. constructor; try assumption; rewrite D; assumption. }
    destruct (over_half _ _ _ _ _ _ _ (proj1 Hx) (proj1 R) Ho2 Hk)
      as (c2 & kx2 & ky2 & ax2 & ay2 & H2 & Hoc & Hs & _ & Hi).
    rewrite Esp in Hi. destruct Hi as [ -> Hi ]. replace ky2 with ky in * by lia. rewrite M in Hi.
    rewrite <- (Hd c2 H2 ltac:(lia)). exists x, y2, kx, ky, ax2, ay2. split; [ lia | split; [ lia | split; [ exact Hoc | lia ] ] ].
Qed.

Lemma over_part x k a : 0 <= x < 2 ^ Z.of_nat (a + k) -> 0 <= x / 2 ^ Z.of_nat k < 2 ^ Z.of_nat a.
Proof.
  intros H. assert (0 < 2 ^ Z.of_nat k) by (apply Z.pow_pos_nonneg; lia).
  split; [ apply Z.div_pos; lia | apply Z.div_lt_upper_bound; [ lia | ] ].
  rewrite <- Z.pow_add_r by lia. rewrite <- Nat2Z.inj_add, Nat.add_comm. lia.
Qed.

Lemma over_range x y kx ky ax ay n : 0 <= x < 2 ^ Z.of_nat dx -> 0 <= y < 2 ^ Z.of_nat dy ->
  over x y kx ky ax ay n -> 2 ^ Z.of_nat (ax + ay) <= n_index n + 1 < 2 * 2 ^ Z.of_nat (ax + ay).
Proof.
  intros Hx Hy [ X X1 Y Y1 AX AY SP LF IX ]. rewrite <- AX in Hx. rewrite <- AY in Hy.
  assert (Px := over_part _ _ _ Hx). assert (Py := over_part _ _ _ Hy).
  rewrite IX. destruct (n_split_x n).
  - assert (A := inter_nonneg (ax + ay) _ _ (proj1 Py) (proj1 Px)).
    assert (B := inter_bound (ax + ay) ay ax _ _ Py Px ltac:(lia) ltac:(lia)). lia.
  - assert (A := inter_nonneg (ax + ay) _ _ (proj1 Px) (proj1 Py)).
    assert (B := inter_bound (ax + ay) ax ay _ _ Px Py ltac:(lia) ltac:(lia)). lia.
Qed.

Lemma over_leaf x y ax ay n : over x y 0 0 ax ay n -> n_index n = leaf_number x y.
Proof.
  intros [ X X1 Y Y1 AX AY SP LF IX ]. unfold leaf_number. cbn in LF.
  rewrite xorb_false_r in LF. rewrite LF in IX. change (2 ^ Z.of_nat 0) with 1 in IX. rewrite !Z.div_1_r in IX.
  replace ax with dx in IX by lia. replace ay with dy in IX by lia. lia.
Qed.

(** Stale or not, a node over a subpixel is at least as deep as its leaf. *)
Lemma over_deep x y t : 0 <= x < 2 ^ Z.of_nat dx -> 0 <= y < 2 ^ Z.of_nat dy ->
  heap (2 ^ Z.of_nat (dx + dy) - 1) t ->
  forall k kx ky ax ay n, (kx + ky = k)%nat -> over x y kx ky ax ay n -> get t (leaf_number x y) <= get t (n_index n).
Proof.
  intros Hx Hy Ht. induction k; intros kx ky ax ay n Hk Ho.
  - assert (kx = 0%nat) by lia. assert (ky = 0%nat) by lia. subst. rewrite (over_leaf _ _ _ _ _ Ho). lia.
  - destruct (over_half _ _ _ _ _ _ _ (proj1 Hx) (proj1 Hy) Ho ltac:(lia))
      as (c & kx2 & ky2 & ax2 & ay2 & Hin & Hc & Hs & Hi & _).
    specialize (IHk kx2 ky2 ax2 ay2 c ltac:(lia) Hc).
    assert (Hr := over_range _ _ _ _ _ _ _ Hx Hy Ho).
    assert (Hlt : 2 * 2 ^ Z.of_nat (ax + ay) <= 2 ^ Z.of_nat (dx + dy)).
    { rewrite <- Z.pow_succ_r by lia. apply Z.pow_le_mono_r; [ lia | ].
      assert (A := ov_ax _ _ _ _ _ _ _ Ho). assert (B := ov_ay _ _ _ _ _ _ _ Ho). lia. }
    assert (0 < 2 ^ Z.of_nat (ax + ay)) by (apply Z.pow_pos_nonneg; lia).
    destruct (Ht (n_index n) ltac:(lia)) as [ H1 H2 ].
    destruct Hi as [ Hi | Hi ]; rewrite Hi in IHk; lia.
Qed.

Lemma over_holds x y kx ky ax ay n px py : 0 <= x -> 0 <= y -> 0 < w -> 0 < h ->
  over x y kx ky ax ay n -> in_subpixel x0 y0 w h x y px py ->
  n_min_x n <= px <= n_max_x n /\ n_min_y n <= py <= n_max_y n.
Proof.
  intros Hx Hy Hw Hh Ho [ [ P1 P2 ] [ Q1 Q2 ] ].
  assert (K : forall v k, 0 <= v -> v / 2 ^ Z.of_nat k * 2 ^ Z.of_nat k <= v /\ v + 1 <= v / 2 ^ Z.of_nat k * 2 ^ Z.of_nat k + 2 ^ Z.of_nat k).
  { intros v k Hv. assert (0 < 2 ^ Z.of_nat k) by (apply Z.pow_pos_nonneg; lia).
    assert (D := Z.div_mod v (2 ^ Z.of_nat k) ltac:(lia)).
    assert (B := Z.mod_pos_bound v (2 ^ Z.of_nat k) ltac:(lia)). lia. }
  destruct (K x kx Hx) as [ A1 A2 ], (K y ky Hy) as [ B1 B2 ].
  rewrite (ov_x1 _ _ _ _ _ _ _ Ho), (ov_y1 _ _ _ _ _ _ _ Ho), (ov_x _ _ _ _ _ _ _ Ho), (ov_y _ _ _ _ _ _ _ Ho).
  set (p := x / 2 ^ Z.of_nat kx * 2 ^ Z.of_nat kx) in *. set (q := y / 2 ^ Z.of_nat ky * 2 ^ Z.of_nat ky) in *.
  set (r := 2 ^ Z.of_nat kx) in *. set (s := 2 ^ Z.of_nat ky) in *.
  repeat split; nia.
Qed.
End Walk.

(** * The traversal *)
Definition apart (tx0 ty0 tx1 ty1 : Z) (n : node) : bool :=
  (n_max_x n <? tx0) || (n_max_y n <? ty0) || (tx1 <? n_min_x n) || (ty1 <? n_min_y n).

Lemma cull_loop_step f room s t q tx0 ty0 tx1 ty1 n rest :
  cull_loop (S f) room s t q tx0 ty0 tx1 ty1 (n :: rest) =
  if negb (apart tx0 ty0 tx1 ty1 n) then
    if get t (n_index n) <? min_z q then cull_loop f room s t q tx0 ty0 tx1 ty1 rest
    else if first_leaf s <=? n_index n then Some false
    else if room <? Z.of_nat (length (halves n ++ rest)) then None
    else cull_loop f room s t q tx0 ty0 tx1 ty1 (halves n ++ rest)
  else cull_loop f room s t q tx0 ty0 tx1 ty1 rest.
Proof. reflexivity. Qed.

Section Traverse.
Variables (dx dy : nat).
Hypothesis (Dxy : (dx <= S dy)%nat) (Dyx : (dy <= S dx)%nat).
Let s := mkShape (Z.of_nat dx) (Z.of_nat dy) (dy <=? dx)%nat.
Variables (x0 y0 w h : Z).
Hypothesis (Hw : 0 < w) (Hh : 0 < h).
Variable t : list Z.
Hypothesis Ht : heap (2 ^ Z.of_nat (dx + dy) - 1) t.

Lemma first_leaf_s : first_leaf s = 2 ^ Z.of_nat (dx + dy) - 1.
Proof. unfold first_leaf, s. cbn [depth_x depth_y]. rewrite Nat2Z.inj_add. reflexivity. Qed.

Lemma loop_sound q tx0 ty0 tx1 ty1 x y px py :
  0 <= x < 2 ^ Z.of_nat dx -> 0 <= y < 2 ^ Z.of_nat dy -> in_subpixel x0 y0 w h x y px py ->
  tx0 <= px <= tx1 -> ty0 <= py <= ty1 -> min_z q <= get t (leaf_number dx dy x y) ->
  forall fuel room stack, (exists n kx ky ax ay, In n stack /\ over dx dy x0 y0 w h x y kx ky ax ay n) ->
  cull_loop fuel room s t q tx0 ty0 tx1 ty1 stack <> Some true.
Proof.
  intros Hx Hy Hp Bx By Hz. induction fuel; intros room stack (n & kx & ky & ax & ay & Hin & Ho); [ discriminate | ].
  destruct stack as [ | m rest ]; [ destruct Hin | ]. rewrite cull_loop_step.
  destruct Hin as [ -> | Hin ].
  - destruct (over_holds dx dy Dxy Dyx x0 y0 w h x y kx ky ax ay n px py (proj1 Hx) (proj1 Hy) Hw Hh Ho Hp) as [ Nx Ny ].
    replace (apart tx0 ty0 tx1 ty1 n) with false.
    2: { unfold apart. symmetry. rewrite !orb_false_iff. repeat split; apply Z.ltb_ge; lia. }
    cbn [negb].
    assert (Hd := over_deep dx dy Dxy Dyx x0 y0 w h x y t Hx Hy Ht _ _ _ _ _ _ eq_refl Ho).
    replace (get t (n_index n) <? min_z q) with false by (symmetry; apply Z.ltb_ge; lia).
    destruct (Z.leb_spec (first_leaf s) (n_index n)) as [ L | L ]; [ discriminate | ].
    destruct (room <? _); [ discriminate | ]. apply IHfuel.
    assert (Hk : (0 < kx + ky)%nat).
    { destruct (kx + ky)%nat eqn:E; [ | lia ]. exfalso.
      assert (kx = 0%nat) by lia. assert (ky = 0%nat) by lia. subst.
      rewrite (over_leaf dx dy Dxy Dyx _ _ _ _ _ _ _ _ _ Ho) in L. rewrite first_leaf_s in L.
      assert (R := leaf_range dx dy Dxy Dyx x y Hx Hy). lia. }
    destruct (over_half dx dy Dxy Dyx x0 y0 w h _ _ _ _ _ _ _ (proj1 Hx) (proj1 Hy) Ho Hk)
      as (c & kx2 & ky2 & ax2 & ay2 & Hc & Hoc & _).
    exists c, kx2, ky2, ax2, ay2. split; [ apply in_or_app; left; exact Hc | exact Hoc ].
  - assert (Hrest : forall stack2, (forall v, In v rest -> In v stack2) ->
      cull_loop fuel room s t q tx0 ty0 tx1 ty1 stack2 <> Some true).
    { intros stack2 H2. apply IHfuel. exists n, kx, ky, ax, ay. split; [ apply H2; exact Hin | exact Ho ]. }
    destruct (negb _); [ | apply Hrest; trivial ].
    destruct (get t (n_index m) <? min_z q); [ apply Hrest; trivial | ].
    destruct (first_leaf s <=? n_index m); [ discriminate | ].
    destruct (room <? _); [ discriminate | ].
    apply Hrest. intros v Hv. apply in_or_app. right. exact Hv.
Qed.

(** What is not thrown away is in front of some leaf below it. *)
Lemma loop_kept q tx0 ty0 tx1 ty1 : forall fuel room stack,
  (forall n, In n stack -> exists x y kx ky ax ay, 0 <= x < 2 ^ Z.of_nat dx /\ 0 <= y < 2 ^ Z.of_nat dy /\
     over dx dy x0 y0 w h x y kx ky ax ay n) ->
  cull_loop fuel room s t q tx0 ty0 tx1 ty1 stack = Some false ->
  exists x y, 0 <= x < 2 ^ Z.of_nat dx /\ 0 <= y < 2 ^ Z.of_nat dy /\ min_z q <= get t (leaf_number dx dy x y) /\
    tx0 <= x0 + (x + 1) * w /\ x0 + x * w <= tx1 /\ ty0 <= y0 + (y + 1) * h /\ y0 + y * h <= ty1.
Proof.
  induction fuel; intros room stack Hall; [ discriminate | ].
  destruct stack as [ | n rest ]; [ discriminate | ]. rewrite cull_loop_step.
  assert (Hrest : forall v, In v rest -> exists x y kx ky ax ay, 0 <= x < 2 ^ Z.of_nat dx /\ 0 <= y < 2 ^ Z.of_nat dy /\
     over dx dy x0 y0 w h x y kx ky ax ay v) by (intros v Hv; apply Hall; right; exact Hv).
  destruct (apart tx0 ty0 tx1 ty1 n) eqn:Ea; cbn [negb]; [ apply IHfuel; exact Hrest | ].
  destruct (Z.ltb_spec (get t (n_index n)) (min_z q)) as [ Ez | Ez ]; [ apply IHfuel; exact Hrest | ].
  destruct (Hall n (or_introl eq_refl)) as (x & y & kx & ky & ax & ay & Hx & Hy & Ho).
  assert (R := over_range dx dy Dxy Dyx _ _ _ _ _ _ _ _ _ _ _ Hx Hy Ho).
  assert (AX := ov_ax _ _ _ _ _ _ _ _ _ _ _ _ _ Ho). assert (AY := ov_ay _ _ _ _ _ _ _ _ _ _ _ _ _ Ho).
  destruct (Z.leb_spec (first_leaf s) (n_index n)) as [ L | L ].
  - intros _. rewrite first_leaf_s in L.
    assert (Hk : (kx + ky = 0)%nat).
    { destruct (Nat.eq_dec (kx + ky) 0) as [ | Hne ]; [ assumption | exfalso ].
      assert (2 * 2 ^ Z.of_nat (ax + ay) <= 2 ^ Z.of_nat (dx + dy)).
      { rewrite <- Z.pow_succ_r by lia. apply Z.pow_le_mono_r; lia. }
      lia. }
    assert (kx = 0%nat) by lia. assert (ky = 0%nat) by lia. subst kx ky.
    rewrite (over_leaf dx dy Dxy Dyx _ _ _ _ _ _ _ _ _ Ho) in Ez.
    exists x, y. unfold apart in Ea. rewrite !orb_false_iff in Ea.
    destruct Ea as [ [ [ A1 A2 ] A3 ] A4 ]. apply Z.ltb_ge in A1, A2, A3, A4.
    assert (X := ov_x _ _ _ _ _ _ _ _ _ _ _ _ _ Ho). assert (X1 := ov_x1 _ _ _ _ _ _ _ _ _ _ _ _ _ Ho).
    assert (Y := ov_y _ _ _ _ _ _ _ _ _ _ _ _ _ Ho). assert (Y1 := ov_y1 _ _ _ _ _ _ _ _ _ _ _ _ _ Ho).
    change (2 ^ Z.of_nat 0) with 1 in *. rewrite Z.div_1_r in X, Y.
    repeat (split; [ first [ assumption | lia ] | ]). lia.
  - destruct (room <? _); [ discriminate | ]. apply IHfuel. intros v Hv. apply in_app_or in Hv as [ Hv | Hv ]; [ | apply Hrest; exact Hv ].
    assert (Hk : (0 < kx + ky)%nat).
    { destruct (kx + ky)%nat eqn:E; [ | lia ]. exfalso.
      assert (kx = 0%nat) by lia. assert (ky = 0%nat) by lia. subst kx ky.
      rewrite (over_leaf dx dy Dxy Dyx _ _ _ _ _ _ _ _ _ Ho) in L. rewrite first_leaf_s in L.
      assert (R2 := leaf_range dx dy Dxy Dyx x y Hx Hy). lia. }
    destruct (over_both dx dy Dxy Dyx x0 y0 w h _ _ _ _ _ _ _ v Hx Hy Ho Hk Hv)
      as (x2 & y2 & kx2 & ky2 & ax2 & ay2 & Hx2 & Hy2 & Ho2 & _).
    exists x2, y2, kx2, ky2, ax2, ay2. auto.
Qed.

(** ** The stack *)
Definition level_is (n : node) (l : nat) : Prop :=
  2 ^ Z.of_nat l <= n_index n + 1 < 2 * 2 ^ Z.of_nat l /\ (l <= dx + dy)%nat.
Fixpoint falling (ls : list nat) : Prop :=
  match ls with
  | a :: ((c :: _) as r) => (c < a)%nat /\ falling r
  | _ => True
  end.
Definition good_levels (ls : list nat) : Prop :=
  match ls with a :: ((c :: _) as r) => (c <= a)%nat /\ falling r | _ => True end.
Fixpoint weight (ls : list nat) : Z :=
  match ls with [] => 0 | l :: r => 2 * 2 ^ Z.of_nat (dx + dy - l) - 1 + weight r end.

Lemma falling_length ls : forall a, falling (a :: ls) -> (length ls <= a)%nat.
Proof.
  induction ls as [ | c ls IH ]; intros a H; cbn [length]; [ lia | ].
  destruct H as [ H1 H2 ]. specialize (IH c H2). lia.
Qed.
Lemma good_length ls : good_levels ls -> Forall (fun l => (l <= dx + dy)%nat) ls -> (length ls <= dx + dy + 2)%nat.
Proof.
  destruct ls as [ | a [ | c r ] ]; intros H F; cbn [length]; try lia.
  destruct H as [ H1 H2 ]. apply falling_length in H2. apply Forall_inv in F. lia.
Qed.
Lemma falling_good ls : falling ls -> good_levels ls.
Proof. destruct ls as [ | a [ | c r ] ]; cbn; intuition lia. Qed.

Lemma halves_shape n : exists c1 c2, halves n = [c1; c2] /\ n_index c1 = n_index n * 2 + 2 /\ n_index c2 = n_index n * 2 + 1.
Proof. unfold halves. destruct (n_split_x n); eexists _, _; repeat split. Qed.

Lemma weight_nonneg ls : 0 <= weight ls.
Proof. induction ls as [ | l r IH ]; cbn [weight]; [ lia | ]. assert (0 < 2 ^ Z.of_nat (dx + dy - l)) by (apply Z.pow_pos_nonneg; lia). lia. Qed.

Lemma falling_tail a ls : falling (a :: ls) -> falling ls.
Proof. destruct ls; cbn; intuition. Qed.

Lemma loop_total q tx0 ty0 tx1 ty1 : forall fuel stack ls, Forall2 level_is stack ls -> good_levels ls ->
  weight ls < Z.of_nat fuel ->
  cull_loop fuel (2 * num_levels s) s t q tx0 ty0 tx1 ty1 stack <> None.
Proof.
  induction fuel; intros stack ls HF HG HW.
  { assert (A := weight_nonneg ls). lia. }
  destruct HF as [ | n l stack ls Hn HF ]; [ discriminate | ]. rewrite cull_loop_step.
  cbn [weight] in HW. assert (P : 0 < 2 ^ Z.of_nat (dx + dy - l)) by (apply Z.pow_pos_nonneg; lia).
  assert (Hf : falling ls) by (destruct ls as [ | c r ]; [ exact I | exact (proj2 HG) ]).
  assert (Hrest : cull_loop fuel (2 * num_levels s) s t q tx0 ty0 tx1 ty1 stack <> None)
    by (apply (IHfuel stack ls HF (falling_good _ Hf)); lia).
  destruct (negb _); [ | exact Hrest ].
  destruct (get t (n_index n) <? min_z q); [ exact Hrest | ].
  rewrite first_leaf_s.
  destruct (Z.leb_spec (2 ^ Z.of_nat (dx + dy) - 1) (n_index n)) as [ L | L ]; [ discriminate | ].
  destruct Hn as [ Hn Hl ].
  assert (Hlt : (l < dx + dy)%nat).
  { destruct (Nat.eq_dec l (dx + dy)) as [ -> | ]; lia. }
  destruct (halves_shape n) as (c1 & c2 & E & E1 & E2). rewrite E.
  assert (PS : 2 ^ Z.of_nat (S l) = 2 * 2 ^ Z.of_nat l) by (rewrite Nat2Z.inj_succ, Z.pow_succ_r by lia; reflexivity).
  assert (HF2 : Forall2 level_is ([c1; c2] ++ stack) (S l :: S l :: ls)).
  { constructor; [ | constructor; [ | exact HF ] ]; unfold level_is; rewrite PS; lia. }
  assert (HG2 : good_levels (S l :: S l :: ls)).
  { split; [ lia | ]. destruct ls as [ | c r ]; [ exact I | ].
    destruct HG as [ H1 H2 ]. split; [ lia | exact H2 ]. }
  assert (HL : (length (S l :: S l :: ls) <= dx + dy + 2)%nat).
  { apply good_length; [ exact HG2 | ].
    assert (FL : forall a c, Forall2 level_is a c -> Forall (fun l => (l <= dx + dy)%nat) c).
    { intros a c H. induction H as [ | ? ? ? ? [ _ H0 ] ]; constructor; assumption. }
    exact (FL _ _ HF2). }
  assert (EL : length ([c1; c2] ++ stack) = length (S l :: S l :: ls)).
  { clear - HF2. induction HF2; cbn [length]; congruence. }
  replace (2 * num_levels s <? Z.of_nat (length ([c1; c2] ++ stack))) with false.
  2: { symmetry. apply Z.ltb_ge. rewrite EL. unfold num_levels, s. cbn [depth_x depth_y]. lia. }
  apply (IHfuel _ _ HF2 HG2). cbn [weight].
  replace (dx + dy - l)%nat with (S (dx + dy - S l)) in HW by lia.
  rewrite Nat2Z.inj_succ, Z.pow_succ_r in HW by lia. lia.
Qed.
End Traverse.

(** * Samples *)
Definition sample_ok (far : Z) (midpoint : bool) (s : sample) (l : list Z) : Prop :=
  (forall z, z <= far -> occl_z s < z -> (if midpoint then 2 else 1) <= closer z l) /\
  (forall z v, hit s = Some v -> v < z -> 1 <= closer z l) /\
  occl_z s <= far /\
  match hit s with Some v => v <= occl_z s | None => occl_z s = far end.

Lemma closer_app z l d : closer z (l ++ [d]) = closer z l + (if d <? z then 1 else 0).
Proof.
  unfold closer. rewrite filter_app, app_length. cbn [filter].
  destruct (d <? z); cbn [length]; lia.
Qed.

Lemma store_ok far midpoint s l d s2 new : sample_ok far midpoint s l -> store far midpoint s d = (s2, new) ->
  sample_ok far midpoint s2 (l ++ [d]) /\
  match new with Some z => z = occl_z s2 /\ z <= occl_z s | None => s2 = s end.
Proof.
  intros (H1 & H2 & H3 & H4) E. unfold store in E.
  assert (C : forall z, closer z l <= closer z (l ++ [d])).
  { intros z. rewrite closer_app. destruct (d <? z); lia. }
  destruct (Z.leb_spec (occl_z s) d) as [ L | L ].
  - injection E as <- <-. split; [ | reflexivity ]. repeat split; try assumption.
    + intros z Hz Ho. specialize (H1 z Hz Ho). specialize (C z). lia.
    + intros z v Hv Hl. specialize (H2 z v Hv Hl). specialize (C z). lia.
  - destruct midpoint.
    + set (prev := match hit s with Some z => z | None => far end) in *.
      assert (Hprev : prev <= occl_z s) by (unfold prev; destruct (hit s); lia).
      destruct (Z.ltb_spec prev d) as [ P | P ]; injection E as <- <-; cbn [occl_z hit].
      * destruct (hit s) as [ v | ] eqn:Eh; [ | unfold prev in P; lia ].
        split; [ | lia ]. repeat split; cbn [occl_z hit]; rewrite ?Eh; try (unfold prev in *; lia).
        -- intros z Hz Ho. specialize (H2 z v eq_refl ltac:(unfold prev in P; lia)).
           rewrite closer_app. replace (d <? z) with true by (symmetry; apply Z.ltb_lt; lia). lia.
        -- intros z u Hu Hl. specialize (H2 z u Hu Hl). specialize (C z). lia.
      * split; [ | lia ]. repeat split; cbn [occl_z hit]; try lia.
        -- intros z Hz Ho. rewrite closer_app. replace (d <? z) with true by (symmetry; apply Z.ltb_lt; lia).
           unfold prev in Ho. destruct (hit s) as [ v | ]; [ | lia ]. specialize (H2 z v eq_refl Ho). lia.
        -- intros z u Hu Hl. injection Hu as <-. rewrite closer_app.
           replace (d <? z) with true by (symmetry; apply Z.ltb_lt; lia).
           assert (0 <= closer z l) by (unfold closer; lia). lia.
    + injection E as <- <-. split; [ | cbn [occl_z]; lia ]. repeat split; cbn [occl_z hit]; try lia.
      * intros z Hz Ho. rewrite closer_app. replace (d <? z) with true by (symmetry; apply Z.ltb_lt; lia).
        assert (0 <= closer z l) by (unfold closer; lia). lia.
      * intros z u Hu Hl. injection Hu as <-. rewrite closer_app.
        replace (d <? z) with true by (symmetry; apply Z.ltb_lt; lia).
        assert (0 <= closer z l) by (unfold closer; lia). lia.
Qed.

Lemma hits_of_app x y l m : hits_of x y (l ++ m) = hits_of x y l ++ hits_of x y m.
Proof. unfold hits_of. rewrite filter_app, map_app. reflexivity. Qed.
Lemma hits_of_same x y d : hits_of x y [(x, y, d)] = [d].
Proof. unfold hits_of. cbn. rewrite !Z.eqb_refl. reflexivity. Qed.
Lemma hits_of_other x y u v d : (u, v) <> (x, y) -> hits_of x y [(u, v, d)] = [].
Proof.
  intros H. unfold hits_of. cbn. destruct (Z.eqb_spec u x), (Z.eqb_spec v y); cbn; try reflexivity. congruence.
Qed.

Definition samples_ok (far : Z) (midpoint : bool) (f : Z -> Z -> sample) (l : list (Z * Z * Z)) : Prop :=
  forall x y, sample_ok far midpoint (f x y) (hits_of x y l).

Lemma put_ok far midpoint f l x y d : samples_ok far midpoint f l ->
  samples_ok far midpoint (put f x y (fst (store far midpoint (f x y) d))) (l ++ [(x, y, d)]).
Proof.
  intros H u v. unfold put. rewrite hits_of_app.
  destruct (Z.eqb_spec u x) as [ -> | Hu ]; [ destruct (Z.eqb_spec v y) as [ -> | Hv ] | ]; cbn [andb].
  - rewrite hits_of_same. destruct (store far midpoint (f x y) d) as [ s2 new ] eqn:E.
    exact (proj1 (store_ok _ _ _ _ _ _ _ (H x y) E)).
  - rewrite hits_of_other, app_nil_r by congruence. apply H.
  - rewrite hits_of_other, app_nil_r by congruence. apply H.
Qed.

Lemma before_ok far midpoint prior : samples_ok far midpoint (before far midpoint prior) prior.
Proof.
  unfold before.
  assert (G : forall l f done, samples_ok far midpoint f done ->
    samples_ok far midpoint (fold_left (fun f h => let '(x, y, d) := h in put f x y (fst (store far midpoint (f x y) d))) l f) (done ++ l)).
  { induction l as [ | [ [ x y ] d ] l IH ]; intros f done H; cbn [fold_left].
    - rewrite app_nil_r. exact H.
    - replace (done ++ (x, y, d) :: l) with ((done ++ [(x, y, d)]) ++ l) by (rewrite <- app_assoc; reflexivity).
      apply IH. apply put_ok. exact H. }
  apply (G prior _ []). intros x y. unfold hits_of. cbn. repeat split; cbn [fresh hit occl_z]; try lia. discriminate.
Qed.

(** The converse: a hit that could hide something is not forgotten. *)
Definition sample_full (far : Z) (midpoint : bool) (s : sample) (l : list Z) : Prop :=
  (forall z, z <= far -> z <= occl_z s -> closer z l <= (if midpoint then 1 else 0)) /\
  (forall z, z <= far -> match hit s with Some v => z <= v | None => True end -> closer z l = 0).

Lemma store_full far midpoint s l d s2 new : sample_ok far midpoint s l -> sample_full far midpoint s l ->
  store far midpoint s d = (s2, new) -> sample_full far midpoint s2 (l ++ [d]).
Proof.
  intros (_ & _ & H3 & H4) [ F1 F2 ] E. unfold store in E.
  assert (G : forall z, 0 <= closer z l) by (intros z; unfold closer; lia).
  destruct (Z.leb_spec (occl_z s) d) as [ L | L ].
  - injection E as <- <-. split; intros z Hz Ho; rewrite closer_app.
    + specialize (F1 z Hz Ho). destruct (Z.ltb_spec d z); lia.
    + specialize (F2 z Hz Ho). destruct (hit s); destruct (Z.ltb_spec d z); lia.
  - destruct midpoint.
    + set (prev := match hit s with Some z => z | None => far end) in *.
      destruct (Z.ltb_spec prev d) as [ P | P ]; injection E as <- <-; split; intros z Hz Ho; cbn [occl_z hit] in Ho;
        rewrite closer_app; specialize (G z).
      * specialize (F1 z Hz ltac:(lia)). destruct (Z.ltb_spec d z); lia.
      * specialize (F2 z Hz Ho). unfold prev in P. destruct (hit s); destruct (Z.ltb_spec d z); lia.
      * assert (F := F2 z Hz). unfold prev in Ho. destruct (hit s); [ specialize (F Ho) | specialize (F Logic.I) ];
          destruct (Z.ltb_spec d z); lia.
      * assert (F := F2 z Hz). unfold prev in P. destruct (hit s); [ specialize (F ltac:(lia)) | specialize (F Logic.I) ];
          destruct (Z.ltb_spec d z); lia.
    + injection E as <- <-. split; intros z Hz Ho; cbn [occl_z hit] in Ho; rewrite closer_app.
      * specialize (F1 z Hz ltac:(lia)). destruct (Z.ltb_spec d z); lia.
      * specialize (F1 z Hz ltac:(lia)). specialize (G z). destruct (Z.ltb_spec d z); lia.
Qed.

(** * The state *)
Section State.
Variable covering : Z -> Z.
Variable far : Z.
Variable b : bucket.
Variables (dx dy : nat).
Hypothesis Shape : tree_shape covering b = mkShape (Z.of_nat dx) (Z.of_nat dy) (dy <=? dx)%nat.
Hypothesis (Ax : across b <= 2 ^ Z.of_nat dx) (Ay : down b <= 2 ^ Z.of_nat dy).
Hypothesis (Dxy : (dx <= S dy)%nat) (Dyx : (dy <= S dx)%nat).
Let inner := 2 ^ Z.of_nat (dx + dy) - 1.

Lemma inner_pos : 0 <= inner.
Proof. unfold inner. assert (0 < 2 ^ Z.of_nat (dx + dy)) by (apply Z.pow_pos_nonneg; lia). lia. Qed.

Lemma leaf_of_eq x y : 0 <= x < across b -> 0 <= y < down b -> leaf_of covering b x y = leaf_number dx dy x y.
Proof.
  intros Hx Hy. unfold leaf_of. rewrite Shape. cbn [num_levels depth_x depth_y split_x_first].
  unfold num_levels. cbn [depth_x depth_y]. rewrite tree_index_leaf by lia. reflexivity.
Qed.

Lemma propagate_spec t : inner <= Z.of_nat (length t) ->
  length (propagate (tree_shape covering b) t) = length t /\
  (forall j, inner <= j -> get (propagate (tree_shape covering b) t) j = get t j) /\
  tight inner (propagate (tree_shape covering b) t).
Proof.
  intros Hl. assert (I := inner_pos). unfold propagate. rewrite Shape. unfold num_levels. cbn [depth_x depth_y].
  replace (2 ^ (Z.of_nat dx + Z.of_nat dy + 1 - 1) - 2 + 1) with inner
    by (unfold inner; rewrite Nat2Z.inj_add; replace (Z.of_nat dx + Z.of_nat dy + 1 - 1) with (Z.of_nat dx + Z.of_nat dy) by lia; lia).
  assert (G := propagate_loop_spec (Z.to_nat inner) t). rewrite Z2Nat.id in G by lia. apply G. lia.
Qed.

Record good (midpoint : bool) (l : list (Z * Z * Z)) (st : state) : Prop := mkGood {
  g_len : Z.of_nat (length (depths st)) = 2 * inner + 1;
  g_heap : heap inner (depths st);
  g_leaf : forall x y, 0 <= x < across b -> 0 <= y < down b ->
    occl_z (samples st x y) <= get (depths st) (leaf_number dx dy x y);
  g_samples : samples_ok far midpoint (samples st) l
}.

Lemma grid_in n m x y : 0 <= x < n -> 0 <= y < m -> In (x, y) (grid n m).
Proof.
  intros Hx Hy. unfold grid. apply in_prod.
  - apply in_map_iff. exists (Z.to_nat x). split; [ lia | apply in_seq; lia ].
  - apply in_map_iff. exists (Z.to_nat y). split; [ lia | apply in_seq; lia ].
Qed.
Lemma grid_bound n m x y : In (x, y) (grid n m) -> 0 <= x < n /\ 0 <= y < m.
Proof.
  unfold grid. intros H. apply in_prod_iff in H as [ H1 H2 ].
  apply in_map_iff in H1 as (i & <- & Hi). apply in_map_iff in H2 as (j & <- & Hj).
  apply in_seq in Hi, Hj. lia.
Qed.

Lemma fill_spec l : forall t, (forall p, In p l -> 0 <= fst p < across b /\ 0 <= snd p < down b) ->
  Z.of_nat (length t) = 2 * inner + 1 ->
  let t2 := fold_left (fun t p => set t (leaf_of covering b (fst p) (snd p)) far) l t in
  length t2 = length t /\
  forall x y, 0 <= x < across b -> 0 <= y < down b ->
    In (x, y) l \/ get t (leaf_number dx dy x y) = far -> get t2 (leaf_number dx dy x y) = far.
Proof.
  induction l as [ | [ u v ] l IH ]; intros t Hin Hl; cbn [fold_left fst snd].
  - split; [ reflexivity | ]. intros x y Hx Hy [ [] | H ]. exact H.
  - destruct (Hin (u, v) (or_introl eq_refl)) as [ Hu Hv ]. cbn [fst snd] in Hu, Hv.
    rewrite leaf_of_eq by assumption.
    assert (Rl := leaf_range dx dy Dxy Dyx u v ltac:(lia) ltac:(lia)).
    assert (I := inner_pos).
    destruct (IH (set t (leaf_number dx dy u v) far)) as [ L P ].
    + intros p Hp. apply Hin. right. exact Hp.
    + rewrite set_length. exact Hl.
    + split; [ rewrite L; apply set_length | ].
      intros x y Hx Hy H. apply P; try assumption.
      assert (Rx := leaf_range dx dy Dxy Dyx x y ltac:(lia) ltac:(lia)).
      destruct (Z.eq_dec (leaf_number dx dy u v) (leaf_number dx dy x y)) as [ E | E ].
      * right. rewrite E. apply get_set_same. unfold inner in *. lia.
      * rewrite get_set_other by (unfold inner in *; lia).
        destruct H as [ [ H | H ] | H ]; [ | left; exact H | right; exact H ].
        injection H as <- <-. congruence.
Qed.

Lemma start_good midpoint prior : good midpoint prior (start covering far b midpoint prior).
Proof.
  unfold start, setup. assert (I := inner_pos).
  assert (Hn : num_nodes (tree_shape covering b) = 2 * inner + 1).
  { rewrite Shape. unfold num_nodes, inner. cbn [depth_x depth_y]. rewrite Nat2Z.inj_add. lia. }
  destruct (fill_spec (grid (across b) (down b)) (repeat 0 (Z.to_nat (num_nodes (tree_shape covering b)))))
    as [ L F ].
  - intros [ x y ] H. apply grid_bound in H. exact H.
  - rewrite repeat_length, Hn. lia.
  - rewrite repeat_length in L.
    set (t := fold_left _ _ _) in *.
    destruct (propagate_spec t) as (L2 & O & T); [ rewrite L, Hn; lia | ].
    constructor; cbn [depths samples].
    + rewrite L2, L, Hn. lia.
    + apply tight_heap. exact T.
    + intros x y Hx Hy. assert (R := leaf_range dx dy Dxy Dyx x y ltac:(lia) ltac:(lia)).
      rewrite O by (unfold inner; lia). rewrite F; [ | assumption | assumption | left; apply grid_in; assumption ].
      destruct (before_ok far midpoint prior x y) as (_ & _ & H & _). exact H.
    + apply before_ok.
Qed.

Lemma step_good midpoint l st e : inside b e -> good midpoint l st ->
  good midpoint (l ++ hits [e]) (step covering far b midpoint st e).
Proof.
  intros He [ GL GH GF GS ]. destruct e as [ x y d | ]; cbn [step hits flat_map app].
  - cbn [inside] in He. destruct He as [ Hx Hy ].
    assert (PO := put_ok far midpoint (samples st) l x y d GS).
    destruct (store far midpoint (samples st x y) d) as [ s2 new ] eqn:E.
    destruct (store_ok _ _ _ _ _ _ _ (GS x y) E) as [ S1 S2 ]. cbn [fst] in PO.
    destruct new as [ z | ].
    + destruct S2 as [ Ez Lz ]. rewrite leaf_of_eq by assumption.
      assert (Rl := leaf_range dx dy Dxy Dyx x y ltac:(lia) ltac:(lia)). assert (I := inner_pos).
      assert (Low := GF x y Hx Hy).
      assert (Same : get (set (depths st) (leaf_number dx dy x y) z) (leaf_number dx dy x y) = z)
        by (apply get_set_same; unfold inner in *; lia).
      constructor; cbn [depths samples].
      * rewrite set_length. exact GL.
      * intros i Hi. destruct (GH i Hi) as [ H1 H2 ].
        rewrite (get_set_other _ _ i) by (unfold inner in *; lia).
        split.
        -- destruct (Z.eq_dec (leaf_number dx dy x y) (2 * i + 1)) as [ Ei | Ei ].
           ++ rewrite <- Ei, Same. rewrite <- Ei in H1. lia.
           ++ rewrite get_set_other by (unfold inner in *; lia). exact H1.
        -- destruct (Z.eq_dec (leaf_number dx dy x y) (2 * i + 2)) as [ Ei | Ei ].
           ++ rewrite <- Ei, Same. rewrite <- Ei in H2. lia.
           ++ rewrite get_set_other by (unfold inner in *; lia). exact H2.
      * intros u v Hu Hv. assert (Ru := leaf_range dx dy Dxy Dyx u v ltac:(lia) ltac:(lia)).
        unfold put. destruct (Z.eqb_spec u x) as [ -> | Nu ]; [ destruct (Z.eqb_spec v y) as [ -> | Nv ] | ]; cbn [andb].
        -- rewrite Same. lia.
        -- rewrite get_set_other; [ apply GF; assumption | unfold inner in *; lia | unfold inner in *; lia | ].
           intros Ee. destruct (leaf_inj dx dy Dxy Dyx x y x v) as [ _ N ]; try lia.
        -- rewrite get_set_other; [ apply GF; assumption | unfold inner in *; lia | unfold inner in *; lia | ].
           intros Ee. destruct (leaf_inj dx dy Dxy Dyx x y u v) as [ N _ ]; try lia.
      * exact PO.
    + subst s2. constructor; try assumption. intros u v. specialize (PO u v). unfold put in PO.
      destruct ((u =? x) && (v =? y)) eqn:Euv; [ | exact PO ].
      apply andb_true_iff in Euv as [ Eu Ev ]. apply Z.eqb_eq in Eu, Ev. subst u v. exact PO.
  - rewrite app_nil_r. destruct (needs_update st); [ | constructor; assumption ].
    assert (I := inner_pos).
    destruct (propagate_spec (depths st)) as (L2 & O & T); [ lia | ].
    constructor; cbn [depths samples].
    + rewrite L2. exact GL.
    + apply tight_heap. exact T.
    + intros x y Hx Hy. assert (R := leaf_range dx dy Dxy Dyx x y ltac:(lia) ltac:(lia)).
      rewrite O by (unfold inner; lia). apply GF; assumption.
    + exact GS.
Qed.

Lemma run_good midpoint prior l : Forall (inside b) l ->
  good midpoint (prior ++ hits l) (run covering far b midpoint prior l).
Proof.
  intros H. unfold run.
  assert (G : forall l done st, Forall (inside b) l -> good midpoint done st ->
    good midpoint (done ++ hits l) (fold_left (step covering far b midpoint) l st)).
  { clear H l. induction l as [ | e l IH ]; intros done st H G; cbn [fold_left].
    - cbn. rewrite app_nil_r. exact G.
    - replace (done ++ hits (e :: l)) with ((done ++ hits [e]) ++ hits l).
      + apply IH; [ exact (Forall_inv_tail H) | ]. apply step_good; [ exact (Forall_inv H) | exact G ].
      + rewrite <- app_assoc. f_equal. unfold hits. cbn [flat_map]. rewrite app_nil_r. reflexivity. }
  apply G; [ exact H | apply start_good ].
Qed.

(** Without earlier hits the leaves are known exactly. *)
Record exact (midpoint : bool) (l : list (Z * Z * Z)) (st : state) : Prop := mkExact {
  e_leaf : forall x y, 0 <= x < across b -> 0 <= y < down b ->
    get (depths st) (leaf_number dx dy x y) = occl_z (samples st x y);
  e_rest : forall x y, 0 <= x < 2 ^ Z.of_nat dx -> 0 <= y < 2 ^ Z.of_nat dy -> ~ (x < across b /\ y < down b) ->
    get (depths st) (leaf_number dx dy x y) = 0;
  e_full : forall x y, sample_full far midpoint (samples st x y) (hits_of x y l)
}.

Lemma fill_rest l : forall t, (forall p, In p l -> 0 <= fst p < across b /\ 0 <= snd p < down b) ->
  forall x y, 0 <= x < 2 ^ Z.of_nat dx -> 0 <= y < 2 ^ Z.of_nat dy -> ~ (x < across b /\ y < down b) ->
  get (fold_left (fun t p => set t (leaf_of covering b (fst p) (snd p)) far) l t) (leaf_number dx dy x y) =
  get t (leaf_number dx dy x y).
Proof.
  induction l as [ | [ u v ] l IH ]; intros t Hin x y Hx Hy Hn; cbn [fold_left fst snd]; [ reflexivity | ].
  destruct (Hin (u, v) (or_introl eq_refl)) as [ Hu Hv ]. cbn [fst snd] in Hu, Hv.
  rewrite IH; [ | intros p Hp; apply Hin; right; exact Hp | assumption | assumption | assumption ].
  rewrite leaf_of_eq by assumption.
  assert (Ru := leaf_range dx dy Dxy Dyx u v ltac:(lia) ltac:(lia)).
  assert (Rx := leaf_range dx dy Dxy Dyx x y Hx Hy). assert (I := inner_pos). unfold inner in I.
  apply get_set_other; try lia. intros E. apply leaf_inj in E; try lia.
Qed.

Lemma start_exact midpoint : exact midpoint [] (start covering far b midpoint []).
Proof.
  unfold start, setup. assert (I := inner_pos).
  assert (Hn : num_nodes (tree_shape covering b) = 2 * inner + 1).
  { rewrite Shape. unfold num_nodes, inner. cbn [depth_x depth_y]. rewrite Nat2Z.inj_add. lia. }
  assert (HB : forall p, In p (grid (across b) (down b)) -> 0 <= fst p < across b /\ 0 <= snd p < down b)
    by (intros [ x y ] H; apply grid_bound in H; exact H).
  destruct (fill_spec (grid (across b) (down b)) (repeat 0 (Z.to_nat (num_nodes (tree_shape covering b)))) HB)
    as [ L F ]; [ rewrite repeat_length, Hn; lia | ].
  assert (FR := fill_rest (grid (across b) (down b)) (repeat 0 (Z.to_nat (num_nodes (tree_shape covering b)))) HB).
  rewrite repeat_length in L.
  set (t := fold_left _ _ _) in *.
  destruct (propagate_spec t) as (L2 & O & T); [ rewrite L, Hn; lia | ].
  constructor; cbn [depths samples].
  - intros x y Hx Hy. assert (R := leaf_range dx dy Dxy Dyx x y ltac:(lia) ltac:(lia)).
    rewrite O by (unfold inner; lia). rewrite F; [ reflexivity | assumption | assumption | left; apply grid_in; assumption ].
  - intros x y Hx Hy Ho. assert (R := leaf_range dx dy Dxy Dyx x y Hx Hy).
    rewrite O by (unfold inner; lia). rewrite FR by assumption. unfold get. apply nth_repeat.
  - intros x y. split; intros; cbn; [ destruct midpoint; lia | reflexivity ].
Qed.

Lemma step_exact midpoint l st e : inside b e -> good midpoint l st -> exact midpoint l st ->
  exact midpoint (l ++ hits [e]) (step covering far b midpoint st e).
Proof.
  intros He [ GL GH GF GS ] [ EL ER EF ]. destruct e as [ x y d | ]; cbn [step hits flat_map app].
  - cbn [inside] in He. destruct He as [ Hx Hy ].
    destruct (store far midpoint (samples st x y) d) as [ s2 new ] eqn:E.
    assert (FF := store_full _ _ _ _ _ _ _ (GS x y) (EF x y) E).
    assert (FA : forall u v, sample_full far midpoint (put (samples st) x y s2 u v) (hits_of u v (l ++ [(x, y, d)]))).
    { intros u v. rewrite hits_of_app. unfold put. destruct ((u =? x) && (v =? y)) eqn:Euv.
      - apply andb_true_iff in Euv as [ Eu Ev ]. apply Z.eqb_eq in Eu, Ev. subst u v. rewrite hits_of_same. exact FF.
      - rewrite hits_of_other, app_nil_r; [ apply EF | ]. intros Ee. injection Ee as <- <-.
        rewrite !Z.eqb_refl in Euv. discriminate. }
    destruct (store_ok _ _ _ _ _ _ _ (GS x y) E) as [ S1 S2 ].
    destruct new as [ z | ].
    + destruct S2 as [ Ez Lz ]. rewrite leaf_of_eq by assumption.
      assert (Rl := leaf_range dx dy Dxy Dyx x y ltac:(lia) ltac:(lia)). assert (I := inner_pos).
      constructor; cbn [depths samples]; [ | | exact FA ].
      * intros u v Hu Hv. assert (Ru := leaf_range dx dy Dxy Dyx u v ltac:(lia) ltac:(lia)).
        unfold put. destruct ((u =? x) && (v =? y)) eqn:Euv.
        -- apply andb_true_iff in Euv as [ Eu Ev ]. apply Z.eqb_eq in Eu, Ev. subst u v.
           rewrite get_set_same by (unfold inner in *; lia). exact Ez.
        -- rewrite get_set_other; [ apply EL; assumption | unfold inner in *; lia | unfold inner in *; lia | ].
           intros Ee. destruct (leaf_inj dx dy Dxy Dyx x y u v ltac:(lia) ltac:(lia) ltac:(lia) ltac:(lia) Ee) as [ <- <- ].
           rewrite !Z.eqb_refl in Euv. discriminate.
      * intros u v Hu Hv Hn. assert (Ru := leaf_range dx dy Dxy Dyx u v Hu Hv).
        rewrite get_set_other; [ apply ER; assumption | unfold inner in *; lia | unfold inner in *; lia | ].
        intros Ee. apply leaf_inj in Ee; try lia.
    + subst s2. constructor; try assumption. intros u v. specialize (FA u v). unfold put in FA.
      destruct ((u =? x) && (v =? y)) eqn:Euv; [ | exact FA ].
      apply andb_true_iff in Euv as [ Eu Ev ]. apply Z.eqb_eq in Eu, Ev. subst u v. exact FA.
  - rewrite app_nil_r. destruct (needs_update st); [ | constructor; assumption ].
    assert (I := inner_pos).
    destruct (propagate_spec (depths st)) as (L2 & O & T); [ lia | ].
    constructor; cbn [depths samples]; [ | | exact EF ].
    + intros x y Hx Hy. assert (R := leaf_range dx dy Dxy Dyx x y ltac:(lia) ltac:(lia)).
      rewrite O by (unfold inner; lia). apply EL; assumption.
    + intros x y Hx Hy Hn. assert (R := leaf_range dx dy Dxy Dyx x y Hx Hy).
      rewrite O by (unfold inner; lia). apply ER; assumption.
Qed.

Lemma run_exact midpoint l : Forall (inside b) l ->
  good midpoint (hits l) (run covering far b midpoint [] l) /\ exact midpoint (hits l) (run covering far b midpoint [] l).
Proof.
  intros H. unfold run.
  assert (G : forall l done st, Forall (inside b) l -> good midpoint done st -> exact midpoint done st ->
    good midpoint (done ++ hits l) (fold_left (step covering far b midpoint) l st) /\
    exact midpoint (done ++ hits l) (fold_left (step covering far b midpoint) l st)).
  { clear H l. induction l as [ | e l IH ]; intros done st H G X; cbn [fold_left].
    - cbn. rewrite app_nil_r. split; assumption.
    - replace (done ++ hits (e :: l)) with ((done ++ hits [e]) ++ hits l).
      + apply IH; [ exact (Forall_inv_tail H) | | ].
        * apply step_good; [ exact (Forall_inv H) | exact G ].
        * apply step_exact; [ exact (Forall_inv H) | exact G | exact X ].
      + rewrite <- app_assoc. f_equal. unfold hits. cbn [flat_map]. rewrite app_nil_r. reflexivity. }
  apply (G l []); [ exact H | apply start_good | apply start_exact ].
Qed.

Lemma can_cull_root st q : can_cull covering b st q =
  cull_loop (S (Z.to_nat (2 * inner + 1))) (2 * num_levels (mkShape (Z.of_nat dx) (Z.of_nat dy) (dy <=? dx)%nat))
    (mkShape (Z.of_nat dx) (Z.of_nat dy) (dy <=? dx)%nat) (depths st) q
    (Z.max (min_x q) (left b)) (Z.max (min_y q) (top b))
    (Z.min (max_x q) (left b + 2 ^ Z.of_nat dx * wide b)) (Z.min (max_y q) (top b + 2 ^ Z.of_nat dy * high b))
    [mkNode (left b) (top b) (left b + 2 ^ Z.of_nat dx * wide b) (top b + 2 ^ Z.of_nat dy * high b) 0 (dy <=? dx)%nat].
Proof.
  unfold can_cull. rewrite Shape. cbn [depth_x depth_y split_x_first].
  replace (num_nodes (mkShape (Z.of_nat dx) (Z.of_nat dy) (dy <=? dx)%nat)) with (2 * inner + 1); [ reflexivity | ].
  unfold num_nodes, inner. cbn [depth_x depth_y]. rewrite Nat2Z.inj_add. lia.
Qed.

Lemma cull_total st q : can_cull covering b st q <> None.
Proof.
  rewrite can_cull_root. assert (I := inner_pos).
  apply (loop_total dx dy Dxy Dyx) with (ls := [0%nat]).
  - constructor; [ | constructor ]. split; [ change (2 ^ Z.of_nat 0) with 1; cbn [n_index]; lia | lia ].
  - exact Logic.I.
  - cbn [weight]. rewrite Nat.sub_0_r. unfold inner in *. lia.
Qed.

Lemma cull_sound midpoint l st q x y px py : 0 < wide b -> 0 < high b -> good midpoint l st ->
  min_z q <= far -> can_cull covering b st q = Some true ->
  0 <= x < across b -> 0 <= y < down b -> in_subpixel (left b) (top b) (wide b) (high b) x y px py ->
  min_x q <= px <= max_x q -> min_y q <= py <= max_y q ->
  (if midpoint then 2 else 1) <= closer (min_z q) (hits_of x y l) /\
  exists v, hit (samples st x y) = Some v /\ v < min_z q.
Proof.
  intros Hw Hh [ GL GH GF GS ] Hf Hc Hx Hy Hp Bx By.
  rewrite can_cull_root in Hc.
  assert (Bx2 : 0 <= x < 2 ^ Z.of_nat dx) by lia. assert (By2 : 0 <= y < 2 ^ Z.of_nat dy) by lia.
  assert (Hz : occl_z (samples st x y) < min_z q).
  { destruct (Z.lt_ge_cases (occl_z (samples st x y)) (min_z q)) as [ | Hge ]; [ assumption | exfalso ].
    assert (Ro := over_root dx dy Dxy Dyx (left b) (top b) (wide b) (high b) x y Bx2 By2).
    destruct (over_holds dx dy Dxy Dyx _ _ _ _ _ _ _ _ _ _ _ px py (proj1 Hx) (proj1 Hy) Hw Hh Ro Hp) as [ Nx Ny ].
    cbn [n_min_x n_min_y n_max_x n_max_y] in Nx, Ny.
    refine (loop_sound dx dy Dxy Dyx (left b) (top b) (wide b) (high b) Hw Hh (depths st) GH q _ _ _ _ x y px py
      Bx2 By2 Hp _ _ _ _ _ _ _ Hc); try lia.
    - specialize (GF x y Hx Hy). lia.
    - eexists _, dx, dy, 0%nat, 0%nat. split; [ left; reflexivity | exact Ro ]. }
  destruct (GS x y) as (H1 & _ & _ & H4). split; [ apply H1; assumption | ].
  destruct (hit (samples st x y)) as [ v | ]; [ exists v; split; [ reflexivity | lia ] | lia ].
Qed.

Lemma lowers midpoint l st x y d s2 z : good midpoint l st -> 0 <= x < across b -> 0 <= y < down b ->
  store far midpoint (samples st x y) d = (s2, Some z) -> z <= get (depths st) (leaf_number dx dy x y).
Proof.
  intros [ GL GH GF GS ] Hx Hy E. destruct (store_ok _ _ _ _ _ _ _ (GS x y) E) as [ _ [ _ H ] ].
  specialize (GF x y Hx Hy). lia.
Qed.

Lemma cull_kept midpoint l st q : 0 < wide b -> 0 < high b -> exact midpoint l st ->
  0 < min_z q <= far -> can_cull covering b st q = Some false ->
  exists x y, 0 <= x < across b /\ 0 <= y < down b /\
    closer (min_z q) (hits_of x y l) <= (if midpoint then 1 else 0) /\
    min_x q <= left b + (x + 1) * wide b /\ left b + x * wide b <= max_x q /\
    min_y q <= top b + (y + 1) * high b /\ top b + y * high b <= max_y q.
Proof.
  intros Hw Hh [ EL ER EF ] Hf Hc. rewrite can_cull_root in Hc.
  apply (loop_kept dx dy Dxy Dyx (left b) (top b) (wide b) (high b)) in Hc.
  - destruct Hc as (x & y & Hx & Hy & Hz & B1 & B2 & B3 & B4). exists x, y.
    destruct (Z_lt_dec x (across b)) as [ Ax2 | Ax2 ]; [ destruct (Z_lt_dec y (down b)) as [ Ay2 | Ay2 ] | ].
    + rewrite EL in Hz by lia. split; [ lia | split; [ lia | split; [ apply (proj1 (EF x y)); lia | lia ] ] ].
    + rewrite ER in Hz by lia. lia.
    + rewrite ER in Hz by lia. lia.
  - intros n [ <- | [] ]. exists 0, 0, dx, dy, 0%nat, 0%nat.
    assert (0 < 2 ^ Z.of_nat dx) by (apply Z.pow_pos_nonneg; lia).
    assert (0 < 2 ^ Z.of_nat dy) by (apply Z.pow_pos_nonneg; lia).
    split; [ lia | split; [ lia | ] ]. apply over_root; try assumption; lia.
Qed.
End State.

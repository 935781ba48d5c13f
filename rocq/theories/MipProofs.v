(** Proofs about mipmaps. *)

From Coq Require Import List Bool ZArith QArith Qround Qabs Lia Lqa Setoid Morphisms.
From Verif Require Import TexModel TexSpec TexProofs AccumModel AccumSpec AccumProofs TiffModel TiffSpec TiffProofs PropertiesTex PropertiesAccum PropertiesTiff MipModel MipSpec.
Import ListNotations.
Open Scope Z_scope.

(** ** Sizes *)
Lemma half_size_ok n : 0 < n <= 2 ^ 24 -> half_size n = (n + 1) / 2.
Proof.
  intros N. unfold half_size. rewrite (proj2 (Z.ltb_lt 0 n)) by lia. rewrite float_of_exact by (unfold small; lia).
  destruct (Z.eq_dec n (2 ^ 24)) as [ -> | D ]; [ vm_compute; reflexivity | ].
  pose proof (proj2 (float_quotient_ok n 2 ltac:(unfold small; lia) ltac:(unfold small; lia))) as E.
  Ltac Zify.zify_post_hook ::= Z.to_euclidean_division_equations. lia.
Qed.
Ltac Zify.zify_post_hook ::= idtac.
Lemma level_size_0 n : level_size n 0 = n.
Proof. unfold level_size. rewrite Z.pow_0_r, Z.div_1_r. lia. Qed.
Lemma level_size_next n i : 0 < n -> 0 <= i -> level_size n (i + 1) = (level_size n i + 1) / 2.
Proof.
  intros N I. unfold level_size. rewrite Z.pow_add_r, Z.pow_1_r by lia. rewrite <- Z.div_div by (try apply Z.pow_nonzero; lia).
  set (q := - n / 2 ^ i). clearbody q. Ltac Zify.zify_post_hook ::= Z.to_euclidean_division_equations. lia.
Qed.
Ltac Zify.zify_post_hook ::= idtac.
Lemma level_size_pos n i : 0 < n -> 0 <= i -> 0 < level_size n i <= n.
Proof.
  intros N I. unfold level_size. pose proof (Z.pow_pos_nonneg 2 i ltac:(lia) I) as P.
  pose proof (Z.div_lt_upper_bound (- n) (2 ^ i) 0 P ltac:(lia)).
  pose proof (Z.div_le_lower_bound (- n) (2 ^ i) (- n) P ltac:(nia)). lia.
Qed.
Lemma level_size_1 n i : 0 < n -> 0 <= i -> n <= 2 ^ i -> level_size n i = 1.
Proof.
  intros N I L. unfold level_size. pose proof (Z.pow_pos_nonneg 2 i ltac:(lia) I) as P.
  assert (- n / 2 ^ i = -1); [ | lia ]. symmetry. apply (Z.div_unique (- n) (2 ^ i) (-1) (2 ^ i - n)); lia.
Qed.
Lemma level_size_gt n i : 0 < n -> 0 <= i -> 2 ^ i < n -> 1 < level_size n i.
Proof.
  intros N I L. unfold level_size. pose proof (Z.pow_pos_nonneg 2 i ltac:(lia) I) as P.
  pose proof (Z.div_lt_upper_bound (- n) (2 ^ i) (-1) P ltac:(nia)). lia.
Qed.
(** The next level of a level. *)
Lemma level_size_half n i : 0 < n -> 0 <= i -> level_size ((n + 1) / 2) i = level_size n (i + 1).
Proof.
  intros N I. unfold level_size. rewrite (Z.add_comm i 1), Z.pow_add_r, Z.pow_1_r by lia. rewrite <- Z.div_div by (try apply Z.pow_pos_nonneg; lia).
  f_equal. f_equal. Ltac Zify.zify_post_hook ::= Z.to_euclidean_division_equations. lia.
Qed.
Ltac Zify.zify_post_hook ::= idtac.

(** ** The kernel *)
Lemma steps_numbers n : steps 0 n 1 = numbers 0 n.
Proof.
  unfold steps, numbers. rewrite !Z.sub_0_r. set (m := Z.to_nat n). assert (E : n <= Z.of_nat m) by lia.
  assert (G : forall k a, a + Z.of_nat k = Z.max n a -> count k a n 1 = map (fun i => a + Z.of_nat i) (seq 0 k)).
  { induction k as [ | k IH ]; intros a A; [ reflexivity | ]. cbn [count seq map].
    rewrite (proj2 (Z.ltb_lt a n)) by lia. rewrite IH by lia. rewrite <- seq_shift, map_map. f_equal; [ lia | ].
    apply map_ext. intros i. lia. }
  destruct (Z.le_gt_cases n 0) as [ L | L ].
  - replace m with O by lia. reflexivity.
  - rewrite (G m 0) by lia. reflexivity.
Qed.
Lemma numbers_shift a b c : numbers (a + c) (b + c) = map (fun v => v + c) (numbers a b).
Proof.
  unfold numbers. rewrite map_map. replace (b + c - (a + c)) with (b - a) by lia. apply map_ext. intros. lia.
Qed.
Lemma numbers_length a b : length (numbers a b) = Z.to_nat (b - a).
Proof. unfold numbers. rewrite map_length, seq_length. reflexivity. Qed.
Lemma numbers_nth a b i d : 0 <= i < b - a -> nth (Z.to_nat i) (numbers a b) d = a + i.
Proof.
  intros I. unfold numbers. rewrite (nth_indep _ d (a + Z.of_nat 0)) by (rewrite map_length, seq_length; lia).
  rewrite (map_nth (fun k => a + Z.of_nat k)). rewrite seq_nth by lia. lia.
Qed.
Lemma grid_nth {A B C} (f : A -> B -> C) (la : list A) (lb : list B) da db d : forall i j, (i < length lb)%nat -> (j < length la)%nat ->
  nth (j * length lb + i) (flat_map (fun a => map (f a) lb) la) d = f (nth j la da) (nth i lb db).
Proof.
  induction la as [ | a la IH ]; intros i j I J; [ cbn in J; lia | ]. cbn [flat_map]. destruct j as [ | j ].
  - cbn [Nat.mul Nat.add nth]. rewrite app_nth1 by (rewrite map_length; exact I).
    rewrite (nth_indep _ d (f a db)) by (rewrite map_length; exact I). apply map_nth.
  - rewrite app_nth2 by (rewrite map_length; nia). rewrite map_length. cbn [nth].
    replace (S j * length lb + i - length lb)%nat with (j * length lb + i)%nat by nia.
    apply IH; [ exact I | cbn in J; lia ].
Qed.
Lemma fold_plus l : forall a, (fold_left Qplus l a == a + fold_right Qplus 0 l)%Q.
Proof.
  induction l as [ | x l IH ]; intros a; cbn [fold_left fold_right]; [ rewrite Qplus_0_r; reflexivity | ].
  rewrite IH, Qplus_assoc. reflexivity.
Qed.
Lemma fold_right_map_sum (g : Z -> Z -> Q) l : fold_right Qplus 0%Q (map (fun p => g (fst p) (snd p)) l) = sum g l.
Proof. unfold sum. induction l as [ | p l IH ]; [ reflexivity | ]. cbn. rewrite IH. reflexivity. Qed.

#[global] Instance normal_weight_proper : Proper (Qeq ==> Qeq ==> Qeq) normal_weight.
Proof.
  intros t u E v w D. unfold normal_weight. assert (H : (v / t == w / u)%Q) by (rewrite E, D; reflexivity).
  rewrite H. destruct (Qle_bool 0 (w / u)); rewrite H; destruct (negb _); try reflexivity; exact H.
Qed.
#[global] Instance negligible_proper : Proper (Qeq ==> eq) negligible.
Proof. intros a b E. unfold negligible. rewrite E. reflexivity. Qed.
Lemma normal_share t w : (normal_weight t w == if negligible (w / t) then 0 else w / t)%Q.
Proof.
  unfold normal_weight, negligible. cbv zeta. destruct (Qle_bool 0 (w / t)) eqn:P.
  - apply le_true in P. replace (Qle_bool (w / t) (- (1 # 100000))) with false; [ rewrite andb_true_r; reflexivity | ].
    symmetry. apply not_true_is_false. intros H. apply le_true in H. lra.
  - apply le_false in P. replace (Qle_bool (1 # 100000) (w / t)) with false.
    2: { symmetry. apply not_true_is_false. intros H. apply le_true in H. lra. }
    cbn [negb andb]. replace (Qle_bool (1 # 100000) (- (w / t))) with (Qle_bool (w / t) (- (1 # 100000))); [ reflexivity | ].
    destruct (Qle_bool (w / t) _) eqn:A, (Qle_bool (1 # 100000) _) eqn:B; try reflexivity; exfalso;
      rewrite ?Qle_bool_iff in *; try apply le_false in A; try apply le_false in B; lra.
Qed.

(** The functions that filters are: of numbers, not of their representation. *)
Definition of_numbers (F : filter_func) : Prop := Proper (Qeq ==> Qeq ==> Qeq ==> Qeq ==> Qeq) F.

Lemma whole_floor q : (0 <= q)%Q -> whole q = Qfloor q.
Proof.
  intros H. unfold whole. destruct q as [ a d ]. unfold Qle in H. cbn in H. cbn [Qnum Qden Qfloor]. apply Z.quot_div_nonneg; lia.
Qed.
Lemma floor_unique (q : Q) z : (inject_Z z <= q)%Q -> (q < inject_Z (z + 1))%Q -> Qfloor q = z.
Proof.
  intros A B. pose proof (Qfloor_le q) as C. pose proof (Qlt_floor q) as D.
  assert (inject_Z z < inject_Z (Qfloor q + 1))%Q by lra. assert (inject_Z (Qfloor q) < inject_Z (z + 1))%Q by lra.
  rewrite <- Zlt_Qlt in *. lia.
Qed.
Lemma odd_rem n : 0 <= n -> negb (Z.rem n 2 =? 0) = Z.odd n.
Proof.
  intros N. rewrite Z.rem_mod_nonneg by lia. rewrite Zmod_odd. destruct (Z.odd n); reflexivity.
Qed.

(** The support is the region. *)
Lemma reach_size n width x : 0 < n -> (0 < width)%Q ->
  let size := support_size (Z.odd n) width in
  let left := 2 * x - Z.quot (size - 1) 2 in
  let c := above n (inject_Z x) in
  2 <= size /\
  Qceiling (c - reach n width) = left /\ Qfloor (c + reach n width) + 1 = left + size /\
  (inject_Z left - c == - (inject_Z (size - 1) / 2))%Q.
Proof.
  intros N W. unfold support_size, above, reach. assert (E2 : (width / 2 == (1 # 2) * width)%Q) by field.
  destruct (Z.odd n).
  - set (h := whole ((1 # 2) * width)). assert (Hh : h = Qfloor (width / 2)).
    { unfold h. rewrite whole_floor by lra. apply Qfloor_comp. field. }
    assert (H0 : 0 <= h) by (rewrite Hh; change 0 with (Qfloor 0); apply Qfloor_resp_le; lra). cbv zeta.
    set (m := Z.max h 1). replace (Z.max (2 * h + 1) 3) with (2 * m + 1) by (unfold m; lia).
    replace (Z.quot (2 * m + 1 - 1) 2) with m by (replace (2 * m + 1 - 1) with (m * 2) by lia; rewrite Z.quot_mul; lia).
    assert (R : Qfloor (if Qle_bool 1 (width / 2) then width / 2 else 1)%Q = m).
    { destruct (Qle_bool 1 (width / 2)) eqn:E.
      - apply le_true in E. rewrite <- Hh. assert (1 <= h); [ | lia ]. rewrite Hh. change 1 with (Qfloor 1). apply Qfloor_resp_le, E.
      - apply le_false in E. change (Qfloor 1) with 1. assert (h < 1); [ | lia ].
        rewrite Zlt_Qlt. rewrite Hh. pose proof (Qfloor_le (width / 2)). change (inject_Z 1) with 1%Q. lra. }
    set (r := if Qle_bool 1 (width / 2) then (width / 2)%Q else 1%Q) in *. clearbody r.
    pose proof (Qfloor_le r) as F1. pose proof (Qlt_floor r) as F2. rewrite R in F1, F2. rewrite inject_Z_plus in F2. change (inject_Z 1) with 1%Q in F2.
    split; [ unfold m; lia | ]. split; [ | split ].
    + unfold Qceiling. assert (Qfloor (- (2 * inject_Z x + 0 - r)) = - (2 * x - m)); [ | lia ].
      apply floor_unique; repeat rewrite ?inject_Z_plus, ?inject_Z_opp, ?inject_Z_mult; unfold Z.sub; repeat rewrite ?inject_Z_plus, ?inject_Z_opp, ?inject_Z_mult;
        change (inject_Z 1) with 1%Q; change (inject_Z 2) with 2%Q; lra.
    + assert (Qfloor (2 * inject_Z x + 0 + r) = 2 * x + m); [ | lia ].
      apply floor_unique; repeat rewrite ?inject_Z_plus, ?inject_Z_mult; change (inject_Z 1) with 1%Q; change (inject_Z 2) with 2%Q; lra.
    + unfold Z.sub. repeat rewrite ?inject_Z_plus, ?inject_Z_opp, ?inject_Z_mult. change (inject_Z 1) with 1%Q. change (inject_Z 2) with 2%Q. field.
  - set (h := whole ((1 # 2) * (width + 1))). assert (Hh : h = Qfloor (width / 2 + (1 # 2))).
    { unfold h. rewrite whole_floor by lra. apply Qfloor_comp. field. }
    assert (H0 : 0 <= h) by (rewrite Hh; change 0 with (Qfloor 0); apply Qfloor_resp_le; lra). cbv zeta.
    set (m := Z.max h 1). replace (Z.max (2 * h) 2) with (2 * m) by (unfold m; lia).
    replace (Z.quot (2 * m - 1) 2) with (m - 1).
    2: { symmetry. rewrite Z.quot_div_nonneg by (unfold m; lia). symmetry. apply (Z.div_unique (2 * m - 1) 2 (m - 1) 1); lia. }
    assert (R : Qfloor ((if Qle_bool (1 # 2) (width / 2) then width / 2 else (1 # 2)) + (1 # 2))%Q = m).
    { destruct (Qle_bool (1 # 2) (width / 2)) eqn:E.
      - apply le_true in E. rewrite <- Hh. assert (1 <= h); [ | lia ]. rewrite Hh. apply (Qfloor_resp_le 1). lra.
      - apply le_false in E. change (Qfloor ((1 # 2) + (1 # 2))) with 1. assert (h < 1); [ | lia ].
        rewrite Zlt_Qlt. rewrite Hh. pose proof (Qfloor_le (width / 2 + (1 # 2))). change (inject_Z 1) with 1%Q. lra. }
    set (r := if Qle_bool (1 # 2) (width / 2) then (width / 2)%Q else (1 # 2)%Q) in *. clearbody r.
    pose proof (Qfloor_le (r + (1 # 2))) as F1. pose proof (Qlt_floor (r + (1 # 2))) as F2. rewrite R in F1, F2. rewrite inject_Z_plus in F2. change (inject_Z 1) with 1%Q in F2.
    split; [ unfold m; lia | ]. split; [ | split ].
    + unfold Qceiling. assert (Qfloor (- (2 * inject_Z x + (1 # 2) - r)) = - (2 * x - (m - 1))); [ | lia ].
      apply floor_unique; repeat rewrite ?inject_Z_plus, ?inject_Z_opp, ?inject_Z_mult; unfold Z.sub; repeat rewrite ?inject_Z_plus, ?inject_Z_opp, ?inject_Z_mult;
        change (inject_Z 1) with 1%Q; change (inject_Z 2) with 2%Q; lra.
    + assert (Qfloor (2 * inject_Z x + (1 # 2) + r) = 2 * x + m); [ | lia ].
      apply floor_unique; repeat rewrite ?inject_Z_plus, ?inject_Z_mult; change (inject_Z 1) with 1%Q; change (inject_Z 2) with 2%Q; lra.
    + unfold Z.sub. repeat rewrite ?inject_Z_plus, ?inject_Z_opp, ?inject_Z_mult. change (inject_Z 1) with 1%Q. change (inject_Z 2) with 2%Q.
      change (inject_Z (- (1))) with (- (1))%Q. field.
Qed.

Lemma points_shift w h left top :
  points (mkSupport left (left + w) top (top + h)) = map (fun p => (fst p + left, snd p + top)) (points (mkSupport 0 w 0 h)).
Proof.
  unfold points. cbn [sx0 sx1 sy0 sy1].
  replace (numbers left (left + w)) with (numbers (0 + left) (w + left)) by (f_equal; lia).
  replace (numbers top (top + h)) with (numbers (0 + top) (h + top)) by (f_equal; lia).
  rewrite !numbers_shift. rewrite !flat_map_concat_map, concat_map, !map_map. f_equal. apply map_ext. intros j. rewrite !map_map. reflexivity.
Qed.
Lemma sum_map (g : Z -> Z -> Q) f l : sum g (map f l) = sum (fun x y => g (fst (f (x, y))) (snd (f (x, y)))) l.
Proof. unfold sum. induction l as [ | [ x y ] l IH ]; [ reflexivity | ]. cbn. rewrite IH. reflexivity. Qed.

Section Kernel.
Variable F : filter_func.
Hypothesis FN : of_numbers F.
Variables w h : Z.
Variables xw yw : Q.
Hypotheses (Pw : 0 < w) (Ph : 0 < h) (Px : (0 < xw)%Q) (Py : (0 < yw)%Q).
Let W := support_size (Z.odd w) xw.
Let H := support_size (Z.odd h) yw.
Let left x := 2 * x - Z.quot (W - 1) 2.
Let top y := 2 * y - Z.quot (H - 1) 2.
Definition spot (x y : Z) : support := region w h xw yw (above w (inject_Z x)) (above h (inject_Z y)).
Definition weights_for (x y : Z) : Z -> Z -> Q := weight_at F xw yw (above w (inject_Z x)) (above h (inject_Z y)).

Lemma spot_support x y : spot x y = mkSupport (left x) (left x + W) (top y) (top y + H).
Proof.
  unfold spot, region. destruct (reach_size w xw x Pw Px) as (_ & A & B & _). destruct (reach_size h yw y Ph Py) as (_ & C & D & _).
  fold W in A, B. fold H in C, D. rewrite A, B, C, D. reflexivity.
Qed.
Definition raw_at (i j : Z) : Q :=
  F ((inject_Z i - inject_Z (W - 1) / 2) * (1 # 2))%Q ((inject_Z j - inject_Z (H - 1) / 2) * (1 # 2))%Q (xw * (1 # 2))%Q (yw * (1 # 2))%Q.
Lemma raw_ok x y i j : (raw_at i j == weights_for x y (i + left x) (j + top y))%Q.
Proof.
  unfold raw_at, weights_for, weight_at. destruct (reach_size w xw x Pw Px) as (_ & _ & _ & A). destruct (reach_size h yw y Ph Py) as (_ & _ & _ & B).
  fold W in A. fold H in B. fold (left x) in A. fold (top y) in B.
  apply FN; try (field; fail).
  - rewrite inject_Z_plus. setoid_replace (inject_Z i + inject_Z (left x) - above w (inject_Z x))%Q with (inject_Z i + (inject_Z (left x) - above w (inject_Z x)))%Q by ring.
    rewrite A. field.
  - rewrite inject_Z_plus. setoid_replace (inject_Z j + inject_Z (top y) - above h (inject_Z y))%Q with (inject_Z j + (inject_Z (top y) - above h (inject_Z y)))%Q by ring.
    rewrite B. field.
Qed.
Lemma raw_weights_eq : raw_weights F xw yw W H (1 # 2) = map (fun p => raw_at (fst p) (snd p)) (points (mkSupport 0 W 0 H)).
Proof.
  unfold raw_weights, points. cbn [sx0 sx1 sy0 sy1]. rewrite !steps_numbers. rewrite !flat_map_concat_map, concat_map, !map_map. f_equal.
  apply map_ext. intros j. rewrite map_map. reflexivity.
Qed.
Definition total : Q := fold_left Qplus (raw_weights F xw yw W H (1 # 2)) 0%Q.
Lemma total_ok x y : (total == sum (weights_for x y) (points (spot x y)))%Q.
Proof.
  unfold total. rewrite fold_plus, Qplus_0_l, raw_weights_eq, fold_right_map_sum, spot_support, points_shift, sum_map.
  apply sum_ext. intros i j _. apply raw_ok.
Qed.
Lemma make_kernel_none : (total == 0)%Q <-> make_kernel F xw yw (Z.odd w) (Z.odd h) (1 # 2) = None.
Proof.
  unfold make_kernel. fold W H. cbv zeta. fold total. destruct (Qeq_bool total 0) eqn:E.
  - apply Qeq_bool_eq in E. tauto.
  - apply Qeq_bool_neq in E. split; [ contradiction | discriminate ].
Qed.
Lemma make_kernel_ok k x y : make_kernel F xw yw (Z.odd w) (Z.odd h) (1 # 2) = Some k ->
  k_width k = W /\ k_height k = H /\
  kernel_support k (2 * x - Z.quot (k_width k - 1) 2) (2 * y - Z.quot (k_height k - 1) 2) = spot x y /\
  forall px py, within (spot x y) px py ->
    (kernel_weight k (2 * x - Z.quot (k_width k - 1) 2) (2 * y - Z.quot (k_height k - 1) 2) px py ==
     share (weights_for x y) (points (spot x y)) px py)%Q.
Proof.
  unfold make_kernel. fold W H. cbv zeta. fold total. destruct (Qeq_bool total 0); [ discriminate | ]. intros [= <-].
  cbn [k_width k_height]. fold (left x) (top y). do 2 (split; [ reflexivity | ]). unfold kernel_support. cbn [k_width k_height].
  split; [ symmetry; apply spot_support | ]. intros px py I. unfold kernel_weight. cbn [k_width k_weights].
  rewrite spot_support in I. unfold within in I. cbn [sx0 sx1 sy0 sy1] in I. destruct I as [ Ix Iy ].
  unfold share. transitivity (normal_weight (sum (weights_for x y) (points (spot x y))) (weights_for x y px py)); [ | apply normal_share ]. rewrite <- (total_ok x y).
  set (i := px - left x). set (j := py - top y).
  replace (weights_for x y px py) with (weights_for x y (i + left x) (j + top y)) by (unfold i, j; f_equal; lia).
  rewrite <- raw_ok.
  assert (Hi : 0 <= i < W) by (unfold i; lia). assert (Hj : 0 <= j < H) by (unfold j; lia).
  assert (E : nth (Z.to_nat (j * W + i)) (raw_weights F xw yw W H (1 # 2)) 0%Q = raw_at i j).
  { unfold raw_weights. rewrite !steps_numbers.
    replace (Z.to_nat (j * W + i)) with (Z.to_nat j * length (numbers 0 W) + Z.to_nat i)%nat.
    2: { rewrite numbers_length, Z.sub_0_r, Z2Nat.inj_add, Z2Nat.inj_mul by nia. reflexivity. }
    rewrite (grid_nth _ _ _ 0 0) by (rewrite numbers_length; lia).
    rewrite !numbers_nth by lia. rewrite !Z.add_0_l. reflexivity. }
  assert (B : (Z.to_nat (j * W + i) < length (raw_weights F xw yw W H (1 # 2)))%nat).
  { rewrite raw_weights_eq, map_length. unfold points. cbn [sx0 sx1 sy0 sy1].
    assert (L : forall l : list Z, length (flat_map (fun y => map (fun x => (x, y)) (numbers 0 W)) l) = (length l * Z.to_nat W)%nat).
    { induction l as [ | a l IH ]; [ reflexivity | ]. cbn [flat_map length]. rewrite app_length, map_length, IH, numbers_length. lia. }
    rewrite L, numbers_length. rewrite <- Z2Nat.inj_mul by lia. apply Z2Nat.inj_lt; try nia. }
  rewrite (nth_indep _ 0%Q (normal_weight total 0%Q)) by (rewrite map_length; exact B).
  rewrite map_nth, E. reflexivity.
Qed.
End Kernel.

(** ** One level *)
#[global] Instance clamp01_proper : Proper (Qeq ==> Qeq) clamp01.
Proof. intros a b E. unfold clamp01. rewrite E. destruct (negb _); [ reflexivity | ]. rewrite E. destruct (negb _); [ reflexivity | exact E ]. Qed.
#[global] Instance load_proper t : Proper (Qeq ==> Qeq) (load t).
Proof. intros a b E. unfold load. destruct t; [ rewrite E; reflexivity | exact E ]. Qed.
#[global] Instance save_proper t : Proper (Qeq ==> Qeq) (save t).
Proof. intros a b E. unfold save. destruct t; [ rewrite E; reflexivity | exact E ]. Qed.

(** The image in a buffer. *)
Definition image_of (b : buffer samples) (x y : Z) : samples := b_data samples b (y * b_width samples b + x).
(** The value that texel ([x], [y]) of the next level should have in channel [c]. *)
Definition expected (t : channel) (F : filter_func) (xw yw : Q) (ws wt : wrap) (b : buffer samples) (x y c : Z) : Q :=
  let w := b_width samples b in
  let h := b_height samples b in
  let cx := above w (inject_Z x) in
  let cy := above h (inject_Z y) in
  let l := points (region w h xw yw cx cy) in
  save t (sum (fun px py => share (weight_at F xw yw cx cy) l px py *
                            wrapped_texel nothing (fun x y c => load t (image_of b x y c)) ws wt w h px py c)%Q l).

Section Level.
Variable t : channel.
Variable F : filter_func.
Hypothesis FN : of_numbers F.
Variables xw yw : Q.
Hypotheses (Px : (1 <= xw <= 2 ^ 23)%Q) (Py : (1 <= yw <= 2 ^ 23)%Q).
Variables ws wt : wrap.
Hypotheses (Ws : wraps ws = true) (Wt : wraps wt = true) (M : mixed ws wt = false).
Variable chans : Z.
Hypothesis (C : 0 < chans).
Variable b : buffer samples.
Let w := b_width samples b.
Let h := b_height samples b.
Hypotheses (Pw : 0 < w <= 2 ^ 24) (Ph : 0 < h <= 2 ^ 24).

Lemma size_small n width : (1 <= width <= 2 ^ 23)%Q -> 2 <= support_size (Z.odd n) width <= 2 ^ 24.
Proof.
  intros B. unfold support_size.
  assert (U : forall q, (0 <= q)%Q -> (q <= 2 ^ 22 + 1)%Q -> 0 <= whole q <= 2 ^ 22 + 1).
  { intros q A D. rewrite whole_floor by exact A. split; [ change 0 with (Qfloor 0); apply Qfloor_resp_le, A | ].
    change (2 ^ 22 + 1) with (Qfloor (2 ^ 22 + 1)). apply Qfloor_resp_le, D. }
  change (2 ^ 23)%Q with (8388608 # 1)%Q in *. change (2 ^ 22 + 1)%Q with (4194305 # 1)%Q in U.
  destruct (Z.odd n); [ specialize (U ((1 # 2) * width)%Q) | specialize (U ((1 # 2) * (width + 1))%Q) ];
    specialize (U ltac:(lra) ltac:(lra)); lia.
Qed.

Lemma spot_near x y : 0 <= x < (w + 1) / 2 -> 0 <= y < (h + 1) / 2 -> near (spot w h xw yw x y).
Proof.
  intros X Y. rewrite spot_support by (try lia; lra). unfold near. cbn [sx0 sx1 sy0 sy1].
  pose proof (size_small w xw Px). pose proof (size_small h yw Py).
  assert (Q : forall s, 2 <= s <= 2 ^ 24 -> 0 <= Z.quot (s - 1) 2 < 2 ^ 24).
  { intros s R. rewrite Z.quot_div_nonneg by lia. split; [ apply Z.div_pos; lia | apply Z.div_lt_upper_bound; lia ]. }
  pose proof (Q _ H). pose proof (Q _ H0).
  pose proof (Z.mul_div_le (w + 1) 2 ltac:(lia)). pose proof (Z.mul_div_le (h + 1) 2 ltac:(lia)). lia.
Qed.

Lemma one_texel_ok k x y acc : make_kernel F xw yw (Z.odd w) (Z.odd h) (1 # 2) = Some k ->
  0 <= x < (w + 1) / 2 -> 0 <= y < (h + 1) / 2 ->
  exists out, one_texel t ws wt chans b k x y acc = Some out /\
    forall c, 0 <= c < chans -> (save t (out c) == expected t F xw yw ws wt b x y c)%Q.
Proof.
  intros K X Y. unfold one_texel.
  destruct (make_kernel_ok F FN w h xw yw ltac:(lia) ltac:(lia) ltac:(lra) ltac:(lra) k x y K) as (_ & _ & E & Wk).
  rewrite E.
  destruct (C44_buffer_partial (loaded t b) (fun x y c => load t (image_of b x y c)) (spot w h xw yw x y) ws wt
             (kernel_weight k (2 * x - Z.quot (k_width k - 1) 2) (2 * y - Z.quot (k_height k - 1) 2)) true chans 0 chans 0 acc)
    as (out & Eo & R & _ & _); try assumption; try lia.
  - intros i j I J. reflexivity.
  - apply spot_near; assumption.
  - exists out. cbn [loaded b_width b_height] in Eo. split; [ exact Eo | ]. intros c Hc. unfold expected. apply save_proper.
    rewrite R by lia. apply sum_ext. intros px py I. apply points_in in I. rewrite Wk by exact I. reflexivity.
Qed.

Lemma texels_ok k nw nh : make_kernel F xw yw (Z.odd w) (Z.odd h) (1 # 2) = Some k -> nw = (w + 1) / 2 -> nh = (h + 1) / 2 ->
  forall l acc mem, NoDup l -> (forall x y, In (x, y) l -> 0 <= x < nw /\ 0 <= y < nh) ->
  exists out, texels t ws wt chans b k nw l acc mem = Some out /\
    (forall x y c, In (x, y) l -> 0 <= c < chans -> (out (y * nw + x)%Z c == expected t F xw yw ws wt b x y c)%Q) /\
    (forall x y c, ~ In (x, y) l -> 0 <= x < nw -> 0 <= y < nh -> out (y * nw + x) c = mem (y * nw + x) c).
Proof.
  intros K Ew Eh. induction l as [ | [ x y ] l IH ]; intros acc mem N I.
  - exists mem. split; [ reflexivity | ]. split; [ intros ? ? ? [] | reflexivity ].
  - cbn [texels]. inversion_clear N as [ | ? ? N1 N2 ]. destruct (I x y (or_introl eq_refl)) as [ Ix Iy ].
    destruct (one_texel_ok k x y acc K) as (o & Eo & R); [ lia | lia | ]. rewrite Eo.
    match goal with |- context [texels _ _ _ _ _ _ _ _ _ ?m] => set (mem2 := m) end.
    destruct (IH o mem2 N2) as (out & E & A & B); [ intros; apply I; right; assumption | ].
    exists out. split; [ exact E | ]. split.
    + intros x2 y2 c [ [= <- <-] | J ] Hc; [ | apply A; assumption ]. rewrite B by assumption. unfold mem2. rewrite Z.eqb_refl.
      replace ((0 <=? c) && (c <? chans)) with true by (symmetry; rewrite andb_true_iff, Z.leb_le, Z.ltb_lt; lia). apply R, Hc.
    + intros x2 y2 c J X2 Y2. rewrite B by (try assumption; intros D; apply J; right; exact D). unfold mem2.
      destruct (Z.eqb_spec (y2 * nw + x2) (y * nw + x)) as [ D | D ]; [ | reflexivity ]. exfalso. apply J. left.
      pose proof (same_place nw y2 x2 y x ltac:(lia) ltac:(lia) D). subst x2. f_equal. nia.
Qed.

(** A level and the next one. *)
Lemma downsample_ok acc mem : ~ (sum (weight_at F xw yw (above w 0) (above h 0)) (points (region w h xw yw (above w 0) (above h 0))) == 0)%Q ->
  exists c, downsample t F xw yw ws wt chans acc mem b = Some c /\
    b_width samples c = (w + 1) / 2 /\ b_height samples c = (h + 1) / 2 /\
    forall x y ch, 0 <= x < b_width samples c -> 0 <= y < b_height samples c -> 0 <= ch < chans ->
      (image_of c x y ch == expected t F xw yw ws wt b x y ch)%Q.
Proof.
  intros T. unfold downsample. fold w h. rewrite !odd_rem by lia. rewrite !half_size_ok by lia.
  destruct (make_kernel F xw yw (Z.odd w) (Z.odd h) (1 # 2)) as [ k | ] eqn:K.
  2: { exfalso. apply make_kernel_none in K. apply T. transitivity (total F w h xw yw); [ symmetry; apply (total_ok F FN w h xw yw ltac:(lia) ltac:(lia) ltac:(lra) ltac:(lra) 0 0) | exact K ]. }
  set (nw := (w + 1) / 2). set (nh := (h + 1) / 2).
  assert (El : flat_map (fun y => map (fun x => (x, y)) (steps 0 nw 1)) (steps 0 nh 1) = points (mkSupport 0 nw 0 nh))
    by (unfold points; cbn [sx0 sx1 sy0 sy1]; rewrite !steps_numbers; reflexivity).
  rewrite El.
  destruct (texels_ok k nw nh K eq_refl eq_refl (points (mkSupport 0 nw 0 nh)) acc mem (points_nodup _)) as (out & E & A & _).
  { intros x y I. apply points_in in I. unfold within in I. cbn [sx0 sx1 sy0 sy1] in I. exact I. }
  rewrite E. eexists. split; [ reflexivity | ]. do 2 (split; [ reflexivity | ]).
  cbn [b_width b_height]. intros x y ch X Y Hc. unfold image_of. cbn [b_data b_width]. apply A; [ | exact Hc ].
  apply points_in. unfold within. cbn [sx0 sx1 sy0 sy1]. auto.
Qed.
End Level.

(** ** All levels *)
(** The filter gives weights with a sum, for images of odd and even sizes. *)
Definition usable (F : filter_func) (xw yw : Q) : Prop := forall w h, 0 < w -> 0 < h ->
  ~ (sum (weight_at F xw yw (above w 0) (above h 0)) (points (region w h xw yw (above w 0) (above h 0))) == 0)%Q.
(** Level [c] is the one after [b]. *)
Definition next_level (t : channel) (F : filter_func) (xw yw : Q) (ws wt : wrap) (chans : Z) (b c : buffer samples) : Prop :=
  b_width samples c = (b_width samples b + 1) / 2 /\ b_height samples c = (b_height samples b + 1) / 2 /\
  forall x y ch, 0 <= x < b_width samples c -> 0 <= y < b_height samples c -> 0 <= ch < chans ->
    (image_of c x y ch == expected t F xw yw ws wt b x y ch)%Q.
Fixpoint chain {A} (R : A -> A -> Prop) (b : A) (l : list A) : Prop :=
  match l with [] => True | c :: r => R b c /\ chain R c r end.
Lemma chain_nth {A} (R : A -> A -> Prop) : forall l b i x y, chain R b l -> nth_error (b :: l) i = Some x -> nth_error (b :: l) (S i) = Some y -> R x y.
Proof.
  induction l as [ | c l IH ]; intros b i x y Ch Ex Ey; [ destruct i as [ | [ | i ] ]; discriminate | ].
  destruct Ch as [ Rb Ch ]. destruct i as [ | i ].
  - cbn in Ex, Ey. congruence.
  - exact (IH c i x y Ch Ex Ey).
Qed.

Definition big (b : buffer samples) : bool := (1 <? b_width samples b) || (1 <? b_height samples b).
Fixpoint stops (b : buffer samples) (l : list (buffer samples)) : Prop :=
  match l with [] => big b = false | c :: r => big b = true /\ stops c r end.

Section Levels.
Variable t : channel.
Variable F : filter_func.
Hypothesis FN : of_numbers F.
Variables xw yw : Q.
Hypotheses (Px : (1 <= xw <= 2 ^ 23)%Q) (Py : (1 <= yw <= 2 ^ 23)%Q).
Hypothesis Fu : usable F xw yw.
Variables ws wt : wrap.
Hypotheses (Ws : wraps ws = true) (Wt : wraps wt = true) (M : mixed ws wt = false).
Variable chans : Z.
Hypothesis (C : 0 < chans).

Lemma pyramid_ok acc mem : forall n b, 0 < b_width samples b <= 2 ^ 24 -> 0 < b_height samples b <= 2 ^ 24 ->
  b_width samples b + b_height samples b - 2 <= Z.of_nat n ->
  exists l, pyramid t F xw yw ws wt chans acc mem n b = Some l /\ chain (next_level t F xw yw ws wt chans) b l /\ stops b l.
Proof.
  induction n as [ | n IH ]; intros b W H L.
  - cbn [pyramid]. assert (B : big b = false) by (unfold big; rewrite orb_false_iff, !Z.ltb_ge; lia). unfold big in B. rewrite B.
    exists []. split; [ reflexivity | ]. split; [ exact Logic.I | exact B ].
  - cbn [pyramid]. destruct ((1 <? b_width samples b) || (1 <? b_height samples b)) eqn:B.
    + destruct (downsample_ok t F FN xw yw Px Py ws wt Ws Wt M chans C b W H acc mem (Fu _ _ (proj1 W) (proj1 H))) as (c & E & Cw & Ch & V).
      rewrite E. rewrite orb_true_iff, !Z.ltb_lt in B.
      assert (D : forall n, 0 < n -> 0 < (n + 1) / 2 <= n /\ (1 < n -> (n + 1) / 2 < n)).
      { intros m Hm. pose proof (Z.mul_div_le (m + 1) 2 ltac:(lia)). pose proof (Z.mul_succ_div_gt (m + 1) 2 ltac:(lia)). lia. }
      pose proof (D (b_width samples b) ltac:(lia)). pose proof (D (b_height samples b) ltac:(lia)).
      destruct (IH c) as (l & El & Chn & St); [ lia | lia | lia | ]. rewrite El.
      exists (c :: l). split; [ reflexivity | ]. split; [ split; [ | exact Chn ] | ].
      * split; [ exact Cw | ]. split; [ exact Ch | exact V ].
      * split; [ unfold big; rewrite orb_true_iff, !Z.ltb_lt; exact B | exact St ].
    + exists []. split; [ reflexivity | ]. split; [ exact Logic.I | exact B ].
Qed.

Lemma chain_sizes : forall l b, 0 < b_width samples b -> 0 < b_height samples b -> chain (next_level t F xw yw ws wt chans) b l ->
  forall i c, nth_error (b :: l) i = Some c ->
    b_width samples c = level_size (b_width samples b) (Z.of_nat i) /\ b_height samples c = level_size (b_height samples b) (Z.of_nat i).
Proof.
  induction l as [ | d l IH ]; intros b W H Ch i c E.
  - destruct i as [ | [ | i ] ]; [ | discriminate | discriminate ]. injection E as <-. rewrite !level_size_0. auto.
  - destruct Ch as [ (Dw & Dh & _) Ch ]. destruct i as [ | i ]; [ injection E as <-; rewrite !level_size_0; auto | ].
    assert (D : forall n, 0 < n -> 0 < (n + 1) / 2) by (intros m Hm; apply Z.div_str_pos; lia).
    destruct (IH d ltac:(rewrite Dw; apply D, W) ltac:(rewrite Dh; apply D, H) Ch i c E) as [ Ew Eh ].
    rewrite Ew, Eh, Dw, Dh, !level_size_half by lia. rewrite !Nat2Z.inj_succ. auto.
Qed.

Lemma stops_length : forall l b, 0 < b_width samples b -> 0 < b_height samples b -> chain (next_level t F xw yw ws wt chans) b l -> stops b l ->
  Z.of_nat (length l) = Z.log2_up (Z.max (b_width samples b) (b_height samples b)).
Proof.
  intros l b W H Ch St.
  assert (Last : forall l b, stops b l -> exists c, nth_error (b :: l) (length l) = Some c /\ big c = false).
  { induction l0 as [ | d l0 IH ]; intros b0 S0; [ exists b0; auto | ]. destruct S0 as [ _ S0 ]. apply IH, S0. }
  assert (Before : forall l b i c, stops b l -> (i < length l)%nat -> nth_error (b :: l) i = Some c -> big c = true).
  { induction l0 as [ | d l0 IH ]; intros b0 i c S0 I E; [ cbn in I; lia | ]. destruct S0 as [ B S0 ].
    destruct i as [ | i ]; [ injection E as <-; exact B | ]. apply (IH d i c S0); [ cbn in I; lia | exact E ]. }
  destruct (Last l b St) as (c & E & B). pose proof (chain_sizes l b W H Ch _ c E) as [ Cw Chh ].
  unfold big in B. rewrite orb_false_iff, !Z.ltb_ge in B. rewrite Cw, Chh in B.
  set (n := length l) in *. set (m := Z.max (b_width samples b) (b_height samples b)).
  assert (Up : m <= 2 ^ Z.of_nat n).
  { destruct (Z.le_gt_cases (b_width samples b) (2 ^ Z.of_nat n)) as [ A | A ]; [ | pose proof (level_size_gt _ _ W (Nat2Z.is_nonneg n) A); lia ].
    destruct (Z.le_gt_cases (b_height samples b) (2 ^ Z.of_nat n)) as [ A2 | A2 ]; [ | pose proof (level_size_gt _ _ H (Nat2Z.is_nonneg n) A2); lia ]. lia. }
  destruct n as [ | k ] eqn:En.
  - change (2 ^ Z.of_nat 0) with 1 in Up. replace m with 1 by lia. reflexivity.
  - symmetry. apply Z.log2_up_unique; [ lia | ]. split; [ | exact Up ].
    destruct (nth_error (b :: l) k) as [ d | ] eqn:Ed.
    2: { apply nth_error_None in Ed. cbn [length] in Ed. subst n. lia. }
    assert (Bd : big d = true) by (apply (Before l b k d St); [ subst n; lia | exact Ed ]).
    pose proof (chain_sizes l b W H Ch _ d Ed) as [ Dw Dh ]. unfold big in Bd. rewrite orb_true_iff, !Z.ltb_lt, Dw, Dh in Bd.
    replace (Z.pred (Z.of_nat (S k))) with (Z.of_nat k) by lia.
    destruct Bd as [ Bd | Bd ].
    + destruct (Z.le_gt_cases (b_width samples b) (2 ^ Z.of_nat k)) as [ A | A ]; [ rewrite level_size_1 in Bd by lia; lia | unfold m; lia ].
    + destruct (Z.le_gt_cases (b_height samples b) (2 ^ Z.of_nat k)) as [ A | A ]; [ rewrite level_size_1 in Bd by lia; lia | unfold m; lia ].
Qed.
End Levels.

(** ** The file *)
Definition kept_in (c : buffer samples) (f : image_file samples) : Prop :=
  i_width samples f = b_width samples c /\ i_height samples f = b_height samples c /\ holds (as_texture f 32 32) (image_of c).
Lemma write_levels_ok trash fresh tiles lines l : Forall (fun b => 0 < b_width samples b /\ 0 < b_height samples b) l ->
  exists fs, write_levels trash fresh tiles lines l = Some fs /\ Forall2 kept_in l fs.
Proof.
  induction 1 as [ | b l [ W H ] Fl (fs & E & A) ]; [ exists []; split; constructor | ]. cbn [write_levels]. rewrite E.
  destruct (C45_tiled_partial trash fresh b 32 32 _ _ tiles lines W H ltac:(lia) ltac:(lia) eq_refl (Z.le_refl _)) as (f & Ef & Fw & Fh & Hf & _).
  rewrite Ef. exists (f :: fs). split; [ reflexivity | ]. constructor; [ | exact A ]. split; [ exact Fw | ]. split; [ exact Fh | exact Hf ].
Qed.

(** ** Positions *)
Fixpoint off (n : Z) (i : nat) : Q :=
  match i with O => 0%Q | S j => (off n j + (if Z.odd (level_size n (Z.of_nat j)) then 0 else (1 # 2)) * inject_Z (2 ^ Z.of_nat j))%Q end.
Lemma place_linear n i : forall p, (place n i p == inject_Z (2 ^ Z.of_nat i) * p + off n i)%Q.
Proof.
  induction i as [ | i IH ]; intros p; [ cbn [place off]; change (inject_Z (2 ^ Z.of_nat 0)) with 1%Q; ring | ].
  cbn [place off]. rewrite IH. unfold above. rewrite Nat2Z.inj_succ, Z.pow_succ_r, inject_Z_mult by lia. change (inject_Z 2) with 2%Q. ring.
Qed.
Lemma rem_odd n : 0 < n -> (Z.rem n 2 =? 0) = negb (Z.odd n).
Proof. intros N. rewrite <- odd_rem by lia. rewrite negb_involutive. reflexivity. Qed.
Lemma next_size n : 0 < n -> Z.max (Z.quot (n + 1) 2) 1 = (n + 1) / 2.
Proof. intros N. rewrite Z.quot_div_nonneg by lia. pose proof (Z.div_str_pos (n + 1) 2 ltac:(lia)). lia. Qed.

Definition fits (n : Z) (i : nat) (scale offset : Q) : Prop := forall p, (scale * (place n i p + offset) == p)%Q.
Lemma init_more_ok W H : 0 < W -> 0 < H -> forall sizes i xo yo,
  (0 < i)%nat -> (xo == off W (i - 1))%Q -> (yo == off H (i - 1))%Q ->
  (forall k, (k < length sizes)%nat -> nth_error sizes k = Some (level_size W (Z.of_nat (i + k)), level_size H (Z.of_nat (i + k))) /\
             (1 < level_size W (Z.of_nat (i + k - 1)) \/ 1 < level_size H (Z.of_nat (i + k - 1)))) ->
  exists ts, init_more (Z.of_nat i) (level_size W (Z.of_nat (i - 1))) (level_size H (Z.of_nat (i - 1))) xo yo sizes = Some ts /\
    length ts = length sizes /\
    forall k t, nth_error ts k = Some t -> fits W (i + k) (x_scale t) (x_offset t) /\ fits H (i + k) (y_scale t) (y_offset t).
Proof.
  intros PW PH. induction sizes as [ | [ fw fh ] r IH ]; intros i xo yo I Xo Yo S0.
  - exists []. split; [ reflexivity | ]. split; [ reflexivity | ]. intros k t E. destruct k; discriminate.
  - cbn [init_more]. destruct (S0 0%nat ltac:(cbn; lia)) as [ E0 B0 ]. cbn [nth_error] in E0. injection E0 as -> ->.
    rewrite !Nat.add_0_r in *. set (w := level_size W (Z.of_nat (i - 1))) in *. set (h := level_size H (Z.of_nat (i - 1))) in *.
    assert (Pw : 0 < w) by (apply level_size_pos; lia). assert (Ph : 0 < h) by (apply level_size_pos; lia).
    replace ((w =? 1) && (h =? 1)) with false by (symmetry; rewrite andb_false_iff, !Z.eqb_neq; lia).
    rewrite !rem_odd, !next_size by assumption.
    assert (Nw : (w + 1) / 2 = level_size W (Z.of_nat i)).
    { unfold w. rewrite <- level_size_next by lia. f_equal. lia. }
    assert (Nh : (h + 1) / 2 = level_size H (Z.of_nat i)).
    { unfold h. rewrite <- level_size_next by lia. f_equal. lia. }
    rewrite Nw, Nh, !Z.eqb_refl. cbn [negb orb].
    set (xo2 := if negb (Z.odd w) then _ else _). set (yo2 := if negb (Z.odd h) then _ else _).
    assert (Sh : forall k, 0 <= k -> Z.shiftl 1 k = 2 ^ k) by (intros k K; rewrite Z.shiftl_mul_pow2 by exact K; lia).
    assert (Off : forall n, off n i = (off n (i - 1) + (if Z.odd (level_size n (Z.of_nat (i - 1))) then 0 else (1 # 2)) * inject_Z (2 ^ Z.of_nat (i - 1)))%Q).
    { intros n. destruct i as [ | j ]; [ lia | ]. cbn [off]. replace (S j - 1)%nat with j by lia. reflexivity. }
    assert (X2 : (xo2 == off W i)%Q).
    { unfold xo2. rewrite Off. fold w. replace (Z.of_nat i - 1) with (Z.of_nat (i - 1)) by lia. rewrite Sh by lia. destruct (Z.odd w); cbn [negb]; rewrite Xo; ring. }
    assert (Y2 : (yo2 == off H i)%Q).
    { unfold yo2. rewrite Off. fold h. replace (Z.of_nat i - 1) with (Z.of_nat (i - 1)) by lia. rewrite Sh by lia. destruct (Z.odd h); cbn [negb]; rewrite Yo; ring. }
    clearbody xo2 yo2.
    destruct (IH (S i) xo2 yo2) as (ts & E & L & P).
    + lia.
    + replace (S i - 1)%nat with i by lia. exact X2.
    + replace (S i - 1)%nat with i by lia. exact Y2.
    + intros k K. replace (S i + k)%nat with (i + S k)%nat by lia. apply (S0 (S k)). cbn. lia.
    + replace (S i - 1)%nat with i in E by lia. replace (Z.of_nat i + 1) with (Z.of_nat (S i)) by lia. rewrite E.
      eexists. split; [ reflexivity | ]. split; [ cbn [length]; lia | ]. intros k t T. destruct k as [ | k ].
      * injection T as <-. cbn [x_scale x_offset y_scale y_offset]. rewrite Nat.add_0_r.
        assert (NZ : ~ (inject_Z (2 ^ Z.of_nat i) == 0)%Q).
        { change 0%Q with (inject_Z 0). rewrite inject_Z_injective. apply Z.pow_nonzero; lia. }
        rewrite Sh by lia. unfold fits. split; intros p; rewrite place_linear, ?X2, ?Y2; field; exact NZ.
      * replace (i + S k)%nat with (S i + k)%nat by lia. apply P, T.
Qed.
Lemma init_levels_ok W H n sizes : 0 < W -> 0 < H -> length sizes = S n ->
  (forall k, (k <= n)%nat -> nth_error sizes k = Some (level_size W (Z.of_nat k), level_size H (Z.of_nat k))) ->
  (forall k, (k < n)%nat -> 1 < level_size W (Z.of_nat k) \/ 1 < level_size H (Z.of_nat k)) ->
  exists ts, init_levels sizes = Some ts /\ length ts = S n /\
    forall k t, nth_error ts k = Some t -> fits W k (x_scale t) (x_offset t) /\ fits H k (y_scale t) (y_offset t).
Proof.
  intros PW PH L S0 B0. destruct sizes as [ | [ w h ] r ]; [ discriminate | ]. cbn [length] in L. unfold init_levels.
  pose proof (S0 0%nat ltac:(lia)) as E0. cbn in E0. injection E0 as -> ->.
  destruct (init_more_ok W H PW PH r 1 0 0) as (ts & E & Lt & P); try lia; try reflexivity.
  - intros k K. split; [ apply (S0 (S k)); lia | ]. replace (1 + k - 1)%nat with k by lia. apply B0. lia.
  - change (Z.of_nat (1 - 1)) with 0 in E. change (Z.of_nat 1) with 1 in E. rewrite E.
    eexists. split; [ reflexivity | ]. split; [ cbn [length]; lia | ]. intros k t T. destruct k as [ | k ].
    + injection T as <-. cbn [x_scale x_offset y_scale y_offset]. unfold fits. split; intros p; cbn [place]; ring.
    + apply (P k t T).
Qed.

(** ** Lookups *)
Section Look.
Variable t : channel.
Variable f : file samples.
Variable img : Z -> Z -> samples.
Hypothesis HF : holds f img.
Hypotheses (W : f_width samples f <= 2 ^ 24) (H : f_height samples f <= 2 ^ 24).
Variable fresh : Z -> samples.
Lemma read_level_ok a s : valid f img a -> exists l b, read_level t a s fresh = Some (l, b) /\ valid f img b /\
  each_once l (fun x y => within s x y /\ 0 <= x < f_width samples f /\ 0 <= y < f_height samples f) (fun x y c => load t (img x y c)).
Proof.
  intros Va. destruct (tiles_visit_ok f img HF fresh a s Va) as (l & b & E & Vb & N & I). unfold read_level. rewrite E.
  eexists. exists b. split; [ reflexivity | ]. split; [ exact Vb | ]. split.
  - rewrite map_map. erewrite map_ext; [ exact N | ]. intros [ [ x y ] v ]. reflexivity.
  - intros x y v. rewrite in_map_iff. split.
    + intros ([ [ x2 y2 ] v2 ] & Ev & J). injection Ev as -> -> <-. apply I in J. destruct J as [ D -> ]. split; [ exact D | reflexivity ].
    + intros [ D -> ]. exists (x, y, img x y). split; [ reflexivity | ]. apply I. auto.
Qed.
Lemma lookup_ok a s ws wt weight length_ start chans fill out : valid f img a -> near s -> wraps ws = true -> wraps wt = true -> mixed ws wt = false ->
  0 <= start -> 0 <= chans -> 0 < length_ ->
  exists res, filter_into weight false length_ start chans fill out
      (filter_texture samples (array samples) (fun a s => read_level t a s fresh) (f_width samples f) (f_height samples f) nothing a s ws wt) = Some res /\
    filtered false weight s (wrapped_texel nothing (fun x y c => load t (img x y c)) ws wt (f_width samples f) (f_height samples f)) length_ start chans fill out res.
Proof.
  intros Va [ X Y ] Ts Tt M S0 C0 L0.
  destruct (filter_texture_ok (array samples) (fun a s => read_level t a s fresh) (f_width samples f) (f_height samples f) nothing (fun x y c => load t (img x y c)) (valid f img)
              ltac:(destruct HF; unfold small; lia) ltac:(destruct HF as (_ & ? & _); unfold small; lia)
              read_level_ok a s ws wt Va Ts Tt X Y)
    as (l & b & E & _ & O). rewrite E.
  apply (filter_into_ok weight false length_ start chans fill out l b s); try assumption.
  eapply each_once_ext; [ | exact O ]. intros x y. cbv beta. rewrite M. intuition congruence.
Qed.
End Look.

(** ** One colour *)
Lemma save_load t v z : (match t with Some m => 0 < m /\ 0 <= z <= m /\ (v == inject_Z z)%Q | None => True end) -> (save t (load t v) == v)%Q.
Proof.
  destruct t as [ m | ]; [ | reflexivity ]. intros (M & Z0 & E). unfold save, load.
  assert (P : (0 < inject_Z m)%Q) by (change 0%Q with (inject_Z 0); rewrite <- Zlt_Qlt; exact M).
  assert (Q : (clamp01 (1 / inject_Z m * v) == 1 / inject_Z m * v)%Q).
  { unfold clamp01. assert (A : (0 <= 1 / inject_Z m * v)%Q).
    { rewrite E. apply Qmult_le_0_compat; [ apply Qle_shift_div_l; [ exact P | lra ] | change 0%Q with (inject_Z 0); rewrite <- Zle_Qle; lia ]. }
    assert (B : (1 / inject_Z m * v <= 1)%Q).
    { rewrite E. setoid_replace (1 / inject_Z m * inject_Z z)%Q with (inject_Z z / inject_Z m)%Q by (field; lra).
      apply Qle_shift_div_r; [ exact P | ]. rewrite Qmult_1_l, <- Zle_Qle. lia. }
    apply Qle_bool_iff in A. apply Qle_bool_iff in B. rewrite A, B. reflexivity. }
  assert (Eq : (inject_Z m * clamp01 (1 / inject_Z m * v) == inject_Z z)%Q) by (rewrite Q, E; field; lra).
  rewrite (Qfloor_comp _ _ Eq), Qfloor_Z, E. reflexivity.
Qed.
Lemma sum_const (g : Z -> Z -> Q) c l : (sum (fun x y => g x y * c) l == c * sum g l)%Q.
Proof. rewrite <- sum_scale. apply sum_ext. intros. ring. Qed.
Lemma share_total w l : ~ (sum w l == 0)%Q -> all_kept w l -> (sum (share w l) l == 1)%Q.
Proof.
  intros T K. transitivity (sum (fun x y => (1 / sum w l) * w x y)%Q l).
  - apply sum_ext. intros x y I. unfold share. destruct (negligible (w x y / sum w l)) eqn:E.
    + rewrite (K x y I E). ring.
    + field. exact T.
  - rewrite sum_scale. field. exact T.
Qed.
(** Weights that are left out. *)
Lemma sum_plus g h l : (sum (fun x y => g x y + h x y) l == sum g l + sum h l)%Q.
Proof. unfold sum. induction l as [ | p l IH ]; cbn [fold_right]; [ reflexivity | ]. rewrite IH. ring. Qed.
Lemma sum_bound g l e : (forall x y, In (x, y) l -> - e <= g x y <= e)%Q -> (- (inject_Z (Z.of_nat (length l)) * e) <= sum g l <= inject_Z (Z.of_nat (length l)) * e)%Q.
Proof.
  induction l as [ | [ x y ] l IH ]; intros B; [ change (inject_Z (Z.of_nat (length (@nil (Z * Z))))) with 0%Q; change (sum g []) with 0%Q; lra | ]. cbn [length]. rewrite Nat2Z.inj_succ, <- Z.add_1_r, inject_Z_plus. change (inject_Z 1) with 1%Q.
  pose proof (B x y (or_introl eq_refl)) as A. specialize (IH (fun x y I => B x y (or_intror I))).
  change (sum g ((x, y) :: l)) with (g x y + sum g l)%Q. split.
  - setoid_replace (- ((inject_Z (Z.of_nat (length l)) + 1) * e))%Q with (- e + - (inject_Z (Z.of_nat (length l)) * e))%Q by ring. lra.
  - setoid_replace ((inject_Z (Z.of_nat (length l)) + 1) * e)%Q with (e + inject_Z (Z.of_nat (length l)) * e)%Q by ring. lra.
Qed.
Lemma share_loss w l : ~ (sum w l == 0)%Q -> let n := inject_Z (Z.of_nat (length l)) in
  (1 - n * (1 # 100000) <= sum (share w l) l <= 1 + n * (1 # 100000))%Q.
Proof.
  intros T n.
  assert (E : (sum (share w l) l + sum (fun x y => w x y / sum w l - share w l x y) l == 1)%Q).
  { rewrite <- sum_plus. transitivity (sum (fun x y => (1 / sum w l) * w x y)%Q l); [ apply sum_ext; intros; field; exact T | ].
    rewrite sum_scale. field. exact T. }
  assert (B : (- (n * (1 # 100000)) <= sum (fun x y => w x y / sum w l - share w l x y) l <= n * (1 # 100000))%Q).
  { apply sum_bound. intros x y _. unfold share. destruct (negligible (w x y / sum w l)) eqn:N.
    - unfold negligible in N. rewrite andb_true_iff, !negb_true_iff in N. destruct N as [ A B ]. apply le_false in A. apply le_false in B. lra.
    - lra. }
  lra.
Qed.
Lemma wrapped_inside m n c : 0 < n -> m = Periodic \/ m = Clamp -> exists i, wrapped m n c = Some i /\ 0 <= i < n.
Proof.
  intros N M. unfold wrapped. destruct ((0 <=? c) && (c <? n)) eqn:E.
  - rewrite andb_true_iff, Z.leb_le, Z.ltb_lt in E. exists c. auto.
  - destruct M as [ -> | -> ].
    + exists (c mod n). split; [ reflexivity | apply Z.mod_pos_bound, N ].
    + eexists. split; [ reflexivity | ]. destruct (c <? 0); lia.
Qed.
Lemma expected_const t F xw yw ws wt b v ch : 0 < b_width samples b -> 0 < b_height samples b ->
  ws = Periodic \/ ws = Clamp -> wt = Periodic \/ wt = Clamp ->
  (forall x y, 0 <= x < b_width samples b -> 0 <= y < b_height samples b -> (image_of b x y ch == v)%Q) ->
  forall x y, let cx := above (b_width samples b) (inject_Z x) in let cy := above (b_height samples b) (inject_Z y) in
  let l := points (region (b_width samples b) (b_height samples b) xw yw cx cy) in
  (expected t F xw yw ws wt b x y ch == save t (load t v * sum (share (weight_at F xw yw cx cy) l) l))%Q.
Proof.
  intros W H Ws Wt B x y cx cy l. unfold expected. fold cx cy l. apply save_proper. rewrite <- sum_const. apply sum_ext. intros px py _.
  unfold wrapped_texel. destruct (wrapped_inside ws (b_width samples b) px W Ws) as (i & -> & I). destruct (wrapped_inside wt (b_height samples b) py H Wt) as (j & -> & J).
  rewrite B by assumption. reflexivity.
Qed.
Lemma weights_move F xw yw w h x y : of_numbers F -> 0 < w -> 0 < h -> (0 < xw)%Q -> (0 < yw)%Q ->
  all_kept (weight_at F xw yw (above w 0) (above h 0)) (points (region w h xw yw (above w 0) (above h 0))) ->
  let cx := above w (inject_Z x) in let cy := above h (inject_Z y) in
  all_kept (weight_at F xw yw cx cy) (points (region w h xw yw cx cy)).
Proof.
  intros FN W H X Y K cx cy px py I N.
  change (all_kept (weights_for F w h xw yw 0 0) (points (spot w h xw yw 0 0))) in K.
  change (In (px, py) (points (spot w h xw yw x y))) in I. change (negligible (weights_for F w h xw yw x y px py / sum (weights_for F w h xw yw x y) (points (spot w h xw yw x y))) = true) in N.
  change (weights_for F w h xw yw x y px py == 0)%Q.
  assert (T : (sum (weights_for F w h xw yw x y) (points (spot w h xw yw x y)) == sum (weights_for F w h xw yw 0 0) (points (spot w h xw yw 0 0)))%Q).
  { rewrite <- (total_ok F FN w h xw yw W H X Y x y). apply (total_ok F FN w h xw yw W H X Y 0 0). }
  apply points_in in I. rewrite spot_support in I by assumption. unfold within in I. cbn [sx0 sx1 sy0 sy1] in I.
  set (cw := Z.quot (support_size (Z.odd w) xw - 1) 2) in *. set (chh := Z.quot (support_size (Z.odd h) yw - 1) 2) in *.
  set (lx := 2 * x - cw) in *. set (ly := 2 * y - chh) in *. set (lx0 := 2 * 0 - cw). set (ly0 := 2 * 0 - chh).
  assert (R : (weights_for F w h xw yw 0 0 (px - lx + lx0) (py - ly + ly0) == weights_for F w h xw yw x y px py)%Q).
  { transitivity (raw_at F w h xw yw (px - lx) (py - ly)); [ symmetry; apply (raw_ok F FN w h xw yw W H X Y 0 0) | ].
    transitivity (weights_for F w h xw yw x y (px - lx + lx) (py - ly + ly)); [ apply (raw_ok F FN w h xw yw W H X Y x y) | ].
    replace (px - lx + lx) with px by lia. replace (py - ly + ly) with py by lia. reflexivity. }
  rewrite <- R in N |- *. apply (K (px - lx + lx0) (py - ly + ly0)).
  - apply points_in. rewrite spot_support by assumption. unfold within. cbn [sx0 sx1 sy0 sy1]. fold cw chh lx0 ly0. lia.
  - rewrite <- T. exact N.
Qed.

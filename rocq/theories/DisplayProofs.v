From Coq Require Import ZArith QArith Qround List Bool String Lia Lqa.
From Verif Require Import BucketModel BucketSpec BucketProofs DisplayModel DisplaySpec.
Import ListNotations.
Local Open Scope Z_scope.

(* ---- numbers ---- *)
Lemma qle_iff : forall a b, Qle_bool a b = true <-> (a <= b)%Q.
Proof. intros. apply Qle_bool_iff. Qed.
Lemma qlt_iff : forall a b, qlt_bool a b = true <-> (a < b)%Q.
Proof.
  intros. unfold qlt_bool. rewrite negb_true_iff. split; intros H.
  - apply Qnot_le_lt. intros G. apply qle_iff in G. congruence.
  - destruct (Qle_bool b a) eqn:E; auto. apply qle_iff in E. exfalso. apply (Qlt_not_le _ _ H E).
Qed.
Lemma qlt_false : forall a b, qlt_bool a b = false <-> (b <= a)%Q.
Proof.
  intros. unfold qlt_bool. rewrite negb_false_iff. apply qle_iff.
Qed.

Lemma floor_ceiling : forall x, Qceiling x = Qfloor x \/ Qceiling x = Qfloor x + 1.
Proof.
  intros x. pose proof (Qle_ceiling x). pose proof (Qfloor_le x). pose proof (Qlt_floor x). pose proof (Qceiling_lt x).
  assert (Qfloor x <= Qceiling x) by (rewrite Zle_Qle; lra).
  assert (Qceiling x - 1 < Qfloor x + 1); [|lia].
  rewrite Zlt_Qlt. lra.
Qed.
Lemma ceiling_eq : forall x, Qceiling x = Qfloor x <-> (x == inject_Z (Qceiling x))%Q.
Proof.
  intros x. pose proof (Qle_ceiling x). pose proof (Qfloor_le x). split; intros E.
  - rewrite E in *. lra.
  - rewrite E at 2. rewrite Qfloor_Z. auto.
Qed.

(* lfloor is the floor *)
Lemma lfloor_spec : forall x, (- inject_Z (2 ^ 63) <= x)%Q -> (x <= inject_Z (2 ^ 63 - 1))%Q -> lfloor x = Some (Qfloor x).
Proof.
  intros x L H. unfold lfloor, to_long.
  assert (R : -9223372036854775808 <= qtrunc x <= 9223372036854775807).
  { unfold qtrunc. pose proof (Qle_ceiling x). pose proof (Qfloor_le x).
    assert (A : - (2 ^ 63) <= Qfloor x).
    { change (- (2 ^ 63)) with (-9223372036854775808) in *. rewrite <- (Qfloor_Z (-9223372036854775808)).
      apply Qfloor_resp_le. exact L. }
    assert (B : Qceiling x <= 2 ^ 63 - 1).
    { rewrite <- (Qceiling_Z (2 ^ 63 - 1)). apply Qceiling_resp_le. exact H. }
    pose proof (floor_ceiling x). destruct (Qle_bool 0 x); lia. }
  replace ((-9223372036854775808 <=? qtrunc x) && (qtrunc x <=? 9223372036854775807)) with true
    by (symmetry; rewrite andb_true_iff, !Z.leb_le; exact R).
  cbn [bind]. f_equal. unfold qtrunc. destruct (Qle_bool 0 x) eqn:P.
  - apply qle_iff in P. replace (qlt_bool x 0) with false by (symmetry; apply qlt_false; exact P). cbn. lia.
  - assert (N : qlt_bool x 0 = true) by (unfold qlt_bool; rewrite P; reflexivity). rewrite N. cbn [andb].
    destruct (Qeq_bool x (inject_Z (Qceiling x))) eqn:E; cbn [negb].
    + apply Qeq_bool_iff in E. apply ceiling_eq in E. lia.
    + assert (Qceiling x <> Qfloor x). { intros C. apply ceiling_eq in C. apply Qeq_bool_iff in C. congruence. }
      pose proof (floor_ceiling x). lia.
Qed.

Lemma lround_spec : forall x, (- inject_Z (2 ^ 62) <= x)%Q -> (x <= inject_Z (2 ^ 62))%Q ->
  exists m, lround x = Some m /\ nearest m x.
Proof.
  intros x L H. unfold lround.
  assert (B : (inject_Z (2 ^ 62) == 4611686018427387904)%Q) by reflexivity.
  rewrite lfloor_spec.
  - cbn [bind]. eexists. split; [reflexivity|]. unfold nearest.
    pose proof (Qfloor_le (x - (1 # 2))). pose proof (Qlt_floor (x - (1 # 2))).
    rewrite inject_Z_plus in *. change (inject_Z 1) with 1%Q in *. lra.
  - change (inject_Z (2 ^ 63)) with (9223372036854775808)%Q. lra.
  - change (inject_Z (2 ^ 63 - 1)) with (9223372036854775807)%Q. lra.
Qed.
Lemma nearest_unique : forall x m m', nearest m x -> nearest m' x -> m = m'.
Proof.
  intros x m m' [A B] [C D].
  assert (m < m' + 1) by (rewrite Zlt_Qlt, inject_Z_plus; change (inject_Z 1) with 1%Q; lra).
  assert (m' < m + 1) by (rewrite Zlt_Qlt, inject_Z_plus; change (inject_Z 1) with 1%Q; lra).
  lia.
Qed.

Lemma qclamp_Z : forall n lo hi a b, (a == inject_Z lo)%Q -> (b == inject_Z hi)%Q -> lo <= hi ->
  (qclamp (inject_Z n) a b == inject_Z (Z.max lo (Z.min hi n)))%Q.
Proof.
  intros n lo hi a b A B LE. unfold qclamp. destruct (qlt_bool (inject_Z n) a) eqn:E1.
  - apply qlt_iff in E1. rewrite A in *. rewrite <- Zlt_Qlt in E1. replace (Z.max lo (Z.min hi n)) with lo by lia. reflexivity.
  - apply qlt_false in E1. rewrite A in E1. rewrite <- Zle_Qle in E1. destruct (qlt_bool b (inject_Z n)) eqn:E2.
    + apply qlt_iff in E2. rewrite B in *. rewrite <- Zlt_Qlt in E2. replace (Z.max lo (Z.min hi n)) with hi by lia. reflexivity.
    + apply qlt_false in E2. rewrite B in E2. rewrite <- Zle_Qle in E2. replace (Z.max lo (Z.min hi n)) with n by lia. reflexivity.
Qed.
Lemma qtrunc_Z : forall x n, (x == inject_Z n)%Q -> qtrunc x = n.
Proof.
  intros x n E. unfold qtrunc. rewrite (Qfloor_comp _ _ E), (Qceiling_comp _ _ E), Qfloor_Z, Qceiling_Z.
  destruct (Qle_bool 0 x); reflexivity.
Qed.

(* a value that is defined, whatever the type, if the limits fit it *)
Lemma value_spec : forall q s v t lo hi,
  ~ (q_one q == 0)%Q -> (q_min q == inject_Z lo)%Q -> (q_max q == inject_Z hi)%Q -> lo <= hi ->
  t <> Float32 -> type_min t <= lo -> hi <= type_max t ->
  (- inject_Z (2 ^ 62) <= scaled q s v)%Q -> (scaled q s v <= inject_Z (2 ^ 62))%Q ->
  exists w, (do x <- quantise q s v; convert t x) = Some w /\ stored_as q s v w.
Proof.
  intros q s v t lo hi ONE MN MX LE NF TL TH L H. unfold quantise, stored_as.
  destruct (Qeq_bool (q_one q) 0) eqn:E; [apply Qeq_bool_iff in E; contradiction|].
  destruct (lround_spec _ L H) as (m & R & N). unfold scaled in R. rewrite R. cbn [bind].
  pose proof (qclamp_Z m lo hi _ _ MN MX LE) as C.
  exists (VI (Z.max lo (Z.min hi m))). split; [|exists lo, hi, m; auto].
  set (n := Z.max lo (Z.min hi m)) in *. assert (RN : lo <= n <= hi) by lia.
  assert (FIT : (if (type_min t <=? n) && (n <=? type_max t) then Some (VI n) else None) = Some (VI n)).
  { replace (type_min t <=? n) with true by (symmetry; apply Z.leb_le; lia).
    replace (n <=? type_max t) with true by (symmetry; apply Z.leb_le; lia). reflexivity. }
  assert (C2 : (qclamp (qclamp (inject_Z m) (q_min q) (q_max q)) (inject_Z (type_min t)) (inject_Z (type_max t)) == inject_Z n)%Q).
  { unfold qclamp at 1.
    destruct (qlt_bool (qclamp (inject_Z m) (q_min q) (q_max q)) (inject_Z (type_min t))) eqn:E1.
    - apply qlt_iff in E1. rewrite C in E1. rewrite <- Zlt_Qlt in E1. lia.
    - destruct (qlt_bool (inject_Z (type_max t)) (qclamp (inject_Z m) (q_min q) (q_max q))) eqn:E2; [|exact C].
      apply qlt_iff in E2. rewrite C in E2. rewrite <- Zlt_Qlt in E2. lia. }
  destruct t; try congruence; unfold convert; rewrite ?(qtrunc_Z _ _ C), ?(qtrunc_Z _ _ C2); exact FIT.
Qed.
Lemma value_plain : forall q s v, (q_one q == 0)%Q ->
  (do x <- quantise q s v; convert Float32 x) = Some (VF v) /\ stored_as q s v (VF v).
Proof.
  intros q s v E. apply Qeq_bool_iff in E. unfold quantise, stored_as. rewrite E. split; reflexivity.
Qed.

(* ---- lists and numbers ---- *)
Lemma zrange_nth : forall a b i d, 0 <= i < b - a -> nth (Z.to_nat i) (zrange a b) d = a + i.
Proof.
  intros a b i d H. unfold zrange. rewrite nth_indep with (d' := (fun i => a + Z.of_nat i) 0%nat) by (rewrite map_length, seq_length; lia).
  rewrite (map_nth (fun i => a + Z.of_nat i)), seq_nth by lia. lia.
Qed.
Lemma zrange_length : forall a b, List.length (zrange a b) = Z.to_nat (b - a).
Proof. intros. unfold zrange. rewrite map_length, seq_length. auto. Qed.
Lemma zrange_nth_error : forall a b i, 0 <= i < b - a -> nth_error (zrange a b) (Z.to_nat i) = Some (a + i).
Proof.
  intros a b i H. rewrite (nth_error_nth' _ 0) by (rewrite zrange_length; lia). rewrite zrange_nth by lia. auto.
Qed.
Lemma zrange_nil : forall a b, b <= a -> zrange a b = [].
Proof. intros. unfold zrange. replace (Z.to_nat (b - a)) with 0%nat by lia. auto. Qed.
Lemma zrange_app : forall a b c, a <= b <= c -> zrange a c = zrange a b ++ zrange b c.
Proof.
  intros a b c H. unfold zrange. replace (Z.to_nat (c - a)) with (Z.to_nat (b - a) + Z.to_nat (c - b))%nat by lia.
  rewrite seq_app, map_app. f_equal. rewrite Nat.add_0_l.
  rewrite <- (Nat.add_0_r (Z.to_nat (b - a))) at 1.
  generalize (Z.to_nat (c - b)). intros n.
  assert (G : forall m k, map (fun i => a + Z.of_nat i) (seq (Z.to_nat (b - a) + k) m) = map (fun i => b + Z.of_nat i) (seq k m)).
  { induction m as [|m IH]; intros k; cbn [seq map]; auto. f_equal; [lia|].
    rewrite <- IH. f_equal. f_equal. lia. }
  apply G.
Qed.
Lemma zrange_cons : forall a b, a < b -> zrange a b = a :: zrange (a + 1) b.
Proof.
  intros a b H. rewrite (zrange_app a (a + 1) b) by lia.
  assert (E : zrange a (a + 1) = [a]).
  { unfold zrange. replace (a + 1 - a) with 1 by lia. change (Z.to_nat 1) with 1%nat. cbn [seq map].
    f_equal. change (Z.of_nat 0) with 0. apply Z.add_0_r. }
  rewrite E. reflexivity.
Qed.

Lemma flat_map_nth : forall {A B} (f : A -> list B) n l i k a,
  (forall a, In a l -> List.length (f a) = n) -> (k < n)%nat -> nth_error l i = Some a ->
  nth_error (flat_map f l) (i * n + k) = nth_error (f a) k.
Proof.
  induction l as [|b l IH]; intros i k a L K E; [destruct i; discriminate|].
  cbn [flat_map]. destruct i as [|i].
  - injection E as ->. cbn. rewrite nth_error_app1 by (rewrite (L a) by (left; auto); auto). auto.
  - rewrite nth_error_app2 by (rewrite (L b) by (left; auto); nia).
    rewrite (L b) by (left; auto). replace (Datatypes.S i * n + k - n)%nat with (i * n + k)%nat by nia.
    apply IH; auto. intros c I. apply L. right; auto.
Qed.

Lemma cells_nth : forall r x y, inr r (x, y) ->
  nth_error (cells r) (Z.to_nat ((y - ry0 r) * rwidth r + (x - rx0 r))) = Some (x, y).
Proof.
  intros r x y [A B]. cbn [fst snd] in *. unfold cells, rwidth.
  replace (Z.to_nat ((y - ry0 r) * (rx1 r - rx0 r) + (x - rx0 r)))
    with (Z.to_nat (y - ry0 r) * Z.to_nat (rx1 r - rx0 r) + Z.to_nat (x - rx0 r))%nat by nia.
  rewrite flat_map_nth with (a := y).
  - rewrite nth_error_map, zrange_nth_error by lia. cbn. f_equal. f_equal. lia.
  - intros a _. rewrite map_length, zrange_length. auto.
  - lia.
  - rewrite zrange_nth_error by lia. f_equal. lia.
Qed.
Lemma cells_length : forall r, 0 <= rwidth r -> 0 <= rheight r -> Z.of_nat (List.length (cells r)) = rarea r.
Proof.
  intros r W H. unfold cells, rarea, rwidth, rheight in *.
  assert (L : forall l, Z.of_nat (List.length (flat_map (fun y : Z => map (fun x => (x, y)) (zrange (rx0 r) (rx1 r))) l))
                        = (rx1 r - rx0 r) * Z.of_nat (List.length l)).
  { induction l as [|a l IH]; cbn [flat_map List.length]; [lia|].
    rewrite app_length, map_length, zrange_length, Nat2Z.inj_add, IH. lia. }
  rewrite L, zrange_length, Z2Nat.id by lia. ring.
Qed.

Lemma ltb_in : forall a b i, (a <=? i) && (i <? b) = true <-> a <= i < b.
Proof. intros. rewrite andb_true_iff, Z.leb_le, Z.ltb_lt. lia. Qed.
Lemma ltb_out : forall a b i, (a <=? i) && (i <? b) = false <-> ~ (a <= i < b).
Proof. intros. rewrite <- ltb_in. destruct ((a <=? i) && (i <? b)); split; congruence. Qed.
Lemma inside_true : forall off n m, 0 <= off -> off + n <= m_size m -> inside off n m = true.
Proof. intros. unfold inside. rewrite andb_true_iff, !Z.leb_le. lia. Qed.

Lemma memcpy_spec : forall dst doff src soff n,
  0 <= n -> 0 <= doff -> doff + n <= m_size dst -> 0 <= soff -> soff + n <= m_size src ->
  exists m, memcpy dst doff src soff n = Some m /\ m_size m = m_size dst /\
    (forall i, doff <= i < doff + n -> m_cell m i = m_cell src (soff + (i - doff))) /\
    (forall i, ~ (doff <= i < doff + n) -> m_cell m i = m_cell dst i).
Proof.
  intros dst doff src soff n N A B C D. unfold memcpy.
  rewrite !inside_true by lia. replace (0 <=? n) with true by (symmetry; apply Z.leb_le; lia). cbn [andb].
  eexists. split; [reflexivity|]. cbn [m_size m_cell]. split; [auto|]. split; intros i H.
  - apply ltb_in in H. rewrite H. auto.
  - apply ltb_out in H. rewrite H. auto.
Qed.

(* the place of the k-th byte of an element of a table of rows *)
Lemma row_cell : forall e w y Y x0 x1 X k, 0 <= x0 -> x0 <= x1 -> x1 <= w -> 0 <= X < w -> 0 <= k < e ->
  (y * (e * w) + x0 * e <= (Y * w + X) * e + k < y * (e * w) + x0 * e + e * (x1 - x0) <-> Y = y /\ x0 <= X < x1).
Proof.
  intros e w y Y x0 x1 X k A B C D K.
  assert (U : 0 <= X * e + k < e * w) by nia.
  assert (V : 0 <= x0 * e) by nia. assert (V2 : x0 * e + e * (x1 - x0) <= e * w) by nia.
  replace ((Y * w + X) * e + k) with (Y * (e * w) + (X * e + k)) by ring.
  set (E := e * w) in *. split.
  - intros [P Q]. assert (Y = y) by nia. subst Y. split; auto. split; nia.
  - intros [-> [P Q]]. split; nia.
Qed.

(* ---- the bytes of a pixel ---- *)
Lemma bytes_length : forall t v, Z.of_nat (List.length (bytes_of t v)) = type_size t.
Proof. intros [] v; reflexivity. Qed.
Lemma bytes_nth : forall t v k, 0 <= k < type_size t -> nth (Z.to_nat k) (bytes_of t v) None = Some (Byte t v k).
Proof.
  intros t v k H. destruct t; cbn [type_size] in H;
  (assert (C : k = 0 \/ k = 1 \/ k = 2 \/ k = 3) by lia; destruct C as [->|[->|[->| ->]]]; try lia; reflexivity).
Qed.
Lemma put_value_spec : forall t v off m, 0 <= off -> off + type_size t <= m_size m ->
  exists m', put_value t v off m = Some m' /\ m_size m' = m_size m /\
    (forall k, 0 <= k < type_size t -> m_cell m' (off + k) = nth (Z.to_nat k) (bytes_of t v) None) /\
    (forall i, ~ (off <= i < off + type_size t) -> m_cell m' i = m_cell m i).
Proof.
  intros t v off m A B. unfold put_value. rewrite inside_true by lia. eexists. split; [reflexivity|].
  cbn [m_size m_cell]. split; [auto|]. split.
  - intros k K. assert (H : off <= off + k < off + type_size t) by lia. apply ltb_in in H. rewrite H, bytes_nth by auto.
    do 2 f_equal. lia.
  - intros i H. apply ltb_out in H. rewrite H. auto.
Qed.
Lemma type_size_pos : forall t, 1 <= type_size t.
Proof. intros []; cbn; lia. Qed.
Lemma element_size_nonneg : forall l, 0 <= element_size l.
Proof. induction l as [|f l IH]; cbn [element_size fold_right]; [lia|]. pose proof (type_size_pos (snd f)). unfold element_size in IH. lia. Qed.

Section Bytes.
Variable o : options.
Variable d : request.
Variable q : quant.
Variable fs : list (cname * ptype).
Variable pic : picture.
Variable random : nat -> Q.
Hypothesis WIN : window o.
Hypothesis RAND : forall n, (0 <= random n)%Q /\ (random n < 1)%Q.

Definition cval (f : cname * ptype) (s : Q) (x y : Z) : option value :=
  do v <- quantise q s (pic x y (fst (buffer_map d (fst f))) (snd (buffer_map d (fst f)))); convert (snd f) v.
Definition val (f : cname * ptype) (s : Q) (x y : Z) : value :=
  match cval f s x y with Some v => v | None => VI 0 end.
Hypothesis VAL : forall f s x y, In f fs -> (0 <= s)%Q -> (s < 1)%Q -> 0 <= x < o_xres o -> 0 <= y < o_yres o ->
  exists v, cval f s x y = Some v.
Hypothesis FS : fs <> [].

Definition pbytes (l : list (cname * ptype)) (s : Q) (x y : Z) : list (option byte) :=
  flat_map (fun f => bytes_of (snd f) (val f s x y)) l.
Lemma pbytes_length : forall l s x y, Z.of_nat (List.length (pbytes l s x y)) = element_size l.
Proof.
  induction l as [|f l IH]; intros; cbn [pbytes flat_map]; auto.
  rewrite app_length, Nat2Z.inj_add, bytes_length. unfold pbytes in IH. rewrite IH. reflexivity.
Qed.
Local Notation esz := (esize fs).
Lemma esz_pos : 1 <= esz.
Proof.
  unfold esize. destruct fs as [|f l]; [congruence|]. cbn [element_size fold_right].
  pose proof (type_size_pos (snd f)). pose proof (element_size_nonneg l). unfold element_size in *. lia.
Qed.

Lemma pixel_spec : forall x y s, (0 <= s)%Q -> (s < 1)%Q -> 0 <= x < o_xres o -> 0 <= y < o_yres o ->
  forall p m, 0 <= p -> p + esz <= m_size m ->
  exists m', format_pixel d q fs pic x y s (p, m) = Some (p + esz, m') /\ m_size m' = m_size m /\
    (forall k, 0 <= k < esz -> m_cell m' (p + k) = nth (Z.to_nat k) (pbytes fs s x y) None) /\
    (forall i, ~ (p <= i < p + esz) -> m_cell m' i = m_cell m i).
Proof.
  intros x y s S0 S1 X Y. unfold format_pixel, esize.
  assert (G : forall l, incl l fs -> forall p m, 0 <= p -> p + element_size l <= m_size m ->
    exists m', foldM (fun (a : Z * mem) (f : cname * ptype) =>
           let '(p, m) := a in
           let '(src, k) := buffer_map d (fst f) in
           do v <- quantise q s (pic x y src k);
           do w <- convert (snd f) v;
           do m <- put_value (snd f) w p m;
           Some (p + type_size (snd f), m)) l (p, m) = Some (p + element_size l, m') /\ m_size m' = m_size m /\
    (forall k, 0 <= k < element_size l -> m_cell m' (p + k) = nth (Z.to_nat k) (pbytes l s x y) None) /\
    (forall i, ~ (p <= i < p + element_size l) -> m_cell m' i = m_cell m i)).
  { induction l as [|f l IH]; intros INC p m P SZ; cbn [foldM].
    - exists m. cbn [element_size fold_right] in *. split; [f_equal; f_equal; lia|]. repeat split; auto. intros; lia.
    - change (element_size (f :: l)) with (type_size (snd f) + element_size l) in *.
      pose proof (element_size_nonneg l) as EN. pose proof (type_size_pos (snd f)) as TP.
      destruct (VAL f s x y (INC f (or_introl eq_refl)) S0 S1 X Y) as (v & E).
      assert (EV : val f s x y = v) by (unfold val; rewrite E; auto).
      unfold cval in E. destruct (buffer_map d (fst f)) as [src k]. cbn [fst snd] in E.
      destruct (quantise q s (pic x y src k)) as [u|]; [|discriminate]. cbn [bind] in *. rewrite E. cbn [bind].
      destruct (put_value_spec (snd f) v p m P ltac:(lia)) as (m1 & E1 & S & C & D). rewrite E1. cbn [bind].
      destruct (IH (fun g I => INC g (or_intror I)) (p + type_size (snd f)) m1 ltac:(lia) ltac:(lia)) as (m2 & E2 & S2 & C2 & D2).
      exists m2. rewrite E2. split; [f_equal; f_equal; lia|]. split; [lia|]. split.
      + intros j J. cbn [pbytes flat_map]. rewrite EV.
        pose proof (bytes_length (snd f) v) as BL.
        destruct (Z.ltb_spec j (type_size (snd f))) as [LT|GE].
        * rewrite app_nth1 by lia. rewrite D2 by lia. apply C; lia.
        * rewrite app_nth2 by lia. replace (Z.to_nat j - List.length (bytes_of (snd f) v))%nat
            with (Z.to_nat (j - type_size (snd f))) by lia.
          unfold pbytes in C2. rewrite <- C2 by lia. f_equal. lia.
      + intros i J. rewrite D2 by lia. apply D; lia. }
  intros p m P SZ. apply (G fs (incl_refl _) p m P SZ).
Qed.

(* the pixels of a list of positions, one after the other *)
Lemma pixels_spec : forall (pos : Z * Z -> Z * Z) l,
  (forall c, In c l -> 0 <= fst (pos c) < o_xres o /\ 0 <= snd (pos c) < o_yres o) ->
  forall p m n, 0 <= p -> p + Z.of_nat (List.length l) * esz <= m_size m ->
  exists p' m' n', foldM (fun (a : Z * mem * nat) (c : Z * Z) =>
                   let '(p, m, n) := a in
                   do a <- format_pixel d q fs pic (fst (pos c)) (snd (pos c)) (random n) (p, m);
                   Some (a, Datatypes.S n)) l (p, m, n) = Some (p', m', n') /\ m_size m' = m_size m /\
    (forall i, i < p -> m_cell m' i = m_cell m i) /\
    (forall j c, nth_error l j = Some c -> exists s, (0 <= s)%Q /\ (s < 1)%Q /\
       forall k, 0 <= k < esz ->
         m_cell m' (p + Z.of_nat j * esz + k) = nth (Z.to_nat k) (pbytes fs s (fst (pos c)) (snd (pos c))) None).
Proof.
  intros pos. induction l as [|c l IH]; intros IN p m n P SZ; cbn [foldM].
  - exists p, m, n. repeat split; auto. intros j c E. destruct j; discriminate.
  - pose proof esz_pos as EP. cbn [List.length] in SZ.
    destruct (IN c (or_introl eq_refl)) as [X Y]. destruct (RAND n) as [S0 S1].
    destruct (pixel_spec _ _ _ S0 S1 X Y p m P ltac:(nia)) as (m1 & E1 & Z1 & C1 & D1).
    rewrite E1. cbn [bind].
    destruct (IH (fun g I => IN g (or_intror I)) (p + esz) m1 (Datatypes.S n) ltac:(lia) ltac:(nia)) as (p2 & m2 & n2 & E2 & Z2 & B2 & C2).
    exists p2, m2, n2. split; [exact E2|]. split; [lia|]. split.
    + intros i I. rewrite B2 by lia. apply D1. lia.
    + intros [|j] c' E.
      * injection E as <-. exists (random n). split; [auto|]. split; [auto|]. intros k K.
        rewrite B2 by lia. replace (p + Z.of_nat 0 * esz + k) with (p + k) by lia. apply C1; auto.
      * destruct (C2 j c' E) as (s & A & B & G). exists s. split; [auto|]. split; [auto|]. intros k K.
        rewrite <- G by auto. f_equal. lia.
Qed.

(* ---- one bucket ---- *)
(* the block b holds the pixels of the region r *)
Definition holds_region (r : region) (b : mem) : Prop :=
  forall x y, inr r (x, y) -> exists s, (0 <= s)%Q /\ (s < 1)%Q /\ forall k, 0 <= k < esz ->
    m_cell b (((y - ry0 r) * rwidth r + (x - rx0 r)) * esz + k) = nth (Z.to_nat k) (pbytes fs s x y) None.

Lemma bucket_pixels : forall r b n, 0 < rwidth r -> 0 < rheight r -> 0 <= rx0 r -> 0 <= ry0 r ->
  rx1 r <= o_xres o -> ry1 r <= o_yres o -> esz * rarea r <= m_size b ->
  exists p' b' n', foldM (fun (a : Z * mem * nat) (c : Z * Z) =>
                   let '(p, m, n) := a in
                   do a <- format_pixel d q fs pic (rx0 r + fst c) (ry0 r + snd c) (random n) (p, m);
                   Some (a, Datatypes.S n))
                (cells (Region 0 0 (rwidth r) (rheight r))) (0, b, n) = Some (p', b', n') /\
    m_size b' = m_size b /\ holds_region r b'.
Proof.
  intros r b n W H X0 Y0 X1 Y1 SZ.
  set (R := Region 0 0 (rwidth r) (rheight r)).
  destruct (pixels_spec (fun c => (rx0 r + fst c, ry0 r + snd c)) (cells R)) with (p := 0) (m := b) (n := n)
    as (p' & m' & n' & E & Z1 & _ & C).
  - intros c I. apply cells_in in I. destruct I as [A B]. unfold R, rwidth, rheight in *. cbn [rx0 rx1 ry0 ry1 fst snd] in *. lia.
  - lia.
  - rewrite cells_length by (unfold R, rwidth, rheight in *; cbn [rx0 rx1 ry0 ry1]; lia).
    replace (rarea R) with (rarea r) by (unfold R, rarea, rwidth, rheight; cbn [rx0 rx1 ry0 ry1]; ring). lia.
  - exists p', m', n'. split; [exact E|]. split; [auto|]. intros x y [A B]. cbn [fst snd] in *.
    assert (IR : inr R (x - rx0 r, y - ry0 r)).
    { unfold R, rwidth, rheight, inr. cbn [rx0 rx1 ry0 ry1 fst snd]. lia. }
    pose proof (cells_nth R _ _ IR) as N.
    destruct (C _ _ N) as (s & S0 & S1 & G). exists s. split; [auto|]. split; [auto|]. intros k K.
    cbn [fst snd] in G. replace (rx0 r + (x - rx0 r)) with x in G by lia. replace (ry0 r + (y - ry0 r)) with y in G by lia.
    rewrite <- G by auto. f_equal. unfold R, rwidth in *. cbn [rx0 rx1 ry0 ry1] in *.
    rewrite Z2Nat.id by nia. ring.
Qed.

(* ---- the driver takes the pixels of a region ---- *)
Local Notation W := (o_cx1 o - o_cx0 o).
Local Notation H := (o_cy1 o - o_cy0 o).
Definition fits_image (i : image) : Prop :=
  i_w i = W /\ i_h i = H /\ i_entry i = esz /\ i_line i = esz * W /\
  i_ox i = o_cx0 o /\ i_oy i = o_cy0 o /\ i_ow i = o_xres o /\ i_oh i = o_yres o /\
  m_size (i_data i) = W * H * esz.
Definition icell (i : image) (x y k : Z) : option byte :=
  m_cell (i_data i) (((y - o_cy0 o) * W + (x - o_cx0 o)) * esz + k).

Lemma rows_spec : forall data start bl x0 x1 y0,
  0 <= x0 -> x0 <= x1 -> x1 <= W ->
  forall ys m, m_size m = W * H * esz ->
  (forall y, In y ys -> 0 <= y < H /\ 0 <= start + (y - y0) * bl /\ start + (y - y0) * bl + esz * (x1 - x0) <= m_size data) ->
  exists m', foldM (fun (m : mem) (y : Z) => memcpy m (y * (esz * W) + x0 * esz) data (start + (y - y0) * bl) (esz * (x1 - x0))) ys m = Some m' /\
    m_size m' = m_size m /\
    forall X Y k, 0 <= X < W -> 0 <= k < esz ->
      (In Y ys /\ x0 <= X < x1 -> m_cell m' ((Y * W + X) * esz + k) = m_cell data (start + (Y - y0) * bl + (X - x0) * esz + k)) /\
      (~ (In Y ys /\ x0 <= X < x1) -> m_cell m' ((Y * W + X) * esz + k) = m_cell m ((Y * W + X) * esz + k)).
Proof.
  intros data start bl x0 x1 y0 A B C. pose proof esz_pos as EP.
  induction ys as [|y ys IH]; intros m SZ IN; cbn [foldM].
  - exists m. split; [auto|]. split; [auto|]. intros X Y k _ _. split; [intros [[] _] | auto].
  - destruct (IN y (or_introl eq_refl)) as (Y1 & Y2 & Y3).
    assert (y * (esz * W) + x0 * esz + esz * (x1 - x0) <= W * H * esz).
    { assert ((y + 1) * (esz * W) <= H * (esz * W)) by (apply Z.mul_le_mono_nonneg_r; nia).
      assert (esz * x1 <= esz * W) by nia. nia. }
    destruct (memcpy_spec m (y * (esz * W) + x0 * esz) data (start + (y - y0) * bl) (esz * (x1 - x0)))
      as (m1 & E1 & Z1 & C1 & D1).
    { apply Z.mul_nonneg_nonneg; lia. }
    { apply Z.add_nonneg_nonneg; repeat apply Z.mul_nonneg_nonneg; lia. }
    { rewrite SZ. assumption. }
    { exact Y2. }
    { exact Y3. }
    rewrite E1. cbn [bind].
    destruct (IH m1 ltac:(congruence) (fun z I => IN z (or_intror I))) as (m2 & E2 & Z2 & G).
    exists m2. split; [exact E2|]. split; [congruence|]. intros X Y k XX KK.
    destruct (G X Y k XX KK) as [G1 G2].
    pose proof (row_cell esz W y Y x0 x1 X k A B C XX KK) as RC. split.
    + intros [[->|I] XB].
      * destruct (in_dec Z.eq_dec Y ys) as [I|NI]; [apply G1; auto|]. rewrite G2 by tauto.
        rewrite C1 by (apply RC; auto). f_equal. nia.
      * apply G1; auto.
    + intros N. rewrite G2 by (intros [I XB]; apply N; split; [right; auto | auto]).
      apply D1. intros Q. apply RC in Q. destruct Q as [-> XB]. apply N. split; [left; auto | auto].
Qed.

Lemma driver_spec : forall r data off i, fits_image i ->
  rx0 r < o_cx1 o -> o_cx0 o < rx1 r -> rx0 r < rx1 r ->
  0 <= off -> off + esz * rarea r <= m_size data -> 0 <= rheight r ->
  exists i', driver_data (rx0 r) (rx1 r) (ry0 r) (ry1 r) esz data off i = Some i' /\ fits_image i' /\
    i_kind i' = i_kind i /\ i_count i' = i_count i /\ i_format i' = i_format i /\
    forall x y k, o_cx0 o <= x < o_cx1 o -> o_cy0 o <= y < o_cy1 o -> 0 <= k < esz ->
      (inr r (x, y) -> icell i' x y k = m_cell data (off + ((y - ry0 r) * rwidth r + (x - rx0 r)) * esz + k)) /\
      (~ inr r (x, y) -> icell i' x y k = icell i x y k).
Proof.
  intros r data off i (FW & FH & FE & FL & FOX & FOY & FOW & FOH & FD) R1 R2 RW OFF SZ RH.
  pose proof esz_pos as EP. destruct WIN as (BX & BY & CX & CX1 & CY & CY1).
  unfold driver_data. rewrite FW, FH, FE, FL, FOX, FOY, FOW, FOH.
  assert (OR : (if (o_xres o =? W) && (o_yres o =? H) then (0, 0) else (o_cx0 o, o_cy0 o)) = (o_cx0 o, o_cy0 o)).
  { destruct (Z.eqb_spec (o_xres o) W), (Z.eqb_spec (o_yres o) H); cbn [andb]; auto. f_equal; lia. }
  rewrite OR. clear OR.
  set (x0 := Z.max (rx0 r - o_cx0 o) 0). set (y0 := Z.max (ry0 r - o_cy0 o) 0).
  set (x1 := Z.min (rx1 r - o_cx0 o) W). set (y1 := Z.min (ry1 r - o_cy0 o) H).
  set (row := Z.max (o_cy0 o - ry0 r) 0). set (col := Z.max (o_cx0 o - rx0 r) 0).
  destruct (rows_spec data (off + (row * (esz * (rx1 r - rx0 r)) + col * esz)) (esz * (rx1 r - rx0 r)) x0 x1 y0) with (ys := zrange y0 y1) (m := i_data i)
    as (m' & E & Z1 & G); try lia.
  - intros y I. apply zrange_in in I. split; [lia|].
    assert (RR : 0 <= row + (y - y0) /\ row + (y - y0) + 1 <= rheight r) by (unfold rheight, row, y0, y1 in *; lia).
    replace (off + (row * (esz * (rx1 r - rx0 r)) + col * esz) + (y - y0) * (esz * (rx1 r - rx0 r)))
      with (off + (row + (y - y0)) * (esz * (rx1 r - rx0 r)) + col * esz) by ring.
    assert (CC : 0 <= col /\ col + (x1 - x0) <= rx1 r - rx0 r) by (unfold col, x0, x1; lia).
    assert (0 <= esz * (rx1 r - rx0 r)) by nia. split; [nia|].
    unfold rarea, rwidth in SZ.
    assert ((row + (y - y0) + 1) * (esz * (rx1 r - rx0 r)) <= rheight r * (esz * (rx1 r - rx0 r)))
      by (apply Z.mul_le_mono_nonneg_r; lia).
    assert ((col + (x1 - x0)) * esz <= (rx1 r - rx0 r) * esz) by (apply Z.mul_le_mono_nonneg_r; lia).
    nia.
  - rewrite E. cbn [bind]. eexists. split; [reflexivity|].
    split; [unfold fits_image, set_data; cbn [i_w i_h i_entry i_line i_ox i_oy i_ow i_oh i_data]; repeat split; congruence|].
    cbn [set_data i_kind i_count i_format]. split; [auto|]. split; [auto|]. split; [auto|].
    intros x y k X Y K. unfold icell. cbn [set_data i_data].
    destruct (G (x - o_cx0 o) (y - o_cy0 o) k ltac:(lia) K) as [G1 G2]. unfold inr. cbn [fst snd]. split.
    + intros [A B]. rewrite G1.
      * f_equal. unfold rwidth.
        assert (C1 : col + (x - o_cx0 o - x0) = x - rx0 r) by (unfold col, x0; lia).
        assert (C2 : row + (y - o_cy0 o - y0) = y - ry0 r) by (unfold row, y0; lia).
        rewrite <- C1, <- C2. ring.
      * split; [apply zrange_in|]; unfold x0, x1, y0, y1; lia.
    + intros N. apply G2. intros [A B]. apply N. apply zrange_in in A. unfold x0, x1, y0, y1 in *. lia.
Qed.

(* ---- the buckets of the window ---- *)
Local Notation BR := (bregion o).
Lemma reg_bounds :
  rx0 BR * o_bx o <= o_cx0 o < (rx0 BR + 1) * o_bx o /\
  ry0 BR * o_by o <= o_cy0 o < (ry0 BR + 1) * o_by o /\
  (rx1 BR - 1) * o_bx o < o_cx1 o <= rx1 BR * o_bx o /\
  (ry1 BR - 1) * o_by o < o_cy1 o <= ry1 BR * o_by o /\
  0 <= rx0 BR < rx1 BR /\ 0 <= ry0 BR < ry1 BR.
Proof.
  clear VAL FS RAND. destruct WIN as (A & B & C & D & E & F). unfold bregion. cbn [rx0 rx1 ry0 ry1].
  rewrite !Z.quot_div_nonneg by lia.
  pose proof (Z.div_mod (o_cx0 o) (o_bx o)). pose proof (Z.mod_pos_bound (o_cx0 o) (o_bx o)).
  pose proof (Z.div_mod (o_cy0 o) (o_by o)). pose proof (Z.mod_pos_bound (o_cy0 o) (o_by o)).
  pose proof (Z.div_mod (o_cx1 o - 1) (o_bx o)). pose proof (Z.mod_pos_bound (o_cx1 o - 1) (o_bx o)).
  pose proof (Z.div_mod (o_cy1 o - 1) (o_by o)). pose proof (Z.mod_pos_bound (o_cy1 o - 1) (o_by o)).
  assert (0 <= o_cx0 o / o_bx o) by (apply Z.div_pos; lia).
  assert (0 <= o_cy0 o / o_by o) by (apply Z.div_pos; lia).
  assert (o_cx0 o / o_bx o <= (o_cx1 o - 1) / o_bx o) by (apply Z.div_le_mono; lia).
  assert (o_cy0 o / o_by o <= (o_cy1 o - 1) / o_by o) by (apply Z.div_le_mono; lia).
  repeat split; lia.
Qed.
Definition in_reg (b : bpos) : Prop := rx0 BR <= fst b < rx1 BR /\ ry0 BR <= snd b < ry1 BR.
Definition first_bucket : bpos := (rx0 BR, ry0 BR).

Lemma bucket_facts : forall b, in_reg b ->
  let r := display_region o b in
  0 <= rx0 r /\ 0 <= ry0 r /\ rx1 r <= o_xres o /\ ry1 r <= o_yres o /\ 0 < rwidth r /\ 0 < rheight r /\
  rx0 r < o_cx1 o /\ o_cx0 o < rx1 r /\ ry0 r < o_cy1 o /\ o_cy0 o < ry1 r /\
  rx0 r = fst b * o_bx o /\ ry0 r = snd b * o_by o /\
  rx1 r = Z.min (o_xres o) ((fst b + 1) * o_bx o) /\ ry1 r = Z.min (o_yres o) ((snd b + 1) * o_by o).
Proof.
  intros [c l] [C L] r. cbn [fst snd] in *. pose proof reg_bounds as (A1 & A2 & A3 & A4 & A5 & A6).
  clear VAL FS RAND. destruct WIN as (B1 & B2 & B3 & B4 & B5 & B6).
  unfold r, display_region, bucket_w, bucket_h, bucket_x, bucket_y, rwidth, rheight. cbn [rx0 rx1 ry0 ry1 fst snd].
  unfold bucket_x, bucket_y. cbn [fst snd].
  assert (0 <= c * o_bx o) by nia. assert (0 <= l * o_by o) by nia.
  assert (c * o_bx o <= (rx1 BR - 1) * o_bx o) by nia. assert (l * o_by o <= (ry1 BR - 1) * o_by o) by nia.
  assert ((rx0 BR + 1) * o_bx o <= (c + 1) * o_bx o) by nia. assert ((ry0 BR + 1) * o_by o <= (l + 1) * o_by o) by nia.
  repeat split; lia.
Qed.
Lemma first_largest : forall b, in_reg b ->
  rarea (display_region o b) <= rarea (display_region o first_bucket).
Proof.
  intros b B. pose proof (bucket_facts b B) as (_ & _ & _ & _ & W1 & H1 & _ & _ & _ & _ & P1 & P2 & P3 & P4).
  pose proof reg_bounds as (_ & _ & _ & _ & A5 & A6).
  assert (F : in_reg first_bucket) by (unfold in_reg, first_bucket; cbn [fst snd]; lia).
  pose proof (bucket_facts first_bucket F) as (_ & _ & _ & _ & W2 & H2 & _ & _ & _ & _ & Q1 & Q2 & Q3 & Q4).
  unfold rarea. unfold rwidth, rheight in *. destruct B as [B1 B2]. destruct WIN as (X & Y & _).
  clear VAL FS RAND.
  assert (fst first_bucket * o_bx o <= fst b * o_bx o) by (apply Z.mul_le_mono_nonneg_r; cbn [fst first_bucket]; lia).
  assert (snd first_bucket * o_by o <= snd b * o_by o) by (apply Z.mul_le_mono_nonneg_r; cbn [snd first_bucket]; lia).
  apply Z.mul_le_mono_nonneg; try lia.
Qed.

(* the pixels of the window which belong to the buckets before b *)
Definition earlier (b : bpos) (x y : Z) : Prop :=
  y < snd b * o_by o \/ (y < (snd b + 1) * o_by o /\ x < fst b * o_bx o).
Lemma earlier_first : forall x y, o_cx0 o <= x -> o_cy0 o <= y -> ~ earlier first_bucket x y.
Proof. intros x y X Y. pose proof reg_bounds as (A1 & A2 & _). unfold earlier, first_bucket. cbn [fst snd]. lia. Qed.
Lemma earlier_column : forall b x y, in_reg b -> o_cx0 o <= x < o_cx1 o -> o_cy0 o <= y < o_cy1 o ->
  earlier (fst b + 1, snd b) x y -> earlier b x y \/ inr (display_region o b) (x, y).
Proof.
  intros b x y B X Y E. pose proof (bucket_facts b B) as (_ & _ & _ & _ & _ & _ & _ & _ & _ & _ & P1 & P2 & P3 & P4).
  destruct WIN as (_ & _ & _ & B4 & _ & B6). unfold earlier, inr in *. cbn [fst snd] in *. lia.
Qed.
Lemma earlier_row : forall b x y, in_reg b -> fst b + 1 = rx1 BR -> o_cx0 o <= x < o_cx1 o -> o_cy0 o <= y < o_cy1 o ->
  y < (snd b + 1) * o_by o -> earlier b x y \/ inr (display_region o b) (x, y).
Proof.
  intros b x y B L X Y E. pose proof (bucket_facts b B) as (_ & _ & _ & _ & _ & _ & _ & _ & _ & _ & P1 & P2 & P3 & P4).
  pose proof reg_bounds as (A1 & _ & A3 & _). rewrite <- L in A3.
  destruct WIN as (_ & _ & _ & B4 & _ & B6). unfold earlier, inr in *. cbn [fst snd] in *. lia.
Qed.

(* a pixel of the image of the driver is as it should be *)
Definition right_pixel (i : image) (x y : Z) : Prop :=
  exists s, (0 <= s)%Q /\ (s < 1)%Q /\ forall k, 0 <= k < esz -> icell i x y k = nth (Z.to_nat k) (pbytes fs s x y) None.
Definition kept (i i' : image) : Prop :=
  i_kind i' = i_kind i /\ i_count i' = i_count i /\ i_format i' = i_format i.
Definition buffer_ok (b : bpos) (s : dstate) : Prop :=
  match ds_bucket s with
  | None => b = first_bucket
  | Some m => m_size m = esz * rarea (display_region o first_bucket)
  end.

Definition row_block (scan : bool) (s : dstate) : option (option mem) :=
  match ds_row s with
  | Some m => Some (Some m)
  | None => if scan then do m <- new_block (esz * dwidth o * dheight o); Some (Some m) else Some None
  end.
(* the bucket's pixels are written to its buffer *)
Lemma format_spec : forall scan b s, in_reg b -> buffer_ok b s ->
  exists m n row, format_bucket o d q fs scan pic random (display_region o b) s = Some (DState (Some m) row n (ds_image s)) /\
    row_block scan s = Some row /\
    m_size m = esz * rarea (display_region o first_bucket) /\ holds_region (display_region o b) m.
Proof.
  intros scan b s B OK. set (r := display_region o b).
  pose proof (bucket_facts b B) as (F1 & F2 & F3 & F4 & F5 & F6 & _). fold r in F1, F2, F3, F4, F5, F6.
  pose proof (first_largest b B) as FL. fold r in FL. pose proof esz_pos as EP.
  assert (AR : 0 < rarea (display_region o first_bucket)) by (unfold rarea in *; nia).
  assert (SZ : exists m0, match ds_bucket s with Some m => Some m | None => new_block (esz * rarea r) end = Some m0 /\
                          m_size m0 = esz * rarea (display_region o first_bucket)).
  { unfold buffer_ok in OK. destruct (ds_bucket s) as [m|].
    - exists m. auto.
    - unfold new_block. subst b. fold r in FL. subst r. destruct (Z.ltb_spec (esz * rarea (display_region o first_bucket)) 0).
      + nia.
      + eexists. split; reflexivity. }
  destruct SZ as (m0 & E0 & S0).
  assert (RO : exists row, row_block scan s = Some row).
  { unfold row_block. destruct (ds_row s) as [m|]; [eexists; reflexivity|]. destruct scan; [|eexists; reflexivity].
    unfold new_block. destruct (Z.ltb_spec (esz * dwidth o * dheight o) 0) as [LT|GE]; [|eexists; reflexivity].
    exfalso. unfold dwidth, dheight in LT. clear VAL FS RAND. destruct WIN as (_ & _ & C1 & _ & C2 & _).
    assert (0 <= esz * (o_cx1 o - o_cx0 o)) by nia. nia. }
  destruct RO as (row & RO).
  destruct (bucket_pixels r m0 (ds_random s) F5 F6 F1 F2 F3 F4) as (p & m & n & E & Z1 & HO).
  { rewrite S0. apply Z.mul_le_mono_nonneg_l; lia. }
  exists m, n, row. split; [|split; [exact RO|split; [congruence|exact HO]]].
  unfold format_bucket. rewrite E0. cbn [bind]. unfold row_block in RO. rewrite RO. cbn [bind]. rewrite E. cbn [bind]. reflexivity.
Qed.

Definition all_right (P : Z -> Z -> Prop) (i : image) : Prop :=
  forall x y, o_cx0 o <= x < o_cx1 o -> o_cy0 o <= y < o_cy1 o -> P x y -> right_pixel i x y.

Lemma display_not_skipped : forall scan b s, in_reg b ->
  display_bucket o d q fs scan pic random (display_region o b) s = display_request o d q fs scan pic random (display_region o b) s.
Proof.
  intros scan b s B. pose proof (bucket_facts b B) as (F1 & F2 & F3 & F4 & F5 & F6 & F7 & F8 & F9 & F10 & _).
  unfold display_bucket. set (r := display_region o b) in *.
  destruct (Z.eqb_spec (rwidth r) 0); [lia|]. destruct (Z.eqb_spec (rheight r) 0); [lia|]. cbn [orb].
  destruct (Z.leb_spec (rx1 r) (o_cx0 o)); [lia|]. destruct (Z.leb_spec (ry1 r) (o_cy0 o)); [lia|].
  destruct (Z.ltb_spec (o_cx1 o) (rx0 r)); [lia|]. destruct (Z.ltb_spec (o_cy1 o) (ry0 r)); [lia|]. reflexivity.
Qed.

Lemma step_bucket : forall b s, in_reg b -> buffer_ok b s -> fits_image (ds_image s) -> all_right (earlier b) (ds_image s) ->
  exists s' m, display_bucket o d q fs false pic random (display_region o b) s = Some s' /\
    ds_bucket s' = Some m /\ m_size m = esz * rarea (display_region o first_bucket) /\
    fits_image (ds_image s') /\ kept (ds_image s) (ds_image s') /\
    all_right (fun x y => earlier b x y \/ inr (display_region o b) (x, y)) (ds_image s').
Proof.
  intros b s B OK FI AR. rewrite display_not_skipped by auto. unfold display_request.
  destruct (format_spec false b s B OK) as (m & n & row & E & RO & SZ & HO). rewrite E. cbn [bind ds_bucket ds_image ds_row ds_random].
  pose proof (bucket_facts b B) as (F1 & F2 & F3 & F4 & F5 & F6 & F7 & F8 & F9 & F10 & _).
  pose proof (first_largest b B) as FL. pose proof esz_pos as EP.
  set (r := display_region o b) in *.
  destruct (driver_spec r m 0 (ds_image s) FI) as (i' & E2 & FI' & K1 & K2 & K3 & G); try assumption; try lia.
  { unfold rwidth in F5. lia. }
  { cbn [Z.add]. rewrite SZ. apply Z.mul_le_mono_nonneg_l; lia. }
  rewrite E2. cbn [bind]. eexists. exists m. split; [reflexivity|]. cbn [ds_bucket ds_image].
  split; [auto|]. split; [auto|]. split; [auto|]. split; [repeat split; auto|].
  intros x y X Y D.
  assert (DEC : inr r (x, y) \/ ~ inr r (x, y)) by (unfold inr; cbn [fst snd]; lia).
  destruct DEC as [IN|OUT].
  - destruct (HO x y IN) as (u & U0 & U1 & HU). exists u. split; [auto|]. split; [auto|]. intros k K.
    destruct (G x y k X Y K) as [G1 _]. rewrite (G1 IN). cbn [Z.add]. apply HU; auto.
  - destruct D as [D|D]; [|contradiction].
    destruct (AR x y X Y D) as (u & U0 & U1 & HU). exists u. split; [auto|]. split; [auto|]. intros k K.
    destruct (G x y k X Y K) as [_ G2]. rewrite (G2 OUT). apply HU; auto.
Qed.

(* ---- the loop ---- *)
Lemma loop_any : forall scan (J : bpos -> dstate -> Prop) (Fin : dstate -> Prop),
  (forall b s, in_reg b -> J b s -> exists s', display_bucket o d q fs scan pic random (display_region o b) s = Some s' /\
     (fst b + 1 < rx1 BR -> J (fst b + 1, snd b) s') /\
     (fst b + 1 = rx1 BR -> snd b + 1 < ry1 BR -> J (rx0 BR, snd b + 1) s') /\
     (fst b + 1 = rx1 BR -> snd b + 1 = ry1 BR -> Fin s')) ->
  forall n b s, in_reg b -> J b s ->
  (ry1 BR - 1 - snd b) * rwidth BR + (rx1 BR - fst b) <= Z.of_nat n ->
  exists s', display_loop o d q fs scan pic random n b s = Some s' /\ Fin s'.
Proof.
  intros scan J Fin STEP. pose proof reg_bounds as (_ & _ & _ & _ & A5 & A6).
  induction n as [|n IH]; intros b s B HJ N.
  - exfalso. destruct B as [B1 B2]. unfold rwidth in N. clear VAL. nia.
  - cbn [display_loop]. destruct (STEP b s B HJ) as (s1 & E & N1 & N2 & N3). rewrite E. cbn [bind]. unfold next_bucket.
    destruct B as [B1 B2].
    destruct (Z.ltb_spec (fst b + 1) (rx1 BR)).
    + apply IH; [split; cbn [fst snd]; lia | auto | cbn [fst snd]; lia].
    + destruct (Z.ltb_spec (snd b + 1) (ry1 BR)).
      * apply IH; [split; cbn [fst snd]; lia | apply N2; lia |].
        cbn [fst snd]. unfold rwidth in *. clear VAL. nia.
      * exists s1. split; [auto|]. apply N3; lia.
Qed.

Definition done (i0 : image) (s : dstate) : Prop :=
  fits_image (ds_image s) /\ kept i0 (ds_image s) /\ all_right (fun _ _ => True) (ds_image s).

Lemma kept_trans : forall a b c, kept a b -> kept b c -> kept a c.
Proof. unfold kept. intros a b c (A & B & C) (D & E & F). repeat split; congruence. Qed.
Lemma last_row : forall (b : bpos) y, snd b + 1 = ry1 BR -> y < o_cy1 o -> y < (snd b + 1) * o_by o.
Proof. intros b y L Y. pose proof reg_bounds as (_ & _ & _ & A4 & _). rewrite <- L in A4. lia. Qed.

Lemma all_buckets : forall i0 n, fits_image i0 -> rarea BR <= Z.of_nat n ->
  exists s', display_loop o d q fs false pic random n first_bucket (DState None None 0 i0) = Some s' /\ done i0 s'.
Proof.
  intros i0 n FI N. pose proof reg_bounds as (_ & _ & _ & _ & A5 & A6).
  apply loop_any with (J := fun b s => buffer_ok b s /\ fits_image (ds_image s) /\ kept i0 (ds_image s) /\ all_right (earlier b) (ds_image s)).
  - intros b s B (J1 & J2 & J3 & J4).
    destruct (step_bucket b s B J1 J2 J4) as (s' & m & E & BM & SZ & FI' & K & AR).
    exists s'. split; [exact E|].
    assert (OK : forall b', buffer_ok b' s') by (intros b'; unfold buffer_ok; rewrite BM; exact SZ).
    pose proof (kept_trans _ _ _ J3 K) as K'. split; [|split].
    + intros L. split; [auto|]. split; [auto|]. split; [auto|]. intros x y X Y EA. apply AR; auto. apply earlier_column; auto.
    + intros L L2. split; [auto|]. split; [auto|]. split; [auto|]. intros x y X Y EA. apply AR; auto. apply earlier_row; auto.
      pose proof reg_bounds as (A1 & _). unfold earlier in EA. cbn [fst snd] in EA. lia.
    + intros L L2. split; [auto|]. split; [auto|]. intros x y X Y _. apply AR; auto. apply earlier_row; auto.
      apply last_row; [auto | lia].
  - split; cbn [fst snd first_bucket]; lia.
  - cbn [ds_image]. split; [reflexivity|]. split; [auto|]. split; [repeat split|]. intros x y X Y EA. exfalso.
    apply (earlier_first x y); auto; lia.
  - unfold first_bucket. cbn [fst snd]. unfold rarea, rwidth, rheight in *. clear VAL. nia.
Qed.

(* ---- lines instead of buckets ---- *)
Hypothesis LEFT : o_cx0 o = 0.
Hypothesis RIGHT : o_cx1 o = o_xres o \/ o_cx1 o mod o_bx o = 0.
Hypothesis HIGH : o_by o <= H \/ H = o_yres o.

Lemma bucket_right : forall b, in_reg b -> rx1 (display_region o b) <= W /\ rheight (display_region o b) <= H /\
  (W <= rx1 (display_region o b) <-> fst b + 1 = rx1 BR).
Proof.
  intros b B. pose proof (bucket_facts b B) as (F1 & F2 & F3 & F4 & F5 & F6 & _ & _ & _ & _ & P1 & P2 & P3 & P4).
  pose proof reg_bounds as (A1 & _ & A3 & _). clear VAL FS RAND. destruct WIN as (B1 & B2 & B3 & B4 & B5 & B6). destruct B as [C1 C2].
  set (r := display_region o b) in *.
  assert (R : rx1 r <= W).
  { destruct RIGHT as [E|E]; [lia|].
    pose proof (Z.div_mod (o_cx1 o) (o_bx o) ltac:(lia)) as DM. rewrite E in DM.
    assert (Q : rx1 BR = o_cx1 o / o_bx o).
    { assert (rx1 BR - 1 < o_cx1 o / o_bx o) by (apply Z.mul_lt_mono_pos_r with (o_bx o); lia).
      assert (o_cx1 o / o_bx o <= rx1 BR) by (apply Z.mul_le_mono_pos_r with (o_bx o); lia). lia. }
    assert ((fst b + 1) * o_bx o <= rx1 BR * o_bx o) by (apply Z.mul_le_mono_nonneg_r; lia).
    assert (rx1 BR * o_bx o = o_cx1 o) by (rewrite Q; lia). lia. }
  split; [exact R|]. split.
  - unfold rheight in *. destruct HIGH as [E|E]; [|lia].
    assert ((snd b + 1) * o_by o = snd b * o_by o + o_by o) by ring. lia.
  - split; intros Q.
    + destruct (Z.eq_dec (fst b + 1) (rx1 BR)); auto. exfalso.
      assert ((fst b + 1) * o_bx o <= (rx1 BR - 1) * o_bx o) by nia. lia.
    + rewrite Q in *. lia.
Qed.

(* the elements of a list of positions are put into the lines *)
Lemma collapse_list : forall r b l, (forall c, In c l -> inr r c) -> NoDup l ->
  rheight r <= H -> 0 <= rx0 r -> rx1 r <= W ->
  forall p m, 0 <= p -> p + Z.of_nat (List.length l) * esz <= m_size b -> m_size m = esz * W * H ->
  exists p' m', foldM (fun (a : Z * mem) (c : Z * Z) =>
                   let '(p, m) := a in
                   do m <- memcpy m (dwidth o * esz * (snd c - ry0 r) + esz * fst c) b p esz;
                   Some (p + esz, m)) l (p, m) = Some (p', m') /\ m_size m' = m_size m /\
    (forall j c k, nth_error l j = Some c -> 0 <= k < esz ->
       m_cell m' (((snd c - ry0 r) * W + fst c) * esz + k) = m_cell b (p + Z.of_nat j * esz + k)) /\
    (forall X Y k, 0 <= X < W -> 0 <= k < esz -> ~ In (X, Y) l ->
       m_cell m' (((Y - ry0 r) * W + X) * esz + k) = m_cell m (((Y - ry0 r) * W + X) * esz + k)).
Proof.
  intros r b l. pose proof esz_pos as EP. clear VAL FS RAND LEFT RIGHT HIGH.
  induction l as [|c l IH]; intros IN ND RH X0 X1 p m P SZ MS; cbn [foldM].
  - exists p, m. split; [auto|]. split; [auto|]. split; [intros [|j]; discriminate | auto].
  - cbn [List.length] in SZ. inversion ND as [|? ? NI ND']; subst.
    destruct (IN c (or_introl eq_refl)) as [C1 C2]. destruct c as [x y]. cbn [fst snd] in *.
    unfold rheight in RH. unfold dwidth.
    assert (L1 : 0 <= W * esz * (y - ry0 r) + esz * x).
    { apply Z.add_nonneg_nonneg; repeat apply Z.mul_nonneg_nonneg; lia. }
    assert (L2 : W * esz * (y - ry0 r) + esz * x + esz <= esz * W * H).
    { assert ((y - ry0 r + 1) * (W * esz) <= H * (W * esz)) by (apply Z.mul_le_mono_nonneg_r; nia).
      assert (esz * (x + 1) <= esz * W) by (apply Z.mul_le_mono_nonneg_l; lia). nia. }
    destruct (memcpy_spec m (W * esz * (y - ry0 r) + esz * x) b p esz) as (m1 & E1 & Z1 & D1 & D2).
    { lia. } { exact L1. } { rewrite MS. exact L2. } { exact P. } { nia. }
    rewrite E1. cbn [bind].
    destruct (IH (fun c I => IN c (or_intror I)) ND' RH X0 X1 (p + esz) m1) as (p' & m' & E & Z2 & G1 & G2).
    { lia. } { nia. } { congruence. }
    exists p', m'. split; [exact E|]. split; [congruence|]. split.
    + intros [|j] c' k EQ K.
      * injection EQ as <-. cbn [fst snd]. rewrite G2; [|lia|auto|auto].
        rewrite D1; [f_equal; nia | nia].
      * rewrite (G1 j c' k EQ K). f_equal. nia.
    + intros X Y k XX K NIN. rewrite G2; auto.
      * apply D2. intros Q. apply NIN. left.
        pose proof (row_cell esz W (y - ry0 r) (Y - ry0 r) x (x + 1) X k) as RC.
        assert (Q' : (y - ry0 r) * (esz * W) + x * esz <= ((Y - ry0 r) * W + X) * esz + k <
                     (y - ry0 r) * (esz * W) + x * esz + esz * (x + 1 - x)).
        { replace (x + 1 - x) with 1 by lia. nia. }
        apply RC in Q'; try lia. f_equal; lia.
      * intros I. apply NIN. right; auto.
Qed.

(* the lines hold the pixels x < n of the bucket row r *)
Definition lines_hold (r : region) (n : Z) (row : mem) : Prop :=
  forall x y, 0 <= x < n -> ry0 r <= y < ry1 r -> exists s, (0 <= s)%Q /\ (s < 1)%Q /\ forall k, 0 <= k < esz ->
    m_cell row (((y - ry0 r) * W + x) * esz + k) = nth (Z.to_nat k) (pbytes fs s x y) None.

Lemma collapse_spec : forall b m row, in_reg b -> m_size m = esz * rarea (display_region o first_bucket) ->
  holds_region (display_region o b) m -> m_size row = esz * W * H ->
  lines_hold (display_region o b) (rx0 (display_region o b)) row ->
  exists row', collapse o fs (display_region o b) m row = Some row' /\ m_size row' = esz * W * H /\
    lines_hold (display_region o b) (rx1 (display_region o b)) row'.
Proof.
  intros b m row B SZ HO RS LH. pose proof (bucket_facts b B) as (F1 & F2 & F3 & F4 & F5 & F6 & _).
  pose proof (bucket_right b B) as (R1 & R2 & _). pose proof (first_largest b B) as FL. pose proof esz_pos as EP.
  set (r := display_region o b) in *.
  destruct (collapse_list r m (cells r)) with (p := 0) (m := row) as (p' & m' & E & Z1 & G1 & G2); auto.
  - intros c I. apply cells_in; auto.
  - apply cells_nodup.
  - lia.
  - rewrite cells_length by lia. rewrite SZ. cbn [Z.add]. rewrite Z.mul_comm. apply Z.mul_le_mono_nonneg_l; lia.
  - exists m'. unfold collapse. rewrite E. cbn [bind snd]. split; [auto|]. split; [congruence|].
    intros x y X Y. destruct (Z.ltb_spec x (rx0 r)) as [LT|GE].
    + destruct (LH x y ltac:(lia) Y) as (s & S0 & S1 & K). exists s. split; [auto|]. split; [auto|]. intros k KK.
      rewrite G2; [apply K; auto | lia | auto |]. intros I. apply cells_in in I. destruct I as [I _]. cbn [fst] in I. lia.
    + assert (IN : inr r (x, y)) by (split; cbn [fst snd]; lia).
      destruct (HO x y IN) as (s & S0 & S1 & K). exists s. split; [auto|]. split; [auto|]. intros k KK.
      rewrite <- K by auto. pose proof (G1 _ _ k (cells_nth r x y IN) KK) as G. cbn [fst snd] in G. rewrite G.
      f_equal. unfold rwidth in *. rewrite Z2Nat.id; [ring|]. clear VAL. nia.
Qed.

Lemma send_spec : forall b row, in_reg b -> m_size row = esz * W * H -> lines_hold (display_region o b) W row ->
  forall ys i P, (forall y, In y ys -> ry0 (display_region o b) <= y < ry1 (display_region o b)) ->
  fits_image i -> all_right P i ->
  exists i', foldM (fun (i : image) (y : Z) =>
           driver_data 0 (dwidth o) y (y + 1) esz row ((y - ry0 (display_region o b)) * (esz * dwidth o)) i) ys i = Some i' /\
    fits_image i' /\ kept i i' /\ all_right (fun x y => P x y \/ In y ys) i'.
Proof.
  intros b row B RS LH. pose proof (bucket_facts b B) as (F1 & F2 & F3 & F4 & F5 & F6 & _).
  pose proof (bucket_right b B) as (_ & R2 & _). pose proof esz_pos as EP. set (r := display_region o b) in *.
  induction ys as [|y ys IH]; intros i P IN FI AR; cbn [foldM].
  - exists i. split; [auto|]. split; [auto|]. split; [repeat split|]. intros x y X Y [Q|[]]. apply AR; auto.
  - assert (YY := IN y (or_introl eq_refl)).
    assert (WP : 0 < W) by (destruct WIN as (_ & _ & C1 & _); lia).
    destruct (driver_spec (Region 0 y (dwidth o) (y + 1)) row ((y - ry0 r) * (esz * dwidth o)) i FI)
      as (i1 & E1 & FI1 & K1 & K2 & K3 & G); cbn [rx0 rx1 ry0 ry1]; unfold dwidth in *.
    { lia. } { lia. } { lia. }
    { apply Z.mul_nonneg_nonneg; [lia|]. apply Z.mul_nonneg_nonneg; lia. }
    { unfold rarea, rwidth, rheight in *. cbn [rx0 rx1 ry0 ry1]. rewrite RS.
      assert ((y - ry0 r + 1) * (esz * W) <= H * (esz * W)) by (apply Z.mul_le_mono_nonneg_r; [apply Z.mul_nonneg_nonneg; lia | lia]).
      nia. }
    { unfold rheight. cbn [ry0 ry1]. lia. }
    cbn [rx0 rx1 ry0 ry1] in E1. rewrite E1. cbn [bind].
    destruct (IH i1 (fun x z => P x z \/ z = y) (fun z I => IN z (or_intror I)) FI1) as (i2 & E2 & FI2 & KK & AR2).
    + intros x z X Z0 PP. destruct (Z.eq_dec z y) as [->|NE].
      * destruct (LH x y ltac:(lia) YY) as (s & S0 & S1 & K). exists s. split; [auto|]. split; [auto|]. intros k KB.
        destruct (G x y k X Z0 KB) as [G1 _]. rewrite G1 by (unfold inr; cbn [rx0 rx1 ry0 ry1 fst snd]; lia).
        rewrite <- K by auto. f_equal. unfold rwidth. cbn [rx0 rx1 ry0 ry1]. ring.
      * destruct PP as [PP|PP]; [|contradiction].
        destruct (AR x z X Z0 PP) as (s & S0 & S1 & K). exists s. split; [auto|]. split; [auto|]. intros k KB.
        destruct (G x z k X Z0 KB) as [_ G2]. rewrite G2 by (unfold inr; cbn [rx0 rx1 ry0 ry1 fst snd]; lia). auto.
    + exists i2. split; [exact E2|]. split; [auto|]. split; [apply kept_trans with i1; [repeat split; auto | auto]|].
      intros x z X Z0 [PP|[->|I]]; apply AR2; auto.
Qed.

Definition lines_ok (b : bpos) (s : dstate) : Prop :=
  match ds_row s with
  | None => b = first_bucket
  | Some row => m_size row = esz * W * H /\ lines_hold (display_region o b) (fst b * o_bx o) row
  end.

Lemma step_line : forall b s, in_reg b -> buffer_ok b s -> lines_ok b s -> fits_image (ds_image s) ->
  all_right (fun x y => y < snd b * o_by o) (ds_image s) ->
  exists s' m row, display_bucket o d q fs true pic random (display_region o b) s = Some s' /\
    ds_bucket s' = Some m /\ m_size m = esz * rarea (display_region o first_bucket) /\
    ds_row s' = Some row /\ m_size row = esz * W * H /\
    lines_hold (display_region o b) (rx1 (display_region o b)) row /\
    fits_image (ds_image s') /\ kept (ds_image s) (ds_image s') /\
    all_right (fun x y => y < snd b * o_by o) (ds_image s') /\
    (fst b + 1 = rx1 BR -> all_right (fun x y => y < (snd b + 1) * o_by o) (ds_image s')).
Proof.
  intros b s B OK LO FI AR. rewrite display_not_skipped by auto. unfold display_request.
  destruct (format_spec true b s B OK) as (m & n & row & E & RO & SZ & HO). rewrite E. cbn [bind ds_bucket ds_image ds_row ds_random].
  pose proof (bucket_facts b B) as (F1 & F2 & F3 & F4 & F5 & F6 & F7 & F8 & F9 & F10 & P1 & P2 & P3 & P4).
  pose proof (bucket_right b B) as (R1 & R2 & R3). pose proof esz_pos as EP.
  assert (RW : exists row0, row = Some row0 /\ m_size row0 = esz * W * H /\
               lines_hold (display_region o b) (rx0 (display_region o b)) row0).
  { unfold row_block in RO. unfold lines_ok in LO. destruct (ds_row s) as [m0|].
    - injection RO as <-. exists m0. rewrite P1. tauto.
    - unfold new_block in RO. destruct (esz * dwidth o * dheight o <? 0); [discriminate|]. injection RO as <-.
      eexists. split; [reflexivity|]. cbn [m_size]. split; [reflexivity|].
      intros x y X Y. exfalso. rewrite P1 in X. rewrite LO in X. cbn [fst first_bucket] in X.
      pose proof reg_bounds as (A1 & _). lia. }
  destruct RW as (row0 & -> & RS & LH).
  destruct (collapse_spec b m row0 B SZ HO RS LH) as (row' & E1 & RS' & LH'). rewrite E1. cbn [bind].
  set (r := display_region o b) in *. unfold dwidth at 1.
  destruct (Z.leb_spec W (rx1 r)) as [LE|GT].
  - assert (LH2 : lines_hold r W row') by (replace W with (rx1 r) by lia; exact LH').
    destruct (send_spec b row' B RS' LH2 (zrange (ry0 r) (ry1 r)) (ds_image s) (fun x y => y < snd b * o_by o))
      as (i' & E2 & FI' & K & AR'); auto.
    { intros y I. apply zrange_in in I. exact I. }
    unfold send. fold r in E2. rewrite E2. cbn [bind]. eexists. exists m, row'. split; [reflexivity|].
    cbn [ds_bucket ds_row ds_image]. split; [auto|]. split; [auto|]. split; [auto|]. split; [auto|]. split; [auto|].
    split; [auto|]. split; [auto|]. split.
    + intros x y X Y Q. apply AR'; auto.
    + intros _ x y X Y Q. apply AR'; auto.
      destruct (Z.ltb_spec y (snd b * o_by o)); [left; auto|]. right. apply zrange_in.
      destruct WIN as (_ & _ & _ & _ & _ & C6). lia.
  - cbn [bind]. eexists. exists m, row'. split; [reflexivity|].
    cbn [ds_bucket ds_row ds_image]. split; [auto|]. split; [auto|]. split; [auto|]. split; [auto|]. split; [auto|].
    split; [auto|]. split; [repeat split|]. split; [auto|]. intros L. exfalso. lia.
Qed.

Lemma all_lines : forall i0 n, fits_image i0 -> rarea BR <= Z.of_nat n ->
  exists s', display_loop o d q fs true pic random n first_bucket (DState None None 0 i0) = Some s' /\ done i0 s'.
Proof.
  intros i0 n FI N. pose proof reg_bounds as (A1 & A2 & A3 & A4 & A5 & A6).
  apply loop_any with (J := fun b s => buffer_ok b s /\ lines_ok b s /\ fits_image (ds_image s) /\ kept i0 (ds_image s) /\
                                       all_right (fun x y => y < snd b * o_by o) (ds_image s)).
  - intros b s B (J1 & J2 & J3 & J4 & J5).
    destruct (step_line b s B J1 J2 J3 J5) as (s' & m & row & E & BM & SZ & RM & RS & LH & FI' & K & AR1 & AR2).
    pose proof (bucket_facts b B) as (F1 & F2 & F3 & F4 & F5 & F6 & F7 & F8 & F9 & F10 & P1 & P2 & P3 & P4).
    exists s'. split; [exact E|].
    assert (OK : forall b', buffer_ok b' s') by (intros b'; unfold buffer_ok; rewrite BM; exact SZ).
    pose proof (kept_trans _ _ _ J4 K) as K'. split; [|split].
    + intros L. split; [auto|]. split; [|auto]. unfold lines_ok. rewrite RM. split; [auto|]. cbn [fst].
      assert (B' : in_reg (fst b + 1, snd b)) by (destruct B; split; cbn [fst snd]; lia).
      pose proof (bucket_facts _ B') as (_ & _ & _ & _ & _ & _ & F7' & _ & _ & _ & P1' & P2' & _ & P4').
      cbn [fst snd] in *. intros x y X Y. rewrite P2', P4' in Y. rewrite P2'.
      destruct (LH x y) as (u & U0 & U1 & HU).
      * rewrite P3. destruct WIN as (_ & _ & _ & C4 & _). lia.
      * lia.
      * exists u. split; [auto|]. split; [auto|]. intros k KB. rewrite <- HU by auto. rewrite P2. reflexivity.
    + intros L L2. split; [auto|]. split; [|split; [auto|split; [auto|cbn [snd]; auto]]].
      unfold lines_ok. rewrite RM. split; [auto|]. cbn [fst].
      intros x y X Y. exfalso. lia.
    + intros L L2. split; [auto|]. split; [auto|]. intros x y X Y _. apply AR2; auto. apply last_row; [auto | lia].
  - split; cbn [fst snd first_bucket]; lia.
  - cbn [ds_image]. split; [reflexivity|]. split; [reflexivity|]. split; [auto|]. split; [repeat split|].
    intros x y X Y Q. exfalso. cbn [snd first_bucket] in Q. lia.
  - unfold first_bucket. cbn [fst snd]. unfold rarea, rwidth, rheight in *. clear VAL. nia.
Qed.
End Bytes.

(* ---- what is written ---- *)
Lemma foldM_rows : forall m line n, 0 <= line -> 0 <= n -> n * line <= m_size m ->
  foldM (fun (l : list (option byte)) (y : Z) => do b <- read_bytes (y * line) line m; Some (l ++ b)%list) (zrange 0 n) []
  = Some (map (m_cell m) (zrange 0 (n * line))).
Proof.
  intros m line n L N. revert n N.
  apply (natlike_ind (fun n => n * line <= m_size m ->
    foldM (fun (l : list (option byte)) (y : Z) => do b <- read_bytes (y * line) line m; Some (l ++ b)%list) (zrange 0 n) []
    = Some (map (m_cell m) (zrange 0 (n * line))))).
  - intros _. reflexivity.
  - intros n N IH SZ. unfold Z.succ in *. rewrite (zrange_app 0 n (n + 1)) by lia. rewrite foldM_app.
    rewrite IH by nia. cbn [bind]. rewrite zrange_cons, (zrange_nil (n + 1)) by lia. cbn [foldM].
    unfold read_bytes. rewrite inside_true by nia. replace (0 <=? line) with true by (symmetry; apply Z.leb_le; lia).
    cbn [andb bind]. replace ((n + 1) * line) with (n * line + line) by ring.
    rewrite (zrange_app 0 (n * line) (n * line + line)) by nia. rewrite map_app. reflexivity.
Qed.

Lemma firstn_nth : forall {A} n (l : list A) i, (i < n)%nat -> nth_error (firstn n l) i = nth_error l i.
Proof.
  induction n as [|n IH]; intros l i LT; [lia|]. destruct l as [|a l]; auto. destruct i as [|i]; cbn; auto. apply IH. lia.
Qed.
Lemma skipn_nth : forall {A} n (l : list A) i, nth_error (skipn n l) i = nth_error l (n + i).
Proof.
  induction n as [|n IH]; intros l i; auto. destruct l as [|a l]; cbn; [destruct i; auto|]. apply IH.
Qed.
Lemma list_ext : forall {A} (l l' : list A), List.length l = List.length l' ->
  (forall i, (i < List.length l)%nat -> nth_error l i = nth_error l' i) -> l = l'.
Proof.
  induction l as [|a l IH]; destruct l' as [|b l']; intros L E; cbn in L; try lia; auto.
  assert (Q := E 0%nat ltac:(cbn; lia)). cbn in Q. injection Q as ->. f_equal. apply IH; [lia|].
  intros i I. apply (E (Datatypes.S i)). cbn. lia.
Qed.
Lemma slice : forall (m : mem) off n N, 0 <= off -> 0 <= n -> off + n <= N ->
  firstn (Z.to_nat n) (skipn (Z.to_nat off) (map (m_cell m) (zrange 0 N))) = map (m_cell m) (zrange off (off + n)).
Proof.
  intros m off n N A B C. rewrite (zrange_app 0 off N), (zrange_app off (off + n) N) by lia. rewrite !map_app.
  assert (L1 : List.length (map (m_cell m) (zrange 0 off)) = Z.to_nat off) by (rewrite map_length, zrange_length; f_equal; lia).
  assert (L2 : List.length (map (m_cell m) (zrange off (off + n))) = Z.to_nat n) by (rewrite map_length, zrange_length; f_equal; lia).
  rewrite skipn_app, L1, Nat.sub_diag, skipn_O. rewrite <- L1 at 1. rewrite skipn_all. cbn [app].
  rewrite firstn_app, L2, Nat.sub_diag, firstn_O, app_nil_r. rewrite <- L2. apply firstn_all.
Qed.

(* the k-th value of a pixel *)
Lemma pbytes_nth : forall d q pic t s x y fs k f j, Forall (fun f => snd f = t) fs -> nth_error fs k = Some f -> 0 <= j < type_size t ->
  nth (Z.to_nat (Z.of_nat k * type_size t + j)) (pbytes d q pic fs s x y) None
  = nth (Z.to_nat j) (bytes_of t (val d q pic f s x y)) None.
Proof.
  intros d q pic t s x y fs k f j F N J. rewrite Forall_forall in F.
  assert (FT : snd f = t) by (apply F; eapply nth_error_In; eauto).
  replace (Z.to_nat (Z.of_nat k * type_size t + j)) with (k * Z.to_nat (type_size t) + Z.to_nat j)%nat by nia.
  assert (E := flat_map_nth (fun f => bytes_of (snd f) (val d q pic f s x y)) (Z.to_nat (type_size t)) fs k (Z.to_nat j) f).
  cbv beta in E. rewrite FT in E.
  assert (E' : nth_error (pbytes d q pic fs s x y) (k * Z.to_nat (type_size t) + Z.to_nat j)
               = nth_error (bytes_of t (val d q pic f s x y)) (Z.to_nat j)).
  { apply E; [|lia|auto]. intros a I. rewrite (F a I). rewrite <- (bytes_length t (val d q pic a s x y)). lia. }
  rewrite (nth_error_nth' (bytes_of t (val d q pic f s x y)) None) in E'.
  - apply nth_error_nth with (d := None) in E'. exact E'.
  - pose proof (bytes_length t (val d q pic f s x y)). lia.
Qed.
Lemma same_size : forall t fs, Forall (fun f => snd f = t) fs -> element_size fs = Z.of_nat (List.length fs) * type_size t.
Proof.
  intros t fs F. induction F as [|f l E F IH]; cbn [element_size fold_right]; [reflexivity|].
  unfold element_size in IH. rewrite IH, E. cbn [List.length]. lia.
Qed.

(* the driver's image, once it is right everywhere, and the file *)
Lemma close_spec : forall o d q fs pic t sm i, window o -> fs <> [] -> Forall (fun f => snd f = t) fs ->
  fits_image o fs i -> all_right o d q fs pic (fun _ _ => True) i ->
  i_count i = Z.of_nat (List.length fs) -> sample_type sm = t ->
  (i_kind i = KFile /\ i_format i = t \/ i_kind i = KZFile /\ t = Float32 /\ List.length fs = 1%nat) ->
  exists f, driver_close i = Some f /\
    f_w f = o_cx1 o - o_cx0 o /\ f_h f = o_cy1 o - o_cy0 o /\ f_count f = Z.of_nat (List.length fs) /\ f_sample f = sm /\
    Z.of_nat (List.length (f_bytes f)) = f_w f * f_h f * f_count f * sample_size sm /\
    forall x y, o_cx0 o <= x < o_cx1 o -> o_cy0 o <= y < o_cy1 o -> exists s, (0 <= s)%Q /\ (s < 1)%Q /\
      forall k g, nth_error fs k = Some g ->
        sample_bytes f (x - o_cx0 o) (y - o_cy0 o) (Z.of_nat k) = bytes_of t (val d q pic g s x y).
Proof.
  intros o d q fs pic t sm i WIN FS FT FI AR CNT ST KD.
  destruct FI as (FW & FH & FE & FL & FOX & FOY & FOW & FOH & FD).
  assert (ESZ : esize fs = Z.of_nat (List.length fs) * type_size t) by (apply same_size; auto).
  assert (SS : sample_size sm = type_size t) by (destruct sm; subst t; reflexivity).
  destruct WIN as (W1 & W2 & W3 & W4 & W5 & W6).
  pose proof (type_size_pos t) as TP.
  assert (LP : 1 <= Z.of_nat (List.length fs)) by (destruct fs; [congruence | cbn [List.length]; lia]).
  set (W := o_cx1 o - o_cx0 o) in *. set (H := o_cy1 o - o_cy0 o) in *. set (c := Z.of_nat (List.length fs)) in *.
  assert (BYTES : exists f, driver_close i = Some f /\ f_w f = W /\ f_h f = H /\ f_count f = c /\ f_sample f = sm /\
                            f_bytes f = map (m_cell (i_data i)) (zrange 0 (W * H * (c * type_size t)))).
  { unfold driver_close. destruct KD as [[KD FM]|[KD [TF LF]]]; rewrite KD.
    - rewrite FM, FW, FH, FL, CNT, ESZ.
      assert (SM : match t with Unsigned8 => UInt8 | Unsigned16 => UInt16 | _ => IeeeFloat end = sm) by (destruct sm; subst t; reflexivity).
      rewrite SM, SS. replace (W * c * type_size t) with (c * type_size t * W) by ring.
      rewrite foldM_rows.
      + cbn [bind]. eexists. split; [reflexivity|]. cbn [f_w f_h f_count f_sample f_bytes]. repeat split.
        f_equal. f_equal. ring.
      + apply Z.mul_nonneg_nonneg; [|lia]. apply Z.mul_nonneg_nonneg; lia.
      + lia.
      + rewrite FD, ESZ. apply Z.eq_le_incl. ring.
    - assert (C1 : c = 1) by lia. subst t. cbn [type_size] in *.
      assert (SMI : sm = IeeeFloat) by (destruct sm; cbn in TF; congruence).
      unfold read_bytes. rewrite FW, FH.
      assert (N : 0 <= 4 * (W * H)) by (apply Z.mul_nonneg_nonneg; [lia|]; apply Z.mul_nonneg_nonneg; lia).
      rewrite inside_true; [|lia | rewrite FD, ESZ, TF, C1; cbn [type_size]; lia].
      replace (0 <=? 4 * (W * H)) with true by (symmetry; apply Z.leb_le; lia). cbn [andb bind].
      eexists. split; [reflexivity|]. cbn [f_w f_h f_count f_sample f_bytes]. rewrite C1, SMI. repeat split.
      f_equal. f_equal. cbn [sample_type type_size]. ring. }
  destruct BYTES as (f & E & G1 & G2 & G3 & G4 & G5). exists f. split; [exact E|].
  split; [auto|]. split; [auto|]. split; [auto|]. split; [auto|]. split.
  - rewrite G5, map_length, zrange_length, G1, G2, G3, SS. rewrite Z.sub_0_r, Z2Nat.id; [ring|].
    apply Z.mul_nonneg_nonneg; apply Z.mul_nonneg_nonneg; lia.
  - intros x y X Y. destruct (AR x y X Y I) as (s & S0 & S1 & K). exists s. split; [auto|]. split; [auto|].
    intros k g N.
    assert (KC : 0 <= Z.of_nat k < c).
    { assert ((k < List.length fs)%nat) by (apply nth_error_Some; congruence). lia. }
    unfold sample_bytes. rewrite G1, G3, G4, G5, SS.
    set (X' := x - o_cx0 o) in *. set (Y' := y - o_cy0 o) in *.
    assert (XB : 0 <= X' < W) by (unfold X', W; lia). assert (YB : 0 <= Y' < H) by (unfold Y', H; lia).
    assert (PIX : 0 <= Y' * W + X' /\ Y' * W + X' + 1 <= W * H) by nia.
    assert (OFF : 0 <= ((Y' * W + X') * c + Z.of_nat k) * type_size t).
    { apply Z.mul_nonneg_nonneg; [|lia]. apply Z.add_nonneg_nonneg; [|lia]. apply Z.mul_nonneg_nonneg; lia. }
    assert (END : ((Y' * W + X') * c + Z.of_nat k) * type_size t + type_size t <= W * H * (c * type_size t)).
    { assert ((Y' * W + X') * c + Z.of_nat k + 1 <= (Y' * W + X' + 1) * c) by lia.
      assert ((Y' * W + X' + 1) * c <= W * H * c) by (apply Z.mul_le_mono_nonneg_r; lia).
      assert (((Y' * W + X') * c + Z.of_nat k + 1) * type_size t <= (W * H * c) * type_size t) by (apply Z.mul_le_mono_nonneg_r; lia).
      replace (W * H * (c * type_size t)) with ((W * H * c) * type_size t) by ring.
      replace (((Y' * W + X') * c + Z.of_nat k) * type_size t + type_size t) with (((Y' * W + X') * c + Z.of_nat k + 1) * type_size t) by ring.
      lia. }
    rewrite slice by lia. apply list_ext.
    + rewrite map_length, zrange_length. pose proof (bytes_length t (val d q pic g s x y)). lia.
    + intros j J. rewrite map_length, zrange_length in J.
      assert (JB : 0 <= Z.of_nat j < type_size t) by lia.
      rewrite nth_error_map. rewrite <- (Nat2Z.id j) at 1. rewrite zrange_nth_error by lia. cbn [option_map].
      rewrite (nth_error_nth' _ None) by (pose proof (bytes_length t (val d q pic g s x y)); lia). f_equal.
      rewrite <- (Nat2Z.id j) at 2. rewrite <- (pbytes_nth d q pic t s x y fs k g (Z.of_nat j) FT N JB).
      rewrite <- K.
      * unfold icell. f_equal. rewrite ESZ. fold W. fold X' Y'. ring.
      * rewrite ESZ. fold c. nia.
Qed.

(* ---- all of it ---- *)
Definition sample_for (t : ptype) : sample := match t with Unsigned8 => UInt8 | Unsigned16 => UInt16 | _ => IeeeFloat end.
Lemma chosen_format : forall q, unsigned q -> 
  let t := select_format (q_one q) (q_min q) (q_max q) in
  (t = Float32 /\ (q_one q == 0)%Q) \/
  ((t = Unsigned8 \/ t = Unsigned16) /\ ~ (q_one q == 0)%Q /\
   exists lo hi, (q_min q == inject_Z lo)%Q /\ (q_max q == inject_Z hi)%Q /\ 0 <= lo <= hi /\ hi <= type_max t).
Proof.
  intros q U. unfold select_format. destruct (Qeq_bool (q_one q) 0) eqn:E.
  - apply Qeq_bool_iff in E. left. auto.
  - right. assert (NE : ~ (q_one q == 0)%Q) by (intros C; apply Qeq_bool_iff in C; congruence).
    destruct U as [U|(lo & hi & L & H & B & C)]; [contradiction|].
    assert (M : Qle_bool 0 (q_min q) = true). { apply qle_iff. rewrite L. change 0%Q with (inject_Z 0). rewrite <- Zle_Qle. lia. }
    rewrite M. destruct (Qle_bool (q_max q) (inject_Z (type_max Unsigned8))) eqn:M1.
    + apply qle_iff in M1. rewrite H in M1. rewrite <- Zle_Qle in M1. split; [auto|]. split; [auto|]. exists lo, hi. auto.
    + assert (M2 : Qle_bool (q_max q) (inject_Z (type_max Unsigned16)) = true).
      { apply qle_iff. rewrite H. rewrite <- Zle_Qle. exact C. }
      rewrite M2. split; [auto|]. split; [auto|]. exists lo, hi. auto.
Qed.

(* each value is defined, and is what is asked for *)
Lemma values_spec : forall o d q pic t fs, unsigned q -> moderate o q (map (fun f => buffer_map d (fst f)) fs) pic -> t = select_format (q_one q) (q_min q) (q_max q) ->
  Forall (fun f => snd f = t) fs ->
  forall f s x y, In f fs -> (0 <= s)%Q -> (s < 1)%Q -> 0 <= x < o_xres o -> 0 <= y < o_yres o ->
  exists v, cval d q pic f s x y = Some v /\
    stored_as q s (pic x y (fst (buffer_map d (fst f))) (snd (buffer_map d (fst f)))) v.
Proof.
  intros o d q pic t fs U MOD ET FT f s x y I S0 S1 X Y. rewrite Forall_forall in FT. pose proof (FT f I) as EF.
  unfold cval. rewrite EF. pose proof (chosen_format q U) as CF. cbv zeta in CF. rewrite <- ET in CF.
  destruct CF as [[T ONE]|(T & ONE & lo & hi & L & H & B & C)].
  - rewrite T. destruct (value_plain q s (pic x y (fst (buffer_map d (fst f))) (snd (buffer_map d (fst f)))) ONE) as [E ST].
    eexists. split; [exact E | exact ST].
  - destruct MOD as [MOD|MOD]; [contradiction|].
    destruct (MOD x y (buffer_map d (fst f)) s X Y (in_map (fun f => buffer_map d (fst f)) fs f I) S0 S1) as [M1 M2].
    apply (value_spec q s _ t lo hi); auto; try lia.
    + destruct T; subst t; congruence.
    + destruct T as [-> | ->]; cbn; lia.
Qed.

Lemma file_spec : forall n o k scan d color depth var pic random chs,
  let q := load_quant d color depth var in
  let t := select_format (q_one q) (q_min q) (q_max q) in
  window o -> unsigned q -> moderate o q chs pic -> (forall n, (0 <= random n)%Q /\ (random n < 1)%Q) ->
  rarea (bregion o) <= Z.of_nat n ->
  (scan = true -> o_cx0 o = 0 /\ (o_cx1 o = o_xres o \/ o_cx1 o mod o_bx o = 0) /\
                  (o_by o <= o_cy1 o - o_cy0 o \/ o_cy1 o - o_cy0 o = o_yres o)) ->
  chs <> [] ->
  (forall t, match k with
             | KFile => exists fs, reorder t (firstn (Nat.min (List.length (formats d t)) 4) [CR; CG; CB; CA]) (formats d t) = Some fs /\
                          map (fun f => buffer_map d (fst f)) fs = chs /\ Forall (fun f => snd f = t) fs
             | KZFile => map (fun f => buffer_map d (fst f)) (formats d t) = chs /\ Forall (fun f => snd f = t) (formats d t) /\
                         List.length chs = 1%nat
             end) ->
  (k = KZFile -> (q_one q == 0)%Q) ->
  List.length (formats d t) = List.length chs ->
  exists f, make_file n o k scan d color depth var pic random = Some f /\ holds o chs q pic f.
Proof.
  intros n o k scan d color depth var pic random chs q t WIN U MOD RAND N SC NE FMT ZQ LEN.
  pose proof (chosen_format q U) as CF. cbv zeta in CF. fold t in CF.
  assert (FT0 : Forall (fun f => snd f = t) (formats d t)).
  { unfold formats. apply Forall_forall. intros f I. apply in_map_iff in I. destruct I as (c & <- & _). reflexivity. }
  assert (WT : widest (formats d t) = t).
  { assert (G : forall (l : list (cname * ptype)) w, Forall (fun f => snd f = t) l -> (w = t \/ type_no t < type_no w) ->
              fold_left (fun w f => if type_no (snd f) <? type_no w then snd f else w) l w = (match l with [] => w | _ => t end)).
    { induction l as [|f l IH]; intros w F D; cbn [fold_left]; auto. inversion F as [|? ? F1 F2]; subst.
      rewrite F1. destruct D as [-> | D].
      - rewrite Z.ltb_irrefl. rewrite IH; auto. destruct l; auto.
      - apply Z.ltb_lt in D. rewrite D. rewrite IH; auto. destruct l; auto. }
    unfold widest. rewrite G; auto.
    - destruct (formats d t) eqn:EF; [cbn in LEN; destruct chs; [congruence | discriminate]|].
      destruct CF as [[T _]|[[T|T] _]]; rewrite T; reflexivity.
    - destruct CF as [[T _]|[[T|T] _]]; rewrite T; right; cbn; lia. }
  assert (FSE : exists fs, match k with
            | KFile => reorder t (firstn (Nat.min (List.length (formats d t)) 4) [CR; CG; CB; CA]) (formats d t)
            | KZFile => Some (formats d t)
            end = Some fs /\ map (fun f => buffer_map d (fst f)) fs = chs /\ Forall (fun f => snd f = t) fs).
  { specialize (FMT t). destruct k.
    - destruct FMT as (fs & A & B & C). exists fs. auto.
    - exists (formats d t). destruct FMT as (A & B & _). auto. }
  destruct FSE as (fs & E1 & MAP & FT).
  assert (FL : List.length fs = List.length chs) by (rewrite <- MAP, map_length; auto).
  assert (MOD' : moderate o q (map (fun f => buffer_map d (fst f)) fs) pic) by (rewrite MAP; exact MOD).
  assert (FS : fs <> []) by (intros ->; destruct chs; [congruence | discriminate]).
  assert (CL : Z.of_nat (List.length (formats d t)) = Z.of_nat (List.length fs)) by lia.
  assert (ESZ : esize fs = Z.of_nat (List.length fs) * type_size t) by (apply same_size; auto).
  pose proof (type_size_pos t) as TP.
  destruct WIN as (W1 & W2 & W3 & W4 & W5 & W6) eqn:EW. clear EW.
  unfold make_file. fold q. fold t. unfold driver_open. rewrite WT, E1. cbn [bind].
  unfold new_block. rewrite CL. unfold dwidth, dheight.
  set (c := Z.of_nat (List.length fs)) in *.
  assert (POS : 0 <= (o_cx1 o - o_cx0 o) * (o_cy1 o - o_cy0 o) * c * type_size t).
  { repeat apply Z.mul_nonneg_nonneg; lia. }
  destruct (Z.ltb_spec ((o_cx1 o - o_cx0 o) * (o_cy1 o - o_cy0 o) * c * type_size t) 0) as [LT|_]; [lia|]. cbn [bind].
  destruct (Z.eqb_spec (o_cx1 o - o_cx0 o) 0); [lia|]. destruct (Z.eqb_spec (o_cy1 o - o_cy0 o) 0); [lia|]. cbn [orb].
  cbv beta iota. cbn [bind].
  match goal with |- context [DState None None 0%nat ?x] => set (i0 := x) end.
  assert (FI : fits_image o fs i0).
  { unfold fits_image, i0. cbn [i_w i_h i_entry i_line i_ox i_oy i_ow i_oh i_data m_size]. rewrite ESZ. fold c.
    repeat split; ring. }
  assert (VAL : forall f s x y, In f fs -> (0 <= s)%Q -> (s < 1)%Q -> 0 <= x < o_xres o -> 0 <= y < o_yres o ->
    exists v, cval d q pic f s x y = Some v).
  { intros f s x y I S0 S1 X Y. destruct (values_spec o d q pic t fs U MOD' eq_refl FT f s x y I S0 S1 X Y) as (v & E & _). eauto. }
  assert (WN : window o) by (repeat split; lia).
  assert (LOOP : exists s', display_loop o d q fs scan pic random n (first_bucket o) (DState None None 0%nat i0) = Some s' /\ done o d q fs pic i0 s').
  { destruct scan.
    - destruct (SC eq_refl) as (A & B & C). apply all_lines; auto.
    - apply all_buckets; auto. }
  destruct LOOP as (s' & E2 & FI' & (K1 & K2 & K3) & AR). unfold first_bucket in E2. rewrite E2. cbn [bind].
  destruct (close_spec o d q fs pic t (sample_for t) (ds_image s') WN FS FT FI' AR) as (f & E3 & G1 & G2 & G3 & G4 & G5 & G6).
  { rewrite K2. reflexivity. }
  { destruct CF as [[T _]|[[T|T] _]]; rewrite T; reflexivity. }
  { rewrite K1, K3. unfold i0. cbn [i_kind i_format]. destruct k; [left; auto|]. right. split; [auto|]. split.
    - destruct CF as [[T _]|[_ [T _]]]; [auto|]. exfalso. apply T. auto.
    - specialize (FMT t). lia. }
  exists f. split; [exact E3|]. unfold holds. rewrite G4. split; [auto|]. split; [auto|]. split; [lia|]. split; [auto|].
  intros x y X Y. destruct (G6 x y X Y) as (s & S0 & S1 & K). exists s. split; [auto|]. split; [auto|].
  intros j ch NJ. rewrite <- MAP in NJ. rewrite nth_error_map in NJ. destruct (nth_error fs j) as [g|] eqn:NG; [|discriminate].
  cbn [option_map] in NJ. injection NJ as <-.
  destruct (values_spec o d q pic t fs U MOD' eq_refl FT g s x y) as (v & EV & SV); auto; try lia.
  { eapply nth_error_In; eauto. }
  exists v. split; [exact SV|]. rewrite (K j g NG).
  assert (ST : sample_type (sample_for t) = t) by (destruct CF as [[T _]|[[T|T] _]]; rewrite T; reflexivity).
  rewrite ST. unfold val. rewrite EV. reflexivity.
Qed.

Lemma buckets_few : forall o, window o -> rarea (bregion o) <= o_xres o * o_yres o.
Proof.
  intros o WIN. pose proof (reg_bounds o WIN) as (A1 & A2 & A3 & A4 & A5 & A6).
  destruct WIN as (B1 & B2 & B3 & B4 & B5 & B6). unfold rarea, rwidth, rheight. apply Z.mul_le_mono_nonneg; nia.
Qed.

(* the quantization that is used is the one asked for, or neither changes anything *)
Lemma load_asked : forall d color depth var q,
  asked (d_quantize d) (d_dither d) (if standard d then Some (if d_z d then depth else color) else var) q ->
  load_quant d color depth var = q \/ ((q_one q == 0)%Q /\ (q_one (load_quant d color depth var) == 0)%Q).
Proof.
  intros d color depth var [z o mn mx di] [A B]. unfold load_quant. cbn [q_zero q_one q_min q_max q_dither] in *.
  destruct (if standard d then Some (if d_z d then depth else color) else var) as [g|].
  - left. destruct (d_quantize d) as [[[[z' o'] mn'] mx']|]; destruct (d_dither d); destruct A as (-> & -> & -> & ->); subst; reflexivity.
  - destruct (d_quantize d) as [[[[z' o'] mn'] mx']|].
    + left. destruct (d_dither d); destruct A as (-> & -> & -> & ->); subst; reflexivity.
    + right. cbn [q_one]. rewrite A. split; reflexivity.
Qed.
Lemma holds_plain : forall o chs q q' pic f, (q_one q == 0)%Q -> (q_one q' == 0)%Q -> holds o chs q pic f -> holds o chs q' pic f.
Proof.
  intros o chs q q' pic f A B (H1 & H2 & H3 & H4 & H5). unfold holds. repeat split; auto.
  intros x y X Y. destruct (H5 x y X Y) as (s & S0 & S1 & K). exists s. split; [auto|]. split; [auto|].
  intros k c N. destruct (K k c N) as (v & SV & E). exists v. split; [|auto].
  unfold stored_as in *. apply Qeq_bool_iff in A. apply Qeq_bool_iff in B. rewrite A in SV. rewrite B. auto.
Qed.

Lemma begins_sound : forall p s r, begins p s = Some r -> s = String.append p r.
Proof.
  induction p as [|a p IH]; intros s r E; cbn [begins] in E.
  - injection E as ->. reflexivity.
  - destruct s as [|b s]; [discriminate|]. destruct (Ascii.eqb a b) eqn:EQ; [|discriminate].
    apply Ascii.eqb_eq in EQ. subst b. cbn. f_equal. apply IH; auto.
Qed.

(* the modes *)
Lemma shows_request : forall vars color depth var mode chs general qz di,
  shows vars color depth var mode chs general ->
  exists d, mode_request mode vars qz di = Some d /\ d_quantize d = qz /\ d_dither d = di /\
    general = (if standard d then Some (if d_z d then depth else color) else var) /\
    chs <> [] /\
    forall t, List.length (formats d t) = List.length chs /\
      exists fs, reorder t (firstn (Nat.min (List.length (formats d t)) 4) [CR; CG; CB; CA]) (formats d t) = Some fs /\
        map (fun f => buffer_map d (fst f)) fs = chs /\ Forall (fun f => snd f = t) fs.
Proof.
  intros vars color depth var mode chs general qz di S. destruct S as [| | |name V NM].
  - eexists. split; [reflexivity|]. repeat split; try discriminate. eexists. split; [reflexivity|]. split; [reflexivity|]. repeat constructor.
  - eexists. split; [reflexivity|]. repeat split; try discriminate. eexists. split; [reflexivity|]. split; [reflexivity|]. repeat constructor.
  - eexists. split; [reflexivity|]. repeat split; try discriminate. eexists. split; [reflexivity|]. split; [reflexivity|]. repeat constructor.
  - unfold mode_request.
    destruct (begins "rgb" name) as [r|] eqn:E1. { apply begins_sound in E1. destruct (NM r) as (C & _). contradiction. }
    destruct (begins "a" name) as [r|] eqn:E2. { apply begins_sound in E2. destruct (NM r) as (_ & C & _). contradiction. }
    destruct (begins "z" name) as [r|] eqn:E3. { apply begins_sound in E3. destruct (NM r) as (_ & _ & C). contradiction. }
    cbn [orb].
    destruct V as [V|[V|[V|V]]]; rewrite V; (eexists; split; [reflexivity|]; repeat split; try discriminate;
      eexists; split; [reflexivity|]; split; [reflexivity|]; repeat constructor).
Qed.

Lemma mode_file : forall n o scan vars color depth var mode chs general qz di q pic random,
  window o -> shows vars color depth var mode chs general -> asked qz di general q -> unsigned q -> moderate o q chs pic ->
  (forall n, (0 <= random n)%Q /\ (random n < 1)%Q) -> o_xres o * o_yres o <= Z.of_nat n ->
  (scan = true -> o_cx0 o = 0 /\ (o_cx1 o = o_xres o \/ o_cx1 o mod o_bx o = 0) /\
                  (o_by o <= o_cy1 o - o_cy0 o \/ o_cy1 o - o_cy0 o = o_yres o)) ->
  exists d f, mode_request mode vars qz di = Some d /\
    make_file n o KFile scan d color depth var pic random = Some f /\ holds o chs q pic f.
Proof.
  intros n o scan vars color depth var mode chs general qz di q pic random WIN SH AS U MOD RAND N SC.
  destruct (shows_request vars color depth var mode chs general qz di SH) as (d & E & DQ & DD & GE & NE & FM).
  exists d. pose proof (buckets_few o WIN) as BF. subst qz di general.
  destruct (load_asked d color depth var q AS) as [LQ|[L1 L2]].
  - destruct (file_spec n o KFile scan d color depth var pic random chs) as (f & EF & HO); auto.
    + rewrite LQ. auto.
    + rewrite LQ. auto.
    + lia.
    + intros t. apply FM.
    + intros; discriminate.
    + apply FM.
    + exists f. rewrite LQ in HO. auto.
  - destruct (file_spec n o KFile scan d color depth var pic random chs) as (f & EF & HO); auto.
    + left. auto.
    + left. auto.
    + lia.
    + intros t. apply FM.
    + apply FM.
    + exists f. split; [auto|]. split; [auto|]. apply holds_plain with (load_quant d color depth var); auto.
Qed.

Lemma z_file : forall n o scan vars color depth var di q pic random,
  window o -> asked None di (Some depth) q -> (z_one depth == 0)%Q ->
  (forall n, (0 <= random n)%Q /\ (random n < 1)%Q) -> o_xres o * o_yres o <= Z.of_nat n ->
  (scan = true -> o_cx0 o = 0 /\ (o_cx1 o = o_xres o \/ o_cx1 o mod o_bx o = 0) /\
                  (o_by o <= o_cy1 o - o_cy0 o \/ o_cy1 o - o_cy0 o = o_yres o)) ->
  exists d f, mode_request "z" vars None di = Some d /\
    make_file n o KZFile scan d color depth var pic random = Some f /\ holds o [(SDepth, 0)] q pic f.
Proof.
  intros n o scan vars color depth var di q pic random WIN AS ONE RAND N SC.
  pose proof (buckets_few o WIN) as BF.
  exists (Request false false true 1 None di).
  assert (Q0 : (q_one q == 0)%Q) by (destruct AS as [(_ & A & _) _]; rewrite A; exact ONE).
  destruct (file_spec n o KZFile scan (Request false false true 1 None di) color depth var pic random [(SDepth, 0)]) as (f & EF & HO); auto.
  - left. exact ONE.
  - left. exact ONE.
  - lia.
  - intros C. discriminate C.
  - intros t. split; [reflexivity|]. split; [repeat constructor | reflexivity].
  - exists f. split; [reflexivity|]. split; [exact EF|].
    apply holds_plain with (load_quant (Request false false true 1 None di) color depth var); auto.
Qed.

(* ---- quantization alone ---- *)
Lemma quantised_fits : forall q s v lo hi, ~ (q_one q == 0)%Q -> (q_min q == inject_Z lo)%Q -> (q_max q == inject_Z hi)%Q ->
  lo <= hi -> (0 <= lo /\ hi <= 4294967295) \/ (-2147483648 <= lo < 0 /\ hi <= 2147483647) ->
  (- inject_Z (2 ^ 62) <= scaled q s v)%Q -> (scaled q s v <= inject_Z (2 ^ 62))%Q ->
  exists w, (do x <- quantise q s v; convert (select_format (q_one q) (q_min q) (q_max q)) x) = Some w /\ stored_as q s v w.
Proof.
  intros q s v lo hi ONE MN MX LE B L H. 
  assert (T : let t := select_format (q_one q) (q_min q) (q_max q) in t <> Float32 /\ type_min t <= lo /\ hi <= type_max t).
  { unfold select_format. destruct (Qeq_bool (q_one q) 0) eqn:E; [apply Qeq_bool_iff in E; contradiction|].
    assert (ZL : forall z, Qle_bool (inject_Z z) (q_min q) = true <-> z <= lo) by (intros z; rewrite qle_iff, MN, <- Zle_Qle; tauto).
    assert (ZH : forall z, Qle_bool (q_max q) (inject_Z z) = true <-> hi <= z) by (intros z; rewrite qle_iff, MX, <- Zle_Qle; tauto).
    change 0%Q with (inject_Z 0).
    destruct (Qle_bool (inject_Z 0) (q_min q)) eqn:E0.
    - apply ZL in E0. destruct (Qle_bool (q_max q) (inject_Z (type_max Unsigned8))) eqn:E1.
      + apply ZH in E1. split; [congruence|]. cbn in *. lia.
      + destruct (Qle_bool (q_max q) (inject_Z (type_max Unsigned16))) eqn:E2.
        * apply ZH in E2. split; [congruence|]. cbn in *. lia.
        * split; [congruence|]. cbn in *. lia.
    - assert (NL : lo < 0) by (destruct (Z.ltb_spec lo 0); auto; exfalso; assert (X : 0 <= lo) by lia; apply ZL in X; congruence).
      destruct (Qle_bool (inject_Z (type_min Signed8)) (q_min q) && Qle_bool (q_max q) (inject_Z (type_max Signed8))) eqn:E1.
      + apply andb_true_iff in E1. destruct E1 as [E1 E2]. apply ZL in E1. apply ZH in E2. split; [congruence|]. lia.
      + destruct (Qle_bool (inject_Z (type_min Signed16)) (q_min q) && Qle_bool (q_max q) (inject_Z (type_max Signed16))) eqn:E2.
        * apply andb_true_iff in E2. destruct E2 as [E2 E3]. apply ZL in E2. apply ZH in E3. split; [congruence|]. lia.
        * split; [congruence|]. cbn. lia. }
  destruct T as (T1 & T2 & T3). apply (value_spec q s v _ lo hi); auto.
Qed.

Lemma nearest_mono : forall x y m n, (x <= y)%Q -> nearest m x -> nearest n y -> m <= n.
Proof.
  intros x y m n LE [A B] [C D]. assert (m < n + 1); [|lia]. rewrite Zlt_Qlt, inject_Z_plus. change (inject_Z 1) with 1%Q. lra.
Qed.
Lemma stored_mono : forall q s v v' n n', ~ (q_one q == 0)%Q -> (q_zero q <= q_one q)%Q -> (v <= v')%Q ->
  stored_as q s v (VI n) -> stored_as q s v' (VI n') -> n <= n'.
Proof.
  intros q s v v' n n' NE ZO LE A B. unfold stored_as in *.
  destruct (Qeq_bool (q_one q) 0) eqn:E; [apply Qeq_bool_iff in E; contradiction|].
  destruct A as (lo & hi & m & L & H & N & A). destruct B as (lo' & hi' & m' & L' & H' & N' & B).
  injection A as ->. injection B as ->.
  assert (EL : lo = lo') by (assert (Q : (inject_Z lo == inject_Z lo')%Q) by (rewrite <- L, <- L'; reflexivity); apply inject_Z_injective; auto).
  assert (EH : hi = hi') by (assert (Q : (inject_Z hi == inject_Z hi')%Q) by (rewrite <- H, <- H'; reflexivity); apply inject_Z_injective; auto).
  subst lo' hi'.
  assert (M : m <= m'); [|lia]. apply (nearest_mono (scaled q s v) (scaled q s v')); auto.
  unfold scaled. assert (P : (v * (q_one q - q_zero q) <= v' * (q_one q - q_zero q))%Q) by (apply Qmult_le_compat_r; lra). lra.
Qed.

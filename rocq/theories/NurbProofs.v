(** Proofs about trim curves. *)

From Coq Require Import List Arith Bool QArith ZArith Lia Lqa Setoid.
From Verif Require Import TrimModel NurbModel NurbSpec.
Import ListNotations.
Local Open Scope nat_scope.

Lemma less_iff : forall a b, less a b = true <-> (a < b)%Q.
Proof.
  intros. unfold less. rewrite negb_true_iff. split; intros H.
  - apply Qnot_le_lt. intros L. apply Qle_bool_iff in L. congruence.
  - destruct (Qle_bool b a) eqn:E; auto. apply Qle_bool_iff in E. lra.
Qed.

Lemma less_false : forall a b, less a b = false <-> (b <= a)%Q.
Proof.
  intros. destruct (less a b) eqn:E.
  - apply less_iff in E. split; [discriminate|lra].
  - split; auto. intros _. destruct (Qlt_le_dec a b) as [H|H]; auto.
    apply less_iff in H. congruence.
Qed.

Lemma le_false : forall a b, Qle_bool a b = false <-> (b < a)%Q.
Proof. intros. rewrite <- less_iff. unfold less. now rewrite negb_true_iff. Qed.

Lemma knot_get : forall c i, i < List.length (knots c) -> nth_error (knots c) i = Some (kn c i).
Proof. intros. unfold kn. apply nth_error_nth'. auto. Qed.

Lemma vert_get : forall c i, i < cverts c -> nth_error (verts c) i = Some (pt c i).
Proof. intros. unfold pt. apply nth_error_nth'. auto. Qed.

Section Curve.
Variable c : curve.
Hypothesis WA : wanted c.

Local Notation n := (cverts c).
Local Notation len := (List.length (knots c)).

Lemma len_eq : len = order c + n.
Proof. apply WA. Qed.

Lemma order_n : 1 <= order c <= n.
Proof. apply WA. Qed.

Lemma mono : forall j i, i <= j -> j < len -> (kn c i <= kn c j)%Q.
Proof.
  induction j; intros i A B.
  - replace i with 0 by lia. lra.
  - destruct (Nat.eq_dec i (Datatypes.S j)); [subst; lra|].
    destruct WA as (_ & _ & M & _). specialize (M j).
    replace (j + 1) with (Datatypes.S j) in M by lia.
    specialize (IHj i ltac:(lia) ltac:(lia)). specialize (M ltac:(lia)). lra.
Qed.

Lemma search_ok : forall fuel low high u,
  low < high -> high <= n + 1 -> high - low < fuel -> low < n ->
  (kn c low <= u)%Q -> (u < kn c n)%Q -> (high <= n -> (u < kn c high)%Q) ->
  exists k, search (knots c) u low high fuel = Some k /\ k < n /\
    (kn c k <= u)%Q /\ (u < kn c (k + 1))%Q.
Proof.
  pose proof len_eq. pose proof order_n.
  induction fuel; intros low high u LH HN F LN A B C; [lia|].
  cbn [search].
  assert (M1 : low <= (low + high) / 2) by (apply Nat.div_le_lower_bound; lia).
  assert (M2 : (low + high) / 2 < high) by (apply Nat.div_lt_upper_bound; lia).
  assert (M3 : high > low + 1 -> low < (low + high) / 2).
  { intros. apply Nat.lt_le_trans with (low + 1); [lia|]. apply Nat.div_le_lower_bound; lia. }
  set (mid := (low + high) / 2) in *. clearbody mid.
  rewrite knot_get by lia. cbn [bind].
  destruct (less u (kn c mid)) eqn:E.
  - apply less_iff in E.
    assert (low <> mid) by (intros ->; lra).
    apply IHfuel; auto; lia || (intros; lra).
  - apply less_false in E.
    assert (mid < n).
    { destruct (Nat.lt_ge_cases mid n); auto. replace mid with n in E by lia. lra. }
    rewrite knot_get by lia. cbn [bind].
    destruct (Qle_bool (kn c (mid + 1)) u) eqn:E2.
    + apply Qle_bool_iff in E2.
      assert (high <> mid + 1).
      { intros ->. specialize (C ltac:(lia)). lra. }
      apply IHfuel; auto; lia.
    + apply le_false in E2. exists mid. auto.
Qed.

Hypothesis OE : open_ends c.

(** The span of a parameter. *)
Definition spans (u : Q) (k : nat) : Prop :=
  order c - 1 <= k /\ k < n /\ (kn c k < kn c (k + 1))%Q /\ (kn c k <= u)%Q /\ (u <= kn c (k + 1))%Q /\
  forall i, i + 1 < len -> in_span c u i = Nat.eqb i k.

Lemma in_span_below : forall u k, (u < top c)%Q -> k < n -> (kn c k <= u)%Q -> (u < kn c (k + 1))%Q ->
  forall i, i + 1 < len -> in_span c u i = Nat.eqb i k.
Proof.
  pose proof len_eq. pose proof order_n.
  intros u k T KN A B i I. unfold in_span. apply less_iff in T. rewrite T.
  destruct (Nat.eqb_spec i k) as [->|D].
  - apply andb_true_iff. split; [apply Qle_bool_iff; auto|apply less_iff; auto].
  - apply andb_false_iff. destruct (Nat.lt_ge_cases i k).
    + right. apply less_false. pose proof (mono k (i + 1) ltac:(lia) ltac:(lia)). lra.
    + left. apply le_false. pose proof (mono i (k + 1) ltac:(lia) ltac:(lia)). lra.
Qed.

Lemma find_span_ok : forall u, (bottom c <= u)%Q -> (u <= top c)%Q ->
  exists k, find_span c u = Some k /\ spans u k.
Proof.
  pose proof len_eq as LE. pose proof order_n as ON.
  intros u A B. unfold find_span.
  destruct (order c) as [|p] eqn:EO; [lia|]. destruct n as [|last] eqn:EN; [lia|].
  rewrite knot_get by lia. cbn [bind].
  destruct OE as [O1 O2]. unfold bottom, top in *. rewrite EO, EN in *.
  replace (Datatypes.S p - 1) with p in * by lia. replace (Datatypes.S last - 1) with last in * by lia.
  destruct (Qle_bool (kn c (Datatypes.S last)) u) eqn:E1.
  - apply Qle_bool_iff in E1. exists last. split; auto. unfold spans. rewrite EO, EN.
    replace (last + 1) with (Datatypes.S last) by lia.
    repeat split; try lia; try lra.
    intros i I. unfold in_span, top. rewrite EN.
    replace (less u (kn c (Datatypes.S last))) with false by (symmetry; apply less_false; auto).
    destruct (Nat.eqb_spec i last) as [->|D].
    + apply andb_true_iff. replace (last + 1) with (Datatypes.S last) by lia.
      split; [apply less_iff; lra|apply Qle_bool_iff; lra].
    + apply andb_false_iff. destruct (Nat.lt_ge_cases i last).
      * right. apply le_false. pose proof (mono last (i + 1) ltac:(lia) ltac:(lia)). lra.
      * left. apply less_false. pose proof (mono i (Datatypes.S last) ltac:(lia) ltac:(lia)). lra.
  - apply le_false in E1. rewrite knot_get by lia. cbn [bind].
    destruct (Qle_bool u (kn c p)) eqn:E2.
    + apply Qle_bool_iff in E2. exists p. split; auto. unfold spans. rewrite EO, EN.
      replace (p + 1) with (Datatypes.S p) by lia.
      assert (p < Datatypes.S last) by lia.
      repeat split; try lia; try lra.
      apply in_span_below; unfold top; rewrite ?EN; try lia; try lra.
      replace (p + 1) with (Datatypes.S p) by lia. lra.
    + apply le_false in E2.
      destruct (search_ok (Datatypes.S last + 2) 0 (Datatypes.S last + 1) u) as (k & Ek & K1 & K2 & K3); rewrite ?EN; try lia; try lra.
      { pose proof (mono p 0 ltac:(lia) ltac:(lia)). lra. }
      exists k. split; auto. rewrite EN in K1. unfold spans. rewrite EO, EN.
      repeat split; try lia; try lra.
      * destruct (Nat.lt_ge_cases k p); [|lia].
        pose proof (mono p (k + 1) ltac:(lia) ltac:(lia)). lra.
      * apply in_span_below; unfold top; rewrite ?EN; try lia; try lra.
Qed.

Section Span.
Variables (u : Q) (k : nat).
Hypothesis SP : spans u k.

Lemma N_zero : forall d i, i + d + 1 < len -> k < i \/ i + d < k -> (N c u d i == 0)%Q.
Proof.
  induction d; intros i I O.
  - cbn [N]. destruct SP as (_ & _ & _ & _ & _ & S). rewrite S by lia.
    destruct (Nat.eqb_spec i k); [lia|reflexivity].
  - cbn [N]. rewrite (IHd i), (IHd (i + 1)) by lia. ring.
Qed.

Lemma N_nonneg : forall d i, i + d + 1 < len -> (0 <= N c u d i)%Q.
Proof.
  destruct SP as (_ & KN & _ & U1 & U2 & S).
  assert (Q0 : forall a b, (0 <= a)%Q -> (0 <= b)%Q -> (0 <= a / b)%Q).
  { intros a b A B. destruct (Qeq_dec b 0) as [E|E].
    - unfold Qdiv. rewrite E. change (/ 0)%Q with 0%Q. lra.
    - apply Qle_shift_div_l; lra. }
  pose proof len_eq. pose proof order_n.
  induction d; intros i I.
  - cbn [N]. destruct (in_span c u i); lra.
  - cbn [N]. set (d' := Datatypes.S d) in *.
    assert (0 <= (u - kn c i) / (kn c (i + d') - kn c i) * N c u d i)%Q.
    { destruct (Nat.lt_ge_cases k i).
      - rewrite (N_zero d i) by lia. lra.
      - apply Qmult_le_0_compat; [|apply IHd; lia].
        pose proof (mono k i ltac:(lia) ltac:(lia)). pose proof (mono (i + d') i ltac:(lia) ltac:(lia)).
        apply Q0; lra. }
    assert (0 <= (kn c (i + d' + 1) - u) / (kn c (i + d' + 1) - kn c (i + 1)) * N c u d (i + 1))%Q.
    { destruct (Nat.lt_ge_cases (i + 1 + d) k).
      - rewrite (N_zero d (i + 1)) by lia. lra.
      - apply Qmult_le_0_compat; [|apply IHd; lia].
        pose proof (mono (i + d' + 1) (k + 1) ltac:(lia) ltac:(lia)).
        pose proof (mono (i + d' + 1) (i + 1) ltac:(lia) ltac:(lia)).
        apply Q0; lra. }
    lra.
Qed.

(** The first and the second part of a basis function, by the distance to the span. *)
Lemma N_step : forall d s, d + 1 <= k -> s <= d -> d + 1 <= order c - 1 ->
  (N c u (d + 1) (k - (s + 1)) ==
   (u - kn c (k - (s + 1))) / (kn c (k - (s + 1) + (d + 1)) - kn c (k - (s + 1))) * N c u d (k - (s + 1)) +
   (1 - (u - kn c (k - s)) / (kn c (k - s + (d + 1)) - kn c (k - s))) * N c u d (k - s))%Q.
Proof.
  intros d s K S D. destruct SP as (KP & KN & L & _ & _ & _).
  pose proof len_eq. pose proof order_n.
  replace (d + 1) with (Datatypes.S d) by lia. cbn [N].
  replace (k - (s + 1) + Datatypes.S d + 1) with (k - s + Datatypes.S d) by lia.
  replace (k - (s + 1) + 1) with (k - s) by lia.
  assert (kn c (k - s) < kn c (k - s + Datatypes.S d))%Q.
  { pose proof (mono k (k - s) ltac:(lia) ltac:(lia)).
    pose proof (mono (k - s + Datatypes.S d) (k + 1) ltac:(lia) ltac:(lia)). lra. }
  apply Qplus_comp; [reflexivity|]. apply Qmult_comp; [|reflexivity]. field. lra.
Qed.

Lemma inner_ok : forall d m B, d + 1 <= order c - 1 -> m <= d + 1 ->
  (forall j, j < m -> (B j == N c u d (k - j))%Q) ->
  (B m == (u - kn c (k - m)) / (kn c (k - m + (d + 1)) - kn c (k - m)) * N c u d (k - m))%Q ->
  (forall j, m < j <= d + 1 -> (B j == N c u (d + 1) (k - j))%Q) ->
  exists B', inner (knots c) u (d + 2) (Z.of_nat k - Z.of_nat m) m B = Some B' /\
    forall j, j <= d + 1 -> (B' j == N c u (d + 1) (k - j))%Q.
Proof.
  destruct SP as (KP & KN & L & _ & _ & _).
  pose proof len_eq. pose proof order_n.
  intros d. induction m; intros B D M A1 A2 A3.
  - cbn [inner]. exists B. split; auto. intros j J.
    destruct (Nat.eq_dec j 0) as [->|]; [|apply A3; lia].
    rewrite A2. rewrite !Nat.sub_0_r. replace (d + 1) with (Datatypes.S d) by lia. cbn [N].
    rewrite (N_zero d (k + 1)) by lia. ring.
  - cbn [inner].
    replace (Z.of_nat k - Z.of_nat (Datatypes.S m) + 1)%Z with (Z.of_nat (k - m)) by lia.
    destruct (Z.ltb_spec (Z.of_nat (k - m)) 0); [lia|].
    replace (Z.to_nat (Z.of_nat (k - m) + Z.of_nat (d + 2) - 1)) with (k - m + (d + 1)) by lia.
    rewrite Nat2Z.id. rewrite !knot_get by lia. cbn [bind].
    assert (G : (kn c (k - m) < kn c (k - m + (d + 1)))%Q).
    { pose proof (mono k (k - m) ltac:(lia) ltac:(lia)).
      pose proof (mono (k - m + (d + 1)) (k + 1) ltac:(lia) ltac:(lia)). lra. }
    unfold over. destruct (Qeq_bool (kn c (k - m + (d + 1)) - kn c (k - m)) 0) eqn:E0.
    { apply Qeq_bool_iff in E0. lra. }
    cbn [bind]. set (w := ((u - kn c (k - m)) / (kn c (k - m + (d + 1)) - kn c (k - m)))%Q).
    replace (Z.of_nat (k - m)) with (Z.of_nat k - Z.of_nat m)%Z by lia.
    apply IHm; auto; try lia; unfold upd.
    + intros j J. destruct (Nat.eqb_spec j m); [lia|]. destruct (Nat.eqb_spec j (m + 1)); [lia|].
      apply A1. lia.
    + rewrite Nat.eqb_refl. destruct (Nat.eqb_spec m (m + 1)); [lia|].
      rewrite (A1 m) by lia. reflexivity.
    + intros j J. destruct (Nat.eqb_spec j m); [lia|].
      destruct (Nat.eqb_spec j (m + 1)) as [->|]; [|apply A3; lia].
      rewrite N_step by lia. rewrite (A1 m) by lia.
      replace (Datatypes.S m) with (m + 1) in A2 by lia. rewrite A2. reflexivity.
Qed.

Lemma outer_ok : forall m d B, d + m <= order c - 1 ->
  (forall j, j <= d -> (B j == N c u d (k - j))%Q) ->
  exists B', outer (knots c) u k (d + 2) m B = Some B' /\
    forall j, j <= d + m -> (B' j == N c u (d + m) (k - j))%Q.
Proof.
  destruct SP as (KP & KN & L & _ & _ & _).
  pose proof len_eq. pose proof order_n.
  induction m; intros d B D A.
  - cbn [outer]. exists B. rewrite !Nat.add_0_r. auto.
  - cbn [outer].
    replace (d + 2 - 1) with (d + 1) by lia.
    replace (Z.of_nat k - Z.of_nat (d + 2) + 1)%Z with (Z.of_nat k - Z.of_nat (d + 1))%Z by lia.
    destruct (inner_ok d (d + 1) (upd B (d + 1) 0%Q)) as (B1 & E1 & V1); try lia; unfold upd.
    + intros j J. destruct (Nat.eqb_spec j (d + 1)); [lia|]. apply A. lia.
    + rewrite Nat.eqb_refl. rewrite (N_zero d) by lia. ring.
    + fold (upd B (d + 1) 0%Q). rewrite E1. cbn [bind].
      replace (d + 2 + 1) with (d + 1 + 2) by lia.
      destruct (IHm (d + 1) B1) as (B2 & E2 & V2); [lia|auto|].
      exists B2. split; auto. intros j J. rewrite V2 by lia. now replace (d + 1 + m) with (d + Datatypes.S m) by lia.
Qed.

Lemma basis_ok : exists B, basis c u k = Some B /\
  forall j, j <= order c - 1 -> (B j == N c u (order c - 1) (k - j))%Q.
Proof.
  unfold basis. apply (outer_ok (order c - 1) 0); [lia|].
  intros j J. replace j with 0 by lia. unfold upd. cbn [Nat.eqb N]. rewrite Nat.sub_0_r.
  destruct SP as (_ & KN & _ & _ & _ & S). pose proof len_eq. pose proof order_n.
  rewrite S by lia. rewrite Nat.eqb_refl. reflexivity.
Qed.

(** * Sums *)

Lemma sum_ext : forall f g m, (forall i, i < m -> (f i == g i)%Q) -> (sum f m == sum g m)%Q.
Proof. induction m; intros A; cbn [sum]; [reflexivity|]. rewrite IHm, (A m) by auto. reflexivity. Qed.

Lemma sum_front : forall m f, (sum f (Datatypes.S m) == f O + sum (fun i => f (Datatypes.S i)) m)%Q.
Proof. induction m; intros f; [cbn; ring|]. cbn [sum]. cbn [sum] in IHm. rewrite IHm. ring. Qed.

Lemma sum_zero : forall m f, (forall i, i < m -> (f i == 0)%Q) -> (sum f m == 0)%Q.
Proof. induction m; intros f A; cbn [sum]; [reflexivity|]. rewrite IHm, (A m) by auto. ring. Qed.

Lemma sum_window : forall b a m f, (forall i, i < a -> (f i == 0)%Q) -> (forall i, a + m <= i < a + m + b -> (f i == 0)%Q) ->
  (sum f (a + m + b) == sum (fun t => f (a + t)%nat) m)%Q.
Proof.
  induction b; intros a m f A B.
  - rewrite Nat.add_0_r. clear B. induction m.
    + rewrite Nat.add_0_r. cbn [sum]. apply sum_zero. auto.
    + replace (a + Datatypes.S m) with (Datatypes.S (a + m)) by lia. cbn [sum]. rewrite IHm. reflexivity.
  - replace (a + m + Datatypes.S b) with (Datatypes.S (a + m + b)) by lia. cbn [sum].
    rewrite IHb; auto; [|intros; apply B; lia]. rewrite (B (a + m + b)) by lia. ring.
Qed.

Lemma sum_back : forall m f, (sum f m == sum (fun i => f (m - 1 - i)%nat) m)%Q.
Proof.
  induction m; intros f; [reflexivity|]. rewrite sum_front. cbn [sum]. rewrite IHm.
  rewrite (sum_ext (fun i => f (Datatypes.S (m - 1 - i))) (fun i => f (Datatypes.S m - 1 - i))).
  - replace (Datatypes.S m - 1 - m) with 0 by lia. ring.
  - intros i I. replace (Datatypes.S (m - 1 - i)) with (Datatypes.S m - 1 - i) by lia. reflexivity.
Qed.

Lemma weigh_ok : forall B first m j r, first + j + m <= n ->
  exists r', weigh c B first j m r = Some r' /\
    (vx r' == vx r + sum (fun t => vx (pt c (first + j + t)) * B (order c - 1 - (j + t))%nat) m)%Q /\
    (vy r' == vy r + sum (fun t => vy (pt c (first + j + t)) * B (order c - 1 - (j + t))%nat) m)%Q /\
    (vz r' == vz r + sum (fun t => vz (pt c (first + j + t)) * B (order c - 1 - (j + t))%nat) m)%Q.
Proof.
  induction m; intros j r L.
  - cbn [weigh sum]. exists r. split; auto. split; [|split]; ring.
  - cbn [weigh]. rewrite vert_get by lia. cbn [bind].
    destruct (IHm (j + 1) (Vec (vx r + vx (pt c (j + first)) * B (order c - 1 - j)%nat)
         (vy r + vy (pt c (j + first)) * B (order c - 1 - j)%nat)
         (vz r + vz (pt c (j + first)) * B (order c - 1 - j)%nat))%Q) as (r' & E & X & Y & Z); [lia|].
    exists r'. split; [exact E|]. cbn [vx vy vz] in X, Y, Z.
    assert (G : forall f, (sum (fun t => f (pt c (first + j + t)) * B (order c - 1 - (j + t))%nat) (Datatypes.S m) ==
       f (pt c (j + first)) * B (order c - 1 - j)%nat +
       sum (fun t => f (pt c (first + (j + 1) + t)) * B (order c - 1 - (j + 1 + t))%nat) m)%Q).
    { intros f. rewrite sum_front.
      replace (first + j + 0) with (j + first) by lia. replace (j + 0) with j by lia.
      apply Qplus_comp; [reflexivity|]. apply sum_ext. intros i I.
      replace (first + j + Datatypes.S i) with (first + (j + 1) + i) by lia.
      replace (j + Datatypes.S i) with (j + 1 + i) by lia. reflexivity. }
    split; [|split]; rewrite G; rewrite ?X, ?Y, ?Z; ring.
Qed.

Lemma blend_window : forall f, (blend c u f ==
  sum (fun t => f (pt c (k + 1 - order c + t)) * N c u (order c - 1) (k - (order c - 1 - t))) (order c))%Q.
Proof.
  destruct SP as (KP & KN & L & _ & _ & _).
  pose proof len_eq. pose proof order_n.
  intros f. unfold blend.
  replace n with ((k + 1 - order c) + order c + (n - 1 - k)) at 1 by lia.
  rewrite sum_window.
  - apply sum_ext. intros i I. replace (k - (order c - 1 - i)) with (k + 1 - order c + i) by lia. ring.
  - intros i I. rewrite N_zero by lia. ring.
  - intros i I. rewrite N_zero by lia. ring.
Qed.

Lemma partition : forall d, d <= order c - 1 -> (sum (fun s => N c u d (k - s)) (d + 1) == 1)%Q.
Proof.
  destruct SP as (KP & KN & L & _ & _ & S).
  pose proof len_eq as LE. pose proof order_n as ON.
  induction d; intros D.
  - cbn [sum N Nat.add]. rewrite Nat.sub_0_r. rewrite S by lia. rewrite Nat.eqb_refl. ring.
  - rewrite <- IHd by lia.
    assert (G : forall m, m <= d + 1 -> (sum (fun s => N c u (Datatypes.S d) (k - s)) (m + 1) ==
       (u - kn c (k - m)) / (kn c (k - m + (d + 1)) - kn c (k - m)) * N c u d (k - m) +
       sum (fun s => N c u d (k - s)) m)%Q).
    { induction m; intros M.
      - cbn [sum Nat.add N]. rewrite !Nat.sub_0_r. rewrite (N_zero d (k + 1)) by lia.
        replace (k + Datatypes.S d) with (k + (d + 1)) by lia. ring.
      - replace (Datatypes.S m + 1) with (Datatypes.S (m + 1)) by lia.
        cbn [sum]. rewrite IHm by lia.
        pose proof (N_step d m ltac:(lia) ltac:(lia) ltac:(lia)) as NS.
        replace (d + 1) with (Datatypes.S d) in NS at 1 by lia. rewrite NS.
        replace (Datatypes.S m) with (m + 1) by lia. ring. }
    rewrite G by lia. rewrite (N_zero d) by lia. replace (d + 1) with (Datatypes.S d) by lia. cbn [sum]. ring.
Qed.

Lemma blend_one : (sum (fun i => N c u (order c - 1) i) n == 1)%Q.
Proof.
  destruct SP as (KP & KN & L & _ & _ & _).
  pose proof len_eq. pose proof order_n.
  rewrite <- (partition (order c - 1)) by lia.
  replace n with ((k + 1 - order c) + order c + (n - 1 - k)) at 1 by lia.
  rewrite sum_window.
  - rewrite sum_back. replace (order c - 1 + 1) with (order c) by lia. apply sum_ext. intros i I.
    replace (k + 1 - order c + (order c - 1 - i)) with (k - i) by lia. reflexivity.
  - intros i I. rewrite N_zero by lia. ring.
  - intros i I. rewrite N_zero by lia. ring.
Qed.

Lemma sum_pos : forall m f g, (forall i, i < m -> (0 <= f i)%Q) -> (forall i, i < m -> (0 < g i)%Q) ->
  (0 <= sum (fun i => f i * g i) m)%Q /\ ((0 < sum f m)%Q -> (0 < sum (fun i => f i * g i) m)%Q).
Proof.
  induction m; intros f g A B; cbn [sum]; [lra|].
  destruct (IHm f g) as [I1 I2]; auto.
  assert (F := A m ltac:(lia)). assert (G := B m ltac:(lia)).
  assert (0 <= f m * g m)%Q by (apply Qmult_le_0_compat; lra).
  split; [lra|]. intros P.
  destruct (Qlt_le_dec 0 (f m)) as [F'|F'].
  - assert (0 < f m * g m)%Q by (apply Qmult_lt_0_compat; auto). lra.
  - assert (0 < sum f m)%Q by lra. specialize (I2 H0). lra.
Qed.

Lemma weights_pos : forall i, i < n -> (0 < vz (pt c i))%Q.
Proof.
  intros i I. destruct WA as (_ & _ & _ & _ & F). unfold pt.
  rewrite Forall_forall in F. apply F. apply nth_In. auto.
Qed.

Lemma blend_pos : (0 < blend c u vz)%Q.
Proof.
  pose proof len_eq. pose proof order_n.
  unfold blend. apply (sum_pos n (fun i => N c u (order c - 1) i) (fun i => vz (pt c i))).
  - intros. apply N_nonneg. lia.
  - apply weights_pos.
  - rewrite blend_one. lra.
Qed.
End Span.

Lemma evaluate_ok : forall u, (bottom c <= u)%Q -> (u <= top c)%Q ->
  exists q, evaluate c u = Some q /\ at_parameter c u q.
Proof.
  pose proof len_eq. pose proof order_n.
  intros u A B. destruct (find_span_ok u A B) as (k & E & S).
  unfold evaluate. rewrite E. cbn [bind].
  assert (KP : order c - 1 <= k) by apply S. assert (KN : k < n) by apply S.
  destruct (Nat.ltb_spec (k + 1) (order c)); [lia|].
  destruct (basis_ok u k S) as (Bs & EB & V). rewrite EB. cbn [bind].
  destruct (weigh_ok Bs (k + 1 - order c) (order c) 0 (Vec 0 0 0)) as (r & ER & X & Y & Z); [lia|].
  rewrite ER. cbn [bind]. cbn [vx vy vz] in X, Y, Z.
  assert (G : forall f, (sum (fun t => f (pt c (k + 1 - order c + 0 + t)) * Bs (order c - 1 - (0 + t))%nat) (order c) ==
     blend c u f)%Q).
  { intros f. rewrite (blend_window u k S). apply sum_ext. intros i I.
    rewrite Nat.add_0_r, Nat.add_0_l, V by lia. reflexivity. }
  rewrite G in X, Y, Z.
  pose proof (blend_pos u k S) as P.
  unfold over. destruct (Qeq_bool (vz r) 0) eqn:EZ.
  { apply Qeq_bool_iff in EZ. lra. }
  cbn [bind]. eexists. split; [reflexivity|]. unfold at_parameter, curve_x, curve_y. cbn [px py].
  rewrite Qplus_0_l in X, Y, Z. rewrite X, Y, Z. split; reflexivity.
Qed.

(** The curve is between the points. *)
Lemma sum_le : forall m f g, (forall i, i < m -> (f i <= g i)%Q) -> (sum f m <= sum g m)%Q.
Proof. induction m; intros f g A; cbn [sum]; [lra|]. specialize (IHm f g). pose proof (A m ltac:(lia)). assert (sum f m <= sum g m)%Q by auto. lra. Qed.

Lemma sum_scale : forall m a f g, (a * sum (fun i => f i * g i) m == sum (fun i => f i * (a * g i)) m)%Q.
Proof. induction m; intros; cbn [sum]; [ring|]. rewrite <- IHm. ring. Qed.

Lemma hull : forall u k f a b, spans u k ->
  (forall i, i < n -> (a * vz (pt c i) <= f (pt c i) /\ f (pt c i) <= b * vz (pt c i))%Q) ->
  (a <= blend c u f / blend c u vz)%Q /\ (blend c u f / blend c u vz <= b)%Q.
Proof.
  pose proof len_eq. pose proof order_n.
  intros u k f a b S H1. pose proof (blend_pos u k S) as P.
  assert (M : forall i x y, i < n -> (x <= y)%Q -> (N c u (order c - 1) i * x <= N c u (order c - 1) i * y)%Q).
  { intros i x y I L. pose proof (N_nonneg u k S (order c - 1) i ltac:(lia)) as Z. nra. }
  split.
  - apply Qle_shift_div_l; auto. unfold blend. rewrite sum_scale.
    apply sum_le. intros i I. apply M; auto. apply H1. auto.
  - apply Qle_shift_div_r; auto. unfold blend. rewrite sum_scale.
    apply sum_le. intros i I. apply M; auto. apply H1. auto.
Qed.

(** * Clamped curves *)

Lemma last_below_bound : forall U v i, (Z.of_nat i - 1 <= last_below U v i < Z.of_nat (i + List.length U))%Z.
Proof.
  induction U; intros v i; cbn [last_below List.length]; [lia|].
  destruct (less v a); [lia|]. specialize (IHU v (i + 1)). lia.
Qed.

Lemma last_below_far : forall U v i m, m < List.length U -> (forall j, j <= m -> (nth j U 0 <= v)%Q) ->
  (Z.of_nat (i + m) <= last_below U v i)%Z.
Proof.
  induction U; intros v i m M A; cbn [List.length] in M; [lia|].
  cbn [last_below]. pose proof (A 0 ltac:(lia)) as A0. cbn [nth] in A0.
  apply less_false in A0. rewrite A0.
  destruct m as [|m].
  - pose proof (last_below_bound U v (i + 1)). lia.
  - specialize (IHU v (i + 1) m ltac:(lia)).
    assert (forall j, j <= m -> (nth j U 0 <= v)%Q) as A1.
    { intros j J. apply (A (Datatypes.S j)). lia. }
    specialize (IHU A1). lia.
Qed.

Lemma last_below_le : forall U v i, (Z.of_nat i <= last_below U v i)%Z ->
  (nth (Z.to_nat (last_below U v i) - i) U 0 <= v)%Q.
Proof.
  induction U; intros v i A; cbn [last_below] in *; [lia|].
  destruct (less v a) eqn:E; [lia|]. apply less_false in E.
  pose proof (last_below_bound U v (i + 1)).
  destruct (Z.eq_dec (last_below U v (i + 1)) (Z.of_nat i)) as [D|D].
  - rewrite D. replace (Z.to_nat (Z.of_nat i) - i) with 0 by lia. cbn [nth]. auto.
  - specialize (IHU v (i + 1) ltac:(lia)).
    replace (Z.to_nat (last_below U v (i + 1)) - i) with (Datatypes.S (Z.to_nat (last_below U v (i + 1)) - (i + 1))) by lia.
    exact IHU.
Qed.

Lemma count_equal_ok : forall m i s, m <= i -> i < len -> (kn c i <= kn c (i - m))%Q ->
  exists s', count_equal (knots c) i s = Some s' /\ (s + Z.of_nat m <= s')%Z.
Proof.
  induction m; intros i s M I A.
  - clear M A. revert s. induction i; intros s; cbn [count_equal]; [exists s; split; [auto|lia]|].
    rewrite !knot_get by lia. cbn [bind].
    destruct (Qle_bool (kn c (Datatypes.S i)) (kn c i)).
    + destruct (IHi ltac:(lia) (s + 1)%Z) as (s' & E & L). exists s'. split; auto. lia.
    + exists s. split; auto. lia.
  - destruct i as [|i]; [lia|]. cbn [count_equal].
    rewrite !knot_get by lia. cbn [bind].
    replace (Datatypes.S i - Datatypes.S m) with (i - m) in A by lia.
    pose proof (mono i (i - m) ltac:(lia) ltac:(lia)).
    pose proof (mono (Datatypes.S i) i ltac:(lia) ltac:(lia)).
    replace (Qle_bool (kn c (Datatypes.S i)) (kn c i)) with true
      by (symmetry; apply Qle_bool_iff; lra).
    destruct (IHm i (s + 1)%Z) as (s' & E & L); try lia; try lra.
    exists s'. split; auto. lia.
Qed.

Lemma nothing_to_insert : forall v, (bottom c <= v)%Q -> (v <= top c)%Q ->
  (exists m, order c - 1 <= m < len /\ (v <= kn c (m - (order c - 1)))%Q /\ (kn c m <= v)%Q) ->
  insert_knot c v (Z.of_nat (order c - 1)) = Some (c, 0%Z).
Proof.
  pose proof len_eq as LE. pose proof order_n as ON.
  intros v A B (m & M1 & M2 & M3). unfold insert_knot, get.
  replace (Z.of_nat (order c) - 1)%Z with (Z.of_nat (order c - 1)) by lia.
  destruct (Z.ltb_spec (Z.of_nat (order c - 1)) 0); [lia|].
  destruct (Z.ltb_spec (Z.of_nat n) 0); [lia|].
  rewrite !Nat2Z.id, !knot_get by lia. cbn [bind].
  fold (bottom c). fold (top c).
  replace (less v (bottom c)) with false by (symmetry; apply less_false; auto).
  replace (less (top c) v) with false by (symmetry; apply less_false; auto). cbn [orb].
  set (k := last_below (knots c) v 0).
  assert (K1 : (Z.of_nat m <= k)%Z).
  { apply (last_below_far (knots c) v 0 m); [lia|]. intros j J. fold (kn c j).
    pose proof (mono m j ltac:(lia) ltac:(lia)). lra. }
  pose proof (last_below_bound (knots c) v 0) as K2. fold k in K2.
  pose proof (last_below_le (knots c) v 0 ltac:(fold k; lia)) as K3. fold k in K3.
  rewrite Nat.sub_0_r in K3. fold (kn c (Z.to_nat k)) in K3.
  destruct (Z.ltb_spec k 0); [lia|].
  rewrite knot_get by lia. cbn [bind].
  pose proof (mono (Z.to_nat k) m ltac:(lia) ltac:(lia)) as K4.
  pose proof (mono m (m - (order c - 1)) ltac:(lia) ltac:(lia)) as K5.
  replace (Qle_bool v (kn c (Z.to_nat k))) with true by (symmetry; apply Qle_bool_iff; lra).
  destruct (count_equal_ok (Z.to_nat k - (m - (order c - 1))) (Z.to_nat k) 1) as (s & E & L); try lia.
  { replace (Z.to_nat k - (Z.to_nat k - (m - (order c - 1)))) with (m - (order c - 1)) by lia. lra. }
  rewrite E. cbn [bind].
  assert (SS : (Z.of_nat (order c) <= s)%Z) by lia. clear - SS ON.
  destruct (Z.ltb_spec (Z.of_nat (order c - 1) + 1) (Z.of_nat (order c - 1) + s)).
  - destruct (Z.leb_spec (Z.of_nat (order c - 1) + 1 - s) 0); [reflexivity|lia].
  - destruct (Z.leb_spec (Z.of_nat (order c - 1)) 0); [reflexivity|lia].
Qed.

Lemma clamp_clamped : clamped c -> clamp c = Some c.
Proof.
  pose proof len_eq as LE. pose proof order_n as ON.
  intros [C1 C2]. destruct WA as (_ & _ & _ & BT & _).
  unfold clamp. rewrite knot_get by lia. cbn [bind]. fold (bottom c).
  rewrite nothing_to_insert; [|lra|lra|].
  - cbn [bind]. rewrite knot_get by lia. cbn [bind]. fold (top c).
    rewrite nothing_to_insert; [|lra|lra|].
    + cbn [bind Z.to_nat Nat.eqb andb]. reflexivity.
    + exists (len - 1). split; [lia|].
      replace (len - 1 - (order c - 1)) with n by lia. fold (top c). split; lra.
  - exists (order c - 1). split; [lia|]. rewrite Nat.sub_diag. fold (bottom c). split; lra.
Qed.

(** The ends of a clamped curve. *)
Lemma ends_low : clamped c -> forall d i, d <= order c - 1 -> i + d + 1 < len ->
  (N c (bottom c) d i == if Nat.eqb i (order c - 1 - d) then 1 else 0)%Q.
Proof.
  pose proof len_eq as LE. pose proof order_n as ON.
  intros [C1 _]. destruct WA as (_ & _ & _ & BT & _). destruct OE as [O1 O2].
  assert (F : forall j, j <= order c - 1 -> (kn c j == bottom c)%Q).
  { intros j J. pose proof (mono j 0 ltac:(lia) ltac:(lia)).
    pose proof (mono (order c - 1) j ltac:(lia) ltac:(lia)). unfold bottom in *. lra. }
  assert (O1' : (bottom c < kn c (order c - 1 + 1))%Q) by (replace (order c - 1 + 1) with (order c) by lia; auto).
  induction d; intros i D I.
  - cbn [N]. rewrite (in_span_below (bottom c) (order c - 1)); auto; try lia; [|unfold bottom; lra].
    rewrite Nat.sub_0_r. reflexivity.
  - cbn [N]. rewrite (IHd i), (IHd (i + 1)) by lia.
    destruct (Nat.eqb_spec i (order c - 1 - Datatypes.S d)) as [E|E].
    + destruct (Nat.eqb_spec i (order c - 1 - d)); [lia|].
      destruct (Nat.eqb_spec (i + 1) (order c - 1 - d)); [|lia].
      rewrite (F (i + 1)) by lia.
      replace (i + Datatypes.S d + 1) with (order c - 1 + 1) by lia.
      rewrite Qmult_0_r, Qplus_0_l, Qmult_1_r. field. lra.
    + destruct (Nat.eqb_spec (i + 1) (order c - 1 - d)); [lia|].
      destruct (Nat.eqb_spec i (order c - 1 - d)); [|ring].
      rewrite (F i) by lia. unfold Qdiv. ring.
Qed.

Lemma ends_high : clamped c -> forall d i, d <= order c - 1 -> i + d + 1 < len ->
  (N c (top c) d i == if Nat.eqb i (n - 1) then 1 else 0)%Q.
Proof.
  pose proof len_eq as LE. pose proof order_n as ON.
  intros [_ C2]. destruct WA as (_ & _ & _ & BT & _). destruct OE as [O1 O2].
  assert (F : forall j, n <= j -> j < len -> (kn c j == top c)%Q).
  { intros j J1 J2. pose proof (mono j n ltac:(lia) ltac:(lia)).
    pose proof (mono (len - 1) j ltac:(lia) ltac:(lia)). unfold top in *. lra. }
  induction d; intros i D I.
  - cbn [N]. destruct (find_span_ok (top c) ltac:(lra) ltac:(lra)) as (k & E & S).
    unfold find_span in E. destruct (order c) as [|p] eqn:EO; [lia|].
    destruct n as [|l] eqn:EN; [lia|].
    rewrite knot_get in E by lia. cbn [bind] in E.
    replace (Qle_bool (kn c (Datatypes.S l)) (top c)) with true in E
      by (symmetry; apply Qle_bool_iff; unfold top; rewrite EN; lra).
    injection E as <-. destruct S as (_ & _ & _ & _ & _ & S). rewrite S by lia.
    replace (Datatypes.S l - 1) with l by lia. reflexivity.
  - cbn [N]. rewrite (IHd i), (IHd (i + 1)) by lia.
    destruct (Nat.eqb_spec i (n - 1)) as [E|E].
    + destruct (Nat.eqb_spec (i + 1) (n - 1)); [lia|].
      rewrite (F (i + Datatypes.S d)) by lia. subst i.
      rewrite Qmult_0_r, Qplus_0_r, Qmult_1_r. field. lra.
    + destruct (Nat.eqb_spec (i + 1) (n - 1)); [|ring].
      rewrite (F (i + Datatypes.S d + 1)) by lia. unfold Qdiv. ring.
Qed.

Lemma sum_single : forall f m a, a < m -> (forall i, i < m -> i <> a -> (f i == 0)%Q) -> (sum f m == f a)%Q.
Proof.
  intros f m a A F.
  replace m with (a + 1 + (m - a - 1)) by lia.
  rewrite (sum_window (m - a - 1) a 1).
  - cbn [sum]. rewrite Nat.add_0_r. ring.
  - intros i I. apply F; lia.
  - intros i I. apply F; lia.
Qed.

Lemma blend_low : clamped c -> forall f, (blend c (bottom c) f == f (pt c 0))%Q.
Proof.
  pose proof len_eq as LE. pose proof order_n as ON.
  intros C f. unfold blend. rewrite (sum_single _ n 0); [|lia|].
  - rewrite ends_low by (auto; lia). rewrite Nat.sub_diag, Nat.eqb_refl. ring.
  - intros i I D. rewrite ends_low by (auto; lia). rewrite Nat.sub_diag.
    destruct (Nat.eqb_spec i 0); [lia|ring].
Qed.

Lemma blend_high : clamped c -> forall f, (blend c (top c) f == f (pt c (n - 1)))%Q.
Proof.
  pose proof len_eq as LE. pose proof order_n as ON.
  intros C f. unfold blend. rewrite (sum_single _ n (n - 1)); [|lia|].
  - rewrite ends_high by (auto; lia). rewrite Nat.eqb_refl. ring.
  - intros i I D. rewrite ends_high by (auto; lia).
    destruct (Nat.eqb_spec i (n - 1)); [lia|ring].
Qed.

(** * Samples *)

Lemma less_comp : forall a b a' b', (a == a')%Q -> (b == b')%Q -> less a b = less a' b'.
Proof.
  intros. destruct (less a' b') eqn:E.
  - apply less_iff. apply less_iff in E. lra.
  - apply less_false. apply less_false in E. lra.
Qed.

Lemma leb_comp : forall a b a' b', (a == a')%Q -> (b == b')%Q -> Qle_bool a b = Qle_bool a' b'.
Proof.
  intros. destruct (Qle_bool a' b') eqn:E.
  - apply Qle_bool_iff. apply Qle_bool_iff in E. lra.
  - apply le_false. apply le_false in E. lra.
Qed.

Lemma N_comp : forall u v, (u == v)%Q -> forall d i, (N c u d i == N c v d i)%Q.
Proof.
  intros u v E. induction d; intros i; cbn [N].
  - unfold in_span.
    rewrite (less_comp u (top c) v (top c)), (leb_comp (kn c i) u (kn c i) v),
      (less_comp u (kn c (i + 1)) v (kn c (i + 1))), (less_comp (kn c i) u (kn c i) v),
      (leb_comp u (kn c (i + 1)) v (kn c (i + 1))) by (auto; reflexivity).
    reflexivity.
  - rewrite !IHd, E. reflexivity.
Qed.

Lemma at_parameter_comp : forall u v q, (u == v)%Q -> at_parameter c u q -> at_parameter c v q.
Proof.
  intros u v q E [A B].
  assert (G : forall f, (blend c u f == blend c v f)%Q).
  { intros f. unfold blend. apply sum_ext. intros i _. rewrite (N_comp u v E). reflexivity. }
  split; [rewrite A|rewrite B]; unfold curve_x, curve_y; rewrite !G; reflexivity.
Qed.

Lemma sampled_ok : forall N' m j u du, 0 < N' -> j + m <= N' ->
  (du == (top c - bottom c) / inject_Z (Z.of_nat N'))%Q -> (u == parameter c N' j)%Q ->
  exists l, sampled c u du m = Some l /\
    Forall2 (fun i q => at_parameter c (parameter c N' i) q) (seq j m) l.
Proof.
  destruct WA as (_ & _ & _ & BT & _).
  intros N' m. induction m; intros j u du P J D U.
  - exists []. split; [reflexivity|constructor].
  - cbn [sampled seq].
    assert (R : (0 <= inject_Z (Z.of_nat j))%Q /\ (inject_Z (Z.of_nat j) <= inject_Z (Z.of_nat N'))%Q /\ (0 < inject_Z (Z.of_nat N'))%Q).
    { change 0%Q with (inject_Z 0). rewrite <- !Zle_Qle, <- Zlt_Qlt. lia. }
    destruct R as (R1 & R2 & R3).
    assert (0 < (top c - bottom c) / inject_Z (Z.of_nat N'))%Q by (apply Qlt_shift_div_l; lra).
    assert (inject_Z (Z.of_nat N') * ((top c - bottom c) / inject_Z (Z.of_nat N')) == top c - bottom c)%Q by (field; lra).
    assert (B1 : (bottom c <= parameter c N' j)%Q /\ (parameter c N' j <= top c)%Q).
    { unfold parameter. set (w := ((top c - bottom c) / inject_Z (Z.of_nat N'))%Q) in *. clearbody w.
      set (x := inject_Z (Z.of_nat j)) in *. set (y := inject_Z (Z.of_nat N')) in *. clearbody x y.
      clear - H H0 R1 R2. split; nra. }
    destruct (evaluate_ok u) as (q & E & A); [lra|lra|].
    rewrite E. cbn [bind].
    destruct (IHm (j + 1) (u + du)%Q du) as (l & El & Fl); auto; try lia.
    { rewrite U, D. unfold parameter. rewrite Nat2Z.inj_add, inject_Z_plus. change (inject_Z (Z.of_nat 1)) with 1%Q. ring. }
    rewrite El. cbn [option_map]. exists (q :: l). split; auto.
    constructor; [apply (at_parameter_comp u); auto|].
    replace (Datatypes.S j) with (j + 1) by lia. auto.
Qed.
End Curve.

Definition good (c : curve) : Prop := wanted c /\ open_ends c /\ clamped c.

Lemma prepare_ok : forall pieces cs, Forall good cs ->
  exists l, prepare pieces cs = Some l /\ wanted_points pieces cs l.
Proof.
  intros pieces cs F. induction F as [|c cs (WA & OE & CL) F (l & E & P)].
  - exists []. split; [reflexivity|constructor].
  - cbn [prepare]. rewrite clamp_clamped by auto. cbn [bind].
    pose proof (len_eq c WA) as LE. pose proof (order_n c WA) as ON.
    rewrite !knot_get by lia. cbn [bind].
    destruct CL as [C1 C2].
    assert (S : exists l1, match pieces c with
        | 0 => Some []
        | Datatypes.S _ => sampled c (kn c 0) ((kn c (cverts c + order c - 1) - kn c 0) / inject_Z (Z.of_nat (pieces c))) (pieces c)
        end = Some l1 /\ Forall2 (fun i q => at_parameter c (parameter c (pieces c) i) q) (seq 0 (pieces c)) l1).
    { destruct (pieces c) as [|m] eqn:EP; [exists []; split; [reflexivity|constructor]|].
      apply sampled_ok; auto; try lia.
      - replace (cverts c + order c - 1) with (List.length (knots c) - 1) by lia. rewrite C1, C2. reflexivity.
      - rewrite C1. unfold parameter. change (inject_Z (Z.of_nat 0)) with 0%Q. ring. }
    destruct S as (l1 & E1 & F1). rewrite E1. cbn [bind]. rewrite E. cbn [option_map].
    exists (l1 ++ l). split; auto. unfold wanted_points. cbn [flat_map].
    apply Forall2_app; auto. clear - F1. induction F1; cbn [map]; constructor; auto.
Qed.

(** * The arrays of the request *)

Lemma read_knots_ok : forall K a b, read_knots (a ++ K ++ b) (List.length a) (List.length K) = Some K.
Proof.
  induction K; intros l b; cbn [read_knots List.length]; auto.
  rewrite nth_error_app2 by lia. rewrite Nat.sub_diag. cbn [app nth_error bind].
  replace (l ++ a :: K ++ b) with ((l ++ [a]) ++ K ++ b) by (rewrite <- app_assoc; reflexivity).
  replace (List.length l + 1) with (List.length (l ++ [a])) by (rewrite app_length; reflexivity).
  rewrite IHK. reflexivity.
Qed.

Lemma read_points_ok : forall V a b, read_points (map vx (a ++ V ++ b)) (map vy (a ++ V ++ b)) (map vz (a ++ V ++ b)) (List.length a) (List.length V) = Some V.
Proof.
  induction V; intros l b; cbn [read_points List.length]; auto.
  rewrite !nth_error_map. rewrite nth_error_app2 by lia. rewrite Nat.sub_diag. cbn [app nth_error option_map bind].
  replace (l ++ a :: V ++ b) with ((l ++ [a]) ++ V ++ b) by (rewrite <- app_assoc; reflexivity).
  replace (List.length l + 1) with (List.length (l ++ [a])) by (rewrite app_length; reflexivity).
  rewrite IHV. destruct a; reflexivity.
Qed.

Definition places (cs : list curve) : nat * nat * nat :=
  (List.length cs, List.length (flat_map knots cs), List.length (flat_map verts cs)).

Definition sized (c : curve) : Prop := List.length (knots c) = order c + cverts c.

Lemma read_loop_ok : forall l a b, Forall sized l ->
  let all := a ++ l ++ b in
  read_loop (map order all) (map cverts all) (flat_map knots all)
    (map vx (flat_map verts all)) (map vy (flat_map verts all)) (map vz (flat_map verts all))
    (List.length l) (places a) = Some (l, places (a ++ l)).
Proof.
  induction l as [|c l IH]; intros a b F; cbn [read_loop List.length].
  - now rewrite app_nil_r.
  - cbn zeta. unfold places at 1. inversion F; subst.
    rewrite !nth_error_map. rewrite nth_error_app2 by lia. rewrite Nat.sub_diag. cbn [app nth_error option_map bind].
    pose proof (read_knots_ok (knots c) (flat_map knots a) (flat_map knots (l ++ b))) as RK.
    pose proof (read_points_ok (verts c) (flat_map verts a) (flat_map verts (l ++ b))) as RP.
    assert (EK : flat_map knots (a ++ c :: l ++ b) = flat_map knots a ++ knots c ++ flat_map knots (l ++ b))
      by (rewrite flat_map_app; reflexivity).
    assert (EV : flat_map verts (a ++ c :: l ++ b) = flat_map verts a ++ verts c ++ flat_map verts (l ++ b))
      by (rewrite flat_map_app; reflexivity).
    rewrite <- EK in RK. rewrite <- EV in RP. rewrite H1 in RK. rewrite RK. cbn [bind].
    fold (cverts c) in RP. rewrite RP. cbn [bind].
    specialize (IH (a ++ [c]) b H2). cbn zeta in IH.
    rewrite <- !app_assoc in IH. cbn [app] in IH.
    replace (List.length a + 1, List.length (flat_map knots a) + order c + cverts c, List.length (flat_map verts a) + cverts c)
      with (places (a ++ [c])).
    + rewrite IH. cbn [bind]. destruct c; reflexivity.
    + unfold places. rewrite !flat_map_app, !app_length. cbn [flat_map List.length]. rewrite !app_nil_r.
      unfold sized in H1. rewrite H1. unfold cverts. apply (f_equal2 pair); [apply (f_equal2 pair)|]; lia.
Qed.

Lemma read_loops_ok : forall ls a, Forall (Forall sized) ls ->
  let all := a ++ concat ls in
  read_loops (map order all) (map cverts all) (flat_map knots all)
    (map vx (flat_map verts all)) (map vy (flat_map verts all)) (map vz (flat_map verts all))
    (map (@List.length curve) ls) (places a) = Some ls.
Proof.
  induction ls as [|l ls IH]; intros a F; cbn [read_loops map]; auto.
  inversion F; subst. cbn zeta. cbn [concat].
  pose proof (read_loop_ok l a (concat ls) H1) as R. cbn zeta in R. rewrite R. cbn [bind].
  specialize (IH (a ++ l) H2). cbn zeta in IH. rewrite <- app_assoc in IH. rewrite IH. reflexivity.
Qed.

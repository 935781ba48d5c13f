From Coq Require Import List Bool ZArith Lia.
From Verif Require Import MeshModel MeshSpec MeshProofs PrimModel PrimSpec.
Import ListNotations.
Open Scope Z_scope.

Lemma check_true (a : option bool) b : (match a with Some true => b | Some false => Some false | None => None end) = Some true -> a = Some true /\ b = Some true.
Proof. destruct a as [[]|]; try discriminate. auto. Qed.
Lemma check_size_ok e a : check_size e a = Some true -> e <= a.
Proof. unfold check_size. destruct (a <? e) eqn:L; [discriminate|]. apply Z.ltb_ge in L. auto. Qed.
Lemma check_size_le e a : e <= a -> check_size e a = Some true.
Proof. unfold check_size. intros H. destruct (a <? e) eqn:L; [apply Z.ltb_lt in L; lia|reflexivity]. Qed.

Ltac use_bind H x Hx := apply bind_some in H as (x & Hx & H).
Ltac use_check H Hx := apply check_true in H as [Hx H].

(* Variables. *)
Lemma class_values_eq c k : class_values c k = iclass_count c k. Proof. now destruct k. Qed.
Lemma value_entries_eq t : value_entries t = type_count t. Proof. now destruct t. Qed.
Lemma width_of_eq t : width_of t = type_count t. Proof. now destruct t. Qed.
Lemma type_count_pos t : 0 < type_count t. Proof. destruct t; cbn; lia. Qed.

Definition covers (c : counts) (p : param) : Prop :=
  Z.max 0 (iclass_count c (p_class p)) * Z.max 0 (p_array p) * type_count (p_type p) <= Z.max 0 (p_len p) /\
  (p_class p = Vertex -> 0 < vertex c -> 0 < element p -> vertex c * element p <= p_len p).

Lemma check_params_covers c ps : check_params c ps = Some true -> Forall (covers c) ps.
Proof.
  induction ps as [|p r IH]; intros H; [constructor|]. cbn [check_params] in H.
  use_bind H st ST. use_bind H e E. apply int_some in ST as [-> _]. apply int_some in E as [-> _].
  pose proof (type_count_pos (p_type p)) as T.
  set (k := iclass_count c (p_class p)) in *. set (t := type_count (p_type p)) in *.
  destruct (k * (t * p_array p) <? 0) eqn:N.
  - apply Z.ltb_lt in N. constructor; [|auto]. split.
    + fold k t. destruct (Z.le_gt_cases k 0) as [K|K]; [rewrite (Z.max_l 0 k) by lia; cbn; lia|].
      assert (p_array p < 0) by nia. rewrite (Z.max_l 0 (p_array p)) by lia. nia.
    + intros V P. unfold element. rewrite width_of_eq. fold t. assert (k = vertex c) by (unfold k; now rewrite V). nia.
  - apply Z.ltb_ge in N. use_check H C. apply check_size_ok in C. constructor; [|auto]. split.
    + fold k t. destruct (Z.le_gt_cases k 0) as [K|K]; [rewrite (Z.max_l 0 k) by lia; cbn; lia|].
      destruct (Z.le_gt_cases (p_array p) 0) as [A|A]; [rewrite (Z.max_l 0 (p_array p)) by lia; nia|].
      rewrite !Z.max_r by lia. nia.
    + intros V P Q. unfold element. rewrite width_of_eq. fold t. assert (k = vertex c) by (unfold k; now rewrite V). nia.
Qed.

(** Every variable that is read has [d] values of its class, fewer than asked. *)
Definition fewer (d c : counts) (ps : list param) : Prop :=
  Forall (fun p => iclass_count d (p_class p) <= Z.max 0 (iclass_count c (p_class p))) ps.

Lemma inside_empty cl own a l h : h <= l -> inside cl own (mkRead a l h).
Proof. intros H i. cbn. lia. Qed.
Lemma inside_le cl own a l h : 0 <= l -> h <= length_of cl own a -> inside cl own (mkRead a l h).
Proof. intros A B i. cbn. lia. Qed.
Lemma inside_values cl own i p h : nth_error (params cl) i = Some p -> h <= Z.max 0 (p_len p) ->
  inside cl own (mkRead (Values i) 0 h).
Proof.
  intros N H j. cbn [lo hi r_array]. unfold length_of. destruct cl; rewrite N; lia.
Qed.

Lemma positions_found ps : forall i f r, positions i ps f = Some r ->
  f = Some r \/ exists j p, r = ((i + j)%nat, snd r) /\ nth_error ps j = Some p /\ position_width p = Some (snd r).
Proof.
  induction ps as [|p t IH]; intros i f r H; [now left|]. cbn in H. apply IH in H. destruct H as [H|(j & q & A & B & C)].
  - destruct (position_width p) as [w|] eqn:W; [|now left]. inversion H. subst. right. exists 0%nat, p.
    rewrite Nat.add_0_r. auto.
  - right. exists (S j), q. rewrite Nat.add_succ_r. auto.
Qed.
Lemma position_width_element p w : proper_position p -> position_width p = Some w ->
  p_class p = Vertex /\ 0 < w <= element p.
Proof.
  unfold proper_position, position_width. intros P H. destruct (p_class p); try discriminate.
  specialize (P eq_refl). destruct (p_name p); inversion H; subst; split; (reflexivity || lia).
Qed.

Lemma user_reads_inside cl own d c rest : Forall (covers c) rest -> fewer d c rest ->
  forall i, (forall j p, nth_error rest j = Some p -> nth_error (params cl) (i + j) = Some p) ->
  Forall (inside cl own) (user_reads d i rest).
Proof.
  induction rest as [|p r IH]; intros C F i N; [constructor|]. inversion C as [|? ? [C1 _] C2]; subst.
  inversion F as [|? ? F1 F2]; subst. cbn [user_reads].
  assert (R : Forall (inside cl own) (user_reads d (S i) r)).
  { apply IH; auto. intros j q J. replace (S i + j)%nat with (i + S j)%nat by lia. now apply N. }
  destruct (position_width p); [exact R|]. constructor; [|exact R].
  apply inside_values with (p := p).
  - rewrite <- (N 0%nat p eq_refl). f_equal. lia.
  - rewrite class_values_eq, value_entries_eq.
    pose proof (type_count_pos (p_type p)). etransitivity; [|exact C1]. apply Z.mul_le_mono_nonneg_r; [lia|].
    apply Z.mul_le_mono_nonneg_r; lia.
Qed.

Lemma param_reads_inside cl own d c : Forall proper_position (params cl) ->
  check_params c (params cl) = Some true -> fewer d c (params cl) ->
  Forall (inside cl own) (param_reads d (params cl)).
Proof.
  intros P C F. apply check_params_covers in C. unfold param_reads. apply Forall_app. split.
  - destruct (positions 0 (params cl) None) as [[i w]|] eqn:E; [|constructor]. constructor; [|constructor].
    apply positions_found in E as [E|(j & p & A & B & W)]; [discriminate|]. cbn in A, W. inversion A; subst i.
    unfold fewer in F. rewrite Forall_forall in P, C, F. pose proof (nth_error_In _ _ B) as I.
    destruct (position_width_element p w (P _ I) W) as [V [W1 W2]].
    destruct (C _ I) as [_ C2]. specialize (F _ I). rewrite V in F. cbn in F.
    apply inside_values with (p := p); [exact B|].
    destruct (Z.le_gt_cases (vertex d) 0) as [N|N]; [nia|]. specialize (C2 V ltac:(lia) ltac:(lia)). nia.
  - apply user_reads_inside with (c := c); auto.
Qed.

(* Counts. *)
Lemma steps_total l : nonneg l -> steps l = total l.
Proof.
  induction 1 as [|x r X F IH]; cbn; [reflexivity|]. rewrite IH. unfold total. lia.
Qed.
Lemma total_nonneg l : nonneg l -> 0 <= total l.
Proof. induction 1; cbn; unfold total in *; lia. Qed.
Lemma take_all n l : size l <= n -> take n l = l.
Proof.
  revert n. induction l as [|x r IH]; intros n H; [reflexivity|]. unfold size in *. cbn [take length] in *.
  destruct (0 <? n) eqn:L; [|apply Z.ltb_ge in L; lia]. f_equal. apply IH. lia.
Qed.
Lemma take_firstn n l : take n l = firstn (Z.to_nat n) l.
Proof.
  revert n. induction l as [|x r IH]; intros n; [now rewrite firstn_nil|]. cbn [take].
  destruct (0 <? n) eqn:L.
  - apply Z.ltb_lt in L. replace (Z.to_nat n) with (S (Z.to_nat (n - 1))) by lia. cbn. now rewrite IH.
  - apply Z.ltb_ge in L. now replace (Z.to_nat n) with 0%nat by lia.
Qed.
Lemma drop_skipn n l : drop n l = skipn (Z.to_nat n) l.
Proof.
  revert n. induction l as [|x r IH]; intros n; [now rewrite skipn_nil|]. cbn [drop].
  destruct (0 <? n) eqn:L.
  - apply Z.ltb_lt in L. replace (Z.to_nat n) with (S (Z.to_nat (n - 1))) by lia. cbn. now rewrite IH.
  - apply Z.ltb_ge in L. now replace (Z.to_nat n) with 0%nat by lia.
Qed.
Lemma take_In n l x : In x (take n l) -> In x l.
Proof.
  revert n. induction l as [|y r IH]; cbn; intros n H; [exact H|]. destruct (0 <? n); [|destruct H].
  destruct H; eauto.
Qed.

Lemma max_from_ge a : forall m, m <= max_from m a.
Proof.
  induction a as [|x r IH]; cbn; intros m; [lia|]. destruct (m <? x) eqn:L; [|apply IH].
  apply Z.ltb_lt in L. specialize (IH x). lia.
Qed.
Lemma max_from_In a : forall m x, In x a -> x <= max_from m a.
Proof.
  induction a as [|y r IH]; cbn; intros m x H; [destruct H|]. destruct H as [E|H]; [|now apply IH].
  subst y. etransitivity; [|apply max_from_ge]. destruct (m <? x) eqn:L; [lia|apply Z.ltb_ge in L; lia].
Qed.
Lemma max_ge a x : In x a -> x <= max a.
Proof. destruct a; [intros []|]. unfold max. apply max_from_In. Qed.
Lemma max_from_val a : forall m, max_from m a = m \/ In (max_from m a) a.
Proof.
  induction a as [|y r IH]; cbn; intros m; [now left|]. destruct (IH (if m <? y then y else m)) as [E|E]; [|auto].
  rewrite E. destruct (m <? y); auto.
Qed.

Definition ints (l : list Z) : Prop := Forall fits_int l.
Lemma top_ok l : forall m v, 0 <= m -> top m l = Some v -> m <= v /\ (forall x, In x l -> x < v) /\
  (v = m \/ exists x, In x l /\ v = x + 1).
Proof.
  induction l as [|x r IH]; intros m v M H; cbn in H.
  - inversion H; subst. split; [lia|]. split; [intros y []|now left].
  - use_bind H y Y. apply int_some in Y as [-> _]. apply IH in H as (A & B & C); [|lia]. split; [lia|]. split.
    + intros z [E|Z]; [subst; lia|auto].
    + destruct C as [C|(z & Z & C)]; [|right; exists z; cbn; auto].
      destruct (Z.max_spec (x + 1) m) as [[L1 E]|[L1 E]]; rewrite E in C; [now left|right; exists x; cbn; auto].
Qed.
Lemma top_defined l b : forall m, fits_int b -> Forall (fun x => -2147483649 <= x < b) l -> exists v, top m l = Some v.
Proof.
  induction l as [|x r IH]; intros m B F; cbn; [eauto|]. inversion F; subst. unfold add. rewrite int_fits; [|unfold fits_int in *; lia].
  now apply IH.
Qed.

Lemma sum_ok l t : sum l = Some t -> t = total l.
Proof. intros H. apply sum_from_ok in H. lia. Qed.
Lemma sum_from_defined l : forall s, nonneg l -> 0 <= s -> fits_int (s + total l) -> sum_from s l = Some (s + total l).
Proof.
  induction l as [|x r IH]; intros s N S1 F; cbn; [f_equal; lia|]. inversion N; subst. pose proof (total_nonneg r H2).
  unfold total in *. cbn in F. unfold add. rewrite int_fits by (unfold fits_int in *; lia).
  rewrite IH; auto; [f_equal; lia|lia|unfold fits_int in *; lia].
Qed.
Lemma sum_defined l : nonneg l -> fits_int (total l) -> sum l = Some (total l).
Proof. intros A B. unfold sum. rewrite sum_from_defined; auto; lia. Qed.
Lemma total_app a b : total (a ++ b) = total a + total b.
Proof. unfold total. induction a; cbn; lia. Qed.
Lemma size_app {A} (a b : list A) : size (a ++ b) = size a + size b.
Proof. unfold size. rewrite app_length. lia. Qed.
Lemma size_nonneg {A} (a : list A) : 0 <= size a. Proof. unfold size. lia. Qed.
Lemma size_cons {A} (x : A) a : size (x :: a) = size a + 1. Proof. unfold size. cbn. lia. Qed.

(** Prefixes. *)
Lemma total_take n l : nonneg l -> 0 <= total (take n l) <= total l.
Proof.
  intros N. revert n. induction N as [|x r X F IH]; intros n; cbn [take]; [unfold total; cbn; lia|].
  cbn beta in X. pose proof (total_nonneg r F). specialize (IH (n - 1)). unfold total in *. destruct (0 <? n); cbn [fold_right]; lia.
Qed.
Lemma Forall_take P n (l : list Z) : Forall P l -> Forall P (take n l).
Proof. intros H. rewrite Forall_forall in *. intros x X. apply H. eapply take_In, X. Qed.

Lemma facet_reads_inside cl own verts nverts : nonneg nverts -> forall pos,
  0 <= pos -> pos + total nverts <= length_of cl own Verts ->
  Forall (inside cl own) (facet_reads pos verts nverts).
Proof.
  induction 1 as [|n r N F IH]; intros pos P H; cbn; [constructor|]. pose proof (total_nonneg r F).
  unfold total in *. cbn [fold_right] in H. cbn beta in N. constructor; [apply inside_le; lia|apply IH; lia].
Qed.
Lemma loop_reads_inside cl own verts nverts : positive nverts -> forall pos,
  0 <= pos -> pos + total nverts <= length_of cl own Verts ->
  Forall (inside cl own) (loop_reads pos verts nverts).
Proof.
  intros F. induction F as [|n r N F IH]; intros pos P H; cbn; [constructor|].
  assert (0 <= total r) by (apply total_nonneg; revert F; apply Forall_impl; intros; lia).
  unfold total in *. cbn [fold_right] in H. cbn beta in N. rewrite Z.max_r by lia.
  constructor; [apply inside_le; lia|]. constructor; [apply inside_le; lia|apply IH; lia].
Qed.
Lemma own_reads_inside cl own l : (forall x, In x l -> 0 <= x < own) -> Forall (inside cl own) (own_reads l).
Proof.
  intros H. apply Forall_map, Forall_forall. intros x X. apply inside_le; [apply H in X; lia|].
  specialize (H x X). destruct cl; cbn; lia.
Qed.

(* Trim curves. *)
Lemma entry_nth l i : 0 <= i -> entry l i = nth (Z.to_nat i) l 0.
Proof. intros H. unfold entry. destruct (i <? 0) eqn:L; [apply Z.ltb_lt in L; lia|reflexivity]. Qed.
Lemma skipn_cons (l : list Z) k : (k < length l)%nat -> skipn k l = nth k l 0 :: skipn (S k) l.
Proof.
  revert k. induction l as [|x r IH]; intros k H; cbn in H; [lia|]. destruct k; [reflexivity|]. cbn. apply IH. lia.
Qed.
Lemma total_skipn l k : nonneg l -> total l = total (firstn k l) + total (skipn k l).
Proof. intros _. rewrite <- total_app. now rewrite firstn_skipn. Qed.
Lemma nonneg_skipn l k : nonneg l -> nonneg (skipn k l).
Proof. intros H. unfold nonneg in *. rewrite <- (firstn_skipn k l) in H. now apply Forall_app in H. Qed.
Lemma nonneg_nth l k : nonneg l -> 0 <= nth k l 0.
Proof. intros H. revert k. induction H; intros [|k]; cbn; auto; lia. Qed.

Lemma trim_reads_inside cl own count order n : nonneg order -> nonneg n ->
  forall j knot vert, (j + count <= length order)%nat -> (j + count <= length n)%nat ->
  length_of cl own Orders = size order -> length_of cl own Lengths = size n ->
  0 <= knot -> knot + total (skipn j order) + total (skipn j n) <= length_of cl own Knots ->
  0 <= vert -> (forall a, In a [Us; Vs; Ws] -> vert + total (skipn j n) <= length_of cl own a) ->
  Forall (inside cl own) (trim_reads count order n (Z.of_nat j) knot vert).
Proof.
  intros NO NN. induction count as [|k IH]; intros j knot vert J1 J2 LO LN K1 K2 V1 V2; [constructor|].
  cbn [trim_reads]. rewrite !entry_nth by lia. rewrite !Nat2Z.id.
  rewrite (skipn_cons order) in K2 by lia. rewrite (skipn_cons n) in K2 by lia.
  rewrite (skipn_cons n) in V2 by lia.
  pose proof (nonneg_nth order j NO). pose proof (nonneg_nth n j NN).
  pose proof (total_nonneg _ (nonneg_skipn order (S j) NO)). pose proof (total_nonneg _ (nonneg_skipn n (S j) NN)).
  set (o := nth j order 0) in *. set (c := nth j n 0) in *.
  assert (TO : forall x r, total (x :: r) = x + total r) by reflexivity. rewrite !TO in K2.
  assert (V3 : forall a, In a [Us; Vs; Ws] -> vert + c + total (skipn (S j) n) <= length_of cl own a).
  { intros a A. specialize (V2 a A). rewrite TO in V2. lia. }
  cbn [app].
  assert (VU := V3 Us (or_introl eq_refl)). assert (VV := V3 Vs (or_intror (or_introl eq_refl))).
  assert (VW := V3 Ws (or_intror (or_intror (or_introl eq_refl)))).
  unfold size in LO, LN.
  do 6 (constructor; [apply inside_le; lia|]).
  rewrite !Z.max_r by lia. replace (Z.of_nat j + 1) with (Z.of_nat (S j)) by lia.
  apply IH; try lia; auto.
Qed.

(* Tags. *)
Lemma sum_step_ok l : forall b s t, sum_step s b l = Some t ->
  t = s + total (if b then evens l else odds l).
Proof.
  induction l as [|x r IH]; intros b s t H; cbn in H.
  - inversion H. destruct b; cbn; unfold total; cbn; lia.
  - destruct b.
    + use_bind H u U. apply int_some in U as [-> _]. apply IH in H. cbn. cbn in H. unfold total in *. cbn. lia.
    + apply IH in H. cbn. cbn in H. exact H.
Qed.
Lemma evens_odds_nonneg l : nonneg l -> nonneg (evens l) /\ nonneg (odds l).
Proof.
  induction 1 as [|x r X F [A B]]; cbn; [split; constructor|]. split; [constructor; auto|exact A].
Qed.

Lemma size_filter_In v l : In v l -> 1 <= size (filter (Z.eqb v) l).
Proof.
  intros H. assert (In v (filter (Z.eqb v) l)) by (apply filter_In; split; [exact H|apply Z.eqb_refl]).
  destruct (filter (Z.eqb v) l); [contradiction|]. unfold size. cbn. lia.
Qed.

Lemma skip_skip {A} (l : list A) a b : skipn b (skipn a l) = skipn (a + b) l.
Proof. revert l. induction a; intros l; [reflexivity|]. destruct l; [now rewrite !skipn_nil|]. cbn. apply IHa. Qed.

Section Tags.
  Variables (nverts verts : list Z) (alltags : list tag) (nargs intargs : list Z) (floatargs : Z) (ps : list param).
  Let cl := SubdivisionMesh nverts verts alltags nargs intargs floatargs ps.
  Variable own : Z.
  Let fv := face_verts nverts verts.
  Hypothesis own_top : forall x, In x fv -> 0 <= x < own.
  Hypothesis own_least : own = 0 \/ exists x, In x fv /\ own = x + 1.

  Lemma tag_vertex_inside x : known_vertex fv x -> Forall (inside cl own) (tag_vertex own x).
  Proof.
    intros K. unfold tag_vertex. destruct (x <? own) eqn:L; [|constructor]. apply Z.ltb_lt in L.
    assert (I : In x fv).
    { destruct K as [K|[K1 K2]]; [exact K|]. exfalso. destruct own_least as [E|(y & Y & E)]; [lia|].
      rewrite Forall_forall in K2. specialize (K2 y Y). lia. }
    constructor; [|constructor; [|constructor]].
    - apply inside_le; [apply own_top in I; lia|]. cbn. apply own_top in I. lia.
    - apply inside_le; [lia|]. cbn. now apply size_filter_In.
  Qed.
  Lemma crease_edges_inside l : Forall (known_vertex fv) l -> Forall (inside cl own) (crease_edges own l).
  Proof.
    induction 1 as [|x r X F IH]; [constructor|]. cbn [crease_edges]. destruct r as [|y r]; [constructor|].
    apply Forall_app. split; [|exact IH]. destruct (y <? own); [now apply tag_vertex_inside|constructor].
  Qed.

  Lemma tag_reads_inside tags : forall argc it fl,
    Z.of_nat argc + 2 * size tags <= size nargs -> nonneg nargs -> 0 <= it -> 0 <= fl ->
    it + total (evens (skipn argc nargs)) <= size intargs -> fl + total (odds (skipn argc nargs)) <= floatargs ->
    Forall (proper_tag fv) (tag_args tags (skipn argc nargs) (skipn (Z.to_nat it) intargs)) ->
    Forall (inside cl own) (tag_reads own nargs intargs (Z.of_nat argc) fl it tags).
  Proof.
    induction tags as [|t r IH]; intros argc it fl A NN I0 F0 HI HF P; [constructor|].
    rewrite size_cons in A. pose proof (size_nonneg r).
    assert (L : (S argc < length nargs)%nat) by (unfold size in *; lia).
    rewrite (skipn_cons nargs argc) in HI, HF, P by lia. rewrite (skipn_cons nargs (S argc)) in HI, HF, P by lia.
    cbn [evens odds tag_args] in HI, HF, P.
    cbn [tag_reads]. rewrite !entry_nth by lia. rewrite Nat2Z.id.
    replace (Z.to_nat (Z.of_nat argc + 1)) with (S argc) by lia.
    set (ni := nth argc nargs 0) in *. set (nf := nth (S argc) nargs 0) in *.
    assert (N1 : 0 <= ni) by now apply nonneg_nth. assert (N2 : 0 <= nf) by now apply nonneg_nth.
    destruct (evens_odds_nonneg _ (nonneg_skipn nargs (S (S argc)) NN)) as [E1 E2].
    apply total_nonneg in E1, E2.
    assert (TO : forall x r, total (x :: r) = x + total r) by reflexivity. rewrite !TO in HI, HF.
    inversion P as [|? ? P1 P2]; subst. rewrite take_firstn, drop_skipn.
    assert (NA : forall a b, 0 <= a -> b <= Z.of_nat argc + 2 -> inside cl own (mkRead Nargs a b)).
    { intros a b X Y. apply inside_le; [lia|]. cbn. lia. }
    assert (IA : inside cl own (mkRead Intargs it (it + ni))) by (apply inside_le; [lia|cbn; lia]).
    apply Forall_app. split.
    - destruct t; cbn in P1.
      + constructor.
      + destruct P1 as [P1 P3]. constructor; [apply inside_le; [lia|cbn; lia]|].
        constructor; [apply NA; lia|]. apply Forall_app. split.
        * destruct (1 <? ni); [constructor; [exact IA|constructor]|constructor].
        * now apply crease_edges_inside.
      + constructor; [apply NA; lia|]. constructor; [exact IA|]. apply Forall_flat_map.
        revert P1. apply Forall_impl. intros x. apply tag_vertex_inside.
      + constructor; [apply NA; lia|]. constructor; [exact IA|constructor].
      + constructor.
    - constructor; [apply NA; lia|]. replace (Z.of_nat argc + 2) with (Z.of_nat (S (S argc))) by lia.
      apply IH; auto; try lia.
      replace (Z.to_nat (it + ni)) with (Z.to_nat it + Z.to_nat ni)%nat by lia.
      rewrite <- skip_skip. exact P2.
  Qed.
End Tags.

(* The calls. *)
Lemma firstn_In {A} n (l : list A) x : In x (firstn n l) -> In x l.
Proof. intros H. rewrite <- (firstn_skipn n l). apply in_or_app. now left. Qed.

Lemma fewer_refl c ps : fewer c c ps.
Proof. apply Forall_forall. intros. lia. Qed.
Lemma fewer_le d c ps : uniform d <= Z.max 0 (uniform c) -> varying d <= Z.max 0 (varying c) ->
  vertex d <= Z.max 0 (vertex c) -> facevarying d <= Z.max 0 (facevarying c) ->
  facevertex d <= Z.max 0 (facevertex c) -> fewer d c ps.
Proof. intros. apply Forall_forall. intros p _. destruct (p_class p); cbn; lia. Qed.

Lemma top_bound l b : Forall (fun x => -2147483648 <= x <= b) l -> b < 2147483647 ->
  exists v, top 0 l = Some v /\ v <= Z.max 0 (b + 1) /\ (forall x, In x l -> x < v) /\ 0 <= v /\
    (v = 0 \/ exists x, In x l /\ v = x + 1).
Proof.
  intros F B. destruct (top_defined l (Z.max 0 (b + 1)) 0) as [v V].
  - unfold fits_int. lia.
  - revert F. apply Forall_impl. intros; lia.
  - exists v. split; [exact V|]. destruct (top_ok l 0 v ltac:(lia) V) as (A1 & A2 & A3).
    split; [|auto]. destruct A3 as [E|(x & X & E)]; [lia|].
    rewrite Forall_forall in F. apply F in X. lia.
Qed.

Lemma sum_from_prefix a : forall s t n, nonneg a -> 0 <= s -> sum_from s a = Some t ->
  exists u, sum_from s (take n a) = Some u.
Proof.
  induction a as [|x r IH]; intros s t n N S0 H; cbn in *; [eauto|].
  use_bind H u U. pose proof U as U2. apply int_some in U2 as [-> _]. inversion N; subst.
  destruct (0 <? n); cbn; [|eauto]. rewrite U. eapply IH; eauto. lia.
Qed.
Lemma sum_entries a : forall s t, nonneg a -> 0 <= s -> sum_from s a = Some t -> Forall (fun x => 0 <= x <= 2147483647) a.
Proof.
  induction a as [|x r IH]; intros s t N S0 H; cbn in *; [constructor|].
  use_bind H u U. apply int_some in U as [-> F]. inversion N; subst. constructor; [unfold fits_int in F; lia|].
  eapply IH; [auto| |eauto]. lia.
Qed.
Lemma steps_unsigned l t : nonneg l -> sum l = Some t -> steps (map unsigned l) = t.
Proof.
  intros N H. pose proof (sum_ok _ _ H) as T. apply sum_entries in H; [|auto|lia].
  rewrite steps_total.
  - subst t. f_equal. clear N. induction H as [|x r X F IH]; [reflexivity|]. cbn. rewrite IH.
    unfold unsigned. rewrite Z.mod_small by lia. reflexivity.
  - apply Forall_map, Forall_forall. intros x _. unfold unsigned. pose proof (Z.mod_pos_bound x 4294967296). lia.
Qed.

Lemma polygon_like n ps own cl : params cl = ps ->
  Forall proper_position ps -> check_params (mkCounts 1 n n n n) ps = Some true ->
  Forall (inside cl own) (param_reads (mkCounts 1 n n n n) ps).
Proof. intros E P C. subst ps. eapply param_reads_inside; eauto. apply fewer_refl. Qed.

Lemma size_le_firstn n (l : list Z) : 0 <= n <= size l -> size (firstn (Z.to_nat n) l) = n.
Proof. unfold size. intros H. rewrite firstn_length_le; lia. Qed.

Lemma curve_parts periodic step n q : enough true periodic n step -> pieces true periodic n step q -> 0 <= q.
Proof. intros _ [H _]. exact H. Qed.

Lemma segment_value n step k : enough true false n step ->
  match sub n 4 with Some a => match div a step with Some b => add b 1 | None => None end | None => None end = Some k ->
  1 <= k.
Proof.
  intros [P [_ E]] H. unfold width in E. use_bind H a HA. use_bind H b HB. apply int_some in HA as [-> _].
  apply int_some in H as [-> _]. unfold div in HB. destruct (step =? 0); [discriminate|]. apply int_some in HB as [-> _].
  assert (0 <= Z.quot (n - 4) step) by (apply Z.quot_pos; lia). lia.
Qed.
Lemma segment_count_ge step nverts : forall s t, Forall (fun n => enough true false n step) nverts ->
  segment_count s false step nverts = Some t -> s <= t.
Proof.
  induction nverts as [|n r IH]; cbn; intros s t F H; [inversion H; lia|]. inversion F; subst.
  use_bind H k K. use_bind H s1 S1. apply segment_value in K; [|assumption]. apply int_some in S1 as [-> _].
  apply IH in H; [lia|assumption].
Qed.
Lemma varying_defined step nverts : forall s t e, Forall (fun n => enough true false n step) nverts ->
  segment_count s false step nverts = Some t -> 0 <= s -> 0 <= e -> fits_int (t + e + size nverts) ->
  exists v, cubic_varying (s + e) false step nverts = Some v.
Proof.
  induction nverts as [|n r IH]; intros s t e F H S0 E0 G; [cbn; eauto|]. inversion F; subst.
  cbn [segment_count] in H. use_bind H k K. use_bind H s1 S1. pose proof (segment_value _ _ _ H2 K) as K1.
  apply int_some in S1 as [-> S1]. pose proof (segment_count_ge _ _ _ _ H3 H) as GE. rewrite size_cons in G.
  pose proof (size_nonneg r). cbn [cubic_varying]. use_bind K a HA. use_bind K b HB. rewrite HA, HB, K.
  unfold add at 1. rewrite int_fits by (unfold fits_int in *; lia). unfold add at 1.
  rewrite int_fits by (unfold fits_int in *; lia). replace (s + e + (k + 1)) with (s + k + (e + 1)) by lia.
  eapply IH; eauto; try lia. replace (t + (e + 1) + size r) with (t + e + (size r + 1)) by lia. exact G.
Qed.
Lemma varying_periodic step nverts : forall s, cubic_varying s true step nverts = segment_count s true step nverts.
Proof.
  induction nverts as [|n r IH]; intros s; [reflexivity|]. cbn. destruct (div n step); [|reflexivity].
  destruct (add s z); [apply IH|reflexivity].
Qed.
Lemma group_defined cubic nverts periodic step c :
  Forall (fun n => enough cubic periodic n (if cubic then step else 1)) nverts ->
  curves_counts cubic nverts periodic step true = Some c ->
  exists d, group_counts cubic periodic step nverts = Some d.
Proof.
  unfold curves_counts, group_counts. intros F C. use_bind C t T. rewrite T. destruct cubic; [|eauto].
  use_bind C s HS. use_bind C e E. destruct periodic.
  - rewrite varying_periodic, HS. eauto.
  - apply int_some in E as [-> E]. destruct (varying_defined step nverts 0 s 0 F HS ltac:(lia) ltac:(lia)) as (v & V).
    { unfold size. rewrite Z.add_0_r. exact E. }
    cbn [Z.add] in V. rewrite V. eauto.
Qed.

Lemma sum_from_fits a : forall s t, fits_int s -> sum_from s a = Some t -> fits_int t.
Proof.
  induction a as [|x a IH]; intros s t F H; cbn [sum_from] in H; [now inversion H; subst|].
  use_bind H u U. apply int_some in U as [-> U]. eauto.
Qed.
Lemma sum_fits a t : sum a = Some t -> fits_int t.
Proof. apply sum_from_fits. unfold fits_int. lia. Qed.
Lemma loops_read_inside cl own l : positive l -> Forall (inside cl own) (loops_read l).
Proof.
  intros H. unfold loops_read. apply Forall_map. revert H. apply Forall_impl. intros n N.
  apply inside_le; [lia|]. cbn. destruct cl; lia.
Qed.

Theorem reads_inside us vs cl : accepts us vs true false cl = Some true -> proper vs cl ->
  exists own rs, reads us vs cl = Some (own, rs) /\ Forall (inside cl own) rs.
Proof.
  intros A [PP P]. destruct cl; cbn [accepts reads params] in *.
  - (* Polygon *)
    destruct (count_p ps) as [n|] eqn:E; [|discriminate]. use_check A C. eexists _, _. split; [reflexivity|].
    eapply polygon_like; eauto.
  - (* GeneralPolygon *)
    use_bind A n HN. use_check A C. rewrite HN.
    apply sum_ok in HN as T. destruct P as (P0 & P1 & P2 & P3 & P4).
    assert (PN : nonneg nverts) by (revert P0; apply Forall_impl; intros; lia).
    pose proof (size_nonneg tris) as SN. pose proof (Z.mul_div_le (size tris) 3 ltac:(lia)) as TD.
    pose proof (Z.div_pos (size tris) 3 SN ltac:(lia)) as TP.
    unfold mul. rewrite int_fits by (unfold fits_int in *; lia).
    destruct (top_bound (take (size tris / 3 * 3) tris) (total nverts - 1)) as (w & W & W1 & W2 & W3 & W4).
    { apply Forall_forall. intros x X. apply take_In in X. rewrite Forall_forall in P3. apply P3 in X. lia. }
    { apply sum_fits in HN. unfold fits_int in HN. lia. }
    rewrite W. eexists _, _. split; [reflexivity|].
    rewrite steps_total by auto. rewrite !Forall_app. split; [|split; [|split]].
    + eapply polygon_like; eauto.
    + do 3 (constructor; [apply inside_le; cbn; lia|]). constructor.
    + now apply loops_read_inside.
    + apply (param_reads_inside (GeneralPolygon nverts tris ps)) with (c := mkCounts 1 n n n n); auto.
      apply Forall_forall. intros p I. destruct P4 as [P4|P4].
      * rewrite Forall_forall in P4. apply P4 in I as [Q1 Q2]. unfold of_face in Q2.
        destruct (p_class p); cbn; try lia; exfalso; auto.
      * assert (size tris / 3 <= 1) by (apply Z.div_le_upper_bound; lia). destruct (p_class p); cbn; lia.
  - (* PointsPolygons *)
    use_bind A n HN. use_check A C0. apply check_size_ok in C0. use_bind A v V. apply int_some in V as [-> V].
    use_check A C. rewrite HN. apply sum_ok in HN as T. destruct P as [P0 P1].
    rewrite steps_total by auto.
    destruct (top_bound (take (total nverts) verts) (max verts)) as (w & W & W1 & W2 & W3 & W4).
    { apply Forall_forall. intros x X. apply take_In in X. split; [|now apply max_ge].
      unfold ints in P1. rewrite Forall_forall in P1. apply P1 in X. unfold fits_int in X. lia. }
    { unfold fits_int in V. lia. }
    rewrite W. eexists _, _. split; [reflexivity|]. constructor; [apply inside_le; [lia|cbn; lia]|].
    apply Forall_app. split.
    + apply (param_reads_inside (PointsPolygons nverts verts ps)) with (c := mkCounts (size nverts) (max verts + 1) (max verts + 1) n n); auto.
      apply fewer_le; cbn; lia.
    + apply own_reads_inside. intros x X. apply filter_In in X as [X L]. apply Z.ltb_lt in L. pose proof (W2 x X).
      split; [|assumption]. apply take_In in X. rewrite Forall_forall in P1. apply P1 in X.
      unfold unsigned, fits_int in *. destruct (Z.le_gt_cases 0 x); [assumption|].
      assert (x mod 4294967296 = x + 4294967296) by (symmetry; apply Z.mod_unique with (q := -1); lia). lia.
  - (* PointsGeneralPolygons *)
    use_bind A l L. use_check A C0. apply check_size_ok in C0. use_bind A n HN. use_check A C1. apply check_size_ok in C1.
    use_bind A v V. apply int_some in V as [-> V]. destruct P as (P0' & P1 & P2).
    assert (P0 : nonneg nloops) by (revert P0'; apply Forall_impl; intros; lia).
    rewrite (steps_unsigned _ _ P0 L). apply sum_ok in L as TL. apply sum_ok in HN as T.
    assert (PN : nonneg nverts) by (revert P1; apply Forall_impl; intros; lia).
    destruct (sum_from_prefix nverts 0 n l PN ltac:(lia) HN) as (k & K). unfold sum. rewrite K.
    apply sum_ok in K as TK. pose proof (total_take l nverts PN) as TT.
    rewrite steps_total by now apply Forall_take.
    destruct (top_bound (take (total (take l nverts)) verts) (max verts)) as (w & W & W1 & W2 & W3 & W4).
    { apply Forall_forall. intros x X. apply take_In in X. split; [|now apply max_ge].
      unfold nonneg in P2. rewrite Forall_forall in P2. apply P2 in X. lia. }
    { unfold fits_int in V. lia. }
    rewrite W. eexists _, _. split; [reflexivity|]. constructor; [apply inside_le; [lia|cbn; lia]|].
    constructor; [apply inside_le; [lia|cbn; lia]|].
    rewrite !Forall_app. split; [|split; [|split; [|split]]].
    + apply (param_reads_inside (PointsGeneralPolygons nloops nverts verts ps)) with (c := mkCounts (size nloops) (max verts + 1) (max verts + 1) n n); auto.
      apply fewer_le; cbn; lia.
    + apply loop_reads_inside; [now apply Forall_take|lia|cbn; lia].
    + apply own_reads_inside. intros x X. pose proof (W2 x X). apply take_In in X.
      unfold nonneg in P2. rewrite Forall_forall in P2. apply P2 in X. lia.
    + now apply loops_read_inside.
    + apply loops_read_inside. now apply Forall_take.
  - (* Patch *)
    eexists _, _. split; [reflexivity|]. apply (param_reads_inside (Patch cubic ps)) with (c := mkCounts 1 4 (if cubic then 16 else 4) 4 4); auto.
    apply fewer_refl.
  - (* PatchMesh *)
    destruct (nu <=? 0) eqn:NU; [discriminate|]. destruct (nv <=? 0) eqn:NV; [discriminate|].
    apply Z.leb_gt in NU, NV. use_bind A c C. 
    assert (G : exists m d, new_mesh cubic nu nv uper vper us vs = Some m /\ mesh_counts m = Some d /\
      uniform d = uniform c /\ varying d = varying c /\ vertex d = vertex c).
    { unfold patch_mesh_counts in C. use_bind C vt VT. unfold new_mesh, mesh_counts. destruct cubic; cbn [negb] in C.
      - use_bind C u U. use_bind C v V. use_bind C pt PT. use_bind C eu EU. use_bind C ev EV. use_bind C co CO.
        inversion C; subst. rewrite U, V. eexists _, _. split; [reflexivity|]. cbn [u_patches v_patches m_uper m_vper m_nu m_nv].
        rewrite PT, VT.
        assert (EU2 : (if uper then Some u else add u 1) = Some eu).
        { destruct uper; unfold add in *; [|rewrite Z.add_comm; exact EU]. apply int_some in EU as [-> _]. f_equal. }
        assert (EV2 : (if vper then Some v else add v 1) = Some ev).
        { destruct vper; unfold add in *; [|rewrite Z.add_comm; exact EV]. apply int_some in EV as [-> _]. f_equal. }
        rewrite EU2, EV2, CO. split; [reflexivity|]. cbn. auto.
      - use_bind C u U. use_bind C v V. use_bind C pt PT. inversion C; subst. rewrite U, V.
        eexists _, _. split; [reflexivity|]. cbn [u_patches v_patches m_uper m_vper m_nu m_nv]. rewrite PT, VT.
        assert (EU2 : (if uper then Some u else add u 1) = Some nu).
        { destruct uper; [now symmetry|]. unfold sub, add in *. apply int_some in U as [-> F]. rewrite int_fits; [f_equal; lia|].
          apply int_some in VT as [_ VT]. unfold fits_int in *. nia. }
        assert (EV2 : (if vper then Some v else add v 1) = Some nv).
        { destruct vper; [now symmetry|]. unfold sub, add in *. apply int_some in V as [-> F]. rewrite int_fits; [f_equal; lia|].
          apply int_some in VT as [_ VT]. unfold fits_int in *. nia. }
        rewrite EU2, EV2, VT. split; [reflexivity|]. cbn. auto. }
    destruct G as (m & d & M & D & D1 & D2 & D3). rewrite M, D. eexists _, _. split; [reflexivity|].
    apply (param_reads_inside (PatchMesh cubic nu uper nv vper ps)) with (c := c); auto.
    cbn [params]. unfold fewer. apply Forall_forall. intros p IP. rewrite Forall_forall in P. specialize (P p IP). unfold of_face in P.
    destruct (p_class p) eqn:PC; cbn; try lia; exfalso; apply P; auto.
  - (* NuPatch *)
    destruct (nu <=? 0) eqn:NU; [discriminate|]. destruct (uorder <=? 0) eqn:UO; [discriminate|].
    use_bind A ku KU. use_check A C1.
    destruct (nv <=? 0) eqn:NV; [discriminate|]. destruct (vorder <=? 0) eqn:VO; [discriminate|].
    use_bind A kv KV. use_check A C2. apply Z.leb_gt in NU, UO, NV, VO. apply check_size_ok in C1, C2.
    use_bind A a0 A0. use_bind A a1 A1. use_bind A a AA. use_bind A b0 B0. use_bind A b1 B1. use_bind A b BB.
    use_bind A s SS. use_bind A v V. rewrite KU, KV, A0, A1, B0, B1, AA, BB, SS, V.
    apply int_some in A0 as [-> _]. apply int_some in A1 as [-> _]. apply int_some in AA as [-> _].
    apply int_some in B0 as [-> _]. apply int_some in B1 as [-> _]. apply int_some in BB as [-> _].
    apply int_some in SS as [-> SS]. destruct P as [P1 P2].
    unfold mul at 1. rewrite int_fits by (unfold fits_int in *; nia).
    eexists _, _. split; [reflexivity|]. constructor; [apply inside_le; [lia|cbn; lia]|].
    constructor; [apply inside_le; [lia|cbn; lia]|].
    apply (param_reads_inside (NuPatch nu uorder uknots nv vorder vknots ps)) with (c := mkCounts ((1 + nu - uorder + 1) * (1 + nv - vorder + 1)) ((1 + nu - uorder + 1) * (1 + nv - vorder + 1)) v
      ((1 + nu - uorder + 1) * (1 + nv - vorder + 1)) ((1 + nu - uorder + 1) * (1 + nv - vorder + 1))); auto.
    apply fewer_le; cbn [uniform varying vertex facevarying facevertex]; nia.
  - (* TrimCurve *)
    use_bind A c C. use_check A C1. use_bind A o HO. use_bind A m M. use_bind A k K. use_check A C2. use_check A C3.
    use_check A C4. use_check A C5. use_check A C6. use_check A C7.
    apply check_size_ok in C1, C2, C3, C4, C5, C6, C7, A. apply int_some in K as [-> _].
    apply sum_ok in C as ->. apply sum_ok in HO as ->. apply sum_ok in M as ->. destruct P as (P0 & P1 & P2).
    eexists _, _. split; [reflexivity|]. rewrite steps_total by auto. pose proof (total_nonneg _ P0).
    unfold size in *.
    apply (trim_reads_inside (TrimCurve ncurves order knots mins maxs n us0 vs0 ws) 0 (Z.to_nat (total ncurves)) order n P1 P2 0%nat 0 0); auto; try (cbn [skipn length_of]; lia).
    cbn [skipn]. intros a [E|[E|[E|[]]]]; subst a; cbn [length_of]; lia.
  - (* SubdivisionMesh *)
    use_bind A n HN. use_check A C1. use_bind A t T. use_check A C2. use_bind A i HI. use_check A C3.
    use_bind A f F. use_check A C4. use_bind A v V. apply int_some in V as [-> V]. apply int_some in T as [-> _].
    apply check_size_ok in C1, C2, C3, C4. apply sum_step_ok in HI, F. rewrite HN. apply sum_ok in HN as TN.
    destruct P as (P0 & P1 & P2 & P3). rewrite steps_total by auto.
    destruct (top_bound (take (total nverts) verts) (max verts)) as (w & W & W1 & W2 & W3 & W4).
    { apply Forall_forall. intros x X. apply take_In in X. split; [|now apply max_ge].
      unfold nonneg in P1. rewrite Forall_forall in P1. apply P1 in X. lia. }
    { unfold fits_int in V. lia. }
    assert (OWN : forall x, In x (take (total nverts) verts) -> 0 <= x < w).
    { intros x X. split; [|now apply W2]. apply take_In in X. unfold nonneg in P1. rewrite Forall_forall in P1. now apply P1. }
    rewrite W. eexists _, _. split; [reflexivity|]. constructor; [apply inside_le; [lia|cbn; lia]|].
    apply Forall_app. split; [|apply Forall_app; split; [|apply Forall_app; split]].
    + apply (param_reads_inside (SubdivisionMesh nverts verts tags nargs intargs floatargs ps)) with (c := mkCounts (size nverts) (max verts + 1) (max verts + 1) n n); auto.
      apply fewer_le; cbn; lia.
    + apply facet_reads_inside; [auto|lia|cbn; lia].
    + now apply own_reads_inside.
    + rewrite take_firstn in OWN, W4.
      apply (tag_reads_inside nverts verts tags nargs intargs floatargs ps w OWN W4 tags 0%nat 0 0); auto;
        cbn [skipn]; cbv iota in HI, F; lia.
  - (* Quadric *)
    eexists _, _. split; [reflexivity|]. eapply polygon_like; eauto. 
  - (* Points *)
    destruct (count_p ps) as [n|] eqn:E; [|discriminate]. use_check A C. eexists _, _. split; [reflexivity|].
    eapply polygon_like; eauto.
  - (* Curves *)
    use_bind A c C. use_check A C1.
    destruct (group_defined _ _ _ _ _ P C) as (d & D). rewrite D.
    destruct (core_curves_counts _ _ _ _ _ _ P C D) as (D1 & D2 & D3).
    eexists _, _. split; [reflexivity|].
    apply (param_reads_inside (Curves cubic nverts periodic ps)) with (c := c); auto.
    assert (F : facevarying d = 0 /\ facevertex d = 0).
    { unfold group_counts in D. use_bind D a B. use_bind D b B2. inversion D. auto. }
    assert (F2 : facevarying c = 1 /\ facevertex c = 1).
    { unfold curves_counts in C. use_bind C a B. destruct cubic; [use_bind C e E; use_bind C g G|]; inversion C; auto. }
    destruct F, F2. apply fewer_le; lia.
Qed.

(* The converse: nothing more is asked. *)
Lemma position_width_is p : is_position p = match position_width p with Some _ => true | None => false end.
Proof. unfold is_position, position_width. destruct (p_class p), (p_name p); reflexivity. Qed.
Lemma positions_none ps : filter is_position ps = [] -> forall i f, positions i ps f = f.
Proof.
  induction ps as [|p r IH]; intros H i f; [reflexivity|]. cbn in H. rewrite position_width_is in H. cbn.
  destruct (position_width p); [discriminate|]. now apply IH.
Qed.
Lemma positions_one ps : size (filter is_position ps) <= 1 -> forall j p w, nth_error ps j = Some p ->
  position_width p = Some w -> forall i f, positions i ps f = Some ((i + j)%nat, w).
Proof.
  induction ps as [|q r IH]; intros H j p w N W i f; [destruct j; discriminate|]. cbn in H. destruct j as [|j]; cbn in N.
  - inversion N; subst q. rewrite position_width_is, W in H. cbn. rewrite W. rewrite positions_none; [f_equal; f_equal; lia|].
    rewrite size_cons in H. unfold size in H. destruct (filter is_position r); [reflexivity|cbn in H; lia].
  - cbn. rewrite (IH) with (p := p) (w := w) (j := j); auto; [f_equal; f_equal; lia|].
    destruct (is_position q); [|exact H]. rewrite size_cons in H. lia.
Qed.
Lemma inside_values_inv cl own i p h : nth_error (params cl) i = Some p -> 0 < h ->
  inside cl own (mkRead (Values i) 0 h) -> h <= p_len p.
Proof.
  intros N P H. specialize (H (h - 1)). cbn [lo hi r_array] in H. specialize (H ltac:(lia)).
  unfold length_of in H. destruct cl; rewrite N in H; lia.
Qed.
Lemma user_reads_In d ps : forall i j p, nth_error ps j = Some p -> position_width p = None ->
  In (mkRead (Values (i + j)) 0 (Z.max 0 (iclass_count d (p_class p)) * Z.max 0 (p_array p) * type_count (p_type p)))
     (user_reads d i ps).
Proof.
  induction ps as [|q r IH]; intros i j p N W; [destruct j; discriminate|]. cbn [user_reads]. destruct j as [|j]; cbn in N.
  - inversion N; subst q. rewrite W. left. rewrite <- (class_values_eq d (p_class p)), <- (value_entries_eq (p_type p)). f_equal. f_equal. lia.
  - replace (i + S j)%nat with (S i + j)%nat by lia. destruct (position_width q); [|right]; now apply IH.
Qed.

Definition room (p : param) : Prop :=
  0 < p_array p /\ fits_int (element p) /\ 0 <= p_len p <= 2147483647 /\ exact_position p.

Lemma check_params_accept cl own d c ps : params cl = ps -> Forall room ps ->
  size (filter is_position ps) <= 1 ->
  Forall (fun p => 0 <= iclass_count c (p_class p) <= Z.max 0 (iclass_count d (p_class p))) ps ->
  Forall (inside cl own) (param_reads d ps) -> check_params c ps = Some true.
Proof.
  intros E R P1 F H.
  assert (G : forall p, In p ps -> iclass_count c (p_class p) * element p <= p_len p).
  { intros p I. rewrite Forall_forall in R, F, H. destruct (R p I) as (R1 & R2 & R3 & R4). specialize (F p I).
    destruct (In_nth_error _ _ I) as (j & J). pose proof (type_count_pos (p_type p)) as T.
    destruct (Z.eq_dec (iclass_count c (p_class p)) 0) as [Z0|Z0]; [rewrite Z0; lia|].
    assert (D : 0 < iclass_count d (p_class p)) by lia. rewrite Z.max_r in F by lia.
    assert (EP : 0 < element p) by (unfold element; rewrite width_of_eq; nia).
    destruct (position_width p) as [w|] eqn:W.
    - specialize (H (mkRead (Values j) 0 (vertex d * w))). unfold param_reads in H.
      rewrite (positions_one ps P1 j p w J W) in H. cbn [Nat.add app] in H. specialize (H (or_introl eq_refl)).
      unfold exact_position in R4. unfold position_width in W. destruct (p_class p); try discriminate.
      specialize (R4 eq_refl). cbn in *.
      assert (element p = w) by (destruct (p_name p); inversion W; subst; assumption). subst w.
      apply inside_values_inv with (p := p) in H; [nia|now rewrite E|nia].
    - pose proof (user_reads_In d ps 0 j p J W) as U. cbn [Nat.add] in U.
      specialize (H _ (in_or_app _ _ _ (or_intror U))). rewrite !Z.max_r in H by lia.
      apply inside_values_inv with (p := p) in H; [unfold element; rewrite width_of_eq; nia|now rewrite E|nia]. }
  clear H P1 E. revert G. induction ps as [|p r IH]; intros G; [reflexivity|]. inversion R as [|? ? R1 R2]; subst.
  inversion F as [|? ? F1 F2]; subst. pose proof (G p (or_introl eq_refl)) as GP. destruct R1 as (A1 & A2 & A3 & A4).
  pose proof (type_count_pos (p_type p)) as T. unfold element in *. rewrite width_of_eq in *.
  cbn [check_params]. unfold storage_count, mul. rewrite int_fits by assumption.
  rewrite int_fits by (unfold fits_int in *; nia).
  destruct (_ <? 0); [apply IH; auto; intros; apply G; now right|]. rewrite check_size_le by assumption.
  apply IH; auto. intros; apply G; now right.
Qed.

Lemma has_points_true ps : (exists p, In p ps /\ (p_name p = NameP \/ p_name p = NamePw)) -> has_points ps = true.
Proof. intros (p & I & H). apply existsb_exists. exists p. split; [exact I|]. destruct H as [-> | ->]; reflexivity. Qed.
Lemma count_p_nonneg ps n : Forall room ps -> count_p ps = Some n -> 0 <= n.
Proof.
  induction 1 as [|p r R F IH]; cbn; [discriminate|]. destruct R as (_ & _ & R & _).
  destruct (p_name p); try exact IH; intros H; inversion H; apply Z.quot_pos; lia.
Qed.

Lemma sum_step_defined l : forall (b : bool) s, nonneg l -> 0 <= s -> fits_int (s + total (if b then evens l else odds l)) ->
  sum_step s b l = Some (s + total (if b then evens l else odds l)).
Proof.
  induction l as [|x r IH]; intros b s NN S0 F.
  - destruct b; cbn; f_equal; unfold total; cbn; lia.
  - inversion NN; subst. destruct (evens_odds_nonneg r H2) as [E O]. apply total_nonneg in E, O.
    destruct b; cbn [sum_step evens odds] in *.
    + assert (TO : total (x :: odds r) = x + total (odds r)) by reflexivity. rewrite TO in *.
      unfold add. rewrite int_fits by (unfold fits_int in *; lia). rewrite (IH false); [f_equal; lia|auto|lia|].
      replace (s + x + total (odds r)) with (s + (x + total (odds r))) by lia. exact F.
    + now rewrite (IH true).
Qed.

Lemma max_top l w : nonneg l -> 0 < size l -> top 0 l = Some w -> 0 <= max l /\ max l + 1 = w.
Proof.
  intros NN S0 H. destruct l as [|x r]; [unfold size in S0; cbn [length Z.of_nat] in S0; lia|].
  assert (X : 0 <= max (x :: r)).
  { etransitivity; [|apply max_ge; now left]. now inversion NN. }
  split; [exact X|]. destruct (top_ok _ 0 _ ltac:(lia) H) as (A & B & C).
  assert (I : In (max (x :: r)) (x :: r)).
  { unfold max in *. destruct (max_from_val (x :: r) (-2147483648)) as [E|E]; [lia|exact E]. }
  pose proof (B _ I). destruct C as [C|(y & Y & C)]; [lia|]. apply max_ge in Y. lia.
Qed.
Lemma top_fits l : forall m w, fits_int m -> top m l = Some w -> fits_int w.
Proof.
  induction l as [|x r IH]; intros m w M H; cbn in H; [now inversion H; subst|]. use_bind H y Y.
  apply int_some in Y as [-> Y]. apply IH in H; [exact H|]. destruct (Z.max_spec (x + 1) m) as [[_ ->]|[_ ->]]; assumption.
Qed.

Lemma segment_from_varying step nverts : forall s e v, Forall (fun n => enough true false n step) nverts ->
  cubic_varying (s + e) false step nverts = Some v -> 0 <= s -> 0 <= e -> fits_int (s + e) ->
  exists t, segment_count s false step nverts = Some t /\ v = t + e + size nverts /\ fits_int v.
Proof.
  induction nverts as [|n r IH]; intros s e v F H S0 E0 G.
  - cbn in *. inversion H; subst. exists s. split; [reflexivity|]. unfold size. cbn. split; [lia|exact G].
  - inversion F; subst. cbn [cubic_varying] in H. use_bind H k K. use_bind K a HA. use_bind K b HB. use_bind K c HC.
    use_bind H s1 S1. pose proof (segment_value n step c H2) as K1. rewrite HA, HB, HC in K1. specialize (K1 eq_refl).
    apply int_some in K as [-> K]. apply int_some in S1 as [-> S1].
    cbn [segment_count]. rewrite HA, HB, HC. unfold add at 1. rewrite int_fits by (unfold fits_int in *; lia).
    replace (s + e + (c + 1)) with ((s + c) + (e + 1)) in * by lia.
    destruct (IH (s + c) (e + 1) v H3 H ltac:(lia) ltac:(lia) S1) as (t & T1 & T2 & T3).
    exists t. rewrite size_cons. split; [exact T1|]. split; [lia|exact T3].
Qed.

Lemma mesh_back cubic nu uper nv vper us vs m d : 0 < nu -> 0 < nv ->
  enough cubic uper nu (if cubic then us else 1) -> enough cubic vper nv (if cubic then vs else 1) ->
  new_mesh cubic nu nv uper vper us vs = Some m -> mesh_counts m = Some d ->
  exists c, patch_mesh_counts (negb cubic) nu uper nv vper us vs true = Some c /\
    0 <= uniform c /\ 0 <= varying c /\ 0 <= vertex c /\
    uniform d = uniform c /\ varying d = varying c /\ vertex d = vertex c.
Proof.
  intros NU NV EU EV M D.
  assert (G : exists c, patch_mesh_counts (negb cubic) nu uper nv vper us vs true = Some c).
  { unfold new_mesh, mesh_counts, patch_mesh_counts in *. destruct cubic; cbn [negb].
    - use_bind M u U. use_bind M v V. inversion M; subst m. cbn [u_patches v_patches m_uper m_vper m_nu m_nv] in D.
      use_bind D pt PT. use_bind D eu E1. use_bind D ev E2. use_bind D co CO. use_bind D vt VT.
      rewrite VT, U, V, PT.
      assert (F1 : add (if uper then 0 else 1) u = Some eu).
      { destruct uper; unfold add in *; [|rewrite Z.add_comm; exact E1]. inversion E1; subst.
        apply int_fits. unfold div in U. destruct (us =? 0); [discriminate|]. apply int_some in U as [-> U]. exact U. }
      assert (F2 : add (if vper then 0 else 1) v = Some ev).
      { destruct vper; unfold add in *; [|rewrite Z.add_comm; exact E2]. inversion E2; subst.
        apply int_fits. unfold div in V. destruct (vs =? 0); [discriminate|]. apply int_some in V as [-> V]. exact V. }
      rewrite F1, F2, CO. eauto.
    - use_bind M u U. use_bind M v V. inversion M; subst m. cbn [u_patches v_patches m_uper m_vper m_nu m_nv] in D.
      use_bind D pt PT. use_bind D eu E1. use_bind D ev E2. use_bind D co CO. use_bind D vt VT.
      rewrite VT, U, V, PT. eauto. }
  destruct G as (c & C). exists c. split; [exact C|].
  assert (Q : exists qu qv, 0 <= qu /\ 0 <= qv /\ uniform c = qu * qv /\ varying c = ends uper qu * ends vper qv /\ vertex c = nu * nv).
  { destruct cubic.
    - destruct (mesh_counts_right false nu uper nv vper us vs c EU EV C) as (qu & qv & [A _] & [B _] & H). exists qu, qv. tauto.
    - destruct (mesh_counts_right true nu uper nv vper 1 1 c EU EV C) as (qu & qv & [A _] & [B _] & H). exists qu, qv. tauto. }
  destruct Q as (qu & qv & Q1 & Q2 & Q3 & Q4 & Q5).
  assert (E0 : forall b q, 0 <= q -> 0 <= ends b q) by (intros []; cbn; lia).
  pose proof (E0 uper qu Q1). pose proof (E0 vper qv Q2).
  split; [nia|]. split; [nia|]. split; [nia|].
  destruct cubic.
  - exact (core_mesh_counts false nu uper nv vper us vs c m EU EV C M d D).
  - assert (M2 : exists m2, new_mesh false nu nv uper vper 1 1 = Some m2 /\ mesh_counts m2 = mesh_counts m).
    { unfold new_mesh in *. use_bind M u U. use_bind M v V. rewrite U, V. inversion M; subst m.
      eexists. split; [reflexivity|]. reflexivity. }
    destruct M2 as (m2 & M2 & D2). rewrite <- D2 in D.
    exact (core_mesh_counts true nu uper nv vper 1 1 c m2 EU EV C M2 d D).
Qed.

Theorem not_refused us vs cl own rs : right_arrays us vs cl -> right_params cl -> proper vs cl ->
  reads us vs cl = Some (own, rs) -> Forall (inside cl own) rs -> accepts us vs true false cl = Some true.
Proof.
  intros RA (RP & P1 & HP & RC) [_ P] R H. destruct cl; cbn [accepts reads params right_arrays needs_points] in *;
    try specialize (HP eq_refl).
  - (* Polygon *)
    use_bind R n HN. inversion R; subst. rewrite HN.
    rewrite (check_params_accept (Polygon ps) own (mkCounts 1 own own own own)); auto;
      [now rewrite has_points_true|].
    pose proof (count_p_nonneg ps own RP HN). apply Forall_forall. intros p _. destruct (p_class p); cbn; lia.
  - (* GeneralPolygon *)
    use_bind R n HN. use_bind R s HS. use_bind R v V. inversion R; subst. rewrite HN. apply sum_ok in HN.
    destruct P as [P2 [P3 _]]. apply Forall_app in H as [H _].
    rewrite (check_params_accept (GeneralPolygon nverts tris ps) own (mkCounts 1 own own own own)); auto;
      [now rewrite has_points_true|].
    apply Forall_forall. intros p _. destruct (p_class p); cbn; lia.
  - (* PointsPolygons *)
    use_bind R n HN. destruct P as [P2 P3]. destruct RA as (A1 & A2 & A3). rewrite steps_total in R by auto.
    rewrite take_all in R by lia. use_bind R w W. inversion R; subst own rs. rewrite HN. apply sum_ok in HN.
    rewrite check_size_le by lia. destruct (max_top _ _ A3 A2 W) as [M1 M2]. apply top_fits in W; [|unfold fits_int; lia].
    unfold add. rewrite M2, int_fits by auto. inversion H; subst. apply Forall_app in H3 as [H3 _].
    rewrite (check_params_accept (PointsPolygons nverts verts ps) (max verts + 1) (mkCounts (size nverts) (max verts + 1) (max verts + 1) (total nverts) (total nverts))); auto;
      [now rewrite has_points_true|].
    pose proof (total_nonneg _ P2). pose proof (size_nonneg nverts).
    apply Forall_forall. intros p _. destruct (p_class p); cbn; lia.
  - (* PointsGeneralPolygons *)
    destruct RA as (A1 & A2 & A3 & A4). destruct P as (P2' & P3 & P4).
    assert (P2 : nonneg nloops) by (revert P2'; apply Forall_impl; intros; lia).
    assert (PN : nonneg nverts) by (revert P3; apply Forall_impl; intros; lia).
    assert (L : sum nloops = Some (total nloops)) by (apply sum_defined; [auto|rewrite <- A1; auto]).
    rewrite (steps_unsigned _ _ P2 L) in R. rewrite (take_all (total nloops)) in R by lia.
    use_bind R n HN. rewrite steps_total in R by auto. rewrite take_all in R by lia. use_bind R w W. inversion R; subst own rs.
    rewrite L. rewrite check_size_le by lia. rewrite HN. apply sum_ok in HN. rewrite check_size_le by lia.
    destruct (max_top _ _ P4 A3 W) as [M1 M2]. apply top_fits in W; [|unfold fits_int; lia].
    unfold add. rewrite M2, int_fits by auto. inversion H; subst. inversion H3; subst. apply Forall_app in H5 as [H5 _].
    apply (check_params_accept (PointsGeneralPolygons nloops nverts verts ps) (max verts + 1) (mkCounts (size nloops) (max verts + 1) (max verts + 1) (total nverts) (total nverts))); auto.
    pose proof (total_nonneg _ PN). pose proof (size_nonneg nloops).
    apply Forall_forall. intros p _. destruct (p_class p); cbn; lia.
  - (* Patch *)
    inversion R; subst. 
    apply (check_params_accept (Patch cubic ps) (if cubic then 16 else 4) (mkCounts 1 4 (if cubic then 16 else 4) 4 4)); auto.
    apply Forall_forall. intros p _. destruct (p_class p), cubic; cbn; lia.
  - (* PatchMesh *)
    use_bind R m M. use_bind R d D. inversion R; subst own rs. destruct RA as (A1 & A2 & A3 & A4).
    destruct (mesh_back _ _ _ _ _ _ _ _ _ A1 A2 A3 A4 M D) as (c & C & C1 & C2 & C3 & C4 & C5 & C6).
    destruct (nu <=? 0) eqn:NU; [apply Z.leb_le in NU; lia|]. destruct (nv <=? 0) eqn:NV; [apply Z.leb_le in NV; lia|].
    rewrite C. apply (check_params_accept (PatchMesh cubic nu uper nv vper ps) (vertex d) d); auto.
    apply Forall_forall. intros p I. rewrite Forall_forall in P. specialize (P p I). unfold of_face in P.
    destruct (p_class p) eqn:PC; cbn; try lia; exfalso; apply P; auto.
  - (* NuPatch *)
    destruct RA as (A1 & A2 & A3 & A4 & A5 & A6). destruct P as [P2 P3].
    use_bind R ku KU. use_bind R kv KV. use_bind R a0 HA0. use_bind R a HA. use_bind R b0 HB0. use_bind R b HB.
    use_bind R u U. use_bind R a1 HA1. use_bind R b1 HB1. use_bind R s HS. use_bind R v V. inversion R; subst own rs.
    destruct (nu <=? 0) eqn:NU; [apply Z.leb_le in NU; lia|]. destruct (nv <=? 0) eqn:NV; [apply Z.leb_le in NV; lia|].
    destruct (uorder <=? 0) eqn:UO; [apply Z.leb_le in UO; lia|]. destruct (vorder <=? 0) eqn:VO; [apply Z.leb_le in VO; lia|].
    rewrite KU, KV. apply int_some in KU as [-> _]. apply int_some in KV as [-> _]. rewrite !check_size_le by lia.
    rewrite HA0, HA, HA1, HB0, HB, HB1, HS, V.
    apply int_some in HA0 as [-> _]. apply int_some in HA as [-> _]. apply int_some in HA1 as [-> _].
    apply int_some in HB0 as [-> _]. apply int_some in HB as [-> _]. apply int_some in HB1 as [-> _].
    apply int_some in HS as [-> HS]. apply int_some in V as [-> V].
    apply Forall_inv_tail, Forall_inv_tail in H. subst uknots vknots.
    refine (check_params_accept (NuPatch nu uorder (nu + uorder) nv vorder (nv + vorder) ps) (nu * nv) _ _ ps eq_refl RP P1 _ H).
    apply Forall_forall. intros p I. rewrite Forall_forall in RC. specialize (RC p I).
    assert (S0 : 0 <= (1 + nu - uorder + 1) * (1 + nv - vorder + 1)) by nia. assert (V0 : 0 <= nu * nv) by nia.
    destruct (p_class p); cbn [iclass_count uniform varying vertex facevarying facevertex]; try lia. exfalso; now apply RC.
  - (* TrimCurve *)
    destruct RA as (A1 & A2 & A3 & A4 & A5 & A6 & A7 & A8 & A9 & A10). destruct P as (P2 & P3 & P4).
    pose proof (total_nonneg _ P3). pose proof (total_nonneg _ P4). subst knots.
    rewrite sum_defined; [|auto|rewrite <- A1; auto]. rewrite check_size_le by lia.
    rewrite sum_defined; [|auto|unfold fits_int in *; lia]. rewrite sum_defined; [|auto|unfold fits_int in *; lia].
    unfold add. rewrite int_fits by auto. rewrite !check_size_le by lia. reflexivity.
  - (* SubdivisionMesh *)
    use_bind R n HN. destruct P as (P2 & P3 & P4 & P5). destruct RA as (A1 & A2 & A3 & A4 & A5 & A6 & A7 & A8).
    rewrite steps_total in R by auto.
    rewrite take_all in R by lia. use_bind R w W. inversion R; subst own rs. rewrite HN. apply sum_ok in HN.
    rewrite check_size_le by lia. unfold mul. rewrite int_fits by (rewrite <- A3; auto). rewrite check_size_le by lia.
    rewrite (sum_step_defined nargs true 0); [|auto|lia|cbn [Z.add]; rewrite <- A4; auto]. rewrite check_size_le by (cbn [Z.add]; lia).
    rewrite (sum_step_defined nargs false 0); [|auto|lia|cbn [Z.add]; rewrite <- A5; auto]. rewrite check_size_le by (cbn [Z.add]; lia).
    destruct (max_top _ _ P3 A2 W) as [M1 M2]. apply top_fits in W; [|unfold fits_int; lia].
    unfold add. rewrite M2, int_fits by auto. inversion H; subst. apply Forall_app in H3 as [H3 _].
    refine (check_params_accept (SubdivisionMesh nverts verts tags nargs intargs _ ps) (max verts + 1) _ _ ps eq_refl RP P1 _ H3).
    pose proof (total_nonneg _ P2). pose proof (size_nonneg nverts).
    apply Forall_forall. intros p _. destruct (p_class p); cbn; lia.
  - (* Quadric *)
    inversion R; subst. apply (check_params_accept (Quadric ps) 4 (mkCounts 1 4 4 4 4)); auto.
    apply Forall_forall. intros p _. destruct (p_class p); cbn; lia.
  - (* Points *)
    use_bind R n HN. inversion R; subst. rewrite HN.
    rewrite (check_params_accept (Points ps) own (mkCounts 1 own own own own)); auto;
      [now rewrite has_points_true|].
    pose proof (count_p_nonneg ps own RP HN). apply Forall_forall. intros p _. destruct (p_class p); cbn; lia.
  - (* Curves *)
    use_bind R d D. inversion R; subst own rs.
    assert (G : exists c, curves_counts cubic nverts periodic vs true = Some c).
    { unfold group_counts in D. use_bind D t T. use_bind D v V. unfold curves_counts. rewrite T. destruct cubic; [|eauto].
      destruct periodic; [rewrite varying_periodic in V; rewrite V; eauto|].
      destruct (segment_from_varying vs nverts 0 0 v P V ltac:(lia) ltac:(lia) ltac:(unfold fits_int; lia)) as (q & Q1 & Q2 & Q3).
      rewrite Q1. unfold add, size in *. rewrite int_fits; [eauto|]. replace (q + Z.of_nat (length nverts)) with v by lia. exact Q3. }
    destruct G as (c & C). rewrite C. destruct (core_curves_counts _ _ _ _ _ _ P C D) as (D1 & D2 & D3).
    destruct (curves_counts_right _ _ _ _ _ P C) as (qs & Q1 & Q2 & Q3 & Q4).
    rewrite (check_params_accept (Curves cubic nverts periodic ps) (vertex d) d); auto; [now rewrite has_points_true|].
    assert (V0 : 0 <= varying c).
    { rewrite Q3. apply total_nonneg. clear - Q1. induction Q1 as [|n q r t [X _] F IH]; cbn; constructor; auto.
      destruct periodic; cbn; lia. }
    assert (X0 : 0 <= vertex c).
    { rewrite Q4. apply total_nonneg. revert P. apply Forall_impl. intros n [_ [_ E]]. destruct periodic, cubic; cbn in E; lia. }
    apply Forall_forall. intros p I. rewrite Forall_forall in RC. specialize (RC p I). unfold of_face in RC.
    destruct (p_class p) eqn:PC; cbn; try lia; exfalso; apply RC; auto.
Qed.

Lemma positions_given_count ps n : positions_given ps n -> count_p ps = Some n.
Proof.
  induction 1 as [p w n r W N L|p r n W H IH]; cbn [count_p]; unfold named_position in W.
  - destruct (p_name p); inversion W; subst w; rewrite L, Z.mul_comm, Z.quot_mul by lia; reflexivity.
  - destruct (p_name p); try discriminate; exact IH.
Qed.

Lemma trim_reads_whole count order n : nonneg order -> nonneg n ->
  forall j knot vert, (j + count = length order)%nat -> (j + count = length n)%nat ->
  let rs := trim_reads count order n (Z.of_nat j) knot vert in
  (forall i, Z.of_nat j <= i < size order -> exists r, In r rs /\ r_array r = Orders /\ lo r <= i < hi r) /\
  (forall i, Z.of_nat j <= i < size n -> exists r, In r rs /\ r_array r = Lengths /\ lo r <= i < hi r) /\
  (forall i, knot <= i < knot + total (skipn j order) + total (skipn j n) -> exists r, In r rs /\ r_array r = Knots /\ lo r <= i < hi r) /\
  (forall a, a = Us \/ a = Vs \/ a = Ws -> forall i, vert <= i < vert + total (skipn j n) ->
     exists r, In r rs /\ r_array r = a /\ lo r <= i < hi r).
Proof.
  intros NO NN. induction count as [|k IH]; intros j knot vert J1 J2; cbv zeta.
  - rewrite !skipn_all2 by lia. unfold size. cbn [total fold_right]. repeat split; intros; exfalso; cbn in *; lia.
  - cbn [trim_reads]. rewrite !entry_nth by lia. rewrite !Nat2Z.id.
    rewrite (skipn_cons order) by lia. rewrite (skipn_cons n) by lia.
    pose proof (nonneg_nth order j NO). pose proof (nonneg_nth n j NN).
    set (o := nth j order 0) in *. set (c := nth j n 0) in *.
    assert (TO : forall x r, total (x :: r) = x + total r) by reflexivity. rewrite !TO.
    rewrite !Z.max_r by lia. replace (Z.of_nat j + 1) with (Z.of_nat (S j)) by lia.
    specialize (IH (S j) (knot + (o + c)) (vert + c) ltac:(lia) ltac:(lia)). cbv zeta in IH. destruct IH as (I1 & I2 & I3 & I4).
    set (rest := trim_reads k order n (Z.of_nat (S j)) (knot + (o + c)) (vert + c)) in *.
    assert (IR : forall a i l, (exists r, In r rest /\ r_array r = a /\ lo r <= i < hi r) -> 
      exists r, In r (l ++ rest) /\ r_array r = a /\ lo r <= i < hi r).
    { intros a i l (r & R1 & R2). exists r. split; [apply in_or_app; now right|exact R2]. }
    split; [|split; [|split]].
    + intros i HI. destruct (Z.eq_dec i (Z.of_nat j)); [|apply IR, I1; lia].
      eexists (mkRead Orders _ _). split; [cbn; eauto|]. cbn [r_array lo hi]. split; [reflexivity|]. lia.
    + intros i HI. destruct (Z.eq_dec i (Z.of_nat j)); [|apply IR, I2; lia].
      eexists (mkRead Lengths _ _). split; [cbn; eauto|]. cbn [r_array lo hi]. split; [reflexivity|]. lia.
    + intros i HI. destruct (Z.lt_ge_cases i (knot + (o + c))); [|apply IR, I3; lia].
      eexists (mkRead Knots _ _). split; [cbn; eauto|]. cbn [r_array lo hi]. split; [reflexivity|]. lia.
    + intros a Ha i HI. destruct (Z.lt_ge_cases i (vert + c)); [|apply IR, I4; [exact Ha|lia]].
      eexists (mkRead a vert (vert + c)). split; [destruct Ha as [-> | [-> | ->]]; cbn; auto 10|]. cbn [r_array lo hi]. split; [reflexivity|]. lia.
Qed.

Ltac trim_whole RA P R order n :=
  let A1 := fresh "A" in let A2 := fresh "A" in
  inversion R; subst; clear R; destruct RA as (A1 & A2 & RA), P as (P1 & P2 & P3);
  rewrite steps_total by auto; rewrite <- A1;
  assert (LN : length n = length order) by (unfold size in RA; lia);
  replace (Z.to_nat (size order)) with (length order) by (unfold size; lia);
  pose proof (trim_reads_whole (length order) order n P2 P3 0%nat 0 0 eq_refl ltac:(cbn; lia)) as W; cbv zeta in W;
  cbn [Z.of_nat] in W.
Lemma reads_whole us vs cl own rs a : right_arrays us vs cl -> proper vs cl -> reads us vs cl = Some (own, rs) ->
  In a [Counts; Verts; Uknots; Vknots; Orders; Lengths; Knots; Us; Vs; Ws] -> read_whole cl rs a.
Proof.
  intros RA [_ P] R I1 i HI.
  destruct cl; cbn [reads right_arrays] in *;
    repeat (destruct I1 as [<-|I1]; [cbn in HI; try lia|]); try destruct I1; cbn [length_of] in HI.
  - use_bind R s HN. use_bind R w W. inversion R; subst. eexists; split; [left; reflexivity|]. split; [reflexivity|]. cbn.
    destruct P as [P2 _]. rewrite steps_total by auto. lia.
  - use_bind R s HN. use_bind R w W. inversion R; subst. eexists; split; [left; reflexivity|]. split; [reflexivity|]. cbn.
    destruct P as (P1 & P2 & P3). destruct RA as (A1 & A2 & A3 & A4).
    assert (N1 : nonneg nloops) by (eapply Forall_impl; [|exact P1]; cbn; lia).
    rewrite (steps_unsigned nloops (total nloops)); [lia|exact N1|]. apply sum_defined; [exact N1|]. now rewrite <- A1.
  - use_bind R s HN. use_bind R w W. inversion R; subst. eexists; split; [right; left; reflexivity|]. split; [reflexivity|]. cbn.
    destruct P as (P1 & P2 & P3). destruct RA as (A1 & A2 & A3 & A4).
    assert (N1 : nonneg nloops) by (eapply Forall_impl; [|exact P1]; cbn; lia).
    assert (N2 : nonneg nverts) by (eapply Forall_impl; [|exact P2]; cbn; lia).
    rewrite (steps_unsigned nloops (total nloops)); [|exact N1|apply sum_defined; [exact N1|]; now rewrite <- A1].
    rewrite take_all by lia. rewrite steps_total by auto. lia.
  - unfold add, sub, mul in R. destruct RA as (A1 & A2 & A3 & A4 & A5 & A6).
    repeat match type of R with context [match ?e with Some _ => _ | None => _ end] => let E := fresh in destruct e eqn:E; [|discriminate] end.
    inversion R; subst. eexists; split; [left; reflexivity|]. split; [reflexivity|]. cbn.
    apply int_some in H as [-> _]. lia.
  - unfold add, sub, mul in R. destruct RA as (A1 & A2 & A3 & A4 & A5 & A6).
    repeat match type of R with context [match ?e with Some _ => _ | None => _ end] => let E := fresh in destruct e eqn:E; [|discriminate] end.
    inversion R; subst. eexists; split; [right; left; reflexivity|]. split; [reflexivity|]. cbn.
    apply int_some in H0 as [-> _]. lia.
  - trim_whole RA P R order n. apply (proj1 W). lia.
  - trim_whole RA P R order n. apply (proj1 (proj2 W)). lia.
  - trim_whole RA P R order n. apply (proj1 (proj2 (proj2 W))). cbn [skipn]. lia.
  - trim_whole RA P R order n. apply (proj2 (proj2 (proj2 W)) Us); [tauto|]. cbn [skipn]. lia.
  - trim_whole RA P R order n. apply (proj2 (proj2 (proj2 W)) Vs); [tauto|]. cbn [skipn]. lia.
  - trim_whole RA P R order n. apply (proj2 (proj2 (proj2 W)) Ws); [tauto|]. cbn [skipn]. lia.
  - use_bind R s HN. use_bind R w W. inversion R; subst. eexists; split; [left; reflexivity|]. split; [reflexivity|]. cbn.
    destruct P as [P2 _]. rewrite steps_total by auto. lia.
Qed.

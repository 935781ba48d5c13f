(* C53: the pixels of a bucket are the weighted means of the samples around them *)
From Coq Require Import ZArith QArith Qround Qabs Qfield List Bool Lia Lqa.
From Verif Require Import BucketModel FilterModel FilterSpec FilterProofs.
Import ListNotations.
Local Open Scope Z_scope.

Lemma channel_all : forall n, (9 <= n)%nat -> forall b r aovs c index num (F : Z -> Q),
  a_size b = rwidth r * rheight r * element_size (all_channels aovs) ->
  0 <= index -> index + num <= element_size (all_channels aovs) -> inside r c ->
  (forall k, 0 <= k < num -> (a_get b (blk aovs r c (index + k)) == F k)%Q) ->
  all_eq (channel b r aovs (fst c) (snd c) index num) (map F (zrange 0 num)).
Proof.
  intros n SZ b r aovs c index num F S I0 I1 C H. unfold channel, all_eq.
  assert (G : forall l, (forall k, In k l -> 0 <= k < num) ->
    Forall2 (fun a b => match a with Some a => (a == b)%Q | None => False end)
      (map (fun i => get b (offset r (all_channels aovs) (fst c - rx0 r) (snd c - ry0 r) index + i)) l) (map F l)).
  { induction l as [|k l IH]; intros B; cbn [map]; constructor; [|apply IH; intros; apply B; right; auto].
    assert (K := B k (or_introl eq_refl)).
    replace (offset r (all_channels aovs) (fst c - rx0 r) (snd c - ry0 r) index + k) with (blk aovs r c (index + k))
      by (unfold blk, offset; lia).
    rewrite (get_in n) by (auto; lia). apply H. exact K. }
  apply G. intros k K. apply BucketProofs.zrange_in in K. exact K.
Qed.

Section Pixels.
Variable o : fopts.
Variable img : Z * Z -> list sample.
Variable valid : bool.
Variable n : nat.
Variable aovs : list (Z * Z).
Variable r : region.
Hypothesis OPT : proper o.
(* The pixels that are looked at reach as far as the filter *)
Hypothesis WX : whole (f_w o).
Hypothesis WY : whole (f_h o).
Hypothesis SAMPLES : sampled o img n.
Hypothesis AOVS : aovs_ok n aovs.
Hypothesis SIZE : (9 <= n)%nat.
(* A bucket is only marked as empty if nothing was hit *)
Hypothesis VALID : valid = false -> forall p k, hit img p k = false.
(* The weights around a pixel do not cancel *)
Hypothesis TOTAL : forall c P, inside r c -> surrounds o P c ->
  ~ (hits o img P c == 0)%Q -> ~ (total o img P c == 0)%Q.

(* Each pixel of the bucket has the weighted means in the channels Ci, Oi, z and those of the
   shaders, the part of the samples that hit something in the channel coverage, the mean
   opacity times the coverage in the channel a; if nothing was hit, zeros and the greatest depth. *)
Theorem C53_value_partial : exists b, filter_bucket o valid img n aovs r = Some b /\
  forall c P, inside r c -> surrounds o P c ->
    let values := channel b r aovs (fst c) (snd c) in
    let m := mean o img P c in
    (~ (hits o img P c == 0)%Q ->
       all_eq (values 0 3) [m 0%nat; m 1%nat; m 2%nat] /\
       all_eq (values 3 3) [m 3%nat; m 4%nat; m 5%nat] /\
       all_eq (values 6 1) [((m 3%nat + m 4%nat + m 5%nat) / 3 * covered o img P c)%Q] /\
       all_eq (values 7 1) [m 6%nat] /\
       all_eq (values 8 1) [covered o img P c] /\
       forall l off num l', aovs = l ++ (off, num) :: l' ->
         all_eq (values (9 + fold_right Z.add 0 (map snd l)) num)
           (map (fun k => m (Z.to_nat (off + k))) (zrange 0 num))) /\
    ((hits o img P c == 0)%Q ->
       all_eq (values 0 3) [0; 0; 0]%Q /\ all_eq (values 3 3) [0; 0; 0]%Q /\
       all_eq (values 6 1) [0]%Q /\ all_eq (values 7 1) [f_max o] /\ all_eq (values 8 1) [0]%Q /\
       forall l off num l', aovs = l ++ (off, num) :: l' ->
         all_eq (values (9 + fold_right Z.add 0 (map snd l)) num) (map (fun _ => 0%Q) (zrange 0 num))).
Proof.
  destruct (filtered o OPT n img SAMPLES WX WY aovs AOVS SIZE r TOTAL valid VALID) as (b & E & S & F).
  exists b. split; [exact E|]. intros c P C SP values m.
  assert (E9 := es_9 n aovs AOVS SIZE).
  assert (Slot : forall l off num l', aovs = l ++ (off, num) :: l' -> forall k, 0 <= k < num ->
    0 <= 9 + fold_right Z.add 0 (map snd l) + k < element_size (all_channels aovs) /\
    9 <= 9 + fold_right Z.add 0 (map snd l) /\
    9 + fold_right Z.add 0 (map snd l) + num <= element_size (all_channels aovs) /\
    In (9 + fold_right Z.add 0 (map snd l) + k, off + k) (slots 0 (all_channels aovs))).
  { intros l off num l' Ea k K.
    assert (Es : fold_right Z.add 0 (map snd l) = element_size l).
    { clear. induction l as [|[a c] l IH]; cbn; [reflexivity|]. rewrite IH. reflexivity. }
    rewrite Es. assert (Ao : aovs_ok n l /\ aovs_ok n ((off, num) :: l')).
    { unfold aovs_ok in *. rewrite Ea in AOVS. apply Forall_app in AOVS. exact AOVS. }
    destruct Ao as [Ao1 Ao2]. inversion Ao2 as [|? ? Hd Tl]; subst x l0. cbn [fst snd] in Hd.
    assert (P1 := size_nonneg n SIZE l Ao1). assert (P2 := size_nonneg n SIZE l' Tl).
    assert (Sa : element_size aovs = element_size l + (num + element_size l')).
    { rewrite Ea, (size_app n SIZE). reflexivity. }
    rewrite (es_eq n aovs SIZE), Sa. refine (conj _ (conj _ (conj _ _))); [lia..|].
    rewrite Ea. unfold all_channels. rewrite app_assoc.
    replace (9 + element_size l + k) with (0 + element_size ([(0, 3); (3, 3); (8, 1); (6, 1); (7, 1)] ++ l) + k)
      by (rewrite (size_app n SIZE); reflexivity).
    apply (slots_in n SIZE). exact K. }
  assert (Uniq : forall i s s', In (i, s) (slots 0 (all_channels aovs)) -> In (i, s') (slots 0 (all_channels aovs)) -> s = s').
  { assert (N := slots_nodup n aovs AOVS SIZE). intros i s s' A B.
    revert N A B. generalize (slots 0 (all_channels aovs)) as l. induction l as [|[d x] l IH]; [intros _ []|].
    cbn [map fst]. intros N [A|A] [B|B]; apply NoDup_cons_iff in N as [N1 N2]; [congruence| | |eauto].
    - injection A as -> ->. destruct N1. apply (in_map fst) in B. exact B.
    - injection B as -> ->. destruct N1. apply (in_map fst) in A. exact A. }
  assert (First : forall i s, In (i, s) (slots 0 (all_channels aovs)) -> forall v,
    first o img aovs c i v ->
    ((hits o img P c == 0)%Q -> v = if i =? 7 then f_max o else 0%Q) /\
    (~ (hits o img P c == 0)%Q -> (v == m (Z.to_nat s))%Q)).
  { intros i s I v (s' & I' & H). rewrite (Uniq i s s' I I'). apply H. exact SP. }
  assert (I0 : forall i s, In (i, s) [(0,0);(1,1);(2,2);(3,3);(4,4);(5,5);(7,6)] ->
    In (i, s) (slots 0 (all_channels aovs))).
  { intros i s I.
    change (slots 0 (all_channels aovs)) with
      ([(0,0);(1,1);(2,2);(3,3);(4,4);(5,5);(6,8);(7,6);(8,7)] ++ slots 9 aovs).
    cbn [In app]. cbn [In] in I. destruct I as [I|[I|[I|[I|[I|[I|[I|[]]]]]]]]; injection I as <- <-; tauto. }
  assert (Value : forall i s, In (i, s) (slots 0 (all_channels aovs)) -> i <> 6 -> i <> 8 -> 0 <= i < element_size (all_channels aovs) ->
    ((hits o img P c == 0)%Q -> a_get b (blk aovs r c i) = if i =? 7 then f_max o else 0%Q) /\
    (~ (hits o img P c == 0)%Q -> (a_get b (blk aovs r c i) == m (Z.to_nat s))%Q)).
  { intros i s I N6 N8 B. apply First; [exact I|]. assert (H := F c i C B). unfold final in H.
    destruct (Z.eqb_spec i 6); [contradiction|]. destruct (Z.eqb_spec i 8); [contradiction|]. exact H. }
  assert (Cov : (a_get b (blk aovs r c 8) == covered o img P c)%Q).
  { assert (H := F c 8 C ltac:(lia)). unfold final in H. cbn in H. apply H. exact SP. }
  assert (Alpha : exists o0 o1 o2 cov, (a_get b (blk aovs r c 6) = (o0 + o1 + o2) / 3 * cov)%Q /\
    (cov == covered o img P c)%Q /\
    ((hits o img P c == 0)%Q -> o0 = 0%Q /\ o1 = 0%Q /\ o2 = 0%Q) /\
    (~ (hits o img P c == 0)%Q -> (o0 == m 3%nat)%Q /\ (o1 == m 4%nat)%Q /\ (o2 == m 5%nat)%Q)).
  { assert (H := F c 6 C ltac:(lia)). unfold final in H. rewrite Z.eqb_refl in H.
    destruct H as (o0 & o1 & o2 & cov & H0 & H1 & H2 & Hc & Ev). exists o0, o1, o2, cov.
    split; [exact Ev|]. split; [apply Hc; exact SP|].
    apply (First 3 3) in H0; [|apply I0; cbn; tauto]. apply (First 4 4) in H1; [|apply I0; cbn; tauto].
    apply (First 5 5) in H2; [|apply I0; cbn; tauto]. cbn [Z.eqb Pos.eqb] in H0, H1, H2. tauto. }
  destruct Alpha as (o0 & o1 & o2 & cov & Ea & Ec & A0 & A1).
  assert (Three : forall i F, 0 <= i <= 3 -> (forall k, 0 <= k < 3 -> (a_get b (blk aovs r c (i + k)) == F k)%Q) ->
    all_eq (values i 3) [F 0; F 1; F 2]).
  { intros i G I H. change [G 0; G 1; G 2] with (map G (zrange 0 3)). apply (channel_all n SIZE); auto; lia. }
  assert (One : forall i v, 0 <= i <= 8 -> (a_get b (blk aovs r c i) == v)%Q -> all_eq (values i 1) [v]).
  { intros i v I H. change [v] with (map (fun _ : Z => v) (zrange 0 1)). apply (channel_all n SIZE); auto; [lia..|].
    intros k K. replace (i + k) with i by lia. exact H. }
  split; intros HT.
  - refine (conj _ (conj _ (conj _ (conj _ (conj _ _))))).
    + apply (Three 0 (fun k => m (Z.to_nat k))); [lia|]. intros k K. apply (Value _ k); [|lia..|exact HT].
      apply I0. assert (k = 0 \/ k = 1 \/ k = 2) as [-> | [-> | ->]] by lia; cbn; tauto.
    + apply (Three 3 (fun k => m (Z.to_nat (3 + k)))); [lia|]. intros k K. apply (Value _ (3 + k)); [|lia..|exact HT].
      apply I0. assert (k = 0 \/ k = 1 \/ k = 2) as [-> | [-> | ->]] by lia; cbn; tauto.
    + apply One; [lia|]. rewrite Ea, Ec. destruct (A1 HT) as (-> & -> & ->). reflexivity.
    + apply One; [lia|]. apply (Value 7 6); [apply I0; cbn; tauto|lia..|exact HT].
    + apply One; [lia|]. exact Cov.
    + intros l off num l' Es.
      destruct (Z_lt_le_dec 0 num) as [N|N].
      * assert (S0 := Slot l off num l' Es 0 ltac:(lia)).
        apply (channel_all n SIZE); auto; [lia..|]. intros k K. destruct (Slot l off num l' Es k K) as (B & B9 & _ & I).
        apply (Value _ (off + k)); [exact I|lia..|exact HT].
      * unfold values, channel, zrange. replace (Z.to_nat (num - 0)) with 0%nat by lia. constructor.
  - refine (conj _ (conj _ (conj _ (conj _ (conj _ _))))).
    + apply (Three 0 (fun _ => 0%Q)); [lia|]. intros k K.
      assert (I : In (0 + k, k) (slots 0 (all_channels aovs))).
      { apply I0. assert (k = 0 \/ k = 1 \/ k = 2) as [-> | [-> | ->]] by lia; cbn; tauto. }
      rewrite (proj1 (Value _ k I ltac:(lia) ltac:(lia) ltac:(lia)) HT).
      destruct (Z.eqb_spec (0 + k) 7); [lia|reflexivity].
    + apply (Three 3 (fun _ => 0%Q)); [lia|]. intros k K.
      assert (I : In (3 + k, 3 + k) (slots 0 (all_channels aovs))).
      { apply I0. assert (k = 0 \/ k = 1 \/ k = 2) as [-> | [-> | ->]] by lia; cbn; tauto. }
      rewrite (proj1 (Value _ _ I ltac:(lia) ltac:(lia) ltac:(lia)) HT).
      destruct (Z.eqb_spec (3 + k) 7); [lia|reflexivity].
    + apply One; [lia|]. rewrite Ea. destruct (A0 HT) as (-> & -> & ->). field.
    + apply One; [lia|]. rewrite (proj1 (Value 7 6 ltac:(apply I0; cbn; tauto) ltac:(lia) ltac:(lia) ltac:(lia)) HT). reflexivity.
    + apply One; [lia|]. rewrite Cov. unfold covered. assert (NP := n_posQ o OPT).
      rewrite qle_bool_false by (rewrite HT; exact NP). rewrite HT. field. intros X. rewrite X in NP. lra.
    + intros l off num l' Es.
      destruct (Z_lt_le_dec 0 num) as [N|N].
      * assert (S0 := Slot l off num l' Es 0 ltac:(lia)).
        apply (channel_all n SIZE); auto; [lia..|]. intros k K. destruct (Slot l off num l' Es k K) as (B & B9 & _ & I).
        rewrite (proj1 (Value _ _ I ltac:(lia) ltac:(lia) B) HT).
        destruct (Z.eqb_spec (9 + fold_right Z.add 0 (map snd l) + k) 7); [lia|reflexivity].
      * unfold values, channel, zrange. replace (Z.to_nat (num - 0)) with 0%nat by lia. constructor.
Qed.

Lemma all_eq_mono : forall l m m', all_eq l m -> Forall2 Qeq m m' -> all_eq l m'.
Proof.
  unfold all_eq. intros l m m' H. revert m'. induction H as [|a x l m E H IH]; intros m' G; inversion G; subst; constructor; auto.
  destruct a; [|exact E]. rewrite E. assumption.
Qed.

(* A surface of one colour and opacity around a pixel: the pixel has just these. *)
Theorem C53_flat_partial : exists b, filter_bucket o valid img n aovs r = Some b /\
  forall c P R G B OR OG OB, inside r c -> surrounds o P c -> ~ (hits o img P c == 0)%Q ->
    (forall p k, reaches o img c p k = true -> exists s rest,
       sample_at img p k = Some s /\ sm_hit s = Some (R :: G :: B :: OR :: OG :: OB :: rest)) ->
    all_eq (channel b r aovs (fst c) (snd c) 0 3) [R; G; B] /\
    all_eq (channel b r aovs (fst c) (snd c) 3 3) [OR; OG; OB].
Proof.
  destruct C53_value_partial as (b & E & H). exists b. split; [exact E|].
  intros c P R G B OR OG OB C SP NH Flat. destruct (H c P C SP) as [H1 _]. destruct (H1 NH) as (Ci & Oi & _).
  assert (M : forall j v, (forall p k, reaches o img c p k = true -> datum img p k j = v) ->
    (mean o img P c j == v)%Q).
  { intros j v D. unfold mean. assert (NT := TOTAL c P C SP NH).
    assert (X : (over o P (fun p k => weight o img c p k * datum img p k j) == total o img P c * v)%Q).
    { unfold total, over. rewrite <- qsum_scale. apply qsum_ext. intros p _. rewrite <- qsum_scale.
      apply qsum_ext. intros k _. destruct (reaches o img c p k) eqn:Rc; [rewrite (D p k Rc); reflexivity|].
      unfold weight. rewrite Rc. cbn [andb]. ring. }
    rewrite X. field. exact NT. }
  assert (D : forall j v, (forall rest, nth j (R :: G :: B :: OR :: OG :: OB :: rest) 0%Q = v) ->
    (mean o img P c j == v)%Q).
  { intros j v N. apply M. intros p k Rc. destruct (Flat p k Rc) as (s & rest & Es & Eh).
    unfold datum. rewrite Es. destruct s as [sx sy h]. cbn [sm_hit] in Eh. subst h. apply N. }
  split; (eapply all_eq_mono; [eassumption|]); repeat constructor; apply D; reflexivity.
Qed.

(* With a filter that is nowhere negative a colour lies between those of the samples and black. *)
Theorem C53_between_partial : (forall x y, (0 <= f_fun o x y (inject_Z (Qceiling (f_w o))) (inject_Z (Qceiling (f_h o))))%Q) ->
  exists b, filter_bucket o valid img n aovs r = Some b /\
  forall c lo hi, inside r c -> (lo <= 0 <= hi)%Q ->
    (forall p k j, reaches o img c p k = true -> (j < 6)%nat -> (lo <= datum img p k j <= hi)%Q) ->
    forall v, In (Some v) (channel b r aovs (fst c) (snd c) 0 6) -> (lo <= v <= hi)%Q.
Proof.
  intros Pos. destruct C53_value_partial as (b & E & H). exists b. split; [exact E|].
  intros c lo hi C LH Rg v I. destruct (surrounds_some o c) as [P SP].
  destruct (H c P C SP) as [H1 H0].
  assert (Split : channel b r aovs (fst c) (snd c) 0 6 =
    channel b r aovs (fst c) (snd c) 0 3 ++ channel b r aovs (fst c) (snd c) 3 3).
  { unfold channel. change (zrange 0 6) with (zrange 0 3 ++ [3; 4; 5]). rewrite map_app. f_equal.
    change [3; 4; 5] with (map (Z.add 3) (zrange 0 3)). rewrite map_map. apply map_ext. intros k.
    f_equal. unfold offset. lia. }
  assert (Elem : forall l m, all_eq l m -> In (Some v) l -> exists w, In w m /\ (v == w)%Q).
  { intros l m A. induction A as [|x w l m X A IH]; intros J; [destruct J|]. destruct J as [->|J].
    - exists w. split; [left; reflexivity|exact X].
    - destruct (IH J) as (w' & W & Ew). exists w'. split; [right; exact W|exact Ew]. }
  rewrite Split in I. apply in_app_iff in I.
  destruct (Qeq_dec (hits o img P c) 0) as [Z|NZ].
  - destruct (H0 Z) as (Ci & Oi & _).
    assert (Ex : exists w, In w [0; 0; 0]%Q /\ (v == w)%Q) by (destruct I as [I|I]; eauto).
    destruct Ex as (w & W & Ew). rewrite Ew. cbn in W. destruct W as [<-|[<-|[<-|[]]]]; exact LH.
  - destruct (H1 NZ) as (Ci & Oi & _).
    assert (M : forall j, (j < 6)%nat -> (lo <= mean o img P c j <= hi)%Q).
    { intros j J. unfold mean. assert (NT := TOTAL c P C SP NZ).
      assert (W0 : forall p k, (0 <= weight o img c p k)%Q).
      { intros p k. unfold weight. destruct (reaches o img c p k && _); [apply Pos|lra]. }
      assert (T0 : (0 <= total o img P c)%Q).
      { unfold total, over. apply qsum_nonneg. intros p _. apply qsum_nonneg. intros k _. apply W0. }
      assert (TP : (0 < total o img P c)%Q) by (apply Qle_lteq in T0 as [T0|T0]; [exact T0|symmetry in T0; contradiction]).
      assert (Wd : forall p k, (weight o img c p k * lo <= weight o img c p k * datum img p k j <= weight o img c p k * hi)%Q).
      { intros p k. destruct (reaches o img c p k) eqn:Rc.
        - destruct (Rg p k j Rc J). assert (W := W0 p k).
          split; [rewrite (Qmult_comm _ lo), (Qmult_comm _ (datum _ _ _ _))|rewrite (Qmult_comm _ hi), (Qmult_comm _ (datum _ _ _ _))];
            apply Qmult_le_compat_r; assumption.
        - unfold weight. rewrite Rc. cbn [andb]. split; apply Qle_lteq; right; ring. }
      assert (Sc : forall q, (qsum (fun p => qsum (fun k => weight o img c p k * q) (zrange 0 (f_xs o * f_ys o))) P == total o img P c * q)%Q).
      { intros q. unfold total, over. rewrite <- qsum_scale. apply qsum_ext. intros p _. apply qsum_scale. }
      assert (L1 : (total o img P c * lo <= over o P (fun p k => weight o img c p k * datum img p k j))%Q).
      { rewrite <- Sc. apply qsum_le. intros p _. apply qsum_le. intros k _. apply Wd. }
      assert (L2 : (over o P (fun p k => weight o img c p k * datum img p k j) <= total o img P c * hi)%Q).
      { rewrite <- Sc. apply qsum_le. intros p _. apply qsum_le. intros k _. apply Wd. }
      split.
      - apply Qle_shift_div_l; [exact TP|]. rewrite Qmult_comm. exact L1.
      - apply Qle_shift_div_r; [exact TP|]. rewrite Qmult_comm. exact L2. }
    assert (Ex : exists w, In w [mean o img P c 0; mean o img P c 1; mean o img P c 2; mean o img P c 3; mean o img P c 4; mean o img P c 5] /\ (v == w)%Q).
    { destruct I as [I|I]; [destruct (Elem _ _ Ci I) as (w & W & Ew)|destruct (Elem _ _ Oi I) as (w & W & Ew)];
        exists w; split; try exact Ew; cbn in W |- *; tauto. }
    destruct Ex as (w & W & Ew). rewrite Ew. cbn in W.
    repeat destruct W as [W|W]; subst; try (apply M; lia); destruct W.
Qed.

End Pixels.
Print Assumptions C53_value_partial.
Print Assumptions C53_flat_partial.
Print Assumptions C53_between_partial.

(* ---------------------------------------------------------------- cases *)
Definition box (x y w h : Q) : Q :=
  if Qle_bool (Qabs x) (w / 2) && Qle_bool (Qabs y) (h / 2) then 1%Q else 0%Q.
Definition opt (w : Q) (f : Q -> Q -> Q -> Q -> Q) : fopts := FOpts 2 1 w 1 f 1000.
(* two samples in the middle of the halves of each pixel *)
Definition pic (hit : Z -> Z -> option (list Q)) (p : Z * Z) : list sample :=
  [Sample (inject_Z (fst p) + (1 # 4)) (inject_Z (snd p) + (1 # 2)) (hit (fst p) 0);
   Sample (inject_Z (fst p) + (3 # 4)) (inject_Z (snd p) + (1 # 2)) (hit (fst p) 1)].

Lemma pic_sampled : forall w f h m, (forall x k d, h x k = Some d -> List.length d = m) -> sampled (opt w f) (pic h) m.
Proof.
  intros w f h m H p. split; [reflexivity|]. intros s I.
  assert (A : forall z q, (0 < q < 1)%Q -> (inject_Z z < inject_Z z + q /\ inject_Z z + q < inject_Z (z + 1))%Q).
  { intros z q Q. rewrite inject_Z_plus. change (inject_Z 1) with 1%Q. lra. }
  assert (A1 := A (fst p) (1 # 4)%Q ltac:(lra)). assert (A2 := A (fst p) (3 # 4)%Q ltac:(lra)).
  assert (A3 := A (snd p) (1 # 2)%Q ltac:(lra)).
  destruct I as [<-|[<-|[]]]; cbn [sm_x sm_y sm_hit]; (split; [tauto|]); intros d E; eapply H; exact E.
Qed.
Lemma opt_proper : forall w f, (0 <= w)%Q -> proper (opt w f).
Proof. intros. unfold proper. cbn. refine (conj _ (conj _ (conj _ _))); [lia|lia|assumption|lra]. Qed.

Lemma inject_Z_minus : forall a b, inject_Z (a - b) = (inject_Z a - inject_Z b)%Q.
Proof. intros. unfold Z.sub. rewrite inject_Z_plus, inject_Z_opp. reflexivity. Qed.
Lemma qsum_zero_inv : forall A (f : A -> Q) l, (forall a, In a l -> (0 <= f a)%Q) -> (qsum f l == 0)%Q ->
  forall a, In a l -> (f a == 0)%Q.
Proof.
  induction l as [|x l IH]; intros P Z a I; [destruct I|]. cbn [qsum fold_right] in Z. fold (qsum f l) in Z.
  assert (P0 := P x (or_introl eq_refl)). assert (P1 : (0 <= qsum f l)%Q) by (apply qsum_nonneg; intros; apply P; right; auto).
  destruct I as [<-|I]; [lra|]. apply IH; auto; [intros; apply P; right; auto|lra].
Qed.
Lemma pic_total : forall w h c P,
  ~ (hits (opt w box) (pic h) P c == 0)%Q -> ~ (total (opt w box) (pic h) P c == 0)%Q.
Proof.
  intros w h c P NH Z. apply NH. set (o := opt w box) in *.
  assert (K : forall k, In k (zrange 0 (f_xs o * f_ys o)) -> k = 0 \/ k = 1).
  { intros k I. apply BucketProofs.zrange_in in I. cbn in I. lia. }
  assert (W : forall p k, In k (zrange 0 (f_xs o * f_ys o)) ->
    weight o (pic h) c p k = if reaches o (pic h) c p k then 1%Q else 0%Q).
  { intros p k I. unfold weight, reaches, sample_at.
    assert (Same : forall a b, (a == b)%Q -> forall m, Qle_bool (Qabs a) m = Qle_bool (Qabs b) m).
    { intros a b E m. apply eq_true_iff_eq. rewrite !Qle_bool_iff, E. tauto. }
    assert (Nr : forall q, (sub_dx o c p k == q)%Q ->
      near o q (inject_Z (snd p) + (1 # 2) - (inject_Z (snd c) + (1 # 2))) = near o (sub_dx o c p k) (sub_dy o c p k)).
    { intros q E. unfold near. f_equal; apply Same; [symmetry; exact E|].
      unfold sub_dy. rewrite inject_Z_minus. replace (k / f_xs o) with 0 by (destruct (K k I) as [->| ->]; reflexivity).
      cbn [f_ys o opt]. change (inject_Z 0) with 0%Q. change (inject_Z 1) with 1%Q. field. }
    assert (Bx : near o (sub_dx o c p k) (sub_dy o c p k) = true ->
      f_fun o (sub_dx o c p k) (sub_dy o c p k) (inject_Z (Qceiling (f_w o))) (inject_Z (Qceiling (f_h o))) = 1%Q).
    { intros E. cbn [f_fun o opt]. unfold box. unfold near in E. rewrite E. reflexivity. }
    destruct (K k I) as [->| ->].
    - change (nth_error (pic h p) (Z.to_nat 0)) with
        (Some (Sample (inject_Z (fst p) + (1 # 4)) (inject_Z (snd p) + (1 # 2)) (h (fst p) 0))).
      cbn [sm_x sm_y]. rewrite Nr; [|unfold sub_dx; rewrite inject_Z_minus; cbn [f_xs o opt]; change (inject_Z (0 mod 2)) with 0%Q;
        change (inject_Z 2) with 2%Q; field].
      destruct (near o (sub_dx o c p 0) (sub_dy o c p 0)); cbn [andb]; auto.
    - change (nth_error (pic h p) (Z.to_nat 1)) with
        (Some (Sample (inject_Z (fst p) + (3 # 4)) (inject_Z (snd p) + (1 # 2)) (h (fst p) 1))).
      cbn [sm_x sm_y]. rewrite Nr; [|unfold sub_dx; rewrite inject_Z_minus; cbn [f_xs o opt]; change (inject_Z (1 mod 2)) with 1%Q;
        change (inject_Z 2) with 2%Q; field].
      destruct (near o (sub_dx o c p 1) (sub_dy o c p 1)); cbn [andb]; auto. }
  assert (W0 : forall p k, In k (zrange 0 (f_xs o * f_ys o)) -> (0 <= weight o (pic h) c p k)%Q).
  { intros p k I. rewrite W by exact I. destruct (reaches _ _ _ _ _); lra. }
  unfold hits, over. apply qsum_zero. intros p Ip. apply qsum_zero. intros k Ik.
  unfold total, over in Z.
  assert (Z1 := qsum_zero_inv _ _ _ (fun p _ => qsum_nonneg _ _ _ (fun k I => W0 p k I)) Z p Ip). cbn beta in Z1.
  assert (Z2 := qsum_zero_inv _ _ _ (fun k I => W0 p k I) Z1 k Ik).
  rewrite W in Z2 by exact Ik. destruct (reaches o (pic h) c p k); [|reflexivity].
  exfalso. discriminate Z2.
Qed.

(* A filter over two pixels, a value of a shader after the others *)
Definition surf (x k : Z) : option (list Q) :=
  if x <? 0 then None else Some [inject_Z x; inject_Z k; 1; 1; 1; 1; 10; 0; 0; inject_Z (x + k)]%Q.
Example case_value :
  let o := opt 2 box in
  proper o /\ whole (f_w o) /\ whole (f_h o) /\ sampled o (pic surf) 10 /\ aovs_ok 10 [(9, 1)] /\
  (forall c P, ~ (hits o (pic surf) P c == 0)%Q -> ~ (total o (pic surf) P c == 0)%Q) /\
  match filter_bucket o true (pic surf) 10 [(9, 1)] (Region (-3) 5 2 7) with
  | Some b =>
      let v x i m := map (option_map Qred) (channel b (Region (-3) 5 2 7) [(9, 1)] x 6 i m) in
      (* nothing at all, then the edge, then the inside of the surface *)
      v (-2) 0 9 = map Some [0; 0; 0; 0; 0; 0; 0; 1000; 0]%Q /\
      v (-1) 0 9 = map Some [0; 0; 1 # 4; 1 # 4; 1 # 4; 1 # 4; 1 # 8; 5 # 2; 1 # 2]%Q /\
      v 0 0 9 = map Some [1 # 4; 1 # 4; 3 # 4; 3 # 4; 3 # 4; 3 # 4; 3 # 4; 15 # 2; 1]%Q /\
      v 1 0 3 = map Some [1; 1 # 2; 1]%Q /\ v 1 9 1 = [Some (3 # 2)%Q]
  | None => False
  end.
Proof.
  cbv zeta.
  split; [apply opt_proper; lra|]. split; [vm_compute; congruence|]. split; [vm_compute; congruence|].
  split.
  { apply pic_sampled. intros x k d. unfold surf. destruct (x <? 0); intros E; [discriminate|]. injection E as <-. reflexivity. }
  split; [repeat constructor; cbn; lia|]. split; [apply pic_total|].
  vm_compute. repeat split; reflexivity.
Qed.

(* A width of one and a half: the filter reaches into the pixels at both sides, but they are not
   looked at. Here the right half of each pixel on the left side is red. *)
Theorem C53_wide_refuted : exists o img c P b,
  proper o /\ sampled o img 9 /\ surrounds o P c /\ ~ (hits o img P c == 0)%Q /\
  (forall d e, (total o img d e == 0)%Q -> (hits o img d e == 0)%Q) /\
  filter_bucket o true img 9 [] (Region 0 0 1 1) = Some b /\ inside (Region 0 0 1 1) c /\
  ~ all_eq (channel b (Region 0 0 1 1) [] (fst c) (snd c) 0 1) [mean o img P c 0].
Proof.
  set (h := fun x k : Z => if (x <? 0) && (k =? 1) then Some [1; 0; 0; 1; 1; 1; 10; 0; 0]%Q else None).
  set (P := cells (Region (-2) (-2) 3 3)).
  destruct (filter_bucket (opt (3 # 2) box) true (pic h) 9 [] (Region 0 0 1 1)) as [b|] eqn:E; [|vm_compute in E; discriminate].
  exists (opt (3 # 2) box), (pic h), (0, 0), P, b.
  split; [apply opt_proper; lra|]. split; [apply pic_sampled|split; [|split; [|split; [|split; [exact E|split]]]]].
  - intros x k d. unfold h. destruct ((x <? 0) && (k =? 1)); intros X; [|discriminate]. injection X as <-. reflexivity.
  - split; [apply BucketProofs.cells_nodup|]. intros p X Y. apply BucketProofs.cells_in. unfold BucketProofs.inr.
    cbn in X, Y |- *. lia.
  - intros X. vm_compute in X. discriminate.
  - intros d e T. destruct (Qeq_dec (hits (opt (3 # 2) box) (pic h) d e) 0) as [H|H]; [exact H|].
    exfalso. exact (pic_total _ _ _ _ H T).
  - unfold inside. cbn. lia.
  - intros A. assert (E' : option_map (fun b => channel b (Region 0 0 1 1) [] 0 0 0 1)
      (filter_bucket (opt (3 # 2) box) true (pic h) 9 [] (Region 0 0 1 1)) = Some [Some 0%Q]) by (vm_compute; reflexivity).
    rewrite E in E'. cbn [option_map] in E'. 
    assert (Eb : channel b (Region 0 0 1 1) [] 0 0 0 1 = [Some 0%Q]) by congruence.
    cbn [fst snd] in A. rewrite Eb in A.
    inversion A as [|? ? ? ? X ? ]; subst. vm_compute in X. discriminate.
Qed.
Print Assumptions C53_wide_refuted.

(* A pixel of which one half is covered by an opaque surface: the opacity is one half, the channel a one
   quarter, and the depth lies in front of everything that was hit. *)
Theorem C53_alpha_refuted : exists o img b,
  proper o /\ whole (f_w o) /\ whole (f_h o) /\ sampled o img 9 /\
  (forall p k s d, sample_at img p k = Some s -> sm_hit s = Some d -> d = [1; 0; 0; 1; 1; 1; 10; 0; 0]%Q) /\
  filter_bucket o true img 9 [] (Region 0 0 1 1) = Some b /\
  all_eq (channel b (Region 0 0 1 1) [] 0 0 3 3) [1 # 2; 1 # 2; 1 # 2]%Q /\
  all_eq (channel b (Region 0 0 1 1) [] 0 0 6 1) [1 # 4]%Q /\
  all_eq (channel b (Region 0 0 1 1) [] 0 0 7 1) [5]%Q.
Proof.
  set (h := fun x k : Z => if k =? 1 then Some [1; 0; 0; 1; 1; 1; 10; 0; 0]%Q else None).
  destruct (filter_bucket (opt 1 box) true (pic h) 9 [] (Region 0 0 1 1)) as [b|] eqn:E; [|vm_compute in E; discriminate].
  exists (opt 1 box), (pic h), b.
  split; [apply opt_proper; lra|]. split; [vm_compute; congruence|]. split; [vm_compute; congruence|].
  split; [apply pic_sampled|split; [|split; [exact E|]]].
  - intros x k d. unfold h. destruct (k =? 1); intros X; [|discriminate]. injection X as <-. reflexivity.
  - intros p k s d S D. apply nth_error_In in S. unfold pic, h in S. cbn in S.
    destruct S as [<-|[<-|[]]]; cbn in D; congruence.
  - match type of E with ?x = _ => assert (E' : option_map (fun b =>
      forallb (fun v => match v with Some v => Qeq_bool v (1 # 2) | None => false end) (channel b (Region 0 0 1 1) [] 0 0 3 3) &&
      forallb (fun v => match v with Some v => Qeq_bool v (1 # 4) | None => false end) (channel b (Region 0 0 1 1) [] 0 0 6 1) &&
      forallb (fun v => match v with Some v => Qeq_bool v 5 | None => false end) (channel b (Region 0 0 1 1) [] 0 0 7 1)) x = Some true)
      by (vm_compute; reflexivity) end.
    rewrite E in E'. cbn [option_map] in E'. apply (f_equal (fun x => match x with Some x => x | None => false end)) in E'. cbn beta iota in E'.
    apply andb_prop in E' as [E' E3]. apply andb_prop in E' as [E1 E2].
    assert (G : forall l v, forallb (fun w => match w with Some w => Qeq_bool w v | None => false end) l = true ->
      all_eq l (map (fun _ => v) l)).
    { induction l as [|w l IH]; intros v H; constructor; cbn in H; apply andb_prop in H as [H1 H2]; [|apply IH; exact H2].
      destruct w; [apply Qeq_bool_eq; exact H1|discriminate]. }
    refine (conj _ (conj _ _)); [exact (G _ _ E1)|exact (G _ _ E2)|exact (G _ _ E3)].
Qed.
Print Assumptions C53_alpha_refuted.

(* The coverage counts the hits of the whole filter: a pixel between two surfaces that hits nothing
   itself counts as covered. *)
Theorem C53_coverage_refuted : exists o img b,
  proper o /\ whole (f_w o) /\ whole (f_h o) /\ sampled o img 9 /\ hit img (0, 0) 0 = false /\ hit img (0, 0) 1 = false /\
  filter_bucket o true img 9 [] (Region 0 0 1 1) = Some b /\
  channel b (Region 0 0 1 1) [] 0 0 8 1 = [Some 1%Q].
Proof.
  set (h := fun x k : Z => if x =? 0 then None else Some [1; 0; 0; 1; 1; 1; 10; 0; 0]%Q).
  destruct (filter_bucket (opt 3 box) true (pic h) 9 [] (Region 0 0 1 1)) as [b|] eqn:E; [|vm_compute in E; discriminate].
  exists (opt 3 box), (pic h), b.
  split; [apply opt_proper; lra|]. split; [vm_compute; congruence|]. split; [vm_compute; congruence|].
  split; [apply pic_sampled|split; [|split; [|split; [exact E|]]]].
  - intros x k d. unfold h. destruct (x =? 0); intros X; [discriminate|]. injection X as <-. reflexivity.
  - reflexivity.
  - reflexivity.
  - match type of E with ?x = _ => assert (E' : option_map (fun b => channel b (Region 0 0 1 1) [] 0 0 8 1) x = Some [Some 1%Q])
      by (vm_compute; reflexivity) end.
    rewrite E in E'. cbn [option_map] in E'. congruence.
Qed.
Print Assumptions C53_coverage_refuted.

(* A filter of the user whose weights cancel divides by zero. *)
Theorem C53_cancel_refuted : exists o img,
  proper o /\ whole (f_w o) /\ whole (f_h o) /\ sampled o img 9 /\
  filter_bucket o true img 9 [] (Region 0 0 1 1) = None.
Proof.
  exists (opt 1 (fun x y _ _ => x)), (pic (fun _ _ => Some [1; 0; 0; 1; 1; 1; 10; 0; 0]%Q)).
  split; [apply opt_proper; lra|]. split; [vm_compute; congruence|]. split; [vm_compute; congruence|].
  split; [apply pic_sampled|].
  - intros x k d X. injection X as <-. reflexivity.
  - vm_compute. reflexivity.
Qed.
Print Assumptions C53_cancel_refuted.

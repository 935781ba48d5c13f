(** The current transformation: the code does what its requests mean. *)

From Coq Require Import List Arith Bool QArith ZArith Lia Lqa.
From Verif Require Import MatModel MatSpec MatProofs MotionModel MotionSpec MotionProofs XformModel XformSpec.
From Verif Require StateModel.
Import ListNotations.
Local Open Scope nat_scope.

(** * Signs *)

Lemma negb_le : forall x, negb (Qle_bool 0 x) = true <-> (x < 0)%Q.
Proof.
  intros x. rewrite negb_true_iff. split.
  - intros F. apply Qnot_le_lt. intros G. apply Qle_bool_iff in G. congruence.
  - intros L. destruct (Qle_bool 0 x) eqn:G; auto. apply Qle_bool_iff in G. lra.
Qed.

Lemma det_negative_ok : forall m, det_negative m = true <-> (det (E m) < 0)%Q.
Proof. intros m. unfold det_negative. rewrite negb_le, determinant_is. reflexivity. Qed.

Lemma flips_ok : forall m, honest m -> (flips m = true <-> (det (E m) < 0)%Q).
Proof.
  intros m H. unfold flips. rewrite andb_true_iff, negb_le, determinant_is.
  split; [tauto|]. intros D. split; [|exact D].
  destruct (idf m) eqn:F; [|reflexivity]. exfalso.
  pose proof (det_ext _ _ (H F)) as K. rewrite det_one in K. lra.
Qed.

Lemma sign_product : forall (a b : Q) f g, ~ (a * b == 0)%Q ->
  (f = true <-> (a < 0)%Q) -> (~ (b == 0)%Q -> (g = true <-> (b < 0)%Q)) ->
  (turned f g = true <-> (a * b < 0)%Q).
Proof.
  intros a b f g N F G.
  assert (Na : ~ (a == 0)%Q) by (intros Z; apply N; rewrite Z; ring).
  assert (Nb : ~ (b == 0)%Q) by (intros Z; apply N; rewrite Z; ring).
  specialize (G Nb).
  assert (Ca : (a < 0 \/ 0 < a)%Q) by (destruct (Q_dec a 0) as [[L|L]|L]; [left; exact L|right; exact L|contradiction]).
  assert (Cb : (b < 0 \/ 0 < b)%Q) by (destruct (Q_dec b 0) as [[L|L]|L]; [left; exact L|right; exact L|contradiction]).
  destruct f.
  - assert (La : (a < 0)%Q) by tauto. destruct g; cbn [turned negb].
    + assert (Lb : (b < 0)%Q) by tauto. split; [discriminate|]. intros; exfalso; nra.
    + destruct Cb as [Lb|Lb]; [assert (false = true) by tauto; discriminate|]. split; [intros _; nra|reflexivity].
  - destruct Ca as [La|La]; [assert (false = true) by tauto; discriminate|]. destruct g; cbn [turned].
    + assert (Lb : (b < 0)%Q) by tauto. split; [intros _; nra|reflexivity].
    + destruct Cb as [Lb|Lb]; [assert (false = true) by tauto; discriminate|].
      split; [discriminate|]. intros; exfalso; nra.
Qed.

(** * One matrix with its handedness *)

(** The matrix and the handedness are right for the transformation [A] and the camera
    [C]; the handedness only if [hc]. *)
Definition fits (hc : Prop) (C A : elements) (m : matrix) (h : bool) : Prop :=
  same (E m) A /\ honest m /\
  (hc -> ~ (det (product A C) == 0)%Q -> (h = true <-> (det (product A C) < 0)%Q)).

Lemma fits_weak : forall (hc hc' : Prop) C A m h, (hc' -> hc) -> fits hc C A m h -> fits hc' C A m h.
Proof. intros hc hc' C A m h I (S & H & K). split; [|split]; auto. Qed.

Lemma fits_set : forall hc C A m c, same (E c) C -> honest c -> same (E m) A -> honest m ->
  fits hc C A m (turned (flips m) (flips c)).
Proof.
  intros hc C A m c Sc Hc Sm Hm. split; [exact Sm|split; [exact Hm|]]. intros _ N.
  rewrite det_product in N |- *. apply sign_product; [exact N| |].
  - rewrite (flips_ok _ Hm), (det_ext _ _ Sm). reflexivity.
  - intros _. rewrite (flips_ok _ Hc), (det_ext _ _ Sc). reflexivity.
Qed.

Lemma fits_concat : forall hc C A m h q R f, fits hc C A m h -> honest q -> same (E q) R ->
  (f = true <-> (det (E q) < 0)%Q) ->
  fits hc C (product R A) (MatModel.times m q) (turned f h).
Proof.
  intros hc C A m h q R f (Sm & Hm & Km) Hq Sq F.
  destruct (times_ok m q Hm Hq) as [T1 T2]. split; [|split; [exact T2|]].
  - eapply same_trans; [exact T1|]. apply product_ext; assumption.
  - intros hcp N.
    assert (X : (det (product (product R A) C) == det R * det (product A C))%Q)
      by (rewrite !det_product; ring).
    rewrite X in N |- *. apply sign_product; [exact N| |exact (Km hcp)].
    rewrite F, (det_ext _ _ Sq). reflexivity.
Qed.

Lemma fits_ext : forall hc C A B m h, same A B -> fits hc C A m h -> fits hc C B m h.
Proof.
  intros hc C A B m h S (Sm & Hm & K). split; [eapply same_trans; eauto|split; [exact Hm|]].
  intros hcp N.
  assert (X : (det (product B C) == det (product A C))%Q).
  { apply det_ext. apply product_ext; [apply same_sym; exact S|apply same_refl]. }
  rewrite X in N |- *. auto.
Qed.

(** * A transformation *)

Definition empty (l : list time) : bool := match l with [] => true | _ => false end.

Definition rel_x (hc : Prop) (C : elements) (x : xform) (v : time -> elements) (ks : list time) (dc : Prop) : Prop :=
  exists km d,
    rep key (slots x) km d /\
    (forall t, km t <> None <-> In t ks) /\
    moving x = negb (empty ks) /\
    (ks = [] -> forall u, fits hc C (v u) (fixed x) (hand x)) /\
    (forall t k, km t = Some k -> fits hc C (v t) (kmat k) (khand k)) /\
    (dc -> forall u, ~ In u ks -> fits hc C (v u) (kmat d) (khand d)).

Lemma rel_x_weak : forall (hc hc' dc dc' : Prop) C x v ks, (hc' -> hc) -> (dc' -> dc) ->
  rel_x hc C x v ks dc -> rel_x hc' C x v ks dc'.
Proof.
  intros hc hc' dc dc' C x v ks I J (km & d & R & K & M & F & V & D). exists km, d.
  split; [exact R|split; [exact K|split; [exact M|split; [|split]]]].
  - intros Z u. eapply fits_weak; [exact I|]. auto.
  - intros t k Ek. eapply fits_weak; [exact I|]. auto.
  - intros dcp u Hu. eapply fits_weak; [exact I|]. auto.
Qed.

Lemma key_value : forall s km d t k, rep key s km d -> km t = Some k ->
  get_interpolated key between_keys t s = Some k.
Proof.
  intros s km d t k R Ek.
  destruct (lookup_spec key between_keys s km d t R) as [(v & Ev & Va) _]; [exists t; congruence|].
  rewrite Ev. f_equal. destruct Va as [v Em|k0 v L Em No|k0 v L Em No|k1 k2 v1 v2 L E1 E2 No]; [congruence| | |].
  - rewrite No in Ek by exact L. discriminate.
  - rewrite No in Ek by exact L. discriminate.
  - rewrite No in Ek by exact L. discriminate.
Qed.

Lemma some_value : forall hc C x v ks dc t, rel_x hc C x v ks dc ->
  exists m h, mat_at x t = Some m /\ hand_at x t = Some h /\ (ks = [] -> m = fixed x /\ h = hand x).
Proof.
  intros hc C x v ks dc t (km & d & R & K & M & F & V & D). unfold mat_at, hand_at. rewrite M.
  destruct ks as [|k0 ks]; cbn [empty negb]; [eauto 6|].
  assert (N : km k0 <> None) by (apply K; now left).
  destruct (lookup_spec key between_keys (slots x) km d t R) as [(k & Ev & Va) _]; [eauto|].
  rewrite Ev. cbn [option_map]. exists (kmat k), (khand k). split; [reflexivity|split; [reflexivity|discriminate]].
Qed.

Lemma value_right : forall hc C x v ks dc t, rel_x hc C x v ks dc -> ks = [] \/ In t ks ->
  exists m h, mat_at x t = Some m /\ hand_at x t = Some h /\ fits hc C (v t) m h.
Proof.
  intros hc C x v ks dc t (km & d & R & K & M & F & V & D) H. unfold mat_at, hand_at. rewrite M.
  destruct H as [->|H].
  - cbn [empty negb]. exists (fixed x), (hand x). split; [reflexivity|split; [reflexivity|]]. apply F; reflexivity.
  - assert (Em : empty ks = false) by (destruct ks; [contradiction H|reflexivity]). rewrite Em. cbn [negb].
    assert (N : km t <> None) by (apply K; exact H).
    destruct (km t) as [k|] eqn:Ek; [|congruence].
    rewrite (key_value _ _ _ _ _ R Ek). cbn [option_map].
    exists (kmat k), (khand k). split; [reflexivity|split; [reflexivity|]]. apply V; exact Ek.
Qed.

Lemma set_default_rel : forall hc C x v ks (dc dc' : Prop) k, rel_x hc C x v ks dc ->
  (dc' -> forall u, ~ In u ks -> fits hc C (v u) (kmat k) (khand k)) ->
  rel_x hc C (set_default k x) v ks dc'.
Proof.
  intros hc C x v ks dc dc' k (km & d & R & K & M & F & V & D) N. exists km, k.
  split; [|split; [exact K|split; [exact M|split; [exact F|split; [exact V|exact N]]]]].
  destruct R as (R1 & R2 & R3 & R4). split; [exact R1|split; [exact R2|split; [reflexivity|exact R4]]].
Qed.

Lemma motion_copy_rel : forall hc C x v ks dc, rel_x hc C x v ks dc ->
  exists x', motion_copy x = Some x' /\ rel_x hc C x' v ks (ks = []).
Proof.
  intros hc C x v ks dc R. unfold motion_copy.
  destruct (some_value _ _ _ _ _ _ (slot_time key 0 (slots x)) R) as (m & h & E1 & E2 & E3).
  rewrite E1, E2. eexists; split; [reflexivity|].
  eapply set_default_rel; [exact R|]. intros Z u _. destruct (E3 Z) as [-> ->].
  destruct R as (km & d & _ & _ & _ & F & _). cbn [kmat khand]. auto.
Qed.

(** The value of one time changed. *)
Definition at_time (t : time) (f : elements -> elements) (v : time -> elements) : time -> elements :=
  fun u => if Z.eqb u t then f (v u) else v u.

Lemma in_put : forall km (ks : list time) t (k : key), (forall t, km t <> None <-> In t ks) ->
  forall u, put key km t k u <> None <-> In u (t :: ks).
Proof.
  intros km ks t k K u. unfold put. destruct (Z.eqb_spec u t) as [->|N].
  - split; [intros _; now left|intros _; discriminate].
  - rewrite K. cbn. split; [tauto|]. intros [->|H]; [congruence|exact H].
Qed.

Lemma add_slot_rel : forall hc C x v ks dc t k f, rel_x hc C x v ks dc ->
  fits hc C (f (v t)) (kmat k) (khand k) ->
  exists x', add_slot t k x = Some x' /\
    rel_x hc C (start_moving x') (at_time t f v) (t :: ks) dc.
Proof.
  intros hc C x v ks dc t k f (km & d & R & K & M & F & V & D) G. unfold add_slot.
  destruct (exec_spec key concat_keys (Add t k) (slots x) km d R) as (s & Es & Rs).
  cbn [mexec] in Es. rewrite Es. cbn [option_map]. eexists; split; [reflexivity|].
  cbn [effect fst snd] in Rs. exists (put key km t k), d. cbn [start_moving slots moving fixed hand empty negb].
  split; [exact Rs|]. split; [apply in_put; exact K|]. split; [reflexivity|]. split; [discriminate|]. split.
  - intros u k'. unfold put, at_time. destruct (Z.eqb_spec u t) as [->|N]; [|apply V].
    intros E1. injection E1 as <-. exact G.
  - intros dcp u Hu. unfold at_time. destruct (Z.eqb_spec u t) as [->|N]; [exfalso; apply Hu; now left|].
    apply D; [exact dcp|]. intros H. apply Hu. now right.
Qed.

Lemma concat_slot_rel : forall hc C x v ks (dc : Prop) t q R0, rel_x hc C x v ks dc ->
  dc \/ In t ks -> honest q -> same (E q) R0 -> forall hh,
  exists x', concat_slot t (Key q hh) x = Some x' /\
    rel_x hc C (start_moving x') (at_time t (product R0) v) (t :: ks) dc.
Proof.
  intros hc C x v ks dc t q R0 (km & d & R & K & M & F & V & D) A Hq Sq hh. unfold concat_slot.
  destruct (exec_spec key concat_keys (Concat t (Key q hh)) (slots x) km d R) as (s & Es & Rs).
  cbn [mexec] in Es. rewrite Es. cbn [option_map]. eexists; split; [reflexivity|].
  cbn [effect fst snd] in Rs.
  set (k0 := match km t with Some k => k | None => d end) in *.
  assert (G0 : fits hc C (v t) (kmat k0) (khand k0)).
  { unfold k0. destruct (km t) as [k|] eqn:Ek; [apply V; exact Ek|]. apply D.
    - destruct A as [A|A]; [exact A|]. apply K in A. contradiction.
    - intros H. apply K in H. contradiction. }
  exists (put key km t (concat_keys k0 (Key q hh))), d. cbn [start_moving slots moving fixed hand empty negb].
  split; [exact Rs|]. split; [apply in_put; exact K|]. split; [reflexivity|]. split; [discriminate|]. split.
  - intros u k'. unfold put, at_time. destruct (Z.eqb_spec u t) as [->|N]; [|apply V].
    intros E1. injection E1 as <-. unfold concat_keys. cbn [kmat khand].
    apply fits_concat; [exact G0|exact Hq|exact Sq|]. apply det_negative_ok.
  - intros dcp u Hu. unfold at_time. destruct (Z.eqb_spec u t) as [->|N]; [exfalso; apply Hu; now left|].
    apply D; [exact dcp|]. intros H. apply Hu. now right.
Qed.

(** Outside motion blocks. *)
Lemma concat_outside : forall hc C x v ks dc t q R0, rel_x hc C x v ks dc ->
  honest q -> same (E q) R0 ->
  exists x', concat_current false t q x = Some x' /\
    rel_x hc C x' (fun u => product R0 (v u)) ks False.
Proof.
  intros hc C x v ks dc t q R0 R Hq Sq. unfold concat_current.
  pose proof R as (km & d & Rs & K & M & F & V & D). rewrite M.
  destruct ks as [|k0 ks]; cbn [empty negb].
  - eexists; split; [reflexivity|].
    apply set_default_rel with (dc := False); [|contradiction].
    exists km, d. cbn [slots moving fixed hand].
    split; [exact Rs|split; [exact K|split; [reflexivity|split; [|split; [|contradiction]]]]].
    + intros _ u. apply fits_concat; [apply F; reflexivity|exact Hq|exact Sq|]. apply flips_ok; exact Hq.
    + intros u k Ek. exfalso. assert (B : In u []) by (apply K; congruence). exact B.
  - eexists; split; [reflexivity|].
    destruct (exec_spec key concat_keys (ConcatAll (Key q (turned (flips q) (hand x)))) (slots x) km d Rs) as (s & Es & Rs').
    cbn [mexec] in Es. injection Es as <-. cbn [effect fst snd] in Rs'.
    eexists _, d. cbn [slots moving fixed hand].
    split; [exact Rs'|]. split; [|split; [reflexivity|split; [discriminate|split; [|contradiction]]]].
    + intros u. cbv beta. rewrite <- K. destruct (km u); cbn; split; intros; congruence.
    + intros u k'. cbv beta. destruct (km u) as [k1|] eqn:Ek; [|discriminate]. cbn [option_map].
      intros E1. injection E1 as <-. unfold concat_keys. cbn [kmat khand].
      apply fits_concat; [apply V; exact Ek|exact Hq|exact Sq|]. apply det_negative_ok.
Qed.

Lemma set_outside : forall hc C x v dc t m c A, rel_x hc C x v [] dc ->
  same (E c) C -> honest c -> honest m -> same (E m) A ->
  exists x', set_transform false c t m x = Some x' /\ rel_x hc C x' (fun _ => A) [] False.
Proof.
  intros hc C x v dc t m c A (km & d & Rs & K & M & F & V & D) Sc Hc Hm Sm. unfold set_transform.
  rewrite M. cbn [empty negb]. eexists; split; [reflexivity|].
  exists km, d. cbn [slots moving fixed hand].
  split; [exact Rs|split; [exact K|split; [reflexivity|split; [|split; [|contradiction]]]]].
  - intros _ u. apply fits_set; assumption.
  - intros u k Ek. exfalso. assert (B : In u []) by (apply K; congruence). exact B.
Qed.

Lemma set_current_outside : forall C x v dc t m A, rel_x False C x v [] dc ->
  honest m -> same (E m) A ->
  exists x', set_current false t m x = Some x' /\ rel_x False C x' (fun _ => A) [] False.
Proof.
  intros C x v dc t m A (km & d & Rs & K & M & F & V & D) Hm Sm. unfold set_current.
  rewrite M. cbn [empty negb]. eexists; split; [reflexivity|].
  apply set_default_rel with (dc := False); [|contradiction].
  exists km, d. cbn [slots moving fixed hand].
  split; [exact Rs|split; [exact K|split; [reflexivity|split; [|split; [|contradiction]]]]].
  - intros _ u. split; [exact Sm|split; [exact Hm|contradiction]].
  - intros u k Ek. exfalso. assert (B : In u []) by (apply K; congruence). exact B.
Qed.

Lemma rel_x_ext : forall hc C x v v' ks ks' (dc : Prop),
  (forall u, same (v u) (v' u)) -> (forall t, In t ks <-> In t ks') ->
  rel_x hc C x v ks dc -> rel_x hc C x v' ks' dc.
Proof.
  intros hc C x v v' ks ks' dc Sv Sk (km & d & R & K & M & F & V & D).
  assert (Em : empty ks = empty ks').
  { destruct ks as [|a ks], ks' as [|b ks']; try reflexivity.
    - exfalso. apply (proj2 (Sk b)). now left.
    - exfalso. apply (proj1 (Sk a)). now left. }
  exists km, d. split; [exact R|]. split; [|split; [|split; [|split]]].
  - intros t. rewrite K. apply Sk.
  - rewrite M, Em. reflexivity.
  - intros -> u. eapply fits_ext; [apply Sv|]. apply F. destruct ks; [reflexivity|discriminate].
  - intros t k Ek. eapply fits_ext; [apply Sv|]. apply V; exact Ek.
  - intros dcp u Hu. eapply fits_ext; [apply Sv|]. apply D; [exact dcp|]. rewrite Sk. exact Hu.
Qed.

Lemma full_honest : forall f, honest (full f).
Proof. intros f H. discriminate. Qed.

Lemma perspective_ok : forall t, same (E (perspective t)) (perspective_spec t).
Proof.
  intros t i j Hi Hj.
  destruct i as [|[|[|[|i]]]]; [| | | |lia]; destruct j as [|[|[|[|j]]]]; try lia; reflexivity.
Qed.

(** The requests which concatenate. *)
Lemma concat_request : forall sh r, replaces r = false -> changes r = true ->
  (forall m, r = Turn m \/ r = Space m -> honest m) ->
  exists q R0,
    (forall cam w b, request_step sh r cam w b = bind (ptrans_concat sh q b) advance) /\
    honest q /\ same (E q) R0 /\ forall A, meant r A = product R0 A.
Proof.
  intros sh r N Ch Hm. destruct r as [|f|f|t|x y z|m|x y z|m|]; try discriminate.
  - exists (full f), f. split; [reflexivity|split; [apply full_honest|split; [apply same_refl|reflexivity]]].
  - exists (perspective t), (perspective_spec t).
    split; [reflexivity|split; [apply full_honest|split; [apply perspective_ok|reflexivity]]].
  - exists (translation x y z), (translation_spec x y z). destruct (translation_ok x y z) as [T1 T2].
    split; [reflexivity|split; [exact T2|split; [exact T1|reflexivity]]].
  - exists m, (E m). split; [reflexivity|split; [apply Hm; now left|split; [apply same_refl|reflexivity]]].
  - exists (scaling x y z), (scaling_spec x y z). destruct (scaling_ok x y z) as [T1 T2].
    split; [reflexivity|split; [exact T2|split; [exact T1|reflexivity]]].
Qed.

(** * Requests *)

(** The camera, always without motion. *)
Definition rel_cam (cam : xform) (C : elements) : Prop :=
  moving cam = false /\ same (E (fixed cam)) C /\ honest (fixed cam).

Lemma cam_at : forall cam C t, rel_cam cam C -> mat_at cam t = Some (fixed cam).
Proof. intros cam C t (M & _). unfold mat_at. rewrite M. reflexivity. Qed.

Lemma advance_outside : forall b, is_motion (kind b) = false -> advance b = Some b.
Proof. intros b H. unfold advance. rewrite H. reflexivity. Qed.

Lemma advance_motion : forall b t, is_motion (kind b) = true -> nth_error (ts b) (it b) = Some t ->
  advance b = Some (Block (kind b) (trans b) (ts b) (it b + 1)).
Proof.
  intros b t H N. unfold advance. rewrite H.
  assert (L : it b < List.length (ts b)) by (apply nth_error_Some; congruence).
  destruct (Nat.leb_spec (it b + 1) (List.length (ts b))); [reflexivity|lia].
Qed.

Lemma identity_one : same (E identity) one.
Proof. apply same_refl. Qed.

Lemma request_outside : forall sh r cam w b hc C v ks (dc : Prop),
  is_motion (kind b) = false -> rel_cam cam C ->
  rel_x hc C (trans b) v ks dc ->
  (forall m, r = Turn m \/ r = Space m -> honest m) ->
  (replaces r = true -> ks = []) ->
  (forall m, r = Space m -> ~ hc) ->
  exists x, request_step sh r cam w b = Some (with_trans b x) /\
    rel_x hc C x (fun u => meant r (v u)) ks False.
Proof.
  intros sh r cam w b hc C v ks dc Mo Rc R Hm Hk Hs.
  destruct (replaces r) eqn:Re.
  - specialize (Hk eq_refl). subst ks. pose proof (cam_at cam C) as Ca.
    destruct Rc as (Mc & Sc & Hc).
    assert (SetM : forall m A, honest m -> same (E m) A ->
      exists x, ptrans_set sh cam m b = Some (with_trans b x) /\ rel_x hc C x (fun _ => A) [] False).
    { intros m A Hm' Sm. unfold ptrans_set. rewrite (Ca (now sh b)) by (split; auto). rewrite Mo.
      destruct (set_outside hc C (trans b) v dc (now sh b) m (fixed cam) A R Sc Hc Hm' Sm) as (x & Ex & Rx).
      rewrite Ex. exists x. split; [reflexivity|exact Rx]. }
    assert (Adv : forall x, advance (with_trans b x) = Some (with_trans b x)).
    { intros x. apply advance_outside. exact Mo. }
    destruct r as [|f|f|t|x y z|m|x y z|m|]; try discriminate; unfold request_step; cbn [meant].
    + destruct (SetM identity one identity_honest identity_one) as (x & Ex & Rx).
      rewrite Ex. cbn [bind]. rewrite Adv. exists x. split; [reflexivity|exact Rx].
    + destruct w.
      * cbn [mat_at moving new_xform bind fixed].
        destruct (SetM identity one identity_honest identity_one) as (x & Ex & Rx).
        rewrite Ex. cbn [bind]. unfold ptrans_concat. cbn [with_trans kind trans]. rewrite Mo.
        destruct (concat_outside hc C x _ [] _ (now sh (with_trans b x)) (full f) f Rx (full_honest f) (same_refl f)) as (x2 & E2 & R2).
        unfold with_trans in E2 |- *. rewrite E2. cbn [option_map bind].
        unfold with_trans in Adv. cbn [kind ts it]. rewrite Adv.
        exists x2. split; [reflexivity|]. eapply rel_x_ext; [| |exact R2]; [|reflexivity].
        intros u. apply product_one.
      * destruct (SetM (full f) f (full_honest f) (same_refl f)) as (x & Ex & Rx).
        rewrite Ex. cbn [bind]. rewrite Adv. exists x. split; [reflexivity|exact Rx].
    + assert (R' : rel_x False C (trans b) v [] dc).
      { eapply rel_x_weak; [| |exact R]; [intros []|auto]. }
      assert (Hm1 : honest m) by (apply Hm; now right).
      assert (Back : forall x vv, rel_x False C x vv [] False -> rel_x hc C x vv [] False).
      { intros x vv. apply rel_x_weak; [|auto]. intros hcp. exfalso. exact (Hs m eq_refl hcp). }
      destruct w.
      * cbn [mat_at moving new_xform bind fixed]. unfold ptrans_set_current. rewrite Mo.
        destruct (set_current_outside C (trans b) v dc (now sh b) identity one R' identity_honest identity_one) as (x & Ex & Rx).
        rewrite Ex. cbn [option_map bind]. unfold ptrans_concat. cbn [with_trans kind trans]. rewrite Mo.
        destruct (concat_outside False C x _ [] _ (now sh (with_trans b x)) m (E m) Rx Hm1 (same_refl _)) as (x2 & E2 & R2).
        unfold with_trans in E2 |- *. rewrite E2. cbn [option_map bind].
        unfold with_trans in Adv. cbn [kind ts it]. rewrite Adv.
        exists x2. split; [reflexivity|]. apply Back. eapply rel_x_ext; [| |exact R2]; [|reflexivity].
        intros u. apply product_one.
      * unfold ptrans_set_current. rewrite Mo.
        destruct (set_current_outside C (trans b) v dc (now sh b) m (E m) R' Hm1 (same_refl _)) as (x & Ex & Rx).
        rewrite Ex. cbn [option_map bind]. rewrite Adv. exists x. split; [reflexivity|apply Back; exact Rx].
  - destruct (changes r) eqn:Ch.
    + destruct (concat_request sh r Re Ch Hm) as (q & R0 & Es & Hq & Sq & Me).
      rewrite Es. unfold ptrans_concat. rewrite Mo.
      destruct (concat_outside hc C (trans b) v ks dc (now sh b) q R0 R Hq Sq) as (x & Ex & Rx).
      rewrite Ex. cbn [option_map bind]. rewrite advance_outside by exact Mo.
      exists x. split; [reflexivity|]. eapply rel_x_ext; [| |exact Rx]; [|reflexivity].
      intros u. cbv beta. rewrite Me. apply same_refl.
    + destruct r; try discriminate. unfold request_step. cbn [bind]. rewrite advance_outside by exact Mo.
      exists (trans b). split; [destruct b; reflexivity|].
      eapply rel_x_weak; [| |exact R]; [auto|contradiction].
Qed.

Lemma request_motion : forall sh r cam w b hc C v ks (dc : Prop) t,
  is_motion (kind b) = true -> nth_error (ts b) (it b) = Some t -> rel_cam cam C ->
  rel_x hc C (trans b) v ks dc ->
  (forall m, r = Turn m \/ r = Space m -> honest m) ->
  (replaces r = true \/ changes r = false \/ dc \/ In t ks) ->
  (forall m, r = Space m -> ~ hc) ->
  exists x, request_step sh r cam w b = Some (Block (kind b) x (ts b) (it b + 1)) /\
    rel_x hc C x (at_time t (meant r) v) (if changes r then t :: ks else ks) dc.
Proof.
  intros sh r cam w b hc C v ks dc t Mo Nt Rc R Hm Hk Hs.
  assert (Now : forall x, now sh (with_trans b x) = t).
  { intros x. unfold now, block_time. cbn [with_trans kind ts it]. rewrite Mo, Nt. reflexivity. }
  assert (Now0 : now sh b = t).
  { unfold now, block_time. rewrite Mo, Nt. reflexivity. }
  assert (Adv : forall x, advance (with_trans b x) = Some (Block (kind b) x (ts b) (it b + 1))).
  { intros x. apply (advance_motion (with_trans b x) t); [exact Mo|exact Nt]. }
  assert (Twice : forall x (f : elements -> elements),
    rel_x hc C x (at_time t f (at_time t (fun _ => one) v)) (t :: t :: ks) dc ->
    rel_x hc C x (at_time t (fun _ => f one) v) (t :: ks) dc).
  { intros x f. apply rel_x_ext.
    - intros u. unfold at_time. destruct (Z.eqb u t); apply same_refl.
    - intros u. cbn. tauto. }
  destruct (replaces r) eqn:Re.
  - pose proof (cam_at cam C) as Ca.
    pose proof Rc as (Mc & Sc & Hc).
    assert (SetM : forall m A, honest m -> same (E m) A ->
      exists x, ptrans_set sh cam m b = Some (with_trans b x) /\ rel_x hc C x (at_time t (fun _ => A) v) (t :: ks) dc).
    { intros m A Hm' Sm. unfold ptrans_set. rewrite (Ca (now sh b)) by exact Rc. rewrite Mo, Now0.
      unfold set_transform.
      destruct (add_slot_rel hc C (trans b) v ks dc t (Key m (turned (flips m) (flips (fixed cam)))) (fun _ => A) R) as (x & Ex & Rx).
      { cbn [kmat khand]. apply fits_set; assumption. }
      rewrite Ex. cbn [option_map]. exists (start_moving x). split; [reflexivity|exact Rx]. }
    assert (ConM : forall x vv kks q R0, rel_x hc C x vv kks dc -> In t kks -> honest q -> same (E q) R0 ->
      exists x', ptrans_concat sh q (with_trans b x) = Some (with_trans b x') /\
        rel_x hc C x' (at_time t (product R0) vv) (t :: kks) dc).
    { intros x vv kks q R0 Rx Ik Hq Sq. unfold ptrans_concat. rewrite Now. cbn [with_trans kind trans]. rewrite Mo.
      unfold concat_current.
      destruct (concat_slot_rel hc C x vv kks dc t q R0 Rx (or_intror Ik) Hq Sq (turned (flips q) (hand x))) as (x' & E' & R').
      rewrite E'. cbn [option_map]. exists (start_moving x'). split; [reflexivity|exact R']. }
    destruct r as [|f|f|tt|x y z|m|x y z|m|]; try discriminate; unfold request_step; cbn [meant changes].
    + destruct (SetM identity one identity_honest identity_one) as (x & Ex & Rx).
      rewrite Ex. cbn [bind]. rewrite Adv. exists x. split; [reflexivity|exact Rx].
    + destruct w.
      * cbn [mat_at moving new_xform bind fixed].
        destruct (SetM identity one identity_honest identity_one) as (x & Ex & Rx).
        rewrite Ex. cbn [bind].
        destruct (ConM x _ _ (full f) f Rx (or_introl eq_refl) (full_honest f) (same_refl f)) as (x2 & E2 & R2).
        rewrite E2. cbn [bind]. rewrite Adv. exists x2. split; [reflexivity|].
        apply Twice in R2. eapply rel_x_ext; [| |exact R2]; [|reflexivity].
        intros u. unfold at_time. destruct (Z.eqb u t); [apply product_one|apply same_refl].
      * destruct (SetM (full f) f (full_honest f) (same_refl f)) as (x & Ex & Rx).
        rewrite Ex. cbn [bind]. rewrite Adv. exists x. split; [reflexivity|exact Rx].
    + assert (Hm1 : honest m) by (apply Hm; now right).
      assert (SetC : forall q, honest q ->
        exists x, ptrans_set_current sh q b = Some (with_trans b x) /\ rel_x hc C x (at_time t (fun _ => E q) v) (t :: ks) dc).
      { intros q Hq. unfold ptrans_set_current. rewrite Mo, Now0. unfold set_current.
        destruct (add_slot_rel hc C (trans b) v ks dc t (Key q (negb (flips q))) (fun _ => E q) R) as (x & Ex & Rx).
        { cbn [kmat khand]. split; [apply same_refl|split; [exact Hq|]]. intros hcp. exfalso. exact (Hs m eq_refl hcp). }
        rewrite Ex. cbn [option_map]. exists (start_moving x). split; [reflexivity|exact Rx]. }
      destruct w.
      * cbn [mat_at moving new_xform bind fixed].
        destruct (SetC identity identity_honest) as (x & Ex & Rx).
        rewrite Ex. cbn [bind].
        destruct (ConM x _ _ m (E m) Rx (or_introl eq_refl) Hm1 (same_refl _)) as (x2 & E2 & R2).
        rewrite E2. cbn [bind]. rewrite Adv. exists x2. split; [reflexivity|].
        apply (Twice x2 (product (E m))) in R2. eapply rel_x_ext; [| |exact R2]; [|reflexivity].
        intros u. unfold at_time. destruct (Z.eqb u t); [apply product_one|apply same_refl].
      * destruct (SetC m Hm1) as (x & Ex & Rx).
        rewrite Ex. cbn [bind]. rewrite Adv. exists x. split; [reflexivity|exact Rx].
  - destruct (changes r) eqn:Ch.
    + destruct (concat_request sh r Re Ch Hm) as (q & R0 & Es & Hq & Sq & Me).
      rewrite Es. unfold ptrans_concat. rewrite Mo, Now0. unfold concat_current.
      assert (A : dc \/ In t ks) by (destruct Hk as [Hk|[Hk|Hk]]; [discriminate|discriminate|exact Hk]).
      destruct (concat_slot_rel hc C (trans b) v ks dc t q R0 R A Hq Sq (turned (flips q) (hand (trans b)))) as (x & Ex & Rx).
      rewrite Ex. cbn [option_map bind]. rewrite Adv.
      exists (start_moving x). split; [reflexivity|]. eapply rel_x_ext; [| |exact Rx]; [|reflexivity].
      intros u. unfold at_time. rewrite Me. apply same_refl.
    + destruct r; try discriminate. unfold request_step. cbn [bind].
      specialize (Adv (trans b)). replace (with_trans b (trans b)) with b in Adv by (destruct b; reflexivity).
      rewrite Adv.
      exists (trans b). split; [reflexivity|].
      eapply rel_x_ext; [| |exact R]; [|reflexivity].
      intros u. unfold at_time. cbn [meant]. destruct (Z.eqb u t); apply same_refl.
Qed.

(** * Sessions *)

Definition quiet (k : StateModel.btype) : bool :=
  match k with StateModel.BMain | StateModel.BFrame => true | _ => false end.

(** [pk] are the keys of the block around, [hp] says that the handedness is asked for. *)
Definition rel_b (hp : Prop) (C : elements) (pk : Prop) (b : block) (sb : sblock) : Prop :=
  kind b = skind sb /\
  (is_motion (kind b) = true -> skipn (it b) (ts b) = still_to_do sb) /\
  rel_x (hp /\ within sb = true) C (trans b) (val sb) (keys sb) (is_motion (kind b) = true /\ pk) /\
  (quiet (kind b) = true -> within sb = false).

Definition parent_still (l : list sblock) : Prop :=
  match l with p :: _ => keys p = [] | [] => True end.

Definition nested_in (k : StateModel.btype) (l : list block) : Prop :=
  match l with
  | p :: _ => StateModel.allows (kind p) k = true
  | [] => k = StateModel.BMain
  end.

Definition same_within (sb : sblock) (l : list sblock) : Prop :=
  match l with
  | p :: _ => skind sb = StateModel.BMotion -> within sb = within p
  | [] => True
  end.

Fixpoint rel_bs (hp : Prop) (C : elements) (bs : list block) (sbs : list sblock) : Prop :=
  match bs, sbs with
  | [], [] => True
  | b :: bs, sb :: sbs =>
      rel_b hp C (parent_still sbs) b sb /\ (nested_in (kind b) bs /\ same_within sb sbs) /\ rel_bs hp C bs sbs
  | _, _ => False
  end.

Definition rel_s (hp : Prop) (st : state) (s : sstate) : Prop :=
  rel_cam (camera st) (scamera s) /\ rel_bs hp (scamera s) (blocks st) (sblocks s).

(** Outside the world, another camera makes no difference. *)
Lemma rel_b_camera : forall hp C C' pk b sb, within sb = false -> rel_b hp C pk b sb -> rel_b hp C' pk b sb.
Proof.
  intros hp C C' pk b sb W (K & P & (km & d & R & Kk & M & F & V & D) & Q0).
  split; [exact K|split; [exact P|split; [|exact Q0]]].
  assert (Fi : forall A m h, fits (hp /\ within sb = true) C A m h -> fits (hp /\ within sb = true) C' A m h).
  { intros A m h (S1 & S2 & _). split; [exact S1|split; [exact S2|]]. intros [_ X]. congruence. }
  exists km, d. split; [exact R|split; [exact Kk|split; [exact M|split; [|split]]]].
  - intros Z u. apply Fi. apply F; exact Z.
  - intros t k Ek. apply Fi. apply V; exact Ek.
  - intros X u Hu. apply Fi. apply D; [exact X|exact Hu].
Qed.

Lemma rel_bs_camera : forall hp C C' b bs sb sbs, quiet (kind b) = true ->
  rel_bs hp C (b :: bs) (sb :: sbs) -> rel_bs hp C' (b :: bs) (sb :: sbs).
Proof.
  intros hp C C' b bs. revert b. induction bs as [|p bs IH]; intros b sb sbs Qu (R & N & Rs).
  - destruct sbs; [|contradiction Rs]. split; [|split; [exact N|exact I]].
    eapply rel_b_camera; [|exact R]. apply R. exact Qu.
  - destruct sbs as [|sp sbs]; [contradiction Rs|].
    split; [|split; [exact N|]].
    + eapply rel_b_camera; [|exact R]. apply R. exact Qu.
    + apply IH; [|exact Rs]. destruct N as [N _]. cbn [nested_in] in N.
      destruct (kind p), (kind b); try discriminate; reflexivity.
Qed.

Definition agrees (hp : Prop) (o : xform * xform) (g : given) : Prop :=
  right_matrices (fst o) (snd o) g /\ (hp -> right_handedness (fst o) g).

Lemma primitive_right : forall hp st s b bs sb sbs, rel_s hp st s ->
  blocks st = b :: bs -> sblocks s = sb :: sbs ->
  agrees hp (trans b, camera st) (Given (val sb) (keys sb) (scamera s) (within sb)).
Proof.
  intros hp st s b bs sb sbs (Rc & Rb) Eb Es. rewrite Eb, Es in Rb. destruct Rb as (R & _ & _).
  destruct R as (K & P & R & Q0). split.
  - pose proof R as (km & d & R0 & Kk & M & F & V & D). split; [exact M|split; [|split]]; cbn [fst snd gkeys gval gworld gcamera].
    + intros t. rewrite <- Kk. destruct R0 as (R1 & R2 & R3 & R4). rewrite R4. apply in_assoc. exact R1.
    + intros t Ht. destruct (value_right _ _ _ _ _ _ t R Ht) as (m & h & Em & _ & (Sm & _)). eauto.
    + intros _ t. exists (fixed (camera st)). split; [eapply cam_at; exact Rc|]. apply Rc.
  - intros hpp W t Ht N. cbn [fst snd gkeys gval gworld gcamera] in *.
    destruct (value_right _ _ _ _ _ _ t R Ht) as (m & h & _ & Eh & (_ & _ & Hh)).
    exists h. split; [exact Eh|]. apply Hh; auto.
Qed.

Lemma step_right : forall hp sh o st s s1 out,
  rel_s hp st s -> sstep sh o s = Some (s1, out) -> simple o s -> (hp -> no_space o) ->
  exists st1 out1, step sh o st = Some (st1, out1) /\ rel_s hp st1 s1 /\ Forall2 (agrees hp) out1 out.
Proof.
  intros hp sh o st s s1 out R Es Si Ns. unfold sstep in Es. unfold simple in Si.
  pose proof R as (Rc & Rb).
  destruct (sblocks s) as [|sb sbs] eqn:Esb; [discriminate|].
  destruct (blocks st) as [|b bs] eqn:Eb; [contradiction Rb|].
  destruct Rb as (Rt & (Nt & Nw) & Rs). pose proof Rt as (K & P & Rx & Qu).
  destruct o as [k tms|k|r|].
  - (* Begin *)
    destruct (StateModel.allows (skind sb) k) eqn:Al; [|discriminate].
    assert (Plain : match k with StateModel.BWorld | StateModel.BMotion => False | _ => True end ->
      step sh (Begin k tms) st = Some (State (Block k (trans b) [] 0 :: b :: bs) (camera st) (in_world st), []) /\
      rel_s hp (State (Block k (trans b) [] 0 :: b :: bs) (camera st) (in_world st))
        (SState (SBlock k (val sb) (keys sb) [] (within sb) :: sb :: sbs) (scamera s))).
    { intros Pl. split.
      - unfold step, begin_step. rewrite Eb, K, Al. destruct k; try contradiction Pl; reflexivity.
      - split; [exact Rc|]. cbn [blocks sblocks scamera rel_bs].
        split; [|split; [split; [cbn [nested_in kind]; rewrite K; exact Al|cbn [same_within skind within]; intros; first [reflexivity|discriminate]]|split; [exact Rt|split; [exact (conj Nt Nw)|exact Rs]]]].
        split; [reflexivity|]. split; [cbn [kind]; destruct k; try contradiction Pl; discriminate|].
        split.
        + cbn [kind trans val keys within]. eapply rel_x_weak; [| |exact Rx]; [auto|].
          intros [X _]. destruct k; try contradiction Pl; discriminate.
        + cbn [kind within]. intros Q1. apply Qu. rewrite K. destruct k; try discriminate; destruct (skind sb); try discriminate; reflexivity. }
    destruct k; try (injection Es as <- <-; destruct (Plain Logic.I) as [P1 P2]; eexists _, []; split; [exact P1|split; [exact P2|constructor]]).
    + (* world *)
      injection Es as <- <-. clear Plain. cbn in Si.
      pose proof (some_value _ _ _ _ _ _ (now sh b) Rx) as (m & h & Em & Eh & Ef).
      pose proof Rx as (km & d & R0 & Kk & M & F & V & D).
      rewrite Si in M, Kk. cbn [empty negb] in M.
      assert (Fx : forall u, same (E (fixed (trans b))) (val sb u) /\ honest (fixed (trans b))).
      { intros u. destruct (F Si u) as (S1 & S2 & _). auto. }
      assert (Rc' : rel_cam (trans b) (val sb sh)).
      { split; [exact M|]. apply Fx. }
      set (x0 := set_default (Key m h) (Xform (slots (trans b)) false (fixed (trans b)) (hand (trans b)))).
      assert (R1 : rel_x False (val sb sh) x0 (fun _ => E (fixed (trans b))) [] False).
      { exists km, (Key m h). split; [|split; [exact Kk|split; [reflexivity|split; [|split; [|contradiction]]]]].
        - destruct R0 as (A1 & A2 & A3 & A4). split; [exact A1|split; [exact A2|split; [reflexivity|exact A4]]].
        - intros _ u. split; [apply same_refl|split; [apply (Fx u)|contradiction]].
        - intros t kk Ek. exfalso. assert (B : In t []) by (apply Kk; congruence). exact B. }
      assert (R2 : forall hc, exists x, set_transform false (fixed (trans b)) sh identity x0 = Some x /\
        rel_x hc (val sb sh) x (fun _ => one) [] False).
      { intros hc. destruct R1 as (km1 & d1 & B1 & B2 & B3 & B4 & B5 & B6).
        unfold set_transform. rewrite B3. cbn [empty negb]. eexists; split; [reflexivity|].
        exists km1, d1. cbn [slots moving fixed hand].
        split; [exact B1|split; [exact B2|split; [reflexivity|split; [|split; [|contradiction]]]]].
        - intros _ u. apply fits_set; [apply Rc'|apply Rc'|apply identity_one|apply identity_honest].
        - intros t kk Ek. exfalso. assert (B : In t []) by (apply B2; congruence). exact B. }
      destruct (R2 (hp /\ true = true)) as (x & Ex & Rx1).
      exists (State (Block StateModel.BWorld x [] 0 :: b :: bs) (trans b) true), [].
      split; [|split; [|constructor]].
      * unfold step, begin_step. rewrite Eb, K, Al. unfold world_copy. rewrite Em, Eh.
        cbn [bind]. unfold ptrans_set. rewrite (cam_at _ _ _ Rc'). cbn [is_motion kind trans].
        unfold now. cbn [is_motion kind]. fold x0. rewrite Ex. reflexivity.
      * split; [exact Rc'|]. cbn [blocks sblocks scamera rel_bs].
        split; [|split; [split; [cbn [nested_in kind]; rewrite K; exact Al|cbn [same_within skind within]; intros; first [reflexivity|discriminate]]|]].
        -- split; [reflexivity|]. split; [discriminate|]. split; [|discriminate].
           cbn [trans val keys within kind is_motion]. eapply rel_x_weak; [| |exact Rx1]; [auto|]. intros [X _]; discriminate.
        -- apply (rel_bs_camera hp (scamera s)); [|split; [exact Rt|split; [exact (conj Nt Nw)|exact Rs]]].
           rewrite K. destruct (skind sb); try discriminate; reflexivity.
    + (* motion *)
      injection Es as <- <-. clear Plain.
      destruct (motion_copy_rel _ _ _ _ _ _ Rx) as (x & Ex & Rx1).
      exists (State (Block StateModel.BMotion x tms 0 :: b :: bs) (camera st) (in_world st)), [].
      split; [|split; [|constructor]].
      * unfold step, begin_step. rewrite Eb, K, Al, Ex. reflexivity.
      * split; [exact Rc|]. cbn [blocks sblocks scamera rel_bs].
        split; [|split; [split; [cbn [nested_in kind]; rewrite K; exact Al|cbn [same_within skind within]; intros; first [reflexivity|discriminate]]|split; [exact Rt|split; [exact (conj Nt Nw)|exact Rs]]]].
        split; [reflexivity|]. split; [reflexivity|]. split; [|discriminate].
        cbn [trans val keys within kind is_motion parent_still]. eapply rel_x_weak; [| |exact Rx1]; [auto|]. intros [_ X]; exact X.
  - (* End *)
    destruct (StateModel.btype_eqb (skind sb) k) eqn:Bk; [|discriminate].
    assert (Ek : skind sb = k) by (destruct (skind sb), k; try discriminate; reflexivity). subst k.
    clear Si.
    destruct (skind sb) eqn:Ks; try discriminate;
      try (injection Es as <- <-; eexists _, []; split;
           [unfold step, end_step; rewrite Eb, K; cbn [StateModel.btype_eqb is_motion bind option_map]; reflexivity
           |split; [split; [exact Rc|exact Rs]|constructor]]).
    destruct sbs as [|sp sbs].
    + destruct bs; [|contradiction Rs]. cbn [nested_in] in Nt. congruence.
    + destruct bs as [|p bs]; [contradiction Rs|]. injection Es as <- <-.
      exists (State (with_trans p (trans b) :: bs) (camera st) (in_world st)), [].
      split; [|split; [|constructor]].
      * unfold step, end_step. rewrite Eb, K. reflexivity.
      * split; [exact Rc|]. cbn [blocks sblocks scamera rel_bs].
        destruct Rs as (Rp & Np & Rs). split; [|split; [exact Np|exact Rs]].
        destruct Rp as (Kp & Pp & Rxp & Qp). cbn [nested_in] in Nt.
        assert (Mp : is_motion (kind p) = false) by (destruct (kind p), (kind b); try discriminate; reflexivity).
        split; [exact Kp|]. split; [cbn [with_trans kind]; congruence|]. split; [|exact Qp].
        cbn [with_trans trans kind val keys within]. eapply rel_x_weak; [| |exact Rx]; [|intros [X _]; congruence].
        cbn [same_within] in Nw. rewrite (Nw Ks). auto.
  - (* Do *)
    destruct (do_request r sb) as [sb'|] eqn:Ed; [|discriminate]. injection Es as <- <-.
    destruct Si as (Hm & Si).
    assert (Hs : forall m, r = Space m -> ~ (hp /\ within sb = true)).
    { intros m -> [X _]. apply (Ns X m). reflexivity. }
    unfold do_request in Ed.
    destruct (is_motion (kind b)) eqn:Mo.
    + assert (Ksb : skind sb = StateModel.BMotion) by (rewrite <- K; destruct (kind b); try discriminate; reflexivity).
      rewrite Ksb in Ed, Si. destruct (still_to_do sb) as [|t rest] eqn:Et; [discriminate|]. injection Ed as <-.
      specialize (P eq_refl).
      assert (Nth : nth_error (ts b) (it b) = Some t /\ skipn (it b + 1) (ts b) = rest).
      { clear - P. revert P. generalize (ts b). induction (it b) as [|n IH]; intros [|a l] P; try discriminate.
        - injection P as -> ->. auto.
        - cbn in P. apply IH in P. exact P. }
      destruct Nth as (Nth & Rest).
      destruct (request_motion sh r (camera st) (in_world st) b _ _ _ _ _ t Mo Nth Rc Rx Hm) as (x & Ex & Rx1).
      { destruct Si as [Si|[Si|[Si|Si]]]; [now left|right; now left|right; right; left|right; right; right].
        - split; [reflexivity|]. unfold old_keys in Si. rewrite Esb in Si. unfold parent_still. destruct sbs; [exact Logic.I|exact Si].
        - apply Si. reflexivity. }
      { exact Hs. }
      exists (State (Block (kind b) x (ts b) (it b + 1) :: bs) (camera st) (in_world st)), [].
      split; [|split; [|constructor]].
      * unfold step. rewrite Eb, Ex. reflexivity.
      * split; [exact Rc|]. cbn [blocks sblocks scamera rel_bs].
        split; [|split; [split; [exact Nt|]|exact Rs]];
          [|destruct sbs; [exact Logic.I|intros _; apply Nw; exact Ksb]].
        split; [cbn [kind skind]; congruence|]. split; [intros _; exact Rest|]. split; [|exact Qu].
        cbn [trans kind val keys within]. rewrite Mo. exact Rx1.
    + assert (Ksb : skind sb <> StateModel.BMotion) by (rewrite <- K; destruct (kind b); discriminate).
      assert (Ed' : sb' = SBlock (skind sb) (fun u => meant r (val sb u)) (keys sb) [] (within sb)).
      { destruct (skind sb); try congruence. }
      subst sb'. clear Ed.
      assert (Si' : replaces r = true -> keys sb = []) by (destruct (skind sb); try congruence; exact Si).
      destruct (request_outside sh r (camera st) (in_world st) b _ _ _ _ _ Mo Rc Rx Hm Si' Hs) as (x & Ex & Rx1).
      exists (State (with_trans b x :: bs) (camera st) (in_world st)), [].
      split; [|split; [|constructor]].
      * unfold step. rewrite Eb, Ex. reflexivity.
      * split; [exact Rc|]. cbn [blocks sblocks scamera rel_bs].
        split; [|split; [exact (conj Nt Nw)|exact Rs]].
        split; [exact K|]. split; [cbn [with_trans kind]; congruence|]. split; [|exact Qu].
        cbn [with_trans trans kind val keys within]. eapply rel_x_weak; [| |exact Rx1]; [auto|].
        intros [X _]. congruence.
  - (* Primitive *)
    injection Es as <- <-. exists st, [(trans b, camera st)].
    split; [unfold step; rewrite Eb; reflexivity|]. split; [exact R|].
    constructor; [|constructor]. eapply primitive_right; eauto.
Qed.

Lemma run_right : forall hp sh l st s s1 out,
  rel_s hp st s -> srun sh l s = Some (s1, out) -> all_simple sh l s -> (hp -> Forall no_space l) ->
  exists st1 out1, run sh l st = Some (st1, out1) /\ rel_s hp st1 s1 /\ Forall2 (agrees hp) out1 out.
Proof.
  intros hp sh. induction l as [|o l IH]; intros st s s1 out R Es Si Ns.
  - injection Es as <- <-. exists st, []. split; [reflexivity|]. split; [exact R|constructor].
  - cbn [srun] in Es. destruct Si as (S1 & S2).
    destruct (sstep sh o s) as [[s2 o1]|] eqn:E1; [|discriminate].
    destruct (srun sh l s2) as [[s3 o2]|] eqn:E2; [|discriminate]. injection Es as <- <-.
    destruct (step_right hp sh o st s s2 o1 R E1 S1) as (st2 & p1 & F1 & R2 & A1).
    { intros X. specialize (Ns X). inversion Ns; assumption. }
    destruct (IH st2 s2 s3 o2 R2 E2 S2) as (st3 & p2 & F2 & R3 & A2).
    { intros X. specialize (Ns X). inversion Ns; assumption. }
    exists st3, (p1 ++ p2). split; [|split; [exact R3|apply Forall2_app; assumption]].
    cbn [run]. rewrite F1. cbn [bind]. rewrite F2. reflexivity.
Qed.

Lemma start_right : forall hp sh, exists st, start sh = Some st /\ rel_s hp st sstart.
Proof.
  intros hp sh. eexists; split; [reflexivity|]. split.
  - split; [reflexivity|split; [apply identity_one|apply identity_honest]].
  - cbn [blocks sblocks sstart rel_bs scamera]. split; [|split; [split; [reflexivity|exact Logic.I]|exact Logic.I]].
    split; [reflexivity|split; [discriminate|split; [|reflexivity]]].
    exists (fun _ => None), no_key. split; [|split; [|split; [reflexivity|split; [|split]]]].
    + split; [reflexivity|split; [exact Logic.I|split; [reflexivity|intros k; reflexivity]]].
    + intros t. cbn. split; [congruence|contradiction].
    + intros _ u. split; [apply identity_one|split; [apply identity_honest|]]. intros [_ X]. discriminate.
    + intros t k Ek. discriminate.
    + intros [X _]. discriminate.
Qed.

(** * Without motion *)

Definition keyless (s : sstate) : Prop :=
  Forall (fun b => keys b = [] /\ skind b <> StateModel.BMotion) (sblocks s).

Lemma keyless_step : forall sh o s s1 out, keyless s -> still_op o ->
  sstep sh o s = Some (s1, out) -> simple o s /\ keyless s1.
Proof.
  intros sh o s s1 out K So Es. unfold keyless in K. unfold sstep in Es. unfold simple.
  destruct (sblocks s) as [|b r] eqn:Eb; [discriminate|].
  inversion K as [|b0 r0 [Kb Nb] Kr]; subst b0 r0.
  destruct o as [k tms|k|q|].
  - destruct (StateModel.allows (skind b) k); [|discriminate]. cbn in So.
    destruct k; injection Es as <- <-; try congruence;
      (split; [first [exact Kb|exact Logic.I]|
        constructor; [cbn [keys skind]; split; [first [exact Kb|reflexivity]|discriminate]|exact K]]).
  - destruct (StateModel.btype_eqb (skind b) k) eqn:Bk; [|discriminate].
    split; [exact Logic.I|].
    destruct k; try discriminate; try (injection Es as <- <-; exact Kr).
    destruct (skind b); discriminate || congruence.
  - unfold do_request in Es.
    assert (Es' : Some (SState (SBlock (skind b) (fun u => meant q (val b u)) (keys b) [] (within b) :: r) (scamera s), []) = Some (s1, out)).
    { destruct (skind b); first [exact Es|congruence]. }
    injection Es' as <- <-. split; [|constructor; [split; [exact Kb|exact Nb]|exact Kr]].
    split.
    + intros m [->| ->]; exact So.
    + destruct (skind b); first [intros _; exact Kb|congruence].
  - injection Es as <- <-. split; [exact Logic.I|]. unfold keyless. rewrite Eb. exact K.
Qed.

Lemma still_simple : forall sh l s, keyless s -> Forall still_op l -> all_simple sh l s.
Proof.
  intros sh. induction l as [|o l IH]; intros s K F; [exact Logic.I|].
  inversion F as [|o0 l0 So Fl]; subst o0 l0. cbn [all_simple].
  destruct (sstep sh o s) as [[s1 out]|] eqn:Es.
  - destruct (keyless_step sh o s s1 out K So Es) as [S1 K1]. split; [exact S1|]. apply IH; assumption.
  - split; [|exact Logic.I]. clear IH. unfold simple. unfold keyless in K.
    destruct (sblocks s) as [|b r]; [exact Logic.I|].
    inversion K as [|b0 r0 [Kb Nb] Kr]; subst b0 r0.
    destruct o as [k tms|k|q|]; try exact Logic.I.
    + destruct k; first [exact Kb|exact Logic.I].
    + split.
      * intros m [->| ->]; exact So.
      * destruct (skind b); first [intros _; exact Kb|congruence].
Qed.

Lemma keyless_start : keyless sstart.
Proof. constructor; [split; [reflexivity|discriminate]|constructor]. Qed.

Lemma observed_right : forall sh l out, expected sh l = Some out -> all_simple sh l sstart ->
  exists o, observed sh l = Some o /\
    Forall2 (fun p g => right_matrices (fst p) (snd p) g) o out /\
    (Forall no_space l -> Forall2 (fun p g => right_handedness (fst p) g) o out).
Proof.
  intros sh l out E0 Si. unfold expected in E0.
  destruct (srun sh l sstart) as [[s1 out1]|] eqn:Es; [|discriminate]. injection E0 as <-.
  unfold observed.
  destruct (start_right (Forall no_space l) sh) as (st & Est & R). rewrite Est.
  destruct (run_right (Forall no_space l) sh l st sstart s1 out1 R Es Si (fun X => X)) as (st1 & o & Er & _ & A).
  rewrite Er. exists o. split; [reflexivity|]. split.
  - clear - A. induction A; constructor; [apply H|assumption].
  - intros X. clear - A X. induction A; constructor; [apply H; exact X|assumption].
Qed.

(** A test for [all_simple], for the examples. *)
Definition simple_test (o : op) (s : sstate) : bool :=
  match sblocks s with
  | [] => true
  | b :: _ =>
      match o with
      | Begin StateModel.BWorld _ => empty (keys b)
      | Do (Turn _) | Do (Space _) => false
      | Do r =>
          match skind b with
          | StateModel.BMotion =>
              replaces r || negb (changes r) || empty (old_keys s) ||
              match still_to_do b with t :: _ => existsb (Z.eqb t) (keys b) | [] => true end
          | _ => negb (replaces r) || empty (keys b)
          end
      | _ => true
      end
  end.

Fixpoint all_simple_test (sh : time) (l : list op) (s : sstate) : bool :=
  match l with
  | [] => true
  | o :: l =>
      simple_test o s &&
      match sstep sh o s with Some (s1, _) => all_simple_test sh l s1 | None => true end
  end.

Lemma empty_ok : forall l, empty l = true -> l = [].
Proof. intros [|x l]; [reflexivity|discriminate]. Qed.

Lemma simple_test_ok : forall o s, simple_test o s = true -> simple o s.
Proof.
  intros o s T. unfold simple_test in T. unfold simple.
  destruct (sblocks s) as [|b r]; [exact Logic.I|].
  destruct o as [k tms|k|q|]; try exact Logic.I.
  - destruct k; first [apply empty_ok; exact T|exact Logic.I].
  - assert (Hm : forall m, q = Turn m \/ q = Space m -> honest m).
    { intros m [->| ->]; discriminate. }
    split; [exact Hm|].
    assert (T' : match skind b with
          | StateModel.BMotion =>
              replaces q || negb (changes q) || empty (old_keys s) ||
              match still_to_do b with t :: _ => existsb (Z.eqb t) (keys b) | [] => true end
          | _ => negb (replaces q) || empty (keys b)
          end = true) by (destruct q; first [exact T|discriminate]).
    clear T. destruct (skind b);
      try (intros Re; rewrite Re in T'; cbn in T'; apply empty_ok; exact T').
    apply orb_true_iff in T'. destruct T' as [T'|T'].
    + apply orb_true_iff in T'. destruct T' as [T'|T'].
      * apply orb_true_iff in T'. destruct T' as [T'|T']; [now left|right; left].
        apply negb_true_iff. exact T'.
      * right; right; left. apply empty_ok. exact T'.
    + right; right; right. intros t Ht. destruct (still_to_do b) as [|u rest]; [discriminate|].
      injection Ht as ->. apply existsb_exists in T'. destruct T' as (u & Hu & Eu). apply Z.eqb_eq in Eu. subst u. exact Hu.
Qed.

Lemma all_simple_test_ok : forall sh l s, all_simple_test sh l s = true -> all_simple sh l s.
Proof.
  intros sh. induction l as [|o l IH]; intros s T; [exact Logic.I|].
  cbn [all_simple_test] in T. apply andb_true_iff in T. destruct T as [T1 T2].
  split; [apply simple_test_ok; exact T1|].
  destruct (sstep sh o s) as [[s1 out]|]; [apply IH; exact T2|exact Logic.I].
Qed.

(** A test that the matrix of the only primitive of a program is wrong. *)
Definition wrong_test (sh : time) (l : list op) (t : time) (i j : nat) : bool :=
  match observed sh l, expected sh l with
  | Some [p], Some [g] =>
      (empty (gkeys g) || existsb (Z.eqb t) (gkeys g)) &&
      match mat_at (fst p) t with
      | Some m => negb (Qeq_bool (E m i j) (gval g t i j))
      | None => true
      end
  | _, _ => false
  end.

Lemma wrong_test_ok : forall sh l t i j, wrong_test sh l t i j = true -> i < 4 -> j < 4 ->
  expected sh l <> None /\
  forall o out, observed sh l = Some o -> expected sh l = Some out ->
  ~ Forall2 (fun p g => right_matrices (fst p) (snd p) g) o out.
Proof.
  intros sh l t i j T Hi Hj. unfold wrong_test in T.
  destruct (observed sh l) as [[|p [|p2 o0]]|]; try discriminate.
  destruct (expected sh l) as [[|g [|g2 out0]]|]; try discriminate.
  split; [discriminate|]. intros o out E0 E1 A. injection E0 as <-. injection E1 as <-.
  apply andb_true_iff in T. destruct T as [T1 T2].
  inversion A as [|p0 g0 op og R N]; subst. destruct R as (_ & _ & R & _).
  destruct (R t) as (m & Em & Sm).
  - apply orb_true_iff in T1. destruct T1 as [T1|T1]; [left; apply empty_ok; exact T1|right].
    apply existsb_exists in T1. destruct T1 as (u & Hu & Eu). apply Z.eqb_eq in Eu. subst u. exact Hu.
  - rewrite Em in T2. apply negb_true_iff in T2.
    assert (X : Qeq_bool (E m i j) (gval g t i j) = true) by (apply Qeq_bool_iff; apply Sm; assumption).
    congruence.
Qed.

(** The same for the handedness, where it is true of no reflection. *)
Definition wrong_hand_test (sh : time) (l : list op) (t : time) : bool :=
  match observed sh l, expected sh l with
  | Some [p], Some [g] =>
      (empty (gkeys g) || existsb (Z.eqb t) (gkeys g)) && gworld g &&
      negb (Qle_bool (det (product (gval g t) (gcamera g))) 0) &&
      match hand_at (fst p) t with Some h => h | None => true end
  | _, _ => false
  end.

Lemma wrong_hand_test_ok : forall sh l t, wrong_hand_test sh l t = true ->
  expected sh l <> None /\
  forall o out, observed sh l = Some o -> expected sh l = Some out ->
  ~ Forall2 (fun p g => right_handedness (fst p) g) o out.
Proof.
  intros sh l t T. unfold wrong_hand_test in T.
  destruct (observed sh l) as [[|p [|p2 o0]]|]; try discriminate.
  destruct (expected sh l) as [[|g [|g2 out0]]|]; try discriminate.
  split; [discriminate|]. intros o out E0 E1 A. injection E0 as <-. injection E1 as <-.
  apply andb_true_iff in T. destruct T as [T T4].
  apply andb_true_iff in T. destruct T as [T T3].
  apply andb_true_iff in T. destruct T as [T1 T2].
  assert (P : (0 < det (product (gval g t) (gcamera g)))%Q).
  { apply Qnot_le_lt. intros L. apply Qle_bool_iff in L. rewrite L in T3. discriminate. }
  inversion A as [|p0 g0 op og R N]; subst.
  destruct (R T2 t) as (h & Eh & Hh).
  - apply orb_true_iff in T1. destruct T1 as [T1|T1]; [left; apply empty_ok; exact T1|right].
    apply existsb_exists in T1. destruct T1 as (u & Hu & Eu). apply Z.eqb_eq in Eu. subst u. exact Hu.
  - lra.
  - rewrite Eh in T4. subst h. assert (X : (det (product (gval g t) (gcamera g)) < 0)%Q) by (apply Hh; reflexivity). lra.
Qed.

(** * Replacing a moving transformation *)

Lemma sorted_inc : forall ts, Sorting.Sorted.StronglySorted Z.lt ts -> inc ts.
Proof.
  induction 1 as [|t ts S IH F]; cbn; [exact Logic.I|]. split; [|exact IH].
  intros u Hu. rewrite Forall_forall in F. apply F; exact Hu.
Qed.

Definition kept (x : xform) (km : keymap key) (d : key) : Prop := rep key (slots x) km d /\ moving x = true.

Lemma kept_value : forall x km d t k, kept x km d -> km t = Some k ->
  mat_at x t = Some (kmat k) /\ hand_at x t = Some (khand k).
Proof.
  intros x km d t k [R M] K. unfold mat_at, hand_at. rewrite M, (key_value _ _ _ _ _ R K). split; reflexivity.
Qed.

Lemma add_existing : forall x km d t k k0, kept x km d -> km t = Some k0 ->
  exists x', add_slot t k x = Some x' /\ kept x' (put key km t k) d /\
             MotionModel.times (slots x') = MotionModel.times (slots x).
Proof.
  intros x km d t k k0 [R M] K. destruct (add_spec key concat_keys (slots x) km d t k R) as (s & E0 & R' & _).
  unfold add_slot. rewrite E0. cbn [option_map]. eexists. split; [reflexivity|].
  split; [split; [exact R'|exact M]|]. cbn [slots].
  destruct R as (L & I & D & A). unfold add_time_slot in E0.
  pose proof (exists_from_spec (MotionModel.times (slots x)) t 0) as F. unfold time_slot_exists in E0.
  destruct (MotionModel.times (slots x)) as [|t0 ts0] eqn:Et.
  - rewrite A in K. destruct (objects (slots x)); discriminate.
  - destruct (slot_exists_from t (t0 :: ts0) 0) as [i|].
    + destruct (set_nth key i k (objects (slots x))); [|discriminate]. injection E0 as <-. reflexivity.
    + exfalso. apply F. apply (proj2 (in_assoc key (t0 :: ts0) (objects (slots x)) t L)). rewrite <- A. congruence.
Qed.

Lemma nth_slot_time : forall (s : mspec key) i t, nth_error (MotionModel.times s) i = Some t ->
  slot_time key (Z.of_nat i) s = t.
Proof.
  intros s i t N. unfold slot_time. assert (B : i < List.length (MotionModel.times s)) by (apply nth_error_Some; congruence).
  pose proof (nth_error_nth _ _ 0%Z N) as N'.
  destruct (MotionModel.times s) as [|a l] eqn:El; [destruct i; discriminate|].
  destruct (Z.ltb_spec (Z.of_nat i) 0); [lia|]. rewrite <- El in *.
  destruct (Z.ltb_spec (Z.of_nat i) (Z.of_nat (List.length (MotionModel.times s)))); [|lia].
  rewrite Nat2Z.id. exact N'.
Qed.

Lemma inc_once : forall ts i j u, inc ts -> nth_error ts i = Some u -> nth_error ts j = Some u -> i = j.
Proof.
  induction ts as [|a ts IH]; intros i j u II Ni Nj; [destruct i; discriminate|]. destruct II as [I1 I2].
  destruct i as [|i], j as [|j]; cbn [nth_error] in *; [reflexivity| | |].
  - injection Ni as <-. apply nth_error_In in Nj. apply I1 in Nj. lia.
  - injection Nj as <-. apply nth_error_In in Ni. apply I1 in Ni. lia.
  - f_equal. eapply IH; eauto.
Qed.

(** What becomes of one of the later keys. *)
Definition undone (mat0 m : matrix) (h : bool) (old new : key) : Prop :=
  exists inv, inverse (kmat old) = Some inv /\
    new = Key (MatModel.times (MatModel.times mat0 inv) m) (turned (det_negative (MatModel.times mat0 inv)) h).

Lemma spread_right : forall mat0 m h n i x km d,
  kept x km d -> i + n = List.length (MotionModel.times (slots x)) ->
  (forall j t k, nth_error (MotionModel.times (slots x)) j = Some t -> i <= j -> km t = Some k -> inverse (kmat k) <> None) ->
  exists x' km', spread mat0 m h i n x = Some x' /\ kept x' km' d /\
    MotionModel.times (slots x') = MotionModel.times (slots x) /\
    (forall j t, nth_error (MotionModel.times (slots x)) j = Some t -> j < i -> km' t = km t) /\
    (forall j t, nth_error (MotionModel.times (slots x)) j = Some t -> i <= j ->
       exists old new, km t = Some old /\ km' t = Some new /\ undone mat0 m h old new).
Proof.
  intros mat0 m h. induction n as [|n IH]; intros i x km d K L Inv; cbn [spread].
  - exists x, km. split; [reflexivity|]. split; [exact K|]. split; [reflexivity|]. split; [reflexivity|].
    intros j t N Hj. assert (j < List.length (MotionModel.times (slots x))) by (apply nth_error_Some; congruence). lia.
  - destruct (nth_error (MotionModel.times (slots x)) i) as [t|] eqn:Nt.
    2: { apply nth_error_None in Nt. lia. }
    rewrite (nth_slot_time _ _ _ Nt).
    destruct K as [R M]. pose proof R as (RL & RI & RD & RA).
    assert (Ek : exists k, km t = Some k).
    { rewrite RA, (assoc_nth key _ _ _ _ RI Nt).
      destruct (nth_error (objects (slots x)) i) eqn:No; [eauto|]. apply nth_error_None in No. lia. }
    destruct Ek as [k Ek]. destruct (kept_value x km d t k (conj R M) Ek) as [Em _]. rewrite Em.
    destruct (inverse (kmat k)) as [inv|] eqn:Ei; [|exfalso; exact (Inv i t k Nt (le_n i) Ek Ei)].
    cbv zeta.
    destruct (add_existing x km d t (Key (MatModel.times (MatModel.times mat0 inv) m)
                (turned (det_negative (MatModel.times mat0 inv)) h)) k (conj R M) Ek) as (x1 & E1 & K1 & T1).
    rewrite E1.
    assert (Dis : forall j u, nth_error (MotionModel.times (slots x)) j = Some u -> j <> i -> Z.eqb u t = false).
    { intros j u Nu Hj. apply Z.eqb_neq. intros ->. exact (Hj (inc_once _ _ _ _ RI Nu Nt)). }
    destruct (IH (i + 1) x1 _ d K1) as (x' & km' & E' & K' & T' & Lo & Hi).
    + rewrite T1. lia.
    + intros j u k1 Nu Hj. rewrite T1 in Nu. unfold put. rewrite (Dis j u Nu) by lia.
      apply (Inv j u k1 Nu). lia.
    + rewrite T1 in T', Lo, Hi. exists x', km'. split; [exact E'|]. split; [exact K'|]. split; [exact T'|]. split.
      * intros j u Nu Hj. rewrite (Lo j u Nu) by lia. unfold put. rewrite (Dis j u Nu) by lia. reflexivity.
      * intros j u Nu Hj. destruct (Nat.eq_dec j i) as [->|Hne].
        -- assert (u = t) by congruence. subst u. exists k. rewrite (Lo i t Nt) by lia. unfold put. rewrite Z.eqb_refl.
           eexists. split; [exact Ek|]. split; [reflexivity|]. exists inv. split; [exact Ei|reflexivity].
        -- destruct (Hi j u Nu) as (old & new & H1 & H2 & H3); [lia|].
           unfold put in H1. rewrite (Dis j u Nu Hne) in H1. eauto.
Qed.

Lemma replace_right : forall c t T x t0 ts k0 ks,
  moving x = true -> MotionModel.times (slots x) = t0 :: ts -> objects (slots x) = k0 :: ks ->
  List.length ts = List.length ks -> Sorting.Sorted.StronglySorted Z.lt (t0 :: ts) ->
  Forall (fun k => inverse (kmat k) <> None) ks ->
  exists x', set_transform false c t T x = Some x' /\ moving x' = true /\
    MotionModel.times (slots x') = t0 :: ts /\
    mat_at x t0 = Some (kmat k0) /\ mat_at x' t0 = Some T /\ hand_at x' t0 = Some (turned (flips T) (flips c)) /\
    forall i u k, nth_error ts i = Some u -> nth_error ks i = Some k ->
      exists new, mat_at x u = Some (kmat k) /\ mat_at x' u = Some (kmat new) /\ hand_at x' u = Some (khand new) /\
        undone (kmat k0) T (turned (flips T) (flips c)) k new.
Proof.
  intros c t T x t0 ts k0 ks M Et Eo L S Inv.
  set (km := fun u => assoc key u (t0 :: ts) (k0 :: ks)).
  assert (K : kept x km (def_object (slots x))).
  { split; [|exact M]. unfold rep. rewrite Et, Eo. cbn [List.length]. split; [lia|]. split; [apply sorted_inc; exact S|].
    split; reflexivity. }
  assert (K0 : km t0 = Some k0) by (unfold km; cbn [assoc]; rewrite Z.eqb_refl; reflexivity).
  assert (Ki : forall i u k, nth_error ts i = Some u -> nth_error ks i = Some k -> km u = Some k).
  { intros i u k Nu Nk. unfold km. rewrite (assoc_nth key (t0 :: ts) (k0 :: ks) (Datatypes.S i) u); [exact Nk|apply sorted_inc; exact S|exact Nu]. }
  assert (Ne : forall i u, nth_error ts i = Some u -> Z.eqb u t0 = false).
  { intros i u Nu. inversion_clear S as [|? ? _ F]. rewrite Forall_forall in F.
    specialize (F u (nth_error_In _ _ Nu)). apply Z.eqb_neq. lia. }
  unfold set_transform. rewrite M. cbv zeta.
  replace (slot_time key 0 (slots x)) with t0 by (unfold slot_time; rewrite Et; reflexivity).
  destruct (kept_value _ _ _ _ _ K K0) as [V0 _]. rewrite V0.
  destruct (add_existing x km _ t0 (Key T (turned (flips T) (flips c))) k0 K K0) as (x1 & E1 & K1 & T1).
  rewrite E1.
  destruct (spread_right (kmat k0) T (turned (flips T) (flips c)) (List.length (MotionModel.times (slots x1)) - 1) 1 x1 _ _ K1)
    as (x' & km' & E' & K' & T' & Lo & Hi).
  - rewrite T1, Et. cbn [List.length]. lia.
  - intros j u k Nu Hj Ek. rewrite T1, Et in Nu. destruct j as [|j]; [lia|]. cbn [nth_error] in Nu.
    unfold put in Ek. rewrite (Ne _ _ Nu) in Ek.
    destruct (nth_error ks j) as [k'|] eqn:Nk.
    + rewrite (Ki j u k' Nu Nk) in Ek. injection Ek as <-. rewrite Forall_forall in Inv. apply Inv.
      exact (nth_error_In _ _ Nk).
    + apply nth_error_None in Nk. assert (j < List.length ts) by (apply nth_error_Some; congruence). lia.
  - rewrite E'. exists x'. split; [reflexivity|]. split; [apply K'|]. rewrite T', T1, Et. split; [reflexivity|].
    split; [reflexivity|].
    assert (Z0 : km' t0 = Some (Key T (turned (flips T) (flips c)))).
    { rewrite (Lo 0 t0); [|rewrite T1, Et; reflexivity|lia]. unfold put. rewrite Z.eqb_refl. reflexivity. }
    destruct (kept_value _ _ _ _ _ K' Z0) as [A1 A2]. split; [exact A1|]. split; [exact A2|].
    intros i u k Nu Nk. destruct (Hi (Datatypes.S i) u) as (old & new & H1 & H2 & H3); [rewrite T1, Et; exact Nu|lia|].
    unfold put in H1. rewrite (Ne _ _ Nu), (Ki _ _ _ Nu Nk) in H1. injection H1 as <-.
    destruct (kept_value _ _ _ _ _ K' H2) as [B1 B2]. exists new.
    split; [apply (kept_value _ _ _ _ _ K (Ki _ _ _ Nu Nk))|]. split; [exact B1|]. split; [exact B2|]. exact H3.
Qed.

From Verif Require Import MotionModel MotionSpec.
From Coq Require Import Sorted Bool.
Open Scope Z_scope.

Section P.
Variable T : Type.
Variable concat : T -> T -> T.
Variable lerp : Q -> T -> T -> T.
Notation mspec := (mspec T).

Fixpoint assoc (k : time) (ts : list time) (os : list T) : option T :=
  match ts, os with
  | t :: ts, o :: os => if k =? t then Some o else assoc k ts os
  | _, _ => None
  end.

Fixpoint inc (ts : list time) : Prop :=
  match ts with
  | [] => True
  | t :: ts' => (forall x, In x ts' -> t < x) /\ inc ts'
  end.

Definition rep (s : mspec) (m : keymap T) (d : T) : Prop :=
  length (times s) = length (objects s) /\ inc (times s) /\ def_object s = d /\
  forall k, m k = assoc k (times s) (objects s).

Lemma assoc_none : forall ts os k, (forall x, In x ts -> x <> k) -> assoc k ts os = None.
Proof.
  induction ts as [|t ts IH]; intros [|o os] k H; cbn; auto.
  destruct (Z.eqb_spec k t); [exfalso; apply (H t); cbn; auto|]. apply IH. intros; apply H; cbn; auto.
Qed.

Lemma exists_from_spec : forall ts t i,
  match slot_exists_from t ts i with
  | Some j => exists n, j = (i + n)%nat /\ nth_error ts n = Some t
  | None => ~ In t ts
  end.
Proof.
  induction ts as [|x ts IH]; intros t i; cbn; [tauto|].
  destruct (Z.eqb_spec t x) as [->|N].
  - exists 0%nat; split; [lia|reflexivity].
  - specialize (IH t (S i)). destruct (slot_exists_from t ts (S i)).
    + destruct IH as (m & -> & E). exists (S m); split; [lia|exact E].
    + intros [E|I]; auto.
Qed.

Lemma set_nth_spec : forall (os : list T) ts n v t, length ts = length os -> inc ts -> nth_error ts n = Some t ->
  exists os', set_nth T n v os = Some os' /\ length ts = length os' /\
    forall k, assoc k ts os' = if k =? t then Some v else assoc k ts os.
Proof.
  induction os as [|o os IH]; intros [|x ts] n v t L I E; try discriminate.
  - destruct n; discriminate.
  - destruct n as [|n]; cbn in *.
    + injection E as ->. exists (v :: os); split; auto; split; [cbn; lia|]. intros k; cbn.
      destruct (k =? t); auto.
    + destruct I as [I1 I2]. destruct (IH ts n v t) as (os' & E' & L' & A); auto.
      rewrite E'. exists (o :: os'); split; auto; split; [cbn; lia|]. intros k; cbn. rewrite A.
      destruct (Z.eqb_spec k x) as [->|N]; auto.
      destruct (Z.eqb_spec x t) as [->|]; auto.
      apply nth_error_In in E. apply I1 in E; lia.
Qed.

Lemma assoc_nth : forall ts (os : list T) n t, inc ts -> nth_error ts n = Some t -> assoc t ts os = nth_error os n.
Proof.
  induction ts as [|x ts IH]; intros os n t I E; [destruct n; discriminate|].
  destruct os as [|o os], n as [|n]; cbn in *; auto.
  - injection E as ->. now rewrite Z.eqb_refl.
  - destruct I as [I1 I2]. destruct (Z.eqb_spec t x) as [->|N]; [|now apply IH].
    apply nth_error_In in E. apply I1 in E; lia.
Qed.

Lemma insert_spec : forall ts os t (o : T), length ts = length os -> inc ts -> ~ In t ts ->
  exists ts' os', insert_slot T t o ts os = Some (ts', os') /\ length ts' = length os' /\ inc ts' /\
    (forall x, In x ts' <-> x = t \/ In x ts) /\
    forall k, assoc k ts' os' = if k =? t then Some o else assoc k ts os.
Proof.
  induction ts as [|x ts IH]; intros os t o L I N.
  - destruct os; [|discriminate]. cbn. do 2 eexists; split; [reflexivity|]. cbn. repeat split; auto; intuition.
  - destruct os as [|y os]; [discriminate|]. cbn [insert_slot]. destruct I as [I1 I2].
    destruct (Z.ltb_spec x t) as [Lt|Ge].
    + destruct (IH os t o) as (ts' & os' & E & L' & I' & M & A); [cbn in L; lia|auto|cbn in N; tauto|].
      rewrite E. do 2 eexists; split; [reflexivity|]. repeat split.
      * cbn; lia.
      * intros z Hz; apply M in Hz as [->|Hz]; auto.
      * auto.
      * intros [->|Hz]; [cbn; auto|]. apply M in Hz as [->|Hz]; cbn; auto.
      * intros [->|[->|Hz]]; [right; apply M; auto|left; auto|right; apply M; auto].
      * intros k. cbn. rewrite A. destruct (Z.eqb_spec k x) as [->|]; auto.
        destruct (Z.eqb_spec x t); auto; lia.
    + assert (x <> t) by (intro; subst; apply N; cbn; auto).
      do 2 eexists; split; [reflexivity|]. repeat split.
      * cbn in *; lia.
      * intros z [->|Hz]; [lia|]. apply I1 in Hz; lia.
      * auto.
      * auto.
      * intros [<-|Hz]; [now left|now right].
      * intros [->|Hz]; [now left|now right].
Qed.

Lemma add_spec : forall s m d t o, rep s m d ->
  exists s', add_time_slot T t o s = Some s' /\ rep s' (put T m t o) d /\ In t (times s').
Proof.
  intros [ts os de] m d t o (L & I & D & A). cbn [times objects def_object] in *. subst de.
  unfold add_time_slot, time_slot_exists. cbn [times objects def_object].
  pose proof (exists_from_spec ts t 0) as E.
  destruct ts as [|x ts].
  - destruct os; [|discriminate]. eexists; split; [reflexivity|]. split; [|cbn; auto].
    repeat split; cbn; auto; try tauto. intros k; unfold put. rewrite A. reflexivity.
  - destruct (slot_exists_from t (x :: ts) 0) as [i|].
    + destruct E as (n & Ei & E). replace i with n by lia. clear i Ei.
      destruct (set_nth_spec os (x :: ts) n o t L I E) as (os' & E' & L' & A'). rewrite E'.
      eexists; split; [reflexivity|]. split; [|cbn [times]; eapply nth_error_In; eauto].
      repeat split; cbn [times objects def_object]; auto; try apply I.
      intros k; unfold put. rewrite A'. now rewrite A.
    + destruct (insert_spec (x :: ts) os t o L I E) as (ts' & os' & E' & L' & I' & M & A'). rewrite E'.
      eexists; split; [reflexivity|]. split; [|cbn [times]; apply M; auto].
      repeat split; cbn [times objects def_object]; auto.
      intros k; unfold put. rewrite A'. now rewrite A.
Qed.

Lemma concat_at_spec : forall s m d t o n, rep s m d -> nth_error (times s) n = Some t ->
  exists s' v, concat_at T concat n o s = Some s' /\ m t = Some v /\ rep s' (put T m t (concat v o)) d.
Proof.
  intros [ts os de] m d t o n (L & I & D & A) E. cbn [times objects def_object] in *. subst de.
  unfold concat_at. cbn [times objects def_object].
  pose proof (assoc_nth ts os n t I E) as V.
  destruct (nth_error os n) as [v|] eqn:Ev.
  - destruct (set_nth_spec os ts n (concat v o) t L I E) as (os' & E' & L' & A'). rewrite E'.
    do 2 eexists; split; [reflexivity|]. split; [rewrite A; exact V|].
    repeat split; cbn [times objects def_object]; auto. intros k; unfold put. rewrite A'. now rewrite A.
  - exfalso. apply nth_error_None in Ev. rewrite <- L in Ev. apply nth_error_None in Ev. congruence.
Qed.

Lemma rep_ext : forall s m m' d, (forall k, m k = m' k) -> rep s m d -> rep s m' d.
Proof. intros s m m' d E (L & I & D & A). repeat split; auto. intros k; rewrite <- E; auto. Qed.

Lemma in_assoc : forall ts (os : list T) k, length ts = length os -> In k ts <-> assoc k ts os <> None.
Proof.
  induction ts as [|t ts IH]; intros [|o os] k L; try discriminate; cbn; [tauto|].
  destruct (Z.eqb_spec k t) as [->|N]; [split; [discriminate|auto]|].
  rewrite <- IH by (cbn in L; lia). split; [intros [E|E]; [congruence|auto]|auto].
Qed.

Lemma exec_spec : forall o s m d, rep s m d ->
  exists s', mexec T concat o s = Some s' /\ rep s' (fst (effect T concat o (m, d))) (snd (effect T concat o (m, d))).
Proof.
  intros o s m d R. destruct o as [t v|t v|v|v|]; cbn [mexec effect fst snd].
  - destruct (add_spec s m d t v R) as (s' & E & R' & _); eauto.
  - unfold concat_time_slot. unfold time_slot_exists at 1.
    pose proof (exists_from_spec (times s) t 0) as E.
    destruct (slot_exists_from t (times s) 0) as [i|].
    + destruct E as (n & Ei & E). replace i with n by lia.
      destruct (concat_at_spec s m d t v n R E) as (s' & x & E' & Ex & R'). exists s'; split; auto. now rewrite Ex.
    + assert (Dd : def_object s = d) by apply R. rewrite Dd.
      destruct (add_spec s m d t d R) as (s1 & E1 & R1 & In1). rewrite E1.
      assert (N : m t = None).
      { destruct R as (L & I & D & A). rewrite A. apply assoc_none. intros x Hx ->; auto. }
      unfold time_slot_exists. pose proof (exists_from_spec (times s1) t 0) as E2.
      destruct (slot_exists_from t (times s1) 0) as [i|]; [|tauto].
      destruct E2 as (n & Ei & E2). replace i with n by lia.
      destruct (concat_at_spec s1 _ d t v n R1 E2) as (s' & x & E' & Ex & R'). exists s'; split; auto.
      rewrite N. unfold put in Ex. rewrite Z.eqb_refl in Ex. injection Ex as <-.
      eapply rep_ext; [|exact R']. intros k; unfold put. destruct (k =? t); auto.
  - eexists; split; [reflexivity|]. destruct R as (L & I & D & A).
    repeat split; cbn [concat_all times objects def_object]; auto; [now rewrite map_length|].
    intros k. rewrite A. clear - L. revert L. generalize (objects s). induction (times s) as [|t ts IH]; intros [|o os] L; cbn; auto.
    destruct (k =? t); auto.
  - eexists; split; [reflexivity|]. destruct R as (L & I & D & A). repeat split; auto.
  - eexists; split; [reflexivity|]. destruct R as (L & I & D & A). repeat split; cbn; auto.
Qed.

Lemma exec_all_spec : forall l s m d, rep s m d ->
  exists s', mexec_all T concat l s = Some s' /\
    rep s' (fst (fold_left (fun md o => effect T concat o md) l (m, d)))
           (snd (fold_left (fun md o => effect T concat o md) l (m, d))).
Proof.
  induction l as [|o l IH]; intros s m d R; cbn [mexec_all fold_left]; [eauto|].
  destruct (exec_spec o s m d R) as (s1 & E & R1). rewrite E.
  destruct (effect T concat o (m, d)) as [m1 d1]. now apply IH.
Qed.

(** ** Lookup *)
Lemma inc_nth : forall ts i j, inc ts -> (i < j < length ts)%nat -> nth i ts 0 < nth j ts 0.
Proof.
  induction ts as [|t ts IH]; intros i j I [Hij Hj]; cbn in *; [lia|]. destruct I as [I1 I2].
  destruct j as [|j]; [lia|]. destruct i as [|i].
  - apply I1. apply nth_In. lia.
  - apply IH; auto. lia.
Qed.

Lemma search_spec : forall ts t i, inc ts -> ts <> [] -> nth 0 ts 0 <= t -> t < last ts 0 ->
  exists n a b, search_span t ts i = Some (i + n)%nat /\ nth_error ts n = Some a /\ nth_error ts (n + 1) = Some b /\
    a <= t < b /\ (forall x, In x ts -> x <= a \/ b <= x).
Proof.
  induction ts as [|x ts IH]; intros t i I N F L; [congruence|].
  destruct ts as [|y ts].
  - cbn in *. lia.
  - change (search_span t (x :: y :: ts) i) with (if y <=? t then search_span t (y :: ts) (S i) else Some i).
    destruct I as [I1 I2]. destruct (Z.leb_spec y t).
    + destruct (IH t (S i)) as (n & a & b & E & Ea & Eb & B & Hx); auto; [discriminate|].
      exists (S n), a, b. split; [rewrite E; f_equal; lia|]. repeat split; auto; try lia.
      intros z [<-|Hz]; auto.
      left. apply nth_error_In in Ea. apply I1 in Ea. lia.
    + exists 0%nat, x, y. split; [f_equal; lia|]. cbn in F. repeat split; auto; try lia.
      intros z [<-|[<-|Hz]]; try lia. right. destruct I2 as [I2 _]. apply I2 in Hz. lia.
Qed.

Lemma last_nth : forall (ts : list time), ts <> [] -> nth_error ts (length ts - 1) = Some (last ts 0).
Proof.
  induction ts as [|x ts IH]; intros N; [congruence|]. destruct ts as [|y ts]; auto.
  cbn [length] in *. replace (S (S (length ts)) - 1)%nat with (S (S (length ts) - 1)) by lia.
  cbn [nth_error]. rewrite IH by discriminate. reflexivity.
Qed.

Lemma last_max : forall ts x, inc ts -> In x ts -> x <= last ts 0.
Proof.
  induction ts as [|y ts IH]; intros x I H; [destruct H|]. destruct I as [I1 I2]. destruct ts as [|z ts].
  - destruct H as [->|[]]. cbn. lia.
  - change (last (y :: z :: ts) 0) with (last (z :: ts) 0). destruct H as [->|H]; [|now apply IH].
    specialize (I1 z (or_introl eq_refl)). specialize (IH z I2 (or_introl eq_refl)). lia.
Qed.

Lemma lookup_spec : forall s m d t, rep s m d -> (exists k, m k <> None) ->
  (exists v, get_interpolated T lerp t s = Some v /\ value_at T lerp m t v) /\
  (forall v, m t = Some v -> get_motion_object T t s = Some v).
Proof.
  intros [ts os de] m d t (L & I & D & A) [k0 K0]. cbn [times objects def_object] in *.
  assert (NE : ts <> []).
  { intros ->. rewrite A in K0. destruct os; cbn in K0; congruence. }
  assert (OV : forall n k, nth_error ts n = Some k -> exists v, nth_error os n = Some v /\ m k = Some v).
  { intros n k E. rewrite A, (assoc_nth ts os n k I E). destruct (nth_error os n) as [v|] eqn:Ev; eauto.
    exfalso. apply nth_error_None in Ev. rewrite <- L in Ev. apply nth_error_None in Ev. congruence. }
  assert (MN : forall k, ~ In k ts -> m k = None).
  { intros k H. rewrite A. apply assoc_none. intros x Hx ->; auto. }
  assert (IM : forall k v, m k = Some v -> In k ts).
  { intros k v E. apply (in_assoc ts os k L). rewrite <- A, E. discriminate. }
  unfold get_interpolated, get_motion_object, get_time_slot. cbn [times objects def_object].
  destruct ts as [|f ts']; [congruence|]. set (ts := f :: ts') in *.
  destruct (Z.leb_spec (last ts 0) t) as [Ge|Lt].
  - destruct (OV _ _ (last_nth ts NE)) as (v & Ev & Em). rewrite Ev. split.
    + exists v; split; auto. destruct (Z.eq_dec t (last ts 0)) as [->|N]; [now constructor|].
      apply after_last with (k := last ts 0); auto; [lia|]. intros k' Hk. apply MN. intros Hin. apply last_max in Hin; auto. lia.
    + intros v' E. assert (t = last ts 0) by (apply IM in E; apply last_max in E; auto; lia). subst t. congruence.
  - destruct (Z.leb_spec t f) as [Le|Gt].
    + destruct (OV 0%nat f eq_refl) as (v & Ev & Em). rewrite Ev. split.
      * exists v; split; auto. destruct (Z.eq_dec t f) as [->|N]; [now constructor|].
        apply before_first with (k := f); auto; [lia|]. intros k' Hk. apply MN. intros [->|Hin]; [lia|]. apply I in Hin. lia.
      * intros v' E. assert (t = f) by (apply IM in E as [->|E]; auto; apply I in E; lia). subst t. congruence.
    + destruct (search_spec ts t 0 I NE) as (n & a & b & E & Ea & Eb & B & Hx); [cbn; lia|auto|].
      rewrite E. cbn [Nat.add]. rewrite Ea, Eb.
      destruct (OV n a Ea) as (va & Eva & Ema). destruct (OV (n + 1)%nat b Eb) as (vb & Evb & Emb).
      destruct (Z.eqb_spec a t) as [->|N].
      * rewrite Eva. split; [exists va; split; auto; now constructor|]. intros; congruence.
      * rewrite Eva, Evb. split.
        -- eexists; split; [reflexivity|]. apply between; auto; [lia|]. intros k Hk. apply MN. intros Hin. apply Hx in Hin. lia.
        -- intros v' E'. exfalso. apply IM in E'. apply Hx in E'. lia.
Qed.

Theorem motion_refines : forall l d,
  exists s, mexec_all T concat l (new_spec d) = Some s /\
    let m := fst (effects T concat l d) in
    def_object s = snd (effects T concat l d) /\
    enumerates T m (times s) /\
    (forall i, (i < length (times s))%nat -> slot_time T (Z.of_nat i) s = nth i (times s) 0) /\
    ((exists k, m k <> None) -> forall t,
       (exists v, get_interpolated T lerp t s = Some v /\ value_at T lerp m t v) /\
       (forall v, m t = Some v -> get_motion_object T t s = Some v)).
Proof.
  intros l d. destruct (exec_all_spec l (new_spec d) (fun _ => None) d) as (s & E & R).
  { repeat split; cbn; auto. }
  exists s; split; auto. fold (effects T concat l d) in R. cbv zeta. split; [apply R|]. split; [split|split].
  - intros; apply inc_nth; auto. apply R.
  - intros k. destruct R as (L & I & D & A). rewrite A. now apply in_assoc.
  - intros i Hi. unfold slot_time. destruct (times s) as [|x ts] eqn:Et; [cbn in Hi; lia|].
    destruct (Z.ltb_spec (Z.of_nat i) 0); [lia|]. destruct (Z.ltb_spec (Z.of_nat i) (Z.of_nat (length (x :: ts)))); [|lia].
    now rewrite Nat2Z.id.
  - intros K t. now apply lookup_spec with (d := snd (effects T concat l d)).
Qed.
End P.

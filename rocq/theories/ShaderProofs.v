(** Proofs: expressions. *)
From Verif Require Import ShaderModel ShaderSpec.

Scheme expr_ind2 := Induction for expr Sort Prop
  with args_ind2 := Induction for args Sort Prop.
Combined Scheme expr_args_ind from expr_ind2, args_ind2.

Ltac bools :=
  repeat match goal with
  | H : _ && _ = true |- _ => apply andb_true_iff in H; destruct H
  end.

Section Source.
Context {V : Type}.
Variable tob : V -> bool.
Variable ofb : bool -> V.
Variable fn : nat -> list V -> V.
Notation ev := (ev tob ofb fn).
Notation evl := (evl tob ofb fn).
Notation env := (@env V).

Ltac sm :=
  cbn in *;
  fold (@sets V) (@setsl V) (@reads V) (@readsl V) in *;
  fold (@ShaderSpec.ev V tob ofb fn) (@ShaderSpec.evl V tob ofb fn) in *;
  repeat match goal with u : var -> bool |- _ =>
    progress (fold (@ucls V u) (@uclsl V u) (@uni_ok V u) (@uni_okl V u) in *) end.

Lemma disjoint_spec a b x : disjoint a b = true -> In x a -> In x b -> False.
Proof.
  unfold disjoint. rewrite forallb_forall. intros H Ha Hb. specialize (H x Ha).
  apply negb_true_iff in H. assert (existsb (Nat.eqb x) b = true).
  { apply existsb_exists. exists x. split; auto. apply Nat.eqb_refl. }
  congruence.
Qed.

Lemma frame :
  (forall e (s : env) x, ~ In x (sets e) -> fst (ev e s) x = s x) /\
  (forall l (s : env) x, ~ In x (setsl l) -> fst (evl l s) x = s x).
Proof.
  apply expr_args_ind; intros; sm; auto.
  - specialize (H s x H0). destruct (evl l s); sm; auto.
  - specialize (H s x). destruct (ev a s) as [s1 va]. specialize (H0 s1 x). destruct (ev b s1). sm.
    rewrite H0, H; auto; intro; apply H1; apply in_or_app; auto.
  - specialize (H s x0). destruct (ev e s) as [s1 va]. sm. unfold upd.
    destruct (Nat.eqb_spec x0 x); [subst; tauto|]. apply H. tauto.
  - specialize (H s x). destruct (ev c s) as [s1 va]. sm.
    assert (s1 x = s x) by (apply H; intro; apply H2; apply in_or_app; auto).
    destruct (tob va); [rewrite H0 | rewrite H1]; auto; intro; apply H2; rewrite !in_app_iff; auto.
  - specialize (H s x). destruct (ev e s) as [s1 v]. specialize (H0 s1 x). destruct (evl l s1) as [s2 vs]. sm.
    rewrite H0, H; auto; intro; apply H1; apply in_or_app; auto.
Qed.

Lemma local :
  (forall e (s t : env), (forall x, In x (reads e) -> s x = t x) ->
     snd (ev e s) = snd (ev e t) /\ forall x, s x = t x -> fst (ev e s) x = fst (ev e t) x) /\
  (forall l (s t : env), (forall x, In x (readsl l) -> s x = t x) ->
     snd (evl l s) = snd (evl l t) /\ forall x, s x = t x -> fst (evl l s) x = fst (evl l t) x).
Proof.
  apply expr_args_ind; intros; sm; auto.
  - destruct (H s t H0) as [A B]. destruct (evl l s), (evl l t); sm. subst. auto.
  - destruct (H s t) as [A B]. { intros; apply H1; apply in_or_app; auto. }
    destruct (ev a s) as [s1 v1], (ev a t) as [t1 w1]. sm.
    destruct (H0 s1 t1) as [A2 B2]. { intros; apply B; apply H1; apply in_or_app; auto. }
    destruct (ev b s1) as [s2 v2], (ev b t1) as [t2 w2]. sm. subst. auto.
  - destruct (H s t H0) as [A B]. destruct (ev e s), (ev e t); sm. subst. split; auto.
    intros. unfold upd. destruct (x0 =? x); auto.
  - destruct (H s t) as [A B]. { intros; apply H2; apply in_or_app; auto. }
    destruct (ev c s) as [s1 v1], (ev c t) as [t1 w1]. sm. subst w1.
    destruct (tob v1).
    + destruct (H0 s1 t1) as [A2 B2]; [|split; auto]. intros; apply B; apply H2; rewrite !in_app_iff; auto.
    + destruct (H1 s1 t1) as [A2 B2]; [|split; auto]. intros; apply B; apply H2; rewrite !in_app_iff; auto.
  - destruct (H s t) as [A B]. { intros; apply H1; apply in_or_app; auto. }
    destruct (ev e s) as [s1 v1], (ev e t) as [t1 w1]. sm.
    destruct (H0 s1 t1) as [A2 B2]. { intros; apply B; apply H1; apply in_or_app; auto. }
    destruct (evl l s1) as [s2 v2], (evl l t1) as [t2 w2]. sm. subst. auto.
Qed.

Lemma ev_ext e (s t : env) : (forall x, s x = t x) ->
  snd (ev e s) = snd (ev e t) /\ forall x, fst (ev e s) x = fst (ev e t) x.
Proof. intros H. destruct (proj1 local e s t) as [A B]; auto. Qed.

(** Right to left and left to right agree. *)
Lemma swap e r (s : env) :
  disjoint (sets e) (readsl r ++ setsl r) = true -> disjoint (setsl r) (reads e ++ sets e) = true ->
  snd (ev e (fst (evl r s))) = snd (ev e s) /\
  snd (evl r (fst (ev e s))) = snd (evl r s) /\
  (forall x, fst (ev e (fst (evl r s))) x = fst (evl r (fst (ev e s))) x).
Proof.
  intros D1 D2.
  destruct (proj1 local e (fst (evl r s)) s) as [A1 B1].
  { intros x Hx. apply (proj2 frame). intro Hr. eapply disjoint_spec; [exact D2|exact Hr|]. apply in_or_app; auto. }
  destruct (proj2 local r (fst (ev e s)) s) as [A2 B2].
  { intros x Hx. apply (proj1 frame). intro Hr. eapply disjoint_spec; [exact D1|exact Hr|]. apply in_or_app; auto. }
  split; [auto|split; [auto|]]. intros x.
  destruct (in_dec Nat.eq_dec x (sets e)) as [i|i].
  - assert (ni : ~ In x (setsl r)).
    { intro. eapply disjoint_spec; [exact D1|exact i|]. apply in_or_app; auto. }
    rewrite (proj2 frame r (fst (ev e s)) x ni). apply B1. apply (proj2 frame); auto.
  - rewrite (proj1 frame e (fst (evl r s)) x i). symmetry. apply B2. apply (proj1 frame); auto.
Qed.

Variable uni : var -> bool.
Definition agree (s t : env) := forall x, uni x = true -> s x = t x.

Lemma agree_refl s : agree s s. Proof. intros x; auto. Qed.
Lemma agree_sym s t : agree s t -> agree t s. Proof. intros H x Hx; symmetry; auto. Qed.
Lemma agree_trans s t r : agree s t -> agree t r -> agree s r.
Proof. intros H H' x Hx. rewrite H, H'; auto. Qed.

(** Without uniform control no uniform variable is assigned. *)
Lemma nonuni :
  (forall e (s : env), uni_ok uni false e = true -> agree (fst (ev e s)) s) /\
  (forall l (s : env), uni_okl uni false l = true -> agree (fst (evl l s)) s).
Proof.
  apply expr_args_ind; intros; sm; bools; try apply agree_refl.
  - specialize (H s H0). destruct (evl l s); sm; auto.
  - specialize (H s H1). destruct (ev a s) as [s1 v1]. specialize (H0 s1 H2). destruct (ev b s1). sm.
    eapply agree_trans; eauto.
  - specialize (H s H0). destruct (ev e s). sm. intros y Hy. unfold upd.
    destruct (Nat.eqb_spec y x); [|apply H; auto]. subst. rewrite Hy in H1. discriminate.
  - specialize (H s H2). destruct (ev c s) as [s1 vc]. sm.
    destruct (tob vc); (eapply agree_trans; [|exact H]); auto.
  - specialize (H s H1). destruct (ev e s) as [s1 v1]. specialize (H0 s1 H2). destruct (evl l s1). sm.
    eapply agree_trans; eauto.
Qed.

Lemma euni :
  (forall e u (s t : env), uni_ok uni u e = true -> agree s t ->
     agree (fst (ev e s)) (fst (ev e t)) /\ (ucls uni e = true -> snd (ev e s) = snd (ev e t))) /\
  (forall l u (s t : env), uni_okl uni u l = true -> agree s t ->
     agree (fst (evl l s)) (fst (evl l t)) /\ (uclsl uni l = true -> snd (evl l s) = snd (evl l t))).
Proof.
  apply expr_args_ind; intros; sm; bools; auto.
  - destruct (H u s t H0 H1) as [A B]. destruct (evl l s), (evl l t); sm. split; auto.
    intros. rewrite B; auto.
  - destruct (H u s t H1 H2) as [A B]. destruct (ev a s) as [s1 v1], (ev a t) as [t1 w1]. sm.
    destruct (H0 u s1 t1 H3 A) as [A2 B2]. destruct (ev b s1), (ev b t1); sm. split; auto.
    intros. bools. rewrite B, B2; auto.
  - destruct (H u s t H0 H1) as [A B]. destruct (ev e s), (ev e t); sm. split; auto.
    intros y Hy. unfold upd. destruct (Nat.eqb_spec y x); [subst|apply A; auto].
    rewrite Hy in H2. cbn in H2. bools. auto.
  - destruct (H u s t H2 H3) as [A B]. destruct (ev c s) as [s1 vc], (ev c t) as [t1 wc]. sm.
    destruct (ucls uni c) eqn:Ec.
    + rewrite <- (B eq_refl). rewrite andb_true_r in *. cbn.
      destruct (tob vc).
      * destruct (H0 u s1 t1 H5 A). split; auto. intros; bools; auto.
      * destruct (H1 u s1 t1 H4 A). split; auto. intros; bools; auto.
    + rewrite andb_false_r in *. cbn. split; [|discriminate].
      assert (Ha : forall s, agree (fst (ev a s)) s) by (intros; apply (proj1 nonuni); auto).
      assert (Hb : forall s, agree (fst (ev b s)) s) by (intros; apply (proj1 nonuni); auto).
      destruct (tob vc), (tob wc);
        (eapply agree_trans; [first [apply Ha | apply Hb]|]; eapply agree_trans; [exact A|]; apply agree_sym; auto).
  - destruct (H u s t H1 H2) as [A B]. destruct (ev e s) as [s1 v1], (ev e t) as [t1 w1]. sm.
    destruct (H0 u s1 t1 H3 A) as [A2 B2]. destruct (evl l s1), (evl l t1); sm. split; auto.
    intros. bools. rewrite B, B2; auto.
Qed.

End Source.

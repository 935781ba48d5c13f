(** Proofs: whole shaders. *)
From Coq Require Import List Arith Bool Lia Permutation.
Import ListNotations.
From Verif Require Import ShaderModel ShaderSpec ShaderProofs ShaderSim ShaderStmt ShaderRun.

Section Labels.
Context {V : Type}.

Fixpoint labels (c : code V) : list label :=
  match c with [] => [] | ILabel l :: r => l :: labels r | _ :: r => labels r end.

Lemma labels_app a b : labels (a ++ b) = labels a ++ labels b.
Proof. induction a; simpl; auto. destruct a; simpl; rewrite ?IHa; auto. Qed.

Ltac sm := cbn in *; fold (@cexpr V) (@cargs V) in *.

Lemma labels_expr :
  (forall e : expr V, labels (cexpr e) = []) /\ (forall l : args V, labels (cargs l) = []).
Proof.
  apply expr_args_ind; intros; sm; auto;
    repeat (rewrite labels_app; cbn [labels]); rewrite ?H, ?H0, ?H1; auto. destruct str; auto.
Qed.

Lemma labels_nodup (e : expr V) : labels (cnodup e) = [].
Proof.
  destruct e; try apply (proj1 labels_expr). cbn. rewrite labels_app, (proj1 labels_expr). auto.
Qed.

Lemma NoDup_app_lt (a b : list nat) k lo hi :
  NoDup a -> NoDup b -> (forall x, In x a -> lo <= x < k) -> (forall x, In x b -> k <= x < hi) -> NoDup (a ++ b).
Proof.
  intros Ha Hb A B. induction a; simpl; auto. inversion Ha; subst. constructor.
  - rewrite in_app_iff. intros [X|X]; [tauto|]. specialize (A a (or_introl eq_refl)). specialize (B a X). lia.
  - apply IHa; auto. intros. apply A. right; auto.
Qed.

Lemma labels_stmt (p : stmt V) : forall bd lab c lab', cstmt bd lab p = Some (c, lab') ->
  lab <= lab' /\ NoDup (labels c) /\ forall l, In l (labels c) -> lab <= l < lab'.
Proof.
  assert (Z : forall lab, lab <= lab /\ NoDup (@nil label) /\ forall l, In l [] -> lab <= l < lab).
  { intros. split; auto. split; [constructor|]. simpl; tauto. }
  induction p; intros bd lab co lab' H; cbn -[Nat.leb Nat.sub firstn] in H.
  - inversion H; subst. apply Z.
  - inversion H; subst. rewrite labels_nodup. apply Z.
  - inversion H; subst. rewrite labels_app, (proj1 labels_expr). apply Z.
  - destruct (cstmt bd lab p1) as [[c1 l1]|] eqn:E1; [|discriminate].
    destruct (cstmt bd l1 p2) as [[c2 l2]|] eqn:E2; [|discriminate]. inversion H; subst.
    destruct (IHp1 _ _ _ _ E1) as (A1 & A2 & A3). destruct (IHp2 _ _ _ _ E2) as (B1 & B2 & B3).
    rewrite labels_app. split; [lia|]. split; [eapply NoDup_app_lt; eauto|].
    intros l Hl. apply in_app_or in Hl. destruct Hl as [Hl|Hl]; [specialize (A3 l Hl)|specialize (B3 l Hl)]; lia.
  - destruct (cstmt (bump bd) (S lab) p) as [[c1 l1]|] eqn:E1; [|discriminate]. inversion H; subst.
    destruct (IHp _ _ _ _ E1) as (A1 & A2 & A3).
    repeat (cbn [labels]; rewrite ?labels_app). rewrite (proj1 labels_expr). cbn [app].
    split; [lia|]. split.
    + eapply Permutation_NoDup; [apply Permutation_cons_append|]. constructor; auto.
      intro X. specialize (A3 _ X). lia.
    + intros l Hl. apply in_app_or in Hl. destruct Hl as [Hl|[<-|[]]]; [specialize (A3 l Hl)|]; lia.
  - destruct (cstmt (bump bd) (S (S lab)) p1) as [[c1 l1]|] eqn:E1; [|discriminate].
    destruct (cstmt (bump bd) l1 p2) as [[c2 l2]|] eqn:E2; [|discriminate]. inversion H; subst.
    destruct (IHp1 _ _ _ _ E1) as (A1 & A2 & A3). destruct (IHp2 _ _ _ _ E2) as (B1 & B2 & B3).
    repeat (cbn [labels]; rewrite ?labels_app). rewrite (proj1 labels_expr). cbn [app].
    split; [lia|].
    assert (N : NoDup (lab :: S lab :: labels c1 ++ labels c2)).
    { constructor; [|constructor].
      - simpl. rewrite in_app_iff. intros [X|[X|X]]; [lia|specialize (A3 _ X); lia|specialize (B3 _ X); lia].
      - rewrite in_app_iff. intros [X|X]; [specialize (A3 _ X); lia|specialize (B3 _ X); lia].
      - eapply NoDup_app_lt; eauto. }
    split.
    + eapply Permutation_NoDup; [|exact N].
      transitivity (S lab :: lab :: labels c1 ++ labels c2); [constructor|].
      transitivity (S lab :: labels c1 ++ labels c2 ++ [lab]).
      * constructor. rewrite app_assoc. apply Permutation_cons_append.
      * apply Permutation_middle.
    + intros l Hl. rewrite !in_app_iff in Hl. simpl in Hl. rewrite in_app_iff in Hl.
      destruct Hl as [Hl|[<-|[Hl|[<-|[]]]]]; [specialize (A3 l Hl)| |specialize (B3 l Hl)|]; lia.
  - destruct (cstmt (1 :: bump bd) (S (S lab)) p) as [[c1 l1]|] eqn:E1; [|discriminate]. inversion H; subst.
    destruct (IHp _ _ _ _ E1) as (A1 & A2 & A3).
    repeat (cbn [labels]; rewrite ?labels_app). rewrite (proj1 labels_expr). cbn [app].
    match goal with |- context [labels c1 ++ labels ?X ++ _] => assert (Li : labels X = []) end.
    { destruct inc; auto. apply labels_nodup. }
    rewrite Li. cbn [app].
    split; [lia|].
    assert (N : NoDup (lab :: S lab :: labels c1)).
    { constructor; [|constructor; auto].
      - simpl. intros [X|X]; [lia|specialize (A3 _ X); lia].
      - intros X; specialize (A3 _ X); lia. }
    split.
    + eapply Permutation_NoDup; [|exact N]. constructor. apply Permutation_cons_append.
    + intros l [<-|Hl]; [lia|]. rewrite in_app_iff in Hl. destruct Hl as [Hl|[<-|[]]]; [specialize (A3 l Hl)|]; lia.
  - destruct ((1 <=? k) && (k <=? length bd)); inversion H; subst. apply Z.
  - destruct ((1 <=? k) && (k <=? length bd)); inversion H; subst. apply Z.
Qed.

Lemma find_label_in l (c : code V) p : find_label l c = Some p -> In l (labels c).
Proof.
  revert p. induction c as [|i r IH]; simpl; intros p H; [discriminate|].
  destruct (find_label l r) eqn:E.
  - specialize (IH _ eq_refl). destruct i; auto. right; auto.
  - destruct i; try discriminate. destruct (Nat.eqb_spec l0 l); [|discriminate]. subst. left; auto.
Qed.

Lemma find_label_lt l (c : code V) q : find_label l c = Some q -> q < length c.
Proof.
  revert q. induction c as [|i r IH]; simpl; intros q F; [discriminate|].
  destruct (find_label l r); [inversion F; subst; specialize (IH _ eq_refl); lia|].
  destruct i; try discriminate. destruct (l0 =? l); inversion F; lia.
Qed.

Lemma find_label_unique (c : code V) : NoDup (labels c) ->
  forall k l, nth_error c k = Some (ILabel l) -> find_label l c = Some k.
Proof.
  induction c as [|i r IH]; intros N k l Hk; [destruct k; discriminate|].
  destruct k; simpl in *.
  - inversion Hk; subst. simpl in N. inversion N; subst.
    destruct (find_label l r) eqn:E; [apply find_label_in in E; tauto|]. rewrite Nat.eqb_refl. auto.
  - assert (Nr : NoDup (labels r)) by (destruct i; auto; inversion N; auto).
    rewrite (IH Nr k l Hk). auto.
Qed.

Lemma compile_loc (p : stmt V) (C : code V) : compile p = Some C -> cstmt [] 0 p = Some (C, match cstmt [] 0 p with Some (_, l) => l | None => 0 end)
  /\ loc C 0 C.
Proof.
  unfold compile. destruct (cstmt [] 0 p) as [[c l]|] eqn:E; [|discriminate]. intros H; inversion H; subst. split; auto.
  intros k i Hk. split; auto. intros l' ->. simpl. apply find_label_unique; auto. eapply labels_stmt; eauto.
Qed.

End Labels.

Section Final.
Context {V : Type}.
Variable tob : V -> bool.
Variable ofb : bool -> V.
Variable fn : nat -> list V -> V.
Variable uni : var -> bool.
Variable n : nat.
Notation eval := (eval tob ofb fn).
Notation run := (run tob ofb fn uni n).

Lemma run_steps C st st' : steps tob ofb fn uni n C st st' -> nth_error C (pc st') = None ->
  exists k, run k C st = Done st'.
Proof.
  induction 1; intros Hn.
  - exists 0. simpl. rewrite Hn. auto.
  - destruct (IHsteps Hn) as [k Hk]. exists (S k). simpl. rewrite H, H0. auto.
Qed.

Lemma common_fuel p (s : nat -> env) : (forall i, i < n -> exists f r, eval f p (s i) = Some r) ->
  exists f, forall i, i < n -> eval f p (s i) <> None.
Proof.
  induction n as [|m IH]; intros H.
  - exists 0. intros; lia.
  - destruct IH as [f Hf]; [intros; apply H; lia|]. destruct (H m) as (f' & r & Hr); [lia|].
    exists (f + f'). intros i Hi. destruct (Nat.eq_dec i m) as [->|].
    + erewrite (eval_mono tob ofb fn p f' (f + f') (s m)) by (eauto; lia). discriminate.
    + specialize (Hf i ltac:(lia)). destruct (eval f p (s i)) eqn:E; [|congruence].
      erewrite (eval_mono tob ofb fn p f (f + f') (s i)) by (eauto; lia). discriminate.
Qed.

Theorem run_correct p C m :
  1 <= n -> compile p = Some C -> stmt_ok uni true p = true ->
  (forall i, i < n -> exists f r, eval f p (sees uni m i) = Some r) ->
  exists k st', run k C (start n m) = Done st' /\ stk st' = [] /\ saved st' = [] /\
    forall i, i < n -> forall f s o, eval f p (sees uni m i) = Some (s, o) ->
      o = Norm /\ forall x, sees uni (mem st') i x = s x.
Proof.
  intros Hn Hc Hok Hterm. destruct (compile_loc p C Hc) as [Hc' Hl].
  destruct (common_fuel p (fun i => sees uni m i) Hterm) as [f Hf].
  assert (Hv : forall st i x, view uni (mem st) i x = @sees V uni (mem st) i x).
  { intros. unfold view, rdv, sees. destruct (uni x); auto. }
  destruct (stmt_sim tob ofb fn uni n Hn C p true [] 0 C _ f (start n m) Hc') as [st' []]; auto.
  { split; [reflexivity|]. intros _. left. auto. }
  { intros i Hi _. specialize (Hf i Hi). pose proof (eval_ext tob ofb fn p f _ _ (Hv (start n m) i)) as X.
    intros Q. rewrite Q in X. cbn [mem start] in X. destruct (eval f p (sees uni m i)) as [[]|]; [exact X|congruence]. }
  destruct (run_steps C _ _ p_steps) as [k Hk].
  { rewrite p_pc. apply nth_error_None. cbn. lia. }
  exists k, st'. split; auto. split; auto. split; [destruct (saved st'); auto; discriminate|].
  intros i Hi f' s o Hs. destruct (p_on i Hi eq_refl) as (s' & o' & E & Hv' & _).
  pose proof (eval_ext tob ofb fn p f _ _ (Hv (start n m) i)) as X. rewrite E in X. cbn in X.
  destruct (eval f p (sees uni m i)) as [[s2 o2]|] eqn:E2; [|destruct X]. destruct X as [-> X].
  assert (Q : Some (s2, o2) = Some (s, o)).
  { destruct (le_lt_dec f f').
    - pose proof (eval_mono tob ofb fn p f f' _ _ l E2) as Y. congruence.
    - assert (l' : f' <= f) by lia. pose proof (eval_mono tob ofb fn p f' f _ _ l' Hs) as Y. congruence. }
  inversion Q; subst. split.
  - destruct (level o) eqn:El; [|destruct o; auto; discriminate].
    pose proof (eval_level tob ofb fn p 0 f' _ _ _ _ (cstmt_loops p [] _ _ _ Hc') Hs El). lia.
  - intros x. rewrite <- Hv, Hv', X. auto.
Qed.

(** * Heights of the stacks *)

Definition effect (i : instr V) (h : nat * nat) : nat * nat :=
  let (a, b) := h in
  match i with
  | IPushF _ | IPushS _ | IPushV _ | IDup => (S a, b)
  | IDrop | IPop _ | ISGet => (a - 1, b)
  | ICall _ k => (S (a - k), b)
  | ILogic _ => (S (a - 2), b)
  | IMerge => (S (a - 3), b)
  | IRSPush => (a, S b)
  | IRSPop => (a, b - 1)
  | _ => h
  end.

Definition ht (C : code V) (p : nat) : nat * nat := fold_left (fun h i => effect i h) (firstn p C) (0, 0).

Lemma ht_S C p i : nth_error C p = Some i -> ht C (S p) = effect i (ht C p).
Proof.
  unfold ht. intros H. assert (firstn (S p) C = firstn p C ++ [i]) as ->.
  { revert C H. induction p; intros [|j r] H; try discriminate; simpl in *; [inversion H; auto|].
    f_equal. apply IHp; auto. }
  rewrite fold_left_app. reflexivity.
Qed.

Definition okat (C : code V) (q : nat) := forall i, nth_error C q = Some i ->
  fst (takes i) <= fst (ht C q) /\ snd (takes i) <= snd (ht C q) /\
  forall l, target i = Some l -> exists q', find_label l C = Some q' /\ ht C q' = ht C q.

Definition okrange C p len := forall k, k < len -> okat C (p + k).

Lemma okrange_app C p a b : okrange C p a -> okrange C (p + a) b -> okrange C p (a + b).
Proof.
  intros A B k Hk. destruct (lt_dec k a); [apply A; auto|].
  replace (p + k) with (p + a + (k - a)) by lia. apply B. lia.
Qed.

(** Code that takes the heights from [h] to [h'] *)
Definition trans C p (c : code V) h h' := ht C p = h -> okrange C p (length c) /\ ht C (p + length c) = h'.

Lemma trans_app C p a b h h1 h2 :
  trans C p a h h1 -> trans C (p + length a) b h1 h2 -> trans C p (a ++ b) h h2.
Proof.
  intros A B H. destruct (A H) as [A1 A2]. destruct (B A2) as [B1 B2]. rewrite app_length. split.
  - apply okrange_app; auto.
  - rewrite Nat.add_assoc. auto.
Qed.

Lemma trans_cons C p i c h h2 :
  nth_error C p = Some i -> (ht C p = h -> okat C p) -> trans C (S p) c (effect i h) h2 -> trans C p (i :: c) h h2.
Proof.
  intros K O T H. assert (H' : ht C (S p) = effect i h) by (rewrite (ht_S C p i K), H; auto).
  destruct (T H') as [A B]. split.
  - intros k Hk. destruct k; [rewrite Nat.add_0_r; auto|]. rewrite Nat.add_succ_r. apply A. simpl in Hk. lia.
  - simpl. rewrite Nat.add_succ_r. auto.
Qed.

Lemma trans_nil C p h : trans C p [] h h.
Proof. intros H. split; [intros k Hk; simpl in Hk; lia|]. simpl. rewrite Nat.add_0_r. auto. Qed.

Lemma ok_plain C p i : nth_error C p = Some i -> target i = None ->
  fst (takes i) <= fst (ht C p) -> snd (takes i) <= snd (ht C p) -> okat C p.
Proof.
  intros K T A B j Hj. rewrite K in Hj. inversion Hj; subst. repeat split; auto. rewrite T. discriminate.
Qed.

Ltac sm := cbn in *; fold (@cexpr V) (@cargs V) in *.

(** One plain instruction: heights by computation *)
Ltac one K := eapply trans_cons; [exact K|intros E; eapply ok_plain; [exact K|reflexivity|rewrite E; cbn; lia|rewrite E; cbn; lia]|cbn [effect]].

Ltac split_code H :=
  repeat (first [apply (code_at_app 1 (le_n 1)) in H; let K := fresh "K" in destruct H as [K H]
                |apply (code_at_cons 1 (le_n 1)) in H; let K := fresh "K" in destruct H as [K H]]).

Lemma trans_eq C p c h h1 h2 : trans C p c h h1 -> h1 = h2 -> trans C p c h h2.
Proof. intros; subst; auto. Qed.

Lemma height_expr C :
  (forall e p a b, code_at C p (cexpr e) -> trans C p (cexpr e) (a, b) (S a, b)) /\
  (forall l p a b, code_at C p (cargs l) -> trans C p (cargs l) (a, b) (alen l + a, b)).
Proof.
  apply expr_args_ind; intros; sm.
  - destruct str; split_code H; one K; apply trans_nil.
  - split_code H. one K; apply trans_nil.
  - split_code H0. eapply trans_app; [apply H; auto|]. one K0. eapply trans_eq; [apply trans_nil|]. f_equal; lia.
  - split_code H1. eapply trans_app; [apply H; auto|]. eapply trans_app; [apply H0; auto|].
    one K1. eapply trans_eq; [apply trans_nil|]. f_equal; lia.
  - split_code H0. eapply trans_app; [apply H; auto|]. one K0. one K1. eapply trans_eq; [apply trans_nil|]. f_equal; lia.
  - split_code H2. one K. eapply trans_app; [apply H; auto|]. one K1. one K2. one K3. one K4.
    eapply trans_app; [apply H0; auto|]. one K6. eapply trans_app; [apply H1; auto|]. one K8. one K9.
    eapply trans_eq; [apply trans_nil|]. f_equal; lia.
  - apply trans_nil.
  - split_code H1. eapply trans_app; [apply H0; auto|]. eapply trans_eq; [apply H; auto|]. f_equal. 
Qed.

Lemma height_nodup C e p a b : is_assign e = true -> code_at C p (cnodup e) -> trans C p (cnodup e) (a, b) (a, b).
Proof.
  destruct e; try discriminate. intros _ H. cbn in *. split_code H. eapply trans_app; [apply height_expr; auto|].
  one K0. eapply trans_eq; [apply trans_nil|]. f_equal; lia.
Qed.

(** A jump to a place of the same height *)
Lemma ok_jump C p i l q : nth_error C p = Some i -> target i = Some l -> takes i = (0, 0) ->
  find_label l C = Some q -> ht C q = ht C p -> okat C p.
Proof.
  intros K T N F E j Hj. rewrite K in Hj. inversion Hj; subst. rewrite N. cbn. split; [lia|]. split; [lia|].
  intros l' Hl. rewrite T in Hl. inversion Hl; subst. eauto.
Qed.

Lemma height_stmt C (s : stmt V) : forall bd lab c lab' p a b,
  cstmt bd lab s = Some (c, lab') -> assigns_only s = true -> loc C p c -> sum bd <= b ->
  trans C p c (a, b) (a, b).
Proof.
  induction s; intros bd lab co lab' p a b0 Hc Ha Hl Hb; cbn -[Nat.leb Nat.sub firstn] in Hc, Ha; bools.
  - inversion Hc; subst. apply trans_nil.
  - inversion Hc; subst. apply height_nodup; auto using loc_code.
  - inversion Hc; subst. apply loc_code in Hl. split_code Hl. eapply trans_app; [apply height_expr; auto|].
    one K0. eapply trans_eq; [apply trans_nil|]. f_equal; lia.
  - destruct (cstmt bd lab s1) as [[c1 l1]|] eqn:E1; [|discriminate].
    destruct (cstmt bd l1 s2) as [[c2 l2]|] eqn:E2; [|discriminate]. inversion Hc; subst.
    apply (loc_app 1 (le_n 1)) in Hl. destruct Hl. eapply trans_app; [eapply IHs1; eauto|eapply IHs2; eauto].
  - destruct (cstmt (bump bd) (S lab) s) as [[c1 l1]|] eqn:E1; [|discriminate]. inversion Hc; subst.
    repeat (first [apply (loc_app 1 (le_n 1)) in Hl; let K := fresh "K" in destruct Hl as [K Hl]
                |apply loc_cons in Hl; let K := fresh "K" in let L := fresh "L" in destruct Hl as [K [L Hl]]]).
    one K. eapply trans_app; [apply height_expr; auto using loc_code|]. one K1. one K2. one K3.
    pose proof (sum_bump 1 (le_n 1) bd) as Hsb.
    assert (Hh : trans C (S (S (S (S (S p + length (cexpr c)))))) c1 (S a - 1, S b0) (S a - 1, S b0)).
    { eapply IHs; eauto. lia. }
    intros Hq. revert Hq. eapply trans_cons; [exact K4| |].
    + intros E. eapply ok_jump; [exact K4|reflexivity|reflexivity|apply (L4 _ eq_refl)|].
      rewrite E. apply Hh. rewrite (ht_S _ _ _ K4), E. reflexivity.
    + cbn [effect]. eapply trans_app; [exact Hh|]. one K6. one K7. eapply trans_eq; [apply trans_nil|]. f_equal; lia.
  - destruct (cstmt (bump bd) (S (S lab)) s1) as [[c1 l1]|] eqn:E1; [|discriminate].
    destruct (cstmt (bump bd) l1 s2) as [[c2 l2]|] eqn:E2; [|discriminate]. inversion Hc; subst.
    repeat (first [apply (loc_app 1 (le_n 1)) in Hl; let K := fresh "K" in destruct Hl as [K Hl]
                |apply loc_cons in Hl; let K := fresh "K" in let L := fresh "L" in destruct Hl as [K [L Hl]]]).
    one K. eapply trans_app; [apply height_expr; auto using loc_code|]. one K1. one K2. one K3.
    pose proof (sum_bump 1 (le_n 1) bd) as Hsb.
    assert (Hh : trans C (S (S (S (S (S p + length (cexpr c)))))) c1 (S a - 1, S b0) (S a - 1, S b0)).
    { eapply IHs1; eauto. lia. }
    eapply trans_cons; [exact K4| |].
    + intros E. eapply ok_jump; [exact K4|reflexivity|reflexivity|apply (L4 _ eq_refl)|].
      rewrite E. apply Hh. rewrite (ht_S _ _ _ K4), E. reflexivity.
    + cbn [effect]. eapply trans_app; [exact Hh|]. one K6. one K7.
      assert (Hh2 : trans C (S (S (S (S (S (S (S (S p + length (cexpr c))))) + length c1)))) c2 (S a - 1, S b0) (S a - 1, S b0)).
      { eapply IHs2; eauto. lia. }
      eapply trans_cons; [exact K8| |].
      * intros E. eapply ok_jump; [exact K8|reflexivity|reflexivity|apply (L7 _ eq_refl)|].
        rewrite E. apply Hh2. rewrite (ht_S _ _ _ K8), E. reflexivity.
      * cbn [effect]. eapply trans_app; [exact Hh2|]. one K10. one K11. eapply trans_eq; [apply trans_nil|]. f_equal; lia.
  - destruct (cstmt (1 :: bump bd) (S (S lab)) s) as [[c1 l1]|] eqn:E1; [|discriminate]. inversion Hc; subst.
    match type of Hl with context [?X ++ IJmp lab :: _] => remember X as ci eqn:Eci end.
    repeat (first [apply (loc_app 1 (le_n 1)) in Hl; let K := fresh "K" in destruct Hl as [K Hl]
                |apply loc_cons in Hl; let K := fresh "K" in let L := fresh "L" in destruct Hl as [K [L Hl]]]).
    pose proof (sum_bump 1 (le_n 1) bd) as Hsb. intros H1.
    assert (HA : ht C (S p) = (a, S b0)) by (rewrite (ht_S _ _ _ K), H1; reflexivity).
    revert H1. one K. one K0. one K1.
    eapply trans_app; [apply height_expr; auto using loc_code|]. one K3.
    set (q := S (S (S (S p)) + length (cexpr c))) in *.
    assert (Hb2 : trans C (S (S (S q))) c1 (S a - 1, S (S b0)) (S a - 1, S (S b0))).
    { eapply IHs; eauto. unfold sum in *. cbn. lia. }
    assert (Hi : trans C (S (S (S (S q)) + length c1)) ci (S a - 1, S b0) (S a - 1, S b0)).
    { subst ci. destruct inc.
      - apply height_nodup; auto. apply loc_code. auto.
      - apply trans_nil. }
    assert (Rest : trans C (S q) (IRSGet :: IRSPush :: c1 ++ IRSPop :: ci) (S a - 1, S b0) (S a - 1, S b0)).
    { one K5. one K6. eapply trans_app; [exact Hb2|]. one K8. exact Hi. }
    eapply trans_cons; [exact K4| |].
    + intros E. eapply ok_jump; [exact K4|reflexivity|reflexivity|apply (L8 _ eq_refl)|]. fold q.
      assert (HR : ht C (S q) = (S a - 1, S b0)) by (rewrite (ht_S _ _ _ K4), E; reflexivity).
      destruct (Rest HR) as [_ R]. rewrite E.
      assert (Hj : ht C (S (S (S (S (S q)) + length c1) + length ci)) = ht C (S q + length (IRSGet :: IRSPush :: c1 ++ IRSPop :: ci))
                   -> ht C (S (S (S (S (S q)) + length c1) + length ci)) = (S a - 1, S b0)) by congruence.
      rewrite (ht_S _ _ _ K10). cbn [effect].
      replace (S (S (S (S q)) + length c1) + length ci) with (S q + length (IRSGet :: IRSPush :: c1 ++ IRSPop :: ci)).
      * rewrite R. reflexivity.
      * cbn. rewrite app_length. cbn. lia.
    + cbn [effect]. one K5. one K6. eapply trans_app; [exact Hb2|]. one K8. eapply trans_app; [exact Hi|].
      eapply trans_cons; [exact K10| |].
      * intros E. eapply ok_jump; [exact K10|reflexivity|reflexivity|apply (L0 _ eq_refl)|].
        rewrite HA, E. f_equal; lia.
      * cbn [effect]. one K11. one K12. eapply trans_eq; [apply trans_nil|]. f_equal; lia.
  - destruct ((1 <=? k) && (k <=? length bd)); inversion Hc; subst. apply loc_cons in Hl. destruct Hl as (K & _ & _).
    pose proof (sum_firstn 1 (le_n 1) k bd). one K. apply trans_nil.
  - destruct ((1 <=? k) && (k <=? length bd)); inversion Hc; subst. apply loc_cons in Hl. destruct Hl as (K & _ & _).
    pose proof (sum_firstn 1 (le_n 1) k bd). one K. apply trans_nil.
Qed.

Lemma popn_len k l a b : @popn V k l = Some (a, b) -> length l = k + length b.
Proof.
  revert l a b. induction k; simpl; intros l a b H; [inversion H; auto|].
  destruct l; [discriminate|]. destruct (popn k l) as [[x y]|] eqn:E; [|discriminate]. inversion H; subst.
  simpl. erewrite IHk; eauto.
Qed.

Lemma clear_len k r sv sv' : clear_top k r sv = Some sv' -> length sv' = length sv.
Proof.
  revert sv sv'. induction k; simpl; intros sv sv' H; [inversion H; auto|].
  destruct sv; [discriminate|]. destruct (clear_top k r sv) eqn:E; [|discriminate]. inversion H; subst. simpl.
  erewrite IHk; eauto.
Qed.

Definition heights (st : @state V) := (length (stk st), length (saved st)).

Lemma step_height C st i st' :
  okat C (pc st) -> nth_error C (pc st) = Some i -> heights st = ht C (pc st) ->
  step tob ofb fn uni n C st i = Some st' -> heights st' = ht C (pc st') /\ pc st' <= length C.
Proof.
  intros O K H S.
  assert (Hlt : pc st < length C) by (apply nth_error_Some; congruence).
  destruct (O i K) as (_ & _ & J).
  assert (J' : forall l st'', target i = Some l -> jump C l st = Some st'' -> heights st'' = ht C (pc st'') /\ pc st'' <= length C).
  { intros l st'' T Hj. unfold jump in Hj. destruct (J l T) as (q & F & E). rewrite F in Hj. inversion Hj; subst.
    split; [etransitivity; [exact H|symmetry; exact E]|]. cbn [pc].
    apply find_label_lt in F. lia. }
  assert (N : forall st'', pc st'' = Datatypes.S (pc st) -> heights st'' = effect i (heights st) ->
              heights st'' = ht C (pc st'') /\ pc st'' <= length C).
  { intros st'' Hp He. rewrite Hp, (ht_S _ _ _ K), He, H. split; auto. }
  unfold heights in *.
  destruct i; cbn -[popn] in S; try (inversion S; subst; apply N; reflexivity).
  - destruct (stk st) eqn:E; inversion S; subst. apply N; auto.
  - destruct (stk st) eqn:E; inversion S; subst. apply N; auto. cbn. f_equal; lia.
  - destruct (stk st) eqn:E; [discriminate|]. destruct (setvar uni n st x c); inversion S; subst. apply N; auto. cbn. f_equal; lia.
  - destruct (popn n0 (stk st)) as [[cl r]|] eqn:E; inversion S; subst. apply N; auto. cbn.
    apply popn_len in E. f_equal; lia.
  - destruct (popn 2 (stk st)) as [[cl r]|] eqn:E; inversion S; subst. apply N; auto.
    apply popn_len in E. cbn -[Nat.sub]. f_equal; lia.
  - destruct (stk st) as [|x [|y [|z r]]] eqn:E; inversion S; subst. apply N; auto. cbn. f_equal; lia.
  - destruct (stk st) eqn:E; [discriminate|]. destruct (sget tob uni n st c); inversion S; subst. apply N; auto. cbn. f_equal; lia.
  - destruct (saved st) eqn:E; inversion S; subst. apply N; auto. cbn. f_equal; lia.
  - destruct (clear_top k (rs st) (saved st)) eqn:E; inversion S; subst. apply N; auto. cbn.
    apply clear_len in E. f_equal; auto.
  - destruct (running st); [|eapply J'; eauto; reflexivity]. inversion S; subst. apply N; auto.
  - destruct (any n (cs st)); [|eapply J'; eauto; reflexivity]. inversion S; subst. apply N; auto.
  - eapply J'; eauto. reflexivity.
Qed.

Theorem stacks_balanced p C m :
  compile p = Some C -> assigns_only p = true ->
  forall k st, exec tob ofb fn uni n k C (start n m) = Some st ->
    (forall i, nth_error C (pc st) = Some i ->
       fst (takes i) <= length (stk st) /\ snd (takes i) <= length (saved st) /\
       forall l, target i = Some l -> find_label l C <> None) /\
    (nth_error C (pc st) = None -> stk st = [] /\ saved st = []).
Proof.
  intros Hc Ha. destruct (compile_loc p C Hc) as [Hc' Hl].
  destruct (height_stmt C p [] 0 C _ 0 0 0 Hc' Ha Hl (le_n 0)) as [O E]; [reflexivity|].
  assert (Ok : forall q, okat C q).
  { intros q. destruct (lt_dec q (length C)); [apply (O q); auto|]. intros i Hi.
    assert (q < length C) by (apply nth_error_Some; congruence). lia. }
  assert (Inv : forall k st st', heights st = ht C (pc st) -> pc st <= length C ->
             exec tob ofb fn uni n k C st = Some st' -> heights st' = ht C (pc st') /\ pc st' <= length C).
  { induction k; simpl; intros st st' H Hp He; [inversion He; subst; auto|].
    destruct (nth_error C (pc st)) eqn:K; [|inversion He; subst; auto].
    destruct (step tob ofb fn uni n C st i) as [st1|] eqn:S; [|discriminate].
    destruct (step_height C st i st1 (Ok _) K H S). eauto. }
  intros k st He. destruct (Inv k (start n m) st) as [H Hp]; [reflexivity|cbn; lia|exact He|].
  unfold heights in H. split.
  - intros i K. destruct (Ok _ i K) as (A & B & D). rewrite <- H in A, B. split; auto. split; auto.
    intros l Hl'. destruct (D l Hl') as (q & F & _). congruence.
  - intros K. apply nth_error_None in K. assert (pc st = length C) by lia. rewrite H0 in H. change (0 + length C) with (length C) in E. rewrite E in H.
    destruct (stk st), (saved st); cbn in H; try discriminate. auto.
Qed.

End Final.

(** Proofs: the virtual machine simulates the points, statements. *)
From Verif Require Import ShaderModel ShaderSpec ShaderProofs ShaderSim ShaderStmt.

Section Run.
Context {V : Type}.
Variable tob : V -> bool.
Variable ofb : bool -> V.
Variable fn : nat -> list V -> V.
Variable uni : var -> bool.
Variable n : nat.
Hypothesis npos : 1 <= n.
Variable C : code V.
Notation ev := (ev tob ofb fn).
Notation eval := (eval tob ofb fn).
Notation loop := (loop tob ofb fn).
Notation inc_step := (inc_step tob ofb fn).
Notation env := (@env V).
Notation state := (@state V).
Notation step := (step tob ofb fn uni n).
Notation any := (any n).
Notation steps := (steps tob ofb fn uni n C).
Notation view := (@view V uni).
Notation code_at := (code_at C).
Notation good := (@good V n).
Notation all_or_none := (all_or_none n).

(** Code in place, with its labels *)
Definition loc (p : nat) (c : code V) :=
  forall k i, nth_error c k = Some i ->
    nth_error C (p + k) = Some i /\ (forall l, i = ILabel l -> find_label l C = Some (p + k)).

Lemma loc_code p c : loc p c -> code_at p c.
Proof. intros H k i Hk. apply H; auto. Qed.

Lemma loc_app p a b : loc p (a ++ b) -> loc p a /\ loc (p + length a) b.
Proof.
  intros H. split; intros k i Hk.
  - apply H. rewrite nth_error_app1; auto. apply nth_error_Some. congruence.
  - rewrite <- Nat.add_assoc. apply H. rewrite nth_error_app2 by lia. rewrite Nat.add_comm, Nat.add_sub. auto.
Qed.

Lemma loc_cons p i c : loc p (i :: c) ->
  nth_error C p = Some i /\ (forall l, i = ILabel l -> find_label l C = Some p) /\ loc (S p) c.
Proof.
  intros H. destruct (H 0 i eq_refl) as [A B]. rewrite Nat.add_0_r in *. split; [auto|split; [auto|]].
  intros k j Hk. destruct (H (S k) j Hk) as [A' B']. rewrite Nat.add_succ_r in *. auto.
Qed.

(** Close [nth_error C p = Some i] with [K], up to arithmetic on [p]. *)
Ltac here K :=
  match type of K with nth_error _ ?q = _ =>
    match goal with |- nth_error _ ?p = _ =>
      let p' := eval cbn in p in change p with p'; replace p' with q by (cbn in *; lia); exact K end end.

Ltac split_loc H :=
  repeat (first [apply loc_app in H; let K := fresh "K" in destruct H as [K H]
                |apply loc_cons in H; let K := fresh "K" in let L := fresh "L" in destruct H as [K [L H]]]).

(** The saved running states at one point *)
Definition at_ (i : nat) (sv : list (nat -> bool)) : list bool := map (fun b => b i) sv.
Lemma at_cons i b sv : at_ i (b :: sv) = b i :: at_ i sv. Proof. reflexivity. Qed.
Arguments at_ : simpl never.
Arguments ShaderSim.view : simpl never.
Arguments ShaderModel.rdv : simpl never.
Arguments setvar : simpl never.
Arguments sget : simpl never.
Arguments shadeop : simpl never.
Definition clr (m : nat) (l : list bool) : list bool := repeat false m ++ skipn m l.

Definition post (bd : list nat) (o : outcome) (sv : list bool) (r' : bool) (sv' : list bool) : Prop :=
  match o with
  | Norm => r' = true /\ sv' = sv
  | Brk k => r' = false /\ sv' = clr (sum (firstn k bd)) sv
  | Cnt k => r' = false /\ sv' = clr (sum (firstn k bd) - 1) sv
  end.

Lemma clear_top_spec k r sv : k <= length sv ->
  exists sv', clear_top k r sv = Some sv' /\ length sv' = length sv /\
    forall i, at_ i sv' = if r i then clr k (at_ i sv) else at_ i sv.
Proof.
  revert sv. induction k; intros sv H; simpl.
  - exists sv. repeat split; auto. intros. unfold clr. simpl. destruct (r i); auto.
  - destruct sv as [|b t]; [simpl in H; lia|]. destruct (IHk t) as (t' & A & B & D); [simpl in H; lia|].
    rewrite A. eexists; split; [reflexivity|]. simpl. split; [lia|]. intros i. rewrite !at_cons. unfold clr in *. simpl. rewrite D.
    destruct (r i); simpl; [rewrite andb_false_r|rewrite andb_true_r]; auto.
Qed.

Lemma sum_firstn k bd : sum (firstn k bd) <= sum bd.
Proof. revert bd. induction k; intros [|d r]; simpl; try lia. specialize (IHk r). unfold sum in *. lia. Qed.

Lemma sum_bump bd : sum (bump bd) <= S (sum bd).
Proof. destruct bd; simpl; lia. Qed.

Lemma bump_pos bd : Forall (fun d => 1 <= d) bd -> Forall (fun d => 1 <= d) (bump bd).
Proof. destruct 1; simpl; constructor; auto; lia. Qed.

Lemma bump_len bd : length (bump bd) = length bd.
Proof. destruct bd; auto. Qed.

Lemma sum_firstn_bump k bd : 1 <= k <= length bd -> sum (firstn k (bump bd)) = S (sum (firstn k bd)).
Proof. intros H. destruct k; [lia|]. destruct bd; simpl in *; [lia|]. lia. Qed.

Lemma sum_firstn_pos k bd : Forall (fun d => 1 <= d) bd -> 1 <= k <= length bd -> 1 <= sum (firstn k bd).
Proof. intros F H. destruct F; simpl in *; [lia|]. destruct k; [lia|]. simpl. lia. Qed.

(** Compiled statements break only out of their own loops *)
Lemma cstmt_loops (p : stmt V) : forall bd lab c lab', cstmt bd lab p = Some (c, lab') -> loops_ok (length bd) p = true.
Proof.
  induction p; intros bd lab co lab'; simpl; auto; intros H.
  - destruct (cstmt bd lab p1) as [[c1 l1]|] eqn:E1; [|discriminate].
    destruct (cstmt bd l1 p2) as [[c2 l2]|] eqn:E2; [|discriminate].
    rewrite (IHp1 _ _ _ _ E1), (IHp2 _ _ _ _ E2). auto.
  - destruct (cstmt (bump bd) (S lab) p) as [[c1 l1]|] eqn:E1; [|discriminate].
    rewrite <- (bump_len bd). eauto.
  - destruct (cstmt (bump bd) (S (S lab)) p1) as [[c1 l1]|] eqn:E1; [|discriminate].
    destruct (cstmt (bump bd) l1 p2) as [[c2 l2]|] eqn:E2; [|discriminate].
    rewrite <- (bump_len bd). rewrite (IHp1 _ _ _ _ E1), (IHp2 _ _ _ _ E2). auto.
  - destruct (cstmt (1 :: bump bd) (S (S lab)) p) as [[c1 l1]|] eqn:E1; [|discriminate].
    apply IHp in E1. simpl in E1. rewrite bump_len in E1. auto.
  - destruct k; simpl in *; [discriminate|]. destruct (length bd); [discriminate|]. destruct (k <=? n0); auto; discriminate.
  - destruct k; simpl in *; [discriminate|]. destruct (length bd); [discriminate|]. destruct (k <=? n0); auto; discriminate.
Qed.

(** S_CLEAR; c; S_GET *)
Record condS (c : expr V) (st st' : state) : Prop := {
  c_steps : steps st st';
  c_pc : pc st' = S (S (pc st + length (cexpr c)));
  c_stk : stk st' = stk st;
  c_rs : rs st' = rs st;
  c_saved : saved st' = saved st;
  c_running : running st' = running st;
  c_cs : forall i, i < n -> cs st' i = rs st i && tob (snd (ev c (view (mem st) i)));
  c_env : forall i, i < n -> rs st i = true -> forall x, view (mem st') i x = fst (ev c (view (mem st) i)) x;
  c_off : forall i, i < n -> rs st i = false -> forall x, view (mem st') i x = view (mem st) i x
}.

Lemma cond_sim c u st :
  nth_error C (pc st) = Some ISClear -> code_at (S (pc st)) (cexpr c) ->
  nth_error C (S (pc st) + length (cexpr c)) = Some ISGet ->
  expr_ok uni u c = true -> good u st -> exists st', condS c st st'.
Proof.
  intros K0 K1 K2 Hok G.
  set (st1 := mk (S (pc st)) (stk st) (rs st) (fun _ => false) (saved st) (running st) (mem st)).
  destruct (proj1 (expr_sim tob ofb fn uni n npos C) c u st1) as (st2 & cc & E2 & _); auto.
  pose proof (fun i => esim_val _ _ _ _ _ _ _ _ _ _ i E2) as V2. destruct E2.
  cbn in s_pc, s_stk, s_rs, s_saved, s_running.
  change (mem st1) with (mem st) in *. change (rs st1) with (rs st) in *. change (cs st1) with (fun _ : nat => false) in *.
  destruct (sget_sim tob uni n npos st2 cc (fun i => snd (ev c (view (mem st) i)))) as (cs4 & S1 & S2 & S3).
  { rewrite s_rs, s_running. apply G. }
  { rewrite s_rs. auto. }
  rewrite s_rs in S2, S3.
  exists (mk (S (pc st2)) (stk st) (rs st) cs4 (saved st) (running st) (mem st2)). constructor; cbn; auto.
  - eapply steps_step; [exact K0|reflexivity|]. fold st1. eapply steps_trans; [exact s_steps|].
    eapply steps_one; [rewrite s_pc; exact K2|]. cbn. rewrite s_stk. cbn. rewrite S1. congruence.
  - intros i Hi. destruct (rs st i) eqn:Er; cbn; auto. rewrite S3; auto.
Qed.

Lemma cond_uni c u st : expr_ok uni u c = true -> ucls uni c = true ->
  forall i j, i < n -> j < n -> tob (snd (ev c (view (mem st) i))) = tob (snd (ev c (view (mem st) j))).
Proof.
  intros Hok Hc i j _ _. f_equal.
  destruct (proj1 (euni tob ofb fn uni) c u (view (mem st) i) (view (mem st) j)) as [_ X]; auto using view_agree.
  eapply ok_uni; eauto.
Qed.

(** Statement lemma *)
Record simT (bd : list nat) (len : nat) (f : nat -> option (env * outcome)) (st st' : state) : Prop := {
  p_steps : steps st st';
  p_pc : pc st' = pc st + len;
  p_stk : stk st' = stk st;
  p_len : length (saved st') = length (saved st);
  p_running : running st' = any (rs st');
  p_on : forall i, i < n -> rs st i = true -> exists s' o, f i = Some (s', o) /\
    (forall x, view (mem st') i x = s' x) /\ post bd o (at_ i (saved st)) (rs st' i) (at_ i (saved st'));
  p_off : forall i, i < n -> rs st i = false ->
    (forall x, view (mem st') i x = view (mem st) i x) /\ rs st' i = false /\ at_ i (saved st') = at_ i (saved st)
}.

Definition stmt_lemma (p : stmt V) := forall u bd lab c lab' f st,
  cstmt bd lab p = Some (c, lab') -> loc (pc st) c -> stmt_ok uni u p = true ->
  Forall (fun d => 1 <= d) bd -> sum bd <= length (saved st) -> good u st ->
  (forall i, i < n -> rs st i = true -> eval f p (view (mem st) i) <> None) ->
  exists st', simT bd (length c) (fun i => eval f p (view (mem st) i)) st st'.

Lemma t_skip : stmt_lemma SSkip.
Proof.
  intros u bd lab c lab' f st Hc Hl _ _ _ G Hev. inversion Hc; subst. exists st.
  constructor; auto; try (apply steps_refl); try (simpl; lia).
  - apply G.
  - intros i Hi Hr. exists (view (mem st) i), Norm. simpl. auto.
Qed.

Lemma t_expr e : stmt_lemma (SExpr e).
Proof.
  intros u bd lab c lab' f st Hc Hl Hok _ _ G Hev. inversion Hc; subst. simpl in Hok. bools.
  destruct (nodup_sim tob ofb fn uni n npos C e u st) as [st' []]; auto using loc_code.
  exists st'. constructor; auto.
  - congruence.
  - rewrite t_running, t_rs. apply G.
  - intros i Hi Hr. eexists; eexists; split; [reflexivity|]. split; [auto|]. simpl. rewrite t_rs, t_saved. auto.
  - intros i Hi Hr. rewrite t_rs, t_saved. auto.
Qed.

Lemma t_drop e : stmt_lemma (SDrop e).
Proof.
  intros u bd lab c lab' f st Hc Hl Hok _ _ G Hev. inversion Hc; subst. simpl in Hok. bools.
  split_loc Hl.
  destruct (proj1 (expr_sim tob ofb fn uni n npos C) e u st) as (st1 & c & [] & _); auto using loc_code.
  exists (next st1 (stk st)). constructor; cbn; auto.
  - eapply steps_trans; [exact s_steps|]. eapply steps_one; [rewrite s_pc; eassumption|]. cbn. rewrite s_stk. reflexivity.
  - rewrite s_pc, app_length. simpl. lia.
  - congruence.
  - rewrite s_running, s_rs. apply G.
  - intros i Hi Hr. eexists; eexists; split; [reflexivity|]. split; [auto|]. simpl. rewrite s_rs, s_saved. auto.
  - intros i Hi Hr. rewrite s_rs, s_saved. auto.
Qed.

(** Uniform control after a statement *)
Lemma after_good p u d bd len f st st' :
  stmt_ok uni u p = true -> loops_ok d p = true -> good u st ->
  simT bd len (fun i => eval f p (view (mem st) i)) st st' ->
  good (u && exits_uniform uni 0 true p) st'.
Proof.
  intros Hok Hl [G1 G2] []. split; auto. intros Hu. bools.
  destruct (G2 H) as [A|A].
  - destruct (p_on0 0) as (s0 & o0 & E0 & _ & P0); [lia|apply A; lia|].
    assert (Q : forall i, i < n -> exists s, eval f p (view (mem st) i) = Some (s, o0) /\ rs st' i = rs st' 0).
    { intros i Hi. destruct (p_on0 i) as (s1 & o1 & E1 & _ & P1); [lia|apply A; lia|].
      destruct (uniform_s tob ofb fn uni p u d f (view (mem st) i) (view (mem st) 0) s1 s0 o1 o0) as [_ X];
        auto using view_agree.
      rewrite (X H0) in *. exists s1. split; auto.
      destruct o0; simpl in P0, P1; destruct P0 as [-> _], P1 as [-> _]; auto. }
    destruct (rs st' 0) eqn:E; [left|right]; intros i Hi; destruct (Q i Hi) as (s & _ & ->); auto.
  - right. intros i Hi. apply p_off0; auto.
Qed.

Lemma post_trans bd o sv r sv1 r' sv' :
  post bd Norm sv r sv1 -> post bd o sv1 r' sv' -> post bd o sv r' sv'.
Proof. intros [-> ->]. auto. Qed.

Lemma t_seq a b : stmt_lemma a -> stmt_lemma b -> stmt_lemma (SSeq a b).
Proof.
  intros IHa IHb u bd lab c lab' f st Hc Hl Hok F Hs G Hev. simpl in Hc, Hok. bools.
  destruct (cstmt bd lab a) as [[ca l1]|] eqn:Ea; [|discriminate].
  destruct (cstmt bd l1 b) as [[cb l2]|] eqn:Eb; [|discriminate]. inversion Hc; subst.
  apply loc_app in Hl. destruct Hl as [La Lb].
  destruct (IHa u bd lab ca l1 f st) as [st1 S1]; auto.
  { intros i Hi Hr. specialize (Hev i Hi Hr). cbn in Hev. destruct (eval f a (view (mem st) i)); congruence. }
  pose proof (after_good a u (length bd) _ _ f st st1 H (cstmt_loops _ _ _ _ _ Ea) G S1) as G1.
  destruct S1.
  destruct (IHb (u && exits_uniform uni 0 true a) bd l1 cb lab' f st1) as [st2 []]; auto.
  { rewrite p_pc0; auto. } { lia. }
  { intros i Hi Hr. destruct (rs st i) eqn:Er.
    - destruct (p_on0 i Hi Er) as (s' & o & E & Hv & P). specialize (Hev i Hi Er). cbn in Hev. rewrite E in Hev.
      destruct o; [|destruct P; congruence|destruct P; congruence].
      pose proof (eval_ext tob ofb fn b f (view (mem st1) i) s' Hv) as X.
      destruct (eval f b (view (mem st1) i)); [congruence|]. destruct (eval f b s') as [[]|]; [destruct X|]. congruence.
    - destruct (p_off0 i Hi Er) as (_ & X & _). congruence. }
  exists st2. constructor; auto.
  - eapply steps_trans; eauto.
  - rewrite p_pc1, p_pc0, app_length. lia.
  - congruence.
  - lia.
  - intros i Hi Hr. destruct (p_on0 i Hi Hr) as (s' & o & E & Hv & P). cbn. rewrite E.
    destruct o.
    + destruct (p_on1 i Hi) as (s2 & o2 & E2 & Hv2 & P2); [apply P|].
      pose proof (eval_ext tob ofb fn b f (view (mem st1) i) s' Hv) as X. rewrite E2 in X.
      destruct (eval f b s') as [[s3 o3]|]; [|destruct X]. destruct X as [-> X].
      exists s3, o3. split; auto. split; [intros; rewrite Hv2; auto|]. eapply post_trans; eauto.
    + destruct P as [Pr Ps]. destruct (p_off1 i Hi Pr) as (Hv2 & R2 & S2).
      exists s', (Brk k). split; auto. split; [intros; rewrite Hv2; auto|]. split; congruence.
    + destruct P as [Pr Ps]. destruct (p_off1 i Hi Pr) as (Hv2 & R2 & S2).
      exists s', (Cnt k). split; auto. split; [intros; rewrite Hv2; auto|]. split; congruence.
  - intros i Hi Hr. destruct (p_off0 i Hi Hr) as (Hv & R & S0). destruct (p_off1 i Hi R) as (Hv2 & R2 & S2).
    split; [intros; rewrite Hv2; auto|]. split; congruence.
Qed.

Lemma leb_range k m : (1 <=? k) && (k <=? m) = true -> 1 <= k <= m.
Proof. intros H. apply andb_true_iff in H. destruct H as [A B]. apply Nat.leb_le in A, B. lia. Qed.

Lemma t_break k : stmt_lemma (SBreak k).
Proof.
  intros u bd lab c lab' f st Hc Hl _ F Hs G Hev. cbn -[Nat.leb] in Hc.
  destruct ((1 <=? k) && (k <=? length bd)) eqn:Ek; [|discriminate]. inversion Hc; subst. apply leb_range in Ek.
  split_loc Hl. pose proof (sum_firstn k bd).
  destruct (clear_top_spec (sum (firstn k bd)) (rs st) (saved st)) as (sv & A & B & D); [lia|].
  eexists. constructor; [eapply steps_one; [exact K|cbn; rewrite A; reflexivity]|..]; cbn; auto; try lia.
  - symmetry. apply any_false; auto.
  - intros i Hi Hr. exists (view (mem st) i), (Brk k). split; auto. split; auto. simpl. rewrite D, Hr. auto.
  - intros i Hi Hr. rewrite D, Hr. auto.
Qed.

Lemma t_continue k : stmt_lemma (SContinue k).
Proof.
  intros u bd lab c lab' f st Hc Hl _ F Hs G Hev. cbn -[Nat.leb Nat.sub] in Hc.
  destruct ((1 <=? k) && (k <=? length bd)) eqn:Ek; [|discriminate]. inversion Hc; subst. apply leb_range in Ek.
  split_loc Hl. pose proof (sum_firstn k bd).
  destruct (clear_top_spec (sum (firstn k bd) - 1) (rs st) (saved st)) as (sv & A & B & D); [lia|].
  eexists. constructor; [eapply steps_one; [exact K|cbn; rewrite A; reflexivity]|..]; cbn; auto; try lia.
  - symmetry. apply any_false; auto.
  - intros i Hi Hr. exists (view (mem st) i), (Cnt k). split; auto. split; auto. simpl. rewrite D, Hr. auto.
  - intros i Hi Hr. rewrite D, Hr. auto.
Qed.

(** RS_PUSH; RS_GET; RS_JZ l *)
Lemma list_cons {A} (l : list A) k : length l = S k -> exists x r, l = x :: r /\ length r = k.
Proof. destruct l; simpl; intros; [discriminate|]. eauto. Qed.

(** Result of a conditional branch, one saved state deeper, seen after the pop *)
Lemma post_bump bd o s0 sv r' sv' :
  Forall (fun d => 1 <= d) bd ->
  (forall j, level o = Some j -> 1 <= j <= length bd) ->
  s0 = true ->
  post (bump bd) o (s0 :: sv) r' sv' ->
  exists t sv1, sv' = t :: sv1 /\ post bd o sv t sv1 /\ (o <> Norm -> t = false /\ r' = false) /\ (o = Norm -> r' = true).
Proof.
  intros F Hl -> P. destruct o; simpl in *.
  - destruct P as [-> ->]. exists true, sv. repeat split; auto; congruence.
  - destruct P as [-> ->]. specialize (Hl k eq_refl). rewrite sum_firstn_bump by auto.
    unfold clr. simpl. eexists; eexists; split; [reflexivity|]. repeat split; auto; congruence.
  - destruct P as [-> ->]. specialize (Hl k eq_refl). rewrite sum_firstn_bump by auto.
    pose proof (sum_firstn_pos k bd F Hl). simpl. rewrite Nat.sub_0_r.
    destruct (sum (firstn k bd)) as [|m]; [lia|]. simpl. rewrite Nat.sub_0_r. unfold clr. simpl.
    eexists; eexists; split; [reflexivity|]. repeat split; auto; congruence.
Qed.

Lemma t_if c t : stmt_lemma t -> stmt_lemma (SIf c t).
Proof.
  intros IHt u bd lab co lab' f st Hc Hl Hok F Hs G Hev. simpl in Hc, Hok. bools.
  destruct (cstmt (bump bd) (S lab) t) as [[ct l1]|] eqn:Et; [|discriminate]. inversion Hc; subst. clear Hc.
  pose proof (cstmt_loops _ _ _ _ _ Et) as Hlo. rewrite bump_len in Hlo.
  split_loc Hl.
  destruct (cond_sim c u st) as [st1 []]; auto using loc_code.
  set (val := fun i => tob (snd (ev c (view (mem st) i)))).
  set (st2 := mk (S (S (pc st1))) (stk st) (cs st1) (cs st1) (rs st :: saved st) (any (cs st1)) (mem st1)).
  assert (T2 : steps st st2).
  { eapply steps_trans; [exact c_steps0|].
    eapply steps_step; [rewrite c_pc0; exact K2|reflexivity|].
    eapply steps_one; [cbn; rewrite c_pc0; exact K3|]. cbn. unfold set_rs, st2. cbn.
    rewrite c_rs0, c_saved0, c_stk0, c_pc0. reflexivity. }
  assert (G2 : good (u && ucls uni c) st2).
  { split; [reflexivity|]. cbn. intros Hu. bools. apply all_or_none_and with (r := rs st) (b := val); auto.
    - intros i j Hi Hj. unfold val. eapply cond_uni; eauto.
    - apply G; auto. }
  (* the branch, executed or skipped *)
  assert (B : exists st3, simT (bump bd) (S (length ct)) (fun i => eval f t (view (mem st1) i)) st2 st3).
  { destruct (any (cs st1)) eqn:Ea.
    - set (st2' := next st2 (stk st2)).
      destruct (IHt (u && ucls uni c) (bump bd) (S lab) ct lab' f st2') as [st3 []]; auto.
      { cbn. rewrite c_pc0. exact K5. } { apply bump_pos; auto. }
      { cbn. pose proof (sum_bump bd). lia. }
      { intros i Hi Hr. cbn in Hr. rewrite c_cs0 in Hr by auto. bools. specialize (Hev i Hi H1). cbn in Hev.
        pose proof (eval_ext tob ofb fn t f _ _ (c_env0 i Hi H1)) as X.
        destruct (ev c (view (mem st) i)) as [s1 v]. cbn in *. rewrite H2 in Hev. intro Q. rewrite Q in X.
        destruct (eval f t s1) as [[]|]; [destruct X|congruence]. }
      exists st3. constructor; auto.
      + eapply steps_step; [cbn; rewrite c_pc0; exact K4| |exact p_steps0]. cbn. try rewrite Ea. reflexivity.
      + rewrite p_pc0. cbn. lia.
    - exists (mk (S (S (S (pc st1))) + length ct) (stk st) (cs st1) (cs st1) (rs st :: saved st) (any (cs st1)) (mem st1)).
      pose proof (proj1 (any_false n npos (cs st1)) Ea) as Hn.
      constructor; cbn; auto; try lia.
      + eapply steps_one; [cbn; rewrite c_pc0; exact K4|]. cbn. try rewrite Ea. unfold jump.
        rewrite (L4 lab eq_refl). cbn. rewrite c_pc0. do 2 f_equal; try lia.
      + intros i Hi Hr. rewrite Hn in Hr; easy. }
  destruct B as [st3 []]. cbn in p_len0.
  destruct (list_cons _ _ p_len0) as (r4 & sv4 & Esv & Hlen4).
  exists (mk (S (S (pc st3))) (stk st) r4 (cs st3) sv4 (any r4) (mem st3)).
  rewrite Esv in *. cbn in p_pc0, p_stk0, p_on0, p_off0.
  assert (Hcl : forall i, i < n -> cs st1 i = rs st i && val i) by exact c_cs0.
  constructor; cbn -[ShaderSpec.eval]; auto.
  - eapply steps_trans; [exact T2|]. eapply steps_trans; [exact p_steps0|].
    eapply steps_step; [here K6|reflexivity|]. eapply steps_one; [here K7|].
    cbn. rewrite Esv. cbn. rewrite p_stk0. reflexivity.
  - rewrite p_pc0, c_pc0. rewrite !app_length. cbn. rewrite app_length. cbn. lia.
  - intros i Hi Hr. specialize (Hcl i Hi). rewrite Hr in Hcl. cbn in Hcl.
    destruct (cs st1 i) eqn:Ec.
    + destruct (p_on0 i Hi Ec) as (s' & o & E & Hv & P).
      pose proof (eval_ext tob ofb fn t f _ _ (c_env0 i Hi Hr)) as X. rewrite E in X.
      unfold val in Hcl. cbn [ShaderSpec.eval].
      destruct (ev c (view (mem st) i)) as [s1 v]. cbn [fst snd] in *. rewrite <- Hcl.
      destruct (eval f t s1) as [[s3 o3]|] eqn:E3; [|destruct X]. destruct X as [-> X].
      exists s3, o3. split; auto. split; [intros; rewrite Hv; auto|].
      rewrite at_cons in P. destruct (post_bump bd o3 (rs st i) (at_ i (saved st)) (rs st3 i) (at_ i (r4 :: sv4))) as (b & sv1 & Q1 & Q2 & _); auto.
      { intros j Hj. eapply eval_level; eauto. }
      rewrite at_cons in Q1. inversion Q1; subst. auto.
    + destruct (p_off0 i Hi Ec) as (Hv & R & Sv). rewrite !at_cons in Sv. inversion Sv; subst.
      unfold val in Hcl. specialize (c_env0 i Hi Hr). cbn [ShaderSpec.eval].
      destruct (ev c (view (mem st) i)) as [s1 v]. cbn [fst snd] in *. rewrite <- Hcl.
      exists s1, Norm. split; auto. split; [intros; rewrite Hv; auto|]. split; congruence.
  - intros i Hi Hr. specialize (Hcl i Hi). rewrite Hr in Hcl. cbn in Hcl.
    destruct (p_off0 i Hi Hcl) as (Hv & R & Sv). rewrite !at_cons in Sv. inversion Sv; subst.
    split; [intros; rewrite Hv; auto|]. split; congruence.
Qed.

Lemma jz_sim p u bd lab ct lab' f l st :
  stmt_lemma p -> cstmt bd lab p = Some (ct, lab') ->
  nth_error C (pc st) = Some (IRSJz l) -> loc (S (pc st)) ct -> find_label l C = Some (S (pc st) + length ct) ->
  stmt_ok uni u p = true -> Forall (fun d => 1 <= d) bd -> sum bd <= length (saved st) -> good u st ->
  (forall i, i < n -> rs st i = true -> eval f p (view (mem st) i) <> None) ->
  exists st', simT bd (S (length ct)) (fun i => eval f p (view (mem st) i)) st st'.
Proof.
  intros IH Hc K Hl L Hok F Hs G Hev. destruct (running st) eqn:Er.
  - destruct (IH u bd lab ct lab' f (next st (stk st))) as [st' []]; auto.
    exists st'. constructor; auto.
    + eapply steps_step; [exact K| |exact p_steps0]. cbn. rewrite Er. reflexivity.
    + rewrite p_pc0. cbn. lia.
  - destruct G as [G1 G2]. rewrite Er in G1. symmetry in G1. pose proof (proj1 (any_false n npos _) G1) as Hn.
    exists (mk (S (pc st) + length ct) (stk st) (rs st) (cs st) (saved st) (running st) (mem st)).
    constructor; cbn; auto; try lia.
    + eapply steps_one; [exact K|]. cbn. rewrite Er. unfold jump. rewrite L. rewrite Er. reflexivity.
    + congruence.
    + intros i Hi Hr. rewrite Hn in Hr; easy.
Qed.

Lemma t_ifelse c t e : stmt_lemma t -> stmt_lemma e -> stmt_lemma (SIfElse c t e).
Proof.
  intros IHt IHe u bd lab co lab' f st Hc Hl Hok F Hs G Hev. simpl in Hc, Hok. bools.
  destruct (cstmt (bump bd) (S (S lab)) t) as [[ct l1]|] eqn:Et; [|discriminate].
  destruct (cstmt (bump bd) l1 e) as [[cf l2]|] eqn:Ee; [|discriminate]. inversion Hc; subst. clear Hc.
  pose proof (cstmt_loops _ _ _ _ _ Et) as Hlo. rewrite bump_len in Hlo.
  pose proof (cstmt_loops _ _ _ _ _ Ee) as Hlo'. rewrite bump_len in Hlo'.
  split_loc Hl.
  destruct (cond_sim c u st) as [st1 []]; auto using loc_code.
  set (val := fun i => tob (snd (ev c (view (mem st) i)))).
  assert (Hcl : forall i, i < n -> cs st1 i = rs st i && val i) by exact c_cs0.
  assert (Hun : u && ucls uni c = true -> forall i j, i < n -> j < n -> val i = val j).
  { intros Hu i j Hi Hj. bools. unfold val. eapply cond_uni; eauto. }
  set (st2 := mk (S (S (pc st1))) (stk st) (cs st1) (cs st1) (rs st :: saved st) (any (cs st1)) (mem st1)).
  assert (T2 : steps st st2).
  { eapply steps_trans; [exact c_steps0|].
    eapply steps_step; [here K2|reflexivity|].
    eapply steps_one; [here K3|]. cbn. unfold set_rs, st2. cbn.
    rewrite c_rs0, c_saved0, c_stk0, c_pc0. reflexivity. }
  assert (G2 : good (u && ucls uni c) st2).
  { split; [reflexivity|]. cbn. intros Hu. apply all_or_none_and with (r := rs st) (b := val); auto.
    apply G. bools; auto. }
  pose proof (sum_bump bd) as Hsb.
  destruct (jz_sim t (u && ucls uni c) (bump bd) (S (S lab)) ct l1 f (S lab) st2) as [st3 []]; auto.
  { here K4. } { cbn. rewrite c_pc0. exact K5. }
  { rewrite (L4 _ eq_refl). cbn. rewrite c_pc0. f_equal. }
  { apply bump_pos; auto. } { cbn. lia. }
  { intros i Hi Hr. cbn in Hr. rewrite Hcl in Hr by auto. bools. specialize (Hev i Hi H2). cbn in Hev.
    pose proof (eval_ext tob ofb fn t f _ _ (c_env0 i Hi H2)) as X. unfold val in H3.
    destruct (ev c (view (mem st) i)) as [s1 v]. cbn in *. rewrite H3 in Hev. intro Q. rewrite Q in X.
    destruct (eval f t s1) as [[]|]; [destruct X|congruence]. }
  cbn in p_len0.
  destruct (list_cons _ _ p_len0) as (r4 & sv4 & Esv & Hlen4).
  rewrite Esv in *. cbn in p_pc0, p_stk0, p_on0, p_off0.
  set (rs5 := fun i => negb (rs st3 i) && r4 i).
  set (st5 := mk (S (S (pc st3))) (stk st) rs5 (cs st3) (r4 :: sv4) (any rs5) (mem st3)).
  assert (T5 : steps st3 st5).
  { eapply steps_step; [here K6|reflexivity|]. eapply steps_one; [here K7|]. cbn. unfold set_rs. cbn.
    rewrite Esv, p_stk0. reflexivity. }
  (* where each point is now *)
  assert (On : forall i, i < n -> rs st i = true -> val i = true ->
    exists s o, eval f (SIfElse c t e) (view (mem st) i) = Some (s, o) /\
      (forall x, view (mem st3) i x = s x) /\ rs5 i = false /\ post bd o (at_ i (saved st)) (r4 i) (at_ i sv4)).
  { intros i Hi Hr Hv. pose proof (Hcl i Hi) as Ec. rewrite Hr, Hv in Ec. cbn in Ec.
    destruct (p_on0 i Hi Ec) as (s' & o & E & Hv' & P).
    pose proof (eval_ext tob ofb fn t f _ _ (c_env0 i Hi Hr)) as X. rewrite E in X.
    unfold val in Hv. cbn [ShaderSpec.eval].
    destruct (ev c (view (mem st) i)) as [s1 v]. cbn [fst snd] in *. rewrite Hv.
    destruct (eval f t s1) as [[s3 o3]|] eqn:E3; [|destruct X]. destruct X as [-> X].
    exists s3, o3. split; auto. split; [intros; rewrite Hv'; auto|].
    rewrite at_cons in P. rewrite Hr in P.
    destruct (post_bump bd o3 true (at_ i (saved st)) (rs st3 i) (at_ i (r4 :: sv4))) as (b & sv1 & Q1 & Q2 & Q3 & Q4); auto.
    { intros j Hj. exact (eval_level tob ofb fn t (length bd) f s1 s3 o3 j Hlo E3 Hj). }
    rewrite at_cons in Q1. inversion Q1; subst. split; auto. unfold rs5.
    destruct o3; [rewrite Q4 by auto; auto| |]; (destruct Q3 as [Q3 _]; [discriminate|rewrite Q3; apply andb_false_r]). }
  assert (Off : forall i, i < n -> cs st1 i = false ->
    (forall x, view (mem st3) i x = view (mem st1) i x) /\ rs5 i = rs st i /\ r4 i = rs st i /\ at_ i sv4 = at_ i (saved st)).
  { intros i Hi Hr. destruct (p_off0 i Hi Hr) as (Hv & R & Sv). rewrite !at_cons in Sv. inversion Sv.
    unfold rs5. rewrite R. auto. }
  assert (Hrs5 : forall i, i < n -> rs5 i = rs st i && negb (val i)).
  { intros i Hi. pose proof (Hcl i Hi) as Ec. destruct (rs st i) eqn:Er; cbn in *.
    - destruct (val i) eqn:Ev; cbn.
      + destruct (On i Hi Er Ev) as (? & ? & ? & ? & ? & ?); auto.
      + destruct (Off i Hi Ec) as (_ & -> & _). auto.
    - destruct (Off i Hi Ec) as (_ & -> & _). auto. }
  assert (G5 : good (u && ucls uni c) st5).
  { split; [reflexivity|]. cbn. intros Hu. apply all_or_none_and with (r := rs st) (b := fun i => negb (val i)); auto.
    - intros. f_equal. auto.
    - apply G. bools; auto. }
  assert (Env5 : forall i, i < n -> rs5 i = true ->
     rs st i = true /\ val i = false /\ forall x, view (mem st3) i x = fst (ev c (view (mem st) i)) x).
  { intros i Hi Hr. rewrite Hrs5 in Hr by auto. bools. apply negb_true_iff in H3. split; auto. split; auto.
    pose proof (Hcl i Hi) as Ec. rewrite H2, H3 in Ec. intros x.
    destruct (Off i Hi Ec) as (-> & _). auto. }
  destruct (jz_sim e (u && ucls uni c) (bump bd) l1 cf lab' f lab st5) as [st6 []]; auto.
  { here K8. } { cbn. replace (S (S (S (pc st3)))) with (S (S (S (S (S (S (S (S (pc st) + length (cexpr c))))) + length ct)))) by lia. exact K9. }
  { rewrite (L7 _ eq_refl). cbn. f_equal. lia. }
  { apply bump_pos; auto. } { cbn. lia. }
  { intros i Hi Hr. cbn in Hr. destruct (Env5 i Hi Hr) as (Er & Ev & Ex). cbn. specialize (Hev i Hi Er). cbn in Hev.
    pose proof (eval_ext tob ofb fn e f _ _ Ex) as X. unfold val in Ev.
    destruct (ev c (view (mem st) i)) as [s1 v]. cbn in *. rewrite Ev in Hev. intro Q. rewrite Q in X.
    destruct (eval f e s1) as [[]|]; [destruct X|congruence]. }
  cbn in p_len1, p_pc1, p_stk1, p_on1, p_off1.
  destruct (list_cons _ _ p_len1) as (r7 & sv7 & Esv7 & Hlen7). rewrite Esv7 in *.
  exists (mk (S (S (pc st6))) (stk st) r7 (cs st6) sv7 (any r7) (mem st6)).
  constructor; cbn -[ShaderSpec.eval]; auto.
  - eapply steps_trans; [exact T2|]. eapply steps_trans; [exact p_steps0|]. eapply steps_trans; [exact T5|].
    eapply steps_trans; [exact p_steps1|].
    eapply steps_step; [here K10|reflexivity|]. eapply steps_one; [here K11|].
    cbn. rewrite Esv7. cbn. rewrite p_stk1. reflexivity.
  - rewrite p_pc1, p_pc0, c_pc0. repeat (rewrite !app_length; cbn). lia.
  - lia.
  - intros i Hi Hr. destruct (val i) eqn:Ev.
    + destruct (On i Hi Hr Ev) as (s & o & E & Hv & R5 & P). exists s, o. split; auto.
      destruct (p_off1 i Hi R5) as (Hv6 & R6 & S6). rewrite !at_cons in S6. inversion S6.
      split; [intros; rewrite Hv6; auto|]. congruence.
    + pose proof (Hcl i Hi) as Ec. rewrite Hr, Ev in Ec. cbn in Ec.
      destruct (Off i Hi Ec) as (Hv & R5 & R4 & S4).
      destruct (p_on1 i Hi) as (s' & o & E & Hv' & P); [congruence|].
      destruct (Env5 i Hi) as (_ & _ & Ex); [congruence|].
      pose proof (eval_ext tob ofb fn e f _ _ Ex) as X. rewrite E in X.
      unfold val in Ev. cbn [ShaderSpec.eval].
      destruct (ev c (view (mem st) i)) as [s1 v]. cbn [fst snd] in *. rewrite Ev.
      destruct (eval f e s1) as [[s3 o3]|] eqn:E3; [|destruct X]. destruct X as [-> X].
      exists s3, o3. split; auto. split; [intros; rewrite Hv'; auto|].
      rewrite at_cons, S4 in P.
      destruct (post_bump bd o3 (r4 i) (at_ i (saved st)) (rs st6 i) (at_ i (r7 :: sv7))) as (b & sv1 & Q1 & Q2 & Q3 & Q4); auto.
      { intros j Hj. exact (eval_level tob ofb fn e (length bd) f s1 s3 o3 j Hlo' E3 Hj). } { congruence. }
      rewrite at_cons in Q1. inversion Q1; subst. auto.
  - intros i Hi Hr. pose proof (Hcl i Hi) as Ec. rewrite Hr in Ec. cbn in Ec.
    destruct (Off i Hi Ec) as (Hv & R5 & R4 & S4).
    destruct (p_off1 i Hi) as (Hv6 & R6 & S6); [congruence|]. rewrite !at_cons in S6. inversion S6.
    split; [intros; rewrite Hv6, Hv; auto|]. split; congruence.
Qed.

Lemma post_while bd o sv r' sv' :
  Forall (fun d => 1 <= d) bd ->
  (forall j, level o = Some j -> 1 <= j <= S (length bd)) ->
  post (1 :: bump bd) o (true :: true :: sv) r' sv' ->
  exists x y sv5, sv' = x :: y :: sv5 /\
    match o with
    | Norm | Cnt 1 => x = true /\ y = true /\ sv5 = sv
    | Brk 1 => x = false /\ y = true /\ sv5 = sv
    | Brk k => x = false /\ y = false /\ post bd (Brk (pred k)) sv false sv5
    | Cnt k => x = false /\ y = false /\ post bd (Cnt (pred k)) sv false sv5
    end.
Proof.
  intros F Hl P. destruct o as [|[|[|k]]|[|[|k]]].
  - destruct P as [_ ->]. exists true, true, sv. auto.
  - specialize (Hl 0 eq_refl). lia.
  - destruct P as [_ ->]. exists false, true, sv. auto.
  - destruct P as [_ ->]. specialize (Hl _ eq_refl).
    change (sum (firstn (S (S k)) (1 :: bump bd))) with (1 + sum (firstn (S k) (bump bd))).
    rewrite sum_firstn_bump by lia. unfold clr. cbn -[firstn].
    eexists; eexists; eexists; split; [reflexivity|]. auto.
  - specialize (Hl 0 eq_refl). lia.
  - destruct P as [_ ->]. exists true, true, sv. auto.
  - destruct P as [_ ->]. specialize (Hl _ eq_refl).
    change (sum (firstn (S (S k)) (1 :: bump bd))) with (1 + sum (firstn (S k) (bump bd))).
    rewrite sum_firstn_bump by lia.
    pose proof (sum_firstn_pos (S k) bd F) as Hp. specialize (Hp ltac:(lia)). unfold post.
    change (pred (S (S k))) with (S k).
    destruct (sum (firstn (S k) bd)) as [|m]; [lia|].
    replace (1 + S (S m) - 1) with (S (S m)) by lia. replace (S m - 1) with m by lia. unfold clr.
    eexists; eexists; eexists; split; [reflexivity|]. auto.
Qed.

Lemma t_while c b inc : stmt_lemma b -> stmt_lemma (SWhile c b inc).
Proof.
  intros IHb u bd lab co lab' f st0 Hc Hl Hok F Hs G Hev. cbn -[ucls exits_uniform] in Hc, Hok.
  set (w := u && ucls uni c && exits_uniform uni 0 true b) in *. bools.
  destruct (cstmt (1 :: bump bd) (S (S lab)) b) as [[cb l1]|] eqn:Eb; [|discriminate]. inversion Hc; subst. clear Hc.
  pose proof (cstmt_loops _ _ _ _ _ Eb) as Hlo. cbn [length] in Hlo. rewrite bump_len in Hlo.
  match type of Hl with context [?X ++ IJmp lab :: _] => remember X as ci eqn:Eci end.
  split_loc Hl.
  assert (Loop : forall k st E sv,
    pc st = S (pc st0) -> saved st = E :: sv -> sum bd <= length sv -> good w st ->
    (forall i, i < n -> rs st i = true -> E i = true) ->
    (forall i, i < n -> rs st i = true -> loop f c b inc k (view (mem st) i) <> None) ->
    exists st', steps st st' /\
      pc st' = S (S (S (S (S (S (S (S (S (S (S (pc st0)) + length (cexpr c)))))) + length cb) + length ci))) /\
      stk st' = stk st /\ length (saved st') = length sv /\ running st' = any (rs st') /\
      (forall i, i < n -> rs st i = true -> exists s' o, loop f c b inc k (view (mem st) i) = Some (s', o) /\
         (forall x, view (mem st') i x = s' x) /\ post bd o (at_ i sv) (rs st' i) (at_ i (saved st'))) /\
      (forall i, i < n -> rs st i = false ->
         (forall x, view (mem st') i x = view (mem st) i x) /\ rs st' i = E i /\ at_ i (saved st') = at_ i sv)).
  { induction k as [k IHk] using (well_founded_induction lt_wf). intros st E sv Hpc Hsv Hlen Gw HE Hlp.
    set (st1 := next st (stk st)).
    assert (T1 : steps st st1) by (eapply steps_one; [here K0|reflexivity]).
    destruct (cond_sim c w st1) as [st2 []]; auto.
    { here K1. } { cbn. rewrite Hpc. apply loc_code. auto. } { here K3. }
    cbn in c_pc0, c_stk0, c_rs0, c_saved0, c_running0, c_cs0, c_env0, c_off0.
    set (val := fun i => tob (snd (ev c (view (mem st) i)))).
    assert (Hcl : forall i, i < n -> cs st2 i = rs st i && val i) by exact c_cs0.
    destruct (any (cs st2)) eqn:Ea.
    - (* one more round *)
      assert (Hk : exists k', k = S k').
      { apply any_true in Ea; auto. destruct Ea as (i & Hi & Hr). rewrite Hcl in Hr by auto. bools.
        destruct k; eauto. destruct (Hlp i Hi H2 eq_refl). }
      destruct Hk as [k' ->].
      set (st4 := mk (S (S (S (pc st2)))) (stk st) (cs st2) (cs st2) (cs st2 :: E :: sv) true (mem st2)).
      assert (T4 : steps st1 st4).
      { eapply steps_trans; [exact c_steps0|].
        eapply steps_step; [here K4|cbn; rewrite Ea; reflexivity|].
        eapply steps_step; [here K5|reflexivity|].
        eapply steps_one; [here K6|]. cbn. unfold st4. rewrite c_saved0, Hsv, c_stk0, Ea. reflexivity. }
      assert (G4 : good w st4).
      { split; [cbn; auto|]. cbn. intros Hw. apply all_or_none_and with (r := rs st) (b := val); auto.
        - intros i j Hi Hj. unfold val. unfold w in Hw. bools. eapply (cond_uni c w st); eauto.
        - apply Gw; auto. }
      assert (Hlp' : forall i, i < n -> rs st i = true -> val i = true ->
         exists s2 o, eval f b (view (mem st2) i) = Some (s2, o) /\
           eqr (loop f c b inc (S k') (view (mem st) i))
             match o with
             | Norm | Cnt 1 => loop f c b inc k' (inc_step inc s2)
             | Brk 1 => Some (s2, Norm)
             | Brk j => Some (s2, Brk (pred j))
             | Cnt j => Some (s2, Cnt (pred j))
             end).
      { intros i Hi Hr Hv. specialize (Hlp i Hi Hr). unfold val in Hv. cbn in Hlp.
        pose proof (eval_ext tob ofb fn b f _ _ (c_env0 i Hi Hr)) as X. cbn [ShaderStmt.loop].
        destruct (ev c (view (mem st) i)) as [s1 v]. cbn [fst snd] in *. rewrite Hv in *.
        destruct (eval f b s1) as [[s2 o]|] eqn:E1; [|congruence].
        destruct (eval f b (view (mem st2) i)) as [[s2' o']|] eqn:E2; [|destruct X].
        destruct X as [-> X]. exists s2', o. split; auto.
        assert (Lx : forall s, eqr (loop f c b inc k' s) (loop f c b inc k' s)).
        { intros s. apply loop_ext; auto. intros. apply eval_ext; auto. }
        destruct o as [|[|[|j]]|[|[|j]]]; cbn; auto;
          (apply loop_ext; [intros; apply eval_ext; auto|]; apply inc_ext; auto). }
      destruct (IHb w (1 :: bump bd) (S (S lab)) cb lab' f st4) as [st5 S5]; auto.
      { cbn. replace (S (S (S (pc st2)))) with (S (S (S (S (S (S (S (pc st0)) + length (cexpr c))))))) by lia. auto. }
      { constructor; auto. apply bump_pos; auto. }
      { cbn. pose proof (sum_bump bd). unfold sum in *. lia. }
      { intros i Hi Hr. cbn in Hr. rewrite Hcl in Hr by auto. bools.
        destruct (Hlp' i Hi H2 H3) as (s2 & o & E2 & _). cbn. congruence. }
      pose proof (after_good b w (S (length bd)) _ _ f st4 st5 H1 Hlo G4 S5) as G5.
      pose proof S5 as S5'. destruct S5'. cbn in p_len0, p_pc0, p_stk0, p_on0, p_off0.
      destruct (list_cons _ _ p_len0) as (x5 & r5 & Es5 & Hl5). destruct (list_cons _ _ Hl5) as (E5 & sv5 & -> & Hl5').
      rewrite Es5 in *.
      set (st6 := mk (S (pc st5)) (stk st) x5 (cs st5) (E5 :: sv5) (any x5) (mem st5)).
      assert (T6 : steps st5 st6).
      { eapply steps_one; [here K8|]. cbn. rewrite Es5. unfold set_rs. cbn. rewrite p_stk0. reflexivity. }
      (* what has become of each point *)
      assert (On : forall i, i < n -> cs st2 i = true ->
        exists s2 o, eval f b (view (mem st2) i) = Some (s2, o) /\ (forall x, view (mem st5) i x = s2 x) /\
          match o with
          | Norm | Cnt 1 => x5 i = true /\ E5 i = true /\ at_ i sv5 = at_ i sv
          | Brk 1 => x5 i = false /\ E5 i = true /\ at_ i sv5 = at_ i sv
          | Brk k => x5 i = false /\ E5 i = false /\ post bd (Brk (pred k)) (at_ i sv) false (at_ i sv5)
          | Cnt k => x5 i = false /\ E5 i = false /\ post bd (Cnt (pred k)) (at_ i sv) false (at_ i sv5)
          end).
      { intros i Hi Hr. destruct (p_on0 i Hi Hr) as (s2 & o & E2 & Hv & P). exists s2, o. split; auto. split; auto.
        rewrite !at_cons in P. pose proof (Hcl i Hi) as Ec. rewrite Hr in Ec. symmetry in Ec. bools.
        rewrite Hr, (HE i Hi H2) in P.
        destruct (post_while bd o (at_ i sv) (rs st5 i) (x5 i :: E5 i :: at_ i sv5)) as (x & y & z & Q1 & Q2); auto.
        { intros j Hj. exact (eval_level tob ofb fn b (S (length bd)) f _ s2 o j Hlo E2 Hj). }
        inversion Q1; subst. auto. }
      assert (Off : forall i, i < n -> cs st2 i = false ->
        (forall x, view (mem st5) i x = view (mem st2) i x) /\ x5 i = false /\ E5 i = E i /\ at_ i sv5 = at_ i sv).
      { intros i Hi Hr. destruct (p_off0 i Hi Hr) as (Hv & R & Sv). rewrite !at_cons in Sv. inversion Sv.
        repeat split; auto; congruence. }
      assert (G6 : good w st6).
      { split; [reflexivity|]. cbn. intros Hw. pose proof Hw as Hw'. unfold w in Hw'. bools.
        apply any_true in Ea; auto. destruct Ea as (i0 & Hi0 & Hr0).
        assert (Ac : forall i, i < n -> cs st2 i = true).
        { destruct G4 as [_ G4]. cbn in G4. destruct (G4 Hw) as [A|A]; auto. rewrite A in Hr0; easy. }
        destruct (On 0) as (s0 & o0 & E0 & _ & P0); [lia|apply Ac; lia|].
        assert (Q : forall i, i < n -> x5 i = x5 0).
        { intros i Hi. destruct (On i) as (s1 & o1 & E1 & _ & P1); [lia|apply Ac; lia|].
          destruct (uniform_s tob ofb fn uni b w (S (length bd)) f (view (mem st2) i) (view (mem st2) 0) s1 s0 o1 o0)
            as [_ X]; auto using view_agree.
          rewrite X in * by auto. destruct o0 as [|[|[|j]]|[|[|j]]]; destruct P0 as [-> _], P1 as [-> _]; auto. }
        destruct (x5 0) eqn:X0; [left|right]; intros i Hi; rewrite (Q i Hi); auto. }
      (* the increment *)
      assert (I : exists st7, steps st6 st7 /\ pc st7 = pc st6 + length ci /\ stk st7 = stk st /\ rs st7 = x5 /\
        saved st7 = E5 :: sv5 /\ running st7 = any x5 /\
        (forall i, i < n -> x5 i = true -> forall x, view (mem st7) i x = inc_step inc (view (mem st5) i) x) /\
        (forall i, i < n -> x5 i = false -> forall x, view (mem st7) i x = view (mem st5) i x)).
      { pose proof K9 as K9'. rewrite Eci in K9' |- *. destruct inc as [e|].
        - bools. destruct (nodup_sim tob ofb fn uni n npos C e w st6) as [st7 []]; auto.
          + cbn. replace (S (pc st5)) with (S (S (S (S (S (S (S (S (pc st0)) + length (cexpr c)))))) + length cb)) by lia.
            apply loc_code; auto.
          + exists st7. cbn in *. repeat (split; [auto; congruence|]). auto.
        - exists st6. split; [apply steps_refl|]. cbn. repeat split; auto. }
      destruct I as (st7 & T7 & Pc7 & St7 & Rs7 & Sv7 & Rn7 & On7 & Off7).
      set (st8 := mk (S (pc st0)) (stk st) x5 (cs st7) (E5 :: sv5) (any x5) (mem st7)).
      assert (T8 : steps st7 st8).
      { eapply steps_one; [here K10|]. cbn. unfold jump. rewrite (L0 _ eq_refl). rewrite St7, Rs7, Sv7, Rn7. reflexivity. }
      assert (E7 : forall i, i < n -> x5 i = true -> exists s2, E5 i = true /\ rs st i = true /\ at_ i sv5 = at_ i sv /\
          (forall x, view (mem st7) i x = inc_step inc s2 x) /\
          eqr (loop f c b inc (S k') (view (mem st) i)) (loop f c b inc k' (inc_step inc s2)) /\
          loop f c b inc k' (view (mem st7) i) <> None).
      { intros i Hi Hx.
        assert (cs st2 i = true) as Hcs.
        { destruct (cs st2 i) eqn:Q; auto. destruct (Off i Hi Q) as (_ & X & _). congruence. }
        destruct (On i Hi Hcs) as (s2 & o & E2 & Hv & P).
        rewrite Hcl in Hcs by auto. bools.
        destruct (Hlp' i Hi H2 H3) as (s2' & o' & E2' & Eq). rewrite E2 in E2'. inversion E2'; subst s2' o'.
        assert (Iv : forall x, view (mem st7) i x = inc_step inc s2 x).
        { intros x. rewrite On7 by auto. apply inc_ext. auto. }
        assert (Eq' : eqr (loop f c b inc (S k') (view (mem st) i)) (loop f c b inc k' (inc_step inc s2)) /\
                     E5 i = true /\ at_ i sv5 = at_ i sv).
        { destruct o as [|[|[|j]]|[|[|j]]]; try (destruct P; congruence); tauto. }
        exists s2. destruct Eq' as (Q1 & Q2 & Q3). repeat split; auto.
        intro N. pose proof (Hlp i Hi H2) as Hn.
        assert (X : eqr (loop f c b inc k' (view (mem st7) i)) (loop f c b inc k' (inc_step inc s2))).
        { apply loop_ext; auto. intros; apply eval_ext; auto. }
        rewrite N in X. cbn in X. destruct (loop f c b inc k' (inc_step inc s2)) as [[]|]; auto.
        destruct (loop f c b inc (S k') (view (mem st) i)) as [[]|]; auto. }
      destruct (IHk k' ltac:(lia) st8 E5 sv5) as (st9 & T9 & Pc9 & St9 & Ln9 & Rn9 & On9 & Off9); auto.
      { lia. }
      { cbn. intros i Hi Hx. destruct (E7 i Hi Hx) as (s2 & ? & _). auto. }
      { cbn. intros i Hi Hx. destruct (E7 i Hi Hx) as (s2 & _ & _ & _ & _ & _ & ?). auto. }
      cbn in On9, Off9.
      exists st9. split.
      { eapply steps_trans; [exact T1|]. eapply steps_trans; [exact T4|]. eapply steps_trans; [exact p_steps0|].
        eapply steps_trans; [exact T6|]. eapply steps_trans; [exact T7|]. eapply steps_trans; [exact T8|]. exact T9. }
      split; [auto|]. split; [auto|]. split; [lia|]. split; [auto|].
      split.
      + intros i Hi Hr. destruct (x5 i) eqn:Ex.
        * destruct (E7 i Hi Ex) as (s2 & Q1 & _ & Q3 & Q4 & Q5 & _).
          destruct (On9 i Hi Ex) as (s' & o & El & Hv & P).
          assert (X : eqr (loop f c b inc k' (view (mem st7) i)) (loop f c b inc k' (inc_step inc s2))).
          { apply loop_ext; auto. intros; apply eval_ext; auto. }
          rewrite El in X.
          destruct (loop f c b inc k' (inc_step inc s2)) as [[s3 o3]|]; [|destruct X]. destruct X as [-> X].
          destruct (loop f c b inc (S k') (view (mem st) i)) as [[s4 o4]|]; [|destruct Q5]. destruct Q5 as [-> Q5].
          exists s4, o3. split; auto. split; [intros; rewrite Hv, X; auto|]. congruence.
        * destruct (Off9 i Hi Ex) as (Hv & R & Sv). pose proof (Off7 i Hi Ex) as Hv7.
          destruct (val i) eqn:Ev.
          -- assert (Hcs : cs st2 i = true) by (rewrite Hcl, Hr, Ev; auto).
             destruct (On i Hi Hcs) as (s2 & o & E2 & Hv5 & P).
             destruct (Hlp' i Hi Hr Ev) as (s2' & o' & E2' & Eq). rewrite E2 in E2'. inversion E2'; subst s2' o'.
             assert (Hv' : forall x, view (mem st9) i x = s2 x) by (intros; rewrite Hv, Hv7, Hv5; auto).
             destruct (loop f c b inc (S k') (view (mem st) i)) as [[s4 o4]|].
             2:{ destruct o as [|[|[|j]]|[|[|j]]]; try (destruct Eq; fail); destruct P; congruence. }
             destruct o as [|[|[|j]]|[|[|j]]]; try (destruct P as (P1 & P2 & P3); congruence);
               destruct Eq as [-> Eq]; destruct P as (P1 & P2 & P3); eexists; eexists; (split; [reflexivity|]);
               (split; [intros; rewrite Hv'; auto|]); cbn [pred post] in *; rewrite ?R, ?Sv, ?P2, ?P3; tauto.
          -- assert (Hcs : cs st2 i = false) by (rewrite Hcl, Hr, Ev; auto).
             destruct (Off i Hi Hcs) as (Hv5 & _ & Q2 & Q3).
             specialize (c_env0 i Hi Hr). unfold val in Ev. cbn [ShaderStmt.loop].
             destruct (ev c (view (mem st) i)) as [s1 v]. cbn [fst snd] in *. rewrite Ev.
             exists s1, Norm. split; auto. split; [intros; rewrite Hv, Hv7, Hv5; auto|].
             cbn. rewrite R, Sv, Q2, Q3. auto.
      + intros i Hi Hr.
        assert (Hcs : cs st2 i = false) by (rewrite Hcl, Hr; auto).
        destruct (Off i Hi Hcs) as (Hv5 & Ex & Q2 & Q3).
        destruct (Off9 i Hi Ex) as (Hv & R & Sv). pose proof (Off7 i Hi Ex) as Hv7.
        split; [intros; rewrite Hv, Hv7, Hv5; auto|]. split; congruence.
    - (* no point goes on *)
      pose proof (proj1 (any_false n npos _) Ea) as Hn.
      exists (mk (S (S (S (S (S (S (S (S (S (S (S (pc st0)) + length (cexpr c)))))) + length cb) + length ci)))) (stk st) E
                (cs st2) sv (any E) (mem st2)).
      split.
      { eapply steps_trans; [exact T1|]. eapply steps_trans; [exact c_steps0|].
        eapply steps_step; [here K4|cbn; rewrite Ea; unfold jump; rewrite (L8 _ eq_refl); reflexivity|].
        eapply steps_step; [here K11|reflexivity|].
        eapply steps_one; [here K12|]. cbn. rewrite c_saved0, Hsv. unfold set_rs. cbn. rewrite c_stk0. reflexivity. }
      cbn -[ShaderStmt.loop]. split; [lia|]. split; [auto|]. split; [auto|]. split; [auto|]. split.
      + intros i Hi Hr. pose proof (Hcl i Hi) as Ec. rewrite Hn, Hr in Ec by auto. cbn in Ec.
        specialize (Hlp i Hi Hr). destruct k; [destruct (Hlp eq_refl)|]. cbn [ShaderStmt.loop].
        specialize (c_env0 i Hi Hr). unfold val in Ec.
        destruct (ev c (view (mem st) i)) as [s1 v]. cbn [fst snd] in *. rewrite <- Ec.
        exists s1, Norm. split; auto. split; auto. cbn. split; auto.
      + intros i Hi Hr. split; auto. }
  set (st1 := mk (S (pc st0)) (stk st0) (rs st0) (cs st0) (rs st0 :: saved st0) (running st0) (mem st0)).
  destruct (Loop f st1 (rs st0) (saved st0)) as (st' & T & Pc & St & Ln & Rn & On & Off); auto.
  { eapply good_next with (st := st0); auto. destruct G as [G1 G2]. split; auto. intros Hw. apply G2. unfold w in Hw.
    bools. auto. }
  exists st'. constructor; auto.
  - eapply steps_step; [exact K|reflexivity|]. exact T.
  - rewrite Pc. repeat (rewrite ?app_length; cbn). lia.
  - intros i Hi Hr. destruct (Off i Hi Hr) as (A & B & D). cbn in A. rewrite Hr in B. auto.
Qed.

Lemma stmt_sim p : stmt_lemma p.
Proof.
  induction p; auto using t_skip, t_expr, t_drop, t_seq, t_if, t_ifelse, t_while, t_break, t_continue.
Qed.

End Run.

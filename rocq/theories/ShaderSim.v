(** Proofs: the virtual machine simulates the points, expressions. *)
From Verif Require Import ShaderModel ShaderSpec ShaderProofs.

Section Sim.
Context {V : Type}.
Variable tob : V -> bool.
Variable ofb : bool -> V.
Variable fn : nat -> list V -> V.
Variable uni : var -> bool.
Variable n : nat.
Hypothesis npos : 1 <= n.
Variable C : code V.
Notation ev := (ev tob ofb fn).
Notation evl := (evl tob ofb fn).
Notation env := (@env V).
Notation state := (@state V).
Notation step := (step tob ofb fn uni n).
Notation any := (any n).
Notation rdv := (@ShaderModel.rdv V uni).
Notation rd := (@ShaderModel.rd V uni).

Definition view (m : store) (i : nat) : env := fun x => rdv m x i.
Arguments view : simpl never.
Arguments ShaderModel.rdv : simpl never.
Arguments setvar : simpl never.
Arguments sget : simpl never.
Arguments shadeop : simpl never.
Definition all_or_none (r : nat -> bool) :=
  (forall i, i < n -> r i = true) \/ (forall i, i < n -> r i = false).

Lemma any_true r : any r = true <-> exists i, i < n /\ r i = true.
Proof.
  unfold ShaderModel.any. rewrite existsb_exists. split; intros [i [A B]]; exists i.
  - apply in_seq in A. split; auto; lia.
  - split; auto. apply in_seq; lia.
Qed.

Lemma any_false r : any r = false <-> forall i, i < n -> r i = false.
Proof.
  split; intros H.
  - intros i Hi. destruct (r i) eqn:E; auto. assert (any r = true) by (apply any_true; eauto). congruence.
  - destruct (any r) eqn:E; auto. apply any_true in E. destruct E as [i [A B]]. rewrite H in B; auto.
Qed.

(** Execution sequences *)
Inductive steps : state -> state -> Prop :=
| steps_refl st : steps st st
| steps_step st i st1 st2 :
    nth_error C (pc st) = Some i -> step C st i = Some st1 -> steps st1 st2 -> steps st st2.

Lemma steps_trans a b c : steps a b -> steps b c -> steps a c.
Proof. induction 1; auto. intros. econstructor; eauto. Qed.

Lemma steps_one a i b : nth_error C (pc a) = Some i -> step C a i = Some b -> steps a b.
Proof. intros. econstructor; eauto. constructor. Qed.

Definition code_at (p : nat) (c : code V) := forall k i, nth_error c k = Some i -> nth_error C (p + k) = Some i.

Lemma code_at_app p a b : code_at p (a ++ b) <-> code_at p a /\ code_at (p + length a) b.
Proof.
  unfold code_at. split.
  - intros H. split; intros k i Hk.
    + apply H. rewrite nth_error_app1; auto. apply nth_error_Some. congruence.
    + rewrite <- Nat.add_assoc. apply H. rewrite nth_error_app2 by lia. rewrite Nat.add_comm, Nat.add_sub. auto.
  - intros [Ha Hb] k i Hk. destruct (lt_dec k (length a)).
    + rewrite nth_error_app1 in Hk by auto. auto.
    + rewrite nth_error_app2 in Hk by lia. apply Hb in Hk.
      replace (p + length a + (k - length a)) with (p + k) in Hk by lia. auto.
Qed.

Lemma code_at_cons p i c : code_at p (i :: c) <-> nth_error C p = Some i /\ code_at (S p) c.
Proof.
  change (i :: c) with ([i] ++ c). rewrite code_at_app. simpl. rewrite Nat.add_1_r. split; intros [A B]; split; auto.
  - specialize (A 0 i eq_refl). rewrite Nat.add_0_r in A. auto.
  - intros k j Hk. destruct k; simpl in Hk; [inversion Hk; subst; rewrite Nat.add_0_r; auto | destruct k; discriminate].
Qed.

(** Stack entries *)
Definition cell_reads (c : @cell V) (l : list var) : Prop := match c with CRef x => In x l | _ => True end.

Lemma rd_same m m' c l i :
  cell_reads c l -> (forall x, In x l -> rdv m' x i = rdv m x i) -> rd m' c i = rd m c i.
Proof. destruct c; simpl; intros; auto. rewrite H0; auto. Qed.

Lemma rd_view m m' c i : (forall x, view m' i x = view m i x) -> rd m' c i = rd m c i.
Proof. destruct c; simpl; intros; auto. unfold view in H. rewrite H; auto. Qed.

Lemma rd_flat m c i : varying uni n c = false -> i < n -> rd m c i = rd m c 0.
Proof.
  destruct c; simpl; intros H Hi; auto.
  - unfold ShaderModel.rdv. destruct (uni x); auto. simpl in H. apply Nat.ltb_ge in H.
    replace i with 0 by lia. auto.
  - apply Nat.ltb_ge in H. replace i with 0 by lia. auto.
Qed.

Lemma rd_dup m m' c i : rd m' (dup uni m c) i = rd m c i.
Proof. destruct c; simpl; auto. unfold ShaderModel.rdv. destruct (uni x) eqn:E; simpl; auto. Qed.

Lemma rd_shadeop f st cl i m :
  i < n -> running st = true -> rs st i = true ->
  rd m (shadeop uni n f st cl) i = f (map (fun c => rd (mem st) c i) cl).
Proof.
  intros Hi Hr Hs. unfold shadeop. destruct (existsb (varying uni n) cl) eqn:E; simpl; rewrite Hr.
  - rewrite Hs. reflexivity.
  - f_equal. apply map_ext_in. intros c Hc. symmetry. apply rd_flat; auto.
    destruct (varying uni n c) eqn:Ev; auto.
    assert (existsb (varying uni n) cl = true) by (apply existsb_exists; eauto). congruence.
Qed.

Lemma shadeop_reads f st cl l : cell_reads (shadeop uni n f st cl) l.
Proof. unfold shadeop. destruct (existsb _ cl); simpl; auto. Qed.

Lemma collect_some (l : list V) : collect (map Some l) = Some l.
Proof. induction l; simpl; auto. rewrite IHl. auto. Qed.

Lemma popn_app (cl r : list (@cell V)) : popn (length cl) (cl ++ r) = Some (cl, r).
Proof. induction cl; simpl; auto. rewrite IHcl. auto. Qed.

(** What running an expression does.  [vals i] / [env' i]: the values and variables point [i] should see. *)
Record sim (sets0 reads0 : list var) (len : nat) (st st' : state) (cl : list cell)
       (vals : nat -> list V) (env' : nat -> env) : Prop := {
  s_steps : steps st st';
  s_pc : pc st' = pc st + len;
  s_stk : stk st' = cl ++ stk st;
  s_rs : rs st' = rs st;
  s_saved : saved st' = saved st;
  s_running : running st' = running st;
  s_cs : forall i, i < n -> rs st i = false -> cs st i = false -> cs st' i = false;
  s_val : forall i, i < n -> rs st i = true -> map (fun c => rd (mem st') c i) cl = map Some (vals i);
  s_env : forall i, i < n -> rs st i = true -> forall x, view (mem st') i x = env' i x;
  s_off : forall i, i < n -> rs st i = false -> forall x, view (mem st') i x = view (mem st) i x;
  s_reads : Forall (fun c => cell_reads c reads0) cl;
  s_frame : forall x i, ~ In x sets0 -> mem st' x i = mem st x i
}.

Definition good (u : bool) (st : state) :=
  running st = any (rs st) /\ (u = true -> all_or_none (rs st)).

(** Assignment *)
Lemma setvar_sim (u : bool) x st c (val : nat -> V) :
  good u st ->
  (uni x = true -> u = true) ->
  (uni x = true -> forall i j, i < n -> j < n -> val i = val j) ->
  (forall i, i < n -> rs st i = true -> rd (mem st) c i = Some (val i)) ->
  exists m, setvar uni n st x c = Some m /\
    (forall i, i < n -> rs st i = true -> forall y, view m i y = upd (view (mem st) i) x (val i) y) /\
    (forall i, i < n -> rs st i = false -> forall y, view m i y = view (mem st) i y) /\
    (forall y i, y <> x -> m y i = mem st y i).
Proof.
  intros [G1 G2] Hu Hval Hc. unfold setvar. rewrite G1.
  destruct (any (rs st)) eqn:Ea.
  2:{ exists (mem st). rewrite any_false in Ea. repeat split; auto. intros i Hi Hr. rewrite Ea in Hr; easy. }
  apply any_true in Ea. destruct Ea as [i0 [Hi0 Hr0]].
  assert (Hsel : forall i, i < n -> selected n (rs st) i = true <-> rs st i = true).
  { intros i Hi. unfold selected. destruct (Nat.ltb_spec 1 n); simpl; [tauto|].
    replace i with i0 by lia. tauto. }
  destruct (uni x) eqn:Eu.
  - assert (existsb (selected n (rs st)) (seq 0 n) = true) as ->.
    { apply existsb_exists. exists i0. split; [apply in_seq; lia|]. apply Hsel; auto. }
    assert (All : forall i, i < n -> rs st i = true).
    { destruct (G2 (Hu eq_refl)) as [A|A]; auto. rewrite A in Hr0; easy. }
    rewrite (Hc 0) by (auto; lia).
    eexists; split; [reflexivity|]. split; [|split].
    + intros i Hi Hr y. unfold view, upd, ShaderModel.rdv. destruct (Nat.eqb_spec y x); subst; simpl.
      * rewrite Eu. simpl. apply Hval; auto; lia.
      * auto.
    + intros i Hi Hr. rewrite All in Hr; easy.
    + intros y i Hy. destruct (Nat.eqb_spec y x); [contradiction|]. auto.
  - assert (forallb (fun i => negb (selected n (rs st) i) || is_some (rd (mem st) c i)) (seq 0 n) = true) as ->.
    { apply forallb_forall. intros i Hi. apply in_seq in Hi. destruct (selected n (rs st) i) eqn:E; simpl; auto.
      apply Hsel in E; [|lia]. rewrite Hc; auto; lia. }
    eexists; split; [reflexivity|]. split; [|split].
    + intros i Hi Hr y. unfold view, upd, ShaderModel.rdv. destruct (Nat.eqb_spec y x); subst; simpl.
      * rewrite Eu. rewrite (proj2 (Nat.ltb_lt i n) Hi). simpl.
        rewrite (proj2 (Hsel i Hi) Hr). rewrite Hc; auto.
      * auto.
    + intros i Hi Hr y. unfold view, ShaderModel.rdv. destruct (Nat.eqb_spec y x); subst; simpl; auto.
      rewrite Eu. destruct (selected n (rs st) i) eqn:E; [apply Hsel in E; auto; congruence|].
      rewrite andb_false_r. auto.
    + intros y i Hy. destruct (Nat.eqb_spec y x); [contradiction|]. auto.
Qed.

Lemma sget_sim st c (val : nat -> V) :
  running st = any (rs st) ->
  (forall i, i < n -> rs st i = true -> rd (mem st) c i = Some (val i)) ->
  exists cs', sget tob uni n st c = Some cs' /\
    (forall i, i < n -> rs st i = true -> cs' i = tob (val i)) /\
    (forall i, i < n -> rs st i = false -> cs' i = cs st i).
Proof.
  intros G1 Hc. unfold sget. rewrite G1.
  destruct (any (rs st)) eqn:Ea.
  2:{ exists (cs st). rewrite any_false in Ea. repeat split; auto. intros i Hi Hr. rewrite Ea in Hr; easy. }
  assert (forallb (fun i => negb (rs st i) || is_some (rd (mem st) c i)) (seq 0 n) = true) as ->.
  { apply forallb_forall. intros i Hi. apply in_seq in Hi. destruct (rs st i) eqn:E; simpl; auto.
    rewrite Hc; auto; lia. }
  eexists; split; [reflexivity|]. split; intros i Hi Hr; rewrite Hr, (proj2 (Nat.ltb_lt i n) Hi); simpl; auto.
  rewrite Hc; auto.
Qed.

(** A condition has been evaluated: the new running state. *)
Lemma all_or_none_and r r' (b : nat -> bool) :
  (forall i, i < n -> r' i = r i && b i) -> (forall i j, i < n -> j < n -> b i = b j) ->
  all_or_none r -> all_or_none r'.
Proof.
  intros H Hb [A|A].
  - destruct (b 0) eqn:E; [left|right]; intros i Hi; rewrite H, A by auto; simpl; rewrite <- E; apply Hb; auto.
  - right. intros i Hi. rewrite H, A by auto. auto.
Qed.

Lemma view_agree m i j : agree uni (view m i) (view m j).
Proof. intros x Hx. unfold view, ShaderModel.rdv. rewrite Hx. auto. Qed.

Lemma all_or_none_ext r r' : (forall i, i < n -> r' i = r i) -> all_or_none r -> all_or_none r'.
Proof. intros H [A|A]; [left|right]; intros i Hi; rewrite H; auto. Qed.

Definition esim (e : expr V) (st st' : state) (c : cell) :=
  sim (sets e) (reads e) (length (cexpr e)) st st' [c]
      (fun i => [snd (ev e (view (mem st) i))]) (fun i => fst (ev e (view (mem st) i))).
Definition asim (l : args V) (st st' : state) (cl : list cell) :=
  sim (setsl l) (readsl l) (length (cargs l)) st st' cl
      (fun i => snd (evl l (view (mem st) i))) (fun i => fst (evl l (view (mem st) i))).

Ltac sm :=
  cbn in *;
  fold (@sets V) (@setsl V) (@reads V) (@readsl V) (@cexpr V) (@cargs V) (@order_free V) (@order_freel V)
       (@cond_ok V) (@cond_okl V) in *;
  fold (@ShaderSpec.ev V tob ofb fn) (@ShaderSpec.evl V tob ofb fn) in *;
  fold (@ucls V uni) (@uclsl V uni) (@uni_ok V uni) (@uni_okl V uni) in *.

Lemma good_run u st i : good u st -> i < n -> rs st i = true -> running st = true.
Proof. intros [A _] Hi Hr. rewrite A. apply any_true. eauto. Qed.

Definition expr_lemma (e : expr V) := forall u st,
  code_at (pc st) (cexpr e) -> expr_ok uni u e = true -> good u st ->
  exists st' c, esim e st st' c /\ (is_relation e = true -> cell_reads c []).
Definition args_lemma (l : args V) := forall u st,
  code_at (pc st) (cargs l) -> order_freel l = true -> cond_okl l = true -> uni_okl uni u l = true -> good u st ->
  exists st' cl, asim l st st' cl /\ length cl = alen l.

Lemma ok_split u (e : expr V) : expr_ok uni u e = true -> order_free e = true /\ cond_ok e = true /\ uni_ok uni u e = true.
Proof. unfold expr_ok. intros H. bools. auto. Qed.

Lemma ok_join u (e : expr V) : order_free e = true -> cond_ok e = true -> uni_ok uni u e = true -> expr_ok uni u e = true.
Proof. unfold expr_ok. intros -> -> ->. auto. Qed.

Lemma good_next u st st' : rs st' = rs st -> running st' = running st -> good u st -> good u st'.
Proof. intros A B [G1 G2]. split; rewrite ?A, ?B; auto. Qed.

Lemma case_const str v : expr_lemma (EConst str v).
Proof.
  intros u st Hc _ G. sm. apply code_at_cons in Hc. destruct Hc as [Hi _].
  destruct str; (eexists; eexists; split; [|discriminate]);
  (constructor; [eapply steps_one; [exact Hi|reflexivity]|..]); cbn; auto; try lia.
  all: try (constructor; cbn; auto).
  intros i Hi' Hr. rewrite (good_run u st i); auto.
Qed.

Lemma case_var x : expr_lemma (EVar x).
Proof.
  intros u st Hc _ G. sm. apply code_at_cons in Hc. destruct Hc as [Hi _].
  eexists; eexists; split; [|discriminate].
  constructor; [eapply steps_one; [exact Hi|reflexivity]|..]; cbn; auto; try lia.
  constructor; [|constructor]. simpl; auto.
Qed.

Lemma case_call op l : args_lemma l -> expr_lemma (ECall op l).
Proof.
  intros IH u st Hc Hok G. apply ok_split in Hok. destruct Hok as (O1 & O2 & O3). sm.
  apply code_at_app in Hc. destruct Hc as [Hc1 Hc2]. apply code_at_cons in Hc2. destruct Hc2 as [Hi _].
  destruct (IH u st Hc1 O1 O2 O3 G) as (st1 & cl & [] & Hlen).
  exists (next st1 (shadeop uni n (apply fn op) st1 cl :: stk st)), (shadeop uni n (apply fn op) st1 cl).
  split; [|intros _; apply shadeop_reads].
  constructor; cbn; auto.
  - eapply steps_trans; [exact s_steps0|]. eapply steps_one; [rewrite s_pc0; exact Hi|].
    cbn. rewrite s_stk0, <- Hlen, popn_app. reflexivity.
  - rewrite s_pc0, app_length. sm. lia.
  - intros i Hi' Hr. rewrite rd_shadeop; auto.
    + rewrite s_val0 by auto. unfold apply. rewrite collect_some. sm. destruct (evl l (view (mem st) i)); auto.
    + rewrite s_running0. eapply good_run; eauto.
    + rewrite s_rs0; auto.
  - intros i Hi' Hr x. rewrite s_env0 by auto. sm. destruct (evl l (view (mem st) i)); auto.
  - constructor; [apply shadeop_reads|constructor].
Qed.

Lemma case_logic isand a b : expr_lemma a -> expr_lemma b -> expr_lemma (ELogic isand a b).
Proof.
  intros IHa IHb u st Hc Hok G. apply ok_split in Hok. destruct Hok as (O1 & O2 & O3). sm. bools.
  apply code_at_app in Hc. destruct Hc as [Hc1 Hc2]. apply code_at_app in Hc2. destruct Hc2 as [Hc2 Hc3].
  apply code_at_cons in Hc3. destruct Hc3 as [Hi _].
  destruct (IHa u st Hc1) as (st1 & ca & [] & _); auto using ok_join.
  destruct (IHb u st1) as (st2 & cb & [] & _); auto using ok_join.
  { rewrite s_pc0; auto. } { eapply good_next; eauto. }
  set (c := shadeop uni n (logic tob ofb isand) st2 [cb; ca]).
  exists (next st2 (c :: stk st)), c. split; [|intros _; apply shadeop_reads].
  rewrite s_rs0 in *. rewrite s_saved0 in *. rewrite s_running0 in *. rewrite s_stk0 in *. rewrite s_pc0 in *.
  assert (Ea : forall i, i < n -> rd (mem st2) ca i = rd (mem st1) ca i).
  { intros i Hi'. eapply rd_same. { inversion s_reads0; eauto. }
    intros x Hx. unfold ShaderModel.rdv. rewrite s_frame1; auto.
    intro Hs. eapply disjoint_spec; [eassumption|exact Hs|]. apply in_or_app; auto. }
  assert (Eext : forall i, i < n -> rs st i = true ->
    snd (ev b (view (mem st1) i)) = snd (ev b (fst (ev a (view (mem st) i)))) /\
    forall x, fst (ev b (view (mem st1) i)) x = fst (ev b (fst (ev a (view (mem st) i)))) x).
  { intros i Hi' Hr. apply ev_ext. auto. }
  constructor; cbn; auto.
  - eapply steps_trans; [exact s_steps0|]. eapply steps_trans; [exact s_steps1|].
    eapply steps_one; [rewrite s_pc1; exact Hi|]. cbn. rewrite s_stk1. reflexivity.
  - rewrite s_pc1, !app_length. sm. lia.
  - intros i Hi' Hr. unfold c. rewrite rd_shadeop; auto; [| rewrite s_running1; eapply good_run; eauto| rewrite s_rs1; auto].
    cbn. rewrite Ea by auto.
    specialize (s_val0 i Hi' Hr). specialize (s_val1 i Hi' Hr). cbn in s_val0, s_val1.
    injection s_val0 as ->. injection s_val1 as ->. destruct (Eext i Hi' Hr) as [-> _]. sm.
    destruct (ev a (view (mem st) i)) as [s1 va]. sm. destruct (ev b s1) as [s2 vb]. sm.
    destruct isand; [rewrite andb_comm|rewrite orb_comm]; auto.
  - intros i Hi' Hr x. rewrite s_env1 by auto. destruct (Eext i Hi' Hr) as [_ ->]. sm.
    destruct (ev a (view (mem st) i)) as [s1 va]. sm. destruct (ev b s1) as [s2 vb]. sm. auto.
  - intros i Hi' Hr x. rewrite s_off1 by auto. auto.
  - constructor; [apply shadeop_reads|constructor].
  - intros x i Hx. fold (@sets V) in Hx. rewrite in_app_iff in Hx. rewrite s_frame1, s_frame0; auto.
Qed.

Lemma case_assign x e : expr_lemma e -> expr_lemma (EAssign x e).
Proof.
  intros IH u st Hc Hok G. apply ok_split in Hok. destruct Hok as (O1 & O2 & O3). sm. bools.
  apply code_at_app in Hc. destruct Hc as [Hc1 Hc2].
  apply code_at_cons in Hc2. destruct Hc2 as [Hi1 Hc2]. apply code_at_cons in Hc2. destruct Hc2 as [Hi2 _].
  destruct (IH u st Hc1) as (st1 & c & [] & _); auto using ok_join.
  set (st2 := next st1 (dup uni (mem st1) c :: c :: stk st)).
  assert (Hv : forall i, i < n -> rs st i = true -> rd (mem st1) c i = Some (snd (ev e (view (mem st) i)))).
  { intros i Hi Hr. specialize (s_val0 i Hi Hr). cbn in s_val0. injection s_val0; auto. }
  destruct (setvar_sim u x st2 (dup uni (mem st1) c) (fun i => snd (ev e (view (mem st) i)))) as (m & M1 & M2 & M3 & M4).
  - eapply good_next; [| |exact G]; cbn; auto.
  - intros Hx. rewrite Hx in H0. cbn in H0. bools. auto.
  - intros Hx i j Hi Hj. rewrite Hx in H0. cbn in H0. bools. eapply euni; eauto. apply view_agree.
  - cbn. rewrite s_rs0. intros. rewrite rd_dup. auto.
  - cbn in M2, M3, M4. rewrite s_rs0 in M2, M3.
    exists (mk (S (S (pc st1))) (c :: stk st) (rs st) (cs st1) (saved st) (running st) m), c.
    split; [|discriminate].
    constructor; cbn; auto.
    + eapply steps_trans; [exact s_steps0|]. eapply steps_step; [rewrite s_pc0; exact Hi1| |].
      { cbn. rewrite s_stk0. reflexivity. }
      fold st2. eapply steps_one; [cbn; rewrite s_pc0; exact Hi2|]. unfold st2 in *. cbn in *. rewrite M1. cbn. congruence.
    + rewrite s_pc0, app_length. sm. lia.
    + intros i Hi Hr. sm. specialize (Hv i Hi Hr). specialize (M2 i Hi Hr).
      destruct (ev e (view (mem st) i)) as [s1 v] eqn:Ee. cbn in *. f_equal.
      destruct c as [y| |]; cbn in *; auto.
      specialize (M2 y). unfold view at 1 in M2. rewrite M2. unfold upd. destruct (y =? x); auto.
    + intros i Hi Hr y. rewrite M2 by auto. specialize (s_env0 i Hi Hr). sm.
      destruct (ev e (view (mem st) i)) as [s1 v] eqn:Ee. cbn in *. unfold upd. destruct (y =? x); auto.
    + intros i Hi Hr y. rewrite M3 by auto. auto.
    + intros y i Hy. sm. rewrite M4 by (intro; subst; tauto). apply s_frame0. tauto.
Qed.

(** Evaluate a condition and set the running state: S_CLEAR; c; [DUP]; S_GET; RS_PUSH; RS_GET *)
Lemma cell_nil m m' (c : cell) i : cell_reads c [] -> rd m' c i = rd m c i.
Proof. destruct c; simpl; tauto. Qed.

Lemma esim_val e st st' c i :
  esim e st st' c -> i < n -> rs st i = true -> rd (mem st') c i = Some (snd (ev e (view (mem st) i))).
Proof. intros [] Hi Hr. specialize (s_val0 i Hi Hr). cbn in s_val0. injection s_val0; auto. Qed.

Lemma case_cond c a b : expr_lemma c -> expr_lemma a -> expr_lemma b -> expr_lemma (ECond c a b).
Proof.
  intros IHc IHa IHb u st Hc Hok G. apply ok_split in Hok. destruct Hok as (O1 & O2 & O3). sm. bools.
  repeat (first [apply code_at_app in Hc; let H := fresh "K" in destruct Hc as [H Hc]
                |apply code_at_cons in Hc; let H := fresh "K" in destruct Hc as [H Hc]]).
  set (st1 := mk (S (pc st)) (stk st) (rs st) (fun _ => false) (saved st) (running st) (mem st)).
  destruct (IHc u st1) as (st2 & cc & E2 & Hrel); auto using ok_join.
  pose proof (fun i => esim_val _ _ _ _ i E2) as V2. destruct E2. cbn in s_pc0, s_stk0, s_rs0, s_saved0, s_running0.
  change (mem st1) with (mem st) in *. change (rs st1) with (rs st) in *. change (cs st1) with (fun _ : nat => false) in *.
  set (val := fun i => snd (ev c (view (mem st) i))).
  set (st3 := next st2 (dup uni (mem st2) cc :: cc :: stk st)).
  destruct (sget_sim st3 (dup uni (mem st2) cc) val) as (cs4 & S1 & S2 & S3).
  { cbn. rewrite s_rs0, s_running0. apply G. }
  { cbn. rewrite s_rs0. intros. rewrite rd_dup. apply V2; auto. }
  cbn in S2, S3. rewrite s_rs0 in S2, S3.
  assert (Hcs : forall i, i < n -> cs4 i = rs st i && tob (val i)).
  { intros i Hi. destruct (rs st i) eqn:Er; cbn; auto. rewrite S3; auto. }
  set (st6 := mk (S (S (S (S (pc st2))))) (cc :: stk st) cs4 cs4 (rs st :: saved st) (any cs4) (mem st2)).
  assert (T6 : steps st st6).
  { eapply steps_step; [exact K|reflexivity|]. fold st1. eapply steps_trans; [exact s_steps0|].
    eapply steps_step; [rewrite s_pc0; exact K1| |]. { cbn. rewrite s_stk0. reflexivity. } fold st3.
    eapply steps_step; [cbn; rewrite s_pc0; exact K2| |].
    { unfold st3 in *. cbn in *. rewrite S1. cbn. reflexivity. }
    eapply steps_step; [cbn; rewrite s_pc0; exact K3|reflexivity|].
    eapply steps_one; [cbn; rewrite s_pc0; exact K4|]. cbn. unfold set_rs, st6. cbn.
    rewrite s_rs0, s_saved0. reflexivity. }
  assert (Huni : u && ucls uni c = true -> forall i j, i < n -> j < n -> tob (val i) = tob (val j)).
  { intros Hu i j _ _. apply andb_true_iff in Hu. destruct Hu as [_ Hu]. f_equal. unfold val.
    destruct (proj1 (euni tob ofb fn uni) c u (view (mem st) i) (view (mem st) j)) as [_ X]; auto using view_agree. }
  assert (G6 : good (u && ucls uni c) st6).
  { split; [reflexivity|]. cbn. intros Hu. destruct G as [_ G2].
    apply all_or_none_and with (r := rs st) (b := fun i => tob (val i)); [exact Hcs|exact (Huni Hu)|].
    apply G2. apply andb_true_iff in Hu; tauto. }
  destruct (IHa (u && ucls uni c) st6) as (st7 & ca & E7 & _); auto using ok_join.
  { cbn. rewrite s_pc0. replace (S (S (S (S (S (pc st) + length (cexpr c)))))) with
      (S (S (S (S (S (pc st) + length (cexpr c)))))) by lia. exact K5. }
  pose proof (fun i => esim_val _ _ _ _ i E7) as V7.
  destruct E7. cbn in s_pc1, s_stk1, s_rs1, s_saved1, s_running1, s_cs1, s_env1, s_off1, V7.
  set (rs8 := fun i => negb (cs4 i) && rs st i).
  set (st8 := mk (S (pc st7)) (ca :: cc :: stk st) rs8 (cs st7) (rs st :: saved st) (any rs8) (mem st7)).
  assert (T8 : steps st7 st8).
  { eapply steps_one; [rewrite s_pc1, s_pc0; exact K6|]. cbn. unfold set_rs, st8, rs8. rewrite s_saved1, s_rs1, s_stk1.
    reflexivity. }
  assert (G8 : good (u && ucls uni c) st8).
  { split; [reflexivity|]. cbn. intros Hu. destruct G as [_ G2].
    eapply all_or_none_and with (r := rs st) (b := fun i => negb (tob (val i))).
    - intros i Hi. unfold rs8. rewrite Hcs by auto. destruct (rs st i), (tob (val i)); auto.
    - intros i j Hi Hj. f_equal. auto.
    - apply G2. apply andb_true_iff in Hu; tauto. }
  destruct (IHb (u && ucls uni c) st8) as (st9 & cb & E9 & _); auto using ok_join.
  { cbn. rewrite s_pc1, s_pc0. exact K7. }
  pose proof (fun i => esim_val _ _ _ _ i E9) as V9.
  destruct E9. cbn in s_pc2, s_stk2, s_rs2, s_saved2, s_running2, s_cs2, s_env2, s_off2, V9.
  set (merged := CVar (fun i => if running st then match rd (mem st9) cc i with
         | Some v => if tob v then rd (mem st9) ca i else rd (mem st9) cb i | None => None end else None)).
  exists (mk (S (S (pc st9))) (merged :: stk st) (rs st) (cs st9) (saved st) (running st) (mem st9)), merged.
  split; [|discriminate].
  assert (HV : forall i, i < n -> rs st i = true -> rd (mem st9) cc i = Some (val i)).
  { intros i Hi Hr. rewrite (cell_nil (mem st2) (mem st9)) by auto. apply V2; auto. }
  assert (HE : forall i, i < n -> rs st i = true -> forall x, view (mem st2) i x = fst (ev c (view (mem st) i)) x) by auto.
  constructor; cbn; auto.
  - eapply steps_trans; [exact T6|]. eapply steps_trans; [exact s_steps1|]. eapply steps_trans; [exact T8|].
    eapply steps_trans; [exact s_steps2|].
    eapply steps_step; [rewrite s_pc2, s_pc1, s_pc0; exact K8| |].
    { cbn. rewrite s_saved2. reflexivity. }
    eapply steps_one; [cbn; rewrite s_pc2, s_pc1, s_pc0; exact K9|].
    cbn. unfold merged. destruct G as [G1 _]. rewrite s_stk2, G1. reflexivity.
  - rewrite s_pc2, s_pc1, s_pc0. sm. repeat (rewrite app_length; cbn). fold (@cexpr V). lia.
  - intros i Hi Hr Hf. apply s_cs2; auto.
    + unfold rs8. rewrite Hr. apply andb_false_r.
    + apply s_cs1; auto; rewrite Hcs, Hr; auto.
  - intros i Hi Hr. rewrite (good_run u st i) by auto. rewrite HV by auto. f_equal.
    destruct (ev_ext tob ofb fn a (view (mem st2) i) (fst (ev c (view (mem st) i)))) as [Xa _]; auto.
    sm. unfold val in *. specialize (Hcs i Hi). rewrite Hr in Hcs. cbn in Hcs.
    destruct (ev c (view (mem st) i)) as [s1 v] eqn:Ee. cbn in *.
    destruct (tob v) eqn:Et.
    + rewrite (rd_view (mem st7) (mem st9)).
      * rewrite V7; auto. rewrite Xa. reflexivity.
      * apply s_off2; auto. unfold rs8. rewrite Hcs. auto.
    + rewrite V9; auto; [|unfold rs8; rewrite Hcs, Hr; auto].
      destruct (ev_ext tob ofb fn b (view (mem st7) i) s1) as [Xb _].
      { intros x. rewrite s_off1 by auto. rewrite HE by auto. rewrite Ee. auto. }
      rewrite Xb. reflexivity.
  - intros i Hi Hr x. sm. unfold val in *. specialize (Hcs i Hi). rewrite Hr in Hcs. cbn in Hcs.
    specialize (HE i Hi Hr).
    destruct (ev c (view (mem st) i)) as [s1 v] eqn:Ee. cbn in *.
    destruct (tob v) eqn:Et.
    + rewrite s_off2; auto; [|unfold rs8; rewrite Hcs; auto]. rewrite s_env1 by auto. apply ev_ext. auto.
    + rewrite s_env2; auto; [|unfold rs8; rewrite Hcs, Hr; auto]. apply ev_ext.
      intros y. rewrite s_off1 by auto. auto.
  - intros i Hi Hr x. rewrite s_off2; auto; [|unfold rs8; rewrite Hr; apply andb_false_r].
    rewrite s_off1; auto. rewrite Hcs, Hr by auto. auto.
  - constructor; cbn; auto.
  - intros x i Hx. sm. rewrite !in_app_iff in Hx. cbn in *. rewrite s_frame2, s_frame1, s_frame0; auto.
Qed.

Lemma case_nil : args_lemma ANil.
Proof.
  intros u st _ _ _ _ G. exists st, []. split; [|auto]. constructor; cbn; auto. constructor.
Qed.

Lemma case_cons e l : expr_lemma e -> args_lemma l -> args_lemma (ACons e l).
Proof.
  intros IHe IHl u st Hc O1 O2 O3 G. sm. bools.
  apply code_at_app in Hc. destruct Hc as [Hc1 Hc2].
  destruct (IHl u st) as (st1 & cl & [] & Hlen); auto.
  destruct (IHe u st1) as (st2 & c & E2 & _); auto using ok_join.
  { rewrite s_pc0; auto. } { eapply good_next; eauto. }
  pose proof (fun i => esim_val _ _ _ _ i E2) as V2. destruct E2.
  rewrite s_rs0 in *. rewrite s_saved0 in *. rewrite s_running0 in *. rewrite s_stk0 in *. rewrite s_pc0 in *.
  exists st2, (c :: cl). split; [|cbn; auto].
  assert (Eext : forall i, i < n -> rs st i = true ->
    snd (ev e (view (mem st1) i)) = snd (ev e (fst (evl l (view (mem st) i)))) /\
    forall x, fst (ev e (view (mem st1) i)) x = fst (ev e (fst (evl l (view (mem st) i)))) x).
  { intros i Hi' Hr. apply ev_ext. auto. }
  assert (Sw : forall i, _) by (intros i; apply (swap tob ofb fn e l (view (mem st) i)); eassumption).
  constructor; cbn; auto.
  - eapply steps_trans; eauto.
  - rewrite s_pc1. sm. rewrite app_length. lia.
  - intros i Hi Hr. rewrite V2 by auto. destruct (Eext i Hi Hr) as [-> _].
    destruct (Sw i) as (A1 & A2 & A3). rewrite A1. sm.
    assert (Q : map (fun c0 => rd (mem st2) c0 i) cl = map (fun c0 => rd (mem st1) c0 i) cl).
    { apply map_ext_in. intros c0 Hc0. rewrite Forall_forall in s_reads0. eapply rd_same; [apply s_reads0; auto|].
      intros x Hx. unfold ShaderModel.rdv. rewrite s_frame1; auto.
      intro Hs. eapply disjoint_spec; [|exact Hs|]; [eassumption|]. apply in_or_app; auto. }
    rewrite Q, s_val0 by auto. rewrite <- A2.
    destruct (ev e (view (mem st) i)) as [s1 v]. cbn. fold (@ShaderSpec.evl V tob ofb fn).
    destruct (evl l s1) as [s2 vs]. reflexivity.
  - intros i Hi Hr x. rewrite s_env1 by auto. destruct (Eext i Hi Hr) as [_ ->].
    destruct (Sw i) as (A1 & A2 & A3). rewrite A3. sm.
    destruct (ev e (view (mem st) i)) as [s1 v]. cbn. fold (@ShaderSpec.evl V tob ofb fn).
    destruct (evl l s1) as [s2 vs]. reflexivity.
  - intros i Hi Hr x. rewrite s_off1; auto.
  - sm. constructor.
    + inversion s_reads1; subst. destruct c; cbn in *; auto. apply in_or_app; auto.
    + eapply Forall_impl; [|exact s_reads0]. intros c0. destruct c0; cbn; auto. intros. apply in_or_app; auto.
  - intros x i Hx. sm. rewrite in_app_iff in Hx. rewrite s_frame1, s_frame0; auto.
Qed.

Lemma expr_sim : (forall e, expr_lemma e) /\ (forall l, args_lemma l).
Proof.
  apply expr_args_ind; intros; auto using case_const, case_var, case_call, case_logic, case_assign, case_cond, case_nil,
    case_cons.
Qed.

(** An expression statement: the value of an assignment is not kept. *)
Record simS (len : nat) (st st' : state) (env' : nat -> env) : Prop := {
  t_steps : steps st st';
  t_pc : pc st' = pc st + len;
  t_stk : stk st' = stk st;
  t_rs : rs st' = rs st;
  t_saved : saved st' = saved st;
  t_running : running st' = running st;
  t_cs : forall i, i < n -> rs st i = false -> cs st i = false -> cs st' i = false;
  t_env : forall i, i < n -> rs st i = true -> forall x, view (mem st') i x = env' i x;
  t_off : forall i, i < n -> rs st i = false -> forall x, view (mem st') i x = view (mem st) i x
}.

Lemma nodup_sim e u st :
  code_at (pc st) (cnodup e) -> is_assign e = true -> expr_ok uni u e = true -> good u st ->
  exists st', simS (length (cnodup e)) st st' (fun i => fst (ev e (view (mem st) i))).
Proof.
  destruct e; try discriminate. intros Hc _ Hok G.
  apply ok_split in Hok. destruct Hok as (O1 & O2 & O3). sm. bools.
  apply code_at_app in Hc. destruct Hc as [Hc1 Hc2]. apply code_at_cons in Hc2. destruct Hc2 as [Hi1 _].
  destruct (proj1 expr_sim e u st Hc1) as (st1 & c & E & _); auto using ok_join.
  pose proof (fun i => esim_val _ _ _ _ i E) as Hv. destruct E.
  destruct (setvar_sim u x st1 c (fun i => snd (ev e (view (mem st) i)))) as (m & M1 & M2 & M3 & M4).
  - eapply good_next; [| |exact G]; cbn; auto.
  - intros Hx. rewrite Hx in H0. cbn in H0. bools. auto.
  - intros Hx i j Hi Hj. rewrite Hx in H0. cbn in H0. bools. eapply euni; eauto. apply view_agree.
  - rewrite s_rs0. auto.
  - rewrite s_rs0 in M2, M3.
    exists (mk (S (pc st1)) (stk st) (rs st) (cs st1) (saved st) (running st) m).
    constructor; cbn; auto.
    + eapply steps_trans; [exact s_steps0|]. eapply steps_one; [rewrite s_pc0; exact Hi1|].
      cbn. rewrite s_stk0. cbn. rewrite M1. congruence.
    + rewrite s_pc0, app_length. sm. lia.
    + intros i Hi Hr y. rewrite M2 by auto. specialize (s_env0 i Hi Hr). sm.
      destruct (ev e (view (mem st) i)) as [s1 v] eqn:Ee. cbn in *. unfold upd. destruct (y =? x); auto.
    + intros i Hi Hr y. rewrite M3 by auto. auto.
Qed.

End Sim.

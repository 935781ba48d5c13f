From Coq Require Import List Bool Arith ZArith Lia.
From Verif Require Import ArchiveModel ArchiveSpec.
Import ListNotations.

Lemma same_refl n : same_name n n = true.
Proof. unfold same_name. destruct (list_eq_dec Z.eq_dec n n); congruence. Qed.
Lemma same_eq n m : same_name n m = true -> n = m.
Proof. unfold same_name. destruct (list_eq_dec Z.eq_dec n m); congruence. Qed.
Lemma same_sym n m : same_name n m = same_name m n.
Proof. unfold same_name. destruct (list_eq_dec Z.eq_dec n m), (list_eq_dec Z.eq_dec m n); congruence. Qed.

Section Items.
  Variable R C : Type.
  Local Notation item := (item R C).
  Variable P : item -> Prop.
  Hypothesis HPlain : forall r, P (Plain R C r).
  Hypothesis HComment : forall r, P (Comment R C r).
  Hypothesis HArchive : forall n b, Forall P b -> P (Archive R C n b).
  Hypothesis HRead : forall n, P (Read R C n).
  Hypothesis HObject : forall n b, Forall P b -> P (Object R C n b).
  Hypothesis HInstance : forall n, P (Instance R C n).
  Hypothesis HCond : forall c b m l, Forall P b -> Forall (fun p => Forall P (snd p)) m -> (forall e, l = Some e -> Forall P e) -> P (Cond R C c b m l).
  Fixpoint item_ind' (i : item) : P i :=
    let items := fix items (l : list item) : Forall P l :=
      match l with [] => Forall_nil _ | a :: r => Forall_cons a (item_ind' a) (items r) end in
    match i with
    | Plain _ _ r => HPlain r
    | Comment _ _ r => HComment r
    | Archive _ _ n b => HArchive n b (items b)
    | Read _ _ n => HRead n
    | Object _ _ n b => HObject n b (items b)
    | Instance _ _ n => HInstance n
    | Cond _ _ c b m l =>
        HCond c b m l (items b)
          ((fix clauses (m : list (C * list item)) : Forall (fun p => Forall P (snd p)) m :=
              match m with [] => Forall_nil _ | p :: r => Forall_cons p (items (snd p)) (clauses r) end) m)
          (match l return (forall e, l = Some e -> Forall P e) with
           | None => fun e E => match E in _ = y return match y with Some _ => Forall P e | None => True end with eq_refl => I end
           | Some x => fun e E => match E in _ = y return match y with Some z => Forall P z | None => True end with eq_refl => items x end
           end)
    end.
  Lemma items_ind l : Forall P l.
  Proof. induction l; constructor; auto using item_ind'. Qed.
End Items.

Section Filter.
  Variable R C : Type.
  Local Notation request := (request R C).
  Local Notation effect := (effect R C).
  Local Notation state := (state R C).
  Local Notation item := (item R C).
  Variable f : list effect -> C -> bool.
  Local Notation handle := (handle R C (Some f)).
  Local Notation run := (run R C (Some f)).
  Local Notation flat := (flat R C).
  Local Notation bare := (bare R C).
  Local Notation archives := (archives R C). Local Notation objects := (objects R C).
  Local Notation cur := (cur R C). Local Notation nested := (nested R C). Local Notation in_object := (in_object R C).
  Local Notation if_stack := (if_stack R C). Local Notation found := (found R C). Local Notation inactive := (inactive R C).
  Local Notation out := (out R C).
  Local Notation set_if := (set_if R C).
  Local Notation record := (record R C).

  (** Runs of the model without fuel. *)
  Inductive exec : list cached -> list request -> state -> state -> Prop :=
  | ex_nil live s : exec live [] s s
  | ex_go live q r s s1 s' : handle live q s = Go R C s1 -> exec live r s1 s' -> exec live (q :: r) s s'
  | ex_replay live q r s w l s1 s2 s' : handle live q s = Replay R C w l s1 -> exec (w :: live) l s1 s2 -> exec live r s2 s' -> exec live (q :: r) s s'.

  Lemma exec_app live a b s s1 s' : exec live a s s1 -> exec live b s1 s' -> exec live (a ++ b) s s'.
  Proof. induction 1; intros H2; cbn [app]; [exact H2|eapply ex_go; eauto|eapply ex_replay; eauto]. Qed.
  Lemma exec_one live q s s' : handle live q s = Go R C s' -> exec live [q] s s'.
  Proof. intros H. eapply ex_go; [exact H|apply ex_nil]. Qed.

  Lemma exec_cons live q r s s1 s' : exec live [q] s s1 -> exec live r s1 s' -> exec live (q :: r) s s'.
  Proof. intros A B. change (q :: r) with ([q] ++ r). eapply exec_app; eauto. Qed.

  Lemma exec_run live qs s s' : exec live qs s s' -> exists k, forall k', (k <= k')%nat -> run k' live qs s = Done R C s'.
  Proof.
    induction 1 as [live s|live q r s s1 s' H _ [k IH]|live q r s w l s1 s2 s' H _ [k1 IH1] _ [k2 IH2]].
    - exists 1%nat. intros k' L. destruct k'; [lia|]. reflexivity.
    - exists (S k). intros k' L. destruct k' as [|k']; [lia|]. cbn [ArchiveModel.run]. rewrite H. apply IH. lia.
    - exists (S (k1 + k2)). intros k' L. destruct k' as [|k']; [lia|]. cbn [ArchiveModel.run]. rewrite H, IH1 by lia. apply IH2. lia.
  Qed.

  Lemma set_if_eq s : set_if s (if_stack s) (found s) (inactive s) = s.
  Proof. destruct s. reflexivity. Qed.

  Lemma flat_cons i l : flat (i :: l) = flat_item R C i ++ flat l.
  Proof. reflexivity. Qed.
  Lemma exec_each live (l : list item) s : Forall (fun i => exec live (flat_item R C i) s s) l -> exec live (flat l) s s.
  Proof. induction 1; [apply ex_nil|]. rewrite flat_cons. eapply exec_app; eauto. Qed.

  (** * Inactive conditionals *)
  Lemma skip_item live i : forall s, cur s = None -> inactive s = true -> exec live (flat_item R C i) s s.
  Proof.
    induction i as [r|r|n b IH|n|n b IH|n|c b m l IHb IHm IHl] using item_ind'; intros s Cu In.
    - apply exec_one. cbn [ArchiveModel.handle]. rewrite In. reflexivity.
    - apply exec_one. cbn [ArchiveModel.handle]. rewrite In. reflexivity.
    - cbn [flat_item]. eapply ex_go; [cbn [ArchiveModel.handle]; rewrite In; reflexivity|]. eapply exec_app; [apply exec_each|].
      + eapply Forall_impl; [|exact IH]. intros a A. apply A; auto.
      + apply exec_one. cbn [ArchiveModel.handle]. rewrite In. reflexivity.
    - apply exec_one. cbn [ArchiveModel.handle]. rewrite In. reflexivity.
    - cbn [flat_item]. eapply ex_go; [cbn [ArchiveModel.handle]; rewrite In; reflexivity|]. eapply exec_app; [apply exec_each|].
      + eapply Forall_impl; [|exact IH]. intros a A. apply A; auto.
      + apply exec_one. cbn [ArchiveModel.handle]. rewrite In. reflexivity.
    - apply exec_one. cbn [ArchiveModel.handle]. rewrite In. reflexivity.
    - cbn [flat_item]. set (s1 := set_if s (true :: if_stack s) (found s) true).
      eapply ex_go with (s1 := s1). { cbn [ArchiveModel.handle]. rewrite Cu, In. reflexivity. }
      assert (A : forall b, Forall (fun i => forall s, cur s = None -> inactive s = true -> exec live (flat_item R C i) s s) b -> exec live (flat b) s1 s1).
      { intros b0 H. apply exec_each. eapply Forall_impl; [|exact H]. intros a X. apply X; [exact Cu|reflexivity]. }
      eapply exec_app; [apply A; exact IHb|]. eapply exec_app.
      { instantiate (1 := s1). clear IHb IHl. induction IHm as [|p m Hp Hm IH]; [apply ex_nil|]. cbn [flat_map]. eapply exec_app; [|exact IH].
        eapply ex_go with (s1 := s1); [cbn [ArchiveModel.handle]; unfold s1; cbn; rewrite Cu; reflexivity|]. apply A. exact Hp. }
      eapply exec_app with (s1 := s1).
      { destruct l as [e|]; [|apply ex_nil].
        eapply ex_go with (s1 := s1); [cbn [ArchiveModel.handle]; unfold s1; cbn; rewrite Cu; reflexivity|]. apply A. apply IHl. reflexivity. }
      apply exec_one. cbn [ArchiveModel.handle]. unfold s1. cbn. rewrite Cu. f_equal. destruct s. cbn in *. subst. reflexivity.
  Qed.
  Lemma skip live (l : list item) s : cur s = None -> inactive s = true -> exec live (flat l) s s.
  Proof. intros A B. apply exec_each. apply Forall_forall. intros i _. apply skip_item; auto. Qed.

  (** * Recording *)
  Definition records (c : cached) (l : list request) (s : state) : state := fold_left (fun s q => record c q s) l s.
  Lemma records_app c a b s : records c (a ++ b) s = records c b (records c a s).
  Proof. apply fold_left_app. Qed.
  Lemma records_cons c q l s : records c (q :: l) s = records c l (records c [q] s).
  Proof. reflexivity. Qed.
  Lemma records_same c l s : cur (records c l s) = cur s /\ nested (records c l s) = nested s /\ in_object (records c l s) = in_object s /\
    if_stack (records c l s) = if_stack s /\ found (records c l s) = found s /\ inactive (records c l s) = inactive s /\ out (records c l s) = out s.
  Proof.
    revert s. induction l as [|q l IH]; intros s; [auto 10|]. cbn [records fold_left]. fold (records c l (record c q s)).
    destruct (IH (record c q s)) as (A & B & D & E & F & G & H). rewrite A, B, D, E, F, G, H. destruct c; cbn; auto 10.
  Qed.
  Lemma records_nested c l s n : records c l (set_nested R C s n) = set_nested R C (records c l s) n.
  Proof.
    revert s. induction l as [|q l IH]; intros s; [reflexivity|]. cbn [records fold_left].
    fold (records c l (record c q (set_nested R C s n))). fold (records c l (record c q s)).
    rewrite <- IH. f_equal. destruct c; reflexivity.
  Qed.

  Lemma flat_bare_cons i l : flat (bare (i :: l)) = flat (bare_item R C i) ++ flat (bare l).
  Proof. unfold bare, flat. cbn [flat_map]. apply flat_map_app. Qed.

  Definition recorded (live : list cached) (i : item) : Prop := forall c s, cur s = Some c -> inactive s = false ->
    (in_object s = true -> objectless_item R C i = true) -> exec live (flat_item R C i) s (records c (flat (bare_item R C i)) s).
  Lemma record_each live l : Forall (recorded live) l -> forall c s, cur s = Some c -> inactive s = false ->
    (in_object s = true -> forallb (objectless_item R C) l = true) -> exec live (flat l) s (records c (flat (bare l)) s).
  Proof.
    induction 1 as [|i l Hi _ IH]; intros c s Cu In O; [apply ex_nil|]. rewrite flat_cons, flat_bare_cons, records_app.
    destruct (records_same c (flat (bare_item R C i)) s) as (A & B & D & E & F & G & H).
    assert (O' : in_object s = true -> objectless_item R C i = true /\ forallb (objectless_item R C) l = true).
    { intros X. specialize (O X). cbn [forallb] in O. apply andb_true_iff in O. exact O. }
    eapply exec_app; [apply (Hi c s Cu In); intros X; apply O'; exact X|].
    apply IH; [congruence|congruence|]. rewrite D. intros X. apply O'; exact X.
  Qed.

  Lemma record_one live q c s r : cur s = Some c -> inactive s = false ->
    (forall r, q <> RRecord R C r) -> (forall n, q <> RArchiveBegin R C n) -> q <> RArchiveEnd R C ->
    (q <> RObjectEnd R C \/ in_object s = false) -> r = [q] ->
    exec live [q] s (records c r s).
  Proof.
    intros Cu In N1 N2 N3 N4 ->. apply exec_one. cbn [records fold_left]. destruct q; cbn [ArchiveModel.handle]; rewrite ?Cu, ?In; try reflexivity.
    - destruct (N1 r eq_refl).
    - destruct (N2 n eq_refl).
    - congruence.
    - destruct N4 as [N4|N4]; [congruence|]. rewrite N4. reflexivity.
  Qed.

  Lemma record_item live i : recorded live i.
  Proof.
    induction i as [r|r|n b IH|n|n b IH|n|c b m l IHb IHm IHl] using item_ind'; intros k s Cu In O.
    - apply record_one; auto; try discriminate. left; discriminate.
    - apply exec_one. cbn [ArchiveModel.handle]. rewrite In, Cu. reflexivity.
    - cbn [flat_item bare_item]. fold (flat b). fold (bare b). cbn [ArchiveSpec.flat flat_map flat_item]. fold (flat (bare b)).
      rewrite app_nil_r. change (RArchiveBegin R C n :: flat (bare b) ++ [RArchiveEnd R C]) with ([RArchiveBegin R C n] ++ flat (bare b) ++ [RArchiveEnd R C]).
      rewrite !records_app. set (s1 := records k [RArchiveBegin R C n] s).
      destruct (records_same k [RArchiveBegin R C n] s) as (A & B & D & E & F & G & H). fold s1 in A, B, D, E, F, G, H.
      eapply ex_go with (s1 := set_nested R C s1 (S (nested s))).
      { cbn [ArchiveModel.handle]. rewrite In, Cu. unfold s1. rewrite <- records_nested. reflexivity. }
      eapply exec_app.
      { apply (record_each live b IH k).
        - change (cur s1 = Some k). congruence.
        - change (inactive s1 = false). congruence.
        - change (in_object s1 = true -> forallb (objectless_item R C) b = true). rewrite D. exact O. }
      rewrite records_nested. set (s2 := records k (flat (bare b)) s1).
      destruct (records_same k (flat (bare b)) s1) as (A2 & B2 & D2 & E2 & F2 & G2 & H2). fold s2 in A2, B2, D2, E2, F2, G2, H2.
      apply exec_one. cbn [ArchiveModel.handle]. cbn. rewrite G2, G, In, A2, A, Cu. f_equal.
      assert (N : nested s = nested s2) by congruence. rewrite N. clearbody s2. destruct s2, k; reflexivity.
    - apply record_one; auto; try discriminate. left; discriminate.
    - assert (NO : in_object s = false) by (destruct (in_object s); [discriminate (O eq_refl)|reflexivity]).
      cbn [flat_item bare_item]. fold (flat b). fold (bare b). cbn [ArchiveSpec.flat flat_map flat_item]. fold (flat (bare b)).
      rewrite app_nil_r. change (RObjectBegin R C n :: flat (bare b) ++ [RObjectEnd R C]) with ([RObjectBegin R C n] ++ flat (bare b) ++ [RObjectEnd R C]).
      change (RObjectBegin R C n :: flat b ++ [RObjectEnd R C]) with ([RObjectBegin R C n] ++ flat b ++ [RObjectEnd R C]).
      rewrite !records_app. set (s1 := records k [RObjectBegin R C n] s).
      destruct (records_same k [RObjectBegin R C n] s) as (A & B & D & E & F & G & H). fold s1 in A, B, D, E, F, G, H.
      set (s2 := records k (flat (bare b)) s1).
      destruct (records_same k (flat (bare b)) s1) as (A2 & B2 & D2 & E2 & F2 & G2 & H2). fold s2 in A2, B2, D2, E2, F2, G2, H2.
      eapply exec_app; [apply (record_one live _ k); auto; try discriminate; left; discriminate|]. fold s1.
      eapply exec_app; [apply (record_each live b IH k); try congruence|]. fold s2.
      apply record_one; auto; try discriminate; try congruence. right. congruence.
    - apply record_one; auto; try discriminate. left; discriminate.
    - cbn [flat_item bare_item ArchiveSpec.flat flat_map]. fold (flat b). fold (bare b). rewrite app_nil_r. cbn [flat_item]. fold (flat (bare b)).
      assert (One : forall q s, (cur s = Some k /\ inactive s = false) -> (forall c, q = RIfBegin R C c \/ q = RElseIf R C c \/ q = RElse R C \/ q = RIfEnd R C -> exec live [q] s (records k [q] s))).
      { intros q s0 [A B] c0 Q. apply record_one; auto; destruct Q as [->|[->|[->| ->]]]; try discriminate; left; discriminate. }
      assert (All : forall b s, Forall (recorded live) b -> cur s = Some k -> inactive s = false ->
        (in_object s = true -> forallb (objectless_item R C) b = true) -> exec live (flat b) s (records k (flat (bare b)) s)).
      { intros b0 s0 H0 A B O0. apply record_each; auto. }
      assert (Keep : forall l s, cur s = Some k -> inactive s = false -> cur (records k l s) = Some k /\ inactive (records k l s) = false /\ in_object (records k l s) = in_object s).
      { intros l0 s0 A B. destruct (records_same k l0 s0) as (X1 & X2 & X3 & X4 & X5 & X6 & X7). repeat split; congruence. }
      assert (O1 : in_object s = true -> forallb (objectless_item R C) b = true /\ forallb (fun p => forallb (objectless_item R C) (snd p)) m = true /\
        match l with Some e => forallb (objectless_item R C) e | None => true end = true).
      { intros X. specialize (O X). cbn [objectless_item] in O. apply andb_true_iff in O as [O O3]. apply andb_true_iff in O as [O1 O2]. auto. }
      rewrite records_cons, !records_app.
      destruct (Keep [RIfBegin R C c] s Cu In) as (K1 & K2 & K3). set (s1 := records k [RIfBegin R C c] s) in *.
      eapply exec_cons; [apply (One _ s (conj Cu In) c); auto|]. fold s1.
      eapply exec_app; [apply All; auto; intros X; rewrite K3 in X; apply O1; exact X|].
      destruct (Keep (flat (bare b)) s1 K1 K2) as (K4 & K5 & K6). set (s2 := records k (flat (bare b)) s1) in *.
      assert (M : exec live (flat_map (fun p => RElseIf R C (fst p) :: flat (snd p)) m) s2
          (records k (flat_map (fun p => RElseIf R C (fst p) :: flat (snd p)) (map (fun p => (fst p, bare (snd p))) m)) s2)).
      { assert (O2 : in_object s2 = true -> forallb (fun p => forallb (objectless_item R C) (snd p)) m = true)
          by (intros X; rewrite K6, K3 in X; apply O1; exact X).
        clear - One All Keep IHm K4 K5 O2. revert K4 K5 O2. generalize s2 as t. induction IHm as [|p m Hp Hm IH]; intros t K4 K5 O2; [apply ex_nil|].
        cbn [flat_map map fst snd app]. rewrite records_cons, records_app.
        eapply exec_cons; [apply (One _ t (conj K4 K5) (fst p)); auto|].
        destruct (Keep [RElseIf R C (fst p)] t K4 K5) as (J1 & J2 & J3). set (t1 := records k [RElseIf R C (fst p)] t) in *.
        eapply exec_app; [apply All; auto|].
        { intros X. rewrite J3 in X. specialize (O2 X). cbn [forallb] in O2. apply andb_true_iff in O2. tauto. }
        destruct (Keep (flat (bare (snd p))) t1 J1 J2) as (J4 & J5 & J6). apply IH; auto.
        intros X. rewrite J6, J3 in X. specialize (O2 X). cbn [forallb] in O2. apply andb_true_iff in O2. tauto. }
      eapply exec_app; [exact M|]. fold (flat (bare b)).
      destruct (Keep _ s2 K4 K5 : cur (records k (flat_map (fun p => RElseIf R C (fst p) :: flat (snd p)) (map (fun p => (fst p, bare (snd p))) m)) s2) = _ /\ _) as (K7 & K8 & K9).
      set (s3 := records k (flat_map (fun p => RElseIf R C (fst p) :: flat (snd p)) (map (fun p => (fst p, bare (snd p))) m)) s2) in *.
      destruct l as [e|]; cbn [option_map].
      + cbn [app]. rewrite records_cons.
        eapply exec_cons; [apply (One _ s3 (conj K7 K8) c); auto|].
        destruct (Keep [RElse R C] s3 K7 K8) as (J1 & J2 & J3). set (s4 := records k [RElse R C] s3) in *.
        eapply exec_app; [apply All; auto; intros X; rewrite J3, K9, K6, K3 in X; apply O1; exact X|].
        destruct (Keep (flat (bare e)) s4 J1 J2) as (J4 & J5 & J6). apply (One _ _ (conj J4 J5) c). auto.
      + cbn [app]. change (records k [] s3) with s3. apply (One _ s3 (conj K7 K8) c). auto.
  Qed.
  Lemma record_items live l c s : cur s = Some c -> inactive s = false ->
    (in_object s = true -> forallb (objectless_item R C) l = true) -> exec live (flat l) s (records c (flat (bare l)) s).
  Proof. intros. apply record_each; auto. apply Forall_forall. intros i _. apply record_item. Qed.

  (** * The tables *)
  Local Notation find := (find R C).
  Lemma find_fresh n m c : find m (fresh R C n c) = if same_name m n then Some [] else find m c.
  Proof.
    induction c as [|[k l] c IH]; cbn [fresh ArchiveModel.find].
    - rewrite (same_sym n m). reflexivity.
    - destruct (same_name k n) eqn:E; cbn [ArchiveModel.find].
      + apply same_eq in E. subst k. rewrite (same_sym n m). destruct (same_name m n); reflexivity.
      + rewrite IH. destruct (same_name k m) eqn:E2; [|reflexivity]. apply same_eq in E2. subst k. rewrite E. reflexivity.
  Qed.
  Lemma find_append n q m c : find m (append R C n q c) = if same_name m n then option_map (fun l => l ++ [q]) (find m c) else find m c.
  Proof.
    induction c as [|[k l] c IH]; cbn [append ArchiveModel.find].
    - destruct (same_name m n); reflexivity.
    - destruct (same_name k n) eqn:E; cbn [ArchiveModel.find].
      + apply same_eq in E. subst k. rewrite (same_sym n m). destruct (same_name m n); reflexivity.
      + rewrite IH. destruct (same_name k m) eqn:E2; [|reflexivity]. apply same_eq in E2. subst k. rewrite E. reflexivity.
  Qed.
  Lemma records_arch n l s m : find m (archives (records (InArchives n) l s)) =
    (if same_name m n then option_map (fun x => x ++ l) (find m (archives s)) else find m (archives s)) /\ objects (records (InArchives n) l s) = objects s.
  Proof.
    revert s. induction l as [|q l IH]; intros s.
    - cbn. destruct (same_name m n), (find m (archives s)); cbn; rewrite ?app_nil_r; auto.
    - cbn [records fold_left]. fold (records (InArchives n) l (record (InArchives n) q s)). destruct (IH (record (InArchives n) q s)) as [A B].
      rewrite A, B. cbn. rewrite find_append. split; [|reflexivity]. destruct (same_name m n), (find m (archives s)); cbn; rewrite <- ?app_assoc; reflexivity.
  Qed.
  Lemma records_obj n l s m : find m (objects (records (InObjects n) l s)) =
    (if same_name m n then option_map (fun x => x ++ l) (find m (objects s)) else find m (objects s)) /\ archives (records (InObjects n) l s) = archives s.
  Proof.
    revert s. induction l as [|q l IH]; intros s.
    - cbn. destruct (same_name m n), (find m (objects s)); cbn; rewrite ?app_nil_r; auto.
    - cbn [records fold_left]. fold (records (InObjects n) l (record (InObjects n) q s)). destruct (IH (record (InObjects n) q s)) as [A B].
      rewrite A, B. cbn. rewrite find_append. split; [|reflexivity]. destruct (same_name m n), (find m (objects s)); cbn; rewrite <- ?app_assoc; reflexivity.
  Qed.
  Lemma not_live c live : ~ In c live -> is_live c live = false.
  Proof.
    intros H. unfold is_live. destruct (existsb _ live) eqn:E; [|reflexivity]. exfalso. apply existsb_exists in E as (d & I & D).
    destruct c, d; try discriminate; apply same_eq in D; subst; auto.
  Qed.

  (** * Stripping comments keeps the restrictions *)
  Lemma forallb_flat_map {A B} (g : A -> list B) (p : B -> bool) l : forallb p (flat_map g l) = forallb (fun a => forallb p (g a)) l.
  Proof. induction l; cbn; [reflexivity|]. rewrite forallb_app, IHl. reflexivity. Qed.
  Lemma forallb_map {A B} (g : A -> B) (p : B -> bool) l : forallb p (map g l) = forallb (fun a => p (g a)) l.
  Proof. induction l; cbn; congruence. Qed.
  Definition keeps (p : item -> bool) (i : item) : Prop := p i = true -> forallb p (bare_item R C i) = true.
  Lemma keeps_all p l : Forall (keeps p) l -> forallb p l = true -> forallb p (bare l) = true.
  Proof.
    intros H E. unfold bare. rewrite forallb_flat_map. apply forallb_forall. intros i I.
    rewrite Forall_forall in H. rewrite forallb_forall in E. apply H; auto.
  Qed.
  Lemma keeps_clauses p (m : list (C * list item)) : Forall (fun q => Forall (keeps p) (snd q)) m ->
    forallb (fun q => forallb p (snd q)) m = true -> forallb (fun q => forallb p (snd q)) (map (fun q => (fst q, bare (snd q))) m) = true.
  Proof.
    intros H E. rewrite forallb_map. apply forallb_forall. intros i I. cbn. rewrite Forall_forall in H. rewrite forallb_forall in E.
    apply keeps_all; auto.
  Qed.
  Lemma keeps_last p (l : option (list item)) : (forall e, l = Some e -> Forall (keeps p) e) ->
    match l with Some e => forallb p e | None => true end = true -> match option_map bare l with Some e => forallb p e | None => true end = true.
  Proof. intros H E. destruct l as [e|]; cbn; auto. apply keeps_all; auto. Qed.

  Lemma keeps_objectless i : keeps (objectless_item R C) i.
  Proof.
    induction i as [r|r|n b IH|n|n b IH|n|c b m l IHb IHm IHl] using item_ind'; intros H; try (cbn in *; reflexivity); try discriminate.
    - cbn [bare_item forallb objectless_item]. rewrite andb_true_r. apply keeps_all; auto.
    - cbn [objectless_item] in H. apply andb_true_iff in H as [H H3]. apply andb_true_iff in H as [H1 H2].
      cbn [bare_item forallb objectless_item]. rewrite andb_true_r.
      apply andb_true_iff; split; [apply andb_true_iff; split|]; [apply keeps_all|apply keeps_clauses|apply keeps_last]; auto.
  Qed.
  Lemma keeps_legal i : keeps (legal_item R C) i.
  Proof.
    induction i as [r|r|n b IH|n|n b IH|n|c b m l IHb IHm IHl] using item_ind'; intros H; try (cbn in *; reflexivity).
    - cbn [bare_item forallb legal_item]. rewrite andb_true_r. apply keeps_all; auto.
    - cbn [bare_item forallb legal_item]. rewrite andb_true_r. apply keeps_all; auto. apply Forall_forall. intros i _. apply keeps_objectless.
    - cbn [legal_item] in H. apply andb_true_iff in H as [H H3]. apply andb_true_iff in H as [H1 H2].
      cbn [bare_item forallb legal_item]. rewrite andb_true_r.
      apply andb_true_iff; split; [apply andb_true_iff; split|]; [apply keeps_all|apply keeps_clauses|apply keeps_last]; auto.
  Qed.
  Lemma direct_bare l : direct R C l = true -> direct R C (bare l) = true.
  Proof.
    intros H. apply keeps_all; [|exact H]. apply Forall_forall. intros i _ D. destruct i; try discriminate; reflexivity.
  Qed.
  Lemma removelast_map {A B} (g : A -> B) l : removelast (map g l) = map g (removelast l).
  Proof. induction l as [|a l IH]; [reflexivity|]. cbn [map]. destruct l; [reflexivity|]. cbn [map removelast] in *. rewrite IH. reflexivity. Qed.
  Lemma keeps_plain i : keeps (plain_item R C) i.
  Proof.
    induction i as [r|r|n b IH|n|n b IH|n|c b m l IHb IHm IHl] using item_ind'; intros H; try (cbn in *; reflexivity).
    - cbn [bare_item forallb plain_item]. rewrite andb_true_r. apply keeps_all; auto.
    - cbn [bare_item forallb plain_item]. rewrite andb_true_r. apply keeps_all; auto.
    - cbn [plain_item] in H. apply andb_true_iff in H as [H H4]. apply andb_true_iff in H as [H H3]. apply andb_true_iff in H as [H1 H2].
      cbn [bare_item forallb plain_item]. rewrite andb_true_r.
      apply andb_true_iff; split; [apply andb_true_iff; split; [apply andb_true_iff; split|]|]; [apply keeps_all|apply keeps_clauses|apply keeps_last|]; auto.
      assert (E : bare b :: map snd (map (fun p => (fst p, bare (snd p))) m) = map bare (b :: map snd m)) by (cbn [map]; rewrite !map_map; reflexivity).
      assert (F : forall x, forallb (direct R C) x = true -> forallb (direct R C) (map bare x) = true).
      { intros x X. rewrite forallb_map. rewrite forallb_forall in *. intros y Y. apply direct_bare, X, Y. }
      cbv zeta in *. destruct l; cbn [option_map].
      + change (forallb (direct R C) (bare b :: map snd (map (fun p => (fst p, bare (snd p))) m)) = true). rewrite E. apply F; exact H4.
      + change (forallb (direct R C) (removelast (bare b :: map snd (map (fun p => (fst p, bare (snd p))) m))) = true).
        rewrite E, removelast_map. apply F; exact H4.
  Qed.

  (** * The main invariant *)
  Definition good_body (b : list item) : Prop := legal R C b = true /\ plain R C b = true.
  Definition good_env (e : env R C) : Prop := (forall n b, arch R C e n = Some b -> good_body b) /\ (forall n b, obj R C e n = Some b -> good_body b).
  Definition rep (s : state) (e : env R C) : Prop :=
    (forall n, find n (archives s) = option_map flat (arch R C e n)) /\ (forall n, find n (objects s) = option_map flat (obj R C e n)).
  Definition idle (s : state) (e : env R C) (o : list effect) : Prop :=
    rep s e /\ good_env e /\ out s = o /\ cur s = None /\ nested s = 0%nat /\ in_object s = false.
  Lemma good_bare b : good_body b -> good_body (bare b).
  Proof.
    intros [A B]. split; (apply keeps_all; [|assumption]); apply Forall_forall; intros i _; [apply keeps_legal|apply keeps_plain].
  Qed.
  Lemma objectless_legal b : forallb (objectless_item R C) b = true -> legal R C b = true.
  Proof.
    assert (K : forall i, objectless_item R C i = true -> legal_item R C i = true).
    { intros i. induction i as [r|r|n b0 IH|n|n b0 IH|n|c b0 m l IHb IHm IHl] using item_ind'; intros H; try (cbn in *; reflexivity); try discriminate.
      - cbn [objectless_item legal_item] in *. rewrite forallb_forall in *. rewrite Forall_forall in IH. auto.
      - cbn [objectless_item legal_item] in *. apply andb_true_iff in H as [H H3]. apply andb_true_iff in H as [H1 H2].
        apply andb_true_iff; split; [apply andb_true_iff; split|].
        + rewrite forallb_forall in *. rewrite Forall_forall in IHb. auto.
        + rewrite forallb_forall in *. rewrite Forall_forall in IHm. intros p P. specialize (IHm p P). specialize (H2 p P).
          rewrite forallb_forall in *. rewrite Forall_forall in IHm. auto.
        + destruct l as [e|]; [|reflexivity]. specialize (IHl e eq_refl). rewrite forallb_forall in *. rewrite Forall_forall in IHl. auto. }
    intros H. unfold legal. rewrite forallb_forall in *. auto.
  Qed.
  Lemma idle_set_if s e o st x y : idle s e o -> idle (set_if s st x y) e o.
  Proof. intros H. exact H. Qed.

  (** A true clause: the rest of the clauses is skipped. *)
  Lemma rest_skipped live (m : list (C * list item)) : forall s stk, cur s = None -> if_stack s = false :: stk -> found s = true ->
    exists y, exec live (flat_map (fun p => RElseIf R C (fst p) :: flat (snd p)) m) s (set_if s (false :: stk) true y).
  Proof.
    induction m as [|p m IH]; intros s stk Cu St Fo.
    - exists (inactive s). rewrite <- St, <- Fo, set_if_eq. apply ex_nil.
    - cbn [flat_map app]. set (s1 := set_if s (false :: stk) true true). destruct (IH s1 stk Cu eq_refl eq_refl) as [y Y]. exists y.
      eapply ex_go with (s1 := s1). { cbn [ArchiveModel.handle]. rewrite Cu, St, Fo. reflexivity. }
      eapply exec_app; [apply skip; [exact Cu|reflexivity]|exact Y].
  Qed.
  Definition last_of (l : option (list item)) : list request := match l with Some e => RElse R C :: flat e | None => [] end.
  Lemma rest_end live m l s stk : cur s = None -> if_stack s = false :: stk -> (found s = true \/ (m = [] /\ l = None)) ->
    exists x, exec live (flat_map (fun p => RElseIf R C (fst p) :: flat (snd p)) m ++ last_of l ++ [RIfEnd R C]) s (set_if s stk x false).
  Proof.
    intros Cu St [Fo|[-> ->]].
    - exists true. destruct (rest_skipped live m s stk Cu St Fo) as [y Y]. eapply exec_app; [exact Y|]. destruct l as [e|]; cbn [last_of app].
      + eapply ex_go with (s1 := set_if s (false :: stk) true true). { cbn [ArchiveModel.handle]. cbn. rewrite Cu. reflexivity. }
        eapply exec_app; [apply skip; [exact Cu|reflexivity]|]. apply exec_one. cbn [ArchiveModel.handle]. cbn. rewrite Cu. reflexivity.
      + apply exec_one. cbn [ArchiveModel.handle]. cbn. rewrite Cu. reflexivity.
    - exists (found s). apply exec_one. cbn [ArchiveModel.handle]. cbn. rewrite Cu, St. reflexivity.
  Qed.

  (** What is known of a clause: started with the stack and the flag given, it
      ends idle with the stack unchanged. *)
  Definition clause_ok (live : list cached) (e : env R C) (o : list effect) (b : list item) (e' : env R C) (o' : list effect) : Prop :=
    forall s, idle s e o -> inactive s = false -> exists s', exec live (flat b) s s' /\ idle s' e' o' /\ inactive s' = false /\
      if_stack s' = if_stack s /\ (direct R C b = true -> found s' = found s).

  Definition unfollowed (m : list (C * list item)) (l : option (list item)) : bool :=
    match m, l with [], None => true | _, _ => false end.
  (** Clauses but the last have to be direct. *)
  Fixpoint fine (m : list (C * list item)) (l : option (list item)) : Prop :=
    match m with
    | [] => True
    | p :: r => (direct R C (snd p) = true \/ unfollowed r l = true) /\ fine r l
    end.

  Lemma true_clause live e o b e' o' m l s stk : clause_ok live e o b e' o' -> (direct R C b = true \/ unfollowed m l = true) ->
    idle s e o -> inactive s = false -> found s = true -> if_stack s = false :: stk ->
    exists s', exec live (flat b ++ flat_map (fun p => RElseIf R C (fst p) :: flat (snd p)) m ++ last_of l ++ [RIfEnd R C]) s s' /\
      idle s' e' o' /\ inactive s' = false /\ if_stack s' = stk.
  Proof.
    intros K D I Ia Fo St. destruct (K s I Ia) as (s2 & X & I2 & Ia2 & St2 & F2).
    assert (Cu2 : cur s2 = None) by apply I2.
    destruct (rest_end live m l s2 stk Cu2) as [x E].
    - congruence.
    - destruct D as [D|D]; [left; rewrite F2; auto|right]. destruct m, l; try discriminate; auto.
    - exists (set_if s2 stk x false). split; [eapply exec_app; eauto|]. split; [exact I2|auto].
  Qed.

  Lemma false_clauses live e o e' o' m l : fine m l -> clause_ok live e o (choose R C (f o) m l) e' o' ->
    forall s stk, idle s e o -> inactive s = true -> found s = false -> if_stack s = false :: stk ->
    exists s', exec live (flat_map (fun p => RElseIf R C (fst p) :: flat (snd p)) m ++ last_of l ++ [RIfEnd R C]) s s' /\
      idle s' e' o' /\ inactive s' = false /\ if_stack s' = stk.
  Proof.
    induction m as [|[c b] m IH]; intros Fi K s stk I Ia Fo St; assert (Cu : cur s = None) by apply I; assert (Ou : out s = o) by apply I.
    - cbn [flat_map app]. destruct l as [el|]; cbn [last_of app choose] in *.
      + destruct (K (set_if s (false :: stk) false false) (idle_set_if _ _ _ _ _ _ I) eq_refl) as (s2 & X & I2 & Ia2 & St2 & F2).
        assert (Cu2 : cur s2 = None) by apply I2. cbn in St2.
        exists (set_if s2 stk (found s2) false). split; [|split; [exact I2|auto]].
        eapply ex_go; [cbn [ArchiveModel.handle]; rewrite Cu, St, Fo; reflexivity|].
        eapply exec_app; [exact X|]. apply exec_one. cbn [ArchiveModel.handle]. rewrite Cu2, St2. reflexivity.
      + destruct (K (set_if s (false :: stk) false false) (idle_set_if _ _ _ _ _ _ I) eq_refl) as (s2 & X & I2 & Ia2 & St2 & F2).
        inversion X; subst. exists (set_if s stk (found s) false). split; [|split; [|split; reflexivity]].
        * apply exec_one. cbn [ArchiveModel.handle]. rewrite Cu, St. reflexivity.
        * exact I2.
    - cbn [flat_map app fst snd]. cbn [choose] in K. destruct Fi as [D Fi]. cbn [snd] in D.
      destruct (f o c) eqn:E.
      + destruct (true_clause live e o b e' o' m l (set_if s (false :: stk) true false) stk K D) as (s' & X & Y); try reflexivity; [exact I|].
        exists s'. split; [|exact Y]. eapply ex_go; [cbn [ArchiveModel.handle]; rewrite Cu, St, Fo, Ou, E; reflexivity|]. rewrite <- app_assoc. exact X.
      + destruct (IH Fi K (set_if s (false :: stk) false true) stk I eq_refl eq_refl eq_refl) as (s' & X & Y).
        exists s'. split; [|exact Y]. eapply ex_go; [cbn [ArchiveModel.handle]; rewrite Cu, St, Fo, Ou, E; reflexivity|]. rewrite <- app_assoc.
        eapply exec_app; [apply skip; [exact Cu|reflexivity]|exact X].
  Qed.
  Lemma fine_plain c b m l : forallb (direct R C) (let all := b :: map snd m in match l with Some _ => all | None => removelast all end) = true -> fine ((c, b) :: m) l.
  Proof.
    cbv zeta. revert c b. induction m as [|[c' b'] m IH]; intros c b H.
    - destruct l; cbn in *; [|auto]. rewrite andb_true_r in H. auto.
    - assert (H' : direct R C b = true /\ forallb (direct R C) (match l with Some _ => b' :: map snd m | None => removelast (b' :: map snd m) end) = true).
      { destruct l; cbn [map snd removelast forallb] in H |- *; apply andb_true_iff in H; exact H. }
      destruct H' as [H1 H2]. split; [left; exact H1|]. apply (IH c' b' H2).
  Qed.
  Lemma good_choose o c b m l : good_body [Cond R C c b m l] -> good_body (choose R C o ((c, b) :: m) l).
  Proof.
    intros [A B]. unfold legal, plain in A, B. cbn [forallb legal_item plain_item] in A, B. rewrite andb_true_r in A, B.
    apply andb_true_iff in A as [A A3]. apply andb_true_iff in A as [A1 A2].
    apply andb_true_iff in B as [B B4]. apply andb_true_iff in B as [B B3]. apply andb_true_iff in B as [B1 B2]. clear B4.
    assert (G : good_body (choose R C o m l)).
    { induction m as [|[c' b'] m IH]; cbn [choose].
      - destruct l; [|split; reflexivity]. split; assumption.
      - cbn [forallb snd] in A2, B2. apply andb_true_iff in A2 as [A2 A2']. apply andb_true_iff in B2 as [B2 B2'].
        destruct (o c'); [split; assumption|]. apply IH; assumption. }
    cbn [choose]. destruct (o c); [split; assumption|exact G].
  Qed.
  Lemma good_cons i l : good_body (i :: l) -> good_body [i] /\ good_body l.
  Proof.
    intros [A B]. unfold legal, plain in A, B. cbn [forallb] in A, B. apply andb_true_iff in A as [A A'], B as [B B'].
    unfold good_body, legal, plain. cbn [forallb]. rewrite !andb_true_r. auto.
  Qed.

  Theorem runs_exec live e o is e' o' : runs R C f live e o is e' o' -> good_body is -> clause_ok live e o is e' o'.
  Proof.
    induction 1 as [live e o|live e o r is e' o' _ IH|live e o r is e' o' _ IH|live e o n b is e' o' NL _ IH|live e o n b is e' o' NL _ IH
      |live e o n b e1 o1 is e' o' A _ IH1 _ IH2|live e o n is e' o' A _ IH|live e o n b e1 o1 is e' o' A _ IH1 _ IH2|live e o n is e' o' A _ IH
      |live e o c b m l e1 o1 is e' o' _ IH1 _ IH2]; intros G s I Ia;
      assert (I0 := I); destruct I0 as ([Ra Ro] & [Ga Go] & Ou & Cu & Ne & Io);
      try (apply good_cons in G as [G1 G]).
    - exists s. split; [apply ex_nil|]. auto.
    - destruct (IH G (emit R C s (Passed R C (RPlain R C r)))) as (s' & X & I' & Ia' & St & Fo).
      { split; [split; [exact Ra|exact Ro]|split; [split; [exact Ga|exact Go]|cbn; rewrite Ou; auto]]. } { exact Ia. }
      exists s'. split; [|split; [exact I'|split; [exact Ia'|split; [exact St|]]]].
      + eapply ex_go; [|exact X]. cbn [ArchiveModel.handle]. rewrite Ia, Cu. reflexivity.
      + exact Fo.
    - destruct (IH G (emit R C s (Passed R C (RRecord R C r)))) as (s' & X & I' & Ia' & St & Fo).
      { split; [split; [exact Ra|exact Ro]|split; [split; [exact Ga|exact Go]|cbn; rewrite Ou; auto]]. } { exact Ia. }
      exists s'. split; [|split; [exact I'|split; [exact Ia'|split; [exact St|]]]].
      + eapply ex_go; [|exact X]. cbn [ArchiveModel.handle]. rewrite Ia, Cu. reflexivity.
      + exact Fo.
    - set (s1 := set_cur R C (set_archives R C s (fresh R C n (archives s))) (Some (InArchives n))).
      set (s2 := records (InArchives n) (flat (bare b)) s1).
      destruct (records_same (InArchives n) (flat (bare b)) s1) as (X1 & X2 & X3 & X4 & X5 & X6 & X7). fold s2 in X1, X2, X3, X4, X5, X6, X7.
      cbn in X1, X2, X3, X4, X5, X6, X7.
      assert (Gb : good_body (bare b)). { apply good_bare. destruct G1 as [P Q]. unfold legal, plain in P, Q. cbn in P, Q. rewrite andb_true_r in P, Q. split; assumption. }
      destruct (IH G (set_cur R C s2 None)) as (s' & X & I' & Ia' & St & Fo).
      { split; [split|split; [split|]].
        - intros k. cbn. unfold s2. rewrite (proj1 (records_arch n _ s1 k)). unfold s1. cbn. rewrite find_fresh. unfold set.
          destruct (same_name k n); cbn; auto.
        - intros k. cbn. unfold s2. rewrite (proj2 (records_arch n _ s1 k)). unfold s1. cbn. apply Ro.
        - intros k b0. cbn. unfold set. destruct (same_name k n); [|apply Ga]. intros Q. injection Q as <-. exact Gb.
        - intros k b0. cbn. apply Go.
        - cbn. rewrite X2, X3, X7. auto. }
      { cbn. congruence. }
      exists s'. cbn in St, Fo. split; [|split; [exact I'|split; [exact Ia'|split; [congruence|]]]].
      + rewrite flat_cons. cbn [flat_item app]. eapply ex_go with (s1 := s1).
        { cbn [ArchiveModel.handle]. rewrite Ia, Cu, (not_live _ _ NL). reflexivity. }
        rewrite <- app_assoc. eapply exec_app.
        { apply (record_items live b (InArchives n) s1); [reflexivity|exact Ia|]. unfold s1. cbn. rewrite Io. discriminate. }
        fold s2. eapply ex_go; [|exact X]. cbn [ArchiveModel.handle]. rewrite X6, Ia, X1, X2, Ne. reflexivity.
      + intros D. rewrite Fo by exact D. exact X5.
    - set (s1 := set_in_object R C (set_cur R C (set_objects R C s (fresh R C n (objects s))) (Some (InObjects n))) true).
      set (s2 := records (InObjects n) (flat (bare b)) s1).
      destruct (records_same (InObjects n) (flat (bare b)) s1) as (X1 & X2 & X3 & X4 & X5 & X6 & X7). fold s2 in X1, X2, X3, X4, X5, X6, X7.
      cbn in X1, X2, X3, X4, X5, X6, X7.
      assert (Ob : forallb (objectless_item R C) b = true). { destruct G1 as [P _]. unfold legal in P. cbn in P. rewrite andb_true_r in P. exact P. }
      assert (Gb : good_body (bare b)). { apply good_bare. split; [apply objectless_legal; exact Ob|]. destruct G1 as [_ Q]. unfold plain in Q. cbn in Q. rewrite andb_true_r in Q. exact Q. }
      destruct (IH G (set_cur R C (set_in_object R C s2 false) None)) as (s' & X & I' & Ia' & St & Fo).
      { split; [split|split; [split|]].
        - intros k. cbn. unfold s2. rewrite (proj2 (records_obj n _ s1 k)). unfold s1. cbn. apply Ra.
        - intros k. cbn. unfold s2. rewrite (proj1 (records_obj n _ s1 k)). unfold s1. cbn. rewrite find_fresh. unfold set.
          destruct (same_name k n); cbn; auto.
        - intros k b0. cbn. apply Ga.
        - intros k b0. cbn. unfold set. destruct (same_name k n); [|apply Go]. intros Q. injection Q as <-. exact Gb.
        - cbn. rewrite X2, X7. auto. }
      { cbn. congruence. }
      exists s'. cbn in St, Fo. split; [|split; [exact I'|split; [exact Ia'|split; [congruence|]]]].
      + rewrite flat_cons. cbn [flat_item app]. eapply ex_go with (s1 := s1).
        { cbn [ArchiveModel.handle]. rewrite Ia, Cu, (not_live _ _ NL). reflexivity. }
        rewrite <- app_assoc. eapply exec_app.
        { apply (record_items live b (InObjects n) s1); [reflexivity|exact Ia|]. intros _. exact Ob. }
        fold s2. eapply ex_go; [|exact X]. cbn [ArchiveModel.handle]. rewrite X6, Ia, X1, X3. reflexivity.
      + intros D. rewrite Fo by exact D. exact X5.
    - destruct (IH1 (Ga _ _ A) s I Ia) as (s1 & X1 & I1 & Ia1 & St1 & Fo1).
      destruct (IH2 G s1 I1 Ia1) as (s' & X & I' & Ia' & St & Fo).
      exists s'. split; [|split; [exact I'|split; [exact Ia'|split; [congruence|discriminate]]]].
      rewrite flat_cons. cbn [flat_item app]. eapply ex_replay; [|exact X1|exact X].
      cbn [ArchiveModel.handle]. rewrite Ia, Cu, Ra, A. reflexivity.
    - destruct (IH G (emit R C s (Passed R C (RReadArchive R C n)))) as (s' & X & I' & Ia' & St & Fo).
      { split; [split; [exact Ra|exact Ro]|split; [split; [exact Ga|exact Go]|cbn; rewrite Ou; auto]]. } { exact Ia. }
      exists s'. split; [|split; [exact I'|split; [exact Ia'|split; [exact St|discriminate]]]].
      eapply ex_go; [|exact X]. cbn [ArchiveModel.handle]. rewrite Ia, Cu, Ra, A. reflexivity.
    - destruct (IH1 (Go _ _ A) s I Ia) as (s1 & X1 & I1 & Ia1 & St1 & Fo1).
      destruct (IH2 G s1 I1 Ia1) as (s' & X & I' & Ia' & St & Fo).
      exists s'. split; [|split; [exact I'|split; [exact Ia'|split; [congruence|discriminate]]]].
      rewrite flat_cons. cbn [flat_item app]. eapply ex_replay; [|exact X1|exact X].
      cbn [ArchiveModel.handle]. rewrite Ia, Cu, Ro, A. reflexivity.
    - destruct (IH G (emit R C s (BadObject R C n))) as (s' & X & I' & Ia' & St & Fo).
      { split; [split; [exact Ra|exact Ro]|split; [split; [exact Ga|exact Go]|cbn; rewrite Ou; auto]]. } { exact Ia. }
      exists s'. split; [|split; [exact I'|split; [exact Ia'|split; [exact St|discriminate]]]].
      eapply ex_go; [|exact X]. cbn [ArchiveModel.handle]. rewrite Ia, Cu, Ro, A. reflexivity.
    - assert (K := IH1 (good_choose _ _ _ _ _ G1)).
      assert (Fi : fine ((c, b) :: m) l).
      { destruct G1 as [_ Q]. unfold plain in Q. cbn [forallb plain_item] in Q. rewrite andb_true_r in Q. apply andb_true_iff in Q as [_ Q]. apply fine_plain. exact Q. }
      assert (J : exists s', exec live (flat_item R C (Cond R C c b m l)) s s' /\ idle s' e1 o1 /\ inactive s' = false /\ if_stack s' = if_stack s).
      { cbn [flat_item]. cbn [choose] in K. destruct Fi as [D Fi]. cbn [snd] in D. destruct (f o c) eqn:E.
        - destruct (true_clause live e o b e1 o1 m l (set_if s (false :: if_stack s) true false) (if_stack s) K D) as (s' & X & Y); try reflexivity; [exact I|].
          exists s'. split; [|exact Y]. eapply ex_go; [cbn [ArchiveModel.handle]; rewrite Cu, Ia, Ou, E; reflexivity|]. exact X.
        - destruct (false_clauses live e o e1 o1 m l Fi K (set_if s (false :: if_stack s) false true) (if_stack s) I eq_refl eq_refl eq_refl) as (s' & X & Y).
          exists s'. split; [|exact Y]. eapply ex_go; [cbn [ArchiveModel.handle]; rewrite Cu, Ia, Ou, E; reflexivity|].
          eapply exec_app; [apply skip; [exact Cu|reflexivity]|exact X]. }
      destruct J as (s1 & X1 & I1 & Ia1 & St1). destruct (IH2 G s1 I1 Ia1) as (s' & X & I' & Ia' & St & Fo).
      exists s'. split; [|split; [exact I'|split; [exact Ia'|split; [congruence|discriminate]]]].
      rewrite flat_cons. eapply exec_app; eauto.
  Qed.

  (** * Whole streams *)
  Theorem stream_runs is e o : legal R C is = true -> plain R C is = true -> runs R C f [] (no_env R C) [] is e o ->
    exists k, forall k', (k <= k')%nat -> exists s, run k' [] (flat is) (new_state R C) = Done R C s /\ out s = o.
  Proof.
    intros L P H. destruct (runs_exec _ _ _ _ _ _ H (conj L P) (new_state R C)) as (s & X & I & _).
    - repeat split; intros; discriminate.
    - reflexivity.
    - destruct (exec_run _ _ _ _ X) as [k K]. exists k. intros k' G. exists s. split; [auto|apply I].
  Qed.

  Theorem runs_det live e o is e1 o1 : runs R C f live e o is e1 o1 -> forall e2 o2, runs R C f live e o is e2 o2 -> e2 = e1 /\ o2 = o1.
  Proof.
    induction 1; intros e2 o2 Q; inversion Q; subst; auto;
      repeat match goal with
      | A : arch R C _ _ = Some _, B : arch R C _ _ = _ |- _ => rewrite A in B; injection B as <- || discriminate
      | A : obj R C _ _ = Some _, B : obj R C _ _ = _ |- _ => rewrite A in B; injection B as <- || discriminate
      end; try congruence;
      match goal with
      | IH1 : forall a b, runs R C f ?l ?e ?o ?is a b -> _, A : runs R C f ?l ?e ?o ?is ?x ?y,
        IH2 : forall a b, runs R C f _ _ _ _ a b -> _ |- _ => destruct (IH1 _ _ A); subst; auto
      end.
  Qed.

  Lemma runs_app live e o a e1 o1 b e2 o2 : runs R C f live e o a e1 o1 -> runs R C f live e1 o1 b e2 o2 -> runs R C f live e o (a ++ b) e2 o2.
  Proof. induction 1; intros; cbn [app]; eauto using runs. Qed.

  Lemma eval_choose c b m l o : eval_item R C f (Cond R C c b m l) o = evals R C f (choose R C (f o) ((c, b) :: m) l) o.
  Proof.
    cbn [eval_item choose]. destruct (f o c); [reflexivity|]. induction m as [|[c' b'] m IH]; cbn [choose].
    - destruct l; reflexivity.
    - destruct (f o c'); [reflexivity|exact IH].
  Qed.
  Lemma archiveless_choose g c b m l : archiveless R C [Cond R C c b m l] = true ->
    In (choose R C g ((c, b) :: m) l) (b :: map snd m ++ match l with Some e => [e] | None => [[]] end).
  Proof.
    intros _. cbn [choose]. destruct (g c); [left; reflexivity|right]. induction m as [|[c' b'] m IH]; cbn [choose map app snd].
    - destruct l; left; reflexivity.
    - destruct (g c'); [left; reflexivity|right; exact IH].
  Qed.
  Lemma eval_item_runs i : archiveless_item R C i = true -> forall live e o, runs R C f live e o [i] e (eval_item R C f i o).
  Proof.
    assert (Each : forall l, Forall (fun i => archiveless_item R C i = true -> forall live e o, runs R C f live e o [i] e (eval_item R C f i o)) l ->
      forallb (archiveless_item R C) l = true -> forall live e o, runs R C f live e o l e (evals R C f l o)).
    { induction 1 as [|a l Ha _ IH]; intros A live e o; [apply run_nil|]. cbn [forallb] in A. apply andb_true_iff in A as [A1 A2].
      cbn [evals]. change (a :: l) with ([a] ++ l). eapply runs_app; eauto. }
    induction i as [r|r|n b IH|n|n b IH|n|c b m l IHb IHm IHl] using item_ind'; intros A live e o; try discriminate.
    - apply run_plain, run_nil.
    - apply run_comment, run_nil.
    - rewrite eval_choose. eapply run_cond; [|apply run_nil].
      cbn [archiveless_item] in A. apply andb_true_iff in A as [A A3]. apply andb_true_iff in A as [A1 A2].
      cbn [choose]. destruct (f o c); [apply Each; auto|].
      clear IHb A1. induction m as [|[c' b'] m IH]; cbn [choose].
      + destruct l as [x|]; [apply Each; auto|apply run_nil].
      + cbn [forallb snd] in A2. apply andb_true_iff in A2 as [A2 A2']. inversion IHm; subst. destruct (f o c'); [apply Each; auto|apply IH; auto].
  Qed.
  Lemma evals_runs l : archiveless R C l = true -> forall live e o, runs R C f live e o l e (evals R C f l o).
  Proof.
    induction l as [|a l IH]; intros A live e o; [apply run_nil|]. unfold archiveless in A. cbn [forallb] in A. apply andb_true_iff in A as [A1 A2].
    cbn [evals]. change (a :: l) with ([a] ++ l). eapply runs_app; [apply eval_item_runs; exact A1|apply IH; exact A2].
  Qed.
  Lemma archiveless_legal l : archiveless R C l = true -> legal R C l = true.
  Proof.
    assert (K : forall i, archiveless_item R C i = true -> legal_item R C i = true).
    { intros i. induction i as [r|r|n b0 IH|n|n b0 IH|n|c b0 m x IHb IHm IHl] using item_ind'; intros H; try (cbn in *; reflexivity); try discriminate.
      cbn [archiveless_item legal_item] in *. apply andb_true_iff in H as [H H3]. apply andb_true_iff in H as [H1 H2].
      apply andb_true_iff; split; [apply andb_true_iff; split|].
      - rewrite forallb_forall in *. rewrite Forall_forall in IHb. auto.
      - rewrite forallb_forall in *. rewrite Forall_forall in IHm. intros p P. specialize (IHm p P). specialize (H2 p P).
        rewrite forallb_forall in *. rewrite Forall_forall in IHm. auto.
      - destruct x as [e|]; [|reflexivity]. specialize (IHl e eq_refl). rewrite forallb_forall in *. rewrite Forall_forall in IHl. auto. }
    intros H. unfold legal, archiveless in *. rewrite forallb_forall in *. auto.
  Qed.
  Theorem conditional_stream is : archiveless R C is = true -> plain R C is = true ->
    exists k, forall k', (k <= k')%nat -> exists s, run k' [] (flat is) (new_state R C) = Done R C s /\ out s = evals R C f is [].
  Proof.
    intros A P. apply (stream_runs is (no_env R C)); auto; [apply archiveless_legal; exact A|apply evals_runs; exact A].
  Qed.

  (** * Conversely, when the filter finishes the stream has a meaning *)
  Lemma run_more k : forall live qs s s', run k live qs s = Done R C s' -> forall k', (k <= k')%nat -> run k' live qs s = Done R C s'.
  Proof.
    induction k as [|k IH]; intros live qs s s' H k' L; [discriminate|]. destruct k' as [|k']; [lia|]. cbn [ArchiveModel.run] in *.
    destruct qs as [|q qs]; [exact H|]. destruct (handle live q s) as [s1|w l s1|]; [|..|discriminate].
    - apply IH; [exact H|lia].
    - destruct (run k (w :: live) l s1) eqn:E; try discriminate. rewrite (IH _ _ _ _ E) by lia. apply IH; [exact H|lia].
  Qed.
  Lemma run_exec_same k live qs s s' s1 : run k live qs s = Done R C s' -> exec live qs s s1 -> s' = s1.
  Proof.
    intros H X. destruct (exec_run _ _ _ _ X) as [k1 K]. pose proof (run_more _ _ _ _ _ H (k + k1)%nat ltac:(lia)) as A.
    rewrite K in A by lia. congruence.
  Qed.
  Lemma exec_prefix live a s s1 : exec live a s s1 -> forall rest k s', run k live (a ++ rest) s = Done R C s' ->
    exists k1, (k1 + length a <= k)%nat /\ run k1 live rest s1 = Done R C s'.
  Proof.
    induction 1 as [live s|live q r s s1 s2 H X IH|live q r s w l s1 s2 s3 H X1 _ X2 IH2]; intros rest k s' E.
    - exists k. split; [cbn; lia|exact E].
    - destruct k as [|k]; [discriminate|]. cbn [app ArchiveModel.run] in E. rewrite H in E. destruct (IH _ _ _ E) as (k1 & L & E1).
      exists k1. split; [cbn [length]; lia|exact E1].
    - destruct k as [|k]; [discriminate|]. cbn [app ArchiveModel.run] in E. rewrite H in E.
      destruct (run k (w :: live) l s1) eqn:E0; try discriminate. rewrite (run_exec_same _ _ _ _ _ _ E0 X1) in E.
      destruct (IH2 _ _ _ E) as (k1 & L & E1). exists k1. split; [cbn [length]; lia|exact E1].
  Qed.

  (** The clause chosen is reached. *)
  Lemma reach live e o m l : forall s stk, idle s e o -> inactive s = true -> found s = false -> if_stack s = false :: stk ->
    choose R C (f o) m l <> [] ->
    exists pre rest s0, flat_map (fun p => RElseIf R C (fst p) :: flat (snd p)) m ++ last_of l ++ [RIfEnd R C] = pre ++ flat (choose R C (f o) m l) ++ rest /\
      exec live pre s s0 /\ idle s0 e o /\ inactive s0 = false.
  Proof.
    induction m as [|[c b] m IH]; intros s stk I Ia Fo St N; assert (Cu : cur s = None) by apply I; assert (Ou : out s = o) by apply I.
    - cbn [flat_map app choose] in *. destruct l as [el|]; [|congruence]. cbn [last_of].
      exists [RElse R C], [RIfEnd R C], (set_if s (false :: stk) false false). split; [reflexivity|]. split; [|split; [exact I|reflexivity]].
      apply exec_one. cbn [ArchiveModel.handle]. rewrite Cu, St, Fo. reflexivity.
    - cbn [flat_map app fst snd choose] in *. destruct (f o c) eqn:E.
      + eexists [RElseIf R C c], _, (set_if s (false :: stk) true false). split; [cbn [app]; rewrite <- app_assoc; reflexivity|]. split; [|split; [exact I|reflexivity]].
        apply exec_one. cbn [ArchiveModel.handle]. rewrite Cu, St, Fo, Ou, E. reflexivity.
      + destruct (IH (set_if s (false :: stk) false true) stk I eq_refl eq_refl eq_refl N) as (pre & rest & s0 & Q & X & Y).
        exists (RElseIf R C c :: flat b ++ pre), rest, s0. split; [|split; [|exact Y]].
        * cbn [app]. rewrite <- !app_assoc. rewrite Q. reflexivity.
        * eapply ex_go; [cbn [ArchiveModel.handle]; rewrite Cu, St, Fo, Ou, E; reflexivity|]. eapply exec_app; [apply skip; [exact Cu|reflexivity]|exact X].
  Qed.

  Lemma done_runs : forall k live e o is rest s s', good_body is -> idle s e o -> inactive s = false ->
    run k live (flat is ++ rest) s = Done R C s' -> exists e1 o1, runs R C f live e o is e1 o1.
  Proof.
    induction k as [k IHk] using lt_wf_ind. intros live e o is rest s s' G I Ia H.
    destruct is as [|i is]; [exists e, o; apply run_nil|].
    assert (Gi := G). apply good_cons in Gi as [G1 G2].
    (* what is left after the first item has been dealt with *)
    assert (Next : forall e1 o1, runs R C f live e o [i] e1 o1 -> exists e2 o2, runs R C f live e o (i :: is) e2 o2).
    { intros e1 o1 P. destruct (runs_exec _ _ _ _ _ _ P G1 s I Ia) as (s1 & X & I1 & Ia1 & _ & _).
      rewrite flat_cons, <- app_assoc in H. unfold flat in X. cbn [flat_map] in X. rewrite app_nil_r in X.
      destruct (exec_prefix _ _ _ _ X _ _ _ H) as (k1 & L & E).
      assert (LL : (1 <= length (flat_item R C i))%nat) by (destruct i; cbn; lia).
      destruct (IHk k1 ltac:(lia) live e1 o1 is rest s1 s' G2 I1 Ia1 E) as (e2 & o2 & P2).
      exists e2, o2. change (i :: is) with ([i] ++ is). eapply runs_app; eauto. }
    assert (I0 := I). destruct I0 as ([Ra Ro] & [Ga Go] & Ou & Cu & Ne & Io).
    rewrite flat_cons, <- app_assoc in H. destruct k as [|k]; [discriminate|].
    destruct i as [r|r|n b|n|n b|n|c b m l].
    - eapply Next, run_plain, run_nil.
    - eapply Next, run_comment, run_nil.
    - eapply Next, run_archive; [|apply run_nil]. intros L. cbn [flat_item app ArchiveModel.run ArchiveModel.handle] in H. rewrite Ia, Cu in H.
      replace (is_live (InArchives n) live) with true in H; [discriminate|]. symmetry. apply existsb_exists. exists (InArchives n). split; [exact L|apply same_refl].
    - destruct (arch R C e n) as [b|] eqn:A; [|eapply Next, run_read_other; [exact A|apply run_nil]].
      cbn [flat_item app ArchiveModel.run ArchiveModel.handle] in H. rewrite Ia, Cu, Ra, A in H. cbn [option_map] in H.
      destruct (run k (InArchives n :: live) (flat b) s) eqn:E; try discriminate. rewrite <- (app_nil_r (flat b)) in E.
      destruct (IHk k ltac:(lia) _ e o b [] s _ (Ga _ _ A) I Ia E) as (e1 & o1 & P).
      eapply Next, run_read; [exact A|exact P|apply run_nil].
    - eapply Next, run_object; [|apply run_nil]. intros L. cbn [flat_item app ArchiveModel.run ArchiveModel.handle] in H. rewrite Ia, Cu in H.
      replace (is_live (InObjects n) live) with true in H; [discriminate|]. symmetry. apply existsb_exists. exists (InObjects n). split; [exact L|apply same_refl].
    - destruct (obj R C e n) as [b|] eqn:A; [|eapply Next, run_instance_other; [exact A|apply run_nil]].
      cbn [flat_item app ArchiveModel.run ArchiveModel.handle] in H. rewrite Ia, Cu, Ro, A in H. cbn [option_map] in H.
      destruct (run k (InObjects n :: live) (flat b) s) eqn:E; try discriminate. rewrite <- (app_nil_r (flat b)) in E.
      destruct (IHk k ltac:(lia) _ e o b [] s _ (Go _ _ A) I Ia E) as (e1 & o1 & P).
      eapply Next, run_instance; [exact A|exact P|apply run_nil].
    - assert (P : exists e1 o1, runs R C f live e o (choose R C (f o) ((c, b) :: m) l) e1 o1).
      { assert (Gc := good_choose (f o) _ _ _ _ G1). cbn [choose] in *. cbn [flat_item app ArchiveModel.run ArchiveModel.handle] in H. rewrite Cu, Ia, Ou in H.
        destruct (f o c) eqn:E.
        - rewrite <- app_assoc in H. refine (IHk k ltac:(lia) live e o b _ _ s' Gc _ _ H); [exact I|reflexivity].
        - destruct (choose R C (f o) m l) as [|i0 r0] eqn:Z; [exists e, o; apply run_nil|].
          set (s1 := set_if s (false :: if_stack s) false true).
          destruct (reach live e o m l s1 (if_stack s) I eq_refl eq_refl eq_refl) as (pre & rst & s0 & Q & X & I0 & Ia0); [congruence|].
          rewrite <- app_assoc in H. fold (last_of l) in H. rewrite <- app_assoc in H.
          change (set_if s (false :: if_stack s) false (negb false)) with s1 in H.
          destruct (exec_prefix live (flat b) s1 s1 (skip live b s1 Cu eq_refl) _ _ _ H) as (k1 & L1 & H1).
          change (run k1 live (flat_map (fun p => RElseIf R C (fst p) :: flat (snd p)) m ++ (last_of l ++ [RIfEnd R C]) ++ flat is ++ rest) s1 = Done R C s') in H1.
          rewrite app_assoc, Q, <- !app_assoc in H1.
          destruct (exec_prefix live pre s1 s0 X _ _ _ H1) as (k2 & L2 & H2). rewrite Z in H2.
          exact (IHk k2 ltac:(lia) live e o (i0 :: r0) _ s0 s' Gc I0 Ia0 H2). }
      destruct P as (e1 & o1 & P). eapply Next, run_cond; [exact P|apply run_nil].
  Qed.

  Theorem stream_done is k s : legal R C is = true -> plain R C is = true -> run k [] (flat is) (new_state R C) = Done R C s ->
    exists e, runs R C f [] (no_env R C) [] is e (out s).
  Proof.
    intros L P H. rewrite <- (app_nil_r (flat is)) in H.
    destruct (done_runs k [] (no_env R C) [] is [] (new_state R C) s (conj L P)) as (e & o & X); auto.
    - repeat split; intros; discriminate.
    - exists e. destruct (stream_runs _ _ _ L P X) as [k1 K]. destruct (K (k + k1)%nat ltac:(lia)) as (s1 & E & O).
      rewrite app_nil_r in H. rewrite (run_more _ _ _ _ _ H (k + k1)%nat ltac:(lia)) in E. injection E as <-. rewrite O. exact X.
  Qed.

  (** * Streams that go wrong *)
  Lemma self_read_loops n : forall k live s, cur s = None -> inactive s = false -> find n (archives s) = Some [RReadArchive R C n] ->
    run k live [RReadArchive R C n] s = OutOfFuel R C.
  Proof.
    induction k as [|k IH]; intros live s Cu In Fi; [reflexivity|]. cbn [ArchiveModel.run ArchiveModel.handle]. rewrite In, Cu, Fi.
    rewrite IH; auto.
  Qed.
  Theorem self_read_never_ends n k : run k [] (flat [Archive R C n [Read R C n]; Read R C n]) (new_state R C) = OutOfFuel R C.
  Proof.
    cbn [ArchiveSpec.flat flat_map flat_item app]. do 3 (destruct k as [|k]; [reflexivity|]).
    cbn [ArchiveModel.run ArchiveModel.handle]. cbn. rewrite same_refl. cbn. apply self_read_loops; try reflexivity. cbn. rewrite same_refl. reflexivity.
  Qed.
  Theorem self_redefinition_undefined n r k : (7 <= k)%nat ->
    run k [] (flat [Archive R C n [Archive R C n [Plain R C r]]; Read R C n]) (new_state R C) = Undefined R C.
  Proof.
    intros K. do 7 (destruct k as [|k]; [lia|]). cbn. repeat (rewrite same_refl; cbn). reflexivity.
  Qed.
  Theorem nested_conditional_runs_both c c' r1 r2 k : (forall o, f o c = true) -> (forall o, f o c' = false) -> (8 <= k)%nat ->
    exists s, run k [] (flat [Cond R C c [Cond R C c' [] [] None; Plain R C r1] [] (Some [Plain R C r2])]) (new_state R C) = Done R C s /\
      out s = [Passed R C (RPlain R C r1); Passed R C (RPlain R C r2)].
  Proof.
    intros T F K. do 8 (destruct k as [|k]; [lia|]). cbn. rewrite T. cbn. rewrite F. cbn. eexists. split; reflexivity.
  Qed.
  Theorem comments_not_replayed n r1 r2 k : (7 <= k)%nat ->
    exists s, run k [] (flat [Archive R C n [Comment R C r1; Plain R C r2]; Read R C n]) (new_state R C) = Done R C s /\
      out s = [Passed R C (RPlain R C r2)].
  Proof.
    intros K. do 7 (destruct k as [|k]; [lia|]). cbn. repeat (rewrite same_refl; cbn). eexists. split; reflexivity.
  Qed.
  Theorem unmatched_else_undefined k : (1 <= k)%nat -> run k [] [RElse R C] (new_state R C) = Undefined R C.
  Proof. intros K. destruct k as [|k]; [lia|]. reflexivity. Qed.
  Theorem nested_object_ends_early n r1 r2 k : (7 <= k)%nat ->
    exists s, run k [] (flat [Object R C n [Object R C n [Plain R C r1]; Plain R C r2]]) (new_state R C) = Done R C s /\
      out s = [Passed R C (RPlain R C r2)].
  Proof.
    intros K. do 7 (destruct k as [|k]; [lia|]). cbn. repeat (rewrite same_refl; cbn). eexists. split; reflexivity.
  Qed.
End Filter.

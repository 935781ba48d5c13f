(** Proofs: statements, at source level. *)
From Verif Require Import ShaderModel ShaderSpec ShaderProofs.

Section Source.
Context {V : Type}.
Variable tob : V -> bool.
Variable ofb : bool -> V.
Variable fn : nat -> list V -> V.
Notation ev := (ev tob ofb fn).
Notation eval := (eval tob ofb fn).
Notation inc_step := (inc_step tob ofb fn).
Notation env := (@env V).

Definition loop (f : nat) (c : expr V) (b : stmt V) (inc : option (expr V)) :=
  fix loop (k : nat) (s : env) : option (env * outcome) :=
    match k with
    | O => None
    | S k' =>
        let (s1, v) := ev c s in
        if tob v then
          match eval f b s1 with
          | None => None
          | Some (s2, Norm) | Some (s2, Cnt (S O)) => loop k' (inc_step inc s2)
          | Some (s2, Brk (S O)) => Some (s2, Norm)
          | Some (s2, Brk k) => Some (s2, Brk (pred k))
          | Some (s2, Cnt k) => Some (s2, Cnt (pred k))
          end
        else Some (s1, Norm)
    end.

Lemma eval_while f c b inc s : eval f (SWhile c b inc) s = loop f c b inc f s.
Proof. reflexivity. Qed.

(** Pointwise equal environments *)
Definition eqr (r r' : option (env * outcome)) : Prop :=
  match r, r' with
  | Some (s, o), Some (t, o') => o = o' /\ forall x, s x = t x
  | None, None => True
  | _, _ => False
  end.

Lemma inc_ext inc (s t : env) : (forall x, s x = t x) -> forall x, inc_step inc s x = inc_step inc t x.
Proof. destruct inc; simpl; auto. intros H. apply (ev_ext tob ofb fn e s t H). Qed.

Lemma loop_ext f c b inc :
  (forall s t, (forall x, s x = t x) -> eqr (eval f b s) (eval f b t)) ->
  forall k s t, (forall x, s x = t x) -> eqr (loop f c b inc k s) (loop f c b inc k t).
Proof.
  intros Hb. induction k; intros s t H; simpl; auto.
  destruct (ev_ext tob ofb fn c s t H) as [A B].
  destruct (ev c s) as [s1 v], (ev c t) as [t1 w]. simpl in A, B. subst w.
  destruct (tob v); [|simpl; auto].
  specialize (Hb s1 t1 B). destruct (eval f b s1) as [[s2 o]|], (eval f b t1) as [[t2 o']|]; simpl in Hb; try tauto.
  destruct Hb as [-> Hb]. destruct o' as [|[|[|j]]|[|[|j]]]; simpl; auto; apply IHk; apply inc_ext; auto.
Qed.

Lemma eval_ext p : forall f s t, (forall x, s x = t x) -> eqr (eval f p s) (eval f p t).
Proof.
  induction p; intros fu s t H; cbn [ShaderSpec.eval]; try (simpl; split; auto; apply ev_ext; auto; fail); try (simpl; auto; fail).
  - specialize (IHp1 fu s t H). destruct (eval fu p1 s) as [[s1 o]|], (eval fu p1 t) as [[t1 o']|]; simpl in IHp1; try tauto.
    destruct IHp1 as [-> B]. destruct o'; simpl; auto.
  - destruct (ev_ext tob ofb fn c s t H) as [A B].
    destruct (ev c s) as [s1 v], (ev c t) as [t1 w]. simpl in A, B. subst w. destruct (tob v); simpl; auto.
  - destruct (ev_ext tob ofb fn c s t H) as [A B].
    destruct (ev c s) as [s1 v], (ev c t) as [t1 w]. simpl in A, B. subst w. destruct (tob v); simpl; auto.
  - apply loop_ext; auto.
Qed.

(** More steps do no harm *)
Lemma loop_mono f f' c b inc :
  (forall s r, eval f b s = Some r -> eval f' b s = Some r) ->
  forall k k' s r, k <= k' -> loop f c b inc k s = Some r -> loop f' c b inc k' s = Some r.
Proof.
  intros Hb. induction k; intros k' s r Hk H; [discriminate|]. destruct k'; [lia|]. simpl in *.
  destruct (ev c s) as [s1 v]. destruct (tob v); auto.
  destruct (eval f b s1) as [[s2 o]|] eqn:E; [|discriminate]. rewrite (Hb _ _ E).
  destruct o as [|[|[|j]]|[|[|j]]]; auto; apply IHk; auto; lia.
Qed.

Lemma eval_mono p : forall f f' s r, f <= f' -> eval f p s = Some r -> eval f' p s = Some r.
Proof.
  induction p; intros fu fu' s r Hf; cbn [ShaderSpec.eval]; auto.
  - destruct (eval fu p1 s) as [[s1 o]|] eqn:E; [|discriminate]. rewrite (IHp1 _ _ _ _ Hf E). destruct o; eauto.
  - destruct (ev c s) as [s1 v]. destruct (tob v); eauto.
  - destruct (ev c s) as [s1 v]. destruct (tob v); eauto.
  - apply loop_mono; eauto.
Qed.

Definition level (o : outcome) := match o with Norm => None | Brk k | Cnt k => Some k end.

(** Levels stay within the enclosing loops *)
Lemma loop_level f c b inc (P : nat -> Prop) :
  (forall s s' o j, eval f b s = Some (s', o) -> level o = Some j -> 1 <= j /\ (1 < j -> P (pred j))) ->
  forall k s s' o j, loop f c b inc k s = Some (s', o) -> level o = Some j -> 1 <= j /\ P j.
Proof.
  intros Hb. induction k; intros s s' o j H Hl; [discriminate|]. simpl in H.
  destruct (ev c s) as [s1 v]. destruct (tob v); [|inversion H; subst; discriminate].
  destruct (eval f b s1) as [[s2 o2]|] eqn:E; [|discriminate].
  specialize (Hb _ _ _ (match level o2 with Some j => j | None => 0 end) E).
  destruct o2 as [|[|[|q]]|[|[|q]]]; simpl in *; eauto; inversion H; subst; try discriminate;
    simpl in Hl; inversion Hl; subst; destruct (Hb eq_refl) as [? Hp]; try lia; split; try lia; apply Hp; lia.
Qed.

Lemma eval_level p : forall d f s s' o j, loops_ok d p = true ->
  eval f p s = Some (s', o) -> level o = Some j -> 1 <= j <= d.
Proof.
  induction p; intros d fu s s' o j Hl; cbn [ShaderSpec.eval]; intros He Ho; simpl in Hl; bools;
    try (inversion He; subst; discriminate).
  - destruct (eval fu p1 s) as [[s1 o1]|] eqn:E; [|discriminate]. destruct o1; eauto; inversion He; subst; eauto.
  - destruct (ev c s) as [s1 v]. destruct (tob v); eauto. inversion He; subst; discriminate.
  - destruct (ev c s) as [s1 v]. destruct (tob v); eauto.
  - eapply (loop_level fu c p inc (fun j => j <= d)) in He; eauto.
    intros. specialize (IHp (S d) fu s0 s'0 o0 j0 Hl H H0). lia.
  - inversion He; subst; simpl in Ho; inversion Ho; subst. destruct j; [discriminate|]. apply Nat.leb_le in H0. lia.
  - inversion He; subst; simpl in Ho; inversion Ho; subst. destruct j; [discriminate|]. apply Nat.leb_le in H0. lia.
Qed.

Variable uni : var -> bool.
Notation agree := (agree uni).
Notation exits := (exits_uniform uni).

Lemma exits_level p : forall d f s s' o j,
  exits d false p = true -> eval f p s = Some (s', o) -> level o = Some j -> j <= d.
Proof.
  induction p; intros d fu s s' o j Hl; cbn [ShaderSpec.eval]; intros He Ho; simpl in Hl; bools;
    try (inversion He; subst; discriminate).
  - destruct (eval fu p1 s) as [[s1 o1]|] eqn:E; [|discriminate]. destruct o1; eauto; inversion He; subst; eauto.
  - destruct (ev c s) as [s1 v]. destruct (tob v); eauto. inversion He; subst; discriminate.
  - destruct (ev c s) as [s1 v]. destruct (tob v); eauto.
  - change (loop fu c p inc fu s = Some (s', o)) in He. revert s He. generalize fu at 2 as k.
    induction k; intros s He; [discriminate|]. simpl in He.
    destruct (ev c s) as [s1 v]. destruct (tob v); [|inversion He; subst; discriminate].
    destruct (eval fu p s1) as [[s2 o2]|] eqn:E; [|discriminate].
    destruct o2 as [|[|[|q]]|[|[|q]]]; eauto; inversion He; subst; try discriminate; simpl in Ho; inversion Ho; subst; try lia;
      specialize (IHp (S d) fu s1 s' _ _ Hl E eq_refl); lia.
  - inversion He; subst; simpl in Ho; inversion Ho; subst. apply Nat.leb_le in Hl. lia.
  - inversion He; subst; simpl in Ho; inversion Ho; subst. apply Nat.leb_le in Hl. lia.
Qed.

Lemma ok_uni u (e : expr V) : expr_ok uni u e = true -> uni_ok uni u e = true.
Proof. unfold expr_ok. intros; bools; auto. Qed.

Lemma nonuni_e e (s : env) : expr_ok uni false e = true -> agree (fst (ev e s)) s.
Proof. intros. apply (proj1 (nonuni tob ofb fn uni)). apply ok_uni; auto. Qed.

Lemma nonuni_s p : forall f s s' o, stmt_ok uni false p = true -> eval f p s = Some (s', o) -> agree s' s.
Proof.
  induction p; intros fu s s' o Hok; cbn [ShaderSpec.eval]; intros He; simpl in Hok; bools;
    try (inversion He; subst; apply agree_refl).
  - inversion He; subst. apply nonuni_e; auto.
  - inversion He; subst. apply nonuni_e; auto.
  - destruct (eval fu p1 s) as [[s1 o1]|] eqn:E; [|discriminate].
    destruct o1; try (inversion He; subst; eauto; fail). eapply agree_trans; eauto.
  - pose proof (nonuni_e c s H) as A. destruct (ev c s) as [s1 v]. simpl in A.
    destruct (tob v); [eapply agree_trans; eauto|inversion He; subst; auto].
  - pose proof (nonuni_e c s H) as A. destruct (ev c s) as [s1 v]. simpl in A.
    destruct (tob v); eapply agree_trans; eauto.
  - change (loop fu c p inc fu s = Some (s', o)) in He. revert s He. generalize fu at 2 as k.
    induction k; intros s He; [discriminate|]. simpl in He.
    pose proof (nonuni_e c s H) as A. destruct (ev c s) as [s1 v]. simpl in A.
    destruct (tob v); [|inversion He; subst; auto].
    destruct (eval fu p s1) as [[s2 o2]|] eqn:E; [|discriminate].
    assert (A2 : agree s2 s) by (eapply agree_trans; eauto).
    assert (A3 : agree (inc_step inc s2) s).
    { destruct inc; simpl; auto. bools. eapply agree_trans; [apply nonuni_e|]; auto. }
    destruct o2 as [|[|[|q]]|[|[|q]]]; try (inversion He; subst; auto; fail); eapply agree_trans; eauto.
Qed.

(** Points that agree on the uniform variables agree on uniform control *)
Lemma uniform_s p : forall u d f s t s' t' o o',
  stmt_ok uni u p = true -> loops_ok d p = true -> agree s t ->
  eval f p s = Some (s', o) -> eval f p t = Some (t', o') ->
  agree s' t' /\ (exits 0 true p = true -> o = o').
Proof.
  induction p; intros u d fu s t s' t' o o' Hok Hl Ag; cbn [ShaderSpec.eval]; intros Es Et; simpl in Hok, Hl; bools.
  - inversion Es; inversion Et; subst; auto.
  - inversion Es; inversion Et; subst. split; auto. eapply euni; eauto using ok_uni.
  - inversion Es; inversion Et; subst. split; auto. eapply euni; eauto using ok_uni.
  - destruct (eval fu p1 s) as [[s1 o1]|] eqn:E1; [|discriminate].
    destruct (eval fu p1 t) as [[t1 q1]|] eqn:E2; [|discriminate].
    destruct (IHp1 u d fu s t s1 t1 o1 q1) as [A B]; auto. simpl.
    destruct (exits 0 true p1) eqn:Ex.
    + rewrite <- (B eq_refl) in *. rewrite andb_true_r in *.
      destruct o1; try (inversion Es; inversion Et; subst; auto; fail).
      destruct (IHp2 u d fu s1 t1 s' t' o o') as [A' B']; auto.
    + simpl. rewrite andb_false_r in *. split; [|discriminate].
      assert (As : agree s' s1).
      { destruct o1; [eapply nonuni_s; eauto|inversion Es; subst; apply agree_refl|inversion Es; subst; apply agree_refl]. }
      assert (At : agree t' t1).
      { destruct q1; [eapply nonuni_s; eauto|inversion Et; subst; apply agree_refl|inversion Et; subst; apply agree_refl]. }
      eapply agree_trans; [exact As|]. eapply agree_trans; [exact A|]. apply agree_sym; auto.
  - destruct (proj1 (euni tob ofb fn uni) c u s t) as [A B]; auto using ok_uni.
    destruct (ev c s) as [s1 v], (ev c t) as [t1 w]. simpl in A, B. simpl.
    destruct (ucls uni c) eqn:Ec.
    + rewrite <- (B eq_refl) in *. rewrite andb_true_r in *.
      destruct (tob v); [eapply IHp; eauto|inversion Es; inversion Et; subst; auto].
    + rewrite andb_false_r in *.
      assert (As : agree s' s1).
      { destruct (tob v); [eapply nonuni_s; eauto|inversion Es; subst; apply agree_refl]. }
      assert (At : agree t' t1).
      { destruct (tob w); [eapply nonuni_s; eauto|inversion Et; subst; apply agree_refl]. }
      split. { eapply agree_trans; [exact As|]. eapply agree_trans; [exact A|]. apply agree_sym; auto. }
      intros Hx.
      assert (N : forall f s s' o, eval f p s = Some (s', o) -> o = Norm).
      { intros f0 x x' q E. destruct (level q) eqn:El; [|destruct q; auto; discriminate].
        pose proof (exits_level p 0 f0 x x' q n Hx E El). pose proof (eval_level p d f0 x x' q n Hl E El). lia. }
      assert (o = Norm) by (destruct (tob v); [eauto|inversion Es; auto]).
      assert (o' = Norm) by (destruct (tob w); [eauto|inversion Et; auto]). congruence.
  - destruct (proj1 (euni tob ofb fn uni) c u s t) as [A B]; auto using ok_uni.
    destruct (ev c s) as [s1 v], (ev c t) as [t1 w]. simpl in A, B. simpl.
    destruct (ucls uni c) eqn:Ec.
    + rewrite <- (B eq_refl) in *. rewrite andb_true_r in *.
      destruct (tob v); [destruct (IHp1 u d fu s1 t1 s' t' o o') as [X Y]|destruct (IHp2 u d fu s1 t1 s' t' o o') as [X Y]]; auto;
        (split; auto; intros; bools; auto).
    + rewrite andb_false_r in *.
      assert (As : agree s' s1) by (destruct (tob v); [eapply (nonuni_s p1)|eapply (nonuni_s p2)]; eauto).
      assert (At : agree t' t1) by (destruct (tob w); [eapply (nonuni_s p1)|eapply (nonuni_s p2)]; eauto).
      split. { eapply agree_trans; [exact As|]. eapply agree_trans; [exact A|]. apply agree_sym; auto. }
      intros Hx. bools.
      assert (N : forall p, loops_ok d p = true -> exits 0 false p = true -> forall f s s' o, eval f p s = Some (s', o) -> o = Norm).
      { intros p L X f0 x x' q E. destruct (level q) eqn:El; [|destruct q; auto; discriminate].
        pose proof (exits_level p 0 f0 x x' q n X E El). pose proof (eval_level p d f0 x x' q n L E El). lia. }
      assert (o = Norm) by (destruct (tob v); [eapply (N p1)|eapply (N p2)]; eauto).
      assert (o' = Norm) by (destruct (tob w); [eapply (N p1)|eapply (N p2)]; eauto). congruence.
  - change (loop fu c p inc fu s = Some (s', o)) in Es. change (loop fu c p inc fu t = Some (t', o')) in Et.
    set (w := u && ucls uni c && exits 0 true p) in *. simpl exits.
    destruct (ucls uni c && exits 0 true p) eqn:Ew.
    + bools. revert s t Ag Es Et. generalize fu at 2 4 as k.
      induction k; intros s t Ag Es Et; [discriminate|]. simpl in Es, Et.
      destruct (proj1 (euni tob ofb fn uni) c w s t) as [A B]; auto using ok_uni.
      destruct (ev c s) as [s1 v], (ev c t) as [t1 v']. simpl in A, B.
      rewrite <- B in Et by auto.
      destruct (tob v); [|inversion Es; inversion Et; subst; auto].
      destruct (eval fu p s1) as [[s2 o2]|] eqn:E1; [|discriminate].
      destruct (eval fu p t1) as [[t2 q2]|] eqn:E2; [|discriminate].
      destruct (IHp w (S d) fu s1 t1 s2 t2 o2 q2) as [A2 B2]; auto.
      rewrite <- B2 in Et by auto.
      assert (A3 : agree (inc_step inc s2) (inc_step inc t2)).
      { destruct inc; simpl; auto. bools. eapply euni; eauto using ok_uni. }
      destruct o2 as [|[|[|q]]|[|[|q]]]; try (inversion Es; inversion Et; subst; auto; fail); eapply IHk; eauto.
    + assert (w = false) by (unfold w; rewrite <- andb_assoc, Ew; apply andb_false_r).
      rewrite H2 in *.
      assert (Ok : stmt_ok uni false (SWhile c p inc) = true) by (simpl; rewrite H, H1; simpl; auto).
      split.
      { eapply agree_trans; [eapply nonuni_s with (f := fu); [exact Ok|exact Es]|].
        eapply agree_trans; [exact Ag|]. apply agree_sym. eapply nonuni_s with (f := fu); [exact Ok|exact Et]. }
      intros Hx. simpl in Hx.
      assert (N : forall s s' o, loop fu c p inc fu s = Some (s', o) -> o = Norm).
      { intros x x' q E. destruct (level q) eqn:El; [|destruct q; auto; discriminate].
        pose proof (exits_level (SWhile c p inc) 0 fu x x' q n) as X. simpl in X. specialize (X Hx E El).
        pose proof (eval_level (SWhile c p inc) d fu x x' q n Hl E El). lia. }
      rewrite (N _ _ _ Es), (N _ _ _ Et). auto.
  - inversion Es; inversion Et; subst; auto.
  - inversion Es; inversion Et; subst; auto.
Qed.

End Source.

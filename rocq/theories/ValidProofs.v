From Coq Require Import List Bool ZArith Lia.
From Verif Require Import ValidModel ValidSpec.
Import ListNotations.
Open Scope Z_scope.

Definition place_scope (w : place) : scope :=
  match w with
  | Outer => SBeginEnd | Fragment => SAny
  | Inside k => match scope_of k with Some s => s | None => SAny end
  end.
(** Stacks of open blocks. *)
Inductive stack : list place -> Prop :=
| stack_outer : stack [Outer]
| stack_fragment : stack [Fragment]
| stack_block k w ws : k <> KResource -> (w = Inside KArchive -> k = KArchive) -> stack (w :: ws) -> stack (Inside k :: w :: ws).

Definition archive_place (w : place) : bool := match w with Inside KArchive => true | _ => false end.
Definition archives (ws : list place) : nat := length (filter archive_place ws).

Lemma stack_top w ws : stack (w :: ws) -> w <> Inside KResource.
Proof. intros H. inversion H; subst; congruence. Qed.
Lemma fragment_alone ws : stack (Fragment :: ws) -> ws = [].
Proof. intros H. inversion H; reflexivity. Qed.
Lemma archive_on_top ws : stack ws -> forall n, archives ws = S n -> exists ws', ws = Inside KArchive :: ws' /\ archives ws' = n.
Proof.
  induction 1 as [| |k w ws K A H IH]; intros n E; try discriminate.
  unfold archives in *. cbn [filter] in E. destruct (archive_place (Inside k)) eqn:AK.
  - destruct k; try discriminate. exists (w :: ws). split; [reflexivity|]. cbn [length] in E. injection E as E. exact E.
  - destruct (IH n E) as (ws' & W & _). injection W as -> ->. rewrite (A eq_refl) in AK. discriminate.
Qed.

Lemma check_group p w ws s : scopes s = place_scope w :: map place_scope ws -> w <> Inside KResource ->
  check_scope (allowed p) s = may_appear (group_of p) w.
Proof.
  intros E N. unfold check_scope, top. rewrite E. cbn [hd]. destruct w as [| |k]; [destruct p; reflexivity|destruct p; reflexivity|].
  destruct k; try congruence; destruct p; reflexivity.
Qed.
Lemma check_mesh m w ws s : scopes s = place_scope w :: map place_scope ws -> w <> Inside KResource ->
  check_scope (allowed_mesh m) s = may_appear Primitives w.
Proof. intros E N. destruct m; [exact (check_group RPatchMesh w ws s E N)|exact (check_group RCurves w ws s E N)]. Qed.
Lemma check_begin k w ws s : scopes s = place_scope w :: map place_scope ws -> w <> Inside KResource ->
  check_scope (allowed_begin k) s = may_begin k w.
Proof.
  intros E N. unfold check_scope, top. rewrite E. cbn [hd]. destruct w as [| |j]; [destruct k; reflexivity|destruct k; reflexivity|].
  destruct j; try congruence; destruct k; reflexivity.
Qed.
Lemma check_end k w ws s : scopes s = place_scope w :: map place_scope ws -> w <> Inside KResource -> k <> KResource -> k <> KArchive ->
  check_scope (allowed_end k) s = true -> w = Fragment \/ w = Inside KArchive \/ w = Inside k.
Proof.
  intros E N K1 K2. unfold check_scope, top. rewrite E. cbn [hd]. destruct w as [| |j]; auto; destruct k; try congruence; try discriminate;
    destruct j; try congruence; try discriminate; auto.
Qed.
Lemma is_archive_place w : w <> Inside KResource -> is_archive (place_scope w) = archive_place w.
Proof. intros N. destruct w as [| |[]]; try reflexivity. Qed.
Lemma archive_place_true w : archive_place w = true -> w = Inside KArchive.
Proof. destruct w as [| |[]]; try discriminate. reflexivity. Qed.

(** * Accepted calls are nested *)

Section Run.
  Variable relaxed asserts : bool.

  Definition leads (ws : list place) (e : event) (ws1 : list place) : Prop :=
    forall es ws', nested ws1 es ws' -> nested ws (e :: es) ws'.

  (** The outcome of a call: nothing happens, or it is passed on. *)
  Definition outcome (c : call) (s : state) (ws : list place) : Prop :=
    exists s1 ws1, handle relaxed asserts c s = Some s1 /\ stack ws1 /\ scopes s1 = map place_scope ws1 /\
      ((out s1 = out s /\ ws1 = ws /\ forall ok, what c = Begin KArchive ok -> ok = false) \/
       (out s1 = out s ++ [what c] /\ leads ws (what c) ws1)) /\
      archives ws1 = match what c with Begin KArchive true => S (archives ws) | End KArchive => pred (archives ws) | _ => archives ws end.

  Ltac rejected := eexists _, _; split; [reflexivity|]; split; [eassumption|]; split; [eassumption|]; split; [left; split; [reflexivity|split; [reflexivity|]]; intros ? X; try discriminate X|try reflexivity].

  Lemma outcome_plain c s ws : stack ws -> scopes s = map place_scope ws ->
    match what c with Begin _ _ | End _ => False | _ => True end -> outcome c s ws.
  Proof.
    intros St E P. destruct ws as [|w ws]; [inversion St|]. pose proof (stack_top w ws St) as N. unfold outcome, handle.
    destruct (what c) as [p ok|m ok f|u v|k ok|k] eqn:W; try contradiction.
    - rewrite (check_group p w ws s E N). destruct (may_appear (group_of p) w) eqn:M; cbn [andb]; [|rejected].
      destruct ok; [|rejected]. eexists _, _; split; [reflexivity|]. split; [exact St|]. split; [exact E|]. split; [right|reflexivity].
      split; [reflexivity|]. intros es ws' H. apply nest_call; assumption.
    - rewrite (check_mesh m w ws s E N). destruct (hd (3, 3) (steps s)) as [u v]. destruct (may_appear Primitives w) eqn:M; cbn [andb]; [|rejected].
      destruct (ok && (is_archive (top s) || f relaxed u v)); [|rejected]. eexists _, _; split; [reflexivity|]. split; [exact St|]. split; [exact E|]. split; [right|reflexivity].
      split; [reflexivity|]. intros es ws' H. apply nest_mesh; assumption.
    - rewrite (check_group RBasis w ws s E N). change (group_of RBasis) with Attributes. destruct (may_appear Attributes w) eqn:M; cbn [andb]; [|rejected].
      destruct ((0 <? u) && (0 <? v)); [|rejected]. eexists _, _; split; [reflexivity|]. split; [exact St|]. split; [exact E|]. split; [right|reflexivity].
      split; [reflexivity|]. intros es ws' H. apply nest_basis; assumption.
  Qed.

  Lemma outcome_begin c k ok s ws : stack ws -> scopes s = map place_scope ws -> what c = Begin k ok -> outcome c s ws.
  Proof.
    intros St E W. destruct ws as [|w ws]; [inversion St|]. pose proof (stack_top w ws St) as N. unfold outcome, handle. rewrite W.
    rewrite (check_begin k w ws s E N). destruct (may_begin k w) eqn:M; cbn [andb].
    2:{ rejected; [destruct w as [| |[]]; injection X as -> ->; discriminate M|].
        destruct k; try reflexivity. destruct w as [| |[]]; discriminate M. }
    destruct ok; [|rejected; [injection X as _ ->; reflexivity|destruct k; reflexivity]].
    destruct (scope_of k) as [n|] eqn:K.
    - assert (KR : k <> KResource) by (intros ->; discriminate).
      assert (T : forall s0, scopes s0 = place_scope w :: map place_scope ws -> is_archive (top s0) = archive_place w) by (intros s0 E0; unfold top; rewrite E0; apply is_archive_place, N).
      assert (NK : is_archive n = archive_place (Inside k)) by (destruct k; try discriminate K; injection K as <-; reflexivity).
      set (s1 := if saves k then push_attributes s else s). assert (E1 : scopes s1 = place_scope w :: map place_scope ws) by (unfold s1; destruct (saves k); exact E).
      assert (O1 : out s1 = out s) by (unfold s1; destruct (saves k); reflexivity).
      unfold push_scope. rewrite (T s1 E1), NK. destruct (archive_place w && negb (archive_place (Inside k))) eqn:B.
      + apply andb_true_iff in B as [B1 B2]. apply archive_place_true in B1. subst w. eexists _, (Inside KArchive :: ws). split; [reflexivity|]. split; [exact St|]. split; [exact E1|].
        split; [right|destruct k; try reflexivity; discriminate B2]. split; [unfold emit; cbn [out]; rewrite O1; reflexivity|]. intros es ws' H. apply nest_recorded; [|exact H].
        destruct k; try exact I; discriminate B2.
      + eexists _, (Inside k :: w :: ws). split; [reflexivity|].
        assert (WK : w = Inside KArchive -> k = KArchive) by (intros ->; cbn in B; destruct k; try discriminate B; reflexivity).
        split; [apply stack_block; assumption|]. split; [unfold emit; cbn [scopes map place_scope]; rewrite K, E1; reflexivity|].
        split; [right|destruct k; try reflexivity; congruence]. split; [unfold emit; cbn [out]; rewrite O1; reflexivity|].
        intros es ws' H. apply nest_begin; assumption.
    - destruct k; try discriminate K. eexists _, (w :: ws). split; [reflexivity|]. split; [exact St|]. split; [exact E|]. split; [right|reflexivity].
      split; [reflexivity|]. intros es ws' H. apply nest_resource, H.
  Qed.

  Lemma pop_place o w ws s : stack (w :: ws) -> scopes s = map place_scope (w :: ws) -> (2 <= length (w :: ws))%nat -> place_scope w = o ->
    pop_scope asserts o s = Some (mkState (map place_scope ws) (steps s) (out s)).
  Proof.
    intros St E L T. unfold pop_scope. assert (LE : length (scopes s) = length (w :: ws)) by (rewrite E, map_length; reflexivity).
    rewrite LE. replace (length (w :: ws) =? 1)%nat with false by (symmetry; apply Nat.eqb_neq; lia).
    assert (TT : top s = o) by (unfold top; rewrite E; exact T). rewrite TT.
    replace (is_archive o && negb (is_archive o)) with false by (destruct (is_archive o); reflexivity).
    unfold same_scope. rewrite Z.eqb_refl, andb_false_r. rewrite E. reflexivity.
  Qed.
  Lemma stack_pop k ws : stack (Inside k :: ws) -> stack ws /\ (2 <= length (Inside k :: ws))%nat.
  Proof. intros H. inversion H; subst. split; [assumption|cbn [length]; lia]. Qed.

  Lemma outcome_end c k s ws : stack ws -> scopes s = map place_scope ws -> what c = End k -> throws c = false ->
    (k = KArchive -> archives ws <> O) -> outcome c s ws.
  Proof.
    intros St E W T A. unfold outcome, handle. rewrite W, T.
    assert (S1 : forall f, (f = saves k) -> scopes (emit (End k) (if f then pop_attributes s else s)) = map place_scope ws) by (intros f _; destruct f; exact E).
    assert (O1 : forall f : bool, out (emit (End k) (if f then pop_attributes s else s)) = out s ++ [End k]) by (intros f; destruct f; reflexivity).
    set (s1 := emit (End k) (if saves k then pop_attributes s else s)). assert (E1 := S1 _ eq_refl). assert (O2 := O1 (saves k)). fold s1 in E1, O2. clear S1 O1.
    assert (Cases : k = KArchive \/ k = KResource \/ (k <> KArchive /\ k <> KResource)) by (destruct k; auto; right; right; split; discriminate).
    destruct Cases as [->|[->|[NA NR]]].
    - specialize (A eq_refl). destruct (archives ws) as [|n] eqn:AN; [congruence|]. destruct (archive_on_top ws St n AN) as (ws' & -> & An).
      destruct (stack_pop _ _ St) as [St' L]. cbn [scope_of].
      change (check_scope (allowed_end KArchive) s) with true. cbv iota. rewrite (pop_place SArchive (Inside KArchive) ws' s1 St E1 L eq_refl).
      eexists _, ws'. split; [reflexivity|]. split; [exact St'|]. split; [reflexivity|]. split; [right; split; [exact O2|intros es ws0 H; apply nest_end; [discriminate|exact H]]|].
      cbn [pred]. exact An.
    - change (check_scope (allowed_end KResource) s) with true. cbv iota. cbn [scope_of]. exists s1, ws. split; [reflexivity|]. split; [exact St|]. split; [exact E1|].
      split; [right; split; [exact O2|]|reflexivity]. intros es ws' H. destruct ws as [|w ws]; [inversion St|]. apply nest_resource_end, H.
    - assert (AE : match End k with Begin KArchive true => S (archives ws) | End KArchive => pred (archives ws) | _ => archives ws end = archives ws) by (destruct k; try reflexivity; congruence).
      destruct ws as [|w ws]; [inversion St|]. pose proof (stack_top w ws St) as N.
      destruct (check_scope (allowed_end k) s) eqn:C.
      2:{ exists s, (w :: ws). split; [reflexivity|]. split; [exact St|]. split; [exact E|]. split; [left; split; [reflexivity|split; [reflexivity|intros ? X; discriminate X]]|symmetry; exact AE]. }
      apply (check_end k w ws s E N NR NA) in C.
      destruct (scope_of k) as [o|] eqn:SK; [|destruct k; try discriminate SK; congruence].
      destruct C as [->|[->| ->]].
      + pose proof (fragment_alone ws St) as ->. exists s1, [Fragment]. split; [unfold pop_scope; rewrite E1; reflexivity|]. split; [exact St|]. split; [exact E1|].
        split; [right; split; [exact O2|intros es ws' H; apply nest_fragment, H]|symmetry; exact AE].
      + exists s1, (Inside KArchive :: ws). split.
        * destruct (stack_pop _ _ St) as [_ L]. unfold pop_scope. rewrite E1, map_length. replace (length (Inside KArchive :: ws) =? 1)%nat with false by (symmetry; apply Nat.eqb_neq; lia).
          unfold top. rewrite E1. cbn [map hd place_scope scope_of is_archive]. replace (is_archive o) with false by (destruct k; try congruence; injection SK as <-; reflexivity). reflexivity.
        * split; [exact St|]. split; [exact E1|]. split; [right; split; [exact O2|intros es ws' H; apply nest_recorded; [destruct k; try exact I; congruence|exact H]]|symmetry; exact AE].
      + destruct (stack_pop _ _ St) as [St' L]. rewrite (pop_place o (Inside k) ws s1 St E1 L) by (cbn [place_scope]; rewrite SK; reflexivity).
        eexists _, ws. split; [reflexivity|]. split; [exact St'|]. split; [reflexivity|]. split; [right; split; [exact O2|intros es ws' H; apply nest_end; [exact NR|exact H]]|].
        rewrite AE. unfold archives. cbn [filter]. destruct (archive_place (Inside k)) eqn:X; [|reflexivity]. apply archive_place_true in X. congruence.
  Qed.

  Theorem run_nested cs : forall s ws n, stack ws -> scopes s = map place_scope ws -> archives ws = n -> archives_closed n cs -> ends_accepted cs ->
    exists s' es ws', run relaxed asserts cs s = Some s' /\ out s' = out s ++ es /\ nested ws es ws' /\ scopes s' = map place_scope ws'.
  Proof.
    induction cs as [|c cs IH]; intros s ws n St E A C T.
    - exists s, [], ws. rewrite app_nil_r. repeat split; auto; constructor.
    - assert (T' : ends_accepted cs) by (intros c' k I W; apply (T c' k); [right; exact I|exact W]).
      assert (OC : outcome c s ws /\ archives_closed (match what c with Begin KArchive true => S n | End KArchive => pred n | _ => n end) cs).
      { cbn [archives_closed] in C. destruct (what c) as [p ok|m ok f|u v|k ok|k] eqn:W.
        - split; [apply outcome_plain; auto; rewrite W; exact I|exact C].
        - split; [apply outcome_plain; auto; rewrite W; exact I|exact C].
        - split; [apply outcome_plain; auto; rewrite W; exact I|exact C].
        - split; [eapply outcome_begin; eauto|destruct k; try exact C; destruct ok; exact C].
        - split; [eapply outcome_end; eauto; [apply (T c k); [left; reflexivity|exact W]|]|].
          + intros -> Z. rewrite Z in A. subst n. exact C.
          + destruct k; try exact C. destruct n; [contradiction|exact C]. }
      destruct OC as [(s1 & ws1 & H1 & St1 & E1 & OC & A1) C'].
      destruct (IH s1 ws1 _ St1 E1 (eq_trans A1 ltac:(rewrite A; reflexivity)) C' T') as (s' & es & ws' & R & O & Ne & E').
      cbn [run]. rewrite H1. destruct OC as [(O1 & -> & _)|(O1 & L)].
      + exists s', es, ws'. rewrite O, O1. auto.
      + exists s', (what c :: es), ws'. split; [exact R|]. split; [rewrite O, O1, <- app_assoc; reflexivity|]. split; [apply L, Ne|exact E'].
  Qed.

  (** * Nested calls are accepted *)

  Lemma archive_scope s ws : scopes s = map place_scope (Inside KArchive :: ws) -> top s = SArchive.
  Proof. intros E. unfold top. rewrite E. reflexivity. Qed.

  Theorem nested_run ws es ws' : nested ws es ws' -> stack ws -> forall cs s, map what cs = es -> Forall good es -> ends_accepted cs -> scopes s = map place_scope ws ->
    exists s', run relaxed asserts cs s = Some s' /\ out s' = out s ++ es /\ scopes s' = map place_scope ws'.
  Proof.
    assert (Step : forall c cs s s1 es ws', what c :: es = map what (c :: cs) -> handle relaxed asserts c s = Some s1 -> out s1 = out s ++ [what c] ->
      (exists s', run relaxed asserts cs s1 = Some s' /\ out s' = out s1 ++ es /\ scopes s' = map place_scope ws') ->
      exists s', run relaxed asserts (c :: cs) s = Some s' /\ out s' = out s ++ what c :: es /\ scopes s' = map place_scope ws').
    { intros c cs s s1 es0 ws0 _ H O (s' & R & O' & E'). exists s'. cbn [run]. rewrite H. split; [exact R|]. split; [rewrite O', O, <- app_assoc; reflexivity|exact E']. }
    induction 1 as [ws|w ws p ok es ws' M _ IH|w ws m ok f es ws' M _ IH|w ws u v es ws' M _ IH|w ws ok es ws' _ IH|w ws es ws' _ IH
      |w ws k ok es ws' KR M WK _ IH|k ws es ws' KR _ IH|ws e es ws' Rc _ IH|k es ws' _ IH]; intros St cs s Mp G T E.
    - destruct cs; [|discriminate]. exists s. rewrite app_nil_r. auto.
    - destruct cs as [|c cs]; [discriminate|]. cbn [map] in Mp. injection Mp as Wc Mp. inversion_clear G as [|? ? G1 G2]. rewrite <- Wc.
      eapply Step; [cbn [map]; rewrite Mp; reflexivity| | |].
      + unfold handle. rewrite Wc. rewrite (check_group p w ws s E (stack_top _ _ St)), M. cbn in G1. rewrite G1. reflexivity.
      + rewrite Wc. reflexivity.
      + apply (IH St cs); [exact Mp|exact G2|intros c' k' I; apply T; right; exact I|exact E].
    - destruct cs as [|c cs]; [discriminate|]. cbn [map] in Mp. injection Mp as Wc Mp. inversion_clear G as [|? ? G0 G2]. destruct G0 as [G1 G3]. rewrite <- Wc.
      eapply Step; [cbn [map]; rewrite Mp; reflexivity| | |].
      + unfold handle. rewrite Wc. rewrite (check_mesh m w ws s E (stack_top _ _ St)), M, G1. destruct (hd (3, 3) (steps s)). rewrite G3, orb_true_r. reflexivity.
      + rewrite Wc. reflexivity.
      + apply (IH St cs); [exact Mp|exact G2|intros c' k' I; apply T; right; exact I|exact E].
    - destruct cs as [|c cs]; [discriminate|]. cbn [map] in Mp. injection Mp as Wc Mp. inversion_clear G as [|? ? G0 G2]. destruct G0 as [G1 G3]. rewrite <- Wc.
      eapply Step; [cbn [map]; rewrite Mp; reflexivity| | |].
      + unfold handle. rewrite Wc. rewrite (check_group RBasis w ws s E (stack_top _ _ St)). change (group_of RBasis) with Attributes. rewrite M.
        apply Z.ltb_lt in G1, G3. rewrite G1, G3. reflexivity.
      + rewrite Wc. reflexivity.
      + apply (IH St cs); [exact Mp|exact G2|intros c' k' I; apply T; right; exact I|exact E].
    - destruct cs as [|c cs]; [discriminate|]. cbn [map] in Mp. injection Mp as Wc Mp. inversion_clear G as [|? ? G1 G2]. rewrite <- Wc.
      eapply Step; [cbn [map]; rewrite Mp; reflexivity| | |].
      + unfold handle. rewrite Wc. cbn in G1. rewrite G1. reflexivity.
      + rewrite Wc. cbn in G1. rewrite G1. reflexivity.
      + apply (IH St cs); [exact Mp|exact G2|intros c' k' I; apply T; right; exact I|exact E].
    - destruct cs as [|c cs]; [discriminate|]. cbn [map] in Mp. injection Mp as Wc Mp. inversion_clear G as [|? ? G1 G2]. rewrite <- Wc.
      assert (Tc : throws c = false) by (apply (T c KResource); [left; reflexivity|exact Wc]).
      eapply Step; [cbn [map]; rewrite Mp; reflexivity| | |].
      + unfold handle. rewrite Wc, Tc. reflexivity.
      + rewrite Wc. reflexivity.
      + apply (IH St cs); [exact Mp|exact G2|intros c' k' I; apply T; right; exact I|exact E].
    - destruct cs as [|c cs]; [discriminate|]. cbn [map] in Mp. injection Mp as Wc Mp. inversion_clear G as [|? ? G1 G2]. rewrite <- Wc.
      assert (Op : outcome c s (w :: ws)) by (eapply outcome_begin; eauto).
      assert (H : exists s1, handle relaxed asserts c s = Some s1 /\ out s1 = out s ++ [what c] /\ scopes s1 = map place_scope (Inside k :: w :: ws)).
      { clear Op. unfold handle. rewrite Wc, (check_begin k w ws s E (stack_top _ _ St)), M. cbn in G1. rewrite G1. cbn [andb].
        destruct (scope_of k) as [n|] eqn:K; [|destruct k; try discriminate K; congruence]. unfold push_scope.
        set (s1 := if saves k then push_attributes s else s). assert (E1 : scopes s1 = place_scope w :: map place_scope ws) by (unfold s1; destruct (saves k); exact E).
        assert (O1 : out s1 = out s) by (unfold s1; destruct (saves k); reflexivity).
        assert (B : is_archive (top s1) && negb (is_archive n) = false).
        { unfold top. rewrite E1. cbn [hd]. rewrite (is_archive_place w (stack_top _ _ St)). destruct (archive_place w) eqn:AW; [|reflexivity].
          apply archive_place_true in AW. rewrite (WK AW) in K. injection K as <-. reflexivity. }
        rewrite B. eexists. split; [reflexivity|]. unfold emit. cbn [out scopes map place_scope]. rewrite O1, E1, K. auto. }
      destruct H as (s1 & H & O1 & E1). eapply Step; [cbn [map]; rewrite Mp; reflexivity|exact H|exact O1|].
      apply (IH (stack_block k w ws KR WK St) cs); auto. intros c' j I; apply T; right; exact I.
    - destruct cs as [|c cs]; [discriminate|]. cbn [map] in Mp. injection Mp as Wc Mp. inversion_clear G as [|? ? G1 G2]. rewrite <- Wc.
      assert (Tc : throws c = false) by (apply (T c k); [left; reflexivity|exact Wc]).
      destruct (stack_pop _ _ St) as [St' L]. destruct (scope_of k) as [o|] eqn:K; [|destruct k; try discriminate K; congruence].
      assert (C : check_scope (allowed_end k) s = true) by (unfold check_scope, top; rewrite E; cbn [map hd place_scope]; destruct k; try congruence; reflexivity).
      eapply Step; [cbn [map]; rewrite Mp; reflexivity| | |].
      + unfold handle. rewrite Wc, C, Tc, K. set (s1 := emit (End k) (if saves k then pop_attributes s else s)).
        apply (pop_place o (Inside k) ws s1 St); [unfold s1; destruct (saves k); exact E|exact L|cbn [place_scope]; rewrite K; reflexivity].
      + cbn [out]. destruct (saves k); rewrite Wc; reflexivity.
      + apply (IH St' cs); [exact Mp|exact G2|intros c' k' I; apply T; right; exact I|reflexivity].
    - destruct cs as [|c cs]; [discriminate|]. cbn [map] in Mp. injection Mp as Wc Mp. inversion_clear G as [|? ? G1 G2]. rewrite <- Wc.
      pose proof (archive_scope s ws E) as Tp.
      assert (H : exists s1, handle relaxed asserts c s = Some s1 /\ out s1 = out s ++ [what c] /\ scopes s1 = map place_scope (Inside KArchive :: ws)).
      { unfold handle. rewrite Wc. destruct e as [p ok|m ok f|u v|k ok|k].
        - rewrite (check_group p _ ws s E (stack_top _ _ St)). cbn in G1. rewrite G1. destruct (group_of p); cbn [may_appear andb]; eexists; (split; [reflexivity|]); split; auto.
        - rewrite (check_mesh m _ ws s E (stack_top _ _ St)). destruct G1 as [G1 G3]. rewrite G1, Tp. destruct (hd (3, 3) (steps s)). cbn [may_appear andb is_archive orb]. eexists. split; [reflexivity|]. auto.
        - rewrite (check_group RBasis _ ws s E (stack_top _ _ St)). destruct G1 as [G1 G3]. apply Z.ltb_lt in G1, G3. rewrite G1, G3. eexists. split; [reflexivity|]. auto.
        - rewrite (check_begin k _ ws s E (stack_top _ _ St)). cbn in G1. rewrite G1.
          replace (may_begin k (Inside KArchive)) with true by (destruct k; reflexivity). cbn [andb].
          set (s1 := if saves k then push_attributes s else s). assert (E1 : scopes s1 = scopes s) by (unfold s1; destruct (saves k); reflexivity).
          assert (O1 : out s1 = out s) by (unfold s1; destruct (saves k); reflexivity).
          eexists. split; [reflexivity|]. unfold emit. cbn [out scopes].
          destruct (scope_of k) as [n|] eqn:K; [|rewrite O1, E1; auto]. unfold push_scope. assert (Tp1 : top s1 = SArchive) by (unfold top; rewrite E1; exact Tp). rewrite Tp1.
          replace (is_archive n) with false by (destruct k; try contradiction; try discriminate K; injection K as <-; reflexivity). cbn [is_archive negb andb]. rewrite O1, E1. auto.
        - assert (Tc : throws c = false) by (apply (T c k); [left; reflexivity|exact Wc]). rewrite Tc.
          assert (C : check_scope (allowed_end k) s = true) by (unfold check_scope; rewrite Tp; destruct k; reflexivity). rewrite C.
          set (s1 := emit (End k) (if saves k then pop_attributes s else s)). assert (E1 : scopes s1 = scopes s) by (unfold s1; destruct (saves k); reflexivity).
          assert (O1 : out s1 = out s ++ [End k]) by (unfold s1; destruct (saves k); reflexivity).
          destruct (scope_of k) as [o|] eqn:K; [|exists s1; split; [reflexivity|split; [exact O1|rewrite E1; exact E]]]. unfold pop_scope.
          destruct (length (scopes s1) =? 1)%nat; [exists s1; split; [reflexivity|split; [exact O1|rewrite E1; exact E]]|].
          assert (Tp1 : top s1 = SArchive) by (unfold top; rewrite E1; exact Tp). rewrite Tp1. replace (is_archive o) with false by (destruct k; try contradiction; try discriminate K; injection K as <-; reflexivity). cbn [is_archive negb andb].
          exists s1. split; [reflexivity|split; [exact O1|rewrite E1; exact E]]. }
      destruct H as (s1 & H & O1 & E1). eapply Step; [cbn [map]; rewrite Mp; reflexivity|exact H|exact O1|].
      apply (IH St cs); auto. intros c' j I; apply T; right; exact I.
    - destruct cs as [|c cs]; [discriminate|]. cbn [map] in Mp. injection Mp as Wc Mp. inversion_clear G as [|? ? G1 G2]. rewrite <- Wc.
      assert (Tc : throws c = false) by (apply (T c k); [left; reflexivity|exact Wc]).
      assert (C : check_scope (allowed_end k) s = true) by (unfold check_scope, top; rewrite E; cbn [map hd place_scope]; destruct k; reflexivity).
      assert (H : exists s1, handle relaxed asserts c s = Some s1 /\ out s1 = out s ++ [what c] /\ scopes s1 = [SAny]).
      { unfold handle. rewrite Wc, C, Tc. set (s1 := emit (End k) (if saves k then pop_attributes s else s)). assert (E1 : scopes s1 = [SAny]) by (unfold s1; destruct (saves k); exact E).
        assert (O1 : out s1 = out s ++ [End k]) by (unfold s1; destruct (saves k); reflexivity).
        exists s1. split; [|split; assumption]. destruct (scope_of k); [|reflexivity]. unfold pop_scope. rewrite E1. reflexivity. }
      destruct H as (s1 & H & O1 & E1). eapply Step; [cbn [map]; rewrite Mp; reflexivity|exact H|exact O1|].
      apply (IH St cs); auto. intros c' j I; apply T; right; exact I.
  Qed.

  (** * The basis steps *)

  Lemma run_app cs1 : forall cs2 s, run relaxed asserts (cs1 ++ cs2) s = match run relaxed asserts cs1 s with Some s' => run relaxed asserts cs2 s' | None => None end.
  Proof. induction cs1 as [|c cs1 IH]; intros cs2 s; cbn [app run]; [reflexivity|]. destruct (handle relaxed asserts c s); [apply IH|reflexivity]. Qed.

  Definition calls (es : list event) : list call := map (fun e => mkCall e false) es.
  Definition inner (k : kind) (w : place) : place := match k, w with KResource, _ => w | KArchive, _ => Inside k | _, Inside KArchive => w | _, _ => Inside k end.

  Scheme keeps_mut := Induction for keeps Sort Prop with keeps_all_mut := Induction for keeps_all Sort Prop.

  Definition tracked (a : bool) (st : Z * Z) (evs es : list event) (st' : Z * Z) (w : place) : Prop :=
    forall s ws rest, stack (w :: ws) -> a = archive_place w -> scopes s = map place_scope (w :: ws) -> steps s = st :: rest ->
      run relaxed asserts (calls evs) s = Some (mkState (scopes s) (st' :: rest) (out s ++ es)).

  Lemma state_eta s : s = mkState (scopes s) (steps s) (out s).
  Proof. destruct s; reflexivity. Qed.

  Theorem keeps_tracked a st i es st' : keeps relaxed a st i es st' -> forall w, placed w i -> tracked a st (flat_item i) es st' w.
  Proof.
    revert a st i es st'.
    apply (keeps_mut relaxed (fun a st i es st' _ => forall w, placed w i -> tracked a st (flat_item i) es st' w)
                     (fun a st l es st' _ => forall w, (forall i, In i l -> placed w i) -> tracked a st (flat l) es st' w)).
    - intros a st p ok w P s ws rest St A E Sp. inversion P; subst. cbn [flat_item calls map run handle what]. unfold handle. cbn [what]. rewrite (check_group p w ws s E (stack_top _ _ St)), H1.
      cbn [andb]. destruct ok; unfold emit; [rewrite Sp; reflexivity|]. rewrite app_nil_r, <- Sp. f_equal. apply state_eta.
    - intros a st m ok f w P s ws rest St A E Sp. inversion P; subst. cbn [flat_item calls map run]. unfold handle. cbn [what]. rewrite (check_mesh m w ws s E (stack_top _ _ St)), H1, Sp.
      assert (Tp : top s = place_scope w) by (unfold top; rewrite E; reflexivity).
      destruct st as [u v]. cbn [hd fst snd andb]. rewrite Tp, (is_archive_place w (stack_top _ _ St)).
      destruct (ok && (archive_place w || f relaxed u v)); unfold emit; [rewrite Sp; reflexivity|]. rewrite app_nil_r, <- Sp. f_equal. apply state_eta.
    - intros a st u v U V w P s ws rest St A E Sp. inversion P; subst. cbn [flat_item calls map run]. unfold handle. cbn [what].
      rewrite (check_group RBasis w ws s E (stack_top _ _ St)). change (group_of RBasis) with Attributes. match goal with H : may_appear Attributes w = true |- _ => rewrite H end. apply Z.ltb_lt in U, V. rewrite U, V. cbn [andb].
      unfold emit, set_steps. cbn [scopes steps out]. rewrite Sp. reflexivity.
    - intros a st u v UV w P s ws rest St A E Sp. inversion P; subst. cbn [flat_item calls map run]. unfold handle. cbn [what].
      rewrite (check_group RBasis w ws s E (stack_top _ _ St)). change (group_of RBasis) with Attributes. match goal with H : may_appear Attributes w = true |- _ => rewrite H end. cbn [andb].
      replace ((0 <? u) && (0 <? v)) with false; [rewrite app_nil_r, <- Sp; f_equal; apply state_eta|].
      symmetry. destruct (Z.ltb_spec 0 u), (Z.ltb_spec 0 v); try reflexivity. destruct UV; lia.
    - intros a st k body es st' _ IH w P s ws rest St A E Sp. inversion P as [| | |w0 k0 b0 M Pb]; subst. fold (inner k w) in Pb. specialize (IH (inner k w) Pb).
      cbn [flat_item]. unfold calls. cbn [map]. rewrite map_app. cbn [run map]. fold (calls (flat_map flat_item body)). fold (flat body).
      assert (N := stack_top _ _ St).
      (* the state after Begin *)
      assert (Hb : exists s1 ws1, handle relaxed asserts (mkCall (Begin k true) false) s = Some s1 /\ stack (inner k w :: ws1) /\ scopes s1 = map place_scope (inner k w :: ws1) /\
                     steps s1 = st :: (if saves k then steps s else rest) /\ out s1 = out s ++ [Begin k true] /\
                     (archive_place w || match k with KArchive => true | _ => false end) = archive_place (inner k w) /\
                     (forall x o, forall o2, o2 = o ++ [End k] ->
                        (if throws (mkCall (End k) false) then Some (emit (End k) (mkState (scopes s1) x o)) else match scope_of k with Some oo => pop_scope asserts oo (emit (End k) (mkState (scopes s1) x o)) | None => Some (emit (End k) (mkState (scopes s1) x o)) end) = Some (mkState (scopes s) x o2)) /\
                     check_scope (allowed_end k) s1 = true).
      { unfold handle. cbn [what]. rewrite (check_begin k w ws s E N), M. cbn [andb].
        set (s1 := if saves k then push_attributes s else s). assert (E1 : scopes s1 = scopes s) by (unfold s1; destruct (saves k); reflexivity).
        assert (O1 : out s1 = out s) by (unfold s1; destruct (saves k); reflexivity).
        assert (P1 : steps s1 = st :: (if saves k then steps s else rest)) by (unfold s1; destruct (saves k); [unfold push_attributes; cbn [steps]; rewrite Sp; reflexivity|exact Sp]).
        destruct (scope_of k) as [n|] eqn:K.
        - unfold push_scope. assert (Tp1 : top s1 = place_scope w) by (unfold top; rewrite E1, E; reflexivity). rewrite Tp1, (is_archive_place w N).
          assert (NK : is_archive n = match k with KArchive => true | _ => false end) by (destruct k; try discriminate K; injection K as <-; reflexivity). rewrite NK.
          destruct (archive_place w && negb match k with KArchive => true | _ => false end) eqn:B.
          + apply andb_true_iff in B as [B1 B2]. apply archive_place_true in B1. subst w.
            assert (Ik : inner k (Inside KArchive) = Inside KArchive) by (destruct k; try reflexivity).
            exists (emit (Begin k true) s1), ws. rewrite Ik. split; [reflexivity|]. split; [exact St|]. split; [unfold emit; cbn [scopes]; rewrite E1; exact E|]. split; [exact P1|].
            split; [unfold emit; cbn [out]; rewrite O1; reflexivity|]. split; [reflexivity|]. split.
            * intros x o o2 ->. unfold emit. cbn [throws scopes steps out]. rewrite E1. unfold pop_scope. cbn [scopes]. destruct (length (scopes s) =? 1)%nat; [reflexivity|].
              unfold top. cbn [scopes]. rewrite E. cbn [map hd place_scope scope_of is_archive]. rewrite NK, B2. reflexivity.
            * unfold check_scope, top, emit. cbn [scopes]. rewrite E1, E. destruct k; reflexivity.
          + assert (KR : k <> KResource) by (intros ->; discriminate).
            assert (WK : w = Inside KArchive -> k = KArchive) by (intros ->; cbn in B; destruct k; try discriminate B; reflexivity).
            assert (Ik : inner k w = Inside k) by (unfold inner; destruct k; try congruence; destruct w as [| |[]]; try reflexivity; specialize (WK eq_refl); discriminate).
            assert (St2 := stack_block k w ws KR WK St).
            eexists (emit (Begin k true) (mkState (n :: scopes s1) (steps s1) (out s1))), (w :: ws). rewrite Ik. split; [reflexivity|]. split; [exact St2|].
            split; [unfold emit; cbn [scopes map place_scope]; rewrite K, E1, E; reflexivity|]. split; [exact P1|]. split; [unfold emit; cbn [out]; rewrite O1; reflexivity|].
            split; [destruct w as [| |[]]; destruct k; try reflexivity; specialize (WK eq_refl); discriminate|]. split.
            * intros x o o2 ->. unfold emit. cbn [throws scopes steps out]. rewrite E1.
              rewrite (pop_place n (Inside k) (w :: ws)); [cbn [steps out]; rewrite <- E; reflexivity|exact St2|cbn [scopes map place_scope]; rewrite K, E; reflexivity|cbn [length]; lia|cbn [place_scope]; rewrite K; reflexivity].
            * unfold check_scope, top, emit. cbn [scopes hd]. destruct k; try congruence; injection K as <-; reflexivity.
        - destruct k; try discriminate K. exists (emit (Begin KResource true) s1), ws. split; [reflexivity|]. split; [exact St|]. split; [unfold emit; cbn [scopes]; rewrite E1; exact E|].
          split; [exact P1|]. split; [unfold emit; cbn [out]; rewrite O1; reflexivity|]. split; [destruct w as [| |[]]; reflexivity|]. split.
          + intros x o o2 ->. unfold emit. cbn [throws scopes steps out]. rewrite E1. reflexivity.
          + reflexivity. }
      destruct Hb as (s1 & ws1 & H1 & St1 & E1 & P1 & O1 & A1 & Pop & Ce). rewrite H1. rewrite run_app.
      rewrite (IH s1 ws1 _ St1 A1 E1 P1). cbn [run].
      assert (HE : handle relaxed asserts (mkCall (End k) false) (mkState (scopes s1) (st' :: (if saves k then steps s else rest)) (out s1 ++ es)) =
                   Some (mkState (scopes s) ((if restores k then st else st') :: rest) (out s ++ Begin k true :: es ++ [End k]))).
      { unfold handle. cbn [what]. replace (check_scope (allowed_end k) (mkState (scopes s1) (st' :: (if saves k then steps s else rest)) (out s1 ++ es))) with true
          by (symmetry; unfold check_scope, top in *; exact Ce).
        destruct (saves k) eqn:Sv.
        - unfold pop_attributes. cbn [scopes steps out length tl]. rewrite Sp. cbn [length Nat.ltb Nat.leb].
          rewrite (Pop (st :: rest) (out s1 ++ es) (out s ++ Begin k true :: es ++ [End k])).
          + replace (restores k) with true by (destruct k; try reflexivity; discriminate Sv). reflexivity.
          + rewrite O1, <- !app_assoc. reflexivity.
        - rewrite (Pop (st' :: rest) (out s1 ++ es) (out s ++ Begin k true :: es ++ [End k])).
          + replace (restores k) with false by (destruct k; try reflexivity; discriminate Sv). reflexivity.
          + rewrite O1, <- !app_assoc. reflexivity. }
      rewrite HE. reflexivity.
    - intros a st w P s ws rest St A E Sp. cbn. rewrite app_nil_r, <- Sp. f_equal. apply state_eta.
    - intros a st i l es st1 es' st2 _ IH1 _ IH2 w P s ws rest St A E Sp. unfold flat. cbn [flat_map]. unfold calls. rewrite map_app. fold (calls (flat_item i)). fold (calls (flat_map flat_item l)). fold (flat l).
      rewrite run_app. rewrite (IH1 w (P i (or_introl eq_refl)) s ws rest St A E Sp).
      rewrite (IH2 w (fun j I => P j (or_intror I)) (mkState (scopes s) (st1 :: rest) (out s ++ es)) ws rest St A E eq_refl). cbn [scopes out]. rewrite <- app_assoc. reflexivity.
  Qed.
  Theorem keeps_all_tracked a st l es st' : keeps_all relaxed a st l es st' -> forall w, (forall i, In i l -> placed w i) -> tracked a st (flat l) es st' w.
  Proof.
    induction 1 as [a st|a st i l es st1 es' st2 K _ IH2]; intros w P s ws rest St A E Sp.
    - cbn. rewrite app_nil_r, <- Sp. f_equal. apply state_eta.
    - unfold flat. cbn [flat_map]. unfold calls. rewrite map_app. fold (calls (flat_item i)). fold (calls (flat_map flat_item l)). fold (flat l).
      rewrite run_app. rewrite (keeps_tracked _ _ _ _ _ K w (P i (or_introl eq_refl)) s ws rest St A E Sp).
      rewrite (IH2 w (fun j I => P j (or_intror I)) (mkState (scopes s) (st1 :: rest) (out s ++ es)) ws rest St A E eq_refl). cbn [scopes out]. rewrite <- app_assoc. reflexivity.
  Qed.
End Run.

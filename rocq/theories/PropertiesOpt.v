(** C49: option requests change the options in force and nothing else. *)

From Coq Require Import List Bool ZArith QArith Arith Lia String.
From Verif Require Import HashModel SearchModel OptModel OptSpec OptProofs.
Import ListNotations.
Open Scope nat_scope.

Section Options.
  Variable word : Z.
  Variable env : list Z -> option (list Z).

  (** What reading the options object [o] gives: the values of [s]. *)
  Definition reads (names : list name) (st : state) (o : nat) (s : sopt) : Prop :=
    (forall nm pm t, In nm names ->
       get word st o nm pm t =
       match s_val s nm pm with
       | None => Ok None
       | Some (t', v) => if ty_eqb t' t then Ok (Some v) else Undef
       end) /\
    o_filter (obj_at st o) = s_filter s /\
    get_imager st o = Ok (s_imager s).

  (** The same things are read from two options objects. *)
  Definition same_reads (names : list name) (st st' : state) (o o' : nat) : Prop :=
    (forall nm pm t, In nm names -> get word st' o' nm pm t = get word st o nm pm t) /\
    o_filter (obj_at st' o') = o_filter (obj_at st o) /\
    get_imager st' o' = get_imager st o.

  Lemma reads_same : forall names st st' o o' s, reads names st o s -> reads names st' o' s ->
    same_reads names st st' o o'.
  Proof.
    intros names st st' o o' s (A & B & C) (A' & B' & C'); split; [|split; congruence].
    intros; rewrite A, A' by assumption; reflexivity.
  Qed.

  Lemma shows_reads : forall names st o s, Good names st -> In o (roots st) ->
    shows word names st o s -> reads names st o s.
  Proof.
    intros names st o s G I (S1 & S2 & S3); split; [|split; [congruence|]].
    - intros nm pm t In_; unfold get; rewrite (S1 nm pm In_).
      destruct (p_parameter word st o nm pm) as [[ty v]|]; reflexivity.
    - unfold get_imager.
      destruct (s_imager s), (o_imager (obj_at st o)) as [i|] eqn:E; try contradiction; [|reflexivity].
      assert (L : i < List.length (imagers st)).
      { apply (g_imager _ _ G (obj_at st o)); [|exact E].
        apply nth_In; apply (g_roots _ _ G); exact I. }
      pose proof (g_imagers _ _ G _ (nth_In _ (0%Z, false) L)) as T.
      destruct (nth i (imagers st) (0%Z, false)) as [x b]; cbn [snd fst] in *; subst; reflexivity.
  Qed.

  Lemma run_app : forall l1 l2 st, run word env st (l1 ++ l2) = bind (run word env st l1) (fun st1 => run word env st1 l2).
  Proof.
    induction l1 as [|a l1 IH]; intros l2 st; cbn [app run bind]; [reflexivity|].
    destruct (step word env st a); cbn [bind]; [apply IH | reflexivity | reflexivity].
  Qed.

  Lemma s_run_app : forall l1 l2 ss, s_run env ss (l1 ++ l2) =
    match s_run env ss l1 with Some ss1 => s_run env ss1 l2 | None => None end.
  Proof.
    induction l1 as [|a l1 IH]; intros l2 ss; cbn [app s_run]; [reflexivity|].
    destruct (s_step env ss a); [apply IH | reflexivity].
  Qed.

  Section Program.
    Variable names : list name.
    Variable cs : list cell.
    Variable filter : Z.
    Hypothesis nc : no_clash word names.

    Lemma reach : forall ops ss, incl (names_used cs ops) names ->
      s_run env (s_start cs filter) ops = Some ss ->
      exists st a, run word env (start cs filter) ops = Ok st /\ Good names st /\ Rel word names a st ss.
    Proof.
      intros ops ss I E.
      destruct (start_ok word names cs filter nc) as (G0 & a0 & R0).
      { intros c J; apply I; unfold names_used; apply in_or_app; right; apply in_or_app; left; apply in_map; exact J. }
      apply (run_ok word env names nc) with (a := a0) (ss := s_start cs filter); auto.
      - split; apply I; [left | right; left]; reflexivity.
      - intros o J n K; apply I; unfold names_used; apply in_or_app; right; apply in_or_app; right.
        apply in_flat_map; exists o; auto.
    Qed.

    Lemma current_reads : forall st a ss, Good names st -> Rel word names a st ss ->
      s_current (s_blocks ss) = Some (a (current st)) /\ reads names st (current st) (a (current st)).
    Proof.
      intros st a ss G (R1 & R2 & R3).
      destruct (owner_split _ (g_blocks _ _ G)) as (pre & b & post & Eb & P & K & W & B).
      split.
      - rewrite R2, Eb, s_current_at by assumption; unfold current, owner_block; rewrite B; reflexivity.
      - pose proof (current_in names st G); apply shows_reads; auto.
    Qed.

    (** C49: any number of requests, with blocks beginning and ending, options
        being pushed and popped and pointers to them being kept: the options
        in force, and the options somebody keeps, read as options that are
        plain values would, each with no object shared.  [s_run] is [None]
        where a request is one of those refuted below. *)
    Theorem C49_partial : forall ops ss, incl (names_used cs ops) names ->
      s_run env (s_start cs filter) ops = Some ss ->
      exists st c, run word env (start cs filter) ops = Ok st /\
        s_current (s_blocks ss) = Some c /\ reads names st (current st) c /\
        Forall2 (reads names st) (held st) (s_held ss).
    Proof.
      intros ops ss I E.
      destruct (reach ops ss I E) as (st & a & Ers & G & Rr).
      destruct (current_reads st a ss G Rr) as (C & D).
      exists st, (a (current st)); split; [exact Ers|]; split; [exact C|]; split; [exact D|].
      destruct Rr as (R1 & R2 & R3); rewrite R3.
      assert (H : forall o, In o (held st) -> reads names st o (a o)).
      { intros o J; assert (In o (roots st)) by (unfold roots; apply in_or_app; right; exact J).
        apply shows_reads; auto. }
      clear R3; induction (held st) as [|x l IH]; cbn [map]; constructor; [apply H; left; reflexivity|].
      apply IH; intros o J; apply H; right; exact J.
    Qed.

    (** C49: a request which gives a parameter values, of the type and number
        that it has if it is there already: it then has those values, and
        everything else reads as before. *)
    Theorem C49_request_partial : forall ops ss st nm pm t vals,
      incl (names_used cs (ops ++ [Set_ nm pm t vals])) names ->
      s_run env (s_start cs filter) ops = Some ss ->
      run word env (start cs filter) ops = Ok st ->
      vals <> [] ->
      nm <> searchpath -> nm <> defaultsearchpath ->
      (get word st (current st) nm pm t = Ok None \/
       exists old, get word st (current st) nm pm t = Ok (Some old) /\ List.length old = List.length vals) ->
      exists st', run word env (start cs filter) (ops ++ [Set_ nm pm t vals]) = Ok st' /\
        get word st' (current st') nm pm t = Ok (Some vals) /\
        (forall nm' pm' t', In nm' names -> nm' <> nm \/ pm' <> pm ->
           get word st' (current st') nm' pm' t' = get word st (current st) nm' pm' t') /\
        o_filter (obj_at st' (current st')) = o_filter (obj_at st (current st)) /\
        get_imager st' (current st') = get_imager st (current st).
    Proof.
      intros ops ss st nm pm t vals I E Ers V N1 N2 Old.
      assert (I0 : incl (names_used cs ops) names).
      { intros x J; apply I; unfold names_used in *; rewrite flat_map_app, !in_app_iff in *; tauto. }
      assert (Inm : In nm names).
      { apply I; unfold names_used; rewrite flat_map_app, !in_app_iff; right; right; right; left; reflexivity. }
      destruct (reach ops ss I0 E) as (st0 & a & Ers0 & G & Rr); rewrite Ers in Ers0; injection Ers0 as <-.
      destruct (current_reads st a ss G Rr) as (C & D).
      set (c := a (current st)) in *.
      assert (Es : s_set env c nm pm t vals = Some
                {| s_val := fun n p => if same_name n nm && same_name p pm then Some (t, vals) else s_val c n p;
                   s_filter := s_filter c; s_imager := s_imager c |}).
      { unfold s_set; pose proof (proj1 D nm pm t Inm) as Gt.
        assert (F1 : same_name nm searchpath = false) by (unfold same_name; destruct (list_eq_dec _ _ _); congruence).
        assert (F2 : same_name nm defaultsearchpath = false) by (unfold same_name; destruct (list_eq_dec _ _ _); congruence).
        rewrite F1, F2.
        destruct (s_val c nm pm) as [[t' o]|].
        - destruct (ty_eqb t' t) eqn:T; [|destruct Old as [Old|(? & Old & _)]; rewrite Gt in Old; discriminate Old].
          destruct Old as [Old|(o' & Old & L)]; rewrite Gt in Old; [discriminate Old|]; injection Old as <-.
          rewrite L, Nat.eqb_refl; cbn [andb]; destruct vals; [congruence|]; destruct t; reflexivity.
        - destruct vals; [congruence|]; destruct t; reflexivity. }
      assert (Et : exists ss', s_run env (s_start cs filter) (ops ++ [Set_ nm pm t vals]) = Some ss' /\
                     s_current (s_blocks ss') = s_set env c nm pm t vals).
      { rewrite s_run_app, E; cbn [s_run s_step].
        destruct Rr as (R1 & R2 & R3).
        destruct (owner_split _ (g_blocks _ _ G)) as (pre & b & post & Eb & P & K & W & B).
        assert (Ec : a (b_cur b) = c) by (unfold c, current, owner_block; rewrite B; reflexivity).
        rewrite R2, Eb, s_change_at by assumption.
        rewrite Ec, Es; cbn [option_map on_blocks fst snd]; eexists; split; [reflexivity|]; cbn [s_blocks].
        clear; induction pre; cbn [map app s_current]; auto. }
      destruct Et as (ss' & E' & C').
      destruct (C49_partial _ _ I E') as (st' & c' & Ers' & Ec' & D' & _).
      rewrite C', Es in Ec'; injection Ec' as <-.
      exists st'; split; [exact Ers'|]; destruct D' as (A1 & A2 & A3), D as (B1 & B2 & B3).
      cbn [s_val s_filter s_imager] in *.
      assert (Refl : forall n, same_name n n = true) by (intros n; unfold same_name; destruct (list_eq_dec _ n n); congruence).
      split; [|split; [|split; congruence]].
      - rewrite A1 by exact Inm; rewrite !Refl; cbn [andb]; destruct t; reflexivity.
      - intros nm' pm' t' J Df; rewrite A1, B1 by exact J.
        destruct (same_name nm' nm && same_name pm' pm) eqn:Q; [|reflexivity].
        unfold same_name in Q; destruct (list_eq_dec Z.eq_dec nm' nm), (list_eq_dec Z.eq_dec pm' pm); try discriminate Q.
        destruct Df; contradiction.
    Qed.

    (** C49: options that somebody keeps a pointer to do not change. *)
    Theorem C49_kept_partial : forall ops more ss ss' st, incl (names_used cs (ops ++ more)) names ->
      s_run env (s_start cs filter) ops = Some ss -> s_run env ss more = Some ss' ->
      run word env (start cs filter) ops = Ok st ->
      (forall i, ~ In (Release i) more) ->
      exists st', run word env (start cs filter) (ops ++ more) = Ok st' /\
        forall i, i < List.length (held st) -> i < List.length (held st') /\
          same_reads names st st' (nth i (held st) 0) (nth i (held st') 0).
    Proof.
      intros ops more ss ss' st I E E' Ers Nr.
      assert (I0 : incl (names_used cs ops) names).
      { intros x J; apply I; unfold names_used in *; rewrite flat_map_app, !in_app_iff in *; tauto. }
      destruct (C49_partial ops ss I0 E) as (st0 & c & Ers0 & _ & _ & F0); rewrite Ers in Ers0; injection Ers0 as <-.
      assert (E2 : s_run env (s_start cs filter) (ops ++ more) = Some ss') by (rewrite s_run_app, E; exact E').
      destruct (C49_partial _ _ I E2) as (st' & c' & Ers' & _ & _ & F1).
      exists st'; split; [exact Ers'|].
      assert (H : exists suf, s_held ss' = s_held ss ++ suf).
      { clear - E' Nr; revert ss E'; induction more as [|o more IH]; intros ss E'; cbn [s_run] in E'.
        - injection E' as <-; exists []; rewrite app_nil_r; reflexivity.
        - destruct (s_step env ss o) as [s1|] eqn:S1; [|discriminate].
          destruct (IH (fun i J => Nr i (or_intror J)) s1 E') as (suf & Hs); rewrite Hs.
          destruct o as [k|k| | | |i|nm pm t vals|f|s|ws]; cbn [s_step] in S1; unfold on_blocks in S1.
          + destruct k; injection S1 as <-; exists suf; reflexivity.
          + destruct k; injection S1 as <-; exists suf; reflexivity.
          + destruct (s_change _ _); [injection S1 as <-; exists suf; reflexivity | discriminate].
          + destruct (s_change _ _); [injection S1 as <-; exists suf; reflexivity | discriminate].
          + destruct (s_current _); [injection S1 as <-; eexists; cbn [s_held]; rewrite <- app_assoc; reflexivity | discriminate].
          + exfalso; apply (Nr i); left; reflexivity.
          + destruct (s_change _ _); [injection S1 as <-; exists suf; reflexivity | discriminate].
          + destruct (s_change _ _); [injection S1 as <-; exists suf; reflexivity | discriminate].
          + destruct (s_change _ _); [injection S1 as <-; exists suf; reflexivity | discriminate].
          + destruct (s_change _ _); [injection S1 as <-; exists suf; reflexivity | discriminate]. }
      destruct H as (suf & H); rewrite H in F1.
      revert F0 F1; generalize (s_held ss) as hs; generalize (held st') as h'; generalize (held st) as h.
      clear; induction h as [|x h IH]; intros h' hs F0 F1 i L; cbn [List.length] in L; [lia|].
      destruct hs as [|y hs]; [inversion F0|]; destruct h' as [|x' h']; [inversion F1|].
      assert (F0' : Forall2 (reads names st) h hs) by (inversion F0; assumption).
      assert (F1' : Forall2 (reads names st') h' (hs ++ suf)) by (inversion F1; assumption).
      assert (Fx : reads names st x y /\ reads names st' x' y) by (inversion F0; inversion F1; auto); destruct Fx.
      destruct i as [|i]; cbn [nth List.length].
      - split; [lia|]; eapply reads_same; eassumption.
      - destruct (IH h' hs F0' F1' i) as (A & B); [lia|]; split; [lia | exact B].
    Qed.

    Lemma shape : forall body, Balanced body -> forall n k c l bs h ss',
      s_run env {| s_blocks := repeat Plain n ++ Owner k c l :: bs; s_held := h |} body = Some ss' ->
      exists c' l', s_blocks ss' = repeat Plain n ++ Owner k c' l' :: bs.
    Proof.
      assert (Ch : forall f n k c l bs bs', s_change f (repeat Plain n ++ Owner k c l :: bs) = Some bs' ->
                 exists c' l', bs' = repeat Plain n ++ Owner k c' l' :: bs).
      { induction n as [|n IH]; intros k c l bs bs' E; cbn [repeat app s_change] in E |- *.
        - destruct (f c l) as [[c' l']|]; [injection E as <-; eauto | discriminate].
        - destruct (s_change f _) as [b|] eqn:B; [|discriminate]; injection E as <-.
          destruct (IH k c l bs b B) as (c' & l' & ->); eauto. }
      induction 1 as [|a r Oa Hr IH|a r Ha IHa Hr IHr]; intros n k c l bs h ss' E.
      - injection E as <-; exists c, l; reflexivity.
      - cbn [s_run] in E; destruct (s_step env _ a) as [s1|] eqn:S1; [|discriminate].
        assert (X : exists c1 l1, s_blocks s1 = repeat Plain n ++ Owner k c1 l1 :: bs).
        { destruct a as [k'|k'| | | |i|nm pm t vals|f|s|ws]; try contradiction; cbn [s_step s_blocks s_held] in S1;
            unfold on_blocks in S1;
            try (match type of S1 with option_map _ ?x = _ => destruct x as [y|] eqn:Y; [|discriminate S1] end;
                 injection S1 as <-; cbn [s_blocks]; eauto; fail).
          destruct (i <? List.length h); [injection S1 as <-; cbn [s_blocks]; eauto | discriminate]. }
        destruct X as (c1 & l1 & X), s1 as [b1 h1]; cbn [s_blocks] in X; subst b1.
        apply (IH _ _ _ _ _ _ _ E).
      - cbn [s_run] in E; cbn [s_step s_blocks on_blocks option_map] in E.
        assert (X : match repeat Plain n ++ Owner k c l :: bs with [] => [] | _ => Plain :: repeat Plain n ++ Owner k c l :: bs end
                    = repeat Plain (S n) ++ Owner k c l :: bs) by (destruct n; reflexivity).
        rewrite X, s_run_app in E; clear X.
        destruct (s_run env _ a) as [s1|] eqn:S1; [|discriminate].
        destruct (IHa _ _ _ _ _ _ _ S1) as (c1 & l1 & X), s1 as [b1 h1]; cbn [s_blocks] in X; subst b1.
        cbn [s_run s_step s_blocks s_held on_blocks option_map repeat app] in E.
        apply (IHr _ _ _ _ _ _ _ E).
    Qed.

    (** C49: a frame leaves the options as they were before it. *)
    Theorem C49_frame_partial : forall ops body ss ss' st,
      incl (names_used cs (ops ++ Begin Frame :: body ++ [End_ Frame])) names ->
      s_run env (s_start cs filter) ops = Some ss ->
      run word env (start cs filter) ops = Ok st -> List.length (blocks st) = 1 ->
      Balanced body -> s_run env ss (Begin Frame :: body ++ [End_ Frame]) = Some ss' ->
      exists st', run word env (start cs filter) (ops ++ Begin Frame :: body ++ [End_ Frame]) = Ok st' /\
        List.length (blocks st') = 1 /\
        same_reads names st st' (current st) (current st').
    Proof.
      intros ops body ss ss' st I E Ers L1 Bd E'.
      assert (I0 : incl (names_used cs ops) names).
      { intros x J; apply I; unfold names_used in *; rewrite flat_map_app, !in_app_iff in *; tauto. }
      destruct (reach ops ss I0 E) as (st0 & a & Ers0 & G & Rr); rewrite Ers in Ers0; injection Ers0 as <-.
      assert (E2 : s_run env (s_start cs filter) (ops ++ Begin Frame :: body ++ [End_ Frame]) = Some ss')
        by (rewrite s_run_app, E; exact E').
      destruct (reach _ _ I E2) as (st' & a' & Ers' & G' & Rr').
      exists st'; split; [exact Ers'|].
      assert (Sb : s_blocks ss' = s_blocks ss).
      { destruct (g_blocks _ _ G) as (p & m & Eb & M & NM).
        assert (p = []) by (rewrite Eb, app_length in L1; cbn in L1; destruct p; [reflexivity | cbn in L1; lia]); subst p.
        destruct Rr as (_ & R2 & _); rewrite Eb in R2; cbn [app map] in R2; unfold babs in R2; rewrite M in R2.
        rewrite R2; cbn [s_run s_step] in E'; rewrite R2 in E'; cbn [on_blocks option_map] in E'.
        rewrite s_run_app in E'; destruct (s_run env _ body) as [s1|] eqn:S1; [|discriminate].
        destruct (shape body Bd 0 Frame _ _ _ _ _ S1) as (c1 & l1 & X); cbn [repeat app] in X.
        cbn [s_run s_step] in E'; rewrite X in E'; cbn [on_blocks option_map] in E'; injection E' as <-.
        cbn [s_blocks]; reflexivity. }
      destruct (current_reads st a ss G Rr) as (C & D), (current_reads st' a' ss' G' Rr') as (C' & D').
      rewrite Sb, C in C'; injection C' as C'; rewrite <- C' in D'.
      split; [|apply (reads_same _ _ _ _ _ _ D D')].
      destruct Rr as (_ & R2 & _), Rr' as (_ & R2' & _).
      rewrite <- (map_length (babs a')), <- R2', Sb, R2, map_length; exact L1.
    Qed.
  End Program.
End Options.
Print Assumptions C49_partial.
Print Assumptions C49_request_partial.
Print Assumptions C49_kept_partial.
Print Assumptions C49_frame_partial.

(** The hypothesis on names is met by the names of the default options and
    those used here. *)
Definition used : list name :=
  map text ["searchpath"; "defaultsearchpath"; "System"; "Quantize"; "limits"; "user"]%string.

Definition clash_free (word : Z) (l : list name) : bool :=
  forallb (fun a => forallb (fun b => negb (hash word a =? hash word b)%Z || same_name a b) l) l.

Lemma clash_free_ok : forall word l, clash_free word l = true -> no_clash word l.
Proof.
  intros word l H a b Ia Ib E; unfold clash_free in H; rewrite forallb_forall in H.
  specialize (H a Ia); rewrite forallb_forall in H; specialize (H b Ib).
  rewrite E, Z.eqb_refl in H; cbn [negb orb] in H; unfold same_name in H.
  destruct (list_eq_dec Z.eq_dec a b); [assumption | discriminate].
Qed.

Example C49_names : no_clash (2 ^ 64) used /\ no_clash (2 ^ 32) used.
Proof. split; apply clash_free_ok; vm_compute; reflexivity. Qed.

Definition no_env (s : list Z) : option (list Z) := None.
Definition ints (l : list Z) : list elt := map (fun z => Num (inject_Z z)) l.
Definition strs (l : list string) : list elt := map (fun s => Str (text s)) l.

(** A scene: a resolution and a search path for all frames, a frame which
    sets both anew, with a world whose renderer keeps the options and whose
    shadow pass pushes its own. *)
Definition frame_body : list op :=
  [Set_ (text "System") (text "Resolution") TInteger (ints [320; 240]%Z);
   Set_ searchpath (text "shader") TString (strs ["&:frame"]%string);
   Set_ (text "limits") (text "bucketsize") TInteger (ints [16; 16]%Z);
   Begin Inner; Hold;
   PushSet [(text "System", text "Resolution", TInteger, ints [512; 512]%Z)];
   SetFilter 4; Pop;
   Set_ (text "System") (text "Exposure") TFloat [Num 2; Num 1];
   End_ Inner].

Definition scene : list op :=
  [Set_ defaultsearchpath (text "shader") TString (strs ["/std"]%string);
   Set_ searchpath (text "shader") TString (strs ["@:/home"]%string);
   Set_ (text "System") (text "Resolution") TInteger (ints [800; 600]%Z); SetFilter 2; SetImager 7].

Definition read (ops : list op) (nm pm : string) (t : ty) : res (option (list elt)) :=
  bind (run (2 ^ 64) no_env (start default_options 0) ops) (fun st =>
  get (2 ^ 64) st (current st) (text nm) (text pm) t).

Definition read_held (ops : list op) (i : nat) (nm pm : string) (t : ty) : res (option (list elt)) :=
  bind (run (2 ^ 64) no_env (start default_options 0) ops) (fun st =>
  get (2 ^ 64) st (nth i (held st) 0) (text nm) (text pm) t).

Example C49_scene :
  (exists ss, s_run no_env (s_start default_options 0) (scene ++ Begin Frame :: frame_body ++ [End_ Frame]) = Some ss) /\
  incl (names_used default_options (scene ++ Begin Frame :: frame_body ++ [End_ Frame])) used /\
  Balanced frame_body.
Proof.
  split; [|split].
  - eexists; vm_compute; reflexivity.
  - intros n I; cbn [names_used scene frame_body default_options map flat_map op_names app c_name fst In] in I.
    unfold used; cbn [map In]; unfold searchpath, defaultsearchpath in I; tauto.
  - unfold frame_body; do 3 (apply balanced_other; [exact I|]).
    apply (balanced_block [Hold; PushSet [(text "System", text "Resolution", TInteger, ints [512; 512]%Z)]; SetFilter 4; Pop;
      Set_ (text "System") (text "Exposure") TFloat [Num 2; Num 1]] []).
    + repeat (apply balanced_other; [exact I|]); constructor.
    + constructor.
Qed.

Example C49_scene_reads :
  let inside := scene ++ Begin Frame :: frame_body in
  let after := inside ++ [End_ Frame] in
  read scene "System" "Resolution" TInteger = Ok (Some (ints [800; 600]%Z)) /\
  read scene "searchpath" "shader" TString = Ok (Some (strs ["/std:/home"]%string)) /\
  read inside "System" "Resolution" TInteger = Ok (Some (ints [320; 240]%Z)) /\
  read inside "searchpath" "shader" TString = Ok (Some (strs ["/std:/home:frame"]%string)) /\
  read inside "System" "Exposure" TFloat = Ok (Some [Num 2; Num 1]) /\
  read_held inside 0 "System" "Exposure" TFloat = Ok (Some [Num 1; Num 1]) /\
  read after "System" "Resolution" TInteger = Ok (Some (ints [800; 600]%Z)) /\
  read after "searchpath" "shader" TString = Ok (Some (strs ["/std:/home"]%string)) /\
  read after "System" "Exposure" TFloat = Ok (Some [Num 1; Num 1]) /\
  read after "limits" "bucketsize" TInteger = Ok None.
Proof. vm_compute. repeat split. Qed.

(** Not so: an imager set for all frames is deleted when a frame sets its own,
    and used after that. *)
Theorem C49_imager_refuted :
  let ops := [SetImager 1; Begin Frame; SetImager 2; End_ Frame] in
  (exists st, run (2 ^ 64) no_env (start default_options 0) ops = Ok st /\
     get_imager st (current st) = Undef) /\
  run (2 ^ 64) no_env (start default_options 0) (ops ++ [SetImager 3]) = Undef.
Proof. split; [eexists; split|]; vm_compute; reflexivity. Qed.
Print Assumptions C49_imager_refuted.

(** Not so: values of another number or type than those the parameter has.
    More of them are written beyond the end of the array, fewer leave the rest
    as it was, and those of another type are written through a pointer to the
    wrong type. *)
Theorem C49_size_refuted :
  read [Set_ (text "user") (text "a") TFloat [Num 1; Num 2];
        Set_ (text "user") (text "a") TFloat [Num 3; Num 4; Num 5]] "user" "a" TFloat = Undef /\
  read [Set_ (text "user") (text "a") TFloat [Num 1; Num 2];
        Set_ (text "user") (text "a") TFloat [Num 3]] "user" "a" TFloat = Ok (Some [Num 3; Num 2]) /\
  read [Set_ (text "user") (text "a") TFloat [Num 1];
        Set_ (text "user") (text "a") TString (strs ["b"]%string)] "user" "a" TString = Undef.
Proof. vm_compute. repeat split. Qed.
Print Assumptions C49_size_refuted.

(** Not so: a search path with a '%' that is not closed. *)
Theorem C49_hang_refuted :
  read [Set_ searchpath (text "shader") TString (strs ["100%"]%string)] "searchpath" "shader" TString = Hang.
Proof. vm_compute. reflexivity. Qed.
Print Assumptions C49_hang_refuted.

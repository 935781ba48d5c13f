From Coq Require Import List Bool Arith ZArith Lia.
From Verif Require Import RibBufModel RibTokModel RibTokSpec RibTokProofs RibStackModel RibStackSpec.
Import ListNotations.
Open Scope Z_scope.

Lemma Forall_rest (P : Z -> Prop) l l' : rest_of l l' -> Forall P l -> Forall P l'.
Proof. intros [x ->] H. apply Forall_app in H. apply H. Qed.
Lemma quiet_rest l l' : rest_of l l' -> quiet l -> quiet l'.
Proof. intros R [A B]. split; eapply Forall_rest; eauto. Qed.
Lemma codeless_rest l l' : rest_of l l' -> codeless l -> codeless l'.
Proof. intros R [A B]. split; eapply Forall_rest; eauto. Qed.

Section Stack.
  Variable F : Type.
  Variable of_bits32 of_bits64 of_int : Z -> F.
  Variable add mul : F -> F -> F.
  Variable times_tenth : F -> F.
  Variable tenth : F.
  Variable times_pow10 : F -> Z -> F.
  Variable fixed : Z -> Z -> Z -> F.
  Local Notation token := (token F).
  Local Notation scan := (scan F of_bits32 of_bits64 of_int add mul times_tenth tenth times_pow10 fixed).
  Local Notation do_call := (do_call F of_bits32 of_bits64 of_int add mul times_tenth tenth times_pow10 fixed).
  Local Notation do_calls := (do_calls F of_bits32 of_bits64 of_int add mul times_tenth tenth times_pow10 fixed).
  Local Notation scan_next := (scan_next F of_bits32 of_bits64 of_int add mul times_tenth tenth times_pow10 fixed).
  Local Notation tokeniser := (tokeniser F).
  Local Notation comment_rest := (RibTokProofs.comment_rest).

  Ltac pairs := repeat match goal with
    | H : context [let (_, _) := ?x in _] |- _ => destruct x
    | H : Scanned _ _ _ _ = Scanned _ _ _ _ |- _ => injection H as ? ? ?; subst
    | H : (if ?b then _ else _) = Scanned _ _ _ _ |- _ => destruct b eqn:?
    | H : match ?x with _ => _ end = Scanned _ _ _ _ |- _ => destruct x eqn:?
    | H : Overflow _ = Scanned _ _ _ _ |- _ => discriminate H
    | H : OutOfFuel _ = Scanned _ _ _ _ |- _ => discriminate H
    end.

  Lemma scan_quiet n : forall k l t k' l', quiet l -> left k < 0 -> scan n k l = Scanned F t k' l' -> k' = k.
  Proof.
    induction n as [|n IH]; intros k l t k' l' Q L E; [discriminate|]. cbn [RibTokModel.scan] in E.
    replace (0 <=? left k) with false in E by (symmetry; apply Z.leb_gt; exact L).
    destruct l as [|c r].
    { cbn in E. injection E as ? ? ?. auto. }
    cbn [first hd tl] in E.
    assert (Qr : quiet r) by (eapply quiet_rest; [apply rest_cons, rest_refl|exact Q]).
    assert (Qc : c < 200 \/ 206 < c) by (destruct Q as [_ Q]; inversion Q; assumption).
    destruct ((c =? 32) || (c =? 9) || (c =? LF) || (c =? CR)); [eapply IH; [| |exact E]; auto|].
    destruct (c =? 35); [eapply IH; [| |exact E]; auto; eapply quiet_rest; [apply comment_rest|exact Qr]|].
    destruct (is_digit c || (c =? 45) || (c =? 43) || (c =? 46)).
    { destruct (read_number _ _ _ _ _ _ _ _) as [[? ?]|]; [injection E as ? ? ?; auto|discriminate]. }
    destruct (c =? 34). { destruct (read_string F [] r). injection E as ? ? ?. auto. }
    destruct (c =? 91). { injection E as ? ? ?. auto. }
    destruct (c =? 93). { injection E as ? ? ?. auto. }
    destruct (c <? 128). { destruct (read_request F [] (c :: r)). injection E as ? ? ?. auto. }
    destruct (c <? 132). { destruct (decode_int _ r). injection E as ? ? ?. auto. }
    destruct (c <? 144). { destruct (decode_fixed _ _ _ _ r). injection E as ? ? ?. auto. }
    destruct (c <? 160). { destruct (decode_string F _ r). injection E as ? ? ?. auto. }
    destruct (c <? 164). { destruct (decode_int _ r). destruct (decode_string F _ l). injection E as ? ? ?. auto. }
    destruct (c =? 164). { destruct (decode_float32 _ _ r). injection E as ? ? ?. auto. }
    destruct (c =? 165). { destruct (decode_float64 _ _ r). injection E as ? ? ?. auto. }
    destruct (c =? 166). { destruct (reqs k (first r)); injection E as ? ? ?; auto. }
    destruct (Z.ltb_spec c 200). { injection E as ? ? ?. auto. }
    destruct (Z.ltb_spec c 204); [lia|].
    destruct (Z.eqb_spec c 204); [lia|].
    destruct (Z.ltb_spec c 207); [lia|].
    destruct (c <? 209). { destruct (decode_int _ r). destruct (strs k z); injection E as ? ? ?; auto. }
    destruct (c <? 255); injection E as ? ? ?; auto.
  Qed.

  Lemma scan_eof n : forall k l k' l', scan n k l = Scanned F (TEof F) k' l' -> left k' < 0.
  Proof.
    induction n as [|n IH]; intros k l k' l' E; [discriminate|]. cbn [RibTokModel.scan] in E.
    destruct (Z.leb_spec 0 (left k)) as [L|L].
    { destruct (left k - 1 <? 0); [discriminate|]. destruct (decode_float32 _ _ l). discriminate. }
    destruct ((first l =? 32) || (first l =? 9) || (first l =? LF) || (first l =? CR)); [eapply IH; exact E|].
    destruct (first l =? 35); [eapply IH; exact E|].
    destruct (is_digit (first l) || (first l =? 45) || (first l =? 43) || (first l =? 46)).
    { destruct (read_number _ _ _ _ _ _ _ _) as [[? ?]|]; [injection E as ? ? ?; subst; auto|discriminate]. }
    destruct (first l =? 34). { destruct (read_string F [] (tl l)). injection E as ? ? ?. subst. auto. }
    destruct (first l =? 91). { discriminate. }
    destruct (first l =? 93). { discriminate. }
    destruct (first l <? 128). { destruct (read_request F [] l). injection E as ? ? ?. subst. auto. }
    destruct (first l <? 132). { destruct (decode_int _ (tl l)). discriminate. }
    destruct (first l <? 144). { destruct (decode_fixed _ _ _ _ (tl l)). discriminate. }
    destruct (first l <? 160). { destruct (decode_string F _ (tl l)). injection E as ? ? ?. subst. auto. }
    destruct (first l <? 164). { destruct (decode_int _ (tl l)). destruct (decode_string F _ l0). injection E as ? ? ?. subst. auto. }
    destruct (first l =? 164). { destruct (decode_float32 _ _ (tl l)). discriminate. }
    destruct (first l =? 165). { destruct (decode_float64 _ _ (tl l)). discriminate. }
    destruct (first l =? 166). { destruct (reqs k (first (tl l))); discriminate. }
    destruct (first l <? 200). { discriminate. }
    destruct (first l <? 204). { destruct (decode_int _ (tl l)). discriminate. }
    destruct (first l =? 204).
    { destruct (scan n k (tl (tl l))) as [t k1 l1| |]; try discriminate. destruct t; try discriminate.
      destruct s; [discriminate|]. eapply IH; exact E. }
    destruct (first l <? 207).
    { destruct (decode_int _ (tl l)) as [code l0]. destruct (scan n k l0) as [t k1 l1| |]; try discriminate.
      destruct t; try discriminate. eapply IH; exact E. }
    destruct (first l <? 209). { destruct (decode_int _ (tl l)). destruct (strs k z); discriminate. }
    destruct (first l <? 255); [discriminate|]. injection E as ? ?. subst. auto.
  Qed.

  (** Codes that differ only in their definitions. *)
  Definition like (k1 k2 : coding) : Prop := left k1 = left k2 \/ (left k1 < 0 /\ left k2 < 0).
  Definition alike (x y : scanned F) : Prop :=
    match x, y with
    | Scanned _ t k l, Scanned _ t' k' l' => t = t' /\ l = l' /\ like k k'
    | Overflow _, Overflow _ | OutOfFuel _, OutOfFuel _ => True
    | _, _ => False
    end.
  Lemma alike_refl t k1 k2 l : like k1 k2 -> alike (Scanned F t k1 l) (Scanned F t k2 l).
  Proof. cbn. auto. Qed.

  Lemma scan_rest n : forall k l t k' l', bytes l -> scan n k l = Scanned F t k' l' -> rest_of l l'.
  Proof.
    intros k l t k' l' B E. pose proof (scan_fine F of_bits32 of_bits64 of_int add mul times_tenth tenth times_pow10 fixed
      (n + S (length l)) k l B ltac:(lia)) as X.
    rewrite (scan_more F of_bits32 of_bits64 of_int add mul times_tenth tenth times_pow10 fixed n) in X by (try lia; congruence).
    rewrite E in X. apply X.
  Qed.

  Lemma scan_alike n : forall k1 k2 l, codeless l -> like k1 k2 -> alike (scan n k1 l) (scan n k2 l).
  Proof.
    induction n as [|n IH]; intros k1 k2 l C L; [exact I|]. cbn [RibTokModel.scan].
    destruct (Z.leb_spec 0 (left k1)) as [L1|L1].
    { destruct L as [L|L]; [|lia]. rewrite <- L. rewrite (proj2 (Z.leb_le 0 (left k1))) by lia.
      destruct (left k1 - 1 <? 0); [apply alike_refl; left; reflexivity|].
      destruct (decode_float32 _ _ l). apply alike_refl. left; reflexivity. }
    assert (L2 : left k2 < 0) by (destruct L; lia). rewrite (proj2 (Z.leb_gt 0 (left k2))) by lia.
    destruct l as [|c r]; [cbn; auto|]. cbn [first hd tl].
    assert (Cr : codeless r) by (eapply codeless_rest; [apply rest_cons, rest_refl|exact C]).
    assert (Cc : c <> 166 /\ c <> 207 /\ c <> 208) by (destruct C as [_ C]; inversion C; assumption).
    destruct ((c =? 32) || (c =? 9) || (c =? LF) || (c =? CR)); [apply IH; auto|].
    destruct (c =? 35); [apply IH; auto; eapply codeless_rest; [apply comment_rest|exact Cr]|].
    destruct (is_digit c || (c =? 45) || (c =? 43) || (c =? 46)).
    { destruct (read_number _ _ _ _ _ _ _ _) as [[? ?]|]; [apply alike_refl; exact L|exact I]. }
    destruct (c =? 34). { destruct (read_string F [] r). apply alike_refl; exact L. }
    destruct (c =? 91). { apply alike_refl; exact L. }
    destruct (c =? 93). { apply alike_refl; exact L. }
    destruct (c <? 128). { destruct (read_request F [] (c :: r)). apply alike_refl; exact L. }
    destruct (c <? 132). { destruct (decode_int _ r). apply alike_refl; exact L. }
    destruct (c <? 144). { destruct (decode_fixed _ _ _ _ r). apply alike_refl; exact L. }
    destruct (c <? 160). { destruct (decode_string F _ r). apply alike_refl; exact L. }
    destruct (c <? 164). { destruct (decode_int _ r). destruct (decode_string F _ l). apply alike_refl; exact L. }
    destruct (c =? 164). { destruct (decode_float32 _ _ r). apply alike_refl; exact L. }
    destruct (c =? 165). { destruct (decode_float64 _ _ r). apply alike_refl; exact L. }
    destruct (Z.eqb_spec c 166); [lia|].
    destruct (c <? 200). { apply alike_refl; exact L. }
    destruct (c <? 204). { destruct (decode_int _ r). apply alike_refl. left. reflexivity. }
    destruct (c =? 204).
    { assert (Ct : codeless (tl r)) by (eapply codeless_rest; [apply rest_tl|exact Cr]).
      pose proof (IH k1 k2 (tl r) Ct L) as X.
      destruct (scan n k1 (tl r)) as [t k3 l3| |] eqn:E, (scan n k2 (tl r)) as [t' k4 l4| |]; try contradiction; try exact I.
      destruct X as (<- & <- & X). destruct t; try (apply alike_refl; exact X). destruct s; [apply alike_refl; exact X|].
      apply IH; [|exact X]. eapply codeless_rest; [eapply scan_rest; [apply Ct|exact E]|exact Ct]. }
    destruct (Z.ltb_spec c 207).
    { pose proof (decode_rest (Z.to_nat (c - 205 + 1)) r) as R. destruct (decode_int _ r) as [code l0]. cbn [snd] in R.
      assert (Ct : codeless l0) by (eapply codeless_rest; eauto). pose proof (IH k1 k2 l0 Ct L) as X.
      destruct (scan n k1 l0) as [t k3 l3| |] eqn:E, (scan n k2 l0) as [t' k4 l4| |]; try contradiction; try exact I.
      destruct X as (<- & <- & X). destruct t; try (apply alike_refl; exact X).
      apply IH; [|exact X]. eapply codeless_rest; [eapply scan_rest; [apply Ct|exact E]|exact Ct]. }
    destruct (Z.ltb_spec c 209); [lia|].
    destruct (c <? 255); apply alike_refl; exact L.
  Qed.

  (** * The frames below the top are not touched *)
  Lemma do_calls_app a b s : do_calls (a ++ b) s =
    match do_calls a s with
    | Some (ts, s1) => match do_calls b s1 with Some (ts', s') => Some (ts ++ ts', s') | None => None end
    | None => None
    end.
  Proof.
    revert s. induction a as [|c a IH]; intros s; cbn [app RibStackModel.do_calls].
    - destruct (do_calls b s) as [[ts s']|]; reflexivity.
    - destruct (do_call c s) as [[t1 s1]|]; [|reflexivity]. rewrite IH.
      destruct (do_calls a s1) as [[t2 s2]|]; [|reflexivity].
      destruct (do_calls b s2) as [[t3 s3]|]; [|reflexivity]. rewrite app_assoc. reflexivity.
  Qed.

  Definition same_frame (i j : input F) : Prop := saved_tok F i = saved_tok F j /\ saved_have F i = saved_have F j.

  Lemma scan_next_frame s t is k : scan_next s = Some (t, is, k) ->
    match inputs F s with [] => is = [] | i :: r => exists j, is = j :: r /\ same_frame i j end.
  Proof.
    unfold RibStackModel.scan_next. destruct (inputs F s) as [|i r]; intros E; [injection E as ? ? ?; auto|].
    destruct (scan _ _ _); try discriminate. injection E as ? ? ?. subst. eexists. split; [reflexivity|]. split; reflexivity.
  Qed.

  Definition framed (s s' : tokeniser) : Prop :=
    match inputs F s with [] => inputs F s' = [] | i :: r => exists j, inputs F s' = j :: r /\ same_frame i j end.
  Lemma framed_refl s : framed s s.
  Proof. unfold framed. destruct (inputs F s); [reflexivity|]. eexists. split; [reflexivity|]. split; reflexivity. Qed.
  Lemma framed_trans a b c : framed a b -> framed b c -> framed a c.
  Proof.
    unfold framed. destruct (inputs F a) as [|i r].
    - intros ->. auto.
    - intros (j & -> & A1 & A2) (m & -> & B1 & B2). exists m. split; [reflexivity|]. split; congruence.
  Qed.

  Lemma read_framed c s ts s' : c = Get \/ c = PeekTok \/ c = Unget -> do_call c s = Some (ts, s') -> framed s s'.
  Proof.
    intros [->|[->| ->]]; cbn [RibStackModel.do_call]; unfold t_get, t_peek, t_unget; destruct (have_next F s) eqn:H; intros E.
    - injection E as ? ?. subst. exact (framed_refl s).
    - destruct (scan_next s) as [[[t is] k]|] eqn:N; [|discriminate]. injection E as ? ?. subst. exact (scan_next_frame _ _ _ _ N).
    - injection E as ? ?. subst. exact (framed_refl s').
    - destruct (scan_next s) as [[[t is] k]|] eqn:N; [|discriminate]. injection E as ? ?. subst. exact (scan_next_frame _ _ _ _ N).
    - discriminate.
    - injection E as ? ?. subst. exact (framed_refl s).
  Qed.

  Lemma nested_return b s ts s1 s2 : framed (t_push F b s) s1 -> t_pop F s1 = Some s2 -> do_calls [] s = Some (ts, s) ->
    inputs F s2 = inputs F s /\ next_tok F s2 = next_tok F s /\ have_next F s2 = have_next F s /\ codes F s2 = codes F s1.
  Proof.
    unfold framed, t_pop, t_push. cbn [inputs]. intros (j & E & A & B) P _. rewrite E in P. injection P as <-.
    cbn [inputs next_tok have_next codes]. cbn [saved_tok saved_have] in A, B. auto.
  Qed.

  Lemma balanced_framed cs : balanced cs -> forall s ts s', do_calls cs s = Some (ts, s') -> framed s s'.
  Proof.
    induction 1 as [|c cs R H IH|b cs cs' H IH H' IH']; intros s ts s' E.
    - injection E as ? ?. subst. apply framed_refl.
    - cbn [RibStackModel.do_calls] in E. destruct (do_call c s) as [[t1 s1]|] eqn:D; [|discriminate].
      destruct (do_calls cs s1) as [[t2 s2]|] eqn:D2; [|discriminate]. injection E as ? ?. subst.
      eapply framed_trans; [eapply read_framed; eauto|eauto].
    - cbn [RibStackModel.do_calls RibStackModel.do_call] in E. rewrite do_calls_app in E.
      destruct (do_calls cs (t_push F b s)) as [[t1 s1]|] eqn:D; [|discriminate].
      cbn [RibStackModel.do_calls RibStackModel.do_call] in E. destruct (t_pop F s1) as [s2|] eqn:P; [|discriminate].
      destruct (do_calls cs' s2) as [[t3 s3]|] eqn:D3; [|discriminate]. injection E as ? ?. subst.
      destruct (nested_return b s [] s1 s2 (IH _ _ _ D) P eq_refl) as (A & _).
      eapply framed_trans; [|eapply IH'; eauto]. unfold framed. rewrite A. exact (framed_refl s).
  Qed.

  Lemma returns b cs s ts s' : balanced cs -> do_calls (Push b :: cs ++ [Pop]) s = Some (ts, s') ->
    inputs F s' = inputs F s /\ next_tok F s' = next_tok F s /\ have_next F s' = have_next F s.
  Proof.
    intros B E. cbn [RibStackModel.do_calls RibStackModel.do_call] in E. rewrite do_calls_app in E.
    destruct (do_calls cs (t_push F b s)) as [[t1 s1]|] eqn:D; [|discriminate].
    cbn [RibStackModel.do_calls RibStackModel.do_call] in E. destruct (t_pop F s1) as [s2|] eqn:P; [|discriminate].
    injection E as ? ?. subst. destruct (nested_return b s [] s1 s' (balanced_framed cs B _ _ _ D) P eq_refl) as (A1 & A2 & A3 & _). auto.
  Qed.

  (** * Codes are untouched by quiet streams *)
  Definition top_quiet (s : tokeniser) : Prop := match inputs F s with [] => True | i :: _ => quiet (left_in F i) end.

  Lemma read_quiet c s ts s' : c = Get \/ c = PeekTok \/ c = Unget -> top_quiet s -> left (codes F s) < 0 ->
    do_call c s = Some (ts, s') -> codes F s' = codes F s /\ top_quiet s'.
  Proof.
    intros C Q L.
    assert (N : forall t is k, scan_next s = Some (t, is, k) -> k = codes F s /\ match is with [] => True | i :: _ => quiet (left_in F i) end).
    { intros t is k. unfold RibStackModel.scan_next. unfold top_quiet in Q. destruct (inputs F s) as [|i r]; intros E.
      - injection E as ? ? ?. subst. auto.
      - destruct (scan _ _ _) eqn:S; try discriminate. injection E as ? ? ?. subst.
        split; [eapply scan_quiet; eauto|]. cbn [left_in]. eapply quiet_rest; [|exact Q].
        eapply scan_rest; [apply Q|exact S]. }
    destruct C as [->|[->| ->]]; cbn [RibStackModel.do_call]; unfold t_get, t_peek, t_unget; destruct (have_next F s) eqn:H; intros E.
    - injection E as ? ?. subst. auto.
    - destruct (scan_next s) as [[[t is] k]|] eqn:E2; [|discriminate]. injection E as ? ?. subst. exact (N _ _ _ eq_refl).
    - injection E as ? ?. subst. auto.
    - destruct (scan_next s) as [[[t is] k]|] eqn:E2; [|discriminate]. injection E as ? ?. subst. exact (N _ _ _ eq_refl).
    - discriminate.
    - injection E as ? ?. subst. auto.
  Qed.

  Lemma balanced_quiet cs : balanced cs -> pushes quiet cs -> forall s ts s', top_quiet s -> left (codes F s) < 0 ->
    do_calls cs s = Some (ts, s') -> codes F s' = codes F s /\ top_quiet s'.
  Proof.
    induction 1 as [|c cs R H IH|b cs cs' H IH H' IH']; intros P s ts s' Q L E.
    - injection E as ? ?. subst. auto.
    - cbn [RibStackModel.do_calls] in E. destruct (do_call c s) as [[t1 s1]|] eqn:D; [|discriminate].
      destruct (do_calls cs s1) as [[t2 s2]|] eqn:D2; [|discriminate]. injection E as ? ?. subst.
      destruct (read_quiet _ _ _ _ R Q L D) as [A B]. rewrite <- A in L |- *.
      eapply IH; eauto. intros x I. apply P. right. exact I.
    - cbn [RibStackModel.do_calls RibStackModel.do_call] in E. rewrite do_calls_app in E.
      destruct (do_calls cs (t_push F b s)) as [[t1 s1]|] eqn:D; [|discriminate].
      cbn [RibStackModel.do_calls RibStackModel.do_call] in E. destruct (t_pop F s1) as [s2|] eqn:Po; [|discriminate].
      destruct (do_calls cs' s2) as [[t3 s3]|] eqn:D3; [|discriminate]. injection E as ? ?. subst.
      assert (Pb : quiet b) by (apply P; left; reflexivity).
      assert (P1 : pushes quiet cs) by (intros x I; apply P; right; apply in_app_iff; auto).
      assert (P2 : pushes quiet cs') by (intros x I; apply P; right; apply in_app_iff; right; right; exact I).
      destruct (IH P1 (t_push F b s) _ _ Pb L D) as [A _]. cbn [t_push codes] in A.
      destruct (nested_return b s [] s1 s2 (balanced_framed cs H _ _ _ D) Po eq_refl) as (B1 & _ & _ & B4).
      assert (K : codes F s2 = codes F s) by congruence. rewrite <- K in L |- *.
      eapply IH'; eauto. unfold top_quiet in *. rewrite B1. exact Q.
  Qed.

  Lemma quiet_returns b cs s ts s' : balanced cs -> pushes quiet (Push b :: cs) -> left (codes F s) < 0 ->
    do_calls (Push b :: cs ++ [Pop]) s = Some (ts, s') -> s' = s.
  Proof.
    intros B P L E. pose proof (returns b cs s ts s' B E) as (A1 & A2 & A3).
    cbn [RibStackModel.do_calls RibStackModel.do_call] in E. rewrite do_calls_app in E.
    destruct (do_calls cs (t_push F b s)) as [[t1 s1]|] eqn:D; [|discriminate].
    cbn [RibStackModel.do_calls RibStackModel.do_call] in E. destruct (t_pop F s1) as [s2|] eqn:Po; [|discriminate].
    injection E as ? ?. subst.
    destruct (nested_return b s [] s1 s' (balanced_framed cs B _ _ _ D) Po eq_refl) as (_ & _ & _ & B4).
    destruct (balanced_quiet cs B (fun x I => P x (or_intror I)) (t_push F b s) _ _ (P b (or_introl eq_refl)) L D) as [K _].
    cbn [t_push codes] in K. destruct s, s'. cbn in *. congruence.
  Qed.

  (** * Codes do not matter to streams without uses of codes *)
  Definition alike_state (s1 s2 : tokeniser) : Prop :=
    inputs F s1 = inputs F s2 /\ next_tok F s1 = next_tok F s2 /\ have_next F s1 = have_next F s2 /\
    like (codes F s1) (codes F s2) /\ Forall (fun i => codeless (left_in F i)) (inputs F s1).

  Lemma call_alike c s1 s2 : alike_state s1 s2 -> (forall b, c = Push b -> codeless b) ->
    match do_call c s1, do_call c s2 with
    | Some (t1, s1'), Some (t2, s2') => t1 = t2 /\ alike_state s1' s2'
    | None, None => True
    | _, _ => False
    end.
  Proof.
    intros (A1 & A2 & A3 & A4 & A5) C.
    assert (N : match scan_next s1, scan_next s2 with
      | Some (t1, i1, k1), Some (t2, i2, k2) => t1 = t2 /\ i1 = i2 /\ like k1 k2 /\ Forall (fun i => codeless (left_in F i)) i1
      | None, None => True | _, _ => False end).
    { unfold RibStackModel.scan_next. rewrite <- A1. destruct (inputs F s1) as [|i r]; [auto|].
      inversion A5 as [|? ? Ci Cr]; subst. pose proof (scan_alike (S (length (left_in F i))) _ _ _ Ci A4) as X.
      destruct (scan _ (codes F s1) (left_in F i)) as [t k l| |] eqn:S1, (scan _ (codes F s2) (left_in F i)) as [t' k' l'| |]; try contradiction; try exact I.
      destruct X as (<- & <- & X). repeat split; auto. constructor; [|exact Cr]. cbn [left_in].
      eapply codeless_rest; [|exact Ci]. eapply scan_rest; [apply Ci|exact S1]. }
    assert (K : forall t is k1 k2 h, like k1 k2 -> Forall (fun i => codeless (left_in F i)) is -> alike_state (mkTok F is t h k1) (mkTok F is t h k2))
      by (intros; repeat split; auto).
    destruct c as [| | |b|]; cbn [RibStackModel.do_call].
    - unfold t_get. rewrite <- A3, <- A2, <- A1. destruct (have_next F s1); [split; [reflexivity|]; apply K; auto|].
      destruct (scan_next s1) as [[[t1 i1] k1]|], (scan_next s2) as [[[t2 i2] k2]|]; try contradiction; [|exact I].
      destruct N as (<- & <- & X & Y). split; [reflexivity|]. apply K; auto.
    - unfold t_peek. rewrite <- A3. destruct (have_next F s1) eqn:H; [split; [congruence|]; repeat split; congruence || auto|].
      destruct (scan_next s1) as [[[t1 i1] k1]|], (scan_next s2) as [[[t2 i2] k2]|]; try contradiction; [|exact I].
      destruct N as (<- & <- & X & Y). split; [reflexivity|]. apply K; auto.
    - unfold t_unget. rewrite <- A3, <- A2, <- A1. destruct (have_next F s1); [exact I|]. split; [reflexivity|]. apply K; auto.
    - split; [reflexivity|]. unfold t_push. rewrite <- A1, <- A2, <- A3. apply K; auto.
    - unfold t_pop. rewrite <- A1. destruct (inputs F s1) as [|i r]; [exact I|]. split; [reflexivity|]. apply K; auto.
      inversion A5; auto.
  Qed.

  Lemma calls_alike cs : forall s1 s2, alike_state s1 s2 -> pushes codeless cs ->
    option_map fst (do_calls cs s1) = option_map fst (do_calls cs s2).
  Proof.
    induction cs as [|c cs IH]; intros s1 s2 A P; [reflexivity|]. cbn [RibStackModel.do_calls].
    pose proof (call_alike c s1 s2 A (fun b E => P b (or_introl E))) as X.
    destruct (do_call c s1) as [[t1 s1']|], (do_call c s2) as [[t2 s2']|]; try contradiction; [|reflexivity].
    destruct X as [<- X]. specialize (IH s1' s2' X (fun b I => P b (or_intror I))).
    destruct (do_calls cs s1') as [[? ?]|], (do_calls cs s2') as [[? ?]|]; cbn in *; congruence.
  Qed.

  Lemma read_eof c s ts s' : c = Get \/ c = PeekTok \/ c = Unget -> inputs F s <> [] ->
    (next_tok F s = TEof F -> left (codes F s) < 0) -> do_call c s = Some (ts, s') ->
    inputs F s' <> [] /\ (next_tok F s' = TEof F -> left (codes F s') < 0) /\
    (ts = [next_tok F s'] \/ (ts = [] /\ next_tok F s' = next_tok F s)).
  Proof.
    intros C NE J.
    assert (N : forall t is k, scan_next s = Some (t, is, k) -> is <> [] /\ (t = TEof F -> left k < 0)).
    { intros t is k N. unfold RibStackModel.scan_next in N. destruct (inputs F s) as [|i r]; [congruence|].
      destruct (scan _ _ _) eqn:S; try discriminate. injection N as ? ? ?. subst.
      split; [discriminate|]. intros ->. eapply scan_eof; exact S. }
    destruct C as [->|[->| ->]]; cbn [RibStackModel.do_call]; unfold t_get, t_peek, t_unget; destruct (have_next F s) eqn:H; intros E.
    - injection E as ? ?. subst. cbn. auto.
    - destruct (scan_next s) as [[[t is] k]|] eqn:E2; [|discriminate]. injection E as ? ?. subst. cbn. destruct (N _ _ _ eq_refl). auto.
    - injection E as ? ?. subst. auto.
    - destruct (scan_next s) as [[[t is] k]|] eqn:E2; [|discriminate]. injection E as ? ?. subst. cbn. destruct (N _ _ _ eq_refl). auto.
    - discriminate.
    - injection E as ? ?. subst. cbn. auto.
  Qed.

  Lemma reads_eof cs : Forall (fun c => c = Get \/ c = PeekTok \/ c = Unget) cs -> forall s ts s' d, inputs F s <> [] ->
    (next_tok F s = TEof F -> left (codes F s) < 0) -> (d = TEof F -> next_tok F s = TEof F) -> do_calls cs s = Some (ts, s') ->
    last ts d = TEof F -> left (codes F s') < 0.
  Proof.
    induction 1 as [|c cs C H IH]; intros s ts s' d NE J D E Z.
    - injection E as ? ?. subst. auto.
    - cbn [RibStackModel.do_calls] in E. destruct (do_call c s) as [[t1 s1]|] eqn:X; [|discriminate].
      destruct (do_calls cs s1) as [[t2 s2]|] eqn:D2; [|discriminate]. injection E as ? ?. subst.
      destruct (read_eof c s t1 s1 C NE J X) as (N1 & J1 & [-> | [-> T]]).
      + apply (IH s1 t2 s' (next_tok F s1) N1 J1 (fun e => e) D2). cbn [app] in Z.
        clear - Z. destruct t2 as [|a t2]; [exact Z|]. cbn [last] in Z. revert a Z. induction t2 as [|b t2 IH]; intros a Z; [exact Z|]. apply IH. exact Z.
      + apply (IH s1 t2 s' d N1 J1); auto. intros e. rewrite T. auto.
  Qed.

  Lemma push_eof b cs s ts s' : Forall (fun c => c = Get \/ c = PeekTok \/ c = Unget) cs -> left (codes F s) < 0 ->
    do_calls (Push b :: cs ++ [Pop]) s = Some (ts, s') -> last ts (TError F) = TEof F -> left (codes F s') < 0.
  Proof.
    intros R L E Z. cbn [RibStackModel.do_calls RibStackModel.do_call] in E. rewrite do_calls_app in E.
    destruct (do_calls cs (t_push F b s)) as [[t1 s1]|] eqn:D; [|discriminate].
    cbn [RibStackModel.do_calls RibStackModel.do_call] in E. destruct (t_pop F s1) as [s2|] eqn:Po; [|discriminate].
    injection E as ? ?. subst. rewrite app_nil_r in Z. cbn [app] in Z.
    assert (X : left (codes F s1) < 0).
    { eapply (reads_eof cs R (t_push F b s) t1 s1 (TError F)); auto; discriminate. }
    unfold t_pop in Po. destruct (inputs F s1); [discriminate|]. injection Po as <-. exact X.
  Qed.

  Lemma plain_outer b cs s ts s' later : balanced cs -> do_calls (Push b :: cs ++ [Pop]) s = Some (ts, s') ->
    left (codes F s) < 0 -> left (codes F s') < 0 -> Forall (fun i => codeless (left_in F i)) (inputs F s) -> pushes codeless later ->
    option_map fst (do_calls later s') = option_map fst (do_calls later s).
  Proof.
    intros B E L L' C P. destruct (returns b cs s ts s' B E) as (A1 & A2 & A3). symmetry. apply calls_alike; [|exact P].
    repeat split; auto. right. auto.
  Qed.

  (** * The inner stream does not see the outer one *)
  Definition same_in (i j : input F) : Prop :=
    left_in F i = left_in F j /\ saved_have F i = saved_have F j /\ (saved_have F i = true -> saved_tok F i = saved_tok F j).
  Definition inside (m : nat) (s1 s2 : tokeniser) : Prop :=
    exists top1 top2 i1 i2 r1 r2, inputs F s1 = top1 ++ i1 :: r1 /\ inputs F s2 = top2 ++ i2 :: r2 /\ length top1 = m /\
      Forall2 same_in top1 top2 /\ left_in F i1 = left_in F i2 /\
      have_next F s1 = have_next F s2 /\ (have_next F s1 = true -> next_tok F s1 = next_tok F s2) /\ codes F s1 = codes F s2.
  Definition both (m : nat) (x y : option (list token * tokeniser)) : Prop :=
    match x, y with Some (t1, s1), Some (t2, s2) => t1 = t2 /\ inside m s1 s2 | None, None => True | _, _ => False end.

  Lemma scan_inside m s1 s2 : inside m s1 s2 ->
    match scan_next s1, scan_next s2 with
    | Some (t1, is1, k1), Some (t2, is2, k2) => t1 = t2 /\ forall h, inside m (mkTok F is1 t1 h k1) (mkTok F is2 t2 h k2)
    | None, None => True | _, _ => False end.
  Proof.
    intros (top1 & top2 & i1 & i2 & r1 & r2 & E1 & E2 & Lm & S & I & H & T & K). unfold RibStackModel.scan_next. rewrite E1, E2, <- K.
    destruct S as [|j1 j2 top1 top2 [A1 [A2 A3]] S]; cbn [app].
    - rewrite <- I. destruct (scan _ _ _); auto. split; [reflexivity|]. intros h.
      exists [], []. do 4 eexists. split; [reflexivity|]. split; [reflexivity|]. split; [exact Lm|]. split; [constructor|]. cbn. auto.
    - rewrite <- A1. destruct (scan _ _ _); auto. split; [reflexivity|]. intros h.
      eexists (_ :: top1), (_ :: top2). do 4 eexists. split; [reflexivity|]. split; [reflexivity|]. split; [exact Lm|]. split.
      + constructor; [|exact S]. split; [reflexivity|]. cbn. auto.
      + cbn. auto.
  Qed.

  Lemma inside_tok m s1 s2 h t1 t2 : inside m s1 s2 -> (h = true -> t1 = t2) ->
    inside m (mkTok F (inputs F s1) t1 h (codes F s1)) (mkTok F (inputs F s2) t2 h (codes F s2)).
  Proof.
    intros (top1 & top2 & i1 & i2 & r1 & r2 & E1 & E2 & Lm & S & I & H & T & K) X.
    exists top1, top2, i1, i2, r1, r2. cbn. auto 10.
  Qed.
  Lemma inside_have m s1 s2 : inside m s1 s2 ->
    have_next F s1 = have_next F s2 /\ (have_next F s1 = true -> next_tok F s1 = next_tok F s2) /\ codes F s1 = codes F s2.
  Proof. intros (top1 & top2 & i1 & i2 & r1 & r2 & E1 & E2 & Lm & S & I & H & T & K). auto. Qed.

  Lemma get_inside m s1 s2 : inside m s1 s2 -> both m (do_call Get s1) (do_call Get s2).
  Proof.
    intros I. pose proof (inside_have _ _ _ I) as (H & T & K). cbn [RibStackModel.do_call]. unfold t_get. rewrite <- H.
    destruct (have_next F s1) eqn:E.
    - cbn. split; [rewrite T; auto|]. apply inside_tok; [exact I|discriminate].
    - pose proof (scan_inside m s1 s2 I) as X. destruct (scan_next s1) as [[[? ?] ?]|], (scan_next s2) as [[[? ?] ?]|]; try contradiction; [|exact X].
      destruct X as [<- X]. cbn. split; [reflexivity|]. apply X.
  Qed.
  Lemma peek_inside m s1 s2 : inside m s1 s2 -> both m (do_call PeekTok s1) (do_call PeekTok s2).
  Proof.
    intros I. pose proof (inside_have _ _ _ I) as (H & T & K). cbn [RibStackModel.do_call]. unfold t_peek. rewrite <- H.
    destruct (have_next F s1) eqn:E.
    - cbn. split; [rewrite T; auto|exact I].
    - pose proof (scan_inside m s1 s2 I) as X. destruct (scan_next s1) as [[[? ?] ?]|], (scan_next s2) as [[[? ?] ?]|]; try contradiction; [|exact X].
      destruct X as [<- X]. cbn. split; [reflexivity|]. apply X.
  Qed.
  Lemma get_unget s : do_calls [Get; Unget] s = do_call PeekTok s.
  Proof.
    cbn [RibStackModel.do_calls RibStackModel.do_call]. unfold t_get, t_peek. destruct s as [is t h k]. cbn [have_next].
    destruct h; [reflexivity|]. destruct (scan_next _) as [[[? ?] ?]|]; reflexivity.
  Qed.

  Lemma orderly_inside cs : orderly cs -> forall m s1 s2, inside m s1 s2 -> both m (do_calls cs s1) (do_calls cs s2).
  Proof.
    assert (Step : forall m c cs, (forall m s1 s2, inside m s1 s2 -> both m (do_calls cs s1) (do_calls cs s2)) -> forall s1 s2,
      both m (do_call c s1) (do_call c s2) -> both m (do_calls (c :: cs) s1) (do_calls (c :: cs) s2)).
    { intros m c cs0 IH s1 s2 X. cbn [RibStackModel.do_calls]. destruct (do_call c s1) as [[t1 s1']|], (do_call c s2) as [[t2 s2']|]; try contradiction; [|exact I].
      destruct X as [<- X]. specialize (IH m s1' s2' X). destruct (do_calls cs0 s1') as [[? ?]|], (do_calls cs0 s2') as [[? ?]|]; try contradiction; [|exact I].
      destruct IH as [<- IH]. split; [reflexivity|exact IH]. }
    induction 1 as [|cs H IH|cs H IH|cs H IH|b cs cs' H IH H' IH']; intros m s1 s2 I.
    - split; [reflexivity|exact I].
    - apply Step; [exact IH|apply get_inside; exact I].
    - apply Step; [exact IH|apply peek_inside; exact I].
    - change (Get :: Unget :: cs) with ([Get; Unget] ++ cs). rewrite !do_calls_app, !get_unget.
      apply (Step m PeekTok cs IH). apply peek_inside. exact I.
    - cbn [RibStackModel.do_calls RibStackModel.do_call app]. rewrite !do_calls_app.
      assert (I1 : inside (S m) (t_push F b s1) (t_push F b s2)).
      { destruct I as (top1 & top2 & i1 & i2 & r1 & r2 & E1 & E2 & Lm & X & L & Hh & T & K).
        unfold t_push. rewrite E1, E2.
        eexists (_ :: top1), (_ :: top2), i1, i2, r1, r2. split; [reflexivity|]. split; [reflexivity|]. cbn. split; [congruence|].
        split; [|repeat split; auto; discriminate]. constructor; [|exact X]. split; [reflexivity|]. cbn. auto. }
      specialize (IH _ _ _ I1). destruct (do_calls cs (t_push F b s1)) as [[t1 x1]|], (do_calls cs (t_push F b s2)) as [[t2 x2]|]; try contradiction; [|exact IH].
      destruct IH as [<- IH]. cbn [RibStackModel.do_calls RibStackModel.do_call].
      assert (P : exists y1 y2, t_pop F x1 = Some y1 /\ t_pop F x2 = Some y2 /\ inside m y1 y2).
      { destruct IH as (top1 & top2 & i1 & i2 & r1 & r2 & E1 & E2 & Lm & X & L & Hh & T & K).
        destruct X as [|j1 j2 top1 top2 [A1 [A2 A3]] X]; [discriminate|].
        unfold t_pop. rewrite E1, E2. cbn [app]. eexists. eexists. split; [reflexivity|]. split; [reflexivity|].
        exists top1, top2, i1, i2, r1, r2. cbn. cbn in Lm. injection Lm as Lm. auto 10. }
      destruct P as (y1 & y2 & -> & -> & P). specialize (IH' m y1 y2 P).
      destruct (do_calls cs' y1) as [[? ?]|], (do_calls cs' y2) as [[? ?]|]; try contradiction; [|exact IH'].
      destruct IH' as [<- IH']. split; [reflexivity|exact IH'].
  Qed.

  Lemma inner_alone b cs s1 s2 : orderly cs -> codes F s1 = codes F s2 ->
    option_map fst (do_calls (Push b :: cs) s1) = option_map fst (do_calls (Push b :: cs) s2).
  Proof.
    intros O K. cbn [RibStackModel.do_calls RibStackModel.do_call].
    assert (I : inside 0 (t_push F b s1) (t_push F b s2)).
    { unfold t_push. rewrite <- K. eexists [], []. do 4 eexists. split; [reflexivity|]. split; [reflexivity|]. split; [reflexivity|].
      split; [constructor|]. cbn. repeat split; auto; discriminate. }
    pose proof (orderly_inside cs O 0 _ _ I) as X.
    destruct (do_calls cs (t_push F b s1)) as [[? ?]|], (do_calls cs (t_push F b s2)) as [[? ?]|]; try contradiction; [|reflexivity].
    destruct X as [<- _]. reflexivity.
  Qed.
End Stack.

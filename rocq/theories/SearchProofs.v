(** Proofs about search paths. *)

From Coq Require Import List Bool ZArith Lia Arith.
From Verif Require Import SearchModel SearchSpec.
Import ListNotations.
Open Scope Z_scope.

Lemma break_app : forall stop a b, (forall c, In c a -> stop c = false) ->
  break stop (a ++ b) = (a ++ fst (break stop b), snd (break stop b)).
Proof.
  intros stop; induction a as [|c a IH]; intros b H; cbn [app break].
  - destruct (break stop b); reflexivity.
  - rewrite (H c (or_introl eq_refl)), IH by (intros x I; apply H; right; exact I).
    destruct (break stop b); reflexivity.
Qed.

Lemma break_here : forall stop c b, stop c = true -> break stop (c :: b) = ([], c :: b).
Proof. intros stop c b H; cbn [break]; rewrite H; reflexivity. Qed.

Lemma break_at : forall stop a c b, (forall x, In x a -> stop x = false) -> stop c = true ->
  break stop (a ++ c :: b) = (a, c :: b).
Proof.
  intros stop a c b H E; rewrite break_app by exact H; rewrite break_here by exact E.
  cbn [fst snd]; rewrite app_nil_r; reflexivity.
Qed.

Lemma break_all : forall stop a, (forall x, In x a -> stop x = false) -> break stop a = (a, []).
Proof.
  intros stop a H; rewrite <- (app_nil_r a) at 1; rewrite break_app by exact H.
  cbn [break fst snd]; rewrite app_nil_r; reflexivity.
Qed.

Lemma break_spec : forall stop s a b, break stop s = (a, b) ->
  s = a ++ b /\ (forall x, In x a -> stop x = false) /\
  match b with [] => True | c :: _ => stop c = true end.
Proof.
  intros stop; induction s as [|c s IH]; intros a b E; cbn [break] in E.
  - inversion E; subst; repeat split; intros x [].
  - destruct (stop c) eqn:C.
    + inversion E; subst; repeat split; [intros x []| exact C].
    + destruct (break stop s) as [a' b'] eqn:B; inversion E; subst.
      destruct (IH a' b eq_refl) as (S1 & S2 & S3).
      split; [cbn [app]; rewrite S1; reflexivity|]; split; [|exact S3].
      intros x [<-|I]; [exact C | exact (S2 x I)].
Qed.

Lemma percents_app : forall a b, percents (a ++ b) = (percents a + percents b)%nat.
Proof.
  induction a as [|c a IH]; intros b; cbn [app percents]; [reflexivity|].
  destruct (c =? 37); rewrite IH; reflexivity.
Qed.

Lemma percents_none : forall a, ~ In 37 a -> percents a = 0%nat.
Proof.
  induction a as [|c a IH]; intros H; cbn [percents]; [reflexivity|].
  destruct (c =? 37) eqn:E; [apply Z.eqb_eq in E; destruct H; left; exact E|].
  apply IH; intros I; apply H; right; exact I.
Qed.

Lemma special_false : forall c, special c = false <-> c <> 38 /\ c <> 64 /\ c <> 37.
Proof.
  intros c; unfold special; rewrite !orb_false_iff, !Z.eqb_neq; tauto.
Qed.

Lemma text_not_special : forall t, ~ In 38 t /\ ~ In 64 t /\ ~ In 37 t ->
  forall c, In c t -> special c = false.
Proof.
  intros t (A & B & C) c I; apply special_false; repeat split; intros ->; tauto.
Qed.


Definition rendered (ps : list piece) : list Z := concat (map write_piece ps).

Section Expand.
  Variable env : list Z -> option (list Z).
  Variable old default : list Z.

  Lemma expand_pieces : forall ps fuel t acc,
    Forall proper_piece ps -> (forall c, In c t -> special c = false) ->
    (List.length ps < fuel)%nat ->
    expand_loop env old default fuel (t ++ rendered ps) acc
    = Some (acc ++ t ++ concat (map (meaning env old default) ps)).
  Proof.
    unfold rendered; induction ps as [|p ps IH]; intros fuel t acc F T L.
    - cbn [map concat]; rewrite !app_nil_r; destruct fuel as [|f]; [cbn in L; lia|].
      cbn [expand_loop]; rewrite break_all by exact T; reflexivity.
    - apply Forall_cons_iff in F; destruct F as (P & F); cbn [map concat].
      cbn [List.length] in L.
      destruct p as [u| | |v]; cbn [write_piece meaning proper_piece] in *.
      + rewrite app_assoc, IH; [rewrite <- app_assoc; reflexivity| exact F | |lia].
        intros c I; apply in_app_or in I; destruct I as [I|I];
          [exact (T c I) | exact (text_not_special u P c I)].
      + destruct fuel as [|f]; [lia|]; cbn [expand_loop app].
        rewrite break_at by (exact T || reflexivity); cbn [Z.eqb Pos.eqb].
        specialize (IH f [] (acc ++ t ++ old) F (fun c (I : In c []) => match I with end)).
        cbn [app] in IH; rewrite IH by lia; rewrite <- !app_assoc; reflexivity.
      + destruct fuel as [|f]; [lia|]; cbn [expand_loop app].
        rewrite break_at by (exact T || reflexivity); cbn [Z.eqb Pos.eqb].
        specialize (IH f [] (acc ++ t ++ default) F (fun c (I : In c []) => match I with end)).
        cbn [app] in IH; rewrite IH by lia; rewrite <- !app_assoc; reflexivity.
      + destruct fuel as [|f]; [lia|]; cbn [expand_loop app].
        rewrite break_at by (exact T || reflexivity); cbn [Z.eqb Pos.eqb].
        rewrite <- (app_assoc v [37]); cbn [app].
        rewrite (break_at (fun x => x =? 37) v 37).
        * set (w := match env v with Some x => x | None => [] end).
          specialize (IH f [] (acc ++ t ++ w) F (fun c (I : In c []) => match I with end)).
          cbn [app] in IH; rewrite IH by lia; rewrite <- !app_assoc; reflexivity.
        * intros x I; apply Z.eqb_neq; intros ->; tauto.
        * reflexivity.
  Qed.

  Lemma expand_odd : forall fuel s acc, Nat.odd (percents s) = true ->
    expand_loop env old default fuel s acc = None.
  Proof.
    induction fuel as [|f IH]; intros s acc Od; [reflexivity|].
    cbn [expand_loop]; destruct (break special s) as [t r] eqn:B.
    destruct (break_spec _ _ _ _ B) as (E & T & H); subst s.
    assert (PT : percents t = 0%nat).
    { apply percents_none; intros I; apply T in I; discriminate I. }
    destruct r as [|c r'].
    { rewrite app_nil_r, PT in Od; discriminate Od. }
    rewrite percents_app, PT in Od; cbn [percents plus] in Od.
    destruct (c =? 38) eqn:C1.
    { apply IH; apply Z.eqb_eq in C1; subst c; exact Od. }
    destruct (c =? 64) eqn:C2.
    { apply IH; apply Z.eqb_eq in C2; subst c; exact Od. }
    assert (C : c = 37).
    { unfold special in H; rewrite C1, C2 in H; apply Z.eqb_eq; exact H. }
    subst c; cbn [Z.eqb Pos.eqb] in Od.
    destruct (break (fun x => x =? 37) r') as [v e] eqn:B2.
    destruct (break_spec _ _ _ _ B2) as (E2 & V & H2); subst r'.
    assert (PV : percents v = 0%nat).
    { apply percents_none; intros I; apply V in I; discriminate I. }
    destruct e as [|x e'].
    - apply IH; rewrite percents_app, PT; exact Od.
    - apply IH; rewrite percents_app, PV in Od; cbn [plus percents] in Od; rewrite H2 in Od.
      rewrite Nat.odd_succ, <- Nat.negb_odd, Nat.odd_succ, <- Nat.negb_odd, negb_involutive in Od.
      exact Od.
  Qed.

End Expand.

Lemma pieces_exist : forall n s, (List.length s <= n)%nat -> Nat.even (percents s) = true ->
  exists ps, s = rendered ps /\ Forall proper_piece ps /\ (List.length ps <= 2 * List.length s)%nat.
Proof.
  unfold rendered; induction n as [|n IH]; intros s L Ev.
  { destruct s; [|cbn in L; lia]; exists []; repeat split; auto. }
  destruct s as [|c0 s0]; [exists []; repeat split; auto|].
  remember (c0 :: s0) as s eqn:Es.
  assert (NE : s <> []) by (subst s; discriminate).
  destruct (break special s) as [t r] eqn:B.
  destruct (break_spec _ _ _ _ B) as (E & T & H).
  assert (PT : percents t = 0%nat).
  { apply percents_none; intros I; apply T in I; discriminate I. }
  assert (PP : proper_piece (Text t)).
  { cbn; repeat split; intros I; apply T in I; discriminate I. }
  clear Es c0 s0; subst s.
  destruct r as [|c r'].
  { exists [Text t]; cbn [map concat write_piece]; rewrite !app_nil_r; repeat split; auto.
    rewrite app_nil_r in NE. destruct t; [congruence | cbn; lia]. }
  rewrite percents_app, PT in Ev; cbn [percents plus] in Ev.
  rewrite app_length in L |- *; cbn [List.length] in L |- *.
  assert (K : c <> 37 -> Nat.even (percents r') = true ->
    forall p, proper_piece p -> write_piece p = [c] ->
    exists ps, t ++ c :: r' = concat (map write_piece ps) /\ Forall proper_piece ps /\
      (List.length ps <= 2 * (List.length t + S (List.length r')))%nat).
  { intros _ Ev' p Pp W; destruct (IH r') as (ps & E2 & F2 & L2); [lia|exact Ev'|].
    exists (Text t :: p :: ps); repeat split.
    - cbn [map concat]; rewrite W, <- E2; cbn [write_piece app]; reflexivity.
    - repeat constructor; auto; cbn in PP; tauto.
    - cbn [List.length]; lia. }
  destruct (c =? 37) eqn:C3.
  - apply Z.eqb_eq in C3; subst c.
    destruct (break (fun x => x =? 37) r') as [v e] eqn:B2.
    destruct (break_spec _ _ _ _ B2) as (E2 & V & H2); subst r'.
    assert (NV : ~ In 37 v) by (intros I; apply V in I; discriminate I).
    rewrite percents_app, (percents_none v NV) in Ev.
    destruct e as [|x e']; [discriminate Ev|].
    apply Z.eqb_eq in H2; subst x; cbn [plus percents Z.eqb Pos.eqb] in Ev.
    rewrite app_length in L |- *; cbn [List.length] in L |- *.
    destruct (IH e') as (ps & E2 & F2 & L2); [lia|exact Ev|].
    exists (Text t :: Variable_named v :: ps); repeat split.
    + cbn [map concat write_piece]; rewrite <- E2; cbn [app]; rewrite <- app_assoc; reflexivity.
    + repeat constructor; auto; cbn in PP; tauto.
    + cbn [List.length]; lia.
  - assert (N3 : c <> 37) by (intros ->; discriminate C3).
    unfold special in H; rewrite C3, orb_false_r in H; apply orb_true_iff in H.
    destruct H as [H|H]; apply Z.eqb_eq in H; subst c.
    + apply (K N3 Ev Previous I eq_refl).
    + apply (K N3 Ev Default I eq_refl).
Qed.

(** *** Lists of directories *)

Lemma delim_true : forall c, delim c = true <-> c = 58 \/ c = 59.
Proof. intros c; unfold delim; rewrite orb_true_iff, !Z.eqb_eq; tauto. Qed.

Lemma tokens_listed : forall s ds, Listed s ds -> forall fuel, (List.length s < fuel)%nat ->
  tokens fuel s = ds.
Proof.
  assert (Sep : forall s, separators s -> forall c, In c s -> negb (delim c) = false).
  { intros s H c I; apply H in I; apply delim_true in I; rewrite I; reflexivity. }
  assert (Dir : forall d, directory d -> forall c, In c d -> delim c = false).
  { intros d (_ & A & B) c I; destruct (delim c) eqn:E; [|reflexivity].
    apply delim_true in E; destruct E; subst c; contradiction. }
  intros s ds L; induction L as [s H|s d H D|s d c r ds H D C L IH]; intros fuel Lf;
    (destruct fuel as [|f]; [lia|]); cbn [tokens].
  - rewrite break_all by (apply Sep; exact H); reflexivity.
  - destruct d as [|x d]; [destruct D; congruence|].
    rewrite break_at; [|apply Sep; exact H|].
    + rewrite break_all by (apply Dir; exact D).
      f_equal; destruct f; reflexivity.
    + rewrite (Dir _ D x (or_introl eq_refl)); reflexivity.
  - pose proof D as D'; destruct d as [|x d]; [destruct D; congruence|]; cbn [app].
    rewrite break_at; [|apply Sep; exact H|].
    + change (x :: d ++ c :: r) with ((x :: d) ++ c :: r).
      rewrite break_at; [|apply Dir; exact D|apply delim_true; exact C].
      f_equal.
      rewrite !app_length in Lf; cbn [List.length] in Lf.
      destruct f as [|f]; [lia|].
      (* the delimiter is skipped at the start of the next token *)
      pose proof (IH (S f) ltac:(lia)) as T; cbn [tokens] in T |- *.
      cbn [break]; replace (delim c) with true by (symmetry; apply delim_true; exact C).
      cbn [negb]; destruct (break (fun x => negb (delim x)) r) as [a b]; exact T.
    + rewrite (Dir _ D x (or_introl eq_refl)); reflexivity.
Qed.

Lemma listed_exists : forall n s, (List.length s <= n)%nat -> exists ds, Listed s ds.
Proof.
  assert (Sp : forall t, (forall c, In c t -> negb (delim c) = false) -> separators t).
  { intros t H c I; apply H in I; apply negb_false_iff in I; apply delim_true; exact I. }
  assert (Dr : forall d, (forall c, In c d -> delim c = false) -> d <> [] -> directory d).
  { intros d H NE; split; [exact NE|]; split; intros I; apply H in I; discriminate I. }
  induction n as [|n IH]; intros s L.
  { destruct s; [|cbn in L; lia]; exists []; apply listed_none; intros c []. }
  destruct (break (fun c => negb (delim c)) s) as [a b] eqn:B.
  destruct (break_spec _ _ _ _ B) as (E & A & H); subst s.
  destruct b as [|x b].
  { exists []; rewrite app_nil_r; apply listed_none, Sp, A. }
  destruct (break delim (x :: b)) as [d r] eqn:B2.
  destruct (break_spec _ _ _ _ B2) as (E2 & Dd & H2).
  assert (NE : d <> []).
  { intros ->; cbn [app] in E2; destruct r as [|y r]; [discriminate E2|].
    inversion E2; subst; rewrite H2 in H; discriminate H. }
  rewrite E2; destruct r as [|c r].
  { rewrite app_nil_r; exists [d]; apply listed_last; [apply Sp, A | apply Dr; assumption]. }
  destruct (IH r) as (ds & Ls).
  { rewrite app_length, E2, app_length in L; cbn [List.length] in L; lia. }
  exists (d :: ds); apply listed_more; [apply Sp, A | apply Dr; assumption | | exact Ls].
  apply delim_true; exact H2.
Qed.

(** *** Looking for files *)

Lemma find_in_found : forall files ds f p, find_in files ds f = Found p ->
  exists before d after, ds = before ++ d :: after /\ p = path_join d f /\ files p = Regular /\
    forall b, In b before -> files (path_join b f) = Other.
Proof.
  intros files ds f; induction ds as [|d ds IH]; intros p E; cbn [find_in] in E; [discriminate E|].
  unfold is_regular_file in E; destruct (files (path_join d f)) eqn:F.
  - inversion E; subst; exists [], d, ds; repeat split; [exact F | intros b []].
  - destruct (IH p E) as (bf & d' & af & E1 & E2 & E3 & E4).
    exists (d :: bf), d', af; subst ds; repeat split; auto.
    intros b [<-|I]; [exact F | exact (E4 b I)].
  - discriminate E.
Qed.

Lemma find_in_first : forall files before d after f,
  (forall b, In b before -> files (path_join b f) = Other) -> files (path_join d f) = Regular ->
  find_in files (before ++ d :: after) f = Found (path_join d f).
Proof.
  intros files before d after f H R; induction before as [|b bf IH]; cbn [app find_in]; unfold is_regular_file.
  - rewrite R; reflexivity.
  - rewrite (H b (or_introl eq_refl)); apply IH; intros x I; apply H; right; exact I.
Qed.

Lemma find_in_missing : forall files ds f,
  find_in files ds f = Missing <-> forall d, In d ds -> files (path_join d f) = Other.
Proof.
  intros files ds f; induction ds as [|d ds IH]; cbn [find_in]; unfold is_regular_file.
  - split; [intros _ d [] | reflexivity].
  - destruct (files (path_join d f)) eqn:F.
    + split; [discriminate | intros H; rewrite (H d (or_introl eq_refl)) in F; discriminate F].
    + rewrite IH; split; [intros H b [<-|I]; auto | intros H b I; apply H; right; exact I].
    + split; [discriminate | intros H; rewrite (H d (or_introl eq_refl)) in F; discriminate F].
Qed.

Lemma join_inside : forall d f, d <> [] -> path_join d f = inside d f.
Proof.
  intros d f H; destruct (exists_last H) as (d' & x & E); subst d.
  unfold inside; rewrite rev_app_distr; cbn [rev app].
  unfold path_join; rewrite last_last.
  destruct (d' ++ [x]) eqn:E; [destruct d'; discriminate E|].
  destruct (x =? 47) eqn:X.
  - apply Z.eqb_eq in X; subst x; reflexivity.
  - destruct x as [|q|q]; try reflexivity.
    repeat (match goal with q : positive |- _ => destruct q end; try reflexivity); discriminate X.
Qed.

Lemma direct_spec : forall f, direct f = true <-> named_directly f.
Proof.
  intros f; split.
  - intros H.
    assert (K : (exists r, f = 47 :: r) \/ f = [46] \/ (exists r, f = 46 :: 47 :: r) \/ f = [46; 46]
                \/ (exists r, f = 46 :: 46 :: 47 :: r)).
    { destruct f as [|x f]; [discriminate H|].
      destruct (Z.eq_dec x 47) as [->|N1]; [left; eauto|].
      destruct (Z.eq_dec x 46) as [->|N2].
      - destruct f as [|y f]; [tauto|].
        destruct (Z.eq_dec y 47) as [->|N3]; [right; right; left; eauto|].
        destruct (Z.eq_dec y 46) as [->|N4].
        + destruct f as [|z f]; [tauto|].
          destruct (Z.eq_dec z 47) as [->|N5]; [right; right; right; right; eauto|].
          exfalso; cbn in H; destruct z as [|q|q]; try discriminate H.
          repeat (match goal with q : positive |- _ => destruct q end; try discriminate H); congruence.
        + exfalso; cbn in H; destruct y as [|q|q]; try discriminate H.
          repeat (match goal with q : positive |- _ => destruct q end; try discriminate H); congruence.
      - exfalso; cbn in H; destruct x as [|q|q]; try discriminate H.
        repeat (match goal with q : positive |- _ => destruct q end; try discriminate H); congruence. }
    destruct K as [K|[->|[(r & ->)|[->|(r & ->)]]]]; [left; exact K| | | |]; right.
    + exists [46], []; auto.
    + exists [46], (47 :: r); eauto 6.
    + exists [46; 46], []; auto.
    + exists [46; 46], (47 :: r); eauto 6.
  - intros [(r & ->)|(c & r & -> & [->| ->] & [->|(r' & ->)])]; reflexivity.
Qed.

Lemma listed_nonempty : forall s ds, Listed s ds -> forall d, In d ds -> d <> [].
Proof.
  intros s ds L; induction L; intros x I; cbn [In] in I.
  - destruct I.
  - destruct I as [<-|[]]; apply H0.
  - destruct I as [<-|I]; [apply H0 | exact (IHL x I)].
Qed.

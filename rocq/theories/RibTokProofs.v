(** Proofs about the RIB tokeniser: termination. *)

From Coq Require Import List Bool Arith ZArith Lia.
From Verif Require Import RibBufModel RibTokModel RibTokSpec.
Import ListNotations.
Open Scope Z_scope.

Lemma rest_refl l : rest_of l l.
Proof. exists []. reflexivity. Qed.
Lemma rest_trans a b c : rest_of a b -> rest_of b c -> rest_of a c.
Proof. intros [x ->] [y ->]. exists (x ++ y). rewrite app_assoc. reflexivity. Qed.
Lemma rest_cons c l l' : rest_of l l' -> rest_of (c :: l) l'.
Proof. intros [x ->]. exists (c :: x). reflexivity. Qed.
Lemma rest_tl l : rest_of l (tl l).
Proof. destruct l as [|c l]; [apply rest_refl|exists [c]; reflexivity]. Qed.
Lemma rest_tl' l l' : rest_of l l' -> rest_of l (tl l').
Proof. intros H. eapply rest_trans; [exact H|apply rest_tl]. Qed.
Lemma rest_len l l' : rest_of l l' -> (length l' <= length l)%nat.
Proof. intros [x ->]. rewrite app_length. lia. Qed.
Lemma rest_skipn n (l : list Z) : rest_of l (skipn n l).
Proof. exists (firstn n l). symmetry. apply firstn_skipn. Qed.
Lemma rest_big l l' : rest_of l l' -> big_number l' -> big_number l.
Proof.
  intros [x ->] (b & d & a & -> & H). exists (x ++ b), d, a. rewrite <- app_assoc. split; auto.
Qed.

Section Floats.
  Variable F : Type.
  Variable of_bits32 of_bits64 of_int : Z -> F.
  Variable add mul : F -> F -> F.
  Variable times_tenth : F -> F.
  Variable tenth : F.
  Variable times_pow10 : F -> Z -> F.
  Variable fixed : Z -> Z -> Z -> F.

  Notation digits := (digits F of_int add mul).
  Notation read_number := (read_number F of_int add mul times_tenth tenth times_pow10).
  Notation scan := (scan F of_bits32 of_bits64 of_int add mul times_tenth tenth times_pow10 fixed).
  Notation scans := (scans F of_bits32 of_bits64 of_int add mul times_tenth tenth times_pow10 fixed).

  Lemma digits_none f l : fst (fst (digits None f l)) = None.
  Proof. revert f. induction l as [|c r IH]; intros f; simpl; auto. destruct (is_digit c); simpl; auto. Qed.

  Lemma digits_rest l : forall i f, rest_of l (snd (digits i f l)).
  Proof.
    induction l as [|c r IH]; intros i f; simpl; [apply rest_refl|].
    destruct (is_digit c); simpl; [apply rest_cons, IH|apply rest_refl].
  Qed.

  Lemma digits_short l : forall i f, is_digit (first l) = true -> (length (snd (digits i f l)) < length l)%nat.
  Proof.
    destruct l as [|c r]; intros i f D; [discriminate D|]. simpl in D |- *. rewrite D.
    match goal with |- context [RibTokModel.digits _ _ _ _ ?a ?b r] =>
      pose proof (rest_len _ _ (digits_rest r a b)) end. lia.
  Qed.

  (** Overflow means there is a big number; [ds] are the digits read so far. *)
  Lemma digits_big l : forall ds f, Forall (fun c => 48 <= c <= 57) ds ->
    number ds <= int_max ->
    fst (fst (digits (Some (number ds)) f l)) = None ->
    exists es after, l = es ++ after /\ Forall (fun c => 48 <= c <= 57) es /\ int_max < number (ds ++ es).
  Proof.
    induction l as [|c r IH]; intros ds f D B H; [discriminate H|].
    simpl in H. destruct (is_digit c) eqn:E; [|discriminate H].
    assert (C : 48 <= c <= 57).
    { unfold is_digit in E. apply andb_true_iff in E. destruct E as [E1 E2].
      apply Z.leb_le in E1. apply Z.leb_le in E2. lia. }
    assert (NE : number (ds ++ [c]) = number ds * 10 + (c - 48)).
    { unfold number. rewrite fold_left_app. reflexivity. }
    destruct (number ds * 10 + (c - 48) <=? int_max) eqn:M.
    - apply Z.leb_le in M. rewrite <- NE in H, M.
      destruct (IH (ds ++ [c]) _ (proj2 (Forall_app _ _ _) (conj D (Forall_cons _ C (Forall_nil _)))) M H)
        as (es & a & -> & FE & G).
      exists (c :: es), a. split; [reflexivity|]. split; [constructor; auto|].
      rewrite <- app_assoc in G. exact G.
    - apply Z.leb_gt in M. exists [c], r. split; [reflexivity|]. split; [constructor; auto|].
      rewrite NE. exact M.
  Qed.

  Lemma digits_over l f : fst (fst (digits (Some 0) f l)) = None -> big_number l.
  Proof.
    intros H. destruct (digits_big l [] f (Forall_nil _)) as (es & a & -> & FE & G); auto.
    - unfold number, int_max. simpl. lia.
    - exists [], es, a. auto.
  Qed.

  Lemma fraction_rest l : forall f p, rest_of l (snd (fraction F of_int add mul times_tenth f p l)).
  Proof.
    induction l as [|c r IH]; intros f p; simpl; [apply rest_refl|].
    destruct (is_digit c); simpl; [apply rest_cons, IH|apply rest_refl].
  Qed.

  Lemma sign_rest l : rest_of l (snd (sign_of l)).
  Proof.
    unfold sign_of. destruct (first l =? 43); [apply rest_tl|].
    destruct (first l =? 45); [apply rest_tl|apply rest_refl].
  Qed.

  Lemma exponent_ok f l : match exponent F of_int add mul times_pow10 f l with
    | Some (_, l') => rest_of l l' | None => big_number l end.
  Proof.
    unfold exponent. pose proof (sign_rest l) as S. destruct (sign_of l) as [sg l1]. cbn [snd] in S.
    destruct (negb (is_digit (first l1))); [apply rest_tl'; auto|].
    pose proof (digits_rest l1 (Some 0) f) as R. pose proof (digits_over l1 f) as O.
    destruct (digits (Some 0) f l1) as [[[e|] f'] l2]; cbn [fst snd] in *.
    - eapply rest_trans; eauto.
    - eapply rest_big; eauto.
  Qed.

  Lemma number_from l : let l1 := snd (sign_of l) in let l2 := snd (digits (Some 0) (of_int 0) l1) in
    match read_number l with
    | Some (_, l') => rest_of l2 l' /\ (is_digit (first l1) = false -> rest_of (tl l2) l')
    | None => big_number l end.
  Proof.
    cbv zeta. unfold RibTokModel.read_number. pose proof (sign_rest l) as S.
    destruct (sign_of l) as [sg l1]. cbn [snd] in *.
    pose proof (digits_rest l1 (Some 0) (of_int 0)) as R. pose proof (digits_over l1 (of_int 0)) as O.
    destruct (digits (Some 0) (of_int 0) l1) as [[[e|] f'] l2]; cbn [fst snd] in *;
      [|eapply rest_big; [exact S|auto]].
    assert (R2 : rest_of l l2) by (eapply rest_trans; eauto).
    destruct (first l2 =? 46).
    - destruct (negb (is_digit (first l1)) && negb (is_digit (first (tl l2)))).
      { split; [apply rest_tl', rest_tl|intros _; apply rest_tl]. }
      pose proof (fraction_rest (tl l2) f' tenth) as FR.
      destruct (fraction _ _ _ _ _ f' tenth (tl l2)) as [f1 l4]. cbn [snd] in FR.
      destruct ((first l4 =? 101) || (first l4 =? 69)).
      2:{ split; [eapply rest_trans; [apply rest_tl|exact FR]|auto]. }
      pose proof (exponent_ok (mul f1 (of_int sg)) (tl l4)) as X.
      destruct (exponent _ _ _ _ _ _ _) as [[t l']|].
      + assert (Y : rest_of (tl l2) l') by (eapply rest_trans; [apply rest_tl'; exact FR|exact X]).
        split; auto. eapply rest_trans; [apply rest_tl|exact Y].
      + eapply rest_big; [|exact X]. apply rest_tl'. eapply rest_trans; [exact R2|].
        eapply rest_trans; [apply rest_tl|exact FR].
    - destruct ((first l2 =? 101) || (first l2 =? 69)).
      + pose proof (exponent_ok (mul f' (of_int sg)) (tl l2)) as X.
        destruct (exponent _ _ _ _ _ _ _) as [[t l']|].
        * split; auto. eapply rest_trans; [apply rest_tl|exact X].
        * eapply rest_big; [apply rest_tl'; exact R2|exact X].
      + destruct (is_digit (first l1)); cbn [negb].
        * split; [apply rest_refl|discriminate].
        * split; [apply rest_tl|intros _; apply rest_refl].
  Qed.

  Lemma digits_stop l i f : is_digit (first l) = false -> snd (digits i f l) = l.
  Proof. destruct l as [|c r]; intros H; [reflexivity|]. simpl in *. rewrite H. reflexivity. Qed.

  Definition shorter (l' l : list Z) : Prop := rest_of l l' /\ (length l' < length l)%nat.

  Lemma shorter_cons c r l' : rest_of r l' -> shorter l' (c :: r).
  Proof. intros R. split; [apply rest_cons; auto|]. apply rest_len in R. simpl. lia. Qed.

  Lemma number_ok l :
    is_digit (first l) || (first l =? 45) || (first l =? 43) || (first l =? 46) = true ->
    match read_number l with Some (_, l') => shorter l' l | None => big_number l end.
  Proof.
    intros D. pose proof (number_from l) as N. cbv zeta in N.
    destruct (read_number l) as [[t l']|]; [|exact N]. destruct N as [N1 N2].
    destruct l as [|c r]; [discriminate D|]. cbn [first hd] in D.
    unfold sign_of in *. cbn [first hd tl] in *.
    destruct (c =? 43) eqn:C1; [|destruct (c =? 45) eqn:C2]; cbn [snd] in *.
    - apply shorter_cons. eapply rest_trans; [apply digits_rest|exact N1].
    - apply shorter_cons. eapply rest_trans; [apply digits_rest|exact N1].
    - destruct (is_digit c) eqn:DC.
      + split; [eapply rest_trans; [apply digits_rest|exact N1]|].
        pose proof (rest_len _ _ N1). pose proof (digits_short (c :: r) (Some 0) (of_int 0) DC). lia.
      + specialize (N2 DC). rewrite digits_stop in N2 by exact DC. apply shorter_cons. exact N2.
  Qed.

  Lemma string_rest n : forall l acc, (length l <= n)%nat -> rest_of l (snd (read_string F acc l)).
  Proof.
    induction n as [|n IH]; intros l acc L; [destruct l; simpl in L; [apply rest_refl|lia]|].
    destruct l as [|c r]; [apply rest_refl|]. simpl in L. cbn [read_string].
    destruct (c =? 34); [apply rest_cons, rest_refl|].
    destruct (c =? 92).
    - destruct r as [|d r']; [exists [c]; reflexivity|]. simpl in L.
      destruct (d =? 32); apply rest_cons, rest_cons, IH; lia.
    - destruct (c =? CR).
      + destruct r as [|d r']; [exists [c]; reflexivity|]. simpl in L.
        destruct (d =? LF); [apply rest_cons, rest_cons, IH; lia|apply rest_cons, IH; simpl; lia].
      + destruct (c =? eof); [apply rest_cons, rest_refl|apply rest_cons, IH; lia].
  Qed.

  Lemma request_rest l : forall acc, rest_of l (snd (read_request F acc l)).
  Proof.
    induction l as [|c r IH]; intros acc; [apply rest_refl|]. cbn [read_request].
    destruct (in_request c); [apply rest_cons, IH|apply rest_refl].
  Qed.

  Lemma comment_rest l : rest_of l (read_comment l).
  Proof.
    induction l as [|c r IH]; [apply rest_refl|]. cbn [read_comment].
    destruct (_ || _); [apply rest_refl|apply rest_cons, IH].
  Qed.

  Lemma decode_from_rest n : forall a l, rest_of l (snd (decode_int_from a n l)).
  Proof.
    induction n as [|n IH]; intros a l; [apply rest_refl|]. cbn [decode_int_from].
    eapply rest_trans; [apply rest_tl|apply IH].
  Qed.
  Lemma decode_rest n l : rest_of l (snd (decode_int n l)).
  Proof. apply decode_from_rest. Qed.

  (** What a call of scanNext gives: it returns, unless there is a big number,
      it does not read backwards, and unless it was in the middle of an array
      or at the end of the file it reads something. *)
  Definition fine (k : coding) (l : list Z) (r : scanned F) : Prop :=
    match r with
    | Scanned _ t k' l' => rest_of l l' /\
        (left k < 0 -> t <> TEof F -> (length l' < length l)%nat) /\
        (0 <= left k -> t <> TEof F /\ left k' = left k - 1) /\
        (left k < 0 -> forall s, t = TString F s -> left k' < 0)
    | Overflow _ => big_number l
    | OutOfFuel _ => False
    end.

  Lemma fine_cons k c r x k' l1 : left k < 0 -> rest_of r l1 ->
    (left k' < 0 \/ (forall s, x <> TString F s)) -> fine k (c :: r) (Scanned F x k' l1).
  Proof.
    intros L R O. cbn [fine]. split; [apply rest_cons; auto|]. split; [|split; [lia|]].
    2:{ intros _ s E. destruct O as [O|O]; [exact O|destruct (O _ E)]. }
    intros _ _. apply rest_len in R. simpl. lia.
  Qed.

  Lemma fine_then k c r k1 l1 x : left k < 0 -> rest_of r l1 -> left k1 < 0 -> fine k1 l1 x -> fine k (c :: r) x.
  Proof.
    intros L R L1 H. destruct x as [t k' l'| |]; cbn [fine] in *.
    - destruct H as (A & B & C & D). split; [apply rest_cons; eapply rest_trans; eauto|].
      split; [|split; [lia|intros _; apply D; exact L1]].
      intros _ T. specialize (B L1 T). apply rest_len in R. simpl. lia.
    - eapply rest_big; [apply rest_cons; exact R|exact H].
    - exact H.
  Qed.

  Ltac one := apply fine_cons; [assumption| |left; assumption].

  Lemma bytes_rest l l' : rest_of l l' -> bytes l -> bytes l'.
  Proof. intros [x ->] H. apply Forall_app in H. apply H. Qed.

  Lemma scan_fine n : forall k l, bytes l -> (length l < n)%nat -> fine k l (scan n k l).
  Proof.
    induction n as [|n IH]; intros k l B H; [lia|]. cbn [RibTokModel.scan].
    destruct (0 <=? left k) eqn:LK.
    { apply Z.leb_le in LK. destruct (left k - 1 <? 0) eqn:L1.
      - cbn [fine left]. split; [apply rest_refl|]. split; [lia|]. split; [split; [discriminate|reflexivity]|lia].
      - unfold RibTokModel.decode_float32. pose proof (decode_rest 4 l) as R.
        destruct (decode_int 4 l) as [b l1]. cbn [fine left]. split; [exact R|].
        split; [lia|]. split; [split; [discriminate|reflexivity]|lia]. }
    apply Z.leb_gt in LK.
    destruct l as [|c r].
    { cbn. split; [apply rest_refl|]. split; [congruence|]. split; [lia|discriminate]. }
    cbn [first hd tl]. simpl in H. assert (Hr : (length r < n)%nat) by lia.
    assert (Bc : 0 <= c < 256) by (inversion B; assumption).
    assert (Br : bytes r) by (inversion B; assumption).
    destruct ((c =? 32) || (c =? 9) || (c =? LF) || (c =? CR)) eqn:W.
    { eapply fine_then; [exact LK|apply rest_refl|exact LK|apply IH; auto]. }
    destruct (c =? 35) eqn:W1.
    { pose proof (comment_rest r) as R. eapply fine_then; [exact LK|exact R|exact LK|].
      apply IH; [eapply bytes_rest; eauto|]. apply rest_len in R. lia. }
    destruct (is_digit c || (c =? 45) || (c =? 43) || (c =? 46)) eqn:D.
    { pose proof (number_ok (c :: r) D) as N. destruct (read_number (c :: r)) as [[t l1]|]; [|exact N].
      destruct N as [N1 N2]. cbn [fine]. split; [exact N1|]. split; [intros; exact N2|]. split; [lia|].
      intros; assumption. }
    clear D. destruct (c =? 34) eqn:W2.
    { pose proof (string_rest _ r [] (le_n _)) as R. destruct (read_string F [] r) as [t l1]. one. exact R. }
    destruct (c =? 91) eqn:W3; [one; apply rest_refl|].
    destruct (c =? 93) eqn:W4; [one; apply rest_refl|].
    destruct (c <? 128) eqn:C.
    { cbn [read_request]. assert (I : in_request c = true).
      { unfold in_request, LF, CR in *. rewrite C, W2, W3, W4, W1.
        replace (0 <=? c) with true by (symmetry; apply Z.leb_le; lia).
        apply orb_false_iff in W as [W W8]. apply orb_false_iff in W as [W W7].
        apply orb_false_iff in W as [W W6]. rewrite W, W6, W7, W8. reflexivity. }
      rewrite I. pose proof (request_rest r [c]) as R. destruct (read_request F [c] r) as [t l1]. one. exact R. }
    clear W W1 W2 W3 W4.
    assert (DI : forall m, rest_of r (snd (decode_int m r))) by (intros; apply decode_rest).
    destruct (c <? 132). { specialize (DI (Z.to_nat (c - 128 + 1))). destruct (decode_int _ r) as [i l1]. one. exact DI. }
    destruct (c <? 144).
    { unfold RibTokModel.decode_fixed.
      set (a := Z.to_nat _). specialize (DI a). destruct (decode_int a r) as [m l1].
      cbn [snd] in DI. set (b := Z.to_nat _). pose proof (decode_rest b l1) as R2.
      destruct (decode_int b l1) as [x l2]. one. eapply rest_trans; eauto. }
    assert (DS : forall m l, rest_of l (snd (RibTokModel.decode_string F m l))).
    { intros m l0. unfold RibTokModel.decode_string. cbn [snd].
      exists (firstn (Z.to_nat m) l0). symmetry. apply firstn_skipn. }
    destruct (c <? 160). { specialize (DS (c - 144) r). destruct (RibTokModel.decode_string F _ r) as [t l1]. one. exact DS. }
    destruct (c <? 164).
    { specialize (DI (Z.to_nat (c - 160 + 1))). destruct (decode_int _ r) as [i l1].
      specialize (DS (to_int i) l1). destruct (RibTokModel.decode_string F _ l1) as [t l2].
      one. eapply rest_trans; eauto. }
    destruct (c =? 164).
    { unfold RibTokModel.decode_float32. specialize (DI 4%nat). destruct (decode_int 4 r) as [i l1]. one. exact DI. }
    destruct (c =? 165).
    { unfold RibTokModel.decode_float64. specialize (DI 4%nat). destruct (decode_int 4 r) as [i l1].
      pose proof (decode_rest 4 l1) as R2. destruct (decode_int 4 l1) as [j l2]. one. eapply rest_trans; eauto. }
    destruct (c =? 166). { destruct (reqs k (first r)); one; apply rest_tl. }
    destruct (c <? 200); [one; apply rest_refl|].
    destruct (c <? 204).
    { specialize (DI (Z.to_nat (c - 200 + 1))). destruct (decode_int _ r) as [i l1].
      apply fine_cons; [exact LK|exact DI|right; discriminate]. }
    assert (Def : forall l0 (g : coding -> list Z -> coding) (ok : list Z -> bool), rest_of r l0 ->
      (forall k1 s, left (g k1 s) = left k1) ->
      fine k (c :: r) (match scan n k l0 with
        | Scanned _ (TString _ s) k1 l1 => if ok s then scan n (g k1 s) l1 else Scanned F (TError F) k1 l1
        | Scanned _ _ k1 l1 => Scanned F (TError F) k1 l1 | e => e end)).
    { intros l0 g ok R G. pose proof (rest_len _ _ R) as RL.
      assert (X : fine k l0 (scan n k l0)) by (apply IH; [eapply bytes_rest; eauto|lia]).
      destruct (scan n k l0) as [t k1 l1| |]; [|eapply rest_big; [apply rest_cons; exact R|exact X]|exact X].
      destruct X as (X1 & X2 & X3 & X4).
      assert (R1 : rest_of r l1) by (eapply rest_trans; eauto).
      assert (E : fine k (c :: r) (Scanned F (TError F) k1 l1)) by (apply fine_cons; [exact LK|exact R1|right; discriminate]).
      destruct t; try exact E. destruct (ok s); [|exact E].
      eapply fine_then; [exact LK|exact R1| |apply IH].
      - rewrite G. eapply X4; eauto.
      - eapply bytes_rest; eauto.
      - apply rest_len in R1. lia. }
    destruct (c =? 204).
    { specialize (Def (tl r) (fun k1 s => mkCoding (upd (reqs k1) (first r) s) (strs k1) (left k1))
        (fun s => match s with [] => false | _ => true end) (rest_tl r) (fun _ _ => eq_refl)).
      destruct (scan n k (tl r)) as [[] k1 l1| |]; try exact Def. destruct s; exact Def. }
    destruct (c <? 207).
    { specialize (DI (Z.to_nat (c - 205 + 1))). destruct (decode_int _ r) as [i l0].
      specialize (Def l0 (fun k1 s => mkCoding (reqs k1) (upd (strs k1) i (Some s)) (left k1))
        (fun _ => true) DI (fun _ _ => eq_refl)).
      destruct (scan n k l0) as [[] k1 l1| |]; exact Def. }
    destruct (c <? 209).
    { specialize (DI (Z.to_nat (c - 207 + 1))). destruct (decode_int _ r) as [i l1].
      destruct (strs k i); one; exact DI. }
    destruct (c <? 255); [one; apply rest_refl|].
    cbn [fine]. split; [apply rest_cons, rest_refl|]. split; [congruence|]. split; [lia|discriminate].
  Qed.

  Lemma scan_ok k l : bytes l -> ~ big_number l ->
    exists t k' l', scan (S (length l)) k l = Scanned F t k' l' /\ rest_of l l' /\
      (left k < 0 -> t <> TEof F -> (length l' < length l)%nat) /\
      (0 <= left k -> t <> TEof F /\ left k' = left k - 1).
  Proof.
    intros B N. pose proof (scan_fine (S (length l)) k l B (Nat.lt_succ_diag_r _)) as X.
    destruct (scan (S (length l)) k l) as [t k' l'| |]; [|destruct (N X)|destruct X].
    destruct X as (X1 & X2 & X3 & X4). exists t, k', l'. auto.
  Qed.

  (** More fuel changes nothing. *)
  Lemma scan_more n : forall m k l, (n <= m)%nat -> scan n k l <> OutOfFuel F -> scan m k l = scan n k l.
  Proof.
    induction n as [|n IH]; intros m k l L H; [destruct H; reflexivity|].
    destruct m as [|m]; [lia|]. assert (L' : (n <= m)%nat) by lia.
    cbn [RibTokModel.scan] in *.
    repeat match goal with
    | |- ?x = ?x => reflexivity
    | |- scan m ?k ?l = scan n ?k ?l => apply IH; [exact L'|exact H]
    | |- (match scan m ?k ?l with _ => _ end) = _ =>
        rewrite (IH m k l L') by (intros E; apply H; rewrite E; reflexivity);
        destruct (scan n k l) as [[] ? ?| |]
    | |- (match ?b with _ => _ end) = _ => destruct b
    | |- (let (_, _) := ?b in _) = _ => destruct b
    end.
  Qed.

  Lemma scan_unique n m k l t k' l' r : scan n k l = Scanned F t k' l' -> scan m k l = r -> r <> OutOfFuel F ->
    r = Scanned F t k' l'.
  Proof.
    intros A <- H. destruct (Nat.le_ge_cases n m).
    - rewrite (scan_more n m); auto. congruence.
    - rewrite <- A. symmetry. apply scan_more; auto.
  Qed.

  Lemma scans_unique k l ts k' l' : scans k l ts k' l' -> forall ts2 k2 l2, scans k l ts2 k2 l2 ->
    ts2 = ts /\ k2 = k' /\ l2 = l'.
  Proof.
    induction 1 as [fuel k l k' l' A|fuel k l t k1 l1 ts k' l' A T H IH]; intros ts2 k2 l2 H2.
    - inversion H2 as [f2 a b c d B|f2 a b t' k3 l3 ts3 c d B T' S]; subst;
        pose proof (scan_unique _ _ _ _ _ _ _ _ A B ltac:(discriminate)) as E; inversion E; subst; auto. congruence.
    - inversion H2 as [f2 a b c d B|f2 a b t' k3 l3 ts3 c d B T' S]; subst;
        pose proof (scan_unique _ _ _ _ _ _ _ _ A B ltac:(discriminate)) as E; inversion E; subst; [congruence|].
      destruct (IH _ _ _ S) as (-> & -> & ->). auto.
  Qed.

  (** Reading on until the end of the file. *)
  Lemma scans_exist m : forall a k l, (length l <= m)%nat -> (Z.to_nat (left k + 1) <= a)%nat -> bytes l -> ~ big_number l ->
    exists ts k' l', scans k l ts k' l'.
  Proof.
    induction m as [m IHm] using lt_wf_ind.
    induction a as [a IHa] using lt_wf_ind. intros k l Lm La B N.
    destruct (scan_ok k l B N) as (t & k1 & l1 & E & R & P & Q).
    assert (D : {t = TEof F} + {t <> TEof F}) by (destruct t; auto; right; discriminate).
    destruct D as [->|T]; [exists [], k1, l1; econstructor; eauto|].
    assert (B1 : bytes l1) by (eapply bytes_rest; eauto).
    assert (N1 : ~ big_number l1) by (intros X; apply N; eapply rest_big; eauto).
    assert (X : exists ts k' l', scans k1 l1 ts k' l').
    { destruct (Z_lt_le_dec (left k) 0) as [G|G].
      - specialize (P G T). eapply (IHm (length l1)); [lia|apply le_n|apply le_n|auto|auto].
      - destruct (Q G) as [_ L1]. apply rest_len in R.
        apply (IHa (Z.to_nat (left k1 + 1))); auto; lia. }
    destruct X as (ts & k' & l' & X). exists (t :: ts), k', l'. eapply scans_more; eauto.
  Qed.

  (** Reading by computation. *)
  Fixpoint read_all (fuel : nat) (k : coding) (l : list Z) : option (list (token F) * coding * list Z) :=
    match fuel with
    | O => None
    | S n => match scan fuel k l with
             | Scanned _ (TEof _) k' l' => Some ([], k', l')
             | Scanned _ t k1 l1 => match read_all n k1 l1 with
                                    | Some (ts, k', l') => Some (t :: ts, k', l')
                                    | None => None
                                    end
             | _ => None
             end
    end.

  Lemma read_all_scans fuel : forall k l ts k' l', read_all fuel k l = Some (ts, k', l') -> scans k l ts k' l'.
  Proof.
    induction fuel as [|n IH]; intros k l ts k' l' H; [discriminate|]. cbn [read_all] in H.
    destruct (scan (S n) k l) as [t k1 l1| |] eqn:E; try discriminate.
    assert (D : {t = TEof F} + {t <> TEof F}) by (destruct t; auto; right; discriminate).
    destruct D as [->|T].
    - injection H as <- <- <-. eapply scans_eof; eauto.
    - destruct (read_all n k1 l1) as [[[ts1 k2] l2]|] eqn:R; [|destruct t; congruence].
      assert (X : Some (t :: ts1, k2, l2) = Some (ts, k', l')) by (destruct t; congruence).
      injection X as <- <- <-. eapply scans_more; eauto.
  Qed.
End Floats.

(** Deciding [big_number] and [bytes], for the examples. *)
Definition small_prefixes (l : list Z) : bool :=
  forallb (fun n => negb (forallb (fun c => (48 <=? c) && (c <=? 57)) (firstn n l)) || (number (firstn n l) <=? int_max))
    (seq 0 (S (length l))).
Fixpoint small_numbers (l : list Z) : bool :=
  small_prefixes l && match l with [] => true | _ :: r => small_numbers r end.

Lemma small_numbers_ok l : small_numbers l = true -> ~ big_number l.
Proof.
  intros H (b & ds & a & E & D & N). revert l H E.
  assert (G : forall l, small_prefixes l = true -> l = ds ++ a -> False).
  { intros l P ->. unfold small_prefixes in P. rewrite forallb_forall in P.
    specialize (P (length ds)). rewrite firstn_app, firstn_all, Nat.sub_diag, firstn_O, app_nil_r in P.
    assert (I : In (length ds) (seq 0 (S (length (ds ++ a))))) by (apply in_seq; rewrite app_length; lia).
    specialize (P I). apply orb_true_iff in P as [P|P]; [|apply Z.leb_le in P; lia].
    apply negb_true_iff in P. assert (Q : forallb (fun c => (48 <=? c) && (c <=? 57)) ds = true).
    { apply forallb_forall. rewrite Forall_forall in D. intros x I'. apply D in I'.
      apply andb_true_iff. split; apply Z.leb_le; lia. }
    congruence. }
  induction b as [|x b IH]; intros l H E.
  - apply (G l); auto. destruct l; cbn [small_numbers] in H; apply andb_true_iff in H; apply H.
  - destruct l as [|y l]; [discriminate|]. injection E as -> E. cbn [small_numbers] in H.
    apply andb_true_iff in H as [_ H]. apply (IH l); auto.
Qed.

Lemma bytes_ok l : forallb (fun c => (0 <=? c) && (c <? 256)) l = true -> bytes l.
Proof.
  intros H. apply Forall_forall. rewrite forallb_forall in H. intros x I. apply H in I.
  apply andb_true_iff in I as [A B]. apply Z.leb_le in A. apply Z.ltb_lt in B. auto.
Qed.

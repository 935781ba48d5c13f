From Coq Require Import List Bool Arith ZArith QArith Lia.
From Verif Require Import RibBufModel RibTokModel RibTokSpec RibTokProofs RibNumSpec RibNumProofs RibTextSpec.
Import ListNotations.
Open Scope Z_scope.

Lemma scan_one n k c r : left k < 0 -> q_scan (S n) k (c :: r) =
  (if (c =? 32) || (c =? 9) || (c =? LF) || (c =? CR) then q_scan n k r
   else if c =? 35 then q_scan n k (read_comment r)
   else q_scan (S n) k (c :: r)).
Proof.
  intros L. destruct ((c =? 32) || (c =? 9) || (c =? LF) || (c =? CR)) eqn:E.
  - unfold q_scan. cbn [scan]. replace (0 <=? left k) with false by (symmetry; apply Z.leb_gt; exact L).
    cbn [first hd tl]. rewrite E. reflexivity.
  - destruct (c =? 35) eqn:E2; [|reflexivity]. unfold q_scan. cbn [scan].
    replace (0 <=? left k) with false by (symmetry; apply Z.leb_gt; exact L).
    cbn [first hd tl]. rewrite E, E2. reflexivity.
Qed.

Lemma in_string_read x r acc : (match x with
              | Plain c => 0 <= c < 255 /\ ~ In c [34; 92; 13]
              | Pair d => 0 <= d < 256
              | NewLine crlf => crlf = false -> r <> [] /\ first r <> LF
              end) -> read_string Q acc (spell_in x ++ r) = read_string Q (rev (value_in x) ++ acc) r.
Proof.
  destruct x as [c|d|[]]; intros H; cbn [spell_in value_in app rev].
  - destruct H as [H N]. cbn [In] in N. cbn [read_string]. unfold CR, eof.
    rewrite (proj2 (Z.eqb_neq c 34)), (proj2 (Z.eqb_neq c 92)), (proj2 (Z.eqb_neq c 13)), (proj2 (Z.eqb_neq c 255)) by (intros ->; tauto || lia).
    reflexivity.
  - cbn. destruct (d =? 32); reflexivity.
  - reflexivity.
  - destruct (H eq_refl) as [N X]. destruct r as [|d r]; [congruence|]. cbn [first hd] in X.
    apply Z.eqb_neq in X. cbn [read_string]. change (CR =? 34) with false. change (CR =? 92) with false. rewrite Z.eqb_refl, X. reflexivity.
Qed.

Lemma spell_in_first s r : hd_error s <> Some (Plain LF) -> proper_string s ->
  let l := flat_map spell_in s ++ 34 :: r in l <> [] /\ first l <> LF.
Proof.
  destruct s as [|[c|d|[]] s]; cbn; intros H P; split; try discriminate; unfold LF in *; try (unfold CR; lia).
  congruence.
Qed.

Lemma text_read s : proper_string s -> forall acc r,
  read_string Q acc (flat_map spell_in s ++ 34 :: r) = (TString Q (rev acc ++ flat_map value_in s), r).
Proof.
  induction s as [|x s IH]; intros P acc r; cbn [flat_map app].
  - rewrite app_nil_r. reflexivity.
  - destruct P as [H P]. rewrite <- app_assoc, in_string_read.
    + rewrite IH by exact P. rewrite rev_app_distr, rev_involutive, <- app_assoc. reflexivity.
    + destruct x as [c|d|b]; [exact H|exact H|]. intros E. apply spell_in_first; auto.
Qed.

Lemma not_delimiter c : 0 <= c -> ~ delimiter c -> in_request c = true.
Proof.
  unfold delimiter, in_request. cbn [In]. intros P N.
  rewrite (proj2 (Z.leb_le 0 c)) by exact P. rewrite (proj2 (Z.ltb_lt c 128)) by lia. cbn [andb].
  apply negb_true_iff. repeat (apply orb_false_iff; split); apply Z.eqb_neq; lia.
Qed.
Lemma delimiter_ends c : delimiter c -> in_request c = false.
Proof.
  unfold delimiter, in_request. cbn [In]. intros [P|P].
  - rewrite (proj2 (Z.ltb_ge c 128)) by lia. rewrite andb_false_r. reflexivity.
  - apply andb_false_iff. right. apply negb_false_iff.
    destruct P as [<-|[<-|[<-|[<-|[<-|[<-|[<-|[<-|[]]]]]]]]]; reflexivity.
Qed.

Lemma name_read s r : Forall (fun c => 0 <= c /\ ~ delimiter c) s -> delimiter (first r) -> forall acc,
  read_request Q acc (s ++ r) = (TRequest Q (rev acc ++ s), r).
Proof.
  intros H D. induction H as [|c s [A B] H IH]; intros acc; cbn [app].
  - rewrite app_nil_r. destruct r as [|c r]; [reflexivity|]. cbn [read_request]. rewrite delimiter_ends by exact D. reflexivity.
  - cbn [read_request]. rewrite not_delimiter by assumption. rewrite IH. cbn [rev]. rewrite <- app_assoc. reflexivity.
Qed.

Lemma scan_name_piece n k s r : left k < 0 -> is_piece (Name s) -> delimiter (first r) ->
  q_scan (S n) k (s ++ r) = Scanned Q (TRequest Q s) k r.
Proof.
  intros L (NE & H & NN) D. pose proof (name_read s r H D []) as X. cbn [rev app] in X.
  destruct s as [|c s]; [congruence|]. inversion H as [|? ? [A B] _]; subst. cbn [first hd] in NN.
  unfold q_scan. cbn [scan app first hd tl]. replace (0 <=? left k) with false by (symmetry; apply Z.leb_gt; exact L).
  unfold delimiter, numeric in *. cbn [In] in *. unfold LF, CR, is_digit.
  repeat match goal with |- context [c =? ?d] => rewrite (proj2 (Z.eqb_neq c d)) by lia end.
  replace ((48 <=? c) && (c <=? 57)) with false by (symmetry; apply andb_false_iff; rewrite !Z.leb_gt; lia).
  rewrite (proj2 (Z.ltb_lt c 128)) by lia. cbn [orb]. cbn [app] in X. rewrite X. reflexivity.
Qed.

Lemma scan_text n k s r : left k < 0 -> proper_string s ->
  q_scan (S n) k (spell_piece (Text s) ++ r) = Scanned Q (TString Q (flat_map value_in s)) k r.
Proof.
  intros L P. cbn [spell_piece app]. rewrite <- app_assoc. cbn [app]. pose proof (text_read s P [] r) as X.
  set (l := flat_map spell_in s ++ 34 :: r) in *. clearbody l. unfold q_scan. cbn [scan].
  replace (0 <=? left k) with false by (symmetry; apply Z.leb_gt; exact L). cbn [first hd tl].
  cbn -[read_string]. rewrite X. reflexivity.
Qed.

Lemma remark_skip n k s (cr : bool) r : left k < 0 -> Forall (fun c => c <> LF /\ c <> CR /\ c <> 255) s ->
  q_scan (S (S n)) k (spell_piece (Remark s cr) ++ r) = q_scan n k r.
Proof.
  intros L H. cbn [spell_piece app]. rewrite <- app_assoc. cbn [app]. rewrite scan_one by exact L.
  change ((35 =? 32) || (35 =? 9) || (35 =? LF) || (35 =? CR)) with false. change (35 =? 35) with true. cbv iota.
  assert (C : read_comment (s ++ (if cr then CR else LF) :: r) = (if cr then CR else LF) :: r).
  { induction H as [|c s (A & B & C) _ IH]; [destruct cr; reflexivity|]. cbn [app read_comment]. unfold eof.
    rewrite (proj2 (Z.eqb_neq _ _) A), (proj2 (Z.eqb_neq _ _) B), (proj2 (Z.eqb_neq _ _) C). exact IH. }
  rewrite C, scan_one by exact L. destruct cr; reflexivity.
Qed.

Lemma scans_skip m k w r ts k' l' :
  (forall n, q_scan (m + n) k (w ++ r) = q_scan n k r) -> q_scans k r ts k' l' -> q_scans k (w ++ r) ts k' l'.
Proof.
  intros W H. inversion H as [f ? ? ? ? E|f ? ? t k1 l1 ts1 ? ? E T R]; subst.
  - apply scans_eof with (fuel := (m + f)%nat). fold q_scan. unfold q_scan in W. rewrite W. exact E.
  - apply scans_more with (fuel := (m + f)%nat) (k1 := k1) (l1 := l1); auto. unfold q_scan in W. rewrite W. exact E.
Qed.

Lemma pieces_read ps : forall k, left k < 0 -> proper ps ->
  exists ts, q_scans k (spell_pieces ps) ts k [] /\ tokens_of ps ts.
Proof.
  induction ps as [|p ps IH]; intros k L P.
  - exists []. split; [|constructor]. apply scans_eof with (fuel := 1%nat). cbn [scan spell_pieces flat_map first hd tl].
    replace (0 <=? left k) with false by (symmetry; apply Z.leb_gt; exact L). reflexivity.
  - destruct P as (I & E & P). destruct (IH k L P) as (ts & S & T). cbn [spell_pieces flat_map]. fold (spell_pieces ps).
    destruct p as [s|s|n| | |c|s cr].
    + exists (TRequest Q s :: ts). split; [|constructor; exact T].
      eapply scans_more with (fuel := 1%nat); [apply (scan_name_piece 0); auto|discriminate|exact S].
    + exists (TString Q (flat_map value_in s) :: ts). split; [|constructor; exact T].
      eapply scans_more with (fuel := 1%nat); [apply (scan_text 0); auto|discriminate|exact S].
    + destruct (literal_value k n (spell_pieces ps) 0 L I E) as (t & R & V). exists (t :: ts). split.
      * eapply scans_more with (fuel := 1%nat); [exact R|destruct t; try discriminate; contradiction|exact S].
      * destruct t; try contradiction; [apply of_int; tauto|apply of_float; tauto].
    + exists (TArrayBegin Q :: ts). split; [|constructor; exact T].
      eapply scans_more with (fuel := 1%nat) (k1 := k) (l1 := spell_pieces ps); [|discriminate|exact S].
      cbn [scan]. replace (0 <=? left k) with false by (symmetry; apply Z.leb_gt; exact L). reflexivity.
    + exists (TArrayEnd Q :: ts). split; [|constructor; exact T].
      eapply scans_more with (fuel := 1%nat) (k1 := k) (l1 := spell_pieces ps); [|discriminate|exact S].
      cbn [scan]. replace (0 <=? left k) with false by (symmetry; apply Z.leb_gt; exact L). reflexivity.
    + exists ts. split; [|constructor; exact T]. apply scans_skip with (m := 1%nat); [|exact S]. intros n.
      cbn [Nat.add spell_piece app]. rewrite scan_one by exact L. cbn [is_piece In] in I.
      destruct I as [<-|[<-|[<-|[<-|[]]]]]; reflexivity.
    + exists ts. split; [|constructor; exact T]. apply scans_skip with (m := 2%nat); [|exact S]. intros n.
      apply remark_skip; auto.
Qed.

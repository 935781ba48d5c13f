(** Reading back what the RIB writer writes. *)

From Coq Require Import List Bool Arith ZArith Lia.
From Verif Require Import RibBufModel RibTokModel RibTokSpec RibTokProofs RibWriteModel RibWriteSpec.
Import ListNotations.
Open Scope Z_scope.

Ltac Zify.zify_post_hook ::= Z.to_euclidean_division_equations.

(** * Integers *)

Lemma unpack_value i : 0 <= i < 4294967296 ->
  ((((i / 16777216) mod 256) * 256 + (i / 65536) mod 256) * 256 + (i / 256) mod 256) * 256 + i mod 256 = i.
Proof. intros H. lia. Qed.

Lemma decode_unpack i r : 0 <= i < 4294967296 -> decode_int 4 (unpack i ++ r) = (i, r).
Proof.
  intros H. cbn [unpack app decode_int decode_int_from first hd tl]. f_equal. lia.
Qed.

Lemma encode_shape i base : 0 <= i < 4294967296 ->
  exists h b, encode_int32 i base = (base + Z.of_nat h) :: b /\ (h <= 3)%nat /\
    forall r, decode_int (h + 1) (b ++ r) = (i, r).
Proof.
  intros H. unfold encode_int32, highest_byte_nonzero, unpack. cbv zeta. cbn [nth].
  destruct (Z.eqb_spec (i / 16777216 mod 256) 0) as [E3|E3]; cbn [negb];
  [destruct (Z.eqb_spec (i / 65536 mod 256) 0) as [E2|E2]; cbn [negb];
   [destruct (Z.eqb_spec (i / 256 mod 256) 0) as [E1|E1]; cbn [negb]|]|].
  - exists 0%nat. eexists. split; [reflexivity|]. split; [lia|]. intros r. cbn. f_equal. lia.
  - exists 1%nat. eexists. split; [reflexivity|]. split; [lia|]. intros r. cbn [Nat.sub skipn app Nat.add decode_int decode_int_from first hd tl]. f_equal. lia.
  - exists 2%nat. eexists. split; [reflexivity|]. split; [lia|]. intros r. cbn [Nat.sub skipn app Nat.add decode_int decode_int_from first hd tl]. f_equal. lia.
  - exists 3%nat. eexists. split; [reflexivity|]. split; [lia|]. intros r. cbn [Nat.sub skipn app Nat.add decode_int decode_int_from first hd tl]. f_equal. lia.
Qed.

Lemma uint32_range i : 0 <= uint32 i < 4294967296.
Proof. unfold uint32. lia. Qed.

Lemma to_int_uint32 i : is_int i -> to_int (uint32 i) = i.
Proof.
  unfold is_int, to_int, uint32, int_max. intros H. destruct (Z.leb_spec (i mod 4294967296) 2147483647); lia.
Qed.

Lemma to_int_small n : 0 <= n <= int_max -> to_int n = n.
Proof. unfold to_int. intros H. destruct (Z.leb_spec n int_max); lia. Qed.

(** * Decimal and octal numbers *)

  Lemma show_nat_acc base f : forall n acc, show_nat_from base f n acc = show_nat_from base f n [] ++ acc.
  Proof.
    induction f as [|f IH]; intros n acc; [reflexivity|]. cbn [show_nat_from].
    destruct (n <? base); [reflexivity|]. rewrite IH. rewrite (IH _ [_]). rewrite <- app_assoc. reflexivity.
  Qed.

  Lemma number_snoc ds c : number (ds ++ [c]) = number ds * 10 + (c - 48).
  Proof. unfold number. rewrite fold_left_app. reflexivity. Qed.

  Lemma show_nat_digits base f : 2 <= base <= 10 -> forall n, 0 <= n < 2 ^ Z.of_nat f ->
    Forall (fun c => 48 <= c < 48 + base) (show_nat_from base f n []) /\
    (f <> O -> show_nat_from base f n [] <> []) /\
    (base = 10 -> f <> O -> number (show_nat_from base f n []) = n).
  Proof.
    intros B. induction f as [|f IH]; intros n H; cbn [show_nat_from].
    - split; [constructor|]. split; congruence.
    - rewrite Nat2Z.inj_succ, Z.pow_succ_r in H by lia.
      destruct (Z.ltb_spec n base) as [Q|Q].
      + split; [repeat constructor; lia|]. split; [discriminate|]. intros _ _. unfold number. cbn [fold_left]. lia.
      + rewrite show_nat_acc. assert (M : 0 <= n mod base < base) by (apply Z.mod_pos_bound; lia).
        assert (D : 0 <= n / base < 2 ^ Z.of_nat f).
        { split; [apply Z.div_pos; lia|]. apply Z.div_lt_upper_bound; [lia|].
          apply Z.lt_le_trans with (2 * 2 ^ Z.of_nat f); [lia|]. apply Z.mul_le_mono_nonneg_r; lia. }
        destruct (IH (n / base) D) as (I1 & I2 & I3).
        assert (F0 : f <> O). { intros ->. change (2 ^ Z.of_nat 0) with 1 in D.
          assert (1 <= n / base) by (apply Z.div_le_lower_bound; lia). lia. }
        split; [apply Forall_app; split; [exact I1|repeat constructor; lia]|].
        split; [intros _ E; apply app_eq_nil in E as [_ E]; discriminate|].
        intros E _. rewrite number_snoc, (I3 E F0). rewrite E in *. clear - H. lia.
  Qed.

  Lemma log2_fuel n : 0 <= n -> 0 <= n < 2 ^ Z.of_nat (Z.to_nat (Z.log2 n) + 1).
  Proof.
    intros H. split; [exact H|]. rewrite Nat2Z.inj_add, Z2Nat.id by apply Z.log2_nonneg.
    change (Z.of_nat 1) with 1. rewrite Z.add_1_r. destruct (Z.eq_dec n 0) as [->|N]; [reflexivity|].
    apply Z.log2_spec. lia.
  Qed.

Section Floats.
  Variable F : Type.
  Variable of_bits32 of_bits64 of_int : Z -> F.
  Variable add mul : F -> F -> F.
  Variable times_tenth : F -> F.
  Variable tenth : F.
  Variable times_pow10 : F -> Z -> F.
  Variable fixed : Z -> Z -> Z -> F.
  Local Notation scan := (scan F of_bits32 of_bits64 of_int add mul times_tenth tenth times_pow10 fixed).
  Local Notation scans := (scans F of_bits32 of_bits64 of_int add mul times_tenth tenth times_pow10 fixed).

  (** Reading the tokens [ts], none of them the end of the file. *)
  Inductive reads : coding -> list Z -> list (token F) -> coding -> list Z -> Prop :=
  | reads_nil : forall k l, reads k l [] k l
  | reads_cons : forall fuel k l t k1 l1 ts k' l',
      scan fuel k l = Scanned F t k1 l1 -> t <> TEof F -> reads k1 l1 ts k' l' -> reads k l (t :: ts) k' l'.

  Lemma reads_app k l ts k1 l1 ts' k' l' : reads k l ts k1 l1 -> reads k1 l1 ts' k' l' -> reads k l (ts ++ ts') k' l'.
  Proof. induction 1; intros; cbn [app]; auto. eapply reads_cons; eauto. Qed.

  Lemma reads_one fuel k l t k' l' : scan fuel k l = Scanned F t k' l' -> t <> TEof F -> reads k l [t] k' l'.
  Proof. intros. eapply reads_cons; eauto. apply reads_nil. Qed.

  Lemma reads_scans k l ts k1 l1 ts' k' l' : reads k l ts k1 l1 -> scans k1 l1 ts' k' l' -> scans k l (ts ++ ts') k' l'.
  Proof. induction 1; intros; cbn [app]; auto. eapply scans_more; eauto. Qed.

  (** * Binary *)

  Ltac open L := cbn [RibTokModel.scan]; replace (0 <=? left _) with false by (symmetry; apply Z.leb_gt; exact L).
  (** Decide the tests on the first byte, which is known up to [h <= 3]. *)
  Ltac tests := repeat match goal with
    | |- context [?a =? ?b] => first [ replace (a =? b) with false by (symmetry; apply Z.eqb_neq; lia)
                                     | replace (a =? b) with true by (symmetry; apply Z.eqb_eq; lia) ]
    | |- context [?a <? ?b] => first [ replace (a <? b) with false by (symmetry; apply Z.ltb_ge; lia)
                                     | replace (a <? b) with true by (symmetry; apply Z.ltb_lt; lia) ]
    | |- context [?a <=? ?b] => first [ replace (a <=? b) with false by (symmetry; apply Z.leb_gt; lia)
                                     | replace (a <=? b) with true by (symmetry; apply Z.leb_le; lia) ]
    end.

  Lemma scan_int n k i r : left k < 0 -> is_int i -> scan (S n) k (bin_int i ++ r) = Scanned F (TInteger F i) k r.
  Proof.
    intros L I. unfold bin_int. destruct (encode_shape (uint32 i) 128 (uint32_range i)) as (h & b & -> & H & D).
    cbn [app]. open L. cbn [first hd tl]. unfold is_digit, LF, CR. tests. cbn [andb orb].
    replace (Z.to_nat (128 + Z.of_nat h - 128 + 1)) with (h + 1)%nat by lia. rewrite D, to_int_uint32 by exact I. reflexivity.
  Qed.

  Lemma scan_float n k b r : left k < 0 -> is_bits b -> scan (S n) k (bin_float b ++ r) = Scanned F (TFloat F (of_bits32 b)) k r.
  Proof.
    intros L I. unfold bin_float. change ((164 :: unpack b) ++ r) with (164 :: (unpack b ++ r)).
    remember (unpack b ++ r) as l eqn:El. open L. cbn [first hd tl]. unfold is_digit, LF, CR. tests. cbn [andb orb].
    unfold RibTokModel.decode_float32. subst l. rewrite decode_unpack by exact I. reflexivity.
  Qed.

  Lemma decode_string_app s r : decode_string F (Z.of_nat (length s)) (s ++ r) = (TString F s, r).
  Proof.
    unfold decode_string. rewrite Nat2Z.id. rewrite firstn_app, firstn_all, Nat.sub_diag, firstn_O, app_nil_r.
    replace (length s - length (s ++ r))%nat with 0%nat by (rewrite app_length; lia).
    cbn [repeat]. rewrite app_nil_r. rewrite skipn_app, skipn_all, Nat.sub_diag. reflexivity.
  Qed.

  Lemma scan_string n k s r : left k < 0 -> Z.of_nat (length s) <= int_max ->
    scan (S n) k (bin_string s ++ r) = Scanned F (TString F s) k r.
  Proof.
    intros L I. unfold bin_string. cbv zeta.
    assert (E : uint32 (Z.of_nat (length s)) = Z.of_nat (length s)) by (unfold uint32, int_max in *; lia).
    rewrite E. rewrite !Nat2Z.id, firstn_all. destruct (Z.ltb_spec (Z.of_nat (length s)) 16) as [Q|Q].
    - cbn [app]. open L. cbn [first hd tl]. unfold is_digit, LF, CR. tests. cbn [andb orb].
      replace (144 + Z.of_nat (length s) - 144) with (Z.of_nat (length s)) by lia.
      rewrite decode_string_app. reflexivity.
    - destruct (encode_shape (Z.of_nat (length s)) 160) as (h & b & -> & H & D); [unfold int_max in I; lia|].
      cbn [app]. rewrite <- app_assoc. open L. cbn [first hd tl]. unfold is_digit, LF, CR. tests. cbn [andb orb].
      replace (Z.to_nat (160 + Z.of_nat h - 160 + 1)) with (h + 1)%nat by lia. rewrite D.
      rewrite to_int_small by lia. rewrite decode_string_app. reflexivity.
  Qed.

  Lemma scan_open n k r : left k < 0 -> scan (S n) k (91 :: r) = Scanned F (TArrayBegin F) k r.
  Proof. intros L. open L. reflexivity. Qed.
  Lemma scan_close n k r : left k < 0 -> scan (S n) k (93 :: r) = Scanned F (TArrayEnd F) k r.
  Proof. intros L. open L. reflexivity. Qed.

  Lemma reads_array {A} (print : A -> list Z) (tok : A -> token F) (ok : A -> Prop) k r l :
    left k < 0 -> (forall a, tok a <> TEof F) ->
    (forall a r, ok a -> scan 1 k (print a ++ r) = Scanned F (tok a) k r) -> Forall ok l ->
    reads k (bin_array print l ++ r) (TArrayBegin F :: map tok l ++ [TArrayEnd F]) k r.
  Proof.
    intros L T P H. unfold bin_array. cbn [app]. eapply reads_cons; [apply (scan_open 0); exact L|discriminate|].
    rewrite <- app_assoc. induction H as [|a l Ha _ IH]; cbn [flat_map map app].
    - eapply reads_one; [apply (scan_close 0); exact L|discriminate].
    - rewrite <- app_assoc. eapply reads_cons; [apply P; exact Ha|apply T|exact IH].
  Qed.

  Lemma reads_floats_loop l : forall k r, left k = Z.of_nat (length l) -> Forall is_bits l ->
    reads k (flat_map unpack l ++ r) (map (fun b => TFloat F (of_bits32 b)) l ++ [TArrayEnd F])
      (mkCoding (reqs k) (strs k) (-1)) r.
  Proof.
    induction l as [|b l IH]; intros k r E H; cbn [length] in E.
    - eapply reads_one with (fuel := 1%nat); [|discriminate]. cbn [RibTokModel.scan flat_map app]. rewrite E. reflexivity.
    - inversion H as [|? ? Hb Hl]; subst. cbn [flat_map map]. rewrite <- app_assoc.
      change ((?a :: ?x) ++ ?y) with (a :: (x ++ y)).
      eapply reads_cons with (fuel := 1%nat); [|discriminate|apply (IH (mkCoding (reqs k) (strs k) (left k - 1)) r)].
      + cbn [RibTokModel.scan]. rewrite E.
        replace (0 <=? Z.of_nat (S (length l))) with true by (symmetry; apply Z.leb_le; lia).
        replace (Z.of_nat (S (length l)) - 1 <? 0) with false by (symmetry; apply Z.ltb_ge; lia).
        unfold RibTokModel.decode_float32. rewrite decode_unpack by exact Hb. rewrite <- E. reflexivity.
      + cbn [left]. lia.
      + exact Hl.
  Qed.

  Lemma reads_floats k r l : left k = -1 -> Forall is_bits l -> Z.of_nat (length l) <= int_max ->
    reads k (bin_floats l ++ r) (TArrayBegin F :: map (fun b => TFloat F (of_bits32 b)) l ++ [TArrayEnd F]) k r.
  Proof.
    intros E H I. unfold bin_floats. assert (L : left k < 0) by lia.
    assert (E1 : uint32 (Z.of_nat (length l)) = Z.of_nat (length l)) by (unfold uint32, int_max in *; lia).
    rewrite E1. destruct (encode_shape (Z.of_nat (length l)) 200) as (h & b & -> & Hh & D); [unfold int_max in I; lia|].
    cbn [app]. rewrite <- app_assoc.
    eapply reads_cons with (fuel := 1%nat) (k1 := mkCoding (reqs k) (strs k) (Z.of_nat (length l))) (l1 := flat_map unpack l ++ r);
      [|discriminate|].
    - open L. cbn [first hd tl]. unfold is_digit, LF, CR. tests. cbn [andb orb].
      replace (Z.to_nat (200 + Z.of_nat h - 200 + 1)) with (h + 1)%nat by lia. rewrite D.
      rewrite to_int_small by lia. reflexivity.
    - pose proof (reads_floats_loop l (mkCoding (reqs k) (strs k) (Z.of_nat (length l))) r eq_refl H) as X.
      cbn [reqs strs] in X. destruct k as [q s e]. cbn [left reqs strs] in *. subst e. exact X.
  Qed.

  Lemma reads_arg k a r : left k = -1 -> is_arg a -> reads k (bin_arg a ++ r) (value F of_bits32 a) k r.
  Proof.
    intros L H. assert (L' : left k < 0) by lia. destruct a; cbn [bin_arg value is_arg] in *.
    - eapply reads_one; [apply (scan_int 0); auto|discriminate].
    - eapply reads_one; [apply (scan_float 0); auto|discriminate].
    - destruct H as [_ H]. eapply reads_one; [apply (scan_string 0); auto|discriminate].
    - apply (reads_array bin_int (TInteger F) is_int); auto; [discriminate|]. intros. apply scan_int; auto.
    - destruct H. apply reads_floats; auto.
    - apply (reads_array bin_string (TString F) is_string); auto; [discriminate|].
      intros a r0 [_ Ha]. apply scan_string; auto.
  Qed.

  Lemma reads_args k args : forall r, left k = -1 -> Forall is_arg args ->
    reads k (flat_map bin_arg args ++ r) (flat_map (value F of_bits32) args) k r.
  Proof.
    induction args as [|a args IH]; intros r L H; [apply reads_nil|].
    inversion H; subst. cbn [flat_map]. rewrite <- app_assoc. eapply reads_app; [apply reads_arg; auto|]. apply IH; auto.
  Qed.

  (** The reader knows every code the writer has given out. *)
  Definition agree (st : codes) (k : coding) : Prop :=
    left k = -1 /\ (forall n c, find_code n (table st) = Some c -> n <> [] -> reqs k c = n).

  (** The writer gives out the codes 0, 1, ... in order. *)
  Definition orderly (st : codes) : Prop :=
    (forall n c, In (n, c) (table st) -> 0 <= c < Z.of_nat (length (table st))) /\
    NoDup (map fst (table st)) /\
    next st = Z.of_nat (length (table st)) mod 256.

  Lemma find_in n c t : find_code n t = Some c -> In (n, c) t.
  Proof.
    induction t as [|[m d] t IH]; [discriminate|]. cbn [find_code]. unfold name_eqb.
    destruct (list_eq_dec Z.eq_dec m n) as [->|N]; intros H; [injection H as ->; left; auto|right; auto].
  Qed.
  Lemma find_none n t : find_code n t = None -> ~ In n (map fst t).
  Proof.
    induction t as [|[m d] t IH]; [intros _ []|]. cbn [find_code]. unfold name_eqb.
    destruct (list_eq_dec Z.eq_dec m n) as [->|N]; intros H; [discriminate|]. intros [E|I]; [apply N; exact E|]. apply IH; auto.
  Qed.

  Lemma scan_known n k c r : left k < 0 -> reqs k c <> [] -> scan (S n) k (166 :: c :: r) = Scanned F (TRequest F (reqs k c)) k r.
  Proof. intros L H. open L. cbn. destruct (reqs k c) eqn:E; [congruence|reflexivity]. Qed.

  Lemma scan_define n k c s r : left k < 0 -> s <> [] -> Z.of_nat (length s) <= int_max ->
    scan (S (S n)) k (204 :: c :: bin_string s ++ r) = scan (S n) (mkCoding (upd (reqs k) c s) (strs k) (left k)) r.
  Proof.
    intros L H I. remember (bin_string s ++ r) as l eqn:E. remember (S n) as m eqn:M.
    cbn [RibTokModel.scan]. replace (0 <=? left k) with false by (symmetry; apply Z.leb_gt; exact L).
    cbn [first hd tl]. change (204 =? 204) with true. cbn -[RibTokModel.scan].
    assert (X : scan m k l = Scanned F (TString F s) k r) by (subst; apply scan_string; auto).
    rewrite X. destruct s; [congruence|reflexivity].
  Qed.

  Lemma reads_begin (asserts : bool) name st k : agree st k -> orderly st ->
    name <> [] -> Z.of_nat (length name) <= int_max ->
    (length (table st) < if asserts then 255 else 256)%nat \/ In name (map fst (table st)) ->
    exists b st' k', bin_begin asserts name st = Some (b, st') /\
      (forall r, reads k (b ++ r) [TRequest F name] k' r) /\ agree st' k' /\ orderly st' /\
      (forall n, In n (map fst (table st')) -> In n (map fst (table st)) \/ n = name).
  Proof.
    intros [L A] (O1 & O2 & O3) NE NL Room. assert (L' : left k < 0) by lia.
    unfold bin_begin. destruct (find_code name (table st)) as [c|] eqn:E.
    - exists [166; c], st, k. split; [reflexivity|]. pose proof (A _ _ E NE) as R. split.
      + intros r. cbn [app]. eapply reads_one with (fuel := 1%nat); [|discriminate]. rewrite scan_known; [rewrite R; reflexivity|exact L'|congruence].
      + split; [split; auto|]. split; [split; auto|auto].
    - pose proof (find_none _ _ E) as NI. destruct Room as [Room|Room]; [|destruct (NI Room)].
      assert (R : Z.of_nat (length (table st)) < 256) by (destruct asserts; lia).
      assert (C : next st = Z.of_nat (length (table st))) by lia. rewrite C.
      replace (asserts && ((Z.of_nat (length (table st)) + 1) mod 256 =? 0)) with false.
      2:{ destruct asserts; [|reflexivity]. symmetry. apply Z.eqb_neq. lia. }
      set (c := Z.of_nat (length (table st))) in *.
      exists (204 :: c :: bin_string name ++ [166; c]), (mkCodes ((name, c) :: table st) ((c + 1) mod 256)),
        (mkCoding (upd (reqs k) c name) (strs k) (left k)).
      split; [reflexivity|]. split.
      + intros r. cbn [app]. rewrite <- app_assoc. eapply reads_one with (fuel := 2%nat); [|discriminate].
        rewrite scan_define by auto. cbn [app]. rewrite scan_known; cbn [reqs left]; unfold upd; rewrite ?Z.eqb_refl; auto.
      + split; [|split].
        * split; [exact L|]. intros n d. cbn [table find_code reqs]. unfold name_eqb.
          destruct (list_eq_dec Z.eq_dec name n) as [->|N].
          -- intros X _. injection X as <-. unfold upd. rewrite Z.eqb_refl. reflexivity.
          -- intros X NN. unfold upd. destruct (Z.eqb_spec d c) as [->|Q]; [|apply A; auto].
             apply find_in in X. apply O1 in X. unfold c in X. lia.
        * split; [|split]; cbn [table next].
          -- intros n d [X|X]; [injection X as <- <-; cbn [length]; unfold c; lia|].
             apply O1 in X. cbn [length]. lia.
          -- cbn [map fst]. constructor; auto.
          -- cbn [length]. unfold c. lia.
        * intros n. cbn [table map fst]. intros [<-|X]; auto.
  Qed.

  (** White space and comments before a token. *)
  Lemma scan_space n k c r : left k < 0 -> c = 32 \/ c = 9 \/ c = LF \/ c = CR -> scan (S n) k (c :: r) = scan n k r.
  Proof.
    intros L H. cbn [RibTokModel.scan]. replace (0 <=? left k) with false by (symmetry; apply Z.leb_gt; exact L).
    cbn [first hd tl]. destruct H as [-> | [-> | [-> | ->]]]; reflexivity.
  Qed.

  Lemma comment_line s r : one_line s -> read_comment (s ++ LF :: r) = LF :: r.
  Proof.
    induction 1 as [|c s (A & B & C) _ IH]; cbn [app read_comment]; [reflexivity|].
    rewrite (proj2 (Z.eqb_neq c LF) A), (proj2 (Z.eqb_neq c CR) B). unfold eof.
    rewrite (proj2 (Z.eqb_neq c 255) C). cbn [orb]. exact IH.
  Qed.

  Lemma scan_comment n k s r : left k < 0 -> one_line s -> scan (S (S n)) k (35 :: s ++ LF :: r) = scan n k r.
  Proof.
    intros L H. remember (s ++ LF :: r) as l eqn:E. remember (S n) as m eqn:M.
    cbn [RibTokModel.scan]. replace (0 <=? left k) with false by (symmetry; apply Z.leb_gt; exact L).
    cbn [first hd tl]. change (35 =? 35) with true. cbn -[RibTokModel.scan read_comment]. subst l m.
    rewrite comment_line by exact H. apply scan_space; auto.
  Qed.

  (** [w] is skipped before whatever comes next. *)
  Definition skipped (w : list Z) : Prop :=
    exists m, forall n k r, left k < 0 -> scan (m + n) k (w ++ r) = scan n k r.

  Lemma skipped_nil : skipped [].
  Proof. exists 0%nat. reflexivity. Qed.
  Lemma skipped_app v w : skipped v -> skipped w -> skipped (v ++ w).
  Proof.
    intros [m A] [m' B]. exists (m + m')%nat. intros n k r L. rewrite <- app_assoc, <- Nat.add_assoc, A by exact L. apply B; auto.
  Qed.
  Lemma skipped_space c : c = 32 \/ c = 9 \/ c = LF \/ c = CR -> skipped [c].
  Proof. intros H. exists 1%nat. intros. cbn [app]. apply scan_space; auto. Qed.
  Lemma skipped_comment s : one_line s -> skipped (35 :: s ++ [LF]).
  Proof.
    intros H. exists 2%nat. intros n k r L. change ((35 :: s ++ [LF]) ++ r) with (35 :: (s ++ [LF]) ++ r).
    rewrite <- app_assoc. apply scan_comment; auto.
  Qed.
  Lemma one_line_sharp s : one_line s -> one_line (35 :: s).
  Proof. constructor; auto. unfold LF, CR. lia. Qed.

  Lemma skipped_scans w k r ts k' l' : skipped w -> left k < 0 -> scans k r ts k' l' -> scans k (w ++ r) ts k' l'.
  Proof.
    intros [m W] L H. inversion H as [f a b c d E|f a b t k1 l1 ts1 c d E T S]; subst.
    - apply scans_eof with (fuel := (m + f)%nat). rewrite W; auto.
    - eapply scans_more with (fuel := (m + f)%nat); [rewrite W; eauto|exact T|exact S].
  Qed.

  (** * Binary streams *)

  Definition names (cs : list call) : list (list Z) :=
    flat_map (fun c => match c with Request n _ => [n] | _ => [] end) cs.

  Definition encodable (c : call) : Prop :=
    match c with
    | Request name args => name <> [] /\ Z.of_nat (length name) <= int_max /\ Forall is_arg args
    | Comment s | Structure s => one_line s
    end.

  Lemma table_room (t : list (list Z * Z)) (all : list (list Z)) : NoDup (map fst t) -> incl (map fst t) all ->
    (length t <= length (nodup (list_eq_dec Z.eq_dec) all))%nat.
  Proof.
    intros N I. rewrite <- (map_length fst t). apply NoDup_incl_length; auto.
    intros x X. apply nodup_In. apply I. exact X.
  Qed.

  Lemma scans_nil k : left k < 0 -> scans k [] [] k [].
  Proof.
    intros L. apply scans_eof with (fuel := 1%nat). cbn [RibTokModel.scan].
    replace (0 <=? left k) with false by (symmetry; apply Z.leb_gt; exact L). reflexivity.
  Qed.

  Lemma binary_reads (asserts : bool) all : (length (nodup (list_eq_dec Z.eq_dec) all) <= if asserts then 255 else 256)%nat ->
    forall cs st k, agree st k -> orderly st -> incl (map fst (table st)) all -> incl (names cs) all ->
    Forall encodable cs ->
    exists b, bin_calls asserts cs st = Some b /\
      exists k', scans k b (flat_map (meaning F of_bits32) cs) k' [].
  Proof.
    intros Max cs. induction cs as [|c cs IH]; intros st k A O I1 I2 H.
    - exists []. split; [reflexivity|]. exists k. apply scans_nil. destruct A. lia.
    - inversion H as [|? ? Hc Hcs]; subst.
      assert (L : left k < 0) by (destruct A; lia).
      destruct c as [name args|s|s].
      + destruct Hc as (NE & NL & Ha).
        assert (I3 : In name all) by (apply I2; cbn; auto).
        assert (Room : (length (table st) < if asserts then 255 else 256)%nat \/ In name (map fst (table st))).
        { destruct (in_dec (list_eq_dec Z.eq_dec) name (map fst (table st))) as [Y|N]; [auto|]. left.
          assert (X : (length ((name, 0%Z) :: table st) <= length (nodup (list_eq_dec Z.eq_dec) all))%nat).
          { apply table_room; cbn [map fst].
            - constructor; [exact N|apply O].
            - intros x [<-|X]; auto. }
          cbn [length] in X. destruct asserts; lia. }
        cbn [bin_calls bin_call].
        destruct (reads_begin asserts name st k A O NE NL Room) as (b & st' & k' & E & R & A' & O' & I').
        rewrite E.
        assert (I4 : incl (map fst (table st')) all) by (intros n N; apply I' in N as [N| ->]; auto).
        assert (I5 : incl (names cs) all) by (intros n N; apply I2; cbn; auto).
        destruct (IH st' k' A' O' I4 I5 Hcs) as (b2 & E2 & k2 & S2). rewrite E2.
        exists ((b ++ flat_map bin_arg args) ++ b2). split; [reflexivity|].
        exists k2. cbn [flat_map meaning]. rewrite <- app_assoc.
        change (TRequest F name :: flat_map (value F of_bits32) args) with ([TRequest F name] ++ flat_map (value F of_bits32) args).
        rewrite <- app_assoc.
        eapply reads_scans; [apply R|]. eapply reads_scans; [apply reads_args; [apply A'|exact Ha]|exact S2].
      + destruct (IH st k A O I1 I2 Hcs) as (b2 & E2 & k2 & S2). cbn [bin_calls bin_call]. rewrite E2.
        eexists. split; [reflexivity|]. exists k2. apply skipped_scans; auto. apply skipped_comment. exact Hc.
      + destruct (IH st k A O I1 I2 Hcs) as (b2 & E2 & k2 & S2). cbn [bin_calls bin_call]. rewrite E2.
        eexists. split; [reflexivity|]. exists k2. apply skipped_scans; auto.
        apply (skipped_comment (35 :: s)). apply one_line_sharp. exact Hc.
  Qed.

  (** * ASCII *)

  Local Notation digits := (digits F of_int add mul).

  Lemma number_from i ds : Forall (fun c => 48 <= c <= 57) ds -> 0 <= i -> i <= fold_left (fun n c => n * 10 + (c - 48)) ds i.
  Proof.
    intros H. revert i. induction H as [|c ds Hc _ IH]; intros i I; cbn [fold_left]; [lia|].
    specialize (IH (i * 10 + (c - 48))). lia.
  Qed.

  Lemma read_digits ds r : Forall (fun c => 48 <= c <= 57) ds -> is_digit (first r) = false -> forall i f,
    0 <= i -> fold_left (fun n c => n * 10 + (c - 48)) ds i <= int_max ->
    exists f', digits (Some i) f (ds ++ r) = (Some (fold_left (fun n c => n * 10 + (c - 48)) ds i), f', r).
  Proof.
    intros H R. induction H as [|c ds Hc Hds IH]; intros i f I B; cbn [app fold_left] in *.
    - exists f. destruct r as [|c r]; [reflexivity|]. cbn [RibTokModel.digits]. cbn [first hd] in R. rewrite R. reflexivity.
    - cbn [RibTokModel.digits]. unfold is_digit.
      replace (48 <=? c) with true by (symmetry; apply Z.leb_le; lia).
      replace (c <=? 57) with true by (symmetry; apply Z.leb_le; lia). cbn [andb].
      pose proof (number_from (i * 10 + (c - 48)) ds Hds). cbv zeta.
      replace (i * 10 + (c - 48) <=? int_max) with true by (symmetry; apply Z.leb_le; lia).
      apply IH; lia.
  Qed.

  (** What may follow a number in the text. *)
  Definition ends_word (r : list Z) : Prop := first r = 32 \/ first r = 93 \/ first r = LF.

  Lemma scan_show_int n k i r : left k < 0 -> - int_max <= i <= int_max -> ends_word r ->
    scan (S n) k (show_int i ++ r) = Scanned F (TInteger F i) k r.
  Proof.
    intros L I E.
    assert (S : forall m, 0 <= m <= int_max -> exists d ds, show_nat 10 m = d :: ds /\ 48 <= d <= 57 /\
      exists f', digits (Some 0) (of_int 0) ((d :: ds) ++ r) = (Some m, f', r)).
    { intros m M. unfold show_nat.
      destruct (show_nat_digits 10 (Z.to_nat (Z.log2 m) + 1) ltac:(lia) m (log2_fuel m ltac:(lia))) as (D1 & D2 & D3).
      specialize (D2 ltac:(lia)). specialize (D3 eq_refl ltac:(lia)).
      destruct (show_nat_from 10 (Z.to_nat (Z.log2 m) + 1) m []) as [|d ds]; [congruence|].
      exists d, ds. split; [reflexivity|]. assert (D4 : Forall (fun c => 48 <= c <= 57) (d :: ds)).
      { eapply Forall_impl; [|exact D1]. cbn. intros; lia. }
      split; [inversion D4; auto|]. unfold number in D3.
      destruct (read_digits (d :: ds) r D4) with (i := 0) (f := of_int 0) as [f' X].
      - unfold is_digit. destruct E as [-> | [-> | ->]]; reflexivity.
      - lia.
      - rewrite D3. lia.
      - exists f'. rewrite X, D3. reflexivity. }
    assert (T : forall sg m f', 0 <= m -> (let l2 := r in
        if first l2 =? 46 then
          let l3 := tl l2 in
          if negb true && negb (is_digit (first l3)) then Some (TError F, tl l3)
          else
            let (f1, l4) := fraction F of_int add mul times_tenth f' tenth l3 in
            let f2 := mul f1 (of_int sg) in
            if (first l4 =? 101) || (first l4 =? 69) then exponent F of_int add mul times_pow10 f2 (tl l4)
            else Some (TFloat F f2, l4)
        else if (first l2 =? 101) || (first l2 =? 69) then exponent F of_int add mul times_pow10 (mul f' (of_int sg)) (tl l2)
        else if negb true then Some (TError F, tl l2)
        else Some (TInteger F (m * sg), l2)) = Some (TInteger F (m * sg), r)).
    { intros sg m f' _. cbv zeta. destruct E as [-> | [-> | ->]]; reflexivity. }
    unfold show_int. destruct (Z.ltb_spec i 0) as [Q|Q].
    - destruct (S (- i)) as (d & ds & E1 & D & f' & X); [lia|]. rewrite E1.
      open L. cbn [app first hd tl]. change (is_digit 45) with false. cbn -[RibTokModel.read_number].
      unfold RibTokModel.read_number, sign_of. cbn [first hd tl].
      change (45 =? 43) with false. change (45 =? 45) with true. cbv iota. cbn [app] in X. rewrite X. cbn [first hd].
      replace (is_digit d) with true by (symmetry; unfold is_digit; apply andb_true_iff; split; apply Z.leb_le; lia).
      specialize (T (-1) (- i) f' ltac:(lia)). cbv zeta in T. rewrite T. do 2 f_equal. lia.
    - destruct (S i) as (d & ds & E1 & D & f' & X); [lia|]. rewrite E1.
      open L. cbn [app first hd tl]. assert (DD : is_digit d = true) by (unfold is_digit; apply andb_true_iff; split; apply Z.leb_le; lia).
      rewrite DD. unfold LF, CR.
      replace (d =? 32) with false by (symmetry; apply Z.eqb_neq; lia).
      replace (d =? 9) with false by (symmetry; apply Z.eqb_neq; lia).
      replace (d =? 10) with false by (symmetry; apply Z.eqb_neq; lia).
      replace (d =? 13) with false by (symmetry; apply Z.eqb_neq; lia).
      replace (d =? 35) with false by (symmetry; apply Z.eqb_neq; lia).
      cbn [orb]. unfold RibTokModel.read_number, sign_of. cbn [first hd tl].
      replace (d =? 43) with false by (symmetry; apply Z.eqb_neq; lia).
      replace (d =? 45) with false by (symmetry; apply Z.eqb_neq; lia).
      cbn [app] in X. rewrite X. cbn [first hd]. rewrite DD.
      specialize (T 1 i f' Q). cbv zeta in T. rewrite T. do 2 f_equal. lia.
  Qed.

  Lemma read_plain c acc r : c <> 34 -> c <> 92 -> c <> CR -> c <> eof -> read_string F acc (c :: r) = read_string F (c :: acc) r.
  Proof.
    intros A B C D. cbn [read_string]. rewrite (proj2 (Z.eqb_neq _ _) A), (proj2 (Z.eqb_neq _ _) B),
      (proj2 (Z.eqb_neq _ _) C), (proj2 (Z.eqb_neq _ _) D). reflexivity.
  Qed.
  Lemma read_pair d acc r : d <> 32 -> read_string F acc (92 :: d :: r) = read_string F (d :: 92 :: acc) r.
  Proof. intros D. cbn. rewrite (proj2 (Z.eqb_neq _ _) D). reflexivity. Qed.

  Lemma read_octal ds : Forall (fun c => 48 <= c < 56) ds -> forall acc r,
    read_string F acc (ds ++ r) = read_string F (rev ds ++ acc) r.
  Proof.
    induction 1 as [|c ds Hc _ IH]; intros acc r; [reflexivity|]. cbn [app rev]. rewrite <- app_assoc. cbn [app].
    rewrite read_plain; [apply IH| | | |]; unfold CR, eof; lia.
  Qed.

  Lemma read_escape c acc r : 0 < c < 256 -> read_string F acc (escape c ++ r) = read_string F (rev (escape c) ++ acc) r.
  Proof.
    intros H. unfold escape.
    destruct (Z.eqb_spec c 34) as [|E1]; [apply read_pair; lia|].
    destruct (Z.eqb_spec c 10) as [|E2]; [apply read_pair; lia|].
    destruct (Z.eqb_spec c 13) as [|E3]; [apply read_pair; lia|].
    destruct (Z.eqb_spec c 9) as [|E4]; [apply read_pair; lia|].
    destruct (Z.eqb_spec c 8) as [|E5]; [apply read_pair; lia|].
    destruct (Z.eqb_spec c 12) as [|E6]; [apply read_pair; lia|].
    destruct (Z.eqb_spec c 92) as [|E7]; [apply read_pair; lia|].
    destruct ((32 <=? c) && (c <=? 176)) eqn:P.
    - apply andb_true_iff in P as [P1 P2]. apply Z.leb_le in P1, P2. cbn [app rev]. apply read_plain; unfold CR, eof; lia.
    - unfold show_nat.
      destruct (show_nat_digits 8 (Z.to_nat (Z.log2 c) + 1) ltac:(lia) c (log2_fuel c ltac:(lia))) as (D1 & D2 & _).
      specialize (D2 ltac:(lia)).
      destruct (show_nat_from 8 (Z.to_nat (Z.log2 c) + 1) c []) as [|d ds]; [congruence|].
      inversion D1 as [|? ? Hd Hds]; subst. cbn [app]. rewrite read_pair by lia.
      rewrite read_octal by exact Hds. cbn [rev]. rewrite <- !app_assoc. reflexivity.
  Qed.

  Lemma read_escaped s : Forall (fun c => 0 < c < 256) s -> forall acc r,
    read_string F acc (flat_map escape s ++ 34 :: r) = (TString F (rev acc ++ escaped s), r).
  Proof.
    induction 1 as [|c s Hc _ IH]; intros acc r; cbn [flat_map app escaped].
    - rewrite app_nil_r. reflexivity.
    - rewrite <- app_assoc, read_escape by exact Hc. rewrite IH. f_equal. f_equal.
      rewrite rev_app_distr, rev_involutive, <- app_assoc. reflexivity.
  Qed.

  Definition c_string (s : list Z) : Prop := Forall (fun c => 0 < c < 256) s.

  Lemma scan_show_string n k s r : left k < 0 -> c_string s ->
    scan (S n) k (show_string s ++ r) = Scanned F (TString F (escaped s)) k r.
  Proof.
    intros L H. unfold show_string. change ((34 :: ?x ++ [34]) ++ r) with (34 :: (x ++ [34]) ++ r).
    rewrite <- app_assoc. remember (flat_map escape s ++ [34] ++ r) as l eqn:E. open L. cbn [first hd tl].
    cbn -[read_string]. subst l. cbn [app]. rewrite read_escaped by exact H. reflexivity.
  Qed.

  (** Names of requests. *)
  Definition letter (c : Z) : bool := ((65 <=? c) && (c <=? 90)) || ((97 <=? c) && (c <=? 122)).

  Lemma letter_range c : letter c = true -> 65 <= c <= 90 \/ 97 <= c <= 122.
  Proof.
    unfold letter. intros H. apply orb_true_iff in H as [H|H]; apply andb_true_iff in H as [A B];
      apply Z.leb_le in A; apply Z.leb_le in B; auto.
  Qed.

  Lemma letter_request c : letter c = true -> in_request c = true.
  Proof.
    intros H. apply letter_range in H. unfold in_request. tests. reflexivity.
  Qed.

  Lemma read_name s r : forallb letter s = true -> in_request (first r) = false -> forall acc,
    read_request F acc (s ++ r) = (TRequest F (rev acc ++ s), r).
  Proof.
    intros H R. induction s as [|c s IH]; intros acc; cbn [app].
    - rewrite app_nil_r. destruct r as [|c r]; [reflexivity|]. cbn [first hd] in R. cbn [read_request]. rewrite R. reflexivity.
    - cbn [forallb] in H. apply andb_true_iff in H as [A B]. cbn [read_request]. rewrite (letter_request _ A), (IH B).
      cbn [rev]. rewrite <- app_assoc. reflexivity.
  Qed.

  Lemma scan_name n k s r : left k < 0 -> s <> [] -> forallb letter s = true -> in_request (first r) = false ->
    scan (S n) k (s ++ r) = Scanned F (TRequest F s) k r.
  Proof.
    intros L NE H R. pose proof (read_name s r H R []) as X. cbn [rev app] in X.
    destruct s as [|c s]; [congruence|]. cbn [forallb] in H. apply andb_true_iff in H as [A _].
    apply letter_range in A. cbn [app] in *. open L. cbn [first hd tl]. unfold is_digit, LF, CR. tests. cbn [andb orb].
    rewrite X. reflexivity.
  Qed.

  Lemma names_letters : forallb (fun s => negb (name_eqb s []) && forallb letter s) request_names = true.
  Proof. vm_compute. reflexivity. Qed.

  Lemma name_ok name : In name request_names -> name <> [] /\ forallb letter name = true.
  Proof.
    intros H. pose proof names_letters as X. rewrite forallb_forall in X. apply X in H.
    apply andb_true_iff in H as [A B]. split; [|exact B]. intros ->. discriminate A.
  Qed.

  Lemma reads_skip w k r t ts k' l' : skipped w -> left k < 0 -> reads k r (t :: ts) k' l' -> reads k (w ++ r) (t :: ts) k' l'.
  Proof.
    intros [m W] L H. inversion H as [|f a b c k1 l1 ts1 d e E T S]; subst.
    eapply reads_cons with (fuel := (m + f)%nat); [rewrite W; eauto|exact T|exact S].
  Qed.

  Lemma reads_show_array {A} (print : A -> list Z) (tok : A -> token F) (ok : A -> Prop) k r l :
    left k < 0 -> (forall a, tok a <> TEof F) ->
    (forall a r, ok a -> ends_word r -> scan 1 k (print a ++ r) = Scanned F (tok a) k r) -> Forall ok l ->
    reads k (show_array print l ++ r) (TArrayBegin F :: map tok l ++ [TArrayEnd F]) k r.
  Proof.
    intros L T P H. unfold show_array. cbn [app]. eapply reads_cons; [apply (scan_open 0); exact L|discriminate|].
    rewrite <- app_assoc. cbn [app]. assert (C : reads k (93 :: r) [TArrayEnd F] k r).
    { eapply reads_one; [apply (scan_close 0); exact L|discriminate]. }
    induction H as [|a l Ha Hl IH]; [exact C|]. destruct l as [|b l].
    - cbn [show_elements map app]. eapply reads_cons; [apply P; [exact Ha|right; left; reflexivity]|apply T|exact C].
    - cbn [show_elements map app]. rewrite <- app_assoc.
      eapply reads_cons; [apply P; [exact Ha|left; reflexivity]|apply T|]. cbn [map app] in IH.
      apply (reads_skip [32]); [apply skipped_space; auto|exact L|]. exact IH.
  Qed.

  Lemma value_cons a : exists t ts, value F of_bits32 a = t :: ts.
  Proof. destruct a; cbn [value]; eauto. Qed.

  Lemma reads_show_arg show_float k a r : left k < 0 -> ascii_arg c_string a -> ends_word r ->
    reads k (show_arg show_float a ++ r) (value F of_bits32 (escaped_arg a)) k r.
  Proof.
    intros L H E. destruct a; cbn [show_arg escaped_arg value ascii_arg] in *; try contradiction.
    - eapply reads_one; [apply (scan_show_int 0); auto|discriminate].
    - eapply reads_one; [apply (scan_show_string 0); auto|discriminate].
    - apply (reads_show_array show_int (TInteger F) (fun i => - int_max <= i <= int_max)); auto; [discriminate|].
      intros. apply scan_show_int; auto.
    - rewrite map_map. apply (reads_show_array show_string (fun s => TString F (escaped s)) c_string); auto; [discriminate|].
      intros. apply scan_show_string; auto.
  Qed.

  Lemma reads_show_args show_float k args : forall r, left k < 0 -> Forall (ascii_arg c_string) args -> first r = LF ->
    reads k (flat_map (fun a => 32 :: show_arg show_float a) args ++ r)
      (flat_map (value F of_bits32) (map escaped_arg args)) k r.
  Proof.
    induction args as [|a args IH]; intros r L H E; [apply reads_nil|]. inversion H; subst.
    cbn [flat_map map]. rewrite <- app_assoc. cbn [app].
    eapply reads_app; [|apply IH; auto].
    destruct (value_cons (escaped_arg a)) as (t & ts & V).
    pose proof (reads_show_arg show_float k a (flat_map (fun a => 32 :: show_arg show_float a) args ++ r) L) as X.
    rewrite V in *. apply (reads_skip [32]); [apply skipped_space; auto|exact L|]. apply X; auto.
    destruct args; cbn; [right; right; exact E|left; reflexivity].
  Qed.

  Lemma skipped_margin c n : white c -> skipped (repeat c n).
  Proof.
    intros W. induction n as [|n IH]; [apply skipped_nil|]. cbn [repeat]. apply (skipped_app [c]); auto. apply skipped_space; auto.
  Qed.

  Lemma ascii_reads show_float step ch : white ch -> forall cs indent k, left k < 0 ->
    Forall (ascii_call c_string) cs ->
    scans k (show_calls show_float step ch cs indent) (flat_map (meaning F of_bits32) (map escaped_call cs)) k [].
  Proof.
    intros W cs. induction cs as [|c cs IH]; intros indent k L H; [apply scans_nil; exact L|].
    inversion H as [|? ? Hc Hcs]; subst. cbn [show_calls map flat_map].
    destruct c as [name args|s|s]; cbn [show_call].
    - destruct Hc as [Hn Ha]. apply name_ok in Hn as [NE NL]. rewrite <- !app_assoc.
      apply skipped_scans; [apply skipped_margin; exact W|exact L|]. cbn [escaped_call meaning].
      change (TRequest F name :: ?x) with ([TRequest F name] ++ x). rewrite <- app_assoc.
      eapply reads_scans.
      { eapply reads_one; [apply (scan_name 0); auto; destruct args; reflexivity|discriminate]. }
      eapply reads_scans; [apply reads_show_args; [exact L|exact Ha|reflexivity]|].
      apply (skipped_scans [LF]); [apply skipped_space; auto|exact L|]. apply IH; auto.
    - cbn [escaped_call meaning app]. rewrite <- app_assoc.
      apply skipped_scans; [apply skipped_margin; exact W|exact L|].
      apply skipped_scans; [apply skipped_comment; exact Hc|exact L|]. apply IH; auto.
    - cbn [escaped_call meaning app]. rewrite <- app_assoc.
      apply skipped_scans; [apply skipped_margin; exact W|exact L|].
      apply (skipped_scans (35 :: (35 :: s) ++ [LF])); [apply skipped_comment, one_line_sharp; exact Hc|exact L|]. apply IH; auto.
  Qed.
End Floats.

Lemma escape_plain c : 32 <= c <= 176 -> c <> 34 -> c <> 92 -> escape c = [c].
Proof.
  intros H A B. unfold escape.
  rewrite (proj2 (Z.eqb_neq _ _) A). rewrite (proj2 (Z.eqb_neq c 10)) by lia.
  rewrite (proj2 (Z.eqb_neq c 13)) by lia. rewrite (proj2 (Z.eqb_neq c 9)) by lia.
  rewrite (proj2 (Z.eqb_neq c 8)) by lia. rewrite (proj2 (Z.eqb_neq c 12)) by lia.
  rewrite (proj2 (Z.eqb_neq _ _) B).
  replace (32 <=? c) with true by (symmetry; apply Z.leb_le; lia).
  replace (c <=? 176) with true by (symmetry; apply Z.leb_le; lia). reflexivity.
Qed.

Lemma escaped_plain s : plain s -> escaped s = s.
Proof.
  induction 1 as [|c s (A & B & C) _ IH]; [reflexivity|]. cbn [escaped flat_map]. unfold escaped in IH.
  rewrite escape_plain by assumption. rewrite IH. reflexivity.
Qed.

Lemma escape_two c : 0 < c < 256 -> ~ (32 <= c <= 176 /\ c <> 34 /\ c <> 92) -> (2 <= length (escape c))%nat.
Proof.
  intros H N. unfold escape.
  destruct (Z.eqb_spec c 34); [cbn; lia|]. destruct (Z.eqb_spec c 10); [cbn; lia|].
  destruct (Z.eqb_spec c 13); [cbn; lia|]. destruct (Z.eqb_spec c 9); [cbn; lia|].
  destruct (Z.eqb_spec c 8); [cbn; lia|]. destruct (Z.eqb_spec c 12); [cbn; lia|].
  destruct (Z.eqb_spec c 92); [cbn; lia|]. destruct ((32 <=? c) && (c <=? 176)) eqn:P.
  - apply andb_true_iff in P as [P1 P2]. apply Z.leb_le in P1. apply Z.leb_le in P2. lia.
  - unfold show_nat. destruct (show_nat_digits 8 (Z.to_nat (Z.log2 c) + 1) ltac:(lia) c (log2_fuel c ltac:(lia))) as (_ & D & _).
    specialize (D ltac:(lia)). destruct (show_nat_from 8 _ c []); [congruence|]. cbn [length]. lia.
Qed.

Lemma escape_nonempty c : 0 < c < 256 -> (1 <= length (escape c))%nat.
Proof.
  intros H. destruct (Z_le_dec 32 c), (Z_le_dec c 176), (Z.eq_dec c 34), (Z.eq_dec c 92);
    try (pose proof (escape_two c H); lia). rewrite escape_plain by lia. cbn. lia.
Qed.

Lemma escaped_length s : c_string s -> (length s <= length (escaped s))%nat.
Proof.
  induction 1 as [|c s Hc _ IH]; [cbn; lia|]. unfold escaped in *. cbn [flat_map]. rewrite app_length.
  pose proof (escape_nonempty c Hc). cbn [length]. lia.
Qed.

(** Strings are read back as they were exactly if they need no escape. *)
Lemma escaped_iff s : c_string s -> (escaped s = s <-> plain s).
Proof.
  intros H. split; [|apply escaped_plain]. intros E.
  induction H as [|c s Hc Hs IH]; [constructor|].
  assert (D : 32 <= c <= 176 /\ c <> 34 /\ c <> 92 \/ ~ (32 <= c <= 176 /\ c <> 34 /\ c <> 92)) by lia.
  destruct D as [D|D].
  - constructor; [exact D|]. apply IH. unfold escaped in *. cbn [flat_map] in E. rewrite escape_plain in E by lia.
    injection E as E. exact E.
  - exfalso. apply (f_equal (@length Z)) in E. unfold escaped in E. cbn [flat_map length] in E. rewrite app_length in E.
    pose proof (escape_two c Hc D). pose proof (escaped_length s Hs) as X. unfold escaped in X. lia.
Qed.

Lemma escaped_call_plain c : ascii_call plain c -> escaped_call c = c.
Proof.
  destruct c as [name args|s|s]; cbn [ascii_call escaped_call]; auto. intros [_ H]. f_equal.
  rewrite <- (map_id args) at 2. apply map_ext_Forall. eapply Forall_impl; [|exact H].
  intros a. destruct a; cbn; auto; intros X; f_equal; [apply escaped_plain; exact X|].
  rewrite <- (map_id l) at 2. apply map_ext_Forall. eapply Forall_impl; [|exact X]. intros. apply escaped_plain; auto.
Qed.

Lemma plain_string s : plain s -> c_string s.
Proof. intros H. eapply Forall_impl; [|exact H]. cbn. intros; lia. Qed.

Lemma ascii_call_mono c : ascii_call plain c -> ascii_call c_string c.
Proof.
  destruct c as [name args|s|s]; cbn [ascii_call]; auto. intros [A H]. split; [exact A|].
  eapply Forall_impl; [|exact H]. intros a. destruct a; cbn; auto; intros X; [apply plain_string; exact X|].
  eapply Forall_impl; [|exact X]. apply plain_string.
Qed.

(** * The theorems *)

Section Statements.
  Variable F : Type.
  Variable of_bits32 of_bits64 of_int : Z -> F.
  Variable add mul : F -> F -> F.
  Variable times_tenth : F -> F.
  Variable tenth : F.
  Variable times_pow10 : F -> Z -> F.
  Variable fixed : Z -> Z -> Z -> F.
  Local Notation scans := (scans F of_bits32 of_bits64 of_int add mul times_tenth tenth times_pow10 fixed).

  Lemma binary_any_names (asserts : bool) cs :
    (length (nodup (list_eq_dec Z.eq_dec) (names cs)) <= if asserts then 255 else 256)%nat ->
    Forall encodable cs ->
    exists b, bin_calls asserts cs no_requests = Some b /\
      exists k', scans no_codes b (flat_map (meaning F of_bits32) cs) k' [].
  Proof.
    intros M H. eapply (binary_reads F of_bits32 of_bits64 of_int add mul times_tenth tenth times_pow10 fixed asserts (names cs) M);
      [| | |apply incl_refl|exact H].
    - split; [reflexivity|]. intros n c X. discriminate X.
    - split; [intros n c []|]. split; [constructor|reflexivity].
    - intros n [].
  Qed.

  Lemma names_number : (length (nodup (list_eq_dec Z.eq_dec) request_names) <= 255)%nat.
  Proof. apply Nat.leb_le. vm_compute. reflexivity. Qed.

  Lemma names_short : forallb (fun s => (length s <=? 100)%nat) request_names = true.
  Proof. vm_compute. reflexivity. Qed.

  Lemma call_encodable c : is_call c -> encodable c.
  Proof.
    destruct c as [name args|s|s]; cbn [is_call encodable]; auto. intros [H A].
    destruct (name_ok name H) as [NE _]. split; [exact NE|]. split; [|exact A].
    pose proof names_short as X. rewrite forallb_forall in X. apply X in H. apply Nat.leb_le in H. unfold int_max. lia.
  Qed.

  Lemma binary_calls asserts cs : Forall is_call cs ->
    exists b, bin_calls asserts cs no_requests = Some b /\
      (exists k', scans no_codes b (flat_map (meaning F of_bits32) cs) k' []) /\
      (forall ts k' l', scans no_codes b ts k' l' -> ts = flat_map (meaning F of_bits32) cs).
  Proof.
    intros H.
    assert (M : (length (nodup (list_eq_dec Z.eq_dec) request_names) <= if asserts then 255 else 256)%nat).
    { pose proof names_number. destruct asserts; lia. }
    assert (I : incl (names cs) request_names).
    { intros n N. unfold names in N. apply in_flat_map in N as (c & C & N). rewrite Forall_forall in H. apply H in C.
      destruct c; cbn in N; [destruct N as [<-|[]]|destruct N|destruct N]. apply C. }
    destruct (binary_reads F of_bits32 of_bits64 of_int add mul times_tenth tenth times_pow10 fixed asserts request_names M
      cs no_requests no_codes) as (b & E & k' & S).
    - split; [reflexivity|]. intros n c X. discriminate X.
    - split; [intros n c []|]. split; [constructor|reflexivity].
    - intros n [].
    - exact I.
    - eapply Forall_impl; [|exact H]. apply call_encodable.
    - exists b. split; [exact E|]. split; [exists k'; exact S|]. intros ts k2 l2 S2.
      destruct (scans_unique _ _ _ _ _ _ _ _ _ _ _ _ _ _ _ S _ _ _ S2) as [X _]. exact X.
  Qed.

  Definition requests (ts : list (token F)) : list (list Z) :=
    flat_map (fun t => match t with TRequest _ n => [n] | _ => [] end) ts.

  Lemma requests_app a b : requests (a ++ b) = requests a ++ requests b.
  Proof. apply flat_map_app. Qed.

  Lemma requests_map {A} (f : A -> token F) l : (forall a n, f a <> TRequest F n) -> requests (map f l) = [].
  Proof.
    intros H. induction l as [|a l IH]; [reflexivity|]. cbn [map]. change (f a :: ?x) with ([f a] ++ x).
    rewrite requests_app, IH, app_nil_r. cbn. pose proof (H a) as G. destruct (f a); auto. destruct (G s eq_refl).
  Qed.

  Lemma requests_value a : requests (value F of_bits32 a) = [].
  Proof.
    destruct a; cbn [value]; try reflexivity; change (TArrayBegin F :: ?x) with ([TArrayBegin F] ++ x);
      rewrite !requests_app, requests_map by discriminate; reflexivity.
  Qed.

  Lemma requests_meaning cs : requests (flat_map (meaning F of_bits32) cs) = names cs.
  Proof.
    induction cs as [|c cs IH]; [reflexivity|]. cbn [flat_map]. rewrite requests_app, IH. f_equal.
    destruct c as [name args|s|s]; [|reflexivity|reflexivity]. cbn [meaning].
    change (TRequest F name :: ?x) with ([TRequest F name] ++ x). rewrite requests_app.
    assert (E : requests (flat_map (value F of_bits32) args) = []).
    { induction args as [|a args IHa]; [reflexivity|]. cbn [flat_map]. rewrite requests_app, requests_value, IHa. reflexivity. }
    rewrite E. reflexivity.
  Qed.

  Lemma binary_names asserts cs : Forall is_call cs ->
    exists b, bin_calls asserts cs no_requests = Some b /\
      forall ts k' l', scans no_codes b ts k' l' -> requests ts = names cs.
  Proof.
    intros H. destruct (binary_calls asserts cs H) as (b & E & _ & U). exists b. split; [exact E|].
    intros ts k' l' S. rewrite (U _ _ _ S). apply requests_meaning.
  Qed.

  Lemma ascii_escaped show_float step ch indent cs : white ch -> Forall (ascii_call c_string) cs ->
    (exists k', scans no_codes (show_calls show_float step ch cs indent)
       (flat_map (meaning F of_bits32) (map escaped_call cs)) k' []) /\
    (forall ts k' l', scans no_codes (show_calls show_float step ch cs indent) ts k' l' ->
       ts = flat_map (meaning F of_bits32) (map escaped_call cs)).
  Proof.
    intros W H.
    pose proof (ascii_reads F of_bits32 of_bits64 of_int add mul times_tenth tenth times_pow10 fixed show_float step ch W
      cs indent no_codes ltac:(reflexivity) H) as S.
    split; [eexists; exact S|]. intros ts k' l' S2.
    destruct (scans_unique _ _ _ _ _ _ _ _ _ _ _ _ _ _ _ S _ _ _ S2) as [X _]. exact X.
  Qed.

  Lemma ascii_plain show_float step ch indent cs : white ch -> Forall (ascii_call plain) cs ->
    (exists k', scans no_codes (show_calls show_float step ch cs indent) (flat_map (meaning F of_bits32) cs) k' []) /\
    (forall ts k' l', scans no_codes (show_calls show_float step ch cs indent) ts k' l' ->
       ts = flat_map (meaning F of_bits32) cs).
  Proof.
    intros W H. replace (flat_map (meaning F of_bits32) cs) with (flat_map (meaning F of_bits32) (map escaped_call cs)).
    - apply ascii_escaped; auto. eapply Forall_impl; [|exact H]. apply ascii_call_mono.
    - f_equal. rewrite <- (map_id cs) at 2. apply map_ext_Forall. eapply Forall_impl; [|exact H]. apply escaped_call_plain.
  Qed.
End Statements.

Definition many_names (n : nat) : list call :=
  map (fun i => Request [65 + Z.of_nat (i / 26); 65 + Z.of_nat (i mod 26)] []) (seq 0 n).

Lemma many_encodable n : Forall encodable (many_names n).
Proof.
  apply Forall_forall. intros c H. unfold many_names in H. apply in_map_iff in H as (i & <- & _).
  cbn [encodable]. split; [discriminate|]. split; [cbn; unfold int_max; lia|constructor].
Qed.

Definition many_calls : list call := many_names 257 ++ [Request [65; 65] []].

Lemma many_names_wrong : exists cs b ts k',
  Forall encodable cs /\ bin_calls false cs no_requests = Some b /\
  scans unit (fun _ => tt) (fun _ => tt) (fun _ => tt) (fun _ _ => tt) (fun _ _ => tt) (fun _ => tt) tt
    (fun _ _ => tt) (fun _ _ _ => tt) no_codes b ts k' [] /\
  last (names cs) [] = [65; 65] /\ last ts (TEof unit) = TRequest unit [74; 87].
Proof.
  assert (T : match bin_calls false many_calls no_requests with
    | Some b => match read_all unit (fun _ => tt) (fun _ => tt) (fun _ => tt) (fun _ _ => tt) (fun _ _ => tt) (fun _ => tt) tt
                  (fun _ _ => tt) (fun _ _ _ => tt) 300 no_codes b with
                | Some (ts, _, []) => last ts (TEof unit) | _ => TError unit end
    | None => TError unit end = TRequest unit [74; 87]) by (vm_compute; reflexivity).
  assert (N : last (names many_calls) [] = [65; 65]) by (vm_compute; reflexivity).
  assert (E : Forall encodable many_calls).
  { apply Forall_app. split; [apply many_encodable|]. repeat constructor; discriminate. }
  revert T N E. generalize many_calls as cs. generalize 300%nat as fuel. intros fuel cs T N E.
  destruct (bin_calls false cs no_requests) as [b|] eqn:B; [|discriminate T].
  destruct (read_all _ _ _ _ _ _ _ _ _ _ fuel no_codes b) as [[[ts k'] [|]]|] eqn:R; try discriminate T.
  exists cs, b, ts, k'. split; [exact E|]. split; [exact B|]. split; [eapply read_all_scans; exact R|]. split; [exact N|exact T].
Qed.

(** Deciding the conditions, for the examples. *)
Lemma one_line_ok s : forallb (fun c => negb ((c =? LF) || (c =? CR) || (c =? 255))) s = true -> one_line s.
Proof.
  intros H. apply Forall_forall. rewrite forallb_forall in H. intros c I. apply H in I.
  apply negb_true_iff in I. apply orb_false_iff in I as [I C]. apply orb_false_iff in I as [A B].
  apply Z.eqb_neq in A. apply Z.eqb_neq in B. apply Z.eqb_neq in C. auto.
Qed.
Lemma plain_ok s : forallb (fun c => (32 <=? c) && (c <=? 176) && negb (c =? 34) && negb (c =? 92)) s = true -> plain s.
Proof.
  intros H. apply Forall_forall. rewrite forallb_forall in H. intros c I. apply H in I.
  apply andb_true_iff in I as [I D]. apply andb_true_iff in I as [I C]. apply andb_true_iff in I as [A B].
  apply Z.leb_le in A. apply Z.leb_le in B. apply negb_true_iff in C. apply negb_true_iff in D.
  apply Z.eqb_neq in C. apply Z.eqb_neq in D. auto.
Qed.
Lemma is_string_ok s : forallb (fun c => (0 <? c) && (c <? 256)) s = true -> (length s < 1000)%nat -> is_string s.
Proof.
  intros H L. split; [|unfold int_max; lia]. apply Forall_forall. rewrite forallb_forall in H. intros c I.
  apply H in I. apply andb_true_iff in I as [I1 I2]. apply Z.ltb_lt in I1. apply Z.ltb_lt in I2. lia.
Qed.
Lemma in_names_ok s : existsb (name_eqb s) request_names = true -> In s request_names.
Proof.
  intros H. apply existsb_exists in H as (x & I & E). unfold name_eqb in E.
  destruct (list_eq_dec Z.eq_dec s x) as [->|]; [exact I|discriminate].
Qed.

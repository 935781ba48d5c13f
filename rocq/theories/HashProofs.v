(** Lemmas on hashes of names. *)

From Coq Require Import List Bool ZArith Lia.
From Verif Require Import HashModel HashSpec.
Import ListNotations.
Open Scope Z_scope.

(** The hash without the limit of words. *)
Definition value (s : name) : Z := fold_left (fun h b => 31 * h + b) s 0.
Lemma value_snoc s b : value (s ++ [b]) = 31 * value s + b.
Proof. unfold value. rewrite fold_left_app. reflexivity. Qed.

Lemma value_bound lo s : 0 < lo -> Forall (fun b => lo <= b <= lo + 30 /\ b < 128) s ->
  0 <= value s /\ 30 * value s <= 127 * (31 ^ Z.of_nat (length s) - 1).
Proof.
  intros L. induction s as [ | b s IH ] using rev_ind; intros F; [ cbn; lia | ].
  apply Forall_app in F. destruct F as [ Fs Fb ]. apply Forall_cons_iff in Fb. destruct Fb as [ Fb _ ].
  specialize (IH Fs). rewrite value_snoc, app_length. cbn [length].
  replace (Z.of_nat (length s + 1)) with (Z.succ (Z.of_nat (length s))) by lia. rewrite Z.pow_succ_r by lia. lia.
Qed.

Lemma value_inj lo : 0 < lo -> forall s t,
  Forall (fun b => lo <= b <= lo + 30 /\ b < 128) s -> Forall (fun b => lo <= b <= lo + 30 /\ b < 128) t -> value s = value t -> s = t.
Proof.
  intros L. induction s as [ | b s IH ] using rev_ind; intros t Fs Ft E.
  - destruct t as [ | c t _ ] using rev_ind; [ reflexivity | ]. rewrite value_snoc in E.
    apply Forall_app in Ft. destruct Ft as [ Ft Fc ]. apply Forall_cons_iff in Fc. destruct Fc as [ Fc _ ].
    pose proof (value_bound lo t L Ft). change (value []) with 0 in E. lia.
  - apply Forall_app in Fs. destruct Fs as [ Fs Fb ]. apply Forall_cons_iff in Fb. destruct Fb as [ Fb _ ]. rewrite value_snoc in E.
    destruct t as [ | c t _ ] using rev_ind.
    + pose proof (value_bound lo s L Fs). change (value []) with 0 in E. lia.
    + apply Forall_app in Ft. destruct Ft as [ Ft Fc ]. apply Forall_cons_iff in Fc. destruct Fc as [ Fc _ ]. rewrite value_snoc in E.
      assert (b = c) by lia. subst c. f_equal. apply IH; try assumption. lia.
Qed.

Section Word.
Variable word : Z.
Hypothesis Hw : 0 < word.

Lemma hash_more_value s : forall h k, h = k mod word -> Forall (fun b => 0 <= b < 128) s ->
  hash_more word h s = (fold_left (fun h b => 31 * h + b) s k) mod word.
Proof.
  induction s as [ | b s IH ]; intros h k E F; cbn [hash_more fold_left]; [ exact E | ].
  apply Forall_cons_iff in F. destruct F as [ Fb F ]. apply IH; [ | exact F ].
  unfold char_value. destruct (Z.ltb_spec b 128); [ | lia ]. subst h.
  replace (k mod word * 32 - k mod word + b mod word) with (31 * (k mod word) + b mod word) by ring.
  rewrite <- Zplus_mod_idemp_l, Zmult_mod_idemp_r, Zplus_mod_idemp_l, Zplus_mod_idemp_r. reflexivity.
Qed.
Lemma hash_value s : Forall (fun b => 0 <= b < 128) s -> hash word s = value s mod word.
Proof.
  destruct s as [ | b s ]; intros F; [ symmetry; apply Z.mod_0_l; lia | ].
  apply Forall_cons_iff in F. destruct F as [ Fb F ]. cbn [hash]. unfold value. cbn [fold_left].
  apply hash_more_value; [ | exact F ]. unfold char_value. destruct (Z.ltb_spec b 128); [ | lia ]. reflexivity.
Qed.
Lemma hash_plain lo most s : 0 < lo -> short word most -> plain lo most s -> hash word s = value s.
Proof.
  intros L [ M S ] [ N F ]. rewrite hash_value by (eapply Forall_impl; [ | exact F ]; cbn; lia).
  apply Z.mod_small. pose proof (value_bound lo s L F) as [ A B ]. split; [ exact A | ].
  pose proof (Z.pow_le_mono_r 31 (Z.of_nat (length s)) most ltac:(lia) N). lia.
Qed.
Lemma hash_inj lo most s t : 0 < lo -> short word most -> plain lo most s -> plain lo most t -> hash word s = hash word t -> s = t.
Proof.
  intros L S Ps Pt E. rewrite (hash_plain lo most s), (hash_plain lo most t) in E by assumption.
  destruct Ps as [ _ Fs ]. destruct Pt as [ _ Ft ]. apply (value_inj lo L); assumption.
Qed.

Lemma search_some h l : forall k i, search h k l = Some i -> (k <= i)%nat /\ nth_error l (i - k) = Some h /\ forall j, (j < i - k)%nat -> nth_error l j <> Some h.
Proof.
  induction l as [ | a l IH ]; intros k i E; cbn [search] in E; [ discriminate | ].
  destruct (Z.eqb_spec a h) as [ -> | Na ].
  - injection E as <-. split; [ lia | ]. rewrite Nat.sub_diag. split; [ reflexivity | lia ].
  - destruct (IH (S k) i E) as (A & B & C). split; [ lia | ]. replace (i - k)%nat with (S (i - S k)) by lia. split; [ exact B | ].
    intros j J. destruct j as [ | j ]; cbn [nth_error]; [ congruence | ]. apply C. lia.
Qed.
Lemma search_none h l : forall k, search h k l = None -> ~ In h l.
Proof.
  induction l as [ | a l IH ]; intros k E; cbn [search] in E; [ intros [] | ].
  destruct (Z.eqb_spec a h) as [ -> | Na ]; [ discriminate | ]. intros [ I | I ]; [ congruence | ]. exact (IH _ E I).
Qed.
Lemma search_in h l k : In h l -> exists i, search h k l = Some i.
Proof. intros I. destruct (search h k l) as [ i | ] eqn:E; [ exists i; reflexivity | ]. destruct (search_none h l k E I). Qed.

(** No other name of the table has the hash of [s]. *)
Definition no_clash (names : list name) (s : name) : Prop := forall n, In n names -> hash word n = hash word s -> n = s.

Lemma nth_hash names i h : nth_error (map (hash word) names) i = Some h -> exists n, nth_error names i = Some n /\ hash word n = h.
Proof. intros E. rewrite nth_error_map in E. destruct (nth_error names i) as [ n | ]; [ | discriminate ]. exists n. split; [ reflexivity | ]. cbn in E. congruence. Qed.
Lemma nth_skip {A} (l : list A) : forall n i, nth_error (skipn n l) i = nth_error l (n + i).
Proof. induction l as [ | a l IH ]; intros [ | n ] i; cbn; try reflexivity; [ destruct i; reflexivity | apply IH ]. Qed.
Lemma nth_first {A} (l : list A) : forall n i v, nth_error (firstn n l) i = Some v -> nth_error l i = Some v /\ (i < n)%nat.
Proof.
  induction l as [ | a l IH ]; intros [ | n ] i v E; try (destruct i; discriminate). destruct i as [ | i ]; [ split; [ exact E | lia ] | ].
  destruct (IH n i v E). split; [ assumption | lia ].
Qed.

Lemma search_first names s : no_clash names s -> forall i, search (hash word s) 0 (map (hash word) names) = Some i -> first_at names s i.
Proof.
  intros C i E. destruct (search_some _ _ _ _ E) as (_ & A & B). rewrite Nat.sub_0_r in A, B.
  destruct (nth_hash _ _ _ A) as (n & N & H). split.
  - transitivity (Some n); [ exact N | ]. f_equal. apply C; [ eapply nth_error_In; exact N | exact H ].
  - intros j J X. apply (B j J). change (nth_error (map (hash word) names) j = Some (hash word s)). rewrite nth_error_map. change (option_map (hash word) (@nth_error (list Z) names j) = Some (hash word s)). rewrite X. reflexivity.
Qed.
Lemma search_absent names s : forall l, (forall n, In n l -> In n names) -> search (hash word s) 0 (map (hash word) l) = None -> ~ In s l.
Proof. intros l Sub E I. apply (search_none _ _ _ E). apply in_map, I. Qed.

Lemma find_from_ok names last s : no_clash names s ->
  match find_from word names last s with
  | (Some i, next) => is_at names s i /\ next = i
  | (None, next) => ~ In s names /\ next = last
  end.
Proof.
  intros C. unfold find_from. destruct (search (hash word s) last (skipn last (map (hash word) names))) as [ i | ] eqn:E.
  - split; [ | reflexivity ]. destruct (search_some _ _ _ _ E) as (L & A & _). rewrite nth_skip in A.
    replace (last + (i - last))%nat with i in A by lia. destruct (nth_hash _ _ _ A) as (n & N & H). unfold is_at. transitivity (Some n); [ exact N | ]. f_equal. apply C; [ eapply nth_error_In; exact N | exact H ].
  - destruct (search (hash word s) 0 (firstn last (map (hash word) names))) as [ i | ] eqn:E2.
    + split; [ | reflexivity ]. destruct (search_some _ _ _ _ E2) as (_ & A & _). rewrite Nat.sub_0_r in A. apply nth_first in A. destruct A as [ A _ ].
      destruct (nth_hash _ _ _ A) as (n & N & H). unfold is_at. transitivity (Some n); [ exact N | ]. f_equal. apply C; [ eapply nth_error_In; exact N | exact H ].
    + split; [ | reflexivity ]. intros I. apply (in_map (hash word)) in I. rewrite <- (firstn_skipn last) in I. apply in_app_or in I.
      destruct I as [ I | I ]; [ exact (search_none _ _ _ E2 I) | exact (search_none _ _ _ E I) ].
Qed.
Lemma find_from_present names last s : In s names -> exists i n, find_from word names last s = (Some i, i) /\ nth_error names i = Some n /\ hash word n = hash word s.
Proof.
  intros I. unfold find_from. destruct (search (hash word s) last (skipn last (map (hash word) names))) as [ i | ] eqn:E.
  - destruct (search_some _ _ _ _ E) as (L & A & _). rewrite nth_skip in A.
    replace (last + (i - last))%nat with i in A by lia. destruct (nth_hash _ _ _ A) as (n & N & H). exists i, n. auto.
  - destruct (search (hash word s) 0 (firstn last (map (hash word) names))) as [ i | ] eqn:E2.
    + destruct (search_some _ _ _ _ E2) as (_ & A & _). rewrite Nat.sub_0_r in A. apply nth_first in A. destruct A as [ A _ ].
      destruct (nth_hash _ _ _ A) as (n & N & H). exists i, n. auto.
    + apply (in_map (hash word)) in I. rewrite <- (firstn_skipn last) in I. apply in_app_or in I.
      destruct I as [ I | I ]; [ destruct (search_none _ _ _ E2 I) | destruct (search_none _ _ _ E I) ].
Qed.
End Word.

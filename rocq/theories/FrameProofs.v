From Coq Require Import List Bool ZArith Lia.
From Verif Require Import FrameModel FrameSpec.
Import ListNotations.
Open Scope Z_scope.

Lemma desired_In frames n : desired frames n = true <-> In n frames.
Proof.
  unfold desired. rewrite existsb_exists. split.
  - intros (x & I & E). apply Z.eqb_eq in E. subst. exact I.
  - intros I. exists n. split; [exact I|apply Z.eqb_refl].
Qed.

Section Filter.
  Variable R : Type.
  Lemma filter_kept frames wanted : (forall n, In n frames <-> wanted n) -> forall qs before active,
    active = match open_frame R before with Some n => desired frames n | None => true end ->
    kept R wanted before qs (filter_from R frames active qs).
  Proof.
    intros W. induction qs as [|q qs IH]; intros before active A; [constructor|]. cbn [filter_from].
    assert (T : forall n, desired frames n = true -> wanted n) by (intros n H; apply W, desired_In, H).
    assert (F : forall n, desired frames n = false -> ~ wanted n) by (intros n H K; apply W, desired_In in K; congruence).
    destruct q as [n| |r]; cbn [handle].
    - destruct (desired frames n) eqn:D; cbn [app].
      + apply kept_take; [cbn; intros k K; injection K as <-; auto|apply IH; cbn; auto].
      + eapply kept_drop; [reflexivity|auto|apply IH; cbn; auto].
    - assert (N : kept R wanted (FrameEnd R :: before) qs (filter_from R frames true qs)) by (apply IH; reflexivity).
      destruct active; cbn [app].
      + apply kept_take; [|exact N]. cbn. intros n E. rewrite E in A. auto.
      + destruct (open_frame R before) as [n|] eqn:E; [|discriminate]. eapply kept_drop; [cbn; exact E|auto|exact N].
    - assert (N : kept R wanted (Other R r :: before) qs (filter_from R frames active qs)) by (apply IH; exact A).
      destruct active; cbn [app].
      + apply kept_take; [|exact N]. cbn. intros n E. rewrite E in A. auto.
      + destruct (open_frame R before) as [n|] eqn:E; [|discriminate]. eapply kept_drop; [cbn; exact E|auto|exact N].
  Qed.
  Theorem frame_drop_kept frames wanted qs : (forall n, In n frames <-> wanted n) -> kept R wanted [] qs (frame_drop R frames qs).
  Proof. intros W. apply filter_kept; auto. Qed.

  Lemma filter_body frames active b rest :
    filter_from R frames active (map (Other R) b ++ rest) = (if active then map (Other R) b else []) ++ filter_from R frames active rest.
  Proof. induction b as [|r b IH]; [destruct active; reflexivity|]. cbn [map app filter_from handle]. rewrite IH. destruct active; reflexivity. Qed.
  Theorem frame_drop_parts frames ps :
    frame_drop R frames (flat_map (requests_of R) ps) = flat_map (requests_of R) (filter (part_wanted R (desired frames)) ps).
  Proof.
    unfold frame_drop. induction ps as [|[r|n b] ps IH]; [reflexivity|..]; cbn [flat_map requests_of].
    - cbn [app filter_from handle filter part_wanted flat_map requests_of]. rewrite IH. reflexivity.
    - cbn [app filter_from handle]. rewrite <- app_assoc, filter_body. cbn [app filter_from handle filter part_wanted].
      rewrite IH. destruct (desired frames n); cbn [app flat_map requests_of]; [|reflexivity]. rewrite <- app_assoc. reflexivity.
  Qed.
End Filter.

(** * Parsing *)

Lemma digits_number s v : number s v -> forall acc rest, digits acc (s ++ rest) = digits (acc * 10 ^ Z.of_nat (length s) + v) rest.
Proof.
  induction 1 as [d D|s v d _ IH D]; intros acc rest.
  - cbn [app digits]. assert (X : is_digit (48 + d) = true) by (unfold is_digit; apply andb_true_iff; split; apply Z.leb_le; lia).
    rewrite X. f_equal. change (10 ^ Z.of_nat (length [48 + d])) with 10. lia.
  - rewrite <- app_assoc, IH. cbn [app digits]. assert (X : is_digit (48 + d) = true) by (unfold is_digit; apply andb_true_iff; split; apply Z.leb_le; lia).
    rewrite X. f_equal. rewrite app_length. cbn [length]. rewrite Nat2Z.inj_add, Z.pow_add_r by lia. change (10 ^ Z.of_nat 1) with 10. lia.
Qed.
Lemma number_hd s v : number s v -> 0 <= v /\ exists c r, s = c :: r /\ is_digit c = true.
Proof.
  induction 1 as [d D|s v d _ [P (c & r & -> & E)] D].
  - split; [lia|]. exists (48 + d), []. split; [reflexivity|]. unfold is_digit; apply andb_true_iff; split; apply Z.leb_le; lia.
  - split; [lia|]. exists c, (r ++ [48 + d]). split; [reflexivity|exact E].
Qed.
Lemma digit_not c : is_digit c = true -> is_space c = false /\ (c =? MINUS) = false /\ (c =? PLUS) = false /\ (c =? COMMA) = false.
Proof. unfold is_digit, is_space, MINUS, PLUS, COMMA. intros H. apply andb_true_iff in H as [A B]. lia. Qed.

Definition stops (rest : list Z) : Prop := match rest with [] => True | c :: _ => is_digit c = false end.

Lemma strtol_digits neg s v rest : number s v -> stops rest -> - 2 ^ 63 <= v < 2 ^ 63 ->
  match s ++ rest with
  | c :: _ => if is_digit c then let (v, r) := digits 0 (s ++ rest) in Some (to_int (clamp_long (if neg : bool then - v else v)), r) else None
  | [] => None
  end = Some (to_int (if neg then - v else v), rest).
Proof.
  intros N S B. pose proof (digits_number s v N 0 rest) as D. destruct (number_hd s v N) as (P & c & r & -> & E). cbn [app] in *.
  rewrite E. rewrite D. destruct rest as [|d rest]; cbn [digits] in *; [|cbn in S; rewrite S];
    rewrite Z.mul_0_l, Z.add_0_l; unfold clamp_long; do 3 f_equal; destruct neg; lia.
Qed.
Lemma strtol_signed s v : signed s v -> forall rest, stops rest -> - 2 ^ 63 < v < 2 ^ 63 -> strtol (s ++ rest) = Some (to_int v, rest).
Proof.
  induction 1 as [s v N|s v N|s v N|c s v C _ IH]; intros rest St B.
  - pose proof (strtol_digits false s v rest N St ltac:(lia)) as X. unfold strtol.
    destruct (number_hd s v N) as (P & c & r & -> & E). destruct (digit_not c E) as (A1 & A2 & A3 & _). cbn [app skip_spaces] in *.
    rewrite A1, A2, A3. exact X.
  - pose proof (strtol_digits false s v rest N St ltac:(lia)) as X. unfold strtol. cbn [app skip_spaces].
    change (is_space PLUS) with false. change (PLUS =? MINUS) with false. change (PLUS =? PLUS) with true. exact X.
  - pose proof (strtol_digits true s v rest N St ltac:(lia)) as X. unfold strtol. cbn [app skip_spaces].
    change (is_space MINUS) with false. change (MINUS =? MINUS) with true. exact X.
  - unfold strtol. cbn [app skip_spaces]. assert (E : is_space c = true) by (cbn in C; decompose [or] C; subst; try reflexivity; contradiction).
    rewrite E. apply (IH rest St B).
Qed.
Lemma signed_nonempty s v : signed s v -> s <> [].
Proof. destruct 1 as [s v N|s v N|s v N|c s v C N]; try discriminate. destruct (number_hd s v N) as (_ & c & r & -> & _). discriminate. Qed.

Lemma to_int_id z : - 2 ^ 31 <= z < 2 ^ 31 -> to_int z = z.
Proof. intros H. unfold to_int. rewrite Z.mod_small by lia. lia. Qed.

Lemma range_In a b n : In n (range a b) <-> a <= n <= b.
Proof.
  unfold range. rewrite in_map_iff. split.
  - intros (k & <- & K). apply in_seq in K. lia.
  - intros H. exists (Z.to_nat (n - a)). split; [lia|]. apply in_seq. lia.
Qed.

Definition in_int (p : Z * Z) : Prop := - 2 ^ 31 <= fst p /\ snd p < 2 ^ 31 - 1.

Lemma parse_entry k acc s a b rest : entry s a b -> in_int (a, b) -> (rest = [] \/ exists t, rest = COMMA :: t) ->
  exists l, (forall n, In n l <-> a <= n <= b) /\ parse_from (S k) acc (s ++ rest) = parse_from k (acc ++ l) rest.
Proof.
  intros E [Lo Hi] Rest. cbn [fst snd] in Lo, Hi. destruct E as [s v Sv|s a t b Sa Sb].
  - exists [v]. split; [intros n; cbn; lia|].
    assert (St : stops rest) by (destruct Rest as [->|[t ->]]; reflexivity).
    pose proof (strtol_signed s v Sv rest St ltac:(lia)) as X. rewrite to_int_id in X by lia.
    destruct s as [|c s]; [destruct (signed_nonempty _ _ Sv eq_refl)|]. cbn [app] in *. cbn [parse_from]. rewrite X.
    destruct Rest as [->|[t ->]]; [reflexivity|]. reflexivity.
  - exists (range (Z.min a b) (Z.max a b)). split; [intros n; apply range_In|].
    assert (St : stops rest) by (destruct Rest as [->|[u ->]]; reflexivity).
    rewrite <- app_assoc. cbn [app].
    pose proof (strtol_signed s a Sa (MINUS :: t ++ rest) eq_refl ltac:(lia)) as X. rewrite to_int_id in X by lia.
    pose proof (strtol_signed t b Sb rest St ltac:(lia)) as Y. rewrite to_int_id in Y by lia.
    destruct s as [|c s]; [destruct (signed_nonempty _ _ Sa eq_refl)|]. cbn [app] in *. cbn [parse_from]. rewrite X.
    change (MINUS =? MINUS) with true. cbv iota. rewrite Y. cbv zeta. replace (Z.max a b =? INT_MAX) with false; [reflexivity|].
    symmetry. apply Z.eqb_neq. unfold INT_MAX. lia.
Qed.
Lemma entry_nonempty s a b : entry s a b -> (1 <= length s)%nat.
Proof. destruct 1 as [s v Sv|s a t b Sa Sb]; [apply signed_nonempty in Sv|apply signed_nonempty in Sa]; destruct s; try congruence; cbn; lia. Qed.

Lemma strtol_comma s : strtol (COMMA :: s) = None.
Proof. reflexivity. Qed.

Lemma parse_denotes s l : denotes s l -> Forall in_int l -> forall k acc, (length s < k)%nat ->
  exists r, parse_from k acc s = Frames (acc ++ r) /\ forall n, In n r <-> listed l n.
Proof.
  induction 1 as [|s l _ IH|s a b E|s a b t l E _ IH]; intros B k acc K.
  - destruct k; [cbn in K; lia|]. exists []. rewrite app_nil_r. split; [reflexivity|]. intros n. split; [intros []|intros (a & b & [] & _)].
  - destruct k as [|k]; [cbn in K; lia|]. cbn [parse_from]. rewrite strtol_comma. change (COMMA =? COMMA) with true. cbv iota.
    apply (IH B k acc). cbn in K. lia.
  - inversion_clear B as [|? ? B1 _]. pose proof (entry_nonempty _ _ _ E). destruct k as [|[|k]]; [lia|lia|].
    destruct (parse_entry (S k) acc s a b [] E B1 (or_introl eq_refl)) as (r & Hr & P). rewrite app_nil_r in P. exists r. split; [exact P|].
    intros n. rewrite Hr. split; [intros X; exists a, b; cbn; auto|]. intros (a' & b' & [X|[]] & Y). injection X as -> ->. exact Y.
  - inversion_clear B as [|? ? B1 B2]. rewrite app_length in K. cbn [length] in K. pose proof (entry_nonempty _ _ _ E). destruct k as [|[|k]]; [lia|lia|].
    destruct (parse_entry (S k) acc s a b (COMMA :: t) E B1 (or_intror (ex_intro _ t eq_refl))) as (r & Hr & P).
    destruct (IH B2 k (acc ++ r) ltac:(lia)) as (r2 & P2 & H2). exists (r ++ r2). split.
    + rewrite P. cbn [parse_from]. rewrite strtol_comma. change (COMMA =? COMMA) with true. cbv iota. rewrite P2, app_assoc. reflexivity.
    + intros n. rewrite in_app_iff, Hr, H2. split.
      * intros [X|(a' & b' & I & X)]; [exists a, b; cbn; auto|exists a', b'; cbn; auto].
      * intros (a' & b' & [I|I] & X); [injection I as -> ->; auto|right; exists a', b'; auto].
Qed.
Theorem parse_frames_ok s l : denotes s l -> Forall in_int l -> exists r, parse_frames s = Frames r /\ forall n, In n r <-> listed l n.
Proof. intros D B. unfold parse_frames. destruct (parse_denotes s l D B (S (length s)) [] ltac:(lia)) as (r & P & H). exists r. auto. Qed.

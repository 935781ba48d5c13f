(** The values of numbers and codes in a RIB stream. *)

From Coq Require Import List Bool Arith ZArith QArith Qpower Lia Lqa.
From Verif Require Import RibBufModel RibTokModel RibTokSpec RibTokProofs RibNumSpec.
Import ListNotations.
Open Scope Z_scope.

Definition q_number := read_number Q inject_Z Qplus Qmult (fun x => x * (1 # 10))%Q (1 # 10) (fun x e => x * 10 ^ e)%Q.
Definition q_digits := digits Q inject_Z Qplus Qmult.
Definition q_fraction := fraction Q inject_Z Qplus Qmult (fun x => x * (1 # 10))%Q.
Definition q_exponent := exponent Q inject_Z Qplus Qmult (fun x e => x * 10 ^ e)%Q.

Definition number_on (i : Z) (ds : list Z) : Z := fold_left (fun n c => n * 10 + (c - 48)) ds i.

Lemma digit_true c : 48 <= c <= 57 -> is_digit c = true.
Proof. intros H. unfold is_digit. apply andb_true_iff. split; apply Z.leb_le; lia. Qed.

Lemma number_on_ge ds : all_digits ds -> forall i, 0 <= i -> i <= number_on i ds.
Proof.
  induction 1 as [|c ds Hc _ IH]; intros i I; unfold number_on in *; cbn [fold_left]; [lia|].
  specialize (IH (i * 10 + (c - 48)) ltac:(lia)). lia.
Qed.

Lemma q_digits_value ds r : all_digits ds -> is_digit (first r) = false -> forall i q,
  0 <= i -> number_on i ds <= int_max -> (q == inject_Z i)%Q ->
  exists q', q_digits (Some i) q (ds ++ r) = (Some (number_on i ds), q', r) /\ (q' == inject_Z (number_on i ds))%Q.
Proof.
  intros H R. induction H as [|c ds Hc Hds IH]; intros i q I B E; cbn [app].
  - exists q. split; [|exact E]. unfold number_on. cbn [fold_left].
    destruct r as [|c r]; [reflexivity|]. cbn [first hd] in R. unfold q_digits. cbn [digits]. rewrite R. reflexivity.
  - unfold q_digits in *. cbn [digits]. rewrite digit_true by exact Hc. cbv zeta.
    assert (G := number_on_ge ds Hds (i * 10 + (c - 48)) ltac:(lia)). unfold number_on in *. cbn [fold_left] in *.
    replace (i * 10 + (c - 48) <=? int_max) with true by (symmetry; apply Z.leb_le; lia).
    apply IH; [lia|exact B|]. rewrite E. rewrite inject_Z_plus, inject_Z_mult. reflexivity.
Qed.

Lemma pow10_succ n : (10 ^ Z.of_nat (S n) == 10 * 10 ^ Z.of_nat n)%Q.
Proof. rewrite Nat2Z.inj_succ. unfold Z.succ. rewrite Qpower_plus by discriminate. ring. Qed.

Lemma pow10_pos n : ~ (10 ^ Z.of_nat n == 0)%Q.
Proof.
  induction n as [|n IH]; [discriminate|]. rewrite pow10_succ. intros E. apply Qmult_integral in E as [E|E]; [discriminate|auto].
Qed.

Lemma number_on_plus ds : forall i, number_on i ds = i * 10 ^ Z.of_nat (length ds) + number ds.
Proof.
  unfold number, number_on. induction ds as [|c ds IH]; intros i; cbn [fold_left length]; [lia|].
  rewrite IH, (IH (0 * 10 + (c - 48))). rewrite Nat2Z.inj_succ, Z.pow_succ_r by lia. lia.
Qed.

Lemma number_cons c ds : number (c :: ds) = (c - 48) * 10 ^ Z.of_nat (length ds) + number ds.
Proof.
  unfold number at 1. cbn [fold_left]. change (fold_left _ ds ?i) with (number_on i ds). rewrite number_on_plus. lia.
Qed.

Lemma inject_pow10 n : (inject_Z (10 ^ Z.of_nat n) == 10 ^ Z.of_nat n)%Q.
Proof.
  induction n as [|n IH]; [reflexivity|]. rewrite pow10_succ. rewrite Nat2Z.inj_succ, Z.pow_succ_r by lia.
  rewrite inject_Z_mult, IH. reflexivity.
Qed.

Lemma q_fraction_value ds r : all_digits ds -> is_digit (first r) = false -> forall q p,
  exists q', q_fraction q p (ds ++ r) = (q', r) /\
    (q' == q + p * 10 * (inject_Z (number ds) / 10 ^ Z.of_nat (length ds)))%Q.
Proof.
  intros H R. induction H as [|c ds Hc Hds IH]; intros q p; cbn [app].
  - exists q. split.
    + destruct r as [|c r]; [reflexivity|]. cbn [first hd] in R. unfold q_fraction. cbn [fraction]. rewrite R. reflexivity.
    + unfold number. cbn. field.
  - unfold q_fraction in *. cbn [fraction]. rewrite digit_true by exact Hc.
    destruct (IH (q + inject_Z (c - 48) * p)%Q (p * (1 # 10))%Q) as (q' & E & V). exists q'. split; [exact E|].
    rewrite V. cbn [length]. rewrite pow10_succ, number_cons, inject_Z_plus, inject_Z_mult, inject_pow10.
    field. apply pow10_pos.
Qed.

Lemma q_exponent_value q s ds r : all_digits ds -> ds <> [] -> number ds <= int_max -> is_digit (first r) = false ->
  q_exponent q (spell_sign s ++ ds ++ r) = Some (TFloat Q (q * 10 ^ (sign_value s * number ds))%Q, r).
Proof.
  intros D NE B R.
  assert (X : exists q', q_digits (Some 0) q (ds ++ r) = (Some (number ds), q', r)).
  { clear NE. assert (G : forall i q, 0 <= i -> number_on i ds <= int_max ->
      exists q', q_digits (Some i) q (ds ++ r) = (Some (number_on i ds), q', r)).
    { clear B. intros i p I B. revert i p I B. induction D as [|c ds Hc Hds IH]; intros i p I B; cbn [app].
      - exists p. destruct r as [|c r]; [reflexivity|]. cbn [first hd] in R. unfold q_digits. cbn [digits]. rewrite R. reflexivity.
      - unfold q_digits in *. cbn [digits]. rewrite digit_true by exact Hc. cbv zeta.
        assert (G := number_on_ge ds Hds (i * 10 + (c - 48)) ltac:(lia)). unfold number_on in *. cbn [fold_left] in *.
        replace (i * 10 + (c - 48) <=? int_max) with true by (symmetry; apply Z.leb_le; lia).
        apply IH; [lia|exact B]. }
    apply (G 0 q); [lia|exact B]. }
  destruct X as [q' X]. unfold q_exponent, exponent. destruct ds as [|d ds]; [congruence|].
  assert (Hd : 48 <= d <= 57) by (inversion D; auto).
  assert (S : sign_of (spell_sign s ++ (d :: ds) ++ r) = (sign_value s, (d :: ds) ++ r)).
  { unfold sign_of. destruct s as [[]|]; cbn [spell_sign app first hd tl]; [reflexivity|reflexivity|].
    replace (d =? 43) with false by (symmetry; apply Z.eqb_neq; lia).
    replace (d =? 45) with false by (symmetry; apply Z.eqb_neq; lia). reflexivity. }
  rewrite S. cbn [app first hd]. rewrite digit_true by exact Hd. cbn [negb].
  unfold q_digits in X. cbn [app] in X. rewrite X. reflexivity.
Qed.

Lemma q_number_value n r : well_spelt n -> stops n r ->
  match q_number (spell n ++ r) with
  | Some (TFloat _ q, r') => r' = r /\ (frac n <> None \/ expo n <> None) /\ (q == denotes n)%Q
  | Some (TInteger _ i, r') => r' = r /\ frac n = None /\ expo n = None /\ (inject_Z i == denotes n)%Q
  | _ => False
  end.
Proof.
  destruct n as [sg w fr ex]. unfold well_spelt, stops, spell, denotes. cbn [minus whole frac expo].
  intros (Dw & Bw & Df & De) (R1 & R2 & R3).
  set (rest := match fr with None => [] | Some ds => 46 :: ds end ++
     match ex with None => [] | Some (c, s, ds) => c :: spell_sign s ++ ds end ++ r).
  replace ((spell_sign sg ++ w ++ match fr with None => [] | Some ds => 46 :: ds end ++
     match ex with None => [] | Some (c, s, ds) => c :: spell_sign s ++ ds end) ++ r)
    with (spell_sign sg ++ w ++ rest) by (unfold rest; rewrite <- !app_assoc; reflexivity).
  assert (Nd : is_digit (first rest) = false).
  { unfold rest. destruct fr; [reflexivity|]. destruct ex as [[[c s] ds]|]; [|exact R1].
    cbn. destruct De as ([-> | ->] & _); reflexivity. }
  assert (S : sign_of (spell_sign sg ++ w ++ rest) = (sign_value sg, w ++ rest)).
  { unfold sign_of. destruct sg as [[]|]; cbn [spell_sign app first hd tl]; [reflexivity|reflexivity|].
    assert (C : first (w ++ rest) <> 43 /\ first (w ++ rest) <> 45).
    { destruct w as [|d w]; [|cbn; inversion Dw; lia]. destruct fr as [ds|]; [|destruct (Df eq_refl)].
      cbn. lia. }
    rewrite (proj2 (Z.eqb_neq _ _) (proj1 C)), (proj2 (Z.eqb_neq _ _) (proj2 C)). reflexivity. }
  destruct (q_digits_value w rest Dw Nd 0 (inject_Z 0)) as (q' & X & V); [lia|exact Bw|reflexivity|].
  change (number_on 0 w) with (number w) in *.
  unfold q_number, read_number. rewrite S. unfold q_digits in X. rewrite X.
  assert (Have : w <> [] -> is_digit (first (w ++ rest)) = true).
  { intros N. destruct w as [|d w]; [congruence|]. cbn. apply digit_true. inversion Dw; auto. }
  destruct fr as [fs|].
  - unfold rest. cbn [app first hd tl]. change (46 =? 46) with true. cbv iota.
    destruct Df as [Dfs Or].
    set (rest2 := match ex with None => [] | Some (c, s, ds) => c :: spell_sign s ++ ds end ++ r).
    assert (Nd2 : is_digit (first rest2) = false).
    { unfold rest2. destruct ex as [[[c s] ds]|]; [|exact R1]. cbn. destruct De as ([-> | ->] & _); reflexivity. }
    replace (negb (is_digit (first (w ++ 46 :: fs ++ rest2))) && negb (is_digit (first (fs ++ rest2)))) with false.
    2:{ symmetry. apply andb_false_iff. destruct w as [|d w].
        - right. destruct fs as [|d fs]; [destruct Or; congruence|]. cbn. rewrite digit_true; [reflexivity|inversion Dfs; auto].
        - left. cbn. rewrite digit_true; [reflexivity|inversion Dw; auto]. }
    destruct (q_fraction_value fs rest2 Dfs Nd2 q' (1 # 10)%Q) as (q2 & Y & V2). unfold q_fraction in Y. rewrite Y.
    assert (V3 : (q2 * inject_Z (sign_value sg) ==
      inject_Z (sign_value sg) * (inject_Z (number w) + inject_Z (number fs) / 10 ^ Z.of_nat (length fs)))%Q).
    { rewrite V2, V. field. apply pow10_pos. }
    destruct ex as [[[c s] ds]|].
    + unfold rest2. destruct De as (Dc & Dd & NE & B). cbn [app first hd tl].
      replace ((c =? 101) || (c =? 69)) with true by (destruct Dc as [-> | ->]; reflexivity).
      rewrite <- app_assoc. pose proof (q_exponent_value (q2 * inject_Z (sign_value sg))%Q s ds r Dd NE B R1) as Z.
      unfold q_exponent in Z. rewrite Z. split; [reflexivity|]. split; [left; discriminate|]. rewrite V3. reflexivity.
    + unfold rest2. cbn [app]. destruct (R2 eq_refl) as [A B].
      rewrite (proj2 (Z.eqb_neq _ _) A), (proj2 (Z.eqb_neq _ _) B). cbn [orb].
      split; [reflexivity|]. split; [left; discriminate|]. rewrite V3. ring.
  - specialize (Have Df). rewrite Have. destruct ex as [[[c s] ds]|].
    + unfold rest. cbn [app first hd tl]. destruct De as (Dc & Dd & NE & B).
      replace (c =? 46) with false by (destruct Dc as [-> | ->]; reflexivity).
      replace ((c =? 101) || (c =? 69)) with true by (destruct Dc as [-> | ->]; reflexivity).
      rewrite <- app_assoc. pose proof (q_exponent_value (q' * inject_Z (sign_value sg))%Q s ds r Dd NE B R1) as Z.
      unfold q_exponent in Z. rewrite Z. split; [reflexivity|]. split; [right; discriminate|]. rewrite V. ring.
    + unfold rest. cbn [app]. destruct (R2 eq_refl) as [A B]. specialize (R3 eq_refl eq_refl).
      rewrite (proj2 (Z.eqb_neq _ _) A), (proj2 (Z.eqb_neq _ _) B), (proj2 (Z.eqb_neq _ _) R3). cbn [orb negb].
      split; [reflexivity|]. split; [reflexivity|]. split; [reflexivity|]. rewrite inject_Z_mult. ring.
Qed.

Lemma scan_literal k n r fuel : left k < 0 -> well_spelt n ->
  q_scan (S fuel) k (spell n ++ r) =
  match q_number (spell n ++ r) with Some (t, r') => Scanned Q t k r' | None => Overflow Q end.
Proof.
  intros L W.
  assert (C : exists c l, spell n ++ r = c :: l /\ (48 <= c <= 57 \/ c = 43 \/ c = 45 \/ c = 46)).
  { destruct n as [sg w fr ex]. destruct W as (Dw & _ & Df & _). unfold spell. cbn [minus whole frac expo] in *.
    destruct sg as [[]|]; [eexists; eexists; split; [reflexivity|lia]|eexists; eexists; split; [reflexivity|lia]|].
    cbn [spell_sign app]. destruct w as [|d w].
    - destruct fr as [ds|]; [|destruct (Df eq_refl)]. eexists; eexists; split; [reflexivity|lia].
    - eexists; eexists; split; [reflexivity|]. inversion Dw; lia. }
  destruct C as (c & l & E & C). rewrite E. unfold q_scan, q_number. cbn [scan].
  replace (0 <=? left k) with false by (symmetry; apply Z.leb_gt; exact L). cbn [first hd tl].
  unfold LF, CR.
  replace ((c =? 32) || (c =? 9) || (c =? 10) || (c =? 13)) with false
    by (symmetry; repeat (apply orb_false_iff; split); apply Z.eqb_neq; lia).
  replace (c =? 35) with false by (symmetry; apply Z.eqb_neq; lia).
  replace (is_digit c || (c =? 45) || (c =? 43) || (c =? 46)) with true; [reflexivity|].
  symmetry. destruct C as [C|[->|[->| ->]]]; try reflexivity. rewrite digit_true by exact C. reflexivity.
Qed.

Lemma literal_value k n r fuel : left k < 0 -> well_spelt n -> stops n r ->
  exists t, q_scan (S fuel) k (spell n ++ r) = Scanned Q t k r /\
    match t with
    | TFloat _ q => (frac n <> None \/ expo n <> None) /\ (q == denotes n)%Q
    | TInteger _ i => frac n = None /\ expo n = None /\ (inject_Z i == denotes n)%Q
    | _ => False
    end.
Proof.
  intros L W S. rewrite scan_literal by assumption. pose proof (q_number_value n r W S) as X.
  destruct (q_number (spell n ++ r)) as [[t r']|]; [|destruct X].
  destruct t; try destruct X as [-> X]; try contradiction; eexists; split; try reflexivity; exact X.
Qed.

(** * Fixed point numbers *)

Lemma decode_from bs r : forall a, decode_int_from a (length bs) (bs ++ r) = (fold_left (fun n c => n * 256 + c) bs a, r).
Proof. induction bs as [|b bs IH]; intros a; [reflexivity|]. cbn [length app decode_int_from first hd tl fold_left]. apply IH. Qed.

Lemma number256_app a b : number256 (a ++ b) = number256 a * 256 ^ Z.of_nat (length b) + number256 b.
Proof.
  unfold number256. rewrite fold_left_app. generalize (fold_left (fun n c => n * 256 + c) a 0) as x.
  induction b as [|c b IH]; intros x; cbn [fold_left length]; [lia|].
  rewrite IH, (IH (0 * 256 + c)). rewrite Nat2Z.inj_succ, Z.pow_succ_r by lia. lia.
Qed.

Lemma inject_pow256 n : (inject_Z (256 ^ Z.of_nat n) == 256 ^ Z.of_nat n)%Q.
Proof.
  induction n as [|n IH]; [reflexivity|]. rewrite Nat2Z.inj_succ, Z.pow_succ_r by lia.
  unfold Z.succ. rewrite Qpower_plus by discriminate. rewrite inject_Z_mult, IH. change (256 ^ 1)%Q with 256%Q. ring.
Qed.
Lemma pow256_pos n : ~ (256 ^ Z.of_nat n == 0)%Q.
Proof.
  induction n as [|n IH]; [discriminate|]. rewrite Nat2Z.inj_succ. unfold Z.succ. rewrite Qpower_plus by discriminate.
  intros E. apply Qmult_integral in E as [E|E]; [auto|discriminate].
Qed.

Lemma fixed_value k w d bs r fuel : left k < 0 -> 0 <= w <= 3 -> 1 <= d <= 3 -> Z.of_nat (length bs) = w + 1 ->
  exists q, q_scan (S fuel) k (128 + 4 * d + w :: bs ++ r) = Scanned Q (TFloat Q q) k r /\
    (q == inject_Z (number256 bs) / 256 ^ d)%Q.
Proof.
  intros L W D B. unfold q_scan. cbn [scan].
  replace (0 <=? left k) with false by (symmetry; apply Z.leb_gt; exact L). cbn [first hd tl].
  assert (T : exists q, decode_fixed Q (fun m f r => inject_Z m + inject_Z f / 256 ^ r)%Q (w + 1) d (bs ++ r) = (q, r) /\
    (q == inject_Z (number256 bs) / 256 ^ d)%Q).
  { unfold decode_fixed. set (m := Z.to_nat (w + 1 - d)). set (f := Z.to_nat (Z.min d (w + 1))).
    assert (Len : length bs = (m + f)%nat) by (unfold m, f; lia).
    assert (Lm : length (firstn m bs) = m) by (rewrite firstn_length; lia).
    assert (Lf : length (skipn m bs) = f) by (rewrite skipn_length; lia).
    pose proof (decode_from (firstn m bs) (skipn m bs ++ r) 0) as D1. rewrite Lm, app_assoc, firstn_skipn in D1.
    pose proof (decode_from (skipn m bs) r 0) as D2. rewrite Lf in D2.
    unfold decode_int. rewrite D1, D2.
    eexists. split; [reflexivity|].
    change (fold_left (fun n c => n * 256 + c) (firstn m bs) 0) with (number256 (firstn m bs)).
    change (fold_left (fun n c => n * 256 + c) (skipn m bs) 0) with (number256 (skipn m bs)).
    pose proof (number256_app (firstn m bs) (skipn m bs)) as N. rewrite firstn_skipn in N. rewrite N, Lf, inject_Z_plus, inject_Z_mult, inject_pow256.
    assert (Ed : d = Z.of_nat (Z.to_nat d)) by lia. rewrite Ed at 1 2.
    destruct (Z_le_gt_dec d (w + 1)) as [Q|Q].
    - replace f with (Z.to_nat d) by (unfold f; lia). field. apply pow256_pos.
    - replace m with 0%nat by (unfold m; lia). cbn [firstn]. unfold number256 at 1 3. cbn [fold_left].
      field. apply pow256_pos. }
  destruct T as (q & T & V). exists q. split; [|exact V].
  assert (Cw : w = 0 \/ w = 1 \/ w = 2 \/ w = 3) by lia. assert (Cd : d = 1 \/ d = 2 \/ d = 3) by lia.
  destruct Cd as [->|[->| ->]]; destruct Cw as [->|[->|[->| ->]]]; cbn -[decode_fixed]; cbn -[decode_fixed] in T; rewrite T; reflexivity.
Qed.

(** * Codes *)

Section Items.
  Variable F : Type.
  Variable of_bits32 of_bits64 of_int : Z -> F.
  Variable add mul : F -> F -> F.
  Variable times_tenth : F -> F.
  Variable tenth : F.
  Variable times_pow10 : F -> Z -> F.
  Variable fixed : Z -> Z -> Z -> F.
  Local Notation scan := (scan F of_bits32 of_bits64 of_int add mul times_tenth tenth times_pow10 fixed).
  Local Notation scans := (scans F of_bits32 of_bits64 of_int add mul times_tenth tenth times_pow10 fixed).

  Lemma scan_short n k s r : left k < 0 -> (length s < 16)%nat ->
    scan (S n) k (144 + Z.of_nat (length s) :: s ++ r) = Scanned F (TString F s) k r.
  Proof.
    intros L B.
    assert (D : decode_string F (Z.of_nat (length s)) (s ++ r) = (TString F s, r)).
    { unfold decode_string. rewrite Nat2Z.id, firstn_app, firstn_all, Nat.sub_diag, firstn_O, app_nil_r.
      replace (length s - length (s ++ r))%nat with 0%nat by (rewrite app_length; lia).
      cbn [repeat]. rewrite app_nil_r, skipn_app, skipn_all, Nat.sub_diag. reflexivity. }
    remember (s ++ r) as l. remember (length s) as m.
    cbn [RibTokModel.scan]. replace (0 <=? left k) with false by (symmetry; apply Z.leb_gt; exact L).
    do 16 (destruct m as [|m]; [cbn -[decode_string]; cbn -[decode_string] in D; rewrite D; reflexivity|]). lia.
  Qed.

  Lemma read_code (w : bool) c r : decode_int (if w then 2 else 1) (spell_code w c ++ r) = (c, r).
  Proof.
    unfold decode_int, spell_code. destruct w; cbn [decode_int_from first hd tl app]; [|reflexivity].
    f_equal. pose proof (Z.div_mod c 256). lia.
  Qed.
  Lemma scan_def n k (w : bool) c r : left k = -1 ->
    scan (S n) k ((if w then 206 else 205) :: spell_code w c ++ r) =
    match scan n k r with
    | Scanned _ (TString _ s) k1 l1 => scan n (mkCoding (reqs k1) (upd (strs k1) c (Some s)) (left k1)) l1
    | Scanned _ _ k1 l1 => Scanned F (TError F) k1 l1
    | e => e
    end.
  Proof.
    intros L. pose proof (read_code w c r) as DC. remember (spell_code w c ++ r) as l.
    destruct w; cbn [RibTokModel.scan]; rewrite L; cbn -[RibTokModel.scan decode_int];
      match goal with |- context [decode_int ?a l] => change (decode_int a l) with (decode_int 2 l) || change (decode_int a l) with (decode_int 1 l) end;
      rewrite DC; reflexivity.
  Qed.
  Lemma scan_use n k (w : bool) c r : left k = -1 ->
    scan (S n) k ((if w then 208 else 207) :: spell_code w c ++ r) =
    match strs k c with Some s => Scanned F (TString F s) k r | None => Scanned F (TError F) k r end.
  Proof.
    intros L. pose proof (read_code w c r) as DC. remember (spell_code w c ++ r) as l.
    destruct w; cbn [RibTokModel.scan]; rewrite L; cbn -[decode_int];
      match goal with |- context [decode_int ?a l] => change (decode_int a l) with (decode_int 2 l) || change (decode_int a l) with (decode_int 1 l) end;
      rewrite DC; reflexivity.
  Qed.

  Definition knows (done : list item) (k : coding) : Prop :=
    left k = -1 /\
    (forall c, 0 <= c < 256 -> reqs k c = match last_request done c with Some s => s | None => [] end) /\
    (forall c, 0 <= c < 65536 -> strs k c = last_string done c) /\
    (forall c s, last_request done c = Some s -> s <> []).

  Lemma items_read l : Forall is_item l -> forall done k, knows done k ->
    exists k', scans k (flat_map spell_item l) (item_tokens done l) k' [].
  Proof.
    induction 1 as [|i l Hi _ IH]; intros done k (L & A & B & N).
    - exists k. apply scans_eof with (fuel := 1%nat). cbn [RibTokModel.scan flat_map]. rewrite L. reflexivity.
    - assert (L' : left k < 0) by lia.
      destruct i as [c s|c|w c s|w c]; cbn [flat_map spell_item item_tokens is_item] in *.
      + destruct Hi as (Hc & NE & Hl & _).
        destruct (IH (DefRequest c s :: done) (mkCoding (upd (reqs k) c s) (strs k) (left k))) as [k' Sc].
        { split; [exact L|]. cbn [reqs strs last_request last_string]. split; [|split; [exact B|]].
          - intros d Hd. unfold upd. rewrite (Z.eqb_sym c d). destruct (d =? c); [reflexivity|]. apply A; auto.
          - intros d t. destruct (c =? d); [congruence|apply N]. }
        exists k'. cbn [app].
        assert (E : forall f, scan (S (S f)) k (204 :: c :: 144 + Z.of_nat (length s) :: s ++ flat_map spell_item l) =
                    scan (S f) (mkCoding (upd (reqs k) c s) (strs k) (left k)) (flat_map spell_item l)).
        { intros f. remember (flat_map spell_item l) as r. pose proof (scan_short f k s r L' Hl) as X.
          remember (144 + Z.of_nat (length s) :: s ++ r) as m. remember (S f) as g.
          cbn [RibTokModel.scan]. rewrite L. cbn -[RibTokModel.scan]. rewrite X.
          destruct s; [congruence|]. rewrite L. reflexivity. }
        inversion Sc as [f a b x y E1|f a b t k1 l1 ts1 x y E1 T S1]; subst.
        * apply scans_eof with (fuel := S (S f)). rewrite E. rewrite (scan_more _ _ _ _ _ _ _ _ _ _ f (S f)); [exact E1|lia|rewrite E1; discriminate].
        * eapply scans_more with (fuel := S (S f)); [|exact T|exact S1]. rewrite E. rewrite (scan_more _ _ _ _ _ _ _ _ _ _ f (S f)); [exact E1|lia|rewrite E1; discriminate].
      + destruct (IH (UseRequest c :: done) k) as [k' Sc]; [split; [exact L|]; split; [exact A|split; [exact B|exact N]]|].
        exists k'. specialize (A c Hi). cbn [app].
        eapply scans_more with (fuel := 1%nat) (k1 := k) (l1 := flat_map spell_item l); [|destruct (last_request done c); discriminate|exact Sc].
        cbn [RibTokModel.scan]. rewrite L. cbn. rewrite A. destruct (last_request done c) as [t|] eqn:Q; [|reflexivity].
        specialize (N _ _ Q). destruct t; [congruence|reflexivity].
      + destruct Hi as (Hc & Hl & _).
        destruct (IH (DefString w c s :: done) (mkCoding (reqs k) (upd (strs k) c (Some s)) (left k))) as [k' Sc].
        { split; [exact L|]. cbn [reqs strs last_request last_string]. split; [exact A|split; [|exact N]].
          intros d Hd. unfold upd. rewrite (Z.eqb_sym c d). destruct (d =? c); [reflexivity|]. apply B; auto. }
        exists k'. cbn [app].
        assert (Hc' : 0 <= c < 65536) by (destruct w; lia).
        assert (E : forall f, scan (S (S f)) k (((if w then 206 else 205) :: spell_code w c ++ 144 + Z.of_nat (length s) :: s) ++ flat_map spell_item l) =
                    scan (S f) (mkCoding (reqs k) (upd (strs k) c (Some s)) (left k)) (flat_map spell_item l)).
        { intros f. cbn [app]. rewrite <- app_assoc. rewrite scan_def by exact L. cbn [app]. rewrite scan_short by (exact L' || exact Hl). reflexivity. }
        inversion Sc as [f a b x y E1|f a b t k1 l1 ts1 x y E1 T S1]; subst.
        * apply scans_eof with (fuel := S (S f)). rewrite E. rewrite (scan_more _ _ _ _ _ _ _ _ _ _ f (S f)); [exact E1|lia|rewrite E1; discriminate].
        * eapply scans_more with (fuel := S (S f)); [|exact T|exact S1]. rewrite E. rewrite (scan_more _ _ _ _ _ _ _ _ _ _ f (S f)); [exact E1|lia|rewrite E1; discriminate].
      + destruct (IH (UseString w c :: done) k) as [k' Sc]; [split; [exact L|]; split; [exact A|split; [exact B|exact N]]|].
        exists k'. assert (Hc : 0 <= c < 65536) by (destruct w; lia). specialize (B c Hc). cbn [app].
        eapply scans_more with (fuel := 1%nat) (k1 := k) (l1 := flat_map spell_item l); [|destruct (last_string done c); discriminate|exact Sc].
        cbn [app]. rewrite scan_use by exact L. rewrite B. destruct (last_string done c); reflexivity.
  Qed.
End Items.

Lemma knows_nothing : knows [] no_codes.
Proof. repeat split. intros c s. discriminate. Qed.

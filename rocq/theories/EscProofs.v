(** Proofs about escape sequences. *)

From Coq Require Import List Bool ZArith Lia.
From Verif Require Import EscModel EscSpec.
Import ListNotations.
Open Scope Z_scope.

Lemma to_char_id : forall c, -128 <= c < 128 -> to_char c = c.
Proof. intros c H; unfold to_char; rewrite Z.mod_small; lia. Qed.

(** All characters but zero, for case analysis. *)
Lemma char_cases : forall (P : Z -> bool), forallb P (map (fun n => Z.of_nat n - 128) (seq 0 256)) = true ->
  forall c, -128 <= c < 128 -> P c = true.
Proof.
  intros P H c C; rewrite forallb_forall in H; apply H, in_map_iff.
  exists (Z.to_nat (c + 128)); split; [lia|]; apply in_seq; lia.
Qed.

Lemma translate_app : forall s m t, translate_from m (s ++ t) =
  match s with
  | [] => translate_from m t
  | c :: r => let (o, m') := take m c in
      match translate_from m' (r ++ t) with Some u => Some (o ++ u) | None => None end
  end.
Proof. destruct s; reflexivity. Qed.

Definition comes_backb (c : Z) : bool :=
  ((32 <=? c) && negb (c =? 92) && negb (c =? 39) && negb (c =? 34))
  || (c =? 7) || (c =? 8) || (c =? 9) || (c =? 10) || (c =? 13).

Lemma comes_backb_ok : forall c, comes_backb c = true <-> comes_back c.
Proof.
  intros c; unfold comes_backb, comes_back.
  rewrite !orb_true_iff, !andb_true_iff, !negb_true_iff, !Z.eqb_eq, !Z.eqb_neq, Z.leb_le; intuition.
Qed.

(** A character that comes back, outside escapes. *)
Lemma plain_back : forall c, comes_back c -> forall t,
  translate_from Outside (expand_char c ++ t) =
  match translate_from Outside t with Some u => Some (c :: u) | None => None end.
Proof.
  intros c H t; destruct H as [(A & B & C & D)|H].
  - unfold expand_char; rewrite (proj2 (Z.leb_le 32 c) A).
    rewrite (proj2 (Z.eqb_neq _ _) B), (proj2 (Z.eqb_neq _ _) C), (proj2 (Z.eqb_neq _ _) D).
    cbn [app translate_from take]; unfold outside; rewrite (proj2 (Z.eqb_neq _ _) B); reflexivity.
  - destruct H as [->|[->|[->|[->| ->]]]]; cbn [expand_char app translate_from];
      vm_compute (expand_char _); cbn [app translate_from]; unfold take, outside, escaped; cbn;
      destruct (translate_from Outside t); reflexivity.
Qed.

Lemma back_all : forall s, Forall comes_back s -> forall t,
  translate_from Outside (expand s ++ t) =
  match translate_from Outside t with Some u => Some (s ++ u) | None => None end.
Proof.
  induction 1 as [|c s H Hs IH]; intros t; cbn [expand flat_map app].
  - destruct (translate_from Outside t); reflexivity.
  - rewrite <- app_assoc, plain_back by exact H; unfold expand in IH; rewrite IH.
    destruct (translate_from Outside t); reflexivity.
Qed.

(** The characters that are lost: three become others. *)
Lemma quote_lost : forall c, c = 92 \/ c = 39 \/ c = 34 -> exists d, expand_char c = [d] /\ d <> c /\
  (forall t, translate_from Outside (d :: t) = match translate_from Outside t with Some u => Some (d :: u) | None => None end) /\
  forall v, take (Hex v) d = ([v; d], Outside).
Proof.
  intros c [->|[->| ->]]; [exists (-72) | exists (-125) | exists 126];
    (split; [reflexivity|]; split; [lia|]; split; [intros t; reflexivity | intros v; reflexivity]).
Qed.

(** The other ones become numbers: four hexadecimal digits, or a zero and
    letters which are not digits. *)
Inductive lost (c : Z) : Prop :=
| lost_zero : expand_char c = [92; 120; 48; 48; 48; 48] -> lost c
| lost_break : forall a r, expand_char c = 92 :: 120 :: a ++ 112 :: r -> a = [] \/ a = [48] -> lost c.

Lemma number_lost : forall c, char c -> ~ comes_back c -> c <> 92 -> c <> 39 -> c <> 34 -> lost c.
Proof.
  intros c (C & Z0) N A B D.
  pose (is := fun a b : list Z => if list_eq_dec Z.eq_dec a b then true else false).
  assert (Is : forall a b, is a b = true -> a = b) by (intros a b; unfold is; destruct (list_eq_dec Z.eq_dec a b); congruence).
  pose (P := fun c => comes_backb c || (c =? 92) || (c =? 39) || (c =? 34) || (c =? 0) ||
    is (expand_char c) [92; 120; 48; 48; 48; 48] || is (firstn 3 (expand_char c)) [92; 120; 112] ||
    is (firstn 4 (expand_char c)) [92; 120; 48; 112]).
  assert (H : P c = true) by (apply char_cases; [vm_compute; reflexivity | exact C]).
  unfold P in H.
  rewrite !orb_true_iff, comes_backb_ok, !Z.eqb_eq in H.
  destruct H as [[[[[[[H|H]|H]|H]|H]|H]|H]|H]; try contradiction; apply Is in H.
  - apply lost_zero; exact H.
  - apply (lost_break c [] (skipn 3 (expand_char c))); [|left; reflexivity].
    rewrite <- (firstn_skipn 3 (expand_char c)) at 1; rewrite H; reflexivity.
  - apply (lost_break c [48] (skipn 4 (expand_char c))); [|right; reflexivity].
    rewrite <- (firstn_skipn 4 (expand_char c)) at 1; rewrite H; reflexivity.
Qed.

(** Such a number stands for the character zero when it ends at a letter. *)
Lemma break_zero : forall c a r t, expand_char c = 92 :: 120 :: a ++ 112 :: r -> a = [] \/ a = [48] ->
  forall o, translate_from Outside (expand_char c ++ t) = Some o -> In 0 o.
Proof.
  intros c a r t E [->| ->] o T; rewrite E in T; cbn [app] in T; cbn [translate_from take] in T;
    unfold outside, escaped in T; cbn in T;
    (match type of T with context [translate_from ?m ?x] => destruct (translate_from m x) as [u|] end; [|discriminate T]);
    injection T as <-; left; reflexivity.
Qed.

(** In a string that is translated without a zero coming out, the result is
    not longer than the string: *)
Definition hexy (c : Z) : bool := is_digit c || is_upper c || is_lower c.

Lemma hexy_back : forall c, hexy c = true -> comes_back c /\ expand_char c = [c] /\ c <> 92.
Proof.
  intros c H.
  assert (R : (48 <= c <= 57) \/ (65 <= c <= 70) \/ (97 <= c <= 102)).
  { unfold hexy, is_digit, is_upper, is_lower in H.
    rewrite !orb_true_iff, !andb_true_iff, !Z.leb_le in H; tauto. }
  split; [left; lia|]; split; [|lia].
  unfold expand_char; rewrite (proj2 (Z.leb_le 32 c)) by lia.
  rewrite !(proj2 (Z.eqb_neq c _)) by lia; reflexivity.
Qed.

Lemma head_hexy : forall c, -128 <= c < 128 ->
  exists x r, expand_char c = x :: r /\ (hexy x = true -> hexy c = true).
Proof.
  intros c C.
  pose proof (char_cases (fun c => match expand_char c with x :: _ => implb (hexy x) (hexy c) | [] => false end)
    eq_refl c C) as H.
  cbv beta in H; destruct (expand_char c) as [|x r]; [discriminate H|].
  exists x, r; split; [reflexivity|]; intros Hx; rewrite Hx in H; exact H.
Qed.

Lemma hex_ends : forall v x t, hexy x = false -> translate_from (Hex v) (x :: t) =
  match translate_from Outside (x :: t) with Some u => Some (v :: u) | None => None end.
Proof.
  intros v x t H; cbn [translate_from take]; unfold hexy in H; rewrite H.
  destruct (outside x) as [o m]; destruct (translate_from m t); reflexivity.
Qed.

Lemma short : forall s, Forall char s ->
  (forall o, translate_from Outside (expand s) = Some o -> ~ In 0 o ->
     (length o <= length s)%nat /\ (o = s -> Forall comes_back s)) /\
  (forall v o, translate_from (Hex v) (expand s) = Some o -> ~ In 0 o ->
     (length o <= S (length s))%nat /\ (v = 0 -> (length o <= length s)%nat)).
Proof.
  induction s as [|c s IH]; intros F.
  - cbn [expand flat_map translate_from]; split.
    + intros o E _; injection E as <-; split; [lia|]; intros; constructor.
    + intros v o E N; injection E as <-; cbn [length]; split; [lia|]; intros ->; exfalso; apply N; left; reflexivity.
  - apply Forall_cons_iff in F; destruct F as (Hc & Fs); destruct (IH Fs) as (I1 & I2); clear IH.
    cbn [expand flat_map]; change (flat_map expand_char s) with (expand s); cbn [length].
    assert (Out : forall o, translate_from Outside (expand_char c ++ expand s) = Some o -> ~ In 0 o ->
              (length o <= S (length s))%nat /\ (o = c :: s -> Forall comes_back (c :: s))).
    { intros o E N.
      destruct (comes_backb c) eqn:Cb.
      - apply comes_backb_ok in Cb; rewrite plain_back in E by exact Cb.
        destruct (translate_from Outside (expand s)) as [u|] eqn:U; [|discriminate]; injection E as <-.
        destruct (I1 u eq_refl) as (L & B); [intros I; apply N; right; exact I|].
        cbn [length]; split; [lia|]; intros El; injection El as El; constructor; auto.
      - assert (Nb : ~ comes_back c) by (rewrite <- comes_backb_ok, Cb; discriminate).
        assert (Q : (c = 92 \/ c = 39 \/ c = 34) \/ (c <> 92 /\ c <> 39 /\ c <> 34)) by lia.
        destruct Q as [Q|(Q1 & Q2 & Q3)].
        + destruct (quote_lost c Q) as (d & Ed & Nd & Td & _); rewrite Ed in E; cbn [app] in E; rewrite Td in E.
          destruct (translate_from Outside (expand s)) as [u|] eqn:U; [|discriminate]; injection E as <-.
          destruct (I1 u eq_refl) as (L & B); [intros I; apply N; right; exact I|].
          cbn [length]; split; [lia|]; intros El; injection El as El _; contradiction.
        + destruct (number_lost c Hc Nb Q1 Q2 Q3) as [Ez|a r Ea Aa].
          * rewrite Ez in E; cbn [app] in E; cbn [translate_from take] in E.
            unfold outside, escaped in E; cbn in E.
            match type of E with context [translate_from (Hex ?v) (expand s)] =>
              destruct (translate_from (Hex v) (expand s)) as [u|] eqn:U; [|discriminate];
              destruct (I2 v u U) as (L & L0) end.
            { injection E as <-; exact N. }
            injection E as <-; specialize (L0 eq_refl); split; [lia|].
            intros El; subst u; cbn [length] in L0; lia.
          * exfalso; apply N, (break_zero c a r (expand s) Ea Aa); exact E. }
    split; [exact Out|].
    intros v o E N; destruct (head_hexy c (proj1 Hc)) as (x & r & Ex & Hx).
    destruct (hexy c) eqn:Hy.
    + destruct (hexy_back c Hy) as (_ & Ec & _); rewrite Ec in E; cbn [app translate_from take] in E.
      unfold hexy in Hy; rewrite Hy in E.
      destruct (translate_from (Hex (hex_digit v c)) (expand s)) as [u|] eqn:U; [|discriminate].
      injection E as <-; cbn [app] in N |- *; destruct (I2 _ _ U N) as (L & _); split; lia.
    + assert (Hx0 : hexy x = false) by (destruct (hexy x); [specialize (Hx eq_refl); discriminate | reflexivity]).
      rewrite Ex in E; cbn [app] in E; rewrite hex_ends in E by exact Hx0.
      change (x :: r ++ expand s) with ((x :: r) ++ expand s) in E; rewrite <- Ex in E.
      destruct (translate_from Outside (expand_char c ++ expand s)) as [u|] eqn:U; [|discriminate].
      injection E as <-.
      destruct (Out u eq_refl) as (L & _); [intros I; apply N; right; exact I|].
      cbn [length]; split; [lia|]; intros ->; exfalso; apply N; left; reflexivity.
Qed.

(** Expanded strings never end within an escape. *)
Lemma translate_last : forall s m, (m = Escaped -> s <> []) -> last s 0 <> 92 -> translate_from m s <> None.
Proof.
  induction s as [|c s IH]; intros m M L; cbn [translate_from].
  - destruct m; try discriminate; exfalso; apply M; reflexivity.
  - destruct (take m c) as [o m'] eqn:T.
    assert (H : translate_from m' s <> None).
    { apply IH.
      - intros -> ->; cbn [last] in L.
        assert (c = 92); [|contradiction].
        clear - T; unfold take, outside, escaped in T; destruct m.
        + destruct (Z.eqb_spec c 92); congruence.
        + repeat (match type of T with (if ?b then _ else _) = _ => destruct b end; [congruence|]); congruence.
        + destruct (is_octal c); [congruence|]; destruct (Z.eqb_spec c 92); congruence.
        + destruct (is_digit c || is_upper c || is_lower c); [congruence|]; destruct (Z.eqb_spec c 92); congruence.
      - destruct s; [cbn; lia | exact L]. }
    destruct (translate_from m' s); [discriminate | contradiction].
Qed.

(** Pieces. *)
Lemma hex_value_range : forall d v, hex_value d = Some v -> 48 <= d <= 102 /\ 0 <= v < 16.
Proof.
  intros d v H; unfold hex_value in H.
  destruct d as [|p|p]; try discriminate H.
  repeat (match goal with q : positive |- _ => destruct q end; try discriminate H); injection H as <-; lia.
Qed.

Lemma digit_checks : forall (P : Z -> bool), forallb P (map Z.of_nat (seq 48 55)) = true ->
  forall d, 48 <= d <= 102 -> P d = true.
Proof.
  intros P H d D; rewrite forallb_forall in H; apply H, in_map_iff.
  exists (Z.to_nat d); split; [lia|]; apply in_seq; lia.
Qed.

Lemma hexy_value : forall d, hexy d = match hex_value d with Some _ => true | None => false end.
Proof.
  intros d.
  assert (D : (48 <= d <= 102) \/ ~ (48 <= d <= 102)) by lia; destruct D as [D|D].
  - apply eqb_prop.
    apply (digit_checks (fun d => Bool.eqb (hexy d) (match hex_value d with Some _ => true | None => false end)));
      [vm_compute; reflexivity | exact D].
  - destruct (hex_value d) as [v|] eqn:E; [apply hex_value_range in E; lia|].
    unfold hexy, is_digit, is_upper, is_lower; apply not_true_is_false.
    rewrite !orb_true_iff, !andb_true_iff, !Z.leb_le; lia.
Qed.

Lemma octal_is_value : forall d, is_octal d = match octal_value d with Some _ => true | None => false end.
Proof.
  intros d.
  assert (D : (48 <= d <= 102) \/ ~ (48 <= d <= 102)) by lia; destruct D as [D|D].
  - apply eqb_prop.
    apply (digit_checks (fun d => Bool.eqb (is_octal d) (match octal_value d with Some _ => true | None => false end)));
      [vm_compute; reflexivity | exact D].
  - unfold octal_value; destruct (hex_value d) as [v|] eqn:E; [apply hex_value_range in E; lia|].
    unfold is_octal; apply not_true_is_false; rewrite !andb_true_iff, !Z.leb_le; lia.
Qed.

Lemma hex_step : forall v d x, 0 <= v -> v * 16 + x < 128 -> hex_value d = Some x -> hex_digit v d = v * 16 + x.
Proof.
  intros v d x V L E; pose proof (hex_value_range d x E) as (D & X).
  pose proof (digit_checks (fun d => match hex_value d with
                | Some x => ((if is_digit d then d - 48 else if is_upper d then d - 65 + 10 else d - 97 + 10) =? x)
                | None => true end) eq_refl d D) as H.
  cbv beta in H; rewrite E, Z.eqb_eq in H; unfold hex_digit; rewrite (to_char_id (v * 16)) by lia.
  destruct (is_digit d); [rewrite to_char_id; lia|]; destruct (is_upper d); rewrite to_char_id; lia.
Qed.

Lemma octal_step : forall v d x, 0 <= v -> v * 8 + x < 128 -> octal_value d = Some x -> octal_digit v d = v * 8 + x.
Proof.
  intros v d x V L E.
  assert (E' : exists y, hex_value d = Some y /\ 0 <= x /\ x = y).
  { unfold octal_value in E; destruct (hex_value d) as [y|] eqn:Ey; [|discriminate].
    destruct (y <? 8); [injection E as <-|discriminate]; apply hex_value_range in Ey; exists y; repeat split; lia. }
  destruct E' as (y & Ey & X & Exy); pose proof (hex_value_range d y Ey) as (D & _).
  pose proof (digit_checks (fun d => match octal_value d with Some x => (d - 48 =? x) | None => true end) eq_refl d D) as H.
  cbv beta in H; rewrite E, Z.eqb_eq in H; unfold octal_digit; rewrite to_char_id; lia.
Qed.

Lemma number_mono : forall base value ds v, 1 <= base -> 0 <= v -> (forall d x, value d = Some x -> 0 <= x) ->
  v <= number base value v ds.
Proof.
  induction ds as [|d ds IH]; intros v B V P; cbn [number]; [lia|].
  assert (0 <= match value d with Some x => x | None => 0 end) by (destruct (value d) eqn:E; [apply (P d); exact E | lia]).
  set (x := match value d with Some x => x | None => 0 end) in *.
  assert (0 <= v * base + x) by nia.
  specialize (IH (v * base + x) B ltac:(assumption) P); nia.
Qed.

Lemma octal_pos : forall d x, octal_value d = Some x -> 0 <= x.
Proof.
  intros d x E; unfold octal_value in E; destruct (hex_value d) as [y|] eqn:Ey; [|discriminate].
  destruct (y <? 8); [injection E as <-|discriminate]; apply hex_value_range in Ey; lia.
Qed.

Lemma hex_pos : forall d x, hex_value d = Some x -> 0 <= x.
Proof. intros d x E; apply hex_value_range in E; lia. Qed.

(** A number, followed by something that is not a digit. *)
Lemma hex_run : forall ds v t u, Forall (fun d => hex_value d <> None) ds -> 0 <= v ->
  number 16 hex_value v ds < 128 -> match t with c :: _ => hexy c = false | [] => True end ->
  translate_from Outside t = Some u -> translate_from (Hex v) (ds ++ t) = Some (number 16 hex_value v ds :: u).
Proof.
  induction ds as [|d ds IH]; intros v t u F V N T U; cbn [app number] in *.
  - destruct t as [|c t]; [cbn [translate_from] in U |- *; injection U as <-; reflexivity|].
    rewrite hex_ends, U by exact T; reflexivity.
  - apply Forall_cons_iff in F; destruct F as (Fd & Fs).
    destruct (hex_value d) as [x|] eqn:E; [|contradiction].
    pose proof (number_mono 16 hex_value ds (v * 16 + x) ltac:(lia) ltac:(apply hex_pos in E; lia) hex_pos) as M.
    cbn [translate_from take]; pose proof (hexy_value d) as Hd; rewrite E in Hd; unfold hexy in Hd; rewrite Hd.
    rewrite (hex_step v d x) by (assumption || lia).
    apply hex_pos in E; rewrite (IH (v * 16 + x) t u); auto; lia.
Qed.

Lemma octal_ends : forall v x t, is_octal x = false -> translate_from (Octal v) (x :: t) =
  match translate_from Outside (x :: t) with Some u => Some (v :: u) | None => None end.
Proof.
  intros v x t H; cbn [translate_from take]; rewrite H.
  destruct (outside x) as [o m]; destruct (translate_from m t); reflexivity.
Qed.

Lemma octal_run : forall ds v t u, Forall (fun d => octal_value d <> None) ds -> 0 <= v ->
  number 8 octal_value v ds < 128 -> match t with c :: _ => is_octal c = false | [] => True end ->
  translate_from Outside t = Some u -> translate_from (Octal v) (ds ++ t) = Some (number 8 octal_value v ds :: u).
Proof.
  induction ds as [|d ds IH]; intros v t u F V N T U; cbn [app number] in *.
  - destruct t as [|c t]; [cbn [translate_from] in U |- *; injection U as <-; reflexivity|].
    rewrite octal_ends, U by exact T; reflexivity.
  - apply Forall_cons_iff in F; destruct F as (Fd & Fs).
    destruct (octal_value d) as [x|] eqn:E; [|contradiction].
    pose proof (number_mono 8 octal_value ds (v * 8 + x) ltac:(lia) ltac:(apply octal_pos in E; lia) octal_pos) as M.
    cbn [translate_from take]; pose proof (octal_is_value d) as Hd; rewrite E in Hd; rewrite Hd.
    rewrite (octal_step v d x) by (assumption || lia).
    apply octal_pos in E; rewrite (IH (v * 8 + x) t u); auto; lia.
Qed.

Lemma pieces_ok : forall ps, proper ps -> translate_from Outside (flat_map written ps) = Some (map stands_for ps).
Proof.
  induction ps as [|p ps IH]; intros H; [reflexivity|]; destruct H as (H & Hp); specialize (IH Hp); cbn [flat_map map].
  assert (Head : forall test, test 92 = false ->
    (match ps with Char c :: _ => test c = false | _ => True end) ->
    match flat_map written ps with c :: _ => test c = false | [] => True end).
  { intros test T92 Hh; destruct ps as [|q ps']; [exact I|]; destruct q; cbn [flat_map written app]; auto. }
  destruct p as [c|c|ds|ds]; cbn [written stands_for].
  - cbn [app translate_from take]; unfold outside; rewrite (proj2 (Z.eqb_neq _ _) H), IH; reflexivity.
  - destruct H as (N0 & Nx).
    assert (Esc : escaped c = ([match c with 97 => 7 | 98 => 8 | 110 => 10 | 114 => 13 | 116 => 9 | _ => c end], Outside)).
    { unfold escaped.
      destruct (Z.eqb_spec c 97) as [->|A1]; [reflexivity|].
      destruct (Z.eqb_spec c 98) as [->|A2]; [reflexivity|].
      destruct (Z.eqb_spec c 110) as [->|A3]; [reflexivity|].
      destruct (Z.eqb_spec c 114) as [->|A4]; [reflexivity|].
      destruct (Z.eqb_spec c 116) as [->|A5]; [reflexivity|].
      rewrite (proj2 (Z.eqb_neq _ _) N0), (proj2 (Z.eqb_neq _ _) Nx).
      f_equal; f_equal; destruct c as [|p|p]; try reflexivity.
      repeat (match goal with q : positive |- _ => destruct q end; try reflexivity); contradiction. }
    cbn [app translate_from take]; change (outside 92) with (([], Escaped) : list Z * mode).
    cbn [translate_from take]; rewrite Esc, IH; reflexivity.
  - destruct H as (F & N & Nx).
    cbn [app translate_from take]; change (outside 92) with (([], Escaped) : list Z * mode).
    cbn [translate_from take]; change (escaped 48) with (([], Octal 0) : list Z * mode); cbv iota beta.
    rewrite (octal_run ds 0 (flat_map written ps) (map stands_for ps)); [reflexivity | exact F | lia | exact N | | exact IH].
    apply Head; [reflexivity|]; destruct ps as [|[c| | | ] ?]; auto.
    rewrite octal_is_value, Nx; reflexivity.
  - destruct H as (F & N & Nx).
    cbn [app translate_from take]; change (outside 92) with (([], Escaped) : list Z * mode).
    cbn [translate_from take]; change (escaped 120) with (([], Hex 0) : list Z * mode); cbv iota beta.
    rewrite (hex_run ds 0 (flat_map written ps) (map stands_for ps)); [reflexivity | exact F | lia | exact N | | exact IH].
    apply Head; [reflexivity|]; destruct ps as [|[c| | | ] ?]; auto.
    rewrite hexy_value, Nx; reflexivity.
Qed.

Lemma expand_last : forall s, Forall char s -> last (expand s) 0 <> 92.
Proof.
  intros s F; destruct (@exists_last _ (0 :: expand s)) as (l & x & E); [discriminate|].
  assert (L : last (expand s) 0 = x).
  { destruct (expand s) as [|y t]; [|change (last (y :: t) 0) with (last (0 :: y :: t) 0)]; rewrite ?E;
      [destruct l as [|? [|? ?]]; cbn in E |- *; try discriminate; congruence | apply last_last]. }
  rewrite L; clear L; intros ->.
  assert (H : forall t l, Forall char t -> 0 :: flat_map expand_char t <> l ++ [92]).
  { intros t; induction t as [|c t IH] using rev_ind; intros l' Ft.
    - destruct l' as [|? [|? ?]]; cbn; discriminate.
    - apply Forall_app in Ft; destruct Ft as (Ft & Fc); apply Forall_cons_iff in Fc; destruct Fc as ((Fc & _) & _).
      rewrite flat_map_app; cbn [flat_map]; rewrite app_nil_r.
      pose proof (char_cases (fun c => match rev (expand_char c) with x :: _ => negb (x =? 92) | [] => false end) eq_refl c Fc) as H.
      cbv beta in H; destruct (rev (expand_char c)) as [|x r] eqn:R; [discriminate|].
      apply negb_true_iff, Z.eqb_neq in H.
      assert (Ec : expand_char c = rev r ++ [x]) by (rewrite <- (rev_involutive (expand_char c)), R; reflexivity).
      rewrite Ec, app_assoc, app_comm_cons; intros A; apply app_inj_tail in A; destruct A; contradiction. }
  exact (H s l F E).
Qed.

Lemma no_escape : forall s, ~ In 92 s -> translate_from Outside (s ++ [92]) = None.
Proof.
  induction s as [|c s IH]; intros N; [reflexivity|].
  cbn [app translate_from take]; unfold outside.
  rewrite (proj2 (Z.eqb_neq c 92)) by (intros ->; apply N; left; reflexivity).
  rewrite IH by (intros I; apply N; right; exact I); reflexivity.
Qed.

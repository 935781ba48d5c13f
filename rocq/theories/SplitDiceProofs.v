(** Proofs about dicing patches, converting their bases and bounding them *)
From Verif Require Export SplitProofs.
From Coq Require Import Lia Lqa Qfield.
Open Scope Q_scope.

(** ** Writing into a grid *)
Section Grid.
Variables (u v cnt : nat) (F : nat -> nat -> nat -> Q).

(** The elements for which D holds have been written *)
Definition written (D : nat -> nat -> nat -> Prop) (g : list (list Q)) : Prop :=
  grid_for u v cnt g /\
  forall k iu iv, D k iu iv -> (k < cnt)%nat -> (iu <= u)%nat -> (iv <= v)%nat ->
    exists l x, nth_error g k = Some l /\ nth_error l (iv * (u + 1) + iu)%nat = Some x /\ x == F k iu iv.

Lemma position_inj iu iv iu' iv' : (iu <= u)%nat -> (iu' <= u)%nat ->
  (iv * (u + 1) + iu = iv' * (u + 1) + iu')%nat -> iu = iu' /\ iv = iv'.
Proof. intros H1 H2 E. assert (iv = iv') by nia. subst. lia. Qed.

Lemma write_one (D : nat -> nat -> nat -> Prop) g k iu iv x : written D g -> (k < cnt)%nat -> (iu <= u)%nat -> (iv <= v)%nat -> x == F k iu iv ->
  exists g', put g k (iv * (u + 1) + iu)%nat x = Some g' /\
    forall D' : nat -> nat -> nat -> Prop, (forall k' iu' iv', D' k' iu' iv' -> D k' iu' iv' \/ (k' = k /\ iu' = iu /\ iv' = iv)) -> written D' g'.
Proof.
  intros ([GL GF] & W) HK HU HV EX. unfold put.
  destruct (nth_error g k) as [l|] eqn:EL; [|apply nth_error_None in EL; lia].
  assert (LL : List.length l = ((u + 1) * (v + 1))%nat) by (rewrite Forall_forall in GF; apply GF; exact (nth_error_In _ _ EL)).
  destruct (set_nth_some l (iv * (u + 1) + iu)%nat x) as (l' & E1 & L1 & N1); [rewrite LL; nia|]. rewrite E1.
  destruct (set_nth_some g k l') as (g' & E2 & L2 & N2); [lia|]. rewrite E2. exists g'. split; [reflexivity|].
  intros D' HD. split.
  - split; [lia|]. apply Forall_forall. intros m HM. apply In_nth_error in HM. destruct HM as (n & HN). rewrite N2 in HN.
    destruct (Nat.eqb n k); [injection HN as <-; lia|]. rewrite Forall_forall in GF. apply GF. exact (nth_error_In _ _ HN).
  - intros k' iu' iv' HD' HK' HU' HV'.
    destruct (Nat.eq_dec k' k) as [->|NK].
    + exists l'. destruct (Nat.eq_dec (iv' * (u + 1) + iu') (iv * (u + 1) + iu)) as [EP|NP].
      * destruct (position_inj iu' iv' iu iv HU' HU EP) as [-> ->]. exists x. rewrite N2, Nat.eqb_refl, N1, Nat.eqb_refl. repeat split; auto.
      * destruct (HD k iu' iv' HD') as [HD1|(_ & -> & ->)]; [|congruence].
        destruct (W k iu' iv' HD1 HK' HU' HV') as (m & y & EM & EY & VY). rewrite EL in EM. injection EM as <-.
        exists y. rewrite N2, Nat.eqb_refl, N1. apply Nat.eqb_neq in NP. rewrite NP. repeat split; auto.
    + destruct (HD k' iu' iv' HD') as [HD1|(-> & _)]; [|congruence].
      destruct (W k' iu' iv' HD1 HK' HU' HV') as (m & y & EM & EY & VY). exists m, y. rewrite N2.
      apply Nat.eqb_neq in NK. rewrite NK. auto.
Qed.

Lemma written_weaken (D D' : nat -> nat -> nat -> Prop) g : (forall k iu iv, (k < cnt)%nat -> (iu <= u)%nat -> (iv <= v)%nat -> D' k iu iv -> D k iu iv) -> written D g -> written D' g.
Proof. intros H (GF & W). split; [exact GF|]. intros k iu iv HD HK HU HV. apply W; auto. Qed.

Lemma written_all g : written (fun _ _ _ => True) g -> forall k, (k < cnt)%nat ->
  forall f, (forall iu iv, (iu <= u)%nat -> (iv <= v)%nat -> F k iu iv == f (Qnat iu / Qnat u) (Qnat iv / Qnat v)) -> grid_holds u v g k f.
Proof.
  intros (_ & W) k HK f HF iu iv HU HV. destruct (W k iu iv I HK HU HV) as (l & x & E1 & E2 & E3). exists l, x.
  split; [exact E1|]. split; [exact E2|]. rewrite E3. apply HF; assumption.
Qed.
End Grid.

Lemma Qnat_pos n : (1 <= n)%nat -> 0 < Qnat n.
Proof. intro H. unfold Qnat. change 0 with (inject_Z 0). rewrite <- Zlt_Qlt. lia. Qed.
Lemma Qnat_range i n : (1 <= n)%nat -> (i <= n)%nat -> 0 <= Qnat i / Qnat n <= 1.
Proof.
  intros HN HI. assert (P := Qnat_pos n HN). split.
  - apply Qle_shift_div_l; [exact P|]. rewrite Qmult_0_l. unfold Qnat. change 0 with (inject_Z 0). rewrite <- Zle_Qle. lia.
  - apply Qle_shift_div_r; [exact P|]. rewrite Qmult_1_l. unfold Qnat. rewrite <- Zle_Qle. lia.
Qed.
Lemma Qnat_S i : Qnat (Datatypes.S i) == Qnat i + 1.
Proof. unfold Qnat. rewrite Nat2Z.inj_succ. unfold Z.succ. rewrite inject_Z_plus. reflexivity. Qed.

(** bilinear evaluation *)
Lemma bilinear_evaluate_ok (c : nat -> Q) s t : 0 <= s <= 1 -> 0 <= t <= 1 ->
  bilinear_evaluate num_arith (c 0%nat) (c 1%nat) (c 2%nat) (c 3%nat) s t == bilinear_at c s t.
Proof.
  intros HS HT. unfold bilinear_evaluate, bilinear_at, line2. cbn [num_arith e_cast e_addt t_mul t_sub].
  assert (QB : forall a b, Qle_bool a b = true \/ (Qle_bool a b = false /\ b < a)).
  { intros a b. destruct (Qle_bool a b) eqn:E; [left; reflexivity | right; split; [reflexivity|]]. apply Qnot_le_lt.
    intro H. apply Qle_bool_iff in H. congruence. }
  destruct (QB s 0) as [S0|[S0 L0]].
  - rewrite S0. apply Qle_bool_iff in S0. assert (ES : s == 0) by lra.
    destruct (QB t 0) as [T0|[T0 M0]]; [|destruct (QB 1 t) as [T1|[T1 M1]]].
    + rewrite T0. apply Qle_bool_iff in T0. assert (ET : t == 0) by lra. rewrite ES, ET. ring.
    + rewrite T0, T1. apply Qle_bool_iff in T1. assert (ET : t == 1) by lra. rewrite ES, ET. ring.
    + rewrite T0, T1, ES. ring.
  - destruct (QB 1 s) as [S1|[S1 L1]].
    + rewrite S0, S1. apply Qle_bool_iff in S1. assert (ES : s == 1) by lra.
      destruct (QB t 0) as [T0|[T0 M0]]; [|destruct (QB 1 t) as [T1|[T1 M1]]].
      * rewrite T0. apply Qle_bool_iff in T0. assert (ET : t == 0) by lra. rewrite ES, ET. ring.
      * rewrite T0, T1. apply Qle_bool_iff in T1. assert (ET : t == 1) by lra. rewrite ES, ET. ring.
      * rewrite T0, T1, ES. ring.
    + rewrite S0, S1. destruct (QB t 0) as [T0|[T0 M0]]; [|destruct (QB 1 t) as [T1|[T1 M1]]].
      * rewrite T0. apply Qle_bool_iff in T0. assert (ET : t == 0) by lra. rewrite ET. ring.
      * rewrite T0, T1. apply Qle_bool_iff in T1. assert (ET : t == 1) by lra. rewrite ET. ring.
      * rewrite T0, T1. ring.
Qed.

(** ** Forward differences *)
Definition bezfd (a b c d : Q) (dt : Q) (n : nat) : Q := bezier4 a b c d (Qnat n * dt).
Definition at_step (a b c d dt : Q) (n : nat) (s : @fd Q) : Prop :=
  let P x := bezier4 a b c d x in
  let x := Qnat n * dt in
  fd_f s == P x /\ fd_df s == P (x + dt) - P x /\ fd_ddf s == P (x + 2 * dt) - 2 * P (x + dt) + P x /\
  fd_dddf s == P (x + 3 * dt) - 3 * P (x + 2 * dt) + 3 * P (x + dt) - P x.

Lemma at_step_0 a b c d dt : at_step a b c d dt 0 (calc_forward_diff num_arith dt a b c d).
Proof.
  unfold at_step, calc_forward_diff, bezier4. cbn [num_arith e_cast e_add t_mul fd_f fd_df fd_ddf fd_dddf].
  change (Qnat 0) with 0. repeat split; ring.
Qed.
Lemma at_step_S a b c d dt n s : at_step a b c d dt n s -> at_step a b c d dt (Datatypes.S n) (snd (get_value num_arith s)).
Proof.
  unfold at_step, get_value. cbn [num_arith t_add fd_f fd_df fd_ddf fd_dddf snd].
  intros (H0 & H1 & H2 & H3). rewrite H0, H1, H2, H3. unfold bezier4. rewrite Qnat_S. repeat split; ring.
Qed.
Lemma at_two_steps (c : nat -> Q) du dv iu iv w0 w1 w2 w3 uf x y :
  at_step (c 0%nat) (c 4%nat) (c 8%nat) (c 12%nat) dv iv w0 -> at_step (c 1%nat) (c 5%nat) (c 9%nat) (c 13%nat) dv iv w1 ->
  at_step (c 2%nat) (c 6%nat) (c 10%nat) (c 14%nat) dv iv w2 -> at_step (c 3%nat) (c 7%nat) (c 11%nat) (c 15%nat) dv iv w3 ->
  at_step (fd_f w0) (fd_f w1) (fd_f w2) (fd_f w3) du iu uf -> x == Qnat iu * du -> y == Qnat iv * dv ->
  fd_f uf == bicubic_at c x y.
Proof.
  intros (A0 & _) (A1 & _) (A2 & _) (A3 & _) (AU & _) EX EY.
  transitivity (bicubic_at c (Qnat iu * du) (Qnat iv * dv)); [|apply bicubic_m; symmetry; assumption].
  transitivity (bezier4 (fd_f w0) (fd_f w1) (fd_f w2) (fd_f w3) (Qnat iu * du)); [exact AU|].
  symmetry. refine (Qeq_trans _ _ _ (bicubic_columns c _ _) _). symmetry. apply bezier4_m; [exact A0 | exact A1 | exact A2 | exact A3 | reflexivity].
Qed.

Lemma rd_four (p : param Q) k n : List.length (p_vals p) = (n * p_count p)%nat -> (4 <= n)%nat -> (k < p_count p)%nat ->
  rd p 0 k = Some (controls p k 0) /\ rd p 1 k = Some (controls p k 1) /\
  rd p 2 k = Some (controls p k 2) /\ rd p 3 k = Some (controls p k 3).
Proof.
  intros HL HN HK.
  assert (R : forall i, (i < n)%nat -> rd p i k = Some (controls p k i)).
  { intros i Hi. destruct (rd_some p n i k HL Hi HK) as (x & EX). rewrite EX. f_equal. symmetry. apply rd_controls. exact EX. }
  repeat split; apply R; lia.
Qed.

(** ** Dicing *)
Section Dice.
Variables (u v : nat).
Hypothesis (HU : (1 <= u)%nat) (HV : (1 <= v)%nat).

Lemma elements_loop cnt F (D : nat -> nat -> nat -> Prop) g iu iv (f : nat -> option Q) :
  (iu <= u)%nat -> (iv <= v)%nat -> written u v cnt F D g ->
  (forall k, (k < cnt)%nat -> exists x, f k = Some x /\ x == F k iu iv) ->
  exists g', loop (fun k g => bind (f k) (fun x => put g k (iv * (u + 1) + iu)%nat x)) (seq 0 cnt) g = Some g' /\
    written u v cnt F (fun k iu' iv' => D k iu' iv' \/ (iu' = iu /\ iv' = iv)) g'.
Proof.
  intros LU LV W HF.
  destruct (loop_seq (fun k g => bind (f k) (fun x => put g k (iv * (u + 1) + iu)%nat x))
             (fun k g => written u v cnt F (fun k' iu' iv' => D k' iu' iv' \/ (k' < k /\ iu' = iu /\ iv' = iv))%nat g) cnt 0 g)
    as (g' & E & W').
  - eapply written_weaken; [|exact W]. intros k a b _ _ _ [H|(H & _)]; [exact H | lia].
  - intros k g0 HK W0. destruct (HF k ltac:(lia)) as (x & EX & VX). rewrite EX. cbn [bind].
    destruct (write_one u v cnt F _ g0 k iu iv x W0 ltac:(lia) LU LV VX) as (g1 & E1 & W1). exists g1. split; [exact E1|].
    apply W1. intros k' a b [H|(H & -> & ->)]; [left; left; exact H|].
    destruct (Nat.eq_dec k' k) as [->|]; [right; auto | left; right; split; [lia | auto]].
  - exists g'. split; [exact E|]. eapply written_weaken; [|exact W']. intros k a b HK _ _ [H|(-> & ->)]; [left; exact H | right; auto].
Qed.

(** The loops that move a pointer *)
Lemma pointer_loops cnt F g (f : nat -> nat -> nat -> option Q) : grid_for u v cnt g ->
  (forall k iu iv, (k < cnt)%nat -> (iu <= u)%nat -> (iv <= v)%nat -> exists x, f iv iu k = Some x /\ x == F k iu iv) ->
  exists g', bind (loop (fun iv st =>
      loop (fun iu (st : nat * list (list Q)) =>
        let '(pos, g) := st in
        bind (loop (fun k g => bind (f iv iu k) (fun x => put g k pos x)) (seq 0 cnt) g) (fun g => Some (Datatypes.S pos, g)))
      (seq 0 (Datatypes.S u)) st)
    (seq 0 (Datatypes.S v)) (0%nat, g)) (fun st => let '(_, g) := st in Some g) = Some g' /\
    written u v cnt F (fun _ _ _ => True) g'.
Proof.
  intros GF HF.
  destruct (loop_seq (fun iv st =>
      loop (fun iu (st : nat * list (list Q)) =>
        let '(pos, g) := st in
        bind (loop (fun k g => bind (f iv iu k) (fun x => put g k pos x)) (seq 0 cnt) g) (fun g => Some (Datatypes.S pos, g)))
      (seq 0 (Datatypes.S u)) st)
    (fun iv st => fst st = (iv * (u + 1))%nat /\ written u v cnt F (fun _ _ iv' => (iv' < iv)%nat) (snd st))
    (Datatypes.S v) 0 (0%nat, g)) as ([pos g'] & E & (_ & W)).
  - split; [reflexivity|]. cbn [snd]. split; [exact GF|]. intros k iu iv H. lia.
  - intros iv [pos g0] HIV (EP & W). cbn [fst snd] in EP, W.
    destruct (loop_seq (fun iu (st : nat * list (list Q)) =>
        let '(pos, g) := st in
        bind (loop (fun k g => bind (f iv iu k) (fun x => put g k pos x)) (seq 0 cnt) g) (fun g => Some (Datatypes.S pos, g)))
      (fun iu st => fst st = (iv * (u + 1) + iu)%nat /\
         written u v cnt F (fun _ iu' iv' => (iv' < iv \/ (iv' = iv /\ iu' < iu))%nat) (snd st))
      (Datatypes.S u) 0 (pos, g0)) as ([pos' g1] & E1 & (EP1 & W1)).
    + cbn [fst snd]. split; [lia|]. eapply written_weaken; [|exact W]. cbn beta. intros; lia.
    + intros iu [pos1 g2] HIU (EP2 & W2). cbn [fst snd] in EP2, W2. subst pos1.
      destruct (elements_loop cnt F _ g2 iu iv (fun k => f iv iu k) ltac:(lia) ltac:(lia) W2) as (g3 & E3 & W3).
      { intros k HK. apply HF; lia. }
      exists (Datatypes.S (iv * (u + 1) + iu), g3)%nat. cbn beta iota. rewrite E3. split; [reflexivity|]. cbn [fst snd].
      split; [lia|]. eapply written_weaken; [|exact W3]. cbn beta. intros; lia.
    + exists (pos', g1). split; [exact E1|]. cbn [fst snd] in *. split; [lia|].
      eapply written_weaken; [|exact W1]. cbn beta. intros k iu' iv' _ H1 _ H2. cbn in H2. lia.
  - rewrite E. exists g'. split; [reflexivity|]. cbn [snd] in W. eapply written_weaken; [|exact W]. cbn beta. intros; lia.
Qed.

Definition place (f : Q -> Q -> Q) (iu iv : nat) : Q := f (Qnat iu / Qnat u) (Qnat iv / Qnat v).

Lemma dice_varying_ok (p : param Q) g : (1 <= p_count p)%nat -> (p_array p = false -> p_count p = 1%nat) ->
  List.length (p_vals p) = (4 * p_count p)%nat -> grid_for u v (p_count p) g ->
  exists g', dice_varying num_arith u v p g = Some g' /\
    written u v (p_count p) (fun k => place (bilinear_at (controls p k))) (fun _ _ _ => True) g'.
Proof.
  intros HC HA HL GF. unfold dice_varying.
  assert (EE : (if p_array p then seq 0 (p_count p) else [0%nat]) = seq 0 (p_count p)).
  { destruct (p_array p) eqn:AR; [reflexivity|]. rewrite (HA eq_refl). reflexivity. }
  rewrite EE, (size_of 4 p HC HL).
  assert (EB : (if p_array p then Nat.eqb 4 4 else Nat.leb 4 4) = true) by (destruct (p_array p); reflexivity).
  rewrite EB. apply pointer_loops; [exact GF|].
  intros k iu iv HK LU LV. destruct (rd_four p k 4 HL ltac:(lia) HK) as (R0 & R1 & R2 & R3). rewrite R0, R1, R2, R3. cbn [bind].
  eexists. split; [reflexivity|]. unfold place.
  assert (DU : Qnat iu * (1 / Qnat u) == Qnat iu / Qnat u) by (field; assert (P := Qnat_pos u HU); lra).
  assert (DV : Qnat iv * (1 / Qnat v) == Qnat iv / Qnat v) by (field; assert (P := Qnat_pos v HV); lra).
  rewrite bilinear_evaluate_ok; [rewrite DU, DV; reflexivity | rewrite DU; apply Qnat_range; assumption | rewrite DV; apply Qnat_range; assumption].
Qed.

Lemma natural_dice_linear_ok (p : param Q) g : List.length (p_vals p) = (4 * p_count p)%nat -> grid_for u v (p_count p) g ->
  exists g', natural_dice_linear num_arith u v p g = Some g' /\
    written u v (p_count p) (fun k => place (bilinear_at (controls p k))) (fun _ _ _ => True) g'.
Proof.
  intros HL GF. unfold natural_dice_linear.
  match goal with |- exists _, loop ?f _ _ = _ /\ _ =>
    destruct (loop_seq f (fun iv g => written u v (p_count p) (fun k => place (bilinear_at (controls p k))) (fun _ _ iv' => (iv' < iv)%nat) g)
               (Datatypes.S v) 0 g) as (g' & E & W) end.
  - split; [exact GF|]. intros k iu iv H. lia.
  - intros iv g0 HIV W.
    match goal with |- exists _, loop ?f _ _ = _ /\ _ =>
      destruct (loop_seq f (fun iu g => written u v (p_count p) (fun k => place (bilinear_at (controls p k)))
                   (fun _ iu' iv' => (iv' < iv \/ (iv' = iv /\ iu' < iu))%nat) g) (Datatypes.S u) 0 g0) as (g1 & E1 & W1) end.
    + eapply written_weaken; [|exact W]. cbn beta. intros; lia.
    + intros iu g2 HIU W2.
      destruct (elements_loop (p_count p) (fun k => place (bilinear_at (controls p k))) _ g2 iu iv
         (fun k => bind (rd p 0 k) (fun a => bind (rd p 1 k) (fun b => bind (rd p 2 k) (fun c => bind (rd p 3 k) (fun d =>
            Some (bilinear_evaluate num_arith a b c d (1 / Qnat u * Qnat iu) (1 / Qnat v * Qnat iv)))))))
         ltac:(lia) ltac:(lia) W2) as (g3 & E3 & W3).
      { intros k HK. destruct (rd_four p k 4 HL ltac:(lia) HK) as (R0 & R1 & R2 & R3). rewrite R0, R1, R2, R3. cbn [bind].
        eexists. split; [reflexivity|]. unfold place.
        assert (DU : 1 / Qnat u * Qnat iu == Qnat iu / Qnat u) by (field; assert (P := Qnat_pos u HU); lra).
        assert (DV : 1 / Qnat v * Qnat iv == Qnat iv / Qnat v) by (field; assert (P := Qnat_pos v HV); lra).
        rewrite bilinear_evaluate_ok; [rewrite DU, DV; reflexivity | rewrite DU; apply Qnat_range; lia | rewrite DV; apply Qnat_range; lia]. }
      exists g3. split.
      * rewrite <- E3. clear. generalize (seq 0 (p_count p)) as l. intro l. revert g2. induction l as [|k l IH]; intro g; [reflexivity|].
        cbn [loop]. destruct (rd p 0 k); [|reflexivity]. cbn [bind]. destruct (rd p 1 k); [|reflexivity]. cbn [bind].
        destruct (rd p 2 k); [|reflexivity]. cbn [bind]. destruct (rd p 3 k); [|reflexivity]. cbn [bind].
        destruct (put g k _ _); [apply IH | reflexivity].
      * eapply written_weaken; [|exact W3]. cbn beta. intros; lia.
    + exists g1. split; [exact E1|]. eapply written_weaken; [|exact W1]. cbn beta. intros; cbn in *; lia.
  - exists g'. split; [exact E|]. eapply written_weaken; [|exact W]. cbn beta. intros; cbn; lia.
Qed.

Lemma natural_dice_cubic_ok (p : param Q) g : List.length (p_vals p) = (16 * p_count p)%nat -> grid_for u v (p_count p) g ->
  exists g', natural_dice_cubic num_arith u v p g = Some g' /\
    written u v (p_count p) (fun k => place (bicubic_at (controls p k))) (fun _ _ _ => True) g'.
Proof.
  intros HL GF. unfold natural_dice_cubic.
  assert (R : forall i k, (i < 16)%nat -> (k < p_count p)%nat -> rd p i k = Some (controls p k i)).
  { intros i k Hi HK. destruct (rd_some p 16 i k HL Hi HK) as (x & EX). rewrite EX. f_equal. symmetry. apply rd_controls. exact EX. }
  match goal with |- exists _, loop ?f _ _ = _ /\ _ =>
    destruct (loop_seq f (fun k g => written u v (p_count p) (fun k => place (bicubic_at (controls p k))) (fun k' _ _ => (k' < k)%nat) g)
               (p_count p) 0 g) as (g' & E & W) end.
  - split; [exact GF|]. intros k iu iv H. lia.
  - intros k g0 HK W. assert (HK' : (k < p_count p)%nat) by lia.
    rewrite !(R _ k) by lia. cbn [bind Nat.add].
    set (c := controls p k).
    match goal with |- exists _, bind (loop ?f _ _) _ = _ /\ _ =>
      destruct (loop_seq f (fun iv st =>
         at_step (c 0%nat) (c 4%nat) (c 8%nat) (c 12%nat) (1 / Qnat v) iv (fst (fst (fst (fst st)))) /\
         at_step (c 1%nat) (c 5%nat) (c 9%nat) (c 13%nat) (1 / Qnat v) iv (snd (fst (fst (fst st)))) /\
         at_step (c 2%nat) (c 6%nat) (c 10%nat) (c 14%nat) (1 / Qnat v) iv (snd (fst (fst st))) /\
         at_step (c 3%nat) (c 7%nat) (c 11%nat) (c 15%nat) (1 / Qnat v) iv (snd (fst st)) /\
         written u v (p_count p) (fun k => place (bicubic_at (controls p k))) (fun k' _ iv' => (k' < k \/ (k' = k /\ iv' < iv))%nat) (snd st))
         (Datatypes.S v) 0
         ((calc_forward_diff num_arith (1 / Qnat v) (c 0%nat) (c 4%nat) (c 8%nat) (c 12%nat),
           calc_forward_diff num_arith (1 / Qnat v) (c 1%nat) (c 5%nat) (c 9%nat) (c 13%nat),
           calc_forward_diff num_arith (1 / Qnat v) (c 2%nat) (c 6%nat) (c 10%nat) (c 14%nat),
           calc_forward_diff num_arith (1 / Qnat v) (c 3%nat) (c 7%nat) (c 11%nat) (c 15%nat)), g0))
        as ([[[[w0 w1] w2] w3] g1] & E1 & (_ & _ & _ & _ & W1)) end.
    + cbn [fst snd]. do 4 (split; [apply at_step_0|]). eapply written_weaken; [|exact W]. cbn beta. intros; lia.
    + intros iv [[[[w0 w1] w2] w3] g1] HIV (A0 & A1 & A2 & A3 & W1). cbn [fst snd] in A0, A1, A2, A3, W1.
      cbn [get_value].
      set (x := Qnat iv * (1 / Qnat v)).
      match goal with |- exists _, bind (loop ?f _ ?st0) _ = _ /\ _ =>
        destruct (loop_seq f (fun iu st =>
           at_step (fd_f w0) (fd_f w1) (fd_f w2) (fd_f w3) (1 / Qnat u) iu (fst st) /\
           written u v (p_count p) (fun k => place (bicubic_at (controls p k)))
             (fun k' iu' iv' => (k' < k \/ (k' = k /\ (iv' < iv \/ (iv' = iv /\ iu' < iu))))%nat) (snd st))
           (Datatypes.S u) 0 st0) as ([uf g2] & E2 & (_ & W2)) end.
      * cbn [fst snd]. split; [apply at_step_0|]. eapply written_weaken; [|exact W1]. cbn beta. intros; lia.
      * intros iu [uf g2] HIU (AU & W2). cbn [fst snd] in AU, W2. cbn [get_value].
        destruct (write_one u v (p_count p) (fun k => place (bicubic_at (controls p k))) _ g2 k iu iv (fd_f uf) W2 HK' ltac:(lia) ltac:(lia)) as (g3 & E3 & W3).
        { apply (at_two_steps c (1 / Qnat u) (1 / Qnat v) iu iv w0 w1 w2 w3 uf _ _ A0 A1 A2 A3 AU);
            field; [assert (P := Qnat_pos u HU) | assert (P := Qnat_pos v HV)]; clear - P; lra. }
        rewrite E3. cbn [bind]. eexists. split; [reflexivity|]. cbn [fst snd]. split; [exact (at_step_S _ _ _ _ _ _ _ AU)|].
        apply W3. intros; lia.
      * rewrite E2. cbn [bind]. eexists. split; [reflexivity|]. cbn [fst snd].
        split; [exact (at_step_S _ _ _ _ _ _ _ A0)|]. split; [exact (at_step_S _ _ _ _ _ _ _ A1)|].
        split; [exact (at_step_S _ _ _ _ _ _ _ A2)|]. split; [exact (at_step_S _ _ _ _ _ _ _ A3)|].
        eapply written_weaken; [|exact W2]. cbn beta. intros; cbn in *; lia.
    + rewrite E1. cbn [bind]. exists g1. split; [reflexivity|]. cbn [snd] in W1.
      eapply written_weaken; [|exact W1]. cbn beta. intros; cbn; lia.
  - exists g'. split; [exact E|]. eapply written_weaken; [|exact W]. cbn beta. intros; cbn; lia.
Qed.

Lemma dice_uniform_ok (p : param Q) g : (1 <= p_count p)%nat -> (p_array p = false -> p_count p = 1%nat) ->
  List.length (p_vals p) = p_count p -> grid_for u v (p_count p) g ->
  exists g', dice_uniform u v p g = Some g' /\
    written u v (p_count p) (fun k => place (fun _ _ => controls p k 0)) (fun _ _ _ => True) g'.
Proof.
  intros HC HA HL GF. unfold dice_uniform.
  assert (EE : (if p_array p then seq 0 (p_count p) else [0%nat]) = seq 0 (p_count p)).
  { destruct (p_array p) eqn:AR; [reflexivity|]. rewrite (HA eq_refl). reflexivity. }
  rewrite EE.
  assert (EN : Nat.max (u * v) (List.length (nth 0 g nil)) = ((u + 1) * (v + 1))%nat).
  { destruct GF as [GL GF]. destruct g as [|l g]; [cbn in GL; lia|]. inversion GF; subst. cbn [nth]. nia. }
  rewrite EN.
  match goal with |- exists _, loop ?f _ _ = _ /\ _ =>
    destruct (loop_seq f (fun i g => written u v (p_count p) (fun k => place (fun _ _ => controls p k 0))
               (fun _ iu iv => (iv * (u + 1) + iu < i)%nat) g) ((u + 1) * (v + 1)) 0 g) as (g' & E & W) end.
  - split; [exact GF|]. intros k iu iv H. lia.
  - intros i g0 HI W.
    assert (DM : i = (i / (u + 1) * (u + 1) + i mod (u + 1))%nat) by (rewrite Nat.mul_comm; apply Nat.div_mod; lia).
    assert (LM : (i mod (u + 1) < u + 1)%nat) by (apply Nat.mod_upper_bound; lia).
    assert (LD : (i / (u + 1) < v + 1)%nat) by (apply Nat.div_lt_upper_bound; lia).
    destruct (elements_loop (p_count p) (fun k => place (fun _ _ => controls p k 0)) _ g0 (i mod (u + 1)) (i / (u + 1))
       (fun k => rd p 0 k) ltac:(lia) ltac:(lia) W) as (g3 & E3 & W3).
    { intros k HK. exists (controls p k 0). split; [|reflexivity].
      destruct (rd_some p 1 0 k ltac:(lia) ltac:(lia) HK) as (x & EX). rewrite EX. f_equal. symmetry. apply rd_controls. exact EX. }
    exists g3. rewrite <- DM in E3. split; [exact E3|]. eapply written_weaken; [|exact W3]. cbn beta.
    intros k iu iv _ LU _ H. destruct (Nat.eq_dec (iv * (u + 1) + iu) i) as [EQ|NE]; [|left; lia].
    right. apply (position_inj u); [lia | lia | lia].
  - exists g'. split; [exact E|]. eapply written_weaken; [|exact W]. cbn beta. intros; cbn; nia.
Qed.

Lemma dice_ok kd (p : param Q) g : proper kd p -> grid_for u v (p_count p) g ->
  exists g', dice num_arith kd u v p g = Some g' /\ forall k, (k < p_count p)%nat -> grid_holds u v g' k (value_at kd p k).
Proof.
  intros (P1 & P2 & P3) GF. unfold dice, value_at.
  assert (FIN : forall F g', written u v (p_count p) (fun k => place (F k)) (fun _ _ _ => True) g' ->
            forall k, (k < p_count p)%nat -> grid_holds u v g' k (F k)).
  { intros F g' W k HK. eapply written_all; [exact W | exact HK |]. intros; reflexivity. }
  destruct (p_class p) eqn:CL; cbn [needed] in P3.
  - destruct (dice_uniform_ok p g P1 P2 ltac:(lia) GF) as (g' & E & W). exists g'. split; [exact E | exact (FIN (fun k _ _ => controls p k 0) g' W)].
  - destruct (dice_uniform_ok p g P1 P2 ltac:(lia) GF) as (g' & E & W). exists g'. split; [exact E | exact (FIN (fun k _ _ => controls p k 0) g' W)].
  - destruct (dice_varying_ok p g P1 P2 P3 GF) as (g' & E & W). exists g'. split; [exact E | exact (FIN (fun k => bilinear_at (controls p k)) g' W)].
  - destruct (dice_varying_ok p g P1 P2 P3 GF) as (g' & E & W). exists g'. split; [exact E | exact (FIN (fun k => bilinear_at (controls p k)) g' W)].
  - destruct kd.
    + destruct (natural_dice_linear_ok p g P3 GF) as (g' & E & W). exists g'. split; [exact E | exact (FIN (fun k => bilinear_at (controls p k)) g' W)].
    + destruct (natural_dice_cubic_ok p g P3 GF) as (g' & E & W). exists g'. split; [exact E | exact (FIN (fun k => bicubic_at (controls p k)) g' W)].
  - destruct kd.
    + destruct (natural_dice_linear_ok p g P3 GF) as (g' & E & W). exists g'. split; [exact E | exact (FIN (fun k => bilinear_at (controls p k)) g' W)].
    + destruct (natural_dice_cubic_ok p g P3 GF) as (g' & E & W). exists g'. split; [exact E | exact (FIN (fun k => bicubic_at (controls p k)) g' W)].
Qed.
End Dice.

(** ** One element of an array *)
Lemma put_single (g : list Q) pos x g' : put [g] 0 pos x = Some g' -> exists l, set_nth g pos x = Some l /\ g' = [l].
Proof.
  unfold put. cbn [nth_error]. destruct (set_nth g pos x) as [l|]; [|discriminate]. cbn. intro E. injection E as <-. exists l. auto.
Qed.

Lemma dice_one_ok u v (p : param Q) k g : (1 <= u)%nat -> (1 <= v)%nat ->
  (p_class p = Varying \/ p_class p = FaceVarying) -> List.length (p_vals p) = (4 * p_count p)%nat -> (k < p_count p)%nat ->
  List.length g = ((u + 1) * (v + 1))%nat ->
  exists g', dice_one num_arith u v p k g = Some g' /\ grid_holds u v [g'] 0 (bilinear_at (controls p k)).
Proof.
  intros HU HV CL HL HK LG. unfold dice_one.
  assert (HC : (1 <= p_count p)%nat) by lia.
  set (F := fun _ : nat => place u v (bilinear_at (controls p k))).
  assert (GO : exists g', bind (loop (fun iv st =>
          loop (fun iu (st : nat * list Q) =>
            let '(pos, g) := st in
            bind (rd p 0 k) (fun a => bind (rd p 1 k) (fun b => bind (rd p 2 k) (fun c => bind (rd p 3 k) (fun d =>
            bind (set_nth g pos (bilinear_evaluate num_arith a b c d (Qnat iu * (1 / Qnat u)) (Qnat iv * (1 / Qnat v))))
              (fun g => Some (Datatypes.S pos, g)))))))
          (seq 0 (Datatypes.S u)) st)
        (seq 0 (Datatypes.S v)) (0%nat, g)) (fun st => let '(_, g) := st in Some g) = Some g' /\
        written u v 1 F (fun _ _ _ => True) [g']).
  { match goal with |- exists _, bind (loop ?f _ _) _ = _ /\ _ =>
      destruct (loop_seq f (fun iv st => fst st = (iv * (u + 1))%nat /\ written u v 1 F (fun _ _ iv' => (iv' < iv)%nat) [snd st])
        (Datatypes.S v) 0 (0%nat, g)) as ([pos g'] & E & (_ & W)) end.
    - split; [reflexivity|]. cbn [snd]. split; [split; [reflexivity | constructor; [exact LG | constructor]]|]. intros k' iu iv H. lia.
    - intros iv [pos g0] HIV (EP & W). cbn [fst snd] in EP, W.
      match goal with |- exists _, loop ?f _ _ = _ /\ _ =>
        destruct (loop_seq f (fun iu st => fst st = (iv * (u + 1) + iu)%nat /\
           written u v 1 F (fun _ iu' iv' => (iv' < iv \/ (iv' = iv /\ iu' < iu))%nat) [snd st])
           (Datatypes.S u) 0 (pos, g0)) as ([pos' g1] & E1 & (EP1 & W1)) end.
      + cbn [fst snd]. split; [lia|]. eapply written_weaken; [|exact W]. cbn beta. intros; lia.
      + intros iu [pos1 g2] HIU (EP2 & W2). cbn [fst snd] in EP2, W2. subst pos1.
        destruct (rd_four p k 4 HL ltac:(lia) HK) as (R0 & R1 & R2 & R3). rewrite R0, R1, R2, R3. cbn [bind].
        set (x := bilinear_evaluate num_arith (controls p k 0) (controls p k 1) (controls p k 2) (controls p k 3)
                   (Qnat iu * (1 / Qnat u)) (Qnat iv * (1 / Qnat v))).
        assert (VX : x == F 0%nat iu iv).
        { assert (DU : Qnat iu * (1 / Qnat u) == Qnat iu / Qnat u) by (field; assert (P := Qnat_pos u HU); lra).
          assert (DV : Qnat iv * (1 / Qnat v) == Qnat iv / Qnat v) by (field; assert (P := Qnat_pos v HV); lra).
          subst x F. unfold place.
          rewrite bilinear_evaluate_ok; [rewrite DU, DV; reflexivity | rewrite DU; apply Qnat_range; lia | rewrite DV; apply Qnat_range; lia]. }
        destruct (write_one u v 1 F _ [g2] 0%nat iu iv x W2 ltac:(lia) ltac:(lia) ltac:(lia) VX) as (g3 & E3 & W3).
        destruct (put_single _ _ _ _ E3) as (l & EL & ->). rewrite EL. cbn [bind]. eexists. split; [reflexivity|]. cbn [fst snd].
        split; [lia|].
        assert (W4 := W3 (fun k' iu' iv' => k' = 0%nat /\ (iv' < iv \/ (iv' = iv /\ iu' < Datatypes.S iu)))%nat ltac:(cbn beta; intros; lia)).
        eapply written_weaken; [|exact W4]. cbn beta. intros; lia.
      + exists (pos', g1). split; [exact E1|]. cbn [fst snd] in *. split; [lia|].
        eapply written_weaken; [|exact W1]. cbn beta. intros; cbn in *; lia.
    - rewrite E. exists g'. split; [reflexivity|]. cbn [snd] in W. eapply written_weaken; [|exact W]. cbn beta. intros; cbn; lia. }
  destruct GO as (g' & E & W). exists g'. split.
  - rewrite (size_of 4 p HC HL). destruct CL as [-> | ->]; exact E.
  - eapply written_all; [exact W | lia |]. intros; reflexivity.
Qed.

(** ** Bases *)
Lemma conv_curve m g0 g1 g2 g3 x :
  let c := mmul m inverse_bezier in
  bezier4 (c 0%nat 0%nat * g0 + c 0%nat 1%nat * g1 + c 0%nat 2%nat * g2 + c 0%nat 3%nat * g3)
          (c 1%nat 0%nat * g0 + c 1%nat 1%nat * g1 + c 1%nat 2%nat * g2 + c 1%nat 3%nat * g3)
          (c 2%nat 0%nat * g0 + c 2%nat 1%nat * g1 + c 2%nat 2%nat * g2 + c 2%nat 3%nat * g3)
          (c 3%nat 0%nat * g0 + c 3%nat 1%nat * g1 + c 3%nat 2%nat * g2 + c 3%nat 3%nat * g3) x ==
  basis_curve m g0 g1 g2 g3 x.
Proof.
  cbv zeta. unfold mmul, sum4, bezier4, basis_curve.
  set (i := inverse_bezier).
  assert (I0 : forall j, (j < 3)%nat -> i 0%nat j = 0) by (intros [|[|[|j]]] H; try reflexivity; lia).
  assert (H00 : i 0%nat 0%nat = 0) by reflexivity. assert (H01 : i 0%nat 1%nat = 0) by reflexivity.
  assert (H02 : i 0%nat 2%nat = 0) by reflexivity. assert (H03 : i 0%nat 3%nat = 1) by reflexivity.
  assert (H10 : i 1%nat 0%nat = 0) by reflexivity. assert (H11 : i 1%nat 1%nat = 0) by reflexivity.
  assert (H12 : i 1%nat 2%nat = 1 # 3) by reflexivity. assert (H13 : i 1%nat 3%nat = 1) by reflexivity.
  assert (H20 : i 2%nat 0%nat = 0) by reflexivity. assert (H21 : i 2%nat 1%nat = 1 # 3) by reflexivity.
  assert (H22 : i 2%nat 2%nat = 2 # 3) by reflexivity. assert (H23 : i 2%nat 3%nat = 1) by reflexivity.
  assert (H30 : i 3%nat 0%nat = 1) by reflexivity. assert (H31 : i 3%nat 1%nat = 1) by reflexivity.
  assert (H32 : i 3%nat 2%nat = 1) by reflexivity. assert (H33 : i 3%nat 3%nat = 1) by reflexivity.
  clearbody i. rewrite H00, H01, H02, H03, H10, H11, H12, H13, H20, H21, H22, H23, H30, H31, H32, H33. ring.
Qed.

Lemma bezier_linear (c : nat -> Q) (b : nat -> nat -> Q) x :
  let row j := c 0%nat * b 0%nat j + c 1%nat * b 1%nat j + c 2%nat * b 2%nat j + c 3%nat * b 3%nat j in
  bezier4 (row 0%nat) (row 1%nat) (row 2%nat) (row 3%nat) x ==
  c 0%nat * bezier4 (b 0%nat 0%nat) (b 0%nat 1%nat) (b 0%nat 2%nat) (b 0%nat 3%nat) x +
  c 1%nat * bezier4 (b 1%nat 0%nat) (b 1%nat 1%nat) (b 1%nat 2%nat) (b 1%nat 3%nat) x +
  c 2%nat * bezier4 (b 2%nat 0%nat) (b 2%nat 1%nat) (b 2%nat 2%nat) (b 2%nat 3%nat) x +
  c 3%nat * bezier4 (b 3%nat 0%nat) (b 3%nat 1%nat) (b 3%nat 2%nat) (b 3%nat 3%nat) x.
Proof. cbv zeta. unfold bezier4. ring. Qed.

Lemma convert_matrix mu mv (g : matrix) u v :
  let uconv := mmul mu inverse_bezier in
  let vconv := mmul mv inverse_bezier in
  let r := mmul (mmul (mtranspose uconv) g) vconv in
  bezier4 (bezier4 (r 0%nat 0%nat) (r 0%nat 1%nat) (r 0%nat 2%nat) (r 0%nat 3%nat) u)
          (bezier4 (r 1%nat 0%nat) (r 1%nat 1%nat) (r 1%nat 2%nat) (r 1%nat 3%nat) u)
          (bezier4 (r 2%nat 0%nat) (r 2%nat 1%nat) (r 2%nat 2%nat) (r 2%nat 3%nat) u)
          (bezier4 (r 3%nat 0%nat) (r 3%nat 1%nat) (r 3%nat 2%nat) (r 3%nat 3%nat) u) v ==
  basis_curve mv (basis_curve mu (g 0%nat 0%nat) (g 0%nat 1%nat) (g 0%nat 2%nat) (g 0%nat 3%nat) u)
                 (basis_curve mu (g 1%nat 0%nat) (g 1%nat 1%nat) (g 1%nat 2%nat) (g 1%nat 3%nat) u)
                 (basis_curve mu (g 2%nat 0%nat) (g 2%nat 1%nat) (g 2%nat 2%nat) (g 2%nat 3%nat) u)
                 (basis_curve mu (g 3%nat 0%nat) (g 3%nat 1%nat) (g 3%nat 2%nat) (g 3%nat 3%nat) u) v.
Proof.
  cbv zeta. set (uc := mmul mu inverse_bezier). set (vc := mmul mv inverse_bezier).
  set (x := mmul (mtranspose uc) g).
  assert (XR : forall i, bezier4 (x i 0%nat) (x i 1%nat) (x i 2%nat) (x i 3%nat) u ==
                         basis_curve mu (g i 0%nat) (g i 1%nat) (g i 2%nat) (g i 3%nat) u).
  { intro i. rewrite <- conv_curve. cbv zeta. fold uc. apply bezier4_m; try reflexivity; subst x; unfold mmul, mtranspose, sum4; ring. }
  assert (RR : forall i, bezier4 (mmul x vc i 0%nat) (mmul x vc i 1%nat) (mmul x vc i 2%nat) (mmul x vc i 3%nat) u ==
      vc i 0%nat * bezier4 (x 0%nat 0%nat) (x 0%nat 1%nat) (x 0%nat 2%nat) (x 0%nat 3%nat) u +
      vc i 1%nat * bezier4 (x 1%nat 0%nat) (x 1%nat 1%nat) (x 1%nat 2%nat) (x 1%nat 3%nat) u +
      vc i 2%nat * bezier4 (x 2%nat 0%nat) (x 2%nat 1%nat) (x 2%nat 2%nat) (x 2%nat 3%nat) u +
      vc i 3%nat * bezier4 (x 3%nat 0%nat) (x 3%nat 1%nat) (x 3%nat 2%nat) (x 3%nat 3%nat) u).
  { intro i. exact (bezier_linear (fun k => vc i k) x u). }
  set (X := fun i => basis_curve mu (g i 0%nat) (g i 1%nat) (g i 2%nat) (g i 3%nat) u).
  assert (RX : forall i, bezier4 (mmul x vc i 0%nat) (mmul x vc i 1%nat) (mmul x vc i 2%nat) (mmul x vc i 3%nat) u ==
      vc i 0%nat * X 0%nat + vc i 1%nat * X 1%nat + vc i 2%nat * X 2%nat + vc i 3%nat * X 3%nat).
  { intro i. refine (Qeq_trans _ _ _ (RR i) _).
    apply Qplus_comp; [apply Qplus_comp; [apply Qplus_comp|]|]; (apply Qmult_comp; [reflexivity|]);
      [exact (XR 0%nat) | exact (XR 1%nat) | exact (XR 2%nat) | exact (XR 3%nat)]. }
  refine (Qeq_trans _ _ _ _ (conv_curve mv (X 0%nat) (X 1%nat) (X 2%nat) (X 3%nat) v)).
  apply bezier4_m; [exact (RX 0%nat) | exact (RX 1%nat) | exact (RX 2%nat) | exact (RX 3%nat) | reflexivity].
Qed.

(** Conversion writes the elements of the matrix into the variable *)
Lemma convert_param_ok mu mv (p : param Q) : p_class p = Vertex -> p_count p = 1%nat -> List.length (p_vals p) = 16%nat ->
  exists q, convert_param mu mv p = Some q /\ alike p q /\
    forall u v, bicubic_at (controls q 0) u v == basis_at mu mv (controls p 0) u v.
Proof.
  intros CL HC HL. destruct (sixteen _ HL) as (a0&a1&a2&a3&b0&b1&b2&b3&c0&c1&c2&c3&d0&d1&d2&d3&EL).
  destruct p as [cl ar n l]. cbn in CL, HC, EL. subst cl n l.
  set (g := fun i j : nat => nth (i * 4 + j) [a0;a1;a2;a3;b0;b1;b2;b3;c0;c1;c2;c3;d0;d1;d2;d3] 0).
  set (r := mmul (mmul (mtranspose (mmul mu inverse_bezier)) g) (mmul mv inverse_bezier)).
  exists (mkparam Vertex ar 1 [r 0%nat 0%nat; r 0%nat 1%nat; r 0%nat 2%nat; r 0%nat 3%nat;
                               r 1%nat 0%nat; r 1%nat 1%nat; r 1%nat 2%nat; r 1%nat 3%nat;
                               r 2%nat 0%nat; r 2%nat 1%nat; r 2%nat 2%nat; r 2%nat 3%nat;
                               r 3%nat 0%nat; r 3%nat 1%nat; r 3%nat 2%nat; r 3%nat 3%nat]).
  split; [reflexivity|]. split; [repeat split|].
  intros u v. exact (convert_matrix mu mv g u v).
Qed.

(** ** Bounds *)
Lemma Qprod_nonneg (a b : Q) : 0 <= a -> 0 <= b -> 0 <= a * b.
Proof. apply Qmult_le_0_compat. Qed.

Lemma bezier_between lo hi a b c d x : 0 <= x <= 1 -> lo <= a <= hi -> lo <= b <= hi -> lo <= c <= hi -> lo <= d <= hi ->
  lo <= bezier4 a b c d x <= hi.
Proof.
  intros HX HA HB HC HD. assert (Y : 0 <= 1 - x) by lra. assert (X : 0 <= x) by lra.
  assert (W0 : 0 <= (1 - x) * (1 - x) * (1 - x)) by (repeat apply Qprod_nonneg; lra).
  assert (W1 : 0 <= 3 * x * (1 - x) * (1 - x)) by (repeat apply Qprod_nonneg; lra).
  assert (W2 : 0 <= 3 * x * x * (1 - x)) by (repeat apply Qprod_nonneg; lra).
  assert (W3 : 0 <= x * x * x) by (repeat apply Qprod_nonneg; lra).
  assert (S : (1 - x) * (1 - x) * (1 - x) + 3 * x * (1 - x) * (1 - x) + 3 * x * x * (1 - x) + x * x * x == 1) by ring.
  unfold bezier4. set (w0 := (1 - x) * (1 - x) * (1 - x)) in *. set (w1 := 3 * x * (1 - x) * (1 - x)) in *.
  set (w2 := 3 * x * x * (1 - x)) in *. set (w3 := x * x * x) in *. clearbody w0 w1 w2 w3.
  assert (L : 0 <= w0 * (a - lo) + w1 * (b - lo) + w2 * (c - lo) + w3 * (d - lo)).
  { assert (0 <= w0 * (a - lo)) by (apply Qprod_nonneg; lra). assert (0 <= w1 * (b - lo)) by (apply Qprod_nonneg; lra).
    assert (0 <= w2 * (c - lo)) by (apply Qprod_nonneg; lra). assert (0 <= w3 * (d - lo)) by (apply Qprod_nonneg; lra). lra. }
  assert (H : 0 <= w0 * (hi - a) + w1 * (hi - b) + w2 * (hi - c) + w3 * (hi - d)).
  { assert (0 <= w0 * (hi - a)) by (apply Qprod_nonneg; lra). assert (0 <= w1 * (hi - b)) by (apply Qprod_nonneg; lra).
    assert (0 <= w2 * (hi - c)) by (apply Qprod_nonneg; lra). assert (0 <= w3 * (hi - d)) by (apply Qprod_nonneg; lra). lra. }
  assert (EL : w0 * (a - lo) + w1 * (b - lo) + w2 * (c - lo) + w3 * (d - lo) == w0 * a + w1 * b + w2 * c + w3 * d - lo * (w0 + w1 + w2 + w3)) by ring.
  assert (EH : w0 * (hi - a) + w1 * (hi - b) + w2 * (hi - c) + w3 * (hi - d) == hi * (w0 + w1 + w2 + w3) - (w0 * a + w1 * b + w2 * c + w3 * d)) by ring.
  rewrite S in EL, EH. split; lra.
Qed.

Lemma line_between lo hi a b x : 0 <= x <= 1 -> lo <= a <= hi -> lo <= b <= hi -> lo <= line2 a b x <= hi.
Proof.
  intros HX HA HB. unfold line2.
  assert (0 <= (1 - x) * (a - lo)) by (apply Qprod_nonneg; lra). assert (0 <= x * (b - lo)) by (apply Qprod_nonneg; lra).
  assert (0 <= (1 - x) * (hi - a)) by (apply Qprod_nonneg; lra). assert (0 <= x * (hi - b)) by (apply Qprod_nonneg; lra).
  assert (E1 : (1 - x) * (a - lo) + x * (b - lo) == (1 - x) * a + x * b - lo) by ring.
  assert (E2 : (1 - x) * (hi - a) + x * (hi - b) == hi - ((1 - x) * a + x * b)) by ring. split; lra.
Qed.

Lemma bound_loop big kd ph (p : param Q) : p_count p = 1%nat ->
  (match kd with Bicubic => 16 | Bilinear => 4 end <= List.length (p_vals p))%nat ->
  exists lo hi, bound_param big kd ph p = Some (lo, hi) /\
    forall n, (n < match kd with Bicubic => 16 | Bilinear => if ph then 3 else 4 end)%nat -> lo <= controls p 0 n <= hi.
Proof.
  intros HC HL. unfold bound_param. set (N := match kd with Bicubic => 16%nat | Bilinear => if ph then 3%nat else 4%nat end).
  match goal with |- exists _ _, loop ?f _ ?s = _ /\ _ =>
    destruct (loop_seq f (fun n b => forall m, (m < n)%nat -> fst b <= controls p 0 m <= snd b) N 0 s) as ([lo hi] & E & H) end.
  - intros m H. lia.
  - intros n [lo hi] HN H. cbn [fst snd] in H.
    assert (LN : (n < List.length (p_vals p))%nat) by (subst N; destruct kd, ph; lia).
    assert (RX : rd p n 0 = Some (controls p 0 n)).
    { destruct (rd_some p (List.length (p_vals p)) n 0) as (x & EX); [rewrite HC; lia | exact LN | lia |].
      rewrite EX. f_equal. symmetry. apply rd_controls. exact EX. }
    rewrite RX. cbn [bind]. eexists. split; [reflexivity|]. intros m HM. cbn [fst snd].
    set (x := controls p 0 n) in *.
    assert (L : (if Qle_bool lo x then lo else x) <= lo /\ (if Qle_bool lo x then lo else x) <= x).
    { destruct (Qle_bool lo x) eqn:EB; [apply Qle_bool_iff in EB; split; lra|]. split; [|lra]. apply Qlt_le_weak, Qnot_le_lt.
      intro LE. apply Qle_bool_iff in LE. congruence. }
    assert (U : hi <= (if Qle_bool x hi then hi else x) /\ x <= (if Qle_bool x hi then hi else x)).
    { destruct (Qle_bool x hi) eqn:EB; [apply Qle_bool_iff in EB; split; lra|]. split; [|lra]. apply Qlt_le_weak, Qnot_le_lt.
      intro LE. apply Qle_bool_iff in LE. congruence. }
    destruct (Nat.eq_dec m n) as [->|NE]; [fold x; split; [apply L | apply U]|].
    specialize (H m ltac:(lia)). destruct L as (L1 & L2), U as (U1 & U2), H as (H1 & H2). split; [eapply Qle_trans; [exact L1 | exact H1] | eapply Qle_trans; [exact H2 | exact U1]].
  - exists lo, hi. split; [exact E | exact H].
Qed.

Lemma bound_ok big kd ph (p : param Q) : p_class p = Vertex -> p_count p = 1%nat -> List.length (p_vals p) = needed kd Vertex ->
  (kd = Bicubic -> ph = false) ->
  (ph = true -> controls p 0 3 == controls p 0 1 - controls p 0 0 + controls p 0 2) ->
  exists lo hi, bound_param big kd ph p = Some (lo, hi) /\
    forall u v, covers ph whole u v -> lo <= value_at kd p 0 u v <= hi.
Proof.
  intros CL HC HL PK PL. destruct (bound_loop big kd ph p HC) as (lo & hi & E & H); [rewrite HL; destruct kd; cbn; lia |].
  exists lo, hi. split; [exact E|]. intros u v (s & t & HS & HT & TR & EU & EV). cbn in EU, EV.
  assert (RU : 0 <= u <= 1) by lra. assert (RV : 0 <= v <= 1) by lra. unfold value_at. rewrite CL. destruct kd.
  - destruct ph.
    + specialize (TR eq_refl). specialize (PL eq_refl).
      assert (H0 := H 0%nat ltac:(lia)). assert (H1 := H 1%nat ltac:(lia)). assert (H2 := H 2%nat ltac:(lia)).
      unfold bilinear_at, line2. rewrite PL. set (a := controls p 0 0) in *. set (b := controls p 0 1) in *. set (c := controls p 0 2) in *.
      assert (EQ : (1 - v) * ((1 - u) * a + u * b) + v * ((1 - u) * c + u * (b - a + c)) == (1 - u - v) * a + u * b + v * c) by ring.
      rewrite EQ. assert (W : 0 <= 1 - u - v) by lra.
      assert (0 <= (1 - u - v) * (a - lo)) by (apply Qprod_nonneg; lra). assert (0 <= u * (b - lo)) by (apply Qprod_nonneg; lra).
      assert (0 <= v * (c - lo)) by (apply Qprod_nonneg; lra).
      assert (0 <= (1 - u - v) * (hi - a)) by (apply Qprod_nonneg; lra). assert (0 <= u * (hi - b)) by (apply Qprod_nonneg; lra).
      assert (0 <= v * (hi - c)) by (apply Qprod_nonneg; lra).
      assert (E1 : (1 - u - v) * (a - lo) + u * (b - lo) + v * (c - lo) == (1 - u - v) * a + u * b + v * c - lo) by ring.
      assert (E2 : (1 - u - v) * (hi - a) + u * (hi - b) + v * (hi - c) == hi - ((1 - u - v) * a + u * b + v * c)) by ring.
      split; lra.
    + unfold bilinear_at. apply line_between; [exact RV | |]; apply line_between; try exact RU; apply H; lia.
  - unfold bicubic_at. apply bezier_between; [exact RV | | | |]; apply bezier_between; try exact RU; apply H; lia.
Qed.

(** ** Whole patches *)
Definition converted (mu mv : matrix) (x y : variable) : Prop :=
  match x, y with
  | VNum p, VNum q =>
      p_class q = p_class p /\ p_array q = p_array p /\ p_count q = p_count p /\
      forall k u v, (k < p_count p)%nat -> value_at Bicubic q k u v == value_in_basis mu mv p k u v
  | VInt p, VInt q => q = p
  | VStr p, VStr q => q = p
  | VMat p, VMat q => q = p
  | _, _ => False
  end.
Definition not_facevertex (x : variable) : Prop :=
  match x with VNum p => p_class p <> FaceVertex | _ => True end.

Lemma convert_vars_ok mu mv l : Forall (proper_var Bicubic) l -> Forall not_facevertex l ->
  exists l', convert_vars mu mv l = Some l' /\ Forall (proper_var Bicubic) l' /\ Forall2 (converted mu mv) l l'.
Proof.
  induction 1 as [|x l HX HL IH]; intro NF.
  - exists nil. repeat split; constructor.
  - inversion NF as [|? ? NX NL]; subst. destruct (IH NL) as (l' & E & PL & CL).
    enough (HY : exists y, convert_var mu mv x = Some y /\ proper_var Bicubic y /\ converted mu mv x y).
    { destruct HY as (y & EY & PY & CY). exists (y :: l'). cbn [convert_vars]. rewrite EY. cbn [bind]. rewrite E. cbn [bind].
      split; [reflexivity|]. split; constructor; assumption. }
    destruct x as [p|p|p|p]; cbn [convert_var converted]; try (eexists; split; [reflexivity|]; split; [exact HX | reflexivity]).
    destruct HX as [(P1 & P2 & P3) NC]. cbn [not_facevertex] in NX.
    destruct (p_class p) eqn:EC; try (exfalso; apply NX; reflexivity);
      try (unfold convert_param; rewrite EC; cbn [bind]; exists (VNum p); split; [reflexivity|];
           split; [split; [unfold proper; rewrite EC; auto | exact NC]|]; repeat (split; [congruence|]);
           intros k u v _; unfold value_in_basis; rewrite EC; reflexivity).
    assert (AR : p_array p = false).
    { destruct (p_array p) eqn:AR; [|reflexivity]. exfalso. apply NC. split; [reflexivity|]. split; [exact AR | left; exact EC]. }
    specialize (P2 AR). destruct (convert_param_ok mu mv p EC P2) as (q & EQ & AQ & VQ); [rewrite P3, P2; reflexivity|].
    rewrite EQ. cbn [bind]. exists (VNum q). split; [reflexivity|]. split.
    + split; [apply (alike_proper Bicubic p q AQ); unfold proper; rewrite EC; auto | exact (alike_array Bicubic p q AQ NC)].
    + destruct AQ as (A1 & A2 & A3 & _). split; [congruence|]. split; [exact A2|]. split; [exact A3|].
      intros k u v HK. unfold value_in_basis, value_at. rewrite A1, EC. replace k with 0%nat by lia. apply VQ.
Qed.

Lemma convert_ok mu mv s : s_kind s = Bicubic -> proper_patch s -> Forall not_facevertex (s_vars s) ->
  exists s', convert_to_bezier mu mv s = Some s' /\ proper_patch s' /\ s_kind s' = Bicubic /\
    Forall2 (converted mu mv) (s_vars s) (s_vars s').
Proof.
  intros KD [PV PK] NF. rewrite KD in PV. destruct (convert_vars_ok mu mv (s_vars s) PV NF) as (l & E & PL & CL).
  unfold convert_to_bezier. rewrite E. cbn [bind]. eexists. split; [reflexivity|]. split.
  - split; cbn [s_kind s_vars s_phantom]; [rewrite KD; exact PL | exact PK].
  - split; [exact KD | exact CL].
Qed.

Lemma Forall2_nth {X Y} (R : X -> Y -> Prop) l m : Forall2 R l m -> forall n x, nth_error l n = Some x ->
  exists y, nth_error m n = Some y /\ R x y.
Proof.
  induction 1 as [|a b l m HAB H IH]; intros n x HN; [destruct n; discriminate|]. destruct n as [|n].
  - cbn in HN. injection HN as <-. exists b. split; [reflexivity | exact HAB].
  - cbn in HN. apply IH. exact HN.
Qed.

Lemma piece_grid s r s' n (p : param Q) : shows s r s' -> proper_patch s' -> nth_error (s_vars s) n = Some (VNum p) ->
  exists q, nth_error (s_vars s') n = Some (VNum q) /\ p_class q = p_class p /\ p_array q = p_array p /\ p_count q = p_count p /\
    forall u v g, (1 <= u)%nat -> (1 <= v)%nat -> grid_for u v (p_count p) g ->
      exists g', dice num_arith (s_kind s') u v q g = Some g' /\
        forall k, (k < p_count p)%nat ->
          grid_holds u v g' k (fun a b => value_at (s_kind s) p k (u0 r + du r * a) (v0 r + dv r * b)).
Proof.
  intros (K & _ & _ & F) [PV _] HN. destruct (Forall2_nth _ _ _ F n _ HN) as (y & HY & SV).
  destruct y as [q|q|q|q]; try contradiction. destruct SV as (S1 & S2 & S3 & S4). exists q. split; [exact HY|].
  split; [exact S1|]. split; [exact S2|]. split; [exact S3|].
  intros u v g HU HV GF. rewrite Forall_forall in PV. destruct (PV _ (nth_error_In _ _ HY)) as [PQ _].
  rewrite <- S3 in GF. destruct (dice_ok u v HU HV (s_kind s') q g PQ GF) as (g' & E & H). exists g'. split; [exact E|].
  intros k HK iu iv LU LV. rewrite S3 in H. destruct (H k HK iu iv LU LV) as (l & x & E1 & E2 & E3). exists l, x.
  split; [exact E1|]. split; [exact E2|]. rewrite E3. rewrite K. apply S4. exact HK.
Qed.

(** The fourth corner of a piece of a triangle *)
Lemma corner_of_piece (p q : param Q) r : p_class p = Vertex -> p_class q = Vertex ->
  (forall s t, value_at Bilinear q 0 s t == value_at Bilinear p 0 (u0 r + du r * s) (v0 r + dv r * t)) ->
  controls p 0 3 == controls p 0 1 - controls p 0 0 + controls p 0 2 ->
  controls q 0 3 == controls q 0 1 - controls q 0 0 + controls q 0 2.
Proof.
  intros CP CQ H PL. unfold value_at in H. rewrite CP, CQ in H.
  assert (H00 := H 0 0). assert (H10 := H 1 0). assert (H01 := H 0 1). assert (H11 := H 1 1). clear H CP CQ.
  unfold bilinear_at, line2 in *.
  generalize dependent (controls p 0 0). generalize (controls p 0 1) (controls p 0 2) (controls p 0 3).
  generalize dependent (controls q 0 0). generalize (controls q 0 1) (controls q 0 2) (controls q 0 3).
  generalize (u0 r) (v0 r) (du r) (dv r). clear. intros a b c d q1 q2 q3 q0 p1 p2 p3 p0 PL H00 H10 H01 H11.
  assert (AF : forall u v, (1 - v) * ((1 - u) * p0 + u * p1) + v * ((1 - u) * p2 + u * p3) == p0 + u * (p1 - p0) + v * (p2 - p0)).
  { intros u v. rewrite PL. ring. }
  rewrite AF in H00, H10, H01, H11.
  assert (E0 : q0 == p0 + a * (p1 - p0) + b * (p2 - p0)) by lra.
  lra.
Qed.

Lemma piece_bound big s r s' n (p : param Q) : shows s r s' -> proper_patch s' -> nth_error (s_vars s) n = Some (VNum p) ->
  p_class p = Vertex -> p_array p = false -> proper (s_kind s) p ->
  (s_phantom s' = true -> controls p 0 3 == controls p 0 1 - controls p 0 0 + controls p 0 2) ->
  exists q, nth_error (s_vars s') n = Some (VNum q) /\
    (exists lo hi, bound_param big (s_kind s') (s_phantom s') q = Some (lo, hi) /\
       forall u v, covers (s_phantom s') r u v -> lo <= value_at (s_kind s) p 0 u v <= hi).
Proof.
  intros (K & _ & _ & F) [PV PK] HN CL AR (P1 & P2 & P3) PL. destruct (Forall2_nth _ _ _ F n _ HN) as (y & HY & SV).
  destruct y as [q|q|q|q]; try contradiction. destruct SV as (S1 & S2 & S3 & S4). exists q. split; [exact HY|].
  specialize (P2 AR). rewrite Forall_forall in PV. destruct (PV _ (nth_error_In _ _ HY)) as [(Q1 & Q2 & Q3) _].
  destruct (bound_ok big (s_kind s') (s_phantom s') q) as (lo & hi & E & H).
  - congruence.
  - congruence.
  - rewrite Q3, S3, P2, S1, CL. lia.
  - exact PK.
  - intro PH. apply (corner_of_piece p q r CL); [congruence | | exact (PL PH)].
    assert (KB : s_kind s = Bilinear) by (destruct (s_kind s) eqn:KD; [reflexivity | rewrite K in PK; rewrite (PK eq_refl) in PH; discriminate]).
    intros a b. rewrite KB in S4. apply S4. lia.
  - exists lo, hi. split; [exact E|]. intros u v (a & b & HA & HB' & TR & EU & EV).
    assert (Z : value_at (s_kind s') q 0 a b == value_at (s_kind s) p 0 u v).
    { rewrite K. transitivity (value_at (s_kind s) p 0 (u0 r + du r * a) (v0 r + dv r * b)); [apply S4; lia | apply value_m; symmetry; assumption]. }
    rewrite <- Z. apply H. exists a, b. repeat split; try assumption; try tauto; cbn; ring.
Qed.

(** Only triangles have triangles for pieces *)
Lemma split_patch_phantom s l : split_patch s = Some l -> forall c, In c l -> s_phantom c = true -> s_phantom s = true.
Proof.
  assert (O : forall s l, split_once s = Some l -> forall c, In c l -> s_phantom c = false).
  { intros s0 l0 E c HC. unfold split_once in E. destruct (subdivide_vars _ _ _) as [[a b]|]; cbn [bind] in E; [|discriminate].
    injection E as <-. destruct HC as [<-|[<-|[]]]; reflexivity. }
  unfold split_patch. destruct (s_kind s).
  - unfold split_bilinear. intros E c HC PH. destruct (s_phantom s) eqn:EP; [reflexivity|].
    destruct (subdivide_vars _ _ _) as [[a b]|]; cbn [bind] in E; [|discriminate]. injection E as <-.
    destruct HC as [<-|[<-|[]]]; discriminate.
  - unfold split_bicubic. intros E c HC PH. destruct (split_once s) as [l0|] eqn:E0; cbn [bind] in E; [|discriminate].
    destruct (s_diceable s).
    + injection E as <-. rewrite (O s l0 E0 c HC) in PH. discriminate.
    + destruct l0 as [|a [|b [|? ?]]]; try discriminate. destruct (split_once a) as [la|] eqn:EA; cbn [bind] in E; [|discriminate].
      destruct (split_once b) as [lb|] eqn:EB; cbn [bind] in E; [|discriminate]. injection E as <-. apply in_app_or in HC.
      destruct HC as [HC|HC]; [rewrite (O a la EA c HC) in PH | rewrite (O b lb EB c HC) in PH]; discriminate.
Qed.

Lemma split_all_phantom t : forall s l, split_all t s = Some l -> forall c, In c l -> s_phantom c = true -> s_phantom s = true.
Proof.
  induction t as [|dir dc ch IH]; intros s l E c HC PH.
  - injection E as <-. destruct HC as [<-|[]]. exact PH.
  - cbn [split_all] in E. destruct (split_patch (prepare dir dc s)) as [l0|] eqn:E0; cbn [bind] in E; [|discriminate].
    assert (P := split_patch_phantom _ _ E0). change (s_phantom (prepare dir dc s)) with (s_phantom s) in P. clear E0.
    revert l E HC P. generalize 0%nat. induction l0 as [|d l0 IL]; intros n l E HC P.
    + injection E as <-. destruct HC.
    + destruct (split_all (ch n) d) as [la|] eqn:EA; cbn [bind] in E; [|discriminate].
      match type of E with bind ?x _ = _ => destruct x as [lb|] eqn:EB; cbn [bind] in E; [|discriminate] end.
      injection E as <-. apply in_app_or in HC. destruct HC as [HC|HC].
      * apply (P d (or_introl eq_refl)). exact (IH n d la EA c HC PH).
      * apply (IL (Datatypes.S n) lb EB HC). intros c' H'. apply P. right. exact H'.
Qed.

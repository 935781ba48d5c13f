(** Proofs about the shadow maps *)
From Verif Require Import ShadSpec.
From Coq Require Import Lia Lqa.
Open Scope nat_scope.

Lemma loop_seq {S} (f : nat -> S -> option S) (J : nat -> S -> Prop) n : forall a s,
  J a s -> (forall i s, a <= i < a + n -> J i s -> exists s', f i s = Some s' /\ J (Datatypes.S i) s') ->
  exists s', loop f (seq a n) s = Some s' /\ J (a + n) s'.
Proof.
  induction n as [|n IH]; intros a s HJ H.
  - exists s. split; [reflexivity|]. rewrite Nat.add_0_r. exact HJ.
  - destruct (H a s ltac:(lia) HJ) as (s1 & E1 & J1). destruct (IH (Datatypes.S a) s1 J1) as (s2 & E2 & J2).
    + intros i s' HI. apply H. lia.
    + exists s2. cbn [seq loop]. rewrite E1. split; [exact E2|]. replace (a + Datatypes.S n) with (Datatypes.S a + n) by lia. exact J2.
Qed.

Lemma store_ok {T} (l : list T) : forall n x, n < List.length l ->
  exists l', store l n x = Some l' /\ List.length l' = List.length l /\
    forall m, nth_error l' m = if m =? n then Some x else nth_error l m.
Proof.
  induction l as [|a l IH]; intros n x H; [cbn in H; lia|]. destruct n as [|n].
  - exists (x :: l). split; [reflexivity|]. split; [reflexivity|]. intros [|m]; reflexivity.
  - cbn in H. destruct (IH n x ltac:(lia)) as (l' & E & L & N). exists (a :: l'). cbn [store]. rewrite E. split; [reflexivity|].
    split; [cbn; lia|]. intros [|m]; [reflexivity|]. cbn [nth_error]. rewrite N. reflexivity.
Qed.

Section Tile.
Variables (tw tl x y : nat) (im : image).
Hypothesis (HW : 1 <= tw) (HL : 1 <= tl) (HC : channels im = 1) (CM : complete im).

Definition expected (i j : nat) : option Q :=
  if (x + j <? width im) && (y + i <? height im) then shown im (x + j) (y + i) 0 else Some 0%Q.
(** The pixels for which D holds have been written, the others are black *)
Definition filled (D : nat -> nat -> bool) (t : list Q) : Prop :=
  List.length t = tw * tl /\ forall i j, i < tl -> j < tw -> nth_error t (i * tw + j) = if D i j then expected i j else Some 0%Q.

Lemma fill_tile_ok : exists t, fill_tile tw tl x y im = Some t /\ filled (fun _ _ => true) t.
Proof.
  unfold fill_tile. rewrite HC.
  match goal with |- exists _, loop ?f _ ?s = _ /\ _ =>
    destruct (loop_seq f (fun i t => filled (fun i' _ => i' <? i) t) tl 0 s) as (t & E & F) end.
  - split; [rewrite repeat_length; reflexivity|]. intros i j LI LJ. cbn [Nat.ltb Nat.leb].
    assert (LP : i * tw + j < tw * tl) by nia. revert LP. generalize (i * tw + j) (tw * tl). clear.
    intros p n. revert p. induction n as [|n IH]; intros p H; [lia|]. destruct p; [reflexivity|]. cbn. apply IH. lia.
  - intros i t LI F.
    match goal with |- exists _, loop ?f _ ?s = _ /\ _ =>
      destruct (loop_seq f (fun j t => filled (fun i' j' => (i' <? i) || ((i' =? i) && (j' <? j))) t) tw 0 s) as (t' & E' & F') end.
    + destruct F as (L & F). split; [exact L|]. intros i' j' L1 L2. rewrite (F i' j' L1 L2).
      destruct (i' <? i); [reflexivity|]. destruct (i' =? i); reflexivity.
    + clear t F. intros j t LJ F. destruct F as (L & F).
      destruct ((x + j <? width im) && (y + i <? height im)) eqn:IN.
      * apply andb_prop in IN. destruct IN as (I1 & I2). assert (J1 := proj1 (Nat.ltb_lt _ _) I1). assert (J2 := proj1 (Nat.ltb_lt _ _) I2).
        cbn [seq loop].
        assert (EX : nth_error (data im) ((y * width im + x) * 1 + i * (width im * 1) + (j * 1 + 0)) = shown im (x + j) (y + i) 0).
        { unfold shown. rewrite HC. f_equal. ring. }
        rewrite EX. destruct (shown im (x + j) (y + i) 0) as [v|] eqn:EV.
        2:{ exfalso. unfold shown in EV. apply nth_error_None in EV. unfold complete in CM. rewrite CM, HC in EV. nia. }
        destruct (store_ok t (i * tw * 1 + (j * 1 + 0)) v) as (t' & ES & LS & NS); [rewrite L; nia|]. rewrite ES.
        exists t'. split; [reflexivity|]. split; [lia|]. intros i' j' L1 L2. rewrite NS.
        destruct (Nat.eqb_spec (i' * tw + j') (i * tw * 1 + (j * 1 + 0))) as [EQ|NE].
        -- assert (i' = i /\ j' = j) as (-> & ->) by (assert (i' = i) by nia; subst; lia).
           rewrite (Nat.eqb_refl i), (proj2 (Nat.ltb_lt j (Datatypes.S j)) ltac:(lia)). rewrite orb_true_r.
           unfold expected. rewrite I1, I2. cbn [andb]. symmetry. exact EV.
        -- rewrite (F i' j' L1 L2). destruct (i' <? i); [reflexivity|]. destruct (Nat.eqb_spec i' i) as [->|]; [|reflexivity].
           destruct (Nat.ltb_spec j' j), (Nat.ltb_spec j' (Datatypes.S j)); try reflexivity; try lia.
      * exists t. split; [reflexivity|]. split; [exact L|]. intros i' j' L1 L2. rewrite (F i' j' L1 L2).
        destruct (i' <? i); [reflexivity|]. destruct (Nat.eqb_spec i' i) as [->|]; [|reflexivity].
        destruct (Nat.ltb_spec j' j), (Nat.ltb_spec j' (Datatypes.S j)); try reflexivity; try lia.
        replace j' with j by lia. cbn. unfold expected. rewrite IN. reflexivity.
    + exists t'. split; [exact E'|]. destruct F' as (L & F'). split; [exact L|]. intros i' j' L1 L2. rewrite (F' i' j' L1 L2).
      destruct (Nat.ltb_spec i' i), (Nat.eqb_spec i' i), (Nat.ltb_spec j' (0 + tw)), (Nat.ltb_spec i' (Datatypes.S i)); try reflexivity; try lia.
  - exists t. split; [exact E|]. destruct F as (L & F). split; [exact L|]. intros i j L1 L2. rewrite (F i j L1 L2).
    rewrite (proj2 (Nat.ltb_lt i (0 + tl)) ltac:(lia)). reflexivity.
Qed.
End Tile.

Section File.
Variables (tw tl : nat) (im : image) (m : Q).
Hypothesis (HW : 1 <= tw) (HL : 1 <= tl) (HC : channels im = 1) (CM : complete im) (PW : 1 <= width im).
Let per_row := tiles_for tw (width im).

Definition saved (t : nat) (f : file) : Prop :=
  f_width f = width im /\ f_height f = height im /\ f_channels f = 1 /\ f_tw f = tw /\ f_tl f = tl /\ f_min f = m /\
  (forall a b, a < per_row -> b * tl < height im -> b * per_row + a < t ->
     exists l, tile_at (f_tiles f) (a * tw) (b * tl) = Some l /\ filled tw tl (a * tw) (b * tl) im (fun _ _ => true) l) /\
  (forall p q l, tile_at (f_tiles f) p q = Some l -> exists a b, a < per_row /\ b * per_row + a < t /\ p = a * tw /\ q = b * tl).

Lemma per_row_pos : 1 <= per_row.
Proof.
  unfold per_row, tiles_for. apply Nat.div_le_lower_bound; lia.
Qed.
Lemma per_row_reach a : a < per_row -> a * tw < width im.
Proof.
  unfold per_row, tiles_for. intro H. assert (D := Nat.div_mod (width im + tw - 1) tw ltac:(lia)).
  assert (M := Nat.mod_upper_bound (width im + tw - 1) tw ltac:(lia)). nia.
Qed.

Lemma save_tiles_ok : exists f, save_tiles tw tl im m = Some f /\ saved (per_row * tiles_for tl (width im)) f.
Proof.
  assert (PP := per_row_pos). unfold save_tiles. fold (tiles_for tw (width im)). fold (tiles_for tl (width im)). fold per_row.
  match goal with |- exists _, loop ?f _ ?s = _ /\ _ => destruct (loop_seq f saved (per_row * tiles_for tl (width im)) 0 s) as (f' & E & S) end.
  - do 6 (split; [assumption || reflexivity|]). split; [intros; lia|]. intros p q l H. discriminate.
  - intros t f LT S. assert (DM := Nat.div_mod t per_row ltac:(lia)). assert (MB := Nat.mod_upper_bound t per_row ltac:(lia)).
    set (a := t mod per_row) in *. set (b := t / per_row) in *.
    destruct (fill_tile_ok tw tl (a * tw) (b * tl) im HW HL HC CM) as (tile & ET & FT). rewrite ET.
    destruct S as (S1 & S2 & S3 & S4 & S5 & S6 & S7 & S8). unfold write_tile. rewrite S1, S2.
    assert (RA := per_row_reach a MB). rewrite (proj2 (Nat.ltb_lt _ _) RA). cbn [andb].
    destruct (Nat.ltb_spec (b * tl) (height im)) as [RB|RB].
    + rewrite S3. destruct FT as (LT' & FT). rewrite Nat.mul_1_r. rewrite (proj2 (Nat.leb_le (tw * tl) (List.length tile))) by lia.
      eexists. split; [reflexivity|]. unfold saved. cbn [f_width f_height f_channels f_tw f_tl f_min f_tiles]. do 6 (split; [cbn; assumption || reflexivity|]).
      rewrite firstn_all2 by lia. split.
      * intros a' b' LA LB LD. cbn [tile_at].
        destruct ((a * tw =? a' * tw) && (b * tl =? b' * tl)) eqn:EQ.
        -- apply andb_prop in EQ. destruct EQ as (Q1 & Q2). apply Nat.eqb_eq in Q1, Q2.
           assert (a = a') by nia. assert (b = b') by nia. subst a' b'. exists tile. split; [reflexivity|]. split; assumption.
        -- apply S7; [exact LA | exact LB|]. assert (b' * per_row + a' <> t); [|lia]. intro HT.
           assert (b' = b) by nia. assert (a' = a) by nia. subst a' b'. rewrite !Nat.eqb_refl in EQ. discriminate.
      * intros p q l. cbn [tile_at]. destruct ((a * tw =? p) && (b * tl =? q)) eqn:EQ.
        -- intros _. apply andb_prop in EQ. destruct EQ as (Q1 & Q2). apply Nat.eqb_eq in Q1, Q2. exists a, b.
           split; [exact MB|]. split; [nia|]. split; congruence.
        -- intro H. destruct (S8 p q l H) as (a' & b' & H1 & H2 & H3). exists a', b'. split; [exact H1|]. split; [lia | exact H3].
    + exists f. split; [reflexivity|]. do 6 (split; [assumption|]). split.
      * intros a' b' LA LB LD. apply S7; [exact LA | exact LB|]. assert (b' * per_row + a' <> t); [|lia]. intro HT.
        assert (b' = b) by nia. subst b'. lia.
      * intros p q l H. destruct (S8 p q l H) as (a' & b' & H1 & H2 & H3). exists a', b'. split; [exact H1|]. split; [lia | exact H3].
  - exists f'. split; [exact E | exact S].
Qed.

Lemma pixels_saved f : saved (per_row * tiles_for tl (width im)) f ->
  forall x y, x < width im -> y < height im ->
    pixel f x y 0 = if y / tl <? tiles_for tl (width im) then shown im x y 0 else None.
Proof.
  intros (_ & _ & S3 & S4 & S5 & _ & S7 & S8) x y LX LY. unfold pixel. rewrite S3, S4, S5.
  assert (DX := Nat.div_mod x tw ltac:(lia)). assert (MX := Nat.mod_upper_bound x tw ltac:(lia)).
  assert (DY := Nat.div_mod y tl ltac:(lia)). assert (MY := Nat.mod_upper_bound y tl ltac:(lia)).
  assert (LP : x / tw < per_row).
  { unfold per_row, tiles_for. apply Nat.div_le_lower_bound; [lia|]. nia. }
  destruct (Nat.ltb_spec (y / tl) (tiles_for tl (width im))) as [IN|OUT].
  - destruct (S7 (x / tw) (y / tl) LP ltac:(nia) ltac:(nia)) as (l & EL & (LL & FL)). rewrite EL.
    rewrite Nat.mul_1_r, Nat.add_0_r. rewrite (FL _ _ MY MX). unfold expected.
    replace (x / tw * tw + x mod tw) with x by lia. replace (y / tl * tl + y mod tl) with y by lia.
    rewrite (proj2 (Nat.ltb_lt _ _) LX), (proj2 (Nat.ltb_lt _ _) LY). reflexivity.
  - destruct (tile_at (f_tiles f) (x / tw * tw) (y / tl * tl)) as [l|] eqn:ET; [|reflexivity].
    destruct (S8 _ _ _ ET) as (a & b & LA & LD & EA & EB). exfalso. assert (y / tl = b) by nia. subst b. nia.
Qed.
End File.

(** The least value *)
Lemma min_sample_ok big im : channels im = 1 -> complete im ->
  exists m, min_sample big im = Some m /\ (m <= big)%Q /\ (forall v, In v (data im) -> (m <= v)%Q) /\ (m = big \/ In m (data im)).
Proof.
  intros HC CM. unfold complete in CM. rewrite HC in CM. unfold min_sample.
  set (J := fun n (m : Q) => (m <= big)%Q /\ (forall i v, i < n -> nth_error (data im) i = Some v -> (m <= v)%Q) /\ (m = big \/ In m (data im))).
  match goal with |- exists _, loop ?f _ ?s = _ /\ _ => destruct (loop_seq f (fun y m => J (y * width im) m) (height im) 0 s) as (m & E & HJ) end.
  - split; [apply Qle_refl|]. split; [intros i v H; cbn in H; lia | left; reflexivity].
  - intros y m LY HJ.
    match goal with |- exists _, loop ?f _ ?s = _ /\ _ => destruct (loop_seq f (fun x m => J (y * width im + x) m) (width im) 0 s) as (m' & E & HJ') end.
    + rewrite Nat.add_0_r. exact HJ.
    + clear m HJ. intros x m LX (B & H & A). destruct (nth_error (data im) (y * width im + x)) as [v|] eqn:EV.
      2:{ exfalso. apply nth_error_None in EV. nia. }
      eexists. split; [reflexivity|].
      assert (Q : ((if Qle_bool m v then m else v) <= m)%Q /\ ((if Qle_bool m v then m else v) <= v)%Q).
      { destruct (Qle_bool m v) eqn:EQ.
        - apply Qle_bool_iff in EQ. split; [apply Qle_refl | exact EQ].
        - split; [|apply Qle_refl]. apply Qlt_le_weak, Qnot_le_lt. intro H'. apply Qle_bool_iff in H'. congruence. }
      destruct Q as (Q1 & Q2). split; [exact (Qle_trans _ _ _ Q1 B)|]. split.
      * intros i w LI EW. destruct (Nat.eq_dec i (y * width im + x)) as [->|NE].
        -- rewrite EV in EW. injection EW as <-. exact Q2.
        -- eapply Qle_trans; [exact Q1 | apply (H i); [lia | exact EW]].
      * destruct (Qle_bool m v); [exact A | right; exact (nth_error_In _ _ EV)].
    + exists m'. split; [exact E|]. replace (Datatypes.S y * width im) with (y * width im + (0 + width im)) by lia. exact HJ'.
  - exists m. split; [exact E|]. destruct HJ as (B & H & A). split; [exact B|]. split; [|exact A].
    intros v HV. apply In_nth_error in HV. destruct HV as (i & EI). apply (H i v); [|exact EI].
    assert (i < List.length (data im)) by (apply nth_error_Some; congruence). nia.
Qed.

Lemma tiles_mono size a b : 1 <= size -> a <= b -> tiles_for size a <= tiles_for size b.
Proof. intros HS H. unfold tiles_for. apply Nat.div_le_mono; lia. Qed.
Lemma tiles_enough size n y : 1 <= size -> y < n -> y / size < tiles_for size n.
Proof.
  intros HS H. unfold tiles_for. assert (D := Nat.div_mod y size ltac:(lia)). apply Nat.div_le_lower_bound; [lia|]. nia.
Qed.

(** More than one channel: libtiff reads beyond the tile *)
Lemma loop_none {I S} (f : I -> S -> option S) (l : list I) i s : f i s = None -> loop f (i :: l) s = None.
Proof. intro H. cbn [loop]. rewrite H. reflexivity. Qed.

Lemma loop_length {I} (f : I -> list Q -> option (list Q)) (H : forall i s s', f i s = Some s' -> List.length s' = List.length s) l :
  forall s s', loop f l s = Some s' -> List.length s' = List.length s.
Proof.
  induction l as [|i l IH]; intros s s' E; [injection E as <-; reflexivity|]. cbn [loop] in E.
  destruct (f i s) as [s1|] eqn:E1; [|discriminate]. rewrite (IH _ _ E). exact (H _ _ _ E1).
Qed.
Lemma store_length {T} (l : list T) : forall n x l', store l n x = Some l' -> List.length l' = List.length l.
Proof.
  induction l as [|a l IH]; intros n x l' E; [discriminate|]. destruct n; cbn [store] in E; [injection E as <-; reflexivity|].
  destruct (store l n x) eqn:E1; [|discriminate]. injection E as <-. cbn. f_equal. exact (IH _ _ _ E1).
Qed.
Lemma fill_tile_length tw tl x y im t : fill_tile tw tl x y im = Some t -> List.length t = tw * tl.
Proof.
  intro E. unfold fill_tile in E. rewrite <- (repeat_length 0%Q (tw * tl)). revert E. apply loop_length.
  intros i s s'. apply loop_length. clear. intros j s s'. destruct (_ && _); [|intro E; injection E as <-; reflexivity].
  apply loop_length. clear. intros c s s'. destruct (nth_error _ _); [apply store_length | discriminate].
Qed.

Lemma channels_overrun tw tl im m : 1 <= tw -> 1 <= tl -> 1 <= width im -> 1 <= height im -> 2 <= channels im ->
  save_tiles tw tl im m = None.
Proof.
  intros HW HL PW PH HC. unfold save_tiles. fold (tiles_for tw (width im)). fold (tiles_for tl (width im)).
  assert (P1 : 1 <= tiles_for tw (width im)) by (unfold tiles_for; apply Nat.div_le_lower_bound; lia).
  assert (P2 : 1 <= tiles_for tl (width im)) by (unfold tiles_for; apply Nat.div_le_lower_bound; lia).
  destruct (tiles_for tw (width im) * tiles_for tl (width im)) as [|k] eqn:EK; [nia|]. cbn [seq]. apply loop_none.
  rewrite Nat.mod_0_l, Nat.div_0_l by lia. cbn [Nat.mul].
  destruct (fill_tile tw tl 0 0 im) as [t|] eqn:EF; [|reflexivity]. apply fill_tile_length in EF.
  unfold write_tile. cbn [f_width f_height f_channels]. rewrite (proj2 (Nat.ltb_lt 0 (width im))), (proj2 (Nat.ltb_lt 0 (height im))) by lia.
  cbn [andb]. rewrite (proj2 (Nat.leb_gt (tw * tl * channels im) (List.length t))); [reflexivity|]. rewrite EF.
  assert (1 <= tw * tl) by nia. nia.
Qed.

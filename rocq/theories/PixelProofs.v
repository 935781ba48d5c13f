(** Proofs about the pixel pool and the hit storage. *)

From Coq Require Import List Arith Bool ZArith Lia.
From Verif Require Import PixelModel PixelSpec.
Import ListNotations.

(** ** Lists *)

Lemma lset_length A i (x : A) l : length (lset i x l) = length l.
Proof. revert i; induction l as [|y t IH]; intros [|i]; simpl; auto. Qed.

Lemma lset_same A i (x : A) l : i < length l -> nth_error (lset i x l) i = Some x.
Proof.
  revert i; induction l as [|y t IH]; intros [|i] H; simpl in *; try lia; auto.
  apply IH; lia.
Qed.

Lemma lset_other A i j (x : A) l : i <> j -> nth_error (lset i x l) j = nth_error l j.
Proof.
  revert i j; induction l as [|y t IH]; intros [|i] [|j] H; simpl; auto; try lia.
Qed.

Lemma nth_error_lt A (l : list A) i x : nth_error l i = Some x -> i < length l.
Proof. intros E. apply nth_error_Some. congruence. Qed.

Lemma lset_spec A i (x : A) l j :
  nth_error (lset i x l) j =
  if Nat.eq_dec i j then (if j <? length l then Some x else None) else nth_error l j.
Proof.
  destruct (Nat.eq_dec i j) as [<-|n].
  - destruct (Nat.ltb_spec i (length l)).
    + apply lset_same; auto.
    + apply nth_error_None. rewrite lset_length. lia.
  - apply lset_other; auto.
Qed.

Lemma nth_error_ext A (l l' : list A) :
  (forall i, nth_error l i = nth_error l' i) -> l = l'.
Proof.
  revert l'; induction l as [|x t IH]; intros [|y u] H; auto.
  - specialize (H 0); discriminate.
  - specialize (H 0); discriminate.
  - f_equal. + specialize (H 0); simpl in H; congruence.
    + apply IH. intros i. exact (H (S i)).
Qed.

Lemma merge_length w o : length (merge w o) = length o.
Proof. revert o; induction w as [|[v|] w IH]; intros [|x o]; simpl; auto. Qed.

Lemma merge_full w o o' :
  Forall (fun x => x <> None) w -> length o = length w -> length o' = length w ->
  merge w o = merge w o'.
Proof.
  revert o o'; induction w as [|[v|] w IH]; intros [|x o] [|y o'] F L L'; simpl in *;
    try lia; auto; inversion F; subst; try congruence.
  f_equal. apply IH; auto.
Qed.

Lemma block_length i n st : i + n <= length st -> length (block i n st) = n.
Proof. intros. unfold block. rewrite firstn_length, skipn_length. lia. Qed.

Lemma nth_error_firstn A n (l : list A) j :
  nth_error (firstn n l) j = if j <? n then nth_error l j else None.
Proof.
  revert l j; induction n as [|n IH]; intros l j; simpl.
  - destruct j; reflexivity.
  - destruct l as [|x t]; destruct j as [|j]; simpl; auto.
    + destruct (S j <? S n); auto.
    + rewrite IH. reflexivity.
Qed.

Lemma nth_error_skipn A n (l : list A) j : nth_error (skipn n l) j = nth_error l (n + j).
Proof.
  revert l; induction n as [|n IH]; intros l; simpl; auto.
  destruct l as [|x t]; auto. destruct j; auto.
Qed.

Lemma nth_error_block i n st j :
  nth_error (block i n st) j = if j <? n then nth_error st (i + j) else None.
Proof. unfold block. rewrite nth_error_firstn, nth_error_skipn. reflexivity. Qed.

Lemma write_block_length a n w st :
  a + n <= length st -> length (write_block a n w st) = length st.
Proof.
  intros. unfold write_block.
  rewrite !app_length, merge_length, block_length, firstn_length, skipn_length by lia. lia.
Qed.

Lemma nth_error_write a n w st j :
  a + n <= length st ->
  nth_error (write_block a n w st) j =
  if (a <=? j) && (j <? a + n) then nth_error (merge w (block a n st)) (j - a)
  else nth_error st j.
Proof.
  intros H. unfold write_block.
  destruct (Nat.leb_spec a j); simpl.
  2:{ rewrite nth_error_app1 by (rewrite firstn_length; lia).
      rewrite nth_error_firstn. destruct (Nat.ltb_spec j a); auto; lia. }
  rewrite nth_error_app2 by (rewrite firstn_length; lia).
  rewrite firstn_length, Nat.min_l by lia.
  destruct (Nat.ltb_spec j (a + n)).
  - rewrite nth_error_app1; auto. rewrite merge_length, block_length; lia.
  - rewrite nth_error_app2 by (rewrite merge_length, block_length; lia).
    rewrite merge_length, block_length by lia.
    rewrite nth_error_skipn. f_equal. lia.
Qed.

Lemma block_write_same a n w st :
  a + n <= length st -> block a n (write_block a n w st) = merge w (block a n st).
Proof.
  intros H. apply nth_error_ext; intros j.
  rewrite nth_error_block, nth_error_write by auto.
  destruct (Nat.ltb_spec j n).
  - destruct (Nat.leb_spec a (a + j)); try lia.
    destruct (Nat.ltb_spec (a + j) (a + n)); try lia. simpl. f_equal. lia.
  - symmetry. apply nth_error_None. rewrite merge_length, block_length; lia.
Qed.

Lemma block_write_other a b n w st :
  a + n <= length st -> (b + n <= a \/ a + n <= b) ->
  block b n (write_block a n w st) = block b n st.
Proof.
  intros H D. apply nth_error_ext; intros j.
  rewrite !nth_error_block, nth_error_write by auto.
  destruct (Nat.ltb_spec j n); auto.
  destruct (Nat.leb_spec a (b + j)); destruct (Nat.ltb_spec (b + j) (a + n)); simpl; auto; lia.
Qed.

Lemma resize_length n st : length (resize n st) = n.
Proof. unfold resize. rewrite app_length, firstn_length, repeat_length. lia. Qed.

Lemma block_resize i n m st :
  i + n <= length st -> length st <= m -> block i n (resize m st) = block i n st.
Proof.
  intros H L. unfold resize. rewrite firstn_all2 by lia.
  apply nth_error_ext; intros j. rewrite !nth_error_block.
  destruct (Nat.ltb_spec j n); auto. rewrite nth_error_app1 by lia. reflexivity.
Qed.

Lemma nth_error_repeat A (x : A) n j :
  nth_error (repeat x n) j = if j <? n then Some x else None.
Proof. revert j; induction n as [|n IH]; intros [|j]; simpl; auto. rewrite IH. reflexivity. Qed.

Lemma block_resize_new n st :
  block (length st) n (resize (length st + n) st) = repeat 0%Z n.
Proof.
  unfold resize. rewrite firstn_all2 by lia.
  apply nth_error_ext; intros j. rewrite nth_error_block, nth_error_repeat.
  destruct (Nat.ltb_spec j n); auto.
  rewrite nth_error_app2 by lia. rewrite nth_error_repeat.
  destruct (Nat.ltb_spec (length st + j - length st) (length st + n - length st)); auto; lia.
Qed.

Lemma pick_map A B (f : A -> B) l order :
  pick (map f l) order = option_map (map f) (pick l order).
Proof.
  induction order as [|j r IH]; simpl; auto.
  rewrite nth_error_map, IH. destruct (nth_error l j), (pick l r); reflexivity.
Qed.

Lemma pick_In A (l : list A) order r x : pick l order = Some r -> In x r -> In x l.
Proof.
  revert r; induction order as [|j o IH]; simpl; intros r E I.
  - injection E as <-. destruct I.
  - destruct (nth_error l j) eqn:Ej; try discriminate.
    destruct (pick l o) eqn:Eo; try discriminate. injection E as <-.
    destruct I as [<-|I]; eauto using nth_error_In.
Qed.

Lemma nodupb_NoDup l : nodupb l = true -> NoDup l.
Proof.
  induction l as [|x t IH]; simpl; intros H; constructor;
    apply andb_true_iff in H; destruct H as [H1 H2]; auto.
  intros I. rewrite (proj2 (existsb_exists _ _)) in H1; try discriminate.
  exists x. split; auto. apply Nat.eqb_refl.
Qed.

Lemma pick_nth A (l : list A) order r x :
  pick l order = Some r -> In x r -> exists j, In j order /\ nth_error l j = Some x.
Proof.
  revert r; induction order as [|j o IH]; simpl; intros r E I.
  - injection E as <-. destruct I.
  - destruct (nth_error l j) eqn:Ej; try discriminate.
    destruct (pick l o) eqn:Eo; try discriminate. injection E as <-.
    destruct I as [<-|I]; eauto. destruct (IH _ eq_refl I) as (q & ? & ?); eauto.
Qed.

Lemma pick_NoDup A (l : list A) order r :
  NoDup l -> NoDup order -> pick l order = Some r -> NoDup r.
Proof.
  intros ND. revert r; induction order as [|j o IH]; simpl; intros r NO E.
  - injection E as <-. constructor.
  - destruct (nth_error l j) as [x|] eqn:Ej; try discriminate.
    destruct (pick l o) as [q|] eqn:Eo; try discriminate. injection E as <-.
    inversion NO as [|? ? Nj No]; subst. constructor; auto.
    intros I. destruct (pick_nth _ _ _ _ _ Eo I) as (k & Ik & Ek).
    apply Nj. replace j with k; auto.
    rewrite NoDup_nth_error in ND. apply ND; [eapply nth_error_lt; eauto|congruence].
Qed.

(** ** One pixel *)

Section Pix.
  Variables N W : nat.
  Hypothesis W0 : 0 < W.

  Notation new_pixel := (new_pixel N W).
  Notation clear := (clear N W).
  Notation blank := (blank N).

  (** The storage position of a hit is a multiple of the block size inside
      the store. *)
  Definition okh (p : pixel) (h : hit) : Prop :=
    exists q, h_index h = Some (q * W) /\ q * W + W <= length (p_store p).

  Definition alls (s : sdata) : list hit := d_occl s :: d_hits s.

  Definition read_hit' := read_hit W.

  Record pwf (p : pixel) (ap : apixel) : Prop := mkPwf {
    w_len : length (p_samples p) = N;
    w_mul : exists q, length (p_store p) = q * W;
    w_okh : forall i s h, nth_error (p_samples p) i = Some s -> In h (alls s) -> okh p h;
    w_disj : forall i j s t h g, i <> j -> nth_error (p_samples p) i = Some s ->
        nth_error (p_samples p) j = Some t -> In h (alls s) -> In g (alls t) ->
        h_index h <> h_index g;
    w_nodup : forall i s, nth_error (p_samples p) i = Some s -> NoDup (map h_index (d_hits s));
    w_occl : forall i s a, nth_error (p_samples p) i = Some s -> nth_error (fst ap) i = Some a ->
        a_done a = false -> ~ In (h_index (d_occl s)) (map h_index (d_hits s));
    w_alen : length (fst ap) = N;
    w_view : forall i s a, nth_error (p_samples p) i = Some s -> nth_error (fst ap) i = Some a ->
        read_sample W p s = (a_hits a, a_occl a, a_z a);
    w_valid : p_hasvalid p = snd ap }.

  Lemma okh_hit_data p h : okh p h -> exists a, hit_data W p h = Some a /\ h_index h = Some a /\
      a + W <= length (p_store p).
  Proof.
    intros (q & E & L). exists (q * W). unfold hit_data. rewrite E.
    destruct (Nat.leb_spec (q * W + W) (length (p_store p))); auto; lia.
  Qed.

  Lemma hit_data_index p h a : hit_data W p h = Some a ->
    h_index h = Some a /\ a + W <= length (p_store p).
  Proof.
    unfold hit_data. destruct (h_index h) as [i|]; try discriminate.
    destruct (Nat.leb_spec (i + W) (length (p_store p))); try discriminate.
    intros E; injection E as <-. auto.
  Qed.

  Lemma mul_apart q r : q <> r -> q * W + W <= r * W \/ r * W + W <= q * W.
  Proof.
    intros D. destruct (Nat.lt_trichotomy q r) as [H|[H|H]]; try lia.
    - left. replace (q * W + W) with ((q + 1) * W) by lia. apply Nat.mul_le_mono_r. lia.
    - right. replace (r * W + W) with ((r + 1) * W) by lia. apply Nat.mul_le_mono_r. lia.
  Qed.

  (** Reading a hit after writing another, or the same, one. *)
  Lemma read_write_other p p' h g a w :
    okh p h -> okh p g -> h_index h = Some a -> h_index g <> h_index h ->
    p_store p' = write_block a W w (p_store p) ->
    read_hit W p' g = read_hit W p g.
  Proof.
    intros (q & Eq & Lq) (r & Er & Lr) Ea D Ep. unfold read_hit. rewrite Er, Ep.
    assert (a = q * W) by congruence. subst a.
    apply block_write_other; auto.
    destruct (Nat.eq_dec q r) as [->|n]; [congruence|]. destruct (mul_apart q r n); lia.
  Qed.

  Lemma read_write_same p p' h a w :
    okh p h -> h_index h = Some a ->
    p_store p' = write_block a W w (p_store p) ->
    read_hit W p' h = merge w (read_hit W p h).
  Proof.
    intros (q & Eq & Lq) Ea Ep. unfold read_hit. rewrite Eq, Ep.
    assert (a = q * W) by congruence. subst a. apply block_write_same; auto.
  Qed.

  Lemma read_hit_index p h g : h_index h = h_index g -> read_hit W p h = read_hit W p g.
  Proof. unfold read_hit. intros ->. reflexivity. Qed.

  Lemma read_sample_ext p p' s :
    (forall h, In h (alls s) -> read_hit W p' h = read_hit W p h) ->
    read_sample W p' s = read_sample W p s.
  Proof.
    intros H. unfold read_sample. rewrite (H (d_occl s)) by (left; auto).
    rewrite (map_ext_in (read_hit W p') (read_hit W p) (d_hits s)); auto.
    intros h I. apply H. right; auto.
  Qed.

  Lemma okh_len p p' h : length (p_store p) <= length (p_store p') -> okh p h -> okh p' h.
  Proof. intros L (q & E & Lq). exists q. split; auto. lia. Qed.

  Lemma okh_index p h g : h_index g = h_index h -> okh p h -> okh p g.
  Proof. intros E (q & Eq & Lq). exists q. split; auto. congruence. Qed.

  Lemma clear_nth i l j s : nth_error (mapi_from (clear_sample W) i l) j = Some s ->
    s = mkSD [] (mkHit (Some ((i + j) * W)) false) None /\ j < length l.
  Proof.
    revert i j; induction l as [|x t IH]; intros i [|j] E; simpl in E; try discriminate.
    - injection E as <-. rewrite Nat.add_0_r. simpl. split; auto; lia.
    - apply IH in E. destruct E as [-> L]. simpl. split; try lia. do 4 f_equal. lia.
  Qed.

  Lemma mapi_length A B (f : nat -> A -> B) i l : length (mapi_from f i l) = length l.
  Proof. revert i; induction l as [|x t IH]; intros i; simpl; auto. Qed.

  (** A pixel whose samples are all reset is a blank pixel. *)
  Lemma reset_pwf p :
    length (p_samples p) = N -> length (p_store p) = N * W -> p_hasvalid p = false ->
    (forall j s, nth_error (p_samples p) j = Some s ->
        s = mkSD [] (mkHit (Some (j * W)) false) None /\ j < N) ->
    pwf p blank.
  Proof.
    intros L LS V H.
    assert (IN : forall j s h, nth_error (p_samples p) j = Some s -> In h (alls s) ->
             h_index h = Some (j * W) /\ j < N).
    { intros j s h E I. destruct (H _ _ E) as [-> Lj].
      destruct I as [<-|[]]. simpl. auto. }
    constructor; auto.
    - exists N; auto.
    - intros i s h E I. destruct (IN _ _ _ E I) as [E1 Li].
      exists i. split; auto. rewrite LS. replace (i * W + W) with ((i + 1) * W) by lia.
      apply Nat.mul_le_mono_r. lia.
    - intros i j s t h g D E1 E2 I1 I2 EQ.
      destruct (IN _ _ _ E1 I1) as [X1 _]. destruct (IN _ _ _ E2 I2) as [X2 _].
      assert (i * W = j * W) by congruence. apply D. apply Nat.mul_cancel_r with W; lia.
    - intros i s E. destruct (H _ _ E) as [-> _]. constructor.
    - intros i s a E _ _. destruct (H _ _ E) as [-> _]. intros [].
    - simpl. apply repeat_length.
    - intros i s a E Ea. destruct (H _ _ E) as [-> _].
      simpl in Ea. rewrite nth_error_repeat in Ea. destruct (i <? N); try discriminate.
      injection Ea as <-. reflexivity.
  Qed.

  Lemma clear_pwf p : length (p_samples p) = N -> pwf (clear p) blank.
  Proof.
    intros L. apply reset_pwf; simpl; auto.
    - rewrite mapi_length; auto.
    - apply resize_length.
    - intros j s E. apply clear_nth in E. destruct E as [-> Lj]. rewrite <- L. auto.
  Qed.

  Lemma new_pwf : pwf new_pixel blank.
  Proof.
    apply reset_pwf; unfold PixelModel.new_pixel; cbn [p_samples p_store p_hasvalid]; auto.
    - rewrite map_length, seq_length; auto.
    - apply resize_length.
    - intros j s E. rewrite nth_error_map in E.
      destruct (nth_error (seq 0 N) j) as [x|] eqn:Ex; try discriminate. injection E as <-.
      pose proof (nth_error_lt _ _ _ _ Ex) as L. rewrite seq_length in L.
      apply nth_error_nth with (d := 0) in Ex. rewrite seq_nth in Ex by auto.
      simpl in Ex. subst x. auto.
  Qed.

  (** Changing one sample, keeping its storage blocks to itself. *)
  Lemma update_pwf p ap i s a p' s' a' v :
    pwf p ap ->
    nth_error (p_samples p) i = Some s -> nth_error (fst ap) i = Some a ->
    p_samples p' = lset i s' (p_samples p) ->
    length (p_store p) <= length (p_store p') ->
    (exists q, length (p_store p') = q * W) ->
    (forall j t h, j <> i -> nth_error (p_samples p) j = Some t -> In h (alls t) ->
        read_hit W p' h = read_hit W p h) ->
    (forall h, In h (alls s') -> okh p' h /\
        ((exists g, In g (alls s) /\ h_index g = h_index h) \/ ~ okh p h)) ->
    NoDup (map h_index (d_hits s')) ->
    (a_done a' = false -> ~ In (h_index (d_occl s')) (map h_index (d_hits s'))) ->
    read_sample W p' s' = (a_hits a', a_occl a', a_z a') ->
    p_hasvalid p' = v ->
    pwf p' (lset i a' (fst ap), v).
  Proof.
    intros [P1 P2 P3 P4 P5 P6 P7 P8 P9] Es Ea Eps LE Q OT HS ND DN VW V.
    pose proof (nth_error_lt _ _ _ _ Es) as Li.
    pose proof (nth_error_lt _ _ _ _ Ea) as Lia.
    assert (GET : forall j t, nth_error (p_samples p') j = Some t ->
              (j = i /\ t = s') \/ (j <> i /\ nth_error (p_samples p) j = Some t)).
    { intros j t E. rewrite Eps, lset_spec in E. destruct (Nat.eq_dec i j) as [<-|n].
      - destruct (i <? length (p_samples p)); try discriminate. injection E as <-. auto.
      - auto. }
    assert (GETA : forall j t, nth_error (lset i a' (fst ap)) j = Some t ->
              (j = i /\ t = a') \/ (j <> i /\ nth_error (fst ap) j = Some t)).
    { intros j t E. rewrite lset_spec in E. destruct (Nat.eq_dec i j) as [<-|n].
      - destruct (i <? length (fst ap)); try discriminate. injection E as <-. auto.
      - auto. }
    constructor; simpl.
    - rewrite Eps, lset_length; auto.
    - auto.
    - intros j t h E I. destruct (GET _ _ E) as [[-> ->]|[n E']].
      + apply HS; auto.
      + eapply okh_len; eauto.
    - assert (X : forall j t h g, j <> i -> nth_error (p_samples p) j = Some t ->
                 In h (alls s') -> In g (alls t) -> h_index h <> h_index g).
      { intros j t h g n E I J EQ. destruct (HS _ I) as [_ [(g' & Ig & Eg)|N1]].
        - apply (P4 i j s t g' g); auto. congruence.
        - apply N1. apply okh_index with g; auto. eapply P3; eauto. }
      intros j k t u h g n Et Eu I J.
      destruct (GET _ _ Et) as [[-> ->]|[n1 E1]]; destruct (GET _ _ Eu) as [[-> ->]|[n2 E2]]; try lia.
      + apply (X k u); auto.
      + intros EQ. apply (X j t g h); auto.
      + apply (P4 j k t u); auto.
    - intros j t E. destruct (GET _ _ E) as [[-> ->]|[n E']]; eauto.
    - intros j t b E Eb D. destruct (GET _ _ E) as [[-> ->]|[n E']];
        destruct (GETA _ _ Eb) as [[Ej Eq]|[n2 E2]]; try lia; subst; eauto.
    - rewrite lset_length; auto.
    - intros j t b E Eb. destruct (GET _ _ E) as [[-> ->]|[n E']];
        destruct (GETA _ _ Eb) as [[Ej Eq]|[n2 E2]]; try lia; subst; auto.
      rewrite <- (P8 j t b E' E2). apply read_sample_ext. intros h I. eapply OT; eauto.
    - auto.
  Qed.

  Lemma view_lengths p s : map (read_hit W p) (d_hits s) = fst (fst (read_sample W p s)).
  Proof. reflexivity. Qed.

  Lemma store_pwf i occ z w p ap ap' :
    pwf p ap -> (occ = true -> Forall (fun x => x <> None) w) ->
    astore W i occ z w ap = Some ap' ->
    exists p', store W i occ z w p = Some p' /\ pwf p' ap'.
  Proof.
    intros P F E. unfold astore in E.
    destruct (nth_error (fst ap) i) as [a|] eqn:Ea; try discriminate.
    destruct (a_done a) eqn:Da; try discriminate. simpl in E.
    destruct (Nat.eqb_spec (length w) W) as [Lw|]; try discriminate. simpl in E. injection E as <-.
    assert (Es : exists s, nth_error (p_samples p) i = Some s).
    { destruct (nth_error (p_samples p) i) eqn:X; eauto.
      apply nth_error_None in X. apply nth_error_lt in Ea.
      rewrite (w_len _ _ P) in X. rewrite (w_alen _ _ P) in Ea. lia. }
    destruct Es as [s Es]. unfold store. rewrite Es.
    pose proof (w_view _ _ P _ _ _ Es Ea) as VW.
    destruct occ.
    - (* occluding storage *)
      assert (OK : okh p (d_occl s)) by (eapply (w_okh _ _ P); eauto; left; auto).
      set (h := mkHit (h_index (d_occl s)) true).
      assert (OKh : okh p h) by (apply okh_index with (d_occl s); auto).
      destruct (okh_hit_data _ _ OKh) as (b & Eb & Ib & Lb). rewrite Eb.
      eexists; split; [reflexivity|].
      assert (NI : ~ In (h_index (d_occl s)) (map h_index (d_hits s)))
        by (eapply (w_occl _ _ P); eauto).
      eapply update_pwf with (s := s) (a := a) (s' := mkSD (d_hits s) h z); eauto; simpl.
      + rewrite write_block_length; auto.
      + rewrite write_block_length; auto. apply (w_mul _ _ P).
      + intros j t g n Et I. eapply read_write_other with (h := h); eauto; try reflexivity.
        * eapply (w_okh _ _ P); eauto.
        * simpl. apply not_eq_sym. eapply (w_disj _ _ P) with (i := i) (j := j); eauto. left; auto.
      + intros g I. split.
        * apply okh_len with p; simpl; [rewrite write_block_length; auto|].
          destruct I as [<-|I]; auto. eapply (w_okh _ _ P); eauto. right; auto.
        * left. destruct I as [<-|I].
          -- exists (d_occl s). split; [left; auto|auto].
          -- exists g. split; [right; auto|auto].
      + eapply (w_nodup _ _ P); eauto.
      + unfold read_sample in *. simpl. injection VW as V1 V2 V3.
        f_equal. f_equal.
        * rewrite <- V1. apply map_ext_in. intros g I.
          eapply read_write_other with (h := h); eauto; try reflexivity.
          -- eapply (w_okh _ _ P); eauto. right; auto.
          -- simpl. intros EQ. apply NI. rewrite <- EQ. apply in_map; auto.
        * f_equal. erewrite read_write_same; eauto; try reflexivity.
          unfold written. apply merge_full; auto.
          -- unfold read_hit. rewrite Ib. rewrite block_length; auto.
          -- rewrite repeat_length; auto.
    - (* a new entry of the list *)
      unfold allocate_hit_data. cbn [h_index h_valid].
      set (n := length (p_store p)).
      destruct (w_mul _ _ P) as [q Eq].
      set (p1 := mkPix (resize (n + W) (p_store p)) (p_samples p) (p_hasvalid p)).
      set (h := mkHit (Some n) false).
      assert (OKh : okh p1 h).
      { exists q. unfold n, p1; simpl. rewrite resize_length. unfold n. rewrite <- Eq. split; auto. }
      destruct (okh_hit_data _ _ OKh) as (b & Eb & Ib & Lb).
      fold n. fold p1. fold h. rewrite Eb.
      assert (b = n) by (simpl in Ib; congruence). subst b.
      eexists; split; [reflexivity|].
      assert (LW : length (write_block n W w (p_store p1)) = length (p_store p1))
        by (apply write_block_length; auto).
      assert (OLD : forall g, okh p g -> okh p1 g).
      { intros g. apply okh_len. simpl. rewrite resize_length. unfold n. lia. }
      assert (OLDR : forall g, okh p g -> read_hit W p1 g = read_hit W p g).
      { intros g (r & Er & Lr). unfold read_hit. rewrite Er. unfold p1; simpl.
        apply block_resize; unfold n; lia. }
      assert (NEQ : forall g, okh p g -> h_index g <> h_index h).
      { intros g (r & Er & Lr) EQ. rewrite Er in EQ. simpl in EQ. injection EQ as EQ.
        unfold n in EQ. lia. }
      assert (OLDW : forall g st', okh p g ->
        st' = write_block n W w (p_store p1) -> forall sm v,
        read_hit W (mkPix st' sm v) g = read_hit W p g).
      { intros g st' O -> sm v. rewrite <- OLDR by auto.
        eapply read_write_other with (h := h); eauto; try reflexivity. }
      eapply update_pwf with (s := s) (a := a)
        (s' := mkSD (d_hits s ++ [h]) (d_occl s) (d_occlz s)); eauto; simpl.
      + change (length (p_store p) <= length (write_block n W w (p_store p1))).
        rewrite LW. unfold p1, n; cbn [p_store]. rewrite resize_length. lia.
      + change (exists q, length (write_block n W w (p_store p1)) = q * W).
        rewrite LW. unfold p1, n; cbn [p_store]. rewrite resize_length.
        exists (q + 1). lia.
      + intros j t g nn Et I. apply OLDW; auto. eapply (w_okh _ _ P); eauto.
      + intros g I.
        assert (I' : In g (alls s) \/ g = h).
        { destruct I as [<-|I]; [left; left; auto|]. apply in_app_or in I.
          destruct I as [I|[<-|[]]]; auto. left; right; auto. }
        destruct I' as [I'| ->].
        * split; [|left; exists g; split; [exact I'|reflexivity]]. apply okh_len with p1; [|apply OLD; eapply (w_okh _ _ P); eauto].
          exact (Nat.eq_le_incl _ _ (eq_sym LW)).
        * split.
          -- apply okh_len with p1; auto. exact (Nat.eq_le_incl _ _ (eq_sym LW)).
          -- right. intros O. apply (NEQ _ O). reflexivity.
      + rewrite map_app.
        assert (ND := w_nodup _ _ P _ _ Es).
        assert (HH : forall g, In g (d_hits s) -> okh p g)
          by (intros g I; eapply (w_okh _ _ P); eauto; right; auto).
        clear - ND HH NEQ. revert ND HH. generalize (d_hits s) as l.
        induction l as [|x t IH]; simpl; intros ND HH.
        * constructor; [intros []|constructor].
        * inversion ND as [|? ? N1 N2]; subst. constructor.
          -- rewrite in_app_iff. intros [I|[I|[]]]; auto.
             apply (NEQ x); [apply HH; auto|]. simpl. congruence.
          -- apply IH; auto.
      + rewrite map_app, in_app_iff. intros _ [I|[I|[]]].
        * eapply (w_occl _ _ P) in I; eauto.
        * apply (NEQ (d_occl s)); [eapply (w_okh _ _ P); eauto; left; auto|]. simpl; congruence.
      + unfold read_sample in *. simpl. injection VW as V1 V2 V3.
        f_equal; auto. f_equal.
        * rewrite map_app, <- V1. f_equal.
          -- apply map_ext_in. intros g I. apply OLDW; auto. eapply (w_okh _ _ P); eauto. right; auto.
          -- simpl. f_equal. erewrite read_write_same with (p := p1); eauto; try reflexivity.
             unfold written. f_equal. unfold read_hit; simpl. unfold n. apply block_resize_new.
        * rewrite <- V2. destruct (h_valid (d_occl s)); auto. f_equal.
          apply OLDW; auto. eapply (w_okh _ _ P); eauto. left; auto.
  Qed.

  Lemma combine_pwf i order w p ap ap' :
    pwf p ap -> acombine W i order w ap = Some ap' ->
    exists p', combine W i order w p = Some p' /\ pwf p' ap'.
  Proof.
    intros P E. unfold acombine in E.
    destruct (nth_error (fst ap) i) as [a|] eqn:Ea; try discriminate.
    destruct (a_done a) eqn:Da; try discriminate. simpl in E.
    destruct (Nat.eqb_spec (length w) W) as [Lw|]; try discriminate. simpl in E.
    destruct (nodupb order) eqn:No; try discriminate. simpl in E.
    apply nodupb_NoDup in No.
    assert (Es : exists s, nth_error (p_samples p) i = Some s).
    { destruct (nth_error (p_samples p) i) eqn:X; eauto.
      apply nth_error_None in X. apply nth_error_lt in Ea.
      rewrite (w_len _ _ P) in X. rewrite (w_alen _ _ P) in Ea. lia. }
    destruct Es as [s Es]. unfold combine. rewrite Es.
    pose proof (w_view _ _ P _ _ _ Es Ea) as VW.
    assert (OKs : forall h, In h (alls s) -> okh p h) by (intros; eapply (w_okh _ _ P); eauto).
    assert (NI : ~ In (h_index (d_occl s)) (map h_index (d_hits s)))
      by (eapply (w_occl _ _ P); eauto).
    assert (ND := w_nodup _ _ P _ _ Es).
    assert (SELF : p_samples p = lset i s (p_samples p)).
    { apply nth_error_ext. intros j. rewrite lset_spec. destruct (Nat.eq_dec i j) as [<-|]; auto.
      pose proof (nth_error_lt _ _ _ _ Es). destruct (Nat.ltb_spec i (length (p_samples p))); auto; lia. }
    unfold read_sample in VW. injection VW as V1 V2 V3.
    destruct (d_hits s) as [|h0 t0] eqn:Eh.
    - (* no list: the occluding hit alone *)
      simpl in V1. rewrite <- V1 in E. injection E as <-.
      destruct (h_valid (d_occl s)) eqn:Hv.
      + destruct (okh_hit_data p (d_occl s)) as (b & Eb & Ib & Lb); [apply OKs; left; auto|].
        rewrite Eb. eexists; split; [reflexivity|].
        eapply update_pwf with (s := s) (a := a) (s' := s); eauto; simpl.
        * rewrite write_block_length; auto.
        * rewrite write_block_length; auto. apply (w_mul _ _ P).
        * intros j t g n Et I. eapply read_write_other with (h := d_occl s); eauto; try reflexivity.
          -- apply OKs; left; auto.
          -- eapply (w_okh _ _ P); eauto.
          -- apply not_eq_sym. eapply (w_disj _ _ P) with (i := i) (j := j); eauto. left; auto.
        * intros h I. split; [|left; exists h; split; [exact I|reflexivity]].
          apply okh_len with p; auto. simpl. rewrite write_block_length; auto.
        * rewrite Eh. constructor.
        * discriminate.
        * unfold read_sample. rewrite Eh, Hv. simpl. rewrite <- V2, V3. simpl.
          f_equal. f_equal. f_equal. eapply read_write_same; eauto; try reflexivity. apply OKs; left; auto.
        * apply (w_valid _ _ P).
      + eexists; split; [reflexivity|].
        eapply update_pwf with (s := s) (a := a) (s' := s); eauto; simpl.
        * apply (w_mul _ _ P).
        * intros h I. split; auto. left; eauto.
        * rewrite Eh. constructor.
        * discriminate.
        * unfold read_sample. rewrite Eh, Hv. simpl. rewrite <- V2, V3. reflexivity.
        * apply (w_valid _ _ P).
    - assert (NE : d_hits s <> []) by (rewrite Eh; discriminate).
      rewrite <- Eh in *. clear Eh h0 t0.
      set (data := if h_valid (d_occl s) then d_hits s ++ [d_occl s] else d_hits s) in *.
      assert (DV : map (read_hit W p) data =
                   a_hits a ++ match a_occl a with Some o => [o] | None => [] end).
      { unfold data. rewrite <- V1, <- V2. destruct (h_valid (d_occl s)).
        - rewrite map_app. reflexivity.
        - rewrite app_nil_r. reflexivity. }
      assert (DIN : forall h, In h data -> In h (alls s)).
      { intros h I. unfold data in I. destruct (h_valid (d_occl s)).
        - apply in_app_or in I. destruct I as [I|[<-|[]]]; [right; auto|left; auto].
        - right; auto. }
      assert (DND : NoDup (map h_index data)).
      { unfold data. destruct (h_valid (d_occl s)); auto.
        rewrite map_app. simpl. revert ND NI. generalize (map h_index (d_hits s)) as l.
        generalize (h_index (d_occl s)) as x. clear.
        intros x l; induction l as [|y t IH]; simpl; intros ND NI.
        - constructor; auto.
        - inversion ND; subst. constructor.
          + rewrite in_app_iff. simpl. intuition.
          + apply IH; intuition. }
      assert (E' : match pick (a_hits a ++ match a_occl a with Some o => [o] | None => [] end) order with
              | None => None
              | Some [] => Some (lset i (mkA [] (a_occl a) (a_z a) true) (fst ap), snd ap)
              | Some (h :: t) =>
                  Some (lset i (mkA (merge w h :: t) (Some (merge w h)) (a_z a) true) (fst ap), snd ap)
              end = Some ap').
      { destruct (a_hits a) as [|x0 y0] eqn:Eah; [|exact E].
        exfalso. destruct (d_hits s); [auto|discriminate]. }
      clear E. rewrite <- DV, pick_map in E'.
      destruct (pick data order) as [r|] eqn:Er; simpl in E'; try discriminate.
      assert (RIN : forall h, In h r -> In h (alls s)) by (intros h I; apply DIN; eapply pick_In; eauto).
      assert (RND : NoDup (map h_index r)).
      { eapply pick_NoDup; [exact DND|exact No|]. rewrite pick_map, Er. reflexivity. }
      destruct r as [|h t]; simpl in E'; injection E' as <-.
      + eexists; split; [reflexivity|].
        eapply update_pwf with (s := s) (a := a) (s' := mkSD [] (d_occl s) (d_occlz s)); eauto; simpl.
        * apply (w_mul _ _ P).
        * intros g [<-|[]]. split; [apply OKs; left; auto|]. left. exists (d_occl s). split; [left; auto|auto].
        * rewrite <- V2, <- V3. reflexivity.
        * apply (w_valid _ _ P).
      + assert (OH : okh p h) by (apply OKs, RIN; left; auto).
        destruct (okh_hit_data p h OH) as (b & Eb & Ib & Lb).
        rewrite Eb. eexists; split; [reflexivity|].
        set (o := mkHit (h_index h) true).
        eapply update_pwf with (s := s) (a := a) (s' := mkSD (h :: t) o (d_occlz s)); eauto; simpl.
        * rewrite write_block_length; auto.
        * rewrite write_block_length; auto. apply (w_mul _ _ P).
        * intros j u g n Et I. eapply read_write_other with (h := h); eauto; try reflexivity.
          -- eapply (w_okh _ _ P); eauto.
          -- apply not_eq_sym. eapply (w_disj _ _ P) with (i := i) (j := j); eauto.
             apply RIN; left; auto.
        * intros g I.
          assert (I' : exists g', In g' (h :: t) /\ h_index g' = h_index g).
          { destruct I as [<-|I]; [exists h; split; auto; left; auto|exists g; split; auto]. }
          destruct I' as (g' & Ig & Eg). split.
          -- apply okh_len with p; [simpl; rewrite write_block_length; auto|].
             apply okh_index with g'; auto. 
          -- left. exists g'. split; [apply RIN; exact Ig|exact Eg].
        * discriminate.
        * unfold read_sample. simpl. rewrite V3. simpl in RND. inversion RND as [|? ? N1 N2]; subst.
          assert (RH : forall sm v, read_hit W (mkPix (write_block b W w (p_store p)) sm v) h
                       = merge w (read_hit W p h)).
          { intros sm v. eapply read_write_same; eauto; reflexivity. }
          f_equal. f_equal.
          -- f_equal; [apply RH|]. apply map_ext_in. intros g I.
             eapply read_write_other with (h := h); eauto; try reflexivity.
             ++ apply OKs, RIN; right; auto.
             ++ intros EQ. apply N1. rewrite <- EQ. apply in_map; auto.
          -- f_equal. etransitivity; [apply read_hit_index with (g := h); reflexivity|apply RH].
        * apply (w_valid _ _ P).
  Qed.

  Lemma pwf_read p ap : pwf p ap ->
    read_pixel W p = (map (fun s => (a_hits s, a_occl s, a_z s)) (fst ap), snd ap).
  Proof.
    intros P. unfold read_pixel. f_equal; [|apply (w_valid _ _ P)].
    apply nth_error_ext. intros i. rewrite !nth_error_map.
    destruct (nth_error (p_samples p) i) as [s|] eqn:Es; destruct (nth_error (fst ap) i) as [a|] eqn:Ea; simpl; auto.
    - f_equal. eapply (w_view _ _ P); eauto.
    - apply nth_error_lt in Es. apply nth_error_None in Ea. rewrite (w_len _ _ P) in Es.
      rewrite (w_alen _ _ P) in Ea. lia.
    - apply nth_error_lt in Ea. apply nth_error_None in Es. rewrite (w_len _ _ P) in Es.
      rewrite (w_alen _ _ P) in Ea. lia.
  Qed.
End Pix.

(** ** Reference counts *)

Definition bump (a : nat) (H : nat -> nat) : nat -> nat :=
  fun b => (if Nat.eq_dec a b then 1 else 0) + H b.

Definition bump_opt (v : option nat) (H : nat -> nat) : nat -> nat :=
  match v with Some a => bump a H | None => H end.

(** Every live pixel has as many references as [H] says, at least one. *)
Definition refs (H : nat -> nat) (h : heap) : Prop :=
  forall a, match nth_error h a with
            | Some (Some (rc, _)) => rc = H a /\ 0 < rc
            | _ => H a = 0
            end.

Definition content (h : heap) (a : nat) : option pixel := option_map snd (deref h a).

Lemma refs_ext H H' h : (forall a, H a = H' a) -> refs H h -> refs H' h.
Proof.
  intros E R a. specialize (R a). rewrite <- E.
  destruct (nth_error h a) as [[[rc p]|]|]; auto.
Qed.

Lemma refs_live H h a : refs H h -> 0 < H a -> exists rc p, nth_error h a = Some (Some (rc, p)) /\ rc = H a.
Proof.
  intros R L. specialize (R a). destruct (nth_error h a) as [[[rc p]|]|]; try lia.
  exists rc, p. tauto.
Qed.

Lemma deref_nth h a c : nth_error h a = Some (Some c) -> deref h a = Some c.
Proof. unfold deref. intros ->. reflexivity. Qed.

Lemma content_lset h a b c :
  content (lset a c h) b =
  if Nat.eq_dec a b then (if b <? length h then option_map snd c else None) else content h b.
Proof.
  unfold content, deref. rewrite lset_spec. destruct (Nat.eq_dec a b); auto.
  destruct (b <? length h); auto. destruct c; auto.
Qed.

Lemma add_ref_ok H h a : refs H h -> 0 < H a ->
  exists h', add_ref a h = Some h' /\ refs (bump a H) h' /\ forall b, content h' b = content h b.
Proof.
  intros R L. destruct (refs_live _ _ _ R L) as (rc & p & E & Erc).
  unfold add_ref. rewrite (deref_nth _ _ _ E). eexists; split; [reflexivity|]. 
  pose proof (nth_error_lt _ _ _ _ E) as La. split.
  - intros b. rewrite lset_spec. unfold bump. destruct (Nat.eq_dec a b) as [<-|n].
    + destruct (Nat.ltb_spec a (length h)); lia.
    + apply R.
  - intros b. rewrite content_lset. destruct (Nat.eq_dec a b) as [<-|n]; auto.
    destruct (Nat.ltb_spec a (length h)); try lia. unfold content. rewrite (deref_nth _ _ _ E). reflexivity.
Qed.

Lemma release_ok H h a : refs (bump a H) h ->
  exists h', release a h = Some h' /\ refs H h' /\ forall b, 0 < H b -> content h' b = content h b.
Proof.
  intros R. assert (L : 0 < bump a H a) by (unfold bump; destruct (Nat.eq_dec a a); lia).
  destruct (refs_live _ _ _ R L) as (rc & p & E & Erc).
  pose proof (nth_error_lt _ _ _ _ E) as La.
  assert (Erc' : rc = 1 + H a) by (unfold bump in Erc; destruct (Nat.eq_dec a a); lia).
  assert (OT : forall b, a <> b -> match nth_error h b with
            | Some (Some (rc, _)) => rc = H b /\ 0 < rc | _ => H b = 0 end).
  { intros b n. specialize (R b). unfold bump in R. destruct (Nat.eq_dec a b); try lia. exact R. }
  unfold release. rewrite (deref_nth _ _ _ E).
  destruct (Nat.eqb_spec (rc - 1) 0) as [Z0|NZ]; (eexists; split; [reflexivity|split]).
  - intros b. rewrite lset_spec. destruct (Nat.eq_dec a b) as [<-|n]; [|exact (OT b n)].
    destruct (Nat.ltb_spec a (length h)); lia.
  - intros b Lb. rewrite content_lset. destruct (Nat.eq_dec a b) as [<-|n]; auto. lia.
  - intros b. rewrite lset_spec. destruct (Nat.eq_dec a b) as [<-|n]; [|exact (OT b n)].
    destruct (Nat.ltb_spec a (length h)); lia.
  - intros b Lb. rewrite content_lset. destruct (Nat.eq_dec a b) as [<-|n]; auto.
    destruct (Nat.ltb_spec a (length h)); try lia. unfold content. rewrite (deref_nth _ _ _ E). reflexivity.
Qed.

Lemma modify_ok H h a f p p' : refs H h -> content h a = Some p -> f p = Some p' ->
  exists h', modify a f h = Some h' /\ refs H h' /\ content h' a = Some p' /\
             forall b, b <> a -> content h' b = content h b.
Proof.
  intros R C F. unfold content in C. unfold modify.
  destruct (deref h a) as [[rc q]|] eqn:D; try discriminate. simpl in C. injection C as ->.
  rewrite F. eexists; split; [reflexivity|].
  assert (E : nth_error h a = Some (Some (rc, p))).
  { unfold deref in D. destruct (nth_error h a) as [[c|]|]; congruence. }
  pose proof (nth_error_lt _ _ _ _ E) as La. split; [|split].
  - intros b. rewrite lset_spec. destruct (Nat.eq_dec a b) as [<-|n]; [|apply R].
    destruct (Nat.ltb_spec a (length h)); try lia. specialize (R a). rewrite E in R. exact R.
  - rewrite content_lset. destruct (Nat.eq_dec a a); try lia.
    destruct (Nat.ltb_spec a (length h)); try lia. reflexivity.
  - intros b n. rewrite content_lset. destruct (Nat.eq_dec a b); congruence.
Qed.

Definition pts (id : nat) (l : list (option nat)) : nat := length (filter (points_to id) l).

Lemma pts_lset k v old l id : nth_error l k = Some old ->
  pts id (lset k v l) + (if points_to id old then 1 else 0)
  = pts id l + (if points_to id v then 1 else 0).
Proof.
  unfold pts. revert k; induction l as [|x t IH]; intros [|k] E; simpl in *; try discriminate.
  - injection E as ->. destruct (points_to id old), (points_to id v); simpl; lia.
  - specialize (IH _ E). destruct (points_to id x); simpl; lia.
Qed.

Lemma pts_pos k l id : nth_error l k = Some (Some id) -> 0 < pts id l.
Proof.
  unfold pts. revert k; induction l as [|x t IH]; intros [|k] E; simpl in *; try discriminate.
  - injection E as ->. simpl. rewrite Nat.eqb_refl. simpl. lia.
  - specialize (IH _ E). destruct (points_to id x); simpl; lia.
Qed.

Lemma pts_pos_inv l id : 0 < pts id l -> exists k, nth_error l k = Some (Some id).
Proof.
  unfold pts. induction l as [|x t IH]; simpl; intros H; try lia.
  destruct x as [y|]; simpl in H.
  - destruct (Nat.eqb_spec y id) as [->|n]; [exists 0; reflexivity|].
    destruct (IH H) as [k E]. exists (S k). exact E.
  - destruct (IH H) as [k E]. exists (S k). exact E.
Qed.

Lemma holders_pts m a : holders m a = pts a (m_slots m) + count_occ Nat.eq_dec (m_pool m) a.
Proof. reflexivity. Qed.

Lemma assign_ok T k v m old :
  nth_error (m_slots m) k = Some old ->
  refs (fun b => T b + holders m b) (m_heap m) ->
  (forall a, v = Some a -> 0 < T a + holders m a) ->
  exists m', assign k v m = Some m' /\ m_slots m' = lset k v (m_slots m) /\ m_pool m' = m_pool m /\
    refs (fun b => T b + holders m' b) (m_heap m') /\
    forall b, 0 < T b + holders m' b -> content (m_heap m') b = content (m_heap m) b.
Proof.
  intros E R LV. unfold assign. rewrite E.
  assert (A : exists h1, add_ref_opt v (m_heap m) = Some h1 /\
      refs (bump_opt v (fun b => T b + holders m b)) h1 /\ forall b, content h1 b = content (m_heap m) b).
  { destruct v as [a|]; simpl.
    - apply add_ref_ok; auto.
    - exists (m_heap m). auto. }
  destruct A as (h1 & -> & R1 & C1). simpl bind.
  set (H := fun b => T b + (pts b (lset k v (m_slots m)) + count_occ Nat.eq_dec (m_pool m) b)).
  assert (B : exists h2, release_opt old h1 = Some h2 /\ refs H h2 /\
      forall b, 0 < H b -> content h2 b = content h1 b).
  { destruct old as [a|]; simpl.
    - apply release_ok. eapply refs_ext; [|exact R1]. intros b. simpl.
      pose proof (pts_lset k v _ _ b E) as X. unfold H, bump. rewrite holders_pts || idtac.
      destruct v as [c|]; simpl in *; unfold bump; rewrite ?holders_pts;
        destruct (Nat.eq_dec a b) as [->|n]; rewrite ?Nat.eqb_refl in X;
        try (apply Nat.eqb_neq in n; rewrite n in X);
        try (destruct (Nat.eq_dec c b) as [->|n2]; rewrite ?Nat.eqb_refl in X;
             try (apply Nat.eqb_neq in n2; rewrite n2 in X)); lia.
    - exists h1. split; auto. split; auto. eapply refs_ext; [|exact R1]. intros b. simpl.
      pose proof (pts_lset k v _ _ b E) as X. unfold H.
      destruct v as [c|]; simpl in *; unfold bump; rewrite ?holders_pts;
        try (destruct (Nat.eq_dec c b) as [->|n2]; rewrite ?Nat.eqb_refl in X;
             try (apply Nat.eqb_neq in n2; rewrite n2 in X)); lia. }
  destruct B as (h2 & -> & R2 & C2). simpl bind.
  eexists; split; [reflexivity|]. simpl. split; auto. split; auto. split; auto.
  intros b Lb. rewrite C2; auto.
Qed.

(** ** Refinement *)

Section Sim.
  Variables N W : nat.
  Hypothesis W0 : 0 < W.

  Record sim (m : mach) (v : vmach) : Prop := mkSim {
    s_refs : refs (holders m) (m_heap m);
    s_pool : forall a, In a (m_pool m) -> holders m a = 1;
    s_shape : forall a p, 0 < holders m a -> content (m_heap m) a = Some p -> length (p_samples p) = N;
    s_len : length (m_slots m) = length (v_slots v);
    s_null : forall k, nth_error (m_slots m) k = Some None <-> nth_error (v_slots v) k = Some None;
    s_pix : forall k a id, nth_error (m_slots m) k = Some (Some a) ->
       nth_error (v_slots v) k = Some (Some id) ->
       exists p ap, content (m_heap m) a = Some p /\ nth_error (v_heap v) id = Some ap /\ pwf N W p ap;
    s_same : forall k j a b id jd, nth_error (m_slots m) k = Some (Some a) ->
       nth_error (v_slots v) k = Some (Some id) ->
       nth_error (m_slots m) j = Some (Some b) ->
       nth_error (v_slots v) j = Some (Some jd) -> (a = b <-> id = jd) }.

  (** Corresponding slots. *)
  Lemma sim_slot m v k : sim m v ->
    (nth_error (m_slots m) k = None /\ nth_error (v_slots v) k = None) \/
    (nth_error (m_slots m) k = Some None /\ nth_error (v_slots v) k = Some None) \/
    (exists a id, nth_error (m_slots m) k = Some (Some a) /\ nth_error (v_slots v) k = Some (Some id)).
  Proof.
    intros S. pose proof (s_len _ _ S) as L. pose proof (s_null _ _ S k) as Nl.
    destruct (nth_error (m_slots m) k) as [[a|]|] eqn:E1; destruct (nth_error (v_slots v) k) as [[id|]|] eqn:E2;
      auto; try (exfalso; destruct Nl as [N1 N2]; (discriminate (N1 eq_refl) || discriminate (N2 eq_refl))).
    - right; right; eauto.
    - apply nth_error_lt in E1. apply nth_error_None in E2. lia.
    - apply nth_error_lt in E2. apply nth_error_None in E1. lia.
  Qed.

  (** As many pointers to a pixel on either side. *)
  Lemma sim_pts m v k a id : sim m v ->
    nth_error (m_slots m) k = Some (Some a) -> nth_error (v_slots v) k = Some (Some id) ->
    pts a (m_slots m) = pts id (v_slots v).
  Proof.
    intros S E1 E2.
    assert (X : forall j, (exists y, nth_error (m_slots m) j = Some y /\ points_to a y = true) <->
                          (exists y, nth_error (v_slots v) j = Some y /\ points_to id y = true)).
    { intros j. split; intros (y & Ey & P).
      - destruct y as [b|]; simpl in P; try discriminate. apply Nat.eqb_eq in P. subst b.
        destruct (sim_slot _ _ j S) as [[A B]|[[A B]|(b & jd & A & B)]]; try congruence.
        exists (Some jd). split; auto. simpl. apply Nat.eqb_eq.
        assert (b = a) by congruence. subst b.
        symmetry. apply (s_same _ _ S k j a a id jd); auto.
      - destruct y as [jd|]; simpl in P; try discriminate. apply Nat.eqb_eq in P. subst jd.
        destruct (sim_slot _ _ j S) as [[A B]|[[A B]|(b & jd & A & B)]]; try congruence.
        exists (Some b). split; auto. simpl. apply Nat.eqb_eq.
        assert (jd = id) by congruence. subst jd.
        symmetry. apply (s_same _ _ S k j a b id id); auto. }
    pose proof (s_len _ _ S) as L. clear - X L. revert X L.
    generalize (m_slots m) as l1, (v_slots v) as l2. unfold pts.
    induction l1 as [|x t IH]; intros [|y u] X L; simpl in *; try lia.
    assert (H0 := X 0). simpl in H0.
    assert (IHu : length (filter (points_to a) t) = length (filter (points_to id) u)).
    { apply IH; [|lia]. intros j. exact (X (S j)). }
    destruct (points_to a x) eqn:P1; destruct (points_to id y) eqn:P2; simpl; try lia; exfalso.
    - destruct H0 as [H0 _]. destruct H0 as (y' & E & P); [eauto|]. congruence.
    - destruct H0 as [_ H0]. destruct H0 as (y' & E & P); [eauto|]. congruence.
  Qed.

  Lemma pool_count a l : In a l -> 0 < count_occ Nat.eq_dec l a.
  Proof. intros I. apply count_occ_In; auto. Qed.

  Lemma slot_holders m k a : nth_error (m_slots m) k = Some (Some a) -> 0 < holders m a.
  Proof. intros E. rewrite holders_pts. apply pts_pos in E. lia. Qed.

  (** A pooled pixel is nobody else's. *)
  Lemma pool_alone m v k a : sim m v -> nth_error (m_slots m) k = Some (Some a) -> ~ In a (m_pool m).
  Proof.
    intros S E I. pose proof (s_pool _ _ S a I) as H. rewrite holders_pts in H.
    apply pts_pos in E. apply pool_count in I. lia.
  Qed.

  (** Assigning to a slot. *)
  Lemma sim_assign m v m' k x y heap' :
    sim m v -> k < length (m_slots m) ->
    m_slots m' = lset k x (m_slots m) -> m_pool m' = m_pool m ->
    refs (holders m') (m_heap m') ->
    (forall b, 0 < holders m' b -> content (m_heap m') b = content (m_heap m) b) ->
    (x = None /\ y = None \/ exists j, nth_error (m_slots m) j = Some x /\ nth_error (v_slots v) j = Some y) ->
    heap' = v_heap v ->
    sim m' (mkV heap' (lset k y (v_slots v))).
  Proof.
    intros S Lk Es Ep R C XY ->.
    assert (GET : forall j a id, nth_error (m_slots m') j = Some (Some a) ->
       nth_error (lset k y (v_slots v)) j = Some (Some id) ->
       exists q, nth_error (m_slots m) q = Some (Some a) /\ nth_error (v_slots v) q = Some (Some id)).
    { intros j a id E1 E2. rewrite Es in E1. rewrite lset_spec in E1, E2.
      destruct (Nat.eq_dec k j) as [<-|n]; eauto.
      destruct (k <? length (m_slots m)); try discriminate.
      destruct (k <? length (v_slots v)); try discriminate.
      injection E1 as ->. injection E2 as ->.
      destruct XY as [[? ?]|(q & A & B)]; try discriminate. eauto. }
    constructor; simpl.
    - exact R.
    - intros a I. rewrite Ep in I. pose proof (s_pool _ _ S a I) as H.
      apply pool_count in I. rewrite !holders_pts in *. rewrite Ep. rewrite Es.
      (* nothing new points to a pooled pixel *)
      destruct (Nat.eq_dec (pts a (lset k x (m_slots m))) 0) as [Z0|NZ]; try lia. exfalso.
      assert (P0 : 0 < pts a (lset k x (m_slots m))) by lia.
      apply pts_pos_inv in P0. destruct P0 as [j Ej]. rewrite lset_spec in Ej.
      destruct (Nat.eq_dec k j) as [<-|n].
      + destruct (k <? length (m_slots m)); try discriminate. injection Ej as ->.
        destruct XY as [[? ?]|(q & A & B)]; try discriminate. apply pts_pos in A. lia.
      + apply pts_pos in Ej. lia.
    - intros a p Ha Cp. rewrite C in Cp by auto.
      apply (s_shape _ _ S a p); auto.
      (* a live pixel was live before *)
      assert (L := s_refs _ _ S a). unfold content, deref in Cp.
      destruct (nth_error (m_heap m) a) as [[[rc q]|]|]; try discriminate. lia.
    - rewrite Es, !lset_length. apply (s_len _ _ S).
    - intros j. rewrite Es, !lset_spec. rewrite <- (s_len _ _ S).
      destruct (Nat.eq_dec k j) as [<-|n]; [|apply (s_null _ _ S)].
      destruct (Nat.ltb_spec k (length (m_slots m))); try lia.
      destruct XY as [[-> ->]|(q & A & B)]; [tauto|].
      pose proof (s_null _ _ S q) as Nq. rewrite A, B in Nq.
      split; intros Q; injection Q as ->; f_equal; destruct Nq as [N1 N2].
      + specialize (N1 eq_refl). congruence.
      + specialize (N2 eq_refl). congruence.
    - intros j a id E1 E2. destruct (GET _ _ _ E1 E2) as (q & A & B).
      destruct (s_pix _ _ S _ _ _ A B) as (p & ap & Cp & Hp & P). exists p, ap.
      rewrite C; auto. eapply slot_holders; eauto.
    - intros j i a b id jd E1 E2 E3 E4.
      destruct (GET _ _ _ E1 E2) as (q & A & B). destruct (GET _ _ _ E3 E4) as (r & A' & B').
      eapply (s_same _ _ S); eauto.
  Qed.

  (** Modifying the pixel a slot points to. *)
  Lemma sim_through m v k f g v' :
    sim m v -> vthrough k g v = Some v' ->
    (forall p ap ap', pwf N W p ap -> g ap = Some ap' -> exists p', f p = Some p' /\ pwf N W p' ap') ->
    exists m', through k f m = Some m' /\ sim m' v'.
  Proof.
    intros S E F. unfold vthrough in E. unfold through.
    destruct (sim_slot _ _ k S) as [[A B]|[[A B]|(a & id & A & B)]]; rewrite B in E; try discriminate.
    destruct (s_pix _ _ S _ _ _ A B) as (p & ap & Cp & Hp & P). rewrite Hp in E.
    destruct (g ap) as [ap'|] eqn:G; try discriminate. injection E as <-.
    destruct (F _ _ _ P G) as (p' & Fp & P'). rewrite A.
    destruct (modify_ok _ _ _ f _ _ (s_refs _ _ S) Cp Fp) as (h' & Eh & R' & C1 & C2).
    rewrite Eh. simpl bind. eexists; split; [reflexivity|].
    constructor; simpl.
    - exact R'.
    - apply (s_pool _ _ S).
    - intros b q Hb Cb. destruct (Nat.eq_dec b a) as [->|n].
      + rewrite C1 in Cb. injection Cb as <-. apply (w_len _ _ _ _ P').
      + rewrite C2 in Cb by auto. apply (s_shape _ _ S b q); auto.
    - apply (s_len _ _ S).
    - apply (s_null _ _ S).
    - intros j b jd E1 E2. destruct (s_pix _ _ S _ _ _ E1 E2) as (q & aq & Cq & Hq & Pq).
      pose proof (s_same _ _ S k j a b id jd A B E1 E2) as SM.
      destruct (Nat.eq_dec b a) as [->|n].
      + assert (jd = id) by (symmetry; apply SM; auto). subst jd.
        exists p', ap'. split; auto. split; auto. apply lset_same. eapply nth_error_lt; eauto.
      + exists q, aq. rewrite C2 by auto. split; auto. split; auto. rewrite lset_other; auto.
        intros X. apply n. symmetry. apply SM; auto.
    - apply (s_same _ _ S).
  Qed.

  (** The pixel obtained from the pool: unreferenced elsewhere and blank. *)
  Lemma pool_allocate_inv m :
    refs (holders m) (m_heap m) -> (forall a, In a (m_pool m) -> holders m a = 1) ->
    exists m1 a p, pool_allocate N W m = Some (m1, a) /\ m_slots m1 = m_slots m /\
      refs (bump a (holders m1)) (m_heap m1) /\ holders m1 a = 0 /\
      content (m_heap m1) a = Some p /\
      ((forall a p, 0 < holders m a -> content (m_heap m) a = Some p -> length (p_samples p) = N) ->
       pwf N W p (blank N)) /\
      (forall b, 0 < holders m1 b -> 0 < holders m b /\ content (m_heap m1) b = content (m_heap m) b) /\
      (forall b, In b (m_pool m1) -> holders m1 b = 1).
  Proof.
    intros SR SP. unfold pool_allocate. destruct (m_pool m) as [|a rest] eqn:Ep.
    - (* a new pixel *)
      set (a := length (m_heap m)). set (h0 := m_heap m ++ [Some (0, new_pixel N W)]).
      assert (Z0 : holders m a = 0).
      { pose proof (SR a) as R. unfold a in R at 1.
        rewrite (proj2 (nth_error_None _ _)) in R; auto. }
      assert (Ea : nth_error h0 a = Some (Some (0, new_pixel N W))).
      { unfold h0, a. rewrite nth_error_app2, Nat.sub_diag; auto. }
      unfold add_ref. rewrite (deref_nth _ _ _ Ea). simpl bind.
      eexists; exists a, (new_pixel N W). split; [reflexivity|]. simpl.
      assert (HH : forall b, holders (mkM (lset a (Some (1, new_pixel N W)) h0) (m_slots m) []) b = holders m b).
      { intros b. rewrite !holders_pts. rewrite Ep. reflexivity. }
      assert (La : a < length h0) by (eapply nth_error_lt; eauto).
      split; auto. split; [|split; [|split; [|split; [|split]]]].
      + intros b. unfold bump. rewrite HH, lset_spec. destruct (Nat.eq_dec a b) as [<-|n].
        * destruct (Nat.ltb_spec a (length h0)); lia.
        * pose proof (SR b) as R.
          destruct (Nat.lt_ge_cases b a) as [L|L].
          -- unfold h0. rewrite nth_error_app1 by (unfold a in L; lia). simpl. exact R.
          -- rewrite (proj2 (nth_error_None h0 b)) by (unfold h0; rewrite app_length; simpl; unfold a in *; lia).
             rewrite (proj2 (nth_error_None _ _)) in R by (unfold a in *; lia). exact R.
      + rewrite HH; auto.
      + rewrite content_lset. destruct (Nat.eq_dec a a); try lia.
        destruct (Nat.ltb_spec a (length h0)); try lia. reflexivity.
      + intros _. apply new_pwf; auto.
      + intros b Hb. rewrite HH in Hb. split; auto.
        assert (n : a <> b) by (intros ->; lia).
        rewrite content_lset. destruct (Nat.eq_dec a b); try lia.
        pose proof (SR b) as R.
        assert (L : b < length (m_heap m)).
        { destruct (nth_error (m_heap m) b) eqn:X; [eapply nth_error_lt; eauto|lia]. }
        unfold content, deref, h0. rewrite nth_error_app1 by auto. reflexivity.
      + intros b [].
    - (* a pooled one *)
      assert (I : In a (a :: rest)) by (left; auto).
      pose proof (SP a I) as H1.
      destruct (add_ref_ok (holders m) (m_heap m) a SR) as (h1 & -> & R1 & C1); [lia|].
      simpl bind.
      destruct (release_ok (holders m) h1 a) as (h2 & -> & R2 & C2); [exact R1|].
      simpl bind.
      destruct (refs_live _ _ a R2) as (rc & p & E2 & _); [lia|].
      assert (Cp : content h2 a = Some p) by (unfold content; rewrite (deref_nth _ _ _ E2); auto).
      assert (Ca : content (m_heap m) a = Some p) by (rewrite <- C1, <- C2 by lia; exact Cp).
      destruct (modify_ok _ _ a (fun p => Some (clear N W p)) p _ R2 Cp eq_refl)
        as (h3 & -> & R3 & C3 & C4). simpl bind.
      eexists; exists a, (clear N W p). split; [reflexivity|]. simpl.
      assert (HH : forall b, holders m b = bump a (holders (mkM h3 (m_slots m) rest)) b).
      { intros b. unfold bump. rewrite !holders_pts. rewrite Ep. simpl.
        destruct (Nat.eq_dec a b); lia. }
      split; auto. split; [|split; [|split; [|split; [|split]]]].
      + eapply refs_ext; [|exact R3]. exact HH.
      + specialize (HH a). unfold bump in HH. destruct (Nat.eq_dec a a); lia.
      + exact C3.
      + intros Sh. apply clear_pwf; auto. apply (Sh a p); [lia|auto].
      + intros b Hb. assert (Hb' : 0 < holders m b) by (rewrite HH; unfold bump; lia).
        split; auto. rewrite C4, C2, C1; auto.
        intros ->. specialize (HH a). unfold bump in HH. destruct (Nat.eq_dec a a); lia.
      + intros b Ib. assert (Ib' : In b (a :: rest)) by (right; auto).
        pose proof (SP b Ib') as Hb. rewrite HH in Hb. unfold bump in Hb.
        assert (0 < holders (mkM h3 (m_slots m) rest) b).
        { rewrite holders_pts. simpl. apply pool_count in Ib. lia. }
        destruct (Nat.eq_dec a b); lia.
  Qed.

  Lemma pool_allocate_ok m v : sim m v ->
    exists m1 a p, pool_allocate N W m = Some (m1, a) /\ m_slots m1 = m_slots m /\
      refs (bump a (holders m1)) (m_heap m1) /\ holders m1 a = 0 /\
      content (m_heap m1) a = Some p /\ pwf N W p (blank N) /\
      (forall b, 0 < holders m1 b -> 0 < holders m b /\ content (m_heap m1) b = content (m_heap m) b) /\
      (forall b, In b (m_pool m1) -> holders m1 b = 1).
  Proof.
    intros S. destruct (pool_allocate_inv m (s_refs _ _ S) (s_pool _ _ S))
      as (m1 & a & p & E & Es & R & H0 & C & P & O & PL).
    exists m1, a, p. specialize (P (s_shape _ _ S)). tauto.
  Qed.

  Lemma sim_alloc m v k : sim m v -> k < length (v_slots v) ->
    exists m', step N W (OAlloc k) m = Some m' /\
      sim m' (mkV (v_heap v ++ [blank N]) (lset k (Some (length (v_heap v))) (v_slots v))).
  Proof.
    intros S Lk. destruct (pool_allocate_ok _ _ S) as (m1 & a & p & E1 & Es & R1 & H0 & Cp & P & OLD & PL).
    unfold step. rewrite E1. simpl bind.
    assert (Lk' : k < length (m_slots m1)) by (rewrite Es, (s_len _ _ S); auto).
    destruct (nth_error (m_slots m1) k) as [old|] eqn:Eo; [|apply nth_error_None in Eo; lia].
    destruct (assign_ok (fun b => if Nat.eq_dec a b then 1 else 0) k (Some a) m1 old Eo)
      as (m2 & E2 & Es2 & Ep2 & R2 & C2).
    { exact R1. }
    { intros x Q. injection Q as <-. destruct (Nat.eq_dec a a); lia. }
    rewrite E2. simpl bind.
    destruct (release_ok (holders m2) (m_heap m2) a) as (h3 & -> & R3 & C3); [exact R2|].
    simpl bind. eexists; split; [reflexivity|].
    set (m3 := mkM h3 (m_slots m2) (m_pool m2)).
    assert (H3 : forall b, holders m3 b = holders m2 b) by reflexivity.
    assert (CC : forall b, 0 < holders m3 b -> content h3 b = content (m_heap m1) b).
    { intros b Hb. rewrite C3, C2; auto. rewrite H3 in Hb. lia. }
    assert (PB : forall b, pts b (m_slots m2) + (if points_to b old then 1 else 0)
                 = pts b (m_slots m1) + (if Nat.eqb a b then 1 else 0)).
    { intros b. rewrite Es2. apply (pts_lset k (Some a) old); auto. }
    assert (NA : forall j, nth_error (m_slots m1) j <> Some (Some a)).
    { intros j Q. apply pts_pos in Q. rewrite holders_pts in H0. lia. }
    assert (GET : forall j b id, nth_error (m_slots m3) j = Some (Some b) ->
       nth_error (lset k (Some (length (v_heap v))) (v_slots v)) j = Some (Some id) ->
       (j = k /\ b = a /\ id = length (v_heap v)) \/
       (j <> k /\ nth_error (m_slots m) j = Some (Some b) /\ nth_error (v_slots v) j = Some (Some id)
        /\ b <> a)).
    { intros j b id Q1 Q2. simpl in Q1. rewrite Es2 in Q1. rewrite lset_spec in Q1, Q2.
      destruct (Nat.eq_dec k j) as [<-|n].
      - destruct (k <? length (m_slots m1)); try discriminate.
        destruct (k <? length (v_slots v)); try discriminate. left. repeat split; congruence.
      - right. rewrite Es in Q1. repeat split; auto. intros ->. apply (NA j). rewrite Es; auto. }
    constructor; simpl.
    - exact R3.
    - intros b I. rewrite Ep2 in I. pose proof (PL b I) as Hb. pose proof (pool_count _ _ I) as Cb.
      rewrite holders_pts in Hb, H0. rewrite holders_pts. simpl. rewrite Ep2. specialize (PB b).
      destruct (Nat.eqb_spec a b) as [Eab|nab]; [subst b; lia|].
      destruct (points_to b old) eqn:PO; [|lia].
      destruct old as [c|]; simpl in PO; try discriminate. apply Nat.eqb_eq in PO. subst c.
      apply pts_pos in Eo. lia.
    - intros b q Hb Cb. fold m3 in Hb. rewrite CC in Cb by auto.
      destruct (Nat.eq_dec a b) as [<-|n].
      + rewrite Cp in Cb. injection Cb as <-. apply (w_len _ _ _ _ P).
      + destruct (OLD b) as [L C].
        { rewrite holders_pts in Hb |- *. simpl in Hb. rewrite Ep2 in Hb. specialize (PB b).
          destruct (Nat.eqb_spec a b); try lia. }
        rewrite C in Cb. apply (s_shape _ _ S b q); auto.
    - rewrite Es2, Es, !lset_length. apply (s_len _ _ S).
    - intros j. rewrite Es2, !lset_spec. rewrite Es. rewrite <- (s_len _ _ S).
      destruct (Nat.eq_dec k j) as [<-|n]; [|apply (s_null _ _ S)].
      destruct (k <? length (m_slots m)); split; discriminate.
    - intros j b id Q1 Q2. destruct (GET _ _ _ Q1 Q2) as [(-> & -> & ->)|(n & A & B & nb)].
      + exists p, (blank N). split; [|split; auto].
        * rewrite CC; auto. apply slot_holders with k. exact Q1.
        * rewrite nth_error_app2, Nat.sub_diag; auto.
      + destruct (s_pix _ _ S _ _ _ A B) as (q & aq & Cq & Hq & Pq). exists q, aq.
        split; [|split; auto].
        * rewrite CC by (apply slot_holders with j; exact Q1).
          destruct (OLD b) as [L C]; [|rewrite C; auto].
          apply slot_holders with j. rewrite Es. exact A.
        * rewrite nth_error_app1; auto. eapply nth_error_lt; eauto.
    - intros j i b c id jd Q1 Q2 Q3 Q4.
      assert (LT : forall j b id, nth_error (m_slots m) j = Some (Some b) ->
                 nth_error (v_slots v) j = Some (Some id) -> id < length (v_heap v)).
      { intros j0 b0 id0 A B. destruct (s_pix _ _ S _ _ _ A B) as (q & aq & Cq & Hq & Pq).
        eapply nth_error_lt; eauto. }
      destruct (GET _ _ _ Q1 Q2) as [(-> & -> & ->)|(n & A & B & nb)];
        destruct (GET _ _ _ Q3 Q4) as [(-> & -> & ->)|(n' & A' & B' & nb')].
      + tauto.
      + split; intros X; [congruence|]. pose proof (LT _ _ _ A' B'). lia.
      + split; intros X; [congruence|]. pose proof (LT _ _ _ A B). lia.
      + eapply (s_same _ _ S); eauto.
  Qed.

  Lemma sim_step m v o v' : sim m v -> writes_all o -> vstep N W o v = Some v' ->
    exists m', step N W o m = Some m' /\ sim m' v'.
  Proof.
    intros S WA E. destruct o as [k|k|k j|k|k|k i occ z w|k i order w]; simpl in E.
    - destruct (Nat.ltb_spec k (length (v_slots v))); try discriminate. injection E as <-.
      apply sim_alloc; auto.
    - destruct (sim_slot _ _ k S) as [[A B]|[[A B]|(a & id & A & B)]]; rewrite B in E; try discriminate.
      simpl. unfold pool_free. rewrite A.
      pose proof (slot_holders _ _ _ A) as Ha.
      destruct (refs_live _ _ a (s_refs _ _ S) Ha) as (rc & p & En & Erc).
      rewrite (deref_nth _ _ _ En).
      assert (HP : holders m a = pts id (v_slots v)).
      { rewrite holders_pts. rewrite <- (sim_pts _ _ _ _ _ S A B).
        assert (NI := pool_alone _ _ _ _ S A). apply (count_occ_not_In Nat.eq_dec) in NI. lia. }
      fold (pts id (v_slots v)) in E. rewrite Erc, HP.
      destruct (Nat.eqb_spec (pts id (v_slots v)) 1) as [E1|NE].
      2:{ injection E as <-. exists m. auto. }
      injection E as <-.
      destruct (add_ref_ok _ _ a (s_refs _ _ S) Ha) as (h1 & -> & R1 & C1). simpl bind.
      set (m1 := mkM h1 (m_slots m) (a :: m_pool m)).
      assert (HH : forall b, holders m1 b = bump a (holders m) b).
      { intros b. unfold bump. rewrite !holders_pts. simpl. destruct (Nat.eq_dec a b); lia. }
      destruct (assign_ok (fun _ => 0) k None m1 (Some a) A) as (m2 & E2 & Es2 & Ep2 & R2 & C2).
      { eapply refs_ext; [|exact R1]. intros b. symmetry. apply HH. }
      { discriminate. }
      rewrite E2. exists m2. split; auto.
      assert (PB : forall b, pts b (m_slots m2) + (if Nat.eqb a b then 1 else 0) = pts b (m_slots m)).
      { intros b. rewrite Es2. pose proof (pts_lset k None _ _ b A) as X. simpl in X. simpl. lia. }
      assert (H2 : forall b, holders m2 b = holders m b).
      { intros b. rewrite !holders_pts. rewrite Ep2. simpl. specialize (PB b).
        destruct (Nat.eq_dec a b) as [<-|n]; [rewrite Nat.eqb_refl in PB|apply Nat.eqb_neq in n; rewrite n in PB]; lia. }
      assert (GET : forall j b jd, nth_error (m_slots m2) j = Some (Some b) ->
          nth_error (lset k None (v_slots v)) j = Some (Some jd) ->
          nth_error (m_slots m) j = Some (Some b) /\ nth_error (v_slots v) j = Some (Some jd)).
      { intros j b jd Q1 Q2. rewrite Es2 in Q1. rewrite lset_spec in Q1, Q2. simpl in Q1.
        destruct (Nat.eq_dec k j); auto. destruct (j <? length (m_slots m)); discriminate. }
      constructor; simpl.
      + exact R2.
      + intros b I. rewrite Ep2 in I. rewrite H2. simpl in I. destruct I as [<-|I]; [lia|].
        apply (s_pool _ _ S); auto.
      + intros b q Hb Cb. rewrite C2 in Cb by auto. simpl in Cb. rewrite C1 in Cb.
        rewrite H2 in Hb. apply (s_shape _ _ S b q); auto.
      + rewrite Es2, !lset_length. apply (s_len _ _ S).
      + intros j. rewrite Es2, !lset_spec. simpl. rewrite <- (s_len _ _ S).
        destruct (Nat.eq_dec k j) as [<-|n]; [tauto|apply (s_null _ _ S)].
      + intros j b jd Q1 Q2. destruct (GET _ _ _ Q1 Q2) as [X1 X2].
        destruct (s_pix _ _ S _ _ _ X1 X2) as (q & aq & Cq & Hq & Pq). exists q, aq.
        rewrite C2; [simpl; rewrite C1; auto|]. eapply slot_holders; eauto.
      + intros j i b c jd id' Q1 Q2 Q3 Q4. destruct (GET _ _ _ Q1 Q2), (GET _ _ _ Q3 Q4).
        eapply (s_same _ _ S); eauto.
    - destruct (nth_error (v_slots v) j) as [y|] eqn:Ej; try discriminate.
      destruct (Nat.ltb_spec k (length (v_slots v))); try discriminate. injection E as <-. simpl.
      assert (X : exists x, nth_error (m_slots m) j = Some x).
      { destruct (sim_slot _ _ j S) as [[A B]|[[A B]|(a & id & A & B)]]; eauto. congruence. }
      destruct X as [x Ex]. rewrite Ex.
      assert (Lk : k < length (m_slots m)) by (rewrite (s_len _ _ S); auto).
      destruct (nth_error (m_slots m) k) as [old|] eqn:Eo; [|apply nth_error_None in Eo; lia].
      destruct (assign_ok (fun _ => 0) k x m old Eo) as (m2 & E2 & Es2 & Ep2 & R2 & C2).
      { exact (s_refs _ _ S). }
      { intros a ->. simpl. eapply slot_holders; eauto. }
      exists m2. split; auto. eapply sim_assign; eauto.
    - destruct (Nat.ltb_spec k (length (v_slots v))); try discriminate. injection E as <-. simpl.
      assert (Lk : k < length (m_slots m)) by (rewrite (s_len _ _ S); auto).
      destruct (nth_error (m_slots m) k) as [old|] eqn:Eo; [|apply nth_error_None in Eo; lia].
      destruct (assign_ok (fun _ => 0) k None m old Eo) as (m2 & E2 & Es2 & Ep2 & R2 & C2).
      { exact (s_refs _ _ S). }
      { discriminate. }
      exists m2. split; auto. eapply sim_assign; eauto.
    - eapply sim_through; eauto. intros p ap ap' P Q. injection Q as <-.
      eexists; split; [reflexivity|]. apply clear_pwf; auto. apply (w_len _ _ _ _ P).
    - eapply sim_through; eauto. intros p ap ap' P Q. eapply store_pwf; eauto.
      intros ->. exact WA.
    - eapply sim_through; eauto. intros p ap ap' P Q. eapply combine_pwf; eauto.
  Qed.

  Lemma sim_start n : sim (start n) (vstart n).
  Proof.
    assert (NN : forall k, nth_error (repeat (@None nat) n) k = None \/ nth_error (repeat (@None nat) n) k = Some None).
    { intros k. rewrite nth_error_repeat. destruct (k <? n); auto. }
    assert (H0 : forall a, holders (start n) a = 0).
    { intros a. rewrite holders_pts. simpl.
      destruct (Nat.eq_dec (pts a (repeat None n)) 0) as [|X]; [lia|]. exfalso.
      assert (P : 0 < pts a (repeat None n)) by lia. apply pts_pos_inv in P. destruct P as [k E].
      destruct (NN k); congruence. }
    constructor; simpl; auto.
    - intros a. rewrite H0. destruct a; reflexivity.
    - intros a [].
    - intros a p L. rewrite H0 in L. lia.
    - tauto.
    - intros k a id E. destruct (NN k); congruence.
    - intros k j a b id jd E. destruct (NN k); congruence.
  Qed.

  Lemma sim_run ops m v v' : sim m v -> Forall writes_all ops -> vrun N W ops v = Some v' ->
    exists m', run N W ops m = Some m' /\ sim m' v'.
  Proof.
    revert m v; induction ops as [|o r IH]; simpl; intros m v S F E.
    - injection E as <-. eauto.
    - inversion F; subst. destruct (vstep N W o v) as [v1|] eqn:E1; try discriminate.
      destruct (sim_step _ _ _ _ S H1 E1) as (m1 & -> & S1). simpl. eauto.
  Qed.

  Lemma sim_read m v k : sim m v -> read_slot W m k = vread v k.
  Proof.
    intros S. unfold read_slot, vread.
    destruct (sim_slot _ _ k S) as [[A B]|[[A B]|(a & id & A & B)]]; rewrite A, B; auto.
    destruct (s_pix _ _ S _ _ _ A B) as (p & ap & Cp & Hp & P). rewrite Hp.
    unfold content in Cp. destruct (deref (m_heap m) a) as [[rc q]|]; try discriminate.
    simpl in Cp. injection Cp as ->. f_equal. eapply pwf_read; eauto.
  Qed.

  Theorem pool_invisible n ops v :
    Forall writes_all ops -> vrun N W ops (vstart n) = Some v ->
    exists m, run N W ops (start n) = Some m /\ forall k, read_slot W m k = vread v k.
  Proof.
    intros F E. destruct (sim_run _ _ _ _ (sim_start n) F E) as (m & Em & S).
    exists m. split; auto. intros k. apply sim_read; auto.
  Qed.

  (** ** Reference counts, whatever the client does *)

  Definition inv (m : mach) : Prop :=
    refs (holders m) (m_heap m) /\ forall a, In a (m_pool m) -> holders m a = 1.

  Lemma inv_through m k f m' : inv m -> through k f m = Some m' -> inv m'.
  Proof.
    intros [R P] E. unfold through in E.
    destruct (nth_error (m_slots m) k) as [[a|]|]; try discriminate.
    unfold modify in E. destruct (deref (m_heap m) a) as [[rc p]|] eqn:D; try discriminate.
    destruct (f p) as [p'|] eqn:F; try discriminate. simpl in E. injection E as <-.
    split; auto. simpl.
    assert (Cp : content (m_heap m) a = Some p) by (unfold content; rewrite D; auto).
    destruct (modify_ok _ _ a f p p' R Cp F) as (h' & Eh & R' & _).
    unfold modify in Eh. rewrite D, F in Eh. injection Eh as <-. exact R'.
  Qed.

  (** An assignment leaves no new pointer to a pooled pixel. *)
  Lemma inv_assign m k x m' :
    inv m -> (forall a, x = Some a -> 0 < holders m a /\ ~ In a (m_pool m)) ->
    assign k x m = Some m' -> inv m'.
  Proof.
    intros [R P] LX E.
    destruct (nth_error (m_slots m) k) as [old|] eqn:Eo; [|unfold assign in E; rewrite Eo in E; discriminate].
    destruct (assign_ok (fun _ => 0) k x m old Eo) as (m2 & E2 & Es2 & Ep2 & R2 & C2).
    { exact R. }
    { intros a ->. simpl. apply LX; auto. }
    rewrite E2 in E. injection E as <-. split; [exact R2|].
    intros a I. rewrite Ep2 in I. pose proof (P a I) as H. pose proof (pool_count _ _ I) as CC.
    rewrite holders_pts in H |- *. rewrite Ep2, Es2.
    pose proof (pts_lset k x old _ a Eo) as X.
    destruct (points_to a x) eqn:PX; [|destruct (points_to a old); lia].
    destruct x as [c|]; simpl in PX; try discriminate. apply Nat.eqb_eq in PX. subst c.
    destruct (LX a eq_refl) as [_ NI]. contradiction.
  Qed.

  Lemma inv_slot m k a : inv m -> nth_error (m_slots m) k = Some (Some a) ->
    0 < holders m a /\ ~ In a (m_pool m).
  Proof.
    intros [R P] E. split; [eapply slot_holders; eauto|]. intros I.
    pose proof (P a I) as H. rewrite holders_pts in H. apply pts_pos in E. apply pool_count in I. lia.
  Qed.

  Lemma inv_step m o m' : inv m -> step N W o m = Some m' -> inv m'.
  Proof.
    intros I E. destruct o as [k|k|k j|k|k|k i occ z w|k i order w]; simpl in E;
      try (eapply inv_through; eassumption).
    - destruct I as [R P].
      destruct (pool_allocate_inv m R P) as (m1 & a & p & E1 & Es & R1 & H0 & Cp & _ & OLD & PL).
      rewrite E1 in E. simpl in E.
      destruct (nth_error (m_slots m1) k) as [old|] eqn:Eo;
        [|unfold assign in E; rewrite Eo in E; discriminate].
      destruct (assign_ok (fun b => if Nat.eq_dec a b then 1 else 0) k (Some a) m1 old Eo)
        as (m2 & E2 & Es2 & Ep2 & R2 & C2).
      { exact R1. }
      { intros x Q. injection Q as <-. destruct (Nat.eq_dec a a); lia. }
      rewrite E2 in E. simpl in E.
      destruct (release_ok (holders m2) (m_heap m2) a) as (h3 & E3 & R3 & C3); [exact R2|].
      rewrite E3 in E. simpl in E. injection E as <-. split; [exact R3|]. simpl.
      intros b Ib. rewrite Ep2 in Ib. pose proof (PL b Ib) as Hb. pose proof (pool_count _ _ Ib) as Cb.
      rewrite holders_pts in Hb, H0. rewrite holders_pts. simpl. rewrite Ep2, Es2.
      pose proof (pts_lset k (Some a) old _ b Eo) as X. simpl in X.
      destruct (Nat.eqb_spec a b) as [Eab|nab]; [subst b; lia|].
      destruct (points_to b old); lia.
    - unfold pool_free in E. destruct (nth_error (m_slots m) k) as [[a|]|] eqn:A; try discriminate.
      destruct (deref (m_heap m) a) as [[rc p]|] eqn:D; try discriminate.
      destruct (Nat.eqb_spec rc 1) as [->|]; [|injection E as <-; auto].
      destruct (inv_slot _ _ _ I A) as [Ha NI]. destruct I as [R P].
      destruct (add_ref_ok _ _ a R Ha) as (h1 & E1 & R1 & C1). rewrite E1 in E. simpl in E.
      set (m1 := mkM h1 (m_slots m) (a :: m_pool m)) in E.
      assert (HH : forall b, holders m1 b = bump a (holders m) b).
      { intros b. unfold bump. rewrite !holders_pts. simpl. destruct (Nat.eq_dec a b); lia. }
      assert (H1 : holders m a = 1).
      { specialize (R a). unfold deref in D. destruct (nth_error (m_heap m) a) as [[[rc q]|]|]; try discriminate.
        injection D as -> _. lia. }
      destruct (assign_ok (fun _ => 0) k None m1 (Some a) A) as (m2 & E2 & Es2 & Ep2 & R2 & C2).
      { eapply refs_ext; [|exact R1]. intros b. symmetry. apply HH. }
      { discriminate. }
      rewrite E2 in E. injection E as <-. split; [exact R2|].
      assert (H2 : forall b, holders m2 b = holders m b).
      { intros b. rewrite !holders_pts. rewrite Ep2, Es2. pose proof (pts_lset k None _ _ b A) as X.
        simpl in X |- *. destruct (Nat.eq_dec a b) as [<-|n];
          [rewrite Nat.eqb_refl in X|apply Nat.eqb_neq in n; rewrite n in X]; lia. }
      intros b Ib. rewrite Ep2 in Ib. rewrite H2. simpl in Ib. destruct Ib as [<-|Ib]; auto.
    - destruct (nth_error (m_slots m) j) as [x|] eqn:Ej; try discriminate.
      eapply inv_assign; eauto. intros a ->. eapply inv_slot; eauto.
    - eapply inv_assign; eauto. discriminate.
  Qed.

  Theorem references_exact n ops m :
    run N W ops (start n) = Some m ->
    forall a, match nth_error (m_heap m) a with
              | Some (Some (rc, _)) => rc = holders m a /\ 0 < rc
              | _ => holders m a = 0
              end.
  Proof.
    intros E. assert (I : inv (start n)).
    { pose proof (sim_start n) as S. split; [apply (s_refs _ _ S)|apply (s_pool _ _ S)]. }
    assert (I' : inv m).
    { revert I E. generalize (start n). induction ops as [|o r IH]; simpl; intros m0 I E.
      - injection E as <-. auto.
      - destruct (step N W o m0) as [m1|] eqn:E1; try discriminate. simpl in E.
        apply (IH m1); [eapply inv_step; eauto|exact E]. }
    exact (proj1 I').
  Qed.
End Sim.

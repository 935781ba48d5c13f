(** Proofs about the RIB input buffer. *)

From Coq Require Import List Bool Arith ZArith Lia.
From Verif Require Import RibBufModel RibBufSpec.
Import ListNotations.

(** The byte that get() takes for the one before byte [i]. *)
Definition look (s : list Z) (i : nat) : Z :=
  match i with
  | O => 0%Z
  | S j => if i mod 255 =? 254 then byte_at s (i - 2) else byte_at s j
  end.

Definition step_pos (s : list Z) (i : nat) (p : pos) : pos :=
  let (line, col) := p in
  if ((byte_at s i =? CR) || ((byte_at s i =? LF) && negb (look s i =? CR)))%Z
  then (line + 1, 0)%Z
  else if (byte_at s i =? LF)%Z then (line, 0%Z) else (line, (col + 1)%Z).

Fixpoint pos_at (s : list Z) (p : nat) : pos :=
  match p with O => (1, 0)%Z | S q => step_pos s q (pos_at s q) end.

Fixpoint shows' (s : list Z) (p : nat) (ops : list bop) : list (option Z * pos) :=
  match ops with
  | [] => []
  | Get :: r => (Some (byte_at s p), pos_at s (S p)) :: shows' s (S p) r
  | Unget :: r => (None, pos_at s (p - 1)) :: shows' s (p - 1) r
  end.

(** After [p] bytes, [lap] times round the array. *)
Record inv (s : list Z) (p lap : nat) (after_get : bool) (b : buf) : Prop := {
  i_len : length (b_data b) = bufSize;
  i_rest : b_rest b = skipn (255 * lap + b_end b - 2) s;
  i_end : b_pos b < b_end b <= bufSize;
  i_two : 2 <= b_end b;
  i_pos : 255 * lap + b_pos b = p + 1;
  i_data : forall k, (if lap =? 0 then 2 else 1) <= k < b_end b ->
           nth_error (b_data b) k = Some (byte_at s (255 * lap + k - 2));
  i_zero : match lap with
           | O => nth_error (b_data b) 1 = Some 0%Z
           | _ => nth_error (b_data b) 0 = Some (byte_at s (255 * lap - 3))
           end;
  i_curr : b_curr b = pos_at s p;
  i_prev : after_get = true -> 1 <= p /\ 1 <= b_pos b /\ b_prev b = pos_at s (p - 1) }.

Lemma put_ok data a bs : a + length bs <= length data ->
  exists d, put data a bs = Some d /\ length d = length data /\
    forall k, nth_error d k = if (a <=? k) && (k <? a + length bs) then nth_error bs (k - a) else nth_error data k.
Proof.
  intros L. unfold put. rewrite (proj2 (Nat.leb_le _ _) L). eexists. split; [reflexivity|]. split.
  - rewrite !app_length, firstn_length, skipn_length. lia.
  - intros k. destruct (a <=? k) eqn:A; [apply Nat.leb_le in A|apply Nat.leb_gt in A]; cbn [andb].
    + rewrite nth_error_app2; rewrite firstn_length_le by lia; [|lia].
      destruct (k <? a + length bs) eqn:K; [apply Nat.ltb_lt in K|apply Nat.ltb_ge in K].
      * rewrite nth_error_app1 by lia. reflexivity.
      * rewrite nth_error_app2 by lia.
        assert (X : forall (l : list Z) m n, nth_error (skipn m l) n = nth_error l (m + n)).
        { intros l m. revert l. induction m; intros [|x l] n; simpl; auto. destruct n; auto. }
        rewrite X. f_equal. lia.
    + rewrite nth_error_app1 by (rewrite firstn_length_le by lia; lia).
      clear L. revert a A. revert k. induction data as [|x t IH]; intros k a A.
      * destruct a; destruct k; reflexivity.
      * destruct a; [lia|]. destruct k; [reflexivity|]. simpl. apply IH. lia.
Qed.

Lemma skipn_nth (s : list Z) n : hd eof (skipn n s) = byte_at s n.
Proof.
  unfold byte_at. revert s. induction n; intros [|x s]; simpl; auto.
Qed.

Lemma tl_skipn (s : list Z) n : tl (skipn n s) = skipn (S n) s.
Proof. revert s. induction n; intros [|x s]; auto. exact (IHn s). Qed.

Lemma firstn_skipn_nth (s : list Z) n m k : k < length (firstn m (skipn n s)) ->
  nth_error (firstn m (skipn n s)) k = Some (byte_at s (n + k)).
Proof.
  revert s m k. induction n; intros s m k H.
  - simpl in *. revert s k H. induction m; intros [|x s] k H; simpl in *; try lia.
    destruct k; simpl; auto. rewrite IHm by lia. reflexivity.
  - destruct s as [|x s]; [simpl in H; rewrite firstn_nil in H; simpl in H; lia|].
    simpl. simpl in H. rewrite IHn by auto. reflexivity.
Qed.

Lemma skipn_skipn' (s : list Z) n m : skipn m (skipn n s) = skipn (n + m) s.
Proof. revert s. induction n; intros [|x s]; simpl; auto. destruct m; auto. Qed.

(** Storing the next bytes of the stream from index [b_end] on keeps what the
    cells say. *)
Definition holds (s : list Z) (lap n : nat) (data : list Z) : Prop :=
  length data = bufSize /\
  (forall k, (if lap =? 0 then 2 else 1) <= k < n -> nth_error data k = Some (byte_at s (255 * lap + k - 2))) /\
  match lap with
  | O => nth_error data 1 = Some 0%Z
  | _ => nth_error data 0 = Some (byte_at s (255 * lap - 3))
  end.

Lemma fill s lap n data want :
  holds s lap n data -> (if lap =? 0 then 2 else 1) <= n < bufSize ->
  let rest := skipn (255 * lap + n - 2) s in
  let got := firstn (Nat.min want (bufSize - n)) rest in
  exists m data' rest',
    (match got with
     | _ :: _ => match put data n got with
                 | Some d' => Some (skipn (Nat.min want (bufSize - n)) rest, d', n + length got)
                 | None => None end
     | [] => match put data n [hd eof rest] with
             | Some d' => Some (tl rest, d', n + 1) | None => None end
     end) = Some (rest', data', m) /\ n < m <= bufSize /\ holds s lap m data' /\
    rest' = skipn (255 * lap + m - 2) s.
Proof.
  intros (L & D & Z0) N rest got.
  assert (NZ : 1 <= 255 * lap + n - 1) by (destruct lap; simpl in *; lia).
  assert (W : forall bs, (forall k, k < length bs -> nth_error bs k = Some (byte_at s (255 * lap + n - 2 + k))) ->
     n + length bs <= bufSize -> exists d, put data n bs = Some d /\ holds s lap (n + length bs) d).
  { intros bs B LB. destruct (put_ok data n bs) as (d & P & L' & G); [lia|]. exists d. split; auto.
    split; [lia|]. split.
    - intros k K. rewrite G. destruct (n <=? k) eqn:A; [apply Nat.leb_le in A|apply Nat.leb_gt in A]; cbn [andb].
      + rewrite (proj2 (Nat.ltb_lt _ _)) by lia. rewrite B by lia. do 2 f_equal.
        lia.
      + apply D. lia.
    - destruct lap; rewrite G.
      + simpl in N. destruct n as [|[|n]]; try lia. exact Z0.
      + simpl in N. destruct n as [|n]; try lia. exact Z0. }
  destruct got as [|g gs] eqn:E.
  - destruct (W [hd eof rest]) as (d & P & H).
    + intros [|k] K; simpl in K; try lia. simpl. unfold rest. rewrite skipn_nth, Nat.add_0_r. reflexivity.
    + simpl. lia.
    + exists (n + 1), d, (tl rest). rewrite P. split; [reflexivity|]. split; [lia|]. split; [exact H|].
      unfold rest. rewrite tl_skipn. f_equal. lia.
  - assert (GL : length (g :: gs) <= Nat.min want (bufSize - n)) by (rewrite <- E; unfold got; apply firstn_le_length).
    destruct (W (g :: gs)) as (d & P & H).
    + intros k K. rewrite <- E in *. unfold got, rest. apply firstn_skipn_nth. exact K.
    + lia.
    + exists (n + length (g :: gs)), d, (skipn (Nat.min want (bufSize - n)) rest). rewrite P.
      split; [reflexivity|]. split; [cbn [length] in *; lia|]. split; [exact H|].
      unfold rest. rewrite skipn_skipn'.
      assert (X : length (g :: gs) = Nat.min want (bufSize - n) \/ length (g :: gs) < Nat.min want (bufSize - n)) by lia.
      destruct X as [X|X].
      * rewrite X. f_equal. lia.
      * (* the stream ended *)
        assert (SL : length rest <= length (g :: gs)).
        { rewrite <- E in *. unfold got in *. rewrite firstn_length in *. lia. }
        unfold rest in SL. rewrite skipn_length in SL.
        rewrite !skipn_all2; auto; cbn [length] in *; lia.
Qed.

Lemma refill s p lap ag b : inv s p lap ag b -> S (b_pos b) = b_end b ->
  exists b' lap', buffer_next_chars (mkBuf (b_rest b) (b_chunks b) (b_data b) (S (b_pos b)) (b_end b) (b_curr b) (b_prev b)) = Some b' /\
    holds s lap' (b_end b') (b_data b') /\ b_pos b' < b_end b' <= bufSize /\ 2 <= b_end b' /\
    255 * lap' + b_pos b' = p + 2 /\ (if lap' =? 0 then 2 else 1) <= b_pos b' /\
    b_rest b' = skipn (255 * lap' + b_end b' - 2) s /\ b_curr b' = b_curr b.
Proof.
  intros [L R E T P D Z0 C V] X. unfold buffer_next_chars. cbn [b_pos b_end b_data b_rest b_chunks b_curr b_prev].
  rewrite X, Nat.eqb_refl. cbn [negb].
  destruct (b_end b =? bufSize) eqn:W; [apply Nat.eqb_eq in W|apply Nat.eqb_neq in W].
  - (* wrap *)
    assert (A : nth_error (b_data b) (bufSize - 2) = Some (byte_at s (255 * S lap - 3))).
    { rewrite D by (rewrite W; destruct lap; unfold bufSize; simpl; lia). do 2 f_equal. unfold bufSize. lia. }
    assert (B : nth_error (b_data b) (bufSize - 1) = Some (byte_at s (255 * S lap - 2))).
    { rewrite D by (rewrite W; destruct lap; unfold bufSize; simpl; lia). do 2 f_equal. unfold bufSize. lia. }
    rewrite A, B.
    destruct (put_ok (b_data b) 0 [byte_at s (255 * S lap - 3); byte_at s (255 * S lap - 2)]) as (d & PD & LD & G).
    { rewrite L. unfold bufSize. simpl. lia. }
    rewrite PD.
    destruct (fill s (S lap) 1 d (hd 0 (b_chunks b))) as (m & d' & r' & F & M & H & RR).
    { split; [lia|]. split; [intros k K; simpl in K; lia|]. rewrite G. reflexivity. }
    { unfold bufSize. simpl. lia. }
    assert (RE : b_rest b = skipn (255 * S lap + 1 - 2) s).
    { rewrite R, W. f_equal. unfold bufSize. lia. }
    rewrite RE. cbv zeta in F |- *.
    destruct (firstn (Nat.min (hd 0 (b_chunks b)) (bufSize - 1)) (skipn (255 * S lap + 1 - 2) s)) eqn:GOT.
    + destruct (put d 1 _) eqn:Q; [|discriminate]. injection F as <- <- <-.
      eexists _, (S lap). split; [reflexivity|].
      cbn [b_pos b_end b_data b_rest b_chunks b_curr b_prev]. split; [exact H|]. unfold bufSize in *. repeat split; auto; simpl; lia.
    + destruct (put d 1 _) eqn:Q; [|discriminate]. injection F as <- <- <-.
      eexists _, (S lap). split; [reflexivity|].
      cbn [b_pos b_end b_data b_rest b_chunks b_curr b_prev]. split; [exact H|]. unfold bufSize in *. repeat split; auto; simpl in *; lia.
  - destruct (fill s lap (b_end b) (b_data b) (hd 0 (b_chunks b))) as (m & d' & r' & F & M & H & RR).
    { split; [exact L|]. split; [exact D|exact Z0]. }
    { destruct (lap =? 0); lia. }
    rewrite R. cbv zeta in F |- *.
    destruct (firstn (Nat.min (hd 0 (b_chunks b)) (bufSize - b_end b)) (skipn (255 * lap + b_end b - 2) s)) eqn:GOT.
    + destruct (put (b_data b) (b_end b) _) eqn:Q; [|discriminate]. injection F as <- <- <-.
      eexists _, lap. split; [reflexivity|].
      cbn [b_pos b_end b_data b_rest b_chunks b_curr b_prev]. split; [exact H|].
      repeat split; auto; try lia. destruct (lap =? 0); lia.
    + destruct (put (b_data b) (b_end b) _) eqn:Q; [|discriminate]. injection F as <- <- <-.
      eexists _, lap. split; [reflexivity|].
      cbn [b_pos b_end b_data b_rest b_chunks b_curr b_prev]. split; [exact H|].
      cbn [length] in *. repeat split; auto; try lia. destruct (lap =? 0); lia.
Qed.

(** The cell before the current one holds what [look] says. *)
Lemma look_cell s lap n data k : holds s lap n data -> (if lap =? 0 then 2 else 1) <= k < n -> n <= bufSize ->
  nth_error data (k - 1) = Some (look s (255 * lap + k - 2)).
Proof.
  intros (L & D & Z0) K N. unfold bufSize in *.
  assert (M : forall r, r < 255 -> (255 * lap + r) mod 255 = r).
  { intros r R. rewrite Nat.add_comm, Nat.mul_comm, Nat.mod_add by lia. apply Nat.mod_small. lia. }
  destruct lap as [|lap].
  - simpl in K. destruct (Nat.eq_dec k 2) as [->|NE]; [exact Z0|].
    rewrite D by (simpl; lia).
    replace (255 * 0 + k - 2) with (S (k - 3)) by lia.
    unfold look. replace (S (k - 3) mod 255) with (k - 2) by (rewrite Nat.mod_small; lia).
    rewrite (proj2 (Nat.eqb_neq _ _)) by lia. do 2 f_equal. lia.
  - simpl in K. destruct (Nat.eq_dec k 1) as [->|NE].
    + change (1 - 1) with 0. rewrite Z0. f_equal.
      replace (255 * S lap + 1 - 2) with (S (255 * lap + 253)) by lia. unfold look.
      assert (Q : S (255 * lap + 253) mod 255 = 254).
      { replace (S (255 * lap + 253)) with (254 + lap * 255) by lia. rewrite Nat.mod_add by lia. reflexivity. }
      rewrite Q. simpl Nat.eqb. cbv iota. f_equal. lia.
    + rewrite D by (simpl; lia).
      destruct (Nat.eq_dec k 2) as [->|N2].
      * replace (255 * S lap + 2 - 2) with (S (255 * lap + 254)) by lia. unfold look.
        replace (S (255 * lap + 254)) with (255 * S lap + 0) at 1 by lia.
        replace ((255 * S lap + 0) mod 255) with 0 by (symmetry; apply (M 0); lia).
        simpl Nat.eqb. cbv iota. do 2 f_equal. lia.
      * replace (255 * S lap + k - 2) with (S (255 * S lap + (k - 3))) by lia.
        unfold look. replace (S (255 * S lap + (k - 3))) with (255 * S lap + (k - 2)) at 1 by lia.
        rewrite M by lia. rewrite (proj2 (Nat.eqb_neq _ _)) by lia. do 2 f_equal. lia.
Qed.

Lemma get_ok s p lap ag b : inv s p lap ag b ->
  exists b' lap', get b = Some (byte_at s p, b') /\ inv s (S p) lap' true b'.
Proof.
  intros I. pose proof I as [L R E T P D Z0 C V]. unfold get.
  assert (X : exists b2 lap',
     (if b_end b <=? S (b_pos b) then
        buffer_next_chars (mkBuf (b_rest b) (b_chunks b) (b_data b) (S (b_pos b)) (b_end b) (b_curr b) (b_prev b))
      else Some (mkBuf (b_rest b) (b_chunks b) (b_data b) (S (b_pos b)) (b_end b) (b_curr b) (b_prev b))) = Some b2 /\
     holds s lap' (b_end b2) (b_data b2) /\ b_pos b2 < b_end b2 <= bufSize /\ 2 <= b_end b2 /\
     255 * lap' + b_pos b2 = p + 2 /\ (if lap' =? 0 then 2 else 1) <= b_pos b2 /\
     b_rest b2 = skipn (255 * lap' + b_end b2 - 2) s /\ b_curr b2 = b_curr b).
  { destruct (b_end b <=? S (b_pos b)) eqn:Q; [apply Nat.leb_le in Q|apply Nat.leb_gt in Q].
    - apply (refill s p lap ag b I). lia.
    - eexists _, lap. split; [reflexivity|]. cbn [b_pos b_end b_data b_rest b_chunks b_curr b_prev].
      split; [split; [exact L|split; [exact D|exact Z0]]|]. repeat split; auto; try lia.
      destruct lap; simpl in *; lia. }
  destruct X as (b2 & lap' & G & H & N & N2 & PP & K & RR & CC).
  cbn [b_pos b_end b_data b_rest b_chunks b_curr b_prev]. rewrite G.
  pose proof (look_cell _ _ _ _ (b_pos b2) H (conj K (proj1 N)) (proj2 N)) as LC.
  destruct H as (HL & HD & HZ).
  assert (CE : nth_error (b_data b2) (b_pos b2) = Some (byte_at s p)).
  { rewrite HD by lia. do 2 f_equal. lia. }
  rewrite CE. replace (match b_pos b2 with O => None | S q => nth_error (b_data b2) q end)
    with (nth_error (b_data b2) (b_pos b2 - 1))
    by (destruct (b_pos b2) as [|q]; [destruct (lap' =? 0); lia|simpl; rewrite Nat.sub_0_r; reflexivity]).
  rewrite LC. replace (255 * lap' + b_pos b2 - 2) with p by lia.
  rewrite CC, C. destruct (pos_at s p) as [line col] eqn:PA.
  eexists _, lap'. split; [reflexivity|].
  constructor; cbn [b_pos b_end b_data b_rest b_chunks b_curr b_prev]; auto; try lia.
  - cbn [pos_at]. rewrite PA. reflexivity.
  - intros _. split; [lia|]. split; [destruct (lap' =? 0); lia|]. simpl. rewrite Nat.sub_0_r. auto.
Qed.

Lemma unget_ok s p lap b : inv s p lap true b ->
  exists b', unget b = Some b' /\ inv s (p - 1) lap false b'.
Proof.
  intros [L R E T P D Z0 C V]. destruct (V eq_refl) as (P1 & B1 & PV). unfold unget.
  destruct (b_pos b) as [|q] eqn:Q; [lia|]. eexists. split; [reflexivity|].
  constructor; cbn [b_pos b_end b_data b_rest b_chunks b_curr b_prev]; auto; try lia; try discriminate.
Qed.

Lemma run_ok s ops : forall p lap ag b, inv s p lap ag b -> single_ungets ag ops ->
  run ops b = Some (shows' s p ops).
Proof.
  induction ops as [|[|] r IH]; intros p lap ag b I S; [reflexivity| |].
  - destruct (get_ok s p lap ag b I) as (b' & lap' & G & I'). cbn [run]. rewrite G.
    rewrite (IH _ _ _ _ I' S). cbn [option_map shows']. rewrite (i_curr _ _ _ _ _ I'). reflexivity.
  - destruct S as [-> S]. destruct (unget_ok s p lap b I) as (b' & G & I'). cbn [run]. rewrite G.
    rewrite (IH _ _ _ _ I' S). cbn [option_map shows']. rewrite (i_curr _ _ _ _ _ I'). reflexivity.
Qed.

Lemma inv_open junk s chunks : length junk = bufSize - 2 -> inv s 0 0 false (open_buf junk s chunks).
Proof.
  intros J. constructor; simpl; auto; unfold bufSize in *; try lia; try discriminate.
Qed.

(** Whatever happens at the wrap, the bytes and the columns are right. *)
Lemma reads junk s chunks ops : length junk = bufSize - 2 -> single_ungets false ops ->
  run ops (open_buf junk s chunks) = Some (shows' s 0 ops).
Proof. intros J S. exact (run_ok s ops 0 0 false _ (inv_open junk s chunks J) S). Qed.

Lemma col_ok s p : snd (pos_at s p) = col_at s p.
Proof.
  induction p as [|p IH]; [reflexivity|]. cbn [pos_at col_at]. unfold step_pos.
  destruct (pos_at s p) as [line col]. cbn [snd] in IH. subst col.
  destruct (byte_at s p =? CR)%Z; cbn [orb]; [reflexivity|].
  destruct (byte_at s p =? LF)%Z; cbn [andb]; [|reflexivity].
  destruct (look s p =? CR)%Z; reflexivity.
Qed.

Lemma bytes_ok s ops : forall p, map (fun x => (fst x, snd (snd x))) (shows' s p ops)
  = map (fun x => (fst x, snd (snd x))) (shows s p ops).
Proof.
  induction ops as [|[|] r IH]; intros p; [reflexivity| |]; cbn [shows shows' map fst snd].
  - rewrite IH. rewrite (col_ok s (S p)). reflexivity.
  - rewrite IH. rewrite (col_ok s (p - 1)). reflexivity.
Qed.

Lemma look_ok s p : wraps_cleanly s -> byte_at s p = LF ->
  negb (look s p =? CR)%Z = match p with O => true | S j => negb (byte_at s j =? CR)%Z end.
Proof.
  intros W B. destruct p as [|j]; [reflexivity|]. unfold look.
  destruct (S j mod 255 =? 254) eqn:M; [|reflexivity]. apply Nat.eqb_eq in M.
  specialize (W (S j) M B). replace (S j - 1) with j in W by lia.
  f_equal. destruct (byte_at s j =? CR)%Z eqn:E.
  - apply Z.eqb_eq. apply W. apply Z.eqb_eq; auto.
  - apply Z.eqb_neq. apply Z.eqb_neq in E. tauto.
Qed.

Lemma line_ok s p : wraps_cleanly s -> pos_at s p = (line_at s p, col_at s p).
Proof.
  intros W. rewrite <- col_ok. destruct (pos_at s p) as [l c] eqn:E. cbn [snd]. f_equal.
  change l with (fst (l, c)). rewrite <- E. clear E l c.
  induction p as [|p IH]; [reflexivity|]. cbn [pos_at]. unfold line_at in *.
  rewrite seq_S, filter_app, app_length. cbn [plus filter]. unfold terminator at 2.
  unfold step_pos. destruct (pos_at s p) as [line col]. cbn [fst] in IH. subst line.
  destruct (byte_at s p =? CR)%Z; cbn [orb]; [cbn [fst length]; lia|].
  destruct (byte_at s p =? LF)%Z eqn:F; cbn [andb]; [|cbn [fst length]; lia].
  apply Z.eqb_eq in F. rewrite (look_ok s p W F).
  destruct (match p with O => true | S j => negb (byte_at s j =? CR)%Z end); cbn [fst length]; lia.
Qed.

Lemma shows_ok s ops : wraps_cleanly s -> forall p, shows' s p ops = shows s p ops.
Proof.
  intros W. induction ops as [|[|] r IH]; intros p; [reflexivity| |]; cbn [shows shows'].
  - rewrite IH, (line_ok s (S p) W). reflexivity.
  - rewrite IH, (line_ok s (p - 1) W). reflexivity.
Qed.

Lemma positions junk s chunks ops : length junk = bufSize - 2 -> single_ungets false ops -> wraps_cleanly s ->
  run ops (open_buf junk s chunks) = Some (shows s 0 ops).
Proof. intros J S W. rewrite reads by auto. rewrite shows_ok by auto. reflexivity. Qed.

Lemma bytes junk s chunks ops : length junk = bufSize - 2 -> single_ungets false ops ->
  exists r, run ops (open_buf junk s chunks) = Some r /\
    map (fun x => (fst x, snd (snd x))) r = map (fun x => (fst x, snd (snd x))) (shows s 0 ops).
Proof. intros J S. exists (shows' s 0 ops). split; [apply reads; auto|apply bytes_ok]. Qed.

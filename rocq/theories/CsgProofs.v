(** Proofs about CSG resolution. *)
From Verif Require Import CsgModel CsgSpec.

Lemma csg_ind' (P : csg -> Prop) :
  (forall i, P (Prim i)) -> (forall k i ch, Forall P ch -> P (Node k i ch)) -> forall t, P t.
Proof.
  intros Hp Hn. fix IH 1. intros [i|k i ch]; [apply Hp|]. apply Hn. induction ch; constructor; auto.
Qed.

Lemma NoDup_app_remove_l {X} (a b : list X) : NoDup (a ++ b) -> NoDup b.
Proof. induction a; simpl; auto. intros H; inversion H; auto. Qed.

Lemma prims_ids t p : In p (prims t) -> In p (ids t).
Proof.
  induction t as [i|k i ch IH] using csg_ind'; simpl; auto. intros H. right.
  apply in_flat_map in H. destruct H as (c & Hc & Hp). apply in_flat_map. exists c. split; auto.
  rewrite Forall_forall in IH. auto.
Qed.

Lemma rid_ids t : In (rid t) (ids t). Proof. destruct t; simpl; auto. Qed.

Lemma inside_ext t f g : (forall p, In p (prims t) -> f p = g p) -> inside f t = inside g t.
Proof.
  induction t as [i|k i ch IH] using csg_ind'; simpl; intros H; auto.
  rewrite Forall_forall in IH.
  assert (E : forall c, In c ch -> inside f c = inside g c).
  { intros c Hc. apply IH; auto. intros p Hp. apply H. apply in_flat_map. eauto. }
  clear IH H. destruct k.
  - induction ch; simpl; auto. rewrite E by (simpl; auto). f_equal. apply IHch. intros; apply E; simpl; auto.
  - induction ch; simpl; auto. rewrite E by (simpl; auto). f_equal. apply IHch. intros; apply E; simpl; auto.
  - destruct ch as [|c r]; auto. rewrite E by (simpl; auto). f_equal.
    assert (E' : forall d, In d r -> inside f d = inside g d) by (intros; apply E; simpl; auto). clear E.
    induction r; simpl; auto. rewrite E' by (simpl; auto). f_equal. apply IHr. intros; apply E'; simpl; auto.
Qed.

(** States are all false at the start *)
Lemma inside_false t : operands_ok t = true -> inside (fun _ => false) t = false.
Proof.
  induction t as [i|k i ch IH] using csg_ind'; simpl; auto. intros H. apply andb_prop in H. destruct H as [H1 H2].
  rewrite Forall_forall in IH. rewrite forallb_forall in H2.
  assert (E : forall c, In c ch -> inside (fun _ => false) c = false) by (intros; apply IH; auto).
  destruct ch as [|c r]; [discriminate|]. destruct k; simpl; rewrite E by (simpl; auto); auto.
  simpl. assert (E' : forall d, In d r -> inside (fun _ => false) d = false) by (intros; apply E; simpl; auto).
  clear - E'. induction r; simpl; auto. rewrite E' by (simpl; auto). simpl. apply IHr. intros; apply E'; simpl; auto.
Qed.

Definition mem (p : nat) (l : list nat) : bool := existsb (Nat.eqb p) l.
Lemma mem_in p l : mem p l = true <-> In p l.
Proof.
  unfold mem. rewrite existsb_exists. split.
  - intros (x & H & E). apply Nat.eqb_eq in E. subst; auto.
  - intros H. exists p. split; auto. apply Nat.eqb_refl.
Qed.
Lemma mem_not p l : mem p l = false <-> ~ In p l.
Proof. rewrite <- mem_in. destruct (mem p l); split; intros; congruence. Qed.

Section S.
Context {A : Type}.
Notation sample := (@sample A).

(** One tree's part of the walk *)
Fixpoint surv (label : option nat) (t : csg) (ins : nat -> bool) (s : list sample) : list sample :=
  match s with
  | [] => []
  | (None, a) :: r => (None, a) :: surv label t ins r
  | (Some p, a) :: r =>
      if mem p (prims t) then
        let ins' := cross p ins in
        if Bool.eqb (inside ins t) (inside ins' t) then surv label t ins' r
        else (label, a) :: surv label t ins' r
      else (Some p, a) :: surv label t ins r
  end.

(** The children's part of the walk *)
Definition owner (cs : list csg) (p : nat) : option csg := find (fun c => mem p (prims c)) cs.

Definition is_prim (t : csg) : bool := match t with Prim _ => true | _ => false end.

Fixpoint sc (cs : list csg) (ins : nat -> bool) (s : list sample) : list sample :=
  match s with
  | [] => []
  | (None, a) :: r => (None, a) :: sc cs ins r
  | (Some p, a) :: r =>
      match owner cs p with
      | None => (Some p, a) :: sc cs ins r
      | Some c =>
          let ins' := cross p ins in
          if is_prim c then (Some p, a) :: sc cs ins' r
          else if Bool.eqb (inside ins c) (inside ins' c) then sc cs ins' r
          else (Some (rid c), a) :: sc cs ins' r
      end
  end.

Lemma sc_nil ins s : sc [] ins s = s.
Proof. revert ins. induction s as [|[[p|] a] r IH]; intros; simpl; auto; rewrite IH; auto. Qed.

Lemma owner_some cs p c : owner cs p = Some c -> In c cs /\ In p (prims c).
Proof. intros H. apply find_some in H. rewrite mem_in in H. auto. Qed.
Lemma owner_none cs p : owner cs p = None <-> ~ In p (flat_map prims cs).
Proof.
  unfold owner. induction cs; simpl; [split; auto|]. rewrite in_app_iff.
  destruct (mem p (prims a)) eqn:E.
  - rewrite mem_in in E. split; [discriminate|tauto].
  - rewrite mem_not in E. rewrite IHcs. tauto.
Qed.

Definition agree (l : list nat) (f g : nat -> bool) := forall p, In p l -> f p = g p.
Lemma agree_cross l f g p : agree l f g -> agree l (cross p f) (cross p g).
Proof. intros H q Hq. unfold cross. rewrite (H q Hq). auto. Qed.
Lemma agree_out l f g p : agree l f g -> ~ In p l -> agree l f (cross p g).
Proof. intros H N q Hq. unfold cross. destruct (Nat.eqb_spec q p); subst; auto. tauto. Qed.
Lemma agree_in t (f g : nat -> bool) : agree (prims t) f g -> inside f t = inside g t.
Proof. intros. apply inside_ext. auto. Qed.
Lemma agree_sub l m f g : agree m f g -> incl l m -> agree l f g.
Proof. intros H I p Hp. auto. Qed.

Lemma sc_prim i cs ins s : ~ In i (flat_map prims cs) -> forall ins1,
  agree (flat_map prims cs) ins ins1 -> sc cs ins s = sc (Prim i :: cs) ins1 s.
Proof.
  intros N. revert ins. induction s as [|[[p|] a] r IH]; intros ins ins1 G; simpl; auto; [|f_equal; auto].
  unfold owner at 2. simpl. destruct (p =? i) eqn:E; simpl.
  - apply Nat.eqb_eq in E. subst. apply owner_none in N as N'. rewrite N'. simpl. f_equal. apply IH.
    apply agree_out; auto.
  - fold (owner cs p). destruct (owner cs p) as [c|] eqn:O; [|f_equal; auto].
    destruct (owner_some _ _ _ O) as [Hc Hp].
    assert (Ec : agree (prims c) ins ins1).
    { eapply agree_sub; [exact G|]. intros q Hq. apply in_flat_map. eauto. }
    rewrite (agree_in c _ _ Ec), (agree_in c _ _ (agree_cross _ _ _ p Ec)).
    rewrite (IH (cross p ins) (cross p ins1)) by (apply agree_cross; auto). auto.
Qed.

Lemma sc_cons k i ch cs s :
  let c := Node k i ch in
  (forall p, In p (ids c) -> ~ In p (flat_map ids cs)) ->
  forall ins1 ins2 ins, agree (prims c) ins1 ins -> agree (flat_map prims cs) ins2 ins ->
  sc cs ins2 (surv (Some i) c ins1 s) = sc (c :: cs) ins s.
Proof.
  intros c D.
  assert (D' : forall p, In p (ids c) -> ~ In p (flat_map prims cs)).
  { intros p Hp Hq. apply (D p Hp). apply in_flat_map in Hq. destruct Hq as (d & Hd & Hp'). apply in_flat_map.
    exists d. split; auto. apply prims_ids; auto. }
  induction s as [|[[p|] a] r IH]; intros ins1 ins2 ins G1 G2; cbn [surv sc]; auto; [|f_equal; auto].
  unfold owner at 1. cbn [find]. destruct (mem p (prims c)) eqn:M.
  - apply mem_in in M. rewrite (agree_in c _ _ G1), (agree_in c _ _ (agree_cross _ _ _ p G1)).
    change (is_prim c) with false. cbn [rid c].
    assert (Hout : agree (flat_map prims cs) ins2 (cross p ins)).
    { apply agree_out; auto. apply D'. apply prims_ids; auto. }
    destruct (Bool.eqb (inside ins c) (inside (cross p ins) c)); cbn [sc].
    + apply IH; auto. apply agree_cross; auto.
    + assert (O : owner cs i = None) by (apply owner_none; apply D'; simpl; auto). rewrite O.
      change (rid c) with i. f_equal. apply IH; auto. apply agree_cross; auto.
  - cbn [sc]. fold (owner cs p). apply mem_not in M. destruct (owner cs p) as [d|] eqn:O; [|f_equal; auto].
    destruct (owner_some _ _ _ O) as [Hc Hp].
    assert (Ec : agree (prims d) ins2 ins).
    { eapply agree_sub; [exact G2|]. intros q Hq. apply in_flat_map. eauto. }
    rewrite (agree_in d _ _ Ec), (agree_in d _ _ (agree_cross _ _ _ p Ec)).
    assert (X : sc cs (cross p ins2) (surv (Some i) c ins1 r) = sc (c :: cs) (cross p ins) r).
    { apply IH; [apply agree_out; auto|apply agree_cross; auto]. }
    rewrite X. auto.
Qed.

(** Labels of a sample list that are nodes of [t] are primitives of [t]. *)
Definition clean (t : csg) (s : list sample) : Prop :=
  forall p a, In (Some p, a) s -> In p (ids t) -> In p (prims t).

Lemma surv_in label t s : forall ins n a, In (n, a) (surv label t ins s) ->
  n = label \/ (In (n, a) s /\ forall p, n = Some p -> ~ In p (prims t)).
Proof.
  induction s as [|[[p|] b] r IH]; simpl; intros ins n a H; [tauto| |].
  - destruct (mem p (prims t)) eqn:M.
    + destruct (Bool.eqb _ _).
      * apply IH in H. tauto.
      * destruct H as [H|H]; [inversion H; auto|]. apply IH in H. tauto.
    + destruct H as [H|H].
      * inversion H; subst. right. split; auto. intros q Hq. inversion Hq; subst. apply mem_not; auto.
      * apply IH in H. tauto.
  - destruct H as [H|H]; [inversion H; subst; right; split; auto; discriminate|]. apply IH in H. tauto.
Qed.

Lemma index_of_split pre x post : ~ In x pre -> index_of x (pre ++ x :: post) = Some (length pre).
Proof.
  induction pre; simpl; intros N.
  - rewrite Nat.eqb_refl. auto.
  - destruct (Nat.eqb_spec a x); [subst; tauto|]. rewrite IHpre; tauto.
Qed.
Lemma index_of_none x l : ~ In x l -> index_of x l = None.
Proof. induction l; simpl; auto. intros N. destruct (Nat.eqb_spec a x); [tauto|]. rewrite IHl; tauto. Qed.

Lemma toggle_split pre b post : toggle (length pre) (pre ++ b :: post) = pre ++ negb b :: post.
Proof. induction pre; simpl; auto. f_equal; auto. Qed.

Lemma eval_inside k i ch ins : ch <> [] ->
  eval_state k (map (inside ins) ch) = Some (inside ins (Node k i ch)).
Proof.
  intros N. destruct k; cbn [inside eval_state].
  - f_equal. clear. induction ch; simpl; auto. f_equal; auto.
  - f_equal. clear. induction ch; simpl; auto. f_equal; auto.
  - destruct ch as [|c r]; [congruence|]. cbn. do 2 f_equal. clear. induction r; simpl; auto.
    rewrite negb_orb. f_equal; auto.
Qed.

(** The pass at a node *)
Lemma pass_ok k i ch label s : ch <> [] ->
  NoDup (flat_map ids ch) -> forall ins,
  (forall p a, In (Some p, a) s -> In p (flat_map ids ch) -> In p (flat_map prims ch)) ->
  pass k label (map rid ch) (map (inside ins) ch) (inside ins (Node k i ch)) (sc ch ins s)
  = Some (surv label (Node k i ch) ins s).
Proof.
  intros Hne ND. set (t := Node k i ch). assert (Pt : prims t = flat_map prims ch) by reflexivity.
  induction s as [|[[p|] a] r IH]; intros ins Cl; cbn [sc surv pass]; auto.
  2: { cbn [pass is_child]. rewrite IH by (intros; eapply Cl; simpl; eauto). auto. }
  assert (Clr : forall p a, In (Some p, a) r -> In p (flat_map ids ch) -> In p (flat_map prims ch))
    by (intros; eapply Cl; simpl; eauto).
  rewrite Pt. destruct (owner ch p) as [c|] eqn:O.
  - destruct (owner_some _ _ _ O) as [Hc Hp].
    assert (M : mem p (flat_map prims ch) = true) by (apply mem_in, in_flat_map; eauto). rewrite M.
    destruct (in_split _ _ Hc) as (pre & post & E).
    assert (Dis : forall d, In d (pre ++ post) -> forall q, In q (ids c) -> ~ In q (ids d)).
    { intros d Hd q Hq Hq'. rewrite E, flat_map_app in ND. simpl in ND.
      apply in_app_or in Hd. destruct Hd as [Hd|Hd].
      - apply in_split in Hd. destruct Hd as (x & y & ->). rewrite flat_map_app in ND. simpl in ND.
        rewrite <- !app_assoc in ND. apply NoDup_app_remove_l in ND.
        clear -ND Hq Hq'. induction (ids d); simpl in *; [tauto|]. inversion ND; subst.
        destruct Hq' as [->|Hq']; [|auto]. apply H1. rewrite !in_app_iff. auto.
      - apply NoDup_app_remove_l in ND. clear -ND Hq Hq' Hd.
        induction (ids c); simpl in *; [tauto|]. inversion ND; subst. destruct Hq as [->|Hq]; [|auto].
        apply H1. rewrite in_app_iff. right. apply in_flat_map. eauto. }
    assert (Vec : forall d, In d (pre ++ post) -> inside (cross p ins) d = inside ins d).
    { intros d Hd. apply inside_ext. intros q Hq. unfold cross. destruct (Nat.eqb_spec q p); auto. subst.
      exfalso. apply (Dis d Hd p); apply prims_ids; auto. }
    assert (V1 : map (inside ins) pre = map (inside (cross p ins)) pre).
    { apply map_ext_in. intros d Hd. symmetry. apply Vec. apply in_app_iff. auto. }
    assert (V2 : map (inside ins) post = map (inside (cross p ins)) post).
    { apply map_ext_in. intros d Hd. symmetry. apply Vec. apply in_app_iff. auto. }
    assert (Idx : is_child (map rid ch) (Some (rid c)) = Some (length pre)).
    { cbn [is_child]. rewrite E, map_app. simpl. rewrite index_of_split, map_length; auto.
      intros Hr. apply in_map_iff in Hr. destruct Hr as (d & Hd & Hin).
      apply (Dis d) with (rid c). { apply in_app_iff; auto. } { apply rid_ids. } { rewrite <- Hd. apply rid_ids. } }
    assert (Tog : inside (cross p ins) c = negb (inside ins c) ->
                  toggle (length pre) (map (inside ins) ch) = map (inside (cross p ins)) ch).
    { intros Hn. rewrite E, !map_app. simpl. rewrite V1 at 1.
      rewrite <- (map_length (inside (cross p ins)) pre), toggle_split, V2, Hn. auto. }
    assert (Toggled : forall r0, inside (cross p ins) c = negb (inside ins c) ->
       r0 = rid c ->
       pass k label (map rid ch) (map (inside ins) ch) (inside ins t) ((Some r0, a) :: sc ch (cross p ins) r)
       = Some (if Bool.eqb (inside ins t) (inside (cross p ins) t) then surv label t (cross p ins) r
               else (label, a) :: surv label t (cross p ins) r)).
    { intros r0 Hn ->. cbn [pass]. rewrite Idx, (Tog Hn), (eval_inside k i ch (cross p ins) Hne). fold t.
      specialize (IH (cross p ins) Clr). destruct (Bool.eqb (inside (cross p ins) t) (inside ins t)) eqn:Q.
      - apply Bool.eqb_prop in Q. rewrite Q, Bool.eqb_reflx. rewrite <- Q at 1. exact IH.
      - destruct (Bool.eqb (inside ins t) (inside (cross p ins) t)) eqn:Q2.
        + apply Bool.eqb_prop in Q2. rewrite Q2, Bool.eqb_reflx in Q. discriminate.
        + rewrite IH. auto. }
    destruct (is_prim c) eqn:Ip.
    + destruct c as [i'|]; [|discriminate]. simpl in Hp. destruct Hp as [->|[]]. apply Toggled; auto.
      cbn. unfold cross. rewrite Nat.eqb_refl. auto.
    + destruct (Bool.eqb (inside ins c) (inside (cross p ins) c)) eqn:Q.
      * apply Bool.eqb_prop in Q.
        assert (Same : map (inside ins) ch = map (inside (cross p ins)) ch).
        { rewrite E, !map_app. simpl. rewrite V1, V2, Q. auto. }
        assert (St : inside ins t = inside (cross p ins) t).
        { pose proof (eval_inside k i ch ins Hne) as X. pose proof (eval_inside k i ch (cross p ins) Hne) as Y.
          rewrite Same in X. rewrite X in Y. inversion Y. auto. }
        rewrite St, Bool.eqb_reflx, Same. apply IH; auto.
      * apply Toggled; auto. destruct (inside ins c), (inside (cross p ins) c); auto; discriminate.
  - pose proof (proj1 (owner_none _ _) O) as N.
    assert (M : mem p (flat_map prims ch) = false) by (apply mem_not; auto). rewrite M. cbn [pass is_child].
    rewrite index_of_none.
    + rewrite IH by auto. auto.
    + intros H. apply N. apply (Cl p a); simpl; auto. apply in_map_iff in H. destruct H as (d & <- & Hd).
      apply in_flat_map. exists d. split; auto. apply rid_ids.
Qed.

Definition children := (fix children (cs : list csg) (s : list sample) : option (list sample) :=
               match cs with
               | [] => Some s
               | c :: r => match c with
                           | Prim _ => children r s
                           | Node _ _ _ => match process false c s with Some s' => children r s' | None => None end
                           end
               end).

Lemma clean_surv t u label ins s :
  (forall p, In p (ids t) -> ~ In p (ids u)) -> (forall p, label = Some p -> In p (ids t)) ->
  clean u s -> clean u (surv label t ins s).
Proof.
  intros D L C p a H Hp. apply surv_in in H. destruct H as [H|[H _]]; [|eapply C; eauto].
  exfalso. symmetry in H. apply L in H. apply (D p); auto.
Qed.

Theorem process_ok t : forall top s, is_prim t = false ->
  NoDup (ids t) -> operands_ok t = true -> clean t s ->
  process top t s = Some (surv (if top then None else Some (rid t)) t (fun _ => false) s).
Proof.
  induction t as [i|k i ch IH] using csg_ind'; intros top s Hp ND Ok Cl; [discriminate|].
  cbn [process]. fold children. simpl in ND. inversion ND as [|? ? Hi ND']; subst. clear ND.
  cbn [operands_ok] in Ok. apply andb_prop in Ok. destruct Ok as [Hne Ok].
  assert (Hne' : ch <> []) by (destruct ch; [discriminate|congruence]).
  assert (Ch : children ch s = Some (sc ch (fun _ => false) s)).
  { assert (Clc : forall c, In c ch -> clean c s).
    { intros c Hc p a Ha Hpc. assert (In p (flat_map prims ch)).
      { apply (Cl p a Ha). simpl. right. apply in_flat_map. eauto. }
      apply in_flat_map in H. destruct H as (d & Hd & Hpd).
      clear -Hc Hd Hpd Hpc ND'. revert Hc Hd. induction ch as [|e r IHr]; simpl; [tauto|].
      simpl in ND'. assert (NDr : NoDup (flat_map ids r)) by (apply NoDup_app_remove_l in ND'; auto).
      assert (X : forall q x, In q (ids e) -> In x r -> ~ In q (ids x)).
      { clear -ND'. intros q x Hq Hx Hqx. induction (ids e); simpl in *; [tauto|]. inversion ND'; subst.
        destruct Hq as [->|Hq]; auto. apply H1. apply in_app_iff. right. apply in_flat_map. eauto. }
      intros [->|Hc] [->|Hd]; auto.
      - exfalso. apply (X p d); auto using prims_ids.
      - exfalso. apply (X p c); auto using prims_ids. }
    clear Cl Hp Hne Hne' Hi. revert s Clc. induction ch as [|c r IHr]; intros s Clc.
    - cbn. rewrite sc_nil. auto.
    - inversion IH as [|? ? Hc Hr]; subst. cbn [forallb] in Ok. apply andb_prop in Ok. destruct Ok as [Okc Okr].
      cbn [flat_map] in ND'. assert (NDr : NoDup (flat_map ids r)) by (apply NoDup_app_remove_l in ND'; auto).
      assert (X : forall q, In q (ids c) -> ~ In q (flat_map ids r)).
      { clear -ND'. intros q Hq Hqx. induction (ids c); simpl in *; [tauto|]. inversion ND'; subst.
        destruct Hq as [->|Hq]; auto. apply H1. apply in_app_iff. auto. }
      destruct c as [j|k' j ch'].
      + cbn [children]. fold children. rewrite IHr; auto; [|intros; apply Clc; simpl; auto]. f_equal.
        apply sc_prim; [|intros ? ?; auto].
        intros Q. apply (X j); simpl; auto. apply in_flat_map in Q. destruct Q as (d & Hd & Hq).
        apply in_flat_map. exists d. auto using prims_ids.
      + cbn [children]. fold children. rewrite (Hc false s); auto; [| |apply Clc; simpl; auto].
        * cbn [rid]. rewrite IHr; auto.
          -- f_equal. apply sc_cons; auto; intros ? ?; auto.
          -- intros d Hd. apply clean_surv; auto.
             ++ intros p Hpc Hpd. apply (X p); auto. apply in_flat_map. eauto.
             ++ intros p Hp. inversion Hp; subst. simpl; auto.
             ++ apply Clc. simpl; auto.
        * clear -ND'. induction (ids (Node k' j ch')); [constructor|]. simpl in ND'. inversion ND'; subst. constructor; auto.
          intros Q. apply H1. apply in_app_iff; auto. }
  rewrite Ch.
  assert (Z : map (fun _ : csg => false) ch = map (inside (fun _ => false)) ch).
  { apply map_ext_in. intros c Hc. symmetry. apply inside_false. rewrite forallb_forall in Ok. auto. }
  rewrite Z, (eval_inside k i ch _ Hne').
  apply pass_ok; auto. intros p a Ha Hpi. apply (Cl p a Ha). simpl. auto.
Qed.

(** * Forests *)

Lemma null_surv i ins s : null_out i s = surv None (Prim i) ins s.
Proof.
  revert ins. induction s as [|[[p|] a] r IH]; intros; simpl; auto.
  - rewrite Nat.eqb_sym. destruct (Nat.eqb_spec i p); simpl.
    + subst. unfold cross at 1. rewrite Nat.eqb_refl. destruct (ins p); simpl; f_equal; auto.
    + f_equal; auto.
  - f_equal; auto.
Qed.

Lemma process_top t s : NoDup (ids t) -> operands_ok t = true -> clean t s ->
  process true t s = Some (surv None t (fun _ => false) s).
Proof.
  intros. destruct t; [simpl; f_equal; apply null_surv|]. rewrite process_ok; auto.
Qed.

(** The walk, with some trees already resolved *)
Lemma seen_surv forest t : In t forest -> NoDup (flat_map ids forest) -> forall s ins1 ins2 ins,
  agree (prims t) ins1 ins -> (forall u, In u forest -> u <> t -> agree (prims u) ins2 ins) ->
  seen forest ins2 (surv None t ins1 s) = seen forest ins s.
Proof.
  intros Ht ND.
  assert (Own : forall p, In p (prims t) -> solid_of forest p = Some t).
  { intros p Hp. unfold solid_of. clear -Ht ND Hp. induction forest as [|u r IH]; simpl in *; [tauto|].
    assert (X : forall q, In q (ids u) -> ~ In q (flat_map ids r)).
    { clear -ND. intros q Hq Hqx. induction (ids u); simpl in *; [tauto|]. inversion ND; subst.
      destruct Hq as [->|Hq]; auto. apply H1. apply in_app_iff. auto. }
    destruct Ht as [->|Ht].
    - assert (M : mem p (prims t) = true) by (apply mem_in; auto). unfold mem in M. rewrite M. auto.
    - assert (M : mem p (prims u) = false).
      { apply mem_not. intros Q. apply (X p); [apply prims_ids; auto|]. apply in_flat_map. exists t. auto using prims_ids. }
      unfold mem in M. rewrite M. apply IH; auto. apply NoDup_app_remove_l in ND. auto. }
  assert (Uniq : forall u p, In u forest -> In p (prims t) -> In p (prims u) -> u = t).
  { intros u p Hu Hp Hpu. clear -Ht Hu Hp Hpu ND. induction forest as [|v r IH]; simpl in *; [tauto|].
    assert (X : forall q x, In q (ids v) -> In x r -> ~ In q (ids x)).
    { clear -ND. intros q x Hq Hx Hqx. induction (ids v); simpl in *; [tauto|]. inversion ND; subst.
      destruct Hq as [->|Hq]; auto. apply H1. apply in_app_iff. right. apply in_flat_map. eauto. }
    apply NoDup_app_remove_l in ND.
    destruct Ht as [->|Ht], Hu as [->|Hu]; auto.
    - exfalso. apply (X p u); auto using prims_ids.
    - exfalso. apply (X p t); auto using prims_ids. }
  induction s as [|[[p|] a] r IH]; intros ins1 ins2 ins G1 G2; cbn [surv seen]; auto; [|f_equal; auto].
  destruct (mem p (prims t)) eqn:M.
  - apply mem_in in M. rewrite (Own p M), (agree_in t _ _ G1), (agree_in t _ _ (agree_cross _ _ _ p G1)).
    assert (X : seen forest ins2 (surv None t (cross p ins1) r) = seen forest (cross p ins) r).
    { apply IH; [apply agree_cross; auto|]. intros u Hu Hn. apply agree_out; auto. intros Q. apply Hn. eapply Uniq; eauto. }
    destruct (Bool.eqb _ _); cbn [seen]; [|f_equal]; auto.
  - apply mem_not in M. cbn [seen].
    assert (X : seen forest (cross p ins2) (surv None t ins1 r) = seen forest (cross p ins) r).
    { apply IH; [apply agree_out; auto|]. intros u Hu Hn. apply agree_cross; auto. }
    destruct (solid_of forest p) as [u|] eqn:O; auto.
    apply find_some in O. destruct O as [Hu Hp]. apply (mem_in p) in Hp.
    assert (Hn : u <> t) by (intros ->; tauto).
    rewrite (agree_in u _ _ (G2 u Hu Hn)), (agree_in u _ _ (agree_cross _ _ _ p (G2 u Hu Hn))), X. auto.
Qed.

(** Trees that still have hits *)
Definition pending (forest : list csg) (s : list sample) : list csg :=
  filter (fun t => existsb (fun x : sample => match fst x with Some p => mem p (prims t) | None => false end) s) forest.

Lemma first_none (s : list sample) : first_node s = None -> forall n a, In (n, a) s -> n = None.
Proof.
  unfold first_node. intros H n a Ha. destruct (find _ s) as [[m b]|] eqn:F.
  - apply find_some in F. destruct F as [_ F]. subst. discriminate.
  - apply (find_none _ _ F) in Ha. simpl in Ha. destruct n; auto; discriminate.
Qed.
Lemma first_some (s : list sample) p : first_node s = Some p -> exists a, In (Some p, a) s.
Proof.
  unfold first_node. destruct (find _ s) as [[m b]|] eqn:F; [|discriminate]. intros ->. apply find_some in F.
  exists b. tauto.
Qed.

Lemma seen_nulls forest ins (s : list sample) : (forall n a, In (n, a) s -> n = None) -> seen forest ins s = s.
Proof.
  revert ins. induction s as [|[n a] r IH]; intros ins H; simpl; auto.
  pose proof (H n a (or_introl eq_refl)). subst. f_equal. apply IH. intros; eapply H; simpl; eauto.
Qed.

Lemma filter_shorter {B} (f g : B -> bool) l x : In x l -> g x = false -> f x = true ->
  (forall y, g y = true -> f y = true) -> length (filter g l) < length (filter f l).
Proof.
  intros Hx Gx Fx Imp. induction l as [|b l IH]; simpl in *; [tauto|].
  assert (W : length (filter g l) <= length (filter f l)).
  { clear -Imp. induction l as [|b l IH]; simpl; auto. destruct (g b) eqn:Gb; [rewrite (Imp _ Gb); simpl; lia|].
    destruct (f b); simpl; lia. }
  destruct Hx as [->|Hx].
  - rewrite Gx, Fx. simpl. lia.
  - specialize (IH Hx). destruct (g b) eqn:Gb; [rewrite (Imp _ Gb); simpl; lia|]. destruct (f b); simpl; lia.
Qed.

Theorem csg_loop_ok forest : forest_ok forest -> forall fuel s, hits_ok forest s ->
  length (pending forest s) <= fuel ->
  csg_loop fuel forest s = Resolved (seen forest (fun _ => false) s).
Proof.
  intros [ND Ok]. induction fuel as [|f IH]; intros s Hs Hf.
  - unfold csg_loop. destruct (first_node s) as [p|] eqn:F.
    + exfalso. destruct (first_some _ _ F) as [a Ha]. specialize (Hs p a Ha).
      apply in_flat_map in Hs. destruct Hs as (t & Ht & Hp).
      assert (In t (pending forest s)).
      { apply filter_In. split; auto. apply existsb_exists. exists (Some p, a). split; auto. apply mem_in; auto. }
      destruct (pending forest s); simpl in *; [tauto|lia].
    + f_equal. symmetry. apply seen_nulls. apply first_none; auto.
  - cbn [csg_loop]. destruct (first_node s) as [p|] eqn:F.
    2: { f_equal. symmetry. apply seen_nulls. apply first_none; auto. }
    destruct (first_some _ _ F) as [a Ha]. pose proof (Hs p a Ha) as Hp.
    apply in_flat_map in Hp. destruct Hp as (t & Ht & Hp).
    assert (Hfind : find (fun t => existsb (Nat.eqb p) (ids t)) forest = Some t).
    { clear -Ht Hp ND. induction forest as [|u r IHr]; simpl in *; [tauto|].
      assert (X : forall q x, In q (ids u) -> In x r -> ~ In q (ids x)).
      { clear -ND. intros q x Hq Hx Hqx. induction (ids u); simpl in *; [tauto|]. inversion ND; subst.
        destruct Hq as [->|Hq]; auto. apply H1. apply in_app_iff. right. apply in_flat_map. eauto. }
      destruct (existsb (Nat.eqb p) (ids u)) eqn:M.
      - apply (mem_in p) in M. destruct Ht as [->|Ht]; auto. exfalso. apply (X p t); auto using prims_ids.
      - destruct Ht as [->|Ht].
        + apply (mem_not p) in M. exfalso. apply M. apply prims_ids; auto.
        + apply IHr; auto. apply NoDup_app_remove_l in ND. auto. }
    unfold process_tree. rewrite Hfind.
    assert (NDt : NoDup (ids t)).
    { clear -Ht ND. induction forest as [|u r IHr]; simpl in *; [tauto|]. destruct Ht as [->|Ht].
      - clear -ND. induction (ids t); [constructor|]. simpl in ND. inversion ND; subst. constructor; auto.
        intros Q. apply H1. apply in_app_iff; auto.
      - apply IHr; auto. apply NoDup_app_remove_l in ND. auto. }
    assert (Okt : operands_ok t = true) by (rewrite forallb_forall in Ok; auto).
    assert (Uniq : forall u q, In u forest -> In q (ids t) -> In q (ids u) -> u = t).
    { intros u q Hu Hq Hqu. clear -Ht Hu Hq Hqu ND. induction forest as [|v r IHr]; simpl in *; [tauto|].
      assert (X : forall q x, In q (ids v) -> In x r -> ~ In q (ids x)).
      { clear -ND. intros q' x Hq Hx Hqx. induction (ids v); simpl in *; [tauto|]. inversion ND; subst.
        destruct Hq as [->|Hq]; auto. apply H1. apply in_app_iff. right. apply in_flat_map. eauto. }
      apply NoDup_app_remove_l in ND.
      destruct Ht as [->|Ht], Hu as [->|Hu]; auto.
      - exfalso. apply (X q u); auto.
      - exfalso. apply (X q t); auto. }
    rewrite process_top; auto.
    2: { intros q b Hq Hqi. specialize (Hs q b Hq). apply in_flat_map in Hs. destruct Hs as (u & Hu & Hqu).
         rewrite <- (Uniq u q); auto using prims_ids. }
    rewrite IH.
    + f_equal. apply seen_surv; auto; [intros ? ?; auto|intros ? _ _ ? ?; auto].
    + intros q b Hq. apply surv_in in Hq. destruct Hq as [Hq|[Hq _]]; [discriminate|]. eapply Hs; eauto.
    + apply Nat.lt_succ_r. eapply Nat.lt_le_trans; [|exact Hf]. unfold pending. apply filter_shorter with t; auto.
      * destruct (existsb _ _) eqn:Q; auto. apply existsb_exists in Q. destruct Q as ([[q|] b] & Q1 & Q2); [|discriminate].
        simpl in Q2. apply mem_in in Q2. apply surv_in in Q1. destruct Q1 as [Q1|[_ Q1]]; [discriminate|].
        exfalso. apply (Q1 q); auto.
      * apply existsb_exists. exists (Some p, a). split; auto. apply mem_in; auto.
      * intros u Hu. apply existsb_exists in Hu. destruct Hu as ([[q|] b] & Q1 & Q2); [|discriminate].
        apply surv_in in Q1. destruct Q1 as [Q1|[Q1 _]]; [discriminate|]. apply existsb_exists. exists (Some q, b). auto.
Qed.

Lemma pending_bound forest (s : list sample) : length (pending forest s) <= length forest.
Proof. unfold pending. induction forest; simpl; auto. destruct (existsb _ s); simpl; lia. Qed.

Theorem csg_resolves forest (hits : list sample) : forest_ok forest -> hits_ok forest hits -> forall fuel, length forest <= fuel ->
  csg_loop fuel forest hits = Resolved (seen forest (fun _ => false) hits).
Proof. intros. apply csg_loop_ok; auto. eapply Nat.le_trans; [apply pending_bound|]. auto. Qed.

Lemma seen_free forest (s : list sample) : forall ins n a, In (n, a) (seen forest ins s) -> n = None.
Proof.
  induction s as [|[[p|] b] r IH]; simpl; intros ins n a H; [tauto| |].
  - destruct (solid_of forest p); [|eauto]. destruct (Bool.eqb _ _); [eauto|]. destruct H as [H|H]; [inversion H; auto|eauto].
  - destruct H as [H|H]; [inversion H; auto|eauto].
Qed.

End S.

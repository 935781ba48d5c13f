(** Proofs about options. *)

From Coq Require Import List Bool ZArith Arith Lia.
From Verif Require Import HashModel SearchModel OptModel OptSpec.
Import ListNotations.
Open Scope nat_scope.

(** *** Lists *)

Lemma upd_length : forall {A} n (a : A) l, List.length (upd n a l) = List.length l.
Proof. induction n as [|n IH]; intros a [|x l]; cbn [upd List.length]; auto. Qed.

Lemma nth_upd_same : forall {A} n (a d : A) l, n < List.length l -> nth n (upd n a l) d = a.
Proof.
  induction n as [|n IH]; intros a d [|x l] H; cbn [upd nth List.length] in *; try lia; auto.
  apply IH; lia.
Qed.

Lemma nth_upd_other : forall {A} n m (a d : A) l, m <> n -> nth m (upd n a l) d = nth m l d.
Proof.
  induction n as [|n IH]; intros [|m] a d [|x l] H; cbn [upd nth]; auto; try congruence.
Qed.

Lemma In_upd : forall {A} n (a x : A) l, In x (upd n a l) -> x = a \/ In x l.
Proof.
  induction n as [|n IH]; intros a x [|y l] H; cbn [upd] in H; auto.
  - destruct H as [<-|H]; cbn; auto.
  - destruct H as [<-|H]; [cbn; auto|]. destruct (IH _ _ _ H); cbn; auto.
Qed.

Lemma nth_snoc_old : forall {A} n (l : list A) a d, n < List.length l -> nth n (l ++ [a]) d = nth n l d.
Proof. intros; apply app_nth1; assumption. Qed.

Lemma nth_snoc_new : forall {A} (l : list A) a d, nth (List.length l) (l ++ [a]) d = a.
Proof. intros; rewrite app_nth2, Nat.sub_diag; [reflexivity | lia]. Qed.

Lemma upd_at : forall {A} (pre : list A) b post x, upd (List.length pre) x (pre ++ b :: post) = pre ++ x :: post.
Proof. induction pre as [|p pre IH]; intros; cbn [List.length app upd]; [|rewrite IH]; reflexivity. Qed.

Lemma name_eqb_eq : forall a b, name_eqb a b = true <-> a = b.
Proof.
  induction a as [|x a IH]; intros [|y b]; cbn [name_eqb]; split; intros H; try congruence; try discriminate.
  - apply andb_true_iff in H; destruct H as (E & F); apply Z.eqb_eq in E; apply IH in F; congruence.
  - inversion H; subst; rewrite Z.eqb_refl; apply IH; reflexivity.
Qed.

Lemma name_eqb_refl : forall a, name_eqb a a = true.
Proof. intros; apply name_eqb_eq; reflexivity. Qed.

Lemma same_name_eqb : forall a b, same_name a b = name_eqb a b.
Proof.
  intros a b; unfold same_name; destruct (list_eq_dec Z.eq_dec a b) as [->|N].
  - rewrite name_eqb_refl; reflexivity.
  - destruct (name_eqb a b) eqn:E; [apply name_eqb_eq in E; contradiction | reflexivity].
Qed.

Lemma ty_eqb_eq : forall a b, ty_eqb a b = true <-> a = b.
Proof. intros [] []; split; intros H; try reflexivity; discriminate. Qed.

Lemma kind_eqb_eq : forall a b, kind_eqb a b = true <-> a = b.
Proof. intros [] []; split; intros H; try reflexivity; discriminate. Qed.

Lemma assoc_set_same : forall {A} n (a : A) l, assoc n (set_assoc n a l) = Some a.
Proof.
  intros A n a; induction l as [|[m b] l IH]; cbn [set_assoc assoc].
  - rewrite name_eqb_refl; reflexivity.
  - destruct (name_eqb m n) eqn:E; cbn [assoc]; rewrite E; auto.
Qed.

Lemma assoc_set_other : forall {A} n k (a : A) l, k <> n -> assoc k (set_assoc n a l) = assoc k l.
Proof.
  intros A n k a l H; induction l as [|[m b] l IH]; cbn [set_assoc assoc].
  - destruct (name_eqb n k) eqn:E; [apply name_eqb_eq in E; congruence | reflexivity].
  - destruct (name_eqb m n) eqn:E; cbn [assoc].
    + destruct (name_eqb m k) eqn:F; [|reflexivity].
      apply name_eqb_eq in E; apply name_eqb_eq in F; congruence.
    + rewrite IH; reflexivity.
Qed.

(** Counting: a thing that occurs once in a joined list, and occurs in the
    part of [o], occurs in no other part. *)
Lemma count_flat : forall (f : nat -> list nat) l o c, NoDup l -> In o l -> In c (f o) ->
  count_occ Nat.eq_dec (flat_map f l) c = 1 ->
  forall o', In o' l -> o' <> o -> ~ In c (f o').
Proof.
  intros f l o c; induction l as [|x l IH]; intros N I C H o' I' D J; [destruct I|].
  cbn [flat_map] in H; rewrite count_occ_app in H.
  apply NoDup_cons_iff in N; destruct N as (NX & N).
  assert (P : forall y, In y l -> In c (f y) -> count_occ Nat.eq_dec (flat_map f l) c > 0).
  { intros y Iy Iy'; apply count_occ_In, in_flat_map; exists y; auto. }
  destruct I as [->|I], I' as [->|I'].
  - congruence.
  - pose proof (P o' I' J); pose proof (proj1 (count_occ_In Nat.eq_dec (f o) c) C); lia.
  - pose proof (P o I C); pose proof (proj1 (count_occ_In Nat.eq_dec (f o') c) J); lia.
  - pose proof (P o I C); apply (IH N I C) with (o' := o'); auto. lia.
Qed.

Section Heap.
  Variable word : Z.
  Variable env : list Z -> option (list Z).
  Variable names : list name.
  Hypothesis nc : no_clash word names.

  (** *** States in order *)

  Record Good (st : state) : Prop := {
    g_roots : forall o, In o (roots st) -> o < List.length (objs st);
    g_cells : forall ob c, In ob (objs st) -> In c (o_cells ob) -> c < List.length (cells st);
    g_names : forall c, In c (cells st) -> In (c_name c) names;
    g_imagers : forall x, In x (imagers st) -> snd x = true;
    g_imager : forall ob i, In ob (objs st) -> o_imager ob = Some i -> i < List.length (imagers st);
    g_blocks : exists pre m, blocks st = pre ++ [m] /\ b_kind m = Main /\
                 forall b, In b pre -> b_kind b <> Main
  }.

  Lemma obj_in : forall st o, o < List.length (objs st) -> In (obj_at st o) (objs st).
  Proof. intros; apply nth_In; assumption. Qed.

  Lemma cell_in : forall st c, c < List.length (cells st) -> In (cell_at st c) (cells st).
  Proof. intros; apply nth_In; assumption. Qed.

  (** The object [o] is the same for every reader. *)
  Definition same (st st' : state) (o : nat) : Prop :=
    (forall nm pm, p_parameter word st' o nm pm = p_parameter word st o nm pm) /\
    o_filter (obj_at st' o) = o_filter (obj_at st o) /\
    o_imager (obj_at st' o) = o_imager (obj_at st o).

  Lemma same_refl : forall st o, same st st o.
  Proof. intros; repeat split. Qed.

  Lemma same_trans : forall a b c o, same a b o -> same b c o -> same a c o.
  Proof.
    intros a b c o (H1 & H2 & H3) (K1 & K2 & K3); repeat split;
      [intros; rewrite K1; apply H1 | congruence | congruence].
  Qed.

  Lemma find_slot_some : forall st h cs i j c, find_slot word st h i cs = Some (j, c) ->
    i <= j /\ j - i < List.length cs /\ nth (j - i) cs 0 = c /\ hash word (c_name (cell_at st c)) = h /\ In c cs.
  Proof.
    intros st h; induction cs as [|x cs IH]; intros i j c E; cbn [find_slot] in E; [discriminate|].
    destruct (hash word (c_name (cell_at st x)) =? h)%Z eqn:H.
    - inversion E; subst; rewrite Nat.sub_diag; apply Z.eqb_eq in H; cbn; repeat split; auto; lia.
    - destruct (IH _ _ _ E) as (A & B & C & D & F).
      replace (j - i) with (S (j - S i)) by lia; cbn; repeat split; auto; lia.
  Qed.

  (** Slots are found by the names of the cells only. *)
  Lemma find_slot_names : forall st st' h cs i,
    (forall c, In c cs -> c_name (cell_at st' c) = c_name (cell_at st c)) ->
    find_slot word st' h i cs = find_slot word st h i cs.
  Proof.
    intros st st' h; induction cs as [|x cs IH]; intros i H; cbn [find_slot]; [reflexivity|].
    rewrite (H x (or_introl eq_refl)).
    destruct (_ =? _)%Z; [reflexivity|]; apply IH; intros c I; apply H; right; exact I.
  Qed.

  (** The object is the same when its slots and its cells are. *)
  Lemma same_cells : forall st st' o, obj_at st' o = obj_at st o ->
    (forall c, In c (o_cells (obj_at st o)) -> cell_at st' c = cell_at st c) -> same st st' o.
  Proof.
    intros st st' o E H; split; [|rewrite E; auto].
    intros nm pm; unfold p_parameter; rewrite E.
    rewrite (find_slot_names st st') by (intros c I; rewrite (H c I); reflexivity).
    destruct (find_slot word st (hash word nm) 0 (o_cells (obj_at st o))) as [[j c]|] eqn:F; [|reflexivity].
    destruct (find_slot_some _ _ _ _ _ _ F) as (_ & _ & _ & _ & I); rewrite (H c I); reflexivity.
  Qed.

  (** Replacing a slot by one whose cell is equal. *)
  Lemma find_slot_replace : forall st st' h cs i j n,
    (forall c, In c cs -> c_name (cell_at st' c) = c_name (cell_at st c)) ->
    c_name (cell_at st' n) = c_name (cell_at st (nth j cs 0)) ->
    find_slot word st' h i (upd j n cs) =
    match find_slot word st h i cs with
    | Some (k, c) => Some (k, if k - i =? j then n else c)
    | None => None
    end.
  Proof.
    intros st st' h; induction cs as [|x cs IH]; intros i j n H E.
    - destruct j; reflexivity.
    - destruct j as [|j]; cbn [upd find_slot nth] in *.
      + rewrite E; destruct (hash word (c_name (cell_at st x)) =? h)%Z.
        * rewrite Nat.sub_diag; reflexivity.
        * rewrite (find_slot_names st st') by (intros c I; apply H; right; exact I).
          destruct (find_slot word st h (S i) cs) as [[k c]|] eqn:F; [|reflexivity].
          destruct (find_slot_some _ _ _ _ _ _ F) as (L & _).
          destruct (Nat.eqb_spec (k - i) 0); [lia | reflexivity].
      + rewrite (H x (or_introl eq_refl)); destruct (hash word (c_name (cell_at st x)) =? h)%Z.
        * rewrite Nat.sub_diag; reflexivity.
        * rewrite IH by (auto; intros c I; apply H; right; exact I).
          destruct (find_slot word st h (S i) cs) as [[k c]|] eqn:F; [|reflexivity].
          destruct (find_slot_some _ _ _ _ _ _ F) as (L & _).
          replace (k - i) with (S (k - S i)) by lia; reflexivity.
  Qed.

  Lemma find_slot_snoc : forall st h cs i n,
    find_slot word st h i (cs ++ [n]) =
    match find_slot word st h i cs with
    | Some r => Some r
    | None => if (hash word (c_name (cell_at st n)) =? h)%Z then Some (i + List.length cs, n) else None
    end.
  Proof.
    intros st h; induction cs as [|x cs IH]; intros i n; cbn [app find_slot List.length].
    - rewrite Nat.add_0_r; reflexivity.
    - destruct (_ =? _)%Z; [reflexivity|]; rewrite IH.
      replace (S i + List.length cs) with (i + S (List.length cs)) by lia; reflexivity.
  Qed.

  (** *** Writing *)

  (** What [option_write] promises: the cell it returns is the one found under
      the name, no other live object has it, and no reader sees a change. *)
  Definition Ready (st : state) (o : nat) (nm : name) (c : nat) : Prop :=
    c < List.length (cells st) /\
    (exists j, find_slot word st (hash word nm) 0 (o_cells (obj_at st o)) = Some (j, c)) /\
    c_name (cell_at st c) = nm /\
    (forall o', In o' (roots st) -> o' <> o -> ~ In c (o_cells (obj_at st o'))).

  Definition Frame_same (st st' : state) : Prop :=
    blocks st' = blocks st /\ held st' = held st /\ imagers st' = imagers st /\
    List.length (objs st') = List.length (objs st).

  Lemma roots_frame : forall st st', Frame_same st st' -> roots st' = roots st.
  Proof. intros st st' (A & B & _); unfold roots; rewrite A, B; reflexivity. Qed.

  Lemma option_write_ok : forall st o nm st' c, Good st -> In o (roots st) -> In nm names ->
    option_write word st o nm = (st', c) ->
    Good st' /\ Frame_same st st' /\ Ready st' o nm c /\
    (forall o', In o' (roots st) -> same st st' o').
  Proof.
    intros st o nm st' c G Io Inm E.
    pose proof (g_roots _ G o Io) as Lo.
    set (ob := obj_at st o) in *.
    assert (Iob : In ob (objs st)) by (apply obj_in; exact Lo).
    unfold option_write in E; fold ob in E.
    destruct (find_slot word st (hash word nm) 0 (o_cells ob)) as [[i d]|] eqn:F.
    - destruct (find_slot_some _ _ _ _ _ _ F) as (_ & Li & Ni & Hd & Id).
      rewrite Nat.sub_0_r in Li, Ni.
      pose proof (g_cells _ G ob d Iob Id) as Ld.
      assert (Nd : c_name (cell_at st d) = nm).
      { apply nc; [apply (g_names _ G), cell_in; exact Ld | exact Inm | exact Hd]. }
      destruct (unique_cell st d) eqn:U.
      + inversion E; subst st' c; clear E.
        split; [exact G|]; split; [repeat split|]; split; [|intros; apply same_refl].
        split; [exact Ld|]; split; [exists i; exact F|]; split; [exact Nd|].
        unfold unique_cell in U; apply Nat.eqb_eq in U.
        intros o' I' D'.
        apply (count_flat (fun x => o_cells (obj_at st x)) (nodup Nat.eq_dec (roots st)) o d);
          auto using NoDup_nodup; apply nodup_In; assumption.
      + set (n := List.length (cells st)) in *.
        injection E as E Ec; subst c.
        set (ob' := {| o_cells := upd i n (o_cells ob); o_filter := o_filter ob; o_imager := o_imager ob |}) in *.
        assert (Cn : cell_at st' n = cell_at st d).
        { subst st'; unfold cell_at, with_objs, with_cells, n; cbn [cells].
          apply nth_snoc_new. }
        assert (Co : forall x, x < n -> cell_at st' x = cell_at st x).
        { intros x Lx; subst st'; unfold cell_at, with_objs, with_cells; cbn [cells].
          apply nth_snoc_old; exact Lx. }
        assert (Oo : obj_at st' o = ob').
        { subst st'; unfold obj_at, with_objs; cbn [objs]; apply nth_upd_same; exact Lo. }
        assert (Ox : forall x, x <> o -> obj_at st' x = obj_at st x).
        { intros x D; subst st'; unfold obj_at, with_objs; cbn [objs]; apply nth_upd_other; exact D. }
        assert (Fr : Frame_same st st').
        { subst st'; unfold Frame_same, with_objs, with_cells; cbn; rewrite upd_length; auto. }
        split; [|split; [exact Fr|split]].
        * constructor.
          -- intros x; rewrite (roots_frame _ _ Fr); destruct Fr as (_ & _ & _ & ->); apply (g_roots _ G).
          -- intros x y; subst st'; unfold with_objs, with_cells; cbn [objs cells].
             rewrite app_length; cbn [List.length]; intros Ix Iy.
             destruct (In_upd _ _ _ _ Ix) as [->|Ix'].
             ++ cbn [o_cells ob'] in Iy; destruct (In_upd _ _ _ _ Iy) as [->|Iy']; [unfold n; lia|].
                pose proof (g_cells _ G ob y Iob Iy'); lia.
             ++ pose proof (g_cells _ G x y Ix' Iy); lia.
          -- intros x; subst st'; unfold with_objs, with_cells; cbn [cells]; intros Ix.
             apply in_app_or in Ix; destruct Ix as [Ix|[<-|[]]]; apply (g_names _ G); [exact Ix|].
             apply cell_in; exact Ld.
          -- destruct Fr as (_ & _ & -> & _); apply (g_imagers _ G).
          -- intros x y; destruct Fr as (_ & _ & -> & _); subst st'; unfold with_objs; cbn [objs].
             intros Ix Ey; destruct (In_upd _ _ _ _ Ix) as [->|Ix'].
             ++ apply (g_imager _ G ob); assumption.
             ++ apply (g_imager _ G x); assumption.
          -- destruct Fr as (-> & _); apply (g_blocks _ G).
        * split; [subst st'; unfold with_objs, with_cells; cbn [cells]; rewrite app_length; cbn; unfold n; lia|].
          split; [|split].
          -- exists i; rewrite Oo; cbn [o_cells ob'].
             rewrite (find_slot_replace st st').
             ++ fold ob in F; rewrite F, Nat.sub_0_r, Nat.eqb_refl; reflexivity.
             ++ intros x Ix; rewrite Co; [reflexivity | exact (g_cells _ G ob x Iob Ix)].
             ++ rewrite Cn, Ni; reflexivity.
          -- rewrite Cn; exact Nd.
          -- intros o' I' D'; rewrite (Ox o' D'); intros J.
             rewrite (roots_frame _ _ Fr) in I'.
             pose proof (g_cells _ G _ _ (obj_in st o' (g_roots _ G o' I')) J); unfold n in *; lia.
        * intros o' I'; destruct (Nat.eq_dec o' o) as [->|D'].
          -- split; [|rewrite Oo; split; reflexivity].
             intros nm' pm; unfold p_parameter; rewrite Oo; fold ob; cbn [o_cells ob'].
             rewrite (find_slot_replace st st').
             ++ destruct (find_slot word st (hash word nm') 0 (o_cells ob)) as [[k x]|] eqn:F'; [|reflexivity].
                destruct (find_slot_some _ _ _ _ _ _ F') as (_ & _ & Nk & _ & Ix).
                rewrite Nat.sub_0_r in Nk |- *; destruct (Nat.eqb_spec k i) as [->|Dk].
                ** rewrite Cn, <- Ni, Nk; reflexivity.
                ** rewrite Co; [reflexivity | exact (g_cells _ G ob x Iob Ix)].
             ++ intros x Ix; rewrite Co; [reflexivity | exact (g_cells _ G ob x Iob Ix)].
             ++ rewrite Cn, Ni; reflexivity.
          -- apply same_cells; [apply Ox; exact D'|].
             intros x Ix; apply Co; exact (g_cells _ G _ x (obj_in st o' (g_roots _ G o' I')) Ix).
    - set (n := List.length (cells st)) in *.
      injection E as E Ec; subst c.
      set (ob' := {| o_cells := o_cells ob ++ [n]; o_filter := o_filter ob; o_imager := o_imager ob |}) in *.
      set (new := {| c_name := nm; c_params := [] |}) in *.
      assert (Cn : cell_at st' n = new).
      { subst st'; unfold cell_at, with_objs, with_cells, n; cbn [cells]; apply nth_snoc_new. }
      assert (Co : forall x, x < n -> cell_at st' x = cell_at st x).
      { intros x Lx; subst st'; unfold cell_at, with_objs, with_cells; cbn [cells].
        apply nth_snoc_old; exact Lx. }
      assert (Oo : obj_at st' o = ob').
      { subst st'; unfold obj_at, with_objs; cbn [objs]; apply nth_upd_same; exact Lo. }
      assert (Ox : forall x, x <> o -> obj_at st' x = obj_at st x).
      { intros x D; subst st'; unfold obj_at, with_objs; cbn [objs]; apply nth_upd_other; exact D. }
      assert (Fr : Frame_same st st').
      { subst st'; unfold Frame_same, with_objs, with_cells; cbn; rewrite upd_length; auto. }
      assert (Fs : forall h, find_slot word st' h 0 (o_cells ob ++ [n]) =
        match find_slot word st h 0 (o_cells ob) with
        | Some r => Some r
        | None => if (hash word nm =? h)%Z then Some (List.length (o_cells ob), n) else None
        end).
      { intros h; rewrite find_slot_snoc, Cn, (find_slot_names st st'); [reflexivity|].
        intros x Ix; rewrite Co; [reflexivity | exact (g_cells _ G ob x Iob Ix)]. }
      split; [|split; [exact Fr|split]].
      + constructor.
        * intros x; rewrite (roots_frame _ _ Fr); destruct Fr as (_ & _ & _ & ->); apply (g_roots _ G).
        * intros x y; subst st'; unfold with_objs, with_cells; cbn [objs cells].
          rewrite app_length; cbn [List.length]; intros Ix Iy.
          destruct (In_upd _ _ _ _ Ix) as [->|Ix'].
          -- cbn [o_cells ob'] in Iy; apply in_app_or in Iy; destruct Iy as [Iy|[<-|[]]]; [|unfold n; lia].
             pose proof (g_cells _ G ob y Iob Iy); lia.
          -- pose proof (g_cells _ G x y Ix' Iy); lia.
        * intros x; subst st'; unfold with_objs, with_cells; cbn [cells]; intros Ix.
          apply in_app_or in Ix; destruct Ix as [Ix|[<-|[]]]; [apply (g_names _ G); exact Ix | exact Inm].
        * destruct Fr as (_ & _ & -> & _); apply (g_imagers _ G).
        * intros x y; destruct Fr as (_ & _ & -> & _); subst st'; unfold with_objs; cbn [objs].
          intros Ix Ey; destruct (In_upd _ _ _ _ Ix) as [->|Ix'].
          -- apply (g_imager _ G ob); assumption.
          -- apply (g_imager _ G x); assumption.
        * destruct Fr as (-> & _); apply (g_blocks _ G).
      + split; [subst st'; unfold with_objs, with_cells; cbn [cells]; rewrite app_length; cbn; unfold n; lia|].
        split; [|split].
        * exists (List.length (o_cells ob)); rewrite Oo; cbn [o_cells ob']; rewrite Fs, F, Z.eqb_refl; reflexivity.
        * rewrite Cn; reflexivity.
        * intros o' I' D'; rewrite (Ox o' D'); intros J.
          rewrite (roots_frame _ _ Fr) in I'.
          pose proof (g_cells _ G _ _ (obj_in st o' (g_roots _ G o' I')) J); unfold n in *; lia.
      + intros o' I'; destruct (Nat.eq_dec o' o) as [->|D'].
        * split; [|rewrite Oo; split; reflexivity].
          intros nm' pm; unfold p_parameter; rewrite Oo; fold ob; cbn [o_cells ob'].
          rewrite Fs; destruct (find_slot word st (hash word nm') 0 (o_cells ob)) as [[k x]|] eqn:F'.
          -- destruct (find_slot_some _ _ _ _ _ _ F') as (_ & _ & _ & _ & Ix).
             rewrite Co; [reflexivity | exact (g_cells _ G ob x Iob Ix)].
          -- destruct (_ =? _)%Z; [rewrite Cn|]; reflexivity.
        * apply same_cells; [apply Ox; exact D'|].
          intros x Ix; apply Co; exact (g_cells _ G _ x (obj_in st o' (g_roots _ G o' I')) Ix).
  Qed.

  Lemma set_param_ok : forall st o nm c pm p, Good st -> In o (roots st) -> In nm names ->
    Ready st o nm c ->
    let st' := set_param st c pm p in
    Good st' /\ Frame_same st st' /\ Ready st' o nm c /\
    objs st' = objs st /\
    assoc pm (c_params (cell_at st' c)) = Some p /\
    p_parameter word st' o nm pm = Some p /\
    (forall nm' pm', In nm' names -> nm' <> nm \/ pm' <> pm ->
       p_parameter word st' o nm' pm' = p_parameter word st o nm' pm') /\
    (forall o', In o' (roots st) -> o' <> o -> same st st' o').
  Proof.
    intros st o nm c pm p G Io Inm (Lc & (j & F) & Nc & Alone) st'.
    assert (Cc : cell_at st' c = {| c_name := nm; c_params := set_assoc pm p (c_params (cell_at st c)) |}).
    { unfold st', set_param, cell_at at 1, with_cells; cbn [cells]; rewrite nth_upd_same by exact Lc.
      rewrite Nc; reflexivity. }
    assert (Cx : forall x, x <> c -> cell_at st' x = cell_at st x).
    { intros x D; unfold st', set_param, cell_at, with_cells; cbn [cells]; apply nth_upd_other; exact D. }
    assert (Cn : forall x, c_name (cell_at st' x) = c_name (cell_at st x)).
    { intros x; destruct (Nat.eq_dec x c) as [->|D]; [rewrite Cc; cbn; symmetry; exact Nc | rewrite Cx by exact D; reflexivity]. }
    assert (Fr : Frame_same st st') by (repeat split).
    assert (Ob : forall x, obj_at st' x = obj_at st x) by reflexivity.
    assert (Fs : forall h cs, find_slot word st' h 0 cs = find_slot word st h 0 cs).
    { intros h cs; apply find_slot_names; intros; apply Cn. }
    split; [|split; [exact Fr|split; [|split; [reflexivity|split; [|split; [|split]]]]]].
    - destruct G as [G1 G2 G3 G4 G5 G6]; constructor; auto.
      + intros ob x I J; unfold st', set_param, with_cells; cbn [cells]; rewrite upd_length; apply (G2 ob x I J).
      + intros x I; unfold st', set_param, with_cells in I; cbn [cells] in I.
        destruct (In_upd _ _ _ _ I) as [->|I']; [cbn [c_name]; rewrite Nc; exact Inm | exact (G3 x I')].
    - split; [unfold st', set_param, with_cells; cbn [cells]; rewrite upd_length; exact Lc|].
      split; [exists j; rewrite Ob, Fs; exact F|]; split; [rewrite Cn; exact Nc|].
      intros o' I' D'; rewrite Ob; exact (Alone o' I' D').
    - rewrite Cc; cbn [c_params]; apply assoc_set_same.
    - unfold p_parameter; rewrite Ob, Fs, F, Cc; cbn [c_params]; apply assoc_set_same.
    - intros nm' pm' I' D'; unfold p_parameter; rewrite Ob, Fs.
      destruct (find_slot word st (hash word nm') 0 (o_cells (obj_at st o))) as [[k x]|] eqn:F'; [|reflexivity].
      destruct (Nat.eq_dec x c) as [->|D]; [|rewrite Cx by exact D; reflexivity].
      destruct (find_slot_some _ _ _ _ _ _ F') as (_ & _ & _ & H & _).
      rewrite Nc in H; apply nc in H; [|exact Inm|exact I'].
      rewrite Cc; cbn [c_params]; apply assoc_set_other.
      destruct D' as [D'|D']; congruence.
    - intros o' I' D'; apply same_cells; [reflexivity|].
      intros x Ix; apply Cx; intros ->; exact (Alone o' I' D' Ix).
  Qed.

  (** *** Reading against the specification *)

  Definition shows (st : state) (o : nat) (s : sopt) : Prop :=
    (forall nm pm, In nm names -> s_val s nm pm =
       option_map (fun p => (p_type p, p_vals p)) (p_parameter word st o nm pm)) /\
    s_filter s = o_filter (obj_at st o) /\
    match s_imager s, o_imager (obj_at st o) with
    | None, None => True
    | Some x, Some i => fst (nth i (imagers st) (0%Z, false)) = x
    | _, _ => False
    end.

  Lemma shows_same : forall st st' o s, same st st' o -> imagers st' = imagers st ->
    shows st o s -> shows st' o s.
  Proof.
    intros st st' o s (A & B & C) D (H1 & H2 & H3); split; [|split].
    - intros nm pm I; rewrite A; apply H1; exact I.
    - rewrite B; exact H2.
    - rewrite C, D; exact H3.
  Qed.

  Lemma get_write_ok : forall st o nm pm t count s, Good st -> In o (roots st) -> In nm names ->
    shows st o s -> count <> 0 ->
    (match s_val s nm pm with Some (t', _) => t' = t | None => True end) ->
    exists st' c p, get_write word st o nm pm t count = Ok (st', c, p) /\
      Good st' /\ Frame_same st st' /\ Ready st' o nm c /\
      p_type p = t /\
      (match s_val s nm pm with
       | Some (_, v) => p_vals p = v
       | None => p_vals p = repeat (empty_elt t) count
       end) /\
      p_parameter word st' o nm pm = Some p /\
      (forall nm' pm', In nm' names -> nm' <> nm \/ pm' <> pm ->
         p_parameter word st' o nm' pm' = p_parameter word st o nm' pm') /\
      o_filter (obj_at st' o) = o_filter (obj_at st o) /\
      o_imager (obj_at st' o) = o_imager (obj_at st o) /\
      (forall o', In o' (roots st) -> o' <> o -> same st st' o').
  Proof.
    intros st o nm pm t count s G Io Inm (Sv & Sf & Si) Ct T.
    unfold get_write; destruct (option_write word st o nm) as [st1 c] eqn:W1.
    destruct (option_write_ok _ _ _ _ _ G Io Inm W1) as (G1 & F1 & R1 & S1).
    pose proof (roots_frame _ _ F1) as Rt1.
    pose proof R1 as (Lc & (j & Fj) & Nc & Al).
    assert (PP : forall pm', p_parameter word st1 o nm pm' = assoc pm' (c_params (cell_at st1 c))).
    { intros pm'; unfold p_parameter; rewrite Fj; reflexivity. }
    destruct (S1 o Io) as (So1 & So2 & So3).
    rewrite (Sv nm pm Inm) in T |- *.
    destruct (assoc pm (c_params (cell_at st1 c))) as [p|] eqn:A.
    - assert (E : p_parameter word st o nm pm = Some p) by (rewrite <- So1, PP; exact A).
      rewrite E in T |- *; cbn [option_map] in T |- *.
      replace (ty_eqb (p_type p) t) with true by (symmetry; apply ty_eqb_eq; exact T).
      exists st1, c, p; repeat split; auto; try (apply F1); try (apply G1).
      + exists j; exact Fj.
      + rewrite PP; exact A.
      + apply S1; assumption.
      + apply S1; assumption.
      + apply S1; assumption.
    - assert (E : p_parameter word st o nm pm = None) by (rewrite <- So1, PP; exact A).
      rewrite E in T |- *; cbn [option_map] in T |- *.
      destruct (option_write word st1 o nm) as [st2 c2] eqn:W2.
      assert (Io1 : In o (roots st1)) by (rewrite Rt1; exact Io).
      destruct (option_write_ok _ _ _ _ _ G1 Io1 Inm W2) as (G2 & F2 & R2 & S2).
      pose proof (roots_frame _ _ F2) as Rt2.
      assert (Io2 : In o (roots st2)) by (rewrite Rt2; exact Io1).
      set (p := {| p_type := t; p_vals := repeat (empty_elt t) (Nat.max 1 count) |}).
      destruct (set_param_ok st2 o nm c2 pm p G2 Io2 Inm R2) as (G3 & F3 & R3 & O3 & A3 & P3 & Q3 & S3).
      set (st3 := set_param st2 c2 pm p) in *.
      assert (F : Frame_same st st3).
      { destruct F1 as (a1 & a2 & a3 & a4), F2 as (b1 & b2 & b3 & b4), F3 as (c1 & c3 & c4 & c5).
        repeat split; congruence. }
      destruct (S2 o Io1) as (Sq1 & Sq2 & Sq3).
      exists st3, c2, p; split; [reflexivity|]; split; [exact G3|]; split; [exact F|]; split; [exact R3|].
      split; [reflexivity|]; split.
      { cbn [p_vals p]; f_equal; lia. }
      split; [exact P3|]; split; [|split; [|split]].
      + intros nm' pm' I' D'; rewrite Q3, Sq1, So1; auto.
      + unfold obj_at at 1; rewrite O3; fold (obj_at st2 o); congruence.
      + unfold obj_at at 1; rewrite O3; fold (obj_at st2 o); congruence.
      + intros o' I' D'; apply (same_trans _ st1); [apply S1; exact I'|].
        apply (same_trans _ st2); [apply S2; rewrite Rt1; exact I'|].
        apply S3; [rewrite Rt2, Rt1; exact I' | exact D'].
  Qed.

  Hypothesis known : In searchpath names /\ In defaultsearchpath names.

  Lemma expand_all_ok : forall d new old v, List.length new = List.length old ->
    new_paths env d new old = Some v -> expand_all env d new old = Ok v /\ List.length v = List.length new.
  Proof.
    intros d; induction new as [|n new IH]; intros [|o old] v L E; cbn [new_paths expand_all List.length] in *;
      try discriminate.
    - inversion E; auto.
    - destruct (new_path env d n o) as [a|] eqn:A; [|discriminate].
      destruct (new_paths env d new old) as [b|] eqn:B; [|discriminate].
      inversion E; subst v; destruct (IH old b) as (X & Y); [congruence | exact B|].
      unfold new_path in A; unfold expand_elt; destruct n, o; try discriminate.
      destruct (expand env s0 d (S (2 * List.length s)) s) as [e|]; [|discriminate].
      inversion A; subst a; cbn [bind]; rewrite X; cbn [bind List.length]; auto.
  Qed.

  Lemma set_in_ok : forall st o nm pm t vals s s', Good st -> In o (roots st) -> In nm names ->
    shows st o s -> s_set env s nm pm t vals = Some s' ->
    exists st', set_in word env st o nm pm t vals = Ok st' /\ Good st' /\ Frame_same st st' /\
      shows st' o s' /\ (forall o', In o' (roots st) -> o' <> o -> same st st' o').
  Proof.
    intros st o nm pm t vals s s' G Io Inm Sh E.
    unfold s_set in E.
    set (old := match s_val s nm pm with
                | Some (t', o) => if ty_eqb t' t && (List.length o =? List.length vals) then Some o else None
                | None => Some (repeat (empty_elt t) (List.length vals))
                end) in E.
    destruct old as [ov|] eqn:Old; [|discriminate].
    destruct vals as [|v0 vals0]; [discriminate|].
    set (vals := v0 :: vals0) in *.
    match type of E with match ?x with _ => _ end = _ => destruct x as [v|] eqn:New; [|discriminate] end.
    inversion E; subst s'; clear E.
    assert (Ht : match s_val s nm pm with Some (t', _) => t' = t | None => True end).
    { subst old; destruct (s_val s nm pm) as [[t' o']|]; [|exact I].
      destruct (ty_eqb t' t) eqn:Te; [apply ty_eqb_eq; exact Te | discriminate Old]. }
    assert (Lo : List.length ov = List.length vals).
    { subst old; destruct (s_val s nm pm) as [[t' o']|].
      - destruct (ty_eqb t' t); [|discriminate Old]; cbn [andb] in Old.
        destruct (Nat.eqb_spec (List.length o') (List.length vals)); [|discriminate Old].
        inversion Old; subst; assumption.
      - injection Old as <-; exact (repeat_length (empty_elt t) (List.length vals)). }
    assert (Ov : match s_val s nm pm with Some (_, x) => x = ov | None => ov = repeat (empty_elt t) (List.length vals) end).
    { subst old; destruct (s_val s nm pm) as [[t' o']|].
      - destruct (ty_eqb t' t && _); [injection Old as <-; reflexivity | discriminate Old].
      - injection Old as <-; reflexivity. }
    destruct (get_write_ok st o nm pm t (List.length vals) s G Io Inm Sh ltac:(cbn; lia) Ht)
      as (st1 & c & p & W & G1 & F1 & R1 & Tp & Vp & Pp & Po & Pf & Pi & Ps).
    pose proof (roots_frame _ _ F1) as Rt1.
    assert (Vp' : p_vals p = ov).
    { destruct (s_val s nm pm) as [[t' x]|]; congruence. }
    unfold set_in; rewrite W; cbn [bind].
    rewrite Vp', Lo, Nat.leb_refl.
    assert (Io1 : In o (roots st1)) by (rewrite Rt1; exact Io).
    assert (Lv : List.length v = List.length vals /\
      (if ty_eqb t TString && (name_eqb nm searchpath || name_eqb nm defaultsearchpath) then
              bind (default_path word st1 o nm pm) (fun d => expand_all env d vals ov)
            else Ok vals) = Ok v).
    { destruct Sh as (Sv & _ & _).
      assert (Dd : defaultsearchpath <> searchpath) by discriminate.
      destruct t; cbn [ty_eqb andb]; try (inversion New; subst; split; reflexivity).
      rewrite !same_name_eqb in New; unfold default_path.
      destruct (name_eqb nm searchpath) eqn:N1; cbn [orb].
      - apply name_eqb_eq in N1; subst nm.
        unfold get; rewrite Po; [|exact (proj2 known)|left; exact Dd].
        rewrite (Sv defaultsearchpath pm (proj2 known)) in New.
        destruct (p_parameter word st o defaultsearchpath pm) as [q|]; cbn [option_map] in New.
        + destruct (p_type q); try discriminate New; cbn [ty_eqb].
          destruct (p_vals q) as [|[x|x|x y z] r]; try discriminate New; cbn [bind].
          destruct (expand_all_ok x vals ov v (eq_sym Lo) New) as (A & B); auto.
        + cbn [bind]; destruct (expand_all_ok [] vals ov v (eq_sym Lo) New) as (A & B); auto.
      - destruct (name_eqb nm defaultsearchpath); cbn [bind].
        + destruct (expand_all_ok [] vals ov v (eq_sym Lo) New) as (A & B); auto.
        + inversion New; auto. }
    destruct Lv as (Lv & ->); cbn [bind].
    set (p' := {| p_type := p_type p; p_vals := v ++ skipn (List.length vals) ov |}).
    destruct (set_param_ok st1 o nm c pm p' G1 Io1 Inm R1) as (G2 & F2 & R2 & O2 & A2 & P2 & Q2 & S2).
    set (st2 := set_param st1 c pm p') in *.
    exists st2; split; [reflexivity|]; split; [exact G2|].
    assert (F : Frame_same st st2).
    { destruct F1 as (a1 & a2 & a3 & a4), F2 as (b1 & b2 & b3 & b4); repeat split; congruence. }
    split; [exact F|]; split.
    - destruct Sh as (Sv & Sf & Si); split; [|split]; cbn [s_val s_filter s_imager].
      + intros nm' pm' I'; rewrite !same_name_eqb.
        destruct (name_eqb nm' nm) eqn:N1; [destruct (name_eqb pm' pm) eqn:N2|]; cbn [andb].
        * apply name_eqb_eq in N1; apply name_eqb_eq in N2; subst nm' pm'; rewrite P2.
          cbn [option_map p_type p_vals p']; rewrite <- Lo, skipn_all, app_nil_r, Tp; reflexivity.
        * assert (D : pm' <> pm) by (intros ->; rewrite name_eqb_refl in N2; discriminate).
          rewrite Q2, Po by auto; apply Sv; exact I'.
        * assert (D : nm' <> nm) by (intros ->; rewrite name_eqb_refl in N1; discriminate).
          rewrite Q2, Po by auto; apply Sv; exact I'.
      + unfold obj_at; rewrite O2; fold (obj_at st1 o); rewrite Pf; exact Sf.
      + unfold obj_at; rewrite O2; fold (obj_at st1 o); rewrite Pi.
        destruct F as (_ & _ & -> & _); exact Si.
    - intros o' I' D'; apply (same_trans _ st1); [apply Ps; assumption|].
      apply S2; [rewrite Rt1; exact I' | exact D'].
  Qed.

  Lemma set_all_ok : forall ws st o s s', Good st -> In o (roots st) ->
    (forall w, In w ws -> In (fst (fst (fst w))) names) ->
    shows st o s -> s_set_all env s ws = Some s' ->
    exists st', set_all word env st o ws = Ok st' /\ Good st' /\ Frame_same st st' /\
      shows st' o s' /\ (forall o', In o' (roots st) -> o' <> o -> same st st' o').
  Proof.
    induction ws as [|[[[nm pm] t] vals] ws IH]; intros st o s s' G Io Nm Sh E; cbn [s_set_all set_all] in *.
    - inversion E; subst; exists st; repeat split; auto; apply G || apply Sh.
    - destruct (s_set env s nm pm t vals) as [s1|] eqn:E1; [|discriminate].
      destruct (set_in_ok st o nm pm t vals s s1 G Io (Nm _ (or_introl eq_refl)) Sh E1)
        as (st1 & -> & G1 & F1 & Sh1 & S1); cbn [bind].
      pose proof (roots_frame _ _ F1) as Rt1.
      destruct (IH st1 o s1 s' G1) as (st2 & -> & G2 & F2 & Sh2 & S2); auto.
      { rewrite Rt1; exact Io. }
      { intros w I; apply Nm; right; exact I. }
      exists st2; split; [reflexivity|]; split; [exact G2|]; split; [|split; [exact Sh2|]].
      + destruct F1 as (a1 & a2 & a3 & a4), F2 as (b1 & b2 & b3 & b4); repeat split; congruence.
      + intros o' I' D'; apply (same_trans _ st1); [apply S1; assumption|].
        apply S2; [rewrite Rt1; exact I' | exact D'].
  Qed.
  (** *** Blocks *)

  Definition babs (a : nat -> sopt) (b : block) : sblock :=
    match b_kind b with
    | Inner => Plain
    | k => Owner k (a (b_cur b)) (map a (b_saved b))
    end.

  Definition Rel (a : nat -> sopt) (st : state) (ss : sstate) : Prop :=
    (forall o, In o (roots st) -> shows st o (a o)) /\
    s_blocks ss = map (babs a) (blocks st) /\ s_held ss = map a (held st).

  Definition broots (b : block) : list nat := b_cur b :: b_saved b.

  Lemma owner_split : forall bs, (exists pre m, bs = pre ++ [m] /\ b_kind m = Main /\
      forall b, In b pre -> b_kind b <> Main) ->
    exists pre b post, bs = pre ++ b :: post /\ (forall x, In x pre -> b_kind x = Inner) /\
      b_kind b <> Inner /\ owner bs = List.length pre /\ nth (owner bs) bs no_block = b.
  Proof.
    intros bs (pre & m & -> & M & _); induction pre as [|x pre IH]; cbn [app].
    - exists [], m, []; cbn [owner app]; rewrite M; cbn; repeat split; auto; [intros x []|congruence].
    - destruct IH as (p & b & q & E & P & K & W & B); cbn [owner].
      destruct (kind_eqb (b_kind x) Inner) eqn:X.
      + exists (x :: p), b, q; rewrite E in *; cbn [app List.length nth]; rewrite W in *; repeat split; auto.
        intros y [<-|I]; [apply kind_eqb_eq; exact X | exact (P y I)].
      + exists [], x, (pre ++ [m]); cbn; repeat split; auto; [intros y []|].
        intros Y; rewrite Y in X; discriminate X.
  Qed.

  Lemma roots_split : forall st pre b post, blocks st = pre ++ b :: post ->
    roots st = flat_map broots pre ++ (b_cur b :: b_saved b) ++ flat_map broots post ++ held st.
  Proof.
    intros st pre b post E; unfold roots; rewrite E, flat_map_app; cbn [flat_map].
    rewrite <- !app_assoc; reflexivity.
  Qed.

  Lemma map_plain : forall a pre, (forall x, In x pre -> b_kind x = Inner) ->
    map (babs a) pre = map (fun _ => Plain) pre.
  Proof.
    intros a pre H; apply map_ext_in; intros x I; unfold babs; rewrite (H x I); reflexivity.
  Qed.

  Lemma s_change_plain : forall f (pre : list block) bs,
    s_change f (map (fun _ => Plain) pre ++ bs) =
    option_map (fun r => map (fun _ => Plain) pre ++ r) (s_change f bs).
  Proof.
    intros f; induction pre as [|x pre IH]; intros bs; cbn [map app s_change].
    - destruct (s_change f bs); reflexivity.
    - rewrite IH; destruct (s_change f bs); reflexivity.
  Qed.

  Lemma babs_owner : forall a b, b_kind b <> Inner ->
    babs a b = Owner (b_kind b) (a (b_cur b)) (map a (b_saved b)).
  Proof. intros a b H; unfold babs; destruct (b_kind b); [reflexivity | reflexivity | congruence]. Qed.

  Lemma s_change_at : forall f a pre b post, (forall x, In x pre -> b_kind x = Inner) ->
    b_kind b <> Inner ->
    s_change f (map (babs a) (pre ++ b :: post)) =
    option_map (fun r => map (fun _ => Plain) pre ++
                  Owner (b_kind b) (fst r) (snd r) :: map (babs a) post)
      (f (a (b_cur b)) (map a (b_saved b))).
  Proof.
    intros f a pre b post P K; rewrite map_app, map_plain by exact P; rewrite s_change_plain.
    cbn [map]; rewrite babs_owner by exact K; cbn [s_change].
    destruct (f (a (b_cur b)) (map a (b_saved b))) as [[c l]|]; reflexivity.
  Qed.

  Lemma s_current_at : forall a pre b post, (forall x, In x pre -> b_kind x = Inner) ->
    b_kind b <> Inner -> s_current (map (babs a) (pre ++ b :: post)) = Some (a (b_cur b)).
  Proof.
    intros a pre b post P K; rewrite map_app; induction pre as [|x pre IH]; cbn [map app].
    - rewrite babs_owner by exact K; reflexivity.
    - unfold babs at 1; rewrite (P x (or_introl eq_refl)); cbn [s_current]; apply IH.
      intros y I; apply P; right; exact I.
  Qed.

  Lemma babs_ext : forall a a' b, (forall o, In o (broots b) -> a' o = a o) -> babs a' b = babs a b.
  Proof.
    intros a a' b H; unfold babs; destruct (b_kind b); try reflexivity;
      (f_equal; [apply H; left; reflexivity | apply map_ext_in; intros o I; apply H; right; exact I]).
  Qed.

  Definition assign (a : nat -> sopt) (o : nat) (s : sopt) : nat -> sopt :=
    fun x => if x =? o then s else a x.

  Lemma assign_same : forall a o s, assign a o s o = s.
  Proof. intros; unfold assign; rewrite Nat.eqb_refl; reflexivity. Qed.

  Lemma assign_other : forall a o s x, x <> o -> assign a o s x = a x.
  Proof. intros a o s x H; unfold assign; destruct (Nat.eqb_spec x o); [contradiction | reflexivity]. Qed.

  (** The copy of an object is put in the place of the options of the owner. *)
  Lemma replace_ok : forall st a ss sv, Good st -> Rel a st ss ->
    (forall o, In o sv -> In o (roots st)) ->
    let b := owner_block st in
    let st1 := fst (copy_obj st (b_cur b)) in
    let n := snd (copy_obj st (b_cur b)) in
    let st' := set_owner st1 {| b_kind := b_kind b; b_cur := n; b_saved := sv |} in
    exists a', Good st' /\
      (forall ss', s_held ss' = s_held ss ->
         s_change (fun c l => Some (c, map a sv)) (s_blocks ss) = Some (s_blocks ss') -> Rel a' st' ss') /\
      current st' = n /\ count_occ Nat.eq_dec (roots st') n = 1 /\ a' n = a (b_cur b) /\
      n = List.length (objs st) /\ (forall x, x <> n -> a' x = a x).
  Proof.
    intros st a ss sv G (R1 & R2 & R3) Hsv b st1 n st'.
    destruct (owner_split _ (g_blocks _ G)) as (pre & b0 & post & Eb & P & K & W & B).
    assert (Eo : b = b0) by exact B; clear B; clearbody b; subst b0.
    pose proof (roots_split st pre b post Eb) as Rt.
    assert (Ib : In (b_cur b) (roots st)).
    { rewrite Rt; apply in_or_app; right; left; reflexivity. }
    pose proof (g_roots _ G _ Ib) as Lb.
    assert (En : n = List.length (objs st)) by reflexivity.
    set (nb := {| b_kind := b_kind b; b_cur := n; b_saved := sv |}) in *.
    assert (Bl : blocks st' = pre ++ nb :: post).
    { unfold st', set_owner, st1, copy_obj; cbn [fst with_blocks blocks with_objs].
      rewrite W, Eb, upd_at; reflexivity. }
    assert (Rt' : roots st' = flat_map broots pre ++ (n :: sv) ++ flat_map broots post ++ held st).
    { exact (roots_split st' pre nb post Bl). }
    assert (Old : forall o, In o (roots st') -> o = n \/ In o (roots st)).
    { intros o I; rewrite Rt' in I; rewrite Rt.
      apply in_app_or in I; destruct I as [I|I]; [right; apply in_or_app; left; exact I|].
      apply in_app_or in I; destruct I as [[I|I]|I].
      - left; congruence.
      - right; rewrite <- Rt; apply Hsv; exact I.
      - right; apply in_or_app; right; apply in_or_app; right; exact I. }
    assert (Fresh : forall o, In o (roots st) -> o <> n).
    { intros o I ->; pose proof (g_roots _ G _ I); lia. }
    assert (Ob : obj_at st' n = obj_at st (b_cur b)).
    { unfold obj_at at 1, st', set_owner, st1, copy_obj; cbn [fst with_blocks objs with_objs].
      rewrite En; apply nth_snoc_new. }
    assert (Ox : forall x, x < n -> obj_at st' x = obj_at st x).
    { intros x L; unfold obj_at, st', set_owner, st1, copy_obj; cbn [fst with_blocks objs with_objs].
      apply nth_snoc_old; exact L. }
    exists (assign a n (a (b_cur b))).
    split; [|split; [|split; [|split; [|split; [|split]]]]].
    - constructor.
      + intros o I; unfold st', set_owner, st1, copy_obj; cbn [fst with_blocks objs with_objs].
        rewrite app_length; cbn [List.length]; destruct (Old o I) as [->|I']; [lia|].
        pose proof (g_roots _ G o I'); lia.
      + intros ob c I; unfold st', set_owner, st1, copy_obj in I |- *; cbn [fst with_blocks objs with_objs cells] in I |- *.
        apply in_app_or in I; destruct I as [I|[<-|[]]]; [apply (g_cells _ G ob c I)|].
        apply (g_cells _ G); apply obj_in; exact Lb.
      + apply (g_names _ G).
      + apply (g_imagers _ G).
      + intros ob i I; unfold st', set_owner, st1, copy_obj in I |- *; cbn [fst with_blocks objs with_objs imagers] in I |- *.
        apply in_app_or in I; destruct I as [I|[<-|[]]]; [apply (g_imager _ G ob i I)|].
        apply (g_imager _ G); apply obj_in; exact Lb.
      + rewrite Bl; destruct (g_blocks _ G) as (p & m & E & M & NM).
        rewrite Eb in E.
        destruct (exists_last (l := b :: post)) as (q & z & Eq); [discriminate|].
        rewrite Eq, app_assoc in E; apply app_inj_tail in E; destruct E as (E1 & E2); subst z p.
        destruct q as [|x q]; cbn [app] in Eq; inversion Eq; subst.
        * exists pre, nb; split; [reflexivity|]; split; [exact M|].
          intros y I; apply NM; rewrite app_nil_r; exact I.
        * exists (pre ++ nb :: q), m; split; [rewrite <- app_assoc; reflexivity|]; split; [exact M|].
          intros y I; apply in_app_or in I; destruct I as [I|[<-|I]].
          -- apply NM, in_or_app; left; exact I.
          -- cbn [b_kind nb]; apply NM, in_or_app; right; left; reflexivity.
          -- apply NM, in_or_app; right; right; exact I.
    - intros ss' Hh Hc; split; [|split].
      + intros o I; destruct (Old o I) as [->|I'].
        * rewrite assign_same; destruct (R1 _ Ib) as (S1 & S2 & S3); split; [|split].
          -- intros nm pm In_; rewrite (S1 nm pm In_); unfold p_parameter; rewrite Ob.
             rewrite (find_slot_names st st') by reflexivity; reflexivity.
          -- rewrite Ob; exact S2.
          -- rewrite Ob; exact S3.
        * rewrite assign_other by (apply Fresh; exact I').
          apply (shows_same st); [|reflexivity|apply R1; exact I'].
          apply same_cells; [apply Ox; rewrite En; apply (g_roots _ G); exact I' | reflexivity].
      + rewrite R2, Eb in Hc; rewrite s_change_at in Hc by assumption.
        cbn [option_map fst snd] in Hc; injection Hc as <-.
        rewrite Bl, map_app, (map_plain _ pre P); f_equal; cbn [map].
        rewrite babs_owner by exact K; cbn [b_kind b_cur b_saved nb]; rewrite assign_same.
        f_equal; [f_equal|].
        * apply map_ext_in; intros o I; symmetry; apply assign_other, Fresh, Hsv, I.
        * apply map_ext_in; intros x I; symmetry; apply babs_ext; intros o J; apply assign_other, Fresh.
          rewrite Rt; apply in_or_app; right; apply in_or_app; right; apply in_or_app; left.
          apply in_flat_map; exists x; auto.
      + rewrite Hh, R3; apply map_ext_in; intros o I; symmetry; apply assign_other, Fresh.
        rewrite Rt; repeat (apply in_or_app; right); exact I.
    - unfold current, owner_block; rewrite Bl.
      replace (owner (pre ++ nb :: post)) with (List.length pre); [rewrite app_nth2, Nat.sub_diag by lia; reflexivity|].
      clear - P K; induction pre as [|x pre IH]; cbn [app owner List.length].
      + cbn [b_kind nb]; destruct (b_kind b); [reflexivity | reflexivity | congruence].
      + rewrite (P x (or_introl eq_refl)); cbn [kind_eqb]; f_equal; apply IH; intros y I; apply P; right; exact I.
    - assert (Z0 : forall l, (forall o, In o l -> In o (roots st)) -> count_occ Nat.eq_dec l n = 0).
      { intros l H; apply count_occ_not_In; intros I; exact (Fresh n (H n I) eq_refl). }
      rewrite Rt', count_occ_app; cbn [app count_occ].
      destruct (Nat.eq_dec n n) as [_|N]; [|congruence].
      rewrite (Z0 (flat_map broots pre)), (Z0 (sv ++ flat_map broots post ++ held st)); [reflexivity| |].
      + intros o I; apply in_app_or in I; destruct I as [I|I]; [apply Hsv; exact I|].
        rewrite Rt; apply in_or_app; right; apply in_or_app; right; exact I.
      + intros o I; rewrite Rt; apply in_or_app; left; exact I.
    - apply assign_same.
    - exact En.
    - intros x D; apply assign_other; exact D.
  Qed.

  Lemma current_in : forall st, Good st -> In (current st) (roots st).
  Proof.
    intros st G; destruct (owner_split _ (g_blocks _ G)) as (pre & b & post & Eb & P & K & W & B).
    unfold current, owner_block; rewrite B, (roots_split st pre b post Eb).
    apply in_or_app; right; left; reflexivity.
  Qed.

  Lemma write_current_ok : forall st a ss, Good st -> Rel a st ss ->
    exists a', Good (write_current st) /\ Rel a' (write_current st) ss /\
      count_occ Nat.eq_dec (roots (write_current st)) (current (write_current st)) = 1.
  Proof.
    intros st a ss G R; unfold write_current.
    destruct (unique_obj st (b_cur (owner_block st))) eqn:U.
    - exists a; split; [exact G|]; split; [exact R|]; apply Nat.eqb_eq; exact U.
    - destruct (owner_split _ (g_blocks _ G)) as (pre & b & post & Eb & P & K & W & B).
      assert (Eo : owner_block st = b) by exact B.
      destruct (replace_ok st a ss (b_saved (owner_block st)) G R) as (a' & G' & R' & C' & N' & _).
      { intros o I; rewrite Eo in I; rewrite (roots_split st pre b post Eb).
        apply in_or_app; right; right; apply in_or_app; left; exact I. }
      exists a'; split; [exact G'|]; split.
      + apply (R' ss); [reflexivity|].
        destruct R as (R1 & R2 & R3); rewrite R2, Eb, s_change_at by assumption.
        cbn [option_map fst snd]; rewrite map_app, (map_plain _ pre P); cbn [map].
        rewrite babs_owner by exact K; rewrite Eo; reflexivity.
      + exact (eq_trans (f_equal (count_occ Nat.eq_dec _) C') N').
  Qed.

  Lemma push_ok : forall st a ss ss', Good st -> Rel a st ss -> s_held ss' = s_held ss ->
    s_change (fun c l => Some (c, c :: l)) (s_blocks ss) = Some (s_blocks ss') ->
    exists a', Good (push st) /\ Rel a' (push st) ss' /\
      count_occ Nat.eq_dec (roots (push st)) (current (push st)) = 1.
  Proof.
    intros st a ss ss' G R Hh Hc; unfold push.
    destruct (owner_split _ (g_blocks _ G)) as (pre & b & post & Eb & P & K & W & B).
    assert (Eo : owner_block st = b) by exact B.
    destruct (replace_ok st a ss (b_cur (owner_block st) :: b_saved (owner_block st)) G R)
      as (a' & G' & R' & C' & N' & _).
    { intros o I; rewrite Eo in I; rewrite (roots_split st pre b post Eb).
      apply in_or_app; right; apply in_or_app; left; exact I. }
    exists a'; split; [exact G'|]; split.
    + apply (R' ss'); [exact Hh|]; rewrite <- Hc.
      destruct R as (R1 & R2 & R3); rewrite R2, Eb, !s_change_at by assumption.
      cbn [option_map fst snd map]; rewrite Eo; reflexivity.
    + exact (eq_trans (f_equal (count_occ Nat.eq_dec _) C') N').
  Qed.

  (** Changing the options of the owner, which nothing else points to. *)
  Lemma change_ok : forall st a ss st' s' ss', Good st -> Rel a st ss ->
    count_occ Nat.eq_dec (roots st) (current st) = 1 ->
    blocks st' = blocks st -> held st' = held st ->
    shows st' (current st) s' ->
    (forall o, In o (roots st) -> o <> current st -> shows st' o (a o)) ->
    s_held ss' = s_held ss ->
    s_change (fun c l => Some (s', l)) (s_blocks ss) = Some (s_blocks ss') ->
    Rel (assign a (current st) s') st' ss'.
  Proof.
    intros st a ss st' s' ss' G (R1 & R2 & R3) U Eb' Eh' Sh Others Hh Hc.
    destruct (owner_split _ (g_blocks _ G)) as (pre & b & post & Eb & P & K & W & B).
    assert (Ec : current st = b_cur b) by (unfold current, owner_block; rewrite B; reflexivity).
    pose proof (roots_split st pre b post Eb) as Rt.
    rewrite Rt, count_occ_app, Ec in U; cbn [app count_occ] in U.
    destruct (Nat.eq_dec (b_cur b) (b_cur b)) as [_|N]; [|congruence].
    rewrite !count_occ_app in U.
    assert (Z0 : forall l, count_occ Nat.eq_dec l (b_cur b) = 0 -> forall o, In o l -> o <> current st).
    { intros l H o I ->; rewrite Ec in I; apply (count_occ_In Nat.eq_dec) in I; lia. }
    assert (Rt' : roots st' = roots st) by (unfold roots; rewrite Eb', Eh'; reflexivity).
    split; [|split].
    - intros o I; rewrite Rt' in I; destruct (Nat.eq_dec o (current st)) as [->|D].
      + rewrite assign_same; exact Sh.
      + rewrite assign_other by exact D; apply Others; assumption.
    - rewrite R2, Eb in Hc; rewrite s_change_at in Hc by assumption.
      cbn [option_map fst snd] in Hc; injection Hc as <-.
      rewrite Eb', Eb, map_app, (map_plain _ pre P); f_equal; cbn [map].
      rewrite babs_owner by exact K; rewrite <- Ec, assign_same; f_equal; [f_equal|].
      + apply map_ext_in; intros o I; symmetry; apply assign_other.
        apply (Z0 (b_saved b)); [lia | exact I].
      + apply map_ext_in; intros x I; symmetry; apply babs_ext; intros o J; apply assign_other.
        apply (Z0 (flat_map broots post)); [lia|]; apply in_flat_map; exists x; auto.
    - rewrite Hh, R3, Eh'; apply map_ext_in; intros o I; symmetry; apply assign_other.
      apply (Z0 (held st)); [lia | exact I].
  Qed.
  (** *** Steps *)

  Lemma shows_heap : forall st st' o s, cells st' = cells st -> objs st' = objs st ->
    imagers st' = imagers st -> shows st o s -> shows st' o s.
  Proof.
    intros st st' o s A B C H; apply (shows_same st); auto.
    apply same_cells; [unfold obj_at; rewrite B; reflexivity|].
    intros; unfold cell_at; rewrite A; reflexivity.
  Qed.

  Lemma good_heap : forall st st', cells st' = cells st -> objs st' = objs st ->
    imagers st' = imagers st -> (forall o, In o (roots st') -> In o (roots st)) ->
    (exists pre m, blocks st' = pre ++ [m] /\ b_kind m = Main /\ forall b, In b pre -> b_kind b <> Main) ->
    Good st -> Good st'.
  Proof.
    intros st st' A B C D E [G1 G2 G3 G4 G5 G6]; constructor; rewrite ?A, ?B, ?C; auto.
  Qed.

  Lemma main_upd : forall pre b post nb,
    (exists p m, pre ++ b :: post = p ++ [m] /\ b_kind m = Main /\ forall x, In x p -> b_kind x <> Main) ->
    b_kind nb = b_kind b ->
    exists p m, pre ++ nb :: post = p ++ [m] /\ b_kind m = Main /\ forall x, In x p -> b_kind x <> Main.
  Proof.
    intros pre b post nb (p & m & E & M & NM) K.
    destruct (exists_last (l := b :: post)) as (q & z & Eq); [discriminate|].
    rewrite Eq, app_assoc in E; apply app_inj_tail in E; destruct E as (E1 & E2); subst z p.
    destruct q as [|x q]; cbn [app] in Eq; inversion Eq; subst.
    - exists pre, nb; split; [reflexivity|]; split; [congruence|].
      intros y I; apply NM; rewrite app_nil_r; exact I.
    - exists (pre ++ nb :: q), m; split; [rewrite <- app_assoc; reflexivity|]; split; [exact M|].
      intros y I; apply in_app_or in I; destruct I as [I|[<-|I]].
      + apply NM, in_or_app; left; exact I.
      + rewrite K; apply NM, in_or_app; right; left; reflexivity.
      + apply NM, in_or_app; right; right; exact I.
  Qed.

  Lemma begin_ok : forall st a ss b r k, Good st -> Rel a st ss -> blocks st = b :: r -> k <> Main ->
    let st1 := fst (copy_obj st (b_cur b)) in
    let n := snd (copy_obj st (b_cur b)) in
    let st' := with_blocks st1 ({| b_kind := k; b_cur := n; b_saved := [] |} :: blocks st1) in
    exists a', Good st' /\ Rel a' st' {| s_blocks := (match k with Inner => Plain | _ => Owner k (a (b_cur b)) [] end)
                                            :: s_blocks ss; s_held := s_held ss |}.
  Proof.
    intros st a ss b r k G (R1 & R2 & R3) Eb Nk st1 n st'.
    assert (Ib : In (b_cur b) (roots st)) by (unfold roots; rewrite Eb; left; reflexivity).
    pose proof (g_roots _ G _ Ib) as Lb.
    assert (En : n = List.length (objs st)) by reflexivity.
    assert (Rt : roots st' = n :: roots st) by reflexivity.
    assert (Fresh : forall o, In o (roots st) -> o <> n).
    { intros o I ->; pose proof (g_roots _ G _ I); lia. }
    assert (Ob : obj_at st' n = obj_at st (b_cur b)).
    { unfold obj_at at 1, st', st1, copy_obj; cbn [fst with_blocks objs with_objs]; rewrite En; apply nth_snoc_new. }
    assert (Ox : forall x, x < n -> obj_at st' x = obj_at st x).
    { intros x L; unfold obj_at, st', st1, copy_obj; cbn [fst with_blocks objs with_objs].
      apply nth_snoc_old; exact L. }
    exists (assign a n (a (b_cur b))); split.
    - constructor.
      + intros o I; rewrite Rt in I; unfold st', st1, copy_obj; cbn [fst with_blocks objs with_objs].
        rewrite app_length; cbn [List.length]; destruct I as [<-|I]; [lia|].
        pose proof (g_roots _ G o I); lia.
      + intros ob c I; unfold st', st1, copy_obj in I |- *; cbn [fst with_blocks objs with_objs cells] in I |- *.
        apply in_app_or in I; destruct I as [I|[<-|[]]]; [apply (g_cells _ G ob c I)|].
        apply (g_cells _ G); apply obj_in; exact Lb.
      + apply (g_names _ G).
      + apply (g_imagers _ G).
      + intros ob i I; unfold st', st1, copy_obj in I |- *; cbn [fst with_blocks objs with_objs imagers] in I |- *.
        apply in_app_or in I; destruct I as [I|[<-|[]]]; [apply (g_imager _ G ob i I)|].
        apply (g_imager _ G); apply obj_in; exact Lb.
      + destruct (g_blocks _ G) as (p & m & E & M & NM).
        exists ({| b_kind := k; b_cur := n; b_saved := [] |} :: p), m; split; [|split; [exact M|]].
        * unfold st', st1, copy_obj; cbn [fst with_blocks blocks with_objs]; rewrite E; reflexivity.
        * intros y [<-|I]; [exact Nk | exact (NM y I)].
    - split; [|split]; cbn [s_blocks s_held].
      + intros o I; rewrite Rt in I; destruct I as [<-|I'].
        * rewrite assign_same; destruct (R1 _ Ib) as (S1 & S2 & S3); split; [|split].
          -- intros nm pm In_; rewrite (S1 nm pm In_); unfold p_parameter; rewrite Ob.
             rewrite (find_slot_names st st') by reflexivity; reflexivity.
          -- rewrite Ob; exact S2.
          -- rewrite Ob; exact S3.
        * rewrite assign_other by (apply Fresh; exact I').
          apply (shows_same st); [|reflexivity|apply R1; exact I'].
          apply same_cells; [apply Ox; rewrite En; apply (g_roots _ G); exact I' | reflexivity].
      + unfold st' at 1, st1 at 1, copy_obj; cbn [fst with_blocks blocks with_objs map]; f_equal.
        * unfold babs; cbn [b_kind b_cur b_saved map]; rewrite assign_same; destruct k; reflexivity.
        * rewrite R2; apply map_ext_in; intros x I; symmetry; apply babs_ext; intros o J; apply assign_other, Fresh.
          unfold roots; apply in_or_app; left; apply in_flat_map; exists x; auto.
      + rewrite R3; apply map_ext_in; intros o I; symmetry; apply assign_other, Fresh.
        unfold roots; apply in_or_app; right; exact I.
  Qed.

  Lemma remove_at_eq : forall {A} i (l : list A), remove_at i l = firstn i l ++ skipn (S i) l.
  Proof.
    intros A; induction i as [|i IH]; intros [|x l]; cbn [remove_at firstn skipn app]; try reflexivity.
    rewrite IH; reflexivity.
  Qed.

  (** A change of the options in force, seen through the blocks. *)
  Lemma s_change_inv : forall st a ss f bs', Good st -> Rel a st ss ->
    s_change f (s_blocks ss) = Some bs' ->
    exists c l, f (a (current st)) (map a (b_saved (owner_block st))) = Some (c, l) /\
      s_change (fun _ _ => Some (c, l)) (s_blocks ss) = Some bs'.
  Proof.
    intros st a ss f bs' G (R1 & R2 & R3) H.
    destruct (owner_split _ (g_blocks _ G)) as (pre & b & post & Eb & P & K & W & B).
    unfold current, owner_block; rewrite B.
    rewrite R2, Eb in H; rewrite s_change_at in H by assumption.
    destruct (f (a (b_cur b)) (map a (b_saved b))) as [[c l]|]; [|discriminate].
    exists c, l; split; [reflexivity|].
    rewrite R2, Eb, s_change_at by assumption; exact H.
  Qed.

  Lemma s_change_keep : forall st a ss c bs', Good st -> Rel a st ss ->
    s_change (fun _ _ => Some (c, map a (b_saved (owner_block st)))) (s_blocks ss) = Some bs' ->
    s_change (fun _ l => Some (c, l)) (s_blocks ss) = Some bs'.
  Proof.
    intros st a ss c bs' G (R1 & R2 & R3) H.
    destruct (owner_split _ (g_blocks _ G)) as (pre & b & post & Eb & P & K & W & B).
    unfold owner_block in H; rewrite B in H.
    rewrite R2, Eb in H; rewrite s_change_at in H by assumption.
    rewrite R2, Eb, s_change_at by assumption; exact H.
  Qed.

  Lemma step_ok : forall st a ss ss' o, Good st -> Rel a st ss -> incl (op_names o) names ->
    s_step env ss o = Some ss' ->
    exists st' a', step word env st o = Ok st' /\ Good st' /\ Rel a' st' ss'.
  Proof.
    intros st a ss ss' o G R Nm E.
    pose proof R as (R1 & R2 & R3).
    destruct (owner_split _ (g_blocks _ G)) as (pre & b & post & Eb & P & K & W & B).
    assert (Ow : owner_block st = b) by exact B.
    assert (Same : {| s_blocks := s_blocks ss; s_held := s_held ss |} = ss) by (destruct ss; reflexivity).
    destruct o as [k|k| | | |i|nm pm t vals|f|s|ws]; cbn [s_step step] in *.
    - (* Begin *)
      unfold begin_block; destruct (blocks st) as [|h r] eqn:Ebl; [destruct pre; discriminate Eb|].
      assert (Hd : s_blocks ss = babs a h :: map (babs a) r) by (rewrite R2; reflexivity).
      destruct k.
      + inversion E; subst ss'; exists st, a; auto.
      + destruct (b_kind h) eqn:Kh; unfold babs in Hd at 1; rewrite Kh in Hd; rewrite Hd in E;
          unfold on_blocks, option_map in E; injection E as <-.
        * destruct (begin_ok st a ss h r Frame G R Ebl) as (a' & G' & R'); [discriminate|].
          unfold copy_obj in *; cbn [fst snd] in *.
          eexists _, a'; split; [reflexivity|]; split; [exact G'|].
          rewrite <- Hd; exact R'.
        * exists st, a; split; [reflexivity|]; split; [exact G|]; rewrite <- Hd, Same; exact R.
        * exists st, a; split; [reflexivity|]; split; [exact G|]; rewrite <- Hd, Same; exact R.
      + rewrite Hd in E; unfold on_blocks, option_map in E; injection E as <-; rewrite <- Hd.
        destruct (begin_ok st a ss h r Inner G R Ebl) as (a' & G' & R'); [discriminate|].
        unfold copy_obj in *; cbn [fst snd] in *.
        destruct (b_kind h); (eexists _, a'; split; [reflexivity|]; split; [exact G' | exact R']).
    - (* End *)
      unfold end_block; destruct (blocks st) as [|h r] eqn:Ebl; [destruct pre; discriminate Eb|].
      assert (Hd : s_blocks ss = babs a h :: map (babs a) r) by (rewrite R2; reflexivity).
      assert (Popped : b_kind h <> Main -> exists st' a', Ok (with_blocks st r) = Ok st' /\ Good st' /\
                Rel a' st' {| s_blocks := map (babs a) r; s_held := s_held ss |}).
      { intros Hm; exists (with_blocks st r), a; split; [reflexivity|].
        assert (Sub : forall o, In o (roots (with_blocks st r)) -> In o (roots st)).
        { intros o I; unfold roots in *; cbn [with_blocks blocks held] in I; rewrite Ebl; cbn [flat_map].
          apply in_app_or in I; apply in_or_app; destruct I as [I|I]; [left; apply in_or_app; right; exact I | right; exact I]. }
        split.
        - apply (good_heap st); auto; cbn [with_blocks blocks].
          destruct (g_blocks _ G) as (p & m & Ep & M & NM); rewrite Ebl in Ep.
          destruct p as [|x p]; cbn [app] in Ep; inversion Ep; subst; [congruence|].
          exists p, m; split; [reflexivity|]; split; [exact M|]; intros y I; apply NM; right; exact I.
        - split; [|split]; cbn [s_blocks s_held with_blocks blocks held]; auto.
          intros o I; apply (shows_heap st); auto. }
      assert (Stay : exists st' a', Ok st = Ok st' /\ Good st' /\ Rel a' st' ss) by (exists st, a; auto).
      destruct k; unfold on_blocks, option_map in E.
      + injection E as <-; destruct (b_kind h); cbn [kind_eqb andb negb]; exact Stay.
      + injection E as <-; destruct (b_kind h) eqn:Kh; unfold babs in Hd at 1; rewrite Kh in Hd; rewrite Hd;
          cbn [kind_eqb andb negb].
        * rewrite <- Hd, Same; exact Stay.
        * apply Popped; discriminate.
        * rewrite <- Hd, Same; exact Stay.
      + injection E as <-; destruct (b_kind h) eqn:Kh; unfold babs in Hd at 1; rewrite Kh in Hd; rewrite Hd;
          cbn [kind_eqb andb negb].
        * rewrite <- Hd, Same; exact Stay.
        * rewrite <- Hd, Same; exact Stay.
        * apply Popped; discriminate.
    - (* Push *)
      unfold on_blocks in E.
      destruct (s_change _ (s_blocks ss)) as [bs|] eqn:Ch; [|discriminate]; injection E as <-.
      destruct (push_ok st a ss {| s_blocks := bs; s_held := s_held ss |} G R eq_refl Ch) as (a' & G' & R' & _).
      exists (push st), a'; auto.
    - (* Pop *)
      unfold on_blocks in E.
      destruct (s_change _ (s_blocks ss)) as [bs|] eqn:Ch; [|discriminate]; injection E as <-.
      rewrite R2, Eb, s_change_at in Ch by assumption.
      unfold pop; rewrite Ow; destruct (b_saved b) as [|x sv] eqn:Sv; cbn [map option_map fst snd] in Ch; [discriminate|].
      set (nb := {| b_kind := b_kind b; b_cur := x; b_saved := sv |}).
      assert (Bl : blocks (set_owner st nb) = pre ++ nb :: post).
      { unfold set_owner; cbn [with_blocks blocks]; rewrite W, Eb, upd_at; reflexivity. }
      assert (Sub : forall o, In o (roots (set_owner st nb)) -> In o (roots st)).
      { intros o I; rewrite (roots_split _ _ _ _ Bl) in I; rewrite (roots_split _ _ _ _ Eb), Sv.
        cbn [b_cur b_saved nb] in I.
        apply in_app_or in I; apply in_or_app; destruct I as [I|I]; [left; exact I | right; right; exact I]. }
      exists (set_owner st nb), a; split; [reflexivity|]; split.
      + apply (good_heap st); auto; rewrite Bl; apply (main_upd pre b); [rewrite <- Eb; apply (g_blocks _ G) | reflexivity].
      + split; [|split]; cbn [s_blocks s_held].
        * intros o I; apply (shows_heap st); auto.
        * injection Ch as <-; rewrite Bl, map_app, (map_plain a pre P); cbn [map]; rewrite (babs_owner a nb); [reflexivity | exact K].
        * exact R3.
    - (* Hold *)
      rewrite R2, Eb, s_current_at in E by assumption; cbn [option_map] in E; injection E as <-.
      pose proof (current_in st G) as Ic.
      assert (Ec : current st = b_cur b) by (unfold current; rewrite Ow; reflexivity).
      assert (Sub : forall o, In o (roots (with_held st (held st ++ [current st]))) -> In o (roots st)).
      { intros o I; unfold roots in I; cbn [with_held blocks held] in I.
        rewrite app_assoc in I; apply in_app_or in I; destruct I as [I|[<-|[]]]; [exact I | exact Ic]. }
      exists (with_held st (held st ++ [current st])), a; split; [reflexivity|]; split.
      + apply (good_heap st); auto; apply (g_blocks _ G).
      + split; [|split]; cbn [s_blocks s_held with_held blocks held].
        * intros o I; apply (shows_heap st); auto.
        * rewrite Eb; reflexivity.
        * rewrite map_app, R3, Ec; reflexivity.
    - (* Release *)
      rewrite R3, map_length in E.
      destruct (i <? List.length (held st)) eqn:Li; [|discriminate]; injection E as <-.
      exists (with_held st (remove_at i (held st))), a; split; [reflexivity|].
      assert (Sub : forall o, In o (roots (with_held st (remove_at i (held st)))) -> In o (roots st)).
      { intros o I; unfold roots in *; cbn [with_held blocks held] in I.
        apply in_app_or in I; apply in_or_app; destruct I as [I|I]; [left; exact I | right].
        rewrite remove_at_eq in I; rewrite <- (firstn_skipn (S i) (held st)).
        apply in_app_or in I; apply in_or_app; destruct I as [I|I]; [left | right; exact I].
        replace i with (Nat.min i (S i)) in I by lia; rewrite <- firstn_firstn in I.
        rewrite <- (firstn_skipn i (firstn (S i) (held st))); apply in_or_app; left; exact I. }
      split.
      + apply (good_heap st); auto; apply (g_blocks _ G).
      + split; [|split]; cbn [s_blocks s_held with_held blocks held].
        * intros o I; apply (shows_heap st); auto.
        * exact R2.
        * rewrite remove_at_eq, map_app, firstn_map, <- skipn_map; reflexivity.
    - (* Set *)
      unfold on_blocks in E.
      destruct (s_change _ (s_blocks ss)) as [bs|] eqn:Ch; [|discriminate]; injection E as <-.
      destruct (write_current_ok st a ss G R) as (a1 & G1 & Rr1 & U1).
      set (st1 := write_current st) in *.
      destruct (s_change_inv st1 a1 ss _ bs G1 Rr1 Ch) as (c & l & Ec & Hc).
      destruct (s_set env (a1 (current st1)) nm pm t vals) as [s'|] eqn:Es; [|discriminate Ec].
      cbn [option_map] in Ec; injection Ec as <- <-.
      pose proof (current_in st1 G1) as Ic.
      destruct (set_in_ok st1 (current st1) nm pm t vals (a1 (current st1)) s' G1 Ic) as (st2 & Ers & G2 & F2 & Sh2 & S2); auto.
      { apply Nm; left; reflexivity. }
      { apply Rr1; exact Ic. }
      pose proof F2 as (f1 & f2 & f3 & f4).
      exists st2, (assign a1 (current st1) s'); split; [exact Ers|]; split; [exact G2|].
      apply (change_ok st1 a1 ss st2 s'); auto.
      + intros o I D; apply (shows_same st1); [apply S2; assumption | exact f3 | apply Rr1; exact I].
      + cbn [s_blocks]; apply (s_change_keep st1 a1 ss); auto.
    - (* SetFilter *)
      unfold on_blocks in E.
      destruct (s_change _ (s_blocks ss)) as [bs|] eqn:Ch; [|discriminate]; injection E as <-.
      destruct (write_current_ok st a ss G R) as (a1 & G1 & Rr1 & U1).
      set (st1 := write_current st) in *.
      destruct (s_change_inv st1 a1 ss _ bs G1 Rr1 Ch) as (c & l & Ec & Hc); injection Ec as <- <-.
      pose proof (current_in st1 G1) as Ic.
      pose proof (g_roots _ G1 _ Ic) as Lc.
      set (cu := current st1) in *; set (st2 := set_filter st1 cu f).
      set (ob' := {| o_cells := o_cells (obj_at st1 cu); o_filter := f; o_imager := o_imager (obj_at st1 cu) |}).
      assert (Oo : obj_at st2 cu = ob').
      { unfold obj_at at 1, st2, set_filter; cbn [with_objs objs]; apply nth_upd_same; exact Lc. }
      assert (Ox : forall x, x <> cu -> obj_at st2 x = obj_at st1 x).
      { intros x D; unfold obj_at, st2, set_filter; cbn [with_objs objs]; apply nth_upd_other; exact D. }
      set (s' := {| s_val := s_val (a1 cu); s_filter := f; s_imager := s_imager (a1 cu) |}) in *.
      exists st2, (assign a1 cu s'); split; [reflexivity|]; split.
      + destruct G1 as [g1 g2 g3 g4 g5 g6]; constructor; auto.
        * intros o I; unfold st2, set_filter; cbn [with_objs objs]; rewrite upd_length; apply g1; exact I.
        * intros ob x I J; unfold st2, set_filter in I; cbn [with_objs objs] in I.
          destruct (In_upd _ _ _ _ I) as [->|I']; [|apply (g2 ob x I' J)].
          apply (g2 (obj_at st1 cu) x); [apply obj_in; exact Lc | exact J].
        * intros ob x I J; unfold st2, set_filter in I; cbn [with_objs objs] in I.
          destruct (In_upd _ _ _ _ I) as [->|I']; [|apply (g5 ob x I' J)].
          apply (g5 (obj_at st1 cu) x); [apply obj_in; exact Lc | exact J].
      + apply (change_ok st1 a1 ss st2 s'); auto.
        * destruct Rr1 as (Sh & _); destruct (Sh cu Ic) as (S1 & S2 & S3); split; [|split].
          -- cbn [s_val s']; intros nm pm In_; rewrite (S1 nm pm In_); unfold p_parameter; fold cu; rewrite Oo; cbn [o_cells ob'].
             rewrite (find_slot_names st1 st2) by reflexivity; reflexivity.
          -- fold cu; rewrite Oo; reflexivity.
          -- fold cu; rewrite Oo; exact S3.
        * intros o I D; apply (shows_same st1); [|reflexivity|apply Rr1; exact I].
          apply same_cells; [apply Ox; exact D | reflexivity].
        * cbn [s_blocks]; apply (s_change_keep st1 a1 ss); auto.
    - (* SetImager *)
      unfold on_blocks in E.
      destruct (s_change _ (s_blocks ss)) as [bs|] eqn:Ch; [|discriminate]; injection E as <-.
      destruct (write_current_ok st a ss G R) as (a1 & G1 & Rr1 & U1).
      set (st1 := write_current st) in *.
      destruct (s_change_inv st1 a1 ss _ bs G1 Rr1 Ch) as (c & l & Ec & Hc).
      pose proof (current_in st1 G1) as Ic.
      pose proof (g_roots _ G1 _ Ic) as Lc.
      set (cu := current st1) in *.
      destruct (s_imager (a1 cu)) as [z|] eqn:Im; [discriminate Ec|]; injection Ec as <- <-.
      assert (No : o_imager (obj_at st1 cu) = None).
      { destruct Rr1 as (Sh & _); destruct (Sh cu Ic) as (_ & _ & S3); rewrite Im in S3.
        destruct (o_imager (obj_at st1 cu)); [contradiction | reflexivity]. }
      unfold set_imager; rewrite No; cbn [bind].
      set (st2 := with_imagers _ _).
      set (ob' := {| o_cells := o_cells (obj_at st1 cu); o_filter := o_filter (obj_at st1 cu);
                     o_imager := Some (List.length (imagers st1)) |}) in *.
      assert (Oo : obj_at st2 cu = ob').
      { unfold obj_at at 1, st2; cbn [with_objs with_imagers objs]; apply nth_upd_same; exact Lc. }
      assert (Ox : forall x, x <> cu -> obj_at st2 x = obj_at st1 x).
      { intros x D; unfold obj_at, st2; cbn [with_objs with_imagers objs]; apply nth_upd_other; exact D. }
      set (s' := {| s_val := s_val (a1 cu); s_filter := s_filter (a1 cu); s_imager := Some s |}) in *.
      exists st2, (assign a1 cu s'); split; [reflexivity|]; split.
      + pose proof (obj_in st1 cu Lc) as Iob.
        destruct G1 as [g1 g2 g3 g4 g5 g6]; constructor; auto.
        * intros o I; unfold st2; cbn [with_objs with_imagers objs]; rewrite upd_length; apply g1; exact I.
        * intros ob x I J; unfold st2 in I; cbn [with_objs with_imagers objs] in I.
          destruct (In_upd _ _ _ _ I) as [->|I']; [apply (g2 _ x Iob J) | apply (g2 ob x I' J)].
        * intros x I; unfold st2 in I; cbn [with_imagers imagers] in I.
          apply in_app_or in I; destruct I as [I|[<-|[]]]; [apply g4; exact I | reflexivity].
        * intros ob x I J; unfold st2 in I |- *; cbn [with_objs with_imagers objs imagers] in I |- *.
          rewrite app_length; cbn [List.length].
          destruct (In_upd _ _ _ _ I) as [->|I']; [cbn [o_imager ob'] in J; injection J as <-; lia|].
          pose proof (g5 ob x I' J); lia.
      + apply (change_ok st1 a1 ss st2 s'); auto.
        * destruct Rr1 as (Sh & _); destruct (Sh cu Ic) as (S1 & S2 & S3); split; [|split].
          -- cbn [s_val s']; intros nm pm In_; rewrite (S1 nm pm In_); unfold p_parameter; fold cu; rewrite Oo; cbn [o_cells ob'].
             rewrite (find_slot_names st1 st2) by reflexivity; reflexivity.
          -- fold cu; rewrite Oo; exact S2.
          -- fold cu; rewrite Oo; cbn [s_imager s' o_imager ob']; unfold st2; cbn [with_imagers imagers].
             rewrite nth_snoc_new; reflexivity.
        * intros o I D; destruct Rr1 as (Sh & _); destruct (Sh o I) as (S1 & S2 & S3).
          assert (Sm : same st1 st2 o) by (apply same_cells; [apply Ox; exact D | reflexivity]).
          destruct Sm as (A1 & A2 & A3); split; [|split].
          -- intros nm pm In_; rewrite A1; apply S1; exact In_.
          -- rewrite A2; exact S2.
          -- rewrite A3; destruct (s_imager (a1 o)), (o_imager (obj_at st1 o)) as [i|] eqn:Oi; auto.
             unfold st2; cbn [with_imagers imagers]; rewrite nth_snoc_old; [exact S3|].
             apply (g_imager _ G1 (obj_at st1 o)); [apply obj_in, (g_roots _ G1); exact I | exact Oi].
        * cbn [s_blocks]; apply (s_change_keep st1 a1 ss); auto.
    - (* PushSet *)
      unfold on_blocks in E.
      destruct (s_change _ (s_blocks ss)) as [bs|] eqn:Ch; [|discriminate]; injection E as <-.
      destruct (s_change (fun c l => Some (c, c :: l)) (s_blocks ss)) as [bs1|] eqn:Ch1.
      2: { exfalso; rewrite R2, Eb, s_change_at in Ch1 by assumption; discriminate Ch1. }
      destruct (push_ok st a ss {| s_blocks := bs1; s_held := s_held ss |} G R eq_refl Ch1) as (a1 & G1 & Rr1 & U1).
      set (st1 := push st) in *.
      assert (Ch2 : s_change (fun c l => option_map (fun c' => (c', l)) (s_set_all env c ws)) bs1 = Some bs).
      { rewrite R2, Eb in Ch, Ch1; rewrite s_change_at in Ch, Ch1 by assumption.
        cbn [option_map fst snd] in Ch1; injection Ch1 as <-.
        rewrite s_change_plain; cbn [s_change].
        destruct (s_set_all env (a (b_cur b)) ws); [exact Ch | discriminate Ch]. }
      destruct (s_change_inv st1 a1 _ _ bs G1 Rr1 Ch2) as (c & l & Ec & Hc).
      destruct (s_set_all env (a1 (current st1)) ws) as [s'|] eqn:Es; [|discriminate Ec].
      cbn [option_map] in Ec; injection Ec as <- <-.
      pose proof (current_in st1 G1) as Ic.
      destruct (set_all_ok ws st1 (current st1) (a1 (current st1)) s' G1 Ic) as (st2 & Ers & G2 & F2 & Sh2 & S2); auto.
      { intros w I; apply Nm; cbn [op_names]; apply in_map_iff; exists w; auto. }
      { apply Rr1; exact Ic. }
      pose proof F2 as (f1 & f2 & f3 & f4).
      exists st2, (assign a1 (current st1) s'); split; [exact Ers|]; split; [exact G2|].
      apply (change_ok st1 a1 {| s_blocks := bs1; s_held := s_held ss |} st2 s'); auto.
      + intros o I D; apply (shows_same st1); [apply S2; assumption | exact f3 | apply Rr1; exact I].
      + cbn [s_blocks]; apply (s_change_keep st1 a1 {| s_blocks := bs1; s_held := s_held ss |}); auto.
  Qed.

  Lemma run_ok : forall ops st a ss ss', Good st -> Rel a st ss ->
    (forall o, In o ops -> incl (op_names o) names) -> s_run env ss ops = Some ss' ->
    exists st' a', run word env st ops = Ok st' /\ Good st' /\ Rel a' st' ss'.
  Proof.
    induction ops as [|o ops IH]; intros st a ss ss' G R Nm E; cbn [s_run run] in *.
    - injection E as <-; exists st, a; auto.
    - destruct (s_step env ss o) as [ss1|] eqn:E1; [|discriminate].
      destruct (step_ok st a ss ss1 o G R (Nm o (or_introl eq_refl)) E1) as (st1 & a1 & -> & G1 & Rr1).
      cbn [bind]; apply (IH st1 a1 ss1 ss'); auto; intros x I; apply Nm; right; exact I.
  Qed.
End Heap.

Lemma find_slot_start : forall word names cs filter nm, no_clash word names -> In nm names ->
  (forall c, In c cs -> In (c_name c) names) ->
  forall pre suf i, cs = pre ++ suf -> i = List.length pre ->
  match find_slot word (start cs filter) (hash word nm) i (seq i (List.length suf)) with
  | Some (_, c) => listed nm (map (fun c => (c_name c, c_params c)) suf)
                   = Some (c_params (cell_at (start cs filter) c))
  | None => listed nm (map (fun c => (c_name c, c_params c)) suf) = None
  end.
Proof.
  intros word names cs filter nm nc I Cs pre suf; revert pre.
  induction suf as [|c suf IH]; intros pre i E Ei; cbn [List.length seq find_slot map listed]; [reflexivity|].
  assert (Ec : cell_at (start cs filter) i = c).
  { unfold cell_at; cbn [start cells]; rewrite E, Ei, app_nth2, Nat.sub_diag by lia; reflexivity. }
  rewrite Ec; rewrite same_name_eqb.
  assert (Ic : In (c_name c) names).
  { apply Cs; rewrite E; apply in_or_app; right; left; reflexivity. }
  destruct (hash word (c_name c) =? hash word nm)%Z eqn:H.
  - apply Z.eqb_eq in H; apply nc in H; [|exact Ic|exact I].
    rewrite H, name_eqb_refl, Ec; reflexivity.
  - destruct (name_eqb (c_name c) nm) eqn:N.
    { apply name_eqb_eq in N; rewrite N, Z.eqb_refl in H; discriminate H. }
    apply (IH (pre ++ [c])); [rewrite <- app_assoc; exact E | rewrite app_length; cbn; lia].
Qed.

Lemma assoc_listed : forall {A} n (l : list (name * A)), assoc n l = listed n l.
Proof.
  intros A n; induction l as [|[m a] l IH]; cbn [assoc listed]; [reflexivity|].
  rewrite same_name_eqb, IH; reflexivity.
Qed.

Lemma start_ok : forall word names cs filter, no_clash word names ->
  (forall c, In c cs -> In (c_name c) names) ->
  Good names (start cs filter) /\
  exists a, Rel word names a (start cs filter) (s_start cs filter).
Proof.
  intros word names cs filter nc Cs; split.
  - constructor; cbn [start roots blocks held objs cells imagers].
    + intros o I; cbn in I; destruct I as [<-|[]]; cbn; lia.
    + intros ob c [<-|[]] I; cbn [o_cells] in I; apply in_seq in I; lia.
    + exact Cs.
    + intros x [].
    + intros ob i [<-|[]] E; discriminate E.
    + eexists [], _; split; [reflexivity|]; split; [reflexivity|]; intros b [].
  - unfold s_start; set (s := {| s_val := _; s_filter := filter; s_imager := None |}).
    exists (fun _ => s); split; [|split; reflexivity].
    intros o I; cbn in I; destruct I as [<-|[]]; split; [|split; [reflexivity | exact I]].
    intros nm pm In_; cbn [s_val s]; unfold p_parameter, obj_at; cbn [start objs nth o_cells].
    pose proof (find_slot_start word names cs filter nm nc In_ Cs [] cs 0 eq_refl eq_refl) as F.
    destruct (find_slot word (start cs filter) (hash word nm) 0 (seq 0 (List.length cs))) as [[j c]|];
      rewrite F; [rewrite assoc_listed|]; reflexivity.
Qed.

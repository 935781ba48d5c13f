From Coq Require Import Permutation.
From Verif Require Import StateModel StateSpec.

(** * Stores *)
Lemma find_put {A} : forall l k k' (v : A), find k' (put k v l) = if k' =? k then Some v else find k' l.
Proof.
  induction l as [|[a b] l IH]; intros k k' v; simpl; [reflexivity|].
  destruct (Nat.eqb_spec k a); simpl; [subst; destruct (k' =? a); reflexivity|].
  rewrite IH. destruct (Nat.eqb_spec k' a); [|reflexivity].
  destruct (Nat.eqb_spec k' k); [congruence|reflexivity].
Qed.

Lemma upd_length {A} : forall l i (v : A), length (upd i v l) = length l.
Proof. induction l; destruct i; simpl; intros; auto. Qed.

Lemma nth_upd {A} : forall l i j (v d : A), nth j (upd i v l) d = if (j =? i) && (i <? length l) then v else nth j l d.
Proof.
  induction l as [|x l IH]; intros i j v d; simpl.
  - rewrite andb_false_r. reflexivity.
  - destruct i, j; simpl; auto. rewrite IH. reflexivity.
Qed.

Lemma nth_snoc {A} : forall l i (v d : A), i < length l -> nth i (l ++ [v]) d = nth i l d.
Proof. intros. apply app_nth1; auto. Qed.

Definition wf (s : store) (hs : list nat) : Prop :=
  (forall id, In id hs -> id < length (s_objs s)) /\
  (forall id n lid, In id hs -> find n (o_lists (get_obj s id)) = Some lid -> lid < length (s_lists s)).

Definition same (s s' : store) (id id' : nat) : Prop :=
  (forall n p, param_of s' id' n p = param_of s id n p) /\ (forall k, field_of s' id' k = field_of s id k).

Lemma same_refl : forall s id, same s s id id. Proof. split; auto. Qed.
Lemma same_trans : forall s1 s2 s3 a b c, same s1 s2 a b -> same s2 s3 b c -> same s1 s3 a c.
Proof. intros * [A B] [C D]. split; intros; [rewrite C; apply A|rewrite D; apply B]. Qed.

Lemma wf_incl : forall s hs hs', wf s hs -> incl hs' hs -> wf s hs'.
Proof. intros * [A B] I. split; intros; eauto. Qed.

Lemma copy_ok : forall s hs id s' id', wf s hs -> In id hs -> copy_obj s id = (s', id') ->
  ~ In id' hs /\ wf s' (id' :: hs) /\ same s s' id id' /\ (forall x, In x hs -> same s s' x x).
Proof.
  intros s hs id s' id' [W1 W2] I E. unfold copy_obj in E. inversion E; subst; clear E.
  assert (Hnew : get_obj (mkstore (s_objs s ++ [mkobj (o_lists (get_obj s id)) (o_fields (get_obj s id)) []]) (s_lists s))
                   (length (s_objs s)) = mkobj (o_lists (get_obj s id)) (o_fields (get_obj s id)) []).
  { unfold get_obj at 1. simpl. rewrite app_nth2, Nat.sub_diag by lia. reflexivity. }
  assert (Hold : forall x, In x hs -> get_obj (mkstore (s_objs s ++ [mkobj (o_lists (get_obj s id)) (o_fields (get_obj s id)) []]) (s_lists s)) x = get_obj s x).
  { intros x Hx. unfold get_obj at 1. simpl. apply app_nth1, W1, Hx. }
  split; [|split; [|split]].
  - intros Hc. apply W1 in Hc. lia.
  - split.
    + intros x [<-|Hx]; simpl; rewrite app_length; simpl; [lia|]. specialize (W1 _ Hx). lia.
    + intros x n lid [<-|Hx] F; simpl.
      * rewrite Hnew in F. simpl in F. eauto.
      * rewrite Hold in F by auto. eauto.
  - split; intros; [unfold param_of|unfold field_of]; rewrite Hnew; reflexivity.
  - intros x Hx. split; intros; [unfold param_of|unfold field_of]; rewrite Hold by auto; reflexivity.
Qed.

Lemma count_flat_map_in : forall (f : nat -> list nat) L a x, In a L ->
  count_occ Nat.eq_dec (f a) x <= count_occ Nat.eq_dec (flat_map f L) x.
Proof.
  induction L as [|b L IH]; intros a x I; [easy|]. simpl. rewrite count_occ_app.
  destruct I as [->|I]; [lia|]. specialize (IH _ x I). lia.
Qed.

Lemma count_flat_map_two : forall (f : nat -> list nat) L a b x, NoDup L -> In a L -> In b L -> a <> b ->
  count_occ Nat.eq_dec (f a) x + count_occ Nat.eq_dec (f b) x <= count_occ Nat.eq_dec (flat_map f L) x.
Proof.
  induction L as [|c L IH]; intros a b x N Ia Ib D; [easy|]. simpl. rewrite count_occ_app.
  inversion N; subst.
  destruct Ia as [->|Ia], Ib as [->|Ib].
  - congruence.
  - pose proof (count_flat_map_in f L b x Ib). lia.
  - pose proof (count_flat_map_in f L a x Ia). lia.
  - specialize (IH a b x H2 Ia Ib D). lia.
Qed.

Lemma find_count : forall l n (lid : nat), find n l = Some lid -> 1 <= count_occ Nat.eq_dec (map snd l) lid.
Proof.
  induction l as [|[k v] l IH]; intros n lid; simpl; [discriminate|].
  destruct (Nat.eqb_spec n k); intros F.
  - inversion F; subst. destruct (Nat.eq_dec lid lid); [lia|congruence].
  - specialize (IH _ _ F). destruct (Nat.eq_dec v lid); lia.
Qed.

Lemma find_count_two : forall l n m (lid : nat), n <> m -> find n l = Some lid -> find m l = Some lid ->
  2 <= count_occ Nat.eq_dec (map snd l) lid.
Proof.
  induction l as [|[k v] l IH]; intros n m lid D; simpl; [discriminate|].
  destruct (Nat.eqb_spec n k); destruct (Nat.eqb_spec m k); intros F G; subst; try congruence.
  - inversion F; subst. pose proof (find_count _ _ _ G). destruct (Nat.eq_dec lid lid); [lia|congruence].
  - inversion G; subst. pose proof (find_count _ _ _ F). destruct (Nat.eq_dec lid lid); [lia|congruence].
  - pose proof (IH n m lid D F G). destruct (Nat.eq_dec v lid); lia.
Qed.

Lemma list_write_ok : forall extra s hs id name s' lid,
  wf s hs -> In id hs -> list_write extra (S extra) s hs id name = (s', lid) ->
  wf s' hs /\ (forall x, In x hs -> same s s' x x) /\ lid < length (s_lists s') /\
  find name (o_lists (get_obj s' id)) = Some lid /\
  (forall x n, In x hs -> find n (o_lists (get_obj s' x)) = Some lid -> x = id /\ n = name).
Proof.
  intros extra s hs id name s' lid W I E. pose proof W as [W1 W2]. unfold list_write in E.
  set (o := get_obj s id) in *.
  assert (New : forall l,
     (forall p, find p l = param_of s id name p) ->
     let s2 := mkstore (upd id (mkobj (put name (length (s_lists s)) (o_lists o)) (o_fields o) (o_trim o)) (s_objs s))
             (s_lists s ++ [l]) in
     wf s2 hs /\ (forall x, In x hs -> same s s2 x x) /\ length (s_lists s) < length (s_lists s2) /\
     find name (o_lists (get_obj s2 id)) = Some (length (s_lists s)) /\
     (forall x n, In x hs -> find n (o_lists (get_obj s2 x)) = Some (length (s_lists s)) -> x = id /\ n = name)).
  { intros l Hl s2.
    assert (Gid : get_obj s2 id = mkobj (put name (length (s_lists s)) (o_lists o)) (o_fields o) (o_trim o)).
    { unfold get_obj, s2. simpl. rewrite nth_upd, Nat.eqb_refl.
      destruct (Nat.ltb_spec id (length (s_objs s))); [reflexivity|]. specialize (W1 _ I). lia. }
    assert (Gx : forall x, x <> id -> get_obj s2 x = get_obj s x).
    { intros x Hx. unfold get_obj, s2. simpl. rewrite nth_upd.
      destruct (Nat.eqb_spec x id); [congruence|reflexivity]. }
    assert (Ll : length (s_lists s2) = S (length (s_lists s))) by (unfold s2; simpl; rewrite app_length; simpl; lia).
    split; [split|split; [|split; [|split]]].
    - intros x Hx. unfold s2. simpl. rewrite upd_length. auto.
    - intros x n k Hx F. rewrite Ll. destruct (Nat.eq_dec x id) as [->|D].
      + rewrite Gid in F. simpl in F. rewrite find_put in F. destruct (n =? name).
        * inversion F; lia.
        * apply W2 in F; auto.
      + rewrite Gx in F by auto. apply W2 in F; auto.
    - intros x Hx. split; intros; [unfold param_of|unfold field_of].
      + destruct (Nat.eq_dec x id) as [->|D].
        * rewrite Gid. simpl. rewrite find_put. fold o. destruct (Nat.eqb_spec n name).
          -- subst. rewrite app_nth2, Nat.sub_diag by lia. simpl. rewrite Hl. reflexivity.
          -- destruct (find n (o_lists o)) eqn:F; [|reflexivity].
             rewrite nth_snoc; [reflexivity|]. eapply W2; eauto.
        * rewrite Gx by auto. destruct (find n (o_lists (get_obj s x))) eqn:F; [|reflexivity].
          simpl. rewrite nth_snoc; [reflexivity|]. eapply W2; eauto.
      + destruct (Nat.eq_dec x id) as [->|D]; [rewrite Gid|rewrite Gx by auto]; reflexivity.
    - lia.
    - rewrite Gid. simpl. rewrite find_put, Nat.eqb_refl. reflexivity.
    - intros x n Hx F. destruct (Nat.eq_dec x id) as [->|D].
      + rewrite Gid in F. simpl in F. rewrite find_put in F. destruct (Nat.eqb_spec n name); [auto|].
        apply W2 in F; auto. lia.
      + rewrite Gx in F by auto. apply W2 in F; auto. lia. }
  destruct (find name (o_lists o)) as [k|] eqn:F.
  - destruct (list_uses s hs k + extra <=? S extra) eqn:U.
    + injection E as <- <-. apply Nat.leb_le in U.
      split; [exact W|]. split; [intros; apply same_refl|]. split; [eapply W2; eauto|]. split; [exact F|].
      intros x n Hx Fx. unfold list_uses in U.
      set (f := fun id0 => map snd (o_lists (get_obj s id0))) in U.
      destruct (Nat.eq_dec x id) as [->|D].
      * split; [reflexivity|]. destruct (Nat.eq_dec n name); [auto|]. exfalso.
        pose proof (find_count_two _ _ _ _ n0 Fx F).
        pose proof (count_flat_map_in f (nodup Nat.eq_dec hs) id k (proj2 (nodup_In _ _ _) I)).
        unfold f in H0 at 1. lia.
      * exfalso.
        pose proof (find_count _ _ _ Fx). pose proof (find_count _ _ _ F).
        pose proof (count_flat_map_two f (nodup Nat.eq_dec hs) x id k (NoDup_nodup _ _)
          (proj2 (nodup_In _ _ _) Hx) (proj2 (nodup_In _ _ _) I) D).
        unfold f in H1 at 1 2. fold o in H1. lia.
    + injection E as <- <-. apply New. intros p. unfold param_of. fold o. rewrite F. reflexivity.
  - injection E as <- <-. apply New. intros p. unfold param_of. fold o. rewrite F. reflexivity.
Qed.

Lemma set_param_ok : forall extra s hs id name param v s' lid,
  wf s hs -> In id hs -> list_write extra (S extra) s hs id name = (s', lid) ->
  let s2 := add_parameter s' lid param v in
  wf s2 hs /\ (forall x, In x hs -> x <> id -> same s s2 x x) /\
  (forall n p, param_of s2 id n p = set2 (param_of s id) name param v n p) /\
  (forall k, field_of s2 id k = field_of s id k).
Proof.
  intros extra s hs id name param v s' lid W I E s2.
  destruct (list_write_ok _ _ _ _ _ _ _ W I E) as (W' & S' & L & F & X).
  assert (G : forall x, get_obj s2 x = get_obj s' x) by reflexivity.
  assert (N : forall k, nth k (s_lists s2) [] = if k =? lid then put param v (nth lid (s_lists s') []) else nth k (s_lists s') []).
  { intros k. unfold s2, add_parameter. simpl. rewrite nth_upd.
    replace (lid <? length (s_lists s')) with true by (symmetry; apply Nat.ltb_lt; lia).
    rewrite andb_true_r. reflexivity. }
  split; [|split; [|split]].
  - destruct W' as [A B]. split; [exact A|]. intros x n k Hx Hf. unfold s2, add_parameter. simpl.
    rewrite upd_length. eapply B; eauto.
  - intros x Hx D. eapply same_trans; [apply S'; exact Hx|]. split; intros; [|reflexivity].
    unfold param_of. rewrite G. destruct (find n (o_lists (get_obj s' x))) eqn:Fx; [|reflexivity].
    rewrite N. destruct (Nat.eqb_spec n0 lid); [|reflexivity]. subst. destruct (X _ _ Hx Fx). congruence.
  - intros n p. unfold set2. rewrite <- (proj1 (S' id I) n p). unfold param_of. rewrite G.
    destruct (Nat.eqb_spec n name).
    + subst. rewrite F, N, Nat.eqb_refl, find_put. reflexivity.
    + simpl. destruct (find n (o_lists (get_obj s' id))) eqn:Fx; [|reflexivity].
      rewrite N. destruct (Nat.eqb_spec n1 lid); [|reflexivity]. subst. destruct (X _ _ I Fx). congruence.
  - intros k. rewrite <- (proj2 (S' id I)). reflexivity.
Qed.

Lemma set_obj_ok : forall s hs id o', wf s hs -> In id hs -> o_lists o' = o_lists (get_obj s id) ->
  let s2 := set_obj s id o' in
  wf s2 hs /\ (forall x, In x hs -> x <> id -> same s s2 x x) /\
  (forall n p, param_of s2 id n p = param_of s id n p) /\
  (forall k, field_of s2 id k = find k (o_fields o')).
Proof.
  intros s hs id o' [W1 W2] I E s2.
  assert (Gid : get_obj s2 id = o').
  { unfold get_obj, s2. simpl. rewrite nth_upd, Nat.eqb_refl.
    destruct (Nat.ltb_spec id (length (s_objs s))); [reflexivity|]. specialize (W1 _ I). lia. }
  assert (Gx : forall x, x <> id -> get_obj s2 x = get_obj s x).
  { intros x Hx. unfold get_obj, s2. simpl. rewrite nth_upd. destruct (Nat.eqb_spec x id); [congruence|reflexivity]. }
  split; [split|split; [|split]].
  - intros x Hx. unfold s2. simpl. rewrite upd_length. auto.
  - intros x n lid Hx F. destruct (Nat.eq_dec x id) as [->|D].
    + rewrite Gid, E in F. eapply W2; eauto.
    + rewrite Gx in F by auto. eapply W2; eauto.
  - intros x Hx D. split; intros; [unfold param_of|unfold field_of]; rewrite Gx by auto; reflexivity.
  - intros. unfold param_of. rewrite Gid, E. reflexivity.
  - intros. unfold field_of. rewrite Gid. reflexivity.
Qed.

(** * Relation between the model and the specification *)
Section Rel.
Variable T : Type.
Variable world_copy : Z -> T -> T.
Variable motion_copy : T -> T.
Variable identity : T.

Notation block := (block T).
Notation gstate := (gstate T).
Notation open_block := (open_block T).

Definition aview (A : store) (id : nat) (a : avalue) : Prop :=
  (forall n p, param_of A id n p = av_param a n p) /\ (forall k, field_of A id k = av_field a k).
Definition oview (O : store) (id : nat) (o : ovalue) : Prop := forall n p, param_of O id n p = o n p.

Lemma aview_same : forall A A' id id' a, same A A' id id' -> aview A id a -> aview A' id' a.
Proof. intros * [S1 S2] [V1 V2]. split; intros; [rewrite S1; auto|rewrite S2; auto]. Qed.
Lemma oview_same : forall A A' id id' a, same A A' id id' -> oview A id a -> oview A' id' a.
Proof. intros * [S1 S2] V n p. rewrite S1; auto. Qed.

Definition below (ob : open_block) (g : gstate) : gstate :=
  match ob_type T ob with
  | BFrame => ob_saved T ob
  | _ => mkg T (g_attr T (ob_saved T ob)) (g_trans T (ob_saved T ob)) (g_opt T g) (g_stack T g)
  end.

Fixpoint Rel (A O : store) (bs : list block) (obs : list open_block) (g : gstate) : Prop :=
  match bs with
  | [] => False
  | b :: rest =>
      aview A (b_attr T b) (g_attr T g) /\ b_trans T b = g_trans T g /\
      (if owns_options (b_type T b) then
         oview O (b_opt T b) (g_opt T g) /\ Forall2 (oview O) (b_optstack T b) (g_stack T g)
       else b_optstack T b = []) /\
      match obs with
      | [] => rest = [] /\ b_type T b = BMain
      | ob :: obs => b_type T b = ob_type T ob /\ b_type T b <> BMain /\
          (b_type T b = BMotion -> skipn (b_itime T b) (b_times T b) = ob_times T ob) /\
          Rel A O rest obs (below ob g)
      end
  end.

Definition opts_of (bs : list block) : list nat := flat_map (fun b => b_opt T b :: b_optstack T b) bs.
Fixpoint others (bs : list block) : list nat :=
  match bs with
  | [] => []
  | b :: bs => if owns_options (b_type T b) then opts_of bs else b_opt T b :: b_optstack T b ++ others bs
  end.

Lemma Rel_store : forall A A' O O' bs obs g,
  (forall x, In x (map (b_attr T) bs) -> same A A' x x) -> (forall x, In x (opts_of bs) -> same O O' x x) ->
  Rel A O bs obs g -> Rel A' O' bs obs g.
Proof.
  intros A A' O O'. induction bs as [|b bs IH]; intros obs g HA HO R; [exact R|].
  simpl in R |- *. destruct R as (V & Tr & Ow & Rest).
  split; [eapply aview_same; [apply HA; left; reflexivity|exact V]|].
  split; [exact Tr|]. split.
  - destruct (owns_options (b_type T b)); [|exact Ow]. destruct Ow as [P Q]. split.
    + eapply oview_same; [apply HO; left; reflexivity|exact P].
    + assert (HO' : forall x, In x (b_optstack T b) -> same O O' x x).
      { intros; apply HO. simpl. right. apply in_or_app; auto. }
      clear - Q HO'. induction Q; constructor.
      * eapply oview_same; [apply HO'; left; reflexivity|auto].
      * apply IHQ. intros; apply HO'; right; auto.
  - destruct obs as [|ob obs]; [exact Rest|]. destruct Rest as (E & N & M & R).
    repeat split; auto. apply IH; auto.
    + intros; apply HA; right; auto.
    + intros; apply HO. simpl. right. apply in_or_app; auto.
Qed.

Lemma Rel_owner : forall A O bs obs g, Rel A O bs obs g ->
  exists ob, owner T bs = Some ob /\ oview O (b_opt T ob) (g_opt T g) /\ Forall2 (oview O) (b_optstack T ob) (g_stack T g).
Proof.
  intros A O. induction bs as [|b bs IH]; intros obs g R; [easy|].
  simpl in R |- *. destruct R as (V & Tr & Ow & Rest).
  destruct (owns_options (b_type T b)) eqn:E.
  - exists b. split; auto.
  - destruct obs as [|ob obs].
    + destruct Rest as [_ M]. rewrite M in E. discriminate.
    + destruct Rest as (E2 & N & M & R). apply IH in R. destruct R as (o & P & Q). exists o. split; [exact P|].
      unfold below in Q. rewrite <- E2 in Q. destruct (b_type T b); try discriminate; exact Q.
Qed.

Lemma Rel_set_owner : forall A O O' bs obs g id os o stk, Rel A O bs obs g ->
  (forall x, In x (others bs) -> same O O' x x) -> oview O' id o -> Forall2 (oview O') os stk ->
  Rel A O' (set_owner T bs id os) obs (mkg T (g_attr T g) (g_trans T g) o stk).
Proof.
  intros A O O'. induction bs as [|b bs IH]; intros obs g id os o stk R HO Vo Vs; [easy|].
  simpl in R, HO |- *. destruct R as (V & Tr & Ow & Rest).
  destruct (owns_options (b_type T b)) eqn:E.
  - simpl. rewrite E. repeat split; auto; try apply V.
    destruct obs as [|ob obs]; [exact Rest|]. destruct Rest as (E2 & N & M & R).
    repeat split; auto. unfold below in *. rewrite <- E2 in *.
    destruct (b_type T b) eqn:Eb; try discriminate; try congruence.
    eapply Rel_store; [| |exact R]; intros; [apply same_refl|auto].
  - simpl. rewrite E. repeat split; auto; try apply V.
    destruct obs as [|ob obs].
    { destruct Rest as [_ M]. rewrite M in E. discriminate. }
    destruct Rest as (E2 & N & M & R). repeat split; auto.
    apply IH with (id := id) (os := os) (o := o) (stk := stk) in R; auto.
    + unfold below in *. rewrite <- E2 in *. destruct (b_type T b); try discriminate; exact R.
    + intros; apply HO. right. apply in_or_app; auto.
Qed.

Lemma opts_perm : forall bs ob, owner T bs = Some ob ->
  Permutation (opts_of bs) (b_opt T ob :: b_optstack T ob ++ others bs).
Proof.
  induction bs as [|b bs IH]; intros ob E; [easy|]. simpl in *.
  destruct (owns_options (b_type T b)).
  - inversion E; subst. reflexivity.
  - apply IH in E. apply (Permutation_count_occ Nat.eq_dec). intros x.
    pose proof (proj1 (Permutation_count_occ Nat.eq_dec _ _) E x) as C.
    repeat (rewrite ?count_occ_app in *; simpl in * ).
    destruct (Nat.eq_dec (b_opt T b) x), (Nat.eq_dec (b_opt T ob) x); lia.
Qed.

Lemma owner_set : forall bs ob id os, owner T bs = Some ob ->
  owner T (set_owner T bs id os) = Some (set_b_opt T ob id os) /\ others (set_owner T bs id os) = others bs.
Proof.
  induction bs as [|b bs IH]; intros ob id os E; [easy|]. simpl in *.
  destruct (owns_options (b_type T b)) eqn:Eb; simpl; rewrite Eb.
  - inversion E; subst. auto.
  - destruct (IH _ id os E) as [P Q]. rewrite P, Q. auto.
Qed.

Lemma set_owner_attrs : forall bs id os, map (b_attr T) (set_owner T bs id os) = map (b_attr T) bs.
Proof. induction bs as [|b bs IH]; intros; [reflexivity|]. simpl. destruct (owns_options _); simpl; congruence. Qed.

Definition prim_rel (A : store) (c : nat * T) (s : avalue * T) : Prop := aview A (fst c) (fst s) /\ snd c = snd s.

Definition R (st : state T) (s : sstate T) : Prop :=
  Rel (attrs T st) (opts T st) (blocks T st) (s_open T s) (s_cur T s) /\
  Forall2 (prim_rel (attrs T st)) (prims T st) (s_prims T s) /\
  Forall2 (oview (opts T st)) (pins T st) (s_pins T s) /\
  wf (attrs T st) (attr_holders T st) /\ wf (opts T st) (opt_holders T st).

Lemma prims_store : forall A A' ps ss, (forall x, In x (map fst ps) -> same A A' x x) ->
  Forall2 (prim_rel A) ps ss -> Forall2 (prim_rel A') ps ss.
Proof.
  intros A A' ps ss H F. induction F as [|c s ps ss [P Q] F IH]; constructor.
  - split; [|exact Q]. eapply aview_same; [apply H; left; reflexivity|exact P].
  - apply IH. intros; apply H; right; auto.
Qed.
Lemma pins_store : forall O O' ps ss, (forall x, In x ps -> same O O' x x) ->
  Forall2 (oview O) ps ss -> Forall2 (oview O') ps ss.
Proof.
  intros A A' ps ss H F. induction F as [|c s ps ss P F IH]; constructor.
  - eapply oview_same; [apply H; left; reflexivity|exact P].
  - apply IH. intros; apply H; right; auto.
Qed.

Lemma Forall2_remove {X Y} (P : X -> Y -> Prop) : forall k l l', Forall2 P l l' ->
  Forall2 P (remove_nth k l) (remove_nth k l').
Proof. intros k l l' F. revert k. induction F; intros k; destruct k; simpl; try constructor; auto. Qed.

Lemma remove_nth_incl {X} : forall k (l : list X), incl (remove_nth k l) l.
Proof.
  intros k l. revert k. induction l as [|x l IH]; intros k y Hy; destruct k; simpl in *; auto.
  destruct Hy as [->|Hy]; [auto|]. right. eapply IH; eauto.
Qed.

Lemma map_remove {X Y} (f : X -> Y) : forall k l, map f (remove_nth k l) = remove_nth k (map f l).
Proof. intros k l. revert k. induction l; intros k; destruct k; simpl; congruence. Qed.

(** writing to the current attributes *)
Lemma attr_write_ok : forall s hs a s' a', wf s (a :: hs) -> attr_write s (a :: hs) a = (s', a') ->
  ~ In a' hs /\ wf s' (a' :: hs) /\ same s s' a a' /\ (forall x, In x hs -> same s s' x x).
Proof.
  intros s hs a s' a' W E. unfold attr_write in E. destruct (2 <? S (uses (a :: hs) a)) eqn:U.
  - destruct (copy_ok _ _ _ _ _ W (or_introl eq_refl) E) as (N & W' & S1 & S2).
    split; [intros Hc; apply N; right; exact Hc|]. split; [|split; auto].
    + eapply wf_incl; [exact W'|]. intros x [<-|Hx]; simpl; auto.
    + intros; apply S2; right; auto.
  - inversion E; subst. apply Nat.ltb_ge in U. unfold uses in U. simpl in U.
    destruct (Nat.eq_dec a' a') as [_|C]; [|congruence].
    split; [|split; [exact W|split; [apply same_refl|intros; apply same_refl]]].
    intros Hc. apply (count_occ_In Nat.eq_dec) in Hc. lia.
Qed.

Lemma with_attr_ok : forall st s f a',
  R st s ->
  (forall S hs id, wf S hs -> In id hs ->
     wf (f S hs id) hs /\ (forall x, In x hs -> x <> id -> same S (f S hs id) x x) /\
     (forall a, aview S id a -> aview (f S hs id) id (a' a))) ->
  exists st', with_attr T st f = Some st' /\
    R st' (with_cur T s (mkg T (a' (g_attr T (s_cur T s))) (g_trans T (s_cur T s)) (g_opt T (s_cur T s)) (g_stack T (s_cur T s)))).
Proof.
  intros st s f a' (RR & P & Q & WA & WO) Hf. unfold with_attr.
  destruct st as [bs A O pr pi]; simpl in *. destruct bs as [|b rest]; [easy|].
  unfold attr_holders in WA. simpl in WA.
  destruct (attr_write A (attr_holders T (mkstate T (b :: rest) A O pr pi)) (b_attr T b)) as [S1 id] eqn:E.
  unfold attr_holders in E. simpl in E.
  destruct (attr_write_ok _ _ _ _ _ WA E) as (N & W1 & Sa & Sx).
  eexists. split; [reflexivity|].
  set (hs := map (b_attr T) rest ++ map fst pr) in *.
  destruct (Hf S1 (id :: hs) id W1 (or_introl eq_refl)) as (W2 & Fx & Fa).
  unfold R. simpl.
  change (attr_holders T (mkstate T (set_b_attr T b id :: rest) S1 O pr pi)) with (id :: hs).
  set (S2 := f S1 (id :: hs) id) in *.
  assert (SX : forall x, In x hs -> same A S2 x x).
  { intros x Hx. eapply same_trans; [apply Sx; exact Hx|]. apply Fx; [right; exact Hx|]. intros ->. contradiction. }
  split; [|split; [|split; [|split]]].
  - destruct RR as (V & Tr & Ow & Rest). split; [apply Fa; eapply aview_same; eauto|].
    split; [exact Tr|]. split; [exact Ow|].
    destruct (s_open T s) as [|ob obs]; [exact Rest|]. destruct Rest as (E1 & N1 & M1 & R1).
    repeat split; auto.
    eapply Rel_store; [| |exact R1]; [intros x Hx; apply SX; unfold hs; apply in_or_app; auto|intros; apply same_refl].
  - eapply prims_store; [|exact P]. intros x Hx. apply SX. unfold hs. apply in_or_app; auto.
  - exact Q.
  - exact W2.
  - exact WO.
Qed.

Lemma opt_write_ok : forall s hs l a s' a', wf s hs -> Permutation hs (a :: l) -> opt_write s hs a = (s', a') ->
  ~ In a' l /\ wf s' (a' :: l) /\ same s s' a a' /\ (forall x, In x l -> same s s' x x).
Proof.
  intros s hs l a s' a' W Pm E. unfold opt_write in E. destruct (uses hs a =? 1) eqn:U.
  - inversion E; subst. apply Nat.eqb_eq in U. unfold uses in U.
    rewrite (proj1 (Permutation_count_occ Nat.eq_dec _ _) Pm) in U. simpl in U.
    destruct (Nat.eq_dec a' a') as [_|C]; [|congruence].
    split; [|split; [|split; [apply same_refl|intros; apply same_refl]]].
    + intros Hc. apply (count_occ_In Nat.eq_dec) in Hc. lia.
    + eapply wf_incl; [exact W|]. intros x Hx. eapply Permutation_in; [symmetry; exact Pm|exact Hx].
  - assert (Ia : In a hs) by (eapply Permutation_in; [symmetry; exact Pm|left; reflexivity]).
    assert (Il : incl l hs) by (intros x Hx; eapply Permutation_in; [symmetry; exact Pm|right; exact Hx]).
    destruct (copy_ok _ _ _ _ _ W Ia E) as (N & W' & S1 & S2).
    split; [intros Hc; apply N, Il, Hc|]. split; [|split; auto].
    eapply wf_incl; [exact W'|]. intros x [<-|Hx]; simpl; auto.
Qed.

Lemma with_opt_ok : forall st s f o',
  R st s ->
  (forall S hs id, wf S hs -> In id hs ->
     wf (f S hs id) hs /\ (forall x, In x hs -> x <> id -> same S (f S hs id) x x) /\
     (forall a, oview S id a -> oview (f S hs id) id (o' a))) ->
  exists st', with_opt T st f = Some st' /\
    R st' (with_cur T s (mkg T (g_attr T (s_cur T s)) (g_trans T (s_cur T s)) (o' (g_opt T (s_cur T s))) (g_stack T (s_cur T s)))).
Proof.
  intros st s f o' (RR & P & Q & WA & WO) Hf. unfold with_opt.
  destruct st as [bs A O pr pi]; simpl in *.
  destruct (Rel_owner _ _ _ _ _ RR) as (ob & Eo & Vo & Vs). rewrite Eo.
  pose proof (opts_perm _ _ Eo) as Pm.
  unfold opt_holders in WO. simpl in WO. fold (opts_of bs) in WO.
  destruct (opt_write O (opt_holders T (mkstate T bs A O pr pi)) (b_opt T ob)) as [S1 id] eqn:E.
  unfold opt_holders in E. simpl in E. fold (opts_of bs) in E.
  assert (Pm2 : Permutation (opts_of bs ++ pi) (b_opt T ob :: b_optstack T ob ++ others bs ++ pi)).
  { rewrite Pm. simpl. rewrite <- app_assoc. reflexivity. }
  destruct (opt_write_ok _ _ _ _ _ _ WO Pm2 E) as (N & W1 & Sa & Sx).
  eexists. split; [reflexivity|].
  set (bs' := set_owner T bs id (b_optstack T ob)).
  destruct (owner_set bs ob id (b_optstack T ob) Eo) as [Eo' Oth]. fold bs' in Eo', Oth.
  assert (Pm3 : Permutation (opts_of bs' ++ pi) (id :: b_optstack T ob ++ others bs ++ pi)).
  { rewrite (opts_perm _ _ Eo'), Oth. simpl. rewrite <- app_assoc. reflexivity. }
  assert (W1' : wf S1 (opts_of bs' ++ pi)).
  { eapply wf_incl; [exact W1|]. intros x Hx. eapply Permutation_in; [exact Pm3|exact Hx]. }
  assert (Iid : In id (opts_of bs' ++ pi)) by (eapply Permutation_in; [symmetry; exact Pm3|left; reflexivity]).
  destruct (Hf S1 (opts_of bs' ++ pi) id W1' Iid) as (W2 & Fx & Fa).
  unfold R. simpl. unfold opt_holders. simpl. fold (opts_of bs').
  change (flat_map (fun b => b_opt T b :: b_optstack T b) bs') with (opts_of bs').
  set (S2 := f S1 (opts_of bs' ++ pi) id) in *.
  assert (SX : forall x, In x (b_optstack T ob ++ others bs ++ pi) -> same O S2 x x).
  { intros x Hx. eapply same_trans; [apply Sx; exact Hx|]. apply Fx.
    - eapply Permutation_in; [symmetry; exact Pm3|right; exact Hx].
    - intros ->. contradiction. }
  split; [|split; [|split; [|split]]].
  - apply Rel_set_owner with (O := O); auto.
    + intros; apply SX. apply in_or_app; right; apply in_or_app; auto.
    + apply Fa. eapply oview_same; eauto.
    + eapply pins_store; [|exact Vs]. intros; apply SX, in_or_app; auto.
  - exact P.
  - eapply pins_store; [|exact Q]. intros; apply SX. apply in_or_app; right; apply in_or_app; auto.
  - unfold attr_holders in *. simpl in *. unfold bs'. rewrite set_owner_attrs. exact WA.
  - exact W2.
Qed.

Lemma Rel_kind : forall A O b bs s, Rel A O (b :: bs) (s_open T s) (s_cur T s) -> b_type T b = kind T s.
Proof.
  intros A O b bs s (V & Tr & Ow & Rest). unfold kind. destruct (s_open T s); [apply Rest|].
  destruct Rest as (E & _). exact E.
Qed.

Lemma nth_skipn_hd : forall (l : list Z) i, nth i l 0%Z = hd 0%Z (skipn i l).
Proof. induction l; intros i; destruct i; simpl; auto. Qed.

Lemma cur_time_ok : forall st s b rest, R st s -> blocks T st = b :: rest -> cur_time T st b = time_now T s.
Proof.
  intros st s b rest (RR & _) E. rewrite E in RR.
  pose proof (Rel_owner _ _ _ _ _ RR) as (ob & Eo & Vo & _).
  pose proof (Rel_kind _ _ _ _ _ RR) as K.
  assert (G : b_type T b <> BMotion -> cur_time T st b = match g_opt T (s_cur T s) n_system p_shutter with Some v => v | None => 0%Z end).
  { intros NM. unfold cur_time. rewrite E, Eo, (Vo n_system p_shutter).
    destruct (b_type T b); congruence. }
  unfold time_now, kind in *. destruct RR as (V & Tr & Ow & Rest).
  destruct (s_open T s) as [|[ty ts sv] obs]; simpl in *.
  - apply G. rewrite K. discriminate.
  - destruct Rest as (_ & _ & M & _).
    destruct ty; try (apply G; rewrite K; discriminate).
    unfold cur_time. rewrite K. rewrite nth_skipn_hd, M by exact K. reflexivity.
Qed.

Lemma allows_not_main : forall a b, allows a b = true -> b <> BMain.
Proof. intros a b H ->. destruct a; discriminate. Qed.

Lemma copy_attr_of : forall A hs id A' id', wf A hs -> In id hs -> copy_obj A id = (A', id') ->
  wf A' (id' :: hs) /\ same A A' id id' /\ (forall x, In x hs -> same A A' x x).
Proof. intros. destruct (copy_ok _ _ _ _ _ H H0 H1) as (_ & ? & ? & ?); auto. Qed.

Lemma begin_ok : forall st s ty times, R st s ->
  exists st' s', begin_block T world_copy motion_copy st ty times = Some st' /\
    sexec T world_copy motion_copy (OBegin T ty times) s = Some s' /\ R st' s'.
Proof.
  intros st s ty times HR. pose proof HR as (RR & P & Q & WA & WO). unfold begin_block.
  destruct (blocks T st) as [|b rest] eqn:Eb; [easy|].
  pose proof (Rel_kind _ _ _ _ _ RR) as K. cbn [sexec]. rewrite <- K.
  destruct (allows (b_type T b) ty) eqn:Al; [|eexists; eexists; split; [reflexivity|split; [reflexivity|exact HR]]].
  pose proof (cur_time_ok _ _ _ _ HR Eb) as CT.
  unfold attr_holders, opt_holders in WA, WO. rewrite Eb in WA, WO. simpl in WA, WO.
  fold (opts_of rest) in WO.
  destruct (copy_obj (opts T st) (b_opt T b)) as [O' oid] eqn:EO.
  destruct (copy_attr_of _ _ _ _ _ WO (or_introl eq_refl) EO) as (WO' & SOn & SOx).
  assert (EA : exists A' aid,
    match ty with BTransform | BMotion => (attrs T st, b_attr T b) | _ => copy_obj (attrs T st) (b_attr T b) end = (A', aid) /\
    wf A' (aid :: b_attr T b :: map (b_attr T) rest ++ map fst (prims T st)) /\
    same (attrs T st) A' (b_attr T b) aid /\
    (forall x, In x (b_attr T b :: map (b_attr T) rest ++ map fst (prims T st)) -> same (attrs T st) A' x x)).
  { destruct (copy_obj (attrs T st) (b_attr T b)) as [A1 a1] eqn:EA1.
    destruct (copy_attr_of _ _ _ _ _ WA (or_introl eq_refl) EA1) as (W1 & Sn & Sx).
    assert (Sh : wf (attrs T st) (b_attr T b :: b_attr T b :: map (b_attr T) rest ++ map fst (prims T st))).
    { eapply wf_incl; [exact WA|]. intros x [<-|Hx]; [left; reflexivity|exact Hx]. }
    destruct ty; eexists; eexists; (split; [reflexivity|]); auto;
      (split; [exact Sh|split; [apply same_refl|intros; apply same_refl]]). }
  destruct EA as (A' & aid & -> & WA' & SAn & SAx).
  eexists; eexists; split; [reflexivity|]. split; [reflexivity|].
  unfold R. cbn [blocks attrs opts prims pins s_open s_cur s_prims s_pins].
  pose proof RR as (V & Tr & Ow & Rest).
  assert (RR' : Rel A' O' (b :: rest) (s_open T s) (s_cur T s)).
  { eapply Rel_store; [| |exact RR].
    - intros x Hx. apply SAx. simpl in Hx. destruct Hx as [<-|Hx]; [left; auto|right; apply in_or_app; auto].
    - intros x Hx. apply SOx. simpl in Hx. destruct Hx as [<-|Hx]; [left; reflexivity|right].
      apply in_or_app. left. exact Hx. }
  split; [|split; [|split; [|split]]].
  - change (aview A' aid (g_attr T (s_cur T s)) /\
       match ty with BWorld => world_copy (cur_time T st b) (b_trans T b) | BMotion => motion_copy (b_trans T b) | _ => b_trans T b end
       = match ty with BWorld => world_copy (time_now T s) (g_trans T (s_cur T s)) | BMotion => motion_copy (g_trans T (s_cur T s)) | _ => g_trans T (s_cur T s) end /\
       (if owns_options ty then oview O' oid (g_opt T (s_cur T s)) /\ Forall2 (oview O') [] (match ty with BFrame => [] | _ => g_stack T (s_cur T s) end) else @nil nat = []) /\
       (ty = ty /\ ty <> BMain /\ (ty = BMotion -> times = times) /\
        Rel A' O' (b :: rest) (s_open T s)
          (below (mkopen T ty times (s_cur T s))
             (mkg T (g_attr T (s_cur T s)) (match ty with BWorld => world_copy (time_now T s) (g_trans T (s_cur T s)) | BMotion => motion_copy (g_trans T (s_cur T s)) | _ => g_trans T (s_cur T s) end) (g_opt T (s_cur T s)) (match ty with BFrame => [] | _ => g_stack T (s_cur T s) end))))).
    split; [eapply aview_same; eauto|]. split; [rewrite CT, Tr; reflexivity|].
    split.
    { destruct ty; simpl in *; auto.
      - exfalso. apply (allows_not_main _ _ Al eq_refl).
      - split; [|constructor]. destruct (b_type T b) eqn:Et; try discriminate.
        simpl in Ow. eapply oview_same; [exact SOn|apply Ow]. }
    split; [reflexivity|]. split; [eapply allows_not_main; eauto|]. split; [auto|].
    unfold below. cbn [ob_type ob_saved g_opt g_stack g_attr g_trans].
    destruct ty; destruct (s_cur T s); exact RR'.
  - eapply prims_store; [|exact P]. intros x Hx. apply SAx. right. apply in_or_app; auto.
  - eapply pins_store; [|exact Q]. intros x Hx. apply SOx. right. apply in_or_app. right. exact Hx.
  - unfold attr_holders. simpl. exact WA'.
  - unfold opt_holders. simpl. exact WO'.
Qed.

Lemma end_ok : forall st s ty, R st s ->
  match end_block T st ty, sexec T world_copy motion_copy (OEnd T ty) s with
  | Some st', Some s' => R st' s' | None, None => True | _, _ => False end.
Proof.
  intros st s ty HR. pose proof HR as (RR & P & Q & WA & WO). unfold end_block.
  destruct (blocks T st) as [|b rest] eqn:Eb; [easy|].
  pose proof (Rel_kind _ _ _ _ _ RR) as K. simpl. rewrite <- K.
  destruct (btype_eqb (b_type T b) ty) eqn:Et; [|exact HR].
  assert (Ety : b_type T b = ty) by (destruct (b_type T b), ty; congruence || discriminate).
  pose proof RR as (V & Tr & Ow & Rest).
  destruct (s_open T s) as [|ob obs] eqn:Eopen.
  { destruct Rest as [-> _]. exact I. }
  destruct Rest as (E1 & N1 & M1 & R1).
  destruct rest as [|p rest]; [easy|].
  unfold attr_holders, opt_holders in WA, WO. rewrite Eb in WA, WO. simpl in WA, WO.
  unfold R. cbn [blocks attrs opts prims pins s_open s_cur s_prims s_pins].
  split; [|split; [exact P|split; [exact Q|split]]].
  - rewrite E1 in Ety. unfold below in R1. rewrite Ety in R1.
    assert (Low : forall a t, a = b_attr T p \/ a = b_attr T b -> forall g',
        g_opt T g' = g_opt T (match ty with BFrame => ob_saved T ob | _ => mkg T (g_attr T (ob_saved T ob)) (g_trans T (ob_saved T ob)) (g_opt T (s_cur T s)) (g_stack T (s_cur T s)) end) ->
        g_stack T g' = g_stack T (match ty with BFrame => ob_saved T ob | _ => mkg T (g_attr T (ob_saved T ob)) (g_trans T (ob_saved T ob)) (g_opt T (s_cur T s)) (g_stack T (s_cur T s)) end) ->
        aview (attrs T st) a (g_attr T g') -> t = g_trans T g' ->
        Rel (attrs T st) (opts T st) (set_b_trans T (set_b_attr T p a) t :: rest) obs g').
    { intros a t _ g' Eo Es Va Et'. destruct R1 as (V1 & T1 & O1 & Re1). split; [exact Va|]. split; [exact Et'|].
      simpl. rewrite Eo, Es. split; [exact O1|].
      destruct obs as [|ob2 obs]; [exact Re1|]. destruct Re1 as (A1 & A2 & A3 & A4). repeat split; auto.
      unfold below in *. rewrite Eo, Es. exact A4. }
    destruct R1 as (V1 & T1 & O1 & Re1).
    destruct ty; try congruence.
    + exact (Low (b_attr T p) (b_trans T p) (or_introl eq_refl) _ eq_refl eq_refl V1 T1).
    + exact (Low (b_attr T p) (b_trans T p) (or_introl eq_refl) (restore T BWorld (ob_saved T ob) (s_cur T s)) eq_refl eq_refl V1 T1).
    + exact (Low (b_attr T p) (b_trans T p) (or_introl eq_refl) (restore T BAttribute (ob_saved T ob) (s_cur T s)) eq_refl eq_refl V1 T1).
    + exact (Low (b_attr T b) (b_trans T p) (or_intror eq_refl) (restore T BTransform (ob_saved T ob) (s_cur T s)) eq_refl eq_refl V T1).
    + exact (Low (b_attr T p) (b_trans T p) (or_introl eq_refl) (restore T BSolid (ob_saved T ob) (s_cur T s)) eq_refl eq_refl V1 T1).
    + exact (Low (b_attr T b) (b_trans T b) (or_intror eq_refl) (s_cur T s) eq_refl eq_refl V Tr).
  - eapply wf_incl; [exact WA|]. unfold attr_holders. simpl.
    intros x [<-|Hx]; [|right; right; exact Hx].
    destruct ty; simpl; auto.
  - eapply wf_incl; [exact WO|]. unfold opt_holders. simpl. fold (opts_of rest).
    intros x Hx. right. rewrite <- app_assoc. apply in_or_app. right. destruct ty; exact Hx.
Qed.

Lemma skipn_step : forall (l : list Z) i x r, skipn i l = x :: r -> skipn (S i) l = r.
Proof.
  induction l; intros i x r E; destruct i; simpl in *; try discriminate; [congruence|].
  destruct l; [destruct i; discriminate|]. exact (IHl _ _ _ E).
Qed.

Lemma skipn_nil_iff : forall (l : list Z) i, (S i <=? length l) = match skipn i l with [] => false | _ => true end.
Proof. induction l; intros i; destruct i; simpl in *; auto. Qed.

Lemma transform_ok : forall st s f, R st s ->
  match exec T world_copy motion_copy (OTransform T f) st, sexec T world_copy motion_copy (OTransform T f) s with
  | Some st', Some s' => R st' s' | None, None => True | _, _ => False end.
Proof.
  intros st s f HR. pose proof HR as (RR & P & Q & WA & WO). cbn [exec sexec].
  destruct (blocks T st) as [|b rest] eqn:Eb; [easy|].
  pose proof (Rel_kind _ _ _ _ _ RR) as K. rewrite (cur_time_ok _ _ _ _ HR Eb), K.
  unfold attr_holders, opt_holders in WA, WO. rewrite Eb in WA, WO. simpl in WA, WO.
  pose proof RR as (V & Tr & Ow & Rest). rewrite Tr.
  assert (NM : is_motion (kind T s) = false ->
    R (mkstate T (set_b_trans T b (f (is_motion (kind T s)) (time_now T s) (g_trans T (s_cur T s))) :: rest)
         (attrs T st) (opts T st) (prims T st) (pins T st))
      (with_cur T s (mkg T (g_attr T (s_cur T s)) (f (is_motion (kind T s)) (time_now T s) (g_trans T (s_cur T s))) (g_opt T (s_cur T s)) (g_stack T (s_cur T s))))).
  { intros M. unfold R. cbn [blocks attrs opts prims pins s_open s_cur s_prims s_pins with_cur].
    split; [|split; [exact P|split; [exact Q|split; [exact WA|exact WO]]]].
    split; [exact V|]. split; [reflexivity|]. split; [exact Ow|].
    destruct (s_open T s) as [|ob obs]; [exact Rest|]. exact Rest. }
  unfold kind in *. destruct (s_open T s) as [|[ty ts sv] obs] eqn:Eop; cbn [is_motion ob_type ob_times ob_saved] in *.
  { apply NM. reflexivity. }
  destruct ty; cbn [is_motion] in *; try (apply NM; reflexivity).
  destruct Rest as (E1 & N1 & M1 & R1). specialize (M1 E1).
  rewrite skipn_nil_iff, M1. destruct ts as [|t ts]; [exact I|].
  unfold R. cbn [blocks attrs opts prims pins s_open s_cur s_prims s_pins with_cur].
  split; [|split; [exact P|split; [exact Q|split; [exact WA|exact WO]]]].
  split; [exact V|]. split; [reflexivity|]. split; [exact Ow|].
  split; [exact E1|]. split; [exact N1|]. split; [|exact R1].
  intros _. exact (skipn_step _ _ _ _ M1).
Qed.

Lemma step_ok : forall o st s, R st s ->
  match exec T world_copy motion_copy o st, sexec T world_copy motion_copy o s with
  | Some st', Some s' => R st' s' | None, None => True | _, _ => False end.
Proof.
  intros o st s HR. destruct o; try (apply transform_ok; exact HR).
  - destruct (begin_ok st s ty times HR) as (st' & s' & E1 & E2 & H). simpl exec. rewrite E1, E2. exact H.
  - apply end_ok, HR.
  - (* attribute *)
    destruct (with_attr_ok st s (fun s hs id => set_attr_param s hs id name param v)
      (fun a => mkav (set2 (av_param a) name param v) (av_field a)) HR) as (st' & E & H).
    { intros S hs id W I. unfold set_attr_param. destruct (list_write 1 2 S hs id name) as [S1 lid] eqn:EL.
      destruct (set_param_ok 1 S hs id name param v S1 lid W I EL) as (A1 & A2 & A3 & A4).
      split; [exact A1|]. split; [exact A2|]. intros a [V1 V2]. split; simpl.
      - intros n p. rewrite A3. unfold set2. rewrite V1. reflexivity.
      - intros k. rewrite A4. apply V2. }
    simpl exec. rewrite E. exact H.
  - (* shader *)
    destruct (with_attr_ok st s (fun s hs id => set_field s id k v)
      (fun a => mkav (av_param a) (set1 (av_field a) k v)) HR) as (st' & E & H).
    { intros S hs id W I. unfold set_field.
      destruct (set_obj_ok S hs id (mkobj (o_lists (get_obj S id)) (put k v (o_fields (get_obj S id))) (o_trim (get_obj S id))) W I eq_refl) as (A1 & A2 & A3 & A4).
      split; [exact A1|]. split; [exact A2|]. intros a [V1 V2]. split; simpl.
      - intros n p. rewrite A3. apply V1.
      - intros j. rewrite A4. simpl. rewrite find_put. unfold set1. rewrite <- V2. reflexivity. }
    simpl exec. rewrite E. exact H.
  - (* trim curves *)
    destruct (with_attr_ok st s (fun s hs id => set_trim s id t) (fun a => a) HR) as (st' & E & H).
    { intros S hs id W I. unfold set_trim.
      destruct (set_obj_ok S hs id (mkobj (o_lists (get_obj S id)) (o_fields (get_obj S id)) t) W I eq_refl) as (A1 & A2 & A3 & A4).
      split; [exact A1|]. split; [exact A2|]. intros a [V1 V2]. split; simpl.
      - intros n p. rewrite A3. apply V1.
      - intros j. rewrite A4. apply V2. }
    simpl exec. rewrite E. destruct s as [[? ? ? ?] ? ? ?]. exact H.
  - (* option *)
    destruct (with_opt_ok st s (fun s hs id => set_opt_param s hs id name param v)
      (fun a => set2 a name param v) HR) as (st' & E & H).
    { intros S hs id W I. unfold set_opt_param. destruct (list_write 0 1 S hs id name) as [S1 lid] eqn:EL.
      destruct (set_param_ok 0 S hs id name param v S1 lid W I EL) as (A1 & A2 & A3 & A4).
      split; [exact A1|]. split; [exact A2|]. intros a V1 n p. rewrite A3. unfold set2. rewrite V1. reflexivity. }
    simpl exec. rewrite E. exact H.
  - (* push options *)
    destruct HR as (RR & P & Q & WA & WO). cbn [exec sexec].
    destruct (Rel_owner _ _ _ _ _ RR) as (ob & Eo & Vo & Vs). rewrite Eo.
    destruct (copy_obj (opts T st) (b_opt T ob)) as [S1 id] eqn:E.
    pose proof (opts_perm _ _ Eo) as Pm.
    unfold opt_holders in WO. fold (opts_of (blocks T st)) in WO.
    assert (Pm2 : Permutation (opts_of (blocks T st) ++ pins T st) (b_opt T ob :: b_optstack T ob ++ others (blocks T st) ++ pins T st)).
    { rewrite Pm. simpl. rewrite <- app_assoc. reflexivity. }
    assert (Iob : In (b_opt T ob) (opts_of (blocks T st) ++ pins T st)) by (eapply Permutation_in; [symmetry; exact Pm2|left; reflexivity]).
    destruct (copy_attr_of _ _ _ _ _ WO Iob E) as (W1 & Sn & Sx).
    assert (SX : forall x, In x (b_opt T ob :: b_optstack T ob ++ others (blocks T st) ++ pins T st) -> same (opts T st) S1 x x).
    { intros x Hx. apply Sx. eapply Permutation_in; [symmetry; exact Pm2|exact Hx]. }
    set (bs' := set_owner T (blocks T st) id (b_opt T ob :: b_optstack T ob)).
    destruct (owner_set (blocks T st) ob id (b_opt T ob :: b_optstack T ob) Eo) as [Eo' Oth]. fold bs' in Eo', Oth.
    unfold R. simpl. unfold opt_holders, attr_holders in *. simpl. fold (opts_of bs').
    change (flat_map (fun b => b_opt T b :: b_optstack T b) bs') with (opts_of bs').
    split; [|split; [|split; [|split]]].
    + apply Rel_set_owner with (O := opts T st); auto.
      * intros; apply SX. right. apply in_or_app; right; apply in_or_app; auto.
      * eapply oview_same; eauto.
      * constructor; [eapply oview_same; [apply SX; left; reflexivity|exact Vo]|].
        eapply pins_store; [|exact Vs]. intros; apply SX. right. apply in_or_app; auto.
    + exact P.
    + eapply pins_store; [|exact Q]. intros; apply SX. right. apply in_or_app; right; apply in_or_app; auto.
    + unfold bs'. rewrite set_owner_attrs. exact WA.
    + eapply wf_incl; [exact W1|]. intros x Hx.
      assert (Hx2 : In x (id :: (b_opt T ob :: b_optstack T ob) ++ others (blocks T st) ++ pins T st)).
      { eapply Permutation_in; [|exact Hx]. rewrite (opts_perm _ _ Eo'), Oth. simpl. rewrite <- app_assoc. reflexivity. }
      destruct Hx2 as [<-|Hx2]; [left; reflexivity|]. right.
      eapply Permutation_in; [symmetry; exact Pm2|exact Hx2].
  - (* pop options *)
    destruct HR as (RR & P & Q & WA & WO). cbn [exec sexec].
    destruct (Rel_owner _ _ _ _ _ RR) as (ob & Eo & Vo & Vs). rewrite Eo.
    destruct (b_optstack T ob) as [|id os] eqn:Est; inversion Vs; subst; [exact I|].
    pose proof (opts_perm _ _ Eo) as Pm.
    unfold opt_holders in WO. fold (opts_of (blocks T st)) in WO.
    assert (Pm2 : Permutation (opts_of (blocks T st) ++ pins T st) (b_opt T ob :: b_optstack T ob ++ others (blocks T st) ++ pins T st)).
    { rewrite Pm. simpl. rewrite <- app_assoc. reflexivity. }
    set (bs' := set_owner T (blocks T st) id os).
    destruct (owner_set (blocks T st) ob id os Eo) as [Eo' Oth]. fold bs' in Eo', Oth.
    unfold R. simpl. unfold opt_holders, attr_holders in *. simpl. fold (opts_of bs').
    change (flat_map (fun b => b_opt T b :: b_optstack T b) bs') with (opts_of bs').
    split; [|split; [|split; [|split]]]; auto.
    + apply Rel_set_owner with (O := opts T st); auto. intros; apply same_refl.
    + unfold bs'. rewrite set_owner_attrs. exact WA.
    + eapply wf_incl; [exact WO|]. intros x Hx.
      eapply Permutation_in; [symmetry; exact Pm2|]. rewrite Est.
      assert (Hx2 : In x (id :: os ++ others (blocks T st) ++ pins T st)).
      { eapply Permutation_in; [|exact Hx]. rewrite (opts_perm _ _ Eo'), Oth. simpl. rewrite <- app_assoc. reflexivity. }
      right. exact Hx2.
  - (* primitive *)
    destruct HR as (RR & P & Q & WA & WO). cbn [exec sexec].
    destruct (blocks T st) as [|b rest] eqn:Eb; [easy|].
    unfold R. simpl. unfold attr_holders, opt_holders in *. rewrite Eb in WA, WO. simpl in *.
    split; [exact RR|]. split; [|split; [exact Q|split; [|exact WO]]].
    + constructor; [|exact P]. destruct RR as (V & Tr & _). split; [exact V|exact Tr].
    + eapply wf_incl; [exact WA|]. intros x [<-|Hx]; [left; auto|].
      apply in_app_or in Hx. destruct Hx as [Hx|[<-|Hx]]; [right; apply in_or_app; auto|left; auto|right; apply in_or_app; auto].
  - destruct HR as (RR & P & Q & WA & WO). unfold R, attr_holders, opt_holders in *. simpl in *.
    split; [exact RR|]. split; [apply Forall2_remove; exact P|]. split; [exact Q|]. split; [|exact WO].
    eapply wf_incl; [exact WA|]. intros x Hx. apply in_app_or in Hx. apply in_or_app.
    destruct Hx as [Hx|Hx]; [auto|right]. rewrite map_remove in Hx. eapply remove_nth_incl; eauto.
  - destruct HR as (RR & P & Q & WA & WO). cbn [exec sexec].
    destruct (Rel_owner _ _ _ _ _ RR) as (ob & Eo & Vo & Vs). rewrite Eo.
    unfold R, attr_holders, opt_holders in *. simpl in *.
    split; [exact RR|]. split; [exact P|]. split; [constructor; auto|]. split; [exact WA|].
    eapply wf_incl; [exact WO|]. intros x Hx. apply in_app_or in Hx.
    destruct Hx as [Hx|[<-|Hx]]; [apply in_or_app; auto| |apply in_or_app; auto].
    apply in_or_app. left. eapply Permutation_in; [symmetry; apply (opts_perm _ _ Eo)|left; reflexivity].
  - destruct HR as (RR & P & Q & WA & WO). unfold R, attr_holders, opt_holders in *. simpl in *.
    split; [exact RR|]. split; [exact P|]. split; [apply Forall2_remove; exact Q|]. split; [exact WA|].
    eapply wf_incl; [exact WO|]. intros x Hx. apply in_app_or in Hx. apply in_or_app.
    destruct Hx as [Hx|Hx]; [auto|right]. eapply remove_nth_incl; eauto.
Qed.

Lemma run_ok : forall l st s, R st s ->
  match run T world_copy motion_copy l st, srun T world_copy motion_copy l s with
  | Some st', Some s' => R st' s' | None, None => True | _, _ => False end.
Proof.
  induction l as [|o l IH]; intros st s HR; [exact HR|].
  simpl. pose proof (step_ok o st s HR) as H.
  destruct (exec T world_copy motion_copy o st), (sexec T world_copy motion_copy o s); try easy. apply IH, H.
Qed.

Lemma start_R : forall adef odef, R (start T identity adef odef) (sstart T identity adef odef).
Proof.
  intros adef odef. unfold R, start, sstart. simpl.
  assert (V : forall d n p, param_of (new_store d) 0 n p = defaults d n p).
  { intros d n p. unfold param_of, defaults, get_obj. simpl. destruct (n =? n_system); reflexivity. }
  split.
  - repeat split; auto; try (intros; apply V); try (intros n p; apply V).
  - split; [constructor|]. split; [constructor|].
    assert (W : forall d, wf (new_store d) [0]).
    { intros d. split; intros id; simpl; [intros [<-|[]]; lia|].
      intros n lid [<-|[]] F. unfold get_obj in F. simpl in F. destruct (n =? n_system); inversion F; lia. }
    split; apply W.
Qed.

Lemma R_view : forall st s, R st s -> same_view T identity st s.
Proof.
  intros st s (RR & P & Q & WA & WO). unfold same_view.
  destruct (Rel_owner _ _ _ _ _ RR) as (ob & Eo & Vo & Vs).
  unfold cur_param, cur_field, cur_trans, cur_option. rewrite Eo.
  destruct (blocks T st) as [|b rest] eqn:Eb; [easy|]. destruct RR as ([V1 V2] & Tr & _).
  repeat split; auto.
  - unfold prim_param, prim_field, prim_trans. clear - P. induction P as [|[a t] [a' t'] ps ss [H1 H2] F IH]; intros k.
    + destruct k; reflexivity.
    + destruct k; [|apply IH]. destruct H1 as [H1 H3]. simpl in H2. subst t'. repeat split; auto.
  - unfold pin_param. clear - Q. induction Q as [|a o ps ss H F IH]; intros k.
    + destruct k; reflexivity.
    + destruct k; [exact H|apply IH].
Qed.

Theorem blocks_refine : forall adef odef l,
  match run T world_copy motion_copy l (start T identity adef odef),
        srun T world_copy motion_copy l (sstart T identity adef odef) with
  | Some st, Some s => same_view T identity st s
  | None, None => True
  | _, _ => False
  end.
Proof.
  intros. pose proof (run_ok l _ _ (start_R adef odef)) as H.
  destruct (run _ _ _ _ _), (srun _ _ _ _ _); auto. apply R_view, H.
Qed.

(** * Well-nested sequences *)
Lemma srun_app : forall l1 l2 s, srun T world_copy motion_copy (l1 ++ l2) s =
  match srun T world_copy motion_copy l1 s with Some s => srun T world_copy motion_copy l2 s | None => None end.
Proof. induction l1 as [|o l1 IH]; intros; [reflexivity|]. cbn [srun app]. destruct (sexec _ _ _ _ _); [apply IH|reflexivity]. Qed.

(** open blocks after a well-nested sequence: the same, up to the motion times of the innermost *)
Definition same_open (a b : list open_block) : Prop :=
  match a, b with
  | [], [] => True
  | x :: a, y :: b => ob_type T x = ob_type T y /\ ob_saved T x = ob_saved T y /\ a = b
  | _, _ => False
  end.
Lemma same_open_refl : forall a, same_open a a. Proof. destruct a; simpl; auto. Qed.
Lemma same_open_trans : forall a b c, same_open a b -> same_open b c -> same_open a c.
Proof.
  intros [|x a] [|y b] [|z c]; simpl; try easy. intros (A1 & A2 & A3) (B1 & B2 & B3). repeat split; congruence.
Qed.
Lemma same_open_kind : forall s s', same_open (s_open T s) (s_open T s') -> kind T s' = kind T s.
Proof. intros s s'. unfold kind. destruct (s_open T s), (s_open T s'); simpl; try easy; intros (A & _); auto. Qed.

Lemma btype_eqb_refl : forall a, btype_eqb a a = true. Proof. destruct a; reflexivity. Qed.

Lemma nested_open : forall k l, nested T k l -> forall s s', kind T s = k ->
  srun T world_copy motion_copy l s = Some s' -> same_open (s_open T s) (s_open T s').
Proof.
  intros k l N. induction N as [k|k o l Ho N IH|k ty times body l Al Nb IHb Nl IHl]; intros s s' Ek E.
  - inversion E; subst. apply same_open_refl.
  - cbn [srun] in E. destruct (sexec T world_copy motion_copy o s) as [s1|] eqn:E1; [|discriminate].
    assert (S1 : same_open (s_open T s) (s_open T s1)).
    { destruct o; try contradiction; simpl in E1;
        try (inversion E1; subst; apply same_open_refl).
      - destruct (s_open T s) as [|[bt ts sv] obs] eqn:Eo; [inversion E1; subst; simpl; rewrite Eo; exact I|].
        destruct bt; try (injection E1 as <-; cbn [s_open with_cur]; rewrite Eo; simpl; auto; fail).
        destruct ts; [discriminate|]. inversion E1; subst. simpl. auto.
      - destruct (g_stack T (s_cur T s)); [discriminate|]. inversion E1; subst. apply same_open_refl. }
    eapply same_open_trans; [exact S1|]. apply IH; [|exact E].
    rewrite <- Ek. apply same_open_kind, S1.
  - cbn [srun sexec] in E. rewrite Ek, Al in E. rewrite srun_app in E.
    match type of E with match srun _ _ _ _ ?x with _ => _ end = _ => set (s1 := x) in E end.
    destruct (srun T world_copy motion_copy body s1) as [s2|] eqn:E2; [|discriminate].
    pose proof (IHb s1 s2 eq_refl E2) as Hb.
    cbn [srun sexec] in E. rewrite (same_open_kind _ _ Hb) in E.
    change (kind T s1) with ty in E. rewrite btype_eqb_refl in E.
    unfold s1 in Hb. simpl in Hb. destruct (s_open T s2) as [|b2 obs2]; [easy|]. destruct Hb as (B1 & B2 & B3).
    apply IHl in E.
    + simpl in E. rewrite B3. exact E.
    + rewrite <- Ek. unfold kind. simpl. rewrite <- B3. reflexivity.
Qed.

Theorem blocks_close : forall adef odef pre ty times body before inside after,
  run T world_copy motion_copy pre (start T identity adef odef) = Some before ->
  allows (cur_kind T before) ty = true -> nested T ty body ->
  run T world_copy motion_copy (OBegin T ty times :: body) before = Some inside ->
  run T world_copy motion_copy [OEnd T ty] inside = Some after ->
  closes T identity ty before inside after /\ length (blocks T after) = length (blocks T before) /\
  cur_kind T after = cur_kind T before.
Proof.
  intros adef odef pre ty times body before inside after E1 Al N E2 E3.
  pose proof (run_ok pre _ _ (start_R adef odef)) as H1. rewrite E1 in H1.
  destruct (srun T world_copy motion_copy pre (sstart T identity adef odef)) as [s1|]; [|easy].
  pose proof (run_ok (OBegin T ty times :: body) _ _ H1) as H2. rewrite E2 in H2.
  destruct (srun T world_copy motion_copy (OBegin T ty times :: body) s1) as [s2|] eqn:S2; [|easy].
  pose proof (run_ok [OEnd T ty] _ _ H2) as H3. rewrite E3 in H3.
  destruct (srun T world_copy motion_copy [OEnd T ty] s2) as [s3|] eqn:S3; [|easy].
  assert (K : forall st s, R st s -> cur_kind T st = kind T s).
  { intros st s (RR & _). unfold cur_kind. destruct (blocks T st); [easy|]. eapply Rel_kind; eauto. }
  rewrite (K _ _ H1) in Al. cbn [srun sexec] in S2. rewrite Al in S2.
  match type of S2 with srun _ _ _ _ ?x = _ => set (s1' := x) in S2 end.
  pose proof (nested_open _ _ N s1' s2 eq_refl S2) as O.
  cbn [srun sexec] in S3. rewrite (same_open_kind _ _ O) in S3.
  change (kind T s1') with ty in S3. rewrite btype_eqb_refl in S3.
  unfold s1' in O. simpl in O. destruct (s_open T s2) as [|b2 obs2]; [easy|]. destruct O as (B1 & B2 & B3).
  inversion S3; subst s3. clear S3.
  pose proof (R_view _ _ H1) as (A1 & A2 & A3 & A4 & _).
  pose proof (R_view _ _ H2) as (C1 & C2 & C3 & C4 & _).
  pose proof (R_view _ _ H3) as (D1 & D2 & D3 & D4 & _).
  cbn [s_cur] in D1, D2, D3, D4. rewrite <- B2 in D1, D2, D3, D4.
  split; [|split].
  - destruct ty; simpl in *; unfold attrs_equal, trans_equal, opts_equal; auto;
      repeat split; intros; congruence.
  - assert (L : forall A O bs obs g, Rel A O bs obs g -> length bs = S (length obs)).
    { intros A O. induction bs as [|b bs IH]; intros obs g Hr; [easy|].
      destruct Hr as (_ & _ & _ & Hr). destruct obs as [|ob obs]; [destruct Hr as [-> _]; reflexivity|].
      destruct Hr as (_ & _ & _ & Hr). simpl. rewrite (IH _ _ Hr). reflexivity. }
    destruct H1 as (L1 & _), H3 as (L3 & _). apply L in L1, L3. simpl in L3. rewrite L1, L3, B3. reflexivity.
  - rewrite (K _ _ H3), (K _ _ H1). unfold kind. simpl. rewrite B3. reflexivity.
Qed.
End Rel.

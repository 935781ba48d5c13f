(** Proofs about recording and collapsing the hits of a sample. *)

From Coq Require Import List Bool QArith Lia Lqa Sorting.Permutation Sorting.Sorted Setoid.
From Verif Require Import HitModel HitSpec.
Import ListNotations.
Open Scope Q_scope.

(** ** Comparisons *)

Lemma Qltb_spec a b : Qltb a b = true <-> a < b.
Proof.
  unfold Qltb. rewrite negb_true_iff. split; intros H.
  - destruct (Qlt_le_dec a b) as [L|L]; auto. apply Qle_bool_iff in L. congruence.
  - destruct (Qle_bool b a) eqn:E; auto. apply Qle_bool_iff in E. lra.
Qed.

Lemma Qltb_false a b : Qltb a b = false <-> b <= a.
Proof. unfold Qltb. rewrite negb_false_iff. apply Qle_bool_iff. Qed.

Lemma Qle_bool_false a b : Qle_bool a b = false <-> b < a.
Proof.
  split; intros H.
  - destruct (Qlt_le_dec b a) as [L|L]; auto. apply Qle_bool_iff in L. congruence.
  - destruct (Qle_bool a b) eqn:E; auto. apply Qle_bool_iff in E. lra.
Qed.

Lemma clamp01_id x : 0 <= x <= 1 -> clamp01 x == x.
Proof.
  intros [L U]. unfold clamp01.
  destruct (Qle_bool x 0) eqn:E1; [apply Qle_bool_iff in E1; lra|].
  destruct (Qle_bool 1 x) eqn:E2; [apply Qle_bool_iff in E2; lra|]. reflexivity.
Qed.

(** ** Compositing back to front *)

Fixpoint behind (ch : chan) (what : hit -> Q) (l : list hit) : Q :=
  match l with
  | [] => 0
  | h :: t => behind ch what t * (1 - h_opa h ch) + what h
  end.

Lemma through_app ch f h : through ch (f ++ [h]) == through ch f * (1 - h_opa h ch).
Proof.
  unfold through. induction f as [|x t IH]; simpl; [ring|]. rewrite IH. ring.
Qed.

Lemma seen_behind_eq ch what l front :
  seen_behind ch what front l == through ch front * behind ch what l.
Proof.
  revert front; induction l as [|h t IH]; intros front; simpl; [ring|].
  rewrite IH, through_app. ring.
Qed.

Lemma seen_eq ch what l : seen ch what l == behind ch what l.
Proof. unfold seen. rewrite seen_behind_eq. unfold through. simpl. ring. Qed.

(** ** Which hits are kept *)

Definition kept (s : sample) : list hit :=
  match s_occl s with Some o => s_data s ++ [o] | None => s_data s end.

Definition Inv (c : cfg) (hits : list hit) (s : sample) : Prop :=
  (exists rest, Permutation hits (kept s ++ rest) /\
     forall r, In r rest -> exists o, s_occl s = Some o /\ h_opq o = true /\ h_dep o <= h_dep r) /\
  (forall o, s_occl s = Some o -> cullable c = true /\ h_opq o = true /\
     h_dep o <= s_occlz s /\ (midpoint_special c = false -> s_occlz s = h_dep o)) /\
  (s_occl s = None -> s_occlz s = fltmax) /\
  (cullable c = true -> forall h, In h (s_data s) -> h_opq h = false).

Lemma kept_perm_snoc A (hits k rest : list A) h :
  Permutation hits (k ++ rest) -> Permutation (hits ++ [h]) (k ++ rest ++ [h]).
Proof. intros P. rewrite app_assoc. apply Permutation_app; auto. Qed.

Lemma kept_data d h o z : Permutation (kept (mkS (d ++ [h]) o z)) (h :: kept (mkS d o z)).
Proof.
  unfold kept; simpl. destruct o as [x|].
  - rewrite <- app_assoc. simpl. symmetry. etransitivity; [apply Permutation_cons_append|].
    rewrite <- app_assoc. apply Permutation_app_head. simpl. apply perm_swap.
  - symmetry. apply Permutation_cons_append.
Qed.

Lemma cullable_midpoint c : midpoint_special c = true -> cullable c = true.
Proof. unfold cullable, midpoint_special. destruct (c_z c), (c_filter c); simpl; auto; discriminate. Qed.

Lemma store_inv c hits s h : ordinary h -> Inv c hits s -> Inv c (hits ++ [h]) (store c s h).
Proof.
  intros (_ & NM & _ & LM) ((rest & P & RC) & OC & NC & ND).
  assert (MA : is_mattealpha (h_matte h) = false) by (destruct (h_matte h); simpl; congruence).
  unfold store. rewrite MA, orb_false_r.
  destruct (cullable c && Qle_bool (s_occlz s) (h_dep h)) eqn:Cu.
  - (* culled *)
    apply andb_true_iff in Cu. destruct Cu as [Cc Cz]. apply Qle_bool_iff in Cz.
    split; [|split; [exact OC|split; [exact NC|exact ND]]].
    exists (rest ++ [h]). split; [apply kept_perm_snoc; auto|].
    intros r I. apply in_app_or in I. destruct I as [I|[<-|[]]]; auto.
    destruct (s_occl s) as [o|] eqn:Eo.
    + exists o. destruct (OC o eq_refl) as (_ & Q & L & _). repeat split; auto. lra.
    + rewrite NC in Cz by auto. lra.
  - destruct (h_opq h && cullable c) eqn:Oq.
    + apply andb_true_iff in Oq. destruct Oq as [Oq Cc]. rewrite Cc in Cu. simpl in Cu.
      apply Qle_bool_false in Cu.
      (* the hit replaces the occluding one *)
      assert (REP : forall z, (forall o, s_occl s = Some o -> h_dep h <= h_dep o) ->
        h_dep h <= z -> (midpoint_special c = false -> z = h_dep h) ->
        Inv c (hits ++ [h]) (mkS (s_data s) (Some h) z)).
      { intros z LO LZ EZ. split; [|split; [|split]].
        - exists (rest ++ match s_occl s with Some o => [o] | None => [] end). split.
          + transitivity ((kept s ++ rest) ++ [h]); [apply Permutation_app; auto|].
            change (kept (mkS (s_data s) (Some h) z)) with (s_data s ++ [h]). unfold kept.
            destruct (s_occl s) as [o|].
            * rewrite <- !app_assoc. apply Permutation_app_head. simpl.
              transitivity (o :: h :: rest); [constructor; symmetry; apply Permutation_cons_append|].
              etransitivity; [apply perm_swap|]. constructor.
              apply Permutation_cons_append.
            * rewrite app_nil_r, <- !app_assoc. apply Permutation_app_head. simpl.
              symmetry. apply Permutation_cons_append.
          + intros r I. exists h. simpl. split; auto. split; auto.
            apply in_app_or in I. destruct I as [I|I].
            * destruct (RC r I) as (o & Eo & _ & L). pose proof (LO o Eo). lra.
            * destruct (s_occl s) as [o|]; [|destruct I]. destruct I as [<-|[]]. apply LO; auto.
        - simpl. intros o E. injection E as <-. auto.
        - simpl. discriminate.
        - simpl. auto. }
      destruct (midpoint_special c) eqn:Mp.
      * destruct (Qltb _ (h_dep h)) eqn:Lt.
        -- apply Qltb_spec in Lt. destruct (s_occl s) as [o|] eqn:Eo; [|lra].
           destruct (OC o eq_refl) as (_ & Q & L & _).
           split; [|split; [|split]].
           ++ exists (rest ++ [h]). split.
              ** unfold kept in *. simpl. rewrite Eo in *. apply kept_perm_snoc; auto.
              ** simpl. intros r I. exists o. split; auto. split; auto.
                 apply in_app_or in I. destruct I as [I|[<-|[]]]; [|lra].
                 destruct (RC r I) as (o' & E & _ & L'). injection E as <-. auto.
           ++ simpl. intros o' E. injection E as <-. repeat split; auto; [lra|congruence].
           ++ simpl. discriminate.
           ++ simpl. auto.
        -- apply Qltb_false in Lt. apply REP.
           ++ intros o Eo. rewrite Eo in Lt. lra.
           ++ lra.
           ++ congruence.
      * apply REP; auto; [|lra]. intros o Eo.
        destruct (OC o Eo) as (_ & _ & L & E). rewrite E in Cu by auto. lra.
    + (* kept in the list *)
      split; [|split; [|split]].
      * exists rest. split; [|exact RC].
        transitivity (h :: kept s ++ rest).
        -- etransitivity; [symmetry; apply Permutation_cons_append|]. constructor. exact P.
        -- change (h :: kept s ++ rest) with ((h :: kept s) ++ rest).
           apply Permutation_app_tail. symmetry.
           etransitivity; [apply kept_data|]. destruct s; reflexivity.
      * exact OC.
      * exact NC.
      * simpl. intros Cc x I. apply in_app_or in I. destruct I as [I|[<-|[]]]; auto.
        rewrite Cc, andb_true_r in Oq. exact Oq.
Qed.

Lemma record_inv c hits : Forall ordinary hits -> Inv c hits (record c hits).
Proof.
  unfold record. intros F.
  assert (G : forall done s, Inv c done s -> Inv c (done ++ hits) (fold_left (store c) hits s)).
  { induction F as [|h t O F IH]; simpl; intros done s I.
    - rewrite app_nil_r. auto.
    - replace (done ++ h :: t) with ((done ++ [h]) ++ t) by (rewrite <- app_assoc; reflexivity).
      apply IH. apply store_inv; auto. }
  apply (G [] empty). split; [|repeat split; try discriminate; auto].
  - exists []. split; auto. intros r [].
  - intros _ h [].
Qed.

(** ** Sorted lists *)

Notation ssorted := (StronglySorted (fun a b => h_dep a < h_dep b)).

Lemma ssorted_inv h t : ssorted (h :: t) -> ssorted t /\ forall x, In x t -> h_dep h < h_dep x.
Proof.
  intros S. inversion S as [|? ? S' F]; subst. split; auto. intros x I.
  rewrite Forall_forall in F. auto.
Qed.

Lemma ssorted_inj l a b : ssorted l -> In a l -> In b l -> h_dep a == h_dep b -> a = b.
Proof.
  induction l as [|h t IH]; intros S Ia Ib E; [destruct Ia|].
  destruct (ssorted_inv _ _ S) as [St L].
  destruct Ia as [<-|Ia]; destruct Ib as [<-|Ib]; auto.
  - apply L in Ib. lra.
  - apply L in Ia. lra.
Qed.

(** Sorted with repetitions allowed, but there are none. *)
Lemma sorted_strict l : StronglySorted (fun a b => h_dep a <= h_dep b) l ->
  NoDup l -> (forall a b, In a l -> In b l -> h_dep a == h_dep b -> a = b) -> ssorted l.
Proof.
  induction l as [|h t IH]; intros S ND J; [constructor|].
  inversion S as [|? ? S' F]; subst. inversion ND as [|? ? N1 N2]; subst. constructor.
  - apply IH; auto. intros a b Ia Ib. apply J; right; auto.
  - rewrite Forall_forall in *. intros x I. specialize (F x I).
    destruct (Qlt_le_dec (h_dep h) (h_dep x)) as [|L]; auto.
    exfalso. apply N1. replace h with x; auto. apply J; [right; auto|left; auto|lra].
Qed.

Lemma ssorted_NoDup l : ssorted l -> NoDup l.
Proof.
  induction l as [|h t IH]; intros S; constructor; destruct (ssorted_inv _ _ S) as [S' L]; auto.
  intros I. apply L in I. lra.
Qed.

(** [l'] is what is left of [l] when hits behind an opaque one may be missing. *)
Definition covered (l l' : list hit) : Prop :=
  ssorted l /\ ssorted l' /\ exists rest, Permutation l (l' ++ rest) /\
  forall r, In r rest -> exists o, In o l' /\ h_opq o = true /\ h_dep o <= h_dep r.

Lemma NoDup_app_disj A (a b : list A) x : NoDup (a ++ b) -> In x a -> In x b -> False.
Proof.
  induction a as [|y t IH]; simpl; intros ND Ia Ib; [auto|].
  inversion ND as [|? ? N1 N2]; subst. destruct Ia as [<-|Ia]; eauto.
  apply N1. apply in_or_app; auto.
Qed.

Lemma covered_head h t l' : covered (h :: t) l' ->
  exists t', l' = h :: t' /\ (h_opq h = true \/ covered t t').
Proof.
  intros (S & S' & rest & P & C). destruct (ssorted_inv _ _ S) as [St L].
  assert (ND : NoDup (l' ++ rest)) by (eapply Permutation_NoDup; [exact P|apply ssorted_NoDup; auto]).
  assert (Sub : forall x, In x (l' ++ rest) -> x = h \/ h_dep h < h_dep x).
  { intros x I. apply (Permutation_in x (Permutation_sym P)) in I.
    destruct I as [<-|I]; auto. }
  assert (Hin : In h l').
  { assert (I : In h (l' ++ rest)) by (apply (Permutation_in h P); left; auto).
    apply in_app_or in I. destruct I as [I|I]; auto.
    destruct (C h I) as (o & Io & _ & Lo).
    destruct (Sub o) as [->|Lt]; [apply in_or_app; auto| |lra].
    exact Io. }
  destruct l' as [|x u]; [destruct Hin|].
  destruct (ssorted_inv _ _ S') as [Su Lu].
  assert (x = h).
  { destruct Hin as [->|I]; auto. apply Lu in I.
    destruct (Sub x) as [->|Lt]; auto; [left; auto|lra]. }
  subst x. exists u. split; auto.
  destruct (h_opq h) eqn:Oh; auto. right. split; auto. split; auto.
  exists rest. split; [apply Permutation_cons_inv with h; exact P|].
  intros r I. destruct (C r I) as (o & [<-|Io] & Oo & Lo); [congruence|].
  exists o. auto.
Qed.

Lemma covered_nil l' : covered [] l' -> l' = [].
Proof.
  intros (_ & _ & rest & P & _). apply Permutation_nil in P. destruct l'; auto. discriminate.
Qed.

(** Hits behind an opaque one do not matter. *)
Lemma behind_covered ch what l l' : Forall ordinary l -> covered l l' ->
  behind ch what l == behind ch what l'.
Proof.
  revert l'; induction l as [|h t IH]; intros l' F C.
  - apply covered_nil in C. subst. reflexivity.
  - destruct (covered_head _ _ _ C) as (t' & -> & [O|C']).
    + inversion F as [|? ? (_ & _ & O1 & _) _]; subst. simpl. rewrite (O1 O ch). ring.
    + inversion F; subst. simpl. rewrite (IH t'); auto. reflexivity.
Qed.

Lemma nearest_covered thr l l' : (forall h, In h l -> h_opq h = true -> meets_all thr (h_opa h) = true) ->
  covered l l' -> nearest (opaque_depths thr l) = nearest (opaque_depths thr l').
Proof.
  unfold opaque_depths. revert l'; induction l as [|h t IH]; intros l' F C.
  - apply covered_nil in C. subst. reflexivity.
  - destruct (covered_head _ _ _ C) as (t' & -> & [O|C']).
    + simpl. rewrite F; auto. left; auto.
    + simpl. destruct (meets_all thr (h_opa h)); auto. apply IH; auto.
      intros x I. apply F; right; auto.
Qed.

(** ** The blending loop *)

Lemma fold_rev A B (f : B -> A -> B) l b : fold_left f (rev l) b = fold_right (fun x y => f y x) b l.
Proof. rewrite fold_left_rev_right with (f := fun x y => f y x) || idtac. rewrite <- fold_left_rev_right, rev_involutive. reflexivity. Qed.

Lemma blend_col thr l z ch : Forall ordinary l ->
  a_col (fold_left (blend thr) (rev l) (mkAcc (fun _ => 0) (fun _ => 0) z fltmax fltmax)) ch
  == behind ch (emits ch) l.
Proof.
  rewrite fold_rev. induction 1 as [|h t (O & _) F IH]; simpl; [reflexivity|].
  set (a := fold_right _ _ t) in *. unfold emits at 2.
  unfold blend. destruct (meets_all thr (h_opa h)); simpl;
    (destruct (is_matte (h_matte h)); simpl;
     [unfold lerp; rewrite IH; ring|rewrite clamp01_id by auto; rewrite IH; ring]).
Qed.

Lemma blend_opa thr l z ch : Forall ordinary l -> Forall (fun h => h_matte h <> Matte) l ->
  a_opa (fold_left (blend thr) (rev l) (mkAcc (fun _ => 0) (fun _ => 0) z fltmax fltmax)) ch
  == behind ch (covers ch) l.
Proof.
  rewrite fold_rev. intros F. induction F as [|h t (O & _) F IH]; simpl; intros M; [reflexivity|].
  inversion M as [|? ? Mh Mt]; subst. specialize (IH Mt).
  set (a := fold_right _ _ t) in *. unfold covers at 2.
  assert (Em : is_matte (h_matte h) = false) by (destruct (h_matte h); simpl; congruence).
  unfold blend. rewrite Em. destruct (meets_all thr (h_opa h)); simpl; rewrite IH; ring.
Qed.

Lemma blend_depths thr l z :
  let a := fold_left (blend thr) (rev l) (mkAcc (fun _ => 0) (fun _ => 0) z fltmax fltmax) in
  match opaque_depths thr l with
  | [] => a_d0 a = z /\ a_d1 a = fltmax
  | [d] => a_d0 a = d /\ a_d1 a = z
  | d :: e :: _ => a_d0 a = d /\ a_d1 a = e
  end.
Proof.
  simpl. rewrite fold_rev. unfold opaque_depths. induction l as [|h t IH]; simpl; auto.
  set (a := fold_right _ _ t) in *.
  unfold blend. destruct (meets_all thr (h_opa h)); simpl; [|exact IH].
  destruct (map h_dep (List.filter (fun h0 => meets_all thr (h_opa h0)) t)) as [|d [|e r]];
    destruct IH as [-> _]; auto.
Qed.

Lemma blend_max thr l z : Forall ordinary l ->
  a_max (fold_left (blend thr) (rev l) (mkAcc (fun _ => 0) (fun _ => 0) z fltmax fltmax))
  = farthest (opaque_depths thr l).
Proof.
  rewrite fold_rev. unfold opaque_depths.
  assert (X : forall l, Forall ordinary l ->
     (map h_dep (List.filter (fun h => meets_all thr (h_opa h)) l) = [] \/
      farthest (map h_dep (List.filter (fun h => meets_all thr (h_opa h)) l)) < fltmax)).
  { clear. induction 1 as [|h t (_ & _ & _ & L) F IH]; simpl; auto.
    destruct (meets_all thr (h_opa h)); simpl; auto. right.
    destruct (map h_dep _) as [|d r] eqn:E; [simpl; auto|].
    destruct IH as [|IH]; [discriminate|]. exact IH. }
  induction 1 as [|h t (_ & _ & _ & L) F IH]; simpl; auto.
  set (a := fold_right _ _ t) in *. specialize (X t F).
  unfold blend. destruct (meets_all thr (h_opa h)); simpl; auto.
  rewrite IH. destruct (map h_dep _) as [|d r] eqn:E.
  - unfold farthest; simpl. reflexivity.
  - destruct X as [|X]; [discriminate|]. rewrite (proj2 (Qltb_spec _ _) X). reflexivity.
Qed.

(** ** The midpoint filter *)

(** The nearest and the second nearest opaque hit. *)
Definition Mid (hits : list hit) (s : sample) : Prop :=
  match s_occl s with
  | None => List.filter h_opq hits = [] /\ s_occlz s = fltmax
  | Some o => exists R, Permutation (List.filter h_opq hits) (o :: R) /\
      (forall r, In r R -> h_dep o <= h_dep r) /\
      ((R = [] /\ s_occlz s = fltmax) \/
       ((exists r, In r R /\ h_dep r = s_occlz s) /\ forall r, In r R -> s_occlz s <= h_dep r))
  end.

Lemma store_mid c hits s h : midpoint_special c = true -> ordinary h -> Mid hits s ->
  Mid (hits ++ [h]) (store c s h).
Proof.
  intros Mp (_ & NM & _ & LM) M. pose proof (cullable_midpoint _ Mp) as Cc.
  assert (MA : is_mattealpha (h_matte h) = false) by (destruct (h_matte h); simpl; congruence).
  unfold store. rewrite MA, orb_false_r, Cc, Mp, andb_true_r. simpl andb.
  unfold Mid in *. rewrite filter_app. simpl.
  destruct (Qle_bool (s_occlz s) (h_dep h)) eqn:Cu.
  - apply Qle_bool_iff in Cu. destruct (s_occl s) as [o|].
    + destruct M as (R & P & LR & D). destruct (h_opq h).
      * destruct D as [[-> E]|[(r & Ir & Er) LZ]]; [rewrite E in Cu; lra|].
        exists (R ++ [h]). split; [|split].
        -- change (o :: R ++ [h]) with ((o :: R) ++ [h]). apply Permutation_app_tail; auto.
        -- intros x I. apply in_app_or in I. destruct I as [I|[<-|[]]]; auto.
           pose proof (LR r Ir). rewrite Er in *. lra.
        -- right. split.
           ++ exists r. split; auto. apply in_or_app; auto.
           ++ intros x I. apply in_app_or in I. destruct I as [I|[<-|[]]]; auto.
      * exists R. rewrite app_nil_r. auto.
    + destruct M as [F E]. rewrite E in Cu. lra.
  - apply Qle_bool_false in Cu. destruct (h_opq h).
    + destruct (s_occl s) as [o|].
      * destruct M as (R & P & LR & D).
        destruct (Qltb (h_dep o) (h_dep h)) eqn:Lt; simpl.
        -- apply Qltb_spec in Lt. exists (R ++ [h]). split; [|split].
           ++ change (o :: R ++ [h]) with ((o :: R) ++ [h]). apply Permutation_app_tail; auto.
           ++ intros x I. apply in_app_or in I. destruct I as [I|[<-|[]]]; auto. lra.
           ++ right. split.
              ** exists h. split; auto. apply in_or_app; right; left; auto.
              ** intros x I. apply in_app_or in I. destruct I as [I|[<-|[]]]; [|lra].
                 destruct D as [[-> E]|[_ LZ]]; [destruct I|]. specialize (LZ x I). lra.
        -- apply Qltb_false in Lt. exists (o :: R). split; [|split].
           ++ etransitivity; [symmetry; apply Permutation_cons_append|]. constructor; auto.
           ++ intros x [<-|I]; auto. specialize (LR x I). lra.
           ++ right. split.
              ** exists o. split; auto. left; auto.
              ** intros x [<-|I]; [lra|]. auto.
      * destruct M as [F E]. replace (Qltb fltmax (h_dep h)) with false
          by (symmetry; apply Qltb_false; lra).
        simpl. exists []. rewrite F. split; auto. split; auto. intros r [].
    + simpl. rewrite app_nil_r. exact M.
Qed.

Lemma record_mid c hits : midpoint_special c = true -> Forall ordinary hits -> Mid hits (record c hits).
Proof.
  unfold record. intros Mp F.
  assert (G : forall done s, Mid done s -> Mid (done ++ hits) (fold_left (store c) hits s)).
  { induction F as [|h t O F IH]; simpl; intros done s I.
    - rewrite app_nil_r. auto.
    - replace (done ++ h :: t) with ((done ++ [h]) ++ t) by (rewrite <- app_assoc; reflexivity).
      apply IH. apply store_mid; auto. }
  apply (G [] empty). split; reflexivity.
Qed.

Lemma filter_perm A (f : A -> bool) l l' : Permutation l l' ->
  Permutation (List.filter f l) (List.filter f l').
Proof.
  induction 1; simpl; auto.
  - destruct (f x); auto.
  - destruct (f x), (f y); auto. apply perm_swap.
  - etransitivity; eauto.
Qed.

Lemma ssorted_filter f l : ssorted l -> ssorted (List.filter f l).
Proof.
  induction l as [|h t IH]; simpl; intros S; [constructor|].
  destruct (ssorted_inv _ _ S) as [S' L]. destruct (f h); auto. constructor; auto.
  rewrite Forall_forall. intros x I. apply L. apply filter_In in I. tauto.
Qed.

(** The two smallest elements of a strictly sorted list, recognised. *)
Lemma sorted_first l o R : ssorted l -> Permutation l (o :: R) ->
  (forall r, In r R -> h_dep o <= h_dep r) ->
  exists t, l = o :: t /\ Permutation t R.
Proof.
  intros S P L. destruct l as [|h t]; [apply Permutation_nil in P; discriminate|].
  destruct (ssorted_inv _ _ S) as [S' Lh].
  assert (h = o).
  { assert (I : In o (h :: t)) by (apply (Permutation_in o (Permutation_sym P)); left; auto).
    destruct I as [->|I]; auto. apply Lh in I.
    assert (J : In h (o :: R)) by (apply (Permutation_in h P); left; auto).
    destruct J as [->|J]; auto. apply L in J. lra. }
  subst h. exists t. split; auto. apply Permutation_cons_inv with o; auto.
Qed.

Lemma mid_depth hits l s o : front_to_back hits l -> Mid hits s -> s_occl s = Some o ->
  (1 # 2) * (h_dep o + s_occlz s) == midpoint (map h_dep (List.filter h_opq l)).
Proof.
  intros [P S] M E. unfold Mid in M. rewrite E in M. destruct M as (R & PR & LR & D).
  assert (P' : Permutation (List.filter h_opq l) (o :: R)).
  { etransitivity; [|exact PR]. apply filter_perm. symmetry; auto. }
  destruct (sorted_first _ _ _ (ssorted_filter h_opq l S) P' LR) as (t & Et & Pt).
  rewrite Et. unfold midpoint. simpl. f_equiv. f_equiv.
  destruct D as [[-> ->]|[(r & Ir & Er) LZ]].
  - symmetry in Pt. apply Permutation_nil in Pt. subst t. reflexivity.
  - assert (St : ssorted t).
    { pose proof (ssorted_filter h_opq l S) as X. rewrite Et in X. apply ssorted_inv in X. tauto. }
    apply in_split in Ir. destruct Ir as (R1 & R2 & ->).
    assert (Pt' : Permutation t (r :: R1 ++ R2)).
    { etransitivity; [exact Pt|]. symmetry. apply Permutation_middle. }
    destruct (sorted_first _ _ _ St Pt') as (u & -> & _).
    { intros x I. rewrite Er. apply LZ. apply in_app_or in I. apply in_or_app. simpl. tauto. }
    simpl. rewrite Er. reflexivity.
Qed.

(** ** The whole *)

Lemma kept_covered c sort hits l : sorts sort -> Forall ordinary hits -> front_to_back hits l ->
  covered l (sort (kept (record c hits))).
Proof.
  intros So F [P S]. destruct (record_inv c hits F) as ((rest & PR & RC) & OC & _).
  set (s := record c hits) in *. destruct (So (kept s)) as [Ps Ss].
  assert (P2 : Permutation l (sort (kept s) ++ rest)).
  { etransitivity; [symmetry; exact P|]. etransitivity; [exact PR|]. apply Permutation_app_tail; auto. }
  assert (ND : NoDup (sort (kept s) ++ rest)).
  { eapply Permutation_NoDup; [exact P2|apply ssorted_NoDup; auto]. }
  split; auto. split.
  - apply sorted_strict; auto.
    + clear - ND. induction (sort (kept s)) as [|x t IH]; [constructor|].
      simpl in ND. inversion ND; subst. constructor; auto. intros I. apply H1. apply in_or_app; auto.
    + intros a b Ia Ib. apply (ssorted_inj l); auto;
        apply (Permutation_in _ (Permutation_sym P2)); apply in_or_app; auto.
  - exists rest. split; auto. intros r I. destruct (RC r I) as (o & Eo & Oo & Lo).
    exists o. repeat split; auto. apply (Permutation_in o Ps).
    unfold kept. rewrite Eo. apply in_or_app; right; left; auto.
Qed.

Lemma ordinary_covered l l' : covered l l' -> Forall ordinary l -> Forall ordinary l'.
Proof.
  intros (_ & _ & rest & P & _) F. rewrite Forall_forall in *. intros x I. apply F.
  apply (Permutation_in x (Permutation_sym P)). apply in_or_app; auto.
Qed.

Lemma sort_singleton sort o : sorts sort -> sort [o] = [o].
Proof. intros So. destruct (So [o]) as [P _]. apply Permutation_length_1_inv in P. auto. Qed.

Definition right_depth (c : cfg) (hits l : list hit) (r : result) : Prop :=
  (c_filter c = FMin -> (forall ch, c_thr c ch <= 1) ->
     exists d, r_dep r = Some d /\ d == nearest (opaque_depths (c_thr c) l)) /\
  (c_filter c = FMax -> c_z c = true ->
     exists d, r_dep r = Some d /\ d == farthest (opaque_depths (c_thr c) l)) /\
  (c_filter c = FMidPoint -> c_z c = true ->
     (forall h, In h hits -> h_opq h = meets_all (c_thr c) (h_opa h)) ->
     exists d, r_dep r = Some d /\ d == midpoint (opaque_depths (c_thr c) l)).

Lemma filter_ext_In A (f g : A -> bool) l : (forall x, In x l -> f x = g x) ->
  List.filter f l = List.filter g l.
Proof.
  induction l as [|x t IH]; simpl; intros H; auto. rewrite (H x) by auto.
  rewrite IH by auto. reflexivity.
Qed.

Theorem composite sort c hits l :
  sorts sort -> Forall ordinary hits -> front_to_back hits l -> hits <> [] ->
  exists r, combine sort c (record c hits) = Some r /\
    (forall ch, r_col r ch == seen ch (emits ch) l) /\
    (Forall (fun h => h_matte h <> Matte) hits -> forall ch, r_opa r ch == seen ch (covers ch) l) /\
    right_depth c hits l r.
Proof.
  intros So F FB NE. pose proof (kept_covered c _ _ _ So F FB) as C.
  destruct (record_inv c hits F) as ((rest & PR & RC) & OC & NC & ND).
  assert (MID : midpoint_special c = true -> Mid hits (record c hits)).
  { intros Mp. apply record_mid; auto. }
  set (s := record c hits) in *.
  assert (Fl : Forall ordinary l).
  { destruct FB as [P _]. rewrite Forall_forall in *. intros x I. apply F.
    apply (Permutation_in x (Permutation_sym P)); auto. }
  assert (Inl : forall h, In h l -> In h hits).
  { destruct FB as [P _]. intros x I. apply (Permutation_in x (Permutation_sym P)); auto. }
  pose proof (ordinary_covered _ _ C Fl) as Fl'.
  assert (In' : forall h, In h (sort (kept s)) -> In h hits).
  { intros h I. apply Inl. destruct C as (_ & _ & r' & P & _).
    apply (Permutation_in h (Permutation_sym P)). apply in_or_app; auto. }
  assert (MEET : (forall ch, c_thr c ch <= 1) -> forall h, In h l -> h_opq h = true ->
                 meets_all (c_thr c) (h_opa h) = true).
  { intros T h I O. rewrite Forall_forall in Fl. destruct (Fl h I) as (_ & _ & O1 & _).
    specialize (O1 O). unfold meets_all. rewrite !andb_true_iff, !Qle_bool_iff, !O1. auto. }
  unfold combine. destruct (s_data s) as [|h0 t0] eqn:Ed.
  - (* only the occluding hit *)
    destruct (s_occl s) as [o|] eqn:Eo.
    2:{ exfalso. apply NE. destruct rest as [|r rs].
        - unfold kept in PR. rewrite Eo, Ed in PR. symmetry in PR. apply Permutation_nil in PR. auto.
        - destruct (RC r) as (o & Q & _); [left; auto|discriminate]. }
    destruct (OC o eq_refl) as (Cc & Oo & Lz & Ez).
    assert (K : kept s = [o]) by (unfold kept; rewrite Eo, Ed; reflexivity).
    rewrite K, (sort_singleton _ _ So) in *.
    assert (Io : In o l) by (apply (In' o) || (destruct C as (_ & _ & r' & P & _);
      apply (Permutation_in o (Permutation_sym P)); left; auto)).
    eexists (mkR (fun ch => emits ch o) (fun ch => covers ch o) _).
    split; [|split; [|split]].
    + unfold emits, covers. destruct (is_matte (h_matte o)); reflexivity.
    + intros ch. rewrite seen_eq, (behind_covered ch _ l [o]) by auto. simpl. ring.
    + intros _ ch. rewrite seen_eq, (behind_covered ch _ l [o]) by auto. simpl. ring.
    + split; [|split]; simpl.
      * intros -> T. eexists; split; [reflexivity|].
        rewrite (nearest_covered _ l [o]) by auto. unfold opaque_depths; simpl.
        rewrite (MEET T o) by auto. reflexivity.
      * intros E1 E2. unfold cullable in Cc. rewrite E1, E2 in Cc. discriminate.
      * intros E1 E2 Q. rewrite E1. eexists; split; [reflexivity|].
        assert (Mp : midpoint_special c = true) by (unfold midpoint_special; rewrite E1, E2; auto).
        rewrite (mid_depth hits l s o FB (MID Mp) Eo). unfold opaque_depths.
        rewrite (filter_ext_In _ h_opq (fun h => meets_all (c_thr c) (h_opa h)) l) by auto. reflexivity.
  - fold (kept s). set (l' := sort (kept s)) in *.
    assert (Pk : Permutation (kept s) l') by (apply So).
    assert (Dk : s_data s <> []) by (rewrite Ed; discriminate).
    assert (Lk : l' <> []).
    { intros X. rewrite X in Pk. symmetry in Pk. apply Permutation_nil in Pk.
      unfold kept in Pk. destruct (s_occl s); [destruct (s_data s); discriminate|contradiction]. }
    pose proof (blend_depths (c_thr c) l' (s_occlz s)) as BD. simpl in BD.
    set (a := fold_left (blend (c_thr c)) (rev l') _) in *.
    rewrite <- Ed in *. fold (kept s) in *. fold l'. fold a.
    destruct l' as [|x u] eqn:El; [congruence|]. rewrite <- El in *. clear Lk.
    eexists; split; [reflexivity|]. simpl. split; [|split; [|split; [|split]]].
    + intros ch. rewrite seen_eq, (behind_covered ch _ l l') by auto. unfold a. rewrite <- El. apply blend_col; auto.
    + intros M ch. rewrite seen_eq, (behind_covered ch _ l l') by auto. unfold a. rewrite <- El. apply blend_opa; auto.
      rewrite Forall_forall in *. auto.
    + simpl. intros -> T. eexists; split; [reflexivity|].
      rewrite (nearest_covered _ l l') by auto.
      destruct (opaque_depths (c_thr c) l') as [|d [|e r]] eqn:Eq; destruct BD as [-> _]; try reflexivity.
      (* no opaque hit was kept: none occludes *)
      simpl. rewrite NC; [reflexivity|]. destruct (s_occl s) as [o|] eqn:Eo; auto. exfalso.
      destruct (OC o eq_refl) as (_ & Oo & _).
      assert (Io : In o l').
      { apply (Permutation_in o Pk). unfold kept. rewrite Eo. apply in_or_app; right; left; auto. }
      assert (Io2 : In o l) by (destruct C as (_ & _ & r' & P & _);
        apply (Permutation_in o (Permutation_sym P)); apply in_or_app; auto).
      assert (J : In (h_dep o) (opaque_depths (c_thr c) l')).
      { unfold opaque_depths. apply in_map. apply filter_In. auto. }
      rewrite Eq in J. destruct J.
    + simpl. intros E1 E2. rewrite E1. eexists; split; [reflexivity|].
      unfold a. rewrite <- El. rewrite blend_max by auto.
      assert (Nc : cullable c = false) by (unfold cullable; rewrite E1, E2; reflexivity).
      assert (Ell : l = l').
      { destruct C as (S1 & S2 & r' & P & RC').
        assert (r' = []).
        { assert (rest = []).
          { destruct rest as [|r rs]; auto. destruct (RC r) as (o & Eo & _); [left; auto|].
            destruct (OC o Eo) as (X & _). congruence. }
          subst rest. rewrite app_nil_r in PR.
          assert (LL : length l = length l').
          { transitivity (length hits); [symmetry; apply Permutation_length; apply FB|].
            transitivity (length (kept s)); apply Permutation_length; auto. }
          apply Permutation_length in P. rewrite app_length in P. destruct r'; auto. simpl in P. lia. }
        subst r'. rewrite app_nil_r in P. clear - S1 S2 P. revert S1 S2 P. generalize l' as m. clear.
        induction l as [|h t IH]; intros m S1 S2 P.
        - apply Permutation_nil in P. auto.
        - destruct m as [|g v]; [symmetry in P; apply Permutation_nil in P; discriminate|].
          destruct (ssorted_inv _ _ S1) as [T1 L1]. destruct (ssorted_inv _ _ S2) as [T2 L2].
          destruct (sorted_first (h :: t) g v S1 P) as (t2 & E & P2).
          { intros r I. apply L2 in I. lra. }
          injection E as -> ->. f_equal. apply IH; auto. }
      rewrite Ell. reflexivity.
    + simpl. intros E1 E2 Q. rewrite E1.
      assert (Mp : midpoint_special c = true) by (unfold midpoint_special; rewrite E1, E2; auto).
      assert (Cc : cullable c = true) by (apply cullable_midpoint; auto).
      assert (FO : forall m, incl m hits -> opaque_depths (c_thr c) m = map h_dep (List.filter h_opq m)).
      { intros m I. unfold opaque_depths. f_equal. apply filter_ext_In. intros y J. symmetry. auto. }
      assert (Dn : List.filter h_opq (s_data s) = []).
      { specialize (ND Cc). clear - ND. induction (s_data s) as [|y t IH]; simpl in *; auto.
        rewrite (ND y) by auto. apply IH. intros; apply ND; auto. }
      destruct (s_occl s) as [o|] eqn:Eo.
      * destruct (OC o eq_refl) as (_ & Oo & _).
        assert (OD : opaque_depths (c_thr c) l' = [h_dep o]).
        { rewrite FO by (intros y J; apply In'; auto).
          assert (PF : Permutation (List.filter h_opq (kept s)) (List.filter h_opq l')) by (apply filter_perm; auto).
          unfold kept in PF. rewrite Eo, filter_app, Dn in PF. simpl in PF. rewrite Oo in PF.
          apply Permutation_length_1_inv in PF. rewrite PF. reflexivity. }
        rewrite OD in BD. destruct BD as [B0 B1].
        assert (L2 : exists y v, u = y :: v).
        { assert (LL : length (kept s) = length l') by (apply Permutation_length; auto).
          unfold kept in LL. rewrite Eo, app_length, El in LL. simpl in LL.
          destruct (s_data s); [contradiction|]. destruct u as [|y v]; eauto. simpl in LL. lia. }
        destruct L2 as (y & v & Eu). rewrite Eu. eexists; split; [reflexivity|].
        rewrite B0, B1, Qmult_comm, (mid_depth hits l s o FB (MID Mp) Eo).
        rewrite FO by (intros z J; apply Inl; auto). reflexivity.
      * assert (M := MID Mp). unfold Mid in M. rewrite Eo in M. destruct M as [M0 Mz].
        assert (ZL : forall m, incl m hits -> opaque_depths (c_thr c) m = []).
        { intros m I. rewrite FO by auto. assert (Z0 : List.filter h_opq m = []).
          { destruct (List.filter h_opq m) as [|y v] eqn:Ey; auto. exfalso.
            assert (J : In y (List.filter h_opq m)) by (rewrite Ey; left; auto).
            apply filter_In in J. destruct J as [J1 J2].
            assert (K : In y (List.filter h_opq hits)) by (apply filter_In; auto).
            rewrite M0 in K. destruct K. }
          rewrite Z0. reflexivity. }
        rewrite (ZL l') in BD by (intros y J; apply In'; auto). destruct BD as [B0 B1].
        rewrite (ZL l) by (intros y J; apply Inl; auto).
        unfold midpoint; simpl. clearbody a. destruct u as [|y v]; eexists; (split; [reflexivity|]).
        -- ring.
        -- rewrite B0, B1, Mz. ring.
Qed.

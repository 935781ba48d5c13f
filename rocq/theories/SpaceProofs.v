(** Named coordinate systems: the answers are those expected. *)

From Coq Require Import List Arith Bool ZArith QArith String Lia.
From Verif Require Import MatModel MatSpec MatProofs HashModel MotionModel XformModel SpaceModel SpaceSpec.
Import ListNotations.
Local Open Scope nat_scope.

(** * The search *)

Lemma down_spec : forall h l stop n, stop + n <= List.length l ->
  match down h l stop n with
  | Outside => False
  | Found i => stop <= i < stop + n /\ exists s, nth_error l i = Some s /\ shash s = h
  | Missing => forall i s, stop <= i < stop + n -> nth_error l i = Some s -> shash s <> h
  end.
Proof.
  intros h l stop. induction n as [|n IH]; intros L; cbn [down]; [intros; lia|].
  destruct (nth_error l (stop + n)) as [s|] eqn:N; [|apply nth_error_None in N; lia].
  destruct (Z.eqb_spec (shash s) h) as [H|H].
  - split; [lia|]. eauto.
  - specialize (IH ltac:(lia)). destruct (down h l stop n).
    + destruct IH as [B S]. split; [lia|exact S].
    + intros i s' B N'. destruct (Nat.eq_dec i (stop + n)) as [->|]; [congruence|]. apply (IH i s'); [lia|exact N'].
    + exact IH.
Qed.

Lemma which_spec : forall h l last, last < List.length l ->
  exists found last', which h l last = Some (found, last') /\ last' < List.length l /\
    match found with
    | Some i => exists s, nth_error l i = Some s /\ shash s = h
    | None => forall s, In s l -> shash s <> h
    end.
Proof.
  intros h l last L. unfold which.
  pose proof (down_spec h l 0 (last + 1) ltac:(lia)) as D1.
  destruct (down h l 0 (last + 1)) as [i| |]; [| |contradiction].
  - destruct D1 as [B S]. exists (Some i), i. split; [reflexivity|]. split; [lia|exact S].
  - pose proof (down_spec h l (last + 1) (List.length l - (last + 1)) ltac:(lia)) as D2.
    destruct (down h l (last + 1) (List.length l - (last + 1))) as [i| |]; [| |contradiction].
    + destruct D2 as [B S]. exists (Some i), i. split; [reflexivity|]. split; [lia|exact S].
    + do 2 eexists. split; [reflexivity|]. split; [lia|].
      intros s I. destruct (In_nth_error _ _ I) as [i N].
      assert (i < List.length l) by (apply nth_error_Some; congruence).
      destruct (Nat.lt_ge_cases i (last + 1)); [apply (D1 i s)|apply (D2 i s)]; try exact N; lia.
Qed.

(** * Names *)

Lemma name_eqb_spec : forall a b, name_eqb a b = true <-> a = b.
Proof.
  induction a as [|x a IH]; intros [|y b]; cbn [name_eqb]; split; intros H; try discriminate; try reflexivity.
  - apply andb_prop in H as [H1 H2]. apply Z.eqb_eq in H1. apply IH in H2. congruence.
  - injection H as -> ->. rewrite Z.eqb_refl. apply IH. reflexivity.
Qed.

Lemma name_eqb_refl : forall a, name_eqb a a = true.
Proof. intros a. apply name_eqb_spec. reflexivity. Qed.

Lemma name_eqb_neq : forall a b, a <> b -> name_eqb a b = false.
Proof. intros a b N. destruct (name_eqb a b) eqn:Eq; [|reflexivity]. apply name_eqb_spec in Eq. contradiction. Qed.

Lemma latest_other : forall n m k r, n <> m -> latest n ((m, k) :: r) = latest n r.
Proof. intros n m k r N. cbn [latest]. rewrite name_eqb_neq; [reflexivity|]. congruence. Qed.

Lemma latest_same : forall n k r, latest n ((n, k) :: r) = Some k.
Proof. intros n k r. cbn [latest]. rewrite name_eqb_refl. reflexivity. Qed.

Lemma Forall2_length {A B} {P : A -> B -> Prop} : forall l m, Forall2 P l m -> List.length l = List.length m.
Proof. intros l m F. induction F; cbn; congruence. Qed.
Arguments Forall2_length {A B P l m}.

Lemma NoDup_app_one {A} : forall (l : list A) a, NoDup l -> ~ In a l -> NoDup (l ++ [a]).
Proof.
  induction l as [|x l IH]; intros a D N; cbn [app]; [constructor; [intros []|constructor]|].
  inversion_clear D as [|? ? D1 D2]. constructor.
  - intros I. apply in_app_or in I as [I|[->|[]]]; [exact (D1 I)|]. apply N. left. reflexivity.
  - apply IH; [exact D2|]. intros I. apply N. right. exact I.
Qed.

Section Rel.
Variable word : Z.
Variable U : list name.
Hypothesis apart : forall a b, In a U -> In b U -> hash word a = hash word b -> a = b.
Hypothesis has_reserved : incl reserved U.

Lemma is_hash : forall n s, In n U -> In (text s) reserved ->
  Z.eqb (hash word n) (hash_of word s) = is n s.
Proof.
  intros n s Hn Hs. unfold is, hash_of. destruct (name_eqb n (text s)) eqn:Eq.
  - apply name_eqb_spec in Eq. subst n. apply Z.eqb_refl.
  - apply Z.eqb_neq. intros H. apply apart in H; [|exact Hn|apply has_reserved; exact Hs].
    apply name_eqb_spec in H. congruence.
Qed.

(** What the entry of a space has. *)
Definition right_entry (k : option known) (s : system) : Prop :=
  honest (to_world s) /\ honest (world_to s) /\
  match k with
  | None => False
  | Some (Saved M) => same (E (to_world s)) M /\ back M (E (world_to s))
  | Some (Viewed W) => same (E (world_to s)) W /\
      (if Qeq_bool (det W) 0 then same (E (to_world s)) one else back W (E (to_world s)))
  end.

Definition entry (sp : list (name * known)) (n : name) (s : system) : Prop :=
  In n U /\ shash s = hash word n /\ right_entry (latest n sp) s.

Lemma entry_other : forall sp m k n s, n <> m -> entry sp n s -> entry ((m, k) :: sp) n s.
Proof. intros sp m k n s N (I & H & R). split; [exact I|]. split; [exact H|]. rewrite latest_other by exact N. exact R. Qed.

Lemma entries_other : forall sp m k ns l, ~ In m ns -> Forall2 (entry sp) ns l -> Forall2 (entry ((m, k) :: sp)) ns l.
Proof.
  intros sp m k ns l N F. induction F as [|n s ns l H F IH]; [constructor|]. constructor.
  - apply entry_other; [|exact H]. intros ->. apply N. left. reflexivity.
  - apply IH. intros I. apply N. right. exact I.
Qed.

Lemma set_rel : forall sp ns l n m inv k, Forall2 (entry sp) ns l -> NoDup ns -> In n U ->
  right_entry (Some k) (System (hash word n) m inv) ->
  exists ns', Forall2 (entry ((n, k) :: sp)) ns' (set_system (hash word n) m inv l) /\
    (ns' = ns /\ In n ns \/ ns' = ns ++ [n] /\ ~ In n ns).
Proof.
  intros sp ns l n m inv k F. induction F as [|n0 s ns l H F IH]; intros D Hn R; cbn [set_system].
  - exists [n]. split; [|right; split; [reflexivity|intros []]].
    constructor; [|constructor]. split; [exact Hn|]. split; [reflexivity|]. rewrite latest_same. exact R.
  - inversion_clear D as [|? ? D1 D2]. destruct H as (I0 & H0 & R0).
    destruct (Z.eqb_spec (shash s) (hash word n)) as [Eq|Ne].
    + rewrite H0 in Eq. apply apart in Eq; [|exact I0|exact Hn]. subst n0.
      exists (n :: ns). split; [|left; split; [reflexivity|left; reflexivity]]. constructor.
      * split; [exact Hn|]. cbn [shash]. split; [exact H0|]. rewrite latest_same. rewrite H0. exact R.
      * apply entries_other; [exact D1|exact F].
    + destruct (IH D2 Hn R) as (ns' & F' & C). exists (n0 :: ns').
      assert (N : n0 <> n) by (intros ->; apply Ne; exact H0).
      split; [constructor; [|exact F']|].
      * apply entry_other; [exact N|]. split; [exact I0|]. split; [exact H0|exact R0].
      * destruct C as [[-> C]|[-> C]]; [left|right]; (split; [reflexivity|]).
        -- right. exact C.
        -- intros [E0|I1]; [exact (N E0)|exact (C I1)].
Qed.

Lemma replace_rel : forall sp ns l i n k f, Forall2 (entry sp) ns l -> NoDup ns -> nth_error ns i = Some n ->
  (forall s, shash (f s) = shash s) -> (forall s, right_entry (Some k) (f s)) ->
  exists l', replace i f l = Some l' /\ Forall2 (entry ((n, k) :: sp)) ns l'.
Proof.
  intros sp ns l i n k f F. revert i. induction F as [|n0 s ns l H F IH]; intros i D N Hf Rf; [destruct i; discriminate|].
  inversion_clear D as [|? ? D1 D2]. destruct i as [|i]; cbn [replace nth_error] in *.
  - injection N as <-. eexists. split; [reflexivity|]. constructor.
    + destruct H as (I0 & H0 & R0). split; [exact I0|]. rewrite Hf. split; [exact H0|]. rewrite latest_same. apply Rf.
    + apply entries_other; [exact D1|exact F].
  - destruct (IH i D2 N Hf Rf) as (l' & E' & F'). rewrite E'. cbn [option_map]. eexists. split; [reflexivity|].
    constructor; [|exact F']. apply entry_other; [|exact H]. intros ->. apply D1. exact (nth_error_In _ _ N).
Qed.

(** * The state *)

Definition std : list name :=
  map text ["__camera__"; "__current__"; "world"; "screen"; "NDC"; "raster"]%string.

Definition rel (w : world) (s : sworld) : Prop :=
  (exists more, Forall2 (entry (spaces s)) (std ++ more) (systems w) /\ NoDup (std ++ more) /\
     forall n, ~ In n (std ++ more) -> latest n (spaces s) = None) /\
  camera w = scamera s /\ regular_x (scamera s) /\
  awhich w < List.length (systems w) /\ bwhich w < List.length (systems w) /\
  same (E (result_v w)) (linear (E (key_v w))) /\
  same (product (linear (E (key_n w))) (flipped (E (result_n w)))) one.

Lemma linear_ext : forall A B, same A B -> same (linear A) (linear B).
Proof.
  intros A B S i j Hi Hj. unfold linear. destruct (Nat.ltb_spec i 3), (Nat.ltb_spec j 3); cbn [andb]; try reflexivity.
  apply S; assumption.
Qed.

Lemma linear_one : same (linear one) one.
Proof.
  intros i j Hi Hj. unfold linear, one. destruct ((i <? 3) && (j <? 3)); reflexivity.
Qed.

Lemma vector_linear : forall m, same (E (vector_transform m)) (linear (E m)).
Proof.
  intros m i j Hi Hj. unfold vector_transform, linear. cbn [E].
  destruct i as [|[|[|[|i]]]]; [| | | |lia]; destruct j as [|[|[|[|j]]]]; try lia; reflexivity.
Qed.

Lemma flipped_ext : forall A B, same A B -> same (flipped A) (flipped B).
Proof. intros A B S i j Hi Hj. unfold flipped. apply S; assumption. Qed.

Lemma identity_one : same (E identity) one.
Proof. exact (identity_honest eq_refl). Qed.

(** * Finding spaces *)

Lemma regular_inverse : forall m, regular m -> exists i, inverse m = Some i /\ honest i /\ back (E m) (E i).
Proof.
  intros m [H D]. destruct (inverse m) as [i|] eqn:Ei; [|exfalso; exact (D (inverse_none m H Ei))].
  destruct (inverse_some m i H Ei) as (_ & Hi & B & _). eauto.
Qed.

Lemma entry_of : forall sp ns l, Forall2 (entry sp) ns l -> forall i e, nth_error l i = Some e ->
  exists n, nth_error ns i = Some n /\ entry sp n e.
Proof.
  intros sp ns l F. induction F as [|n s ns l H F IH]; intros [|i] e N; cbn [nth_error] in *; try discriminate.
  - injection N as <-. eauto.
  - exact (IH i e N).
Qed.

Lemma name_entry : forall sp ns l, Forall2 (entry sp) ns l -> forall n, In n ns -> exists e, In e l /\ entry sp n e.
Proof.
  intros sp ns l F. induction F as [|n0 s ns l H F IH]; intros n I; [destruct I|]. destruct I as [->|I].
  - exists s. split; [left; reflexivity|exact H].
  - destruct (IH n I) as (e & Ie & He). exists e. split; [right; exact Ie|exact He].
Qed.

Lemma lookup_rel : forall w s n last, rel w s -> In n U -> last < List.length (systems w) ->
  exists found last', which (hash word n) (systems w) last = Some (found, last') /\
    last' < List.length (systems w) /\
    match found with
    | Some i => exists e, nth_error (systems w) i = Some e /\ right_entry (latest n (spaces s)) e
    | None => latest n (spaces s) = None
    end.
Proof.
  intros w s n last ((more & F & D & N) & _) Hn L.
  destruct (which_spec (hash word n) (systems w) last L) as (found & last' & E0 & L' & C).
  exists found, last'. split; [exact E0|]. split; [exact L'|].
  destruct found as [i|].
  - destruct C as (e & Ne & He). exists e. split; [exact Ne|].
    destruct (entry_of _ _ _ F _ _ Ne) as (n' & Nn & (I' & H' & R')).
    rewrite H' in He. apply apart in He; [|exact I'|exact Hn]. subst n'. exact R'.
  - apply N. intros I. destruct (name_entry _ _ _ F n I) as (e & Ie & (I' & H' & _)).
    exact (C e Ie H').
Qed.

Lemma regular_given : forall x t, regular_o x -> exists m A, match x with None => Some identity | Some x => mat_at x t end = Some m /\
  regular m /\ given_by x t A /\ same A (E m).
Proof.
  intros [x|] t R.
  - destruct (R t) as (m & Em & Rm). exists m, (E m). split; [exact Em|]. split; [exact Rm|].
    split; [exists m; split; [exact Em|]|]; apply same_refl.
  - exists identity, one. split; [reflexivity|]. split.
    + split; [exact identity_honest|]. rewrite (det_ext _ _ identity_one), det_one. discriminate.
    + split; [apply same_refl|apply same_sym; exact identity_one].
Qed.

Lemma in_reserved : forall s, In s ["object"; "shader"; "camera"; "current"]%string -> In (text s) reserved.
Proof. intros s I. unfold reserved. apply in_map. cbn [In] in *. tauto. Qed.

Ltac one_name n Hn s :=
  rewrite (is_hash n s Hn (in_reserved s ltac:(cbn; tauto))).
Ltac four_names n Hn :=
  one_name n Hn "object"%string; one_name n Hn "shader"%string; one_name n Hn "camera"%string; one_name n Hn "current"%string.

Lemma from_right : forall w s n sh ob t, rel w s -> In n U -> regular_o sh -> regular_o ob ->
  exists w' a, from_space word n sh ob t w = Some (w', a) /\ rel w' s /\
    match a with
    | None => exists_space s n = false
    | Some m => exists_space s n = true /\ honest m /\ exists A, leads_to_world s sh ob t n A /\ same A (E m)
    end.
Proof.
  intros w s n sh ob t R Hn Rs Ro. unfold from_space, exists_space, leads_to_world. cbv zeta. four_names n Hn.
  destruct (is n "object") eqn:B1; cbn [orb].
  { destruct (regular_given ob t Ro) as (m & A & Em & [Hm _] & G & S).
    exists w, (Some m). split; [|split; [exact R|split; [reflexivity|split; [exact Hm|exists A; split; assumption]]]].
    destruct ob as [x|]; [rewrite Em; reflexivity|]. injection Em as <-. reflexivity. }
  destruct (is n "shader") eqn:B2; cbn [orb].
  { destruct (regular_given sh t Rs) as (m & A & Em & [Hm _] & G & S).
    exists w, (Some m). split; [|split; [exact R|split; [reflexivity|split; [exact Hm|exists A; split; assumption]]]].
    destruct sh as [x|]; [rewrite Em; reflexivity|]. injection Em as <-. reflexivity. }
  pose proof R as (F & Ec & Rc & La & Lb & Cv & Cn).
  destruct (is n "camera" || is n "current") eqn:B3; cbn [orb].
  { destruct (Rc t) as (m & Em & Rm). rewrite Ec, Em. cbn [bind].
    destruct (regular_inverse m Rm) as (i & Ei & Hi & Bi). rewrite Ei. cbn [bind].
    exists w, (Some i). split; [reflexivity|]. split; [exact R|]. split; [reflexivity|]. split; [exact Hi|].
    exists (E i). split; [|apply same_refl]. exists (E m). split; [exists m; split; [exact Em|apply same_refl]|exact Bi]. }
  destruct (lookup_rel w s n (awhich w) R Hn La) as (found & last' & Ew & L' & C). rewrite Ew. cbn [bind].
  assert (R' : rel (with_a w last') s).
  { split; [exact F|]. split; [exact Ec|]. split; [exact Rc|]. split; [exact L'|]. split; [exact Lb|]. split; [exact Cv|exact Cn]. }
  destruct found as [i|].
  - destruct C as (e & Ne & (Hw & Ht & Re)). cbn [systems with_a]. rewrite Ne. cbn [bind].
    exists (with_a w last'), (Some (to_world e)). split; [reflexivity|]. split; [exact R'|].
    destruct (latest n (spaces s)) as [[M|W]|]; [| |contradiction].
    + split; [reflexivity|]. split; [exact Hw|]. exists (E (to_world e)). split; [apply Re|apply same_refl].
    + split; [reflexivity|]. split; [exact Hw|]. exists (E (to_world e)). split; [apply Re|apply same_refl].
  - exists (with_a w last'), None. split; [reflexivity|]. split; [exact R'|]. rewrite C. reflexivity.
Qed.

Lemma to_right : forall w s n sh ob t, rel w s -> In n U -> regular_o sh -> regular_o ob ->
  exists w' a, to_space word n sh ob t w = Some (w', a) /\ rel w' s /\
    match a with
    | None => exists_space s n = false
    | Some m => exists_space s n = true /\ honest m /\ exists A, leads_from_world s sh ob t n A /\ same A (E m)
    end.
Proof.
  intros w s n sh ob t R Hn Rs Ro. unfold to_space, exists_space, leads_from_world. cbv zeta. four_names n Hn.
  destruct (is n "object") eqn:B1; cbn [orb].
  { destruct (regular_given ob t Ro) as (m & A & Em & Rm & G & S).
    destruct (regular_inverse m Rm) as (i & Ei & Hi & Bi).
    assert (B : back A (E i)).
    { eapply same_trans; [apply product_ext; [exact S|apply same_refl]|exact Bi]. }
    exists w, (Some i). split; [|split; [exact R|split; [reflexivity|split; [exact Hi|]]]].
    - destruct ob as [x|]; [rewrite Em; cbn [bind]; rewrite Ei; reflexivity|]. injection Em as <-.
      injection Ei as <-. reflexivity.
    - exists (E i). split; [|apply same_refl]. exists A. split; assumption. }
  destruct (is n "shader") eqn:B2; cbn [orb].
  { destruct (regular_given sh t Rs) as (m & A & Em & Rm & G & S).
    destruct (regular_inverse m Rm) as (i & Ei & Hi & Bi).
    assert (B : back A (E i)).
    { eapply same_trans; [apply product_ext; [exact S|apply same_refl]|exact Bi]. }
    exists w, (Some i). split; [|split; [exact R|split; [reflexivity|split; [exact Hi|]]]].
    - destruct sh as [x|]; [rewrite Em; cbn [bind]; rewrite Ei; reflexivity|]. injection Em as <-.
      injection Ei as <-. reflexivity.
    - exists (E i). split; [|apply same_refl]. exists A. split; assumption. }
  pose proof R as (F & Ec & Rc & La & Lb & Cv & Cn).
  destruct (is n "camera" || is n "current") eqn:B3; cbn [orb].
  { destruct (Rc t) as (m & Em & Rm). rewrite Ec, Em. cbn [bind].
    exists w, (Some m). split; [reflexivity|]. split; [exact R|]. split; [reflexivity|]. split; [apply Rm|].
    exists (E m). split; [|apply same_refl]. exists m; split; [exact Em|apply same_refl]. }
  destruct (lookup_rel w s n (bwhich w) R Hn Lb) as (found & last' & Ew & L' & C). rewrite Ew. cbn [bind].
  assert (R' : rel (with_b w last') s).
  { split; [exact F|]. split; [exact Ec|]. split; [exact Rc|]. split; [exact La|]. split; [exact L'|]. split; [exact Cv|exact Cn]. }
  destruct found as [i|].
  - destruct C as (e & Ne & (Hw & Ht & Re)). cbn [systems with_b]. rewrite Ne. cbn [bind].
    exists (with_b w last'), (Some (world_to e)). split; [reflexivity|]. split; [exact R'|].
    destruct (latest n (spaces s)) as [[M|W]|]; [| |contradiction].
    + split; [reflexivity|]. split; [exact Ht|]. exists (E (world_to e)). split; [apply Re|apply same_refl].
    + split; [reflexivity|]. split; [exact Ht|]. exists (E (world_to e)). split; [apply Re|apply same_refl].
  - exists (with_b w last'), None. split; [reflexivity|]. split; [exact R'|]. rewrite C. reflexivity.
Qed.

(** * Questions *)

Lemma finish_right : forall w s k m P, rel w s -> honest m -> same P (E m) ->
  (k = Normals -> ~ (det (linear P) == 0)%Q) ->
  exists w' r, finish k m w = Some (w', r) /\ rel w' s /\
    match k with
    | Points => same (E r) P
    | Vectors => same (E r) (linear P)
    | Normals => same (product (linear P) (flipped (E r))) one
    end.
Proof.
  intros w s k m P R Hm S Nz. pose proof R as (F & Ec & Rc & La & Lb & Cv & Cn).
  destruct k; cbn [finish].
  - exists w, m. split; [reflexivity|]. split; [exact R|apply same_sym; exact S].
  - destruct (same_elements (key_v w) m) eqn:Q0; cbn [negb].
    + exists w, (result_v w). split; [reflexivity|]. split; [exact R|].
      eapply same_trans; [exact Cv|]. apply linear_ext.
      eapply same_trans; [apply same_elements_ok; exact Q0|apply same_sym; exact S].
    + do 2 eexists. split; [reflexivity|]. split.
      * split; [exact F|]. split; [exact Ec|]. split; [exact Rc|]. split; [exact La|]. split; [exact Lb|].
        split; [|exact Cn]. cbn [result_v key_v with_v]. apply vector_linear.
      * eapply same_trans; [apply vector_linear|]. apply linear_ext. apply same_sym. exact S.
  - destruct (same_elements (key_n w) m) eqn:Q0; cbn [negb].
    + exists w, (result_n w). split; [reflexivity|]. split; [exact R|].
      eapply same_trans; [|exact Cn]. apply product_ext; [|apply same_refl]. apply linear_ext.
      eapply same_trans; [exact S|]. apply same_sym. apply same_elements_ok. exact Q0.
    + pose proof (vector_transform_honest m Hm) as Hv.
      assert (SL : same (E (vector_transform m)) (linear P)).
      { eapply same_trans; [apply vector_linear|]. apply linear_ext. apply same_sym. exact S. }
      destruct (regular_inverse (vector_transform m)) as (i & Ei & Hi & Bi).
      { split; [exact Hv|]. rewrite (det_ext _ _ SL). apply Nz. reflexivity. }
      rewrite Ei. cbn [bind]. destruct (transpose_ok i Hi) as [T _].
      assert (Tf : same (flipped (E (transpose i))) (E i)).
      { intros a b Ha Hb. unfold flipped. apply T; assumption. }
      do 2 eexists. split; [reflexivity|]. split.
      * split; [exact F|]. split; [exact Ec|]. split; [exact Rc|]. split; [exact La|]. split; [exact Lb|].
        split; [exact Cv|]. cbn [result_n key_n with_n].
        eapply same_trans; [|exact Bi]. apply product_ext; [apply same_sym; apply vector_linear|exact Tf].
      * eapply same_trans; [|exact Bi]. apply product_ext; [apply same_sym; exact SL|exact Tf].
Qed.

Lemma ask_right : forall w s k from to sh ob t, rel w s -> In from U -> In to U ->
  fine (Ask k from to sh ob t) s ->
  exists w' a, ask word k from to sh ob t w = Some (w', a) /\ rel w' s /\ right_answer s k from to sh ob t a.
Proof.
  intros w s k from to sh ob t R Hf Ht (Rs & Ro & Nz). unfold ask, right_answer.
  destruct (from_right w s from sh ob t R Hf Rs Ro) as (w1 & a & E1 & R1 & A1). rewrite E1. cbn [bind].
  destruct a as [ma|]; [|exists w1, None; rewrite A1; split; [reflexivity|split; [exact R1|reflexivity]]].
  destruct A1 as (X1 & Hma & A & LA & SA). rewrite X1. cbn [andb].
  destruct (to_right w1 s to sh ob t R1 Ht Rs Ro) as (w2 & b & E2 & R2 & B1). rewrite E2. cbn [bind].
  destruct b as [mb|]; [|exists w2, None; rewrite B1; split; [reflexivity|split; [exact R2|reflexivity]]].
  destruct B1 as (X2 & Hmb & B & LB & SB). rewrite X2.
  destruct (times_ok mb ma Hmb Hma) as [SP HP].
  assert (S : same (product A B) (E (MatModel.times mb ma))).
  { eapply same_trans; [apply product_ext; [exact SA|exact SB]|apply same_sym; exact SP]. }
  destruct (finish_right w2 s k _ _ R2 HP S (fun K => Nz K A B LA LB)) as (w3 & r & E3 & R3 & Q0).
  rewrite E3. cbn [bind]. exists w3, (Some r). split; [reflexivity|]. split; [exact R3|].
  exists r, A, B. split; [reflexivity|]. split; [exact LA|]. split; [exact LB|]. exact Q0.
Qed.

(** * The whole session *)

Lemma std_nth : forall v more, nth_error (std ++ more) (view_index v) = Some (view_name v).
Proof. intros [] more; reflexivity. Qed.

Lemma step_right : forall w s o, rel w s -> incl (names_in o) U -> fine o s -> o <> NewRenderer ->
  exists w' out, step word o w = Some (w', out) /\ rel w' (sstep o s) /\
    match o, out with
    | Ask k from to sh ob t, [a] => right_answer s k from to sh ob t a
    | Ask _ _ _ _ _ _, _ => False
    | _, out => out = []
    end.
Proof.
  intros w s o R I Fo N. pose proof R as ((more & F & D & No) & Ec & Rc & La & Lb & Cv & Cn).
  destruct o as [n m|x|v m|k from to sh ob t|]; cbn [step sstep]; [| | | |contradiction N; reflexivity].
  - cbn [fine] in Fo. destruct (regular_inverse m Fo) as (i & Ei & Hi & Bi). rewrite Ei. cbn [bind].
    assert (Hn : In n U) by (apply I; left; reflexivity).
    assert (Re : right_entry (Some (Saved (E m))) (System (hash word n) m i)).
    { split; [apply Fo|]. split; [exact Hi|]. split; [apply same_refl|exact Bi]. }
    destruct (set_rel (spaces s) (std ++ more) (systems w) n m i (Saved (E m)) F D Hn Re) as (ns' & F' & C).
    do 2 eexists. split; [reflexivity|]. split; [|reflexivity].
    assert (Len : List.length (systems w) <= List.length (set_system (hash word n) m i (systems w))).
    { rewrite <- (Forall2_length F), <- (Forall2_length F').
      destruct C as [[-> _]|[-> _]]; [lia|rewrite (app_length (std ++ more) [n]); lia]. }
    split; [|split; [exact Ec|split; [exact Rc|]]].
    + cbn [spaces]. destruct C as [[-> In1]|[-> Nin]].
      * exists more. split; [exact F'|]. split; [exact D|]. intros n' N'. rewrite latest_other; [apply No; exact N'|].
        intros ->. exact (N' In1).
      * exists (more ++ [n]). rewrite app_assoc. split; [exact F'|]. split.
        -- apply NoDup_app_one; assumption.
        -- intros n' N'. rewrite latest_other.
           ++ apply No. intros I'. apply N'. apply in_or_app. left. exact I'.
           ++ intros ->. apply N'. apply in_or_app. right. left. reflexivity.
    + cbn [awhich bwhich systems with_systems key_v key_n result_v result_n]. split; [lia|]. split; [lia|]. split; assumption.
  - do 2 eexists. split; [reflexivity|]. split; [|reflexivity].
    split; [exists more; split; [exact F|split; assumption]|]. split; [reflexivity|]. split; [exact Fo|].
    split; [exact La|]. split; [exact Lb|]. split; assumption.
  - cbn [fine] in Fo. unfold set_view.
    assert (Fin : forall f, (forall e, shash (f e) = shash e) -> (forall e, right_entry (Some (Viewed (E m))) (f e)) ->
      exists w' out, bind (option_map (with_systems w) (replace (view_index v) f (systems w))) (fun w => Some (w, [])) = Some (w', out) /\
        rel w' (SWorld ((view_name v, Viewed (E m)) :: spaces s) (scamera s)) /\ out = (@nil (option matrix))).
    { intros f Hf Rf.
      destruct (replace_rel (spaces s) (std ++ more) (systems w) _ _ (Viewed (E m)) f F D (std_nth v more) Hf Rf) as (l' & E' & F').
      rewrite E'. cbn [option_map bind]. do 2 eexists. split; [reflexivity|]. split; [|reflexivity].
      assert (Len : List.length l' = List.length (systems w)).
      { rewrite <- (Forall2_length F), <- (Forall2_length F'). reflexivity. }
      split; [|split; [exact Ec|split; [exact Rc|]]].
      - exists more. split; [exact F'|]. split; [exact D|]. cbn [spaces]. intros n' N'. rewrite latest_other; [apply No; exact N'|].
        intros ->. apply N'. exact (nth_error_In _ _ (std_nth v more)).
      - cbn [awhich bwhich systems with_systems key_v key_n result_v result_n]. rewrite Len. split; [exact La|]. split; [exact Lb|]. split; assumption. }
    assert (Q0 : Qeq_bool (determinant m) 0 = Qeq_bool (det (E m)) 0) by (rewrite determinant_is; reflexivity).
    rewrite Q0. destruct (Qeq_bool (det (E m)) 0) eqn:Z; cbn [negb].
    + apply Fin; [reflexivity|]. intros e. split; [exact identity_honest|]. split; [exact Fo|]. cbn [to_world world_to].
      split; [apply same_refl|]. rewrite Z. exact identity_one.
    + assert (Rm : regular m) by (split; [exact Fo|apply Qeq_bool_neq; exact Z]).
      destruct (regular_inverse m Rm) as (i & Ei & Hi & Bi). rewrite Ei.
      apply Fin; [reflexivity|]. intros e. split; [exact Hi|]. split; [exact Fo|]. cbn [to_world world_to].
      split; [apply same_refl|]. rewrite Z. exact Bi.
  - destruct (ask_right w s k from to sh ob t R) as (w' & a & E' & R' & A'); [apply I; left; reflexivity|apply I; right; left; reflexivity|exact Fo|].
    rewrite E'. cbn [bind]. do 2 eexists. split; [reflexivity|]. split; [exact R'|exact A'].
Qed.

Lemma run_right : forall l w s, rel w s -> incl (flat_map names_in l) U -> all_fine l s -> ~ In NewRenderer l ->
  exists w' out, run word l w = Some (w', out) /\ right_answers l s out.
Proof.
  induction l as [|o l IH]; intros w s R I A N; cbn [run].
  - exists w, []. split; reflexivity.
  - destruct A as [A1 A2]. cbn [flat_map] in I.
    destruct (step_right w s o R) as (w1 & out & E1 & R1 & O1).
    + intros n Hn. apply I. apply in_or_app. left. exact Hn.
    + exact A1.
    + intros ->. apply N. left. reflexivity.
    + rewrite E1. cbn [bind].
      destruct (IH w1 (sstep o s) R1) as (w2 & out2 & E2 & O2).
      * intros n Hn. apply I. apply in_or_app. right. exact Hn.
      * exact A2.
      * intros X. apply N. right. exact X.
      * rewrite E2. cbn [bind]. exists w2, (out ++ out2). split; [reflexivity|].
        destruct o as [n m|x|v m|k from to sh ob t|]; cbn [right_answers sstep] in *; try (subst out; exact O2).
        destruct out as [|a [|b out]]; [contradiction| |contradiction]. split; [exact O1|exact O2].
Qed.

Lemma std_nodup : NoDup std.
Proof. repeat (constructor; [vm_compute; intuition discriminate|]). constructor. Qed.

Lemma start_right : rel (start word) sstart.
Proof.
  split; [|split; [reflexivity|split]].
  - exists []. rewrite app_nil_r. split; [|split; [exact std_nodup|]].
    + assert (G : forall l l0, (forall s, In s l -> latest (text s) l0 = Some (Saved one)) -> incl (map text l) reserved ->
        Forall2 (entry l0) (map text l) (map (fun s => System (hash_of word s) identity identity) l)).
      { induction l as [|a l IH]; intros l0 K Ir; cbn [map]; [constructor|]. constructor.
        - split; [apply has_reserved; apply Ir; left; reflexivity|]. split; [reflexivity|].
          rewrite K by (left; reflexivity). split; [exact identity_honest|]. split; [exact identity_honest|].
          split; [exact identity_one|]. unfold back. eapply same_trans; [apply one_product|exact identity_one].
        - apply IH; [intros s Hs; apply K; right; exact Hs|intros n Hn; apply Ir; right; exact Hn]. }
      apply G.
      * intros s Hs. cbn [In] in Hs. repeat (destruct Hs as [<-|Hs]; [reflexivity|]). destruct Hs.
      * intros n Hn. unfold reserved. cbn [map In] in *. tauto.
    + intros n N. cbn [spaces sstart]. unfold std in N.
      induction ["__camera__"; "__current__"; "world"; "screen"; "NDC"; "raster"]%string as [|a l IH]; [reflexivity|].
      cbn [map latest]. rewrite name_eqb_neq; [apply IH|].
      * intros X. apply N. right. exact X.
      * intros <-. apply N. left. reflexivity.
  - intros t. exists identity. split; [reflexivity|]. split; [exact identity_honest|].
    rewrite (det_ext _ _ identity_one), det_one. discriminate.
  - split; [cbn; lia|]. split; [cbn; lia|]. cbn [key_v key_n result_v result_n start].
    assert (L1 : same (linear (E identity)) one) by (eapply same_trans; [apply linear_ext; exact identity_one|exact linear_one]).
    split; [eapply same_trans; [exact identity_one|apply same_sym; exact L1]|].
    eapply same_trans; [apply product_ext; [exact L1|]|apply one_product].
    intros i j Hi Hj. unfold flipped. rewrite (identity_one j i Hj Hi). unfold one.
    destruct (Nat.eqb_spec i j), (Nat.eqb_spec j i); try reflexivity; lia.
Qed.
End Rel.

Lemma answers_right : forall word l, told_apart word l -> all_fine l sstart -> ~ In NewRenderer l ->
  exists out, answers word l = Some out /\ right_answers l sstart out.
Proof.
  intros word l T A N.
  destruct (run_right word (reserved ++ flat_map names_in l) T (incl_appl _ (incl_refl _)) l (start word) sstart) as (w & out & E0 & R0).
  - apply start_right. apply incl_appl. apply incl_refl.
  - apply incl_appr. apply incl_refl.
  - exact A.
  - exact N.
  - exists out. unfold answers. rewrite E0. split; [reflexivity|exact R0].
Qed.

(** * Consequences *)

Lemma right_answers_app : forall l l2 s out, right_answers (l ++ l2) s out ->
  exists o1 o2, out = o1 ++ o2 /\ right_answers l2 (fold_left (fun s o => sstep o s) l s) o2.
Proof.
  induction l as [|o l IH]; intros l2 s out R; cbn [app fold_left] in *.
  - exists [], out. split; [reflexivity|exact R].
  - destruct o as [n m|x|v m|k from to sh ob t|]; cbn [right_answers] in R; try (exact (IH _ _ _ R)).
    destruct out as [|a out]; [contradiction|]. destruct R as [_ R].
    destruct (IH _ _ _ R) as (o1 & o2 & -> & R2). exists (a :: o1), o2. split; [reflexivity|exact R2].
Qed.

Definition is_ask (o : op) : bool := match o with Ask _ _ _ _ _ _ => true | _ => false end.

Lemma right_answers_asks : forall l s out, right_answers l s out -> List.length out = List.length (filter is_ask l).
Proof.
  induction l as [|o l IH]; intros s out R; cbn [right_answers filter] in *.
  - subst out. reflexivity.
  - destruct o as [n m|x|v m|k from to sh ob t|]; cbn [is_ask]; try (exact (IH _ _ R)).
    destruct out as [|a out]; [contradiction|]. destruct R as [_ R]. cbn [List.length]. rewrite (IH _ _ R). reflexivity.
Qed.

Lemma app_tail_inv {A} : forall (a b c d : list A), a ++ b = c ++ d -> List.length b = List.length d -> a = c /\ b = d.
Proof.
  intros a b c d E0 L. assert (La : List.length a = List.length c).
  { apply (f_equal (@List.length A)) in E0. rewrite !app_length in E0. lia. }
  revert c E0 La. induction a as [|x a IH]; intros [|y c] E0 La; cbn [app List.length] in *; try discriminate.
  - split; [reflexivity|exact E0].
  - injection E0 as -> E0. destruct (IH c E0) as [-> ->]; [lia|]. split; reflexivity.
Qed.

Lemma right_points : forall s a b sh ob t R, right_answer s Points a b sh ob t (Some R) ->
  exists A B, leads_to_world s sh ob t a A /\ leads_from_world s sh ob t b B /\ same (E R) (product A B).
Proof.
  intros s a b sh ob t R Q0. unfold right_answer in Q0.
  destruct (exists_space s a && exists_space s b); [|discriminate].
  destruct Q0 as (R' & A & B & E0 & LA & LB & S). injection E0 as <-. eauto.
Qed.

Definition views_regular (s : sworld) : Prop := forall n W, In (n, Viewed W) (spaces s) -> ~ (det W == 0)%Q.

Lemma views_start : views_regular sstart.
Proof.
  intros n W I. cbn [sstart spaces] in I. apply in_map_iff in I as (x & E0 & _). discriminate.
Qed.

Lemma views_kept : forall l s, views_regular s -> (forall v m, In (View v m) l -> ~ (det (E m) == 0)%Q) ->
  views_regular (fold_left (fun s o => sstep o s) l s).
Proof.
  induction l as [|o l IH]; intros s V H; cbn [fold_left]; [exact V|]. apply IH.
  - destruct o as [n m|x|v m|k from to sh ob t|]; cbn [sstep].
    + intros n' W [E0|I]; [discriminate|exact (V n' W I)].
    + exact V.
    + intros n' W [E0|I]; [|exact (V n' W I)]. injection E0 as _ <-. apply (H v m). left. reflexivity.
    + exact V.
    + exact views_start.
  - intros v m I. apply (H v m). right. exact I.
Qed.

Lemma latest_in : forall n l k, latest n l = Some k -> In (n, k) l.
Proof.
  intros n l k. induction l as [|[m k'] l IH]; cbn [latest]; [discriminate|].
  destruct (name_eqb m n) eqn:Q0; intros E0.
  - apply name_eqb_spec in Q0. subst m. injection E0 as ->. left. reflexivity.
  - right. exact (IH E0).
Qed.

Lemma given_unique : forall x t A B, given_by x t A -> given_by x t B -> same A B.
Proof.
  intros [x|] t A B; cbn [given_by].
  - intros (m & E1 & S1) (m' & E2 & S2). assert (m = m') by congruence. subst m'.
    eapply same_trans; [exact S1|apply same_sym; exact S2].
  - intros S1 S2. eapply same_trans; [exact S1|apply same_sym; exact S2].
Qed.

Lemma back_sym : forall A B, back A B -> back B A.
Proof. intros A B H. apply left_inverse_right. exact H. Qed.

Lemma back_ext : forall A A' B, same A A' -> back A B -> back A' B.
Proof.
  intros A A' B S H. eapply same_trans; [|exact H]. apply product_ext; [apply same_sym; exact S|apply same_refl].
Qed.

Lemma back_unique : forall A B C, back A B -> back A C -> same B C.
Proof.
  intros A B C H1 H2. apply back_sym in H1.
  eapply same_trans; [apply same_sym; apply product_one|].
  eapply same_trans; [apply product_ext; [apply same_refl|apply same_sym; exact H2]|].
  eapply same_trans; [apply same_sym; apply product_assoc|].
  eapply same_trans; [apply product_ext; [exact H1|apply same_refl]|apply one_product].
Qed.

Lemma ways_back : forall s sh ob t n A B, views_regular s ->
  leads_to_world s sh ob t n A -> leads_from_world s sh ob t n B -> back B A.
Proof.
  intros s sh ob t n A B V. unfold leads_to_world, leads_from_world.
  destruct (is n "object"); [|destruct (is n "shader"); [|destruct (is n "camera" || is n "current")]].
  - intros G (A' & G' & K). apply back_sym. apply (back_ext A'); [exact (given_unique _ _ _ _ G' G)|exact K].
  - intros G (A' & G' & K). apply back_sym. apply (back_ext A'); [exact (given_unique _ _ _ _ G' G)|exact K].
  - intros (C & G & K) G'. apply (back_ext C); [exact (given_unique _ _ _ _ G G')|exact K].
  - destruct (latest n (spaces s)) as [[M|W]|] eqn:El; [| |contradiction].
    + intros S K. apply back_sym. apply (back_ext M); [apply same_sym; exact S|exact K].
    + intros K S. destruct (Qeq_bool (det W) 0) eqn:Z.
      * exfalso. apply (V n W (latest_in _ _ _ El)). apply Qeq_bool_iff. exact Z.
      * apply (back_ext W); [apply same_sym; exact S|exact K].
Qed.

Lemma to_world_unique : forall s sh ob t n A B, leads_to_world s sh ob t n A -> leads_to_world s sh ob t n B -> same A B.
Proof.
  intros s sh ob t n A B. unfold leads_to_world.
  destruct (is n "object"); [|destruct (is n "shader"); [|destruct (is n "camera" || is n "current")]].
  - apply given_unique.
  - apply given_unique.
  - intros (C & G & K) (C' & G' & K'). apply (back_unique C); [exact K|].
    apply (back_ext C'); [exact (given_unique _ _ _ _ G' G)|exact K'].
  - destruct (latest n (spaces s)) as [[M|W]|]; [| |contradiction].
    + intros S1 S2. eapply same_trans; [exact S1|apply same_sym; exact S2].
    + destruct (Qeq_bool (det W) 0).
      * intros S1 S2. eapply same_trans; [exact S1|apply same_sym; exact S2].
      * apply back_unique.
Qed.

Lemma from_world_unique : forall s sh ob t n A B, leads_from_world s sh ob t n A -> leads_from_world s sh ob t n B -> same A B.
Proof.
  intros s sh ob t n A B. unfold leads_from_world.
  destruct (is n "object"); [|destruct (is n "shader"); [|destruct (is n "camera" || is n "current")]].
  - intros (C & G & K) (C' & G' & K'). apply (back_unique C); [exact K|].
    apply (back_ext C'); [exact (given_unique _ _ _ _ G' G)|exact K'].
  - intros (C & G & K) (C' & G' & K'). apply (back_unique C); [exact K|].
    apply (back_ext C'); [exact (given_unique _ _ _ _ G' G)|exact K'].
  - apply given_unique.
  - destruct (latest n (spaces s)) as [[M|W]|]; [| |contradiction].
    + apply back_unique.
    + intros S1 S2. eapply same_trans; [exact S1|apply same_sym; exact S2].
Qed.

(** * Tests for examples *)

Definition apart_list (hs : list (Z * name)) : bool :=
  forallb (fun a => forallb (fun b => implb (Z.eqb (fst a) (fst b)) (name_eqb (snd a) (snd b))) hs) hs.

Lemma apart_list_ok : forall (h : name -> Z) ns, apart_list (map (fun n => (h n, n)) ns) = true ->
  forall a b, In a ns -> In b ns -> h a = h b -> a = b.
Proof.
  intros h ns H a b Ia Ib Eh. unfold apart_list in H. rewrite forallb_forall in H.
  specialize (H (h a, a) (in_map (fun n => (h n, n)) _ _ Ia)). rewrite forallb_forall in H.
  specialize (H (h b, b) (in_map (fun n => (h n, n)) _ _ Ib)). cbn [fst snd] in H.
  rewrite Eh, Z.eqb_refl in H. cbn [implb] in H. apply name_eqb_spec. exact H.
Qed.

Lemma apart_test_ok : forall word l,
  apart_list (map (fun n => (hash word n, n)) (reserved ++ flat_map names_in l)) = true -> told_apart word l.
Proof.
  intros word l H a b. exact (apart_list_ok (hash word) (reserved ++ flat_map names_in l) H a b).
Qed.

Definition regular_test (m : matrix) : bool := negb (idf m) && negb (Qeq_bool (determinant m) 0).

Lemma regular_test_ok : forall m, regular_test m = true -> regular m.
Proof.
  intros m H. unfold regular_test in H. apply andb_prop in H as [H1 H2]. split.
  - intros F. rewrite F in H1. discriminate.
  - intros Z. assert (Q0 : Qeq_bool (determinant m) 0 = true).
    { apply Qeq_bool_iff. exact (Qeq_trans _ _ _ (determinant_is m) Z). }
    rewrite Q0 in H2. discriminate H2.
Qed.

Lemma regular_fixed : forall s m h, regular m -> regular_x (Xform s false m h).
Proof. intros s m h R t. exists m. split; [reflexivity|exact R]. Qed.

Lemma regular_identity : regular identity.
Proof. split; [exact identity_honest|]. rewrite (det_ext _ _ identity_one), det_one. discriminate. Qed.

(** Proofs about the splitting and dicing of patches *)
From Verif Require Export SplitSpec.
From Coq Require Import Lia Lqa Qfield FinFun.
Open Scope Q_scope.

(** ** Loops and storage *)
Lemma loop_seq {S} (f : nat -> S -> option S) (P : nat -> S -> Prop) n : forall a s,
  P a s -> (forall i x, (a <= i < a + n)%nat -> P i x -> exists y, f i x = Some y /\ P (Datatypes.S i) y) ->
  exists y, loop f (seq a n) s = Some y /\ P (a + n)%nat y.
Proof.
  induction n as [|n IH]; intros a s H0 HS.
  - exists s. split; [reflexivity|]. rewrite Nat.add_0_r. exact H0.
  - destruct (HS a s ltac:(lia) H0) as (y & E & HP). cbn [seq loop]. rewrite E.
    destruct (IH (Datatypes.S a) y HP) as (z & EZ & HZ).
    + intros i x HI HX. apply HS; [lia | exact HX].
    + exists z. split; [exact EZ|]. replace (a + Datatypes.S n)%nat with (Datatypes.S a + n)%nat by lia. exact HZ.
Qed.

Lemma set_nth_some {T} (l : list T) : forall n x, (n < List.length l)%nat ->
  exists m, set_nth l n x = Some m /\ List.length m = List.length l /\
            forall j, nth_error m j = if Nat.eqb j n then Some x else nth_error l j.
Proof.
  induction l as [|a l IH]; intros n x H; [cbn in H; lia|].
  destruct n as [|n].
  - exists (x :: l). split; [reflexivity|]. split; [reflexivity|]. intros [|j]; reflexivity.
  - destruct (IH n x) as (m & E & EL & EN); [cbn in H; lia|].
    exists (a :: m). cbn [set_nth]. rewrite E. split; [reflexivity|]. split; [cbn; lia|].
    intros [|j]; [reflexivity|]. cbn. apply EN.
Qed.

(** Variables of the same description *)
Definition alike {T} (p q : param T) : Prop :=
  p_class q = p_class p /\ p_array q = p_array p /\ p_count q = p_count p /\
  List.length (p_vals q) = List.length (p_vals p).

Lemma alike_refl {T} (p : param T) : alike p p.
Proof. repeat split. Qed.
Lemma alike_trans {T} (p q r : param T) : alike p q -> alike q r -> alike p r.
Proof. intros (A & B & C & D) (A' & B' & C' & D'). repeat split; congruence. Qed.

Lemma wr_some {T} (p : param T) i k x :
  (k < p_count p)%nat -> (i * p_count p + k < List.length (p_vals p))%nat ->
  exists q, wr p i k x = Some q /\ alike p q /\
    forall i' k', (k' < p_count p)%nat ->
      rd q i' k' = if (Nat.eqb i' i && Nat.eqb k' k)%bool then Some x else rd p i' k'.
Proof.
  intros HK HL. unfold wr. destruct (set_nth_some (p_vals p) _ x HL) as (m & E & EL & EN). rewrite E.
  exists (with_vals p m). split; [reflexivity|]. split; [repeat split; exact EL|].
  intros i' k' HK'. unfold rd. cbn. rewrite EN.
  destruct (Nat.eqb_spec (i' * p_count p + k') (i * p_count p + k)) as [EQ|NE].
  - assert (i' = i /\ k' = k) as [-> ->].
    { assert (i' = i) by nia. subst. split; [reflexivity | lia]. }
    rewrite !Nat.eqb_refl. reflexivity.
  - destruct (Nat.eqb_spec i' i) as [->|]; [|reflexivity]. destruct (Nat.eqb_spec k' k) as [->|]; [lia | reflexivity].
Qed.

Lemma rd_some {T} (p : param T) n i k : List.length (p_vals p) = (n * p_count p)%nat -> (i < n)%nat -> (k < p_count p)%nat ->
  exists x, rd p i k = Some x.
Proof.
  intros HL HI HK. unfold rd. destruct (nth_error (p_vals p) (i * p_count p + k)) as [x|] eqn:E; [exists x; reflexivity|].
  apply nth_error_None in E. rewrite HL in E. nia.
Qed.

Lemma rd_controls (p : param Q) i k x : rd p i k = Some x -> controls p k i = x.
Proof. unfold rd, controls. intro H. exact (nth_error_nth _ _ _ H). Qed.

(** ** Halves of quadrilaterals *)
Section Generic.
Context {T E : Type} (A : arith T E).

(** The four values of element k *)
Definition four (p : param T) (k : nat) (a b c d : T) : Prop :=
  rd p 0 k = Some a /\ rd p 1 k = Some b /\ rd p 2 k = Some c /\ rd p 3 k = Some d.

Lemma four_some (p : param T) k : List.length (p_vals p) = (4 * p_count p)%nat -> (k < p_count p)%nat ->
  exists a b c d, four p k a b c d.
Proof.
  intros HL HK.
  destruct (rd_some p 4 0 k HL ltac:(lia) HK) as (a & HA). destruct (rd_some p 4 1 k HL ltac:(lia) HK) as (b & HB).
  destruct (rd_some p 4 2 k HL ltac:(lia) HK) as (c & HC). destruct (rd_some p 4 3 k HL ltac:(lia) HK) as (d & HD).
  exists a, b, c, d. repeat split; assumption.
Qed.

Definition halved (u : bool) (src r1 r2 : param T) (k : nat) : Prop :=
  forall a b c d, four src k a b c d ->
    if u then four r1 k a (mean A a b) c (mean A c d) /\ four r2 k (mean A a b) b (mean A c d) d
    else four r1 k a b (mean A a c) (mean A b d) /\ four r2 k (mean A a c) (mean A b d) c d.


Lemma halve_some u src r1 r2 k :
  List.length (p_vals src) = (4 * p_count src)%nat -> (k < p_count src)%nat -> alike src r1 -> alike src r2 ->
  (forall i, (i < 4)%nat -> rd r1 i k = rd src i k) ->
  exists q1 q2, halve A u src k (r1, r2) = Some (q1, q2) /\ alike src q1 /\ alike src q2 /\ halved u src q1 q2 k /\
    forall k' i, k' <> k -> (k' < p_count src)%nat -> rd q1 i k' = rd r1 i k' /\ rd q2 i k' = rd r2 i k'.
Proof.
  intros HL HK A1 A2 HC.
  destruct (four_some src k HL HK) as (a & b & c & d & (R0 & R1 & R2 & R3)).
  unfold halve. rewrite R0, R1, R2, R3. cbn [bind].
  assert (OK : forall r i, alike src r -> (i < 4)%nat ->
            (k < p_count r)%nat /\ (i * p_count r + k < List.length (p_vals r))%nat).
  { intros r i (_ & _ & C & L) HI. rewrite C, L, HL. split; [exact HK | nia]. }
  assert (STEP : forall r i x, alike src r -> (i < 4)%nat -> exists q, wr r i k x = Some q /\ alike src q /\
            forall i' k', (k' < p_count src)%nat ->
              rd q i' k' = if (Nat.eqb i' i && Nat.eqb k' k)%bool then Some x else rd r i' k').
  { intros r i x AR HI. destruct (OK r i AR HI) as [K1 K2]. destruct (wr_some r i k x K1 K2) as (q & EQ & AQ & RQ).
    exists q. split; [exact EQ|]. split; [exact (alike_trans _ _ _ AR AQ)|]. intros i' k' HK'. apply RQ.
    destruct AR as (_ & _ & C & _). lia. }
  assert (HC0 := HC 0%nat ltac:(lia)). assert (HC1 := HC 1%nat ltac:(lia)).
  assert (HC2 := HC 2%nat ltac:(lia)). assert (HC3 := HC 3%nat ltac:(lia)).
  destruct u.
  - destruct (STEP r2 1%nat b A2 ltac:(lia)) as (s1 & -> & B1 & P1). cbn [bind].
    destruct (STEP s1 3%nat d B1 ltac:(lia)) as (s2 & -> & B2 & P2). cbn [bind].
    destruct (STEP s2 0%nat (mean A a b) B2 ltac:(lia)) as (s3 & -> & B3 & P3). cbn [bind].
    destruct (STEP r1 1%nat (mean A a b) A1 ltac:(lia)) as (t1 & -> & D1 & S1). cbn [bind].
    destruct (STEP s3 2%nat (mean A c d) B3 ltac:(lia)) as (s4 & -> & B4 & P4). cbn [bind].
    destruct (STEP t1 3%nat (mean A c d) D1 ltac:(lia)) as (t2 & -> & D2 & S2). cbn [bind].
    exists t2, s4. split; [reflexivity|]. split; [exact D2|]. split; [exact B4|]. split.
    + intros a' b' c' d' (Q0 & Q1 & Q2 & Q3).
      rewrite R0 in Q0; rewrite R1 in Q1; rewrite R2 in Q2; rewrite R3 in Q3.
      injection Q0 as <-; injection Q1 as <-; injection Q2 as <-; injection Q3 as <-.
      unfold four. rewrite !S2, !S1, !P4, !P3, !P2, !P1 by exact HK. rewrite !Nat.eqb_refl. cbn [Nat.eqb andb].
      rewrite HC0, HC2, R0, R2. repeat split.
    + intros k' i NE HK'. assert (NB : Nat.eqb k' k = false) by (apply Nat.eqb_neq; exact NE).
      rewrite !S2, !S1, !P4, !P3, !P2, !P1 by exact HK'. rewrite NB, !andb_false_r. split; reflexivity.
  - destruct (STEP r2 2%nat c A2 ltac:(lia)) as (s1 & -> & B1 & P1). cbn [bind].
    destruct (STEP s1 3%nat d B1 ltac:(lia)) as (s2 & -> & B2 & P2). cbn [bind].
    destruct (STEP s2 0%nat (mean A a c) B2 ltac:(lia)) as (s3 & -> & B3 & P3). cbn [bind].
    destruct (STEP r1 2%nat (mean A a c) A1 ltac:(lia)) as (t1 & -> & D1 & S1). cbn [bind].
    destruct (STEP s3 1%nat (mean A b d) B3 ltac:(lia)) as (s4 & -> & B4 & P4). cbn [bind].
    destruct (STEP t1 3%nat (mean A b d) D1 ltac:(lia)) as (t2 & -> & D2 & S2). cbn [bind].
    exists t2, s4. split; [reflexivity|]. split; [exact D2|]. split; [exact B4|]. split.
    + intros a' b' c' d' (Q0 & Q1 & Q2 & Q3).
      rewrite R0 in Q0; rewrite R1 in Q1; rewrite R2 in Q2; rewrite R3 in Q3.
      injection Q0 as <-; injection Q1 as <-; injection Q2 as <-; injection Q3 as <-.
      unfold four. rewrite !S2, !S1, !P4, !P3, !P2, !P1 by exact HK. rewrite !Nat.eqb_refl. cbn [Nat.eqb andb].
      rewrite HC0, HC1, R0, R1. repeat split.
    + intros k' i NE HK'. assert (NB : Nat.eqb k' k = false) by (apply Nat.eqb_neq; exact NE).
      rewrite !S2, !S1, !P4, !P3, !P2, !P1 by exact HK'. rewrite NB, !andb_false_r. split; reflexivity.
Qed.

Lemma halve_all u src (ks : list nat) : forall r1 r2,
  List.length (p_vals src) = (4 * p_count src)%nat -> NoDup ks -> (forall k, In k ks -> (k < p_count src)%nat) ->
  alike src r1 -> alike src r2 -> (forall k i, In k ks -> (i < 4)%nat -> rd r1 i k = rd src i k) ->
  exists q1 q2, loop (halve A u src) ks (r1, r2) = Some (q1, q2) /\ alike src q1 /\ alike src q2 /\
    (forall k, In k ks -> halved u src q1 q2 k) /\
    forall k i, ~ In k ks -> (k < p_count src)%nat -> rd q1 i k = rd r1 i k /\ rd q2 i k = rd r2 i k.
Proof.
  induction ks as [|k ks IH]; intros r1 r2 HL ND HI A1 A2 HC.
  - exists r1, r2. split; [reflexivity|]. split; [exact A1|]. split; [exact A2|]. split; [intros k []|]. intros; split; reflexivity.
  - inversion ND as [|? ? NI ND']; subst.
    destruct (halve_some u src r1 r2 k HL (HI k (or_introl eq_refl)) A1 A2) as (s1 & s2 & ES & B1 & B2 & HS & OTHER).
    { intros i Hi. apply HC; [left; reflexivity | exact Hi]. }
    destruct (IH s1 s2 HL ND') as (q1 & q2 & EQ & C1 & C2 & HQ & KEEP).
    { intros k' Hk'. apply HI. right. exact Hk'. }
    { exact B1. } { exact B2. }
    { intros k' i Hk' Hi. destruct (OTHER k' i) as [-> _]; [intros ->; contradiction | apply HI; right; exact Hk' |].
      apply HC; [right; exact Hk' | exact Hi]. }
    exists q1, q2. cbn [loop]. rewrite ES. split; [exact EQ|]. split; [exact C1|]. split; [exact C2|]. split.
    + intros k' [<-|Hk']; [|exact (HQ k' Hk')].
      intros a b c d F. specialize (HS a b c d F).
      assert (KK : forall i, rd q1 i k = rd s1 i k /\ rd q2 i k = rd s2 i k)
        by (intro i; apply KEEP; [exact NI | apply HI; left; reflexivity]).
      destruct u; unfold four in *; rewrite !(proj1 (KK _)), !(proj2 (KK _)); exact HS.
    + intros k' i NIn Hk'. destruct (KEEP k' i) as [-> ->]; [intro X; apply NIn; right; exact X | exact Hk' |].
      apply OTHER; [intros ->; apply NIn; left; reflexivity | exact Hk'].
Qed.

(** Every element is halved *)
Definition halves (u : bool) (src r1 r2 : param T) : Prop :=
  alike src r1 /\ alike src r2 /\ forall k, (k < p_count src)%nat -> halved u src r1 r2 k.

Lemma set_size_same n (p : param T) : List.length (p_vals p) = (n * p_count p)%nat -> set_size (t_zero A) n p = p.
Proof.
  intro H. unfold set_size, with_vals. rewrite <- H, Nat.sub_diag, firstn_all. cbn. rewrite app_nil_r. destruct p; reflexivity.
Qed.

Lemma size_of n (p : param T) : (1 <= p_count p)%nat -> List.length (p_vals p) = (n * p_count p)%nat -> size p = n.
Proof. intros HC HL. unfold size. rewrite HL. apply Nat.div_mul. lia. Qed.

Lemma varying_halves u (p : param T) : (1 <= p_count p)%nat -> (p_array p = false -> p_count p = 1%nat) ->
  List.length (p_vals p) = (4 * p_count p)%nat ->
  exists r1 r2, subdivide_varying A u p = Some (r1, r2) /\ halves u p r1 r2.
Proof.
  intros HC HA HL. unfold subdivide_varying. rewrite (size_of 4 p HC HL), Nat.eqb_refl, (set_size_same 4 p HL).
  set (ks := if p_array p then rev (seq 0 (p_count p)) else [0%nat]).
  assert (KS : forall k, In k ks <-> (k < p_count p)%nat).
  { intro k. subst ks. destruct (p_array p) eqn:EA.
    - rewrite <- in_rev, in_seq. lia.
    - rewrite (HA eq_refl). cbn. lia. }
  destruct (halve_all u p ks p p HL) as (q1 & q2 & EQ & A1 & A2 & HQ & _).
  - subst ks. destruct (p_array p); [apply NoDup_rev, seq_NoDup | constructor; [intros [] | constructor]].
  - intros k HK. apply KS. exact HK.
  - apply alike_refl.
  - apply alike_refl.
  - reflexivity.
  - exists q1, q2. split; [exact EQ|]. split; [exact A1|]. split; [exact A2|]. intros k HK. apply HQ, KS, HK.
Qed.

Lemma natural_halves u (p : param T) : (1 <= p_count p)%nat -> List.length (p_vals p) = (4 * p_count p)%nat ->
  exists r1 r2, natural_subdivide_linear A u p = Some (r1, r2) /\ halves u p r1 r2.
Proof.
  intros HC HL. unfold natural_subdivide_linear.
  destruct (halve_all u p (seq 0 (p_count p)) p p HL) as (q1 & q2 & EQ & A1 & A2 & HQ & _).
  - apply seq_NoDup.
  - intros k HK. apply in_seq in HK. lia.
  - apply alike_refl.
  - apply alike_refl.
  - reflexivity.
  - exists q1, q2. split; [exact EQ|]. split; [exact A1|]. split; [exact A2|]. intros k HK. apply HQ, in_seq. lia.
Qed.

(** ** Halves of bicubic patches *)
Definition h2 (a b : T) : T := e_cast A (t_div A (t_add A a b) 2).
Definition h4 (x b c : T) : T := e_cast A (e_add A (t_div A x 2) (t_div A (t_add A b c) 4)).
(** The halves of the curve with the control values a b c d *)
Definition first_half (a b c d : T) : list T :=
  let x := h2 a b in let y := h4 x b c in let z := h4 (h2 c d) b c in [a; x; y; h2 y z].
Definition second_half (a b c d : T) : list T :=
  let x := h2 a b in let y := h4 x b c in let z := h4 (h2 c d) b c in [h2 y z; z; h2 c d; d].

Lemma sixteen (l : list T) : List.length l = 16%nat ->
  exists a0 a1 a2 a3 b0 b1 b2 b3 c0 c1 c2 c3 d0 d1 d2 d3, l = [a0;a1;a2;a3;b0;b1;b2;b3;c0;c1;c2;c3;d0;d1;d2;d3].
Proof.
  intro H. do 16 (destruct l as [|? l]; [discriminate H|]). destruct l; [|discriminate H].
  do 16 eexists. reflexivity.
Qed.

Definition rows4 (l0 l1 l2 l3 : list T) : list T := (l0 ++ l1 ++ l2 ++ l3)%list.
Definition columns4 (l0 l1 l2 l3 : list T) : list T := match l0, l1, l2, l3 with
  | [a0;a1;a2;a3], [b0;b1;b2;b3], [c0;c1;c2;c3], [d0;d1;d2;d3] => [a0;b0;c0;d0;a1;b1;c1;d1;a2;b2;c2;d2;a3;b3;c3;d3]
  | _, _, _, _ => nil
  end.

Lemma cubic_u cl ar a0 a1 a2 a3 b0 b1 b2 b3 c0 c1 c2 c3 d0 d1 d2 d3 :
  natural_subdivide_cubic A true (mkparam cl ar 1 [a0;a1;a2;a3;b0;b1;b2;b3;c0;c1;c2;c3;d0;d1;d2;d3]) =
  Some (mkparam cl ar 1 (rows4 (first_half a0 a1 a2 a3) (first_half b0 b1 b2 b3) (first_half c0 c1 c2 c3) (first_half d0 d1 d2 d3)),
        mkparam cl ar 1 (rows4 (second_half a0 a1 a2 a3) (second_half b0 b1 b2 b3) (second_half c0 c1 c2 c3) (second_half d0 d1 d2 d3))).
Proof. reflexivity. Qed.

Lemma cubic_v cl ar a0 a1 a2 a3 b0 b1 b2 b3 c0 c1 c2 c3 d0 d1 d2 d3 :
  natural_subdivide_cubic A false (mkparam cl ar 1 [a0;a1;a2;a3;b0;b1;b2;b3;c0;c1;c2;c3;d0;d1;d2;d3]) =
  Some (mkparam cl ar 1 (columns4 (first_half a0 b0 c0 d0) (first_half a1 b1 c1 d1) (first_half a2 b2 c2 d2) (first_half a3 b3 c3 d3)),
        mkparam cl ar 1 (columns4 (second_half a0 b0 c0 d0) (second_half a1 b1 c1 d1) (second_half a2 b2 c2 d2) (second_half a3 b3 c3 d3))).
Proof. reflexivity. Qed.

(** Splitting a proper variable succeeds and gives proper variables *)
Lemma alike_proper kd (p q : param T) : alike p q -> proper kd p -> proper kd q.
Proof.
  intros (C & AR & N & L) (P1 & P2 & P3). unfold proper. rewrite C, AR, N, L. auto.
Qed.
Lemma alike_array kd (p q : param T) : alike p q -> ~ cubic_array kd p -> ~ cubic_array kd q.
Proof. intros (C & AR & _) H. unfold cubic_array in *. rewrite C, AR. exact H. Qed.

Lemma subdivide_some kd cubic u (p : param T) : proper kd p -> ~ cubic_array kd p ->
  exists r1 r2, subdivide A kd cubic u p = Some (r1, r2) /\ alike p r1 /\ alike p r2.
Proof.
  intros (P1 & P2 & P3) NC. unfold subdivide.
  assert (VA : List.length (p_vals p) = (4 * p_count p)%nat ->
               exists r1 r2, subdivide_varying A u p = Some (r1, r2) /\ alike p r1 /\ alike p r2).
  { intro HL. destruct (varying_halves u p P1 P2 HL) as (r1 & r2 & E1 & (A1 & A2 & _)). exists r1, r2. auto. }
  assert (NA : List.length (p_vals p) = (4 * p_count p)%nat ->
               exists r1 r2, natural_subdivide_linear A u p = Some (r1, r2) /\ alike p r1 /\ alike p r2).
  { intro HL. destruct (natural_halves u p P1 HL) as (r1 & r2 & E1 & (A1 & A2 & _)). exists r1, r2. auto. }
  assert (VX : (p_class p = Vertex \/ p_class p = FaceVertex) ->
    exists r1 r2, (if p_array p then subdivide_varying A u p
      else match kd with Bilinear => natural_subdivide_linear A u p
           | Bicubic => if cubic then natural_subdivide_cubic A u p else Some (p, p) end) = Some (r1, r2) /\
      alike p r1 /\ alike p r2).
  { intro CL. destruct (p_array p) eqn:AR.
    - destruct kd; [|exfalso; apply NC; split; [reflexivity | split; [exact AR | exact CL]]].
      apply VA. rewrite P3. destruct CL as [-> | ->]; reflexivity.
    - destruct kd; [apply NA; rewrite P3; destruct CL as [-> | ->]; reflexivity|].
      destruct cubic; [|exists p, p; split; [reflexivity | split; apply alike_refl]].
      specialize (P2 eq_refl).
      assert (L16 : List.length (p_vals p) = 16%nat) by (rewrite P3, P2; destruct CL as [-> | ->]; reflexivity).
      destruct (sixteen _ L16) as (a0&a1&a2&a3&b0&b1&b2&b3&c0&c1&c2&c3&d0&d1&d2&d3&EL).
      destruct p as [cl ar n l]. cbn in P2, EL, AR. subst n l ar.
      destruct u; [rewrite cubic_u | rewrite cubic_v]; do 2 eexists; (split; [reflexivity|]); split; repeat split. }
  destruct (p_class p) eqn:CL.
  - exists p, p. split; [reflexivity | split; apply alike_refl].
  - exists p, p. split; [reflexivity | split; apply alike_refl].
  - apply VA. rewrite P3. reflexivity.
  - apply VA. rewrite P3. reflexivity.
  - apply VX. left. reflexivity.
  - apply VX. right. reflexivity.
Qed.
End Generic.

(** ** Values of the halves *)
#[global] Instance line2_m : Proper (Qeq ==> Qeq ==> Qeq ==> Qeq) line2.
Proof. intros a a' EA b b' EB x x' EX. unfold line2. rewrite EA, EB, EX. reflexivity. Qed.
#[global] Instance bezier4_m : Proper (Qeq ==> Qeq ==> Qeq ==> Qeq ==> Qeq ==> Qeq) bezier4.
Proof. intros a a' EA b b' EB c c' EC d d' ED x x' EX. unfold bezier4. rewrite EA, EB, EC, ED, EX. reflexivity. Qed.
#[global] Instance bilinear_m c : Proper (Qeq ==> Qeq ==> Qeq) (bilinear_at c).
Proof. intros u u' EU v v' EV. unfold bilinear_at. rewrite EU, EV. reflexivity. Qed.
#[global] Instance bicubic_m c : Proper (Qeq ==> Qeq ==> Qeq) (bicubic_at c).
Proof. intros u u' EU v v' EV. unfold bicubic_at. rewrite EU, EV. reflexivity. Qed.
#[global] Instance value_m kd p k : Proper (Qeq ==> Qeq ==> Qeq) (value_at kd p k).
Proof.
  intros u u' EU v v' EV. unfold value_at. destruct (p_class p); try reflexivity; try (rewrite EU, EV; reflexivity);
  destruct kd; rewrite EU, EV; reflexivity.
Qed.

(** The part a half shows *)
Definition half_part (u second : bool) : part :=
  if u then mkpart (if second then 1 # 2 else 0) 0 (1 # 2) 1 else mkpart 0 (if second then 1 # 2 else 0) 1 (1 # 2).

Lemma four_controls (p : param Q) k a b c d : four p k a b c d ->
  controls p k 0 = a /\ controls p k 1 = b /\ controls p k 2 = c /\ controls p k 3 = d.
Proof. intros (H0 & H1 & H2 & H3). repeat split; apply rd_controls; assumption. Qed.

Lemma linear_value u (p r1 r2 : param Q) k : List.length (p_vals p) = (4 * p_count p)%nat -> (k < p_count p)%nat ->
  halves num_arith u p r1 r2 ->
  (forall s t, bilinear_at (controls r1 k) s t ==
     bilinear_at (controls p k) (u0 (half_part u false) + du (half_part u false) * s)
                                (v0 (half_part u false) + dv (half_part u false) * t)) /\
  (forall s t, bilinear_at (controls r2 k) s t ==
     bilinear_at (controls p k) (u0 (half_part u true) + du (half_part u true) * s)
                                (v0 (half_part u true) + dv (half_part u true) * t)).
Proof.
  intros HL HK (_ & _ & HH). destruct (four_some p k HL HK) as (a & b & c & d & F). specialize (HH k HK a b c d F).
  destruct (four_controls _ _ _ _ _ _ F) as (C0 & C1 & C2 & C3).
  destruct u; destruct HH as [F1 F2]; apply four_controls in F1; apply four_controls in F2;
  destruct F1 as (D0 & D1 & D2 & D3), F2 as (E0 & E1 & E2 & E3); unfold bilinear_at, half_part, line2;
  rewrite C0, C1, C2, C3, D0, D1, D2, D3, E0, E1, E2, E3; unfold mean; cbn [u0 v0 du dv num_arith e_cast t_mul t_add];
  (split; intros s t; ring).
Qed.

Definition bez (l : list Q) (x : Q) : Q := bezier4 (nth 0 l 0) (nth 1 l 0) (nth 2 l 0) (nth 3 l 0) x.
Lemma bez_first a b c d x : bez (first_half num_arith a b c d) x == bezier4 a b c d ((1 # 2) * x).
Proof. unfold bez, first_half, h2, h4, bezier4. cbn [nth num_arith e_cast e_add t_div t_add]. field. Qed.
Lemma bez_second a b c d x : bez (second_half num_arith a b c d) x == bezier4 a b c d ((1 # 2) + (1 # 2) * x).
Proof. unfold bez, second_half, h2, h4, bezier4. cbn [nth num_arith e_cast e_add t_div t_add]. field. Qed.

(** A bicubic patch by its rows and by its columns *)
Definition patch_of (a0 a1 a2 a3 b0 b1 b2 b3 c0 c1 c2 c3 d0 d1 d2 d3 u v : Q) : Q :=
  bezier4 (bezier4 a0 a1 a2 a3 u) (bezier4 b0 b1 b2 b3 u) (bezier4 c0 c1 c2 c3 u) (bezier4 d0 d1 d2 d3 u) v.
Lemma patch_columns a0 a1 a2 a3 b0 b1 b2 b3 c0 c1 c2 c3 d0 d1 d2 d3 u v :
  patch_of a0 a1 a2 a3 b0 b1 b2 b3 c0 c1 c2 c3 d0 d1 d2 d3 u v ==
  bezier4 (bezier4 a0 b0 c0 d0 v) (bezier4 a1 b1 c1 d1 v) (bezier4 a2 b2 c2 d2 v) (bezier4 a3 b3 c3 d3 v) u.
Proof. unfold patch_of, bezier4. ring. Qed.

Lemma bicubic_columns (c : nat -> Q) u v :
  bicubic_at c u v ==
  bezier4 (bezier4 (c 0%nat) (c 4%nat) (c 8%nat) (c 12%nat) v) (bezier4 (c 1%nat) (c 5%nat) (c 9%nat) (c 13%nat) v)
          (bezier4 (c 2%nat) (c 6%nat) (c 10%nat) (c 14%nat) v) (bezier4 (c 3%nat) (c 7%nat) (c 11%nat) (c 15%nat) v) u.
Proof. exact (patch_columns _ _ _ _ _ _ _ _ _ _ _ _ _ _ _ _ u v). Qed.

Lemma cubic_value u (p r1 r2 : param Q) : p_count p = 1%nat -> List.length (p_vals p) = 16%nat ->
  natural_subdivide_cubic num_arith u p = Some (r1, r2) ->
  (forall s t, bicubic_at (controls r1 0) s t ==
     bicubic_at (controls p 0) (u0 (half_part u false) + du (half_part u false) * s)
                                (v0 (half_part u false) + dv (half_part u false) * t)) /\
  (forall s t, bicubic_at (controls r2 0) s t ==
     bicubic_at (controls p 0) (u0 (half_part u true) + du (half_part u true) * s)
                                (v0 (half_part u true) + dv (half_part u true) * t)).
Proof.
  intros HC HL HE. destruct (sixteen _ HL) as (a0&a1&a2&a3&b0&b1&b2&b3&c0&c1&c2&c3&d0&d1&d2&d3&EL).
  destruct p as [cl ar n l]. cbn in HC, EL. subst n l.
  assert (N : forall x : Q, 0 + 1 * x == x) by (intro; ring). assert (Z : forall x : Q, 0 + x == x) by (intro; ring).
  destruct u; [rewrite cubic_u in HE | rewrite cubic_v in HE]; injection HE as <- <-;
  split; intros s t; cbn [u0 v0 du dv half_part]; rewrite ?N, ?Z.
  - change (bezier4 (bez (first_half num_arith a0 a1 a2 a3) s) (bez (first_half num_arith b0 b1 b2 b3) s)
             (bez (first_half num_arith c0 c1 c2 c3) s) (bez (first_half num_arith d0 d1 d2 d3) s) t ==
            patch_of a0 a1 a2 a3 b0 b1 b2 b3 c0 c1 c2 c3 d0 d1 d2 d3 ((1 # 2) * s) t).
    unfold patch_of. apply bezier4_m; [apply bez_first | apply bez_first | apply bez_first | apply bez_first | reflexivity].
  - change (bezier4 (bez (second_half num_arith a0 a1 a2 a3) s) (bez (second_half num_arith b0 b1 b2 b3) s)
             (bez (second_half num_arith c0 c1 c2 c3) s) (bez (second_half num_arith d0 d1 d2 d3) s) t ==
            patch_of a0 a1 a2 a3 b0 b1 b2 b3 c0 c1 c2 c3 d0 d1 d2 d3 ((1 # 2) + (1 # 2) * s) t).
    unfold patch_of. apply bezier4_m; [apply bez_second | apply bez_second | apply bez_second | apply bez_second | reflexivity].
  - change (bicubic_at (controls (mkparam cl ar 1 (columns4 (first_half num_arith a0 b0 c0 d0) (first_half num_arith a1 b1 c1 d1)
             (first_half num_arith a2 b2 c2 d2) (first_half num_arith a3 b3 c3 d3))) 0) s t ==
            patch_of a0 a1 a2 a3 b0 b1 b2 b3 c0 c1 c2 c3 d0 d1 d2 d3 s ((1 # 2) * t)).
    rewrite patch_columns, bicubic_columns.
    apply bezier4_m; [exact (bez_first a0 b0 c0 d0 t) | exact (bez_first a1 b1 c1 d1 t) | exact (bez_first a2 b2 c2 d2 t) |
                      exact (bez_first a3 b3 c3 d3 t) | reflexivity].
  - change (bicubic_at (controls (mkparam cl ar 1 (columns4 (second_half num_arith a0 b0 c0 d0) (second_half num_arith a1 b1 c1 d1)
             (second_half num_arith a2 b2 c2 d2) (second_half num_arith a3 b3 c3 d3))) 0) s t ==
            patch_of a0 a1 a2 a3 b0 b1 b2 b3 c0 c1 c2 c3 d0 d1 d2 d3 s ((1 # 2) + (1 # 2) * t)).
    rewrite patch_columns, bicubic_columns.
    apply bezier4_m; [exact (bez_second a0 b0 c0 d0 t) | exact (bez_second a1 b1 c1 d1 t) | exact (bez_second a2 b2 c2 d2 t) |
                      exact (bez_second a3 b3 c3 d3 t) | reflexivity].
Qed.

Lemma subdivide_num kd u (p : param Q) : proper kd p -> ~ cubic_array kd p ->
  exists r1 r2, subdivide num_arith kd true u p = Some (r1, r2) /\ alike p r1 /\ alike p r2 /\
    same_variable kd (half_part u false) (VNum p) (VNum r1) /\ same_variable kd (half_part u true) (VNum p) (VNum r2).
Proof.
  intros PR NC. destruct (subdivide_some num_arith kd true u p PR NC) as (r1 & r2 & ES & A1 & A2).
  exists r1, r2. split; [exact ES|]. split; [exact A1|]. split; [exact A2|].
  destruct PR as (P1 & P2 & P3). destruct A1 as (B1 & B2 & B3 & B4), A2 as (D1 & D2 & D3 & D4).
  cbn [same_variable]. rewrite B1, B2, B3, D1, D2, D3.
  enough (V : (forall k s t, (k < p_count p)%nat -> value_at kd r1 k s t ==
                 value_at kd p k (u0 (half_part u false) + du (half_part u false) * s)
                                 (v0 (half_part u false) + dv (half_part u false) * t)) /\
              (forall k s t, (k < p_count p)%nat -> value_at kd r2 k s t ==
                 value_at kd p k (u0 (half_part u true) + du (half_part u true) * s)
                                 (v0 (half_part u true) + dv (half_part u true) * t)))
    by (destruct V as [V1 V2]; split; repeat (split; [reflexivity|]); assumption).
  unfold subdivide in ES. unfold value_at. rewrite B1, D1.
  assert (LIN : List.length (p_vals p) = (4 * p_count p)%nat -> halves num_arith u p r1 r2 ->
    (forall k s t, (k < p_count p)%nat -> bilinear_at (controls r1 k) s t ==
       bilinear_at (controls p k) (u0 (half_part u false) + du (half_part u false) * s)
                                  (v0 (half_part u false) + dv (half_part u false) * t)) /\
    (forall k s t, (k < p_count p)%nat -> bilinear_at (controls r2 k) s t ==
       bilinear_at (controls p k) (u0 (half_part u true) + du (half_part u true) * s)
                                  (v0 (half_part u true) + dv (half_part u true) * t))).
  { intros HL HH. split; intros k s t HK; apply (linear_value u p r1 r2 k HL HK HH). }
  assert (VAR : List.length (p_vals p) = (4 * p_count p)%nat -> subdivide_varying num_arith u p = Some (r1, r2) ->
                halves num_arith u p r1 r2).
  { intros HL EV. destruct (varying_halves num_arith u p P1 P2 HL) as (q1 & q2 & EQ & HH). rewrite EV in EQ.
    injection EQ as <- <-. exact HH. }
  assert (NAT : List.length (p_vals p) = (4 * p_count p)%nat -> natural_subdivide_linear num_arith u p = Some (r1, r2) ->
                halves num_arith u p r1 r2).
  { intros HL EV. destruct (natural_halves num_arith u p P1 HL) as (q1 & q2 & EQ & HH). rewrite EV in EQ.
    injection EQ as <- <-. exact HH. }
  destruct (p_class p) eqn:CL; cbn [needed] in P3.
  - injection ES as <- <-. split; intros; reflexivity.
  - injection ES as <- <-. split; intros; reflexivity.
  - apply LIN; [exact P3 | apply VAR; assumption].
  - apply LIN; [exact P3 | apply VAR; assumption].
  - destruct (p_array p) eqn:AR.
    + destruct kd; [apply LIN; [exact P3 | apply VAR; assumption]|].
      exfalso. apply NC. split; [reflexivity|]. split; [exact AR | left; exact CL].
    + destruct kd; [apply LIN; [exact P3 | apply NAT; assumption]|].
      specialize (P2 eq_refl). rewrite P2 in *.
      destruct (cubic_value u p r1 r2 P2) as [V1 V2]; [rewrite P3; reflexivity | exact ES |].
      split; intros k s t HK; (replace k with 0%nat by lia); auto.
  - destruct (p_array p) eqn:AR.
    + destruct kd; [apply LIN; [exact P3 | apply VAR; assumption]|].
      exfalso. apply NC. split; [reflexivity|]. split; [exact AR | right; exact CL].
    + destruct kd; [apply LIN; [exact P3 | apply NAT; assumption]|].
      specialize (P2 eq_refl). rewrite P2 in *.
      destruct (cubic_value u p r1 r2 P2) as [V1 V2]; [rewrite P3; reflexivity | exact ES |].
      split; intros k s t HK; (replace k with 0%nat by lia); auto.
Qed.

(** ** Splitting a patch *)
Lemma subdivide_var_some kd u x : proper_var kd x ->
  exists a b, subdivide_var kd u x = Some (a, b) /\ proper_var kd a /\ proper_var kd b /\
    same_variable kd (half_part u false) x a /\ same_variable kd (half_part u true) x b.
Proof.
  destruct x as [p|p|p|p]; cbn [proper_var subdivide_var]; intros [PR NC].
  - destruct (subdivide_num kd u p PR NC) as (r1 & r2 & -> & A1 & A2 & S1 & S2). exists (VNum r1), (VNum r2).
    split; [reflexivity|]. split; [exact (conj (alike_proper _ _ _ A1 PR) (alike_array _ _ _ A1 NC))|].
    split; [exact (conj (alike_proper _ _ _ A2 PR) (alike_array _ _ _ A2 NC))|]. split; assumption.
  - destruct (subdivide_some int_arith kd true u p PR NC) as (r1 & r2 & -> & A1 & A2). exists (VInt r1), (VInt r2).
    split; [reflexivity|]. split; [exact (conj (alike_proper _ _ _ A1 PR) (alike_array _ _ _ A1 NC))|].
    split; [exact (conj (alike_proper _ _ _ A2 PR) (alike_array _ _ _ A2 NC))|]. split; exact I.
  - destruct (subdivide_some str_arith kd true u p PR NC) as (r1 & r2 & -> & A1 & A2). exists (VStr r1), (VStr r2).
    split; [reflexivity|]. split; [exact (conj (alike_proper _ _ _ A1 PR) (alike_array _ _ _ A1 NC))|].
    split; [exact (conj (alike_proper _ _ _ A2 PR) (alike_array _ _ _ A2 NC))|]. split; exact I.
  - destruct (subdivide_some mat_arith kd false u p PR NC) as (r1 & r2 & -> & A1 & A2). exists (VMat r1), (VMat r2).
    split; [reflexivity|]. split; [exact (conj (alike_proper _ _ _ A1 PR) (alike_array _ _ _ A1 NC))|].
    split; [exact (conj (alike_proper _ _ _ A2 PR) (alike_array _ _ _ A2 NC))|]. split; exact I.
Qed.

Lemma subdivide_vars_some kd u l : Forall (proper_var kd) l ->
  exists a b, subdivide_vars kd u l = Some (a, b) /\ Forall (proper_var kd) a /\ Forall (proper_var kd) b /\
    Forall2 (same_variable kd (half_part u false)) l a /\ Forall2 (same_variable kd (half_part u true)) l b.
Proof.
  induction 1 as [|x l HX HL (a & b & E & PA & PB & SA & SB)].
  - exists nil, nil. repeat split; constructor.
  - destruct (subdivide_var_some kd u x HX) as (xa & xb & EX & PXA & PXB & SXA & SXB).
    exists (xa :: a), (xb :: b). cbn [subdivide_vars]. rewrite EX, E. split; [reflexivity|].
    repeat split; constructor; assumption.
Qed.

(** A part of a part *)
Definition comp (r r' : part) : part :=
  mkpart (u0 r + du r * u0 r') (v0 r + dv r * v0 r') (du r * du r') (dv r * dv r').

Lemma same_comp kd r r' x y z : same_variable kd r x y -> same_variable kd r' y z -> same_variable kd (comp r r') x z.
Proof.
  destruct x as [p|p|p|p], y as [q|q|q|q]; try contradiction; destruct z as [w|w|w|w]; try contradiction; cbn [same_variable]; auto.
  intros (A1 & A2 & A3 & A4) (B1 & B2 & B3 & B4). split; [congruence|]. split; [congruence|]. split; [congruence|].
  intros k s t HK. rewrite B4 by lia. rewrite A4 by exact HK. cbn [comp u0 v0 du dv].
  apply value_m; ring.
Qed.
Lemma same_vars_comp kd r r' l m n :
  Forall2 (same_variable kd r) l m -> Forall2 (same_variable kd r') m n -> Forall2 (same_variable kd (comp r r')) l n.
Proof.
  intro H. revert n. induction H as [|x y l m HX H IH]; intros n HN; inversion HN; subst; constructor.
  - eapply same_comp; eassumption.
  - apply IH. assumption.
Qed.
Lemma Qmul_pos (a b : Q) : 0 < a -> 0 < b -> 0 < a * b.
Proof. intros. rewrite <- (Qmult_0_r a). apply Qmult_lt_l; assumption. Qed.

Lemma shows_comp s r a r' b : shows s r a -> shows a r' b -> shows s (comp r r') b.
Proof.
  intros (K1 & D1 & E1 & F1) (K2 & D2 & E2 & F2). split; [congruence|].
  split; [cbn; apply Qmul_pos; assumption|]. split; [cbn; apply Qmul_pos; assumption|].
  apply (same_vars_comp _ r r' _ (s_vars a)); [exact F1|]. rewrite <- K1. exact F2.
Qed.

Lemma covers_comp tri r r' u v :
  covers tri (comp r r') u v <-> exists x y, u == u0 r + du r * x /\ v == v0 r + dv r * y /\ covers tri r' x y.
Proof.
  split.
  - intros (s & t & HS & HT & TR & EU & EV). cbn in EU, EV. exists (u0 r' + du r' * s), (v0 r' + dv r' * t).
    split; [rewrite EU; ring|]. split; [rewrite EV; ring|]. exists s, t. repeat (split; [assumption|]). split; reflexivity.
  - intros (x & y & EU & EV & (s & t & HS & HT & TR & EX & EY)). exists s, t. repeat (split; [assumption|]). cbn.
    split; [rewrite EU, EX; ring | rewrite EV, EY; ring].
Qed.
Lemma inside_comp tri r r' u v :
  covers_inside tri (comp r r') u v <-> exists x y, u == u0 r + du r * x /\ v == v0 r + dv r * y /\ covers_inside tri r' x y.
Proof.
  split.
  - intros (s & t & HS & HT & TR & EU & EV). cbn in EU, EV. exists (u0 r' + du r' * s), (v0 r' + dv r' * t).
    split; [rewrite EU; ring|]. split; [rewrite EV; ring|]. exists s, t. repeat (split; [assumption|]). split; reflexivity.
  - intros (x & y & EU & EV & (s & t & HS & HT & TR & EX & EY)). exists s, t. repeat (split; [assumption|]). cbn.
    split; [rewrite EU, EX; ring | rewrite EV, EY; ring].
Qed.
Lemma whole_part tri r u v :
  covers tri r u v <-> exists x y, u == u0 r + du r * x /\ v == v0 r + dv r * y /\ covers tri whole x y.
Proof.
  split.
  - intros (s & t & HS & HT & TR & EU & EV). exists s, t. split; [exact EU|]. split; [exact EV|].
    exists s, t. repeat (split; [assumption|]). cbn. split; ring.
  - intros (x & y & EU & EV & (s & t & HS & HT & TR & EX & EY)). cbn in EX, EY. exists s, t. repeat (split; [assumption|]).
    split; [rewrite EU, EX; ring | rewrite EV, EY; ring].
Qed.
Lemma whole_inside tri r u v :
  covers_inside tri r u v <-> exists x y, u == u0 r + du r * x /\ v == v0 r + dv r * y /\ covers_inside tri whole x y.
Proof.
  split.
  - intros (s & t & HS & HT & TR & EU & EV). exists s, t. split; [exact EU|]. split; [exact EV|].
    exists s, t. repeat (split; [assumption|]). cbn. split; ring.
  - intros (x & y & EU & EV & (s & t & HS & HT & TR & EX & EY)). cbn in EX, EY. exists s, t. repeat (split; [assumption|]).
    split; [rewrite EU, EX; ring | rewrite EV, EY; ring].
Qed.
Lemma inside_eq tri r u v u' v' : u == u' -> v == v' -> covers_inside tri r u v -> covers_inside tri r u' v'.
Proof.
  intros EU EV (s & t & HS & HT & TR & A1 & A2). exists s, t. repeat (split; [assumption|]). rewrite <- EU, <- EV. split; assumption.
Qed.
Lemma same_coordinate (a d x y : Q) : 0 < d -> a + d * x == a + d * y -> x == y.
Proof.
  intros HD E. assert (E2 : d * x == d * y) by lra. apply (Qmult_inj_l x y d); [lra | exact E2].
Qed.

(** Pieces with their parts *)
Notation piece := (part * patch)%type.
Definition apart (p q : piece) : Prop :=
  forall u v, covers_inside (s_phantom (snd p)) (fst p) u v -> covers_inside (s_phantom (snd q)) (fst q) u v -> False.
Definition sound (s : patch) (q : piece) : Prop :=
  shows s (fst q) (snd q) /\ proper_patch (snd q) /\
  forall u v, covers_inside (s_phantom (snd q)) (fst q) u v -> covers_inside (s_phantom s) whole u v.
Definition good (s : patch) (ps : list piece) : Prop :=
  Forall (sound s) ps /\
  (forall u v, covers (s_phantom s) whole u v <-> Exists (fun q : piece => covers (s_phantom (snd q)) (fst q) u v) ps) /\
  ForallOrdPairs apart ps.

Definition under (q : piece) (l : list piece) : list piece := map (fun x : piece => (comp (fst q) (fst x), snd x)) l.
Fixpoint refine_all (ps : list piece) (ls : list (list piece)) : list piece :=
  match ps, ls with q :: ps, l :: ls => (under q l ++ refine_all ps ls)%list | _, _ => nil end.

Lemma under_sound s q l : sound s q -> good (snd q) l -> Forall (sound s) (under q l).
Proof.
  intros (SH & PR & IN) (GS & _). unfold under. apply Forall_map. eapply Forall_impl; [|exact GS].
  intros x (SX & PX & IX). cbn [fst snd]. split; [eapply shows_comp; eassumption|]. split; [exact PX|].
  cbn [fst snd]. intros u v H. apply inside_comp in H. destruct H as (x' & y' & EU & EV & H). apply IN. apply whole_inside.
  exists x', y'. split; [exact EU|]. split; [exact EV|]. apply IX. exact H.
Qed.

Lemma under_covers q l u v : good (snd q) l ->
  (covers (s_phantom (snd q)) (fst q) u v <-> Exists (fun x : piece => covers (s_phantom (snd x)) (fst x) u v) (under q l)).
Proof.
  intros (_ & GC & _). rewrite whole_part. unfold under. rewrite Exists_map. cbn [fst snd]. split.
  - intros (x & y & EU & EV & H). apply GC in H. eapply Exists_impl; [|exact H]. intros z HZ. cbv beta. apply covers_comp.
    exists x, y. repeat (split; [assumption|]). exact HZ.
  - intro H. apply Exists_exists in H. destruct H as (z & IZ & HZ). apply covers_comp in HZ. destruct HZ as (x & y & EU & EV & HZ).
    exists x, y. split; [exact EU|]. split; [exact EV|]. apply GC. apply Exists_exists. exists z. split; assumption.
Qed.

Lemma under_inside q l u v : good (snd q) l -> forall x, In x (under q l) ->
  covers_inside (s_phantom (snd x)) (fst x) u v -> covers_inside (s_phantom (snd q)) (fst q) u v.
Proof.
  intros (GS & _) x HX H. unfold under in HX. apply in_map_iff in HX. destruct HX as (z & <- & HZ). cbn [fst snd] in H.
  apply inside_comp in H. destruct H as (a & b & EU & EV & H). apply whole_inside. exists a, b. split; [exact EU|]. split; [exact EV|].
  rewrite Forall_forall in GS. destruct (GS z HZ) as (_ & _ & IN). apply IN. exact H.
Qed.

Lemma FOP_app {X} (R : X -> X -> Prop) (l m : list X) :
  ForallOrdPairs R l -> ForallOrdPairs R m -> (forall x y, In x l -> In y m -> R x y) -> ForallOrdPairs R (l ++ m).
Proof.
  induction 1 as [|x l HX H IH]; intros HM HC; [exact HM|]. cbn. constructor.
  - apply Forall_app. split; [exact HX|]. apply Forall_forall. intros y HY. apply HC; [left; reflexivity | exact HY].
  - apply IH; [exact HM|]. intros y z HY HZ. apply HC; [right; exact HY | exact HZ].
Qed.
Lemma FOP_map {X Y} (f : X -> Y) (R : Y -> Y -> Prop) (l : list X) :
  ForallOrdPairs (fun a b => R (f a) (f b)) l -> ForallOrdPairs R (map f l).
Proof. induction 1 as [|x l HX H IH]; cbn; constructor; [apply Forall_map; exact HX | exact IH]. Qed.
Lemma FOP_impl {X} (R R' : X -> X -> Prop) (l : list X) : (forall x y, R x y -> R' x y) ->
  ForallOrdPairs R l -> ForallOrdPairs R' l.
Proof. intros HI. induction 1 as [|x l HX H IH]; constructor; [eapply Forall_impl; [|exact HX]; auto | exact IH]. Qed.

Lemma under_apart s q l : sound s q -> good (snd q) l -> ForallOrdPairs apart (under q l).
Proof.
  intros ((_ & DU & DV & _) & _) (_ & _ & GA). unfold under. apply FOP_map. eapply FOP_impl; [|exact GA].
  intros x y HA u v. cbn [fst snd]. intros H1 H2. apply inside_comp in H1. apply inside_comp in H2.
  destruct H1 as (a & b & E1 & E2 & H1), H2 as (a' & b' & E3 & E4 & H2).
  apply (HA a b H1). apply (inside_eq _ _ a' b').
  - apply (same_coordinate (u0 (fst q)) (du (fst q)) a' a DU). rewrite <- E1, <- E3. reflexivity.
  - apply (same_coordinate (v0 (fst q)) (dv (fst q)) b' b DV). rewrite <- E2, <- E4. reflexivity.
  - exact H2.
Qed.

Lemma good_refine s ps ls : good s ps -> Forall2 (fun q l => good (snd q) l) ps ls -> good s (refine_all ps ls).
Proof.
  intros (GS & GC & GA) HF. split; [|split].
  - clear GC GA. induction HF as [|q l ps ls HQ HF IH]; [constructor|]. inversion GS; subst. cbn. apply Forall_app.
    split; [apply under_sound; assumption | apply IH; assumption].
  - intros u v. rewrite GC. clear GC GA GS. induction HF as [|q l ps ls HQ HF IH]; [reflexivity|].
    cbn. rewrite Exists_app, Exists_cons, IH, (under_covers q l u v HQ). reflexivity.
  - clear GC. assert (SUB : forall ps ls, Forall2 (fun q l => good (snd q) l) ps ls -> forall y u v, In y (refine_all ps ls) ->
      covers_inside (s_phantom (snd y)) (fst y) u v -> exists q : piece, In q ps /\ covers_inside (s_phantom (snd q)) (fst q) u v).
    { clear. induction 1 as [|q l ps ls HQ HF IH]; intros y u v HY HC; [destruct HY|]. cbn in HY. apply in_app_or in HY.
      destruct HY as [HY|HY].
      - exists q. split; [left; reflexivity|]. exact (under_inside q l u v HQ y HY HC).
      - destruct (IH y u v HY HC) as (q' & HI & HC'). exists q'. split; [right; exact HI | exact HC']. }
    induction HF as [|q l ps ls HQ HF IH]; [constructor|]. inversion GS; subst. inversion GA; subst. cbn. apply FOP_app.
    + eapply under_apart; eassumption.
    + apply IH; assumption.
    + intros x y HX HY u v CX CY. destruct (SUB ps ls HF y u v HY CY) as (q' & HI & CQ).
      match goal with H : Forall (apart q) ps |- _ => rewrite Forall_forall in H; apply (H q' HI u v) end.
      * exact (under_inside q l u v HQ x HX CX).
      * exact CQ.
Qed.

(** The halves of a patch that is no triangle *)
Lemma halves_cover u a b :
  covers false whole a b <-> covers false (half_part u false) a b \/ covers false (half_part u true) a b.
Proof.
  split.
  - intros (s & t & HS & HT & _ & EU & EV). cbn in EU, EV. destruct u; cbn [half_part].
    + destruct (Qlt_le_dec s (1 # 2)) as [L|L]; [left; exists (2 * s), t | right; exists (2 * s - 1), t]; cbn [u0 v0 du dv];
      (split; [split; lra|]); (split; [exact HT|]); (split; [discriminate|]); split; rewrite ?EU, ?EV; ring.
    + destruct (Qlt_le_dec t (1 # 2)) as [L|L]; [left; exists s, (2 * t) | right; exists s, (2 * t - 1)]; cbn [u0 v0 du dv];
      (split; [exact HS|]); (split; [split; lra|]); (split; [discriminate|]); split; rewrite ?EU, ?EV; ring.
  - intros [(s & t & HS & HT & _ & EU & EV)|(s & t & HS & HT & _ & EU & EV)]; destruct u; cbn [half_part u0 v0 du dv] in EU, EV;
    exists a, b; cbn [whole u0 v0 du dv]; (split; [split; lra|]); (split; [split; lra|]); (split; [discriminate|]); split; ring.
Qed.
Lemma halves_inside u second a b : covers_inside false (half_part u second) a b -> covers_inside false whole a b.
Proof.
  intros (s & t & HS & HT & _ & EU & EV). destruct u, second; cbn [half_part u0 v0 du dv] in EU, EV;
  exists a, b; cbn [whole u0 v0 du dv]; (split; [split; lra|]); (split; [split; lra|]); (split; [discriminate|]); split; ring.
Qed.
Lemma halves_apart u a b :
  covers_inside false (half_part u false) a b -> covers_inside false (half_part u true) a b -> False.
Proof.
  intros (s & t & HS & HT & _ & EU & EV) (s' & t' & HS' & HT' & _ & EU' & EV').
  destruct u; cbn [half_part u0 v0 du dv] in *; lra.
Qed.
Lemma half_positive u second : 0 < du (half_part u second) /\ 0 < dv (half_part u second).
Proof. destruct u, second; cbn; split; lra. Qed.

Lemma good_halves s a b :
  s_phantom s = false -> s_phantom a = false -> s_phantom b = false -> s_kind a = s_kind s -> s_kind b = s_kind s ->
  forall u, Forall (proper_var (s_kind s)) (s_vars a) -> Forall (proper_var (s_kind s)) (s_vars b) ->
  Forall2 (same_variable (s_kind s) (half_part u false)) (s_vars s) (s_vars a) ->
  Forall2 (same_variable (s_kind s) (half_part u true)) (s_vars s) (s_vars b) ->
  good s [(half_part u false, a); (half_part u true, b)].
Proof.
  intros PS PA PB KA KB u VA VB SA SB. split; [|split].
  - repeat constructor; cbn [fst snd]; try (apply half_positive); try assumption; try (rewrite ?KA, ?KB; assumption);
    try (intros; congruence); rewrite ?PS, ?PA, ?PB; apply halves_inside.
  - intros x y. rewrite PS, (halves_cover u x y), !Exists_cons, Exists_nil. cbn [fst snd]. rewrite PA, PB. tauto.
  - repeat constructor. intros x y. cbn [fst snd]. rewrite PA, PB. apply halves_apart.
Qed.

Lemma split_once_good s : proper_patch s -> s_phantom s = false ->
  exists a b u, split_once s = Some [a; b] /\ good s [(half_part u false, a); (half_part u true, b)] /\
    s_phantom a = false /\ s_phantom b = false /\ s_kind a = s_kind s /\ s_kind b = s_kind s.
Proof.
  intros [PV PK] PH. destruct (subdivide_vars_some (s_kind s) (s_dir s) (s_vars s) PV) as (a & b & E & PA & PB & SA & SB).
  unfold split_once. rewrite E. cbn [bind].
  do 2 eexists. exists (s_dir s). split; [reflexivity|]. split; [|repeat split]. apply good_halves; try reflexivity; assumption.
Qed.

(** The three pieces of a triangle: the square at its corner and two triangles *)
Lemma tri_cover u a b :
  covers true whole a b <->
  covers false (comp (half_part u false) (half_part (negb u) false)) a b \/
  covers true (comp (half_part u false) (half_part (negb u) true)) a b \/
  covers true (comp (half_part u true) (half_part (negb u) false)) a b.
Proof.
  split.
  - intros (s & t & HS & HT & TR & EU & EV). cbn in EU, EV. specialize (TR eq_refl).
    assert (CASES : (s <= 1 # 2 /\ t <= 1 # 2) \/ (s <= 1 # 2 /\ (1 # 2) < t) \/ ((1 # 2) < s /\ t <= 1 # 2)).
    { destruct (Qlt_le_dec (1 # 2) s), (Qlt_le_dec (1 # 2) t); try (exfalso; lra); auto. }
    destruct CASES as [[L1 L2]|[[L1 L2]|[L1 L2]]].
    + left. exists (2 * s), (2 * t). destruct u; cbn [comp half_part negb u0 v0 du dv];
      (split; [split; lra|]); (split; [split; lra|]); (split; [discriminate|]); split; rewrite ?EU, ?EV; ring.
    + right. destruct u; [left | right]; exists (2 * s), (2 * t - 1); cbn [comp half_part negb u0 v0 du dv];
      (split; [split; lra|]); (split; [split; lra|]); (split; [intros _; lra|]); split; rewrite ?EU, ?EV; ring.
    + right. destruct u; [right | left]; exists (2 * s - 1), (2 * t); cbn [comp half_part negb u0 v0 du dv];
      (split; [split; lra|]); (split; [split; lra|]); (split; [intros _; lra|]); split; rewrite ?EU, ?EV; ring.
  - intros [(s & t & HS & HT & TR & EU & EV)|[(s & t & HS & HT & TR & EU & EV)|(s & t & HS & HT & TR & EU & EV)]];
    destruct u; cbn [comp half_part negb u0 v0 du dv] in EU, EV; try specialize (TR eq_refl);
    exists a, b; cbn [whole u0 v0 du dv]; (split; [split; lra|]); (split; [split; lra|]); (split; [intros _; lra|]); split; ring.
Qed.
Lemma tri_inside u f g tri a b : (f = true -> g = true -> False) -> (tri = false -> f = false /\ g = false) ->
  covers_inside tri (comp (half_part u f) (half_part (negb u) g)) a b -> covers_inside true whole a b.
Proof.
  intros NB TS (s & t & HS & HT & TR & EU & EV).
  assert (TT : tri = true \/ (f = false /\ g = false)) by (destruct tri; auto).
  destruct f, g; try (exfalso; auto; fail); destruct u; cbn [comp half_part negb u0 v0 du dv] in EU, EV;
  (destruct TT as [TT|[T1 T2]]; [specialize (TR TT) | try discriminate]);
  exists a, b; cbn [whole u0 v0 du dv]; (split; [split; lra|]); (split; [split; lra|]); (split; [intros _; lra|]); split; ring.
Qed.
Lemma tri_apart u f g f' g' tri tri' a b : f <> f' \/ g <> g' ->
  covers_inside tri (comp (half_part u f) (half_part (negb u) g)) a b ->
  covers_inside tri' (comp (half_part u f') (half_part (negb u) g')) a b -> False.
Proof.
  intros NE (s & t & HS & HT & _ & EU & EV) (s' & t' & HS' & HT' & _ & EU' & EV').
  destruct u, f, g, f', g'; cbn [comp half_part negb u0 v0 du dv] in *; try lra; destruct NE; congruence.
Qed.

Lemma split_good s : proper_patch s -> exists ps, split_patch s = Some (map snd ps) /\ good s ps.
Proof.
  intros PP. assert (PP0 := PP). destruct PP0 as [PV PK]. unfold split_patch. destruct (s_kind s) eqn:KD.
  - unfold split_bilinear. rewrite <- KD.
    destruct (subdivide_vars_some (s_kind s) (s_dir s) (s_vars s)) as (a & b & E & PA & PB & SA & SB); [rewrite KD; exact PV|].
    rewrite E. cbn [bind]. destruct (s_phantom s) eqn:PH.
    + destruct (subdivide_vars_some (s_kind s) (negb (s_dir s)) a PA) as (c & d & E1 & PC & PD & SC & SD).
      destruct (subdivide_vars_some (s_kind s) (negb (s_dir s)) b PB) as (e & f & E2 & PE & PF & SE & SF).
      rewrite E1, E2. cbn [bind removelast].
      set (u := s_dir s) in *.
      exists [(comp (half_part u false) (half_part (negb u) false), mkpatch (s_kind s) false (negb u) true (Datatypes.S (s_splits s)) c);
              (comp (half_part u false) (half_part (negb u) true), mkpatch (s_kind s) true (negb u) true (Datatypes.S (s_splits s)) d);
              (comp (half_part u true) (half_part (negb u) false), mkpatch (s_kind s) true (negb u) true (Datatypes.S (s_splits s)) e)].
      split; [reflexivity|].
      assert (POS : forall f g, 0 < du (comp (half_part u f) (half_part (negb u) g)) /\ 0 < dv (comp (half_part u f) (half_part (negb u) g))).
      { intros f0 g0. cbn. destruct (half_positive u f0), (half_positive (negb u) g0). split; apply Qmul_pos; assumption. }
      assert (SV : forall f g l m n, Forall2 (same_variable (s_kind s) (half_part u f)) l m ->
                 Forall2 (same_variable (s_kind s) (half_part (negb u) g)) m n ->
                 Forall2 (same_variable (s_kind s) (comp (half_part u f) (half_part (negb u) g))) l n)
        by (intros; eapply same_vars_comp; eassumption).
      split; [|split].
      * constructor; [|constructor; [|constructor; [|constructor]]]; split; cbn [fst snd s_phantom s_kind s_vars];
        try (split; [reflexivity|]; split; [apply POS|]; split; [apply POS|]; eapply SV; eassumption);
        (split; [split; [assumption | cbn; rewrite KD; discriminate]|]); intros x y; rewrite PH; apply tri_inside;
        try discriminate; auto.
      * intros x y. rewrite PH, (tri_cover u x y), !Exists_cons, Exists_nil. cbn [fst snd s_phantom]. tauto.
      * constructor; [|constructor; [|constructor; constructor]].
        -- constructor; [|constructor; [|constructor]]; intros x y; cbn [fst snd s_phantom]; apply tri_apart; [right | left]; discriminate.
        -- constructor; [|constructor]. intros x y. cbn [fst snd s_phantom]. apply tri_apart. left. discriminate.
    + exists [(half_part (s_dir s) false, mkpatch (s_kind s) false (negb (s_dir s)) true (Datatypes.S (s_splits s)) a);
              (half_part (s_dir s) true, mkpatch (s_kind s) false (negb (s_dir s)) true (Datatypes.S (s_splits s)) b)].
      split; [reflexivity|]. apply good_halves; try reflexivity; assumption.
  - specialize (PK eq_refl). unfold split_bicubic.
    destruct (split_once_good s) as (a & b & u & E & G & PA & PB & KA & KB); [split; [rewrite KD; exact PV | intros _; exact PK] | exact PK|].
    rewrite E. cbn [bind]. destruct (s_diceable s).
    + exists [(half_part u false, a); (half_part u true, b)]. split; [reflexivity | exact G].
    + assert (GA := G). destruct GA as (GS & _). inversion GS as [|? ? (_ & PRA & _) GS']; subst.
      inversion GS' as [|? ? (_ & PRB & _) _]; subst. cbn [snd] in PRA, PRB.
      destruct (split_once_good a PRA PA) as (a1 & a2 & u1 & E1 & G1 & _).
      destruct (split_once_good b PRB PB) as (b1 & b2 & u2 & E2 & G2 & _).
      rewrite E1, E2. cbn [bind].
      exists (refine_all [(half_part u false, a); (half_part u true, b)]
               [[(half_part u1 false, a1); (half_part u1 true, a2)]; [(half_part u2 false, b1); (half_part u2 true, b2)]]).
      split; [reflexivity|]. apply good_refine; [exact G|]. constructor; [exact G1 | constructor; [exact G2 | constructor]].
Qed.

Lemma good_whole s : proper_patch s -> good s [(whole, s)].
Proof.
  intro PP. split; [|split].
  - constructor; [|constructor]. split; [|split; [exact PP | intros u v H; exact H]]. cbn [fst snd].
    split; [reflexivity|]. split; [cbn; lra|]. split; [cbn; lra|].
    induction (s_vars s) as [|x l IH]; constructor; [|exact IH].
    destruct x; cbn [same_variable]; auto. repeat (split; [reflexivity|]). intros k a b HK. apply value_m; cbn; ring.
  - intros u v. rewrite Exists_cons, Exists_nil. cbn [fst snd]. tauto.
  - repeat constructor.
Qed.

Lemma split_all_good t : forall s, proper_patch s -> exists ps, split_all t s = Some (map snd ps) /\ good s ps.
Proof.
  induction t as [|dir dc ch IH]; intros s PP.
  - exists [(whole, s)]. split; [reflexivity | apply good_whole; exact PP].
  - destruct (split_good (prepare dir dc s)) as (ps & E & G); [exact PP|].
    cbn [split_all]. rewrite E. cbn [bind].
    assert (GO : forall n, exists ls, Forall2 (fun q l => good (snd q) l) ps ls /\
      (fix go (n : nat) (l : list patch) : option (list patch) :=
         match l with
         | nil => Some nil
         | c :: l => bind (split_all (ch n) c) (fun a => bind (go (Datatypes.S n) l) (fun b => Some (a ++ b)%list))
         end) n (map snd ps) = Some (map snd (refine_all ps ls))).
    { destruct G as (GS & _). clear E. induction GS as [|q ps (_ & PQ & _) GS IHP]; intro n.
      - exists nil. split; [constructor | reflexivity].
      - destruct (IH n (snd q) PQ) as (l & EL & GL). destruct (IHP (Datatypes.S n)) as (ls & FL & EG).
        exists (l :: ls). split; [constructor; assumption|]. cbn [map]. rewrite EL. cbn [bind]. rewrite EG. cbn [bind refine_all].
        unfold under. rewrite map_app, map_map. cbn [snd]. reflexivity. }
    destruct (GO 0%nat) as (ls & FL & EG). exists (refine_all ps ls). split; [exact EG|].
    exact (good_refine _ ps ls G FL).
Qed.

Lemma FOP_nth {X} (R : X -> X -> Prop) (l : list X) : ForallOrdPairs R l -> forall n m x y, (n < m)%nat ->
  nth_error l n = Some x -> nth_error l m = Some y -> R x y.
Proof.
  induction 1 as [|a l HA H IH]; intros n m x y HN HX HY; [destruct n; discriminate|].
  destruct m as [|m]; [lia|]. cbn in HY. destruct n as [|n].
  - cbn in HX. injection HX as <-. rewrite Forall_forall in HA. apply HA. exact (nth_error_In _ _ HY).
  - cbn in HX. apply (IH n m); [lia | assumption | assumption].
Qed.

Lemma good_make_up s ps : good s ps -> make_up s (map fst ps) (map snd ps).
Proof.
  intros (GS & GC & GA).
  assert (NTH : forall n r a, nth_error (map fst ps) n = Some r -> nth_error (map snd ps) n = Some a -> nth_error ps n = Some (r, a)).
  { intros n r a H1 H2. rewrite nth_error_map in H1, H2. destruct (nth_error ps n) as [[r' a']|]; cbn in *; congruence. }
  split; [|split].
  - clear -GS. induction GS as [|q ps (SH & _) GS IH]; cbn; constructor; assumption.
  - intros u v. rewrite GC. split.
    + intro H. apply Exists_exists in H. destruct H as ([r a] & HI & HC). apply In_nth_error in HI. destruct HI as (n & HN).
      exists n, r, a. split; [rewrite nth_error_map, HN; reflexivity|]. split; [rewrite nth_error_map, HN; reflexivity | exact HC].
    + intros (n & r & a & H1 & H2 & HC). apply Exists_exists. exists (r, a). split; [exact (nth_error_In _ _ (NTH n r a H1 H2)) | exact HC].
  - intros n m r r' a b u v NE H1 H2 H3 H4 I1 I2. assert (N1 := NTH _ _ _ H1 H2). assert (N2 := NTH _ _ _ H3 H4).
    assert (LT : (n < m \/ m < n)%nat) by lia. destruct LT as [LT|LT].
    + exact (FOP_nth _ _ GA n m _ _ LT N1 N2 u v I1 I2).
    + exact (FOP_nth _ _ GA m n _ _ LT N2 N1 u v I2 I1).
Qed.

Lemma split_all_makes_up t s : proper_patch s -> exists l rs, split_all t s = Some l /\ make_up s rs l /\ Forall proper_patch l.
Proof.
  intro PP. destruct (split_all_good t s PP) as (ps & E & G). exists (map snd ps), (map fst ps). split; [exact E|].
  split; [apply good_make_up; exact G|]. destruct G as (GS & _). apply Forall_map. eapply Forall_impl; [|exact GS].
  intros q (_ & PQ & _). exact PQ.
Qed.

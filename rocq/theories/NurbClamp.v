(** Proofs about clamping trim curves. *)

From Coq Require Import List Arith Bool QArith ZArith Lia Lqa Setoid.
From Verif Require Import TrimModel NurbModel NurbSpec NurbProofs NurbMath.
Import ListNotations.
Local Open Scope nat_scope.

(** * Vectors as functions *)

Definition is {A} (l : list A) (N : Z) (g : Z -> A) : Prop :=
  Z.of_nat (List.length l) = N /\ forall i, (0 <= i < N)%Z -> get l i = Some (g i).

Lemma is_ext : forall A (l : list A) N g h, is l N g -> (forall i, (0 <= i < N)%Z -> g i = h i) -> is l N h.
Proof. intros A l N g h [L G] E. split; auto. intros i I. rewrite <- E by auto. auto. Qed.

Lemma is_any : forall A (d : A) l, is l (Z.of_nat (List.length l)) (fun i => nth (Z.to_nat i) l d).
Proof.
  intros A d l. split; auto. intros i I. unfold get. destruct (Z.ltb_spec i 0); [lia|].
  apply nth_error_nth'. lia.
Qed.

Lemma put_is : forall A (l : list A) N g i x, is l N g -> (0 <= i < N)%Z ->
  exists l', put l i x = Some l' /\ is l' N (fun m => if Z.eqb m i then x else g m).
Proof.
  intros A l N g i x [L G] I. unfold put. destruct (Z.ltb_spec i 0); [lia|].
  destruct (Nat.ltb_spec (Z.to_nat i) (List.length l)); [|lia].
  eexists. split; [reflexivity|]. 
  assert (F : List.length (firstn (Z.to_nat i) l) = Z.to_nat i) by (apply firstn_length_le; lia).
  split.
  - rewrite app_length, F. cbn [List.length]. rewrite skipn_length. lia.
  - intros m M. specialize (G m M). unfold get in *. destruct (Z.ltb_spec m 0); [lia|].
    destruct (Z.eqb_spec m i) as [->|D].
    + rewrite nth_error_app2 by lia. rewrite F, Nat.sub_diag. reflexivity.
    + destruct (Z.lt_ge_cases m i).
      * rewrite nth_error_app1 by lia. rewrite <- G.
        rewrite <- (firstn_skipn (Z.to_nat i) l) at 2. rewrite nth_error_app1 by lia. reflexivity.
      * rewrite nth_error_app2 by lia. rewrite F.
        replace (Z.to_nat m - Z.to_nat i) with (Datatypes.S (Z.to_nat m - (Z.to_nat i + 1))) by lia.
        cbn [nth_error]. rewrite <- G. rewrite <- (firstn_skipn (Z.to_nat i + 1) l) at 2.
        rewrite nth_error_app2; rewrite firstn_length_le by lia; [reflexivity|lia].
Qed.

(** A loop that fills a part of a vector. *)
Lemma fill : forall A (f : Z -> list A -> option (list A)) v d N n i0 K g,
  is K N g ->
  (forall i K', (i0 <= i < i0 + Z.of_nat n)%Z -> f i K' = put K' (i + d) (v i)) ->
  (forall i, (i0 <= i < i0 + Z.of_nat n)%Z -> (0 <= i + d < N)%Z) ->
  exists K', loop n i0 f K = Some K' /\
    is K' N (fun m => if Z.leb (i0 + d) m && Z.ltb m (i0 + Z.of_nat n + d) then v (m - d)%Z else g m).
Proof.
  intros A f v d N n. induction n; intros i0 K g IS F B; cbn [loop].
  - exists K. split; auto. eapply is_ext; [exact IS|]. intros m M. cbn beta.
    destruct (Z.leb_spec (i0 + d) m), (Z.ltb_spec m (i0 + Z.of_nat 0 + d)); try lia; reflexivity.
  - rewrite F by lia.
    destruct (put_is A K N g (i0 + d) (v i0) IS) as (K1 & E1 & I1); [apply B; lia|].
    rewrite E1. cbn [bind].
    destruct (IHn (i0 + 1)%Z K1 _ I1) as (K2 & E2 & I2).
    + intros. apply F. lia.
    + intros. apply B. lia.
    + exists K2. split; auto. eapply is_ext; [exact I2|]. intros m M. cbn beta.
      destruct (Z.leb_spec (i0 + d) m), (Z.ltb_spec m (i0 + Z.of_nat (Datatypes.S n) + d)),
        (Z.leb_spec (i0 + 1 + d) m), (Z.ltb_spec m (i0 + 1 + Z.of_nat n + d)), (Z.eqb_spec m (i0 + d));
        try lia; cbn [andb]; try reflexivity. subst. f_equal. lia.
Qed.

(** The inner loop of the insertion. *)
Lemma refine_is : forall U u k ll N (al : Z -> Q) g h cnt i0 R,
  is R N (fun m => if Z.ltb m i0 then h m else g m) ->
  (forall i, (i0 <= i < i0 + Z.of_nat cnt)%Z -> (0 <= i /\ i + 1 < N)%Z /\
     (exists a b, get U (ll + i) = Some a /\ get U (k + i + 1) = Some b /\ over (u - a) (b - a) = Some (al i)) /\
     h i = mix (al i) (g (i + 1)%Z) (g i)) ->
  exists R', loop cnt i0 (fun i R =>
    bind (get U (ll + i)) (fun a => bind (get U (k + i + 1)) (fun b =>
    bind (over (u - a) (b - a)) (fun alpha =>
    bind (get R (i + 1)) (fun r1 => bind (get R i) (fun r0 =>
    put R i (mix alpha r1 r0))))))) R = Some R' /\
    is R' N (fun m => if Z.ltb m (i0 + Z.of_nat cnt) then h m else g m).
Proof.
  intros U u k ll N al g h cnt. induction cnt; intros i0 R IS H; cbn [loop].
  - exists R. split; auto. rewrite Z.add_0_r. exact IS.
  - destruct (H i0 ltac:(lia)) as (B & (a & b & E1 & E2 & E3) & EH).
    rewrite E1. cbn [bind]. rewrite E2. cbn [bind]. rewrite E3. cbn [bind].
    destruct IS as [L G]. rewrite (G (i0 + 1)%Z) by lia. rewrite (G i0) by lia. cbn [bind].
    destruct (Z.ltb_spec (i0 + 1) i0); [lia|]. destruct (Z.ltb_spec i0 i0); [lia|].
    destruct (put_is _ R N _ i0 (mix (al i0) (g (i0 + 1)%Z) (g i0)) (conj L G)) as (R1 & P1 & I1); [lia|].
    rewrite P1. cbn [bind].
    destruct (IHcnt (i0 + 1)%Z R1) as (R2 & P2 & I2).
    + eapply is_ext; [exact I1|]. intros m M. cbn beta.
      destruct (Z.eqb_spec m i0), (Z.ltb_spec m i0), (Z.ltb_spec m (i0 + 1)); try lia; try reflexivity.
      subst m. auto.
    + intros i I. apply H. lia.
    + exists R2. split; auto. replace (i0 + Z.of_nat (Datatypes.S cnt))%Z with (i0 + 1 + Z.of_nat cnt)%Z by lia. exact I2.
Qed.

Lemma loop_step : forall A (f : Z -> A -> option A) (I : Z -> A -> Prop) n i0 a,
  I i0 a ->
  (forall i x, (i0 <= i < i0 + Z.of_nat n)%Z -> I i x -> exists y, f i x = Some y /\ I (i + 1)%Z y) ->
  exists y, loop n i0 f a = Some y /\ I (i0 + Z.of_nat n)%Z y.
Proof.
  intros A f I n. induction n; intros i0 a H S; cbn [loop].
  - exists a. rewrite Z.add_0_r. auto.
  - destruct (S i0 a ltac:(lia) H) as (y & E & Y). rewrite E. cbn [bind].
    destruct (IHn (i0 + 1)%Z y Y) as (z & E' & Z').
    + intros i x B. apply S. lia.
    + exists z. split; auto. replace (i0 + Z.of_nat (Datatypes.S n))%Z with (i0 + 1 + Z.of_nat n)%Z by lia. auto.
Qed.

Lemma last_below_exact : forall U v i k, (forall j, j <= k -> (nth j U 0 <= v)%Q) -> k + 1 < List.length U ->
  (v < nth (k + 1) U 0)%Q -> last_below U v i = Z.of_nat (i + k).
Proof.
  induction U; intros v i k L K H; cbn [List.length] in K; [lia|]. cbn [last_below].
  pose proof (L 0 ltac:(lia)) as L0. cbn [nth] in L0. apply less_false in L0. rewrite L0.
  destruct k as [|k].
  - cbn [nth Nat.add] in H. destruct U as [|b U]; [cbn [List.length] in K; lia|].
    cbn [last_below]. cbn [nth] in H. apply less_iff in H. rewrite H. lia.
  - rewrite (IHU v (i + 1) k); [f_equal; lia| |lia|].
    + intros j J. apply (L (Datatypes.S j)). lia.
    + exact H.
Qed.

Lemma count_exact : forall c m k s, m < k -> k < List.length (knots c) ->
  (forall i, k - m < i <= k -> (kn c i <= kn c (i - 1))%Q) ->
  (kn c (k - m - 1) < kn c (k - m))%Q ->
  count_equal (knots c) k s = Some (s + Z.of_nat m)%Z.
Proof.
  intros c m. induction m; intros k s M K E H; destruct k as [|k]; try lia; cbn [count_equal].
  - rewrite !knot_get by lia. cbn [bind]. replace (Datatypes.S k - 0 - 1) with k in H by lia. rewrite Nat.sub_0_r in H.
    apply le_false in H. rewrite H. f_equal. lia.
  - rewrite !knot_get by lia. cbn [bind].
    pose proof (E (Datatypes.S k) ltac:(lia)) as E1. replace (Datatypes.S k - 1) with k in E1 by lia.
    apply Qle_bool_iff in E1. rewrite E1. rewrite (IHm k (s + 1)%Z); try lia.
    + f_equal. lia.
    + intros i I. apply E. lia.
    + replace (k - m) with (Datatypes.S k - Datatypes.S m) by lia. exact H.
Qed.

(** * The insertion *)

Section Insert.
Variables (c : curve) (p k s : nat) (u : Q).
Hypothesis EO : order c = p + 1.
Hypothesis EL : List.length (knots c) = order c + cverts c.
Hypothesis PN : p + 1 <= cverts c.
Hypothesis S1 : 1 <= s <= p.
Hypothesis PK : p <= k.
Hypothesis KL : k < cverts c + p.
Hypothesis KS : k < cverts c + s.
Hypothesis LO : (kn c p <= u)%Q.
Hypothesis HI : (u <= kn c (cverts c))%Q.
Hypothesis HA : forall i, i + s <= k -> (kn c i < u)%Q.
Hypothesis HB : forall i, k < i + s -> i <= k -> (kn c i == u)%Q.
Hypothesis HC : forall i, k < i -> i < List.length (knots c) -> (u < kn c i)%Q.

Local Notation n := (cverts c).
Local Notation r := (p + 1 - s).
Local Notation rw := (row (kn c) (pt c) u k p).

Definition rz (j i : Z) : vec := rw (Z.to_nat j) (Z.to_nat i).

Local Notation kz := (Z.of_nat k).
Local Notation pz := (Z.of_nat p).
Local Notation sz := (Z.of_nat s).
Local Notation rZ := (Z.of_nat r).

Lemma get_knot : forall i, (0 <= i < Z.of_nat (List.length (knots c)))%Z -> get (knots c) i = Some (kn c (Z.to_nat i)).
Proof. intros i I. unfold get. destruct (Z.ltb_spec i 0); [lia|]. apply knot_get. lia. Qed.

Lemma get_vert : forall i, (0 <= i < Z.of_nat n)%Z -> get (verts c) i = Some (pt c (Z.to_nat i)).
Proof. intros i I. unfold get. destruct (Z.ltb_spec i 0); [lia|]. apply vert_get. lia. Qed.

(** The points while the rows are computed. *)
Definition Vg (V : Z -> vec) (j m : Z) : vec :=
  if Z.ltb (kz - pz) m && Z.ltb m (kz - pz + j) then rz (Z.min (m - (kz - pz)) (pz - sz)) 0
  else if Z.ltb (kz + 1 - sz) m && Z.ltb (kz + rZ - sz - j) m && Z.ltb m (kz + rZ - sz)
       then rz (kz + rZ - sz - m) (m - (kz + 1 - sz))
       else V m.

Definition inv (V0 : Z -> vec) (j : Z) (st : list vec * list vec) : Prop :=
  is (fst st) (Z.of_nat n + rZ) (Vg V0 j) /\
  exists g, is (snd st) (pz + 1) g /\
    forall m, (0 <= m <= Z.max 0 (pz - sz + 1 - j))%Z -> g m = rz (Z.min (j - 1) (pz - sz)) m.

Ltac zcases := repeat match goal with
  | |- context [Z.leb ?x ?y] => destruct (Z.leb_spec x y); try lia
  | |- context [Z.ltb ?x ?y] => destruct (Z.ltb_spec x y); try lia
  | |- context [Z.eqb ?x ?y] => destruct (Z.eqb_spec x y); try lia
  end; cbn [andb].

Lemma rz_step : forall j m, (1 <= j)%Z -> (0 <= m)%Z -> 
  rz j m = mix ((u - kn c (Z.to_nat (kz - pz + j + m))) /
                (kn c (Z.to_nat (kz + m + 1)) - kn c (Z.to_nat (kz - pz + j + m))))
               (rz (j - 1) (m + 1)) (rz (j - 1) m).
Proof.
  intros j m J M. unfold rz. replace (Z.to_nat j) with (Datatypes.S (Z.to_nat (j - 1))) by lia.
  cbn [row]. replace (Z.to_nat (m + 1)) with (Z.to_nat m + 1) by lia.
  replace (k - p + Datatypes.S (Z.to_nat (j - 1)) + Z.to_nat m) with (Z.to_nat (kz - pz + j + m)) by lia.
  replace (k + Z.to_nat m + 1) with (Z.to_nat (kz + m + 1)) by lia. reflexivity.
Qed.

Lemma round_ok : forall V0 j st, (1 <= j < 1 + rZ)%Z -> inv V0 j st ->
  exists st', (fun j '(V, R) =>
                 bind (refine_row (knots c) u kz (kz - pz + j) (pz - j - sz) R) (fun R =>
                 bind (bind (get R 0) (put V (kz - pz + j))) (fun V =>
                 if Z.ltb 0 (pz - j - sz)
                 then bind (bind (get R (pz - j - sz)) (put V (kz + rZ - j - sz))) (fun V => Some (V, R))
                 else Some (V, R)))) j st = Some st' /\ inv V0 (j + 1) st'.
Proof.
  intros V0 j [V R] J (IV & g & IR & G). cbn [fst snd] in *.
  set (al := fun m => ((u - kn c (Z.to_nat (kz - pz + j + m))) /
                (kn c (Z.to_nat (kz + m + 1)) - kn c (Z.to_nat (kz - pz + j + m))))%Q).
  assert (ST : exists R' g', refine_row (knots c) u kz (kz - pz + j) (pz - j - sz) R = Some R' /\ is R' (pz + 1) g' /\
    forall m, (0 <= m <= Z.max 0 (pz - sz - j))%Z -> g' m = rz (Z.min j (pz - sz)) m).
  { unfold refine_row, rounds.
    destruct (refine_is (knots c) u kz (kz - pz + j) (pz + 1) al g (fun m => mix (al m) (g (m + 1)%Z) (g m))
                (Z.to_nat (pz - j - sz + 1 - 0)) 0 R) as (R' & E & I).
    - eapply is_ext; [exact IR|]. intros m M. cbn beta. zcases. reflexivity.
    - intros i I. split; [lia|]. split; [|reflexivity].
      exists (kn c (Z.to_nat (kz - pz + j + i))), (kn c (Z.to_nat (kz + i + 1))).
      split; [apply get_knot; lia|]. split; [apply get_knot; lia|].
      unfold over. destruct (Qeq_bool _ 0) eqn:E; [|reflexivity].
      apply Qeq_bool_iff in E.
      pose proof (HA (Z.to_nat (kz - pz + j + i)) ltac:(lia)).
      pose proof (HC (Z.to_nat (kz + i + 1)) ltac:(lia) ltac:(lia)). lra.
    - eexists. eexists. split; [exact E|]. split; [exact I|]. intros m M. cbn beta.
      destruct (Z.ltb_spec m (0 + Z.of_nat (Z.to_nat (pz - j - sz + 1 - 0)))).
      + rewrite !G by lia. replace (Z.min j (pz - sz)) with j by lia. rewrite (rz_step j m) by lia.
        replace (Z.min (j - 1) (pz - sz)) with (j - 1)%Z by lia. reflexivity.
      + rewrite G by lia. f_equal. lia. }
  destruct ST as (R' & g' & E & IR' & G').
  rewrite E. cbn [bind].
  rewrite (proj2 IR' 0%Z) by lia. cbn [bind].
  destruct (put_is _ V _ _ (kz - pz + j) (g' 0%Z) IV) as (V1 & E1 & I1); [lia|].
  rewrite E1. cbn [bind].
  destruct (Z.ltb_spec 0 (pz - j - sz)).
  - rewrite (proj2 IR' (pz - j - sz)%Z) by lia. cbn [bind].
    destruct (put_is _ V1 _ _ (kz + rZ - j - sz) (g' (pz - j - sz)%Z) I1) as (V2 & E2 & I2); [lia|].
    rewrite E2. cbn [bind]. eexists. split; [reflexivity|]. split; cbn [fst snd].
    + eapply is_ext; [exact I2|]. intros m M. cbn beta. unfold Vg.
      rewrite !G' by lia. zcases; try reflexivity; f_equal; try lia.
    + exists g'. split; auto. intros m M. rewrite G' by lia. f_equal. lia.
  - eexists. split; [reflexivity|]. split; cbn [fst snd].
    + eapply is_ext; [exact I1|]. intros m M. cbn beta. unfold Vg.
      rewrite !G' by lia. zcases; try reflexivity; f_equal; try lia.
    + exists g'. split; auto. intros m M. rewrite G' by lia. f_equal. lia.
Qed.

Definition new_knot (m : nat) : Q := if m <=? k then kn c m else if m <=? k + r then u else kn c (m - r).
Definition new_point (m : nat) : vec :=
  if m <=? k - p then pt c m
  else if m <=? k + 1 - s then rw (Nat.min (m - (k - p)) (p - s)) 0
  else if m <? k - s + r then rw (k + r - s - m) (m - (k + 1 - s))
  else pt c (m - r).

Lemma insert_ok : exists c1,
  insert_knot c u (Z.of_nat p) = Some (c1, Z.of_nat r) /\ order c1 = order c /\
  List.length (knots c1) = List.length (knots c) + r /\ cverts c1 = n + r /\
  (forall m, m < List.length (knots c) + r -> kn c1 m = new_knot m) /\
  (forall m, m < n + r -> pt c1 m = new_point m).
Proof.
  unfold insert_knot. replace (Z.of_nat (order c) - 1)%Z with pz by lia.
  rewrite !get_knot by lia. cbn [bind]. rewrite !Nat2Z.id.
  replace (less u (kn c p)) with false by (symmetry; apply less_false; auto).
  replace (less (kn c n) u) with false by (symmetry; apply less_false; auto). cbn [orb].
  rewrite (last_below_exact (knots c) u 0 k); cycle 1.
  { intros j J. fold (kn c j). destruct (Nat.le_gt_cases (j + s) k).
    - pose proof (HA j ltac:(lia)). lra.
    - pose proof (HB j ltac:(lia) ltac:(lia)). lra. }
  { lia. } { apply HC; lia. }
  rewrite Nat.add_0_l. rewrite get_knot by lia. cbn [bind]. rewrite Nat2Z.id.
  pose proof (HB k ltac:(lia) ltac:(lia)) as HK.
  replace (Qle_bool u (kn c k)) with true by (symmetry; apply Qle_bool_iff; lra).
  rewrite (count_exact c (s - 1) k 1); try lia; cycle 1.
  { intros i I. pose proof (HB i ltac:(lia) ltac:(lia)). pose proof (HB (i - 1) ltac:(lia) ltac:(lia)). lra. }
  { pose proof (HA (k - (s - 1) - 1) ltac:(lia)). pose proof (HB (k - (s - 1)) ltac:(lia) ltac:(lia)). lra. }
  cbn [bind]. replace (1 + Z.of_nat (s - 1))%Z with sz by lia.
  replace (if Z.ltb (pz + 1) (pz + sz) then (pz + 1 - sz)%Z else pz) with rZ by (destruct (Z.ltb_spec (pz + 1) (pz + sz)); lia).
  destruct (Z.leb_spec rZ 0); [lia|]. rewrite Nat2Z.id.
  set (K0 := resize 0%Q (knots c) (n + r + order c)).
  set (V0 := resize (Vec 0 0 0) (verts c) (n + r)).
  assert (LK : Z.of_nat (List.length K0) = (Z.of_nat (List.length (knots c)) + rZ)%Z).
  { unfold K0, resize. rewrite app_length, repeat_length, firstn_length. lia. }
  assert (LV : Z.of_nat (List.length V0) = (Z.of_nat n + rZ)%Z).
  { unfold V0, resize. rewrite app_length, repeat_length, firstn_length. unfold cverts in *. lia. }
  pose proof (is_any _ 0%Q K0) as I0. rewrite LK in I0.
  pose proof (is_any _ (Vec 0 0 0) V0) as J0. rewrite LV in J0.
  unfold rounds.
  edestruct (fill Q (fun i K => bind (get (knots c) i) (put K i)) (fun i => kn c (Z.to_nat i)) 0) as (K1 & E1 & I1);
    [exact I0| | |rewrite E1; cbn [bind]].
  { intros i K' B. rewrite get_knot by lia. cbn [bind]. rewrite Z.add_0_r. reflexivity. }
  { intros i B. lia. }
  edestruct (fill Q (fun i K => put K (kz + i) u) (fun _ => u) kz) as (K2 & E2 & I2);
    [exact I1| | |rewrite E2; cbn [bind]].
  { intros i K' B. rewrite Z.add_comm. reflexivity. }
  { intros i B. lia. }
  edestruct (fill Q (fun i K => bind (get (knots c) i) (put K (i + rZ))) (fun i => kn c (Z.to_nat i)) rZ) as (K3 & E3 & I3);
    [exact I2| | |rewrite E3; cbn [bind]].
  { intros i K' B. rewrite get_knot by lia. reflexivity. }
  { intros i B. lia. }
  edestruct (fill vec (fun i K => bind (get (verts c) i) (put K i)) (fun i => pt c (Z.to_nat i)) 0) as (V1 & F1 & J1);
    [exact J0| | |rewrite F1; cbn [bind]].
  { intros i K' B. rewrite get_vert by lia. cbn [bind]. rewrite Z.add_0_r. reflexivity. }
  { intros i B. lia. }
  edestruct (fill vec (fun i K => bind (get (verts c) i) (put K (i + rZ))) (fun i => pt c (Z.to_nat i)) rZ) as (V2 & F2 & J2);
    [exact J1| | |rewrite F2; cbn [bind]].
  { intros i K' B. rewrite get_vert by lia. reflexivity. }
  { intros i B. lia. }
  pose proof (is_any _ (Vec 0 0 0) (repeat (Vec 0 0 0) (order c))) as R0. rewrite repeat_length in R0.
  replace (Z.of_nat (order c)) with (pz + 1)%Z in R0 by lia.
  edestruct (fill vec (fun i K => bind (get (verts c) (kz - pz + i)) (put K i)) (fun i => pt c (Z.to_nat (kz - pz + i))) 0) as (R1 & G1 & H1);
    [exact R0| | |rewrite G1; cbn [bind]].
  { intros i K' B. rewrite get_vert by lia. cbn [bind]. rewrite Z.add_0_r. reflexivity. }
  { intros i B. lia. }
  match type of J2 with is _ _ ?g => set (W := g) in * end.
  edestruct (loop_step (list vec * list vec) (fun j '(V, R) =>
                 bind (refine_row (knots c) u kz (kz - pz + j) (pz - j - sz) R) (fun R =>
                 bind (bind (get R 0) (put V (kz - pz + j))) (fun V =>
                 if Z.ltb 0 (pz - j - sz)
                 then bind (bind (get R (pz - j - sz)) (put V (kz + rZ - j - sz))) (fun V => Some (V, R))
                 else Some (V, R)))) (inv W) (Z.to_nat (rZ + 1 - 1)) 1 (V2, R1)) as ((V3 & R3) & L3 & M3).
  { split; cbn [fst snd].
    - eapply is_ext; [exact J2|]. intros m M. unfold Vg. zcases; reflexivity.
    - eexists. split; [exact H1|]. intros m M. cbn beta. zcases.
      unfold rz. replace (Z.to_nat (Z.min (1 - 1) (pz - sz))) with 0 by lia. cbn [row]. f_equal. lia. }
  { intros i x B I. apply round_ok; [lia|exact I]. }
  rewrite L3. cbn [bind].
  replace (Z.to_nat (kz - sz - (kz - pz + rZ + 1))) with 0 by lia. cbn [loop bind].
  eexists. split; [reflexivity|]. cbn [order knots verts]. split; [reflexivity|].
  destruct M3 as [M3 _]. cbn [fst] in M3.
  split; [destruct I3; lia|]. split; [unfold cverts; cbn [verts]; destruct M3; unfold cverts in *; lia|].
  split; intros m M.
  - assert (B : (0 <= Z.of_nat m < Z.of_nat (List.length (knots c)) + rZ)%Z) by lia.
    pose proof (proj2 I3 _ B) as X. cbn beta in X. unfold get in X.
    destruct (Z.ltb_spec (Z.of_nat m) 0); [lia|]. rewrite Nat2Z.id in X.
    unfold kn at 1. cbn [knots]. rewrite (nth_error_nth _ _ _ X). unfold new_knot.
    destruct (Nat.leb_spec m k); [|destruct (Nat.leb_spec m (k + r))]; zcases; try reflexivity; f_equal; lia.
  - assert (B : (0 <= Z.of_nat m < Z.of_nat n + rZ)%Z) by lia.
    pose proof (proj2 M3 _ B) as X. cbn beta in X. unfold get in X.
    destruct (Z.ltb_spec (Z.of_nat m) 0); [lia|]. rewrite Nat2Z.id in X.
    unfold pt at 1. cbn [verts]. rewrite (nth_error_nth _ _ _ X). unfold new_point, Vg, W.
    destruct (Nat.leb_spec m (k - p)); [|destruct (Nat.leb_spec m (k + 1 - s)); [|destruct (Nat.ltb_spec m (k - s + r))]];
      zcases; unfold rz; try reflexivity; f_equal; lia.
Qed.
End Insert.

(** * Weights *)

Lemma fraction : forall a u b, (a < u)%Q -> (u < b)%Q -> (0 < (u - a) / (b - a) /\ (u - a) / (b - a) < 1)%Q.
Proof.
  intros a u b A B. split.
  - apply Qlt_shift_div_l; lra.
  - apply Qlt_shift_div_r; lra.
Qed.

Lemma mix_pos : forall t x y, (0 < t)%Q -> (t < 1)%Q -> (0 < vz x)%Q -> (0 < vz y)%Q -> (0 < vz (mix t x y))%Q.
Proof. intros t x y A B X Y. cbn [mix vz]. nra. Qed.

Lemma row_pos : forall U P u k p s n, s <= p -> p <= k -> k < n + s ->
  (forall i, i + s <= k -> (U i < u)%Q) -> (forall i, k < i -> i <= k + p -> i <= n + p -> (u < U i)%Q) ->
  (forall i, i < n -> (0 < vz (P i))%Q) ->
  forall j i, i + j <= p - s -> (0 < vz (row U P u k p j i))%Q.
Proof.
  intros U P u k p s n SP PK KS HA HC W. induction j; intros i I; cbn [row].
  - apply W. lia.
  - destruct (fraction (U (k - p + Datatypes.S j + i)) u (U (k + i + 1))) as [F1 F2].
    + apply HA. lia.
    + apply HC; lia.
    + apply mix_pos; auto; apply IHj; lia.
Qed.

Lemma turn : forall (P : nat -> bool) d a, P a = true -> P (a + d) = false ->
  exists m, a <= m < a + d /\ P m = true /\ P (m + 1) = false.
Proof.
  intros P. induction d; intros a A B.
  - rewrite Nat.add_0_r in B. congruence.
  - destruct (P (a + 1)) eqn:E.
    + destruct (IHd (a + 1) E) as (m & M & H); [replace (a + 1 + d) with (a + Datatypes.S d) by lia; auto|].
      exists m. split; [lia|auto].
    + exists a. split; [lia|auto].
Qed.

(** * The beginning *)

Lemma bottom_order : forall c p, order c = p + 1 -> bottom c = kn c p.
Proof. intros c p E. unfold bottom. f_equal. lia. Qed.

Lemma front_ok : forall c p, wanted c -> open_ends c -> order c = p + 1 ->
  exists c1 r1, insert_knot c (bottom c) (Z.of_nat p) = Some (c1, Z.of_nat r1) /\
    order c1 = order c /\ List.length (knots c1) = List.length (knots c) + r1 /\ cverts c1 = cverts c + r1 /\
    (forall m, m <= p + r1 -> (kn c1 m <= bottom c)%Q) /\
    (forall m, m <= p -> (kn c1 (m + r1) == bottom c)%Q) /\
    (forall m, p < m -> m < List.length (knots c) -> (kn c1 (m + r1) = kn c m)%Q) /\
    (forall m, m < cverts c + r1 -> (0 < vz (pt c1 m))%Q) /\
    wanted c1 /\
    (forall f k u, linear f -> p <= k ->
      (sum (fun i => Nf (kn c) k u p i * f (pt c i)) (cverts c) ==
       sum (fun i => Nf (fun m => kn c1 (m + r1)%nat) k u p i * f (pt c1 (i + r1)%nat)) (cverts c))%Q).
Proof.
  intros c p WA [O1 O2] EO.
  pose proof (len_eq c WA) as LE. pose proof (order_n c WA) as ON.
  pose proof (bottom_order c p EO) as BP. rewrite EO in O1.
  pose proof (mono c WA) as MO.
  pose proof (weights_pos c WA) as WP.
  assert (BT : (bottom c < top c)%Q) by apply WA.
  destruct (less (kn c 0) (bottom c)) eqn:E0.
  - destruct (turn (fun m => less (kn c m) (bottom c)) p 0 E0) as (q0 & Q1 & Q2 & Q3).
    { cbn [Nat.add]. apply less_false. rewrite BP. lra. }
    cbn [Nat.add] in Q1. cbn beta in Q2, Q3. apply less_iff in Q2. apply less_false in Q3.
    set (s := p - q0).
    assert (HA : forall i, i <= q0 -> (kn c i < bottom c)%Q).
    { intros i I. pose proof (MO q0 i ltac:(lia) ltac:(lia)). lra. }
    assert (HB : forall i, q0 < i -> i <= p -> (kn c i == bottom c)%Q).
    { intros i I J. pose proof (MO i (q0 + 1) ltac:(lia) ltac:(lia)). pose proof (MO p i ltac:(lia) ltac:(lia)).
      rewrite BP in *. lra. }
    assert (HC : forall i, p < i -> i < List.length (knots c) -> (bottom c < kn c i)%Q).
    { intros i I J. pose proof (MO i (p + 1) ltac:(lia) ltac:(lia)). lra. }
    destruct (insert_ok c p p s (bottom c)) as (c1 & EI & E1 & E2 & E3 & E4 & E5); try lia; auto.
    { rewrite BP. lra. } { fold (top c). lra. }
    { intros i I. apply HA. lia. } { intros i I J. apply HB; lia. }
    replace (p + 1 - s) with (q0 + 1) in * by lia.
    assert (EK : forall m, m < List.length (knots c) + (q0 + 1) -> kn c1 m =
      if m <=? p then kn c m else if m <=? p + (q0 + 1) then bottom c else kn c (m - (q0 + 1))).
    { intros m M. rewrite E4 by auto. unfold new_knot. replace (p + 1 - s) with (q0 + 1) by lia. reflexivity. }
    assert (EP : forall i, i < cverts c -> pt c1 (i + (q0 + 1)) =
      if i <=? q0 then row (kn c) (pt c) (bottom c) p p (q0 - i) i else pt c i).
    { intros i I. rewrite E5 by lia. unfold new_point. replace (p + 1 - s) with (q0 + 1) by lia.
      destruct (Nat.leb_spec (i + (q0 + 1)) (p - p)); [lia|].
      destruct (Nat.leb_spec i q0), (Nat.leb_spec (i + (q0 + 1)) (q0 + 1)),
        (Nat.ltb_spec (i + (q0 + 1)) (p - s + (q0 + 1))); try lia.
      - f_equal; lia.
      - f_equal; lia.
      - f_equal; lia.
      - replace (q0 - i) with 0 by lia. cbn [row]. f_equal. lia.
      - f_equal. lia. }
    assert (RP : forall j i, i + j <= q0 -> (0 < vz (row (kn c) (pt c) (bottom c) p p j i))%Q).
    { intros j i I. apply (row_pos _ _ _ _ _ s (cverts c)); try lia; auto.
      - intros m M. apply HA. lia.
      - intros m M1 M2 M3. apply HC; lia. }
    assert (VP : forall m, m < cverts c + (q0 + 1) -> (0 < vz (pt c1 m))%Q).
    { intros m M. rewrite E5 by auto. unfold new_point. replace (p + 1 - s) with (q0 + 1) by lia.
      destruct (Nat.leb_spec m (p - p)); [apply WP; lia|].
      destruct (Nat.leb_spec m (q0 + 1)); [apply RP; lia|].
      destruct (Nat.ltb_spec m (p - s + (q0 + 1))); [apply RP; lia|apply WP; lia]. }
    exists c1, (q0 + 1). do 4 (split; [auto|]).
    split; [|split; [|split; [|split; [|split]]]].
    + intros m M. rewrite EK by lia. destruct (Nat.leb_spec m p); [|destruct (Nat.leb_spec m (p + (q0 + 1))); [lra|lia]].
      pose proof (MO p m ltac:(lia) ltac:(lia)). rewrite BP. lra.
    + intros m M. rewrite EK by lia. destruct (Nat.leb_spec (m + (q0 + 1)) p).
      * apply HB; lia.
      * destruct (Nat.leb_spec (m + (q0 + 1)) (p + (q0 + 1))); [reflexivity|lia].
    + intros m M1 M2. rewrite EK by lia. destruct (Nat.leb_spec (m + (q0 + 1)) p); [lia|].
      destruct (Nat.leb_spec (m + (q0 + 1)) (p + (q0 + 1))); [lia|]. f_equal. lia.
    + auto.
    + split; [lia|]. split; [lia|]. split; [|split].
      * intros i I. rewrite !EK by lia.
        destruct (Nat.leb_spec i p), (Nat.leb_spec (i + 1) p), (Nat.leb_spec i (p + (q0 + 1))),
          (Nat.leb_spec (i + 1) (p + (q0 + 1))); try lia; try lra.
        -- apply MO; lia.
        -- rewrite BP. apply MO; lia.
        -- rewrite BP. apply MO; lia.
        -- apply MO; lia.
      * rewrite (bottom_order c1 p) by lia. unfold top. rewrite E3. rewrite !EK by lia.
        destruct (Nat.leb_spec p p); [|lia]. destruct (Nat.leb_spec (cverts c + (q0 + 1)) p); [lia|].
        destruct (Nat.leb_spec (cverts c + (q0 + 1)) (p + (q0 + 1))); [lia|].
        replace (cverts c + (q0 + 1) - (q0 + 1)) with (cverts c) by lia. fold (top c). rewrite <- BP. auto.
      * apply Forall_forall. intros x X. apply (In_nth _ _ (Vec 0 0 0)) in X. destruct X as (i & I & <-).
        apply (VP i). unfold cverts in *. lia.
    + intros f k u Lf KP.
      rewrite (front_all (kn c) (pt c) p q0 k (cverts c) (bottom c) u) with (j := q0 + 1); try lia; auto.
      * apply sum_ext. intros i I. rewrite (front_points (kn c) (pt c) p q0 k (cverts c)) by lia.
        rewrite <- EP by auto. apply Qmult_comp; [|reflexivity]. apply Nf_ext. intros m M.
        rewrite (front_knots (kn c) p q0 k (cverts c)) by lia. rewrite EK by lia.
        destruct (Nat.leb_spec m p), (Nat.leb_spec (m + (q0 + 1)) p), (Nat.leb_spec (m + (q0 + 1)) (p + (q0 + 1)));
          try lia; try reflexivity.
        -- symmetry. apply HB; lia.
        -- replace (m + (q0 + 1) - (q0 + 1)) with m by lia. reflexivity.
      * intros i I. apply HB; lia.
      * intros i I. apply HC; lia.
  - apply less_false in E0.
    assert (F : forall m, m <= p -> (kn c m == bottom c)%Q).
    { intros m M. pose proof (MO m 0 ltac:(lia) ltac:(lia)). pose proof (MO p m ltac:(lia) ltac:(lia)). rewrite BP in *. lra. }
    exists c, 0. replace p with (order c - 1) at 1 by lia. rewrite nothing_to_insert; auto; try lra.
    + rewrite !Nat.add_0_r. do 4 (split; [auto|]). split; [|split; [|split; [|split; [|split]]]].
      * intros m M. rewrite F by lia. lra.
      * intros m M. rewrite ?Nat.add_0_r. auto.
      * intros m M1 M2. rewrite ?Nat.add_0_r. auto.
      * intros m M. apply WP. lia.
      * auto.
      * intros f k u _ _. apply sum_ext. intros i I. rewrite ?Nat.add_0_r.
        rewrite (Nf_ext (kn c) (fun m => kn c (m + 0))); [reflexivity|]. intros j J. rewrite Nat.add_0_r. reflexivity.
    + exists p. split; [lia|]. replace (p - (order c - 1)) with 0 by lia. rewrite !F by lia. split; lra.
Qed.

(** * The end *)

Lemma back_ok : forall c p, wanted c -> (kn c (cverts c - 1) < top c)%Q -> order c = p + 1 ->
  exists c2 r2, insert_knot c (top c) (Z.of_nat p) = Some (c2, Z.of_nat r2) /\
    order c2 = order c /\ List.length (knots c2) = List.length (knots c) + r2 /\ cverts c2 = cverts c + r2 /\
    (forall m, m < cverts c -> kn c2 m = kn c m) /\
    (forall m, cverts c <= m -> m < List.length (knots c) -> (kn c2 m == top c)%Q) /\
    (forall m, m < cverts c -> (0 < vz (pt c2 m))%Q) /\
    (forall f k u, linear f -> k < cverts c ->
      (sum (fun i => Nf (kn c) k u p i * f (pt c i)) (cverts c) ==
       sum (fun i => Nf (kn c2) k u p i * f (pt c2 i)) (cverts c))%Q).
Proof.
  intros c p WA O2 EO.
  pose proof (len_eq c WA) as LE. pose proof (order_n c WA) as ON.
  pose proof (bottom_order c p EO) as BP.
  pose proof (mono c WA) as MO.
  pose proof (weights_pos c WA) as WP.
  assert (BT : (bottom c < top c)%Q) by apply WA.
  assert (HA : forall i, i < cverts c -> (kn c i < top c)%Q).
  { intros i I. pose proof (MO (cverts c - 1) i ltac:(lia) ltac:(lia)). lra. }
  destruct (Qle_bool (kn c (cverts c + p)) (top c)) eqn:E0.
  - apply Qle_bool_iff in E0.
    assert (F : forall m, cverts c <= m -> m < List.length (knots c) -> (kn c m == top c)%Q).
    { intros m M L. pose proof (MO m (cverts c) ltac:(lia) ltac:(lia)).
      pose proof (MO (cverts c + p) m ltac:(lia) ltac:(lia)). unfold top in *. lra. }
    exists c, 0. replace p with (order c - 1) at 1 by lia. rewrite nothing_to_insert; auto; try lra.
    + rewrite !Nat.add_0_r. do 5 (split; [auto|]). split; [exact F|]. split; [exact WP|].
      intros f k u _ _. reflexivity.
    + exists (cverts c + p). split; [lia|]. replace (cverts c + p - (order c - 1)) with (cverts c) by lia.
      fold (top c). split; lra.
  - destruct (turn (fun m => Qle_bool (kn c m) (top c)) p (cverts c)) as (e & Q1 & Q2 & Q3); auto.
    { apply Qle_bool_iff. unfold top. lra. }
    cbn beta in Q2, Q3. apply Qle_bool_iff in Q2. apply le_false in Q3.
    set (s := e + 1 - cverts c).
    assert (HB : forall i, cverts c <= i <= e -> (kn c i == top c)%Q).
    { intros i I. pose proof (MO i (cverts c) ltac:(lia) ltac:(lia)). pose proof (MO e i ltac:(lia) ltac:(lia)).
      unfold top in *. lra. }
    assert (HC : forall i, e < i -> i < List.length (knots c) -> (top c < kn c i)%Q).
    { intros i I J. pose proof (MO i (e + 1) ltac:(lia) ltac:(lia)). lra. }
    destruct (insert_ok c p e s (top c)) as (c1 & EI & E1 & E2 & E3 & E4 & E5); try lia; auto.
    { rewrite <- BP. lra. } { unfold top. lra. }
    { intros i I. apply HA. lia. } { intros i I J. apply HB; lia. }
    set (r := p + 1 - s) in *.
    assert (EK : forall m, m < List.length (knots c) -> kn c1 m = if m <=? e then kn c m else top c).
    { intros m M. rewrite E4 by lia. unfold new_knot. fold r.
      destruct (Nat.leb_spec m e); auto. destruct (Nat.leb_spec m (e + r)); [auto|lia]. }
    assert (EP : forall m, m < cverts c -> pt c1 m =
      if m + p <=? e then pt c m else row (kn c) (pt c) (top c) e p (m + p - e) 0).
    { intros m M. rewrite E5 by lia. unfold new_point. fold r.
      destruct (Nat.leb_spec m (e - p)), (Nat.leb_spec (m + p) e); try lia; auto.
      destruct (Nat.leb_spec m (e + 1 - s)); [|lia]. f_equal; lia. }
    exists c1, r. do 4 (split; [auto|]).
    split; [|split; [|split]].
    + intros m M. rewrite EK by lia. destruct (Nat.leb_spec m e); [auto|lia].
    + intros m M1 M2. rewrite EK by lia. destruct (Nat.leb_spec m e); [apply HB; lia|reflexivity].
    + intros m M. rewrite EP by auto. destruct (Nat.leb_spec (m + p) e); [apply WP; auto|].
      apply (row_pos _ _ _ _ _ s (cverts c)); try lia; auto.
      * intros i I. apply HA. lia.
      * intros i M1 M2 M3. apply HC; lia.
    + intros f k u Lf KP.
      rewrite (back_all (kn c) (pt c) p (cverts c) e k (top c) u) with (j := cverts c + p - e); try lia; auto.
      * apply sum_ext. intros i I. rewrite (back_points (kn c) (pt c) p (cverts c) e k) by lia.
        rewrite <- EP by auto. apply Qmult_comp; [|reflexivity]. apply Nf_ext. intros m M.
        rewrite (back_knots (kn c) p (cverts c) e k) by lia. rewrite EK by lia. reflexivity.
      * intros i I. apply HC; lia.
Qed.

(** * Clamping *)

Lemma nth_trim : forall A (d : A) l a b i, i + a < b -> b <= List.length l -> nth i (skipn a (firstn b l)) d = nth (i + a) l d.
Proof.
  intros A d l a b i I B.
  rewrite <- (firstn_skipn b l) at 2. rewrite app_nth1 by (rewrite firstn_length_le; lia).
  rewrite <- (firstn_skipn a (firstn b l)) at 2.
  rewrite app_nth2; rewrite firstn_length_le by (rewrite ?firstn_length_le; lia); [f_equal; lia|lia].
Qed.

Lemma clamp_ok : forall c, wanted c -> open_ends c ->
  exists c', clamp c = Some c' /\ order c' = order c /\ cverts c' = cverts c /\
    wanted c' /\ open_ends c' /\ clamped c' /\ (bottom c' == bottom c)%Q /\ (top c' == top c)%Q /\
    (forall u f, (bottom c <= u)%Q -> (u <= top c)%Q -> linear f -> (blend c' u f == blend c u f)%Q).
Proof.
  intros c WA OE.
  pose proof (len_eq c WA) as LE. pose proof (order_n c WA) as ON. pose proof (mono c WA) as MO.
  pose proof OE as [O1 O2].
  assert (BT : (bottom c < top c)%Q) by apply WA.
  set (p := order c - 1). assert (EO : order c = p + 1) by lia. rewrite EO in O1.
  set (n := cverts c) in *. set (len := List.length (knots c)) in *.
  destruct (front_ok c p WA OE EO)
    as (c1 & r1 & I1 & F1 & F2 & F3 & F4 & F5 & F6 & F7 & W1 & F8). fold n len in F2, F3, F6, F7, F8.
  assert (T1 : top c1 = top c).
  { unfold top. rewrite F3. fold n. apply F6; lia. }
  destruct (back_ok c1 p W1) as (c2 & r2 & I2 & G1 & G2 & G3 & G4 & G5 & G6 & G7).
  { rewrite T1, F3. destruct (Nat.eq_dec (n - 1) p) as [E|E].
    - replace (n + r1 - 1) with (p + r1) by lia. rewrite F5 by lia. auto.
    - replace (n + r1 - 1) with (n - 1 + r1) by lia. rewrite F6 by lia. auto. }
  { lia. }
  rewrite T1, F3 in *. rewrite F2 in *.
  set (c' := Curve (order c2) (skipn r1 (firstn (List.length (knots c2) - r2) (knots c2)))
           (skipn r1 (firstn (cverts c2 - r2) (verts c2)))).
  assert (EC : clamp c = Some c').
  { unfold clamp. fold p. rewrite knot_get by lia. cbn [bind].
    replace (kn c p) with (bottom c) by reflexivity. rewrite I1. cbn [bind].
    rewrite knot_get by lia. cbn [bind]. fold (top c1). rewrite T1, I2. cbn [bind]. rewrite !Nat2Z.id.
    fold c'. destruct (Nat.eqb_spec r1 0), (Nat.eqb_spec r2 0); cbn [andb]; try reflexivity.
    unfold c'. subst r1 r2. unfold cverts. rewrite !Nat.sub_0_r, !firstn_all. cbn [skipn].
    destruct c2. reflexivity. }
  exists c'. split; [exact EC|].
  assert (L' : List.length (knots c') = len).
  { cbn [c' knots]. rewrite skipn_length, firstn_length. lia. }
  assert (N' : cverts c' = n).
  { unfold cverts. cbn [c' verts]. rewrite skipn_length, firstn_length. unfold cverts in *. lia. }
  assert (K' : forall m, m < len -> kn c' m = kn c2 (m + r1)).
  { intros m M. unfold kn. cbn [c' knots]. apply nth_trim; lia. }
  assert (P' : forall m, m < n -> pt c' m = pt c2 (m + r1)).
  { intros m M. unfold pt. cbn [c' verts]. apply nth_trim; unfold cverts in *; lia. }
  assert (KL : forall m, m <= p -> (kn c' m == bottom c)%Q).
  { intros m M. rewrite K', G4 by lia. apply F5. auto. }
  assert (KM : forall m, p < m -> m < n -> kn c' m = kn c m).
  { intros m M1 M2. rewrite K', G4 by lia. apply F6; lia. }
  assert (KH : forall m, n <= m -> m < len -> (kn c' m == top c)%Q).
  { intros m M1 M2. rewrite K' by lia. apply G5; lia. }
  assert (KI : forall m, p <= m -> m <= n -> (kn c' m == kn c m)%Q).
  { intros m M1 M2. destruct (Nat.eq_dec m p) as [->|]; [apply KL; lia|].
    destruct (Nat.eq_dec m n) as [->|]; [apply KH; lia|]. rewrite KM by lia. reflexivity. }
  assert (O' : order c' = order c) by (cbn [c' order]; congruence).
  assert (B' : (bottom c' == bottom c)%Q) by (unfold bottom at 1; rewrite O'; apply KL; lia).
  assert (T' : (top c' == top c)%Q) by (unfold top at 1; rewrite N'; apply KH; lia).
  assert (W' : wanted c').
  { split; [lia|]. split; [lia|]. split; [|split].
    - intros i I. rewrite L' in I.
      destruct (Nat.le_gt_cases (i + 1) p); [rewrite !KL by lia; lra|].
      destruct (Nat.le_gt_cases n i); [rewrite !KH by lia; lra|].
      rewrite !KI by lia. apply MO; lia.
    - lra.
    - apply Forall_forall. intros x X. apply (In_nth _ _ (Vec 0 0 0)) in X. destruct X as (i & I & <-).
      fold (pt c' i). fold (cverts c') in I. rewrite P' by lia. apply G6. lia. }
  assert (OE' : open_ends c').
  { split.
    - rewrite B', O', EO, KI by lia. auto.
    - rewrite T', N', KI by lia. auto. }
  do 4 (split; [auto|]). split; [split|].
  { rewrite B'. apply KL. lia. }
  { rewrite T', L'. apply KH; lia. }
  do 2 (split; [auto|]).
  intros u f A B Lf.
  destruct (find_span_ok c WA OE u A B) as (k & _ & SP).
  destruct (find_span_ok c' W' OE' u) as (k' & _ & SP'); [lra|lra|].
  assert (EK : k' = k).
  { destruct SP as (S1 & S2 & _ & _ & _ & S3). destruct SP' as (_ & _ & _ & _ & _ & S4).
    specialize (S3 k ltac:(lia)). specialize (S4 k ltac:(lia)).
    rewrite Nat.eqb_refl in S3. fold n in S2.
    assert (IE : in_span c' u k = in_span c u k).
    { unfold in_span.
      pose proof (KI k ltac:(lia) ltac:(lia)) as X. pose proof (KI (k + 1) ltac:(lia) ltac:(lia)) as Y.
      rewrite (less_comp u (top c') u (top c)), (leb_comp (kn c' k) u (kn c k) u),
        (less_comp u (kn c' (k + 1)) u (kn c (k + 1))), (less_comp (kn c' k) u (kn c k) u),
        (leb_comp u (kn c' (k + 1)) u (kn c (k + 1))) by (auto; reflexivity).
      reflexivity. }
    rewrite IE, S3 in S4. symmetry in S4. apply Nat.eqb_eq in S4. auto. }
  subst k'.
  assert (KB : p <= k < n) by (destruct SP as (X1 & X2 & _); fold n in X2; lia).
  unfold blend. rewrite O', N'. fold p n.
  transitivity (sum (fun i => Nf (kn c') k u p i * f (pt c' i)) n)%Q.
  { apply sum_ext. intros i I. rewrite (N_Nf c' u k SP') by lia. reflexivity. }
  transitivity (sum (fun i => Nf (kn c) k u p i * f (pt c i)) n)%Q.
  2:{ apply sum_ext. intros i I. rewrite (N_Nf c u k SP) by lia. reflexivity. }
  rewrite (F8 f k u Lf) by lia.
  assert (SH : forall d (g : nat -> vec),
    (sum (fun i => Nf d (k + r1) u p i * f (g i)) (n + r1) ==
     sum (fun i => Nf (fun m => d (m + r1)%nat) k u p i * f (g (i + r1)%nat)) n)%Q).
  { intros d g. replace (n + r1) with (r1 + n + 0) by lia. rewrite sum_window.
    - apply sum_ext. intros i I. rewrite Nf_shift. rewrite (Nat.add_comm i r1). reflexivity.
    - intros i I. rewrite Nf_zero by lia. ring.
    - intros i I. lia. }
  rewrite <- (SH (kn c1) (pt c1)). rewrite (G7 f (k + r1) u Lf) by lia. rewrite (SH (kn c2) (pt c2)).
  apply sum_ext. intros i I. rewrite P' by auto. apply Qmult_comp; [|reflexivity].
  apply Nf_ext. intros j J. rewrite K' by lia. reflexivity.
Qed.

Lemma at_clamped : forall c c' u q,
  (forall f, linear f -> (blend c' u f == blend c u f)%Q) -> at_parameter c' u q <-> at_parameter c u q.
Proof.
  intros c c' u q B. unfold at_parameter, curve_x, curve_y.
  rewrite (B vx linear_x), (B vy linear_y), (B vz linear_z). tauto.
Qed.

Lemma in_range : forall c n j, wanted c -> j < n ->
  (bottom c <= parameter c n j)%Q /\ (parameter c n j <= top c)%Q.
Proof.
  intros c n j (_ & _ & _ & BT & _) J. unfold parameter.
  assert (J0 : (0 <= inject_Z (Z.of_nat j))%Q) by (change 0%Q with (inject_Z 0); rewrite <- Zle_Qle; lia).
  assert (JN : (inject_Z (Z.of_nat j) <= inject_Z (Z.of_nat n))%Q) by (rewrite <- Zle_Qle; lia).
  assert (N0 : (0 < inject_Z (Z.of_nat n))%Q) by (change 0%Q with (inject_Z 0); rewrite <- Zlt_Qlt; lia).
  set (x := inject_Z (Z.of_nat j)) in *. set (y := inject_Z (Z.of_nat n)) in *. clearbody x y.
  assert (E : ((top c - bottom c) / y * y == top c - bottom c)%Q) by (field; lra).
  assert (P : (0 <= (top c - bottom c) / y)%Q) by (apply Qle_shift_div_l; lra).
  set (d := ((top c - bottom c) / y)%Q) in *. clearbody d. split; nra.
Qed.

Lemma prepare_all : forall pieces cs, Forall (fun c => wanted c /\ open_ends c) cs ->
  exists l, prepare pieces cs = Some l /\ wanted_points pieces cs l.
Proof.
  intros pieces cs F. induction F as [|c cs (WA & OE) F (l & E & P)].
  - exists []. split; [reflexivity|constructor].
  - destruct (clamp_ok c WA OE) as (c' & EC & EO & EN & WA' & OE' & (C1 & C2) & B & T & BL).
    cbn [prepare]. rewrite EC. cbn [bind].
    pose proof (len_eq c' WA') as LE. pose proof (order_n c' WA') as ON.
    rewrite !knot_get by lia. cbn [bind].
    assert (S : exists l1, match pieces c with
        | 0 => Some []
        | Datatypes.S _ => sampled c' (kn c' 0) ((kn c' (cverts c' + order c' - 1) - kn c' 0) / inject_Z (Z.of_nat (pieces c))) (pieces c)
        end = Some l1 /\ Forall2 (fun i q => at_parameter c' (parameter c' (pieces c) i) q) (seq 0 (pieces c)) l1).
    { destruct (pieces c) as [|m] eqn:EP; [exists []; split; [reflexivity|constructor]|].
      apply sampled_ok; auto; try lia.
      - replace (cverts c' + order c' - 1) with (List.length (knots c') - 1) by lia. rewrite C1, C2. reflexivity.
      - rewrite C1. unfold parameter. change (inject_Z (Z.of_nat 0)) with 0%Q. ring. }
    destruct S as (l1 & E1 & F1). rewrite E1. cbn [bind]. rewrite E. cbn [option_map].
    exists (l1 ++ l). split; auto. unfold wanted_points. cbn [flat_map].
    apply Forall2_app; auto.
    assert (R : forall j, In j (seq 0 (pieces c)) -> j < pieces c) by (intros j J; apply in_seq in J; lia).
    remember (pieces c) as N' eqn:EP. clear E1. revert R.
    induction F1 as [|j q js qs A F1 IH]; cbn [map]; intros R; constructor.
    + destruct (in_range c N' j WA) as [R1 R2]; [apply R; left; reflexivity|]. rewrite <- EP.
      apply (at_clamped c c'); [intros f Lf; apply BL; auto|].
      apply (at_parameter_comp c' (parameter c' N' j)); auto.
      unfold parameter. rewrite B, T. reflexivity.
    + apply IH. intros i I. apply R. right. auto.
Qed.

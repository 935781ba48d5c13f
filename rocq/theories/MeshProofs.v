From Coq Require Import List Bool ZArith Lia.
From Verif Require Import MeshModel MeshSpec.
Import ListNotations.
Open Scope Z_scope.
Open Scope do_scope.
Ltac Zify.zify_post_hook ::= Z.to_euclidean_division_equations.

Lemma int_some z w : int z = Some w -> w = z /\ fits_int z.
Proof.
  unfold int, fits_int. destruct (-2147483648 <=? z) eqn:A; [|discriminate].
  destruct (z <=? 2147483647) eqn:B; [|discriminate]. cbn. intros H; inversion H; subst.
  apply Z.leb_le in A. apply Z.leb_le in B. auto.
Qed.
Lemma int_fits z : fits_int z -> int z = Some z.
Proof.
  unfold int, fits_int. intros [A B]. apply Z.leb_le in A. apply Z.leb_le in B. now rewrite A, B.
Qed.
Lemma bind_some {A B} (a : option A) (f : A -> option B) y :
  (match a with Some x => f x | None => None end) = Some y -> exists x, a = Some x /\ f x = Some y.
Proof. destruct a; [|discriminate]. eauto. Qed.

(** Pieces of one direction. *)
Definition cubic_pieces (periodic : bool) (n step : Z) : option Z :=
  if periodic then div n step else do a <- sub n 4; do b <- div a step; add b 1.
Definition dir_pieces (cubic periodic : bool) (n step : Z) : option Z :=
  if cubic then cubic_pieces periodic n step
  else if periodic then Some n else sub n 1.

Lemma cubic_pieces_ok periodic n step q :
  enough true periodic n step -> cubic_pieces periodic n step = Some q -> pieces true periodic n step q.
Proof.
  unfold enough, pieces, is_piece, cubic_pieces, width. intros [P [_ E]] H. destruct periodic.
  - unfold div in H. destruct (step =? 0) eqn:Z0; [discriminate|].
    apply int_some in H as [-> F]. split; [apply Z.quot_pos; lia|]. intros k.
    rewrite Z.quot_div_nonneg by lia. split.
    + intros [K L]. split; [lia|]. assert (k + 1 <= n / step); [|lia].
      apply Z.div_le_lower_bound; lia.
    + intros [K L]. split; [lia|]. assert (M : step * (n / step) <= n) by (apply Z.mul_div_le; lia). nia.
  - apply bind_some in H as (a & A & H). apply int_some in A as [-> _].
    apply bind_some in H as (b & B & H). unfold div in B. destruct (step =? 0) eqn:Z0; [discriminate|].
    apply int_some in B as [-> _]. apply int_some in H as [-> _].
    assert (Q : 0 <= Z.quot (n - 4) step) by (apply Z.quot_pos; lia).
    split; [lia|]. intros k. rewrite Z.quot_div_nonneg in * by lia. split.
    + intros [K L]. split; [lia|]. assert (k <= (n - 4) / step); [|lia].
      apply Z.div_le_lower_bound; lia.
    + intros [K L]. split; [lia|].
      assert (M : step * ((n - 4) / step) <= n - 4) by (apply Z.mul_div_le; lia). nia.
Qed.

Lemma dir_pieces_ok cubic periodic n step q :
  enough cubic periodic n step -> dir_pieces cubic periodic n step = Some q -> pieces cubic periodic n step q.
Proof.
  destruct cubic; [apply cubic_pieces_ok|]. unfold dir_pieces, enough, pieces, is_piece, width.
  intros [P [S1 E]] H. specialize (S1 eq_refl). subst step. destruct periodic.
  - inversion H; subst. split; [lia|]. intros k; lia.
  - apply int_some in H as [-> _]. split; [lia|]. intros k; lia.
Qed.

Lemma pieces_unique cubic periodic n step q r :
  pieces cubic periodic n step q -> pieces cubic periodic n step r -> q = r.
Proof.
  intros [A B] [C D].
  assert (forall k, 0 <= k < q <-> 0 <= k < r) by (intros k; rewrite <- B, <- D; tauto).
  destruct (Z.lt_trichotomy q r) as [L|[L|L]]; [|auto|].
  - specialize (H q). lia.
  - specialize (H r). lia.
Qed.

(** A size fits in an int and so do its numbers of pieces. *)
Lemma dir_pieces_defined cubic periodic n step :
  enough cubic periodic n step -> fits_int n -> exists q, dir_pieces cubic periodic n step = Some q /\ 0 <= q <= n.
Proof.
  unfold enough, width, fits_int. intros [P [S1 E]] F. destruct cubic; cbn.
  - unfold cubic_pieces, div. rewrite (proj2 (Z.eqb_neq step 0)) by lia. destruct periodic.
    + exists (Z.quot n step). rewrite int_fits.
      * split; [reflexivity|]. rewrite Z.quot_div_nonneg by lia.
        split; [apply Z.div_pos; lia|]. apply Z.div_le_upper_bound; nia.
      * rewrite Z.quot_div_nonneg by lia. assert (0 <= n / step <= n); [|unfold fits_int; lia].
        split; [apply Z.div_pos; lia|]. apply Z.div_le_upper_bound; nia.
    + unfold sub. rewrite int_fits by (unfold fits_int; lia).
      assert (Q : 0 <= Z.quot (n - 4) step <= n - 4).
      { rewrite Z.quot_div_nonneg by lia. split; [apply Z.div_pos; lia|]. apply Z.div_le_upper_bound; nia. }
      rewrite int_fits by (unfold fits_int; lia). unfold add. rewrite int_fits by (unfold fits_int; lia).
      eexists; split; [reflexivity|lia].
  - destruct periodic.
    + exists n. split; [reflexivity|lia].
    + unfold sub. rewrite int_fits by (unfold fits_int; lia). eexists; split; [reflexivity|lia].
Qed.

(** * Counts asked for *)
Lemma patch_mesh_counts_dirs bilinear nu uper nv vper us vs c :
  patch_mesh_counts bilinear nu uper nv vper us vs true = Some c ->
  exists qu qv, dir_pieces (negb bilinear) uper nu us = Some qu /\ dir_pieces (negb bilinear) vper nv vs = Some qv /\
    uniform c = qu * qv /\ vertex c = nu * nv /\
    varying c = if bilinear then nu * nv else ends uper qu * ends vper qv.
Proof.
  unfold patch_mesh_counts. intros H. apply bind_some in H as (p & P & H).
  apply int_some in P as [-> _]. destruct bilinear; cbn [negb dir_pieces].
  - apply bind_some in H as (u & U & H). apply bind_some in H as (v & V & H).
    apply bind_some in H as (q & Q & H). apply int_some in Q as [-> _]. inversion H; subst; cbn.
    exists u, v. auto.
  - apply bind_some in H as (u & U & H). apply bind_some in H as (v & V & H).
    apply bind_some in H as (q & Q & H). apply int_some in Q as [-> _].
    apply bind_some in H as (eu & EU & H). apply int_some in EU as [-> _].
    apply bind_some in H as (ev & EV & H). apply int_some in EV as [-> _].
    apply bind_some in H as (w & W & H). apply int_some in W as [-> _].
    inversion H; subst; cbn. exists u, v. unfold cubic_pieces.
    split; [exact U|]. split; [exact V|]. split; [reflexivity|]. split; [reflexivity|].
    unfold ends. destruct uper, vper; f_equal; lia.
Qed.

Lemma bilinear_ends periodic n q : pieces false periodic n 1 q -> enough false periodic n 1 -> ends periodic q = n.
Proof.
  intros P E. unfold enough, width in E. destruct periodic; cbn.
  - assert (pieces false true n 1 n).
    { split; [tauto|]. intros k. unfold is_piece. cbn. lia. }
    eapply pieces_unique; eauto.
  - assert (pieces false false n 1 (n - 1)).
    { split; [lia|]. intros k. unfold is_piece, width. cbn. lia. }
    rewrite (pieces_unique _ _ _ _ _ _ P H). lia.
Qed.

Lemma mesh_counts_right bilinear nu uper nv vper us vs c :
  enough (negb bilinear) uper nu us -> enough (negb bilinear) vper nv vs ->
  patch_mesh_counts bilinear nu uper nv vper us vs true = Some c ->
  exists qu qv, pieces (negb bilinear) uper nu us qu /\ pieces (negb bilinear) vper nv vs qv /\
    uniform c = qu * qv /\ varying c = ends uper qu * ends vper qv /\ vertex c = nu * nv.
Proof.
  intros EU EV H. apply patch_mesh_counts_dirs in H as (qu & qv & U & V & A & B & C).
  pose proof (dir_pieces_ok _ _ _ _ _ EU U) as PU. pose proof (dir_pieces_ok _ _ _ _ _ EV V) as PV.
  exists qu, qv. split; [exact PU|]. split; [exact PV|]. split; [exact A|]. split; [|exact B].
  rewrite C. destruct bilinear; [|reflexivity]. cbn in *.
  assert (us = 1) by (destruct EU as [_ [X _]]; auto). assert (vs = 1) by (destruct EV as [_ [X _]]; auto). subst.
  rewrite (bilinear_ends _ _ _ PU EU), (bilinear_ends _ _ _ PV EV). reflexivity.
Qed.

Lemma mesh_counts_defined bilinear nu uper nv vper us vs :
  enough (negb bilinear) uper nu us -> enough (negb bilinear) vper nv vs ->
  0 < nu -> 0 < nv -> nu * nv <= 2147483647 ->
  exists c, patch_mesh_counts bilinear nu uper nv vper us vs true = Some c.
Proof.
  intros EU EV NU NV M.
  assert (FU : fits_int nu) by (unfold fits_int; nia). assert (FV : fits_int nv) by (unfold fits_int; nia).
  destruct (dir_pieces_defined _ _ _ _ EU FU) as (qu & U & QU).
  destruct (dir_pieces_defined _ _ _ _ EV FV) as (qv & V & QV).
  unfold patch_mesh_counts, mul. rewrite (int_fits (nu * nv)) by (unfold fits_int; nia).
  destruct bilinear; cbn [negb dir_pieces] in *.
  - rewrite U, V, int_fits by (unfold fits_int; nia). eauto.
  - unfold cubic_pieces in U, V. rewrite U, V.
    rewrite int_fits by (unfold fits_int; nia). unfold add.
    assert (BU : (if uper then 0 else 1) + qu <= nu /\ 0 <= (if uper then 0 else 1) + qu).
    { destruct uper; [lia|]. apply bind_some in U as (a & A & U). apply int_some in A as [-> _].
      apply bind_some in U as (b & B & U). unfold div in B. destruct (us =? 0) eqn:Z0; [discriminate|].
      apply int_some in B as [-> _]. apply int_some in U as [-> _].
      destruct EU as [P [_ W]]. unfold width in W. cbn in W.
      assert (Z.quot (nu - 4) us <= nu - 4); [|lia].
      rewrite Z.quot_div_nonneg by lia. apply Z.div_le_upper_bound; nia. }
    assert (BV : (if vper then 0 else 1) + qv <= nv /\ 0 <= (if vper then 0 else 1) + qv).
    { destruct vper; [lia|]. apply bind_some in V as (a & A & V). apply int_some in A as [-> _].
      apply bind_some in V as (b & B & V). unfold div in B. destruct (vs =? 0) eqn:Z0; [discriminate|].
      apply int_some in B as [-> _]. apply int_some in V as [-> _].
      destruct EV as [P [_ W]]. unfold width in W. cbn in W.
      assert (Z.quot (nv - 4) vs <= nv - 4); [|lia].
      rewrite Z.quot_div_nonneg by lia. apply Z.div_le_upper_bound; nia. }
    unfold fits_int in FU, FV.
    rewrite (int_fits (_ + qu)) by (unfold fits_int; lia). rewrite (int_fits (_ + qv)) by (unfold fits_int; lia).
    rewrite int_fits by (unfold fits_int; nia). eauto.
Qed.

(** * Curves *)
Lemma sum_from_ok a : forall s t, sum_from s a = Some t -> t = s + total a.
Proof.
  induction a as [|x r IH]; cbn; intros s t H; [inversion H; lia|].
  apply bind_some in H as (u & U & H). apply int_some in U as [-> _]. apply IH in H. unfold total in *. lia.
Qed.
Lemma segment_count_ok periodic step nverts : forall s t,
  Forall (fun n => enough true periodic n step) nverts ->
  segment_count s periodic step nverts = Some t ->
  exists qs, all_pieces true periodic step nverts qs /\ t = s + total qs.
Proof.
  induction nverts as [|n r IH]; cbn [segment_count]; intros s t F H.
  - inversion H; subst. exists []. split; [constructor|]. cbn. lia.
  - inversion F as [|? ? E F']; subst. apply bind_some in H as (k & K & H).
    apply bind_some in H as (u & U & H). apply int_some in U as [-> _].
    destruct (IH _ _ F' H) as (qs & A & T). exists (k :: qs). split.
    + constructor; [|exact A]. apply cubic_pieces_ok; [exact E|exact K].
    + cbn. unfold total in *. lia.
Qed.
Lemma all_pieces_length cubic periodic step nverts qs :
  all_pieces cubic periodic step nverts qs -> length qs = length nverts.
Proof. induction 1; cbn; auto. Qed.
Lemma total_ends periodic qs : total (map (ends periodic) qs) =
  if periodic then total qs else total qs + Z.of_nat (length qs).
Proof.
  unfold ends. induction qs as [|q r IH]; [destruct periodic; reflexivity|].
  cbn [map]. change (total (?x :: ?l)) with (x + total l). rewrite IH. destruct periodic; [reflexivity|].
  cbn [length]. lia.
Qed.
Lemma linear_ends periodic nverts : Forall (fun n => enough false periodic n 1) nverts ->
  exists qs, all_pieces false periodic 1 nverts qs /\ map (ends periodic) qs = nverts.
Proof.
  induction nverts as [|n r IH]; intros F; [exists []; split; constructor|].
  inversion F as [|? ? E F']; subst. destruct (IH F') as (qs & A & B).
  assert (exists q, pieces false periodic n 1 q) as [q Q].
  { exists (if periodic then n else n - 1). unfold enough, width in E. unfold pieces, is_piece, width.
    destruct periodic; (split; [lia|]); intros k; lia. }
  exists (q :: qs). split; [constructor; auto|]. cbn. rewrite B. f_equal. eapply bilinear_ends; eauto.
Qed.

Lemma curves_counts_right cubic periodic step nverts c :
  Forall (fun n => enough cubic periodic n (if cubic then step else 1)) nverts ->
  curves_counts cubic nverts periodic step true = Some c ->
  exists qs, all_pieces cubic periodic (if cubic then step else 1) nverts qs /\
    uniform c = Z.of_nat (length nverts) /\ varying c = total (map (ends periodic) qs) /\
    vertex c = total nverts.
Proof.
  unfold curves_counts. intros F H. apply bind_some in H as (t & T & H). apply sum_from_ok in T.
  cbn in T. subst t. destruct cubic.
  - apply bind_some in H as (k & K & H). apply segment_count_ok in K as (qs & A & B); [|exact F].
    apply bind_some in H as (e & E & H). inversion H; subst; cbn. exists qs. split; [exact A|].
    split; [reflexivity|]. split; [|reflexivity]. rewrite total_ends, (all_pieces_length _ _ _ _ _ A).
    destruct periodic; [inversion E; lia|]. apply int_some in E as [-> _]. lia.
  - inversion H; subst; cbn. destruct (linear_ends periodic nverts F) as (qs & A & B).
    exists qs. rewrite B. auto.
Qed.

(** * The renderer's counts are the ones asked for *)
Lemma core_mesh_counts bilinear nu uper nv vper us vs c m :
  enough (negb bilinear) uper nu us -> enough (negb bilinear) vper nv vs ->
  patch_mesh_counts bilinear nu uper nv vper us vs true = Some c ->
  new_mesh (negb bilinear) nu nv uper vper us vs = Some m ->
  forall d, mesh_counts m = Some d -> uniform d = uniform c /\ varying d = varying c /\ vertex d = vertex c.
Proof.
  intros EU EV H N d D.
  destruct (mesh_counts_right _ _ _ _ _ _ _ _ EU EV H) as (qu & qv & PU & PV & A & B & C).
  assert (X : exists u v, dir_pieces (negb bilinear) uper nu us = Some u /\ dir_pieces (negb bilinear) vper nv vs = Some v /\
     m = mkMesh (negb bilinear) nu nv uper vper us vs u v).
  { unfold new_mesh in N. destruct bilinear; cbn [negb dir_pieces] in *;
    apply bind_some in N as (u & U & N); apply bind_some in N as (v & V & N); inversion N; subst; exists u, v; auto. }
  destruct X as (u & v & U & V & ->).
  apply dir_pieces_ok in U; [|exact EU]. apply dir_pieces_ok in V; [|exact EV].
  rewrite (pieces_unique _ _ _ _ _ _ U PU) in D. rewrite (pieces_unique _ _ _ _ _ _ V PV) in D.
  unfold mesh_counts in D; cbn in D.
  apply bind_some in D as (p & P & D). apply int_some in P as [-> _].
  apply bind_some in D as (e & E & D). apply bind_some in D as (f & F & D).
  apply bind_some in D as (w & W & D). apply int_some in W as [-> _].
  apply bind_some in D as (y & Y & D). apply int_some in Y as [-> _].
  inversion D; subst; cbn. split; [lia|]. split; [|lia]. rewrite B. unfold ends.
  destruct uper, vper; repeat match goal with
    | X : Some _ = Some _ |- _ => inversion X; subst; clear X
    | X : add _ _ = Some _ |- _ => apply int_some in X as [-> _]
    end; reflexivity.
Qed.

Lemma cubic_varying_ok periodic step nverts : forall s t,
  Forall (fun n => enough true periodic n step) nverts ->
  cubic_varying s periodic step nverts = Some t ->
  exists qs, all_pieces true periodic step nverts qs /\ t = s + total (map (ends periodic) qs).
Proof.
  induction nverts as [|n r IH]; cbn [cubic_varying]; intros s t F H.
  - inversion H; subst. exists []. split; [constructor|]. cbn. lia.
  - inversion F as [|? ? E F']; subst. apply bind_some in H as (k & K & H).
    apply bind_some in H as (u & U & H). apply int_some in U as [-> _].
    destruct (IH _ _ F' H) as (qs & A & T).
    assert (X : exists q, pieces true periodic n step q /\ k = ends periodic q).
    { destruct periodic.
      - exists k. split; [apply cubic_pieces_ok; [exact E|exact K]|reflexivity].
      - apply bind_some in K as (a & AA & K). apply bind_some in K as (b & BB & K).
        apply bind_some in K as (d & DD & K). apply int_some in K as [-> _]. exists d. split; [|reflexivity].
        apply cubic_pieces_ok; [exact E|]. cbn. rewrite AA, BB. exact DD. }
    destruct X as (q & Q & ->). exists (q :: qs). split; [constructor; auto|].
    cbn [map]. change (total (?x :: ?l)) with (x + total l). lia.
Qed.
Lemma all_pieces_unique cubic periodic step nverts qs rs :
  all_pieces cubic periodic step nverts qs -> all_pieces cubic periodic step nverts rs -> qs = rs.
Proof.
  intros H. revert rs. induction H as [|n q nv qs P F IH]; intros rs R; inversion R; subst; [reflexivity|].
  f_equal; [eapply pieces_unique; eauto|auto].
Qed.
Lemma core_curves_counts cubic periodic step nverts c d :
  Forall (fun n => enough cubic periodic n (if cubic then step else 1)) nverts ->
  curves_counts cubic nverts periodic step true = Some c ->
  group_counts cubic periodic step nverts = Some d ->
  uniform d = uniform c /\ varying d = varying c /\ vertex d = vertex c.
Proof.
  intros F H D. apply curves_counts_right in H as (qs & A & B & C & E); [|exact F].
  unfold group_counts in D. apply bind_some in D as (t & T & D). apply sum_from_ok in T. cbn in T. subst t.
  apply bind_some in D as (v & V & D). inversion D; subst; cbn. split; [auto|]. split; [|auto].
  rewrite C. destruct cubic.
  - apply cubic_varying_ok in V as (rs & R & ->); [|exact F].
    rewrite (all_pieces_unique _ _ _ _ _ _ R A). lia.
  - inversion V; subst. destruct (linear_ends periodic nverts F) as (rs & R & S1).
    rewrite <- (all_pieces_unique _ _ _ _ _ _ R A), S1. reflexivity.
Qed.

(** * Dividing a mesh *)
Lemma range_nth n k : 0 <= k < n -> nth_error (range n) (Z.to_nat k) = Some k.
Proof.
  intros H. unfold range. rewrite nth_error_map.
  assert (E : nth_error (seq 0 (Z.to_nat n)) (Z.to_nat k) = Some (Z.to_nat k)).
  { rewrite (nth_error_nth' _ 0%nat) by (rewrite seq_length; lia). rewrite seq_nth by lia. reflexivity. }
  rewrite E. cbn. f_equal. lia.
Qed.
Lemma range_length n : length (range n) = Z.to_nat n.
Proof. unfold range. now rewrite map_length, seq_length. Qed.

Lemma flat_map_nth {A B} (f : A -> list B) w : (forall x, length (f x) = w) ->
  forall l i a, nth_error l i = Some a -> forall j b, nth_error (f a) j = Some b ->
  nth_error (flat_map f l) (i * w + j) = Some b.
Proof.
  intros L l. induction l as [|x r IH]; intros i a H j b K; [destruct i; discriminate|].
  cbn [flat_map]. destruct i as [|i]; cbn in H.
  - inversion H; subst. cbn. rewrite nth_error_app1; [exact K|]. apply nth_error_Some. congruence.
  - rewrite nth_error_app2 by (rewrite L; lia). rewrite L.
    replace (S i * w + j - w)%nat with (i * w + j)%nat by lia. eapply IH; eauto.
Qed.
Lemma flat_map_const_length {A B} (f : A -> list B) w : (forall x, length (f x) = w) ->
  forall l, length (flat_map f l) = (length l * w)%nat.
Proof. intros L l. induction l; cbn; [reflexivity|]. rewrite app_length, L, IHl. lia. Qed.

Lemma split_mesh_length m : 0 <= u_patches m -> 0 <= v_patches m ->
  Z.of_nat (length (split_mesh m)) = u_patches m * v_patches m.
Proof.
  intros U V. unfold split_mesh.
  rewrite (flat_map_const_length _ (Z.to_nat (u_patches m))) by (intros; now rewrite map_length, range_length).
  rewrite range_length. nia.
Qed.
Lemma split_mesh_nth m i j : 0 <= i < v_patches m -> 0 <= j < u_patches m ->
  nth_error (split_mesh m) (Z.to_nat (i * u_patches m + j)) =
  Some (if m_cubic m then cubic_patch m i j else bilinear_patch m i j).
Proof.
  intros I J. unfold split_mesh.
  replace (Z.to_nat (i * u_patches m + j)) with (Z.to_nat i * Z.to_nat (u_patches m) + Z.to_nat j)%nat by nia.
  eapply flat_map_nth with (a := i).
  - intros x. now rewrite map_length, range_length.
  - now apply range_nth.
  - rewrite nth_error_map, range_nth by lia. reflexivity.
Qed.

(** Wrapping as the code does it. *)
Lemma rem_wrap cubic periodic n step q k a :
  pieces cubic periodic n step q -> enough cubic periodic n step -> 0 < n ->
  0 <= k < q -> 0 <= a < width cubic -> Z.rem (k * step + a) n = wrap periodic n (k * step + a).
Proof.
  intros P E N K A. apply P in K. destruct K as [K L]. destruct E as [E [_ E2]]. unfold wrap. destruct periodic.
  - apply Z.rem_mod_nonneg; [nia|lia].
  - apply Z.rem_small. nia.
Qed.
Lemma rem_after periodic q k : 0 <= k < q ->
  Z.rem k (ends periodic q) = k /\ Z.rem (k + 1) (ends periodic q) = after periodic q k.
Proof.
  intros K. unfold ends, after. destruct periodic.
  - split; [apply Z.rem_small; lia|]. apply Z.rem_mod_nonneg; lia.
  - split; apply Z.rem_small; lia.
Qed.

Lemma divided_mesh cubic uper vper nu nv us vs m :
  enough cubic uper nu us -> enough cubic vper nv vs -> 0 < nu -> 0 < nv ->
  new_mesh cubic nu nv uper vper us vs = Some m ->
  exists qu qv, pieces cubic uper nu us qu /\ pieces cubic vper nv vs qv /\
    Z.of_nat (length (split_mesh m)) = qu * qv /\
    forall i j, 0 <= i < qv -> 0 <= j < qu ->
    exists p, nth_error (split_mesh m) (Z.to_nat (i * qu + j)) = Some p /\
      corners p = own_corners uper vper qu qv i j /\
      points p = own_vertices cubic uper vper nu nv us vs i j /\ face p = j.
Proof.
  intros EU EV NU NV N.
  assert (X : exists u v, dir_pieces cubic uper nu us = Some u /\ dir_pieces cubic vper nv vs = Some v /\
     m = mkMesh cubic nu nv uper vper us vs u v).
  { unfold new_mesh in N. destruct cubic; cbn [dir_pieces] in *;
    apply bind_some in N as (u & U & N); apply bind_some in N as (v & V & N); inversion N; subst; exists u, v; auto. }
  destruct X as (qu & qv & U & V & ->).
  apply dir_pieces_ok in U; [|exact EU]. apply dir_pieces_ok in V; [|exact EV].
  exists qu, qv. split; [exact U|]. split; [exact V|]. split.
  { rewrite split_mesh_length; cbn; [reflexivity|exact (proj1 U)|exact (proj1 V)]. }
  intros i j I J. eexists. split; [apply split_mesh_nth; [exact I|exact J]|]. cbn [m_cubic].
  set (m := mkMesh _ _ _ _ _ _ _ _ _).
  assert (PC : forall a b, 0 <= a < width cubic -> 0 <= b < width cubic ->
    patch_coord m (i * vs + a) (j * us + b) = wrap vper nv (i * vs + a) * nu + wrap uper nu (j * us + b)).
  { intros a b A B. unfold patch_coord, m; cbn.
    rewrite (rem_wrap _ _ _ _ _ _ _ V EV NV I A), (rem_wrap _ _ _ _ _ _ _ U EU NU J B). reflexivity. }
  destruct (rem_after uper qu j J) as [J0 J1]. destruct (rem_after vper qv i I) as [I0 I1].
  destruct cubic.
  - cbn [cubic_patch corners points face]. split; [|split; [|reflexivity]].
    + unfold own_corners, patch_corner, m; cbn [m_uper m_vper u_patches v_patches].
      fold (ends uper qu). fold (ends vper qv). rewrite J0, J1, I0, I1. reflexivity.
    + unfold own_vertices, width in *. cbn [flat_map map app m_ustep m_vstep m].
      rewrite <- (Z.add_0_r (j * us)) at 1 5 9 13.
      rewrite !PC by lia. reflexivity.
  - assert (us = 1) by (destruct EU as [_ [Y _]]; auto). assert (vs = 1) by (destruct EV as [_ [Y _]]; auto). subst.
    rewrite !Z.mul_1_r in PC. unfold width in PC.
    assert (P00 := PC 0 0). assert (P01 := PC 0 1). assert (P10 := PC 1 0). assert (P11 := PC 1 1).
    repeat rewrite Z.add_0_r in P00. repeat rewrite Z.add_0_r in P01. repeat rewrite Z.add_0_r in P10.
    cbn [bilinear_patch corners points face]. rewrite P00, P01, P10, P11 by lia.
    assert (NUE := bilinear_ends _ _ _ U EU). assert (NVE := bilinear_ends _ _ _ V EV).
    split; [|split; [|reflexivity]].
    + unfold own_corners. rewrite NUE.
      assert (WU : wrap uper nu j = j /\ wrap uper nu (j + 1) = after uper qu j).
      { unfold wrap, after, ends in *. destruct uper; [|auto]. subst qu. split; [apply Z.mod_small; lia|reflexivity]. }
      assert (WV : wrap vper nv i = i /\ wrap vper nv (i + 1) = after vper qv i).
      { unfold wrap, after, ends in *. destruct vper; [|auto]. subst qv. split; [apply Z.mod_small; lia|reflexivity]. }
      destruct WU as [-> ->]. destruct WV as [-> ->]. reflexivity.
    + unfold own_vertices. cbn [flat_map map app]. rewrite !Z.mul_1_r, !Z.add_0_r. reflexivity.
Qed.

(** All numbers a patch reads from are in range, and every corner is read. *)
Lemma after_range periodic q k : 0 <= k < q -> 0 <= after periodic q k < ends periodic q.
Proof. intros K. unfold after, ends. destruct periodic; [apply Z.mod_pos_bound; lia|lia]. Qed.
Lemma own_corners_range uper vper qu qv i j x : 0 <= i < qv -> 0 <= j < qu ->
  In x (own_corners uper vper qu qv i j) -> 0 <= x < ends uper qu * ends vper qv.
Proof.
  intros I J H. assert (A := after_range uper qu j J). assert (B := after_range vper qv i I).
  assert (J' : 0 <= j < ends uper qu) by (unfold ends; destruct uper; lia).
  assert (I' : 0 <= i < ends vper qv) by (unfold ends; destruct vper; lia).
  destruct H as [<-|[<-|[<-|[<-|[]]]]]; nia.
Qed.
Lemma wrap_range cubic periodic n step q k a :
  pieces cubic periodic n step q -> 0 < step -> 0 < n -> 0 <= k < q -> 0 <= a < width cubic ->
  0 <= wrap periodic n (k * step + a) < n.
Proof.
  intros P E N K A. apply P in K. destruct K as [K L]. unfold wrap. destruct periodic.
  - apply Z.mod_pos_bound; lia.
  - nia.
Qed.
Lemma own_vertices_range cubic uper vper nu nv us vs qu qv i j x :
  pieces cubic uper nu us qu -> pieces cubic vper nv vs qv -> 0 < us -> 0 < vs -> 0 < nu -> 0 < nv ->
  0 <= i < qv -> 0 <= j < qu ->
  In x (own_vertices cubic uper vper nu nv us vs i j) -> 0 <= x < nu * nv.
Proof.
  intros PU PV US VS NU NV I J H. unfold own_vertices in H. apply in_flat_map in H as (a & A & H).
  apply in_map_iff in H as (b & <- & B).
  assert (W : forall z, In z (if cubic then [0; 1; 2; 3] else [0; 1]) -> 0 <= z < width cubic).
  { intros z Z0. unfold width. destruct cubic; cbn in Z0; lia. }
  assert (X := wrap_range _ _ _ _ _ _ _ PV VS NV I (W _ A)).
  assert (Y := wrap_range _ _ _ _ _ _ _ PU US NU J (W _ B)). nia.
Qed.
Lemma end_used periodic q e : 0 < q -> 0 <= e < ends periodic q ->
  exists k, 0 <= k < q /\ (e = k \/ e = after periodic q k).
Proof.
  intros Q E. unfold ends, after in *. destruct periodic.
  - exists e. lia.
  - destruct (Z.eq_dec e q) as [->|D]; [exists (q - 1)|exists e]; lia.
Qed.
Lemma corner_used uper vper qu qv x : 0 < qu -> 0 < qv -> 0 <= x < ends uper qu * ends vper qv ->
  exists i j, 0 <= i < qv /\ 0 <= j < qu /\ In x (own_corners uper vper qu qv i j).
Proof.
  intros QU QV X. assert (E : 0 < ends uper qu) by (unfold ends; destruct uper; lia).
  set (r := x / ends uper qu). set (c := x mod ends uper qu).
  assert (D : x = r * ends uper qu + c) by (unfold r, c; rewrite Z.mul_comm; apply Z.div_mod; lia).
  assert (C : 0 <= c < ends uper qu) by (apply Z.mod_pos_bound; lia).
  assert (R : 0 <= r < ends vper qv).
  { unfold r. split; [apply Z.div_pos; lia|]. apply Z.div_lt_upper_bound; lia. }
  destruct (end_used _ _ _ QV R) as (i & I & IE). destruct (end_used _ _ _ QU C) as (j & J & JE).
  exists i, j. split; [exact I|]. split; [exact J|]. rewrite D. unfold own_corners; cbn.
  destruct IE as [->| ->], JE as [->| ->]; auto.
Qed.

Lemma same_piece a b c a' b' c' : a = a' -> b = b' -> c = c' -> Some (mkPiece a b c) = Some (mkPiece a' b' c').
Proof. congruence. Qed.
Ltac same_lists :=
  repeat first [apply same_piece | apply (f_equal2 (@cons Z))]; first [reflexivity | lia].

(** * Dividing curves *)
Lemma cubic_segments_nth segs : forall pc vary nvary vs ws uni k, (k < segs)%nat ->
  nth_error (cubic_segments segs pc vary nvary vs ws uni) k =
  Some (let z := Z.of_nat k in
        mkPiece [Z.rem (vary + z) nvary + ws; Z.rem (vary + z + 1) nvary + ws]
          [4 * (pc + z) + vs; 4 * (pc + z) + 1 + vs; 4 * (pc + z) + 2 + vs; 4 * (pc + z) + 3 + vs] uni).
Proof.
  induction segs as [|s IH]; intros pc vary nvary vs ws uni k K; [lia|].
  destruct k as [|k]; cbn [cubic_segments nth_error].
  - cbn. rewrite !Z.add_0_r. reflexivity.
  - rewrite IH by lia. cbv zeta. f_equal.
    replace (pc + 1 + Z.of_nat k) with (pc + Z.of_nat (S k)) by lia.
    replace (vary + 1 + Z.of_nat k) with (vary + Z.of_nat (S k)) by lia. reflexivity.
Qed.
Lemma cubic_segments_length segs : forall pc vary nvary vs ws uni,
  length (cubic_segments segs pc vary nvary vs ws uni) = segs.
Proof. induction segs; intros; cbn; auto. Qed.

Definition from_vertices (sv start n : Z) : list Z :=
  [sv + start; Z.rem (sv + 1) n + start; Z.rem (sv + 2) n + start; Z.rem (sv + 3) n + start].
Lemma convert_segments_nth segs : forall sv start n step k r, (k < segs)%nat -> (r < 4)%nat ->
  nth_error (convert_segments segs sv start n step) (4 * k + r) =
  Some (mkBezier (from_vertices (sv + Z.of_nat k * step) start n) (Z.of_nat r)).
Proof.
  induction segs as [|s IH]; intros sv start n step k r K R; [lia|].
  cbn [convert_segments]. destruct k as [|k].
  - cbn [Z.of_nat Z.mul]. rewrite Z.add_0_r. 
    destruct r as [|[|[|[|r]]]]; [reflexivity..|lia].
  - replace (4 * S k + r)%nat with (4 + (4 * k + r))%nat by lia. cbn [app]. cbn [Nat.add nth_error].
    rewrite IH by lia. replace (sv + step + Z.of_nat k * step) with (sv + Z.of_nat (S k) * step) by nia. reflexivity.
Qed.
Lemma convert_segments_length segs : forall sv start n step,
  length (convert_segments segs sv start n step) = (4 * segs)%nat.
Proof. induction segs as [|s IH]; intros; cbn [convert_segments app]; [reflexivity|]. cbn [length]. rewrite IH. lia. Qed.

Lemma all_pieces_nonneg cubic periodic step nverts qs :
  all_pieces cubic periodic step nverts qs -> Forall (fun q => 0 <= q) qs.
Proof. induction 1 as [|n q nv qs P F IH]; constructor; auto. exact (proj1 P). Qed.
Lemma total_nonneg l : Forall (fun q => 0 <= q) l -> 0 <= total l.
Proof. induction 1; unfold total in *; cbn; lia. Qed.
Lemma start_of_nonneg l c : Forall (fun q => 0 <= q) l -> 0 <= start_of l c.
Proof. intros F. apply total_nonneg. revert c. induction F; intros [|c]; cbn; constructor; auto. Qed.
Lemma start_of_S x l c : start_of (x :: l) (S c) = x + start_of l c.
Proof. reflexivity. Qed.

Lemma split_cubic_spec periodic step nverts : forall qs vs ws uni l,
  Forall (fun n => enough true periodic n step) nverts -> all_pieces true periodic step nverts qs ->
  split_cubic vs ws uni periodic step nverts = Some l ->
  Z.of_nat (length l) = total qs /\
  forall c q k, nth_error qs c = Some q -> 0 <= k < q ->
  let o := start_of qs c + k in let e := ws + start_of (map (ends periodic) qs) c in
  nth_error l (Z.to_nat o) =
    Some (mkPiece [e + k; e + after periodic q k]
            [4 * o + vs; 4 * o + 1 + vs; 4 * o + 2 + vs; 4 * o + 3 + vs] (uni + Z.of_nat c)).
Proof.
  induction nverts as [|n r IH]; intros qs vs ws uni l F A H.
  - cbn in H. inversion A; inversion H; subst. split; [reflexivity|]. intros [|c] q k Q; discriminate.
  - cbn [split_cubic] in H. inversion F as [|? ? E F']; subst. inversion A as [|? q0 ? qs0 P A']; subst.
    apply bind_some in H as (segs & SG & H).
    assert (segs = q0) by (eapply pieces_unique; [apply cubic_pieces_ok; [exact E|exact SG]|exact P]). subst segs.
    cbv zeta in H. apply bind_some in H as (rest & R & H). inversion H; subst l; clear H.
    destruct (IH _ _ _ _ _ F' A' R) as [L N]. assert (Q0 := proj1 P). split.
    + rewrite app_length, cubic_segments_length, Nat2Z.inj_add, L, Z2Nat.id by lia. reflexivity.
    + intros c q k Q K. destruct c as [|c]; cbn [nth_error] in Q.
      * inversion Q; subst q0. cbv zeta. cbn [map].
        change (start_of (q :: qs0) 0) with 0. change (start_of (ends periodic q :: map (ends periodic) qs0) 0) with 0.
        rewrite !Z.add_0_l. rewrite nth_error_app1 by (rewrite cubic_segments_length; lia).
        rewrite cubic_segments_nth by lia. cbv zeta. rewrite !Z.add_0_l, Z2Nat.id by lia.
        fold (ends periodic q). destruct (rem_after periodic q k K) as [-> ->].
        same_lists.
      * cbv zeta. cbn [map]. rewrite !start_of_S. fold (ends periodic q0) in N.
        specialize (N c q k Q K). cbv zeta in N.
        assert (S1 : 0 <= start_of qs0 c) by (apply start_of_nonneg; eapply all_pieces_nonneg; eauto).
        rewrite nth_error_app2 by (rewrite cubic_segments_length; lia). rewrite cubic_segments_length.
        replace (Z.to_nat (q0 + start_of qs0 c + k) - Z.to_nat q0)%nat with (Z.to_nat (start_of qs0 c + k)) by lia.
        rewrite N. same_lists.
Qed.

Lemma convert_curves_spec periodic step nverts : forall qs start l,
  Forall (fun n => enough true periodic n step) nverts -> all_pieces true periodic step nverts qs ->
  convert_curves start periodic step nverts = Some l ->
  Z.of_nat (length l) = 4 * total qs /\
  forall c n q k r, nth_error nverts c = Some n -> nth_error qs c = Some q -> 0 <= k < q -> 0 <= r < 4 ->
  nth_error l (Z.to_nat (4 * (start_of qs c + k) + r)) =
    Some (mkBezier (map (fun a => start + start_of nverts c + wrap periodic n (k * step + a)) [0; 1; 2; 3]) r).
Proof.
  induction nverts as [|n r IH]; intros qs start l F A H.
  - cbn in H. inversion A; inversion H; subst. split; [reflexivity|]. intros [|c] ? q k ? ? Q; discriminate.
  - cbn [convert_curves] in H. inversion F as [|? ? E F']; subst. inversion A as [|? q0 ? qs0 P A']; subst.
    apply bind_some in H as (segs & SG & H).
    assert (segs = q0) by (eapply pieces_unique; [apply cubic_pieces_ok; [exact E|exact SG]|exact P]). subst segs.
    apply bind_some in H as (rest & R & H). inversion H; subst l; clear H.
    destruct (IH _ _ _ F' A' R) as [L N]. assert (Q0 := proj1 P). split.
    + rewrite app_length, convert_segments_length, Nat2Z.inj_add, L.
      change (total (q0 :: qs0)) with (q0 + total qs0). lia.
    + intros c m q k x M Q K X. destruct c as [|c]; cbn [nth_error] in Q, M.
      * inversion Q; inversion M; subst q0 m. unfold start_of; cbn [firstn total fold_right]. rewrite !Z.add_0_r, Z.add_0_l.
        replace (Z.to_nat (4 * k + x)) with (4 * Z.to_nat k + Z.to_nat x)%nat by lia.
        rewrite nth_error_app1 by (rewrite convert_segments_length; lia).
        rewrite convert_segments_nth by lia. rewrite !Z2Nat.id, Z.add_0_l by lia.
        assert (NP : 0 < n).
        { destruct (proj2 (proj2 P k) K) as [K1 K2]. destruct E as [S1 _]. unfold width in K2.
          destruct periodic; nia. }
        unfold from_vertices. f_equal. f_equal.
        assert (W : forall a, 0 <= a < width true -> Z.rem (k * step + a) n = wrap periodic n (k * step + a)).
        { intros a A0. eapply rem_wrap; eauto. }
        unfold width in W. cbn [map]. rewrite <- !W by lia.
        assert (Z0 : Z.rem (k * step + 0) n = k * step).
        { rewrite Z.add_0_r. apply Z.rem_small. destruct (proj2 (proj2 P k) K) as [K1 K2]. destruct E as [S1 _].
          unfold width in K2. destruct periodic; nia. }
        rewrite Z0. same_lists.
      * rewrite !start_of_S. specialize (N c m q k x M Q K X).
        assert (S1 : 0 <= start_of qs0 c) by (apply start_of_nonneg; eapply all_pieces_nonneg; eauto).
        rewrite nth_error_app2 by (rewrite convert_segments_length; lia). rewrite convert_segments_length.
        replace (Z.to_nat (4 * (q0 + start_of qs0 c + k) + x) - 4 * Z.to_nat q0)%nat
          with (Z.to_nat (4 * (start_of qs0 c + k) + x)) by lia.
        rewrite N. f_equal. f_equal. apply map_ext. intros a. lia.
Qed.

Lemma divided_cubic_curves periodic step nverts l :
  Forall (fun n => enough true periodic n step) nverts ->
  cubic_group periodic step nverts = Some l ->
  exists qs, all_pieces true periodic step nverts qs /\ Z.of_nat (length l) = total qs /\
  forall c n q k, nth_error nverts c = Some n -> nth_error qs c = Some q -> 0 <= k < q ->
  exists p, nth_error l (Z.to_nat (start_of qs c + k)) =
      Some (p, map (fun row => Some (mkBezier
                  (map (fun a => start_of nverts c + wrap periodic n (k * step + a)) [0; 1; 2; 3]) row)) [0; 1; 2; 3]) /\
    corners p = [start_of (map (ends periodic) qs) c + k; start_of (map (ends periodic) qs) c + after periodic q k] /\
    face p = Z.of_nat c.
Proof.
  unfold cubic_group. intros F H. apply bind_some in H as (cv & C & H). apply bind_some in H as (sp & S1 & H).
  inversion H; subst l; clear H.
  assert (X : exists qs, all_pieces true periodic step nverts qs).
  { clear C. revert S1. generalize 0 at 1 as vs. generalize 0 at 1 as ws. generalize 0 as uni. revert sp F.
    induction nverts as [|n r IH]; intros sp F uni ws vs H; [exists []; constructor|].
    cbn [split_cubic] in H. inversion F as [|? ? E F']; subst. apply bind_some in H as (q & Q & H).
    cbv zeta in H. apply bind_some in H as (rest & R & H). destruct (IH _ F' _ _ _ R) as (qs & A).
    exists (q :: qs). constructor; [|exact A]. apply cubic_pieces_ok; [exact E|exact Q]. }
  destruct X as (qs & A). exists qs. split; [exact A|].
  destruct (split_cubic_spec _ _ _ _ _ _ _ _ F A S1) as [L N].
  destruct (convert_curves_spec _ _ _ _ _ _ F A C) as [CL CN].
  split; [now rewrite map_length|]. intros c n q k NV Q K. specialize (N c q k Q K). cbv zeta in N.
  eexists. rewrite nth_error_map, N. cbn [option_map points]. rewrite !Z.add_0_r, !Z.add_0_l. split.
  - f_equal. f_equal. cbn [map].
    assert (Y : forall row, 0 <= row < 4 -> nth_error cv (Z.to_nat (4 * (start_of qs c + k) + row)) =
      Some (mkBezier (map (fun a => start_of nverts c + wrap periodic n (k * step + a)) [0; 1; 2; 3]) row)).
    { intros row R. rewrite (CN c n q k row NV Q K R). reflexivity. }
    assert (Y0 := Y 0). rewrite Z.add_0_r in Y0. rewrite Y0, !Y by lia. reflexivity.
  - cbn. split; reflexivity.
Qed.

(** Linear curves. *)
Lemma linear_segments_spec segs : forall seg vert first n uni,
  let '(l, v) := linear_segments segs seg vert first n uni in
  length l = segs /\ v = vert + Z.of_nat segs /\
  forall k, 0 <= k < Z.of_nat segs ->
    nth_error l (Z.to_nat k) =
      Some (let s := [vert + k; if seg + k =? n - 1 then first else vert + k + 1] in mkPiece s s uni).
Proof.
  induction segs as [|s IH]; intros seg vert first n uni; cbn [linear_segments].
  - split; [reflexivity|]. split; [lia|]. intros; lia.
  - specialize (IH (seg + 1) (vert + 1) first n uni).
    destruct (linear_segments s (seg + 1) (vert + 1) first n uni) as [l v]. destruct IH as (L & V & N).
    split; [cbn; lia|]. split; [lia|]. intros k K. destruct (Z.eq_dec k 0) as [->|D].
    + cbn. rewrite !Z.add_0_r. reflexivity.
    + replace (Z.to_nat k) with (S (Z.to_nat (k - 1))) by lia. cbn [nth_error]. rewrite N by lia. cbv zeta.
      replace (vert + 1 + (k - 1)) with (vert + k) by lia. replace (seg + 1 + (k - 1)) with (seg + k) by lia. reflexivity.
Qed.

Definition linear_pieces (periodic : bool) (n : Z) : Z := if periodic then n else n - 1.
Lemma linear_pieces_ok periodic n : enough false periodic n 1 -> pieces false periodic n 1 (linear_pieces periodic n).
Proof.
  unfold enough, pieces, is_piece, width, linear_pieces. intros [P [_ E]].
  destruct periodic; (split; [lia|]); intros k; lia.
Qed.

Lemma split_linear_spec periodic nverts : forall vert uni,
  Forall (fun n => enough false periodic n 1) nverts ->
  let qs := map (linear_pieces periodic) nverts in
  let l := split_linear vert uni periodic nverts in
  Z.of_nat (length l) = total qs /\
  forall c n q k, nth_error nverts c = Some n -> nth_error qs c = Some q -> 0 <= k < q ->
    nth_error l (Z.to_nat (start_of qs c + k)) =
      Some (let s := [vert + start_of nverts c + k; vert + start_of nverts c + after periodic q k] in
            mkPiece s s (uni + Z.of_nat c)).
Proof.
  induction nverts as [|n r IH]; intros vert uni F; cbv zeta.
  - split; [reflexivity|]. intros [|c] ? ? ? N; discriminate.
  - inversion F as [|? ? E F']; subst. cbn [split_linear map].
    assert (P := linear_pieces_ok _ _ E). assert (Q0 := proj1 P). fold (linear_pieces periodic n).
    assert (X := linear_segments_spec (Z.to_nat (linear_pieces periodic n)) 0 vert vert n uni).
    destruct (linear_segments _ _ _ _ _ _) as [l v]. destruct X as (L & V & N).
    assert (V2 : (if periodic then v else v + 1) = vert + n).
    { rewrite V. unfold linear_pieces in *. destruct periodic; lia. }
    rewrite V2. specialize (IH (vert + n) (uni + 1) F'). cbv zeta in IH. destruct IH as [TL TN].
    split; [rewrite app_length, Nat2Z.inj_add, TL, L, Z2Nat.id by lia; reflexivity|].
    intros c m q k M Q K. destruct c as [|c]; cbn [nth_error] in M, Q.
    + inversion M; inversion Q; subst m q. unfold start_of; cbn [firstn total fold_right].
      rewrite !Z.add_0_r, !Z.add_0_l. rewrite nth_error_app1 by lia. rewrite N by lia. cbv zeta.
      assert (A : (if 0 + k =? n - 1 then vert else vert + k + 1) = vert + after periodic (linear_pieces periodic n) k).
      { unfold after, linear_pieces in *. rewrite Z.add_0_l. destruct periodic.
        - destruct (k =? n - 1) eqn:KE.
          + apply Z.eqb_eq in KE. replace (k + 1) with n by lia. rewrite Z.mod_same by lia. lia.
          + apply Z.eqb_neq in KE. rewrite Z.mod_small by lia. lia.
        - rewrite (proj2 (Z.eqb_neq _ _)) by lia. lia. }
      rewrite A. reflexivity.
    + rewrite !start_of_S.
      assert (S1 : 0 <= start_of (map (linear_pieces periodic) r) c).
      { apply start_of_nonneg. rewrite Forall_map. eapply Forall_impl; [|exact F'].
        intros a EA. exact (proj1 (linear_pieces_ok _ _ EA)). }
      rewrite nth_error_app2 by lia. rewrite L.
      replace (Z.to_nat (linear_pieces periodic n + start_of (map (linear_pieces periodic) r) c + k)
               - Z.to_nat (linear_pieces periodic n))%nat
        with (Z.to_nat (start_of (map (linear_pieces periodic) r) c + k)) by lia.
      rewrite (TN c m q k M Q K). cbv zeta.
      replace (vert + n + start_of r c) with (vert + (n + start_of r c)) by lia.
      replace (uni + 1 + Z.of_nat c) with (uni + Z.of_nat (S c)) by lia. reflexivity.
Qed.

Lemma divided_linear_curves periodic nverts :
  Forall (fun n => enough false periodic n 1) nverts ->
  exists qs, all_pieces false periodic 1 nverts qs /\
  Z.of_nat (length (split_linear 0 0 periodic nverts)) = total qs /\
  forall c n q k, nth_error nverts c = Some n -> nth_error qs c = Some q -> 0 <= k < q ->
  exists p, nth_error (split_linear 0 0 periodic nverts) (Z.to_nat (start_of qs c + k)) = Some p /\
    corners p = [start_of (map (ends periodic) qs) c + k; start_of (map (ends periodic) qs) c + after periodic q k] /\
    points p = [start_of nverts c + wrap periodic n k; start_of nverts c + wrap periodic n (k + 1)] /\
    face p = Z.of_nat c.
Proof.
  intros F. exists (map (linear_pieces periodic) nverts).
  assert (E : map (ends periodic) (map (linear_pieces periodic) nverts) = nverts).
  { rewrite map_map. rewrite <- (map_id nverts) at 2. apply map_ext. intros n. unfold ends, linear_pieces.
    destruct periodic; lia. }
  split; [|split].
  - clear E. induction F; constructor; auto. now apply linear_pieces_ok.
  - exact (proj1 (split_linear_spec periodic nverts 0 0 F)).
  - intros c n q k N Q K. eexists. split; [apply (proj2 (split_linear_spec periodic nverts 0 0 F) c n q k N Q K)|].
    cbv zeta. cbn [corners points face]. rewrite E. rewrite !Z.add_0_l. split; [reflexivity|].
    split; [|reflexivity].
    assert (QE : q = linear_pieces periodic n).
    { rewrite nth_error_map, N in Q. cbn in Q. now inversion Q. }
    subst q. unfold wrap, after, linear_pieces in *. destruct periodic; [|reflexivity].
    rewrite (Z.mod_small k) by lia. reflexivity.
Qed.

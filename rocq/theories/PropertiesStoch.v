(** C47: sampling a region of a texture at random.  C48: shadows sampled at random. *)

From Coq Require Import List Bool ZArith QArith Lia Lqa.
From Verif Require Import TexModel TexSpec TexProofs AccumModel AccumSpec AccumProofs StochModel StochSpec StochProofs.
Import ListNotations.
Open Scope Z_scope.

(** C47: as many samples as asked for, all of them texels of the region inside the texture,
    for every use of the texture before and all random numbers.  Missing: numbers of samples
    and sizes of regions whose product is 2^24 or more, for which see below. *)
Theorem C47_partial {V} (f : file V) img (a : array V) fresh rand table s n :
  holds f img -> used_any f a -> 0 <= n ->
  (forall k, 0 <= rand k)%Q -> (forall j i, fraction (fst (table j i)) /\ fraction (snd (table j i))) ->
  let r := inside s (f_width V f) (f_height V f) in
  is_empty r = true \/ (area r < 2 ^ 24 /\ n * area r < 2 ^ 24) ->
  exists l b, stoch_visit V fresh rand table a s n = Some (l, b) /\
    samples_of l (if is_empty r then 0 else n) r img.
Proof.
  intros H U N R T r F. destruct (stoch_visit_ok f img H fresh rand table a s n (used_any_valid f img H a U) N R T F) as (l & b & E & _ & S).
  exists l, b. split; assumption.
Qed.
Print Assumptions C47_partial.

(** C47: sampling does not spoil the texture: after any use of it, all texels of a region are
    visited once each, with their values. *)
Theorem C47_kept {V} (f : file V) img (a : array V) fresh s :
  holds f img -> used_any f a ->
  exists l b, tiles_visit V fresh a s = Some (l, b) /\
    each_once l (fun x y => within s x y /\ 0 <= x < f_width V f /\ 0 <= y < f_height V f) img.
Proof.
  intros H U. destruct (tiles_visit_ok f img H fresh a s (used_any_valid f img H a U)) as (m & c & E3 & _ & O). exists m, c. split; assumption.
Qed.
Print Assumptions C47_kept.

(** C47: the shares are calculated with floats: for 4077 samples of a region of 125 x 33
    texels in one tile, the share of that tile is a little less than 4077; with a random
    number close to 1 one sample is left when there are no more tiles, and the division is
    by zero. *)
Definition wide_file : file unit := mkFile unit 128 64 128 64 (fun _ _ _ => tt).
Theorem C47_refuted :
  exists (f : file unit) img fresh rand table s n,
    holds f img /\ 0 <= n /\ (forall k, fraction (rand k)) /\
    (forall j i, fraction (fst (table j i)) /\ fraction (snd (table j i))) /\
    is_empty (inside s (f_width unit f) (f_height unit f)) = false /\
    stoch_visit unit fresh rand table (new_array unit f) s n = None.
Proof.
  exists wide_file, (fun _ _ => tt), (fun _ => tt), (fun _ => 16777215 # 16777216)%Q, (fun _ _ => (0, 0)%Q), (mkSupport 0 125 0 33), 4077.
  split. { unfold holds. cbn. do 4 (split; [ lia | ]). reflexivity. }
  split; [ lia | ]. split. { split; lra. } split. { split; split; cbn; lra. } split; [ reflexivity | ].
  unfold stoch_visit. change (is_empty _) with false. cbv iota zeta.
  change (Z.to_nat (f_width unit _ * f_height unit _)) with (S (S (Z.to_nat 8190))).
  apply (walk_stuck unit _ _ _ _ _ _ _ _ _ _ _ _ _ _ 4076); [ lia | lia | | ]; vm_compute; reflexivity.
Qed.
Print Assumptions C47_refuted.

(** C48: a shadow map of which as many samples are taken as asked for: the mean of what is
    occluded at texels of the region.  Missing: as for C47. *)
Theorem C48_random_partial (f : file (Z -> Q)) img (a : array (Z -> Q)) fresh rand table s weight surface length start low high samples :
  holds f img -> used_any f a -> 0 <= samples < area s -> start < length ->
  (forall k, 0 <= rand k)%Q -> (forall j i, fraction (fst (table j i)) /\ fraction (snd (table j i))) ->
  let r := inside s (f_width (Z -> Q) f) (f_height (Z -> Q) f) in
  is_empty r = true \/ (area r < 2 ^ 24 /\ samples * area r < 2 ^ 24) ->
  exists out taken, shadow_sample fresh a s weight surface length start low high samples (stoch_visit (Z -> Q) fresh rand table) = Some out /\
  Z.of_nat (List.length taken) = (if is_empty r then 0 else samples) /\ (forall x y, In (x, y) taken -> within r x y) /\
  (out == mean weight (fun x y => shade low high (surface x y) (img x y start)) taken)%Q.
Proof.
  intros H U A L R T r F. pose proof (used_any_valid f img H a U) as Va. destruct Va as [ Ef Va ]. unfold shadow_sample. rewrite Ef.
  destruct (meets s 0 _ 0 _) eqn:M.
  - rewrite (proj2 (Z.leb_gt (area s) samples)), (proj2 (Z.ltb_ge samples 0)) by lia. cbn [orb].
    destruct (C47_partial f img a fresh rand table s samples H U ltac:(lia) R T F) as (l & b & E & N & I). fold r in N, I. rewrite E.
    destruct (pcf_samples weight surface length start low high l b img L (fun x y v i => proj2 (I x y v i))) as (out & Eo & Ro).
    exists out, (map fst l). split; [ exact Eo | ]. split; [ rewrite map_length; exact N | ]. split; [ | exact Ro ].
    intros x y i. apply in_map_iff in i. destruct i as ([ [ x2 y2 ] v ] & Q & i). cbn in Q. injection Q as -> ->. exact (proj1 (I x y v i)).
  - exists 0%Q, []. split; [ reflexivity | ].
    assert (Er : is_empty r = true).
    { destruct (is_empty r) eqn:E; [ reflexivity | exfalso ]. unfold is_empty, empty1, r, inside in E. cbn [sx0 sx1 sy0 sy1] in E.
      rewrite orb_false_iff, !Z.leb_gt in E.
      assert (Q : meets s 0 (f_width (Z -> Q) f) 0 (f_height (Z -> Q) f) = true); [ | congruence ].
      unfold meets, meets1, empty1. rewrite !andb_true_iff, !negb_true_iff, !orb_false_iff, !Z.leb_gt. lia. }
    rewrite Er. split; [ reflexivity | ]. split; [ intros ? ? [] | reflexivity ].
Qed.
Print Assumptions C48_random_partial.

(** ** The hypotheses are met *)
Definition corner_file : file Z := mkFile Z 3 3 2 2 (fun tx ty k => 100 * (ty * 2 + Z.quot k 2) + (tx * 2 + Z.rem k 2)).
Example corner_holds : holds corner_file (fun x y => 100 * y + x).
Proof.
  unfold holds. cbn. do 4 (split; [ lia | ]). intros tx ty i j A B C D E F.
  rewrite Z.quot_div_nonneg, Z.rem_mod_nonneg by lia.
  assert (Q : (j * 2 + i) / 2 = j) by (symmetry; apply (Z.div_unique _ 2 j i); lia).
  assert (P : (j * 2 + i) mod 2 = i) by (symmetry; apply (Z.mod_unique _ 2 j i); lia). rewrite Q, P. reflexivity.
Qed.
Definition halves : nat -> nat -> Q * Q := fun j i => if Nat.even (i + j) then (1 # 2, 0)%Q else (3 # 4, 7 # 8)%Q.
Example halves_fractions j i : fraction (fst (halves j i)) /\ fraction (snd (halves j i)).
Proof. unfold halves. destruct (Nat.even _); cbn; split; split; lra. Qed.
(** Seven samples of six texels in two tiles. *)
Example corner_samples :
  option_map fst (stoch_visit Z (fun _ => 0) (fun k => (1 # 3)%Q) halves (new_array Z corner_file) (mkSupport (-1) 3 0 2) 7) =
    Some [(1, 0, 1); (1, 1, 101); (1, 0, 1); (1, 1, 101); (1, 0, 1); (2, 1, 102); (2, 0, 2)] /\
  is_empty (inside (mkSupport (-1) 3 0 2) 3 3) = false /\ 7 * area (inside (mkSupport (-1) 3 0 2) 3 3) < 2 ^ 24.
Proof. split; [ vm_compute; reflexivity | split; [ reflexivity | cbn; lia ] ]. Qed.

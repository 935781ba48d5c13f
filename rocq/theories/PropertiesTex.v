(** C23: visiting the texels of a region.  C24: wrapping. *)

From Coq Require Import List Bool ZArith Lia.
From Verif Require Import TexModel TexSpec TexProofs.
Import ListNotations.
Open Scope Z_scope.

(** C23: an array of tiles read from a file, after any use of it, visits every texel of the
    region (that the texture has) once and with the value it has in the image. *)
Theorem C23_tiles {V} (f : file V) (img : Z -> Z -> V) (a : array V) fresh s : holds f img -> used f a ->
  exists l b, tiles_visit V fresh a s = Some (l, b) /\ used f b /\
  each_once l (fun x y => within s x y /\ 0 <= x < f_width V f /\ 0 <= y < f_height V f) img.
Proof.
  intros H U. destruct (tiles_visit_ok f img H fresh a s (used_valid f img H a U)) as (l & b & E & _ & O).
  exists l, b. split; [ exact E | ]. split; [ exact (used_visit f a fresh s l b U E) | exact O ].
Qed.
Print Assumptions C23_tiles.

(** C23: one texel of it. *)
Theorem C23_texel {V} (f : file V) (img : Z -> Z -> V) (a : array V) fresh x y : holds f img -> used f a ->
  0 <= x < f_width V f -> 0 <= y < f_height V f ->
  exists b, texel V fresh a x y = Some (img x y, b) /\ used f b.
Proof.
  intros H U X Y. destruct (texel_ok f img H fresh a x y (used_valid f img H a U) X Y) as (b & E & _).
  exists b. split; [ exact E | exact (used_texel f a fresh x y _ b U X Y E) ].
Qed.
Print Assumptions C23_texel.

(** C23: a flat buffer. *)
Theorem C23_buffer {V} (b : buffer V) (img : Z -> Z -> V) s : 0 < b_width V b -> 0 < b_height V b -> buffer_holds b img ->
  exists l, buffer_visit V b s = Some (l, b) /\
  each_once l (fun x y => within s x y /\ 0 <= x < b_width V b /\ 0 <= y < b_height V b) img.
Proof.
  intros W H B. exact (buffer_visit_ok b img s W H B).
Qed.
Print Assumptions C23_buffer.

(** C24: no wrap mode is lost when only one direction, or neither, is both outside and
    wrapped in a different way; the region starts where floats are exact. *)
Definition near (s : support) : Prop := - 2 ^ 24 < sx0 s < 2 ^ 24 /\ - 2 ^ 24 < sy0 s < 2 ^ 24.
Definition wraps (w : wrap) : bool := match w with Trunc => false | _ => true end.

Theorem C24_tiles_partial {V} (f : file V) (img : Z -> Z -> V) (a : array V) fresh black s ws wt : holds f img -> used f a ->
  f_width V f <= 2 ^ 24 -> f_height V f <= 2 ^ 24 -> near s -> wraps ws = true -> wraps wt = true -> mixed ws wt = false ->
  exists l b, filter_texture V (array V) (tiles_visit V fresh) (f_width V f) (f_height V f) black a s ws wt = Some (l, b) /\
  each_once l (within s) (wrapped_texel black img ws wt (f_width V f) (f_height V f)).
Proof.
  intros HF U W H [ X Y ] Ts Tt M.
  destruct (filter_texture_ok (array V) (tiles_visit V fresh) (f_width V f) (f_height V f) black img (valid f img)
              ltac:(destruct HF; unfold small; lia) ltac:(destruct HF as (_ & ? & _); unfold small; lia)
              (fun a s Va => tiles_visit_ok f img HF fresh a s Va) a s ws wt (used_valid f img HF a U) Ts Tt X Y)
    as (l & b & E & _ & O).
  exists l, b. split; [ exact E | ]. eapply each_once_ext; [ | exact O ]. intros x y. cbv beta. rewrite M. intuition congruence.
Qed.
Print Assumptions C24_tiles_partial.

Theorem C24_buffer_partial {V} (b : buffer V) (img : Z -> Z -> V) black s ws wt : 0 < b_width V b <= 2 ^ 24 -> 0 < b_height V b <= 2 ^ 24 ->
  buffer_holds b img -> near s -> wraps ws = true -> wraps wt = true -> mixed ws wt = false ->
  exists l c, filter_texture V (buffer V) (buffer_visit V) (b_width V b) (b_height V b) black b s ws wt = Some (l, c) /\
  each_once l (within s) (wrapped_texel black img ws wt (b_width V b) (b_height V b)).
Proof.
  intros W H B [ X Y ] Ts Tt M.
  destruct (filter_texture_ok (buffer V) (buffer_visit V) (b_width V b) (b_height V b) black img (eq b) W H) with (a := b) (s := s) (ws := ws) (wt := wt)
    as (l & c & E & _ & O); auto.
  - intros c t <-. destruct (C23_buffer b img t ltac:(lia) ltac:(lia) B) as (l & E & O). exists l, b. auto.
  - exists l, c. split; [ exact E | ]. eapply each_once_ext; [ | exact O ]. intros x y. cbv beta. rewrite M. intuition congruence.
Qed.
Print Assumptions C24_buffer_partial.

(** C24: when one direction is clamped and the other periodic, exactly the texels outside in
    both directions are missing. *)
Theorem C24_mixed_partial {V} (b : buffer V) (img : Z -> Z -> V) black s ws wt : 0 < b_width V b <= 2 ^ 24 -> 0 < b_height V b <= 2 ^ 24 ->
  buffer_holds b img -> near s -> mixed ws wt = true ->
  exists l c, filter_texture V (buffer V) (buffer_visit V) (b_width V b) (b_height V b) black b s ws wt = Some (l, c) /\
  each_once l (fun x y => within s x y /\ ~ (outside (b_width V b) x /\ outside (b_height V b) y))
    (wrapped_texel black img ws wt (b_width V b) (b_height V b)).
Proof.
  intros W H B [ X Y ] M.
  destruct (filter_texture_ok (buffer V) (buffer_visit V) (b_width V b) (b_height V b) black img (eq b) W H) with (a := b) (s := s) (ws := ws) (wt := wt)
    as (l & c & E & _ & O); auto.
  - intros c t <-. destruct (C23_buffer b img t ltac:(lia) ltac:(lia) B) as (l & E & O). exists l, b. auto.
  - destruct ws, wt; try discriminate; reflexivity.
  - destruct ws, wt; try discriminate; reflexivity.
  - exists l, c. split; [ exact E | ]. eapply each_once_ext; [ | exact O ]. intros x y. cbv beta. rewrite M. intuition congruence.
Qed.
Print Assumptions C24_mixed_partial.

(** C24 fails for those: a region just outside the corner of the texture is given no sample
    at all. *)
Definition square : buffer Z := mkBuffer Z 2 2 (fun k => k + 1).
Theorem C24_mixed_refuted :
  filter_texture Z (buffer Z) (buffer_visit Z) 2 2 0 square (mkSupport 2 3 2 3) Clamp Periodic = Some ([], square) /\
  within (mkSupport 2 3 2 3) 2 2 /\ wrapped_texel 0 (fun x y => y * 2 + x + 1) Clamp Periodic 2 2 2 2 = 2.
Proof. split; [ vm_compute; reflexivity | ]. split; [ unfold within; cbn; lia | reflexivity ]. Qed.
Print Assumptions C24_mixed_refuted.

(** C24 fails far from the texture, where the first column of the region is not a float. *)
Theorem C24_far_refuted :
  filter_texture Z (buffer Z) (buffer_visit Z) 2 2 0 square (mkSupport 33554431 33554432 0 1) Periodic Periodic = Some ([], square) /\
  within (mkSupport 33554431 33554432 0 1) 33554431 0 /\
  wrapped_texel 0 (fun x y => y * 2 + x + 1) Periodic Periodic 2 2 33554431 0 = 2.
Proof. split; [ vm_compute; reflexivity | ]. split; [ unfold within; cbn; lia | reflexivity ]. Qed.
Print Assumptions C24_far_refuted.

(** The remaining mode, "trunc", is accepted, and wraps
    periodically. *)
Theorem C24_trunc : exists l, filter_texture Z (buffer Z) (buffer_visit Z) 2 2 0 square (mkSupport (-1) 0 0 1) Trunc Trunc = Some (l, square) /\
  filter_texture Z (buffer Z) (buffer_visit Z) 2 2 0 square (mkSupport (-1) 0 0 1) Periodic Periodic = Some (l, square) /\ l = [(-1, 0, 2)].
Proof. eexists. repeat split; vm_compute; reflexivity. Qed.
Print Assumptions C24_trunc.

(* ---------- Examples ---------- *)

(** A 5x3 image in tiles of 2x2; what the tiles at the edges hold beyond it is -1. *)
Definition image (x y : Z) : Z := 10 * y + x.
Definition example_file : file Z :=
  mkFile Z 5 3 2 2 (fun tx ty k =>
    let x := 2 * tx + k mod 2 in let y := 2 * ty + k / 2 in
    if (x <? 5) && (y <? 3) then image x y else -1).
Example example_holds : holds example_file image.
Proof.
  unfold holds, example_file. cbn [f_width f_height f_tile_width f_tile_height f_stored].
  repeat (split; [ lia | ]). intros tx ty i j X Y I J A B.
  assert (E1 : (j * 2 + i) mod 2 = i) by (symmetry; apply (Z.mod_unique _ 2 j i); lia).
  assert (E2 : (j * 2 + i) / 2 = j) by (symmetry; apply (Z.div_unique _ 2 j i); lia).
  rewrite E1, E2. replace ((2 * tx + i <? 5) && (2 * ty + j <? 3)) with true.
  - f_equal; lia.
  - symmetry. rewrite andb_true_iff, !Z.ltb_lt. lia.
Qed.
Example example_visit : option_map fst (tiles_visit Z (fun _ => 7) (new_array Z example_file) (mkSupport 1 9 (-3) 3)) =
  Some [(1, 0, 1); (1, 1, 11); (2, 0, 2); (3, 0, 3); (2, 1, 12); (3, 1, 13); (4, 0, 4); (4, 1, 14);
        (1, 2, 21); (2, 2, 22); (3, 2, 23); (4, 2, 24)].
Proof. vm_compute. reflexivity. Qed.
Example example_used : exists a, used example_file a /\ a <> new_array Z example_file /\ near (mkSupport 1 9 (-3) 3).
Proof.
  destruct (C23_tiles example_file image _ (fun _ => 7) (mkSupport 1 9 (-3) 3) example_holds (used_new _)) as (l & b & E & U & _).
  exists b. split; [ exact U | ]. split; [ | unfold near; cbn; lia ].
  intros ->. vm_compute in E. discriminate.
Qed.
Example square_holds : buffer_holds square (fun x y => y * 2 + x + 1).
Proof. intros x y X Y. cbn. lia. Qed.
Example example_wrap : option_map fst (filter_texture Z (buffer Z) (buffer_visit Z) 2 2 0 square (mkSupport (-1) 3 (-1) 1) Periodic Black) =
  Some [(0, 0, 1); (1, 0, 2); (-1, -1, 0); (-1, 0, 2); (0, -1, 0); (1, -1, 0); (2, -1, 0); (2, 0, 1)].
Proof. vm_compute. reflexivity. Qed.
Example example_mixed : option_map fst (filter_texture Z (buffer Z) (buffer_visit Z) 2 2 0 square (mkSupport 1 3 1 3) Clamp Periodic) =
  Some [(1, 1, 4); (1, 2, 2); (2, 1, 4)].
Proof. vm_compute. reflexivity. Qed.
(** Numbers between two floats become the nearer one, or the one with an even last digit. *)
Example rounds_to_even : float_div 16777217 1 = 16777216 /\ float_div 16777219 1 = 16777220 /\ float_div 33554431 2 = 16777216.
Proof. repeat split; vm_compute; reflexivity. Qed.

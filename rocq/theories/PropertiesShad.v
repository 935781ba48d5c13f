(** C59: a shadow map holds the depth of every pixel. *)
From Verif Require Import ShadSpec ShadProofs.
From Coq Require Import Lia.
Open Scope nat_scope.

(** The file holds the depth of every pixel, and its least depth.  Partial: the picture has one channel and needs no more
    rows of tiles than columns of tiles; for all others it is wrong (see below). *)
Theorem C59_depth_partial : forall big im, channels im = 1 -> complete im -> 1 <= width im ->
  tiles_for 32 (height im) <= tiles_for 32 (width im) ->
  exists f, save_as_shadow_map big im = Some f /\ f_width f = width im /\ f_height f = height im /\
    (forall x y, x < width im -> y < height im -> pixel f x y 0 = shown im x y 0) /\
    (forall v, In v (data im) -> (f_min f <= v)%Q) /\ ((exists v, In v (data im) /\ (v < big)%Q) -> In (f_min f) (data im)).
Proof.
  intros big im HC CM PW HT. destruct (min_sample_ok big im HC CM) as (m & EM & M1 & M2 & M3).
  destruct (save_tiles_ok 32 32 im m ltac:(lia) ltac:(lia) HC CM PW) as (f & EF & S). exists f.
  unfold save_as_shadow_map. rewrite EM. split; [exact EF|].
  assert (PX := pixels_saved 32 32 im m ltac:(lia) ltac:(lia) HC PW f S).
  destruct S as (S1 & S2 & S3 & S4 & S5 & S6 & _). split; [exact S1|]. split; [exact S2|]. split; [|rewrite S6; split; [exact M2|]].
  - intros x y LX LY. rewrite (PX x y LX LY). rewrite (proj2 (Nat.ltb_lt _ _)); [reflexivity|].
    assert (T := tiles_enough 32 (height im) y ltac:(lia) LY). lia.
  - intros (v & HV & LV). destruct M3 as [-> | H]; [|exact H]. exfalso. apply (Qlt_not_le _ _ LV). exact (M2 v HV).
Qed.
Print Assumptions C59_depth_partial.

(** A square picture, as shadow maps usually are, is always saved whole. *)
Theorem C59_square_partial : forall big im, channels im = 1 -> complete im -> 1 <= width im -> height im <= width im ->
  exists f, save_as_shadow_map big im = Some f /\
    forall x y, x < width im -> y < height im -> pixel f x y 0 = shown im x y 0.
Proof.
  intros big im HC CM PW HH. destruct (C59_depth_partial big im HC CM PW (tiles_mono 32 _ _ ltac:(lia) HH)) as (f & E & _ & _ & P & _).
  exists f. split; [exact E | exact P].
Qed.
Print Assumptions C59_square_partial.

(** High pictures: the number of rows of tiles is computed from the width, so that every pixel below them is missing from the
    file. *)
Theorem C59_high_refuted : forall big im, channels im = 1 -> complete im -> 1 <= width im ->
  exists f, save_as_shadow_map big im = Some f /\ f_height f = height im /\
    forall x y, x < width im -> y < height im -> 32 * tiles_for 32 (width im) <= y -> pixel f x y 0 = None.
Proof.
  intros big im HC CM PW. destruct (min_sample_ok big im HC CM) as (m & EM & _).
  destruct (save_tiles_ok 32 32 im m ltac:(lia) ltac:(lia) HC CM PW) as (f & EF & S). exists f.
  unfold save_as_shadow_map. rewrite EM. split; [exact EF|].
  assert (PX := pixels_saved 32 32 im m ltac:(lia) ltac:(lia) HC PW f S). split; [apply S|].
  intros x y LX LY H. rewrite (PX x y LX LY). rewrite (proj2 (Nat.ltb_ge _ _)); [reflexivity|].
  apply Nat.div_le_lower_bound; lia.
Qed.
Print Assumptions C59_high_refuted.

(** More than one channel: the tile has room for one only, whatever the picture. *)
Theorem C59_channels_refuted : forall big im, 1 <= width im -> 1 <= height im -> 2 <= channels im ->
  save_as_shadow_map big im = None.
Proof.
  intros big im PW PH HC. unfold save_as_shadow_map. destruct (min_sample big im); [|reflexivity].
  apply channels_overrun; lia.
Qed.
Print Assumptions C59_channels_refuted.

(** Examples: small tiles stand for those of 32 x 32, a picture of 5 x 3 pixels with tiles of 2 x 2, and a high one *)
Definition example_image : image := mkimage 5 3 1 [1; 2; 3; 4; 5;  6; 7; 8; 9; 10;  11; 12; 13; 14; 15]%Q.
Example example_complete : complete example_image /\ tiles_for 32 (height example_image) <= tiles_for 32 (width example_image).
Proof. split; vm_compute; [reflexivity | lia]. Qed.
Example example_tiles :
  option_map f_tiles (save_tiles 2 2 example_image 0)
  = Some [((4, 2), [15; 0; 0; 0]%Q); ((2, 2), [13; 14; 0; 0]%Q); ((0, 2), [11; 12; 0; 0]%Q);
          ((4, 0), [5; 0; 10; 0]%Q); ((2, 0), [3; 4; 8; 9]%Q); ((0, 0), [1; 2; 6; 7]%Q)].
Proof. vm_compute. reflexivity. Qed.
Example example_min : min_sample 1000 example_image = Some 1%Q.
Proof. vm_compute. reflexivity. Qed.
Example example_high :
  option_map f_tiles (save_tiles 2 2 (mkimage 2 3 1 [1; 2; 3; 4; 5; 6]%Q) 0) = Some [((0, 0), [1; 2; 3; 4]%Q)].
Proof. vm_compute. reflexivity. Qed.
Example example_high_meets : let im := mkimage 1 33 1 (repeat 1%Q 33) in complete im /\ 32 * tiles_for 32 (width im) <= 32 < height im.
Proof. vm_compute. split; [reflexivity | lia]. Qed.
Example example_channels : save_tiles 2 2 (mkimage 1 1 2 [1; 2]%Q) 0 = None.
Proof. vm_compute. reflexivity. Qed.

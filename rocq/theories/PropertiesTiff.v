(** C45: images written to files and read back. *)

From Coq Require Import List Bool ZArith Lia.
From Verif Require Import TexModel TexSpec TiffModel TiffSpec TiffProofs.
Import ListNotations.
Open Scope Z_scope.

(** A range of lines that the file has; no count means the rest. *)
Definition asks (height start count n : Z) : Prop :=
  0 <= start < height /\ n = (if count <=? 0 then height - start else count) /\ start + n <= height.

(** C45: a tiled file that holds an image gives any range of its lines, whatever is in the
    memory of the buffer before. *)
Theorem C45_read_tiled {V} (f : image_file V) tw th (img : Z -> Z -> V) fresh start count n :
  i_tile V f = Some (tw, th) -> holds (as_texture f tw th) img -> asks (i_height V f) start count n ->
  exists b, read_pixels V f fresh start count = Some b /\ shows b (i_width V f) n start img.
Proof.
  intros T H (S & En & Fit). unfold read_pixels. rewrite <- En, T.
  replace ((start <? 0) || (i_height V f <=? start) || (i_height V f <? start + n)) with false
    by (symmetry; rewrite !orb_false_iff, Z.leb_gt, !Z.ltb_ge; lia).
  eexists. split; [ reflexivity | ]. split; [ reflexivity | ]. split; [ reflexivity | ].
  intros x y X Y. cbn [b_width b_height b_data] in *. apply (read_tiles_ok f tw th img); try assumption; try lia.
Qed.
Print Assumptions C45_read_tiled.

(** C45: reading lines changes no memory outside those lines of the buffer. *)
Theorem C45_read_within {V} (f : image_file V) (img : Z -> Z -> V) fresh start count n b :
  match i_tile V f with Some (tw, th) => holds (as_texture f tw th) img | None => 0 < i_width V f end ->
  asks (i_height V f) start count n -> read_pixels V f fresh start count = Some b ->
  forall k, k < 0 \/ i_width V f * n <= k -> b_data V b k = fresh k.
Proof.
  intros T (S & En & Fit) E k K. unfold read_pixels in E. rewrite <- En in E.
  replace ((start <? 0) || (i_height V f <=? start) || (i_height V f <? start + n)) with false in E
    by (symmetry; rewrite !orb_false_iff, Z.leb_gt, !Z.ltb_ge; lia).
  assert (Npos : 0 < n) by (rewrite En; destruct (Z.leb_spec count 0); lia).
  injection E as <-. cbn [b_data]. destruct (i_tile V f) as [ [ tw th ] | ].
  - apply (proj2 (read_tiles_ok f tw th img fresh start n T ltac:(lia) Npos ltac:(lia))). destruct K; [ left | right ]; lia.
  - change 0 with (0 * i_width V f). apply read_lines_ok; lia.
Qed.
Print Assumptions C45_read_within.

(** C45: what is written to a new tiled file depends on nothing outside the buffer.  (The
    memory of a tile that libtiff has changed depends on what was in it only.) *)
Theorem C45_written_from {V} trash fresh (d d2 : Z -> V) tw th w h height tiles lines f f2 :
  (forall m m2 : Z -> V, (forall k, m k = m2 k) -> forall k, trash m k = trash m2 k) ->
  0 < w -> 0 < h -> 0 < tw -> 0 < th -> h <= height ->
  (forall k, 0 <= k < w * h -> d k = d2 k) ->
  write_pixels V trash fresh (new_file V (Some (tw, th)) w h tiles lines) (mkBuffer V w height d) = Some f ->
  write_pixels V trash fresh (new_file V (Some (tw, th)) w h tiles lines) (mkBuffer V w height d2) = Some f2 ->
  forall tx ty k, i_tiles V f tx ty k = i_tiles V f2 tx ty k.
Proof.
  intros T W H Tw Th Hh D. unfold write_pixels, new_file. cbn [i_width i_height i_line i_tile b_width b_height b_data].
  rewrite Z.eqb_refl, Z.sub_0_r, Z.min_r by lia. rewrite (proj2 (Z.ltb_lt 0 h)) by lia.
  unfold write_tiles. cbn [i_width i_height i_line i_tile b_width b_height b_data i_tiles i_lines].
  rewrite !Z.add_0_l, Z.eqb_refl, andb_false_r. intros E E2. injection E as <-. injection E2 as <-. cbn [i_tiles].
  apply (tile_lines_same trash T w h d d2 tw th h Tw Th W D (Z.to_nat h) 0); auto; lia.
Qed.
Print Assumptions C45_written_from.

(** C45: lines that the file does not have are refused. *)
Theorem C45_refused {V} (f : image_file V) fresh start count :
  read_pixels V f fresh start count = None <->
  ~ (0 <= start < i_height V f /\ start + (if count <=? 0 then i_height V f - start else count) <= i_height V f).
Proof.
  unfold read_pixels. set (n := if count <=? 0 then _ else _).
  destruct ((start <? 0) || (i_height V f <=? start) || (i_height V f <? start + n)) eqn:E.
  - rewrite !orb_true_iff, Z.leb_le, !Z.ltb_lt in E. split; [ lia | reflexivity ].
  - rewrite !orb_false_iff, Z.leb_gt, !Z.ltb_ge in E. split; [ discriminate | lia ].
Qed.
Print Assumptions C45_refused.

(** C45: an image written to a new tiled file with one call, from a buffer that has at least
    the lines of the file, can be read back as a texture (C23) and as lines.  Missing:
    tiled files written with several calls (see [C45_bands_refuted]). *)
Theorem C45_tiled_partial {V} trash fresh (b : buffer V) tw th w h tiles lines : 0 < w -> 0 < h -> 0 < tw -> 0 < th ->
  b_width V b = w -> h <= b_height V b ->
  exists f, write_pixels V trash fresh (new_file V (Some (tw, th)) w h tiles lines) b = Some f /\
    i_width V f = w /\ i_height V f = h /\
    holds (as_texture f tw th) (fun x y => b_data V b (y * w + x)) /\
    forall fresh2 start count n, asks h start count n ->
    exists c, read_pixels V f fresh2 start count = Some c /\ shows c w n start (fun x y => b_data V b (y * w + x)).
Proof.
  intros W H Tw Th Ew Hh.
  destruct (write_tiles_ok trash b fresh w h tw th tiles lines W H Tw Th Ew Hh) as (f & E & Fw & Fh & _ & Ft & Hf).
  exists f. repeat (split; [ assumption | ]). intros fresh2 start count n A. rewrite <- Fw.
  apply (C45_read_tiled f tw th); rewrite ?Fw, ?Fh; assumption.
Qed.
Print Assumptions C45_tiled_partial.

(** C45: an image written in scanlines, with any number of calls, is read back. *)
Theorem C45_scanlines {V} trash fresh (bs : list (buffer V)) w h tiles lines : 0 < w -> 0 < h ->
  Forall (fun b => b_width V b = w /\ 0 < b_height V b) bs -> lines_of bs = h ->
  exists f, write_all V trash fresh (new_file V None w h tiles lines) bs = Some f /\
    i_width V f = w /\ i_height V f = h /\
    forall fresh2 start count n, asks h start count n ->
    exists c img, read_pixels V f fresh2 start count = Some c /\ shows c w n start img /\
      forall x y, 0 <= y < h -> stacked bs x y = Some (img x y).
Proof.
  intros W H Fb El.
  destruct (write_scan_ok trash fresh w h bs (new_file V None w h tiles lines) W eq_refl eq_refl eq_refl ltac:(reflexivity) Fb ltac:(cbn; lia))
    as (f & E & Fw & Fh & Ft & _ & St & _).
  exists f. repeat (split; [ assumption | ]). intros fresh2 start count n (S & En & Fit). cbn [new_file i_line] in St.
  unfold read_pixels. rewrite Fh, Fw, Ft, <- En.
  replace ((start <? 0) || (h <=? start) || (h <? start + n)) with false
    by (symmetry; rewrite !orb_false_iff, Z.leb_gt, !Z.ltb_ge; lia).
  eexists. exists (fun x y => i_lines V f y x). split; [ reflexivity | ]. split.
  - split; [ reflexivity | ]. split; [ reflexivity | ]. intros x y X Y. cbn [b_width b_height b_data] in *.
    destruct (read_lines_ok (i_lines V f) w W (Z.to_nat n) start 0 fresh2) as [ R _ ]. apply (R y x); lia.
  - intros x y Y. rewrite St by lia. reflexivity.
Qed.
Print Assumptions C45_scanlines.

(** C45 does not hold of a tiled file that is written with two calls, each of a whole row of
    tiles: the second row is lost. *)
Theorem C45_bands_refuted : exists (w h tw th : Z) (bs : list (buffer Z)) f c,
  0 < w /\ 0 < h /\ 0 < tw /\ 0 < th /\ Forall (fun b => b_width Z b = w /\ b_height Z b = th) bs /\ lines_of bs = h /\
  write_all Z (fun m => m) (fun _ => 0) (new_file Z (Some (tw, th)) w h (fun _ _ _ => 0) (fun _ _ => 0)) bs = Some f /\
  read_pixels Z f (fun _ => 0) 0 0 = Some c /\ stacked bs 0 16 <> Some (b_data Z c (16 * w + 0)).
Proof.
  exists 1, 32, 16, 16, [mkBuffer Z 1 16 (fun _ => 7); mkBuffer Z 1 16 (fun _ => 8)]. eexists. eexists.
  do 4 (split; [ lia | ]). split; [ repeat constructor | ]. split; [ reflexivity | ].
  split; [ vm_compute; reflexivity | ]. split; [ vm_compute; reflexivity | ]. vm_compute. discriminate.
Qed.
Print Assumptions C45_bands_refuted.

(** ** The hypotheses are met *)
Definition picture : buffer Z := mkBuffer Z 5 4 (fun k => k).
Definition pixels (b : option (buffer Z)) : option (list Z) :=
  match b with
  | Some b => Some (map (fun k => b_data Z b (Z.of_nat k)) (seq 0 (Z.to_nat (b_width Z b * b_height Z b))))
  | None => None
  end.
Example tiled_read :
  match write_pixels Z (fun m k => m k + 100) (fun _ => 50) (new_file Z (Some (2, 3)) 5 4 (fun _ _ _ => 60) (fun _ _ => 70)) picture with
  | Some f => pixels (read_pixels Z f (fun _ => 80) 1 2)
  | None => None
  end = Some [5; 6; 7; 8; 9; 10; 11; 12; 13; 14].
Proof. vm_compute. reflexivity. Qed.
Example tiled_read_all :
  match write_pixels Z (fun m k => m k + 100) (fun _ => 50) (new_file Z (Some (2, 3)) 5 4 (fun _ _ _ => 60) (fun _ _ => 70)) picture with
  | Some f => pixels (read_pixels Z f (fun _ => 80) 2 0)
  | None => None
  end = Some [10; 11; 12; 13; 14; 15; 16; 17; 18; 19].
Proof. vm_compute. reflexivity. Qed.
Example asked : asks 4 1 2 2 /\ asks 4 2 0 2.
Proof. unfold asks. cbn. lia. Qed.
Example lines_read :
  match write_all Z (fun m => m) (fun _ => 0) (new_file Z None 2 3 (fun _ _ _ => 60) (fun _ _ => 70))
          [mkBuffer Z 2 1 (fun k => k); mkBuffer Z 2 2 (fun k => 10 + k)] with
  | Some f => pixels (read_pixels Z f (fun _ => 80) 0 2)
  | None => None
  end = Some [0; 1; 10; 11].
Proof. vm_compute. reflexivity. Qed.
(** Refused: the wrong width, more lines than there are, and part of a row of tiles. *)
Example refused : 
  write_pixels Z (fun m => m) (fun _ => 0) (new_file Z None 3 3 (fun _ _ _ => 60) (fun _ _ => 70)) picture = None /\
  write_pixels Z (fun m => m) (fun _ => 0) (new_file Z (Some (2, 3)) 5 9 (fun _ _ _ => 60) (fun _ _ => 70)) picture = None /\
  read_pixels Z (new_file Z None 3 3 (fun _ _ _ => 60) (fun _ _ => 70)) (fun _ => 0) 1 3 = None.
Proof. repeat split. Qed.

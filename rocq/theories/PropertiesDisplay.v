(* C54: what is in a picture file.  C55: the numbers which stand for the values of a picture. *)
From Coq Require Import ZArith QArith List Bool String Ascii Lia Lqa.
From Verif Require Import BucketModel DisplayModel DisplaySpec DisplayProofs.
Import ListNotations.
Local Open Scope string_scope.
Local Open Scope Z_scope.

(* ---- C54 ---- *)
(* For every resolution, window, size of buckets, picture and random numbers, for the modes "rgb",
   "rgba", "rgbaz" and variables, and for quantizations to 8 or 16 bits without a sign or to floats:
   the file shows the picture.  In particular nothing outside of a block of memory is read or
   written and no conversion is undefined.
   Not covered: buckets collected to lines together with most windows, signed and 32 bit
   quantizations, empty windows, variables of more than four values, and names of variables which
   begin like "rgb", "a" or "z" (all refuted below). *)
Theorem C54_bucket_partial : forall n o vars color depth var mode chs general qz di q pic random,
  window o -> shows vars color depth var mode chs general -> asked qz di general q -> unsigned q -> moderate o q chs pic ->
  (forall n, (0 <= random n)%Q /\ (random n < 1)%Q) -> o_xres o * o_yres o <= Z.of_nat n ->
  exists d f, mode_request mode vars qz di = Some d /\
    make_file n o KFile false d color depth var pic random = Some f /\ holds o chs q pic f.
Proof.
  intros n o vars color depth var mode chs general qz di q pic random W SH AS U MOD R N.
  apply (mode_file n o false vars color depth var mode chs general); auto. intros C. discriminate C.
Qed.
Print Assumptions C54_bucket_partial.

(* The same with the parameter "scanlineorder": the window begins at the left border and ends at
   the right one or where a bucket ends, and is as high as a bucket or as the picture. *)
Theorem C54_scanline_partial : forall n o vars color depth var mode chs general qz di q pic random,
  window o -> shows vars color depth var mode chs general -> asked qz di general q -> unsigned q -> moderate o q chs pic ->
  (forall n, (0 <= random n)%Q /\ (random n < 1)%Q) -> o_xres o * o_yres o <= Z.of_nat n ->
  o_cx0 o = 0 -> (o_cx1 o = o_xres o \/ o_cx1 o mod o_bx o = 0) ->
  (o_by o <= o_cy1 o - o_cy0 o \/ o_cy1 o - o_cy0 o = o_yres o) ->
  exists d f, mode_request mode vars qz di = Some d /\
    make_file n o KFile true d color depth var pic random = Some f /\ holds o chs q pic f.
Proof.
  intros n o vars color depth var mode chs general qz di q pic random W SH AS U MOD R N A B C.
  apply (mode_file n o true vars color depth var mode chs general); auto.
Qed.
Print Assumptions C54_scanline_partial.

(* Depth files, as floats *)
Theorem C54_zfile_partial : forall n o vars color depth var di q pic random,
  window o -> asked None di (Some depth) q -> (z_one depth == 0)%Q ->
  (forall n, (0 <= random n)%Q /\ (random n < 1)%Q) -> o_xres o * o_yres o <= Z.of_nat n ->
  exists d f, mode_request "z" vars None di = Some d /\
    make_file n o KZFile false d color depth var pic random = Some f /\ holds o [(SDepth, 0)] q pic f.
Proof.
  intros n o vars color depth var di q pic random W AS ONE R N.
  apply (z_file n o false vars color depth var di q pic random); auto. intros C. discriminate C.
Qed.
Print Assumptions C54_zfile_partial.

(* -- a case: 5 x 3 pixels in buckets of 2 x 2, of which the pixels 1..3 x 1..2 are wanted -- *)
Definition case_window : options := Options 5 3 2 2 1 1 1 4 1 3.
Definition case_pic : picture := fun x y c k =>
  (inject_Z (10 * y + x) / 100 + inject_Z k / 1000
   + match c with SCi => 0 | SAlpha => 1 # 2 | SDepth => 5 | SVar => 0 end)%Q.
Definition bytes8 : quantize := Quantize 255 0 255 (1 # 2).
Definition floats : quantize := Quantize 0 0 0 0.
Definition no_vars (s : string) : Z := if String.eqb s "speed" then 2 else 0.
Definition half (n : nat) : Q := 1 # 2.
Definition asked8 : quant := Quant 0 255 0 255 (1 # 2).

Definition rgba : list (source * Z) := [(SCi, 0); (SCi, 1); (SCi, 2); (SAlpha, 0)].
Lemma case_meets : window case_window /\ shows no_vars bytes8 floats None "rgba" rgba (Some bytes8) /\
  asked None None (Some bytes8) asked8 /\ unsigned asked8 /\ moderate case_window asked8 rgba case_pic /\
  (forall n, (0 <= half n)%Q /\ (half n < 1)%Q) /\ o_xres case_window * o_yres case_window <= Z.of_nat 15.
Proof.
  split; [unfold window, case_window; cbn [o_xres o_yres o_bx o_by o_cx0 o_cx1 o_cy0 o_cy1]; lia|].
  split; [constructor|]. split; [repeat split|]. split.
  - right. exists 0, 255. split; [reflexivity|]. split; [reflexivity|]. lia.
  - split.
    + right. intros x y c s X Y I S0 S1. unfold case_window in X, Y. cbn [o_xres o_yres] in X, Y.
      assert (XC : x = 0 \/ x = 1 \/ x = 2 \/ x = 3 \/ x = 4) by lia. assert (YC : y = 0 \/ y = 1 \/ y = 2) by lia.
      change (inject_Z (2 ^ 62)) with (4611686018427387904)%Q. unfold scaled, asked8, case_pic. cbn [q_zero q_one q_dither].
      destruct I as [E|[E|[E|[E|[]]]]]; subst c; destruct XC as [E|[E|[E|[E|E]]]]; subst x; destruct YC as [E|[E|E]]; subst y;
        cbn [fst snd]; unfold inject_Z, Qdiv, Qinv; cbn -[Qplus Qmult Qminus]; split; lra.
    + split; [intros n; unfold half; split; [discriminate | reflexivity]|]. cbn. lia.
Qed.
(* the samples of the first line of the file: r, g, b and a of the pixels (1, 1) to (3, 1) *)
Example case_file :
  match make_file 15 case_window KFile false (Request true true false 4 None None) bytes8 floats None case_pic half with
  | Some f => (f_w f, f_h f, f_count f, f_sample f) = (3, 2, 4, UInt8) /\
              firstn 12 (f_bytes f) = map (fun n => Some (Byte Unsigned8 (VI n) 0))
                [28; 29; 29; 156; 31; 31; 31; 158; 33; 34; 34; 161]
  | None => False
  end.
Proof. vm_compute. split; reflexivity. Qed.
(* two values of a variable, as floats and in lines *)
Definition whole : options := Options 3 2 2 2 1 1 0 3 0 2.
Example case_lines :
  match make_file 6 whole KFile true (Request false false false 2 None None) bytes8 floats None
          (fun x y _ k => inject_Z (100 * y + 10 * x + k)) half with
  | Some f => (f_w f, f_h f, f_count f, f_sample f) = (3, 2, 2, IeeeFloat) /\
              map (fun k => nth k (f_bytes f) None) [0; 4; 8; 12; 16; 20; 24; 28; 47]%nat
              = [Some (Byte Float32 (VF 0) 0); Some (Byte Float32 (VF 1) 0); Some (Byte Float32 (VF 10) 0);
                 Some (Byte Float32 (VF 11) 0); Some (Byte Float32 (VF 20) 0); Some (Byte Float32 (VF 21) 0);
                 Some (Byte Float32 (VF 100) 0); Some (Byte Float32 (VF 101) 0); Some (Byte Float32 (VF 121) 3)]
  | None => False
  end.
Proof. vm_compute. split; reflexivity. Qed.
Example case_depth :
  match make_file 15 case_window KZFile false (Request false false true 1 None None) bytes8 floats None
          (fun x y _ _ => inject_Z (10 * y + x)) half with
  | Some f => (f_w f, f_h f, f_count f, f_sample f) = (3, 2, 1, IeeeFloat) /\
              map (fun k => nth k (f_bytes f) None) [0; 4; 8; 12; 16; 20]%nat
              = map (fun n => Some (Byte Float32 (VF (inject_Z n)) 0)) [11; 12; 13; 21; 22; 23]
  | None => False
  end.
Proof. vm_compute. split; reflexivity. Qed.

(* -- what does not hold -- *)
(* Lines and a window away from the left border: the lines are written behind their block. *)
Theorem C54_scanline_left_refuted :
  make_file 4 (Options 4 1 2 1 1 1 2 4 0 1) KFile true (Request true false false 3 None None) floats floats None case_pic half = None.
Proof. vm_compute. reflexivity. Qed.
Print Assumptions C54_scanline_left_refuted.
(* Lines and a window which ends inside of a bucket: pixels right of the window go to the left
   border of the next line. *)
Definition inner : options := Options 4 4 2 2 1 1 0 3 0 4.
Theorem C54_scanline_right_refuted :
  window inner /\
  exists f, make_file 16 inner KFile true (Request true false false 3 None None) floats floats None
              (fun x y _ _ => inject_Z (10 * y + x)) half = Some f /\
    ~ holds inner [(SCi, 0); (SCi, 1); (SCi, 2)] (Quant 0 0 0 0 0) (fun x y _ _ => inject_Z (10 * y + x)) f.
Proof.
  split; [unfold window, inner; cbn [o_xres o_yres o_bx o_by o_cx0 o_cx1 o_cy0 o_cy1]; lia|].
  eexists. split; [vm_compute; reflexivity|].
  intros (_ & _ & _ & _ & HO). destruct (HO 0 1) as (s & _ & _ & K); [cbn; lia|cbn; lia|].
  destruct (K 0%nat (SCi, 0) eq_refl) as (v & SV & E). cbn in SV. subst v. vm_compute in E. discriminate E.
Qed.
Print Assumptions C54_scanline_right_refuted.
(* Integers of 32 bits are written as they are, but the file says they are floats. *)
Theorem C54_wide_refuted :
  exists f, make_file 1 (Options 1 1 1 1 1 1 0 1 0 1) KFile false
              (Request true false false 3 (Some (0, 100000, 0, 100000)%Q) None) bytes8 floats None (fun _ _ _ _ => 1%Q) half = Some f /\
    f_sample f = IeeeFloat /\
    sample_bytes f 0 0 0 = bytes_of Unsigned32 (VI 100000) /\
    ~ holds (Options 1 1 1 1 1 1 0 1 0 1) [(SCi, 0); (SCi, 1); (SCi, 2)] (Quant 0 100000 0 100000 (1 # 2)) (fun _ _ _ _ => 1%Q) f.
Proof.
  eexists. split; [vm_compute; reflexivity|]. split; [reflexivity|]. split; [reflexivity|].
  intros (_ & _ & _ & _ & HO). destruct (HO 0 0) as (s & _ & _ & K); [cbn; lia|cbn; lia|].
  destruct (K 0%nat (SCi, 0) eq_refl) as (v & _ & E). vm_compute in E. discriminate E.
Qed.
Print Assumptions C54_wide_refuted.
(* Numbers with a sign are converted to a type without one. *)
Theorem C54_signed_refuted :
  make_file 1 (Options 1 1 1 1 1 1 0 1 0 1) KFile false
    (Request true false false 3 (Some (0, 100, -100, 100)%Q) None) bytes8 floats None (fun _ _ _ _ => (- (1 # 2))%Q) half = None.
Proof. vm_compute. reflexivity. Qed.
Print Assumptions C54_signed_refuted.
(* With an empty window something is written into an empty block. *)
Theorem C54_empty_refuted :
  make_file 16 (Options 4 4 4 4 1 1 2 2 0 4) KFile false (Request true false false 3 None None) bytes8 floats None case_pic half = None.
Proof. vm_compute. reflexivity. Qed.
Print Assumptions C54_empty_refuted.
(* A depth file with quantized depths is read beyond its end. *)
Theorem C54_zfile_refuted :
  make_file 1 (Options 1 1 1 1 1 1 0 1 0 1) KZFile false (Request false false true 1 None None) bytes8 bytes8 None (fun _ _ _ _ => 1%Q) half = None.
Proof. vm_compute. reflexivity. Qed.
Print Assumptions C54_zfile_refuted.
(* A variable whose name begins with "rgb" is never shown: the colour is; one whose name begins
   with "a" is taken for alpha, and the driver refuses to show only that. *)
Theorem C54_name_refuted : forall vars qz di rest,
  mode_request (String.append "rgb" rest) vars qz di = mode_request "rgb" vars qz di \/
  exists r, rest = String.append "a" r \/ rest = String.append "z" r.
Proof.
  intros vars qz di rest. unfold mode_request. change (begins "rgb" (String.append "rgb" rest)) with (Some rest).
  destruct rest as [|c rest]; [left; reflexivity|].
  destruct (Ascii.eqb "a"%char c) eqn:E1. { apply Ascii.eqb_eq in E1. subst c. right. exists rest. left. reflexivity. }
  destruct (Ascii.eqb "z"%char c) eqn:E2. { apply Ascii.eqb_eq in E2. subst c. right. exists rest. right. reflexivity. }
  left. cbn [begins]. rewrite E1, E2. reflexivity.
Qed.
Print Assumptions C54_name_refuted.
Theorem C54_name_alpha_refuted : forall vars,
  exists d, mode_request "albedo" vars None None = Some d /\
    make_file 1 (Options 1 1 1 1 1 1 0 1 0 1) KFile false d bytes8 floats None case_pic half = None.
Proof. intros vars. eexists. split; [reflexivity|]. vm_compute. reflexivity. Qed.
Print Assumptions C54_name_alpha_refuted.

(* ---- C55 ---- *)
(* Whatever limits are given, the type that is chosen holds the number: the integer nearest to
   where the value lies between "zero" and "one", with its part of the dither added, kept within
   the limits.
   Not covered: limits in the wrong order, and values too large to be rounded (refuted below). *)
Theorem C55_stored_partial : forall q s v lo hi,
  ~ (q_one q == 0)%Q -> (q_min q == inject_Z lo)%Q -> (q_max q == inject_Z hi)%Q ->
  lo <= hi -> (0 <= lo /\ hi <= 4294967295) \/ (-2147483648 <= lo < 0 /\ hi <= 2147483647) ->
  (- inject_Z (2 ^ 62) <= scaled q s v)%Q -> (scaled q s v <= inject_Z (2 ^ 62))%Q ->
  exists w, (do x <- quantise q s v; convert (select_format (q_one q) (q_min q) (q_max q)) x) = Some w /\ stored_as q s v w.
Proof. exact quantised_fits. Qed.
Print Assumptions C55_stored_partial.
(* If "one" is 0, values are stored as they are. *)
Theorem C55_plain : forall q s v, (q_one q == 0)%Q ->
  (do x <- quantise q s v; convert (select_format (q_one q) (q_min q) (q_max q)) x) = Some (VF v).
Proof.
  intros q s v E. unfold select_format. pose proof E as E'. apply Qeq_bool_iff in E'. rewrite E'.
  apply (proj1 (value_plain q s v E)).
Qed.
Print Assumptions C55_plain.
(* What is stored is determined, and a brighter value never gets a smaller number. *)
Theorem C55_order : forall q s v v' n n',
  ~ (q_one q == 0)%Q -> (q_zero q <= q_one q)%Q -> (v <= v')%Q ->
  stored_as q s v (VI n) -> stored_as q s v' (VI n') -> n <= n'.
Proof. exact stored_mono. Qed.
Print Assumptions C55_order.

Example case_stored :
  stored_as asked8 (1 # 2) (1 # 2) (VI 128) /\
  (do x <- quantise asked8 (1 # 2) (1 # 2); convert (select_format 255 0 255) x) = Some (VI 128) /\
  stored_as asked8 (1 # 2) 2 (VI 255) /\
  (do x <- quantise (Quant (-10) 90 (-20) 100 0) 0 (- (1 # 10)); convert (select_format 90 (-20) 100) x) = Some (VI (-20)).
Proof.
  split; [|split; [vm_compute; reflexivity|split; [|vm_compute; reflexivity]]].
  - cbn. exists 0, 255, 128. repeat split; vm_compute; congruence.
  - cbn. exists 0, 255, 510. repeat split; vm_compute; congruence.
Qed.

(* Limits in the wrong order: a value above both gets the lower one of them. *)
Theorem C55_limits_refuted :
  (do x <- quantise (Quant 0 255 200 100 0) 0 2; convert (select_format 255 200 100) x) = Some (VI 100) /\
  ~ stored_as (Quant 0 255 200 100 0) 0 2 (VI 100).
Proof.
  split; [vm_compute; reflexivity|]. cbn. intros (lo & hi & m & L & H & _ & E). injection E as E.
  assert (lo = 200) by (apply (inject_Z_injective lo 200); symmetry; exact L). lia.
Qed.
Print Assumptions C55_limits_refuted.
(* A value such as the depth of what nothing hides (the largest float) cannot be rounded. *)
Theorem C55_huge_refuted :
  (do x <- quantise (Quant 0 255 0 255 0) 0 (inject_Z (2 ^ 127)); convert Unsigned8 x) = None.
Proof. vm_compute. reflexivity. Qed.
Print Assumptions C55_huge_refuted.

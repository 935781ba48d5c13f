(* What a picture file holds, in terms of the picture: its size, its channels and the number that
   stands for each value. *)
From Coq Require Import ZArith QArith List Bool String.
From Verif Require Import BucketModel DisplayModel.
Import ListNotations.
Local Open Scope Z_scope.

(* m is the integer nearest to x, the larger one if there are two *)
Definition nearest (m : Z) (x : Q) : Prop :=
  (inject_Z m - (1 # 2) <= x)%Q /\ (x < inject_Z m + (1 # 2))%Q.

(* Where a value is put between "zero" and "one", with a random part of the dither added *)
Definition scaled (q : quant) (s v : Q) : Q := (q_zero q + v * (q_one q - q_zero q) + q_dither q * s)%Q.
(* The number stored for the value v: v itself if "one" is 0, else the nearest integer, kept
   between the smallest and the largest one *)
Definition stored_as (q : quant) (s v : Q) (w : value) : Prop :=
  if Qeq_bool (q_one q) 0 then w = VF v
  else exists lo hi m, (q_min q == inject_Z lo)%Q /\ (q_max q == inject_Z hi)%Q /\
         nearest m (scaled q s v) /\ w = VI (Z.max lo (Z.min hi m)).

(* The quantization asked for: the parameters "quantize" and "dither" of the display go before what
   RiQuantize says about the kind of values; values nothing is said about stay as they are. *)
Definition asked (p : option (Q * Q * Q * Q)) (dither : option Q) (general : option quantize) (q : quant) : Prop :=
  match p, general with
  | Some (zero, one, lo, hi), _ => q_zero q = zero /\ q_one q = one /\ q_min q = lo /\ q_max q = hi
  | None, Some g => q_zero q = 0%Q /\ q_one q = z_one g /\ q_min q = z_min g /\ q_max q = z_max g
  | None, None => q_one q = 0%Q
  end /\
  match dither, general with
  | Some x, _ => q_dither q = x
  | None, Some g => q_dither q = z_dither g
  | None, None => q_dither q = 0%Q
  end.

(* What is shown in a mode, in the order of the channels of the file, and which RiQuantize counts.
   "vars" gives the number of values of an output variable. *)
Inductive shows (vars : string -> Z) (color depth : quantize) (var : option quantize)
  : string -> list (source * Z) -> option quantize -> Prop :=
| Sh_rgb : shows vars color depth var "rgb" [(SCi, 0); (SCi, 1); (SCi, 2)] (Some color)
| Sh_rgba : shows vars color depth var "rgba" [(SCi, 0); (SCi, 1); (SCi, 2); (SAlpha, 0)] (Some color)
| Sh_rgbaz : shows vars color depth var "rgbaz" [(SCi, 0); (SCi, 1); (SCi, 2); (SAlpha, 0); (SDepth, 0)] (Some depth)
| Sh_var name : vars name = 1 \/ vars name = 2 \/ vars name = 3 \/ vars name = 4 ->
    (forall rest, name <> String.append "rgb" rest /\ name <> String.append "a" rest /\ name <> String.append "z" rest) ->
    shows vars color depth var name (firstn (Z.to_nat (vars name)) [(SVar, 0); (SVar, 1); (SVar, 2); (SVar, 3)]) var.

(* The bytes of a value in memory *)
Definition bytes_of (t : ptype) (v : value) : list (option byte) :=
  match t with
  | Float32 | Unsigned32 | Signed32 => [Some (Byte t v 0); Some (Byte t v 1); Some (Byte t v 2); Some (Byte t v 3)]
  | Unsigned16 | Signed16 => [Some (Byte t v 0); Some (Byte t v 1)]
  | Unsigned8 | Signed8 => [Some (Byte t v 0)]
  end.
(* What a reader takes the samples of a file for *)
Definition sample_type (s : sample) : ptype :=
  match s with UInt8 => Unsigned8 | UInt16 => Unsigned16 | IeeeFloat => Float32 end.
(* The bytes of the k-th sample of the pixel (x, y) of a file *)
Definition sample_bytes (f : file) (x y k : Z) : list (option byte) :=
  firstn (Z.to_nat (sample_size (f_sample f)))
    (skipn (Z.to_nat (((y * f_w f + x) * f_count f + k) * sample_size (f_sample f))) (f_bytes f)).

(* The file has the size of the crop window and the channels "chs"; every sample is the value of
   its channel at its pixel, stored as "q" says; one random number counts for a pixel. *)
Definition holds (o : options) (chs : list (source * Z)) (q : quant) (pic : picture) (f : file) : Prop :=
  f_w f = o_cx1 o - o_cx0 o /\ f_h f = o_cy1 o - o_cy0 o /\
  f_count f = Z.of_nat (List.length chs) /\
  Z.of_nat (List.length (f_bytes f)) = f_w f * f_h f * f_count f * sample_size (f_sample f) /\
  forall x y, o_cx0 o <= x < o_cx1 o -> o_cy0 o <= y < o_cy1 o ->
    exists s, (0 <= s)%Q /\ (s < 1)%Q /\
      forall k c, nth_error chs k = Some c ->
        exists v, stored_as q s (pic x y (fst c) (snd c)) v /\
          sample_bytes f (x - o_cx0 o) (y - o_cy0 o) (Z.of_nat k) = bytes_of (sample_type (f_sample f)) v.

(* No value that is shown is so large that rounding it is undefined *)
Definition moderate (o : options) (q : quant) (chs : list (source * Z)) (pic : picture) : Prop :=
  (q_one q == 0)%Q \/
  forall x y c s, 0 <= x < o_xres o -> 0 <= y < o_yres o -> In c chs -> (0 <= s)%Q -> (s < 1)%Q ->
    (- inject_Z (2 ^ 62) <= scaled q s (pic x y (fst c) (snd c)))%Q /\
    (scaled q s (pic x y (fst c) (snd c)) <= inject_Z (2 ^ 62))%Q.

(* Values stay as they are, or become integers of 8 or 16 bits without a sign *)
Definition unsigned (q : quant) : Prop :=
  (q_one q == 0)%Q \/
  exists lo hi, (q_min q == inject_Z lo)%Q /\ (q_max q == inject_Z hi)%Q /\ 0 <= lo <= hi /\ hi <= 65535.

(* A window in a picture, and buckets *)
Definition window (o : options) : Prop :=
  1 <= o_bx o /\ 1 <= o_by o /\
  0 <= o_cx0 o < o_cx1 o /\ o_cx1 o <= o_xres o /\ 0 <= o_cy0 o < o_cy1 o /\ o_cy1 o <= o_yres o.

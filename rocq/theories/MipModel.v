(** Mipmaps: how the ever smaller copies of a texture are made, written and used.

    Numbers are rationals where the code has floats, except for the sizes of levels and for
    [repeated], where the rounding of floats is modelled.  Memory is as in TexModel and
    AccumModel: a texel is a function from channels to numbers. *)

From Coq Require Import List Bool ZArith QArith Qround.
From Verif Require Import TexModel AccumModel TiffModel.
Import ListNotations.
Open Scope Z_scope.

Definition samples : Type := Z -> Q.

(** ** Values of channels *)

(** The type of channels: floats, or integers with a greatest value. *)
Definition channel := option Z.
(** CqSampleVector::operator[] (samplevector.h:86-103). *)
Definition load (t : channel) (v : Q) : Q :=
  match t with Some m => (1 / inject_Z m * v)%Q | None => v end.
(** clamp (math.h:99-104) between 0 and 1. *)
Definition clamp01 (v : Q) : Q := if negb (Qle_bool 0 v) then 0%Q else if negb (Qle_bool v 1) then 1%Q else v.
(** setPixel (texturebuffer.h:388-412); the conversion to an integer drops the fraction. *)
Definition save (t : channel) (v : Q) : Q :=
  match t with Some m => inject_Z (Qfloor (inject_Z m * clamp01 v)) | None => v end.
Definition loaded (t : channel) (b : buffer samples) : buffer samples :=
  mkBuffer samples (b_width samples b) (b_height samples b) (fun k c => load t (b_data samples b k c)).

(** ** The filter *)

(** A filter function of a position and the widths of the filter (ri_types.h, RtFilterFunc). *)
Definition filter_func : Type := Q -> Q -> Q -> Q -> Q.
(** static_cast<TqInt> of a float. *)
Definition whole (q : Q) : Z := Z.quot (Qnum q) (Zpos (Qden q)).
(** filterSupportSize (cachedfilter.cpp:55-61). *)
Definition support_size (zero : bool) (width : Q) : Z :=
  if zero then Z.max (2 * whole ((1 # 2) * width) + 1) 3 else Z.max (2 * whole ((1 # 2) * (width + 1))) 2.
(** CqCachedFilter (cachedfilter.h:60-124) without the position. *)
Record kernel := mkKernel { k_width : Z; k_height : Z; k_weights : list Q }.
(** The weights before they are normalized (cachedfilter.cpp:75-90). *)
Definition raw_weights (F : filter_func) (xw yw : Q) (width height : Z) (scale : Q) : list Q :=
  let xo := (inject_Z (width - 1) / 2)%Q in
  let yo := (inject_Z (height - 1) / 2)%Q in
  flat_map (fun j => map (fun i => F ((inject_Z i - xo) * scale) ((inject_Z j - yo) * scale) (xw * scale) (yw * scale))%Q
                       (steps 0 width 1)) (steps 0 height 1).
(** One weight (cachedfilter.cpp:92-104): small ones are dropped. *)
Definition normal_weight (total w : Q) : Q :=
  let w := (w / total)%Q in if negb (Qle_bool (1 # 100000) (if Qle_bool 0 w then w else - w)%Q) then 0%Q else w.
(** The constructor (cachedfilter.cpp:66-105); nothing if it divides by zero. *)
Definition make_kernel (F : filter_func) (xw yw : Q) (zero_x zero_y : bool) (scale : Q) : option kernel :=
  let width := support_size zero_x xw in
  let height := support_size zero_y yw in
  let l := raw_weights F xw yw width height scale in
  let total := fold_left Qplus l 0%Q in
  if Qeq_bool total 0 then None else Some (mkKernel width height (map (normal_weight total) l)).
(** operator() (cachedfilter.h:131-134) after setSupportTopLeft (152-156). *)
Definition kernel_weight (k : kernel) (left top : Z) (x y : Z) : Q :=
  nth (Z.to_nat ((y - top) * k_width k + (x - left))) (k_weights k) 0%Q.
(** support (cachedfilter.h:146-150). *)
Definition kernel_support (k : kernel) (left top : Z) : support :=
  mkSupport left (left + k_width k) top (top + k_height k).

(** ** The next level *)

(** lceil(TqFloat(n)/2) (downsample.h:178-179, math.h:58-62). *)
Definition half_size (n : Z) : Z := if 0 <? n then float_ceil (float_quotient (float_of n) 2) else 0.

Section Down.
Variable t : channel.
Variables ws wt : wrap.
Variable chans : Z.
Variable b : buffer samples.
Variable k : kernel.
(** The body of the loops (downsample.h:189-199): [acc] is accumBuf. *)
Definition one_texel (x y : Z) (acc : Z -> Q) : option (Z -> Q) :=
  let left := 2 * x - Z.quot (k_width k - 1) 2 in
  let top := 2 * y - Z.quot (k_height k - 1) 2 in
  filter_into (kernel_weight k left top) true chans 0 chans 0 acc
    (filter_texture samples (buffer samples) (buffer_visit samples) (b_width samples b) (b_height samples b)
       (fun _ => 0%Q) (loaded t b) (kernel_support k left top) ws wt).
(** The loops (downsample.h:186-201); [mem] is the memory of the new buffer. *)
Fixpoint texels (new_width : Z) (l : list (Z * Z)) (acc : Z -> Q) (mem : Z -> samples) : option (Z -> samples) :=
  match l with
  | [] => Some mem
  | (x, y) :: r =>
      match one_texel x y acc with
      | None => None
      | Some out =>
          texels new_width r out
            (fun p => if p =? y * new_width + x
                      then fun c => if (0 <=? c) && (c <? chans) then save t (out c) else mem p c
                      else mem p)
      end
  end.
End Down.
(** downsampleNonseperable (downsample.h:173-205) and downsample (208-230); [acc] and [mem] are
    what new memory holds. *)
Definition downsample (t : channel) (F : filter_func) (xw yw : Q) (ws wt : wrap) (chans : Z) (acc : Z -> Q) (mem : Z -> samples)
    (b : buffer samples) : option (buffer samples) :=
  let w := b_width samples b in
  let h := b_height samples b in
  match make_kernel F xw yw (negb (Z.rem w 2 =? 0)) (negb (Z.rem h 2 =? 0)) (1 # 2) with
  | None => None
  | Some k =>
      let nw := half_size w in
      let nh := half_size h in
      match texels t ws wt chans b k nw (flat_map (fun y => map (fun x => (x, y)) (steps 0 nw 1)) (steps 0 nh 1)) acc mem with
      | None => None
      | Some mem => Some (mkBuffer samples nw nh mem)
      end
  end.
(** CqDownsampleIterator::operator++ (downsample.h:137-147) until its end: the levels after [b]. *)
Fixpoint pyramid (t : channel) (F : filter_func) (xw yw : Q) (ws wt : wrap) (chans : Z) (acc : Z -> Q) (mem : Z -> samples)
    (n : nat) (b : buffer samples) : option (list (buffer samples)) :=
  if (1 <? b_width samples b) || (1 <? b_height samples b) then
    match n with
    | O => None
    | S m =>
        match downsample t F xw yw ws wt chans acc mem b with
        | None => None
        | Some c =>
            match pyramid t F xw yw ws wt chans acc mem m c with
            | None => None
            | Some r => Some (c :: r)
            end
        end
    end
  else Some [].
(** clampFilterWidth (maketexture.cpp:315-330). *)
Definition clamp_width (w : Q) : Q := if negb (Qle_bool 1 w) then 1%Q else w.

(** Writing levels as images of a file with tiles of 32 x 32 (maketexture.cpp:73-87, 296;
    tiffoutputfile.cpp:108-132). *)
Fixpoint write_levels (trash : (Z -> samples) -> Z -> samples) (fresh : Z -> samples) (tiles : Z -> Z -> Z -> samples) (lines : Z -> Z -> samples)
    (l : list (buffer samples)) : option (list (image_file samples)) :=
  match l with
  | [] => Some []
  | b :: r =>
      match write_pixels samples trash fresh (new_file samples (Some (32, 32)) (b_width samples b) (b_height samples b) tiles lines) b,
            write_levels trash fresh tiles lines r with
      | Some f, Some fs => Some (f :: fs)
      | _, _ => None
      end
  end.
(** createMipmapTyped with downsampleToFile (maketexture.cpp:73-106) for the image [b], after
    clampFilterWidth (as in makeTexture, 341-373). *)
Definition make_texture (t : channel) (F : filter_func) (xw yw : Q) (ws wt : wrap) (chans : Z) (acc : Z -> Q) (mem : Z -> samples)
    trash fresh tiles lines (b : buffer samples) : option (list (image_file samples)) :=
  match pyramid t F (clamp_width xw) (clamp_width yw) ws wt chans acc mem
          (Z.to_nat (b_width samples b + b_height samples b)) b with
  | None => None
  | Some l => write_levels trash fresh tiles lines (b :: l)
  end.

(** ** Using them *)

(** SqLevelTrans (mipmap.h:176-189). *)
Record trans := mkTrans { x_scale : Q; x_offset : Q; y_scale : Q; y_offset : Q }.
(** The loop of initLevels (mipmap.h:381-418) from level [i]; [sizes] are those of the
    remaining images of the file; nothing if it throws. *)
Fixpoint init_more (i : Z) (w h : Z) (xo yo : Q) (sizes : list (Z * Z)) : option (list trans) :=
  match sizes with
  | [] => Some []
  | (fw, fh) :: r =>
      if (w =? 1) && (h =? 1) then Some []
      else
        let xo := if Z.rem w 2 =? 0 then (xo + (1 # 2) * inject_Z (Z.shiftl 1 (i - 1)))%Q else xo in
        let yo := if Z.rem h 2 =? 0 then (yo + (1 # 2) * inject_Z (Z.shiftl 1 (i - 1)))%Q else yo in
        let w := Z.max (Z.quot (w + 1) 2) 1 in
        let h := Z.max (Z.quot (h + 1) 2) 1 in
        if negb (w =? fw) || negb (h =? fh) then None
        else
          let scale := (1 / inject_Z (Z.shiftl 1 i))%Q in
          match init_more (i + 1) w h xo yo r with
          | None => None
          | Some l => Some (mkTrans scale (- xo) scale (- yo) :: l)
          end
  end.
(** initLevels (mipmap.h:364-426): a transformation for each level. *)
Definition init_levels (sizes : list (Z * Z)) : option (list trans) :=
  match sizes with
  | [] => None
  | (w, h) :: r =>
      match init_more 1 w h 0 0 r with
      | None => None
      | Some l => Some (mkTrans 1 0 1 0 :: l)
      end
  end.

(** EqTextureLerp (texturesampleoptions.h). *)
Inductive lerp := Lerp_never | Lerp_always | Lerp_auto.
Section Lookup.
(** log2 (math.h:156-158), the filter factory (CqEwaFilterFactory: what is used of its filter), and
    the sample options that are used here. *)
Variable log2 : Q -> Q.
Variable minor : Q.
Variable factory : trans -> (Z -> Z -> Q) * support.
Variable mode : lerp.
Variables min_width s_blur t_blur : Q.
Variables start chans : Z.
Variable fill : Q.
Variables ws wt : wrap.
(** The channels of the texture and their type. *)
Variable length_ : Z.
Variable t : channel.
(** The levels: the state of their tiles.  What a lookup reads is kept in them (C23); the
    theorems hold in every such state, so that the new state is not given here. *)
Variable levels : list (array samples).
Variable transforms : list trans.

(** The samples are converted when they are read (samplevector.h:86-103). *)
Definition read_level (a : array samples) (s : support) (fresh : Z -> samples) : option (list (Z * Z * samples) * array samples) :=
  match tiles_visit samples fresh a s with
  | None => None
  | Some (l, b) => Some (map (fun '(x, y, v) => (x, y, fun c => load t (v c))) l, b)
  end.
(** filterLevel (mipmap.h:428-470). *)
Definition filter_level (fresh : Z -> samples) (level : Z) (out : Z -> Q) : option (Z -> Q) :=
  match nth_error levels (Z.to_nat level), nth_error transforms (Z.to_nat level) with
  | Some a, Some tr =>
      let '(weight, s) := factory tr in
      let s :=
        if level =? Z.of_nat (length levels) - 1 then
          let cx := Z.quot (sx0 s + sx1 s) 2 in
          let cy := Z.quot (sy0 s + sy1 s) 2 in
          intersect s (mkSupport (cx - 10) (cx + 11) (cy - 10) (cy + 11))
        else s in
      filter_into weight false length_ start chans fill out
        (filter_texture samples (array samples) (fun a s => read_level a s fresh) (f_width samples (a_file samples a)) (f_height samples (a_file samples a))
           (fun _ => 0%Q) a s ws wt)
  | _, _ => None
  end.
Definition qmax (a b : Q) : Q := if Qle_bool b a then a else b.
(** The blur ratio and the level (mipmap.h:245-272). *)
Definition blur_ratio (width0 height0 : Z) : Q :=
  match mode with
  | Lerp_auto =>
      if negb (Qeq_bool s_blur 0) || negb (Qeq_bool t_blur 0)
      then clamp01 (2 * qmax (s_blur * inject_Z width0) (t_blur * inject_Z height0) / minor)%Q
      else 0%Q
  | _ => 0%Q
  end.
Definition level_cts (width0 height0 : Z) : Q := log2 (minor / (min_width + 2 * blur_ratio width0 height0))%Q.
Definition choose_level (cts : Q) : Z := clamp (Qfloor cts) 0 (Z.of_nat (length levels) - 1).
(** applyFilter (mipmap.h:240-327); [tmp] is what the memory of tmpSamps holds. *)
Definition apply_filter (fresh : Z -> samples) (width0 height0 : Z) (out tmp : Z -> Q) : option (Z -> Q) :=
  let ratio := blur_ratio width0 height0 in
  let cts := level_cts width0 height0 in
  let level := choose_level cts in
  match filter_level fresh level out with
  | None => None
  | Some first =>
      if match mode with Lerp_always => true | Lerp_auto => negb (Qle_bool ratio (1 # 5)) | Lerp_never => false end
         && (level <? Z.of_nat (length levels) - 1) && negb (Qle_bool cts 0)
      then
        match filter_level fresh (level + 1) tmp with
        | None => None
        | Some second =>
            let interp := (cts - inject_Z level)%Q in
            let interp := (interp * interp)%Q in
            Some (change 0 chans (fun i => (1 - interp) * first i + interp * second i)%Q first)
        end
      else Some first
  end.
End Lookup.

(** ** One channel with floats *)

(** Positive floats: digits and a power of two, as in TexModel; rounding to 24 digits. *)
Definition fround (m e : Z) : Z * Z := let '(q, d) := float_quotient m 1 in (q, d + e).
Definition fmul (a b : Z * Z) : Z * Z := fround (fst a * fst b) (snd a + snd b).
Definition fadd (a b : Z * Z) : Z * Z :=
  let e := Z.min (snd a) (snd b) in fround (fst a * 2 ^ (snd a - e) + fst b * 2 ^ (snd b - e)) e.
(** The sum of four texels of the same integer, each with the weight 1/4, stored as an integer
    again (samplevector.h:97-98, sampleaccum.h:314-319, texturebuffer.h:401-402); nothing if the
    result is not an integer of the type, of which the conversion is undefined. The value is
    positive and not more than [max], so that clamp does nothing below 1. *)
Definition repeated (max value : Z) : option Z :=
  let v := fmul (float_quotient 1 max) (fround value 0) in
  let q := fmul (1, -2) v in
  let sum := fadd (fadd (fadd q q) q) q in
  let sum := if 1 <? float_ceil sum then (1, 0) else sum in
  let out := float_floor (fmul (fround max 0) sum) in
  if out <=? max then Some out else None.

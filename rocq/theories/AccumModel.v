(** How the texels that a filter visits are combined into one value: weighted means, and
    the comparison of depths for shadows.

    Numbers are rationals: rounding, overflow and the values that are not numbers of floats
    are not modelled.  The samples of a texel are a function from channels to numbers. *)

From Coq Require Import List Bool ZArith QArith.
From Verif Require Import TexModel.
Import ListNotations.
Open Scope Z_scope.

(** CqSampleAccum (sampleaccum.h:118-174). *)
Record accum := mkAccum { a_start : Z; a_chans : Z; a_extra : Z; a_buf : Z -> Q; a_fill : Q; a_total : Q }.

(** A loop that changes the elements from [from], [n] of them. *)
Definition change (from n : Z) (by_ : Z -> Q) (buf : Z -> Q) : Z -> Q :=
  fun k => if (from <=? k) && (k <? from + n) then by_ k else buf k.

(** The constructor (sampleaccum.h:261-276). *)
Definition new_accum (start chans : Z) (buf : Z -> Q) (fill : Q) : accum :=
  mkAccum start chans 0 (change 0 chans (fun _ => 0%Q) buf) fill 0.
(** setSampleVectorLength (sampleaccum.h:278-303). *)
Definition set_length (a : accum) (length : Z) : accum * bool :=
  let all := a_chans a + a_extra a in
  if a_start a + all <=? length then (mkAccum (a_start a) all 0 (a_buf a) (a_fill a) (a_total a), true)
  else if length <=? a_start a then (mkAccum (a_start a) 0 all (a_buf a) (a_fill a) (a_total a), false)
  else
    let n := length - a_start a in
    (mkAccum (a_start a) n (all - n) (a_buf a) (a_fill a) (a_total a), true).
(** accumulate (sampleaccum.h:305-321); [normalized] is isNormalized of the weights. *)
Definition accumulate (weight : Z -> Z -> Q) (normalized : bool) (a : accum) (p : Z * Z * (Z -> Q)) : accum :=
  let '(x, y, samples) := p in
  let w := weight x y in
  if Qeq_bool w 0 then a
  else
    let total := if normalized then a_total a else (a_total a + w)%Q in
    mkAccum (a_start a) (a_chans a) (a_extra a)
      (change 0 (a_chans a) (fun k => a_buf a k + w * samples (k + a_start a)%Z)%Q (a_buf a)) (a_fill a) total.
(** The destructor (sampleaccum.h:323-336). *)
Definition finish (normalized : bool) (a : accum) : Z -> Q :=
  let buf := if negb normalized && negb (Qeq_bool (a_total a) 0)
             then change 0 (a_chans a) (fun k => a_buf a k * (1 / a_total a))%Q (a_buf a) else a_buf a in
  change (a_chans a) (a_extra a) (fun _ => a_fill a) buf.

(** filterTexture or filterTextureNowrap (filtertexture.h:222-277) with such an accumulator
    that exists for this call only (mipmap.h:445-470, downsample.h:184-188); [visits] are the
    texels in turn, with the array afterwards, and [length] the channels of the texture. *)
Definition filter_into {St} (weight : Z -> Z -> Q) (normalized : bool) (length start chans : Z) (fill : Q) (buf : Z -> Q)
    (visits : option (list (Z * Z * (Z -> Q)) * St)) : option (Z -> Q) :=
  let '(a, more) := set_length (new_accum start chans buf fill) length in
  if more then
    match visits with
    | Some (l, _) => Some (finish normalized (fold_left (accumulate weight normalized) l a))
    | None => None
    end
  else Some (finish normalized a).

(** ** Shadows *)

(** The share of a texel that is in shadow (sampleaccum.h:376-406). *)
Definition amount (low high surface depth : Q) : Q :=
  if Qeq_bool high 0 && Qeq_bool low 0 then (if Qle_bool surface depth then 0 else 1)%Q
  else if Qeq_bool high low then (if Qle_bool surface (depth + low) then 0 else 1)%Q
  else if Qle_bool (depth + high) surface then 1%Q
  else if Qle_bool surface (depth + low) then 0%Q
  else ((surface - depth - low) / (high - low))%Q.
(** CqPcfAccum: its sum and total weight (sampleaccum.h:340-418). *)
Definition pcf_accumulate (weight : Z -> Z -> Q) (normalized : bool) (surface : Z -> Z -> Q) (start : Z) (low high : Q)
    (a : Q * Q) (p : Z * Z * (Z -> Q)) : Q * Q :=
  let '(x, y, samples) := p in
  let '(sum, total) := a in
  let w := weight x y in
  if Qeq_bool w 0 then a
  else (sum + w * amount low high (surface x y) (samples start), if normalized then total else total + w)%Q.
Definition pcf_finish (normalized : bool) (a : Q * Q) : Q :=
  let '(sum, total) := a in
  if negb normalized && negb (Qeq_bool total 0) then (sum / total)%Q else sum.
Definition pcf_into {St} (weight : Z -> Z -> Q) (normalized : bool) (surface : Z -> Z -> Q) (length start : Z) (low high : Q)
    (visits : option (list (Z * Z * (Z -> Q)) * St)) : option Q :=
  if length <=? start then Some (pcf_finish normalized (0, 0)%Q)
  else match visits with
       | Some (l, _) => Some (pcf_finish normalized (fold_left (pcf_accumulate weight normalized surface start low high) l (0, 0)%Q))
       | None => None
       end.

(** SqFilterSupport1D::intersectsRange, SqFilterSupport::area (filtersupport.h:138-142, 170-173,
    186-190). *)
Definition meets1 (start stop from to : Z) : bool :=
  negb (empty1 start stop) && negb ((stop <=? from) || (to <=? start)).
Definition meets (s : support) (x0 x1 y0 y1 : Z) : bool := meets1 (sx0 s) (sx1 s) x0 x1 && meets1 (sy0 s) (sy1 s) y0 y1.
Definition area (s : support) : Z := (sx1 s - sx0 s) * (sy1 s - sy0 s).

(** CqShadowView::sample from where the region is known (shadowsampler.cpp:247-273) and
    applyPCF (55-84), for a region sampled completely or, by [random], at some of its texels. *)
Definition shadow_sample (fresh : Z -> Z -> Q) (a : array (Z -> Q)) (s : support) (weight surface : Z -> Z -> Q)
    (length start : Z) (low high : Q) (samples : Z)
    (random : array (Z -> Q) -> support -> Z -> option (list (Z * Z * (Z -> Q)) * array (Z -> Q))) : option Q :=
  let f := a_file (Z -> Q) a in
  if meets s 0 (f_width (Z -> Q) f) 0 (f_height (Z -> Q) f) then
    pcf_into weight false surface length start low high
      (if (area s <=? samples) || (samples <? 0) then tiles_visit (Z -> Q) fresh a s else random a s samples)
  else Some 0%Q.

(** CqShadowSampler::sample (shadowsampler.cpp:298-327): the map that is chosen, from the
    weights of all maps. *)
Fixpoint best_view (k : Z) (weights : list Q) (best : Q) (view : Z) : Z :=
  match weights with
  | [] => view
  | w :: r => if Qle_bool w best then best_view (k + 1) r best view else best_view (k + 1) r w k
  end.
Definition choose_view (weights : list Q) : Z :=
  match weights with
  | [] | [_] => 0
  | _ => best_view 0 weights 0%Q 0
  end.

(** Model of recording and collapsing the surface hits of one sample point.

    Modelled code: CqBucketProcessor::StoreSample
    (/repo/libs/core/bucketprocessor.cpp:1471-1570) and
    CqImagePixel::Combine (/repo/libs/core/imagepixel.cpp:144-332), with
    isCullable from RenderMicroPoly (bucketprocessor.cpp:1078-1081).

    Simplifications:
    - Numbers are exact rationals instead of floats.
    - Where the values of a hit are stored is modelled in PixelModel.v; here
      they are part of the hit.
    - No hit belongs to a CSG tree (that step is modelled in CsgModel.v), so
      the CSG loop of Combine (166-187) does nothing.
    - Output variables are not collapsed by Combine and are left out. *)

From Coq Require Import List Bool QArith.
Import ListNotations.
Open Scope Q_scope.

(** Channels of a CqColor, whose operators work channel by channel. *)
Inductive chan := Red | Green | Blue.
Definition color := chan -> Q.

(** FLT_MAX. *)
Definition fltmax : Q := inject_Z ((2 ^ 24 - 1) * 2 ^ 104).

(** The matte flag of a surface (imagepixel.h:97-101, micropolygon.cpp:50-55). *)
Inductive matte := NoMatte | Matte | MatteAlpha.

(** A hit: colour, opacity and depth at the hit point, the matte flag, and
    whether the micropolygon is opaque (SqMpgSampleInfo::isOpaque). *)
Record hit := mkHit { h_col : color; h_opa : color; h_dep : Q; h_matte : matte; h_opq : bool }.

(** EqDepthFilter. *)
Inductive filter := FMin | FMidPoint | FMax | FAverage.

(** The options that matter: whether a depth display is made (DMode_Z), the
    depth filter and the opacity threshold. *)
Record cfg := mkCfg { c_z : bool; c_filter : filter; c_thr : color }.

(** The sample: its list of hits, its occluding hit if valid, its occluding
    depth (SqSampleData, imagepixel.h:124-157). *)
Record sample := mkS { s_data : list hit; s_occl : option hit; s_occlz : Q }.

(** SqSampleData::SqSampleData, CqImagePixel::clear. *)
Definition empty : sample := mkS [] None fltmax.

Definition Qltb (a b : Q) : bool := negb (Qle_bool b a).

Definition is_mattealpha (m : matte) : bool := match m with MatteAlpha => true | _ => false end.
Definition is_matte (m : matte) : bool := match m with Matte => true | _ => false end.

(** isCullable (bucketprocessor.cpp:1078-1081), without CSG. *)
Definition cullable (c : cfg) : bool :=
  negb (c_z c && match c_filter c with FMax | FAverage => true | _ => false end).

Definition midpoint_special (c : cfg) : bool :=
  c_z c && match c_filter c with FMidPoint => true | _ => false end.

(** StoreSample (bucketprocessor.cpp:1471-1570). *)
Definition store (c : cfg) (s : sample) (h : hit) : sample :=
  let d := h_dep h in
  if cullable c && Qle_bool (s_occlz s) d then s
  else if (h_opq h || is_mattealpha (h_matte h)) && cullable c then
    if midpoint_special c then
      let prev := match s_occl s with Some o => h_dep o | None => fltmax end in
      if Qltb prev d then mkS (s_data s) (s_occl s) d
      else mkS (s_data s) (Some h) prev
    else mkS (s_data s) (Some h) d
  else mkS (s_data s ++ [h]) (s_occl s) (s_occlz s).

Definition record (c : cfg) (hits : list hit) : sample := fold_left (store c) hits empty.

(** clamp(x, 0, 1) and lerp (include/aqsis/math/math.h:88-91). *)
Definition clamp01 (x : Q) : Q := if Qle_bool x 0 then 0 else if Qle_bool 1 x then 1 else x.
Definition lerp (t a b : Q) : Q := (1 - t) * a + t * b.

(** One round of the loop of Combine over the sorted hits, back to front
    (imagepixel.cpp:195-241). *)
Record acc := mkAcc { a_col : color; a_opa : color; a_d0 : Q; a_d1 : Q; a_max : Q }.

Definition meets_all (thr : color) (o : color) : bool :=
  Qle_bool (thr Red) (o Red) && Qle_bool (thr Green) (o Green) && Qle_bool (thr Blue) (o Blue).
Definition meets_any (thr : color) (o : color) : bool :=
  Qle_bool (thr Red) (o Red) || Qle_bool (thr Green) (o Green) || Qle_bool (thr Blue) (o Blue).

Definition blend (thr : color) (a : acc) (h : hit) : acc :=
  let col := if is_matte (h_matte h)
             then fun ch => lerp (h_opa h ch) (a_col a ch) 0
             else fun ch => a_col a ch * (1 - clamp01 (h_opa h ch)) + h_col h ch in
  let opa := if is_matte (h_matte h)
             then fun ch => lerp (h_col h ch) (a_opa a ch) 0
             else fun ch => (1 - a_opa a ch) * h_opa h ch + a_opa a ch in
  if meets_all thr (h_opa h) then
    mkAcc col opa (h_dep h) (a_d0 a) (if Qltb (a_max a) fltmax then a_max a else h_dep h)
  else mkAcc col opa (a_d0 a) (a_d1 a) (a_max a).

(** What the display gets: colour, opacity, and depth ([None]: not a
    number, from a division 0/0). *)
Record result := mkR { r_col : color; r_opa : color; r_dep : option Q }.

(** The average filter (imagepixel.cpp:279-296), run after the collapsed
    opacity [opa] has been written into the frontmost hit. *)
Definition average (thr : color) (opa : color) (l : list hit) : option Q :=
  let l' := match l with
            | [] => []
            | h :: t => mkHit (h_col h) opa (h_dep h) (h_matte h) (h_opq h) :: t
            end in
  let sel := List.filter (fun h => meets_any thr (h_opa h)) l' in
  match sel with
  | [] => None
  | _ => Some (fold_left (fun a h => a + h_dep h) sel 0 / inject_Z (Z.of_nat (length sel)))
  end.

Section Sort.
  (** std::sort by ascending depth (imagepixel.cpp:163): which of several hits
      with equal depth comes first is not specified, see HitSpec.v. *)
  Variable sort : list hit -> list hit.

  (** CqImagePixel::Combine for one sample (imagepixel.cpp:150-330); [None]
      when nothing was hit. *)
  Definition combine (c : cfg) (s : sample) : option result :=
    match s_data s with
    | _ :: _ =>
        let data := sort (match s_occl s with Some o => s_data s ++ [o] | None => s_data s end) in
        let a := fold_left (blend (c_thr c)) (rev data)
                   (mkAcc (fun _ => 0) (fun _ => 0) (s_occlz s) fltmax fltmax) in
        match data with
        | [] => None
        | _ =>
            let dep := match c_filter c with
                       | FMin => Some (a_d0 a)
                       | FMidPoint =>
                           match data with
                           | _ :: _ :: _ => Some ((a_d0 a + a_d1 a) * (1 # 2))
                           | _ => Some fltmax
                           end
                       | FMax => Some (a_max a)
                       | FAverage => average (c_thr c) (a_opa a) data
                       end in
            Some (mkR (a_col a) (a_opa a) dep)
        end
    | [] =>
        match s_occl s with
        | None => None
        | Some o =>
            let dep := match c_filter c with
                       | FMidPoint => (1 # 2) * (h_dep o + s_occlz s)
                       | _ => h_dep o
                       end in
            if is_matte (h_matte o)
            then Some (mkR (fun _ => 0) (fun _ => 0) (Some dep))
            else Some (mkR (h_col o) (h_opa o) (Some dep))
        end
    end.
End Sort.

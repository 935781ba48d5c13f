(* Model of the way of the pixels from the buckets into the picture file:
     libs/core/api/ri.cpp                  RiCxxCore::Display 933-1009 (the mode)
     libs/core/ddmanager/ddmanager.cpp     DisplayBucket 146-171, selectDataFormat 249-283,
                                           LoadDisplayLibrary 287-637 (quantization, formats, size
                                           of an element), PrepareCustomParameters 826-908
                                           ("quantize", "dither"), DisplayBucket 984-1020,
                                           FormatBucketForDisplay 1022-1118,
                                           CollapseBucketsToScanlines 1129-1155,
                                           SendToDisplay 1162-1175
     tools/displays/dspyutil/dspyhlpr.c    DspyReorderFormatting 183-216
     tools/displays/file/display.cpp       DspyImageOpen 418-575, DspyImageData 578-623,
                                           DspyImageClose 626-645, DspyImageQuery 659-707,
                                           WriteTIFF 227-412
     include/aqsis/math/math.h             lfloor 47-50, lround 67-70, clamp 99-104
   Simplifications:
     - numbers are exact: the values of pixels and of the quantization are rational, a value that
       is stored as a float is stored exactly, integers are unbounded (but for the conversion to
       long and to the integer types of a display);
     - a byte in memory is remembered as "the k-th byte of this value of this type", so that a
       byte which ends up in the wrong place is never equal to the right one by accident;
     - reading or writing outside of an allocated block, copying a negative number of bytes and
       converting a number to a type which cannot hold it are undefined: the result is None;
     - one display, whose driver is the one for files ("file", "tiff", "zfile"); shadow maps are
       left out here; TIFF headers other than size, number and kind of the samples are left out;
     - the name of a display is not empty and the driver can be loaded. *)
From Coq Require Import ZArith QArith Qround List Bool String Ascii.
From Verif Require Import BucketModel.
Import ListNotations.
Local Open Scope Z_scope.

(* include/aqsis/ri/ndspy.h:70-76 PkDspyFloat32 ... PkDspySigned8 *)
Inductive ptype := Float32 | Unsigned32 | Signed32 | Unsigned16 | Signed16 | Unsigned8 | Signed8.
Definition type_no (t : ptype) : Z :=
  match t with
  | Float32 => 1 | Unsigned32 => 2 | Signed32 => 3 | Unsigned16 => 4 | Signed16 => 5
  | Unsigned8 => 6 | Signed8 => 7
  end.
Definition ptype_eqb (a b : ptype) : bool := type_no a =? type_no b.
(* sizeof(PtDspy...) *)
Definition type_size (t : ptype) : Z :=
  match t with
  | Float32 | Unsigned32 | Signed32 => 4
  | Unsigned16 | Signed16 => 2
  | Unsigned8 | Signed8 => 1
  end.
(* std::numeric_limits of the integer types; not used for floats *)
Definition type_min (t : ptype) : Z :=
  match t with
  | Signed32 => -2147483648 | Signed16 => -32768 | Signed8 => -128 | _ => 0
  end.
Definition type_max (t : ptype) : Z :=
  match t with
  | Unsigned32 => 4294967295 | Signed32 => 2147483647 | Unsigned16 => 65535 | Signed16 => 32767
  | Unsigned8 => 255 | Signed8 => 127 | Float32 => 0
  end.

(* ---- memory ---- *)
Inductive value := VF (q : Q) | VI (n : Z).
Record byte := Byte { b_type : ptype; b_value : value; b_index : Z }.
(* A block of memory; a cell nothing was written to yet is None. *)
Record mem := Mem { m_size : Z; m_cell : Z -> option byte }.
Definition new_block (n : Z) : option mem :=
  if n <? 0 then None else Some (Mem n (fun _ => None)).
Definition inside (off n : Z) (m : mem) : bool := (0 <=? off) && (off + n <=? m_size m).
(* memcpy(dst + doff, src + soff, n); n becomes a very large number if it is negative *)
Definition memcpy (dst : mem) (doff : Z) (src : mem) (soff n : Z) : option mem :=
  if (0 <=? n) && inside doff n dst && inside soff n src
  then Some (Mem (m_size dst) (fun i => if (doff <=? i) && (i <? doff + n)
                                        then m_cell src (soff + (i - doff)) else m_cell dst i))
  else None.
(* reinterpret_cast<T*>(p)[0] = v *)
Definition put_value (t : ptype) (v : value) (off : Z) (m : mem) : option mem :=
  if inside off (type_size t) m
  then Some (Mem (m_size m) (fun i => if (off <=? i) && (i <? off + type_size t)
                                      then Some (Byte t v (i - off)) else m_cell m i))
  else None.

(* ---- numbers ---- *)
Definition qlt_bool (a b : Q) : bool := negb (Qle_bool b a).
(* static_cast<long> of a double *)
Definition to_long (x : Q) : option Z :=
  let n := qtrunc x in
  if (-9223372036854775808 <=? n) && (n <=? 9223372036854775807) then Some n else None.
(* math.h:47-50 lfloor *)
Definition lfloor (x : Q) : option Z :=
  do n <- to_long x;
  Some (n - (if qlt_bool x 0 && negb (Qeq_bool x (inject_Z n)) then 1 else 0)).
(* math.h:67-70 lround *)
Definition lround (x : Q) : option Z :=
  do n <- lfloor (x - (1 # 2))%Q; Some (n + 1).
(* math.h:99-104 clamp *)
Definition qclamp (x min max : Q) : Q :=
  if qlt_bool x min then min else if qlt_bool max x then max else x.

(* ---- the request ---- *)
(* The names of channels in a format (ddmanager.cpp:62-64) *)
Inductive cname := CR | CG | CB | CA | CZ.
Definition cname_eqb (a b : cname) : bool :=
  match a, b with
  | CR, CR | CG, CG | CB, CB | CA, CA | CZ, CZ => true
  | _, _ => false
  end.
(* The channels of the channel buffer: colour, alpha, depth, or the variable the display shows *)
Inductive source := SCi | SAlpha | SDepth | SVar.

Record quant := Quant { q_zero : Q; q_one : Q; q_min : Q; q_max : Q; q_dither : Q }.
(* RiQuantize: one, min, max, dither *)
Record quantize := Quantize { z_one : Q; z_min : Q; z_max : Q; z_dither : Q }.

(* CqDisplayRequest: which of colour, alpha and depth are shown, the number of values of the
   variable, the parameter "quantize" and the parameter "dither" *)
Record request := Request {
  d_rgb : bool; d_a : bool; d_z : bool; d_size : Z;
  d_quantize : option (Q * Q * Q * Q); d_dither : option Q }.

(* ri.cpp:943-986: the mode of RiDisplay; "vars" gives the number of values of a variable that
   was declared (0 if it was not).  The special name "depth" is left out. *)
Fixpoint begins (p s : string) : option string :=
  match p, s with
  | EmptyString, _ => Some s
  | String a p, String b s => if Ascii.eqb a b then begins p s else None
  | String _ _, EmptyString => None
  end.
Definition mode_request (mode : string) (vars : string -> Z) (qz : option (Q * Q * Q * Q))
    (dither : option Q) : option request :=
  let '(rgb, rest) := match begins "rgb" mode with Some r => (true, r) | None => (false, mode) end in
  let '(a, rest) := match begins "a" rest with Some r => (true, r) | None => (false, rest) end in
  let '(z, rest) := match begins "z" rest with Some r => (true, r) | None => (false, rest) end in
  let size := (if rgb then 3 else 0) + (if a then 1 else 0) + (if z then 1 else 0) in
  let size := if rgb || a || z then size else vars mode in
  if 0 <? size then Some (Request rgb a z size qz dither) else None.

Definition standard (d : request) : bool := d_rgb d || d_a d || d_z d.

(* ddmanager.cpp:83-84 (the values of a new request), 850-866, 433-453, 490-517.  "color",
   "depth" and "var" are what RiQuantize set for these; colour and depth are always set. *)
Definition load_quant (d : request) (color depth : quantize) (var : option quantize) : quant :=
  let opt := if standard d then Some (if d_z d then depth else color) else var in
  let '(zero, one, mn, mx) :=
    match d_quantize d with
    | Some q => q
    | None => match opt with
              | Some z => (0%Q, z_one z, z_min z, z_max z)
              | None => (0%Q, 0%Q, 0%Q, 0%Q)
              end
    end in
  let dither :=
    match d_dither d with
    | Some x => x
    | None => match opt with Some z => z_dither z | None => 0%Q end
    end in
  Quant zero one mn mx dither.

(* ddmanager.cpp:249-283 selectDataFormat *)
Definition select_format (one mn mx : Q) : ptype :=
  if Qeq_bool one 0 then Float32
  else if Qle_bool 0 mn then
    if Qle_bool mx (inject_Z (type_max Unsigned8)) then Unsigned8
    else if Qle_bool mx (inject_Z (type_max Unsigned16)) then Unsigned16
    else Unsigned32
  else
    if Qle_bool (inject_Z (type_min Signed8)) mn && Qle_bool mx (inject_Z (type_max Signed8))
    then Signed8
    else if Qle_bool (inject_Z (type_min Signed16)) mn && Qle_bool mx (inject_Z (type_max Signed16))
    then Signed16
    else Signed32.

(* ddmanager.cpp:455-481, 519-548: m_formats before the driver has seen it *)
Definition formats (d : request) (t : ptype) : list (cname * ptype) :=
  map (fun c => (c, t))
    (if standard d then
       (if d_a d then [CA] else []) ++ (if d_rgb d then [CR; CG; CB] else [])
       ++ (if d_z d then [CZ] else [])
     else
       (if 0 <? d_size d then [CR] else []) ++ (if 1 <? d_size d then [CG] else [])
       ++ (if 2 <? d_size d then [CB] else []) ++ (if 3 <? d_size d then [CA] else [])).
(* m_bufferMap *)
Definition buffer_map (d : request) (c : cname) : source * Z :=
  if standard d then
    match c with
    | CR => (SCi, 0) | CG => (SCi, 1) | CB => (SCi, 2) | CA => (SAlpha, 0) | CZ => (SDepth, 0)
    end
  else
    match c with CR => (SVar, 0) | CG => (SVar, 1) | CB => (SVar, 2) | CA => (SVar, 3) | CZ => (SCi, 0) end.

(* ddmanager.cpp:601-625 m_elementSize *)
Definition element_size (fs : list (cname * ptype)) : Z :=
  fold_right (fun f n => type_size (snd f) + n) 0 fs.

(* ---- the driver for files ---- *)
Inductive kind := KFile | KZFile.
(* display.cpp:63-102 SqDisplayInstance *)
Record image := Image {
  i_kind : kind; i_w : Z; i_h : Z; i_count : Z; i_format : ptype; i_entry : Z; i_line : Z;
  i_ox : Z; i_oy : Z; i_ow : Z; i_oh : Z; i_data : mem }.
Definition set_data (m : mem) (i : image) : image :=
  Image (i_kind i) (i_w i) (i_h i) (i_count i) (i_format i) (i_entry i) (i_line i)
        (i_ox i) (i_oy i) (i_ow i) (i_oh i) m.

(* display.cpp:453-465: the widest format, made unsigned *)
Definition widest (fs : list (cname * ptype)) : ptype :=
  let w := fold_left (fun w f => if type_no (snd f) <? type_no w then snd f else w) fs Signed8 in
  match w with
  | Signed8 => Unsigned8 | Signed16 => Unsigned16 | Signed32 => Unsigned32 | w => w
  end.

(* dspyhlpr.c:183-216 DspyReorderFormatting: the i-th wanted name is looked for from the i-th
   format on and exchanged with it *)
Fixpoint exchange (c : cname) (f : cname * ptype) (fs : list (cname * ptype)) : option (list (cname * ptype)) :=
  match fs with
  | [] => None
  | g :: fs => if cname_eqb (fst g) c then Some (f :: fs)
               else do fs' <- exchange c f fs; Some (g :: fs')
  end.
Fixpoint reorder (t : ptype) (want : list cname) (fs : list (cname * ptype)) : option (list (cname * ptype)) :=
  match want, fs with
  | [], _ | _, [] => Some fs
  | c :: want, f :: fs =>
    if cname_eqb (fst f) c then do fs' <- reorder t want fs; Some ((c, t) :: fs')
    else do fs' <- exchange c f fs; do fs'' <- reorder t want fs'; Some ((c, t) :: fs'')
  end.

(* display.cpp:418-575 DspyImageOpen, then the size query (ddmanager.cpp:627-631,
   display.cpp:683-702) which changes an empty size; the result is the changed formats too *)
Definition driver_open (k : kind) (w h : Z) (o : options) (fs : list (cname * ptype))
  : option (list (cname * ptype) * image) :=
  let t := widest fs in
  do fs' <- match k with
            | KFile => reorder t (firstn (Nat.min (List.length fs) 4) [CR; CG; CB; CA]) fs
            | KZFile => Some fs
            end;
  let count := Z.of_nat (List.length fs) in
  let entry := count * type_size t in
  do m <- new_block (w * h * count * type_size t);
  let '(w', h') := if (w =? 0) || (h =? 0) then (640, 480) else (w, h) in
  Some (fs', Image k w' h' count t entry (entry * w) (o_cx0 o) (o_cy0 o) (o_xres o) (o_yres o) m).

(* display.cpp:578-623 DspyImageData; the data begin at "off" in the block "data" *)
Definition driver_data (xmin xmax ymin ymax entry : Z) (data : mem) (off : Z) (i : image) : option image :=
  let '(ox, oy) := if (i_ow i =? i_w i) && (i_oh i =? i_h i) then (0, 0) else (i_ox i, i_oy i) in
  let x0 := Z.max (xmin - ox) 0 in
  let y0 := Z.max (ymin - oy) 0 in
  let x1 := Z.min (xmax - ox) (i_w i) in
  let y1 := Z.min (ymax - oy) (i_h i) in
  let bucketline := entry * (xmax - xmin) in
  let copyline := entry * (x1 - x0) in
  let row := Z.max (oy - ymin) 0 in
  let col := Z.max (ox - xmin) 0 in
  let start := off + (row * bucketline + col * entry) in
  do m <- foldM (fun (m : mem) (y : Z) =>
                   memcpy m (y * i_line i + x0 * i_entry i) data (start + (y - y0) * bucketline) copyline)
                (zrange y0 y1) (i_data i);
  Some (set_data m i).

(* What is written: size, number and kind of the samples, and the bytes of the picture, line after
   line *)
Inductive sample := UInt8 | UInt16 | IeeeFloat.
Record file := File { f_w : Z; f_h : Z; f_count : Z; f_sample : sample; f_bytes : list (option byte) }.
Definition sample_size (s : sample) : Z := match s with UInt8 => 1 | UInt16 => 2 | IeeeFloat => 4 end.
Definition read_bytes (off n : Z) (m : mem) : option (list (option byte)) :=
  if (0 <=? n) && inside off n m then Some (map (m_cell m) (zrange off (off + n))) else None.
(* display.cpp:227-412 WriteTIFF: files are written line by line, TIFFWriteScanline reading as many
   bytes as the header says a line has; a zfile (264-291) is one block of floats *)
Definition driver_close (i : image) : option file :=
  match i_kind i with
  | KFile =>
    let s := match i_format i with Unsigned8 => UInt8 | Unsigned16 => UInt16 | _ => IeeeFloat end in
    do bytes <- foldM (fun (l : list (option byte)) (y : Z) =>
                         do b <- read_bytes (y * i_line i) (i_w i * i_count i * sample_size s) (i_data i);
                         Some (l ++ b)%list)
                      (zrange 0 (i_h i)) [];
    Some (File (i_w i) (i_h i) (i_count i) s bytes)
  | KZFile =>
    do bytes <- read_bytes 0 (4 * (i_w i * i_h i)) (i_data i);
    Some (File (i_w i) (i_h i) 1 IeeeFloat bytes)
  end.

(* ---- the manager ---- *)
(* What is shown: the values of the channel buffer at a pixel of the picture *)
Definition picture := Z -> Z -> source -> Z -> Q.

(* ddmanager.cpp:1065-1070 *)
Definition quantise (q : quant) (s v : Q) : option Q :=
  if Qeq_bool (q_one q) 0 then Some v
  else
    do n <- lround (q_zero q + v * (q_one q - q_zero q) + q_dither q * s)%Q;
    Some (qclamp (inject_Z n) (q_min q) (q_max q)).
(* ddmanager.cpp:1071-1114: the value as the type of the format *)
Definition convert (t : ptype) (v : Q) : option value :=
  let fit (x : Q) := let n := qtrunc x in
                     if (type_min t <=? n) && (n <=? type_max t) then Some (VI n) else None in
  match t with
  | Float32 => Some (VF v)
  | Unsigned32 | Signed32 => fit (qclamp v (inject_Z (type_min t)) (inject_Z (type_max t)))
  | _ => fit v
  end.

Section Request.
Variable o : options.
Variable d : request.
Variable q : quant.
Variable fs : list (cname * ptype).     (* m_formats as the driver left them *)
Variable scan : bool.                   (* PkDspyFlagsWantsScanLineOrder *)
Variable pic : picture.
Variable random : nat -> Q.             (* the numbers RandomFloat gives *)

Definition esize : Z := element_size fs.
(* m_width, m_height: renderer.cpp:696 *)
Definition dwidth : Z := o_cx1 o - o_cx0 o.
Definition dheight : Z := o_cy1 o - o_cy0 o.

(* ddmanager.cpp:1052-1115 one pixel: all formats *)
Definition format_pixel (x y : Z) (s : Q) (a : Z * mem) : option (Z * mem) :=
  foldM (fun (a : Z * mem) (f : cname * ptype) =>
           let '(p, m) := a in
           let '(src, k) := buffer_map d (fst f) in
           do v <- quantise q s (pic x y src k);
           do w <- convert (snd f) v;
           do m <- put_value (snd f) w p m;
           Some (p + type_size (snd f), m))
        fs a.

Record dstate := DState {
  ds_bucket : option mem;  (* m_DataBucket *)
  ds_row : option mem;     (* m_DataRow *)
  ds_random : nat;         (* how many random numbers were taken *)
  ds_image : image }.

(* ddmanager.cpp:1022-1118 FormatBucketForDisplay; the channel buffer has the size of the region
   (bucketprocessor.cpp:403) *)
Definition format_bucket (r : region) (s : dstate) : option dstate :=
  do b <- match ds_bucket s with Some m => Some m | None => new_block (esize * rarea r) end;
  do row <- match ds_row s with
            | Some m => Some (Some m)
            | None => if scan then do m <- new_block (esize * dwidth * dheight); Some (Some m)
                      else Some None
            end;
  do a <- foldM (fun (a : Z * mem * nat) (c : Z * Z) =>
                   let '(p, m, n) := a in
                   do a <- format_pixel (rx0 r + fst c) (ry0 r + snd c) (random n) (p, m);
                   Some (a, S n))
                (cells (Region 0 0 (rwidth r) (rheight r))) (0, b, ds_random s);
  let '(_, b, n) := a in
  Some (DState (Some b) row n (ds_image s)).

(* ddmanager.cpp:1129-1155 CollapseBucketsToScanlines *)
Definition collapse (r : region) (b row : mem) : option mem :=
  do a <- foldM (fun (a : Z * mem) (c : Z * Z) =>
                   let '(p, m) := a in
                   do m <- memcpy m (dwidth * esize * (snd c - ry0 r) + esize * fst c) b p esize;
                   Some (p + esize, m))
                (cells r) (0, row);
  Some (snd a).
(* ddmanager.cpp:1162-1175 SendToDisplay *)
Definition send (r : region) (row : mem) (i : image) : option image :=
  foldM (fun (i : image) (y : Z) =>
           driver_data 0 dwidth y (y + 1) esize row ((y - ry0 r) * (esize * dwidth)) i)
        (zrange (ry0 r) (ry1 r)) i.

(* ddmanager.cpp:984-1020 CqDisplayRequest::DisplayBucket *)
Definition display_request (r : region) (s : dstate) : option dstate :=
  do s <- format_bucket r s;
  match ds_bucket s with
  | None => None
  | Some b =>
    if scan then
      match ds_row s with
      | None => None
      | Some row =>
        do row <- collapse r b row;
        do i <- (if dwidth <=? rx1 r then send r row (ds_image s) else Some (ds_image s));
        Some (DState (Some b) (Some row) (ds_random s) i)
      end
    else
      do i <- driver_data (rx0 r) (rx1 r) (ry0 r) (ry1 r) esize b 0 (ds_image s);
      Some (DState (Some b) (ds_row s) (ds_random s) i)
  end.

(* ddmanager.cpp:146-171 CqDDManager::DisplayBucket *)
Definition display_bucket (r : region) (s : dstate) : option dstate :=
  if (rwidth r =? 0) || (rheight r =? 0) then Some s
  else if (rx1 r <=? o_cx0 o) || (ry1 r <=? o_cy0 o) || (o_cx1 o <? rx0 r) || (o_cy1 o <? ry0 r)
  then Some s
  else display_request r s.

(* imagebuffer.cpp:706-765: the buckets are shown in the order they are rendered in, at most n *)
Fixpoint display_loop (n : nat) (b : bpos) (s : dstate) : option dstate :=
  match n with
  | O => None
  | S n =>
    do s <- display_bucket (display_region o b) s;
    match next_bucket o b with
    | Some b' => display_loop n b' s
    | None => Some s
    end
  end.
End Request.

(* renderer.cpp:696-698: open the display, render the picture, close the display *)
Definition make_file (n : nat) (o : options) (k : kind) (scan : bool) (d : request)
    (color depth : quantize) (var : option quantize) (pic : picture) (random : nat -> Q) : option file :=
  let q := load_quant d color depth var in
  let t := select_format (q_one q) (q_min q) (q_max q) in
  do a <- driver_open k (dwidth o) (dheight o) o (formats d t);
  let '(fs, i) := a in
  do s <- display_loop o d q fs scan pic random n (rx0 (bregion o), ry0 (bregion o))
            (DState None None 0 i);
  driver_close (ds_image s).

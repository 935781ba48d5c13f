(** Model of the RIB writer.

    Modelled code: AsciiFormatter, BinaryFormatter and RibWriter
    (/repo/libs/riutil/ribwriter.cpp:62-344, 592-2410).

    Simplifications:
    - A call of the interface is modelled after its arguments were turned into
      values to print: an int, a float, a string, or an array of these.  A
      colour or point is three floats, a matrix or bound an array of floats, a
      parameter a string and an array (printParam, ribwriter.cpp:178-184, 337-342).
      Names of filters, bases and error handlers are strings.
    - A float is its 32 bits; how it looks in ASCII is left open.
    - Strings are lists of bytes without the terminating zero.
    - Compression, the interpolation of archives, and ArchiveRecord with type
      "verbatim" are left out. *)

From Coq Require Import List Bool Arith ZArith String Ascii.
From Verif Require Import RibBufModel RibTokModel.
Import ListNotations.
Open Scope Z_scope.

Definition text (s : string) : list Z := map (fun a => Z.of_N (N_of_ascii a)) (list_ascii_of_string s).

(** The arguments of the overloads of print (ribwriter.cpp:123-170, 285-330). *)
Inductive arg :=
| AInt (i : Z) | AFloat (bits : Z) | AString (s : list Z)
| AInts (l : list Z) | AFloats (l : list Z) | AStrings (l : list (list Z)).

(** A request with its arguments, or ArchiveRecord with type "comment" or
    "structure". *)
Inductive call := Request (name : list Z) (args : list arg) | Comment (s : list Z) | Structure (s : list Z).

(** The names the methods of RibWriter pass to beginRequest
    (ribwriter.cpp:910-2404). *)
Definition request_names : list (list Z) := map text [
   "Declare"; "Procedural"; "Option"; "ReadArchive"; "FrameBegin"; "FrameEnd"; "WorldBegin";
   "WorldEnd"; "IfBegin"; "ElseIf"; "Else"; "IfEnd"; "Format"; "FrameAspectRatio";
   "ScreenWindow"; "CropWindow"; "Projection"; "Clipping"; "ClippingPlane"; "DepthOfField";
   "Shutter"; "PixelVariance"; "PixelSamples"; "PixelFilter"; "Exposure"; "Imager"; "Quantize";
   "Display"; "Hider"; "ColorSamples"; "RelativeDetail"; "AttributeBegin"; "AttributeEnd";
   "Color"; "Opacity"; "TextureCoordinates"; "LightSource"; "AreaLightSource"; "Illuminate";
   "Surface"; "Displacement"; "Atmosphere"; "Interior"; "Exterior"; "ShaderLayer";
   "ConnectShaderLayers"; "ShadingRate"; "ShadingInterpolation"; "Matte"; "Bound"; "Detail";
   "DetailRange"; "GeometricApproximation"; "Orientation"; "ReverseOrientation"; "Sides";
   "Identity"; "Transform"; "ConcatTransform"; "Perspective"; "Translate"; "Rotate"; "Scale";
   "Skew"; "CoordinateSystem"; "CoordSysTransform"; "TransformBegin"; "TransformEnd";
   "Resource"; "ResourceBegin"; "ResourceEnd"; "Attribute"; "Polygon"; "GeneralPolygon";
   "PointsPolygons"; "PointsGeneralPolygons"; "Basis"; "Patch"; "PatchMesh"; "NuPatch";
   "TrimCurve"; "SubdivisionMesh"; "Sphere"; "Cone"; "Cylinder"; "Hyperboloid"; "Paraboloid";
   "Disk"; "Torus"; "Points"; "Curves"; "Blobby"; "Geometry"; "SolidBegin"; "SolidEnd";
   "ObjectBegin"; "ObjectEnd"; "ObjectInstance"; "MotionBegin"; "MotionEnd"; "MakeTexture";
   "MakeLatLongEnvironment"; "MakeCubeFaceEnvironment"; "MakeShadow"; "MakeOcclusion";
   "ErrorHandler"; "ArchiveBegin"; "ArchiveEnd"
  ]%string.

(** * BinaryFormatter *)

(** unpack (ribwriter.cpp:215-222). *)
Definition unpack (i : Z) : list Z :=
  [i / 16777216 mod 256; i / 65536 mod 256; i / 256 mod 256; i mod 256].

(** highestByteNonzero (ribwriter.cpp:226-232). *)
Definition highest_byte_nonzero (c : list Z) : nat :=
  if negb (nth 0 c 0 =? 0) then 3
  else if negb (nth 1 c 0 =? 0) then 2
  else if negb (nth 2 c 0 =? 0) then 1 else 0.

(** encodeInt32 (ribwriter.cpp:237-244). *)
Definition encode_int32 (i base : Z) : list Z :=
  let c := unpack i in
  let high := highest_byte_nonzero c in
  (base + Z.of_nat high) :: skipn (3 - high) c.

(** Conversion to TqUint32. *)
Definition uint32 (i : Z) : Z := i mod 4294967296.

(** print (ribwriter.cpp:285-330). *)
Definition bin_int (i : Z) : list Z := encode_int32 (uint32 i) 128.
Definition bin_float (b : Z) : list Z := 164 :: unpack b.
Definition bin_string (s : list Z) : list Z :=
  let len := uint32 (Z.of_nat (List.length s)) in
  if len <? 16 then (144 + len) :: firstn (Z.to_nat len) s
  else encode_int32 len 160 ++ firstn (Z.to_nat len) s.
Definition bin_array {A} (print : A -> list Z) (l : list A) : list Z :=
  91 :: flat_map print l ++ [93].
Definition bin_floats (l : list Z) : list Z :=
  encode_int32 (uint32 (Z.of_nat (List.length l))) 200 ++ flat_map unpack l.

Definition bin_arg (a : arg) : list Z :=
  match a with
  | AInt i => bin_int i | AFloat b => bin_float b | AString s => bin_string s
  | AInts l => bin_array bin_int l | AFloats l => bin_floats l | AStrings l => bin_array bin_string l
  end.

(** m_encodedRequests and m_currRequestCode (ribwriter.cpp:209-210). *)
Record codes := mkCodes { table : list (list Z * Z); next : Z }.
Definition no_requests : codes := mkCodes [] 0.

Definition name_eqb (a b : list Z) : bool := if list_eq_dec Z.eq_dec a b then true else false.
Fixpoint find_code (name : list Z) (t : list (list Z * Z)) : option Z :=
  match t with
  | [] => None
  | (n, c) :: r => if name_eqb n name then Some c else find_code name r
  end.

(** beginRequest (ribwriter.cpp:254-274).  [asserts]: the assertion is
    compiled in; then [None] means that it failed. *)
Definition bin_begin (asserts : bool) (name : list Z) (st : codes) : option (list Z * codes) :=
  match find_code name (table st) with
  | Some c => Some ([166; c], st)
  | None =>
      let c := next st in
      let next' := (c + 1) mod 256 in
      if asserts && (next' =? 0) then None
      else Some (204 :: c :: bin_string name ++ [166; c], mkCodes ((name, c) :: table st) next')
  end.

(** A method of RibWriter (the template at ribwriter.cpp:1031-1052), and
    archiveRecord (ribwriter.cpp:275-283); whitespace, endRequest and the
    indentation do nothing. *)
Definition bin_call (asserts : bool) (c : call) (st : codes) : option (list Z * codes) :=
  match c with
  | Request name args =>
      match bin_begin asserts name st with
      | Some (b, st') => Some (b ++ flat_map bin_arg args, st')
      | None => None
      end
  | Comment s => Some (35 :: s ++ [LF], st)
  | Structure s => Some (35 :: 35 :: s ++ [LF], st)
  end.

Fixpoint bin_calls (asserts : bool) (cs : list call) (st : codes) : option (list Z) :=
  match cs with
  | [] => Some []
  | c :: r =>
      match bin_call asserts c st with
      | None => None
      | Some (b, st') =>
          match bin_calls asserts r st' with None => None | Some b' => Some (b ++ b') end
      end
  end.

(** * AsciiFormatter *)

Section Ascii.
  Variable show_float : Z -> list Z.   (* operator<< of a float *)
  Variable step : Z.                   (* m_indentStep *)
  Variable indent_char : Z.            (* m_indentChar *)

  (** operator<< of a number which is not negative, in base [base]. *)
  Fixpoint show_nat_from (base : Z) (fuel : nat) (n : Z) (acc : list Z) : list Z :=
    match fuel with
    | O => acc
    | S f => if n <? base then 48 + n :: acc else show_nat_from base f (n / base) (48 + n mod base :: acc)
    end.
  Definition show_nat (base n : Z) : list Z := show_nat_from base (Z.to_nat (Z.log2 n) + 1) n [].

  (** print (ribwriter.cpp:123). *)
  Definition show_int (i : Z) : list Z := if i <? 0 then 45 :: show_nat 10 (- i) else show_nat 10 i.

  (** One character of a string (ribwriter.cpp:133-153). *)
  Definition escape (c : Z) : list Z :=
    if c =? 34 then [92; 34]
    else if c =? 10 then [92; 110]
    else if c =? 13 then [92; 114]
    else if c =? 9 then [92; 116]
    else if c =? 8 then [92; 98]
    else if c =? 12 then [92; 102]
    else if c =? 92 then [92; 92]
    else if (32 <=? c) && (c <=? 176) then [c]
    else 92 :: show_nat 8 c.

  (** print (ribwriter.cpp:126-158). *)
  Definition show_string (s : list Z) : list Z := 34 :: flat_map escape s ++ [34].

  (** print of an array (ribwriter.cpp:160-170). *)
  Fixpoint show_elements {A} (print : A -> list Z) (l : list A) : list Z :=
    match l with
    | [] => []
    | [a] => print a
    | a :: r => print a ++ 32 :: show_elements print r
    end.
  Definition show_array {A} (print : A -> list Z) (l : list A) : list Z :=
    91 :: show_elements print l ++ [93].

  Definition show_arg (a : arg) : list Z :=
    match a with
    | AInt i => show_int i | AFloat b => show_float b | AString s => show_string s
    | AInts l => show_array show_int l | AFloats l => show_array show_float l
    | AStrings l => show_array show_string l
    end.

  (** increaseIndent and decreaseIndent (ribwriter.cpp:86-98). *)
  Definition increase (indent : Z) : Z := indent + step.
  Definition decrease (indent : Z) : Z := if indent - step <? 0 then 0 else indent - step.

  Definition ends_with (suffix s : list Z) : bool := name_eqb (skipn (List.length s - List.length suffix) s) suffix.

  (** A method of RibWriter (the template at ribwriter.cpp:1031-1052, with
      doIndent and doDedent as computed at 1059-1060), and archiveRecord
      (ribwriter.cpp:113-121). *)
  Definition show_call (c : call) (indent : Z) : list Z * Z :=
    let margin n := repeat indent_char (Z.to_nat n) in
    match c with
    | Request name args =>
        let i1 := if ends_with (text "End") name then decrease indent else indent in
        (margin i1 ++ name ++ flat_map (fun a => 32 :: show_arg a) args ++ [LF],
         if ends_with (text "Begin") name then increase i1 else i1)
    | Comment s => (margin indent ++ 35 :: s ++ [LF], indent)
    | Structure s => (margin indent ++ 35 :: 35 :: s ++ [LF], indent)
    end.

  Fixpoint show_calls (cs : list call) (indent : Z) : list Z :=
    match cs with
    | [] => []
    | c :: r => let (b, i) := show_call c indent in b ++ show_calls r i
    end.
End Ascii.

(** Model of the filter that validates the nesting of interface calls.

    Modelled code: RiCxxValidate (/repo/libs/riutil/ricxx_validate.cpp:68-388, the
    scope, attribute and order parts of the methods 604-2038, and
    createValidateFilter 2043-2047).

    Simplifications:
    - Whether the range and array length checks of a call pass is part of the call;
      for PatchMesh and Curves this may depend on the basis steps known to the
      filter and on whether they are exact.
    - Warnings and the text of errors are left out.
    - A call may make the next filter throw an error; this is part of the call. *)

From Coq Require Import List Bool ZArith.
Import ListNotations.
Open Scope Z_scope.

(** * Scopes *)

(** enum ApiScope (ricxx_validate.cpp:72-84); Scope_Resource is never used. *)
Inductive scope := SBeginEnd | SFrame | SWorld | SAttribute | STransform | SSolid | SObject | SMotion | SArchive | SAny.
Definition bits (s : scope) : Z :=
  match s with
  | SBeginEnd => Z.shiftl 1 0 | SFrame => Z.shiftl 1 1 | SWorld => Z.shiftl 1 2 | SAttribute => Z.shiftl 1 3
  | STransform => Z.shiftl 1 4 | SSolid => Z.shiftl 1 5 | SObject => Z.shiftl 1 6 | SMotion => Z.shiftl 1 7
  | SArchive => Z.shiftl 1 9 | SAny => Z.lnot 0
  end.
Definition mask (l : list scope) : Z := fold_right (fun s m => Z.lor (bits s) m) 0 l.
Definition is_archive (s : scope) : bool := match s with SArchive => true | _ => false end.

(** * Calls *)

(** Calls that do not begin or end a block. *)
Inductive proc :=
| RDeclare | RIfBegin | RElseIf | RElse | RIfEnd | RFormat | RFrameAspectRatio | RScreenWindow | RCropWindow
| RProjection | RClipping | RClippingPlane | RDepthOfField | RShutter | RPixelVariance | RPixelSamples
| RPixelFilter | RExposure | RImager | RQuantize | RDisplay | RHider | RColorSamples | RRelativeDetail
| ROption | RColor | ROpacity | RTextureCoordinates | RLightSource | RAreaLightSource | RIlluminate
| RSurface | RDisplacement | RAtmosphere | RInterior | RExterior | RShaderLayer | RConnectShaderLayers
| RShadingRate | RShadingInterpolation | RMatte | RBound | RDetail | RDetailRange | RGeometricApproximation
| ROrientation | RReverseOrientation | RSides | RIdentity | RTransform | RConcatTransform | RPerspective
| RTranslate | RRotate | RScale | RSkew | RCoordinateSystem | RCoordSysTransform | RResource | RAttribute
| RPolygon | RGeneralPolygon | RPointsPolygons | RPointsGeneralPolygons | RBasis | RPatch | RPatchMesh
| RNuPatch | RTrimCurve | RSubdivisionMesh | RSphere | RCone | RCylinder | RHyperboloid | RParaboloid | RDisk
| RTorus | RPoints | RCurves | RBlobby | RProcedural | RGeometry | RObjectInstance | RMakeTexture
| RMakeLatLongEnvironment | RMakeCubeFaceEnvironment | RMakeShadow | RMakeOcclusion | RErrorHandler
| RReadArchive | RArchiveRecord.

(** Blocks.  ResourceBegin and ResourceEnd have no scope. *)
Inductive kind := KFrame | KWorld | KAttribute | KTransform | KSolid | KObject | KMotion | KArchive | KResource.
Inductive mesh := MPatchMesh | MCurves.

Inductive event :=
| Do (p : proc) (ok : bool)                 (* ok: the arguments pass the checks *)
| Mesh (m : mesh) (ok : bool) (fits : bool -> Z -> Z -> bool)
                                            (* fits: the arrays have the lengths for the given steps *)
| SetBasis (u v : Z)                        (* Basis *)
| Begin (k : kind) (ok : bool)
| End (k : kind).

(** A call, and whether the next filter throws when it gets it. *)
Record call := mkCall { what : event; throws : bool }.

(** ApiScope arguments of checkScope; None: there is no check.  The line of each
    method is given. *)
Definition allowed (p : proc) : option (list scope) :=
  match p with
  | RDeclare (* 604 *) | RColor (* 1022 *) | ROpacity (* 1028 *) | RTextureCoordinates (* 1034 *) | RIlluminate (* 1063 *)
  | RSurface (* 1069 *) | RDisplacement (* 1077 *) | RAtmosphere (* 1085 *) | RInterior (* 1093 *) | RExterior (* 1101 *)
  | RShaderLayer (* 1109 *) | RShadingRate (* 1128 *) | RShadingInterpolation (* 1141 *) | RMatte (* 1147 *) | RBound (* 1153 *)
  | RDetail (* 1159 *) | RDetailRange (* 1165 *) | RGeometricApproximation (* 1193 *) | ROrientation (* 1206 *)
  | RReverseOrientation (* 1212 *) | RSides (* 1218 *) | RIdentity (* 1224 *) | RTransform (* 1230 *)
  | RConcatTransform (* 1236 *) | RPerspective (* 1242 *) | RTranslate (* 1255 *) | RRotate (* 1261 *) | RScale (* 1267 *)
  | RSkew (* 1273 *) | RCoordSysTransform (* 1286 *) | RAttribute (* 1326 *) | RBasis (* 1399 *) | RErrorHandler (* 2009 *)
      => Some [SBeginEnd; SFrame; SWorld; SAttribute; STransform; SSolid; SObject; SMotion; SArchive]
  | RIfBegin (* 643 *) | RElseIf (* 648 *) | RElse (* 653 *) | RIfEnd (* 658 *) | RClippingPlane (* 802 *)
  | RConnectShaderLayers (* 1119 *) | RResource (* 1306 *) | RReadArchive (* 2015 *) | RArchiveRecord (* 328 *)
      => None
  | RFormat (* 663 *) | RFrameAspectRatio (* 691 *) | RScreenWindow (* 704 *) | RCropWindow (* 725 *) | RProjection (* 774 *)
  | RClipping (* 782 *) | RDepthOfField (* 808 *) | RShutter (* 836 *) | RPixelVariance (* 849 *) | RPixelSamples (* 862 *)
  | RPixelFilter (* 882 *) | RExposure (* 903 *) | RImager (* 923 *) | RQuantize (* 931 *) | RDisplay (* 959 *)
  | RHider (* 968 *) | RColorSamples (* 976 *) | RRelativeDetail (* 985 *) | ROption (* 998 *) | RMakeTexture (* 1905 *)
  | RMakeLatLongEnvironment (* 1931 *) | RMakeCubeFaceEnvironment (* 1957 *) | RMakeShadow (* 1989 *) | RMakeOcclusion (* 1999 *)
      => Some [SBeginEnd; SFrame; SArchive]
  | RLightSource (* 1042 *) | RAreaLightSource (* 1052 *)
      => Some [SBeginEnd; SFrame; SWorld; SAttribute; STransform; SSolid; SMotion; SArchive]
  | RCoordinateSystem (* 1280 *)
      => Some [SBeginEnd; SFrame; SWorld; SAttribute; STransform; SSolid; SObject; SArchive]
  | RPolygon (* 1334 *) | RGeneralPolygon (* 1347 *) | RPointsPolygons (* 1361 *) | RPointsGeneralPolygons (* 1379 *)
  | RPatch (* 1421 *) | RPatchMesh (* 1433 *) | RNuPatch (* 1459 *) | RTrimCurve (* 1522 *) | RSubdivisionMesh (* 1548 *)
  | RSphere (* 1576 *) | RCone (* 1610 *) | RCylinder (* 1637 *) | RHyperboloid (* 1671 *) | RParaboloid (* 1691 *)
  | RDisk (* 1725 *) | RTorus (* 1752 *) | RPoints (* 1794 *) | RCurves (* 1807 *) | RBlobby (* 1819 *)
      => Some [SWorld; SAttribute; STransform; SSolid; SObject; SMotion; SArchive]
  | RProcedural (* 1833 *) | RGeometry (* 1841 *) | RObjectInstance (* 1883 *)
      => Some [SWorld; SAttribute; STransform; SSolid; SObject; SArchive]
  end.
Definition allowed_mesh (m : mesh) : option (list scope) :=
  match m with MPatchMesh => allowed RPatchMesh | MCurves => allowed RCurves end.
(** The Begin methods (611, 627, 1006, 1292, 1850, 1866, 1889, 2023, 1314). *)
Definition allowed_begin (k : kind) : option (list scope) :=
  match k with
  | KFrame => Some [SBeginEnd; SArchive]
  | KWorld => Some [SBeginEnd; SFrame; SArchive]
  | KAttribute => Some [SWorld; SAttribute; STransform; SSolid; SObject; SArchive]
  | KTransform => Some [SBeginEnd; SFrame; SWorld; SAttribute; STransform; SSolid; SObject; SArchive]
  | KSolid => Some [SWorld; SAttribute; STransform; SSolid; SObject; SArchive]
  | KObject => Some [SBeginEnd; SFrame; SWorld; SAttribute; STransform; SSolid; SArchive]
  | KMotion => Some [SBeginEnd; SFrame; SWorld; SAttribute; STransform; SSolid; SObject; SArchive]
  | KArchive | KResource => None
  end.
Definition scope_of (k : kind) : option scope :=
  match k with
  | KFrame => Some SFrame | KWorld => Some SWorld | KAttribute => Some SAttribute | KTransform => Some STransform
  | KSolid => Some SSolid | KObject => Some SObject | KMotion => Some SMotion | KArchive => Some SArchive | KResource => None
  end.
(** The End methods (619, 635, 1014, 1299, 1858, 1875, 1897, 2033, 1320). *)
Definition allowed_end (k : kind) : option (list scope) :=
  match k with
  | KArchive | KResource => None
  | _ => match scope_of k with Some s => Some [s; SArchive] | None => None end
  end.

(** * The filter *)

Section Filter.
  Variable relaxed : bool.    (* relaxed_outer_scope *)
  Variable asserts : bool.    (* assert() is compiled in *)

  Record state := mkState { scopes : list scope; steps : list (Z * Z); out : list event }.
  (** The constructor (127-137). *)
  Definition new_state : state := mkState [if relaxed then SAny else SBeginEnd] [(3, 3)] [].

  Definition top (s : state) : scope := hd SAny (scopes s).
  Definition emit (e : event) (s : state) : state := mkState (scopes s) (steps s) (out s ++ [e]).

  (** checkScope (379-388). *)
  Definition check_scope (l : option (list scope)) (s : state) : bool :=
    match l with None => true | Some l => negb (Z.land (bits (top s)) (mask l) =? 0) end.
  (** pushScope (354-360). *)
  Definition push_scope (n : scope) (s : state) : state :=
    if is_archive (top s) && negb (is_archive n) then s
    else mkState (n :: scopes s) (steps s) (out s).
  (** popScope (362-377); None: the assertion fails. *)
  Definition same_scope (a b : scope) : bool := bits a =? bits b.
  Definition pop_scope (o : scope) (s : state) : option state :=
    if Nat.eqb (length (scopes s)) 1 then Some s
    else if is_archive (top s) && negb (is_archive o) then Some s
    else if asserts && negb (same_scope (top s) o) then None
    else Some (mkState (tl (scopes s)) (steps s) (out s)).
  (** pushAttributes, popAttributes (99-107). *)
  Definition push_attributes (s : state) : state := mkState (scopes s) (hd (3, 3) (steps s) :: steps s) (out s).
  Definition pop_attributes (s : state) : state :=
    mkState (scopes s) (if Nat.ltb 1 (length (steps s)) then tl (steps s) else steps s) (out s).
  Definition set_steps (x : Z * Z) (s : state) : state := mkState (scopes s) (x :: tl (steps s)) (out s).
  (** The attribute state is not saved by TransformBegin (getExtraSnippet 449-457). *)
  Definition saves (k : kind) : bool := match k with KTransform => false | _ => true end.

  (** One call (604-2038): all checks come first, then the state changes, then the
      next filter is called, then the scope of a block that ends is popped. *)
  Definition handle (c : call) (s : state) : option state :=
    match what c with
    | Do p ok => if check_scope (allowed p) s && ok then Some (emit (what c) s) else Some s
    | Mesh m ok fits =>
        let (u, v) := hd (3, 3) (steps s) in
        if check_scope (allowed_mesh m) s && ok && (is_archive (top s) || fits relaxed u v) then Some (emit (what c) s) else Some s
    | SetBasis u v =>
        if check_scope (allowed RBasis) s && (0 <? u) && (0 <? v) then Some (emit (what c) (set_steps (u, v) s)) else Some s
    | Begin k ok =>
        if check_scope (allowed_begin k) s && ok then
          let s1 := if saves k then push_attributes s else s in
          let s2 := match scope_of k with Some n => push_scope n s1 | None => s1 end in
          Some (emit (what c) s2)
        else Some s
    | End k =>
        if check_scope (allowed_end k) s then
          let s1 := emit (what c) (if saves k then pop_attributes s else s) in
          if throws c then Some s1
          else match scope_of k with Some o => pop_scope o s1 | None => Some s1 end
        else Some s
    end.

  Fixpoint run (cs : list call) (s : state) : option state :=
    match cs with
    | [] => Some s
    | c :: cs => match handle c s with Some s' => run cs s' | None => None end
    end.
End Filter.

(** Which calls may appear where, and when calls are correctly nested. *)

From Coq Require Import List Bool ZArith.
From Verif Require Import ValidModel.
Import ListNotations.
Open Scope Z_scope.

(** The block a call appears in: outside of all blocks of a complete file, outside of
    all blocks of a fragment of a file (about which nothing is known), or in a block. *)
Inductive place := Outer | Fragment | Inside (k : kind).

(** The groups of calls. *)
Inductive group := Options | Attributes | Lights | Markers | Primitives | Sources | Free.
Definition group_of (p : proc) : group :=
  match p with
  (* the camera, the image, the display, textures to make *)
  | RFormat | RFrameAspectRatio | RScreenWindow | RCropWindow | RProjection | RClipping | RDepthOfField | RShutter
  | RPixelVariance | RPixelSamples | RPixelFilter | RExposure | RImager | RQuantize | RDisplay | RHider | RColorSamples
  | RRelativeDetail | ROption | RMakeTexture | RMakeLatLongEnvironment | RMakeCubeFaceEnvironment | RMakeShadow | RMakeOcclusion => Options
  (* shading and geometric attributes, transformations *)
  | RDeclare | RColor | ROpacity | RTextureCoordinates | RIlluminate | RSurface | RDisplacement | RAtmosphere | RInterior
  | RExterior | RShaderLayer | RShadingRate | RShadingInterpolation | RMatte | RBound | RDetail | RDetailRange
  | RGeometricApproximation | ROrientation | RReverseOrientation | RSides | RIdentity | RTransform | RConcatTransform
  | RPerspective | RTranslate | RRotate | RScale | RSkew | RCoordSysTransform | RAttribute | RBasis | RErrorHandler => Attributes
  | RLightSource | RAreaLightSource => Lights
  | RCoordinateSystem => Markers
  | RPolygon | RGeneralPolygon | RPointsPolygons | RPointsGeneralPolygons | RPatch | RPatchMesh | RNuPatch | RTrimCurve
  | RSubdivisionMesh | RSphere | RCone | RCylinder | RHyperboloid | RParaboloid | RDisk | RTorus | RPoints | RCurves | RBlobby => Primitives
  (* things that stand for many primitives *)
  | RProcedural | RGeometry | RObjectInstance => Sources
  | RIfBegin | RElseIf | RElse | RIfEnd | RReadArchive | RArchiveRecord | RResource | RConnectShaderLayers | RClippingPlane => Free
  end.
(** Where each group may appear in a complete file. *)
Definition may_appear (g : group) (w : place) : bool :=
  match g, w with
  | _, Fragment => true | _, Inside KArchive => true
  | Options, Outer | Options, Inside KFrame => true
  | Options, _ => false
  | Attributes, _ => true
  | Lights, Inside KObject => false | Lights, _ => true
  | Markers, Inside KMotion => false | Markers, _ => true
  | Primitives, Outer | Primitives, Inside KFrame => false | Primitives, _ => true
  | Sources, Outer | Sources, Inside KFrame | Sources, Inside KMotion => false | Sources, _ => true
  | Free, _ => true
  end.
(** Where a block may begin. *)
Definition may_begin (k : kind) (w : place) : bool :=
  match k, w with
  | _, Fragment => true | _, Inside KArchive => true
  | KFrame, Outer => true | KFrame, _ => false                                   (* frames are outermost *)
  | KWorld, Outer | KWorld, Inside KFrame => true | KWorld, _ => false           (* a world is outermost or in a frame *)
  | KAttribute, Outer | KAttribute, Inside KFrame | KAttribute, Inside KMotion => false | KAttribute, _ => true
  | KSolid, Outer | KSolid, Inside KFrame | KSolid, Inside KMotion => false | KSolid, _ => true
  | KTransform, Inside KMotion => false | KTransform, _ => true
  | KMotion, Inside KMotion => false | KMotion, _ => true                        (* motion blocks are not nested *)
  | KObject, Inside KMotion | KObject, Inside KObject => false | KObject, _ => true
  | KArchive, _ => true
  | KResource, _ => true
  end.

(** [nested ws es ws']: in the open blocks [ws] (innermost first) the calls [es] may
    be made and leave the blocks [ws'] open.  The calls inside of an archive are only
    recorded: they may be any, as long as archives are nested. *)
Definition recorded (e : event) : Prop := match e with Begin KArchive _ | End KArchive => False | _ => True end.
Inductive nested : list place -> list event -> list place -> Prop :=
| nest_nil ws : nested ws [] ws
| nest_call w ws p ok es ws' : may_appear (group_of p) w = true -> nested (w :: ws) es ws' -> nested (w :: ws) (Do p ok :: es) ws'
| nest_mesh w ws m ok f es ws' : may_appear Primitives w = true -> nested (w :: ws) es ws' -> nested (w :: ws) (Mesh m ok f :: es) ws'
| nest_basis w ws u v es ws' : may_appear Attributes w = true -> nested (w :: ws) es ws' -> nested (w :: ws) (SetBasis u v :: es) ws'
| nest_resource w ws ok es ws' : nested (w :: ws) es ws' -> nested (w :: ws) (Begin KResource ok :: es) ws'
| nest_resource_end w ws es ws' : nested (w :: ws) es ws' -> nested (w :: ws) (End KResource :: es) ws'
| nest_begin w ws k ok es ws' : k <> KResource -> may_begin k w = true -> (w = Inside KArchive -> k = KArchive) ->
    nested (Inside k :: w :: ws) es ws' -> nested (w :: ws) (Begin k ok :: es) ws'
| nest_end k ws es ws' : k <> KResource -> nested ws es ws' -> nested (Inside k :: ws) (End k :: es) ws'
| nest_recorded ws e es ws' : recorded e -> nested (Inside KArchive :: ws) es ws' -> nested (Inside KArchive :: ws) (e :: es) ws'
| nest_fragment k es ws' : nested [Fragment] es ws' -> nested [Fragment] (End k :: es) ws'.

(** Archives are closed at most as often as they are opened. *)
Fixpoint archives_closed (n : nat) (cs : list call) : Prop :=
  match cs with
  | [] => True
  | c :: cs =>
      match what c with
      | Begin KArchive true => archives_closed (S n) cs
      | End KArchive => match n with O => False | S n => archives_closed n cs end
      | _ => archives_closed n cs
      end
  end.
(** The next filter accepts the end of a block. *)
Definition ends_accepted (cs : list call) : Prop := forall c k, In c cs -> what c = End k -> throws c = false.

(** The arguments of a call pass all checks. *)
Definition good (e : event) : Prop :=
  match e with
  | Do _ ok => ok = true
  | Mesh _ ok f => ok = true /\ forall r u v, f r u v = true
  | SetBasis u v => 0 < u /\ 0 < v
  | Begin _ ok => ok = true
  | End _ => True
  end.

(** * The basis steps *)

(** A file whose blocks are closed. *)
Inductive item := One (e : event) | Block (k : kind) (body : list item).
Fixpoint flat_item (i : item) : list event :=
  match i with One e => [e] | Block k body => Begin k true :: flat_map flat_item body ++ [End k] end.
Definition flat (l : list item) : list event := flat_map flat_item l.

(** Blocks other than transformation blocks restore the basis. *)
Definition restores (k : kind) : bool := match k with KTransform => false | _ => true end.
(** [keeps relaxed in_archive steps i es steps']: the calls of [i] that are correct
    are [es]; the steps are [steps] before and [steps'] after it. *)
Inductive keeps (relaxed : bool) : bool -> Z * Z -> item -> list event -> Z * Z -> Prop :=
| keeps_call a st p ok : keeps relaxed a st (One (Do p ok)) (if ok then [Do p ok] else []) st
| keeps_mesh a st m ok f :
    keeps relaxed a st (One (Mesh m ok f)) (if ok && (a || f relaxed (fst st) (snd st)) then [Mesh m ok f] else []) st
| keeps_basis a st u v : 0 < u -> 0 < v -> keeps relaxed a st (One (SetBasis u v)) [SetBasis u v] (u, v)
| keeps_bad_basis a st u v : ~ (0 < u /\ 0 < v) -> keeps relaxed a st (One (SetBasis u v)) [] st
| keeps_block a st k body es st' :
    keeps_all relaxed (a || match k with KArchive => true | _ => false end) st body es st' ->
    keeps relaxed a st (Block k body) (Begin k true :: es ++ [End k]) (if restores k then st else st')
with keeps_all (relaxed : bool) : bool -> Z * Z -> list item -> list event -> Z * Z -> Prop :=
| keeps_nil a st : keeps_all relaxed a st [] [] st
| keeps_cons a st i l es st1 es' st2 : keeps relaxed a st i es st1 -> keeps_all relaxed a st1 l es' st2 -> keeps_all relaxed a st (i :: l) (es ++ es') st2.
(** Every call of the file is in its place. *)
Inductive placed : place -> item -> Prop :=
| placed_call w p ok : may_appear (group_of p) w = true -> placed w (One (Do p ok))
| placed_mesh w m ok f : may_appear Primitives w = true -> placed w (One (Mesh m ok f))
| placed_basis w u v : may_appear Attributes w = true -> placed w (One (SetBasis u v))
| placed_block w k body : may_begin k w = true ->
    (forall i, In i body -> placed (match k, w with KResource, _ => w | KArchive, _ => Inside k | _, Inside KArchive => w | _, _ => Inside k end) i) -> placed w (Block k body).

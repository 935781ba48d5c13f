(** Looking up names by a hash of them.

    A name is the bytes of a C string, without the zero at its end.  [word] is the number of
    values of TqUlong (inttype.h:63): 2^64, or 2^32 where unsigned long has 32 bits. *)

From Coq Require Import List Bool ZArith.
Import ListNotations.
Open Scope Z_scope.

Definition name : Type := list Z.

Section Hash.
Variable word : Z.
(** A char, which is signed, converted to TqUlong (sstring.h:75, 81). *)
Definition char_value (b : Z) : Z := (if b <? 128 then b else b - 256) mod word.
(** The loop (sstring.h:79-82). *)
Fixpoint hash_more (h : Z) (s : name) : Z :=
  match s with
  | [] => h
  | b :: r => hash_more ((h * 32 - h + char_value b) mod word) r
  end.
(** CqString::hash (sstring.h:71-85). *)
Definition hash (s : name) : Z :=
  match s with
  | [] => 0
  | b :: r => hash_more (char_value b) r
  end.

(** The first index from [i] on of a table of hashes with the hash [h]: a loop that compares. *)
Fixpoint search (h : Z) (i : nat) (l : list Z) : option nat :=
  match l with
  | [] => None
  | k :: r => if k =? h then Some i else search h (S i) r
  end.

(** ** The shader compiler *)

Inductive found := Local (i : nat) | Standard (i : nat) | Nowhere.
(** CqVarDef::FindVariable (vardef.cpp:117-145). *)
Definition find_variable (locals standards : list name) (s : name) : found :=
  match search (hash s) 0 (map hash locals) with
  | Some i => Local i
  | None =>
      match search (hash s) 0 (map hash standards) with
      | Some i => Standard i
      | None => Nowhere
      end
  end.

(** ** The shader machine *)

(** FindLocalVarIndex (shadervm.h:307-320) and, in the same way, FindStandardVarIndex
    (shaderexecenv.cpp:332-348) and FindStandardVar (314-330): the search begins at the index
    where the last one ended.  The result, with the new index; m_LocalVars keeps the hashes
    of its names (shadervariable.h:1894-1896). *)
Definition find_from (names : list name) (last : nat) (s : name) : option nat * nat :=
  match search (hash s) last (skipn last (map hash names)) with
  | Some i => (Some i, i)
  | None =>
      match search (hash s) 0 (firstn last (map hash names)) with
      | Some i => (Some i, i)
      | None => (None, last)
      end
  end.
(** FindLocalVarIndex const (shadervm.h:325-333). *)
Definition find_const (names : list name) (s : name) : option nat := search (hash s) 0 (map hash names).
(** A list of lookups, one after the other. *)
Fixpoint find_all (names : list name) (last : nat) (l : list name) : list (option nat) :=
  match l with
  | [] => []
  | s :: r => let '(o, last) := find_from names last s in o :: find_all names last r
  end.

(** What an operand becomes when a compiled shader is loaded (shadervm.cpp:1259-1268): a local
    variable, a standard one, or the first local variable if there is neither.  The second
    component has the indices for the next lookups. *)
Definition load_operand (locals standards : list name) (last : nat * nat) (s : name) : found * (nat * nat) :=
  match find_from locals (fst last) s with
  | (Some i, n) => (Local i, (n, snd last))
  | (None, n) =>
      match find_from standards (snd last) s with
      | (Some i, m) => (Standard i, (n, m))
      | (None, m) => (Local 0, (n, m))
      end
  end.

(** ** Primitive variables *)

(** CqSurface::FindUserParam (surface.cpp:668-679): the parameters' values by their names. *)
Fixpoint find_param {V} (params : list (name * V)) (s : name) : option V :=
  match params with
  | [] => None
  | (n, v) :: r => if hash n =? hash s then Some v else find_param r s
  end.
End Hash.

(** The names of the operations (shadervm.cpp:97-477), as texts. *)
From Coq Require Import String Ascii.
Definition text (s : string) : name := map (fun c => Z.of_nat (nat_of_ascii c)) (list_ascii_of_string s).
Definition operations : list name := map text
  ["RS_PUSH"; "RS_POP"; "RS_GET"; "RS_INVERSE"; "RS_JZ"; "RS_BREAK"; "S_JZ"; "S_GET"; "S_CLEAR"; "nop"; "dup";
   "debug_break"; "drop"; "mergef"; "merges"; "mergep"; "mergen"; "mergev"; "mergec"; "pushif"; "puship";
   "pushis"; "pushv"; "ipushv"; "pop"; "ipop"; "setfc"; "setfp"; "setfn"; "setfv"; "setfm"; "settc"; "settp";
   "settn"; "settv"; "setpc"; "setvc"; "setnc"; "setcp"; "setcn"; "setcv"; "setwm"; "jnz"; "jz"; "jmp";
   "lsff"; "lspp"; "lshh"; "lscc"; "lsnn"; "lsvv"; "gtff"; "gtpp"; "gthh"; "gtcc"; "gtnn"; "gtvv"; "geff";
   "gepp"; "gehh"; "gecc"; "genn"; "gevv"; "leff"; "lepp"; "lehh"; "lecc"; "lenn"; "levv"; "eqff"; "eqpp";
   "eqhh"; "eqcc"; "eqss"; "eqnn"; "eqvv"; "neff"; "nepp"; "nehh"; "necc"; "ness"; "nenn"; "nevv"; "mulff";
   "divff"; "addff"; "subff"; "negf"; "mulpp"; "divpp"; "addpp"; "subpp"; "crspp"; "dotpp"; "negp"; "mulcc";
   "divcc"; "addcc"; "subcc"; "dotcc"; "negc"; "mulfp"; "divfp"; "addfp"; "subfp"; "mulfc"; "divfc"; "addfc";
   "subfc"; "mulmm"; "divmm"; "land"; "lor"; "radians"; "degrees"; "sin"; "asin"; "cos"; "acos"; "tan";
   "atan"; "atan2"; "pow"; "exp"; "sqrt"; "log"; "log2"; "mod"; "abs"; "sign"; "min"; "max"; "pmin"; "pmax";
   "vmin"; "vmax"; "nmin"; "nmax"; "cmin"; "cmax"; "clamp"; "pclamp"; "vclamp"; "nclamp"; "cclamp"; "floor";
   "ceil"; "round"; "step"; "smoothstep"; "fspline"; "cspline"; "pspline"; "vspline"; "sfspline"; "scspline";
   "spspline"; "svspline"; "fDu"; "fDv"; "fDeriv"; "cDu"; "cDv"; "cDeriv"; "pDu"; "pDv"; "pDeriv"; "hDu";
   "hDv"; "hDeriv"; "nDu"; "nDv"; "nDeriv"; "vDu"; "vDv"; "vDeriv"; "frandom"; "crandom"; "prandom"; "noise1";
   "noise2"; "noise3"; "noise4"; "cnoise1"; "cnoise2"; "cnoise3"; "cnoise4"; "pnoise1"; "pnoise2"; "pnoise3";
   "pnoise4"; "xcomp"; "ycomp"; "zcomp"; "setxcomp"; "setycomp"; "setzcomp"; "length"; "distance"; "area";
   "normalize"; "faceforward"; "faceforward2"; "reflect"; "refract"; "fresnel"; "fresnel2"; "transform2";
   "transformm"; "transform"; "vtransform2"; "vtransformm"; "vtransform"; "ntransform2"; "ntransformm";
   "ntransform"; "depth"; "calculatenormal"; "cmix"; "fmix"; "pmix"; "vmix"; "nmix"; "comp"; "cmixc"; "pmixc";
   "vmixc"; "nmixc"; "setcomp"; "ambient"; "diffuse"; "specular"; "phong"; "trace"; "ftexture1"; "ftexture2";
   "ftexture3"; "ctexture1"; "ctexture2"; "ctexture3"; "textureinfo"; "fenvironment2"; "fenvironment3";
   "cenvironment2"; "cenvironment3"; "bump1"; "bump2"; "bump3"; "shadow2"; "shadow"; "illuminate2";
   "illuminate"; "illuminance2"; "illuminance"; "init_illuminance2"; "init_illuminance";
   "advance_illuminance"; "solar2"; "solar"; "init_gather"; "advance_gather"; "gather"; "printf";
   "fcellnoise1"; "fcellnoise2"; "fcellnoise3"; "fcellnoise4"; "ccellnoise1"; "ccellnoise2"; "ccellnoise3";
   "ccellnoise4"; "pcellnoise1"; "pcellnoise2"; "pcellnoise3"; "pcellnoise4"; "fpnoise1"; "fpnoise2";
   "fpnoise3"; "fpnoise4"; "cpnoise1"; "cpnoise2"; "cpnoise3"; "cpnoise4"; "ppnoise1"; "ppnoise2"; "ppnoise3";
   "ppnoise4"; "atmosphere"; "displacement"; "lightsource"; "surface"; "attribute"; "option"; "rendererinfo";
   "incident"; "opposite"; "ctransform"; "ctransform2"; "ptlined"; "inversesqrt"; "concat"; "format"; "match";
   "rotate"; "filterstep"; "filterstep2"; "specularbrdf"; "mtransform2"; "mtransform"; "mcomp"; "setmcomp";
   "determinant"; "mtranslate"; "mrotate"; "mscale"; "fsplinea"; "csplinea"; "psplinea"; "vsplinea";
   "sfsplinea"; "scsplinea"; "spsplinea"; "svsplinea"; "shadername2"; "shadername"; "bake_f"; "bake_3c";
   "bake_3n"; "bake_3v"; "bake_3p"; "external"; "occlusion"; "occlusion_rt"; "indirectdiffuse"; "rayinfo";
   "bake3d"; "texture3d"]%string.
(** The standard variables (vardef.cpp:26-53, shaderexecenv.cpp:45-72). *)
Definition standard_names : list name := map text
  ["Cs"; "Os"; "Ng"; "du"; "dv"; "L"; "Cl"; "Ol"; "P"; "dPdu"; "dPdv"; "N"; "u"; "v"; "s"; "t"; "I"; "Ci"; "Oi"; "Ps"; "E"; "ncomps"; "time"; "alpha"; "Ns"]%string.

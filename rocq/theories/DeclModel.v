(** Model of declarations of primitive variables and of the token dictionary.

    Modelled code: parseDeclaration and its helpers
    (/repo/libs/riutil/primvartoken.cpp:46-215), the constructors of
    CqPrimvarToken (217-259), typeSpecToEqTypes and toTypeSpec (263-325), the
    output operator (/repo/include/aqsis/riutil/primvartoken.h:347-354), the names
    of the enums (/repo/include/aqsis/riutil/primvartype.h:43-109), TypeSpec
    (/repo/include/aqsis/riutil/ricxx.h:113-152) and TokenDict
    (/repo/libs/riutil/tokendictionary.cpp:42-89, 105-210).

    Simplifications:
    - Strings are lists of bytes that end where the list ends.
    - An error is thrown (the [error] argument is null); its text is left out.
    - strtol is that of FrameModel.v.
    - std::map is a list of pairs, of which the first with the name counts. *)

From Coq Require Import List Bool ZArith String.
From Verif Require Import FrameModel RibWriteModel.
Import ListNotations.
Open Scope Z_scope.

Definition LBRACKET := 91.
Definition RBRACKET := 93.

Inductive iclass := Constant | Uniform | Varying | Vertex | FaceVarying | FaceVertex.
Inductive type := TFloat | TPoint | TColor | TInteger | TString | TVector | TNormal | THPoint | TMatrix | TMPoint | TPointer | TUnknown.
Record spec := mkSpec { spec_class : iclass; spec_type : type; spec_size : Z }.

(** * nextToken (primvartoken.cpp:59-70) *)

Definition is_blank (c : Z) : bool := (c =? 32) || (c =? 9) || (c =? 10).
Definition is_delim (c : Z) : bool := is_blank c || (c =? LBRACKET) || (c =? RBRACKET).
Fixpoint skip_blanks (s : list Z) : list Z :=
  match s with c :: r => if is_blank c then skip_blanks r else s | [] => [] end.
Fixpoint take_word (s : list Z) : list Z * list Z :=
  match s with
  | c :: r => if is_delim c then ([], s) else let (w, e) := take_word r in (c :: w, e)
  | [] => ([], [])
  end.
(** The token and what comes after it. *)
Definition next_token (s : list Z) : option (list Z * list Z) :=
  match skip_blanks s with
  | [] => None
  | c :: r => if (c =? LBRACKET) || (c =? RBRACKET) then Some ([c], r) else Some (take_word (c :: r))
  end.

(** * Words (primvartoken.cpp:74-125) *)

Definition to_lower (c : Z) : Z := if (65 <=? c) && (c <? 91) then c + 32 else c.
Definition lower_case_equal (w : list Z) (k : string) : bool :=
  if list_eq_dec Z.eq_dec (map to_lower w) (text k) then true else false.

Fixpoint keyword {A} (table : list (string * A)) (w : list Z) : option A :=
  match table with
  | [] => None
  | (k, a) :: r => if lower_case_equal w k then Some a else keyword r w
  end.
(** parseIClass, parseType. *)
Definition class_words : list (string * iclass) :=
  [("constant", Constant); ("uniform", Uniform); ("varying", Varying); ("vertex", Vertex);
   ("facevarying", FaceVarying); ("facevertex", FaceVertex)]%string.
Definition type_words : list (string * type) :=
  [("float", TFloat); ("point", TPoint); ("color", TColor); ("integer", TInteger); ("int", TInteger); ("string", TString);
   ("vector", TVector); ("normal", TNormal); ("hpoint", THPoint); ("pointer", TPointer); ("matrix", TMatrix); ("mpoint", TMPoint)]%string.
Definition parse_class : list Z -> option iclass := keyword class_words.
Definition parse_type : list Z -> option type := keyword type_words.

(** * parseDeclaration (primvartoken.cpp:138-215) *)

(** The specification and the name, if there is one; None: an error is thrown. *)
Definition result := option (spec * option (list Z)).

(** NEXT_OR_END (165-173) with no token left; [needed]: nameEnd is not null. *)
Definition at_end (needed pclass ptype plen : bool) (sp : spec) : result :=
  if needed then None
  else if negb ptype && (pclass || plen) then None
  else Some (sp, None).

(** (4) and the end (199-212). *)
Definition parse_name (pclass ptype plen : bool) (sp : spec) (t r : list Z) : result :=
  if hd 0 t =? RBRACKET then None
  else if negb ptype && (pclass || plen) then None
  else match next_token r with Some _ => None | None => Some (sp, Some t) end.

(** (3) (184-198); convEnd and end point into the same string, so they are equal
    iff as many characters follow. *)
Definition parse_array (needed pclass ptype : bool) (c : iclass) (ty : type) (t r : list Z) : result :=
  if hd 0 t =? LBRACKET then
    match next_token r with
    | None => None
    | Some (n, r1) =>
        match strtol (n ++ r1) with
        | None => None
        | Some (v, e) =>
            if negb (Nat.eqb (List.length e) (List.length r1)) then None
            else match next_token r1 with
                 | None => None
                 | Some (t2, r2) =>
                     if negb (hd 0 t2 =? RBRACKET) then None
                     else match next_token r2 with
                          | None => at_end needed pclass ptype true (mkSpec c ty v)
                          | Some (t3, r3) => parse_name pclass ptype true (mkSpec c ty v) t3 r3
                          end
                 end
        end
    end
  else parse_name pclass ptype false (mkSpec c ty 1) t r.

(** (2) (180-183). *)
Definition parse_typed (needed pclass : bool) (c : iclass) (t r : list Z) : result :=
  match parse_type t with
  | Some ty =>
      match next_token r with
      | None => at_end needed pclass true false (mkSpec c ty 1)
      | Some (t1, r1) => parse_array needed pclass true c ty t1 r1
      end
  | None => parse_array needed pclass false c TUnknown t r
  end.

(** (1) (175-179). *)
Definition parse_declaration (needed : bool) (s : list Z) : result :=
  match next_token s with
  | None => at_end needed false false false (mkSpec Uniform TUnknown 1)
  | Some (t, r) =>
      match parse_class t with
      | Some c =>
          match next_token r with
          | None => at_end needed true false false (mkSpec c TUnknown 1)
          | Some (t1, r1) => parse_typed needed true c t1 r1
          end
      | None => parse_typed needed false Uniform t r
      end
  end.

(** * CqPrimvarToken *)

Inductive vclass := VInvalid | VConstant | VUniform | VVarying | VVertex | VFaceVarying | VFaceVertex.
Inductive vtype :=
| YInvalid | YFloat | YInteger | YPoint | YString | YColor | YTriple | YHPoint | YNormal | YVector | YVoid | YMatrix | YSixteenTuple | YBool.
Record token := mkToken { tok_class : vclass; tok_type : vtype; tok_count : Z; tok_name : list Z }.

(** typeSpecToEqTypes (primvartoken.cpp:263-295). *)
Definition to_vtype (t : type) : vtype :=
  match t with
  | TFloat => YFloat | TPoint => YPoint | TVector => YVector | TNormal => YNormal | THPoint => YHPoint
  | TMatrix => YMatrix | TColor => YColor | TInteger => YInteger | TString => YString
  | TMPoint | TPointer | TUnknown => YInvalid
  end.
Definition to_vclass (c : iclass) : vclass :=
  match c with
  | Constant => VConstant | Uniform => VUniform | Varying => VVarying | Vertex => VVertex
  | FaceVarying => VFaceVarying | FaceVertex => VFaceVertex
  end.
(** CqPrimvarToken(const char* token) (228-241). *)
Definition token_of (s : list Z) : option token :=
  match parse_declaration true s with
  | Some (sp, Some n) => Some (mkToken (to_vclass (spec_class sp)) (to_vtype (spec_type sp)) (spec_size sp) n)
  | _ => None
  end.

(** The names of the enums (primvartype.h). *)
Definition class_name (c : vclass) : string :=
  match c with
  | VInvalid => "invalid" | VConstant => "constant" | VUniform => "uniform" | VVarying => "varying"
  | VVertex => "vertex" | VFaceVarying => "facevarying" | VFaceVertex => "facevertex"
  end.
Definition type_name (t : vtype) : string :=
  match t with
  | YInvalid => "invalid" | YFloat => "float" | YInteger => "integer" | YPoint => "point" | YString => "string"
  | YColor => "color" | YTriple => "triple" | YHPoint => "hpoint" | YNormal => "normal" | YVector => "vector"
  | YVoid => "void" | YMatrix => "matrix" | YSixteenTuple => "sixteentuple" | YBool => "bool"
  end.
(** Decimal output of an int. *)
Fixpoint decimal (fuel : nat) (n : Z) : list Z :=
  match fuel with
  | O => []
  | S k => (if n <? 10 then [] else decimal k (n / 10)) ++ [48 + n mod 10]
  end.
Definition print_int (n : Z) : list Z :=
  if n <? 0 then MINUS :: decimal 10 (- n) else decimal 10 n.
(** operator<< (primvartoken.h:347-354). *)
Definition print_token (t : token) : list Z :=
  text (class_name (tok_class t)) ++ [32] ++ text (type_name (tok_type t)) ++
  (if tok_count t =? 1 then [] else [LBRACKET] ++ print_int (tok_count t) ++ [RBRACKET]) ++
  [32] ++ tok_name t.

(** * TokenDict *)

Definition dict := list (list Z * spec).
Fixpoint get (n : list Z) (d : dict) : option spec :=
  match d with
  | [] => None
  | (m, sp) :: r => if list_eq_dec Z.eq_dec m n then Some sp else get n r
  end.

(** declare (tokendictionary.cpp:49-64): the dictionary is unchanged when an error
    is thrown. *)
Definition declare (d : dict) (n ty : list Z) : option dict :=
  match parse_declaration false ty with
  | Some (sp, None) => match spec_type sp with TUnknown => None | _ => Some ((n, sp) :: d) end
  | _ => None
  end.
Definition declare_or_error (d : dict) (p : list Z * list Z) : dict :=
  match declare d (fst p) (snd p) with Some e => e | None => d end.

(** lookup (tokendictionary.cpp:71-98): the specification and the name. *)
Definition lookup (d : dict) (token : list Z) : option (spec * list Z) :=
  match parse_declaration true token with
  | Some (sp, Some n) =>
      match spec_type sp with
      | TUnknown => match get n d with Some sp' => Some (sp', n) | None => None end
      | _ => Some (sp, n)
      end
  | _ => None
  end.

(** standardVarsInit (tokendictionary.cpp:105-210). *)
Definition standard_vars : list (string * (iclass * type * Z)) :=
  [("Ka", (Uniform, TFloat, 1));
   ("Kd", (Uniform, TFloat, 1));
   ("Ks", (Uniform, TFloat, 1));
   ("Kr", (Uniform, TFloat, 1));
   ("Km", (Uniform, TFloat, 1));
   ("roughness", (Uniform, TFloat, 1));
   ("texturename", (Uniform, TString, 1));
   ("specularcolor", (Uniform, TColor, 1));
   ("intensity", (Uniform, TFloat, 1));
   ("lightcolor", (Uniform, TColor, 1));
   ("from", (Uniform, TPoint, 1));
   ("to", (Uniform, TPoint, 1));
   ("coneangle", (Uniform, TFloat, 1));
   ("conedeltaangle", (Uniform, TFloat, 1));
   ("beamdistribution", (Uniform, TFloat, 1));
   ("mindistance", (Uniform, TFloat, 1));
   ("maxdistance", (Uniform, TFloat, 1));
   ("distance", (Uniform, TFloat, 1));
   ("background", (Uniform, TColor, 1));
   ("P", (Vertex, TPoint, 1));
   ("Pz", (Vertex, TPoint, 1));
   ("Pw", (Vertex, THPoint, 1));
   ("N", (Varying, TNormal, 1));
   ("Ng", (Varying, TNormal, 1));
   ("Np", (Uniform, TNormal, 1));
   ("Cs", (Varying, TColor, 1));
   ("Os", (Varying, TColor, 1));
   ("s", (Varying, TFloat, 1));
   ("t", (Varying, TFloat, 1));
   ("st", (Varying, TFloat, 2));
   ("width", (Varying, TFloat, 1));
   ("constantwidth", (Constant, TFloat, 1));
   ("gridsize", (Uniform, TInteger, 1));
   ("texturememory", (Uniform, TInteger, 1));
   ("bucketsize", (Uniform, TInteger, 2));
   ("eyesplits", (Uniform, TInteger, 1));
   ("zthreshold", (Uniform, TColor, 1));
   ("shader", (Uniform, TString, 1));
   ("archive", (Uniform, TString, 1));
   ("texture", (Uniform, TString, 1));
   ("display", (Uniform, TString, 1));
   ("procedural", (Uniform, TString, 1));
   ("resource", (Uniform, TString, 1));
   ("endofframe", (Uniform, TInteger, 1));
   ("echoapi", (Uniform, TInteger, 1));
   ("offset", (Uniform, TFloat, 1));
   ("fov", (Uniform, TFloat, 1));
   ("sphere", (Uniform, TFloat, 1));
   ("coordinatesystem", (Uniform, TString, 1));
   ("name", (Uniform, TString, 1));
   ("shadinggroup", (Uniform, TString, 1));
   ("sense", (Uniform, TString, 1));
   ("bias0", (Uniform, TFloat, 1));
   ("bias1", (Uniform, TFloat, 1));
   ("bias", (Uniform, TFloat, 1));
   ("compression", (Uniform, TString, 1));
   ("quality", (Uniform, TInteger, 1));
   ("quantize", (Uniform, TFloat, 4));
   ("dither", (Uniform, TFloat, 1));
   ("jitter", (Uniform, TInteger, 1));
   ("depthfilter", (Uniform, TString, 1));
   ("binary", (Uniform, TInteger, 1));
   ("enabled", (Uniform, TInteger, 1));
   ("centered", (Uniform, TInteger, 1));
   ("shadowmapname", (Uniform, TString, 1));
   ("res", (Uniform, TInteger, 1));
   ("multipass", (Uniform, TInteger, 1));
   ("expandgrids", (Uniform, TFloat, 1));
   ("shadows", (Uniform, TString, 1))]%string.
Definition new_dict : dict :=
  map (fun p => let '(n, (c, t, k)) := p in (text n, mkSpec c t k)) standard_vars.

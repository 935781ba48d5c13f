(** The form of declarations, and what a dictionary of declarations is. *)

From Coq Require Import List Bool ZArith String.
From Verif Require Import FrameModel FrameSpec RibWriteModel DeclModel.
Import ListNotations.
Open Scope Z_scope.

(** * Words: separated by blanks; brackets are words of their own. *)

Definition blank (c : Z) : Prop := In c [32; 9; 10].
Definition bracket (c : Z) : Prop := In c [91; 93].
Definition word (w : list Z) : Prop := w <> [] /\ forall c, In c w -> ~ blank c /\ ~ bracket c.
Inductive words : list Z -> list (list Z) -> Prop :=
| words_nil : words [] []
| words_blank c s ws : blank c -> words s ws -> words (c :: s) ws
| words_bracket c s ws : bracket c -> words s ws -> words (c :: s) ([c] :: ws)
| words_word w s ws : word w -> (forall c r, s = c :: r -> blank c \/ bracket c) -> words s ws -> words (w ++ s) (w :: ws).

(** A keyword in any mixture of upper and lower case. *)
Inductive same_letter : Z -> Z -> Prop :=
| same_same c : same_letter c c
| same_upper c : 65 <= c <= 90 -> same_letter c (c + 32).
Definition is_keyword (w : list Z) (k : string) : Prop := Forall2 same_letter w (text k).
Definition class_word (w : list Z) (c : iclass) : Prop :=
  match c with
  | Constant => is_keyword w "constant" | Uniform => is_keyword w "uniform" | Varying => is_keyword w "varying"
  | Vertex => is_keyword w "vertex" | FaceVarying => is_keyword w "facevarying" | FaceVertex => is_keyword w "facevertex"
  end.
Definition type_word (w : list Z) (t : type) : Prop :=
  match t with
  | TFloat => is_keyword w "float" | TPoint => is_keyword w "point" | TColor => is_keyword w "color"
  | TInteger => is_keyword w "integer" \/ is_keyword w "int" | TString => is_keyword w "string" | TVector => is_keyword w "vector"
  | TNormal => is_keyword w "normal" | THPoint => is_keyword w "hpoint" | TMatrix => is_keyword w "matrix"
  | TMPoint => is_keyword w "mpoint" | TPointer => is_keyword w "pointer" | TUnknown => False
  end.
Definition plain_word (w : list Z) : Prop := word w /\ (forall c, ~ class_word w c) /\ (forall t, ~ type_word w t).

(** The parts: class, type, array size and name.  Class and size may be missing;
    without a type there is only a name, or nothing. *)
Inductive class_part : list (list Z) -> iclass -> Prop :=
| cp_none : class_part [] Uniform
| cp_word w c : word w -> class_word w c -> class_part [w] c.
Inductive size_part : list (list Z) -> Z -> Prop :=
| sp_none : size_part [] 1
| sp_size n v : word n -> signed n v -> size_part [[91]; n; [93]] v.
Inductive name_part : list (list Z) -> option (list Z) -> Prop :=
| np_none : name_part [] None
| np_word n : word n -> name_part [n] (Some n).
Inductive declaration : list (list Z) -> spec -> option (list Z) -> Prop :=
| decl_typed cs c t ty ss v ns n :
    class_part cs c -> word t -> type_word t ty -> size_part ss v -> name_part ns n ->
    declaration (cs ++ [t] ++ ss ++ ns) (mkSpec c ty v) n
| decl_name n : plain_word n -> declaration [n] (mkSpec Uniform TUnknown 1) (Some n)
| decl_empty : declaration [] (mkSpec Uniform TUnknown 1) None.

(** * Dictionaries *)

(** The declarations that are correct: a type and no name. *)
Definition correct (ty : list Z) (sp : spec) : Prop :=
  exists ws, words ty ws /\ declaration ws sp None /\ spec_type sp <> TUnknown.

(** What [n] was declared as last, in a sequence of calls of Declare (first call
    first); calls that are not correct count for nothing. *)
Inductive last_declared (n : list Z) : list (list Z * list Z) -> spec -> Prop :=
| ld_this ds ty sp : correct ty sp -> last_declared n (ds ++ [(n, ty)]) sp
| ld_other ds m ty sp : m <> n -> last_declared n ds sp -> last_declared n (ds ++ [(m, ty)]) sp
| ld_bad ds m ty sp : (forall sp', ~ correct ty sp') -> last_declared n ds sp -> last_declared n (ds ++ [(m, ty)]) sp.
Definition never_declared (n : list Z) (ds : list (list Z * list Z)) : Prop :=
  forall ty sp, In (n, ty) ds -> ~ correct ty sp.

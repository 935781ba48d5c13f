(** Model of the colour spaces of the shading language: libs/math/color.cpp and
    libs/shadervm/shaderexecenv/shadeops_matrx.cpp (ctransform).

    Simplifications: exact rationals where the code has floats; one shading point; the
    assertions are not in a release. *)

From Coq Require Import List Bool QArith Qround Qabs ZArith String.
Local Open Scope Q_scope.

(** include/aqsis/math/color.h: three numbers. *)
Record color := Col { cr : Q; cg : Q; cb : Q }.

(** [a < b], std::max and std::min. *)
Definition below (a b : Q) : bool := negb (Qle_bool b a).
Definition qmax (a b : Q) : Q := if below a b then b else a.
Definition qmin (a b : Q) : Q := if below b a then b else a.

(** color.cpp:41 UNDEFINED. *)
Definition undefined : Q := - (1).

(** color.cpp:68-83 and 112-129: the hue in degrees, of the components, the greatest of
    them and the difference. *)
Definition hue (R G B mx diff : Q) : Q :=
  let rd := (mx - R) / diff in
  let gd := (mx - G) / diff in
  let bd := (mx - B) / diff in
  let H := if Qeq_bool R mx then bd - gd
           else if Qeq_bool G mx then 2 + rd - bd
           else if Qeq_bool B mx then 4 + gd - rd
           else undefined in
  let H := H * 60 in
  if below H 0 then H + 360 else H.

(** color.cpp:44-87 rgbtohsv. *)
Definition rgbtohsv (c : color) : color :=
  let mx := qmax (qmax (cr c) (cg c)) (cb c) in
  let mn := qmin (qmin (cr c) (cg c)) (cb c) in
  let diff := mx - mn in
  let S := if Qeq_bool mx 0 then 0 else diff / mx in
  let H := if Qeq_bool S 0 then undefined else hue (cr c) (cg c) (cb c) mx diff in
  Col (H / 360) S mx.

(** color.cpp:89-132 rgbtohsl. *)
Definition rgbtohsl (c : color) : color :=
  let mx := qmax (qmax (cr c) (cg c)) (cb c) in
  let mn := qmin (qmin (cr c) (cg c)) (cb c) in
  let diff := mx - mn in
  let L := (mx + mn) / 2 in
  if Qle_bool (Qabs diff) (1 # 10000000) then Col (undefined / 360) 0 0
  else
    let S := if below L (1 # 2) then diff / (mx + mn) else diff / (2 - mx - mn) in
    Col (hue (cr c) (cg c) (cb c) mx diff / 360) S L.

(** include/aqsis/math/matrix.h:717-751: a point times a matrix of 3 rows (the fourth row
    and column are those of the identity). *)
Definition times (a11 a12 a13 a21 a22 a23 a31 a32 a33 : Q) (c : color) : color :=
  Col (a11 * cr c + a21 * cg c + a31 * cb c + 0)
      (a12 * cr c + a22 * cg c + a32 * cb c + 0)
      (a13 * cr c + a23 * cg c + a33 * cb c + 0).

(** color.cpp:145-153 rgbtoYIQ. *)
Definition rgbtoYIQ : color -> color :=
  times (299 # 1000) (587 # 1000) (114 # 1000)
        (596 # 1000) (-274 # 1000) (-322 # 1000)
        (212 # 1000) (-523 # 1000) (311 # 1000).

(** color.cpp:155-207 hsvtorgb; lfloor is math.h:46-50. *)
Definition hsvtorgb (c : color) : color :=
  let H := cr c * 360 in
  let S := cg c in
  let V := cb c in
  if Qeq_bool S 0 then Col V V V
  else
    let H := if Qeq_bool H 360 then 0 else H in
    let H := H / 60 in
    let i := Qfloor H in
    let f := H - inject_Z i in
    let p := V * (1 - S) in
    let q := V * (1 - S * f) in
    let t := V * (1 - S * (1 - f)) in
    match i with
    | 0%Z => Col V t p
    | 1%Z => Col q V p
    | 2%Z => Col p V t
    | 3%Z => Col p q V
    | 4%Z => Col t p V
    | 5%Z => Col V p q
    | _ => Col 0 0 0
    end.

(** color.cpp:209-230 HSLValue. *)
Definition hsl_value (n1 n2 hue : Q) : Q :=
  let hue := if below 360 hue then hue - 360 else if below hue 0 then hue + 360 else hue in
  if below hue 60 then n1 + (n2 - n1) * hue / 60
  else if below hue 180 then n2
  else if below hue 240 then n1 + (n2 - n1) * (240 - hue) / 60
  else n1.

(** color.cpp:232-256 hsltorgb. *)
Definition hsltorgb (c : color) : color :=
  let H := cr c * 360 in
  let S := cg c in
  let L := cb c in
  let m2 := if Qle_bool L (1 # 2) then L * (1 + S) else L + S - L * S in
  let m1 := 2 * L - m2 in
  if Qeq_bool S 0 then Col L L L
  else Col (hsl_value m1 m2 (H + 120)) (hsl_value m1 m2 H) (hsl_value m1 m2 (H - 120)).

(** color.cpp:270-278 YIQtorgb. *)
Definition YIQtorgb : color -> color :=
  times 1 (956 # 1000) (621 # 1000)
        1 (-272 # 1000) (-647 # 1000)
        1 (-1105 # 1000) (1702 # 1000).

(** color.cpp:134-143 and 258-268: XYZ and xyY are not done. *)
Definition not_done (c : color) : color := c.

(** shadeops_matrx.cpp:703-742 ctransform, for one shading point. *)
Definition ctransform (from to : string) (c : color) : color :=
  let c :=
    if String.eqb from "hsv" then hsvtorgb c
    else if String.eqb from "hsl" then hsltorgb c
    else if String.eqb from "XYZ" then not_done c
    else if String.eqb from "xyY" then not_done c
    else if String.eqb from "YIQ" then YIQtorgb c
    else c in
  if String.eqb to "hsv" then rgbtohsv c
  else if String.eqb to "hsl" then rgbtohsl c
  else if String.eqb to "XYZ" then not_done c
  else if String.eqb to "xyY" then not_done c
  else if String.eqb to "YIQ" then rgbtoYIQ c
  else c.

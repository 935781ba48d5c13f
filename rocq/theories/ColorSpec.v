(** What colours are. *)

From Coq Require Import QArith Qabs Qminmax.
From Verif Require Import ColorModel.
Local Open Scope Q_scope.

(** The same colour. *)
Definition same (a b : color) : Prop := cr a == cr b /\ cg a == cg b /\ cb a == cb b.

(** A colour that is no darker than black, and one no brighter than white. *)
Definition light (c : color) : Prop := 0 <= cr c /\ 0 <= cg c /\ 0 <= cb c.
Definition shown (c : color) : Prop := light c /\ cr c <= 1 /\ cg c <= 1 /\ cb c <= 1.

(** Without colour. *)
Definition grey (c : color) : Prop := cr c == cg c /\ cg c == cb c.

(** Two components that differ by more than [e]. *)
Definition coloured (e : Q) (c : color) : Prop :=
  e < Qabs (cr c - cg c) \/ e < Qabs (cg c - cb c) \/ e < Qabs (cb c - cr c).

(** Within [e] in every component. *)
Definition near (e : Q) (a b : color) : Prop :=
  Qabs (cr a - cr b) <= e /\ Qabs (cg a - cg b) <= e /\ Qabs (cb a - cb b) <= e.

(** The pure colour of a hue between 0 and 1: red at 0 and 1, green at 1/3, blue at 2/3, and
    linear between them and the colours half way. *)
Definition unit (x : Q) : Q := Qmax 0 (Qmin 1 x).
Definition pure (h : Q) : color :=
  Col (unit (Qabs (6 * h - 3) - 1)) (unit (2 - Qabs (6 * h - 2))) (unit (2 - Qabs (6 * h - 4))).

(** Each component by a function. *)
Definition each (f : Q -> Q) (c : color) : color := Col (f (cr c)) (f (cg c)) (f (cb c)).

(** Hue, saturation and value: the pure colour, paler with less saturation, darker with less
    value. *)
Definition of_hsv (h s v : Q) : color := each (fun p => v * (1 - s * (1 - p))) (pure h).

(** Hue, saturation and lightness. *)
Definition of_hsl (h s l : Q) : color := each (fun p => l + s * (1 - Qabs (2 * l - 1)) * (p - (1 # 2))) (pure h).

(** The signal of colour television: brightness and two differences. *)
Definition yiq (c : color) : color :=
  Col ((299 # 1000) * cr c + (587 # 1000) * cg c + (114 # 1000) * cb c)
      ((596 # 1000) * cr c - (274 # 1000) * cg c - (322 # 1000) * cb c)
      ((212 # 1000) * cr c - (523 # 1000) * cg c + (311 # 1000) * cb c).

(* What the picture is, without buckets.  A pixel of the picture is made of the samples at all
   positions the filter reaches from it, and at each of these positions of all micropolygons
   whose bound touches it. *)
From Coq Require Import ZArith QArith Qround List Bool.
From Verif Require Import BucketModel.
Import ListNotations.
Local Open Scope Z_scope.

(* The positions reached by a filter around (x, y): a rows above and below, b columns to each
   side, in reading order. *)
Definition around (a b x y : Z) : list (Z * Z) :=
  flat_map (fun dy => map (fun dx => (x + Z.of_nat dx - b, y + Z.of_nat dy - a))
                          (seq 0 (Z.to_nat (2 * b + 1))))
           (seq 0 (Z.to_nat (2 * a + 1))).

(* The bound of a micropolygon reaches into the square of the position (x, y). *)
Definition touches (p : Z * Z) (m : mpoly) : bool :=
  negb (Qle_bool (inject_Z (fst p + 1)) (m_x0 m)) && negb (Qle_bool (m_x1 m) (inject_Z (fst p))) &&
  negb (Qle_bool (inject_Z (snd p + 1)) (m_y0 m)) && negb (Qle_bool (m_y1 m) (inject_Z (snd p))).

(* What the pixel (x, y) is made of. *)
Definition ingredients (ms : list mpoly) (o : options) (x y : Z) : list ((Z * Z) * list mpoly) :=
  map (fun p => (p, filter (touches p) ms)) (around (Qfloor (o_fy o / 2)) (Qfloor (o_fx o / 2)) x y).

(* The value shown is made of these ingredients, each combined exactly once; a blank pixel has
   nothing in it. *)
Definition made_of (v : shown) (l : list ((Z * Z) * list mpoly)) : Prop :=
  match v with
  | Shown es => map (fun e => (p_pos e, p_hits e, p_comb e)) es
                = map (fun i => (Some (fst i), snd i, 1%nat)) l
  | Blank => forall i, In i l -> snd i = []
  end.

(* Sensible options: buckets and a crop window which are not empty and a window inside the
   picture; a bucket is not smaller than what two buckets share. *)
Definition sensible (o : options) : Prop :=
  1 <= o_bx o /\ 1 <= o_by o /\ (0 <= o_fx o)%Q /\ (0 <= o_fy o)%Q /\
  0 <= o_cx0 o < o_cx1 o /\ o_cx1 o <= o_xres o /\
  0 <= o_cy0 o < o_cy1 o /\ o_cy1 o <= o_yres o.
Definition large_buckets (o : options) : Prop :=
  2 * Qfloor (o_fx o / 2) <= o_bx o /\ 2 * Qfloor (o_fy o / 2) <= o_by o.

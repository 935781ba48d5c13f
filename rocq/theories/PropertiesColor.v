(** C67: colours keep their meaning in the colour spaces of the shading language. *)

From Coq Require Import List Bool QArith Qround Qabs Qminmax ZArith String Lia Lqa.
From Verif Require Import ColorModel ColorSpec ColorProofs ColorInverse.
Import ListNotations.
Local Open Scope Q_scope.

(** Numbers of hue, saturation and value (or lightness) become the colour they mean. *)
Theorem C67_from_hsv : forall h s v, 0 <= h <= 1 -> same (ctransform "hsv" "rgb" (Col h s v)) (of_hsv h s v).
Proof. exact hsv_means. Qed.

Theorem C67_from_hsl : forall h s l, 0 <= h <= 1 -> same (ctransform "hsl" "rgb" (Col h s l)) (of_hsl h s l).
Proof. exact hsl_means. Qed.

(** A colour becomes the numbers that mean it: the hue and the saturation from 0 to 1, and for
    greys no saturation and a hue below 0, which is undefined. *)
Theorem C67_to_hsv : forall c, shown c ->
  exists h s v, ctransform "rgb" "hsv" c = Col h s v /\ 0 <= s <= 1 /\ 0 <= v <= 1 /\
    (grey c -> h < 0 /\ s == 0 /\ v == cr c) /\
    (~ grey c -> 0 <= h < 1 /\ 0 < s /\ same (of_hsv h s v) c).
Proof.
  intros c SC. change (ctransform "rgb" "hsv" c) with (rgbtohsv c).
  destruct (hsv_range c SC) as (S & V & G & N). pose proof (hsv_back c (proj1 SC)) as B.
  destruct (rgbtohsv c) as [h s v]. cbn [cr cg cb] in *. exists h, s, v.
  split; auto. split; auto. split; auto. split.
  - intros GC. destruct (G GC) as [S0 H0]. split; auto. split; auto. destruct B as (B1 & _).
    unfold hsvtorgb in B1. cbn [cr cg cb] in B1. destruct (eq_case s 0) as [[_ E]|[E _]]; [|contradiction].
    rewrite E in B1. exact B1.
  - intros NG. destruct (N NG) as [S0 H0]. split; auto. split; auto.
    destruct (hsv_means h s v ltac:(lra)) as (M1 & M2 & M3). destruct B as (B1 & B2 & B3).
    unfold same. rewrite <- M1, <- M2, <- M3. auto.
Qed.

Theorem C67_to_hsl_partial : forall c, shown c -> coloured (1 # 10000000) c ->
  exists h s l, ctransform "rgb" "hsl" c = Col h s l /\ 0 <= h < 1 /\ 0 < s <= 1 /\ 0 <= l <= 1 /\ same (of_hsl h s l) c.
Proof.
  intros c SC CC. change (ctransform "rgb" "hsl" c) with (rgbtohsl c).
  destruct (hsl_range c SC CC) as (H & S & L). destruct (hsl_back c SC CC) as (B1 & B2 & B3).
  destruct (rgbtohsl c) as [h s l]. cbn [cr cg cb] in H, S, L. exists h, s, l.
  split; auto. split; auto. split; auto. split; auto.
  destruct (hsl_means h s l ltac:(lra)) as (M1 & M2 & M3).
  unfold same. rewrite <- M1, <- M2, <- M3. auto.
Qed.

(** There and back. *)
Theorem C67_hsv : forall c, light c -> same (ctransform "hsv" "rgb" (ctransform "rgb" "hsv" c)) c.
Proof. exact hsv_back. Qed.

Theorem C67_hsl_partial : forall c, shown c -> coloured (1 # 10000000) c ->
  same (ctransform "hsl" "rgb" (ctransform "rgb" "hsl" c)) c.
Proof. exact hsl_back. Qed.

(** The other way round: the numbers come back, too. *)
Theorem C67_hsv_numbers : forall h s v, 0 <= h < 1 -> 0 < s -> 0 < v ->
  same (ctransform "rgb" "hsv" (ctransform "hsv" "rgb" (Col h s v))) (Col h s v).
Proof. exact hsv_again. Qed.

Theorem C67_hsl_numbers_partial : forall h s l, 0 <= h < 1 -> 0 <= s <= 1 -> 0 < l < 1 ->
  1 # 10000000 < s * (1 - Qabs (2 * l - 1)) ->
  same (ctransform "rgb" "hsl" (ctransform "hsl" "rgb" (Col h s l))) (Col h s l).
Proof. exact hsl_again. Qed.

(** Within half of one of 255 levels. *)
Theorem C67_yiq : forall c, shown c -> near (1 # 510) (ctransform "YIQ" "rgb" (ctransform "rgb" "YIQ" c)) c.
Proof. exact yiq_back. Qed.

(** Any two of the spaces: what comes back from the second is what the first meant. *)
Theorem C67_between : forall from c, let back := ctransform from "rgb" c in
  light back -> same (ctransform "hsv" "rgb" (ctransform from "hsv" c)) back.
Proof. intros from c back L. apply (hsv_back back L). Qed.

(** Names that are not known, and "rgb", leave a colour as it is. *)
Theorem C67_unknown : forall from to c,
  (forall n, In n ["hsv"; "hsl"; "XYZ"; "xyY"; "YIQ"]%string -> n <> from /\ n <> to) -> ctransform from to c = c.
Proof.
  intros from to c N. unfold ctransform.
  assert (K : forall n, In n ["hsv"; "hsl"; "XYZ"; "xyY"; "YIQ"]%string -> String.eqb from n = false /\ String.eqb to n = false).
  { intros n I. destruct (N n I). split; apply String.eqb_neq; congruence. }
  destruct (K "hsv"%string) as [-> ->]; [cbn; tauto|]. destruct (K "hsl"%string) as [-> ->]; [cbn; tauto|].
  destruct (K "XYZ"%string) as [-> ->]; [cbn; tauto|]. destruct (K "xyY"%string) as [-> ->]; [cbn; tauto|].
  destruct (K "YIQ"%string) as [-> ->]; [cbn; tauto|]. reflexivity.
Qed.

(** Greys become black in "hsl". *)
Theorem C67_hsl_refuted : exists c, shown c /\ ~ same (ctransform "hsl" "rgb" (ctransform "rgb" "hsl" c)) c.
Proof.
  exists (Col (1 # 2) (1 # 2) (1 # 2)). split.
  - unfold shown, light. cbn [cr cg cb]. repeat split; lra.
  - intros (E & _). revert E. vm_compute. discriminate.
Qed.

(** The matrix of "YIQ" is used turned about: white has a brightness of 1.107. *)
Theorem C67_yiq_refuted : exists c, shown c /\ ~ same (ctransform "rgb" "YIQ" c) (yiq c) /\
  cr (ctransform "rgb" "YIQ" c) == 1107 # 1000 /\ cr (yiq c) == 1.
Proof.
  exists (Col 1 1 1). split; [|split; [|split; reflexivity]].
  - unfold shown, light. cbn [cr cg cb]. repeat split; lra.
  - intros (E & _). revert E. vm_compute. discriminate.
Qed.

(** "XYZ" and "xyY" are not done, the colour is left as it is: the two first numbers of "xyY" are
    parts of a whole, and for white their sum is 2. *)
Theorem C67_xyz_refuted : exists c, shown c /\ ctransform "rgb" "XYZ" c = c /\
  1 < cr (ctransform "rgb" "xyY" c) + cg (ctransform "rgb" "xyY" c).
Proof.
  exists (Col 1 1 1). split; [|split; reflexivity]. unfold shown, light. cbn [cr cg cb]. repeat split; lra.
Qed.

(** * Cases *)

Definition red_of (c : color) : color := each Qred c.

Example ex_orange : red_of (ctransform "rgb" "hsv" (Col (4 # 5) (2 # 5) (1 # 5))) = Col (1 # 18) (3 # 4) (4 # 5).
Proof. vm_compute. reflexivity. Qed.

Example ex_orange_back : red_of (ctransform "hsv" "rgb" (Col (1 # 18) (3 # 4) (4 # 5))) = Col (4 # 5) (2 # 5) (1 # 5).
Proof. vm_compute. reflexivity. Qed.

Example ex_rose : red_of (ctransform "rgb" "hsl" (Col (4 # 5) (1 # 5) (2 # 5))) = Col (17 # 18) (3 # 5) (1 # 2).
Proof. vm_compute. reflexivity. Qed.

Example ex_numbers : red_of (ctransform "rgb" "hsl" (ctransform "hsl" "rgb" (Col (17 # 18) (3 # 5) (1 # 4)))) =
  Col (17 # 18) (3 # 5) (1 # 4) /\ 1 # 10000000 < (3 # 5) * (1 - Qabs (2 * (1 # 4) - 1)).
Proof. split; vm_compute; reflexivity. Qed.

(** Red, yellow, green, cyan, blue and magenta. *)
Example ex_hues : map (fun c => Qred (cr (ctransform "rgb" "hsv" c)))
  [Col 1 0 0; Col 1 1 0; Col 0 1 0; Col 0 1 1; Col 0 0 1; Col 1 0 1] = [0; 1 # 6; 1 # 3; 1 # 2; 2 # 3; 5 # 6].
Proof. vm_compute. reflexivity. Qed.

Example ex_hyp : shown (Col (4 # 5) (2 # 5) (1 # 5)) /\ coloured (1 # 10000000) (Col (4 # 5) (2 # 5) (1 # 5)) /\
  ~ grey (Col (4 # 5) (2 # 5) (1 # 5)).
Proof.
  split; [unfold shown, light; cbn [cr cg cb]; repeat split; lra|]. split; [left; reflexivity|].
  intros [E _]. revert E. vm_compute. discriminate.
Qed.

Print Assumptions C67_from_hsv.
Print Assumptions C67_from_hsl.
Print Assumptions C67_to_hsv.
Print Assumptions C67_to_hsl_partial.
Print Assumptions C67_hsv.
Print Assumptions C67_hsl_partial.
Print Assumptions C67_hsv_numbers.
Print Assumptions C67_hsl_numbers_partial.
Print Assumptions C67_yiq.
Print Assumptions C67_between.
Print Assumptions C67_unknown.
Print Assumptions C67_hsl_refuted.
Print Assumptions C67_yiq_refuted.
Print Assumptions C67_xyz_refuted.

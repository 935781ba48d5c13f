(** C56: splitting and dicing a surface keeps its shape and its variables. *)
From Verif Require Import SplitModel SplitSpec SplitProofs SplitDiceProofs.
From Coq Require Import Lia Lqa.
Local Open Scope Q_scope.

(** ** Splitting *)

(** However a patch is split, again and again and in whatever directions, the pieces make it up: every point of the patch is
    on a piece, the pieces show nothing else, no two pieces overlap, and each number has on each piece the value it has on
    the patch at that point.  Partial: the variables are not arrays with a value for each control point of a bicubic patch,
    and nothing is said of integers, strings and matrices, for all of which it is wrong (see below). *)
Theorem C56_split_partial : forall t s, proper_patch s ->
  exists l rs, split_all t s = Some l /\ make_up s rs l /\ Forall proper_patch l.
Proof. exact split_all_makes_up. Qed.
Print Assumptions C56_split_partial.

(** ** Dicing *)

(** The grid of u x v micropolygons holds the value of the variable at each of its points. *)
Theorem C56_dice : forall u v kd p g, (1 <= u)%nat -> (1 <= v)%nat -> proper kd p -> grid_for u v (p_count p) g ->
  exists g', dice num_arith kd u v p g = Some g' /\ forall k, (k < p_count p)%nat -> grid_holds u v g' k (value_at kd p k).
Proof. intros u v kd p g HU HV. exact (dice_ok u v HU HV kd p g). Qed.
Print Assumptions C56_dice.

(** So does the grid of s or t for a patch with a variable "st". *)
Theorem C56_st_partial : forall u v (p : param Q) k g, (1 <= u)%nat -> (1 <= v)%nat ->
  p_class p = Varying \/ p_class p = FaceVarying -> List.length (p_vals p) = (4 * p_count p)%nat -> (k < p_count p)%nat ->
  List.length g = ((u + 1) * (v + 1))%nat ->
  exists g', dice_one num_arith u v p k g = Some g' /\ grid_holds u v [g'] 0 (bilinear_at (controls p k)).
Proof. exact dice_one_ok. Qed.
Print Assumptions C56_st_partial.

(** ** Both *)

(** However a patch is split before it is diced, the grids of the pieces hold the values which the variable of the patch has
    at the points of the grids. *)
Theorem C56_grids_partial : forall t s, proper_patch s ->
  exists l rs, split_all t s = Some l /\ make_up s rs l /\
    forall i s' r n p, nth_error l i = Some s' -> nth_error rs i = Some r -> nth_error (s_vars s) n = Some (VNum p) ->
      exists q, nth_error (s_vars s') n = Some (VNum q) /\
        forall u v g, (1 <= u)%nat -> (1 <= v)%nat -> grid_for u v (p_count p) g ->
          exists g', dice num_arith (s_kind s') u v q g = Some g' /\
            forall k, (k < p_count p)%nat ->
              grid_holds u v g' k (fun a b => value_at (s_kind s) p k (u0 r + du r * a) (v0 r + dv r * b)).
Proof.
  intros t s PP. destruct (split_all_makes_up t s PP) as (l & rs & E & M & PL). exists l, rs. split; [exact E|]. split; [exact M|].
  intros i s' r n p HL HR HN. destruct M as (SH & _). destruct (Forall2_nth _ _ _ SH i r HR) as (s2 & H2 & S2).
  rewrite HL in H2. injection H2 as <-. rewrite Forall_forall in PL. specialize (PL s' (nth_error_In _ _ HL)).
  destruct (piece_grid s r s' n p S2 PL HN) as (q & HQ & _ & _ & _ & H). exists q. split; [exact HQ | exact H].
Qed.
Print Assumptions C56_grids_partial.

(** The variables u and v which a patch gets by default: their values are u and v, so that the grids of all pieces hold
    the place of each point on the original patch. *)
Theorem C56_default_uv : forall kd u v, value_at kd default_u 0 u v == u /\ value_at kd default_v 0 u v == v.
Proof. intros kd u v. unfold value_at, default_u, default_v, controls, bilinear_at, line2. cbn. split; ring. Qed.
Print Assumptions C56_default_uv.

Theorem C56_grid_uv_partial : forall t s n m, proper_patch s ->
  nth_error (s_vars s) n = Some (VNum default_u) -> nth_error (s_vars s) m = Some (VNum default_v) ->
  exists l rs, split_all t s = Some l /\ make_up s rs l /\
    forall i s' r, nth_error l i = Some s' -> nth_error rs i = Some r ->
      exists qu qv, nth_error (s_vars s') n = Some (VNum qu) /\ nth_error (s_vars s') m = Some (VNum qv) /\
        forall u v g, (1 <= u)%nat -> (1 <= v)%nat -> grid_for u v 1 g ->
          exists gu gv, dice num_arith (s_kind s') u v qu g = Some gu /\ dice num_arith (s_kind s') u v qv g = Some gv /\
            grid_holds u v gu 0 (fun a _ => u0 r + du r * a) /\ grid_holds u v gv 0 (fun _ b => v0 r + dv r * b).
Proof.
  intros t s n m PP HU HV. destruct (C56_grids_partial t s PP) as (l & rs & E & M & H). exists l, rs. split; [exact E|].
  split; [exact M|]. intros i s' r HL HR. destruct (H i s' r n _ HL HR HU) as (qu & QU & GU).
  destruct (H i s' r m _ HL HR HV) as (qv & QV & GV). exists qu, qv. split; [exact QU|]. split; [exact QV|].
  intros u v g H1 H2 GF. destruct (GU u v g H1 H2 GF) as (gu & EU & HGU). destruct (GV u v g H1 H2 GF) as (gv & EV & HGV).
  exists gu, gv. split; [exact EU|]. split; [exact EV|].
  split; intros iu iv LU LV.
  - destruct (HGU 0%nat ltac:(cbn; lia) iu iv LU LV) as (x & y & E1 & E2 & E3). exists x, y. split; [exact E1|]. split; [exact E2|].
    refine (Qeq_trans _ _ _ E3 _). apply (C56_default_uv (s_kind s)).
  - destruct (HGV 0%nat ltac:(cbn; lia) iu iv LU LV) as (x & y & E1 & E2 & E3). exists x, y. split; [exact E1|]. split; [exact E2|].
    refine (Qeq_trans _ _ _ E3 _). apply (C56_default_uv (s_kind s)).
Qed.
Print Assumptions C56_grid_uv_partial.

(** ** Other bases *)

(** A bicubic patch in any bases becomes a Bezier patch with the same surface: each number has the same value at each point.
    Partial: no variables of class face vertex, and no arrays. *)
Theorem C56_basis_partial : forall mu mv s, s_kind s = Bicubic -> proper_patch s -> Forall not_facevertex (s_vars s) ->
  exists s', convert_to_bezier mu mv s = Some s' /\ proper_patch s' /\
    forall n p, nth_error (s_vars s) n = Some (VNum p) ->
      exists q, nth_error (s_vars s') n = Some (VNum q) /\
        forall k u v, (k < p_count p)%nat -> value_at Bicubic q k u v == value_in_basis mu mv p k u v.
Proof.
  intros mu mv s KD PP NF. destruct (convert_ok mu mv s KD PP NF) as (s' & E & PS & _ & F). exists s'. split; [exact E|].
  split; [exact PS|]. intros n p HN. destruct (Forall2_nth _ _ _ F n _ HN) as (y & HY & C). destruct y as [q|q|q|q]; try contradiction.
  exists q. split; [exact HY|]. apply C.
Qed.
Print Assumptions C56_basis_partial.

(** From the request to the grids: the patch is converted, split and diced, and the grids hold the values of the surface in
    the bases of the request. *)
Theorem C56_basis_grids_partial : forall mu mv t s, s_kind s = Bicubic -> proper_patch s -> Forall not_facevertex (s_vars s) ->
  exists s1 l rs, convert_to_bezier mu mv s = Some s1 /\ split_all t s1 = Some l /\ make_up s1 rs l /\
    forall i s' r n p, nth_error l i = Some s' -> nth_error rs i = Some r -> nth_error (s_vars s) n = Some (VNum p) ->
      exists q, nth_error (s_vars s') n = Some (VNum q) /\
        forall u v g, (1 <= u)%nat -> (1 <= v)%nat -> grid_for u v (p_count p) g ->
          exists g', dice num_arith (s_kind s') u v q g = Some g' /\
            forall k, (k < p_count p)%nat ->
              grid_holds u v g' k (fun a b => value_in_basis mu mv p k (u0 r + du r * a) (v0 r + dv r * b)).
Proof.
  intros mu mv t s KD PP NF. destruct (convert_ok mu mv s KD PP NF) as (s1 & E & PS & KD1 & F).
  destruct (C56_grids_partial t s1 PS) as (l & rs & E1 & M & H). exists s1, l, rs. split; [exact E|]. split; [exact E1|].
  split; [exact M|]. intros i s' r n p HL HR HN. destruct (Forall2_nth _ _ _ F n _ HN) as (y & HY & C).
  destruct y as [p1|p1|p1|p1]; try contradiction. destruct C as (_ & _ & CC & CV).
  destruct (H i s' r n p1 HL HR HY) as (q & HQ & HG). exists q. split; [exact HQ|]. intros u v g HU HV GF.
  rewrite CC in HG. destruct (HG u v g HU HV GF) as (g' & ED & GH). exists g'. split; [exact ED|]. intros k HK iu iv LU LV.
  destruct (GH k HK iu iv LU LV) as (x & y & X1 & X2 & X3). exists x, y. split; [exact X1|]. split; [exact X2|].
  refine (Qeq_trans _ _ _ X3 _). rewrite KD1. apply CV. exact HK.
Qed.
Print Assumptions C56_basis_grids_partial.

(** ** Bounds *)

(** The bound of a piece contains every point of the patch which the piece shows: for each coordinate.  The fourth vertex of
    a triangle is the one the request gives it: v1 - v0 + v2.  Weights other than 1 are not covered. *)
Theorem C56_bound_partial : forall big t s n p, proper_patch s -> nth_error (s_vars s) n = Some (VNum p) ->
  p_class p = Vertex -> p_array p = false ->
  (s_phantom s = true -> controls p 0 3 == controls p 0 1 - controls p 0 0 + controls p 0 2) ->
  exists l rs, split_all t s = Some l /\ make_up s rs l /\
    forall i s' r, nth_error l i = Some s' -> nth_error rs i = Some r ->
      (s_phantom s' = true -> s_phantom s = true) /\
      exists q lo hi, nth_error (s_vars s') n = Some (VNum q) /\ bound_param big (s_kind s') (s_phantom s') q = Some (lo, hi) /\
        forall u v, covers (s_phantom s') r u v -> lo <= value_at (s_kind s) p 0 u v <= hi.
Proof.
  intros big t s n p PP HN CL AR PH. destruct (split_all_makes_up t s PP) as (l & rs & E & M & PL). exists l, rs. split; [exact E|].
  split; [exact M|]. intros i s' r HL HR. assert (TR := split_all_phantom t s l E s' (nth_error_In _ _ HL)). split; [exact TR|].
  destruct M as (SH & _). destruct (Forall2_nth _ _ _ SH i r HR) as (s2 & H2 & S2). rewrite HL in H2. injection H2 as <-.
  rewrite Forall_forall in PL. specialize (PL s' (nth_error_In _ _ HL)).
  destruct PP as [PV PK]. rewrite Forall_forall in PV. destruct (PV _ (nth_error_In _ _ HN)) as [PP _].
  destruct (piece_bound big s r s' n p S2 PL HN CL AR PP (fun H => PH (TR H))) as (q & HQ & lo & hi & EB & HB).
  exists q, lo, hi. split; [exact HQ|]. split; [exact EB | exact HB].
Qed.
Print Assumptions C56_bound_partial.

(** ** What goes wrong *)

(** Integers: a point of the patch has another value once the patch is split, because the mean of two corners is cut off. *)
Theorem C56_integer_refuted : exists p a b g1 g2,
  proper Bilinear p /\ subdivide int_arith Bilinear true true p = Some (a, b) /\
  dice int_arith Bilinear 8 1 p [repeat 0%Z 18] = Some [g1] /\ dice int_arith Bilinear 4 1 b [repeat 0%Z 10] = Some [g2] /\
  nth_error g1 5 = Some 3%Z /\ nth_error g2 1 = Some 2%Z.
Proof.
  exists (mkparam Varying false 1 [0; 5; 0; 5]%Z). do 4 eexists. split; [repeat split; cbn; lia|].
  split; [vm_compute; reflexivity|]. split; [vm_compute; reflexivity|]. split; [vm_compute; reflexivity|].
  split; vm_compute; reflexivity.
Qed.
Print Assumptions C56_integer_refuted.

(** Matrices: a matrix with the same value at all corners gets another value between them: the mean does not halve the last
    column. *)
Theorem C56_matrix_refuted : exists m a b,
  let p := mkparam Varying false 1 [m; m; m; m] in
  List.length m = 16%nat /\ nth_error m 15 = Some 1 /\
  subdivide mat_arith Bilinear false true p = Some (a, b) /\
  exists m', rd b 0 0 = Some m' /\ nth_error m' 15 = Some 2.
Proof.
  exists [1;0;0;0; 0;1;0;0; 0;0;1;0; 0;0;0;1]. do 2 eexists. split; [reflexivity|]. split; [reflexivity|].
  split; [vm_compute; reflexivity|]. eexists. split; vm_compute; reflexivity.
Qed.
Print Assumptions C56_matrix_refuted.

(** A matrix for each control point of a bicubic patch is not split at all: both halves have the corners of the patch. *)
Theorem C56_cubic_matrix_refuted : forall u l,
  let p := mkparam Vertex false 1 l in subdivide mat_arith Bicubic false u p = Some (p, p).
Proof. reflexivity. Qed.
Print Assumptions C56_cubic_matrix_refuted.

(** Strings: a string with the same value at all corners is written twice between them. *)
Theorem C56_string_refuted : exists a b,
  subdivide str_arith Bilinear true true (mkparam Varying false 1 ["x"; "x"; "x"; "x"]%string) = Some (a, b) /\
  rd b 0 0 = Some "xx"%string.
Proof. do 2 eexists. split; vm_compute; reflexivity. Qed.
Print Assumptions C56_string_refuted.

(** Arrays with a value for each control point of a bicubic patch: whatever their values, the patch can be diced but its
    halves cannot, since only four of the sixteen control points are left. *)
Theorem C56_vertex_array_refuted : exists p : param Q,
  proper Bicubic p /\ p_class p = Vertex /\
  (exists g, dice num_arith Bicubic 1 1 p [repeat 0 4; repeat 0 4] = Some g) /\
  exists a b, subdivide num_arith Bicubic true true p = Some (a, b) /\
    dice num_arith Bicubic 1 1 a [repeat 0 4; repeat 0 4] = None /\ dice num_arith Bicubic 1 1 b [repeat 0 4; repeat 0 4] = None.
Proof.
  exists (mkparam Vertex true 2 (repeat 1 32)). split; [split; [cbn; lia|]; split; [discriminate | reflexivity]|]. split; [reflexivity|].
  split; [eexists; vm_compute; reflexivity|]. do 2 eexists. split; [vm_compute; reflexivity|]. split; vm_compute; reflexivity.
Qed.
Print Assumptions C56_vertex_array_refuted.

(** A variable "st" with values for each vertex leaves s and t as they were. *)
Theorem C56_vertex_st_refuted : forall u v (p : param Q) k g, p_class p = Vertex -> dice_one num_arith u v p k g = Some g.
Proof. intros u v p k g CL. unfold dice_one. rewrite CL. reflexivity. Qed.
Print Assumptions C56_vertex_st_refuted.

(** Face vertex variables are not converted to the Bezier basis: a patch in the B-spline basis gets a wrong value. *)
Definition bspline : matrix := fun i j =>
  nth (i * 4 + j) [-1 # 6; 3 # 6; -3 # 6; 1 # 6;  3 # 6; -6 # 6; 3 # 6; 0;  -3 # 6; 0; 3 # 6; 0;  1 # 6; 4 # 6; 1 # 6; 0] 0.
Theorem C56_facevertex_refuted : exists p : param Q,
  proper Bicubic p /\ p_class p = FaceVertex /\ convert_param bspline bspline p = Some p /\
  ~ value_at Bicubic p 0 0 0 == value_in_basis bspline bspline p 0 0 0.
Proof.
  exists (mkparam FaceVertex false 1 (1 :: repeat 0 15)). split; [repeat split; cbn; lia|]. split; [reflexivity|]. split; [reflexivity|].
  vm_compute. discriminate.
Qed.
Print Assumptions C56_facevertex_refuted.

(** ** Examples *)

(** A bicubic patch with a height, a colour at the corners, u and v, and an array of two floats at the corners *)
Definition example_patch : patch :=
  mkpatch Bicubic false true true 0
    [VNum (mkparam Vertex false 1 [0; 1; 1; 0; 1; 4; 4; 1; 1; 4; 4; 1; 0; 1; 1; 0]);
     VNum (mkparam Varying false 1 [0; 1; 0; 1]); VNum default_u; VNum default_v;
     VNum (mkparam Varying true 2 [1; 2; 3; 4; 5; 6; 7; 8]);
     VNum (mkparam Uniform false 1 [7]); VStr (mkparam Uniform false 1 ["name"%string])].
Example example_proper : proper_patch example_patch /\ Forall not_facevertex (s_vars example_patch).
Proof.
  split; [split; [|reflexivity]|]; cbn [s_vars s_kind example_patch].
  - repeat constructor; cbn; try lia; try discriminate; intros (_ & H & H'); try discriminate; destruct H'; discriminate.
  - repeat constructor; cbn; discriminate.
Qed.

(** Split in both directions, then one of the pieces again *)
Definition example_tree : tree :=
  Split true false (fun n => match n with 2%nat => Split false true (fun _ => Keep) | _ => Keep end).
Example example_pieces : option_map (@List.length patch) (split_all example_tree example_patch) = Some 5%nat.
Proof. vm_compute. reflexivity. Qed.

(** The u of the pieces at their corners *)
Example example_u :
  option_map (map (fun s => match nth_error (s_vars s) 2 with Some (VNum p) => map Qred (p_vals p) | _ => nil end))
    (split_all example_tree example_patch)
  = Some [[0; 1 # 2; 0; 1 # 2]; [0; 1 # 2; 0; 1 # 2]; [1 # 2; 1; 1 # 2; 1]; [1 # 2; 1; 1 # 2; 1]; [1 # 2; 1; 1 # 2; 1]].
Proof. vm_compute. reflexivity. Qed.
Example example_v :
  option_map (map (fun s => match nth_error (s_vars s) 3 with Some (VNum p) => map Qred (p_vals p) | _ => nil end))
    (split_all example_tree example_patch)
  = Some [[0; 0; 1 # 2; 1 # 2]; [1 # 2; 1 # 2; 1; 1]; [0; 0; 1 # 4; 1 # 4]; [1 # 4; 1 # 4; 1 # 2; 1 # 2]; [1 # 2; 1 # 2; 1; 1]].
Proof. vm_compute. reflexivity. Qed.

(** A triangle is split into a quadrilateral and two triangles *)
Definition example_triangle : patch :=
  mkpatch Bilinear true true true 0 [VNum (mkparam Vertex false 1 [0; 4; 8; 12]); VNum default_u; VNum default_v].
Example example_triangle_proper : proper_patch example_triangle.
Proof.
  split; [|discriminate]. cbn [s_vars s_kind example_triangle].
  repeat constructor; cbn; try lia; intros (H & _); discriminate.
Qed.
Example example_triangle_pieces :
  option_map (map (fun s => (s_phantom s, match nth_error (s_vars s) 0 with Some (VNum p) => map Qred (p_vals p) | _ => nil end)))
    (split_all (Split true true (fun _ => Keep)) example_triangle)
  = Some [(false, [0; 2; 4; 6]); (true, [4; 6; 8; 10]); (true, [2; 4; 6; 8])].
Proof. vm_compute. reflexivity. Qed.

(** The grid of 2 x 1 micropolygons of the height *)
Example example_grid :
  option_map (map (map Qred)) (dice num_arith Bicubic 2 1 (mkparam Vertex false 1 [0; 1; 1; 0; 1; 4; 4; 1; 1; 4; 4; 1; 0; 1; 1; 8]) [repeat 0 6])
  = Some [[0; 3 # 4; 0; 0; 7 # 4; 8]].
Proof. vm_compute. reflexivity. Qed.
Example example_grid_ready : grid_for 2 1 1 [repeat 0 6].
Proof. split; [reflexivity | repeat constructor]. Qed.

(** A B-spline patch with equal control points stays there; one with a linear height has this height *)
Example example_bspline :
  option_map (fun p => map Qred (p_vals p)) (convert_param bspline bspline (mkparam Vertex false 1 [0;1;2;3; 0;1;2;3; 0;1;2;3; 0;1;2;3]))
  = Some [1; 4 # 3; 5 # 3; 2; 1; 4 # 3; 5 # 3; 2; 1; 4 # 3; 5 # 3; 2; 1; 4 # 3; 5 # 3; 2].
Proof. vm_compute. reflexivity. Qed.

(** The bound of a triangle does not contain its fourth vertex *)
Example example_bound :
  bound_param 1000 Bilinear true (mkparam Vertex false 1 [0; 4; 8; 12]) = Some (0, 8) /\
  bound_param 1000 Bilinear false (mkparam Vertex false 1 [0; 4; 8; 12]) = Some (0, 12).
Proof. split; vm_compute; reflexivity. Qed.

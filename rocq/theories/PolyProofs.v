From Coq Require Import List Bool ZArith Arith Lia.
From Verif Require Import PolyModel PolySpec.
Import ListNotations.
Open Scope Z_scope.

(* ---------- Sums over closed lines ---------- *)

Section Chain.
Context {T : Type}.
Variable F : T -> T -> Z.
Hypothesis A : antisymmetric F.

Lemma F_same a : F a a = 0. Proof. pose proof (A a a). lia. Qed.

Lemma along_cons a b l : along F (a :: b :: l) = F a b + along F (b :: l).
Proof. reflexivity. Qed.
Lemma along_app l x m : along F (l ++ x :: m) = along F (l ++ [x]) + along F (x :: m).
Proof.
  induction l as [|a l IH]; [cbn; lia|].
  destruct l as [|b l]; cbn [app] in *; rewrite !along_cons; [cbn [along]; lia|]. lia.
Qed.
Lemma along_rev l : along F (rev l) = - along F l.
Proof.
  induction l as [|a l IH]; [reflexivity|]. destruct l as [|b l]; [reflexivity|].
  change (rev (a :: b :: l)) with (rev (b :: l) ++ [a]).
  change (rev (b :: l)) with (rev l ++ [b]) in *. rewrite <- app_assoc.
  change ([b] ++ [a]) with (b :: [a]). rewrite along_app, IH, !along_cons. cbn [along]. rewrite (A a b). lia.
Qed.

(** A closed line may start at any of its points. *)
Lemma around_rotate x l m : around F (x :: l ++ m) = along F (x :: l ++ m ++ [x]).
Proof. unfold around. cbn [app]. now rewrite <- app_assoc. Qed.
Lemma around_swap a b : around F (a ++ b) = around F (b ++ a).
Proof.
  destruct a as [|x a]; [now rewrite app_nil_r|]. destruct b as [|y b]; [now rewrite app_nil_r|].
  unfold around. cbn [app]. rewrite <- !app_assoc. cbn [app].
  change (x :: a ++ y :: b ++ [x]) with ((x :: a) ++ y :: (b ++ [x])).
  change (y :: b ++ x :: a ++ [y]) with ((y :: b) ++ x :: (a ++ [y])).
  rewrite (along_app (x :: a)), (along_app (y :: b)). cbn [app]. lia.
Qed.
Lemma around_rev l : around F (rev l) = - around F l.
Proof.
  destruct l as [|x l]; [reflexivity|]. cbn [rev]. rewrite around_swap. unfold around. cbn [app].
  rewrite <- along_rev. f_equal. cbn [rev]. now rewrite rev_app_distr.
Qed.
(** A corner is cut off. *)
Lemma around_cut p c n l : around F (c :: n :: l ++ [p]) =
  around F (n :: l ++ [p]) + around F [p; c; n].
Proof.
  unfold around. cbn [app]. rewrite <- !app_assoc. cbn [app].
  change (c :: n :: l ++ p :: [c]) with ((c :: n :: l) ++ p :: [c]).
  change (n :: l ++ p :: [n]) with ((n :: l) ++ p :: [n]).
  rewrite (along_app (c :: n :: l)), (along_app (n :: l)). cbn [app along].
  rewrite (A p n). destruct (l ++ [p]); lia.
Qed.
(** A second closed line is inserted through a line passed both ways. *)
Lemma around_bridge x a y b :
  around F ((x :: a) ++ [x] ++ (y :: b) ++ [y]) = around F (x :: a) + around F (y :: b).
Proof.
  unfold around. cbn [app]. rewrite <- !app_assoc. cbn [app]. rewrite <- !app_assoc. cbn [app].
  change (x :: a ++ x :: y :: b ++ y :: [x]) with ((x :: a) ++ x :: y :: b ++ y :: [x]).
  rewrite (along_app (x :: a)). rewrite along_cons.
  change (y :: b ++ y :: [x]) with ((y :: b) ++ y :: [x]). rewrite (along_app (y :: b)).
  cbn [app along]. rewrite (A x y). lia.
Qed.
Lemma around_combine a b v w : (a < length v)%nat -> (b < length w)%nat ->
  around F (skipn a v ++ firstn (a + 1) v ++ skipn b w ++ firstn (b + 1) w) = around F v + around F w.
Proof.
  assert (R : forall a (v : list T), (a < length v)%nat ->
    exists x r, skipn a v ++ firstn (a + 1) v = (x :: r) ++ [x] /\ around F v = around F (x :: r)).
  { clear. intros a v H.
    assert (E0 : around F v = around F (firstn a v ++ skipn a v)) by now rewrite firstn_skipn. destruct (skipn a v) as [|x r] eqn:E.
    - apply (f_equal (@length T)) in E. rewrite skipn_length in E. cbn in E. lia.
    - exists x, (r ++ firstn a v). split.
      + cbn [app]. f_equal. rewrite <- app_assoc. f_equal.
        rewrite <- (firstn_skipn a v) at 1. rewrite firstn_app, firstn_firstn, firstn_length, E.
        replace (Init.Nat.min (a + 1) a) with a by lia.
        replace (a + 1 - Init.Nat.min a (length v))%nat with 1%nat by lia. reflexivity.
      + rewrite E0, around_swap. reflexivity. }
  intros HV HW. destruct (R a v HV) as (x & r & E1 & E2). destruct (R b w HW) as (y & t & E3 & E4).
  rewrite app_assoc, E1, E3, E2, E4. rewrite <- around_bridge. now rewrite <- app_assoc.
Qed.
End Chain.

(* ---------- C41: PointsPolygons ---------- *)

Lemma skipn_nth (l : list Z) k : (k < length l)%nat -> skipn k l = nth k l 0 :: skipn (S k) l.
Proof. revert k. induction l as [|x l IH]; intros [|k] H; cbn in *; try lia; [reflexivity|]. apply IH. lia. Qed.

Definition good (size x : Z) : Prop := 0 <= x < size.
Lemma good_unsigned size x : size <= 4294967296 -> good size x -> (size <=? as_unsigned x) = false.
Proof. intros S [G1 G2]. unfold as_unsigned. rewrite Z.mod_small by lia. apply Z.leb_gt. lia. Qed.

Lemma fill_good size indices : size <= 4294967296 -> forall count iP acc,
  (iP + count <= length indices)%nat -> Forall (good size) (firstn count (skipn iP indices)) ->
  fill size indices count iP acc = (Some (rev acc ++ firstn count (skipn iP indices)), (iP + count)%nat).
Proof.
  intros HS. induction count as [|k IH]; intros iP acc L G; cbn [fill firstn].
  - rewrite app_nil_r. f_equal. lia.
  - rewrite skipn_nth in * by lia. cbn [firstn] in *. inversion G; subst.
    rewrite good_unsigned by auto. rewrite IH; [|lia|auto]. cbn [rev]. rewrite <- app_assoc. cbn [app].
    f_equal. lia.
Qed.

Lemma skipn_add {X} (l : list X) a b : skipn b (skipn a l) = skipn (a + b) l.
Proof. revert a. induction l as [|x l IH]; intros [|a]; cbn; auto using skipn_nil. Qed.

Definition sum_nat (l : list nat) : nat := fold_right plus 0%nat l.

Lemma split_faces_good size indices rest : size <= 4294967296 -> forall counts poly iP,
  (iP + sum_nat counts <= length indices)%nat ->
  Forall (good size) (firstn (sum_nat counts) (skipn iP indices)) ->
  split_faces size indices (counts ++ rest) poly iP =
    own_faces counts (skipn iP indices) poly (Z.of_nat iP)
    ++ split_faces size indices rest (poly + Z.of_nat (length counts)) (iP + sum_nat counts).
Proof.
  intros HS. induction counts as [|n r IH]; intros poly iP L G; cbn [app split_faces own_faces sum_nat fold_right] in *.
  - f_equal; cbn; lia.
  - fold (sum_nat r) in *. assert (E : firstn (n + sum_nat r) (skipn iP indices) =
      firstn n (skipn iP indices) ++ firstn (sum_nat r) (skipn n (skipn iP indices))).
    { rewrite <- (firstn_skipn n (skipn iP indices)) at 1. rewrite firstn_app, firstn_firstn.
      replace (Init.Nat.min (n + sum_nat r) n) with n by lia. f_equal. f_equal.
      rewrite firstn_length, skipn_length. lia. }
    rewrite E in G. apply Forall_app in G as [G1 G2].
    rewrite fill_good by (auto; lia). cbn [rev app]. f_equal. rewrite skipn_add in *.
    rewrite IH; [|lia|auto]. f_equal; [|f_equal; cbn [length]; lia]. f_equal. lia.
Qed.

(* ---------- C42: one polygon ---------- *)

Lemma poly_index_nth f i : (i < length (f_verts f))%nat -> poly_index f i = nth i (f_verts f) 0.
Proof. intros H. unfold poly_index. now apply Nat.ltb_lt in H as ->. Qed.

Section Patches.
Context {T : Type}.
Variable F : T -> T -> Z.
Hypothesis A : antisymmetric F.
Variable pos : Z -> T.

Definition patch_sum (p : patch) : Z := around F (map pos (outline_of p (from_vertex p))).

(* What is still to be covered: the first vertex, and the vertices from [b] on. *)
Lemma split_loop_cover f : forall k i b, (i < length (f_verts f) + 2)%nat -> i = S b -> (1 <= b)%nat ->
  (length (f_verts f) <= i + 2 * k)%nat -> (b < length (f_verts f))%nat ->
  total (map patch_sum (split_loop f (length (f_verts f)) k i b)) =
    around F (map pos (nth 0 (f_verts f) 0 :: skipn b (f_verts f))).
Proof.
  set (n := length (f_verts f)). induction k as [|k IH]; intros i b H1 H2 H3 H4 H5; cbn [split_loop].
  - assert (E : skipn b (f_verts f) = [nth b (f_verts f) 0]).
    { rewrite skipn_nth by (fold n; lia). rewrite skipn_all2 by (fold n; lia). reflexivity. }
    rewrite E. cbn. rewrite (A (pos (nth 0 (f_verts f) 0))). lia.
  - destruct (i <? n)%nat eqn:L; [apply Nat.ltb_lt in L|apply Nat.ltb_ge in L].
    + cbn [map total fold_right]. fold (total (map patch_sum (split_loop f n k (i + 2)
        (if (i + 1 <? n)%nat then (i + 1)%nat else i)))).
      rewrite (skipn_nth _ b) by (fold n; lia). rewrite <- H2.
      rewrite (skipn_nth _ i) by (fold n; lia).
      destruct (i + 1 <? n)%nat eqn:M; [apply Nat.ltb_lt in M|apply Nat.ltb_ge in M].
      * rewrite IH by (fold n; lia). unfold patch_sum at 1, outline_of, outline. cbn [phantom from_vertex].
        replace (i =? i + 1)%nat with false by (symmetry; apply Nat.eqb_neq; lia).
        cbn [map nth]. rewrite !poly_index_nth by (fold n; lia).
        replace (S i) with (i + 1)%nat by lia. rewrite (skipn_nth _ (i + 1)) by (fold n; lia).
        cbn [map]. generalize (map pos (skipn (S (i + 1)) (f_verts f))). intros R.
        generalize (pos (nth 0 (f_verts f) 0)) (pos (nth b (f_verts f) 0)) (pos (nth i (f_verts f) 0))
          (pos (nth (i + 1) (f_verts f) 0)). intros x y z w.
        unfold around. cbn [app]. rewrite !along_cons. cbn [along]. rewrite (A x w). lia.
      * unfold patch_sum at 1, outline_of, outline. cbn [phantom from_vertex]. rewrite Nat.eqb_refl.
        cbn [map nth]. rewrite !poly_index_nth by (fold n; lia).
        replace (total _) with 0.
        2: { destruct k; cbn [split_loop]; [reflexivity|]. replace (i + 2 <? n)%nat with false; [reflexivity|].
             symmetry. apply Nat.ltb_ge. lia. }
        rewrite skipn_all2 by (fold n; lia). cbn [map]. lia.
    + assert (E : skipn b (f_verts f) = [nth b (f_verts f) 0]).
      { rewrite skipn_nth by (fold n; lia). rewrite skipn_all2 by (fold n; lia). reflexivity. }
      rewrite E. cbn. rewrite (A (pos (nth 0 (f_verts f) 0))). lia.
Qed.

Lemma split_polygon_cover f :
  total (map patch_sum (split_polygon f)) = around F (map pos (f_verts f)).
Proof.
  unfold split_polygon. destruct (f_verts f) as [|a [|b r]] eqn:E.
  - reflexivity.
  - cbn. pose proof (A (pos a) (pos a)). lia.
  - rewrite <- E. rewrite split_loop_cover by (try rewrite E; cbn; lia).
    rewrite E. reflexivity.
Qed.
End Patches.

(** Each corner of a patch is a corner of the polygon. *)
Definition patch_of (f : face) (p : patch) : Prop :=
  exists i j k l, (i < length (f_verts f))%nat /\ (j < length (f_verts f))%nat /\
    (k < length (f_verts f))%nat /\ (l < length (f_verts f))%nat /\
    from_vertex p = map (fun c => nth c (f_verts f) 0) [i; j; k; l] /\
    from_face p = map (fun c => f_start f + Z.of_nat c) [i; j; k; l] /\
    from_uniform p = f_index f.
Lemma split_loop_of f : forall k i b, (b < length (f_verts f))%nat ->
  Forall (patch_of f) (split_loop f (length (f_verts f)) k i b).
Proof.
  set (n := length (f_verts f)). induction k as [|k IH]; intros i b H; cbn [split_loop]; [constructor|].
  destruct (i <? n)%nat eqn:L; [apply Nat.ltb_lt in L|constructor].
  constructor.
  - exists 0%nat, b, (if (i + 1 <? n)%nat then (i + 1)%nat else i), i. fold n.
    assert ((if (i + 1 <? n)%nat then (i + 1)%nat else i) < n)%nat.
    { destruct (i + 1 <? n)%nat eqn:M; [now apply Nat.ltb_lt in M|exact L]. }
    repeat split; try lia. cbn [from_vertex map]. now rewrite !poly_index_nth by (fold n; lia).
  - apply IH. destruct (i + 1 <? n)%nat eqn:M; [now apply Nat.ltb_lt in M|exact L].
Qed.
Lemma split_polygon_of f : Forall (patch_of f) (split_polygon f).
Proof.
  unfold split_polygon. destruct (f_verts f) as [|a [|b r]] eqn:E; try constructor.
  rewrite <- E. apply split_loop_of. rewrite E. cbn. lia.
Qed.

(* ---------- C43: general polygons ---------- *)

Lemma antisymmetric_cross : antisymmetric cross.
Proof. intros [a b] [c d]. unfold cross. cbn. lia. Qed.
Lemma antisymmetric_crossing q : antisymmetric (crossing q).
Proof.
  intros [a b] [c d]. destruct q as [x y]. unfold crossing, left_of. cbn [fst snd].
  destruct (Z.leb_spec d y), (Z.leb_spec b y), (Z.ltb_spec y d), (Z.ltb_spec y b); cbn [andb]; try lia;
    repeat match goal with |- context [if ?u <? ?v then _ else _] => destruct (Z.ltb_spec u v) end; lia.
Qed.

Lemma total_app a b : total (a ++ b) = total a + total b.
Proof. unfold total. induction a; cbn in *; lia. Qed.

Section Triangles.
Variable P : Z -> point.
Variable tie : polygon -> polygon -> nat -> nat -> nat -> nat -> bool.
Let at_ (a : axis) (v : Z) : Z * Z := project a (P v).

Lemma along_snoc {T} (F : T -> T -> Z) l x y : along F (l ++ [x; y]) = along F (l ++ [x]) + F x y.
Proof. rewrite along_app. cbn. lia. Qed.

Lemma corner_nth g i : corner P g i = nth i (map (at_ (g_axis g)) (g_verts g)) (at_ (g_axis g) 0).
Proof. unfold corner. rewrite map_nth. reflexivity. Qed.

Lemma area_loop_along g : forall k i acc, (i + k < length (g_verts g))%nat ->
  area_loop P g k i acc = acc + along cross (firstn (S k) (skipn i (map (at_ (g_axis g)) (g_verts g)))).
Proof.
  set (V := map (at_ (g_axis g)) (g_verts g)). assert (L : length V = length (g_verts g)) by apply map_length.
  assert (N : forall i, (i < length V)%nat -> skipn i V = corner P g i :: skipn (S i) V).
  { intros i H. rewrite corner_nth. fold V. generalize (at_ (g_axis g) 0). revert i H. clear.
    induction V as [|x V IH]; intros [|i] H d; cbn in *; try lia; [reflexivity|]. apply IH. lia. }
  induction k as [|k IH]; intros i acc H; cbn [area_loop].
  - rewrite N by lia. cbn. lia.
  - rewrite IH by lia. rewrite (N i) by lia. rewrite firstn_cons. rewrite (N (S i)) by lia.
    rewrite !firstn_cons, along_cons. unfold term, cross. lia.
Qed.

Lemma calc_orientation_spec g h : calc_orientation P g = Some h ->
  g_verts g <> [] /\ h = mkPolygon (g_verts g)
    (if 0 <=? area2 (map (at_ (g_axis g)) (g_verts g)) then AntiClockwise else Clockwise) (g_axis g) (g_reverse g).
Proof.
  unfold calc_orientation. destruct (g_verts g) as [|v vs] eqn:E; [discriminate|]. intros H. inversion H; subst h. clear H.
  split; [discriminate|]. rewrite area_loop_along by (rewrite E; cbn; lia). f_equal.
  replace (term P g (length (v :: vs) - 1) 0 + _) with (area2 (map (at_ (g_axis g)) (v :: vs))); [reflexivity|].
  rewrite <- E. cbn [skipn]. rewrite firstn_all2 by (rewrite map_length, E; cbn; lia).
  unfold term. change (fst (corner P g (length (g_verts g) - 1)) * snd (corner P g 0) -
    fst (corner P g 0) * snd (corner P g (length (g_verts g) - 1))) with
    (cross (corner P g (length (g_verts g) - 1)) (corner P g 0)). rewrite !corner_nth.
  set (V := map (at_ (g_axis g)) (g_verts g)). replace (length (g_verts g)) with (length V) by apply map_length.
  assert (NE : V <> []) by (unfold V; rewrite E; discriminate).
  generalize (at_ (g_axis g) 0). intros d. clearbody V. unfold area2, around.
  destruct V as [|x V]; [congruence|]. destruct (exists_last NE) as (l & y & EL). rewrite EL.
  rewrite <- app_assoc. cbn [app]. rewrite along_snoc. rewrite app_length. cbn [length].
  rewrite app_nth2 by lia. replace (length l + 1 - 1 - length l)%nat with 0%nat by lia. cbn [nth].
  destruct l as [|z l]; cbn [app nth] in *; inversion EL; subst; cbn; lia.
Qed.
Lemma calc_orientation_some g : g_verts g <> [] -> exists h, calc_orientation P g = Some h.
Proof. unfold calc_orientation. destruct (g_verts g); [congruence|]. eauto. Qed.

(* The orientation of a loop as a sign. *)
Definition dir (a : axis) (vs : list Z) : Z := direction (map (at_ a) vs).
Definition sign (O : bool) : Z := if O then 1 else -1.
Lemma dir_cases a vs : dir a vs = 1 \/ dir a vs = -1.
Proof. unfold dir, direction. destruct (0 <=? _); auto. Qed.

Lemma area2_rev l : area2 (rev l) = - area2 l.
Proof. unfold area2. now rewrite around_rev by exact antisymmetric_cross. Qed.

Definition turned (O : bool) (a : axis) (vs : list Z) (g : polygon) : Prop :=
  vs <> [] /\ g_axis g = a /\
  (g_verts g = vs /\ g_reverse g = false /\ sign O * dir a vs = 1 \/
   g_verts g = rev vs /\ g_reverse g = true /\ sign O * dir a vs = -1).
Lemma turn_spec O a vs g : turn P (outer_direction O) (mkPolygon vs Unknown a false) = Some g -> turned O a vs g.
Proof.
  unfold turn. intros H. destruct (calc_orientation P _) as [h|] eqn:E; [|discriminate].
  apply calc_orientation_spec in E as [NE ->]. cbn [g_verts g_axis g_reverse g_orient] in *.
  unfold turned, dir, direction, sign, outer_direction in *. split; [exact NE|].
  destruct (0 <=? area2 (map (at_ a) vs)) eqn:D, O; cbn [orientation_eqb] in H;
    try (inversion H; subst; cbn; split; [reflexivity|left; auto]; fail);
    unfold swap_direction in H; cbn [g_verts g_orient g_axis g_reverse] in H;
    (destruct (calc_orientation P _) as [k|] eqn:E2; [|discriminate]);
    apply calc_orientation_spec in E2 as [NE2 ->]; cbn [g_verts g_axis g_reverse g_orient] in *;
    inversion H; subst; cbn; (split; [reflexivity|right; auto]).
Qed.
Lemma turn_some O a vs : vs <> [] -> exists g, turn P (outer_direction O) (mkPolygon vs Unknown a false) = Some g.
Proof.
  intros NE. unfold turn. destruct (calc_orientation_some (mkPolygon vs Unknown a false) NE) as [h E]. rewrite E.
  destruct (orientation_eqb _ _); [eauto|]. apply calc_orientation_spec in E as [_ ->]. unfold swap_direction.
  cbn [g_verts]. match goal with |- context [calc_orientation P ?g] => destruct (calc_orientation_some g) as [k E2] end.
  - cbn. intros R. apply (f_equal (@length Z)) in R. rewrite rev_length in R. destruct vs; [congruence|discriminate].
  - rewrite E2. eauto.
Qed.

(* Closest vertices. *)
Lemma fold_left_inv {X Y} (Q : X -> Prop) (f : X -> Y -> X) l : forall s, Q s -> (forall s y, In y l -> Q s -> Q (f s y)) -> Q (fold_left f l s).
Proof.
  induction l as [|y l IH]; intros s H0 H; cbn; [exact H0|]. apply IH; [apply H; [now left|exact H0]|].
  intros s1 y1 I1 H1. apply H; [now right|exact H1].
Qed.
Lemma closest_bounds g h a b : closest P tie g h = (a, b) -> g_verts g <> [] -> g_verts h <> [] ->
  (a < length (g_verts g))%nat /\ (b < length (g_verts h))%nat.
Proof.
  intros E NG NH. unfold closest in E.
  assert (LG : (0 < length (g_verts g))%nat) by (destruct (g_verts g); [congruence|cbn; lia]).
  assert (LH : (0 < length (g_verts h))%nat) by (destruct (g_verts h); [congruence|cbn; lia]).
  set (Q := fun s : option Z * nat * nat => let '(_, x, y) := s in (x < length (g_verts g))%nat /\ (y < length (g_verts h))%nat).
  match type of E with context [fold_left ?f ?l (None, 0%nat, 0%nat)] => assert (K : Q (fold_left f l (None, 0%nat, 0%nat))) end.
  - apply fold_left_inv; [cbn; auto|]. intros s i I1 H1. apply fold_left_inv; [exact H1|].
    intros [[m x] y] j J1 H2. apply in_seq in I1, J1. unfold closest_step.
    destruct m as [m|]; [|cbn; lia]. cbv zeta.
    repeat match goal with |- context [if ?c then _ else _] => destruct c end; cbn; cbn in H2; lia.
  - match type of E with context [fold_left ?f ?l (None, 0%nat, 0%nat)] => destruct (fold_left f l (None, 0%nat, 0%nat)) as [[m x] y] end.
    inversion E; subst. exact K.
Qed.

Section Measure.
Context {T : Type}.
Variable F : T -> T -> Z.
Hypothesis A : antisymmetric F.
Variable pos : Z -> T.

Lemma turned_around O a vs g : turned O a vs g ->
  around F (map pos (g_verts g)) = sign O * dir a vs * around F (map pos vs) /\ g_axis g = a /\
  length (g_verts g) = length vs /\ g_verts g <> [] /\ (forall x, In x (g_verts g) <-> In x vs) /\
  sign (negb (g_reverse g)) = sign O * dir a vs.
Proof.
  intros (NE & X & [(V & R & D)|(V & R & D)]); rewrite V, D, R.
  - repeat split; auto; cbn [negb sign]; try lia; tauto.
  - rewrite map_rev, around_rev by exact A. rewrite rev_length. repeat split; auto; try lia.
    + intros E. apply (f_equal (@length Z)) in E. rewrite rev_length in E. destruct vs; [congruence|discriminate].
    + now apply in_rev.
    + intros I. now apply in_rev in I.
Qed.

Lemma In_cut {X} (a : nat) (v : list X) x : In x (skipn a v ++ firstn (a + 1) v) <-> In x v.
Proof.
  rewrite in_app_iff. split.
  - intros [H|H]; [rewrite <- (firstn_skipn a v)|rewrite <- (firstn_skipn (a + 1) v)]; apply in_or_app; auto.
  - intros H. rewrite <- (firstn_skipn a v) in H. apply in_app_or in H as [H|H]; [|now left]. right.
    assert (E : firstn a v = firstn a (firstn (a + 1) v)) by (rewrite firstn_firstn; f_equal; lia).
    rewrite E in H. rewrite <- (firstn_skipn a (firstn (a + 1) v)). apply in_or_app. now left.
Qed.

Lemma combine_spec g h : g_verts g <> [] -> g_verts h <> [] ->
  let c := combine_loops P tie g h in
  around F (map pos (g_verts c)) = around F (map pos (g_verts g)) + around F (map pos (g_verts h)) /\
  g_axis c = g_axis g /\ g_reverse c = g_reverse g /\
  length (g_verts c) = (length (g_verts g) + length (g_verts h) + 2)%nat /\ g_verts c <> [] /\
  (forall x, In x (g_verts c) <-> In x (g_verts g) \/ In x (g_verts h)).
Proof.
  intros NG NH. cbv zeta. unfold combine_loops. destruct (closest P tie g h) as [a b] eqn:E.
  destruct (closest_bounds g h a b E NG NH) as [LA LB]. cbn [g_verts g_axis g_reverse].
  assert (L : length (skipn a (g_verts g) ++ firstn (a + 1) (g_verts g) ++ skipn b (g_verts h) ++ firstn (b + 1) (g_verts h))
     = (length (g_verts g) + length (g_verts h) + 2)%nat).
  { rewrite !app_length, !skipn_length, !firstn_length. lia. }
  repeat split; auto.
  - rewrite !map_app, <- !skipn_map, <- !firstn_map. apply around_combine; [exact A|rewrite map_length; auto..].
  - intros Z0. rewrite Z0 in L. cbn in L. lia.
  - intros I. rewrite app_assoc in I. apply in_app_or in I as [I|I]; apply In_cut in I; auto.
  - intros [I|I]; rewrite app_assoc; apply in_or_app; [left|right]; now apply In_cut.
Qed.

Definition hole_sum (loops : list (axis * list Z)) : Z :=
  total (map (fun h => dir (fst h) (snd h) * around F (map pos (snd h))) loops).
Definition loop_lengths (loops : list (axis * list Z)) : nat :=
  fold_right (fun h n => (length (snd h) + 2 + n)%nat) 0%nat loops.

Lemma sign_negb O : sign (negb O) = - sign O. Proof. destruct O; reflexivity. Qed.

Lemma add_holes_spec O : forall loops g c, g_verts g <> [] -> add_holes P tie O g loops = Some c ->
  around F (map pos (g_verts c)) = around F (map pos (g_verts g)) - sign O * hole_sum loops /\
  g_axis c = g_axis g /\ g_reverse c = g_reverse g /\
  length (g_verts c) = (length (g_verts g) + loop_lengths loops)%nat /\ g_verts c <> [] /\
  (forall x, In x (g_verts c) <-> In x (g_verts g) \/ In x (concat (map snd loops))).
Proof.
  induction loops as [|[a vs] r IH]; intros g c NG H; cbn [add_holes] in H.
  - inversion H; subst c. unfold hole_sum, total. cbn. repeat split; auto; try lia; tauto.
  - destruct (turn P _ _) as [h|] eqn:E; [|discriminate]. apply turn_spec in E.
    destruct (turned_around _ _ _ _ E) as (B1 & B2 & B3 & B4 & B5 & _).
    destruct (combine_spec g h NG B4) as (C1 & C2 & C3 & C4 & C5 & C6).
    destruct (IH _ _ C5 H) as (D1 & D2 & D3 & D4 & D5 & D6).
    repeat split.
    + rewrite D1, C1, B1, sign_negb. unfold hole_sum. cbn [map total fold_right fst snd].
      fold (total (map (fun h => dir (fst h) (snd h) * around F (map pos (snd h))) r)). ring.
    + congruence.
    + congruence.
    + rewrite D4, C4, B3. unfold loop_lengths. cbn [fold_right snd]. lia.
    + exact D5.
    + intros I. apply D6 in I as [I|I]; [apply C6 in I as [I|I]; [auto|]|].
      * right. cbn. apply in_or_app. left. now apply B5.
      * right. cbn. apply in_or_app. now right.
    + intros [I|I]; apply D6; [left; apply C6; auto|]. cbn in I. apply in_app_or in I as [I|I]; [|auto].
      left. apply C6. right. now apply B5.
Qed.

Lemma assemble_spec O a vs holes g : assemble P tie O ((a, vs) :: holes) = Some g ->
  around F (map pos (g_verts g)) = sign O * (dir a vs * around F (map pos vs) - hole_sum holes) /\
  g_axis g = a /\ sign (negb (g_reverse g)) = sign O * dir a vs /\
  length (g_verts g) = (length vs + loop_lengths holes)%nat /\
  (forall x, In x (g_verts g) <-> In x vs \/ In x (concat (map snd holes))) /\
  g_orient g = (if 0 <=? area2 (map (at_ a) (g_verts g)) then AntiClockwise else Clockwise).
Proof.
  cbn [assemble]. intros H. destruct (turn P _ _) as [g0|] eqn:E; [|discriminate]. apply turn_spec in E.
  destruct (turned_around _ _ _ _ E) as (B1 & B2 & B3 & B4 & B5 & B6).
  destruct (add_holes P tie O g0 holes) as [c|] eqn:E1; [|discriminate].
  destruct (add_holes_spec _ _ _ _ B4 E1) as (D1 & D2 & D3 & D4 & D5 & D6).
  apply calc_orientation_spec in H as [_ ->]. cbn [g_verts g_axis g_reverse g_orient].
  split; [rewrite D1, B1; ring|]. split; [congruence|]. split; [now rewrite D3|]. split; [lia|].
  split; [|now rewrite D2, B2].
  intros x. rewrite D6, B5. tauto.
Qed.

(* Cutting off corners. *)
Variable g : polygon.
Let vpos (i : nat) : T := pos (nth i (g_verts g) 0).
Definition tri_sum (t : Z * Z * Z) : Z := let '(a, b, c) := t in around F [pos a; pos b; pos c].

Lemma emit_sum p q r : tri_sum (emit g p q r) = sign (negb (g_reverse g)) * around F (map vpos [p; q; r]).
Proof.
  unfold emit, tri_sum, vpos. cbn [map]. destruct (g_reverse g); cbn [negb sign].
  - change [pos (nth r (g_verts g) 0); pos (nth q (g_verts g) 0); pos (nth p (g_verts g) 0)] with
      (rev [pos (nth p (g_verts g) 0); pos (nth q (g_verts g) 0); pos (nth r (g_verts g) 0)]).
    rewrite around_rev by exact A. lia.
  - lia.
Qed.

Lemma split_at (l : list nat) c : (c < length l)%nat -> l = firstn c l ++ nth c l 0%nat :: skipn (c + 1) l.
Proof.
  revert c. induction l as [|x l IH]; intros [|c] H; cbn in *; try lia; [reflexivity|]. f_equal. apply IH. lia.
Qed.

Lemma nth_skipn {X} (l : list X) (d : X) a b : nth b (skipn a l) d = nth (a + b) l d.
Proof. revert a. induction l as [|x l IH]; intros [|a]; cbn; auto; destruct b; reflexivity. Qed.

Lemma remove_sum l c : (c < length l)%nat -> (3 <= length l)%nat ->
  around F (map vpos l) = around F (map vpos (remove_at c l)) +
    around F (map vpos [nth (previous (length l) c) l 0%nat; nth c l 0%nat; nth (next (length l) c) l 0%nat]).
Proof.
  intros H N. pose proof (split_at l c H) as S1. set (x := nth c l 0%nat) in *.
  assert (R : around F (map vpos l) = around F (map vpos (x :: skipn (c + 1) l ++ firstn c l))).
  { rewrite S1 at 1. rewrite !map_app. rewrite around_swap. cbn [map app]. now rewrite map_app. }
  assert (R2 : around F (map vpos (remove_at c l)) = around F (map vpos (skipn (c + 1) l ++ firstn c l))).
  { unfold remove_at. now rewrite !map_app, around_swap. }
  rewrite R, R2. clear R R2. set (m := skipn (c + 1) l ++ firstn c l).
  assert (LM : length m = (length l - 1)%nat).
  { unfold m. rewrite app_length, skipn_length, firstn_length. lia. }
  assert (M0 : nth 0 m 0%nat = nth (next (length l) c) l 0%nat).
  { unfold m, next. destruct (c =? 0)%nat eqn:C0; [apply Nat.eqb_eq in C0; subst c|].
    - destruct l as [|y [|z l]]; cbn in *; try lia; reflexivity.
    - apply Nat.eqb_neq in C0. destruct (c =? length l - 1)%nat eqn:C1; [apply Nat.eqb_eq in C1|apply Nat.eqb_neq in C1].
      + rewrite skipn_all2 by lia. cbn [app]. destruct c; [lia|]. destruct l; [cbn in *; lia|reflexivity].
      + rewrite app_nth1 by (rewrite skipn_length; lia). rewrite nth_skipn. f_equal. lia. }
  assert (M1 : nth (length m - 1) m 0%nat = nth (previous (length l) c) l 0%nat).
  { unfold previous. destruct (c =? 0)%nat eqn:C0; [apply Nat.eqb_eq in C0; subst c|apply Nat.eqb_neq in C0].
    - unfold m in *. cbn [firstn] in *. rewrite app_nil_r in *. rewrite nth_skipn. f_equal. lia.
    - unfold m. rewrite app_nth2; rewrite app_length, skipn_length, firstn_length; [|lia].
      transitivity (nth (c - 1) (firstn c l ++ skipn c l) 0%nat); [|now rewrite firstn_skipn].
      rewrite app_nth1 by (rewrite firstn_length; lia). f_equal. lia. }
  rewrite <- M0, <- M1. clearbody m. clear M0 M1 S1.
  destruct m as [|n m]; [cbn in LM; lia|].
  assert (NE : m <> []) by (destruct m; [cbn in LM; lia|discriminate]).
  destruct (exists_last NE) as (k & p & ->).
  replace (nth (length (n :: k ++ [p]) - 1) (n :: k ++ [p]) 0%nat) with p.
  2: { cbn [length]. rewrite app_length. cbn [length]. replace (S (length k + 1) - 1)%nat with (S (length k)) by lia.
       cbn [nth]. rewrite app_nth2 by lia. now rewrite Nat.sub_diag. }
  cbn [nth map]. rewrite map_app. cbn [map]. apply around_cut. exact A.
Qed.

Lemma find_ear_spec l : forall k c e, find_ear P g l k c = Some e ->
  (c <= e < c + k)%nat /\
  let p := nth (previous (length l) e) l 0%nat in
  let q := nth e l 0%nat in
  let r := nth (next (length l) e) l 0%nat in
  orientation_eqb (determinant P g p q r) (g_orient g) = true /\ none_inside P g p q r l = true.
Proof.
  induction k as [|k IH]; intros c e H; cbn [find_ear] in H; [discriminate|]. cbv zeta in H.
  destruct (_ && _) eqn:B in H.
  - inversion H; subst e. apply andb_prop in B. split; [lia|exact B].
  - apply IH in H as [H1 H2]. split; [lia|exact H2].
Qed.

Lemma remove_length c (l : list nat) : (c < length l)%nat -> length (remove_at c l) = (length l - 1)%nat.
Proof. intros H. unfold remove_at. rewrite app_length, firstn_length, skipn_length. lia. Qed.

Lemma cut_ears_short : forall fuel l, (2 <= length l)%nat -> (length (cut_ears P g fuel l) + 2 <= length l)%nat.
Proof.
  induction fuel as [|f IH]; intros l H; cbn [cut_ears]; [cbn; lia|].
  destruct (3 <? length l)%nat eqn:L; [apply Nat.ltb_lt in L|].
  - destruct (find_ear P g l (length l) 0) as [c|] eqn:E; [|cbn; lia].
    apply find_ear_spec in E as [E _]. cbn [length]. specialize (IH (remove_at c l)).
    rewrite remove_length in IH by lia. lia.
  - destruct (length l =? 3)%nat eqn:L3; [apply Nat.eqb_eq in L3; cbn; lia|cbn; lia].
Qed.

Lemma cut_ears_sum : forall fuel l, (length l <= fuel)%nat ->
  (length (cut_ears P g fuel l) + 2 = length l)%nat ->
  total (map tri_sum (cut_ears P g fuel l)) = sign (negb (g_reverse g)) * around F (map vpos l).
Proof.
  induction fuel as [|f IH]; intros l L0 H; cbn [cut_ears] in *.
  - cbn in H. lia.
  - destruct (3 <? length l)%nat eqn:L; [apply Nat.ltb_lt in L|apply Nat.ltb_ge in L].
    + destruct (find_ear P g l (length l) 0) as [c|] eqn:E; [|cbn in H; lia].
      apply find_ear_spec in E as [E _]. cbn [length] in H. cbn [map]. unfold total. cbn [fold_right].
      change (fold_right Z.add 0) with total. rewrite emit_sum. pose proof (remove_length c l ltac:(lia)) as RL.
      rewrite IH by lia. rewrite (remove_sum l c) by lia. cbn [map]. lia.
    + destruct (length l =? 3)%nat eqn:L3; [apply Nat.eqb_eq in L3|].
      * cbn [map]. unfold total. cbn [fold_right]. rewrite emit_sum.
        destruct l as [|x [|y [|z [|w l]]]]; cbn [length] in *; try lia. cbn [nth]. lia.
      * cbn [length] in H. destruct l as [|x [|y [|z l]]]; cbn [length] in *; try lia.
        cbn [map]. unfold around. cbn. rewrite (A (vpos x)). unfold total. cbn. lia.
Qed.

Lemma triangulate_sum : (length (triangulate P g) + 2 = length (g_verts g))%nat ->
  total (map tri_sum (triangulate P g)) = sign (negb (g_reverse g)) * around F (map pos (g_verts g)).
Proof.
  intros H. unfold triangulate in *. rewrite cut_ears_sum by (rewrite seq_length; auto). f_equal. f_equal.
  unfold vpos. rewrite <- (map_map (fun i => nth i (g_verts g) 0) pos). f_equal.
  apply nth_ext with (d := 0) (d' := 0); [now rewrite map_length, seq_length|].
  intros n N. rewrite map_length, seq_length in N.
  rewrite (nth_indep _ 0 (nth 0 (g_verts g) 0)) by now rewrite map_length, seq_length.
  rewrite (map_nth (fun i => nth i (g_verts g) 0)). now rewrite seq_nth.
Qed.
End Measure.

(* Directions of the triangles. *)
Definition tri_area (a : axis) (t : Z * Z * Z) : Z := area2 (positions (at_ a) t).
Definition osign (o : orientation) : Z := match o with Unknown => 0 | AntiClockwise => 1 | Clockwise => -1 end.

Lemma area2_left a b c : area2 [a; b; c] = left_of a b c.
Proof. destruct a, b, c. unfold area2, around, left_of, cross. cbn. ring. Qed.
Lemma determinant_left g i j k : osign (determinant P g i j k) = Z.sgn (left_of (corner P g i) (corner P g j) (corner P g k)).
Proof.
  unfold determinant, left_of. cbv zeta. set (d := _ - _).
  destruct (0 <? d) eqn:D; [apply Z.ltb_lt in D; now rewrite Z.sgn_pos|apply Z.ltb_ge in D].
  destruct (d =? 0) eqn:D0; [apply Z.eqb_eq in D0; now rewrite D0|apply Z.eqb_neq in D0]. rewrite Z.sgn_neg; [reflexivity|lia].
Qed.
Lemma orientation_eqb_eq a b : orientation_eqb a b = true <-> a = b.
Proof. destruct a, b; cbn; split; congruence. Qed.

Lemma emit_area g p q r : tri_area (g_axis g) (emit g p q r) =
  sign (negb (g_reverse g)) * left_of (corner P g p) (corner P g q) (corner P g r).
Proof.
  unfold tri_area, emit, positions, corner. destruct (g_reverse g); cbn [negb sign]; rewrite area2_left; unfold at_.
  - unfold left_of. ring.
  - lia.
Qed.

Lemma cut_ears_direction g : forall fuel l, (length l <= fuel)%nat ->
  Forall (fun t => Z.sgn (tri_area (g_axis g) t) = sign (negb (g_reverse g)) * osign (g_orient g))
    (firstn (length l - 3) (cut_ears P g fuel l)).
Proof.
  induction fuel as [|f IH]; intros l L0; cbn [cut_ears]; [rewrite firstn_nil; constructor|].
  destruct (3 <? length l)%nat eqn:L; [apply Nat.ltb_lt in L|apply Nat.ltb_ge in L].
  - destruct (find_ear P g l (length l) 0) as [c|] eqn:E; [|rewrite firstn_nil; constructor].
    apply find_ear_spec in E as (E & D & _). replace (length l - 3)%nat with (S (length l - 1 - 3)) by lia.
    rewrite firstn_cons. constructor.
    + rewrite emit_area, Z.sgn_mul. apply orientation_eqb_eq in D. rewrite <- D, determinant_left.
      f_equal. destruct (g_reverse g); reflexivity.
    + pose proof (remove_length c l ltac:(lia)) as RL. rewrite <- RL. apply IH. lia.
  - replace (length l - 3)%nat with 0%nat by lia. constructor.
Qed.

(* The vertices of the triangles. *)
Lemma next_lt n c : (3 <= n)%nat -> (c < n)%nat -> (next n c < n)%nat.
Proof. intros. unfold next. destruct (c =? 0)%nat; [lia|]. destruct (c =? n - 1)%nat eqn:E; [lia|apply Nat.eqb_neq in E; lia]. Qed.
Lemma previous_lt n c : (3 <= n)%nat -> (c < n)%nat -> (previous n c < n)%nat.
Proof. intros. unfold previous. destruct (c =? 0)%nat; lia. Qed.
Lemma In_remove c (l : list nat) x : In x (remove_at c l) -> In x l.
Proof.
  unfold remove_at. intros H. apply in_app_or in H as [H|H].
  - rewrite <- (firstn_skipn c l). apply in_or_app. now left.
  - rewrite <- (firstn_skipn (c + 1) l). apply in_or_app. now right.
Qed.
Definition tri_in (V : list Z) (t : Z * Z * Z) : Prop := let '(a, b, c) := t in In a V /\ In b V /\ In c V.
Lemma emit_in g p q r : (p < length (g_verts g))%nat -> (q < length (g_verts g))%nat -> (r < length (g_verts g))%nat ->
  tri_in (g_verts g) (emit g p q r).
Proof. intros. unfold emit. destruct (g_reverse g); cbn; repeat split; now apply nth_In. Qed.
Lemma cut_ears_in g : forall fuel l, (forall x, In x l -> (x < length (g_verts g))%nat) ->
  Forall (tri_in (g_verts g)) (cut_ears P g fuel l).
Proof.
  induction fuel as [|f IH]; intros l B; cbn [cut_ears]; [constructor|].
  destruct (3 <? length l)%nat eqn:L; [apply Nat.ltb_lt in L|].
  - destruct (find_ear P g l (length l) 0) as [c|] eqn:E; [|constructor].
    apply find_ear_spec in E as (E & _). constructor.
    + apply emit_in; apply B; apply nth_In; try apply next_lt; try apply previous_lt; lia.
    + apply IH. intros x I. apply B. eapply In_remove; eauto.
  - destruct (length l =? 3)%nat eqn:L3; [apply Nat.eqb_eq in L3|constructor].
    constructor; [|constructor]. apply emit_in; apply B; apply nth_In; lia.
Qed.
Lemma triangulate_in g : Forall (tri_in (g_verts g)) (triangulate P g).
Proof. apply cut_ears_in. intros x I. apply in_seq in I. lia. Qed.

(* A convex loop. *)
Lemma left_of_turn a b c : left_of b c a = left_of a b c.
Proof. unfold left_of. ring. Qed.
Lemma left_of_flip a b c : left_of b a c = - left_of a b c.
Proof. unfold left_of. ring. Qed.

Definition sorted (l : list nat) : Prop := forall i j, (i < j)%nat -> (j < length l)%nat -> (nth i l 0 < nth j l 0)%nat.
Definition bowed (g : polygon) : Prop := forall i j k, (i < j)%nat -> (j < k)%nat -> (k < length (g_verts g))%nat ->
  determinant P g i j k = g_orient g.

Lemma bowed_sign g : bowed g -> (3 <= length (g_verts g))%nat -> osign (g_orient g) = 1 \/ osign (g_orient g) = -1 \/ g_orient g = Unknown.
Proof. intros. destruct (g_orient g); cbn; auto. Qed.

Lemma determinant_turn g a b c : determinant P g b c a = determinant P g a b c.
Proof.
  unfold determinant. cbv zeta. replace ((fst (corner P g c) - fst (corner P g b)) * (snd (corner P g a) - snd (corner P g b)) -
   (fst (corner P g a) - fst (corner P g b)) * (snd (corner P g c) - snd (corner P g b))) with
   ((fst (corner P g b) - fst (corner P g a)) * (snd (corner P g c) - snd (corner P g a)) -
   (fst (corner P g c) - fst (corner P g a)) * (snd (corner P g b) - snd (corner P g a))) by ring. reflexivity.
Qed.

Lemma bowed_none g first second last : bowed g -> (first < second)%nat -> (second < last)%nat -> (last < length (g_verts g))%nat ->
  forall m, (forall x, In x m -> x = first \/ x = second \/ x = last \/ (second < x < last)%nat) ->
  none_inside P g last first second m = true.
Proof.
  intros B L1 L2 L3. induction m as [|x m IH]; intros H; cbn [none_inside]; [reflexivity|].
  assert (R : none_inside P g last first second m = true) by (apply IH; intros; apply H; now right).
  destruct ((x =? last)%nat || (x =? first)%nat || (x =? second)%nat) eqn:E; [exact R|].
  apply orb_false_elim in E as [E E3]. apply orb_false_elim in E as [E1 E2].
  apply Nat.eqb_neq in E1, E2, E3. destruct (H x (or_introl eq_refl)) as [?|[?|[?|K]]]; try congruence.
  replace (determinant P g last second x) with (g_orient g).
  2: { rewrite <- determinant_turn. symmetry. apply B; lia. }
  replace (orientation_eqb (g_orient g) (g_orient g)) with true by (destruct (g_orient g); reflexivity).
  rewrite orb_true_r. exact R.
Qed.

Lemma sorted_tail x l : sorted (x :: l) -> sorted l.
Proof. intros H i j L1 L2. apply (H (S i) (S j)); cbn; lia. Qed.

Lemma bowed_complete g : bowed g -> forall fuel l, (length l <= fuel)%nat -> (3 <= length l)%nat -> sorted l ->
  (forall x, In x l -> (x < length (g_verts g))%nat) -> (length (cut_ears P g fuel l) + 2 = length l)%nat.
Proof.
  intros B. induction fuel as [|f IH]; intros l L0 L3 S1 R; [lia|]. cbn [cut_ears].
  destruct (3 <? length l)%nat eqn:L; [apply Nat.ltb_lt in L|apply Nat.ltb_ge in L].
  - assert (E : find_ear P g l (length l) 0 = Some 0%nat).
    { destruct (length l) as [|k] eqn:LL; [lia|]. cbn [find_ear]. rewrite LL. unfold previous, next. cbn [Nat.eqb].
      replace (S k - 1)%nat with k by lia.
      assert (I0 : (nth 0 l 0 < nth 1 l 0)%nat) by (apply S1; lia).
      assert (I1 : (nth 1 l 0 < nth k l 0)%nat) by (apply S1; lia).
      assert (I2 : (nth k l 0 < length (g_verts g))%nat) by (apply R, nth_In; lia).
      rewrite <- determinant_turn. rewrite B by lia.
      replace (orientation_eqb (g_orient g) (g_orient g)) with true by (destruct (g_orient g); reflexivity).
      rewrite bowed_none; auto. intros x I. destruct (In_nth _ _ 0%nat I) as (i & LI & <-).
      destruct i as [|[|i]]; auto. destruct (Nat.eq_dec (S (S i)) k) as [->|N]; auto.
      right. right. right. split; apply S1; lia. }
    rewrite E. cbn [length]. destruct l as [|x l]; [cbn in L; lia|]. unfold remove_at. cbn [firstn skipn app Nat.add].
    cbn [length] in *. assert (K : (length (cut_ears P g f l) + 2 = length l)%nat); [|lia].
    apply IH; try lia; [eapply sorted_tail; eauto|]. intros y I. apply R. now right.
  - replace (length l) with 3%nat by lia. reflexivity.
Qed.
Lemma bowed_triangulate g : bowed g -> (3 <= length (g_verts g))%nat -> (length (triangulate P g) + 2 = length (g_verts g))%nat.
Proof.
  intros B L. unfold triangulate. rewrite bowed_complete; auto; try (rewrite seq_length; auto).
  - intros i j L1 L2. rewrite seq_length in L2. rewrite !seq_nth by lia. lia.
  - intros x I. apply in_seq in I. lia.
Qed.

Lemma bowed_direction g : bowed g -> forall fuel l, (length l <= fuel)%nat -> sorted l ->
  (forall x, In x l -> (x < length (g_verts g))%nat) ->
  Forall (fun t => Z.sgn (tri_area (g_axis g) t) = sign (negb (g_reverse g)) * osign (g_orient g)) (cut_ears P g fuel l).
Proof.
  intros B. induction fuel as [|f IH]; intros l L0 S1 R; cbn [cut_ears]; [constructor|].
  assert (EM : forall p q r, determinant P g p q r = g_orient g ->
    Z.sgn (tri_area (g_axis g) (emit g p q r)) = sign (negb (g_reverse g)) * osign (g_orient g)).
  { intros p q r D. rewrite emit_area, Z.sgn_mul, <- D, determinant_left. f_equal. destruct (g_reverse g); reflexivity. }
  destruct (3 <? length l)%nat eqn:L; [apply Nat.ltb_lt in L|apply Nat.ltb_ge in L].
  - destruct (find_ear P g l (length l) 0) as [c|] eqn:E; [|constructor].
    apply find_ear_spec in E as (E & D & _). constructor; [apply EM; now apply orientation_eqb_eq in D|].
    apply IH; [rewrite remove_length; lia| |].
    + intros i j L1 L2. rewrite remove_length in L2 by lia. unfold remove_at.
      assert (NR : forall i, (i < length l - 1)%nat -> nth i (firstn c l ++ skipn (c + 1) l) 0%nat =
        nth (if (i <? c)%nat then i else S i) l 0%nat).
      { clear - E. intros i Li. destruct (i <? c)%nat eqn:LC; [apply Nat.ltb_lt in LC|apply Nat.ltb_ge in LC].
        - rewrite app_nth1 by (rewrite firstn_length; lia). rewrite <- (firstn_skipn c l) at 2.
          rewrite app_nth1 by (rewrite firstn_length; lia). reflexivity.
        - rewrite app_nth2 by (rewrite firstn_length; lia). rewrite firstn_length, nth_skipn. f_equal. lia. }
      rewrite !NR by lia. apply S1; destruct (i <? c)%nat eqn:LI, (j <? c)%nat eqn:LJ;
        rewrite ?Nat.ltb_lt, ?Nat.ltb_ge in *; lia.
    + intros x I. apply R. eapply In_remove; eauto.
  - destruct (length l =? 3)%nat eqn:L3; [apply Nat.eqb_eq in L3|constructor].
    constructor; [|constructor]. apply EM. apply B; [apply S1; lia|apply S1; lia|apply R, nth_In; lia].
Qed.

Lemma area2_fan x y z r : area2 (x :: y :: z :: r) = left_of x y z + area2 (x :: z :: r).
Proof.
  unfold area2, around. cbn [app]. rewrite !along_cons. destruct x, y, z. unfold left_of, cross. cbn [fst snd]. ring.
Qed.
Lemma fan_positive s x : forall r y,
  (forall i j, (i < j)%nat -> (j < S (length r))%nat -> 0 < s * left_of x (nth i (y :: r) (0, 0)) (nth j (y :: r) (0, 0))) ->
  r <> [] -> 0 < s * area2 (x :: y :: r).
Proof.
  induction r as [|z r IH]; intros y H N; [congruence|]. rewrite area2_fan, Z.mul_add_distr_l.
  pose proof (H 0%nat 1%nat ltac:(lia) ltac:(cbn; lia)) as H0. cbn [nth] in H0.
  destruct r as [|w r].
  - enough (area2 [x; z] = 0) by nia. destruct x, z. unfold area2, around, cross. cbn. ring.
  - enough (0 < s * area2 (x :: z :: w :: r)) by lia. apply IH; [|discriminate].
    intros i j L1 L2. apply (H (S i) (S j)); cbn in *; lia.
Qed.
Lemma convex_area s l : convex s l -> (3 <= length l)%nat -> 0 < s * area2 l.
Proof.
  intros C L. destruct l as [|x [|y [|z r]]]; cbn in L; try lia. apply fan_positive; [|discriminate].
  intros i j L1 L2. apply (C 0%nat (S i) (S j)); cbn in *; lia.
Qed.
Lemma convex_rev s l : convex s l -> convex (- s) (rev l).
Proof.
  intros C i j k L1 L2 L3. rewrite rev_length in L3. rewrite !rev_nth by lia.
  pose proof (C (length l - S k)%nat (length l - S j)%nat (length l - S i)%nat ltac:(lia) ltac:(lia) ltac:(lia)) as H.
  revert H. unfold left_of. intros. nia.
Qed.

Lemma convex_bowed s g : convex s (map (at_ (g_axis g)) (g_verts g)) -> (3 <= length (g_verts g))%nat -> s = 1 \/ s = -1 ->
  g_orient g = (if 0 <=? area2 (map (at_ (g_axis g)) (g_verts g)) then AntiClockwise else Clockwise) -> bowed g.
Proof.
  intros C L S1 O i j k L1 L2 L3.
  pose proof (convex_area _ _ C ltac:(now rewrite map_length)) as AR.
  pose proof (C i j k L1 L2 ltac:(now rewrite map_length)) as H.
  assert (N : forall i, (i < length (g_verts g))%nat -> nth i (map (at_ (g_axis g)) (g_verts g)) (0, 0) = corner P g i).
  { intros n LN. rewrite corner_nth. apply nth_indep. now rewrite map_length. }
  rewrite !N in H by lia. pose proof (determinant_left g i j k) as D. rewrite O.
  destruct S1 as [->| ->].
  - replace (0 <=? area2 _) with true by (symmetry; apply Z.leb_le; lia).
    rewrite Z.sgn_pos in D by lia. destruct (determinant P g i j k); cbn in D; try lia; reflexivity.
  - replace (0 <=? area2 _) with false by (symmetry; apply Z.leb_gt; lia).
    rewrite Z.sgn_neg in D by lia. destruct (determinant P g i j k); cbn in D; try lia; reflexivity.
Qed.

Lemma convex_complete O a vs s g : convex s (map (at_ a) vs) -> s = 1 \/ s = -1 -> (3 <= length vs)%nat ->
  assemble P tie O [(a, vs)] = Some g -> (length (triangulate P g) + 2 = length (g_verts g))%nat /\ length (g_verts g) = length vs /\ g_axis g = a /\ bowed g.
Proof.
  intros C S1 L H. cbn [assemble add_holes] in H. destruct (turn P _ _) as [g0|] eqn:E; [|discriminate].
  apply turn_spec in E. apply calc_orientation_spec in H as [_ ->].
  destruct E as (NE & AX & [(V & R & D)|(V & R & D)]); rewrite AX, V, R; cbn [g_verts].
  - assert (B : bowed (mkPolygon vs (if 0 <=? area2 (map (at_ a) vs) then AntiClockwise else Clockwise) a false))
      by (eapply convex_bowed; cbn; eauto).
    repeat split; auto. apply bowed_triangulate; [exact B|cbn; lia].
  - assert (B : bowed (mkPolygon (rev vs) (if 0 <=? area2 (map (at_ a) (rev vs)) then AntiClockwise else Clockwise) a true)).
    { eapply (convex_bowed (- s)); cbn [g_verts g_axis g_orient]; try reflexivity.
      + rewrite map_rev. now apply convex_rev.
      + rewrite rev_length. lia.
      + lia. }
    repeat split; auto; [|apply rev_length]. apply (bowed_triangulate _ B). cbn. rewrite rev_length. lia.
Qed.
End Triangles.

(* ---------- Points inside triangles ---------- *)

Lemma left_of_sum a b c q : left_of a b q + left_of b c q + left_of c a q = left_of a b c.
Proof. unfold left_of. ring. Qed.
Lemma left_of_weights a b c q :
  left_of a b q * (snd c - snd q) + left_of b c q * (snd a - snd q) + left_of c a q * (snd b - snd q) = 0.
Proof. unfold left_of. ring. Qed.

Lemma winding_triangle q a b c : 0 < left_of a b c -> off_lines q [a; b; c] ->
  winding q [a; b; c] = if within q [a; b; c] then 1 else 0.
Proof.
  intros D (N1 & N2 & N3). pose proof (left_of_sum a b c q) as HS. pose proof (left_of_weights a b c q) as HW.
  assert (HD : ~ (snd a = snd q /\ snd b = snd q /\ snd c = snd q)).
  { intros (E1 & E2 & E3). unfold left_of in D. rewrite E1, E2, E3 in D. lia. }
  unfold winding, around, within. cbn [app along]. unfold crossing.
  revert N1 N2 N3 HS HW. generalize (left_of a b q) (left_of b c q) (left_of c a q). intros x y z N1 N2 N3 HS HW.
  set (A := snd a) in *. set (B := snd b) in *. set (C := snd c) in *. set (Q := snd q) in *.
  destruct (Z.leb_spec A Q), (Z.leb_spec B Q), (Z.leb_spec C Q);
  destruct (Z.ltb_spec Q A), (Z.ltb_spec Q B), (Z.ltb_spec Q C); try lia; cbn [andb];
  destruct (Z.ltb_spec 0 x), (Z.ltb_spec 0 y), (Z.ltb_spec 0 z);
  destruct (Z.ltb_spec x 0), (Z.ltb_spec y 0), (Z.ltb_spec z 0); try lia; cbn [andb orb]; try lia; exfalso;
  try (apply HD; split; [nia|split; nia]; fail); nia.
Qed.
Lemma winding_clockwise q a b c : left_of a b c < 0 -> off_lines q [a; b; c] ->
  winding q [a; b; c] = if within q [a; b; c] then -1 else 0.
Proof.
  intros D (N1 & N2 & N3).
  assert (R : winding q [a; b; c] = - winding q [c; b; a]).
  { unfold winding. change [c; b; a] with (rev [a; b; c]). rewrite around_rev by apply antisymmetric_crossing. lia. }
  rewrite R, winding_triangle.
  - unfold within. rewrite (left_of_flip b c q), (left_of_flip a b q), (left_of_flip c a q).
    revert N1 N2 N3. generalize (left_of a b q) (left_of b c q) (left_of c a q). intros x y z N1 N2 N3.
    destruct (Z.ltb_spec 0 x), (Z.ltb_spec 0 y), (Z.ltb_spec 0 z);
    destruct (Z.ltb_spec x 0), (Z.ltb_spec y 0), (Z.ltb_spec z 0); try lia;
    destruct (Z.ltb_spec 0 (- x)), (Z.ltb_spec 0 (- y)), (Z.ltb_spec 0 (- z));
    destruct (Z.ltb_spec (- x) 0), (Z.ltb_spec (- y) 0), (Z.ltb_spec (- z) 0); try lia; reflexivity.
  - unfold left_of in *. lia.
  - unfold off_lines. rewrite (left_of_flip b c q), (left_of_flip a b q), (left_of_flip c a q). lia.
Qed.

Lemma count_within at_ d q ts : d = 1 \/ d = -1 ->
  Forall (fun t => Z.sgn (area2 (positions at_ t)) = d) ts -> Forall (fun t => off_lines q (positions at_ t)) ts ->
  total (map (fun t => winding q (positions at_ t)) ts) =
    d * Z.of_nat (length (filter (fun t => within q (positions at_ t)) ts)).
Proof.
  intros HD. induction ts as [|[[a b] c] ts IH]; intros D O; [unfold total; cbn; lia|].
  inversion D; subst; inversion O; subst. cbn [map filter]. unfold total. cbn [fold_right].
  change (fold_right Z.add 0) with total. rewrite IH by auto. clear IH. unfold positions in *. rewrite area2_left in *.
  assert (W : winding q [at_ a; at_ b; at_ c] = (Z.sgn (left_of (at_ a) (at_ b) (at_ c))) * (if within q [at_ a; at_ b; at_ c] then 1 else 0)).
  { destruct HD as [E|E]; rewrite E.
    - apply Z.sgn_pos_iff in E. rewrite winding_triangle by auto. destruct (within _ _); reflexivity.
    - apply Z.sgn_neg_iff in E. rewrite winding_clockwise by auto. destruct (within _ _); reflexivity. }
  rewrite W. destruct (within q _); cbn [length]; rewrite ?Nat2Z.inj_succ; ring.
Qed.

(* ---------- Values of general polygons ---------- *)

Lemma places_nil vs x : ~ In x vs -> forall s, filter (fun i => nth (i - s) vs 0 =? x) (seq s (length vs)) = [].
Proof.
  induction vs as [|y vs IH]; intros N s; cbn [length seq filter]; [reflexivity|].
  rewrite Nat.sub_diag. cbn [nth]. destruct (Z.eqb_spec y x) as [->|E]; [exfalso; apply N; now left|].
  rewrite <- IH with (s := S s); [|intros I; apply N; now right].
  apply filter_ext_in. intros i I. apply in_seq in I. replace (i - s)%nat with (S (i - S s)) by lia. reflexivity.
Qed.
Lemma places_one vs x : NoDup vs -> In x vs -> forall s, exists i, (i < length vs)%nat /\ nth i vs 0 = x /\
  filter (fun i => nth (i - s) vs 0 =? x) (seq s (length vs)) = [(s + i)%nat].
Proof.
  induction vs as [|y vs IH]; intros ND I s; [destruct I|]. inversion ND; subst. cbn [length seq filter].
  rewrite Nat.sub_diag. cbn [nth]. destruct (Z.eqb_spec y x) as [->|E].
  - exists 0%nat. split; [lia|]. split; [reflexivity|]. f_equal; [lia|].
    rewrite <- (places_nil vs x) with (s := S s); [|assumption].
    apply filter_ext_in. intros i J. apply in_seq in J. replace (i - s)%nat with (S (i - S s)) by lia. reflexivity.
  - destruct I as [I|I]; [congruence|]. destruct (IH H2 I (S s)) as (i & L & N & F). exists (S i).
    split; [lia|]. split; [exact N|]. replace (s + S i)%nat with (S s + i)%nat by lia. rewrite <- F.
    apply filter_ext_in. intros k J. apply in_seq in J. replace (k - s)%nat with (S (k - S s)) by lia. reflexivity.
Qed.
Lemma places_spec start vs x : NoDup vs -> In x vs -> exists i, (i < length vs)%nat /\ nth i vs 0 = x /\
  places start vs x = [Z.of_nat (start + i)].
Proof.
  intros ND I. destruct (places_one vs x ND I 0%nat) as (i & L & N & F). exists i. split; [exact L|]. split; [exact N|].
  unfold places. rewrite (filter_ext _ (fun i => nth (i - 0) vs 0 =? x)); [|intros j; now rewrite Nat.sub_0_r].
  now rewrite F.
Qed.

Lemma corner_places start vs tris : NoDup vs -> Forall (tri_in vs) tris ->
  length (flat_map (places start vs) (corners tris)) = (3 * length tris)%nat /\
  forall k j, (k < length tris)%nat -> (j < 3)%nat -> exists i, (i < length vs)%nat /\
    nth (3 * k + j) (flat_map (places start vs) (corners tris)) 0 = Z.of_nat (start + i) /\
    nth i vs 0 = nth j (vertices (nth k tris (0, 0, 0))) 0.
Proof.
  intros ND. induction tris as [|[[a b] c] tris IH]; intros T; [split; [reflexivity|cbn; lia]|].
  pose proof (Forall_inv T) as T1. pose proof (Forall_inv_tail T) as TR. cbn in T1. destruct T1 as (TA & TB & TC). destruct (IH TR) as [L N]. clear IH.
  destruct (places_spec start vs a ND TA) as (i1 & L1 & N1 & E1).
  destruct (places_spec start vs b ND TB) as (i2 & L2 & N2 & E2).
  destruct (places_spec start vs c ND TC) as (i3 & L3 & N3 & E3).
  unfold corners. cbn [flat_map]. fold (corners tris). cbn [app flat_map]. rewrite E1, E2, E3. cbn [app].
  split; [cbn [length]; lia|]. intros [|k] j LK LJ.
  - destruct j as [|[|[|j]]]; try lia; cbn [nth Nat.mul Nat.add vertices]; eauto.
  - cbn [length] in LK. replace (3 * S k + j)%nat with (S (S (S (3 * k + j)))) by lia. cbn [nth].
    apply N; lia.
Qed.

Lemma general_polygons_spec P tie O : forall polys start number ts fv un,
  Forall (fun loops => NoDup (concat loops)) polys ->
  general_polygons P tie O polys start number = Some (ts, fv, un) ->
  length fv = (3 * length ts)%nat /\ length un = length ts /\
  forall k, (k < length ts)%nat -> exists before loops after, polys = before ++ loops :: after /\
    nth k un 0 = number + Z.of_nat (length before) /\
    forall j, (j < 3)%nat -> exists i, (i < length (concat loops))%nat /\
      nth (3 * k + j) fv 0 = Z.of_nat (start + length (concat (concat before)) + i) /\
      nth i (concat loops) 0 = nth j (vertices (nth k ts (0, 0, 0))) 0.
Proof.
  induction polys as [|loops r IH]; intros start number ts fv un ND H; cbn [general_polygons] in H.
  - inversion H; subst. repeat split; cbn; intros; lia.
  - inversion ND; subst. destruct (assemble P tie O _) as [g|] eqn:E; [|discriminate].
    destruct (general_polygons P tie O r _ _) as [[[ts1 fv1] un1]|] eqn:R; [|discriminate].
    inversion H; subst ts fv un; clear H. destruct (IH _ _ _ _ _ H3 R) as (L1 & L2 & K). clear IH R.
    assert (T : Forall (tri_in (concat loops)) (triangulate P g)).
    { eapply Forall_impl; [|apply triangulate_in].
      assert (V : forall x, In x (g_verts g) -> In x (concat loops)).
      { destruct loops as [|vs holes]; [discriminate|]. cbn [map] in E.
        apply (assemble_spec P tie (fun _ _ : unit => 0) (fun _ _ => eq_refl) (fun _ => tt)) in E as (_ & _ & _ & _ & V & _).
        intros x I. apply V in I. rewrite map_map in I. cbn [snd] in I. rewrite map_id in I. cbn. apply in_or_app. exact I. }
      intros [[a b] c] (I1 & I2 & I3). cbn. auto. }
    destruct (corner_places start (concat loops) _ H2 T) as [C1 C2].
    split; [rewrite !app_length, C1, L1; lia|]. split; [rewrite !app_length, repeat_length, L2; lia|].
    intros k LK. rewrite app_length in LK. destruct (Nat.lt_ge_cases k (length (triangulate P g))) as [LT|GE].
    + exists [], loops, r. split; [reflexivity|]. split.
      * rewrite app_nth1 by now rewrite repeat_length. rewrite (nth_indep _ 0 number) by now rewrite repeat_length.
        rewrite nth_repeat. cbn. lia.
      * intros j LJ. destruct (C2 k j LT LJ) as (i & LI & A1 & A2). exists i. split; [exact LI|].
        rewrite app_nth1 by (rewrite C1; lia). rewrite (app_nth1 (triangulate P g)) by exact LT. split; [|exact A2].
        rewrite A1. f_equal. cbn. lia.
    + destruct (K (k - length (triangulate P g))%nat ltac:(lia)) as (before & ls & after & E1 & E2 & E3).
      exists (loops :: before), ls, after. split; [now rewrite E1|]. split.
      * rewrite app_nth2 by (rewrite repeat_length; lia). rewrite repeat_length, E2. cbn [length]. lia.
      * intros j LJ. destruct (E3 j LJ) as (i & LI & A1 & A2). exists i. split; [exact LI|].
        rewrite app_nth2 by (rewrite C1; lia). rewrite (app_nth2 (triangulate P g)) by lia. split; [|exact A2].
        replace (3 * k + j - length _)%nat with (3 * (k - length (triangulate P g)) + j)%nat by (rewrite C1; lia).
        rewrite A1. f_equal. cbn [concat]. rewrite concat_app, app_length. lia.
Qed.

(* ---------- Pieces of convex polygons ---------- *)

Lemma split_loop_outline f : forall k i b, i = S b -> (1 <= b)%nat ->
  Forall (fun p => exists ks, outline_of p (from_vertex p) = map (fun c => nth c (f_verts f) 0) ks /\
     Forall (fun c => (c < length (f_verts f))%nat) ks /\
     (forall x y, (x < y)%nat -> (y < length ks)%nat -> (nth x ks 0 < nth y ks 0)%nat) /\
     (length ks = 3%nat \/ length ks = 4%nat))
  (split_loop f (length (f_verts f)) k i b).
Proof.
  set (n := length (f_verts f)). induction k as [|k IH]; intros i b E B; cbn [split_loop]; [constructor|].
  destruct (i <? n)%nat eqn:L; [apply Nat.ltb_lt in L|constructor].
  destruct (i + 1 <? n)%nat eqn:M; [apply Nat.ltb_lt in M|apply Nat.ltb_ge in M].
  - constructor; [|apply IH; lia]. exists [0; b; i; i + 1]%nat. unfold outline_of, outline. cbn [phantom from_vertex].
    replace (i =? i + 1)%nat with false by (symmetry; apply Nat.eqb_neq; lia). cbn [map nth].
    rewrite !poly_index_nth by (fold n; lia). split; [reflexivity|]. split; [repeat constructor; lia|].
    split; [|right; reflexivity]. intros x y L1 L2. cbn in L2.
    destruct x as [|[|[|x]]], y as [|[|[|[|y]]]]; cbn; lia.
  - constructor.
    + exists [0; b; i]%nat. unfold outline_of, outline. cbn [phantom from_vertex]. rewrite Nat.eqb_refl. cbn [map nth].
      rewrite !poly_index_nth by (fold n; lia). split; [reflexivity|]. split; [repeat constructor; lia|].
      split; [|left; reflexivity]. intros x y L1 L2. cbn in L2.
      destruct x as [|[|x]], y as [|[|[|y]]]; cbn; lia.
    + destruct k; cbn [split_loop]; [constructor|]. replace (i + 2 <? n)%nat with false; [constructor|].
      symmetry. apply Nat.ltb_ge. lia.
Qed.

Lemma nth_map_in {X Y} (h : X -> Y) l d d' i : (i < length l)%nat -> nth i (map h l) d' = h (nth i l d).
Proof. intros H. rewrite (nth_indep _ d' (h d)) by now rewrite map_length. apply map_nth. Qed.

Lemma split_convex f (pos : Z -> Z * Z) s p : convex s (map pos (f_verts f)) -> In p (split_polygon f) ->
  convex s (map pos (outline_of p (from_vertex p))).
Proof.
  intros C I. pose proof (split_loop_outline f (length (f_verts f)) 2 1 eq_refl (le_n 1)) as H.
  rewrite Forall_forall in H. destruct (H p I) as (ks & E & B & M & _). rewrite E.
  rewrite Forall_forall in B. intros x y z L1 L2 L3. rewrite !map_length in L3.
  assert (V : forall x, (x < length ks)%nat -> nth x (map pos (map (fun c => nth c (f_verts f) 0) ks)) (0, 0) =
    nth (nth x ks 0%nat) (map pos (f_verts f)) (0, 0)).
  { intros w LW. rewrite map_map. rewrite (nth_map_in _ _ 0%nat) by lia. symmetry. apply nth_map_in.
    apply B, nth_In, LW. }
  rewrite !V by lia. apply C; [apply M; lia|apply M; lia|]. rewrite map_length. apply B, nth_In, L3.
Qed.

Lemma winding_split q a b c d : winding q [a; b; c; d] = winding q [a; b; c] + winding q [a; c; d].
Proof.
  unfold winding, around. cbn [app along]. pose proof (antisymmetric_crossing q a c). lia.
Qed.

Lemma winding_sides s q a b c : s = 1 \/ s = -1 -> 0 < s * left_of a b c -> off_lines q [a; b; c] ->
  s * winding q [a; b; c] = 0 \/ s * winding q [a; b; c] = 1 /\
    0 < s * left_of a b q /\ 0 < s * left_of b c q /\ 0 < s * left_of c a q.
Proof.
  intros S1 D O. pose proof O as (N1 & N2 & N3). pose proof (left_of_sum a b c q) as LS. destruct S1 as [-> | ->].
  - rewrite winding_triangle by (auto; lia). unfold within.
    destruct (Z.ltb_spec 0 (left_of a b q)), (Z.ltb_spec 0 (left_of b c q)), (Z.ltb_spec 0 (left_of c a q)),
      (Z.ltb_spec (left_of a b q) 0), (Z.ltb_spec (left_of b c q) 0), (Z.ltb_spec (left_of c a q) 0); cbn [andb orb]; lia.
  - rewrite winding_clockwise by (auto; lia). unfold within.
    destruct (Z.ltb_spec 0 (left_of a b q)), (Z.ltb_spec 0 (left_of b c q)), (Z.ltb_spec 0 (left_of c a q)),
      (Z.ltb_spec (left_of a b q) 0), (Z.ltb_spec (left_of b c q) 0), (Z.ltb_spec (left_of c a q) 0); cbn [andb orb]; lia.
Qed.

Lemma winding_convex s q l : s = 1 \/ s = -1 -> convex s l -> apart q l -> (length l = 3 \/ length l = 4)%nat ->
  s * winding q l = 0 \/ s * winding q l = 1.
Proof.
  intros S1 C Q L.
  assert (F : forall x y, left_of y x q = - left_of x y q) by (intros; unfold left_of; ring).
  destruct l as [|a [|b [|c [|d [|e l]]]]]; cbn in L; try lia.
  - pose proof (C 0 1 2 ltac:(lia) ltac:(lia) ltac:(cbn; lia))%nat as D. cbn in D.
    pose proof (Q 0 1 ltac:(lia) ltac:(cbn; lia))%nat as Q1. pose proof (Q 1 2 ltac:(lia) ltac:(cbn; lia))%nat as Q2.
    pose proof (Q 0 2 ltac:(lia) ltac:(cbn; lia))%nat as Q3. cbn [nth] in Q1, Q2, Q3.
    destruct (winding_sides s q a b c S1 D); [|auto|tauto]. cbn. rewrite (F a c). lia.
  - pose proof (C 0 1 2 ltac:(lia) ltac:(lia) ltac:(cbn; lia))%nat as D. cbn in D.
    pose proof (C 0 2 3 ltac:(lia) ltac:(lia) ltac:(cbn; lia))%nat as D2. cbn in D2.
    pose proof (Q 0 1 ltac:(lia) ltac:(cbn; lia))%nat as Q1. pose proof (Q 1 2 ltac:(lia) ltac:(cbn; lia))%nat as Q2.
    pose proof (Q 0 2 ltac:(lia) ltac:(cbn; lia))%nat as Q3. pose proof (Q 2 3 ltac:(lia) ltac:(cbn; lia))%nat as Q4.
    pose proof (Q 0 3 ltac:(lia) ltac:(cbn; lia))%nat as Q5. cbn [nth] in Q1, Q2, Q3, Q4, Q5.
    rewrite winding_split, Z.mul_add_distr_l.
    destruct (winding_sides s q a b c S1 D) as [W1|(W1 & P1 & P2 & P3)]; [cbn; rewrite (F a c); lia| |];
    destruct (winding_sides s q a c d S1 D2) as [W2|(W2 & R1 & R2 & R3)]; try (cbn; rewrite (F a d); lia); try lia.
    exfalso. rewrite (F a c) in P3. nia.
Qed.

Lemma split_once f (pos : Z -> Z * Z) s q p : s = 1 \/ s = -1 -> convex s (map pos (f_verts f)) -> apart q (map pos (f_verts f)) ->
  In p (split_polygon f) ->
  s * winding q (map pos (outline_of p (from_vertex p))) = 0 \/ s * winding q (map pos (outline_of p (from_vertex p))) = 1.
Proof.
  intros S1 C Q I. apply winding_convex; [exact S1|eapply split_convex; eauto| |];
    pose proof (split_loop_outline f (length (f_verts f)) 2 1 eq_refl (le_n 1)) as H;
    rewrite Forall_forall in H; destruct (H p I) as (ks & E & B & M & L); rewrite E, ?map_length; [|exact L].
  rewrite Forall_forall in B. intros x y L1 L2. rewrite !map_length in L2.
  assert (V : forall x, (x < length ks)%nat -> nth x (map pos (map (fun c => nth c (f_verts f) 0) ks)) (0, 0) =
    nth (nth x ks 0%nat) (map pos (f_verts f)) (0, 0)).
  { intros w LW. rewrite map_map. rewrite (nth_map_in _ _ 0%nat) by lia. symmetry. apply nth_map_in.
    apply B, nth_In, LW. }
  rewrite !V by lia. apply Q; [apply M; lia|]. rewrite map_length. apply B, nth_In, L2.
Qed.

Lemma cone x u v q w : left_of x u v * left_of x w q = left_of x q v * left_of x w u + left_of x u q * left_of x w v.
Proof. unfold left_of. ring. Qed.
Lemma winding_fan q x y z r : winding q (x :: y :: z :: r) = winding q [x; y; z] + winding q (x :: z :: r).
Proof.
  unfold winding, around. cbn [app]. rewrite !along_cons. cbn [along]. rewrite (antisymmetric_crossing q x z). lia.
Qed.
(* Either the fan does not go round the point, or the point is in a cone from the first vertex. *)
Lemma fan_once s q x : s = 1 \/ s = -1 -> forall r y,
  (forall i j, (i < j)%nat -> (j < S (length r))%nat -> 0 < s * left_of x (nth i (y :: r) (0, 0)) (nth j (y :: r) (0, 0))) ->
  (forall i, (i < S (length r))%nat -> left_of x (nth i (y :: r) (0, 0)) q <> 0) ->
  (forall i j, (i < j)%nat -> (j < S (length r))%nat -> left_of (nth i (y :: r) (0, 0)) (nth j (y :: r) (0, 0)) q <> 0) ->
  s * winding q (x :: y :: r) = 0 \/
  s * winding q (x :: y :: r) = 1 /\ exists i j, (i < j)%nat /\ (j < S (length r))%nat /\
    0 < s * left_of x (nth i (y :: r) (0, 0)) q /\ 0 < s * left_of x q (nth j (y :: r) (0, 0)).
Proof.
  intros S1. induction r as [|z r IH]; intros y C N1 N2.
  - left. unfold winding, around. cbn. rewrite (antisymmetric_crossing q x y). lia.
  - rewrite winding_fan, Z.mul_add_distr_l.
    assert (CR : forall i j, (i < j)%nat -> (j < S (length r))%nat ->
      0 < s * left_of x (nth i (z :: r) (0, 0)) (nth j (z :: r) (0, 0))) by (intros i j L1 L2; apply (C (S i) (S j)); cbn; lia).
    assert (NR1 : forall i, (i < S (length r))%nat -> left_of x (nth i (z :: r) (0, 0)) q <> 0)
      by (intros i L; apply (N1 (S i)); cbn; lia).
    assert (NR2 : forall i j, (i < j)%nat -> (j < S (length r))%nat -> left_of (nth i (z :: r) (0, 0)) (nth j (z :: r) (0, 0)) q <> 0)
      by (intros i j L1 L2; apply (N2 (S i) (S j)); cbn; lia).
    specialize (IH z CR NR1 NR2).
    pose proof (C 0 1 ltac:(lia) ltac:(cbn; lia))%nat as D. cbn [nth] in D.
    pose proof (N1 0 ltac:(lia))%nat as Q1. pose proof (N1 1 ltac:(cbn; lia))%nat as Q2.
    pose proof (N2 0 1 ltac:(lia) ltac:(cbn; lia))%nat as Q3. cbn [nth] in Q1, Q2, Q3.
    assert (FX : forall a b, left_of a b q = - left_of b a q) by (intros; unfold left_of; ring).
    assert (FQ : forall b, left_of x q b = - left_of x b q) by (intros; unfold left_of; ring).
    destruct (winding_sides s q x y z S1 D) as [W1|(W1 & P1 & P2 & P3)]; [cbn; rewrite (FX z x); lia| |].
    + destruct IH as [IH|(IH & i & j & L1 & L2 & L3 & L4)]; [left; lia|]. right. split; [lia|].
      exists (S i), (S j). split; [lia|]. split; [cbn; lia|]. split; assumption.
    + destruct IH as [IH|(IH & i & j & L1 & L2 & L3 & L4)].
      * right. split; [lia|]. exists 0%nat, 1%nat. split; [lia|]. split; [cbn; lia|]. cbn [nth]. split; [exact P1|].
        rewrite FQ. rewrite FX in P3. lia.
      * exfalso. rewrite FX in P3.
        assert (K : 0 < s * left_of x z q); [|lia].
        pose proof (cone x (nth i (z :: r) (0, 0)) (nth j (z :: r) (0, 0)) q z) as E.
        pose proof (CR i j L1 L2) as CIJ.
        destruct i as [|i]; [exact L3|].
        pose proof (CR 0 (S i) ltac:(lia) ltac:(lia))%nat as C1. pose proof (CR 0 j ltac:(lia) ltac:(lia))%nat as C2.
        change (nth 0 (z :: r) (0, 0)) with z in *.
        generalize dependent (nth (S i) (z :: r) (0, 0)). generalize dependent (nth j (z :: r) (0, 0)).
        intros v L4 C2 u L3 E CIJ C1. clear - S1 L3 L4 E CIJ C1 C2.
        assert (0 < (s * left_of x u v) * (s * left_of x z q)); [|nia].
        replace ((s * left_of x u v) * (s * left_of x z q)) with (s * s * (left_of x u v * left_of x z q)) by ring.
        rewrite E. replace (s * s * (left_of x q v * left_of x z u + left_of x u q * left_of x z v)) with
          ((s * left_of x q v) * (s * left_of x z u) + (s * left_of x u q) * (s * left_of x z v)) by ring.
        pose proof (Z.mul_pos_pos _ _ L4 C1). pose proof (Z.mul_pos_pos _ _ L3 C2). lia.
Qed.
Lemma convex_once s q l : s = 1 \/ s = -1 -> convex s l -> apart q l -> s * winding q l = 0 \/ s * winding q l = 1.
Proof.
  intros S1 C Q. destruct l as [|x [|y r]].
  - left. unfold winding, around. lia.
  - left. unfold winding, around. cbn. pose proof (antisymmetric_crossing q x x). lia.
  - destruct (fan_once s q x S1 r y) as [H|(H & _)]; auto.
    + intros i j L1 L2. apply (C 0 (S i) (S j))%nat; cbn; lia.
    + intros i L. apply (Q 0 (S i))%nat; cbn; lia.
    + intros i j L1 L2. apply (Q (S i) (S j)); cbn; lia.
Qed.

(* ---------- No vertex inside a triangle ---------- *)

Section Clear.
Variable P : Z -> point.
Variable g : polygon.
Hypothesis known : g_orient g <> Unknown.
Let c (i : nat) : Z * Z := corner P g i.

Lemma determinant_within i j k n : orientation_eqb (determinant P g i j k) (g_orient g) = true ->
  orientation_eqb (determinant P g j i n) (g_orient g) = true \/
  orientation_eqb (determinant P g i k n) (g_orient g) = true \/
  orientation_eqb (determinant P g k j n) (g_orient g) = true ->
  within (c n) [c i; c j; c k] = false.
Proof.
  intros D. apply orientation_eqb_eq in D. pose proof (determinant_left P g i j k) as DL. rewrite D in DL.
  assert (H : forall a b, orientation_eqb (determinant P g a b n) (g_orient g) = true ->
    Z.sgn (left_of (c a) (c b) (c n)) = Z.sgn (left_of (c i) (c j) (c k))).
  { intros a b E. apply orientation_eqb_eq in E. pose proof (determinant_left P g a b n) as L. rewrite E in L.
    unfold c. congruence. }
  assert (NZ : left_of (c i) (c j) (c k) <> 0).
  { intros E. fold (c i) (c j) (c k) in DL. rewrite E in DL. destruct (g_orient g); cbn in DL; congruence. }
  pose proof (left_of_sum (c i) (c j) (c k) (c n)) as LS.
  intros X. assert (K : Z.sgn (left_of (c j) (c i) (c n)) = Z.sgn (left_of (c i) (c j) (c k)) \/
    Z.sgn (left_of (c i) (c k) (c n)) = Z.sgn (left_of (c i) (c j) (c k)) \/
    Z.sgn (left_of (c k) (c j) (c n)) = Z.sgn (left_of (c i) (c j) (c k))) by (destruct X as [X|[X|X]]; apply H in X; auto).
  clear H X D DL. rewrite (left_of_flip (c i) (c j)), (left_of_flip (c k) (c i)), (left_of_flip (c j) (c k)) in K.
  unfold within. revert LS NZ K.
  generalize (left_of (c i) (c j) (c n)) (left_of (c j) (c k) (c n)) (left_of (c k) (c i) (c n)) (left_of (c i) (c j) (c k)).
  intros x y z w LS NZ K.
  destruct (Z.ltb_spec 0 x), (Z.ltb_spec 0 y), (Z.ltb_spec 0 z), (Z.ltb_spec x 0), (Z.ltb_spec y 0), (Z.ltb_spec z 0);
    cbn [andb orb]; try reflexivity; try lia.
Qed.

Lemma within_corner q a b d : q = a \/ q = b \/ q = d -> within q [a; b; d] = false.
Proof.
  intros H. unfold within.
  assert (S1 : forall u v, left_of u v u = 0) by (intros; unfold left_of; ring).
  assert (S2 : forall u v, left_of u v v = 0) by (intros; unfold left_of; ring).
  destruct H as [-> | [-> | ->]]; rewrite ?S1, ?S2; cbn [Z.ltb Z.compare andb orb]; rewrite ?andb_false_r, ?andb_false_l; reflexivity.
Qed.

Lemma none_inside_spec i j k : orientation_eqb (determinant P g i j k) (g_orient g) = true ->
  forall l, none_inside P g i j k l = true -> forall n, In n l -> within (c n) [c i; c j; c k] = false.
Proof.
  intros D. induction l as [|m l IH]; intros H n I; [destruct I|]. cbn [none_inside] in H.
  destruct ((m =? i)%nat || (m =? j)%nat || (m =? k)%nat) eqn:E.
  { destruct I as [->|I]; [|now apply IH]. rewrite !orb_true_iff, !Nat.eqb_eq in E. apply within_corner.
    destruct E as [[->| ->]| ->]; auto. }
  destruct (_ || _ || _) eqn:E1 in H.
  { destruct I as [->|I]; [|now apply IH]. apply determinant_within; [exact D|].
    rewrite !orb_true_iff in E1. tauto. }
  destruct (_ || _ || _) eqn:E2 in H; [|discriminate].
  destruct I as [->|I]; [|now apply IH]. apply within_corner. unfold c.
  assert (SP : forall a b, same_point a b = true -> a = b).
  { intros [a1 a2] [b1 b2] S1. unfold same_point in S1. cbn in S1. apply andb_prop in S1 as [S1 S2].
    apply Z.eqb_eq in S1, S2. congruence. }
  rewrite !orb_true_iff in E2. destruct E2 as [[E2|E2]|E2]; apply SP in E2; auto.
Qed.

(* Every vertex of a later triangle is outside an earlier one. *)
Fixpoint clear_list (at_ : Z -> Z * Z) (ts : list (Z * Z * Z)) : Prop :=
  match ts with
  | [] => True
  | t :: r => (forall t2 x, In t2 r -> In x (vertices t2) -> within (at_ x) (positions at_ t) = false) /\ clear_list at_ r
  end.
Lemma within_emit q p j r : within q [c p; c j; c r] = false ->
  within q (positions (fun v => project (g_axis g) (P v)) (emit g p j r)) = false.
Proof.
  intros H. unfold emit. destruct (g_reverse g); [|exact H]. unfold positions.
  change (project (g_axis g) (P (nth p (g_verts g) 0))) with (c p).
  change (project (g_axis g) (P (nth j (g_verts g) 0))) with (c j).
  change (project (g_axis g) (P (nth r (g_verts g) 0))) with (c r).
  unfold within in *. rewrite (left_of_flip (c j) (c r)), (left_of_flip (c p) (c j)), (left_of_flip (c r) (c p)).
  revert H. generalize (left_of (c p) (c j) q) (left_of (c j) (c r) q) (left_of (c r) (c p) q). intros x y z.
  destruct (Z.ltb_spec 0 x), (Z.ltb_spec 0 y), (Z.ltb_spec 0 z), (Z.ltb_spec x 0), (Z.ltb_spec y 0), (Z.ltb_spec z 0); cbn [andb orb]; try lia;
  destruct (Z.ltb_spec 0 (- x)), (Z.ltb_spec 0 (- y)), (Z.ltb_spec 0 (- z)), (Z.ltb_spec (- x) 0), (Z.ltb_spec (- y) 0), (Z.ltb_spec (- z) 0);
    cbn [andb orb]; try lia; intros; congruence.
Qed.
Lemma emit_vertices p j r x : In x (vertices (emit g p j r)) -> exists i, (i = p \/ i = j \/ i = r) /\ x = nth i (g_verts g) 0.
Proof.
  unfold emit. destruct (g_reverse g); cbn; intros [<-|[<-|[<-|[]]]]; eauto 6.
Qed.
Lemma cut_ears_vertices : forall fuel l t x, In t (cut_ears P g fuel l) -> In x (vertices t) ->
  exists i, In i l /\ x = nth i (g_verts g) 0.
Proof.
  induction fuel as [|f IH]; intros l t x I J; cbn [cut_ears] in I; [destruct I|].
  destruct (3 <? length l)%nat eqn:L; [apply Nat.ltb_lt in L|].
  - destruct (find_ear P g l (length l) 0) as [d|] eqn:E; [|destruct I].
    apply find_ear_spec in E as (E & _). destruct I as [<-|I].
    + apply emit_vertices in J as (i & [-> | [-> | ->]] & ->); eexists; (split; [|reflexivity]); apply nth_In;
        try apply next_lt; try apply previous_lt; lia.
    + destruct (IH _ _ _ I J) as (i & I1 & I2). exists i. split; [eapply In_remove; eauto|exact I2].
  - destruct (length l =? 3)%nat eqn:L3; [apply Nat.eqb_eq in L3|destruct I].
    destruct I as [<-|[]]. apply emit_vertices in J as (i & [-> | [-> | ->]] & ->); eexists; (split; [|reflexivity]); apply nth_In; lia.
Qed.
Lemma cut_ears_clear : forall fuel l, clear_list (fun v => project (g_axis g) (P v)) (cut_ears P g fuel l).
Proof.
  induction fuel as [|f IH]; intros l; cbn [cut_ears]; [exact I|].
  destruct (3 <? length l)%nat eqn:L; [apply Nat.ltb_lt in L|].
  - destruct (find_ear P g l (length l) 0) as [d|] eqn:E; [|exact I].
    apply find_ear_spec in E as (E & D & N). cbn [clear_list]. split; [|apply IH].
    intros t2 x I2 J. apply within_emit. destruct (cut_ears_vertices _ _ _ _ I2 J) as (i & I1 & ->).
    change (project (g_axis g) (P (nth i (g_verts g) 0))) with (c i).
    eapply none_inside_spec; [exact D|exact N|]. eapply In_remove; eauto.
  - destruct (length l =? 3)%nat; cbn; auto. split; [intros t2 x []|exact I].
Qed.
Lemma clear_nth at_ : forall ts, clear_list at_ ts -> forall i j x, (i < j)%nat -> (j < length ts)%nat ->
  In x (vertices (nth j ts (0, 0, 0))) -> within (at_ x) (positions at_ (nth i ts (0, 0, 0))) = false.
Proof.
  induction ts as [|t ts IH]; intros H i j x L1 L2 I; [cbn in L2; lia|]. destruct H as [H1 H2].
  destruct j as [|j]; [lia|]. cbn [nth length] in *. destruct i as [|i].
  - eapply H1; [|exact I]. apply nth_In. lia.
  - apply (IH H2 i j x); auto; lia.
Qed.
End Clear.

(** * The pieces of a polygon *)
Definition piece_ok (f : face) (p : patch) : Prop :=
  length (from_face p) = 4%nat /\
  if phantom p then NoDup (firstn 3 (from_face p)) /\ nth 2 (from_face p) 0 = nth 3 (from_face p) 0
  else NoDup (from_face p).
Lemma split_loop_pieces f n : forall k i b, i = S b -> (1 <= b)%nat -> (n <= i + 2 * k)%nat ->
  Forall (piece_ok f) (split_loop f n k i b) /\ length (split_loop f n k i b) = ((n + 1 - i) / 2)%nat.
Proof.
  induction k as [ | k IH ]; intros i b E B N; cbn [split_loop].
  - split; [ constructor | ]. replace (n + 1 - i)%nat with (if (n =? i)%nat then 1 else 0)%nat; [ destruct (n =? i)%nat; reflexivity | ].
    destruct (Nat.eqb_spec n i); lia.
  - destruct (Nat.ltb_spec i n) as [ L | L ].
    + destruct (Nat.ltb_spec (i + 1) n) as [ M | M ].
      * destruct (IH (i + 2)%nat (i + 1)%nat ltac:(lia) ltac:(lia) ltac:(lia)) as [ F G ]. split.
        -- constructor; [ | exact F ]. split; [ reflexivity | ]. cbn [phantom from_face].
           replace (i =? i + 1)%nat with false by (symmetry; apply Nat.eqb_neq; lia).
           unfold face_index. repeat constructor; cbn [In]; lia.
        -- cbn [length]. rewrite G. replace (n + 1 - i)%nat with ((n + 1 - (i + 2)) + 1 * 2)%nat by lia.
           rewrite Nat.div_add by lia. lia.
      * assert (n = S i) by lia. subst n. split.
        -- constructor.
           ++ split; [ reflexivity | ]. cbn [phantom from_face]. rewrite Nat.eqb_refl. cbn [firstn nth].
              unfold face_index. split; [ repeat constructor; cbn [In]; lia | reflexivity ].
           ++ destruct k; cbn [split_loop]; [ constructor | ].
              replace (i + 2 <? S i)%nat with false by (symmetry; apply Nat.ltb_ge; lia). constructor.
        -- cbn [length]. replace (S i + 1 - i)%nat with 2%nat by lia.
           destruct k; cbn [split_loop length]; [ reflexivity | ].
           replace (i + 2 <? S i)%nat with false by (symmetry; apply Nat.ltb_ge; lia). reflexivity.
    + split; [ constructor | ]. replace (n + 1 - i)%nat with (if (n =? i)%nat then 1 else 0)%nat; [ destruct (n =? i)%nat; reflexivity | ].
      destruct (Nat.eqb_spec n i); lia.
Qed.

(** * Where the division stops *)
Section Stuck.
Variable P : Z -> point.
Variable g : polygon.
Hypothesis K : g_orient g <> Unknown.
Let s := osign (g_orient g).
Let pos := corner P g.

Lemma orient_sgn i j k : orientation_eqb (determinant P g i j k) (g_orient g) = true <-> Z.sgn (left_of (pos i) (pos j) (pos k)) = s.
Proof.
  rewrite orientation_eqb_eq. unfold pos. rewrite <- determinant_left. unfold s.
  destruct (determinant P g i j k), (g_orient g); cbn; split; intros; try congruence; try lia.
Qed.

Lemma blocked i1 i2 i3 l : none_inside P g i1 i2 i3 l = false ->
  exists x, In x l /\ x <> i1 /\ x <> i2 /\ x <> i3 /\
    0 <= s * left_of (pos i1) (pos i2) (pos x) /\ 0 <= s * left_of (pos i2) (pos i3) (pos x) /\
    0 <= s * left_of (pos i3) (pos i1) (pos x) /\ pos x <> pos i1 /\ pos x <> pos i2 /\ pos x <> pos i3.
Proof.
  assert (Up : forall i j x, orientation_eqb (determinant P g j i x) (g_orient g) = false -> 0 <= s * left_of (pos i) (pos j) (pos x)).
  { intros i j x H. assert (N : ~ Z.sgn (left_of (pos j) (pos i) (pos x)) = s)
      by (rewrite <- orient_sgn, H; discriminate).
    rewrite left_of_flip in N. unfold s in *. destruct (g_orient g); cbn [osign] in *; try congruence; lia. }
  assert (Np : forall a b, same_point a b = false -> a <> b).
  { intros a b H E. subst. unfold same_point in H. rewrite !Z.eqb_refl in H. discriminate. }
  induction l as [ | n r IH ]; cbn [none_inside]; [ discriminate | ].
  destruct ((n =? i1)%nat || (n =? i2)%nat || (n =? i3)%nat) eqn:E1.
  { intros H. destruct (IH H) as (x & I & R). exists x. split; [ right; exact I | exact R ]. }
  destruct (orientation_eqb (determinant P g i2 i1 n) (g_orient g) || _ || _) eqn:E2.
  { intros H. destruct (IH H) as (x & I & R). exists x. split; [ right; exact I | exact R ]. }
  destruct (same_point _ _ || _ || _) eqn:E3.
  { intros H. destruct (IH H) as (x & I & R). exists x. split; [ right; exact I | exact R ]. }
  intros _. exists n. rewrite !orb_false_iff in E1, E2, E3. rewrite !Nat.eqb_neq in E1.
  destruct E1 as [ [ A1 A2 ] A3 ], E2 as [ [ B1 B2 ] B3 ], E3 as [ [ C1 C2 ] C3 ].
  apply Up in B1, B2, B3. apply Np in C1, C2, C3.
  repeat split; try assumption. left. reflexivity.
Qed.

Lemma find_ear_none l : forall k c, find_ear P g l k c = None -> forall e, (c <= e < c + k)%nat ->
  orientation_eqb (determinant P g (nth (previous (length l) e) l 0%nat) (nth e l 0%nat) (nth (next (length l) e) l 0%nat)) (g_orient g)
  && none_inside P g (nth (previous (length l) e) l 0%nat) (nth e l 0%nat) (nth (next (length l) e) l 0%nat) l = false.
Proof.
  induction k as [ | k IH ]; intros c H e L; [ lia | ]. cbn [find_ear] in H.
  destruct (_ && _) eqn:E in H; [ discriminate | ].
  destruct (Nat.eq_dec e c) as [ -> | N ]; [ exact E | ]. apply (IH (S c) H). lia.
Qed.

Lemma rotation_corner (l : list nat) p q r rest : rotation l (p :: q :: r :: rest) -> (3 < length l)%nat ->
  exists e, (e < length l)%nat /\ nth e l 0%nat = q /\ nth (previous (length l) e) l 0%nat = p /\ nth (next (length l) e) l 0%nat = r.
Proof.
  intros (u & v & E1 & E2) L. subst l. rewrite app_length in *.
  destruct v as [ | p' [ | q' v ] ].
  - cbn [app] in E2. subst u. rewrite app_nil_r. exists 1%nat. cbn [length] in *. rewrite Nat.add_0_r in *.
    unfold previous, next. cbn [Nat.eqb]. replace (1 =? S (S (length rest)))%nat with false by (symmetry; apply Nat.eqb_neq; lia).
    cbn [Nat.sub]. repeat split; try lia; reflexivity.
  - injection E2 as <- E2. cbn [app] in E2. subst u. exists 0%nat. cbn [length] in *.
    unfold previous, next. cbn [Nat.eqb]. repeat split; try lia.
    replace (S (S (length rest)) + 1 - 1)%nat with (length (q :: r :: rest)) by (cbn [length]; lia).
    rewrite app_nth2, Nat.sub_diag by lia. reflexivity.
  - injection E2 as <- <- E2. cbn [length] in *. destruct v as [ | r' v ].
    + cbn [app] in E2. subst u. exists (length (r :: rest) + 1)%nat. cbn [length] in *.
      unfold previous, next.
      replace (S (length rest) + 1 =? 0)%nat with false by (symmetry; apply Nat.eqb_neq; lia).
      replace (S (length rest) + 1 =? S (length rest) + 2 - 1)%nat with true by (symmetry; apply Nat.eqb_eq; lia).
      rewrite !app_nth2 by (cbn [length]; lia). cbn [length].
      replace (S (length rest) + 1 - S (length rest))%nat with 1%nat by lia.
      replace (S (length rest) + 1 - 1 - S (length rest))%nat with 0%nat by lia.
      repeat split; try lia; reflexivity.
    + injection E2 as <- E2. exists (length u + 1)%nat. cbn [length] in *. unfold previous, next.
      replace (length u + 1 =? 0)%nat with false by (symmetry; apply Nat.eqb_neq; lia).
      replace (length u + 1 =? length u + S (S (S (length v))) - 1)%nat with false by (symmetry; apply Nat.eqb_neq; lia).
      rewrite !app_nth2 by lia.
      replace (length u + 1 - length u)%nat with 1%nat by lia.
      replace (length u + 1 - 1 - length u)%nat with 0%nat by lia.
      replace (length u + 1 + 1 - length u)%nat with 2%nat by lia.
      repeat split; try lia; reflexivity.
Qed.

Lemma no_ear l : (3 < length l)%nat -> find_ear P g l (length l) 0 = None ->
  forall p q r rest, rotation l (p :: q :: r :: rest) -> ~ can_cut s pos p q r rest.
Proof.
  intros L H p q r rest R [ C1 C2 ].
  destruct (rotation_corner l p q r rest R L) as (e & E1 & E2 & E3 & E4).
  assert (N := find_ear_none l _ _ H e ltac:(lia)). rewrite E2, E3, E4 in N.
  rewrite (proj2 (orient_sgn p q r) C1) in N. cbn [andb] in N.
  destruct (blocked p q r l N) as (x & I & N1 & N2 & N3 & B1 & B2 & B3 & D1 & D2 & D3).
  assert (Ir : In x rest).
  { destruct R as (u & v & F1 & F2). subst l.
    assert (I2 : In x (p :: q :: r :: rest)) by (rewrite F2; apply in_or_app; apply in_app_or in I; tauto).
    cbn [In] in I2. intuition congruence. }
  destruct (C2 x Ir B1 B2 B3) as [ ? | [ ? | ? ] ]; congruence.
Qed.

Lemma sublist_refl {X} (l : list X) : sublist l l.
Proof. induction l; constructor; assumption. Qed.
Lemma sublist_trans {X} (b c : list X) : sublist b c -> forall a, sublist a b -> sublist a c.
Proof.
  induction 1 as [ | x b c H IH | x b c H IH ]; intros a A.
  - exact A.
  - constructor. apply IH, A.
  - inversion A; subst; [ constructor; apply IH; assumption | apply sub_keep; apply IH; assumption ].
Qed.
Lemma sublist_remove c (l : list nat) : sublist (remove_at c l) l.
Proof.
  unfold remove_at. revert l. induction c as [ | c IH ]; intros [ | x l ]; cbn [firstn skipn app Nat.add].
  - constructor.
  - constructor. apply sublist_refl.
  - constructor.
  - apply sub_keep. apply IH.
Qed.

Lemma cut_ears_stuck : forall fuel l, (length l <= fuel)%nat -> (3 <= length l)%nat ->
  (length (cut_ears P g fuel l) + 2 = length l)%nat \/
  exists m, sublist m l /\ (3 < length m)%nat /\ (length (cut_ears P g fuel l) + length m = length l)%nat /\
    forall p q r rest, rotation m (p :: q :: r :: rest) -> ~ can_cut s pos p q r rest.
Proof.
  induction fuel as [ | f IH ]; intros l F L; [ lia | ]. cbn [cut_ears].
  destruct (Nat.ltb_spec 3 (length l)) as [ M | M ].
  - destruct (find_ear P g l (length l) 0) as [ c | ] eqn:E.
    + destruct (find_ear_spec P g l _ _ _ E) as (C1 & C2 & _).
      assert (RL := remove_length c l ltac:(lia)).
      destruct (IH (remove_at c l) ltac:(lia) ltac:(lia)) as [ H | (m & S1 & S2 & S3 & S4) ]; cbn [length].
      * left. lia.
      * right. exists m. split; [ exact (sublist_trans _ _ (sublist_remove c l) _ S1) | ].
        split; [ exact S2 | split; [ lia | exact S4 ] ].
    + right. exists l. split; [ apply sublist_refl | ]. split; [ exact M | split; [ reflexivity | ] ].
      exact (no_ear l M E).
  - left. replace (length l =? 3)%nat with true by (symmetry; apply Nat.eqb_eq; lia). cbn [length]. lia.
Qed.
End Stuck.

(** * The plane *)
Lemma seen_normal (P : Z -> point) a b c :
  let u := mkPoint (px (P b) - px (P a)) (py (P b) - py (P a)) (pz (P b) - pz (P a)) in
  let v := mkPoint (px (P c) - px (P b)) (py (P c) - py (P b)) (pz (P c) - pz (P b)) in
  Z.abs (py u * pz v - pz u * py v) = seen YZ (P a) (P b) (P c) /\
  Z.abs (pz u * px v - px u * pz v) = seen XZ (P a) (P b) (P c) /\
  Z.abs (px u * py v - py u * px v) = seen XY (P a) (P b) (P c).
Proof.
  cbn [px py pz]. unfold seen, left_of, shadow. cbn [fst snd]. repeat split.
  - f_equal. ring.
  - rewrite <- Z.abs_opp. f_equal. ring.
  - f_equal. ring.
Qed.

Lemma axis_loop_first (P : Z -> point) : forall pre a b c r n,
  (forall k, (k < length pre)%nat -> forall ax, seen ax (P (nth k (pre ++ [a; b; c]) 0)) (P (nth (k + 1) (pre ++ [a; b; c]) 0)) (P (nth (k + 2) (pre ++ [a; b; c]) 0)) = 0) ->
  (exists ax, seen ax (P a) (P b) (P c) <> 0) ->
  axis_loop P (pre ++ a :: b :: c :: r) n = mkPoint (seen YZ (P a) (P b) (P c)) (seen XZ (P a) (P b) (P c)) (seen XY (P a) (P b) (P c)).
Proof.
  induction pre as [ | x pre IH ]; intros a b c r n F [ ax E ].
  - cbn [app axis_loop]. destruct (seen_normal P a b c) as (E1 & E2 & E3). cbn [px py pz] in E1, E2, E3 |- *.
    rewrite E1, E2, E3.
    assert (forall ax, 0 <= seen ax (P a) (P b) (P c)) by (intros; apply Z.abs_nonneg).
    pose proof (H XY). pose proof (H XZ). pose proof (H YZ).
    replace (_ =? 0) with false; [ reflexivity | ]. symmetry. apply Z.eqb_neq. destruct ax; lia.
  - assert (Fk := F 0%nat ltac:(cbn; lia)). cbn [Nat.add nth app] in Fk.
    assert (Sh : exists y z t, pre ++ a :: b :: c :: r = y :: z :: t /\ nth 0 (pre ++ [a; b; c]) 0 = y /\ nth 1 (pre ++ [a; b; c]) 0 = z).
    { destruct pre as [ | y [ | z pre ] ]; cbn; eexists _, _, _; repeat split. }
    destruct Sh as (y & z & t & Es & Ey & Ez). rewrite Ey, Ez in Fk.
    assert (Step : axis_loop P (x :: y :: z :: t) n = axis_loop P (y :: z :: t) (mkPoint 0 0 0)).
    { cbn [axis_loop]. destruct (seen_normal P x y z) as (E1 & E2 & E3). cbn [px py pz] in E1, E2, E3 |- *.
      rewrite E1, E2, E3, !Fk. reflexivity. }
    cbn [app]. rewrite Es, Step, <- Es. apply IH.
    + intros k Hk ax2. specialize (F (S k) ltac:(cbn; lia) ax2). exact F.
    + exists ax. exact E.
Qed.

Lemma extent_spread (P : Z -> point) c first vs d : spread c (map P (first :: vs)) d -> extent P c first vs = d.
Proof.
  intros (lo & hi & Il & Ih & -> & B). unfold extent.
  assert (Mx : forall l m, fold_left (fun m v => Z.max m (c (P v))) l m = fold_right (fun v m => Z.max (c (P v)) m) m l).
  { induction l as [ | x l IH ] using rev_ind; intros m; [ reflexivity | ].
    rewrite fold_left_app, fold_right_app. cbn [fold_left fold_right]. rewrite IH. clear.
    revert m. induction l as [ | y l IH ]; intros m; cbn [fold_right]; [ lia | ]. rewrite <- IH. lia. }
  assert (Mn : forall l m, fold_left (fun m v => Z.min m (c (P v))) l m = fold_right (fun v m => Z.min (c (P v)) m) m l).
  { induction l as [ | x l IH ] using rev_ind; intros m; [ reflexivity | ].
    rewrite fold_left_app, fold_right_app. cbn [fold_left fold_right]. rewrite IH. clear.
    revert m. induction l as [ | y l IH ]; intros m; cbn [fold_right]; [ lia | ]. rewrite <- IH. lia. }
  rewrite Mx, Mn. f_equal.
  - apply Z.le_antisymm.
    + assert (G : forall l, (forall v, In v l -> c (P v) <= c hi) -> c (P first) <= c hi -> fold_right (fun v m => Z.max (c (P v)) m) (c (P first)) l <= c hi).
      { induction l as [ | x l IH ]; intros H H0; cbn [fold_right]; [ exact H0 | ].
        specialize (IH (fun v I => H v (or_intror I)) H0). specialize (H x (or_introl eq_refl)). lia. }
      apply G.
      * intros v Iv. apply B. right. apply in_map, Iv.
      * apply B. left. reflexivity.
    + apply in_map_iff in Ih as (v & <- & Iv).
      assert (G : forall l, In v l \/ v = first -> c (P v) <= fold_right (fun v m => Z.max (c (P v)) m) (c (P first)) l).
      { induction l as [ | x l IH ]; intros H; cbn [fold_right].
        - destruct H as [ [] | -> ]. lia.
        - destruct H as [ [ -> | H ] | H ]; [ lia | | ]; [ specialize (IH (or_introl H)) | specialize (IH (or_intror H)) ]; lia. }
      apply G. destruct Iv as [ -> | Iv ]; [ right; reflexivity | left; exact Iv ].
  - apply Z.le_antisymm.
    + apply in_map_iff in Il as (v & <- & Iv).
      assert (G : forall l, In v l \/ v = first -> fold_right (fun v m => Z.min (c (P v)) m) (c (P first)) l <= c (P v)).
      { induction l as [ | x l IH ]; intros H; cbn [fold_right].
        - destruct H as [ [] | -> ]. lia.
        - destruct H as [ [ -> | H ] | H ]; [ lia | | ]; [ specialize (IH (or_introl H)) | specialize (IH (or_intror H)) ]; lia. }
      apply G. destruct Iv as [ -> | Iv ]; [ right; reflexivity | left; exact Iv ].
    + assert (G : forall l, (forall v, In v l -> c lo <= c (P v)) -> c lo <= c (P first) -> c lo <= fold_right (fun v m => Z.min (c (P v)) m) (c (P first)) l).
      { induction l as [ | x l IH ]; intros H H0; cbn [fold_right]; [ exact H0 | ].
        specialize (IH (fun v I => H v (or_intror I)) H0). specialize (H x (or_introl eq_refl)). lia. }
      apply G.
      * intros v Iv. apply B. right. apply in_map, Iv.
      * apply B. left. reflexivity.
Qed.

(** * The loops of a GeneralPolygon *)
Lemma number_loops_own : forall counts start, number_loops start counts = own_vertices counts (map Z.of_nat (seq start (fold_right plus 0%nat counts))).
Proof.
  induction counts as [ | n r IH ]; intros start; cbn [number_loops own_vertices fold_right]; [ reflexivity | ].
  rewrite seq_app, map_app, firstn_app, skipn_app, map_length, seq_length, Nat.sub_diag.
  cbn [firstn skipn]. rewrite app_nil_r, firstn_all2, skipn_all2 by (rewrite map_length, seq_length; lia).
  cbn [app]. f_equal. apply IH.
Qed.

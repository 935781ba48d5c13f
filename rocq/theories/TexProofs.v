(** Proofs about the traversal and wrapping of textures. *)

From Coq Require Import List Bool ZArith Arith Lia FinFun.
From Verif Require Import TexModel TexSpec.
Import ListNotations.
Open Scope Z_scope.

(** * Ranges and rectangles *)
Definition zseq (a b : Z) : list Z := map (fun n => a + Z.of_nat n) (seq 0 (Z.to_nat (b - a))).
Lemma in_zseq a b x : In x (zseq a b) <-> a <= x < b.
Proof.
  unfold zseq. rewrite in_map_iff. split.
  - intros (n & <- & I). apply in_seq in I. lia.
  - intros H. exists (Z.to_nat (x - a)). split; [ lia | apply in_seq; lia ].
Qed.
Lemma zseq_nil a b : b <= a -> zseq a b = [].
Proof. intros H. unfold zseq. replace (Z.to_nat (b - a)) with 0%nat by lia. reflexivity. Qed.
Lemma zseq_cons a b : a < b -> zseq a b = a :: zseq (a + 1) b.
Proof.
  intros H. unfold zseq. replace (Z.to_nat (b - a)) with (S (Z.to_nat (b - (a + 1)))) by lia.
  cbn [seq map]. f_equal; [ lia | ]. rewrite <- seq_shift, map_map. apply map_ext. intros n. lia.
Qed.
Lemma NoDup_zseq a b : NoDup (zseq a b).
Proof.
  unfold zseq. apply Injective_map_NoDup; [ intros x y E; lia | apply seq_NoDup ].
Qed.
Lemma NoDup_app_intro {X} (l m : list X) : NoDup l -> NoDup m -> (forall x, In x l -> ~ In x m) -> NoDup (l ++ m).
Proof.
  induction l as [ | a l IH ]; intros L M D; [ exact M | ]. inversion L; subst. cbn. constructor.
  - rewrite in_app_iff. intros [ I | I ]; [ contradiction | exact (D a (or_introl eq_refl) I) ].
  - apply IH; auto. intros x I. apply D. right. exact I.
Qed.
Lemma NoDup_flat_map {X Y} (f : X -> list Y) l : NoDup l -> (forall x, In x l -> NoDup (f x)) ->
  (forall x y z, In x l -> In y l -> In z (f x) -> In z (f y) -> x = y) -> NoDup (flat_map f l).
Proof.
  induction l as [ | a l IH ]; intros N F D; cbn [flat_map]; [ constructor | ]. inversion N; subst.
  apply NoDup_app_intro.
  - apply F. left. reflexivity.
  - apply IH; auto.
    + intros x I. apply F. right. exact I.
    + intros x y z I J. apply D; right; assumption.
  - intros z I J. apply in_flat_map in J as (y & J1 & J2).
    assert (a = y) by (apply (D a y z); [ left; reflexivity | right; exact J1 | exact I | exact J2 ]). subst. contradiction.
Qed.

Definition row (s : support) (x y : Z) : list (Z * Z) := map (fun a => (a, y)) (zseq x (sx1 s)).
(** What is left of a rectangle from a place on, row by row. *)
Definition rest (s : support) (x y : Z) : list (Z * Z) := row s x y ++ flat_map (row s (sx0 s)) (zseq (y + 1) (sy1 s)).
Definition rect (s : support) : list (Z * Z) := flat_map (row s (sx0 s)) (zseq (sy0 s) (sy1 s)).
Lemma in_row s x y a b : In (a, b) (row s x y) <-> x <= a < sx1 s /\ b = y.
Proof.
  unfold row. rewrite in_map_iff. split.
  - intros (c & E & I). injection E as <- <-. apply in_zseq in I. auto.
  - intros [ H -> ]. exists a. split; [ reflexivity | apply in_zseq; exact H ].
Qed.
Lemma in_rect s a b : In (a, b) (rect s) <-> within s a b.
Proof.
  unfold rect, within. rewrite in_flat_map. split.
  - intros (y & I & R). apply in_zseq in I. apply in_row in R as [ R -> ]. auto.
  - intros [ H K ]. exists b. split; [ apply in_zseq; exact K | apply in_row; auto ].
Qed.
Lemma NoDup_row s x y : NoDup (row s x y).
Proof. apply Injective_map_NoDup; [ intros a b E; congruence | apply NoDup_zseq ]. Qed.
Lemma NoDup_rect s : NoDup (rect s).
Proof.
  apply NoDup_flat_map; [ apply NoDup_zseq | intros; apply NoDup_row | ].
  intros x y [ a b ] _ _ I J. apply in_row in I as [ _ -> ]. apply in_row in J as [ _ J ]. exact J.
Qed.
Lemma rect_rest s : sx0 s < sx1 s -> sy0 s < sy1 s -> rect s = rest s (sx0 s) (sy0 s).
Proof. intros X Y. unfold rect, rest. rewrite (zseq_cons (sy0 s)) by exact Y. reflexivity. Qed.
Lemma rect_empty s : sx1 s <= sx0 s \/ sy1 s <= sy0 s -> rect s = [].
Proof.
  intros H. destruct (rect s) as [ | [ a b ] r ] eqn:E; [ reflexivity | ].
  assert (I : In (a, b) (rect s)) by (rewrite E; left; reflexivity). apply in_rect in I. unfold within in I. lia.
Qed.
Lemma rest_step s x y : sx0 s <= x < sx1 s -> y < sy1 s ->
  rest s x y = (x, y) :: (if sx1 s <=? x + 1 then (if y + 1 <? sy1 s then rest s (sx0 s) (y + 1) else []) else rest s (x + 1) y).
Proof.
  intros X Y. unfold rest at 1, row at 1. rewrite zseq_cons by lia. cbn [map app]. f_equal.
  destruct (Z.leb_spec (sx1 s) (x + 1)) as [ L | L ].
  - rewrite zseq_nil by lia. cbn [map app]. destruct (Z.ltb_spec (y + 1) (sy1 s)) as [ M | M ].
    + rewrite zseq_cons by exact M. reflexivity.
    + rewrite zseq_nil by lia. reflexivity.
  - reflexivity.
Qed.
Lemma rect_length_le s w h : 0 <= w -> 0 <= h -> 0 <= sx0 s -> sx1 s <= w -> 0 <= sy0 s -> sy1 s <= h ->
  (length (rect s) <= Z.to_nat (w * h))%nat.
Proof.
  intros W H X0 X1 Y0 Y1.
  assert (L : length (rect (mkSupport 0 w 0 h)) = Z.to_nat (w * h)).
  { unfold rect. cbn [sx0 sy0 sy1].
    assert (G : forall l, length (flat_map (row (mkSupport 0 w 0 h) 0) l) = (length l * Z.to_nat w)%nat).
    { induction l as [ | y l IH ]; cbn [flat_map length]; [ reflexivity | ]. rewrite app_length, IH.
      unfold row at 1, zseq at 1. cbn [sx1]. rewrite !map_length, seq_length. lia. }
    rewrite G. unfold zseq. rewrite map_length, seq_length. nia. }
  rewrite <- L. apply NoDup_incl_length; [ apply NoDup_rect | ].
  intros [ a b ] I. apply in_rect in I. apply in_rect. unfold within in *. cbn. lia.
Qed.

(** * Flat buffers *)
Section Buffers.
Context {V : Type}.
Lemma buffer_walk_rest (b : buffer V) (img : Z -> Z -> V) : buffer_holds b img ->
  forall n i, let s := bi_support i in
  0 <= sx0 s -> sx1 s <= b_width V b -> 0 <= sy0 s -> sy1 s <= b_height V b ->
  sx0 s <= bi_x i < sx1 s -> sy0 s <= bi_y i < sy1 s -> (length (rest s (bi_x i) (bi_y i)) <= n)%nat ->
  buffer_walk V b n i = Some (map (fun p => (p, img (fst p) (snd p))) (rest s (bi_x i) (bi_y i))).
Proof.
  intros B n. induction n as [ | n IH ]; intros [ s x y ]; cbn [bi_support bi_x bi_y]; intros X0 X1 Y0 Y1 X Y L.
  { rewrite rest_step in L by lia. cbn in L. lia. }
  cbn [buffer_walk]. unfold buffer_inside. cbn [bi_support bi_x bi_y].
  rewrite (proj2 (Z.ltb_lt _ _) (proj2 Y)). unfold value.
  replace (_ && _ && _ && _) with true.
  2: { symmetry. rewrite !andb_true_iff, !Z.leb_le, !Z.ltb_lt. lia. }
  rewrite B by lia. rewrite rest_step in L |- * by lia. cbn [length map fst snd] in L |- *.
  unfold buffer_next. cbn [bi_support bi_x bi_y]. destruct (Z.leb_spec (sx1 s) (x + 1)) as [ M | M ].
  - destruct (Z.ltb_spec (y + 1) (sy1 s)) as [ K | K ].
    + rewrite IH; cbn [bi_support bi_x bi_y]; try lia. reflexivity.
    + destruct n; cbn [buffer_walk]; unfold buffer_inside; cbn [bi_support bi_x bi_y];
        rewrite (proj2 (Z.ltb_ge _ _) K); reflexivity.
  - rewrite IH; cbn [bi_support bi_x bi_y]; try lia. reflexivity.
Qed.
Lemma each_once_map (l : list (Z * Z)) (D : Z -> Z -> Prop) (img : Z -> Z -> V) :
  NoDup l -> (forall x y, In (x, y) l <-> D x y) -> each_once (map (fun p => (p, img (fst p) (snd p))) l) D img.
Proof.
  intros N H. split.
  - rewrite map_map. cbn [fst]. rewrite map_id. exact N.
  - intros x y v. rewrite in_map_iff. split.
    + intros ([ a b ] & E & I). injection E as <- <- <-. cbn [fst snd]. split; [ apply H, I | reflexivity ].
    + intros [ I -> ]. exists (x, y). split; [ reflexivity | apply H, I ].
Qed.
Lemma within_intersect s t x y : within (intersect s t) x y <-> within s x y /\ within t x y.
Proof. unfold within, intersect. cbn. lia. Qed.

Lemma buffer_visit_ok (b : buffer V) img s : 0 < b_width V b -> 0 < b_height V b -> buffer_holds b img ->
  exists l, buffer_visit V b s = Some (l, b) /\
    each_once l (fun x y => within s x y /\ 0 <= x < b_width V b /\ 0 <= y < b_height V b) img.
Proof.
  intros W H B. set (t := intersect (mkSupport 0 (b_width V b) 0 (b_height V b)) s).
  exists (map (fun p => (p, img (fst p) (snd p))) (rect t)).
  split; [ | apply each_once_map; [ apply NoDup_rect | ] ].
  2: { intros x y. rewrite in_rect. unfold t. rewrite within_intersect. unfold within. cbn. lia. }
  assert (T : 0 <= sx0 t /\ sx1 t <= b_width V b /\ 0 <= sy0 t /\ sy1 t <= b_height V b) by (unfold t; cbn; lia).
  unfold buffer_visit, buffer_begin. fold t. unfold empty1.
  destruct (Z.leb_spec (sx1 t) (sx0 t)) as [ E | E ].
  - rewrite rect_empty by lia. cbn [map].
    destruct (Z.to_nat _); cbn [buffer_walk]; unfold buffer_inside; cbn [bi_support bi_y]; rewrite Z.ltb_irrefl; reflexivity.
  - destruct (Z.ltb_spec (sy0 t) (sy1 t)) as [ F | F ].
    + rewrite (rect_rest t) by assumption.
      rewrite (buffer_walk_rest b img B); cbn [bi_support bi_x bi_y]; try lia; [ reflexivity | ].
      rewrite <- rect_rest by assumption. apply rect_length_le; lia.
    + rewrite rect_empty by lia. cbn [map].
      destruct (Z.to_nat _); cbn [buffer_walk]; unfold buffer_inside; cbn [bi_support bi_y];
        rewrite (proj2 (Z.ltb_ge _ _) F); reflexivity.
Qed.
End Buffers.

(** * Tiles *)
Section Tiles.
Context {V : Type}.

Lemma strided_copy_at (src : Z -> V) ds ss size : 0 <= size <= ds -> forall n i dest j c,
  0 <= i -> i <= j < i + Z.of_nat n -> 0 <= c < size ->
  strided_copy V n i dest ds src ss size (j * ds + c) = src (j * ss + c).
Proof.
  intros S.
  assert (Keep : forall n i dest k, (forall j c, i <= j < i + Z.of_nat n -> 0 <= c < size -> k <> j * ds + c) ->
    strided_copy V n i dest ds src ss size k = dest k).
  { induction n as [ | n IH ]; intros i dest k D; [ reflexivity | ]. cbn [strided_copy]. rewrite IH.
    - destruct (_ && _) eqn:E; [ | reflexivity ]. rewrite andb_true_iff, Z.leb_le, Z.ltb_lt in E.
      exfalso. apply (D i (k - i * ds)); lia.
    - intros j c J C. apply D; lia. }
  induction n as [ | n IH ]; intros i dest j c I J C; [ lia | ]. cbn [strided_copy].
  destruct (Z.eq_dec j i) as [ -> | N ].
  - rewrite Keep.
    + replace (_ && _) with true by (symmetry; rewrite andb_true_iff, Z.leb_le, Z.ltb_lt; lia). f_equal. lia.
    + intros j2 c2 J2 C2. nia.
  - apply IH; lia.
Qed.
Lemma strided_copy_keep (src : Z -> V) ds ss size : forall n i dest k,
  (forall j c, i <= j < i + Z.of_nat n -> 0 <= c < size -> k <> j * ds + c) ->
  strided_copy V n i dest ds src ss size k = dest k.
Proof.
  induction n as [ | n IH ]; intros i dest k D; [ reflexivity | ]. cbn [strided_copy]. rewrite IH.
  - destruct (_ && _) eqn:E; [ | reflexivity ]. rewrite andb_true_iff, Z.leb_le, Z.ltb_lt in E.
    exfalso. apply (D i (k - i * ds)); lia.
  - intros j c J C. apply D; lia.
Qed.

Variable f : file V.
Variable img : Z -> Z -> V.
Hypothesis HF : holds f img.
Let W := f_width V f.
Let H := f_height V f.
Let tw := f_tile_width V f.
Let th := f_tile_height V f.
Let wt := width_in_tiles V f.
Let ht := height_in_tiles V f.

Lemma sizes : 0 < W /\ 0 < H /\ 0 < tw /\ 0 < th.
Proof. destruct HF as (A & B & C & D & _). auto. Qed.
Lemma stored tx ty i j : 0 <= tx -> 0 <= ty -> 0 <= i < tw -> 0 <= j < th -> tx * tw + i < W -> ty * th + j < H ->
  f_stored V f tx ty (j * tw + i) = img (tx * tw + i) (ty * th + j).
Proof. destruct HF as (_ & _ & _ & _ & S). apply S. Qed.

Lemma in_tiles n t x : 0 < n -> 0 < t -> (0 <= x < Z.quot (n - 1) t + 1 <-> 0 <= x /\ x * t < n).
Proof.
  intros N T. rewrite Z.quot_div_nonneg by lia.
  pose proof (Z.div_mod (n - 1) t ltac:(lia)). pose proof (Z.mod_pos_bound (n - 1) t ltac:(lia)). nia.
Qed.

Definition good_tile (t : tile V) (tx ty : Z) : Prop :=
  t_x0 V t = tx * tw /\ t_y0 V t = ty * th /\
  b_width V (t_pixels V t) = Z.min tw (W - tx * tw) /\ b_height V (t_pixels V t) = Z.min th (H - ty * th) /\
  buffer_holds (t_pixels V t) (fun x y => img (x + tx * tw) (y + ty * th)).

Lemma read_tile_ok fresh tx ty : 0 <= tx -> tx * tw < W -> 0 <= ty -> ty * th < H ->
  exists b, read_tile V f fresh tx ty = Some b /\ good_tile (mkTile V (tx * tw) (ty * th) b) tx ty.
Proof.
  intros X1 X2 Y1 Y2. destruct sizes as (W0 & H0 & tw0 & th0). unfold read_tile. fold W H tw th.
  set (w := if W <? (tx + 1) * tw then W - tx * tw else tw).
  set (h := if H <? (ty + 1) * th then H - ty * th else th).
  assert (Ew : w = Z.min tw (W - tx * tw)) by (unfold w; destruct (Z.ltb_spec W ((tx + 1) * tw)); lia).
  assert (Eh : h = Z.min th (H - ty * th)) by (unfold h; destruct (Z.ltb_spec H ((ty + 1) * th)); lia).
  replace ((0 <? w) && (0 <? h)) with true by (symmetry; rewrite andb_true_iff, !Z.ltb_lt; lia).
  eexists. split; [ reflexivity | ]. unfold good_tile. cbn [t_x0 t_y0 t_pixels b_width b_height].
  repeat (split; [ first [ reflexivity | assumption ] | ]).
  intros x y X Y. cbn [b_width b_height b_data] in *. unfold read_tile_impl. fold W H tw th.
  destruct (Z.ltb_spec W ((tx + 1) * tw)) as [ A | A ]; [ | destruct (Z.ltb_spec H ((ty + 1) * th)) as [ B | B ] ]; cbn [orb].
  1,2: rewrite strided_copy_at by lia; rewrite stored by lia; f_equal; lia.
  replace w with tw by lia. rewrite stored by lia. f_equal; lia.
Qed.

Definition valid (a : array V) : Prop :=
  a_file V a = f /\ length (a_tiles V a) = Z.to_nat (wt * ht) /\
  forall tx ty t, 0 <= tx < wt -> 0 <= ty < ht -> nth_error (a_tiles V a) (Z.to_nat (ty * wt + tx)) = Some (Some t) -> good_tile t tx ty.

Lemma tiles_pos : 0 < wt /\ 0 < ht.
Proof.
  destruct sizes as (W0 & H0 & tw0 & th0). unfold wt, ht, width_in_tiles, height_in_tiles. fold W H tw th.
  pose proof (Z.quot_pos (W - 1) tw ltac:(lia) ltac:(lia)). pose proof (Z.quot_pos (H - 1) th ltac:(lia) ltac:(lia)). lia.
Qed.
Lemma valid_new : valid (new_array V f).
Proof.
  split; [ reflexivity | ]. unfold new_array. cbn [a_tiles]. fold wt ht. split; [ apply repeat_length | ].
  intros tx ty t _ _ E. apply nth_error_In, repeat_spec in E. discriminate.
Qed.
Lemma replace_nth (t : tile V) : forall l n m, (n < length l)%nat ->
  nth_error (replace V n t l) m = if (m =? n)%nat then Some (Some t) else nth_error l m.
Proof.
  induction l as [ | x l IH ]; intros [ | n ] [ | m ] L; cbn in *; try lia; try reflexivity.
  rewrite IH by lia. reflexivity.
Qed.
Lemma replace_length (t : tile V) : forall l n, length (replace V n t l) = length l.
Proof. induction l as [ | x l IH ]; intros [ | n ]; cbn; congruence. Qed.

Lemma get_tile_ok fresh a tx ty : valid a -> 0 <= tx < wt -> 0 <= ty < ht ->
  exists t b, get_tile V fresh a tx ty = Some (t, b) /\ good_tile t tx ty /\ valid b.
Proof.
  intros (Ef & El & Ev) X Y. destruct sizes as (W0 & H0 & tw0 & th0). unfold get_tile. rewrite Ef. fold wt ht.
  assert (K : 0 <= ty * wt + tx < wt * ht) by nia.
  replace (_ && _ && _) with true by (symmetry; rewrite !andb_true_iff, !Z.ltb_lt, Z.leb_le; lia).
  destruct (nth_error (a_tiles V a) (Z.to_nat (ty * wt + tx))) as [ [ t | ] | ] eqn:E.
  - exists t, a. split; [ reflexivity | ]. split; [ exact (Ev tx ty t X Y E) | ]. split; auto.
  - destruct (read_tile_ok fresh tx ty) as (b & Eb & G).
    1-4: unfold wt, ht, width_in_tiles, height_in_tiles in X, Y; fold W H tw th in X, Y;
         apply in_tiles in X; apply in_tiles in Y; lia.
    rewrite Eb. fold tw th. eexists _, _. split; [ reflexivity | ]. split; [ exact G | ].
    split; [ reflexivity | ]. cbn [a_tiles]. split; [ rewrite replace_length; exact El | ].
    intros x y t X2 Y2. rewrite replace_nth by lia.
    destruct (Nat.eqb_spec (Z.to_nat (y * wt + x)) (Z.to_nat (ty * wt + tx))) as [ Q | Q ].
    + apply Z2Nat.inj in Q; [ | nia | nia ].
      assert (y = ty) as -> by nia. assert (x = tx) as -> by lia. intros [= <-]. exact G.
    + apply Ev; assumption.
  - apply nth_error_None in E. nia.
Qed.

Section Walk.
Variable s : support.
Hypothesis SX : 0 <= sx0 s /\ sx0 s < sx1 s /\ sx1 s <= W.
Hypothesis SY : 0 <= sy0 s /\ sy0 s < sy1 s /\ sy1 s <= H.
Definition tile_rect : support :=
  mkSupport (Z.quot (sx0 s) tw) (Z.quot (sx1 s - 1) tw + 1) (Z.quot (sy0 s) th) (Z.quot (sy1 s - 1) th + 1).
Definition local (tx ty : Z) : support :=
  intersect (mkSupport 0 (Z.min tw (W - tx * tw)) 0 (Z.min th (H - ty * th)))
            (mkSupport (sx0 s - tx * tw) (sx1 s - tx * tw) (sy0 s - ty * th) (sy1 s - ty * th)).
Definition shifted (tx ty : Z) (p : Z * Z) : Z * Z := (fst p + tx * tw, snd p + ty * th).
Definition cells (p : Z * Z) : list (Z * Z) := map (shifted (fst p) (snd p)) (rect (local (fst p) (snd p))).

Lemma quot_range a b t x : 0 < t -> 0 <= a -> a < b ->
  (Z.quot a t <= x < Z.quot (b - 1) t + 1 <-> a < (x + 1) * t /\ x * t < b).
Proof.
  intros T A B. rewrite !Z.quot_div_nonneg by lia.
  pose proof (Z.div_mod a t ltac:(lia)). pose proof (Z.mod_pos_bound a t ltac:(lia)).
  pose proof (Z.div_mod (b - 1) t ltac:(lia)). pose proof (Z.mod_pos_bound (b - 1) t ltac:(lia)). nia.
Qed.
Lemma in_tile_rect tx ty : within tile_rect tx ty ->
  (0 <= tx /\ sx0 s < (tx + 1) * tw /\ tx * tw < sx1 s) /\ (0 <= ty /\ sy0 s < (ty + 1) * th /\ ty * th < sy1 s).
Proof.
  destruct sizes as (W0 & H0 & tw0 & th0). unfold within, tile_rect. cbn [sx0 sx1 sy0 sy1]. intros [ X Y ].
  pose proof (Z.quot_pos (sx0 s) tw ltac:(lia) ltac:(lia)). pose proof (Z.quot_pos (sy0 s) th ltac:(lia) ltac:(lia)).
  apply quot_range in X; [ | lia | lia | lia ]. apply quot_range in Y; [ | lia | lia | lia ]. nia.
Qed.
Lemma local_nonempty tx ty : within tile_rect tx ty ->
  sx0 (local tx ty) < sx1 (local tx ty) /\ sy0 (local tx ty) < sy1 (local tx ty).
Proof.
  intros T. apply in_tile_rect in T. destruct sizes as (W0 & H0 & tw0 & th0).
  unfold local, intersect. cbn [sx0 sx1 sy0 sy1]. lia.
Qed.
Lemma tile_rect_tiles tx ty : within tile_rect tx ty -> 0 <= tx < wt /\ 0 <= ty < ht.
Proof.
  intros T. apply in_tile_rect in T. destruct sizes as (W0 & H0 & tw0 & th0).
  unfold wt, ht, width_in_tiles, height_in_tiles. fold W H tw th.
  split; apply in_tiles; lia.
Qed.

Lemma begin_good t tx ty : good_tile t tx ty -> within tile_rect tx ty ->
  tile_begin V t s = mkBIter (local tx ty) (sx0 (local tx ty)) (sy0 (local tx ty)).
Proof.
  intros (G1 & G2 & G3 & G4 & _) T. unfold tile_begin, buffer_begin. rewrite G1, G2, G3, G4. fold (local tx ty).
  unfold empty1. destruct (local_nonempty tx ty T) as [ A _ ]. rewrite (proj2 (Z.leb_gt _ _) A). reflexivity.
Qed.

Lemma cells_cons tx ty : within tile_rect tx ty ->
  map (shifted tx ty) (rect (local tx ty)) ++ flat_map cells (tl (rest tile_rect tx ty)) = flat_map cells (rest tile_rect tx ty).
Proof. unfold within. intros T. rewrite (rest_step tile_rect tx ty) by lia. reflexivity. Qed.

Definition with_value (p : Z * Z) : Z * Z * V := (p, img (fst p) (snd p)).

Lemma tiles_walk_ok fresh : forall n a i, valid a ->
  ti_support V i = s -> ti_x0 V i = sx0 tile_rect -> ti_xend V i = sx1 tile_rect -> ti_yend V i = sy1 tile_rect ->
  let tx := ti_x V i in let ty := ti_y V i in
  within tile_rect tx ty -> good_tile (ti_tile V i) tx ty ->
  bi_support (ti_pos V i) = local tx ty -> within (local tx ty) (bi_x (ti_pos V i)) (bi_y (ti_pos V i)) ->
  let l := map (shifted tx ty) (rest (local tx ty) (bi_x (ti_pos V i)) (bi_y (ti_pos V i)))
           ++ flat_map cells (tl (rest tile_rect tx ty)) in
  (length l <= n)%nat ->
  exists b, tiles_walk V fresh a n i = Some (map with_value l, b) /\ valid b.
Proof.
  induction n as [ | n IH ]; intros a i Va Es Ex Exe Eye tx ty T G Eb B l L.
  { unfold l in L. unfold within in B. rewrite rest_step in L by lia. cbn in L. lia. }
  assert (T2 := T). unfold within in T2. assert (B2 := B). unfold within in B2.
  cbn [tiles_walk]. unfold tiles_inside. fold ty. rewrite Eye.
  rewrite (proj2 (Z.ltb_lt ty (sy1 tile_rect))) by lia.
  unfold tiles_value, value, tiles_x, tiles_y, tiles_next.
  destruct G as (G1 & G2 & G3 & G4 & G5). rewrite G1, G2, G3, G4.
  set (x := bi_x (ti_pos V i)) in *. set (y := bi_y (ti_pos V i)) in *.
  assert (In1 : 0 <= x < Z.min tw (W - tx * tw) /\ 0 <= y < Z.min th (H - ty * th)).
  { unfold local, intersect in B2. cbn [sx0 sx1 sy0 sy1] in B2. lia. }
  replace (_ && _ && _ && _) with true by (symmetry; rewrite !andb_true_iff, !Z.leb_le, !Z.ltb_lt; lia).
  assert (Ev : b_data V (t_pixels V (ti_tile V i)) (y * Z.min tw (W - tx * tw) + x) = img (x + tx * tw) (y + ty * th)).
  { rewrite <- G3. apply G5; [ rewrite G3 | rewrite G4 ]; lia. }
  rewrite Ev. clear Ev.
  assert (G : good_tile (ti_tile V i) tx ty) by (repeat split; assumption).
  unfold l in L |- *. rewrite (rest_step (local tx ty)) in L |- * by lia.
  cbn [map app length] in L |- *. unfold buffer_next, buffer_inside. rewrite Eb. fold x y.
  assert (Sh : with_value (shifted tx ty (x, y)) = (x + tx * tw, y + ty * th, img (x + tx * tw) (y + ty * th))) by reflexivity.
  rewrite Sh. clear Sh.
  destruct (Z.leb_spec (sx1 (local tx ty)) (x + 1)) as [ M | M ]; cbn [bi_support bi_y].
  - destruct (Z.ltb_spec (y + 1) (sy1 (local tx ty))) as [ K | K ].
    + (* next row of the tile *)
      set (j := mkTIter V _ _ _ _ _ _ _ _).
      destruct (IH a j Va) as (b & E & Vb); unfold j; cbn [ti_support ti_x0 ti_xend ti_yend ti_x ti_y ti_tile ti_pos bi_support bi_x bi_y]; auto.
      * unfold within. fold tx ty. pose proof (local_nonempty tx ty T). lia.
      * fold tx ty. lia.
      * fold tx ty in E. unfold j in E. rewrite E. exists b. split; [ reflexivity | exact Vb ].
    + (* next tile *)
      unfold next_tile. cbn [ti_support ti_x0 ti_xend ti_yend ti_x ti_y ti_tile ti_pos]. fold tx ty. rewrite Es, Ex, Exe, Eye.
      rewrite (rest_step tile_rect) in L |- * by lia. cbn [map app length tl] in L |- *.
      destruct (Z.leb_spec (sx1 tile_rect) (tx + 1)) as [ M2 | M2 ].
      * destruct (Z.ltb_spec (ty + 1) (sy1 tile_rect)) as [ K2 | K2 ].
        -- assert (T3 : within tile_rect (sx0 tile_rect) (ty + 1)) by (unfold within; lia).
           destruct (tile_rect_tiles _ _ T3) as [ R1 R2 ].
           destruct (get_tile_ok fresh a (sx0 tile_rect) (ty + 1) Va R1 R2) as (t & b & Eg & Gt & Vb). rewrite Eg.
           destruct (local_nonempty _ _ T3) as [ N1 N2 ].
           set (j := mkTIter V _ _ _ _ _ _ _ _). 
           assert (Lj : map (shifted (ti_x V j) (ti_y V j)) (rest (local (ti_x V j) (ti_y V j)) (bi_x (ti_pos V j)) (bi_y (ti_pos V j)))
                   ++ flat_map cells (tl (rest tile_rect (ti_x V j) (ti_y V j)))
                   = flat_map cells (rest tile_rect (sx0 tile_rect) (ty + 1))).
           { unfold j. cbn [ti_x ti_y ti_pos]. rewrite (begin_good t _ _ Gt T3). cbn [bi_x bi_y].
             rewrite <- rect_rest by assumption. apply cells_cons, T3. }
           destruct (IH b j Vb) as (c & E & Vc); unfold j; cbn [ti_support ti_x0 ti_xend ti_yend ti_x ti_y ti_tile ti_pos bi_support bi_x bi_y]; auto.
           ++ rewrite (begin_good t _ _ Gt T3). reflexivity.
           ++ rewrite (begin_good t _ _ Gt T3). unfold within. cbn [bi_x bi_y]. lia.
           ++ fold j. unfold j in Lj. cbn [ti_x ti_y ti_pos] in Lj. rewrite Lj. lia.
           ++ unfold j in Lj. cbn [ti_x ti_y ti_pos] in Lj. unfold j in E. cbn [ti_x ti_y ti_pos] in E. rewrite Lj in E. rewrite E.
              exists c. split; [ reflexivity | exact Vc ].
        -- set (j := mkTIter V _ _ _ _ _ _ _ _). exists a. split; [ | exact Va ].
           replace (tiles_walk V fresh a n j) with (Some (@nil (Z * Z * V), a)); [ reflexivity | ].
           destruct n; cbn [tiles_walk]; unfold tiles_inside, j; cbn [ti_y ti_yend]; rewrite (proj2 (Z.ltb_ge _ _) K2); reflexivity.
      * assert (T3 : within tile_rect (tx + 1) ty) by (unfold within; lia).
        destruct (Z.ltb_spec ty (sy1 tile_rect)) as [ K2 | K2 ]; [ | lia ].
        destruct (tile_rect_tiles _ _ T3) as [ R1 R2 ].
        destruct (get_tile_ok fresh a (tx + 1) ty Va R1 R2) as (t & b & Eg & Gt & Vb). rewrite Eg.
        destruct (local_nonempty _ _ T3) as [ N1 N2 ].
        set (j := mkTIter V _ _ _ _ _ _ _ _). 
        assert (Lj : map (shifted (ti_x V j) (ti_y V j)) (rest (local (ti_x V j) (ti_y V j)) (bi_x (ti_pos V j)) (bi_y (ti_pos V j)))
                ++ flat_map cells (tl (rest tile_rect (ti_x V j) (ti_y V j)))
                = flat_map cells (rest tile_rect (tx + 1) ty)).
        { unfold j. cbn [ti_x ti_y ti_pos]. rewrite (begin_good t _ _ Gt T3). cbn [bi_x bi_y].
          rewrite <- rect_rest by assumption. apply cells_cons, T3. }
        destruct (IH b j Vb) as (c & E & Vc); unfold j; cbn [ti_support ti_x0 ti_xend ti_yend ti_x ti_y ti_tile ti_pos bi_support bi_x bi_y]; auto.
        -- rewrite (begin_good t _ _ Gt T3). reflexivity.
        -- rewrite (begin_good t _ _ Gt T3). unfold within. cbn [bi_x bi_y]. lia.
        -- fold j. unfold j in Lj. cbn [ti_x ti_y ti_pos] in Lj. rewrite Lj. lia.
        -- unfold j in Lj. cbn [ti_x ti_y ti_pos] in Lj. unfold j in E. cbn [ti_x ti_y ti_pos] in E. rewrite Lj in E. rewrite E.
           exists c. split; [ reflexivity | exact Vc ].
  - rewrite (proj2 (Z.ltb_lt y _)) by lia.
    set (j := mkTIter V _ _ _ _ _ _ _ _).
    destruct (IH a j Va) as (b & E & Vb); unfold j; cbn [ti_support ti_x0 ti_xend ti_yend ti_x ti_y ti_tile ti_pos bi_support bi_x bi_y]; auto.
    + unfold within. fold tx ty. lia.
    + fold tx ty. lia.
    + fold tx ty in E. unfold j in E. rewrite E. exists b. split; [ reflexivity | exact Vb ].
Qed.

Lemma in_cells tx ty x y : within tile_rect tx ty -> (In (x, y) (cells (tx, ty)) <-> within s x y /\ x / tw = tx /\ y / th = ty).
Proof.
  intros T. apply in_tile_rect in T. destruct sizes as (W0 & H0 & tw0 & th0). unfold cells. cbn [fst snd]. rewrite in_map_iff.
  assert (D : forall a t q, 0 < t -> (a / t = q <-> q * t <= a < (q + 1) * t)).
  { intros a t q Ht. pose proof (Z.div_mod a t ltac:(lia)). pose proof (Z.mod_pos_bound a t ltac:(lia)). split; intros; nia. }
  rewrite (D x), (D y) by lia. split.
  - intros ([ a b ] & E & I). unfold shifted in E. cbn [fst snd] in E. injection E as <- <-. apply in_rect in I.
    unfold within, local, intersect in I |- *. cbn [sx0 sx1 sy0 sy1] in I. lia.
  - intros I. exists (x - tx * tw, y - ty * th). split; [ unfold shifted; cbn [fst snd]; f_equal; lia | ].
    apply in_rect. unfold within, local, intersect in I |- *. cbn [sx0 sx1 sy0 sy1]. lia.
Qed.
Lemma all_cells : NoDup (flat_map cells (rect tile_rect)) /\ forall x y, In (x, y) (flat_map cells (rect tile_rect)) <-> within s x y.
Proof.
  split.
  - apply NoDup_flat_map; [ apply NoDup_rect | | ].
    + intros [ tx ty ] _. unfold cells. cbn [fst snd].
      apply Injective_map_NoDup; [ | apply NoDup_rect ]. intros [ a b ] [ c d ]. unfold shifted. cbn [fst snd]. intros [= A B].
      f_equal; lia.
    + intros [ a b ] [ c d ] [ x y ] I J A B. apply in_rect in I, J. apply in_cells in A; [ | exact I ]. apply in_cells in B; [ | exact J ].
      f_equal; lia.
  - intros x y. rewrite in_flat_map. split.
    + intros ([ tx ty ] & I & A). apply in_rect in I. apply in_cells in A; [ tauto | exact I ].
    + intros I. destruct sizes as (W0 & H0 & tw0 & th0).
      assert (T : within tile_rect (x / tw) (y / th)).
      { unfold within in I |- *. unfold tile_rect. cbn [sx0 sx1 sy0 sy1].
        pose proof (Z.div_mod x tw ltac:(lia)). pose proof (Z.mod_pos_bound x tw ltac:(lia)).
        pose proof (Z.div_mod y th ltac:(lia)). pose proof (Z.mod_pos_bound y th ltac:(lia)).
        split; apply quot_range; nia. }
      exists (x / tw, y / th). split; [ apply in_rect; exact T | apply in_cells; [ exact T | auto ] ].
Qed.
End Walk.

Lemma each_once_none (D : Z -> Z -> Prop) : (forall x y, ~ D x y) -> each_once (@nil (Z * Z * V)) D img.
Proof. intros N. split; [ constructor | ]. intros x y v. split; [ intros [] | intros [ A _ ]; destruct (N _ _ A) ]. Qed.

Lemma tiles_visit_ok fresh a s : valid a -> exists l b, tiles_visit V fresh a s = Some (l, b) /\ valid b /\
  each_once l (fun x y => within s x y /\ 0 <= x < W /\ 0 <= y < H) img.
Proof.
  intros Va. destruct sizes as (W0 & H0 & tw0 & th0). destruct tiles_pos as [ wt0 ht0 ].
  unfold tiles_visit, tiles_begin. rewrite (proj1 Va). fold W H tw th.
  set (t := intersect s (mkSupport 0 W 0 H)).
  assert (Tin : 0 <= sx0 t /\ sx1 t <= W /\ 0 <= sy0 t /\ sy1 t <= H) by (unfold t; cbn; lia).
  assert (Dt : forall x y, within t x y <-> within s x y /\ 0 <= x < W /\ 0 <= y < H).
  { intros x y. unfold t. rewrite within_intersect. unfold within. cbn. lia. }
  assert (Q : forall a b n, 0 <= a -> a < b -> 0 < n -> 0 <= Z.quot a n).
  { intros. apply Z.quot_pos; lia. }
  assert (Xt : 0 <= (if empty1 (sx0 t) (sx1 t) then 0 else Z.quot (sx0 t) tw) < wt).
  { unfold empty1. destruct (Z.leb_spec (sx1 t) (sx0 t)) as [ E | E ]; [ lia | ]. unfold wt, width_in_tiles. fold W tw.
    apply in_tiles; [ lia | lia | ]. rewrite Z.quot_div_nonneg by lia. split; [ apply Z.div_pos; lia | ].
    pose proof (Z.mul_div_le (sx0 t) tw ltac:(lia)). lia. }
  assert (Yt : 0 <= (if empty1 (sy0 t) (sy1 t) then 0 else Z.quot (sy0 t) th) < ht).
  { unfold empty1. destruct (Z.leb_spec (sy1 t) (sy0 t)) as [ E | E ]; [ lia | ]. unfold ht, height_in_tiles. fold H th.
    apply in_tiles; [ lia | lia | ]. rewrite Z.quot_div_nonneg by lia. split; [ apply Z.div_pos; lia | ].
    pose proof (Z.mul_div_le (sy0 t) th ltac:(lia)). lia. }
  destruct (get_tile_ok fresh a _ _ Va Xt Yt) as (u & b & Eg & Gu & Vb). rewrite Eg. unfold is_empty.
  unfold empty1 in *. destruct (Z.leb_spec (sx1 t) (sx0 t)) as [ E | E ]; [ | destruct (Z.leb_spec (sy1 t) (sy0 t)) as [ F | F ] ]; cbn [orb].
  1,2: exists [], b; split; [ destruct (Z.to_nat (W * H)); cbn [tiles_walk]; unfold tiles_inside; cbn [ti_y ti_yend]; rewrite Z.ltb_irrefl; reflexivity | ];
       split; [ exact Vb | ]; apply each_once_none; intros x y D; apply Dt in D; unfold within in D; lia.
  assert (SX : 0 <= sx0 t /\ sx0 t < sx1 t /\ sx1 t <= W) by lia.
  assert (SY : 0 <= sy0 t /\ sy0 t < sy1 t /\ sy1 t <= H) by lia.
  destruct (all_cells t SX SY) as [ N I ].
  assert (T3 : within (tile_rect t) (Z.quot (sx0 t) tw) (Z.quot (sy0 t) th)).
  { unfold within, tile_rect. cbn [sx0 sx1 sy0 sy1].
    rewrite !Z.quot_div_nonneg by lia. split.
    - pose proof (Z.div_le_mono (sx0 t) (sx1 t - 1) tw ltac:(lia) ltac:(lia)). lia.
    - pose proof (Z.div_le_mono (sy0 t) (sy1 t - 1) th ltac:(lia) ltac:(lia)). lia. }
  destruct (local_nonempty t SX SY _ _ T3) as [ N1 N2 ].
  set (i := mkTIter V _ _ _ _ _ _ _ _).
  assert (Lj : map (shifted (ti_x V i) (ti_y V i)) (rest (local t (ti_x V i) (ti_y V i)) (bi_x (ti_pos V i)) (bi_y (ti_pos V i)))
          ++ flat_map (cells t) (tl (rest (tile_rect t) (ti_x V i) (ti_y V i)))
          = flat_map (cells t) (rect (tile_rect t))).
  { unfold i. cbn [ti_x ti_y ti_pos]. rewrite (begin_good t SX SY u _ _ Gu T3). cbn [bi_x bi_y].
    rewrite <- rect_rest by assumption. rewrite cells_cons by exact T3. f_equal.
    unfold within in T3. symmetry. apply (rect_rest (tile_rect t)); lia. }
  destruct (tiles_walk_ok t SX SY fresh (Z.to_nat (W * H)) b i Vb) as (c & Ew & Vc); unfold i; cbn [ti_support ti_x0 ti_xend ti_yend ti_x ti_y ti_tile ti_pos]; auto.
  - rewrite (begin_good t SX SY u _ _ Gu T3). reflexivity.
  - rewrite (begin_good t SX SY u _ _ Gu T3). unfold within. cbn [bi_x bi_y]. lia.
  - unfold i in Lj. cbn [ti_x ti_y ti_pos] in Lj. rewrite Lj.
    assert (E0 : (length (flat_map (cells t) (rect (tile_rect t))) <= length (rect t))%nat).
    { apply NoDup_incl_length; [ exact N | ]. intros [ x y ] J. apply I in J. apply in_rect. exact J. }
    pose proof (rect_length_le t W H). lia.
  - unfold i in Lj. unfold i in Ew. cbn [ti_x ti_y ti_pos] in Lj, Ew. rewrite Lj in Ew.
    eexists _, _. split; [ exact Ew | ]. split; [ exact Vc | ].
    apply (each_once_map _ _ img N). intros x y. rewrite I. apply Dt.
Qed.

Lemma texel_ok fresh a x y : valid a -> 0 <= x < W -> 0 <= y < H ->
  exists b, texel V fresh a x y = Some (img x y, b) /\ valid b.
Proof.
  intros Va X Y. destruct sizes as (W0 & H0 & tw0 & th0). unfold texel. rewrite (proj1 Va). fold tw th.
  rewrite !Z.quot_div_nonneg by lia.
  pose proof (Z.div_mod x tw ltac:(lia)) as Dx. pose proof (Z.mod_pos_bound x tw ltac:(lia)) as Mx.
  pose proof (Z.div_mod y th ltac:(lia)) as Dy. pose proof (Z.mod_pos_bound y th ltac:(lia)) as My.
  assert (Xt : 0 <= x / tw < wt).
  { unfold wt, width_in_tiles. fold W tw. apply in_tiles; try lia. split; [ apply Z.div_pos; lia | lia ]. }
  assert (Yt : 0 <= y / th < ht).
  { unfold ht, height_in_tiles. fold H th. apply in_tiles; try lia. split; [ apply Z.div_pos; lia | lia ]. }
  destruct (get_tile_ok fresh a _ _ Va Xt Yt) as (u & b & Eg & (G1 & G2 & G3 & G4 & G5) & Vb). rewrite Eg.
  unfold value. rewrite G1, G2, G3, G4.
  replace (_ && _ && _ && _) with true by (symmetry; rewrite !andb_true_iff, !Z.leb_le, !Z.ltb_lt; lia).
  exists b. split; [ | exact Vb ]. rewrite <- G3, G5 by (rewrite ?G3, ?G4; lia). repeat f_equal; lia.
Qed.

Lemma used_valid a : used f a -> valid a.
Proof.
  induction 1 as [ | a fresh s l b U IH E | a fresh x y v b U IH X Y E ].
  - apply valid_new.
  - destruct (tiles_visit_ok fresh a s IH) as (l2 & b2 & E2 & Vb & _). congruence.
  - destruct (texel_ok fresh a x y IH X Y) as (b2 & E2 & Vb). congruence.
Qed.
End Tiles.

(** * Division by the size of the texture *)
Lemma half_even_bound a b : 0 < b -> 2 * a - b <= 2 * (half_even a b * b) <= 2 * a + b.
Proof.
  intros B. unfold half_even. pose proof (Z.div_mod a b ltac:(lia)). pose proof (Z.mod_pos_bound a b ltac:(lia)).
  destruct (Z.ltb_spec (2 * (a mod b)) b); [ nia | ]. destruct (Z.ltb_spec b (2 * (a mod b))); [ nia | ].
  destruct (Z.even (a / b)); nia.
Qed.
Lemma half_even_exact q b : 0 < b -> half_even (q * b) b = q.
Proof.
  intros B. unfold half_even. rewrite Z.mod_mul, Z.div_mul by lia. rewrite (proj2 (Z.ltb_lt _ _)) by lia. reflexivity.
Qed.
Definition small := 2 ^ 24.
Lemma float_quotient_ok a b : 0 < a < small -> 0 < b <= small ->
  float_floor (float_quotient a b) = a / b /\ - float_ceil (float_quotient a b) = (- a) / b.
Proof.
  intros A B. unfold float_quotient.
  destruct (Z.log2_spec a ltac:(lia)) as [ A1 A2 ]. destruct (Z.log2_spec b ltac:(lia)) as [ B1 B2 ].
  pose proof (Z.log2_nonneg a) as La. pose proof (Z.log2_nonneg b) as Lb.
  assert (La2 : Z.log2 a < 24) by (apply Z.log2_lt_pow2; [ lia | unfold small in A; lia ]).
  set (e0 := Z.log2 a - Z.log2 b - 24). assert (E0 : e0 < 0) by (unfold e0; lia).
  replace (0 <=? e0) with false by (symmetry; apply Z.leb_gt; exact E0).
  set (e := if b * 2 ^ 24 <=? a * 2 ^ (- e0) then e0 + 1 else e0).
  assert (Ee : e <= 0 /\ b * 2 ^ 23 <= a * 2 ^ (- e)).
  { unfold e. destruct (Z.leb_spec (b * 2 ^ 24) (a * 2 ^ (- e0))) as [ C | C ].
    - split; [ lia | ]. replace (- e0) with (Z.succ (- (e0 + 1))) in C by lia. rewrite Z.pow_succ_r in C by lia. nia.
    - split; [ lia | ].
      assert (P : 2 ^ Z.log2 a * 2 ^ (- e0) = 2 ^ Z.succ (Z.log2 b) * 2 ^ 23).
      { rewrite <- !Z.pow_add_r by lia. f_equal. unfold e0. lia. }
      assert (0 < 2 ^ (- e0)) by (apply Z.pow_pos_nonneg; lia).
      assert (2 ^ Z.log2 a * 2 ^ (- e0) <= a * 2 ^ (- e0)) by (apply Z.mul_le_mono_nonneg_r; lia).
      assert (b * 2 ^ 23 <= 2 ^ Z.succ (Z.log2 b) * 2 ^ 23) by (apply Z.mul_le_mono_nonneg_r; lia). lia. }
  destruct Ee as [ Ee Es ]. clearbody e. clear e0 E0 A1 A2 B1 B2 La Lb La2.
  unfold scale_down, float_floor, float_ceil.
  destruct (Z.leb_spec 0 e) as [ C | C ].
  - assert (e = 0) as -> by lia. cbn [Z.opp Z.pow] in *. change (2 ^ 0) with 1 in *.
    assert (b = 1) as -> by (unfold small in *; lia).
    pose proof (half_even_exact a 1 ltac:(lia)) as X. rewrite Z.mul_1_r in X.
    change (1 * 1) with 1. rewrite X, !Z.mul_1_r, !Z.div_1_r. split; reflexivity.
  - set (s := 2 ^ (- e)) in *. assert (s0 : 0 < s) by (apply Z.pow_pos_nonneg; lia).
    assert (S2 : b < 2 * s) by (unfold small in *; nia).
    set (m := half_even (a * s) b). pose proof (half_even_bound (a * s) b ltac:(lia)) as M. fold m in M.
    pose proof (Z.div_mod a b ltac:(lia)) as D. pose proof (Z.mod_pos_bound a b ltac:(lia)) as R.
    set (q := a / b) in *. set (r := a mod b) in *.
    destruct (Z.eq_dec r 0) as [ Z0 | Z0 ].
    + assert (m = q * s) as ->.
      { unfold m. replace (a * s) with (q * s * b) by (rewrite D, Z0; ring). apply half_even_exact. lia. }
      rewrite Z.div_mul by lia. split; [ reflexivity | ].
      replace (- (q * s)) with (- q * s) by ring. rewrite Z.div_mul by lia.
      replace (- a) with (- q * b) by (rewrite D, Z0; ring). rewrite Z.div_mul by lia. lia.
    + assert (K : 0 < m - q * s < s).
      { assert (2 * (a * s) = 2 * (q * s) * b + 2 * (r * s)) by (rewrite D; ring).
        assert (s <= r * s <= (b - 1) * s) by nia. nia. }
      split.
      * symmetry. apply (Z.div_unique m s q (m - q * s)); lia.
      * rewrite Z.opp_involutive.
        rewrite <- (Z.div_unique (- m) s (- q - 1) (s - (m - q * s))) by lia.
        apply (Z.div_unique (- a) b (- q - 1) (b - r)); lia.
Qed.
Lemma float_of_exact a : 0 < a <= small -> float_of a = a.
Proof.
  intros A. unfold float_of. rewrite (proj2 (Z.ltb_lt 0 a)) by lia.
  destruct (Z.eq_dec a small) as [ -> | N ]; [ vm_compute; reflexivity | ].
  rewrite (proj1 (float_quotient_ok a 1 ltac:(unfold small in *; lia) ltac:(unfold small; lia))). apply Z.div_1_r.
Qed.
Lemma float_div_exact a b : - small < a < small -> 0 < b <= small -> float_div a b = a / b.
Proof.
  intros A B. unfold float_div. destruct (Z.ltb_spec 0 a) as [ P | P ]; [ | destruct (Z.ltb_spec a 0) as [ N | N ] ].
  - rewrite !float_of_exact by lia. apply float_quotient_ok; lia.
  - rewrite !float_of_exact by lia. rewrite (proj2 (float_quotient_ok (- a) b ltac:(lia) ltac:(lia))). f_equal. lia.
  - assert (a = 0) as -> by lia. reflexivity.
Qed.

(** * Wrapping *)
Lemma in_count by_ b : 0 < by_ -> forall n a, b - a <= Z.of_nat n -> forall v,
  In v (count n a b by_) <-> v < b /\ exists k, 0 <= k /\ v = a + k * by_.
Proof.
  intros B. induction n as [ | n IH ]; intros a N v; cbn [count].
  - split; [ intros [] | ]. intros (L & k & K & ->). nia.
  - destruct (Z.ltb_spec a b) as [ C | C ].
    + cbn [In]. rewrite IH by lia. split.
      * intros [ <- | (L & k & K & ->) ]; [ split; [ exact C | exists 0; lia ] | ].
        split; [ exact L | ]. exists (k + 1). lia.
      * intros (L & k & K & ->). destruct (Z.eq_dec k 0) as [ -> | N0 ]; [ left; lia | right ].
        split; [ exact L | ]. exists (k - 1). lia.
    + split; [ intros [] | ]. intros (L & k & K & ->). nia.
Qed.
Lemma in_steps a b by_ v : 0 < by_ -> (In v (steps a b by_) <-> v < b /\ exists k, 0 <= k /\ v = a + k * by_).
Proof. intros B. apply in_count; lia. Qed.
Lemma in_steps1 a b v : In v (steps a b 1) <-> a <= v < b.
Proof.
  rewrite in_steps by lia. split; [ intros (L & k & K & ->); lia | intros L; split; [ lia | exists (v - a); lia ] ].
Qed.
Lemma NoDup_steps a b by_ : 0 < by_ -> NoDup (steps a b by_).
Proof.
  intros B. unfold steps.
  assert (L : forall n c v, In v (count n c b by_) -> c <= v).
  { induction n as [ | n IH ]; cbn [count]; intros c v I; [ destruct I | ].
    destruct (c <? b); [ | destruct I ]. destruct I as [ <- | I ]; [ lia | ]. apply IH in I. lia. }
  generalize (Z.to_nat (b - a)). intros n. revert a. induction n as [ | n IH ]; intros a; cbn [count]; [ constructor | ].
  destruct (a <? b); constructor; [ | apply IH ]. intros I. apply L in I. lia.
Qed.

Section Wrap.
Context {V : Type}.

Lemma each_once_ext (l : list (Z * Z * V)) (D E : Z -> Z -> Prop) (img : Z -> Z -> V) : (forall x y, D x y <-> E x y) -> each_once l D img -> each_once l E img.
Proof. intros H [ N I ]. split; [ exact N | ]. intros x y v. rewrite I, H. reflexivity. Qed.
Lemma each_once_img (l : list (Z * Z * V)) (D : Z -> Z -> Prop) (img im2 : Z -> Z -> V) : (forall x y, D x y -> img x y = im2 x y) -> each_once l D img -> each_once l D im2.
Proof.
  intros H [ N I ]. split; [ exact N | ]. intros x y v. rewrite I.
  split; intros [ A -> ]; (split; [ exact A | ]); [ apply H, A | symmetry; apply H, A ].
Qed.
Lemma each_once_app (l m : list (Z * Z * V)) (D E : Z -> Z -> Prop) (img : Z -> Z -> V) : (forall x y, D x y -> E x y -> False) ->
  each_once l D img -> each_once m E img -> each_once (l ++ m) (fun x y => D x y \/ E x y) img.
Proof.
  intros H [ N I ] [ M J ]. split.
  - rewrite map_app. apply NoDup_app_intro; [ exact N | exact M | ].
    intros [ x y ] A B. rewrite in_map_iff in A, B. destruct A as ([ [ a b ] u ] & EA & A), B as ([ [ c d ] w ] & EB & B).
    cbn [fst] in EA, EB. injection EA as -> ->. injection EB as -> ->. apply I in A. apply J in B.
    apply (H x y); tauto.
  - intros x y v. rewrite in_app_iff, I, J. tauto.
Qed.
Lemma each_once_grid (xs ys : list Z) (v : V) (D : Z -> Z -> Prop) (img : Z -> Z -> V) : NoDup xs -> NoDup ys ->
  (forall x y, D x y <-> In x xs /\ In y ys) -> (forall x y, D x y -> v = img x y) ->
  each_once (flat_map (fun x => map (fun y => (x, y, v)) ys) xs) D img.
Proof.
  intros X Y H E. split.
  - rewrite flat_map_concat_map, concat_map, map_map, <- flat_map_concat_map.
    apply NoDup_flat_map; [ exact X | | ].
    + intros x _. rewrite map_map. cbn [fst]. apply Injective_map_NoDup; [ | exact Y ]. intros a b [= ->]. reflexivity.
    + intros x x2 p _ _ A B. rewrite in_map_iff in A, B. destruct A as (q & EA & A), B as (r & EB & B).
      rewrite in_map_iff in A, B. destruct A as (a & <- & _), B as (b & <- & _). cbn [fst] in *. congruence.
  - intros x y w. rewrite in_flat_map. split.
    + intros (a & A & B). apply in_map_iff in B. destruct B as (b & [= <- <- <-] & B).
      assert (D a b) by (apply H; auto). split; [ assumption | apply E; assumption ].
    + intros [ A -> ]. pose proof (E _ _ A) as <-. apply H in A. exists x. split; [ tauto | ].
      apply in_map_iff. exists y. tauto.
Qed.
(** A column, or a row, seen several times over. *)
Lemma each_once_columns (l : list (Z * Z * V)) (c : Z) (P : Z -> Prop) (img : Z -> Z -> V) xs (D : Z -> Z -> Prop) (im2 : Z -> Z -> V) :
  each_once l (fun x y => x = c /\ P y) img -> NoDup xs -> (forall x y, D x y <-> In x xs /\ P y) ->
  (forall x y, D x y -> img c y = im2 x y) ->
  each_once (flat_map (fun '(_, y, v) => map (fun x => (x, y, v)) xs) l) D im2.
Proof.
  intros [ N I ] X H E. split.
  - rewrite flat_map_concat_map, concat_map, map_map, <- flat_map_concat_map.
    apply NoDup_flat_map; [ exact (NoDup_map_inv _ _ N) | | ].
    + intros [ [ x y ] v ] _. rewrite map_map. cbn [fst]. apply Injective_map_NoDup; [ | exact X ]. intros a b [= ->]. reflexivity.
    + intros [ [ a b ] u ] [ [ d e ] w ] p IA IB A B. rewrite in_map_iff in A, B.
      destruct A as (q & EA & A), B as (r & EB & B). rewrite in_map_iff in A, B.
      destruct A as (x & <- & _), B as (x2 & <- & _). cbn [fst] in *.
      apply I in IA, IB. destruct IA as [ [ -> _ ] -> ], IB as [ [ -> _ ] -> ]. congruence.
  - intros x y w. rewrite in_flat_map. split.
    + intros ([ [ a b ] u ] & A & B). apply in_map_iff in B. destruct B as (x2 & [= -> -> ->] & B).
      apply I in A. destruct A as [ [ -> A ] -> ]. assert (D x y) by (apply H; auto). split; [ assumption | apply E; assumption ].
    + intros [ A -> ]. pose proof (E _ _ A) as <-. apply H in A. exists (c, y, img c y). split.
      * apply I. tauto.
      * apply in_map_iff. exists x. tauto.
Qed.
Lemma each_once_rows (l : list (Z * Z * V)) (c : Z) (P : Z -> Prop) (img : Z -> Z -> V) ys (D : Z -> Z -> Prop) (im2 : Z -> Z -> V) :
  each_once l (fun x y => P x /\ y = c) img -> NoDup ys -> (forall x y, D x y <-> P x /\ In y ys) ->
  (forall x y, D x y -> img x c = im2 x y) ->
  each_once (flat_map (fun '(x, _, v) => map (fun y => (x, y, v)) ys) l) D im2.
Proof.
  intros [ N I ] X H E. split.
  - rewrite flat_map_concat_map, concat_map, map_map, <- flat_map_concat_map.
    apply NoDup_flat_map; [ exact (NoDup_map_inv _ _ N) | | ].
    + intros [ [ x y ] v ] _. rewrite map_map. cbn [fst]. apply Injective_map_NoDup; [ | exact X ]. intros a b [= ->]. reflexivity.
    + intros [ [ a b ] u ] [ [ d e ] w ] p IA IB A B. rewrite in_map_iff in A, B.
      destruct A as (q & EA & A), B as (r & EB & B). rewrite in_map_iff in A, B.
      destruct A as (x & <- & _), B as (x2 & <- & _). cbn [fst] in *.
      apply I in IA, IB. destruct IA as [ [ _ -> ] -> ], IB as [ [ _ -> ] -> ]. congruence.
  - intros x y w. rewrite in_flat_map. split.
    + intros ([ [ a b ] u ] & A & B). apply in_map_iff in B. destruct B as (x2 & [= -> -> ->] & B).
      apply I in A. destruct A as [ [ A -> ] -> ]. assert (D x y) by (apply H; auto). split; [ assumption | apply E; assumption ].
    + intros [ A -> ]. pose proof (E _ _ A) as <-. apply H in A. exists (x, c, img x c). split.
      * apply I. tauto.
      * apply in_map_iff. exists y. tauto.
Qed.
Lemma each_once_shift (l : list (Z * Z * V)) dx dy (D E : Z -> Z -> Prop) (img im2 : Z -> Z -> V) : each_once l D img ->
  (forall x y, E x y <-> D (x - dx) (y - dy)) -> (forall x y, E x y -> img (x - dx) (y - dy) = im2 x y) ->
  each_once (map (fun '(x, y, v) => (x + dx, y + dy, v)) l) E im2.
Proof.
  intros [ N I ] H G. split.
  - rewrite map_map. rewrite (map_ext _ (fun p : Z * Z * V => (fst (fst p) + dx, snd (fst p) + dy))) by (intros [ [ a b ] c ]; reflexivity).
    rewrite <- (map_map fst (fun p => (fst p + dx, snd p + dy))). apply Injective_map_NoDup; [ | exact N ].
    intros [ a b ] [ c d ]. cbn [fst snd]. intros [= A B]. f_equal; lia.
  - intros x y v. rewrite in_map_iff. split.
    + intros ([ [ a b ] u ] & [= <- <- <-] & A). apply I in A. destruct A as [ A -> ].
      assert (F : E (a + dx) (b + dy)) by (apply H; replace (a + dx - dx) with a by lia; replace (b + dy - dy) with b by lia; exact A).
      split; [ exact F | ]. rewrite <- (G _ _ F). f_equal; lia.
    + intros [ A -> ]. exists (x - dx, y - dy, im2 x y). split; [ repeat f_equal; lia | ]. apply I.
      split; [ apply H, A | symmetry; apply G, A ].
Qed.

Variable St : Type.
Variable visit : St -> support -> option (list (Z * Z * V) * St).
Variables width height : Z.
Variable black : V.
Variable img : Z -> Z -> V.
Variable Inv : St -> Prop.
Hypothesis W0 : 0 < width <= small.
Hypothesis H0 : 0 < height <= small.
Hypothesis visit_ok : forall a s, Inv a -> exists l b, visit a s = Some (l, b) /\ Inv b /\
  each_once l (fun x y => within s x y /\ 0 <= x < width /\ 0 <= y < height) img.

Definition no_trunc (w : wrap) : bool := match w with Trunc => false | _ => true end.
Definition cell (s : support) (i j x y : Z) : Prop := within s x y /\ x / width = i /\ y / height = j.
Lemma div_cell a n q : 0 < n -> (a / n = q <-> q * n <= a < q * n + n).
Proof.
  intros N. pose proof (Z.div_mod a n ltac:(lia)). pose proof (Z.mod_pos_bound a n ltac:(lia)). split; intros; nia.
Qed.
Lemma clamp_cell n q : 0 < n -> q <> 0 -> clamp (q * n) 0 (n - 1) = if q <? 0 then 0 else n - 1.
Proof.
  intros N Q. unfold clamp. destruct (Z.ltb_spec q 0); destruct (Z.ltb_spec (q * n) 0); destruct (Z.ltb_spec (n - 1) (q * n)); nia.
Qed.
(** Where a coordinate in copy [q] of the texture is read. *)
Lemma wrapped_in m n c q : 0 < n -> c / n = q -> wrapped m n c =
  if q =? 0 then Some c else match m with Black | Trunc => None | Periodic => Some (c - q * n) | Clamp => Some (if q <? 0 then 0 else n - 1) end.
Proof.
  intros N D. assert (D2 := D). apply div_cell in D2; [ | exact N ]. unfold wrapped.
  destruct (Z.eqb_spec q 0) as [ -> | Q ].
  - replace (_ && _) with true by (symmetry; rewrite andb_true_iff, Z.leb_le, Z.ltb_lt; lia). reflexivity.
  - replace (_ && _) with false by (symmetry; rewrite andb_false_iff, Z.leb_gt, Z.ltb_ge; nia).
    destruct m; try reflexivity.
    + f_equal. rewrite Z.mod_eq by lia. rewrite D. ring.
    + f_equal. destruct (Z.ltb_spec c 0), (Z.ltb_spec q 0); nia.
Qed.

Lemma filter_wrapped_ok a s ws wt i j : Inv a -> no_trunc ws = true -> no_trunc wt = true -> (i <> 0 \/ j <> 0) ->
  exists l b, filter_wrapped V St visit width height black a s ws wt (i * width) (j * height) = Some (l, b) /\ Inv b /\
  each_once l (fun x y => cell s i j x y /\ ~ (mixed ws wt = true /\ i <> 0 /\ j <> 0))
    (wrapped_texel black img ws wt width height).
Proof.
  intros Ia Ts Tt NZ. unfold filter_wrapped.
  assert (Ei : (i * width =? 0) = (i =? 0)) by (destruct (Z.eqb_spec i 0), (Z.eqb_spec (i * width) 0); nia).
  assert (Ej : (j * height =? 0) = (j =? 0)) by (destruct (Z.eqb_spec j 0), (Z.eqb_spec (j * height) 0); nia).
  rewrite Ei, Ej.
  assert (Q : negb (negb (i =? 0)) && negb (negb (j =? 0)) = false).
  { rewrite !negb_involutive. destruct (Z.eqb_spec i 0), (Z.eqb_spec j 0); try reflexivity. lia. }
  rewrite Q. clear Q.
  set (t := intersect s _).
  assert (Ht : forall x y, cell s i j x y <-> within t x y).
  { intros x y. unfold cell, t. rewrite within_intersect, (div_cell x), (div_cell y) by lia. unfold within. cbn [sx0 sx1 sy0 sy1]. tauto. }
  assert (Bt : i * width <= sx0 t /\ sx1 t <= i * width + width /\ j * height <= sy0 t /\ sy1 t <= j * height + height)
    by (unfold t, intersect; cbn [sx0 sx1 sy0 sy1]; lia).
  assert (Ew : forall x y, cell s i j x y -> wrapped_texel black img ws wt width height x y =
    match (if i =? 0 then Some x else match ws with Black | Trunc => None | Periodic => Some (x - i * width) | Clamp => Some (if i <? 0 then 0 else width - 1) end),
          (if j =? 0 then Some y else match wt with Black | Trunc => None | Periodic => Some (y - j * height) | Clamp => Some (if j <? 0 then 0 else height - 1) end) with
    | Some u, Some v => img u v | _, _ => black end).
  { intros x y (_ & X & Y). unfold wrapped_texel. rewrite (wrapped_in ws width x i), (wrapped_in wt height y j) by lia. reflexivity. }
  (* black *)
  assert (Cb : (is_black ws && negb (i =? 0)) || (is_black wt && negb (j =? 0)) = true ->
    each_once (flat_map (fun x => map (fun y => (x, y, black)) (steps (sy0 t) (sy1 t) 1)) (steps (sx0 t) (sx1 t) 1))
      (fun x y => cell s i j x y /\ ~ (mixed ws wt = true /\ i <> 0 /\ j <> 0)) (wrapped_texel black img ws wt width height)).
  { intros C. assert (M : mixed ws wt = false) by (destruct ws, wt; cbn in C |- *; congruence).
    apply each_once_grid; [ apply NoDup_steps; lia | apply NoDup_steps; lia | | ].
    - intros x y. rewrite !in_steps1, Ht, M. unfold within. intuition congruence.
    - intros x y [ K _ ]. rewrite (Ew _ _ K). destruct ws, wt, (i =? 0), (j =? 0); cbn in C; try discriminate; reflexivity. }
  destruct ((is_black ws && negb (i =? 0)) || (is_black wt && negb (j =? 0))) eqn:C.
  { eexists _, _. split; [ reflexivity | ]. split; [ exact Ia | auto ]. }
  clear Cb.
  destruct (is_clamp ws && negb (i =? 0)) eqn:Cs.
  - rewrite andb_true_iff, negb_true_iff in Cs. destruct Cs as [ Cs Ni ]. apply Z.eqb_neq in Ni.
    destruct ws; try discriminate. clear Cs.
    rewrite (clamp_cell width i) by lia. set (cx := if i <? 0 then 0 else width - 1).
    assert (CX : 0 <= cx < width) by (unfold cx; destruct (i <? 0); lia).
    replace (i =? 0) with false in Ew by (symmetry; apply Z.eqb_neq; exact Ni).
    destruct (is_clamp wt && negb (j =? 0)) eqn:Ct.
    + rewrite andb_true_iff, negb_true_iff in Ct. destruct Ct as [ Ct Nj ]. apply Z.eqb_neq in Nj.
      destruct wt; try discriminate. clear Ct.
      rewrite (clamp_cell height j) by lia. set (cy := if j <? 0 then 0 else height - 1).
      assert (CY : 0 <= cy < height) by (unfold cy; destruct (j <? 0); lia).
      replace (j =? 0) with false in Ew by (symmetry; apply Z.eqb_neq; exact Nj).
      destruct (visit_ok a (mkSupport cx (cx + 1) cy (cy + 1)) Ia) as (l & b & -> & Ib & N & L).
      destruct l as [ | [ [ x0 y0 ] v ] l ].
      { exfalso. apply (proj2 (L cx cy (img cx cy))). split; [ | reflexivity ]. unfold within. cbn [sx0 sx1 sy0 sy1]. lia. }
      assert (v = img cx cy) as ->.
      { destruct (proj1 (L x0 y0 v) (or_introl eq_refl)) as [ [ K _ ] -> ]. unfold within in K. cbn [sx0 sx1 sy0 sy1] in K. f_equal; lia. }
      eexists _, _. split; [ reflexivity | ]. split; [ exact Ib | ].
      apply each_once_grid; [ apply NoDup_steps; lia | apply NoDup_steps; lia | | ].
      * intros x y. rewrite !in_steps1, Ht. unfold within. cbn [mixed]. intuition congruence.
      * intros x y [ K _ ]. rewrite (Ew _ _ K). reflexivity.
    + destruct (visit_ok a (mkSupport cx (cx + 1) (sy0 t) (sy1 t)) Ia) as (l & b & -> & Ib & L).
      eexists _, _. split; [ reflexivity | ]. split; [ exact Ib | ].
      eapply (each_once_columns l cx (fun y => sy0 t <= y < sy1 t /\ 0 <= y < height) img).
      * eapply each_once_ext; [ | exact L ]. intros x y. unfold within. cbn [sx0 sx1 sy0 sy1]. lia.
      * apply NoDup_steps; lia.
      * intros x y. rewrite in_steps1, Ht. unfold within. destruct wt; cbn [no_trunc is_black is_clamp mixed andb orb negb] in *; try discriminate.
        -- assert (j = 0) as -> by (destruct (Z.eqb_spec j 0); [ assumption | discriminate ]). rewrite Z.mul_0_l in Bt.
           split; [ intros [ K _ ]; lia | intros K; split; [ lia | intros [ F _ ]; discriminate ] ].
        -- destruct (Z.eq_dec j 0) as [ -> | Nj ].
           ++ rewrite Z.mul_0_l in Bt. split; [ intros [ K _ ]; lia | intros K; split; [ lia | lia ] ].
           ++ split; [ intros [ K K2 ]; destruct K2; auto | ]. intros K. exfalso. nia.
        -- assert (j = 0) as -> by (destruct (Z.eqb_spec j 0); [ assumption | discriminate ]). rewrite Z.mul_0_l in Bt.
           split; [ intros [ K _ ]; lia | intros K; split; [ lia | intros [ F _ ]; discriminate ] ].
      * intros x y [ K K2 ]. rewrite (Ew _ _ K). destruct (Z.eqb_spec j 0) as [ -> | Nj ]; [ reflexivity | ].
        exfalso. destruct wt; cbn [no_trunc is_black is_clamp mixed andb orb negb] in *; try discriminate. apply K2; auto.
  - destruct (is_clamp wt && negb (j =? 0)) eqn:Ct.
    + rewrite andb_true_iff, negb_true_iff in Ct. destruct Ct as [ Ct Nj ]. apply Z.eqb_neq in Nj.
      destruct wt; try discriminate. clear Ct.
      rewrite (clamp_cell height j) by lia. set (cy := if j <? 0 then 0 else height - 1).
      assert (CY : 0 <= cy < height) by (unfold cy; destruct (j <? 0); lia).
      replace (j =? 0) with false in Ew by (symmetry; apply Z.eqb_neq; exact Nj).
      destruct (visit_ok a (mkSupport (sx0 t) (sx1 t) cy (cy + 1)) Ia) as (l & b & -> & Ib & L).
      eexists _, _. split; [ reflexivity | ]. split; [ exact Ib | ].
      eapply (each_once_rows l cy (fun x => sx0 t <= x < sx1 t /\ 0 <= x < width) img).
      * eapply each_once_ext; [ | exact L ]. intros x y. unfold within. cbn [sx0 sx1 sy0 sy1]. lia.
      * apply NoDup_steps; lia.
      * intros x y. rewrite in_steps1, Ht. unfold within. destruct ws; cbn [no_trunc is_black is_clamp mixed andb orb negb] in *; try discriminate.
        -- assert (i = 0) as -> by (destruct (Z.eqb_spec i 0); [ assumption | discriminate ]). rewrite Z.mul_0_l in Bt.
           split; [ intros [ K _ ]; lia | intros K; split; [ lia | intros [ F _ ]; discriminate ] ].
        -- destruct (Z.eq_dec i 0) as [ -> | Ni ].
           ++ rewrite Z.mul_0_l in Bt. split; [ intros [ K _ ]; lia | intros K; split; [ lia | lia ] ].
           ++ split; [ intros [ K K2 ]; destruct K2; auto | ]. intros K. exfalso. nia.
        -- assert (i = 0) as -> by (destruct (Z.eqb_spec i 0); [ assumption | discriminate ]). rewrite Z.mul_0_l in Bt.
           split; [ intros [ K _ ]; lia | intros K; split; [ lia | intros [ F _ ]; discriminate ] ].
      * intros x y [ K K2 ]. rewrite (Ew _ _ K). destruct (Z.eqb_spec i 0) as [ -> | Ni ]; [ reflexivity | ].
        exfalso. destruct ws; cbn [no_trunc is_black is_clamp mixed andb orb negb] in *; try discriminate. apply K2; auto.
    + destruct (visit_ok a (mkSupport (sx0 t - i * width) (sx1 t - i * width) (sy0 t - j * height) (sy1 t - j * height)) Ia) as (l & b & -> & Ib & L).
      eexists _, _. split; [ reflexivity | ]. split; [ exact Ib | ].
      assert (M : ~ (mixed ws wt = true /\ i <> 0 /\ j <> 0)).
      { intros (M & Ni & Nj). apply Z.eqb_neq in Ni, Nj. rewrite Ni, Nj in *. destruct ws, wt; discriminate. }
      eapply each_once_shift; [ exact L | | ].
      * intros x y. rewrite Ht. unfold within. cbn [sx0 sx1 sy0 sy1]. split; [ intros [ K _ ]; lia | intros K; split; [ lia | exact M ] ].
      * intros x y [ K _ ]. rewrite (Ew _ _ K).
        destruct (Z.eqb_spec i 0) as [ -> | Ni ]; destruct (Z.eqb_spec j 0) as [ -> | Nj ];
          destruct ws, wt; cbn [no_trunc is_black is_clamp mixed andb orb negb] in *; try discriminate; try lia; f_equal; lia.
Qed.

Lemma filter_copies_ok s ws wt : no_trunc ws = true -> no_trunc wt = true -> forall ij a, Inv a -> NoDup ij ->
  exists l b, filter_copies V St visit width height black a s ws wt (map (fun p => (fst p * width, snd p * height)) ij) = Some (l, b) /\ Inv b /\
  each_once l (fun x y => within s x y /\ In (x / width, y / height) ij /\ (x / width, y / height) <> (0, 0) /\
                 ~ (mixed ws wt = true /\ x / width <> 0 /\ y / height <> 0)) (wrapped_texel black img ws wt width height).
Proof.
  intros Ts Tt. induction ij as [ | [ i j ] ij IH ]; intros a Ia N.
  - exists [], a. split; [ reflexivity | ]. split; [ exact Ia | ]. split; [ constructor | ]. cbn. intros x y v. tauto.
  - inversion N as [ | ? ? N1 N2 ]; subst. cbn [map filter_copies fst snd].
    assert (Ei : (i * width =? 0) = (i =? 0)) by (destruct (Z.eqb_spec i 0), (Z.eqb_spec (i * width) 0); nia).
    assert (Ej : (j * height =? 0) = (j =? 0)) by (destruct (Z.eqb_spec j 0), (Z.eqb_spec (j * height) 0); nia).
    rewrite Ei, Ej.
    destruct ((i =? 0) && (j =? 0)) eqn:E.
    + rewrite andb_true_iff, !Z.eqb_eq in E. destruct E as [ -> -> ].
      destruct (IH a Ia N2) as (l & b & El & Ib & L). exists l, b. split; [ exact El | ]. split; [ exact Ib | ].
      eapply each_once_ext; [ | exact L ]. intros x y. cbn [In]. split; [ tauto | ]. intros (A & B & C & D).
      split; [ exact A | ]. split; [ destruct B as [ B | B ]; [ symmetry in B; contradiction | exact B ] | tauto ].
    + assert (NZ : i <> 0 \/ j <> 0) by (destruct (Z.eqb_spec i 0), (Z.eqb_spec j 0); try discriminate; auto).
      destruct (filter_wrapped_ok a s ws wt i j Ia Ts Tt NZ) as (l & b & El & Ib & L). rewrite El.
      destruct (IH b Ib N2) as (m & c & Em & Ic & M). rewrite Em.
      exists (l ++ m), c. split; [ reflexivity | ]. split; [ exact Ic | ].
      eapply each_once_ext; [ | eapply each_once_app; [ | exact L | exact M ] ].
      * intros x y. cbn [In]. unfold cell. split.
        -- intros [ ((A & X & Y) & K) | (A & B & K) ]; [ | tauto ]. rewrite X, Y. split; [ exact A | ]. split; [ auto | ].
           split; [ intros [= -> ->]; lia | exact K ].
        -- intros (A & [ B | B ] & C & K); [ left | right; tauto ]. injection B as X Y. rewrite X, Y in *. auto.
      * intros x y ((_ & X & Y) & _) (_ & B & _). rewrite X, Y in B. contradiction.
Qed.

Lemma filter_texture_ok a s ws wt : Inv a -> no_trunc ws = true -> no_trunc wt = true ->
  - small < sx0 s < small -> - small < sy0 s < small ->
  exists l b, filter_texture V St visit width height black a s ws wt = Some (l, b) /\ Inv b /\
  each_once l (fun x y => within s x y /\ ~ (mixed ws wt = true /\ outside width x /\ outside height y))
    (wrapped_texel black img ws wt width height).
Proof.
  intros Ia Ts Tt Sx Sy. unfold filter_texture.
  destruct (visit_ok a s Ia) as (l & b & -> & Ib & L).
  assert (Out : forall n c, 0 < n -> (outside n c <-> c / n <> 0)).
  { intros n c P. rewrite div_cell by exact P. unfold outside. lia. }
  assert (L2 : each_once l (fun x y => within s x y /\ 0 <= x < width /\ 0 <= y < height) (wrapped_texel black img ws wt width height)).
  { eapply each_once_img; [ | exact L ]. intros x y (_ & X & Y). unfold wrapped_texel, wrapped.
    replace ((0 <=? x) && (x <? width)) with true by (symmetry; rewrite andb_true_iff, Z.leb_le, Z.ltb_lt; lia).
    replace ((0 <=? y) && (y <? height)) with true by (symmetry; rewrite andb_true_iff, Z.leb_le, Z.ltb_lt; lia). reflexivity. }
  destruct (in_range s 0 width 0 height) eqn:R.
  - unfold in_range in R. rewrite !andb_true_iff, !Z.leb_le in R.
    exists l, b. split; [ reflexivity | ]. split; [ exact Ib | ].
    eapply each_once_ext; [ | exact L2 ]. intros x y. unfold outside, within. lia.
  - rewrite !float_div_exact by lia.
    set (is := map (fun k => k / width) (steps (sx0 s / width * width) (sx1 s) width)).
    set (js := map (fun k => k / height) (steps (sy0 s / height * height) (sy1 s) height)).
    set (ij := flat_map (fun i => map (pair i) js) is).
    assert (Back : forall n c e, 0 < n -> map (fun k => k * n) (map (fun k => k / n) (steps (c / n * n) e n)) = steps (c / n * n) e n).
    { intros n c e P. rewrite map_map. rewrite <- (map_id (steps _ _ _)) at 2. apply map_ext_in. intros v I.
      apply in_steps in I; [ | exact P ]. destruct I as (_ & k & _ & ->).
      replace (c / n * n + k * n) with ((c / n + k) * n) by ring. rewrite Z.div_mul by lia. reflexivity. }
    replace (flat_map _ _) with (map (fun p => (fst p * width, snd p * height)) ij).
    2: { rewrite <- (Back width (sx0 s) (sx1 s)), <- (Back height (sy0 s) (sy1 s)) by lia. fold is js. unfold ij.
      rewrite !flat_map_concat_map, concat_map, !map_map. f_equal. apply map_ext. intros i. rewrite !map_map. reflexivity. }
    assert (Mem : forall n c e k, 0 < n -> (In k (map (fun k => k / n) (steps (c / n * n) e n)) <-> c / n <= k /\ k * n < e)).
    { intros n c e k P. rewrite in_map_iff. split.
      - intros (v & <- & I). apply in_steps in I; [ | exact P ]. destruct I as (A & d & B & ->).
        replace (c / n * n + d * n) with ((c / n + d) * n) in * by ring. rewrite Z.div_mul by lia. lia.
      - intros [ A B ]. exists (k * n). split; [ apply Z.div_mul; lia | ]. apply in_steps; [ exact P | ]. split; [ exact B | ].
        exists (k - c / n). split; [ lia | ring ]. }
    assert (Nd : forall n c e, 0 < n -> NoDup (map (fun k => k / n) (steps (c / n * n) e n))).
    { intros n c e P. apply (NoDup_map_inv (fun k => k * n)). rewrite Back by exact P. apply NoDup_steps, P. }
    assert (Nij : NoDup ij).
    { unfold ij. apply NoDup_flat_map; [ apply Nd; lia | | ].
      - intros i _. apply Injective_map_NoDup; [ intros u v [= ->]; reflexivity | apply Nd; lia ].
      - intros u v p _ _ A B. rewrite in_map_iff in A, B. destruct A as (? & <- & _), B as (? & B & _). congruence. }
    assert (Iij : forall i j, In (i, j) ij <-> In i is /\ In j js).
    { intros i j. unfold ij. rewrite in_flat_map. split.
      - intros (k & A & B). apply in_map_iff in B. destruct B as (? & [= <- <-] & B). auto.
      - intros [ A B ]. exists i. split; [ exact A | apply in_map, B ]. }
    destruct (filter_copies_ok s ws wt Ts Tt ij b Ib Nij) as (m & c & -> & Ic & M).
    exists (l ++ m), c. split; [ reflexivity | ]. split; [ exact Ic | ].
    assert (Ins : forall x y, 0 <= x < width /\ 0 <= y < height <-> x / width = 0 /\ y / height = 0).
    { intros x y. rewrite !div_cell by lia. lia. }
    eapply each_once_ext; [ | eapply each_once_app; [ | exact L2 | exact M ] ].
    + intros x y. cbv beta. rewrite !Out by lia. rewrite Ins, Iij. unfold is, js. rewrite !Mem by lia. split.
      * intros [ (A & X & Y) | (A & B & C & D) ]; [ | tauto ]. split; [ exact A | ]. rewrite X. tauto.
      * intros [ A B ]. destruct (Z.eq_dec (x / width) 0) as [ X | X ]; [ destruct (Z.eq_dec (y / height) 0) as [ Y | Y ] | ].
        1: left; auto.
        all: right; split; [ exact A | ]; unfold within in A;
          pose proof (Z.div_le_mono (sx0 s) x width ltac:(lia) ltac:(lia)); pose proof (Z.div_le_mono (sy0 s) y height ltac:(lia) ltac:(lia));
          pose proof (Z.mul_div_le x width ltac:(lia)); pose proof (Z.mul_div_le y height ltac:(lia));
          (split; [ lia | ]); (split; [ intros [= ? ?]; contradiction | exact B ]).
    + intros x y (_ & K) (_ & _ & K2 & _). apply Ins in K. destruct K as [ X Y ]. rewrite X, Y in K2. contradiction.
Qed.
End Wrap.

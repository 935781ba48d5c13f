(** Proofs about image buffers. *)

From Coq Require FinFun.
From Coq Require Import List Arith Bool QArith Qround Qabs Qminmax ZArith String Lia Lqa.
From Verif Require Import NurbModel NurbClamp ImageModel ImageSpec.
Import ListNotations.
Local Open Scope Z_scope.

Lemma mod_part : forall s a b c e, 0 <= b < s -> 0 <= e < s -> a * s + b = c * s + e -> a = c /\ b = e.
Proof.
  intros s a b c e B E H.
  assert (a = c) by (apply Z.le_antisymm; apply Z.lt_succ_r; nia). subst. lia.
Qed.

Section Write.
Variable b : buf.
Local Notation W := (bw b).
Local Notation H := (bh b).
Local Notation S := (chans b).
Local Notation N := (bw b * bh b * chans b).

Definition A (x y c : Z) : Z := (y * W + x) * S + c.

Lemma addr_inj : forall x y c x' y' c', inside b x y c -> inside b x' y' c' -> A x y c = A x' y' c' ->
  x = x' /\ y = y' /\ c = c'.
Proof.
  intros x y c x' y' c' (X & Y & C) (X' & Y' & C') E. unfold A in E.
  apply mod_part in E; auto. destruct E as [E ->]. apply mod_part in E; auto. tauto.
Qed.

Lemma addr_in : forall x y c, inside b x y c -> 0 <= A x y c < N.
Proof.
  intros x y c (X & Y & C). unfold A.
  assert (0 <= y * W + x < W * H) by nia. nia.
Qed.

Lemma cell_is : forall d g x y c, is d N g -> inside b x y c -> cell b d x y c = g (A x y c).
Proof.
  intros d g x y c [_ G] I. specialize (G _ (addr_in _ _ _ I)). unfold cell, get in *. fold (A x y c).
  pose proof (addr_in _ _ _ I). destruct (Z.ltb_spec (A x y c) 0); [lia|]. apply nth_error_nth. auto.
Qed.

(** The value of compositing. *)
Definition onto (k : kind) (f al old : Q) : Q := from_float k (f + (1 - al) * to_float k old)%Q.

(** What a step does: it changes channel [ci] where [R] says so. *)
Definition changes (ci : Z) (R : Z -> Z -> bool) (v : Z -> Z -> Q -> Q) (g g' : Z -> Q) : Prop :=
  forall x y c, inside b x y c ->
    g' (A x y c) = if Z.eqb c ci && R x y then v x y (g (A x y c)) else g (A x y c).

Variables (dx dy w h ci : Z).
Hypothesis DX : 0 <= dx.
Hypothesis DY : 0 <= dy.
Hypothesis WW : 0 <= w /\ dx + w <= W.
Hypothesis HH : 0 <= h /\ dy + h <= H.
Hypothesis CI : 0 <= ci < S.

Ltac zc := repeat match goal with
  | |- context [Z.leb ?x ?y] => destruct (Z.leb_spec x y); try lia
  | |- context [Z.ltb ?x ?y] => destruct (Z.ltb_spec x y); try lia
  | |- context [Z.eqb ?x ?y] => destruct (Z.eqb_spec x y); try lia
  end; cbn [andb].

Lemma row_ok : forall (f : Z -> list Q -> option (list Q)) v row d g, 0 <= row < h -> is d N g ->
  (forall i d' g', 0 <= i < w -> is d' N g' ->
     f i d' = put d' (A (dx + i) (dy + row) ci) (v i (g' (A (dx + i) (dy + row) ci)))) ->
  exists d' g', loop (rounds 0 w) 0 f d = Some d' /\ is d' N g' /\
    changes ci (fun x y => Z.eqb y (dy + row) && Z.leb dx x && Z.ltb x (dx + w)) (fun x _ => v (x - dx)) g g'.
Proof.
  intros f v row d g R IS F.
  destruct (loop_step (list Q) f (fun i d' => exists g', is d' N g' /\
    changes ci (fun x y => Z.eqb y (dy + row) && Z.leb dx x && Z.ltb x (dx + i)) (fun x _ => v (x - dx)) g g')
    (rounds 0 w) 0 d) as (d' & E & g' & I & C).
  - exists g. split; auto. intros x y c IN. zc; try reflexivity; destruct (Z.eqb c ci); reflexivity.
  - intros i x B (g' & I & C). unfold rounds in B.
    assert (IN : inside b (dx + i) (dy + row) ci) by (unfold inside; lia).
    rewrite (F i x g') by (auto; lia).
    destruct (put_is _ x N g' (A (dx + i) (dy + row) ci) (v i (g' (A (dx + i) (dy + row) ci))) I (addr_in _ _ _ IN))
      as (y & E & I').
    exists y. split; auto. eexists. split; [exact I'|].
    intros x0 y0 c0 IN0. cbn beta.
    destruct (Z.eqb_spec (A x0 y0 c0) (A (dx + i) (dy + row) ci)) as [EA|NA].
    + apply addr_inj in EA; auto. destruct EA as (-> & -> & ->).
      rewrite (C _ _ _ IN). rewrite !Z.eqb_refl. cbn [andb].
      replace (dx + i - dx) with i by lia. zc; cbn [andb]; reflexivity.
    + rewrite (C _ _ _ IN0).
      destruct (Z.eqb_spec c0 ci); cbn [andb]; auto.
      destruct (Z.eqb_spec y0 (dy + row)); cbn [andb]; auto.
      destruct (Z.leb_spec dx x0); cbn [andb]; auto.
      destruct (Z.ltb_spec x0 (dx + i)), (Z.ltb_spec x0 (dx + (i + 1))); try lia; auto.
      exfalso. apply NA. f_equal; lia.
  - exists d', g'. unfold rounds in *. rewrite Z.sub_0_r in C. rewrite Z.add_0_l, Z2Nat.id in C by lia. auto.
Qed.

Lemma rows_ok : forall (f : Z -> list Q -> option (list Q)) v d g, is d N g ->
  (forall row d g, 0 <= row < h -> is d N g -> exists d' g', f row d = Some d' /\ is d' N g' /\
     changes ci (fun x y => Z.eqb y (dy + row) && Z.leb dx x && Z.ltb x (dx + w)) (fun x _ => v (x - dx) row) g g') ->
  exists d' g', loop (rounds 0 h) 0 f d = Some d' /\ is d' N g' /\
    changes ci (fun x y => Z.leb dy y && Z.ltb y (dy + h) && (Z.leb dx x && Z.ltb x (dx + w)))
      (fun x y => v (x - dx) (y - dy)) g g'.
Proof.
  intros f v d g IS F.
  destruct (loop_step (list Q) f (fun i d' => exists g', is d' N g' /\
    changes ci (fun x y => Z.leb dy y && Z.ltb y (dy + i) && (Z.leb dx x && Z.ltb x (dx + w)))
      (fun x y => v (x - dx) (y - dy)) g g')
    (rounds 0 h) 0 d) as (d' & E & g' & I & C).
  - exists g. split; auto. intros x y c IN. destruct (Z.leb_spec dy y), (Z.ltb_spec y (dy + 0)); try lia;
      cbn [andb]; rewrite andb_false_r; reflexivity.
  - intros i x B (g' & I & C). unfold rounds in B.
    destruct (F i x g' ltac:(lia) I) as (d' & g2 & E & I2 & C2). exists d'. split; auto.
    exists g2. split; auto. intros x0 y0 c0 IN. rewrite (C2 _ _ _ IN), (C _ _ _ IN).
    destruct (Z.eqb_spec c0 ci); cbn [andb]; auto.
    destruct (Z.leb_spec dx x0), (Z.ltb_spec x0 (dx + w)); cbn [andb]; rewrite ?andb_false_r; auto.
    rewrite !andb_true_r.
    destruct (Z.eqb_spec y0 (dy + i)), (Z.leb_spec dy y0), (Z.ltb_spec y0 (dy + i)), (Z.ltb_spec y0 (dy + (i + 1)));
      try lia; cbn [andb]; auto. subst y0. f_equal. lia.
  - exists d', g'. unfold rounds in *. rewrite Z.sub_0_r in C. rewrite Z.add_0_l, Z2Nat.id in C by lia. auto.
Qed.

Variable k : kind.
Definition chan : channel := Channel k (A dx dy ci) w h S (W - w).

Lemma row_addr : forall row i, row_start chan row + i * stride chan = A (dx + i) (dy + row) ci.
Proof. intros. unfold row_start, chan, A. cbn [start stride cw skip]. ring. Qed.

(** A source with the values [v] (column, row). *)
Definition gives (s : source) (v : Z -> Z -> Q) : Prop :=
  has_size s w h = true /\
  forall row, 0 <= row < h -> exists r, source_row s w row = Some r /\ forall i, 0 <= i < w -> get r i = Some (v i row).

Definition region (x y : Z) : bool := Z.leb dy y && Z.ltb y (dy + h) && (Z.leb dx x && Z.ltb x (dx + w)).

Lemma copy_channel_ok : forall s v d g, gives s v -> is d N g ->
  exists d' g', copy_channel chan s d = Some (Done d') /\ is d' N g' /\
    changes ci region (fun x y _ => from_float k (v (x - dx) (y - dy))) g g'.
Proof.
  intros s v d g [SZ G] IS. unfold copy_channel. cbn [chan cw ch]. rewrite SZ.
  destruct (rows_ok (fun row d => bind (source_row s w row) (fun r => replace_row chan row r d))
    (fun i row _ => from_float k (v i row)) d g IS) as (d' & g' & E & I & C).
  - intros row d0 g0 R I0. destruct (G row R) as (r & E & V). rewrite E. cbn [bind]. unfold replace_row. cbn [chan cw].
    apply (row_ok _ (fun i _ => from_float k (v i row)) row); auto. intros i d' g' B _. rewrite V by auto. cbn [bind]. fold chan. rewrite row_addr. reflexivity.
  - fold chan. rewrite E. exists d', g'. auto.
Qed.

Lemma composite_channel_ok : forall s v a va d g, gives s v -> gives a va -> is d N g ->
  exists d' g', composite_channel chan s a d = Some (Done d') /\ is d' N g' /\
    changes ci region (fun x y old => onto k (v (x - dx) (y - dy)) (va (x - dx) (y - dy)) old) g g'.
Proof.
  intros s v a va d g [SZ G] [SA GA] IS. unfold composite_channel. cbn [chan cw ch]. rewrite SZ, SA. cbn [andb].
  destruct (rows_ok (fun row d => bind (source_row s w row) (fun r => bind (source_row a w row) (fun al => composite_row chan row r al d)))
    (fun i row old => onto k (v i row) (va i row) old) d g IS) as (d' & g' & E & I & C).
  - intros row d0 g0 R I0. destruct (G row R) as (r & E & V). rewrite E. cbn [bind].
    destruct (GA row R) as (al & EA & VA). rewrite EA. cbn [bind]. unfold composite_row. cbn [chan cw].
    apply (row_ok _ (fun i old => onto k (v i row) (va i row) old) row); auto. intros i d' g' B I'. fold chan. rewrite row_addr.
    assert (IN : inside b (dx + i) (dy + row) ci) by (unfold inside; lia).
    rewrite (proj2 I' _ (addr_in _ _ _ IN)). cbn [bind]. rewrite V, VA by auto. cbn [bind]. reflexivity.
  - fold chan. rewrite E. exists d', g'. auto.
Qed.
End Write.

(** * Steps *)

Lemma steps_ok : forall (X : Type) b (f : X -> list Q -> option answer) key R v (l : list X),
  NoDup (map key l) ->
  (forall a d g, In a l -> is d (bw b * bh b * chans b) g -> exists d' g', f a d = Some (Done d') /\
     is d' (bw b * bh b * chans b) g' /\ changes b (key a) R (v a) g g') ->
  forall d g, is d (bw b * bh b * chans b) g -> exists d' g', steps f l d = Some (Done d') /\
    is d' (bw b * bh b * chans b) g' /\
    forall x y c, inside b x y c ->
      (forall a, In a l -> key a = c -> R x y = true -> g' (A b x y c) = v a x y (g (A b x y c))) /\
      ((forall a, In a l -> key a <> c) \/ R x y = false -> g' (A b x y c) = g (A b x y c)).
Proof.
  intros X b f key R v l. induction l as [|a l IH]; intros ND F d g IS; cbn [steps].
  - exists d, g. split; auto. split; auto. intros x y c _. split; [intros a []|auto].
  - destruct (F a d g (or_introl eq_refl) IS) as (d1 & g1 & E1 & I1 & C1). rewrite E1. cbn [bind].
    inversion ND as [|? ? N1 N2]; subst.
    destruct (IH N2 ltac:(intros; apply F; [right|]; auto) d1 g1 I1) as (d2 & g2 & E2 & I2 & C2).
    exists d2, g2. split; auto. split; auto. intros x y c IN.
    specialize (C2 x y c IN). specialize (C1 x y c IN). destruct C2 as [C2 C3]. split.
    + intros a' [<-|M] KA RA.
      * rewrite C3.
        -- rewrite C1, KA, Z.eqb_refl, RA. reflexivity.
        -- left. intros a' M E. apply N1. rewrite KA, <- E. apply in_map. auto.
      * rewrite (C2 a') by auto. rewrite C1. destruct (Z.eqb_spec c (key a)) as [E|]; [|reflexivity].
        exfalso. apply N1. rewrite <- E, <- KA. apply in_map. auto.
    + intros O. rewrite C3.
      * rewrite C1. destruct O as [O|O].
        -- destruct (Z.eqb_spec c (key a)) as [E|]; [exfalso; apply (O a); [left|]; auto|reflexivity].
        -- rewrite O, andb_false_r. reflexivity.
      * destruct O as [O|O]; auto. left. intros a' M. apply O. right. auto.
Qed.

(** * Sources *)

Lemma get_row_ok : forall n d k at_ st vals,
  (forall i, 0 <= i < Z.of_nat n -> get d (at_ + i * st) = Some (vals i)) ->
  exists r, get_row d k at_ st n = Some r /\ forall i, 0 <= i < Z.of_nat n -> get r i = Some (to_float k (vals i)).
Proof.
  induction n; intros d k at_ st vals V; cbn [get_row].
  - exists []. split; auto. lia.
  - pose proof (V 0 ltac:(lia)) as V0. replace (at_ + 0 * st) with at_ in V0 by lia. rewrite V0. cbn [bind].
    destruct (IHn d k (at_ + st) st (fun i => vals (i + 1))) as (r & E & R).
    { intros i I. rewrite <- (V (i + 1)) by lia. f_equal. lia. }
    rewrite E. cbn [option_map]. eexists. split; [reflexivity|].
    intros i I. unfold get. destruct (Z.ltb_spec i 0); [lia|].
    destruct (Z.eq_dec i 0) as [->|NZ]; [reflexivity|].
    replace (Z.to_nat i) with (Datatypes.S (Z.to_nat (i - 1))) by lia. cbn [nth_error].
    specialize (R (i - 1) ltac:(lia)). unfold get in R. destruct (Z.ltb_spec (i - 1) 0); [lia|].
    rewrite R. do 3 f_equal. lia.
Qed.

Lemma sound_is : forall b, sound b -> is (data b) (bw b * bh b * chans b) (fun i => nth (Z.to_nat i) (data b) 0%Q).
Proof. intros b (_ & _ & F). pose proof (is_any _ 0%Q (data b)) as I. unfold fits in F. rewrite F in I. exact I. Qed.

Lemma image_gives : forall b sx sy w h j k, sound b -> 0 <= sx -> 0 <= sy -> 0 <= w -> sx + w <= bw b -> 0 <= h -> sy + h <= bh b ->
  0 <= j < chans b ->
  gives w h (Of (data b) (Channel k ((sy * bw b + sx) * chans b + j) w h (chans b) (bw b - w)))
    (fun i row => to_float k (cell b (data b) (sx + i) (sy + row) j)).
Proof.
  intros b sx sy w h j k SB SX SY W1 W2 H1 H2 J. split.
  - cbn [has_size cw ch]. rewrite !Z.eqb_refl. reflexivity.
  - intros row R. cbn [source_row]. cbn [ckind cw stride].
    destruct (get_row_ok (Z.to_nat w) (data b) k
      (row_start (Channel k ((sy * bw b + sx) * chans b + j) w h (chans b) (bw b - w)) row) (chans b)
      (fun i => cell b (data b) (sx + i) (sy + row) j)) as (r & E & V).
    + intros i I.
      assert (IN : inside b (sx + i) (sy + row) j) by (unfold inside; lia).
      replace (row_start _ row + i * chans b) with (A b (sx + i) (sy + row) j)
        by (unfold A, row_start; cbn [start stride cw skip]; ring).
      rewrite (proj2 (sound_is b SB) _ (addr_in b _ _ _ IN)). reflexivity.
    + exists r. split; auto. intros i I. apply V. lia.
Qed.

Lemma const_gives : forall w h f, gives w h (Constant f) (fun _ _ => f).
Proof.
  intros w h f. split; [reflexivity|]. intros row R. cbn [source_row]. eexists. split; [reflexivity|].
  intros i I. unfold get. destruct (Z.ltb_spec i 0); [lia|].
  rewrite (nth_error_nth' _ f) by (rewrite repeat_length; lia). f_equal. apply nth_repeat.
Qed.

Lemma tile_parity : forall x t, 0 < t -> 0 <= x -> Z.quot (Z.rem x (t * 2)) t = (x / t) mod 2.
Proof.
  intros x t T X. rewrite Z.rem_mod_nonneg by lia.
  pose proof (Z.mod_pos_bound x (t * 2) ltac:(lia)). rewrite Z.quot_div_nonneg by lia.
  rewrite Z.rem_mul_r by lia. rewrite (Z.mul_comm t), Z.div_add by lia.
  rewrite Z.div_small by (apply Z.mod_pos_bound; lia). lia.
Qed.

Definition checker (t x y : Z) : Q := if Z.even (x / t + y / t) then (1 # 2)%Q else 1%Q.

Lemma parity : forall a, (a mod 2 = 0 /\ Z.even a = true) \/ (a mod 2 = 1 /\ Z.even a = false).
Proof.
  intros a. pose proof (Zmod_even a). destruct (Z.even a); [left|right]; split; auto.
Qed.

Lemma checker_gives : forall w h t, 0 < t -> exists v, gives w h (Checkered t) v /\
  forall x y, 0 <= x < w -> 0 <= y < h -> (v x y == checker t x y)%Q.
Proof.
  intros w h t T.
  exists (fun i row => if Z.eqb (Z.quot (Z.rem row (t * 2)) t) 0
    then (inject_Z (Z.quot (Z.rem i (t * 2)) t + 1) * (1 # 2))%Q else (inject_Z (2 - Z.quot (Z.rem i (t * 2)) t) * (1 # 2))%Q).
  split.
  - split; [reflexivity|]. intros row R. cbn [source_row]. eexists. split; [reflexivity|].
    intros i I. unfold get, checker_row. destruct (Z.ltb_spec i 0); [lia|].
    rewrite nth_error_map. rewrite (nth_error_nth' _ O) by (rewrite seq_length; lia).
    cbn [option_map]. rewrite seq_nth by lia. rewrite Nat.add_0_l, Z2Nat.id by lia.
    destruct (Z.eqb _ 0); reflexivity.
  - intros x y X Y. rewrite !tile_parity by lia. unfold checker. rewrite Z.even_add.
    destruct (parity (x / t)) as [[-> ->]|[-> ->]], (parity (y / t)) as [[-> ->]|[-> ->]]; reflexivity.
Qed.

(** * Zoom *)

Lemma zoom_row_ok : forall z w r v, 0 < z -> 0 <= w -> (forall i, 0 <= i < w / z -> get r i = Some (v i)) ->
  exists r', zoom_row z w r = Some r' /\
    is r' w (fun x => if Z.ltb x ((w / z) * z) then v (x / z) else 0%Q).
Proof.
  intros z w r v Z0 W0 G. unfold zoom_row. rewrite Z.quot_div_nonneg by lia.
  pose proof (Z.div_pos w z W0 Z0) as D0. pose proof (Z.mul_div_le w z Z0) as DL.
  destruct (loop_step (list Q) (fun i b => bind (get r i) (fun v =>
      loop (rounds (i * z) ((i + 1) * z)) (i * z) (fun j b => put b j v) b))
    (fun i b => is b w (fun x => if Z.ltb x (i * z) then v (x / z) else 0%Q))
    (rounds 0 (w / z)) 0 (repeat 0%Q (Z.to_nat w))) as (r' & E & I).
  - split; [rewrite repeat_length; lia|]. intros i I. unfold get. destruct (Z.ltb_spec i 0); [lia|].
    destruct (Z.ltb_spec i (0 * z)); [lia|].
    rewrite (nth_error_nth' _ 0%Q) by (rewrite repeat_length; lia). f_equal. apply nth_repeat.
  - intros i b B I. unfold rounds in B. rewrite (G i) by lia. cbn [bind].
    destruct (loop_step (list Q) (fun j b => put b j (v i))
      (fun j b => is b w (fun x => if Z.ltb x j then v (x / z) else 0%Q))
      (rounds (i * z) ((i + 1) * z)) (i * z) b I) as (b' & E & I').
    + intros j y J IY. unfold rounds in J.
      destruct (put_is _ y w _ j (v i) IY ltac:(nia)) as (y' & E & I'). exists y'. split; auto.
      eapply is_ext; [exact I'|]. intros x X. cbn beta.
      destruct (Z.eqb_spec x j) as [->|N].
      * destruct (Z.ltb_spec j (j + 1)); [|lia]. f_equal. apply (Z.div_unique_pos j z i (j - i * z)); nia.
      * destruct (Z.ltb_spec x j), (Z.ltb_spec x (j + 1)); try lia; reflexivity.
    + exists b'. split; auto. unfold rounds in I'. rewrite Z2Nat.id in I' by nia.
      replace (i * z + ((i + 1) * z - i * z)) with ((i + 1) * z) in I' by ring. exact I'.
  - exists r'. split; auto. unfold rounds in I. rewrite Z2Nat.id in I by lia.
    replace (0 + (w / z - 0)) with (w / z) in I by ring. exact I.
Qed.

Lemma zoom_gives : forall w h z s v, 0 < z -> 0 <= w -> h mod z = 0 -> gives (w / z) (h / z) s v ->
  gives w h (Zoom z s) (fun x y => if Z.ltb x ((w / z) * z) then v (x / z) (y / z) else 0%Q).
Proof.
  intros w h z s v Z0 W0 HM [SZ G].
  assert (ZF : zoom_factor z = z) by (unfold zoom_factor; destruct (Z.ltb_spec 0 z); lia).
  assert (HD : h = z * (h / z)) by (pose proof (Z.div_mod h z ltac:(lia)); lia).
  destruct (Z.le_gt_cases h 0) as [HN|HP].
  - destruct (Z.eq_dec h 0) as [->|HN0].
    + split; [cbn [has_size]; rewrite ZF, Z.quot_div_nonneg by lia; rewrite Z.quot_0_l by lia; rewrite Z.div_0_l in SZ by lia; exact SZ|].
      intros row R. lia.
    + split; [|intros row R; lia]. cbn [has_size]. rewrite ZF, Z.quot_div_nonneg by lia.
      replace (Z.quot h z) with (h / z); [exact SZ|]. rewrite HD at 2. rewrite Z.mul_comm, Z.quot_mul by lia. reflexivity.
  - split; [cbn [has_size]; rewrite ZF, !Z.quot_div_nonneg by lia; exact SZ|].
    intros row R. cbn [source_row]. rewrite ZF, !Z.quot_div_nonneg by lia.
    assert (RB : 0 <= row / z < h / z).
    { split; [apply Z.div_pos; lia|]. apply Z.div_lt_upper_bound; lia. }
    destruct (G _ RB) as (r & E & V). rewrite E. cbn [bind].
    destruct (zoom_row_ok z w r (fun i => v i (row / z)) Z0 W0 V) as (r' & E' & _ & I'). exists r'. split; auto.
Qed.

(** * The requests *)

Lemma channel_ok : forall b i x y w h, 0 <= i < chans b -> w <> 0 -> h <> 0 ->
  channel_of b (Z.to_nat i) x y w h =
  Some (Channel (kind_of b i) ((y * bw b + x) * chans b + i) w h (chans b) (bw b - w)).
Proof.
  intros b i x y w h I W H. unfold channel_of, kind_of.
  destruct (Z.eqb_spec w 0); [lia|]. destruct (Z.eqb_spec h 0); [lia|].
  rewrite (nth_error_nth' _ (""%string, Flt)) by (unfold chans in I; lia). cbn [option_map].
  destruct (nth _ _ _) as [nm k]. rewrite Z2Nat.id by lia. reflexivity.
Qed.

Lemma region_iff : forall off sw dw x so do w, copy_region off sw dw = (so, do, w) -> 0 <= x < dw -> 0 <= sw ->
  (Z.leb do x && Z.ltb x (do + w) = true <-> off <= x < off + sw) /\ so + (x - do) = x - off /\
  (0 <= so /\ 0 <= do /\ do + w <= dw /\ so + w <= sw).
Proof.
  intros off sw dw x so do w E X SW. unfold copy_region in E. injection E as <- <- <-.
  rewrite andb_true_iff, Z.leb_le, Z.ltb_lt. repeat split; lia.
Qed.

Lemma covers_region : forall dst src x0 y0 x y c sx dx w sy dy h, sound src -> inside dst x y c ->
  copy_region x0 (bw src) (bw dst) = (sx, dx, w) -> copy_region y0 (bh src) (bh dst) = (sy, dy, h) ->
  (region dx dy w h x y = true <-> covers src x0 y0 x y) /\ sx + (x - dx) = x - x0 /\ sy + (y - dy) = y - y0.
Proof.
  intros dst src x0 y0 x y c sx dx w sy dy h (S1 & S2 & _) (I1 & I2 & _) E1 E2.
  destruct (region_iff _ _ _ x _ _ _ E1 I1 S1) as (R1 & Q1 & _).
  destruct (region_iff _ _ _ y _ _ _ E2 I2 S2) as (R2 & Q2 & _).
  split; [|auto]. unfold region, covers. rewrite andb_true_iff, R1, R2. tauto.
Qed.

Lemma region_sizes : forall off sw dw so do w, copy_region off sw dw = (so, do, w) -> 0 < w ->
  0 <= so /\ 0 <= do /\ do + w <= dw /\ so + w <= sw.
Proof. intros off sw dw so do w E P. unfold copy_region in E. injection E as <- <- <-. lia. Qed.

Lemma none_covered : forall dst src x0 y0 x y c sx dx w sy dy h, inside dst x y c ->
  copy_region x0 (bw src) (bw dst) = (sx, dx, w) -> copy_region y0 (bh src) (bh dst) = (sy, dy, h) ->
  w <= 0 \/ h <= 0 -> ~ covers src x0 y0 x y.
Proof.
  intros dst src x0 y0 x y c sx dx w sy dy h (I1 & I2 & _) E1 E2 Z0 [C1 C2].
  unfold copy_region in E1, E2. injection E1 as <- <- <-. injection E2 as <- <- <-. lia.
Qed.

Lemma is_fits : forall b d g, is d (bw b * bh b * chans b) g -> fits b d.
Proof. intros b d g [L _]. exact L. Qed.

Lemma copy_ok : forall dst src x0 y0, sound dst -> sound src -> List.length (names src) = List.length (names dst) ->
  exists d', copy_all dst src x0 y0 = Some (Done d') /\ fits dst d' /\
    forall x y c, inside dst x y c ->
      (covers src x0 y0 x y -> cell dst d' x y c =
         from_float (kind_of dst c) (to_float (kind_of src c) (cell src (data src) (x - x0) (y - y0) c))) /\
      (~ covers src x0 y0 x y -> cell dst d' x y c = cell dst (data dst) x y c).
Proof.
  intros dst src x0 y0 SD SS NC. unfold copy_all. rewrite NC, Nat.eqb_refl. cbn [negb].
  destruct (copy_region x0 (bw src) (bw dst)) as [[sx dx] w] eqn:E1.
  destruct (copy_region y0 (bh src) (bh dst)) as [[sy dy] h] eqn:E2.
  assert (CS : chans src = chans dst) by (unfold chans; congruence).
  destruct (Z.leb_spec w 0) as [W0|W0]; [|destruct (Z.leb_spec h 0) as [H0|H0]]; cbn [orb].
  1, 2: exists (data dst); split; [reflexivity|]; split; [apply SD|]; intros x y c IN; split; [|auto]; intros C;
    exfalso; eapply none_covered; eauto.
  destruct (region_sizes _ _ _ _ _ _ E1 W0) as (P1 & P2 & P3 & P4).
  destruct (region_sizes _ _ _ _ _ _ E2 H0) as (Q1 & Q2 & Q3 & Q4).
  pose proof (sound_is dst SD) as ID.
  destruct (steps_ok nat dst
    (fun i d => bind (channel_of dst i dx dy w h) (fun c => bind (channel_of src i sx sy w h) (fun s =>
        copy_channel c (Of (data src) s) d)))
    Z.of_nat (region dx dy w h)
    (fun i x y _ => from_float (kind_of dst (Z.of_nat i)) (to_float (kind_of src (Z.of_nat i))
        (cell src (data src) (sx + (x - dx)) (sy + (y - dy)) (Z.of_nat i))))
    (seq 0 (List.length (names dst)))) with (d := data dst) (g := fun i => nth (Z.to_nat i) (data dst) 0%Q)
    as (d' & g' & E & I & C); auto.
  - apply FinFun.Injective_map_NoDup; [intros a a'; lia|apply seq_NoDup].
  - intros i d g IN IS. apply in_seq in IN.
    assert (CI : 0 <= Z.of_nat i < chans dst) by (unfold chans; lia).
    pose proof (channel_ok dst (Z.of_nat i) dx dy w h CI ltac:(lia) ltac:(lia)) as K1.
    pose proof (channel_ok src (Z.of_nat i) sx sy w h ltac:(lia) ltac:(lia) ltac:(lia)) as K2.
    rewrite Nat2Z.id in K1, K2. rewrite K1, K2. cbn [bind].
    apply (copy_channel_ok dst dx dy w h (Z.of_nat i)) with
      (v := fun x y => to_float (kind_of src (Z.of_nat i)) (cell src (data src) (sx + x) (sy + y) (Z.of_nat i)));
      auto; try lia.
    apply (image_gives src sx sy w h (Z.of_nat i)); auto; lia.
  - exists d'. split; auto. split; [eapply is_fits; eauto|]. intros x y c IN.
    destruct (covers_region dst src x0 y0 x y c _ _ _ _ _ _ SS IN E1 E2) as (RC & X & Y).
    rewrite (cell_is dst d' g') by auto. rewrite (cell_is dst (data dst) _ x y c ID IN).
    destruct (C x y c IN) as [C1 C2]. pose proof IN as (_ & _ & IC). split.
    + intros CO. rewrite (C1 (Z.to_nat c)).
      * rewrite Z2Nat.id by lia. rewrite X, Y. reflexivity.
      * apply in_seq. unfold chans in IC. lia.
      * lia.
      * apply RC. auto.
    + intros NCO. apply C2. right. destruct (region dx dy w h x y); auto. exfalso. apply NCO, RC. auto.
Qed.

Lemma index_ok : forall l n i c, (c < List.length l)%nat -> fst (nth c l (""%string, Flt)) = n ->
  (forall j, (j < c)%nat -> fst (nth j l (""%string, Flt)) <> n) -> index_of l n i = Some (i + c)%nat.
Proof.
  induction l as [|[m k] l IH]; intros n i c L E F; cbn [List.length] in L; [lia|]. cbn [index_of].
  destruct c as [|c].
  - cbn [nth fst] in E. subst m. rewrite String.eqb_refl. f_equal. lia.
  - destruct (String.eqb_spec m n) as [->|D].
    + exfalso. apply (F 0%nat ltac:(lia)). reflexivity.
    + rewrite (IH n (i + 1)%nat c); [f_equal; lia|lia|exact E|]. intros j J. apply (F (Datatypes.S j)). lia.
Qed.

Lemma named_index : forall b n c, named b n c -> index_of (names b) n 0 = Some (Z.to_nat c).
Proof.
  intros b n c (R & E & F). rewrite (index_ok (names b) n 0 (Z.to_nat c)); auto.
  - unfold chans in R. lia.
  - intros j J. specialize (F (Z.of_nat j) ltac:(lia)). rewrite Nat2Z.id in F. auto.
Qed.

Lemma named_same : forall b n n' c, named b n c -> named b n' c -> n = n'.
Proof. intros b n n' c (_ & E & _) (_ & E' & _). congruence. Qed.

Lemma named_unique : forall b n c c', named b n c -> named b n c' -> c = c'.
Proof.
  intros b n c c' N1 N2. pose proof (named_index _ _ _ N1). pose proof (named_index _ _ _ N2).
  destruct N1 as (R1 & _). destruct N2 as (R2 & _). rewrite H in H0. injection H0 as H0. lia.
Qed.

Definition key (b : buf) (p : string * string) : Z :=
  match index_of (names b) (fst p) 0 with Some i => Z.of_nat i | None => -1 end.

Lemma key_named : forall b p c, named b (fst p) c -> key b p = c.
Proof. intros b p c N. unfold key. rewrite (named_index b (fst p) c N). destruct N as (R & _). lia. Qed.

Lemma keys_nodup : forall b (m : list (string * string)), NoDup (map fst m) ->
  (forall p, In p m -> exists c, named b (fst p) c) -> NoDup (map (key b) m).
Proof.
  intros b m. induction m as [|p m IH]; intros ND F; cbn [map]; constructor.
  - intros I. apply in_map_iff in I. destruct I as (p' & E & I).
    destruct (F p (or_introl eq_refl)) as (c & N1). destruct (F p' (or_intror I)) as (c' & N2).
    rewrite (key_named _ _ _ N1), (key_named _ _ _ N2) in E. subst c'.
    cbn [map] in ND. inversion ND as [|? ? X Y]; subst. apply X.
    rewrite (named_same _ _ _ _ N1 N2). apply in_map. auto.
  - apply IH; [cbn [map] in ND; inversion ND; auto|]. intros q Q. apply F. right. auto.
Qed.

(** What becomes of the channels of a map. *)
Definition mapped (dst src : buf) (map_ : list (string * string)) (x0 y0 : Z) (d' : list Q)
  (v : Z -> Z -> Z -> Z -> Q) : Prop :=
  forall x y c, inside dst x y c ->
    (forall to from j, In (to, from) map_ -> named dst to c -> named src from j -> covers src x0 y0 x y ->
       cell dst d' x y c = v x y c j) /\
    ((forall to from, In (to, from) map_ -> ~ named dst to c) \/ ~ covers src x0 y0 x y ->
       cell dst d' x y c = cell dst (data dst) x y c).

Lemma map_ok : forall dst src map_ x0 y0 sx dx w sy dy h (f : string * string -> list Q -> option answer) v, sound dst -> sound src ->
  NoDup (map fst map_) ->
  (forall p, In p map_ -> (exists c, named dst (fst p) c) /\ (exists j, named src (snd p) j)) ->
  copy_region x0 (bw src) (bw dst) = (sx, dx, w) -> copy_region y0 (bh src) (bh dst) = (sy, dy, h) -> 0 < w -> 0 < h ->
  (forall to from i j d g, named dst to i -> named src from j -> is d (bw dst * bh dst * chans dst) g ->
     exists d' g', f (to, from) d = Some (Done d') /\ is d' (bw dst * bh dst * chans dst) g' /\
       changes dst i (region dx dy w h) (fun x y => v i j (sx + (x - dx)) (sy + (y - dy))) g g') ->
  exists d', steps f map_ (data dst) = Some (Done d') /\ fits dst d' /\
    mapped dst src map_ x0 y0 d' (fun x y c j => v c j (x - x0) (y - y0) (cell dst (data dst) x y c)).
Proof.
  intros dst src map_ x0 y0 sx dx w sy dy h f v SD SS ND NM E1 E2 W0 H0 F.
  pose proof (sound_is dst SD) as ID.
  destruct (steps_ok (string * string) dst f (key dst) (region dx dy w h)
    (fun p x y => v (key dst p) (key src (snd p, ""%string)) (sx + (x - dx)) (sy + (y - dy))) map_)
    with (d := data dst) (g := fun i => nth (Z.to_nat i) (data dst) 0%Q) as (d' & g' & E & I & C); auto.
  - apply keys_nodup; auto. intros p P. apply NM. auto.
  - intros [to from] d g P IS. destruct (NM _ P) as ((i & NI) & (j & NJ)). cbn [fst snd] in *.
    rewrite (key_named dst (to, from) i NI). rewrite (key_named src (from, ""%string) j NJ). apply (F to from i j); auto.
  - exists d'. split; auto. split; [eapply is_fits; eauto|]. intros x y c IN.
    destruct (covers_region dst src x0 y0 x y c _ _ _ _ _ _ SS IN E1 E2) as (RC & X & Y).
    rewrite (cell_is dst d' g') by auto. rewrite (cell_is dst (data dst) _ x y c ID IN).
    destruct (C x y c IN) as [C1 C2]. split.
    + intros to from j P NI NJ CO. rewrite (C1 (to, from) P).
      * cbn [snd]. rewrite (key_named dst (to, from) c NI), (key_named src (from, ""%string) j NJ). rewrite X, Y. reflexivity.
      * apply key_named. auto.
      * apply RC. auto.
    + intros O. apply C2. destruct O as [O|O].
      * left. intros [to from] P K. destruct (NM _ P) as ((i & NI) & _). cbn [fst] in NI.
        rewrite (key_named dst (to, from) i NI) in K. subst i. apply (O to from P). auto.
      * right. destruct (region dx dy w h x y); auto. exfalso. apply O, RC. auto.
Qed.

Definition all_named (dst src : buf) (map_ : list (string * string)) : Prop :=
  NoDup (map fst map_) /\
  forall p, In p map_ -> (exists c, named dst (fst p) c) /\ (exists j, named src (snd p) j).

Lemma copy_named_ok : forall dst src map_ x0 y0, sound dst -> sound src -> all_named dst src map_ ->
  exists d', copy_named dst src map_ x0 y0 = Some (Done d') /\ fits dst d' /\
    mapped dst src map_ x0 y0 d' (fun x y c j =>
      from_float (kind_of dst c) (to_float (kind_of src j) (cell src (data src) (x - x0) (y - y0) j))).
Proof.
  intros dst src map_ x0 y0 SD SS (ND & NM). unfold copy_named.
  destruct (copy_region x0 (bw src) (bw dst)) as [[sx dx] w] eqn:E1.
  destruct (copy_region y0 (bh src) (bh dst)) as [[sy dy] h] eqn:E2.
  destruct (Z.leb_spec w 0) as [W0|W0]; [|destruct (Z.leb_spec h 0) as [H0|H0]]; cbn [orb].
  1, 2: exists (data dst); split; [reflexivity|]; split; [apply SD|]; intros x y c IN; split; [|auto]; intros;
    exfalso; eapply none_covered; eauto.
  destruct (region_sizes _ _ _ _ _ _ E1 W0) as (P1 & P2 & P3 & P4).
  destruct (region_sizes _ _ _ _ _ _ E2 H0) as (Q1 & Q2 & Q3 & Q4).
  apply (map_ok dst src map_ x0 y0 sx dx w sy dy h _
    (fun i j x y _ => from_float (kind_of dst i) (to_float (kind_of src j) (cell src (data src) x y j)))); auto.
  intros to from i j d g NI NJ IS. rewrite (named_index _ _ _ NI), (named_index _ _ _ NJ).
  destruct NI as (RI & _). destruct NJ as (RJ & _). rewrite !channel_ok by lia. cbn [bind].
  apply (copy_channel_ok dst dx dy w h i) with
    (v := fun x y => to_float (kind_of src j) (cell src (data src) (sx + x) (sy + y) j)); auto; try lia.
  apply (image_gives src sx sy w h j); auto; lia.
Qed.

Lemma composite_ok : forall dst src map_ x0 y0 alpha al, sound dst -> sound src -> all_named dst src map_ ->
  named src alpha al ->
  exists d', composite dst src map_ x0 y0 alpha = Some (Done d') /\ fits dst d' /\
    mapped dst src map_ x0 y0 d' (fun x y c j =>
      onto (kind_of dst c) (to_float (kind_of src j) (cell src (data src) (x - x0) (y - y0) j))
        (to_float (kind_of src al) (cell src (data src) (x - x0) (y - y0) al)) (cell dst (data dst) x y c)).
Proof.
  intros dst src map_ x0 y0 alpha al SD SS (ND & NM) NA. unfold composite. rewrite (named_index _ _ _ NA).
  destruct (copy_region x0 (bw src) (bw dst)) as [[sx dx] w] eqn:E1.
  destruct (copy_region y0 (bh src) (bh dst)) as [[sy dy] h] eqn:E2.
  destruct (Z.leb_spec w 0) as [W0|W0]; [|destruct (Z.leb_spec h 0) as [H0|H0]]; cbn [orb].
  1, 2: exists (data dst); split; [reflexivity|]; split; [apply SD|]; intros x y c IN; split; [|auto]; intros;
    exfalso; eapply none_covered; eauto.
  destruct (region_sizes _ _ _ _ _ _ E1 W0) as (P1 & P2 & P3 & P4).
  destruct (region_sizes _ _ _ _ _ _ E2 H0) as (Q1 & Q2 & Q3 & Q4).
  apply (map_ok dst src map_ x0 y0 sx dx w sy dy h _
    (fun i j x y old => onto (kind_of dst i) (to_float (kind_of src j) (cell src (data src) x y j))
        (to_float (kind_of src al) (cell src (data src) x y al)) old)); auto.
  destruct NA as (RA & _).
  intros to from i j d g NI NJ IS. rewrite (named_index _ _ _ NI), (named_index _ _ _ NJ).
  destruct NI as (RI & _). destruct NJ as (RJ & _). rewrite !channel_ok by lia. cbn [bind].
  apply (composite_channel_ok dst dx dy w h i) with
    (v := fun x y => to_float (kind_of src j) (cell src (data src) (sx + x) (sy + y) j))
    (va := fun x y => to_float (kind_of src al) (cell src (data src) (sx + x) (sy + y) al)); auto; try lia.
  - apply (image_gives src sx sy w h j); auto; lia.
  - apply (image_gives src sx sy w h al); auto; lia.
Qed.

Lemma index_none : forall l n i, (forall c, (c < List.length l)%nat -> fst (nth c l (""%string, Flt)) <> n) ->
  index_of l n i = None.
Proof.
  induction l as [|[m k] l IH]; intros n i F; cbn [index_of]; auto.
  destruct (String.eqb_spec m n) as [->|D].
  - exfalso. apply (F 0%nat); cbn [List.length]; [lia|reflexivity].
  - apply IH. intros c C. apply (F (Datatypes.S c)). cbn [List.length]. lia.
Qed.

Lemma fill_ok : forall b s v, sound b -> 0 < bw b -> 0 < bh b -> gives (bw b) (bh b) s v ->
  exists d', fill_all s b = Some (Done d') /\ fits b d' /\
    forall x y c, inside b x y c -> cell b d' x y c = from_float (kind_of b c) (v x y).
Proof.
  intros b s v SB W0 H0 G. unfold fill_all. pose proof (sound_is b SB) as ID.
  destruct (steps_ok nat b (fun i d => bind (channel_of b i 0 0 0 0) (fun c => copy_channel c s d))
    Z.of_nat (region 0 0 (bw b) (bh b)) (fun i x y _ => from_float (kind_of b (Z.of_nat i)) (v (x - 0) (y - 0)))
    (seq 0 (List.length (names b)))) with (d := data b) (g := fun i => nth (Z.to_nat i) (data b) 0%Q)
    as (d' & g' & E & I & C); auto.
  - apply FinFun.Injective_map_NoDup; [intros a a'; lia|apply seq_NoDup].
  - intros i d g IN IS. apply in_seq in IN.
    assert (CI : 0 <= Z.of_nat i < chans b) by (unfold chans; lia).
    replace (channel_of b i 0 0 0 0) with (channel_of b i 0 0 (bw b) (bh b)).
    2:{ unfold channel_of. cbn [Z.eqb]. destruct (Z.eqb_spec (bw b) 0), (Z.eqb_spec (bh b) 0); try lia; reflexivity. }
    pose proof (channel_ok b (Z.of_nat i) 0 0 (bw b) (bh b) CI ltac:(lia) ltac:(lia)) as K1.
    rewrite Nat2Z.id in K1. rewrite K1. cbn [bind].
    apply (copy_channel_ok b 0 0 (bw b) (bh b) (Z.of_nat i)) with (v := v); auto; lia.
  - exists d'. split; auto. split; [eapply is_fits; eauto|]. intros x y c IN.
    rewrite (cell_is b d' g') by auto. destruct (C x y c IN) as [C1 _]. pose proof IN as (IX & IY & IC).
    rewrite (C1 (Z.to_nat c)).
    + rewrite Z2Nat.id by lia. rewrite !Z.sub_0_r. reflexivity.
    + apply in_seq. unfold chans in IC. lia.
    + lia.
    + unfold region. rewrite !andb_true_iff, !Z.leb_le, !Z.ltb_lt. lia.
Qed.

(** * Values *)

Lemma floor_half : forall z, lround (inject_Z z) = z.
Proof.
  intros z. unfold lround. replace (Qfloor (inject_Z z - (1 # 2))) with (z - 1); [lia|].
  assert (L : (inject_Z (z - 1) <= inject_Z z - (1 # 2))%Q) by (unfold Z.sub; rewrite inject_Z_plus; change (inject_Z (- (1))) with (- (1))%Q; lra).
  assert (U : (inject_Z z - (1 # 2) < inject_Z z)%Q) by lra.
  pose proof (Qfloor_le (inject_Z z - (1 # 2))) as F1. pose proof (Qlt_floor (inject_Z z - (1 # 2))) as F2.
  assert (X : (inject_Z (Qfloor (inject_Z z - (1 # 2))) < inject_Z z)%Q) by lra. rewrite <- Zlt_Qlt in X.
  assert (Y : (inject_Z (z - 1) < inject_Z (Qfloor (inject_Z z - (1 # 2)) + 1))%Q) by lra. rewrite <- Zlt_Qlt in Y. lia.
Qed.

Lemma lround_comp : forall x y, (x == y)%Q -> lround x = lround y.
Proof. intros x y E. unfold lround. f_equal. apply Qfloor_comp. rewrite E. reflexivity. Qed.

Lemma round_trip : forall k v, holds k v -> (from_float k (to_float k v) == v)%Q.
Proof.
  intros [lo hi|] v H; cbn [from_float to_float]; [|reflexivity].
  destruct H as (L & z & -> & Z1 & Z2).
  assert (P : (inject_Z lo < inject_Z hi)%Q) by (rewrite <- Zlt_Qlt; auto).
  assert (A1 : (inject_Z lo <= inject_Z z)%Q) by (rewrite <- Zle_Qle; auto).
  assert (A2 : (inject_Z z <= inject_Z hi)%Q) by (rewrite <- Zle_Qle; auto).
  set (t := ((inject_Z z - inject_Z lo) / (inject_Z hi - inject_Z lo))%Q).
  assert (T : (t * (inject_Z hi - inject_Z lo) == inject_Z z - inject_Z lo)%Q) by (unfold t; field; lra).
  assert (UC : (unit_clamp t == t)%Q).
  { assert (0 <= t)%Q by (apply Qle_shift_div_l; lra). assert (t <= 1)%Q by (apply Qle_shift_div_r; lra).
    unfold unit_clamp. destruct (Qle_bool t 0) eqn:E1; [apply Qle_bool_iff in E1; lra|].
    destruct (Qle_bool 1 t) eqn:E2; [apply Qle_bool_iff in E2; lra|reflexivity]. }
  rewrite (lround_comp _ (inject_Z z)); [rewrite floor_half; reflexivity|]. rewrite UC, T. ring.
Qed.

Lemma from_float_comp : forall k f f', (f == f')%Q -> (from_float k f == from_float k f')%Q.
Proof.
  intros [lo hi|] f f' E; cbn [from_float]; auto.
  rewrite (lround_comp _ (unit_clamp f' * (inject_Z hi - inject_Z lo) + inject_Z lo)); [reflexivity|].
  assert (U : (unit_clamp f == unit_clamp f')%Q).
  { unfold unit_clamp.
    assert (B1 : Qle_bool f 0 = Qle_bool f' 0) by (rewrite E; reflexivity).
    assert (B2 : Qle_bool 1 f = Qle_bool 1 f') by (rewrite E; reflexivity).
    rewrite B1, B2. destruct (Qle_bool f' 0), (Qle_bool 1 f'); auto; reflexivity. }
  rewrite U. reflexivity.
Qed.

(** A stored number can be held again. *)
Lemma from_float_holds : forall lo hi f, (lo < hi) -> holds (Int lo hi) (from_float (Int lo hi) f).
Proof.
  intros lo hi f L. cbn [from_float holds]. split; auto. eexists. split; [reflexivity|].
  assert (P : (inject_Z lo < inject_Z hi)%Q) by (rewrite <- Zlt_Qlt; auto).
  assert (U : (0 <= unit_clamp f /\ unit_clamp f <= 1)%Q).
  { unfold unit_clamp. destruct (Qle_bool f 0) eqn:E1; [lra|].
    destruct (Qle_bool 1 f) eqn:E2; [lra|].
    assert (~ (f <= 0)%Q) by (intros X; apply Qle_bool_iff in X; congruence).
    assert (~ (1 <= f)%Q) by (intros X; apply Qle_bool_iff in X; congruence). lra. }
  set (t := unit_clamp f) in *. clearbody t.
  set (x := (t * (inject_Z hi - inject_Z lo) + inject_Z lo)%Q).
  assert (X : (inject_Z lo <= x /\ x <= inject_Z hi)%Q) by (destruct U; unfold x; split; nra).
  clearbody x. unfold lround.
  split.
  - assert (Qfloor (inject_Z lo - (1 # 2)) <= Qfloor (x - (1 # 2))) by (apply Qfloor_resp_le; lra).
    pose proof (floor_half lo). unfold lround in *. lia.
  - assert (Qfloor (x - (1 # 2)) <= Qfloor (inject_Z hi - (1 # 2))) by (apply Qfloor_resp_le; lra).
    pose proof (floor_half hi). unfold lround in *. lia.
Qed.

Lemma clamp_eq : forall f, (unit_clamp f == Qmax 0 (Qmin 1 f))%Q.
Proof.
  intros f. unfold unit_clamp.
  destruct (Qle_bool f 0) eqn:E1; [|destruct (Qle_bool 1 f) eqn:E2].
  - apply Qle_bool_iff in E1. rewrite (Q.min_r 1 f) by lra. rewrite Q.max_l by lra. reflexivity.
  - apply Qle_bool_iff in E2. rewrite (Q.min_l 1 f) by lra. rewrite Q.max_r by lra. reflexivity.
  - assert (~ (f <= 0)%Q) by (intros X; apply Qle_bool_iff in X; congruence).
    assert (~ (1 <= f)%Q) by (intros X; apply Qle_bool_iff in X; congruence).
    rewrite (Q.min_r 1 f) by lra. rewrite Q.max_r by lra. reflexivity.
Qed.

Lemma lround_near : forall x, (Qabs (inject_Z (lround x) - x) <= 1 # 2)%Q.
Proof.
  intros x. unfold lround. pose proof (Qfloor_le (x - (1 # 2))) as F1. pose proof (Qlt_floor (x - (1 # 2))) as F2.
  rewrite inject_Z_plus in *. change (inject_Z 1) with 1%Q in *. apply Qabs_Qle_condition. split; lra.
Qed.

Lemma from_float_stores : forall k f, proper k -> stores k f (from_float k f).
Proof.
  intros [lo hi|] f P; [|cbn; reflexivity]. cbn [proper] in P.
  destruct (from_float_holds lo hi f P) as (_ & z & E & R). cbn [stores]. exists z. split; auto. split; auto.
  cbn [from_float]. rewrite <- clamp_eq.
  rewrite (Qplus_comm (inject_Z lo)). apply lround_near.
Qed.

Lemma to_float_level : forall k v, to_float k v = level k v.
Proof. intros [lo hi|] v; reflexivity. Qed.

Lemma stores_comp : forall k f f' v, (f == f')%Q -> stores k f v -> stores k f' v.
Proof.
  intros [lo hi|] f f' v E; cbn [stores].
  - intros (z & V & R & A0). exists z. split; auto. split; auto. rewrite <- E. auto.
  - intros V. rewrite V. auto.
Qed.

(** A whole channel from any source. *)
Lemma whole_ok : forall b c s v, sound b -> 0 < bw b -> 0 < bh b -> 0 <= c < chans b -> gives (bw b) (bh b) s v ->
  exists t d', channel_of b (Z.to_nat c) 0 0 0 0 = Some t /\ copy_channel t s (data b) = Some (Done d') /\ fits b d' /\
    forall x y c', inside b x y c' ->
      cell b d' x y c' = if Z.eqb c' c then from_float (kind_of b c) (v x y) else cell b (data b) x y c'.
Proof.
  intros b c s v SB W0 H0 CI G. pose proof (sound_is b SB) as ID.
  assert (CE : channel_of b (Z.to_nat c) 0 0 0 0 = channel_of b (Z.to_nat c) 0 0 (bw b) (bh b)).
  { unfold channel_of. cbn [Z.eqb]. destruct (Z.eqb_spec (bw b) 0), (Z.eqb_spec (bh b) 0); try lia; reflexivity. }
  rewrite CE, channel_ok by lia.
  destruct (copy_channel_ok b 0 0 (bw b) (bh b) c ltac:(lia) ltac:(lia) ltac:(lia) ltac:(lia) ltac:(lia) (kind_of b c) s v (data b) _ G ID)
    as (d' & g' & E & I & C).
  eexists. exists d'. split; [reflexivity|]. split; [exact E|]. split; [eapply is_fits; eauto|].
  intros x y c' IN. rewrite (cell_is b d' g') by auto. rewrite (cell_is b (data b) _ x y c' ID IN).
  rewrite (C x y c' IN). destruct (Z.eqb c' c); cbn [andb]; auto.
  assert (R : region 0 0 (bw b) (bh b) x y = true).
  { unfold region. destruct IN as (IX & IY & _). rewrite !andb_true_iff, !Z.leb_le, !Z.ltb_lt. lia. }
  rewrite R, !Z.sub_0_r. reflexivity.
Qed.

(** Proofs about image files. *)

From Coq Require Import List Bool ZArith Lia.
From Verif Require Import TexModel TexSpec TexProofs TiffModel TiffSpec.
Import ListNotations.
Open Scope Z_scope.

Section Tiff.
Context {V : Type}.
Variable trash : (Z -> V) -> Z -> V.

(** * Writing tiles *)
Lemma tile_columns_ok (b : buffer V) tw th r : 0 < tw -> 0 < th -> 0 <= r -> forall n col src mem tiles, 0 <= col ->
  let out := snd (tile_columns V trash b tw th (r * th) n col src mem tiles) in
  (forall tx i j, col <= tx < col + Z.of_nat n -> 0 <= i < Z.min tw (b_width V b - tx * tw) -> 0 <= j < Z.min th (b_height V b - r * th) ->
     out tx r (j * tw + i) = b_data V b (src + (tx - col) * tw + j * b_width V b + i)) /\
  (forall tx ty k, ty <> r \/ tx < col -> out tx ty k = tiles tx ty k).
Proof.
  intros Tw Th R. induction n as [ | n IH ]; intros col src mem tiles C out.
  { split; [ intros tx i j I; lia | reflexivity ]. }
  unfold out. cbn [tile_columns]. rewrite !Z.quot_mul by lia.
  set (mem2 := strided_copy V _ _ _ _ _ _ _).
  specialize (IH (col + 1) (src + tw) (trash mem2) (fun tx ty k => if (tx =? col) && (ty =? r) then mem2 k else tiles tx ty k) ltac:(lia)).
  cbv zeta in IH. destruct IH as [ H1 H2 ]. split.
  - intros tx i j T I J. destruct (Z.eq_dec tx col) as [ -> | N ].
    + rewrite H2 by lia. rewrite !Z.eqb_refl. cbn [andb]. unfold mem2.
      rewrite strided_copy_at by lia. f_equal. lia.
    + rewrite H1 by lia. f_equal. lia.
  - intros tx ty k D. rewrite H2 by lia.
    replace ((tx =? col) && (ty =? r)) with false; [ reflexivity | ].
    symmetry. apply andb_false_iff. rewrite !Z.eqb_neq. lia.
Qed.

Lemma tile_lines_ok (b : buffer V) tw th : 0 < b_width V b -> 0 < tw -> 0 < th -> forall n r mem tiles, 0 <= r ->
  b_height V b - r * th <= Z.of_nat n ->
  let out := tile_lines V trash b tw th (b_height V b) n (r * th) (r * th * b_width V b) mem tiles in
  (forall tx ty i j, r <= ty -> 0 <= tx -> 0 <= i < tw -> 0 <= j < th -> tx * tw + i < b_width V b -> ty * th + j < b_height V b ->
     out tx ty (j * tw + i) = b_data V b ((ty * th + j) * b_width V b + tx * tw + i)) /\
  (forall tx ty k, ty < r -> out tx ty k = tiles tx ty k).
Proof.
  intros W Tw Th. induction n as [ | n IH ]; intros r mem tiles R F out.
  { split; [ intros tx ty i j T X I J A B; nia | reflexivity ]. }
  unfold out. cbn [tile_lines]. destruct (Z.ltb_spec (r * th) (b_height V b)) as [ L | L ].
  2: { split; [ intros tx ty i j T X I J A B; nia | reflexivity ]. }
  pose proof (tile_columns_ok b tw th r Tw Th R (Z.to_nat (Z.quot (b_width V b - 1) tw + 1)) 0 (r * th * b_width V b) mem tiles ltac:(lia)) as H.
  cbv zeta in H. destruct (tile_columns _ _ _ _ _ _ _ _ _ _ _) as [ mem2 t2 ]. cbn [snd] in H. destruct H as [ H1 H2 ].
  specialize (IH (r + 1) mem2 t2 ltac:(lia) ltac:(lia)). cbv zeta in IH.
  replace ((r + 1) * th) with (r * th + th) in IH by ring.
  replace ((r * th + th) * b_width V b) with (r * th * b_width V b + b_width V b * th) in IH by ring.
  destruct IH as [ K1 K2 ]. split.
  - intros tx ty i j T X I J A B. destruct (Z.eq_dec ty r) as [ -> | N ].
    + rewrite K2 by lia.
      assert (Q : 0 <= tx < Z.quot (b_width V b - 1) tw + 1) by (rewrite Z.quot_div_nonneg by lia; split; [ lia | ]; assert (tx <= (b_width V b - 1) / tw) by (apply Z.div_le_lower_bound; lia); lia).
      rewrite H1 by lia. f_equal. ring.
    + apply K1; lia.
  - intros tx ty k T. rewrite K2 by lia. apply H2. lia.
Qed.

Lemma write_tiles_ok (b : buffer V) fresh w h tw th tiles lines : 0 < w -> 0 < h -> 0 < tw -> 0 < th ->
  b_width V b = w -> h <= b_height V b ->
  exists f, write_pixels V trash fresh (new_file V (Some (tw, th)) w h tiles lines) b = Some f /\
    i_width V f = w /\ i_height V f = h /\ i_line V f = h /\ i_tile V f = Some (tw, th) /\
    holds (as_texture f tw th) (fun x y => b_data V b (y * w + x)).
Proof.
  intros W H Tw Th Ew Hh. unfold write_pixels, new_file. cbn [i_width i_height i_line i_tile].
  rewrite Ew, Z.eqb_refl, Z.sub_0_r, Z.min_r by lia. rewrite (proj2 (Z.ltb_lt 0 h)) by lia.
  unfold write_tiles. cbn [i_width i_height i_line i_tile b_width b_height b_data i_tiles i_lines].
  rewrite !Z.add_0_l, Z.eqb_refl, andb_false_r.
  eexists. split; [ reflexivity | ]. cbn [i_width i_height i_line i_tile]. repeat (split; [ reflexivity | ]).
  unfold holds, as_texture. cbn [f_width f_height f_tile_width f_tile_height f_stored i_width i_height i_tiles].
  repeat (split; [ assumption | ]). intros tx ty i j X Y I J A B.
  pose proof (tile_lines_ok (mkBuffer V w h (b_data V b)) tw th W Tw Th (Z.to_nat h) 0 fresh tiles ltac:(lia)) as K.
  cbn [b_width b_height b_data] in K. specialize (K ltac:(lia)). cbv zeta in K. destruct K as [ K _ ].
  change (0 * th) with 0 in K. change (0 * w) with 0 in K. rewrite K by lia. f_equal. ring.
Qed.

(** * What is written depends on the lines of the buffer only *)
Lemma strided_copy_same (src src2 : Z -> V) stride size : forall n i dest dest2 d,
  (forall k, dest k = dest2 k) ->
  (forall j c, i <= j < i + Z.of_nat n -> 0 <= c < size -> src (j * stride + c) = src2 (j * stride + c)) ->
  forall k, strided_copy V n i dest d src stride size k = strided_copy V n i dest2 d src2 stride size k.
Proof.
  induction n as [ | n IH ]; intros i dest dest2 d D S k; cbn [strided_copy]; [ apply D | ].
  apply IH; [ | intros; apply S; lia ]. intros m. destruct (_ && _) eqn:E; [ | apply D ].
  rewrite andb_true_iff, Z.leb_le, Z.ltb_lt in E. apply S; lia.
Qed.

Hypothesis trash_same : forall m m2, (forall k, m k = m2 k) -> forall k, trash m k = trash m2 k.

Lemma tile_columns_same w h (d d2 : Z -> V) tw th r : 0 < tw -> 0 < th -> 0 <= r -> 0 < w ->
  (forall k, 0 <= k < w * h -> d k = d2 k) -> forall n col mem mem2 tiles tiles2, 0 <= col ->
  (forall k, mem k = mem2 k) -> (forall tx ty k, tiles tx ty k = tiles2 tx ty k) ->
  let o := tile_columns V trash (mkBuffer V w h d) tw th (r * th) n col (r * th * w + col * tw) mem tiles in
  let o2 := tile_columns V trash (mkBuffer V w h d2) tw th (r * th) n col (r * th * w + col * tw) mem2 tiles2 in
  (forall k, fst o k = fst o2 k) /\ (forall tx ty k, snd o tx ty k = snd o2 tx ty k).
Proof.
  intros Tw Th R W D. induction n as [ | n IH ]; intros col mem mem2 tiles tiles2 C M T; cbn [tile_columns]; [ auto | ].
  cbn [b_width b_height b_data].
  set (m := strided_copy _ _ _ _ _ (fun k => d _) _ _). set (m2 := strided_copy _ _ _ _ _ (fun k => d2 _) _ _).
  assert (Em : forall k, m k = m2 k).
  { apply strided_copy_same; [ exact M | ]. intros j c J Cc. apply D. nia. }
  replace (r * th * w + col * tw + tw) with (r * th * w + (col + 1) * tw) by ring.
  apply IH; [ lia | apply trash_same; exact Em | ]. intros tx ty k. cbv beta. rewrite Em, T. reflexivity.
Qed.

Lemma tile_lines_same w h (d d2 : Z -> V) tw th stop : 0 < tw -> 0 < th -> 0 < w ->
  (forall k, 0 <= k < w * h -> d k = d2 k) -> forall n r mem mem2 tiles tiles2, 0 <= r ->
  (forall k, mem k = mem2 k) -> (forall tx ty k, tiles tx ty k = tiles2 tx ty k) ->
  forall tx ty k, tile_lines V trash (mkBuffer V w h d) tw th stop n (r * th) (r * th * w) mem tiles tx ty k =
                  tile_lines V trash (mkBuffer V w h d2) tw th stop n (r * th) (r * th * w) mem2 tiles2 tx ty k.
Proof.
  intros Tw Th W D. induction n as [ | n IH ]; intros r mem mem2 tiles tiles2 R M T tx ty k; cbn [tile_lines]; [ apply T | ].
  destruct (r * th <? stop); [ | apply T ]. cbn [b_width].
  pose proof (tile_columns_same w h d d2 tw th r Tw Th R W D (Z.to_nat (Z.quot (w - 1) tw + 1)) 0 mem mem2 tiles tiles2 ltac:(lia) M T) as K.
  cbv zeta in K. replace (r * th * w + 0 * tw) with (r * th * w) in K by ring.
  destruct (tile_columns _ _ (mkBuffer V w h d) _ _ _ _ _ _ _ _) as [ a b ], (tile_columns _ _ (mkBuffer V w h d2) _ _ _ _ _ _ _ _) as [ a2 b2 ].
  cbn [fst snd] in K. destruct K as [ Ka Kb ].
  replace (r * th + th) with ((r + 1) * th) by ring. replace (r * th * w + w * th) with ((r + 1) * th * w) by ring.
  apply IH; [ lia | exact Ka | exact Kb ].
Qed.

(** * Reading tiles *)
Lemma copy_lines_at (src : Z -> V) step sstep size : 0 <= size <= step -> forall n dest at_ from,
  (forall j c, 0 <= j < Z.of_nat n -> 0 <= c < size ->
     copy_lines V n dest at_ step src from sstep size (at_ + j * step + c) = src (from + j * sstep + c)) /\
  (forall k, (forall j c, 0 <= j < Z.of_nat n -> 0 <= c < size -> k <> at_ + j * step + c) ->
     copy_lines V n dest at_ step src from sstep size k = dest k).
Proof.
  intros S. induction n as [ | n IH ]; intros dest at_ from; cbn [copy_lines].
  { split; [ intros; lia | reflexivity ]. }
  set (d2 := fun k => _). destruct (IH d2 (at_ + step) (from + sstep)) as [ H1 H2 ]. split.
  - intros j c J C. destruct (Z.eq_dec j 0) as [ -> | N ].
    + rewrite H2 by (intros j2 c2 J2 C2; nia). unfold d2.
      replace (_ && _) with true by (symmetry; rewrite andb_true_iff, Z.leb_le, Z.ltb_lt; lia). f_equal. lia.
    + replace (at_ + j * step + c) with (at_ + step + (j - 1) * step + c) by ring. rewrite H1 by lia. f_equal. ring.
  - intros k K. rewrite H2.
    + unfold d2. destruct (_ && _) eqn:E; [ | reflexivity ]. rewrite andb_true_iff, Z.leb_le, Z.ltb_lt in E.
      exfalso. apply (K 0 (k - at_)); lia.
    + intros j c J C. replace (at_ + step + j * step + c) with (at_ + (j + 1) * step + c) by ring. apply K; lia.
Qed.

Lemma same_place W a c b d : 0 <= c < W -> 0 <= d < W -> a * W + c = b * W + d -> c = d.
Proof. intros C D E. assert (a = b) by nia. subst. lia. Qed.

Section Reading.
Variables W H tw th : Z.
Variable tiles : Z -> Z -> Z -> V.
Variable img : Z -> Z -> V.
Hypothesis HF : holds (mkFile V W H tw th tiles) img.

Lemma sizes_pos : 0 < W /\ 0 < H /\ 0 < tw /\ 0 < th.
Proof. destruct HF as (A & B & C & D & _). cbn in *. auto. Qed.
Lemma tile_at tx ty i j : 0 <= tx -> 0 <= ty -> 0 <= i < tw -> 0 <= j < th -> tx * tw + i < W -> ty * th + j < H ->
  tiles tx ty (j * tw + i) = img (tx * tw + i) (ty * th + j).
Proof. destruct HF as (_ & _ & _ & _ & S). exact (S tx ty i j). Qed.

(** One row of tiles: lines [base], ... of the buffer. *)
Lemma read_columns_ok r skip height base : 0 <= r -> 0 <= skip -> 0 <= height -> skip + height <= th -> r * th + skip + height <= H -> 0 <= base ->
  forall n q mem, 0 <= q -> W - q * tw <= Z.of_nat n ->
  let out := read_columns V tiles W tw th (r * th) skip height n (q * tw) (base * W) mem in
  (forall j c, 0 <= j < height -> q * tw <= c < W -> out ((base + j) * W + c) = img c (r * th + skip + j)) /\
  (forall k, (forall j c, 0 <= j < height -> q * tw <= c < W -> k <> (base + j) * W + c) -> out k = mem k).
Proof.
  intros R Sk Hh Fit Fh B. destruct sizes_pos as (W0 & H0 & Tw & Th).
  induction n as [ | n IH ]; intros q mem Q F out.
  { split; [ intros j c J C; lia | reflexivity ]. }
  unfold out. cbn [read_columns]. destruct (Z.ltb_spec (q * tw) W) as [ L | L ].
  2: { split; [ intros j c J C; lia | reflexivity ]. }
  rewrite !Z.quot_mul by lia.
  set (mem2 := copy_lines _ _ _ _ _ _ _ _ _).
  destruct (copy_lines_at (tiles q r) W tw (Z.min tw (W - q * tw)) ltac:(nia) (Z.to_nat height) mem (base * W + q * tw) (skip * tw)) as [ C1 C2 ].
  fold mem2 in C1, C2.
  specialize (IH (q + 1) mem2 ltac:(lia) ltac:(lia)). cbv zeta in IH.
  replace ((q + 1) * tw) with (q * tw + tw) in IH by ring. destruct IH as [ H1 H2 ]. split.
  - intros j c J C. destruct (Z.lt_ge_cases c (q * tw + tw)) as [ Lc | Lc ].
    + rewrite H2 by (intros j2 c2 J2 C2' X2; assert (c = c2) by (apply (same_place W (base + j) c (base + j2) c2); nia); lia).
      replace ((base + j) * W + c) with (base * W + q * tw + j * W + (c - q * tw)) by ring.
      rewrite C1 by lia.
      replace (skip * tw + j * tw + (c - q * tw)) with ((skip + j) * tw + (c - q * tw)) by ring.
      rewrite tile_at by lia. f_equal; ring.
    + apply H1; lia.
  - intros k K. rewrite H2.
    + apply C2. intros j c J C E. apply (K j (q * tw + c)); [ lia | lia | rewrite E; ring ].
    + intros j c J C. apply K; lia.
Qed.

Lemma read_rows_ok start n : 0 <= start -> 0 < n -> start + n <= H ->
  let stop := start + n in
  let a := Z.quot start th in let e := Z.quot (stop - 1) th + 1 in
  forall fuel r mem, a <= r -> e * th - r * th <= Z.of_nat fuel ->
  let base := if r =? a then 0 else r * th - start in
  let out := read_rows V tiles W tw th start stop (a * th) (e * th) fuel (r * th) (W * base) mem in
  (forall x y, 0 <= x < W -> base <= y < n -> out (y * W + x) = img x (start + y)) /\
  (forall k, k < base * W \/ n * W <= k -> out k = mem k).
Proof.
  intros S0 N0 Fit stop a e. destruct sizes_pos as (W0 & H0 & Tw & Th).
  assert (A : a * th <= start < (a + 1) * th /\ 0 <= a).
  { unfold a. rewrite Z.quot_div_nonneg by lia. pose proof (Z.div_mod start th ltac:(lia)). pose proof (Z.mod_pos_bound start th ltac:(lia)).
    pose proof (Z.div_pos start th ltac:(lia) ltac:(lia)). nia. }
  assert (E : (e - 1) * th < stop <= e * th /\ a < e).
  { unfold e, stop. rewrite Z.quot_div_nonneg by lia. pose proof (Z.div_mod (start + n - 1) th ltac:(lia)). pose proof (Z.mod_pos_bound (start + n - 1) th ltac:(lia)).
    split; [ nia | ]. unfold a. rewrite Z.quot_div_nonneg by lia. pose proof (Z.div_le_mono start (start + n - 1) th ltac:(lia) ltac:(lia)). lia. }
  clearbody a e. subst stop.
  induction fuel as [ | fuel IH ]; intros r mem R F base out.
  { assert (e <= r) by nia. split; [ | reflexivity ]. intros x y X Y. unfold base in Y.
    destruct (Z.eqb_spec r a); nia. }
  unfold out. cbn [read_rows]. destruct (Z.ltb_spec (r * th) (e * th)) as [ L | L ].
  2: { assert (e <= r) by nia. split; [ | reflexivity ]. intros x y X Y. unfold base in Y. destruct (Z.eqb_spec r a); nia. }
  set (skip := if r * th =? a * th then _ else _). set (send := if r * th + th =? e * th then _ else _).
  assert (Sk : skip = if r =? a then start - a * th else 0).
  { unfold skip. destruct (Z.eqb_spec r a), (Z.eqb_spec (r * th) (a * th)); try reflexivity; nia. }
  assert (Se : send = if r + 1 =? e then e * th - (start + n) else 0).
  { unfold send. destruct (Z.eqb_spec (r + 1) e), (Z.eqb_spec (r * th + th) (e * th)); try reflexivity; nia. }
  clearbody skip send.
  assert (Hs : 0 <= skip /\ 0 <= th - skip - send /\ 0 <= send).
  { rewrite Sk, Se. destruct (Z.eqb_spec r a), (Z.eqb_spec (r + 1) e); nia. }
  assert (Bs : r * th + skip = start + base /\ 0 <= base).
  { unfold base. rewrite Sk. destruct (Z.eqb_spec r a); nia. }
  set (height := th - skip - send) in *.
  assert (Bn : base + height = if r + 1 =? e then n else (r + 1) * th - start).
  { unfold height. rewrite Se. destruct (Z.eqb_spec (r + 1) e); nia. }
  assert (Fh : r * th + skip + height <= H).
  { replace (r * th + skip + height) with (start + (base + height)) by lia. rewrite Bn. destruct (Z.eqb_spec (r + 1) e); nia. }
  pose proof (read_columns_ok r skip height base ltac:(lia) ltac:(lia) ltac:(lia) ltac:(unfold height; lia) Fh ltac:(lia) (Z.to_nat W) 0 mem ltac:(lia) ltac:(lia)) as C.
  cbv zeta in C. change (0 * tw) with 0 in C. replace (base * W) with (W * base) in C by ring.
  set (mem2 := read_columns _ _ _ _ _ _ _ _ _ _ _ _) in *. destruct C as [ C1 C2 ].
  specialize (IH (r + 1) mem2 ltac:(lia) ltac:(lia)). cbv zeta in IH.
  replace (r + 1 =? a) with false in IH by (symmetry; apply Z.eqb_neq; lia).
  replace ((r + 1) * th) with (r * th + th) in IH by ring.
  destruct (Z.eqb_spec (r + 1) e) as [ Ee | Ee ].
  - (* the last row of tiles *)
    assert (Stop : forall base2, read_rows V tiles W tw th start (start + n) (a * th) (e * th) fuel (r * th + th) base2 mem2 = mem2).
    { intros base2. destruct fuel; cbn [read_rows]; [ reflexivity | ].
      replace (r * th + th <? e * th) with false by (symmetry; apply Z.ltb_ge; nia). reflexivity. }
    rewrite Stop. split.
    + intros x y X Y. replace (y * W + x) with ((base + (y - base)) * W + x) by ring. rewrite C1 by lia. f_equal. lia.
    + intros k K. apply C2. intros j c J Cc. destruct K; nia.
  - replace (W * base + W * height) with (W * (r * th + th - start)) by (rewrite <- Z.mul_add_distr_l, Bn; ring).
    destruct IH as [ H1 H2 ]. split.
    + intros x y X Y. destruct (Z.lt_ge_cases y (r * th + th - start)) as [ Ly | Ly ].
      * rewrite H2 by nia. replace (y * W + x) with ((base + (y - base)) * W + x) by ring. rewrite C1 by lia. f_equal. lia.
      * apply H1; lia.
    + assert (Le : base + height <= n) by nia.
      intros k K. rewrite H2 by (destruct K; [ left; nia | right; assumption ]). apply C2. intros j c J Cc. destruct K; nia.
Qed.
End Reading.

Lemma read_tiles_ok (f : image_file V) tw th img fresh start n : holds (as_texture f tw th) img ->
  0 <= start -> 0 < n -> start + n <= i_height V f ->
  (forall x y, 0 <= x < i_width V f -> 0 <= y < n -> read_tiles V f tw th fresh start n (y * i_width V f + x) = img x (start + y)) /\
  (forall k, k < 0 \/ n * i_width V f <= k -> read_tiles V f tw th fresh start n k = fresh k).
Proof.
  intros HF S N F. unfold as_texture in HF. unfold read_tiles.
  pose proof (read_rows_ok (i_width V f) (i_height V f) tw th (i_tiles V f) img HF start n S N F
                (Z.to_nat ((Z.quot (start + n - 1) th + 1) * th - Z.quot start th * th)) (Z.quot start th) fresh ltac:(lia) ltac:(lia)) as K.
  cbv zeta in K. rewrite Z.eqb_refl in K. rewrite Z.mul_0_r in K. exact K.
Qed.

(** * Scanlines *)
Lemma scan_lines_ok (b : buffer V) : forall n line raw lines,
  (forall j k, 0 <= j < Z.of_nat n -> scan_lines V b n line raw lines (line + j) k = b_data V b (raw + j * b_width V b + k)) /\
  (forall l k, l < line \/ line + Z.of_nat n <= l -> scan_lines V b n line raw lines l k = lines l k).
Proof.
  induction n as [ | n IH ]; intros line raw lines; cbn [scan_lines].
  { split; [ intros; lia | reflexivity ]. }
  set (l2 := fun l k => _). destruct (IH (line + 1) (raw + b_width V b) l2) as [ H1 H2 ]. split.
  - intros j k J. destruct (Z.eq_dec j 0) as [ -> | N ].
    + rewrite H2 by lia. unfold l2. rewrite Z.add_0_r, Z.eqb_refl. f_equal. ring.
    + replace (line + j) with (line + 1 + (j - 1)) by lia. rewrite H1 by lia. f_equal. ring.
  - intros l k L. rewrite H2 by lia. unfold l2. replace (l =? line) with false by (symmetry; apply Z.eqb_neq; lia). reflexivity.
Qed.
Lemma read_lines_ok (lines : Z -> Z -> V) W : 0 < W -> forall n line base mem,
  (forall j c, 0 <= j < Z.of_nat n -> 0 <= c < W -> read_lines V lines W n line (base * W) mem ((base + j) * W + c) = lines (line + j) c) /\
  (forall k, k < base * W \/ (base + Z.of_nat n) * W <= k -> read_lines V lines W n line (base * W) mem k = mem k).
Proof.
  intros W0. induction n as [ | n IH ]; intros line base mem; cbn [read_lines].
  { split; [ intros; lia | reflexivity ]. }
  set (m2 := fun k => _). replace (base * W + W) with ((base + 1) * W) by ring.
  destruct (IH (line + 1) (base + 1) m2) as [ H1 H2 ]. split.
  - intros j c J C. destruct (Z.eq_dec j 0) as [ -> | N ].
    + rewrite H2 by nia. unfold m2. replace (_ && _) with true by (symmetry; rewrite andb_true_iff, Z.leb_le, Z.ltb_lt; nia). f_equal; ring.
    + replace ((base + j) * W + c) with ((base + 1 + (j - 1)) * W + c) by ring. rewrite H1 by lia. f_equal; ring.
  - intros k K. rewrite H2 by (destruct K; [ left | right ]; nia). unfold m2. replace (_ && _) with false; [ reflexivity | ].
    symmetry. rewrite andb_false_iff, Z.leb_gt, Z.ltb_ge. destruct K; [ left | right ]; nia.
Qed.

Lemma write_scan_ok fresh w h : forall bs f, 0 < w ->
  i_width V f = w -> i_height V f = h -> i_tile V f = None -> 0 <= i_line V f ->
  Forall (fun b => b_width V b = w /\ 0 < b_height V b) bs -> i_line V f + lines_of bs <= h ->
  exists g, write_all V trash fresh f bs = Some g /\ i_width V g = w /\ i_height V g = h /\ i_tile V g = None /\
    i_line V g = i_line V f + lines_of bs /\
    (forall x y, 0 <= y < lines_of bs -> stacked bs x y = Some (i_lines V g (i_line V f + y) x)) /\
    (forall l x, l < i_line V f -> i_lines V g l x = i_lines V f l x).
Proof.
  intros bs. induction bs as [ | b bs IH ]; intros f W Ew Eh Et L0 Fb Fit.
  - exists f. cbn [lines_of write_all stacked]. do 5 (split; [ first [ assumption | reflexivity | lia ] | ]). split; [ intros; lia | reflexivity ].
  - apply Forall_cons_iff in Fb. destruct Fb as [ [ Eb Hb ] Fb ]. cbn [lines_of] in *.
    assert (Lp : 0 <= lines_of bs).
    { clear - Fb. induction Fb as [ | c r [ _ C ] ]; cbn [lines_of]; lia. }
    cbn [write_all]. unfold write_pixels. rewrite Ew, Eh, Eb, Z.eqb_refl, Z.min_l by lia.
    rewrite (proj2 (Z.ltb_lt 0 _) Hb), Et.
    set (g := write_scanlines V f _).
    destruct (IH g W) as (k & Ek & K1 & K2 & K3 & K4 & K5 & K6); unfold g; cbn [write_scanlines i_width i_height i_tile i_line b_height]; auto; try lia.
    exists k. unfold g in Ek. split; [ exact Ek | ]. repeat (split; [ assumption | ]).
    unfold g, write_scanlines in K4, K5, K6. cbn [i_line b_height i_lines] in K4, K5, K6. split; [ lia | ].
    destruct (scan_lines_ok (mkBuffer V w (b_height V b) (b_data V b)) (Z.to_nat (b_height V b)) (i_line V f) 0 (i_lines V f)) as [ S1 S2 ].
    cbn [b_width b_height b_data] in S1, S2. split.
    + intros x y Y. cbn [stacked]. destruct (Z.ltb_spec y (b_height V b)) as [ Ly | Ly ].
      * rewrite K6 by lia. rewrite S1 by lia. rewrite Eb. reflexivity.
      * rewrite K5 by lia. do 2 f_equal. lia.
    + intros l x L. rewrite K6 by lia. apply S2. lia.
Qed.
End Tiff.

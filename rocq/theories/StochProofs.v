(** Proofs about random sampling of textures. *)

From Coq Require Import List Bool ZArith QArith Lia Lqa.
From Verif Require Import TexModel TexSpec TexProofs AccumModel AccumSpec AccumProofs StochModel StochSpec.
Import ListNotations.
Open Scope Z_scope.

(** * Floats *)
Lemma whole_value d : float_floor d = float_ceil d -> (float_value d == inject_Z (float_floor d))%Q.
Proof.
  destruct d as [ m e ]. unfold float_floor, float_ceil, float_value. destruct (Z.leb_spec 0 e) as [ E | E ]; [ reflexivity | ].
  set (p := 2 ^ (- e)). assert (P : 0 < p) by (apply Z.pow_pos_nonneg; lia). intros H.
  assert (D : m = p * (m / p)).
  { pose proof (Z.div_mod m p ltac:(lia)). pose proof (Z.mod_pos_bound m p ltac:(lia)).
    pose proof (Z.div_mod (- m) p ltac:(lia)). pose proof (Z.mod_pos_bound (- m) p ltac:(lia)). nia. }
  unfold Qeq, inject_Z. cbn [Qnum Qden]. rewrite Z2Pos.id by exact P. rewrite Z.mul_1_r. rewrite D at 1. ring.
Qed.

Lemma share_ok rem ar left u : 0 < rem -> 0 < ar <= left -> rem * left < small -> (0 <= u)%Q ->
  exists n, tile_share rem ar left u = Some n /\ 0 <= n <= rem /\ (ar = left -> n = rem).
Proof.
  intros R A F U. unfold tile_share. replace ((0 <? ar) && (0 <? left)) with true by (symmetry; rewrite andb_true_iff, !Z.ltb_lt; lia).
  rewrite (float_of_exact rem), (float_of_exact ar), (float_of_exact left), (float_of_exact (rem * ar)) by nia.
  destruct (float_quotient_ok (rem * ar) left ltac:(nia) ltac:(nia)) as [ Fl Ce ].
  set (d := float_quotient _ _) in *. eexists. split; [ reflexivity | ]. rewrite Fl.
  pose proof (Z.div_mod (rem * ar) left ltac:(lia)) as D. pose proof (Z.mod_pos_bound (rem * ar) left ltac:(lia)) as M.
  destruct (Z.eq_dec ((rem * ar) mod left) 0) as [ Z0 | Z0 ].
  - assert (W : float_floor d = float_ceil d).
    { rewrite Fl. assert (E : - (rem * ar) = - (rem * ar / left) * left) by lia. rewrite E in Ce. rewrite Z.div_mul in Ce by lia. lia. }
    apply whole_value in W. rewrite Fl in W.
    assert (Qle_bool (float_value d - inject_Z (rem * ar / left)) u = true) as ->.
    { apply Qle_bool_iff. rewrite W. lra. }
    split; [ nia | ]. intros ->. rewrite Z.add_0_r. apply Z.div_mul. lia.
  - destruct (Qle_bool _ u); (split; [ nia | ]; intros ->; exfalso; apply Z0; apply Z.mod_mul; lia).
Qed.

(** The rounding of a quotient is at most half of the last of 24 digits. *)
Lemma float_quotient_upper a b : 0 < a -> 0 < b -> let '(m, e) := float_quotient a b in
  0 <= m /\ (if 0 <=? e then m * 2 ^ e * b * 2 ^ 24 <= a * (2 ^ 24 + 1) else m * b * 2 ^ 24 <= a * (2 ^ 24 + 1) * 2 ^ (- e)).
Proof.
  intros A B. unfold float_quotient.
  destruct (Z.log2_spec a ltac:(lia)) as [ A1 A2 ]. destruct (Z.log2_spec b ltac:(lia)) as [ B1 B2 ].
  pose proof (Z.log2_nonneg a) as La. pose proof (Z.log2_nonneg b) as Lb.
  set (e0 := Z.log2 a - Z.log2 b - 24). set (e := if _ : bool then e0 + 1 else e0).
  assert (Es : if 0 <=? e then b * 2 ^ e * 2 ^ 23 <= a else b * 2 ^ 23 <= a * 2 ^ (- e)).
  { unfold e. destruct (Z.leb_spec 0 e0) as [ P | P ].
    - destruct (Z.leb_spec (b * 2 ^ (e0 + 24)) a) as [ C | C ].
      + rewrite (proj2 (Z.leb_le 0 (e0 + 1))) by lia. rewrite !Z.pow_add_r in * by lia. change (2 ^ 1) with 2. lia.
      + rewrite (proj2 (Z.leb_le 0 e0)) by lia.
        assert (Q : 2 ^ Z.log2 a = 2 ^ Z.succ (Z.log2 b) * 2 ^ e0 * 2 ^ 23) by (rewrite <- !Z.pow_add_r by lia; f_equal; unfold e0; lia).
        assert (0 < 2 ^ e0) by (apply Z.pow_pos_nonneg; lia).
        assert (b * (2 ^ e0 * 2 ^ 23) <= 2 ^ Z.succ (Z.log2 b) * (2 ^ e0 * 2 ^ 23)) by (apply Z.mul_le_mono_nonneg_r; lia). lia.
    - destruct (Z.leb_spec (b * 2 ^ 24) (a * 2 ^ (- e0))) as [ C | C ].
      + destruct (Z.leb_spec 0 (e0 + 1)) as [ P1 | P1 ].
        * replace (e0 + 1) with 0 by lia. replace (- e0) with 1 in C by lia. change (2 ^ 0) with 1. change (2 ^ 1) with 2 in C. lia.
        * replace (- e0) with (- (e0 + 1) + 1) in C by lia. rewrite (Z.pow_add_r 2 (- (e0 + 1)) 1) in C by lia. change (2 ^ 1) with 2 in C. lia.
      + rewrite (proj2 (Z.leb_gt 0 e0)) by lia.
        assert (Q : 2 ^ Z.log2 a * 2 ^ (- e0) = 2 ^ Z.succ (Z.log2 b) * 2 ^ 23) by (rewrite <- !Z.pow_add_r by lia; f_equal; unfold e0; lia).
        assert (0 < 2 ^ (- e0)) by (apply Z.pow_pos_nonneg; lia).
        assert (2 ^ Z.log2 a * 2 ^ (- e0) <= a * 2 ^ (- e0)) by (apply Z.mul_le_mono_nonneg_r; lia).
        assert (b * 2 ^ 23 <= 2 ^ Z.succ (Z.log2 b) * 2 ^ 23) by (apply Z.mul_le_mono_nonneg_r; lia). lia. }
  clearbody e. clear e0 A1 A2 B1 B2 La Lb. unfold scale_down. destruct (Z.leb_spec 0 e) as [ P | P ].
  - assert (0 < 2 ^ e) by (apply Z.pow_pos_nonneg; lia).
    assert (Pb : 0 < b * 2 ^ e) by nia.
    pose proof (half_even_bound a (b * 2 ^ e) Pb) as H1. set (m := half_even a (b * 2 ^ e)) in *. set (c := b * 2 ^ e) in *.
    split; [ change (2 ^ 23) with 8388608 in Es; nia | ].
    replace (m * 2 ^ e * b * 2 ^ 24) with (m * c * 2 ^ 24) by (unfold c; ring). change (2 ^ 24) with 16777216. change (2 ^ 23) with 8388608 in Es. lia.
  - pose proof (half_even_bound (a * 2 ^ (- e)) b B) as H1. set (m := half_even _ b) in *.
    assert (0 < 2 ^ (- e)) by (apply Z.pow_pos_nonneg; lia). set (c := a * 2 ^ (- e)) in *.
    split; [ change (2 ^ 23) with 8388608 in Es; nia | ].
    replace (a * (2 ^ 24 + 1) * 2 ^ (- e)) with (c * (2 ^ 24 + 1)) by (unfold c; ring). change (2 ^ 24) with 16777216. change (2 ^ 23) with 8388608 in Es. lia.
Qed.

Lemma place_ok range u : 0 < range <= small -> fraction u -> 0 <= place range u < range.
Proof.
  intros R [ U0 U1 ]. unfold place. destruct (Z.ltb_spec 0 (Qnum u)) as [ N | N ]; [ | lia ].
  rewrite float_of_exact by exact R. destruct u as [ n d ]. unfold Qle in U1. cbn [Qnum Qden] in *.
  pose proof (float_quotient_upper (range * n) (Zpos d) ltac:(nia) ltac:(lia)) as H.
  destruct (float_quotient (range * n) (Zpos d)) as [ m e ]. destruct H as [ M H ].
  unfold float_floor. change (2 ^ 24) with 16777216 in H.
  assert (K : range * n * 16777216 * 16777217 < range * Zpos d * 16777216 * 16777216) by nia.
  destruct (Z.leb_spec 0 e) as [ E | E ].
  - assert (0 < 2 ^ e) by (apply Z.pow_pos_nonneg; lia). split; [ nia | ]. set (v := m * 2 ^ e) in *.
    assert (v * Zpos d < range * Zpos d) by lia. nia.
  - set (p := 2 ^ (- e)) in *. assert (P : 0 < p) by (apply Z.pow_pos_nonneg; lia).
    split; [ apply Z.div_pos; lia | ]. apply Z.div_lt_upper_bound; [ exact P | ].
    assert (m * Zpos d < p * range * Zpos d) by nia. nia.
Qed.

(** * Tiles *)
Section Tiles.
Context {V : Type}.
Variable f : file V.
Variable img : Z -> Z -> V.
Hypothesis HF : holds f img.
Let W := f_width V f.
Let H := f_height V f.
Let tw := f_tile_width V f.
Let th := f_tile_height V f.

Section Walk.
Variable s : support.
Hypothesis SX : 0 <= sx0 s /\ sx0 s < sx1 s /\ sx1 s <= W.
Hypothesis SY : 0 <= sy0 s /\ sy0 s < sy1 s /\ sy1 s <= H.
Hypothesis Small : area s < small.

Lemma tile_samples_ok t tx ty numbers : good_tile f img t tx ty ->
  0 <= tx -> sx0 s < (tx + 1) * tw -> tx * tw < sx1 s -> 0 <= ty -> sy0 s < (ty + 1) * th -> ty * th < sy1 s ->
  (forall i, fraction (fst (numbers i)) /\ fraction (snd (numbers i))) ->
  forall n i, exists l, tile_samples V t s numbers n i = Some l /\ length l = n /\
    forall x y v, In (x, y, v) l -> within s x y /\ v = img x y.
Proof.
  intros (G1 & G2 & G3 & G4 & G5) X1 X2 X3 Y1 Y2 Y3 N. fold tw th W H in G1, G2, G3, G4, G5.
  destruct (sizes f img HF) as (W0 & H0 & tw0 & th0). fold tw th W H in W0, H0, tw0, th0.
  induction n as [ | n IH ]; intros i; cbn [tile_samples].
  - exists []. split; [ reflexivity | ]. split; [ reflexivity | ]. intros x y v [].
  - set (r := intersect _ _). destruct (N i) as [ Nx Ny ]. destruct (IH (S i)) as (l & El & Ln & Il). rewrite El.
    assert (Rx : sx0 r = Z.max 0 (sx0 s - tx * tw) /\ sx1 r = Z.min (Z.min tw (W - tx * tw)) (sx1 s - tx * tw)).
    { unfold r, intersect. cbn [sx0 sx1]. rewrite G1, G3. split; reflexivity. }
    assert (Ry : sy0 r = Z.max 0 (sy0 s - ty * th) /\ sy1 r = Z.min (Z.min th (H - ty * th)) (sy1 s - ty * th)).
    { unfold r, intersect. cbn [sy0 sy1]. rewrite G2, G4. split; reflexivity. }
    assert (Sz : sx1 r - sx0 r <= small /\ sy1 r - sy0 r <= small).
    { unfold area in Small. assert (sx1 s - sx0 s < small) by nia. assert (sy1 s - sy0 s < small) by nia. lia. }
    pose proof (place_ok (sx1 r - sx0 r) (fst (numbers i)) ltac:(lia) Nx) as Px.
    pose proof (place_ok (sy1 r - sy0 r) (snd (numbers i)) ltac:(lia) Ny) as Py.
    set (px := place _ (fst _)) in *. set (py := place _ (snd _)) in *. clearbody px py.
    unfold value. rewrite G3, G4.
    replace (_ && _ && _ && _) with true by (symmetry; rewrite !andb_true_iff, !Z.leb_le, !Z.ltb_lt; lia).
    eexists. split; [ reflexivity | ]. split; [ cbn [length]; lia | ].
    intros x y v [ E | I ]; [ | apply Il; exact I ]. injection E as <- <- <-.
    rewrite G1, G2. split; [ unfold within; lia | ]. rewrite <- G3. apply G5; rewrite ?G3, ?G4; lia.
Qed.

Let x0 := Z.quot (sx0 s) tw.
Let xend := Z.quot (sx1 s - 1) tw + 1.
(** The texels from tile ([x], [y]) on. *)
Definition from_tile (x y : Z) : Z :=
  (sx1 s - Z.max (sx0 s) (x * tw)) * (Z.min (sy1 s) ((y + 1) * th) - Z.max (sy0 s) (y * th)) +
  (sx1 s - sx0 s) * (sy1 s - Z.min (sy1 s) ((y + 1) * th)).

Lemma stoch_walk_ok fresh rand table : (forall k, 0 <= rand k)%Q -> (forall j i, fraction (fst (table j i)) /\ fraction (snd (table j i))) ->
  forall n a x y left rem k j, valid f img a -> 0 <= rem -> rem * area s < small ->
  (rem = 0 \/ let '(x, y) := if xend <=? x + 1 then (x0, y + 1) else (x + 1, y) in
   left = from_tile x y /\ x0 <= x < xend /\ 0 <= y /\ sy0 s < (y + 1) * th /\ y * th < sy1 s) ->
  left <= Z.of_nat n ->
  exists l b, stoch_walk V fresh rand table s x0 xend n a x y left rem k j = Some (l, b) /\ valid f img b /\ samples_of l rem s img.
Proof.
  intros R T. destruct (sizes f img HF) as (W0 & H0 & tw0 & th0). fold tw th W H in W0, H0, tw0, th0.
  assert (Xr : forall x, x0 <= x < xend <-> sx0 s < (x + 1) * tw /\ x * tw < sx1 s) by (intros x; apply (quot_range f); lia).
  assert (X0 : 0 <= x0) by (unfold x0; apply Z.quot_pos; lia).
  assert (Xe : x0 < xend).
  { unfold x0, xend. rewrite !Z.quot_div_nonneg by lia. pose proof (Z.div_le_mono (sx0 s) (sx1 s - 1) tw ltac:(lia) ltac:(lia)). lia. }
  assert (Xs : x0 * tw <= sx0 s).
  { unfold x0. rewrite Z.quot_div_nonneg by lia. pose proof (Z.mul_div_le (sx0 s) tw ltac:(lia)). lia. }
  assert (Xl : sx1 s <= xend * tw).
  { destruct (Z.le_gt_cases (sx1 s) (xend * tw)) as [ C | C ]; [ exact C | ]. exfalso.
    assert (L : sx0 s < (x0 + 1) * tw) by (apply (proj1 (Xr x0)); lia).
    assert (x0 <= xend < xend) as Q; [ | lia ]. apply (proj2 (Xr xend)). split; [ | exact C ].
    assert ((x0 + 1) * tw <= (xend + 1) * tw) by (apply Z.mul_le_mono_nonneg_r; lia). lia. }
  induction n as [ | n IH ]; intros a x y left rem k j Va R0 Fit Inv Fuel.
  - cbn [stoch_walk]. destruct (Z.eqb_spec rem 0) as [ -> | Nz ].
    + exists [], a. split; [ reflexivity | ]. split; [ exact Va | ]. split; [ reflexivity | intros ? ? ? [] ].
    + exfalso. destruct Inv as [ Inv | Inv ]; [ contradiction | ]. destruct (if xend <=? x + 1 then (x0, y + 1) else (x + 1, y)) as [ u v ].
      destruct Inv as (L & Xu & V0 & V1 & V2). apply Xr in Xu. unfold from_tile in L.
      assert (0 < sx1 s - Z.max (sx0 s) (u * tw)) by lia. assert (0 < Z.min (sy1 s) ((v + 1) * th) - Z.max (sy0 s) (v * th)) by lia.
      assert (0 <= sy1 s - Z.min (sy1 s) ((v + 1) * th)) by lia.
      assert (0 < left); [ | lia ]. rewrite L. apply Z.add_pos_nonneg; [ apply Z.mul_pos_pos; lia | apply Z.mul_nonneg_nonneg; lia ].
  - cbn [stoch_walk]. destruct (Z.eqb_spec rem 0) as [ -> | Nz ].
    + exists [], a. split; [ reflexivity | ]. split; [ exact Va | ]. split; [ reflexivity | intros ? ? ? [] ].
    + destruct Inv as [ Inv | Inv ]; [ contradiction | ].
      destruct (if xend <=? x + 1 then (x0, y + 1) else (x + 1, y)) as [ u v ].
      destruct Inv as (L & Xu & V0 & V1 & V3).
      rewrite (proj1 Va). fold tw th.
      pose proof (proj1 (Xr u) Xu) as [ U1 U2 ].
      set (ar := area _).
      assert (Ar : ar = (Z.min (sx1 s) ((u + 1) * tw) - Z.max (sx0 s) (u * tw)) * (Z.min (sy1 s) ((v + 1) * th) - Z.max (sy0 s) (v * th)))
        by reflexivity.
      clearbody ar.
      assert (Ex : 0 < Z.min (sx1 s) ((u + 1) * tw) - Z.max (sx0 s) (u * tw)) by lia.
      assert (Ey : 0 < Z.min (sy1 s) ((v + 1) * th) - Z.max (sy0 s) (v * th)) by lia.
      assert (Ey2 : 0 <= sy1 s - Z.min (sy1 s) ((v + 1) * th)) by lia.
      assert (Ex2 : 0 <= sx1 s - Z.min (sx1 s) ((u + 1) * tw)) by lia.
      assert (Lar : left - ar = (sx1 s - Z.min (sx1 s) ((u + 1) * tw)) * (Z.min (sy1 s) ((v + 1) * th) - Z.max (sy0 s) (v * th)) +
                    (sx1 s - sx0 s) * (sy1 s - Z.min (sy1 s) ((v + 1) * th))).
      { rewrite L, Ar. unfold from_tile. ring. }
      assert (A0 : 0 < ar <= left).
      { split; [ rewrite Ar; apply Z.mul_pos_pos; lia | ]. assert (0 <= left - ar); [ | lia ]. rewrite Lar.
        apply Z.add_nonneg_nonneg; apply Z.mul_nonneg_nonneg; lia. }
      assert (Le : left <= area s).
      { rewrite L. unfold from_tile, area.
        assert (Lx : sx1 s - Z.max (sx0 s) (u * tw) <= sx1 s - sx0 s) by lia.
        pose proof (Z.mul_le_mono_nonneg_r _ _ (Z.min (sy1 s) ((v + 1) * th) - Z.max (sy0 s) (v * th)) ltac:(lia) Lx) as M1.
        assert (Ly : Z.min (sy1 s) ((v + 1) * th) - Z.max (sy0 s) (v * th) + (sy1 s - Z.min (sy1 s) ((v + 1) * th)) <= sy1 s - sy0 s) by lia.
        pose proof (Z.mul_le_mono_nonneg_l _ _ (sx1 s - sx0 s) ltac:(lia) Ly) as M2. lia. }
      assert (Fl : rem * left < small) by (pose proof (Z.mul_le_mono_nonneg_l _ _ rem ltac:(lia) Le); lia).
      destruct (share_ok rem ar left (rand k) ltac:(lia) A0 Fl (R k)) as (num & Es & Nr & Last). rewrite Es.
      assert (Nu : 0 <= u) by lia.
      assert (Next : ar < left -> let '(x, y) := if xend <=? u + 1 then (x0, v + 1) else (u + 1, v) in
        left - ar = from_tile x y /\ x0 <= x < xend /\ 0 <= y /\ sy0 s < (y + 1) * th /\ y * th < sy1 s).
      { intros Hz. destruct (Z.leb_spec xend (u + 1)) as [ C | C ].
        - assert (Eu : u + 1 = xend) by lia. rewrite Eu in *.
          assert (Full : Z.min (sx1 s) (xend * tw) = sx1 s) by lia. rewrite Full in *.
          assert (Lv : (v + 1) * th < sy1 s).
          { destruct (Z.lt_ge_cases ((v + 1) * th) (sy1 s)) as [ Lv | Lv ]; [ exact Lv | ]. rewrite (Z.min_l (sy1 s)) in Lar by lia. lia. }
          split; [ | do 3 (split; [ lia | ]); lia ].
          rewrite Lar. unfold from_tile. rewrite (Z.max_l (sx0 s) (x0 * tw)) by lia.
          rewrite (Z.min_r (sy1 s) ((v + 1) * th)) by lia. rewrite (Z.max_r (sy0 s) ((v + 1) * th)) by lia. ring.
        - assert (C2 : (u + 1) * tw < sx1 s) by (apply (proj1 (Xr (u + 1))); lia).
          rewrite (Z.min_r (sx1 s) ((u + 1) * tw)) in Lar by lia.
          split; [ rewrite Lar; unfold from_tile; rewrite (Z.max_r (sx0 s) ((u + 1) * tw)) by lia; reflexivity | ].
          do 3 (split; [ lia | ]); lia. }
      destruct (Z.eqb_spec num 0) as [ N0 | N0 ].
      * assert (Lt : ar < left) by (destruct (Z.eq_dec ar left) as [ Q | Q ]; [ specialize (Last Q); lia | lia ]).
        apply IH; [ exact Va | lia | exact Fit | right; exact (Next Lt) | lia ].
      * rewrite (proj2 (Z.ltb_ge num 0)) by lia.
        destruct (get_tile_ok f img HF fresh a u v Va (proj2 (in_tiles f W tw u ltac:(lia) ltac:(lia)) ltac:(lia)) (proj2 (in_tiles f H th v ltac:(lia) ltac:(lia)) ltac:(lia))) as (t & b & Eg & Gt & Vb). rewrite Eg.
        destruct (tile_samples_ok t u v (table j) Gt ltac:(lia) U1 U2 V0 V1 V3 (T j) (Z.to_nat num) 0) as (l & El & Ll & Il). rewrite El.
        assert (Fn : (rem - num) * area s < small).
        { assert (Ap : 0 <= area s) by (apply Z.mul_nonneg_nonneg; lia). pose proof (Z.mul_le_mono_nonneg_r (rem - num) rem _ Ap ltac:(lia)). lia. }
        destruct (IH b u v (left - ar) (rem - num) (S k) (S j) Vb ltac:(lia) Fn) as (l2 & c & E2 & Vc & N2 & I2).
        { destruct (Z.eq_dec ar left) as [ Q | Q ]; [ left; rewrite (Last Q); lia | right; apply Next; lia ]. }
        { lia. }
        rewrite E2. exists (l ++ l2), c. split; [ reflexivity | ]. split; [ exact Vc | ]. split; [ rewrite app_length; lia | ].
        intros px py pv I. apply in_app_iff in I. destruct I as [ I | I ]; [ apply Il, I | apply I2, I ].
Qed.
End Walk.

Lemma stoch_visit_ok fresh rand table a s n : valid f img a -> 0 <= n ->
  (forall k, 0 <= rand k)%Q -> (forall j i, fraction (fst (table j i)) /\ fraction (snd (table j i))) ->
  let r := inside s W H in
  is_empty r = true \/ (area r < small /\ n * area r < small) ->
  exists l b, stoch_visit V fresh rand table a s n = Some (l, b) /\ valid f img b /\
    samples_of l (if is_empty r then 0 else n) r img.
Proof.
  intros Va N R T r F. unfold stoch_visit. rewrite (proj1 Va). fold W H tw th.
  destruct (sizes f img HF) as (W0 & H0 & tw0 & th0). fold tw th W H in W0, H0, tw0, th0.
  change (intersect s (mkSupport 0 W 0 H)) with r.
  assert (B : 0 <= sx0 r /\ sx1 r <= W /\ 0 <= sy0 r /\ sy1 r <= H).
  { unfold r, inside. cbn [sx0 sx1 sy0 sy1]. lia. }
  destruct (is_empty r) eqn:E.
  - exists [], a. split; [ reflexivity | ]. split; [ exact Va | ]. split; [ reflexivity | intros ? ? ? [] ].
  - destruct F as [ F | [ F1 F2 ] ]; [ discriminate | ].
    unfold is_empty, empty1 in E. rewrite orb_false_iff, !Z.leb_gt in E.
    assert (Xs : Z.quot (sx0 r) tw * tw <= sx0 r /\ sx0 r < (Z.quot (sx0 r) tw + 1) * tw).
    { rewrite Z.quot_div_nonneg by lia. pose proof (Z.div_mod (sx0 r) tw ltac:(lia)). pose proof (Z.mod_pos_bound (sx0 r) tw ltac:(lia)). lia. }
    assert (Ys : Z.quot (sy0 r) th * th <= sy0 r /\ sy0 r < (Z.quot (sy0 r) th + 1) * th).
    { rewrite Z.quot_div_nonneg by lia. pose proof (Z.div_mod (sy0 r) th ltac:(lia)). pose proof (Z.mod_pos_bound (sy0 r) th ltac:(lia)). lia. }
    assert (Xc : Z.quot (sx0 r) tw <= Z.quot (sx1 r - 1) tw) by (rewrite !Z.quot_div_nonneg by lia; apply Z.div_le_mono; lia).
    assert (Y0 : 0 <= Z.quot (sy0 r) th) by (apply Z.quot_pos; lia).
    apply (stoch_walk_ok r ltac:(lia) ltac:(lia) F1 fresh rand table R T); [ exact Va | exact N | exact F2 | | ].
    + right. fold tw th.
      rewrite (proj2 (Z.leb_gt (Z.quot (sx1 r - 1) tw + 1) (Z.quot (sx0 r) tw - 1 + 1))) by lia.
      replace (Z.quot (sx0 r) tw - 1 + 1) with (Z.quot (sx0 r) tw) by lia.
      split; [ | do 3 (split; [ lia | ]); lia ]. unfold from_tile, area. fold tw th.
      rewrite (Z.max_l (sx0 r)) by lia. rewrite (Z.max_l (sy0 r)) by lia. ring.
    + rewrite Z2Nat.id by nia. unfold area. nia.
Qed.

(** Whatever samples are taken, the array stays valid. *)
Lemma stoch_walk_valid fresh rand table s x0 xend : 0 <= x0 -> x0 < xend -> xend <= width_in_tiles V f ->
  forall n a x y left rem k j l b, valid f img a -> x0 <= x + 1 <= xend -> 0 <= y ->
  stoch_walk V fresh rand table s x0 xend n a x y left rem k j = Some (l, b) -> valid f img b.
Proof.
  intros X0 Xe Xw. induction n as [ | n IH ]; intros a x y left rem k j l b Va X Y; cbn [stoch_walk];
    (destruct (Z.eqb_spec rem 0); [ intros [= <- <-]; exact Va | ]); [ discriminate | ].
  assert (N : let '(u, v) := if xend <=? x + 1 then (x0, y + 1) else (x + 1, y) in x0 <= u < xend /\ 0 <= v).
  { destruct (Z.leb_spec xend (x + 1)); lia. }
  destruct (if xend <=? x + 1 then (x0, y + 1) else (x + 1, y)) as [ u v ].
  destruct (tile_share _ _ _ _) as [ num | ]; [ | discriminate ]. destruct (num =? 0).
  - apply IH; [ exact Va | lia | lia ].
  - destruct (num <? 0); [ discriminate | ]. destruct (get_tile V fresh a u v) as [ [ t c ] | ] eqn:G; [ | discriminate ].
    destruct (tile_samples _ _ _ _ _ _) as [ p | ]; [ | discriminate ].
    destruct (stoch_walk _ _ _ _ _ _ _ _ _ _ _ _ _ _ _) as [ [ q d ] | ] eqn:E; [ | discriminate ]. intros [= <- <-].
    refine (IH c u v _ _ _ _ q d _ _ _ E); [ | lia | lia ].
    assert (B : v < height_in_tiles V f).
    { unfold get_tile in G. rewrite (proj1 Va) in G. destruct (_ && _ && _) eqn:C in G; [ | discriminate ].
      rewrite !andb_true_iff, !Z.ltb_lt in C. lia. }
    destruct (get_tile_ok f img HF fresh a u v Va ltac:(lia) ltac:(lia)) as (t2 & c2 & G2 & _ & Vc). congruence.
Qed.
Lemma stoch_visit_valid fresh rand table a s n l b : valid f img a -> stoch_visit V fresh rand table a s n = Some (l, b) -> valid f img b.
Proof.
  intros Va. unfold stoch_visit. rewrite (proj1 Va). fold W H tw th.
  destruct (sizes f img HF) as (W0 & H0 & tw0 & th0). fold tw th W H in W0, H0, tw0, th0.
  set (r := intersect s _). destruct (is_empty r) eqn:E; [ intros [= <- <-]; exact Va | ].
  unfold is_empty, empty1 in E. rewrite orb_false_iff, !Z.leb_gt in E.
  assert (B : 0 <= sx0 r /\ sx1 r <= W /\ 0 <= sy0 r /\ sy1 r <= H) by (unfold r, intersect; cbn [sx0 sx1 sy0 sy1]; lia).
  assert (Xc : Z.quot (sx0 r) tw <= Z.quot (sx1 r - 1) tw) by (rewrite !Z.quot_div_nonneg by lia; apply Z.div_le_mono; lia).
  assert (Xd : Z.quot (sx1 r - 1) tw <= Z.quot (W - 1) tw) by (rewrite !Z.quot_div_nonneg by lia; apply Z.div_le_mono; lia).
  assert (X0 : 0 <= Z.quot (sx0 r) tw) by (apply Z.quot_pos; lia). assert (Y0 : 0 <= Z.quot (sy0 r) th) by (apply Z.quot_pos; lia).
  apply stoch_walk_valid; [ exact X0 | lia | unfold width_in_tiles; fold W tw; lia | exact Va | lia | exact Y0 ].
Qed.
Lemma used_any_valid a : used_any f a -> valid f img a.
Proof.
  induction 1 as [ | a fresh s l b U IH E | a fresh x y v b U IH X Y E | a fresh rand table s n l b U IH E ].
  - apply valid_new.
  - destruct (tiles_visit_ok f img HF fresh a s IH) as (l2 & b2 & E2 & Vb & _). congruence.
  - destruct (texel_ok f img HF fresh a x y IH X Y) as (b2 & E2 & Vb). congruence.
  - exact (stoch_visit_valid fresh rand table a s n l b IH E).
Qed.
End Tiles.

(** * The shadow of some samples *)
Lemma sums_list {V} (g : Z -> Z -> V -> Q) (img : Z -> Z -> V) l : (forall x y v, In (x, y, v) l -> v = img x y) ->
  sums g l = sum (fun x y => g x y (img x y)) (map fst l).
Proof.
  induction l as [ | [ [ x y ] v ] l IH ]; intros E; cbn; [ reflexivity | ].
  rewrite (E x y v (or_introl eq_refl)). f_equal. apply IH. intros. apply E. right. assumption.
Qed.
Lemma pcf_samples {St} weight surface length start low high (l : list (Z * Z * (Z -> Q))) (b : St) (img : Z -> Z -> Z -> Q) :
  start < length -> (forall x y v, In (x, y, v) l -> v = img x y) ->
  exists out, pcf_into weight false surface length start low high (Some (l, b)) = Some out /\
  (out == mean weight (fun x y => shade low high (surface x y) (img x y start)) (map fst l))%Q.
Proof.
  intros L E. unfold pcf_into. rewrite (proj2 (Z.leb_gt length start)) by lia. eexists. split; [ reflexivity | ].
  pose proof (fold_pcf weight false surface start low high l 0 0) as F. destruct (fold_left _ l _) as [ s2 t2 ]. destruct F as [ A B ].
  rewrite (sums_list _ img l E) in A. rewrite (sums_list (fun x y _ => weight x y)%Q img l E) in B.
  rewrite Qplus_0_l in A, B. unfold pcf_finish, mean. cbn [negb andb].
  change (sum (fun x y => weight x y) (map fst l)) with (sum weight (map fst l)) in B.
  destruct (Qeq_bool t2 0) eqn:T0; cbn [negb].
  - apply Qeq_bool_eq in T0. replace (Qeq_bool (sum weight (map fst l)) 0) with true by (symmetry; apply Qeq_eq_bool; rewrite <- B; exact T0). exact A.
  - replace (Qeq_bool (sum weight (map fst l)) 0) with false.
    2: { symmetry. apply not_true_is_false. intros H. apply Qeq_bool_eq in H. apply Qeq_bool_neq in T0. apply T0. rewrite B. exact H. }
    rewrite A, B. reflexivity.
Qed.

(** * Samples that are left after the last tile *)
Lemma share_nothing rem ar u : tile_share rem ar 0 u = None.
Proof. unfold tile_share. rewrite andb_false_r. reflexivity. Qed.
Lemma walk_nothing V fresh rand table s x0 xend n a x y rem k j : rem <> 0 ->
  stoch_walk V fresh rand table s x0 xend (S n) a x y 0 rem k j = None.
Proof.
  intros R. cbn [stoch_walk]. rewrite (proj2 (Z.eqb_neq rem 0)) by exact R. destruct (if xend <=? x + 1 then _ else _) as [ u v ].
  rewrite share_nothing. reflexivity.
Qed.
Lemma walk_stuck V fresh rand table s x0 xend n a x y left rem k j num :
  rem <> 0 -> num <> rem ->
  (let '(u, v) := if xend <=? x + 1 then (x0, y + 1) else (x + 1, y) in
   let f := a_file V a in
   area (intersect s (mkSupport (u * f_tile_width V f) ((u + 1) * f_tile_width V f)
                                (v * f_tile_height V f) ((v + 1) * f_tile_height V f))) = left) ->
  tile_share rem left left (rand k) = Some num ->
  stoch_walk V fresh rand table s x0 xend (S (S n)) a x y left rem k j = None.
Proof.
  intros R N A Sh. change (stoch_walk V fresh rand table s x0 xend (S (S n)) a x y left rem k j) with
    (if rem =? 0 then Some ([], a) else
      let '(x, y) := if xend <=? x + 1 then (x0, y + 1) else (x + 1, y) in
      let f := a_file V a in
      let ar := area (intersect s (mkSupport (x * f_tile_width V f) ((x + 1) * f_tile_width V f)
                                             (y * f_tile_height V f) ((y + 1) * f_tile_height V f))) in
      match tile_share rem ar left (rand k) with
      | None => None
      | Some num =>
          if num =? 0 then stoch_walk V fresh rand table s x0 xend (S n) a x y (left - ar) rem (S k) j
          else if num <? 0 then None
          else match get_tile V fresh a x y with
               | None => None
               | Some (t, b) =>
                   match tile_samples V t s (table j) (Z.to_nat num) 0,
                         stoch_walk V fresh rand table s x0 xend (S n) b x y (left - ar) (rem - num) (S k) (S j) with
                   | Some l, Some (r, c) => Some (l ++ r, c)
                   | _, _ => None
                   end
               end
      end).
  rewrite (proj2 (Z.eqb_neq rem 0)) by exact R. destruct (if xend <=? x + 1 then _ else _) as [ u v ].
  cbv zeta in A |- *. rewrite A, Sh, Z.sub_diag.
  destruct (num =? 0); [ apply walk_nothing; exact R | ]. destruct (num <? 0); [ reflexivity | ].
  destruct (get_tile V fresh a u v) as [ [ t b ] | ]; [ | reflexivity ].
  rewrite walk_nothing by lia. destruct (tile_samples _ _ _ _ _ _); reflexivity.
Qed.

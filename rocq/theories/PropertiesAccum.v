(** C44: filtered textures are weighted means.  C48: shadows. *)

From Coq Require Import List Bool ZArith QArith Lia Lqa.
From Verif Require Import TexModel TexSpec TexProofs PropertiesTex AccumModel AccumSpec AccumProofs.
Import ListNotations.
Open Scope Z_scope.

(** The result [out] of filtering, over the memory [buf]: means of the channels that the
    texture has, and a given value for those it does not have. *)
Definition filtered (normalized : bool) (weight : Z -> Z -> Q) (s : support) (img : Z -> Z -> Z -> Q)
    (length start chans : Z) (fill : Q) (buf out : Z -> Q) : Prop :=
  (forall c, 0 <= c < chans -> start + c < length ->
     (out c == if normalized then sum (fun x y => weight x y * img x y (start + c)%Z) (points s)
               else mean weight (fun x y => img x y (start + c)%Z) (points s))%Q) /\
  (forall c, 0 <= c < chans -> length <= start + c -> out c = fill) /\
  (forall k, k < 0 \/ chans <= k -> out k = buf k).

Definition nothing : Z -> Q := fun _ => 0%Q.

(** C44: a texture kept as tiles.  Missing: the wrap modes and regions that C24 does not
    cover, and the rounding of floats. *)
Theorem C44_tiles_partial (f : file (Z -> Q)) img (a : array (Z -> Q)) fresh s ws wt weight normalized length start chans fill buf :
  holds f img -> used f a ->
  f_width (Z -> Q) f <= 2 ^ 24 -> f_height (Z -> Q) f <= 2 ^ 24 -> near s -> wraps ws = true -> wraps wt = true -> mixed ws wt = false ->
  0 <= start -> 0 <= chans -> 0 < length ->
  exists out, filter_into weight normalized length start chans fill buf
      (filter_texture (Z -> Q) (array (Z -> Q)) (tiles_visit (Z -> Q) fresh) (f_width (Z -> Q) f) (f_height (Z -> Q) f) nothing a s ws wt) = Some out /\
    filtered normalized weight s (wrapped_texel nothing img ws wt (f_width (Z -> Q) f) (f_height (Z -> Q) f)) length start chans fill buf out.
Proof.
  intros H U W Hh N Ts Tt M S C L.
  destruct (C24_tiles_partial f img a fresh nothing s ws wt H U W Hh N Ts Tt M) as (l & b & E & O). rewrite E.
  exact (filter_into_ok weight normalized length start chans fill buf l b s _ O S C L).
Qed.
Print Assumptions C44_tiles_partial.

(** C44: a texture kept flat. *)
Theorem C44_buffer_partial (b : buffer (Z -> Q)) img s ws wt weight normalized length start chans fill buf :
  0 < b_width (Z -> Q) b <= 2 ^ 24 -> 0 < b_height (Z -> Q) b <= 2 ^ 24 -> buffer_holds b img -> near s ->
  wraps ws = true -> wraps wt = true -> mixed ws wt = false ->
  0 <= start -> 0 <= chans -> 0 < length ->
  exists out, filter_into weight normalized length start chans fill buf
      (filter_texture (Z -> Q) (buffer (Z -> Q)) (buffer_visit (Z -> Q)) (b_width (Z -> Q) b) (b_height (Z -> Q) b) nothing b s ws wt) = Some out /\
    filtered normalized weight s (wrapped_texel nothing img ws wt (b_width (Z -> Q) b) (b_height (Z -> Q) b)) length start chans fill buf out.
Proof.
  intros W Hh B N Ts Tt M S C L.
  destruct (C24_buffer_partial b img nothing s ws wt W Hh B N Ts Tt M) as (l & c & E & O). rewrite E.
  exact (filter_into_ok weight normalized length start chans fill buf l c s _ O S C L).
Qed.
Print Assumptions C44_buffer_partial.

(** C44: without wrapping, only the part of the region that the texture has counts, for every
    region. *)
Lemma inside_points {V} (l : list (Z * Z * V)) s width height img :
  each_once l (fun x y => within s x y /\ 0 <= x < width /\ 0 <= y < height) img -> each_once l (within (inside s width height)) img.
Proof.
  intros [ N I ]. split; [ exact N | ]. intros x y v. rewrite I. unfold within, inside. cbn [sx0 sx1 sy0 sy1].
  assert (E : (sx0 s <= x < sx1 s /\ sy0 s <= y < sy1 s) /\ 0 <= x < width /\ 0 <= y < height <->
              Z.max (sx0 s) 0 <= x < Z.min (sx1 s) width /\ Z.max (sy0 s) 0 <= y < Z.min (sy1 s) height) by lia.
  rewrite E. reflexivity.
Qed.
Theorem C44_nowrap (f : file (Z -> Q)) img (a : array (Z -> Q)) fresh s weight normalized length start chans fill buf :
  holds f img -> used f a -> 0 <= start -> 0 <= chans -> 0 < length ->
  exists out, filter_into weight normalized length start chans fill buf (tiles_visit (Z -> Q) fresh a s) = Some out /\
    filtered normalized weight (inside s (f_width (Z -> Q) f) (f_height (Z -> Q) f)) img length start chans fill buf out.
Proof.
  intros H U S C L. destruct (C23_tiles f img a fresh s H U) as (l & b & E & _ & O). rewrite E.
  exact (filter_into_ok weight normalized length start chans fill buf l b _ _ (inside_points l s _ _ img O) S C L).
Qed.
Print Assumptions C44_nowrap.

(** C44: a mean with weights that are not negative is between the least and greatest values;
    so a texture of one value gives that value. *)
Theorem C44_between normalized weight s img length start chans fill buf out c lo hi :
  filtered normalized weight s img length start chans fill buf out -> 0 <= c < chans -> start + c < length ->
  (forall x y, within s x y -> (0 <= weight x y)%Q) ->
  (if normalized then sum weight (points s) == 1 else 0 < sum weight (points s))%Q ->
  (forall x y, within s x y -> (lo <= img x y (start + c)%Z <= hi)%Q) ->
  (lo <= out c <= hi)%Q.
Proof.
  intros (F & _ & _) C L W T B. specialize (F c C L).
  assert (Tp : (0 < sum weight (points s))%Q) by (destruct normalized; [ rewrite T; reflexivity | exact T ]).
  pose proof (mean_between weight (fun x y => img x y (start + c)) (points s) lo hi
                (fun x y I => W x y (proj1 (points_in s x y) I)) Tp (fun x y I => B x y (proj1 (points_in s x y) I))) as M.
  destruct normalized; rewrite F; [ | exact M ].
  unfold mean in M. replace (Qeq_bool (sum weight (points s)) 0) with false in M.
  2: { symmetry. apply not_true_is_false. intros H. apply Qeq_bool_eq in H. rewrite H in Tp. exact (Qlt_irrefl 0 Tp). }
  rewrite T in M. setoid_replace (sum (fun x y => weight x y * img x y (start + c)%Z) (points s) / 1)%Q
    with (sum (fun x y => weight x y * img x y (start + c)%Z) (points s))%Q in M by field.
  exact M.
Qed.
Print Assumptions C44_between.

(** C48: a shadow sampled completely is the mean over the texels of the map in the region of how
    much each of them puts the surface in shadow; outside the map nothing is in shadow. *)
Theorem C48_shadow_partial (f : file (Z -> Q)) img (a : array (Z -> Q)) fresh s weight surface length start low high samples random :
  holds f img -> used f a -> area s <= samples \/ samples < 0 -> start < length ->
  exists out, shadow_sample fresh a s weight surface length start low high samples random = Some out /\
  (out == mean weight (fun x y => shade low high (surface x y) (img x y start))
            (points (inside s (f_width (Z -> Q) f) (f_height (Z -> Q) f))))%Q.
Proof.
  intros H U A L. destruct (used_valid f img H a U) as [ Ef _ ]. unfold shadow_sample. rewrite Ef.
  destruct (meets s 0 _ 0 _) eqn:M.
  - destruct (C23_tiles f img a fresh s H U) as (l & b & E & _ & O).
    replace ((area s <=? samples) || (samples <? 0)) with true by (symmetry; rewrite orb_true_iff, Z.leb_le, Z.ltb_lt; lia).
    rewrite E. destruct (pcf_into_ok weight surface length start low high l b _ img (inside_points l s _ _ img O)) as (out & Eo & R).
    exists out. split; [ exact Eo | ]. rewrite (proj2 (Z.ltb_lt start length)) in R by exact L. exact R.
  - exists 0%Q. split; [ reflexivity | ].
    replace (points (inside s (f_width (Z -> Q) f) (f_height (Z -> Q) f))) with (@nil (Z * Z)); [ reflexivity | ].
    destruct (points (inside s _ _)) as [ | [ x y ] r ] eqn:P; [ reflexivity | exfalso ].
    assert (I : In (x, y) (points (inside s (f_width (Z -> Q) f) (f_height (Z -> Q) f)))) by (rewrite P; left; reflexivity).
    apply points_in in I. unfold within, inside in I. cbn [sx0 sx1 sy0 sy1] in I.
    assert (T : meets s 0 (f_width (Z -> Q) f) 0 (f_height (Z -> Q) f) = true); [ | congruence ].
    unfold meets, meets1, empty1. rewrite !andb_true_iff, !negb_true_iff, !orb_false_iff, !Z.leb_gt. lia.
Qed.
Print Assumptions C48_shadow_partial.

(** C48: how much is in shadow: nothing at [low], everything at [high], between them a share,
    and never less when the surface is farther away. *)
Theorem C48_shade low high surface depth :
  (0 <= amount low high surface depth <= 1)%Q /\
  ((low <= high)%Q -> (surface <= depth + low)%Q -> (amount low high surface depth == 0)%Q) /\
  ((depth + low < surface)%Q -> (depth + high <= surface)%Q -> (amount low high surface depth == 1)%Q) /\
  (forall farther, (surface <= farther)%Q -> (amount low high surface depth <= amount low high farther depth)%Q).
Proof.
  split; [ rewrite amount_shade; apply shade_range | ]. split; [ | split ].
  - intros A B. rewrite amount_shade. unfold shade. destruct (Qle_bool high low) eqn:HL; cbn [negb].
    + apply le_true in HL. destruct (Qeq_bool high low) eqn:HQ; [ | apply Qeq_bool_neq in HQ; exfalso; apply HQ; lra ].
      destruct (Qle_bool (surface - depth) low) eqn:T; [ reflexivity | apply le_false in T; exfalso; lra ].
    + apply le_false in HL. destruct (Qle_bool _ 0) eqn:T; [ reflexivity | ]. apply le_false in T. exfalso.
      pose proof (div_mono (surface - depth - low) 0 (high - low) ltac:(lra) ltac:(lra)) as D.
      setoid_replace (0 / (high - low))%Q with 0%Q in D by (field; lra). lra.
  - intros B A. rewrite amount_shade. unfold shade. destruct (Qle_bool high low) eqn:HL; cbn [negb].
    + apply le_true in HL. destruct (Qeq_bool high low) eqn:HQ.
      * destruct (Qle_bool (surface - depth) low) eqn:T; [ apply le_true in T; exfalso; lra | reflexivity ].
      * destruct (Qle_bool high (surface - depth)) eqn:T; [ reflexivity | apply le_false in T; exfalso; lra ].
    + apply le_false in HL. pose proof (div_mono (high - low) (surface - depth - low) (high - low) ltac:(lra) ltac:(lra)) as D.
      setoid_replace ((high - low) / (high - low))%Q with 1%Q in D by (field; lra).
      destruct (Qle_bool _ 0) eqn:T; [ apply le_true in T; exfalso; lra | ]. destruct (Qle_bool 1 _) eqn:T1; [ reflexivity | apply le_false in T1; exfalso; lra ].
  - intros farther A. rewrite !amount_shade. apply shade_mono. exact A.
Qed.
Print Assumptions C48_shade.

(** C48: so a shadow is between nothing and everything, it is nothing where the map has nothing
    nearer, and everything where all is nearer. *)
Theorem C48_range weight surface l low high start (img : Z -> Z -> Z -> Q) :
  (forall x y, In (x, y) l -> 0 <= weight x y)%Q -> (0 < sum weight l)%Q ->
  let out := mean weight (fun x y => shade low high (surface x y) (img x y start)) l in
  (0 <= out <= 1)%Q /\
  ((low <= high)%Q -> (forall x y, In (x, y) l -> surface x y <= img x y start + low)%Q -> (out == 0)%Q) /\
  ((forall x y, In (x, y) l -> img x y start + low < surface x y /\ img x y start + high <= surface x y)%Q -> (out == 1)%Q).
Proof.
  intros W T out. split; [ | split ].
  - apply mean_between; [ exact W | exact T | ]. intros. apply shade_range.
  - intros LH A. apply Qle_antisym; apply (mean_between weight _ l 0 0 W T); intros x y I;
      destruct (C48_shade low high (surface x y) (img x y start)) as (_ & Z0 & _); specialize (Z0 LH (A x y I)); rewrite amount_shade in Z0; rewrite Z0; lra.
  - intros A. apply Qle_antisym; apply (mean_between weight _ l 1 1 W T); intros x y I;
      destruct (C48_shade low high (surface x y) (img x y start)) as (_ & _ & O1 & _); destruct (A x y I) as [ A1 A2 ];
      specialize (O1 A1 A2); rewrite amount_shade in O1; rewrite O1; lra.
Qed.
Print Assumptions C48_range.

(** C48: of several maps the one that sees the point best is used, the first if none does. *)
Theorem C48_view weights : weights <> [] ->
  0 <= choose_view weights < Z.of_nat (length weights) /\
  forall k, 0 <= k < Z.of_nat (length weights) ->
    (0 < nth (Z.to_nat k) weights 0)%Q -> (nth (Z.to_nat k) weights 0 <= nth (Z.to_nat (choose_view weights)) weights 0)%Q.
Proof.
  intros N.
  assert (G : forall ws done best view, (0 <= best)%Q -> 0 <= view ->
    (forall k, (k < length done)%nat -> (0 < nth k (done ++ ws) 0)%Q -> (nth k (done ++ ws) 0 <= best)%Q) ->
    ((best == 0)%Q /\ view = 0 \/ (Z.to_nat view < length done)%nat /\ nth (Z.to_nat view) (done ++ ws) 0%Q = best) ->
    let v := best_view (Z.of_nat (length done)) ws best view in
    0 <= v /\ (v = 0 \/ (Z.to_nat v < length (done ++ ws))%nat) /\
    forall k, (k < length (done ++ ws))%nat -> (0 < nth k (done ++ ws) 0)%Q -> (nth k (done ++ ws) 0 <= nth (Z.to_nat v) (done ++ ws) 0)%Q).
  { induction ws as [ | w ws IH ]; intros done best view B V Max At.
    - cbn [best_view]. rewrite app_nil_r in *. split; [ exact V | ]. split; [ destruct At as [ [ _ -> ] | [ L _ ] ]; [ left; reflexivity | right; exact L ] | ].
      intros k K P. specialize (Max k K P). destruct At as [ [ B0 _ ] | [ _ E ] ]; [ exfalso; lra | rewrite E; exact Max ].
    - cbn [best_view]. assert (App : done ++ w :: ws = (done ++ [w]) ++ ws) by (rewrite <- app_assoc; reflexivity).
      assert (Nw : nth (length done) ((done ++ [w]) ++ ws) 0%Q = w) by (rewrite <- App; rewrite app_nth2, Nat.sub_diag by lia; reflexivity).
      assert (Len : length (done ++ [w]) = S (length done)) by (rewrite app_length; cbn; lia).
      replace (Z.of_nat (length done) + 1) with (Z.of_nat (length (done ++ [w]))) by (rewrite Len; lia).
      rewrite App in *. destruct (Qle_bool w best) eqn:E.
      + apply le_true in E. apply IH; [ exact B | exact V | | ].
        * intros k K P. rewrite Len in K. destruct (Nat.eq_dec k (length done)) as [ -> | D ]; [ rewrite Nw; exact E | apply Max; [ lia | exact P ] ].
        * destruct At as [ At | [ L Ev ] ]; [ left; exact At | right; split; [ lia | exact Ev ] ].
      + apply le_false in E. apply IH; [ lra | lia | | ].
        * intros k K P. rewrite Len in K. destruct (Nat.eq_dec k (length done)) as [ -> | D ]; [ rewrite Nw; lra | ].
          assert (nth k ((done ++ [w]) ++ ws) 0 <= best)%Q by (apply Max; [ lia | exact P ]). lra.
        * right. rewrite Nat2Z.id. split; [ lia | exact Nw ]. }
  assert (L : (0 < length weights)%nat) by (destruct weights; [ congruence | cbn; lia ]).
  destruct weights as [ | w [ | w2 r ] ]; [ congruence | | ].
  - cbn [choose_view length]. split; [ lia | ]. intros k K P. replace k with 0 by lia. apply Qle_refl.
  - unfold choose_view. specialize (G (w :: w2 :: r) [] 0%Q 0 ltac:(lra) ltac:(lia) ltac:(cbn; intros; lia) (or_introl (conj (Qeq_refl 0) eq_refl))).
    cbn [app length Z.of_nat] in G. cbv zeta in G. set (v := best_view 0 _ _ _) in *. clearbody v.
    destruct G as (G1 & G2 & G3). cbn [length] in *. split; [ lia | ]. intros k K P. apply G3; [ lia | exact P ].
Qed.
Print Assumptions C48_view.

(** ** The hypotheses are met *)
Definition square : buffer (Z -> Q) := mkBuffer (Z -> Q) 2 2 (fun k c => inject_Z (10 * k + c)).
Definition even_weights : Z -> Z -> Q := fun _ _ => 1%Q.
Example square_mean :
  match filter_into even_weights false 3 1 3 7 (fun _ => 9%Q)
          (filter_texture (Z -> Q) (buffer (Z -> Q)) (buffer_visit (Z -> Q)) 2 2 nothing square (mkSupport 0 3 0 2) Clamp Clamp) with
  | Some out => (Qred (out 0), Qred (out 1), Qred (out 2), Qred (out 3))
  | None => (0, 0, 0, 0)%Q
  end = (53 # 3, 56 # 3, 7, 9)%Q.
Proof. vm_compute. reflexivity. Qed.
Example square_region : near (mkSupport 0 3 0 2) /\ wraps Clamp = true /\ mixed Clamp Clamp = false /\ (sum even_weights (points (mkSupport 0 3 0 2)) == 6)%Q.
Proof. repeat split; unfold near; cbn; try lia; reflexivity. Qed.

Definition shadow_file : file (Z -> Q) := mkFile (Z -> Q) 2 2 1 1 (fun tx _ _ _ => inject_Z (5 + 5 * tx)).
Example half_shadow :
  option_map Qred (shadow_sample (fun _ _ => 0%Q) (new_array (Z -> Q) shadow_file) (mkSupport (-1) 2 0 2) even_weights (fun _ _ => 7%Q) 1 0 0 0 (-1) (fun _ _ _ => None)) = Some (1 # 2)%Q /\
  option_map Qred (shadow_sample (fun _ _ => 0%Q) (new_array (Z -> Q) shadow_file) (mkSupport (-1) 2 0 2) even_weights (fun _ _ => 7%Q) 1 0 1 3 6 (fun _ _ _ => None)) = Some (1 # 4)%Q.
Proof. split; vm_compute; reflexivity. Qed.
Example shadow_file_holds : holds shadow_file (fun x _ _ => inject_Z (5 + 5 * x)).
Proof.
  unfold holds. cbn. do 4 (split; [ lia | ]). intros tx ty i j A B C D E F. replace (tx * 1 + i) with tx by lia. reflexivity.
Qed.
Example views : choose_view [(1 # 2); 2; 1; 2]%Q = 1 /\ choose_view [-(1 # 2); -(2)]%Q = 0.
Proof. split; reflexivity. Qed.

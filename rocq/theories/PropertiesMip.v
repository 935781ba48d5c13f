(** C46: mipmaps. *)

From Coq Require Import List Bool ZArith QArith Qround Lia Lqa Setoid Morphisms.
From Verif Require Import TexModel TexSpec TexProofs AccumModel AccumSpec AccumProofs TiffModel TiffSpec TiffProofs PropertiesTex PropertiesAccum PropertiesTiff MipModel MipSpec MipProofs.
Import ListNotations.
Open Scope Z_scope.

(** A filter that can be used: a function of numbers, not too wide, with weights that have a sum. *)
Definition good_filter (F : filter_func) (xw yw : Q) : Prop :=
  of_numbers F /\ (xw <= 2 ^ 23)%Q /\ (yw <= 2 ^ 23)%Q /\ usable F (clamp_width xw) (clamp_width yw).
Definition good_wrap (ws wt : wrap) : Prop := wraps ws = true /\ wraps wt = true /\ mixed ws wt = false.
Definition good_size (b : buffer samples) : Prop := 0 < b_width samples b <= 2 ^ 24 /\ 0 < b_height samples b <= 2 ^ 24.

Lemma clamp_width_ok w : (w <= 2 ^ 23)%Q -> (1 <= clamp_width w <= 2 ^ 23)%Q.
Proof.
  intros B. change (2 ^ 23)%Q with (8388608 # 1)%Q in *. unfold clamp_width. destruct (Qle_bool 1 w) eqn:E; cbn [negb].
  - apply le_true in E. lra.
  - split; [ lra | unfold Qle; cbn; lia ].
Qed.

Section Make.
Variable t : channel.
Variable F : filter_func.
Variables xw yw : Q.
Variables ws wt : wrap.
Variables chans : Z.
Variables (acc : Z -> Q) (mem : Z -> samples).
Variables (trash : (Z -> samples) -> Z -> samples) (fresh : Z -> samples) (tiles : Z -> Z -> Z -> samples) (lines : Z -> Z -> samples).
Variable b : buffer samples.
Hypotheses (HF : good_filter F xw yw) (HW : good_wrap ws wt) (HC : 0 < chans) (HB : good_size b).

(** C46: every texture of a size that floats can hold is written, as many times as it can be
    halved: every level has half the size of the one before it, rounded up, down to a single texel,
    and a texel of it is the weighted sum of those of the level before around its place. Missing:
    larger textures, the wrap modes that C24 does not cover, and the rounding of floats. *)
Theorem C46_levels_partial : exists fs l,
  make_texture t F xw yw ws wt chans acc mem trash fresh tiles lines b = Some fs /\
  Forall2 kept_in (b :: l) fs /\
  Z.of_nat (length fs) = 1 + Z.log2_up (Z.max (b_width samples b) (b_height samples b)) /\
  (forall i f, nth_error fs i = Some f ->
     i_width samples f = level_size (b_width samples b) (Z.of_nat i) /\ i_height samples f = level_size (b_height samples b) (Z.of_nat i)) /\
  (forall i c d x y ch, nth_error (b :: l) i = Some c -> nth_error (b :: l) (S i) = Some d ->
     0 <= x < b_width samples d -> 0 <= y < b_height samples d -> 0 <= ch < chans ->
     (image_of d x y ch == expected t F (clamp_width xw) (clamp_width yw) ws wt c x y ch)%Q).
Proof.
  destruct HF as (FN & Bx & By & Fu). destruct HW as (Ws & Wt & M). destruct HB as [ W H ].
  destruct (pyramid_ok t F FN _ _ (clamp_width_ok xw Bx) (clamp_width_ok yw By) Fu ws wt Ws Wt M chans HC acc mem (Z.to_nat (b_width samples b + b_height samples b)) b W H ltac:(lia))
    as (l & E & Ch & St).
  unfold make_texture. rewrite E.
  pose proof (chain_sizes t F _ _ ws wt chans l b (proj1 W) (proj1 H) Ch) as Sz.
  destruct (write_levels_ok trash fresh tiles lines (b :: l)) as (fs & Ef & K).
  { apply Forall_forall. intros c I. apply In_nth_error in I. destruct I as (i & I). destruct (Sz i c I) as [ -> -> ].
    split; apply level_size_pos; lia. }
  exists fs, l. split; [ exact Ef | ]. split; [ exact K | ].
  assert (Len : length fs = S (length l)).
  { clear - K. change (S (length l)) with (length (b :: l)). induction K; [ reflexivity | cbn; congruence ]. }
  split; [ rewrite Len, Nat2Z.inj_succ, (stops_length t F _ _ ws wt chans l b (proj1 W) (proj1 H) Ch St); lia | ]. split.
  - intros i f If. assert (X : exists c, nth_error (b :: l) i = Some c /\ kept_in c f).
    { clear - K If. revert i If. induction K as [ | c g cs gs A K IH ]; intros i If; [ destruct i; discriminate | ].
      destruct i as [ | i ]; [ injection If as <-; exists c; auto | ]. apply IH, If. }
    destruct X as (c & Ic & Kw & Kh & _). destruct (Sz i c Ic) as [ Cw Chh ]. rewrite Kw, Kh. auto.
  - intros i c d x y ch Ic Id X Y Hc. pose proof (chain_nth _ l b i c d Ch Ic Id) as (_ & _ & V). apply V; assumption.
Qed.

(** C46: the file is accepted when it is used, with all its levels, and each of them is put where
    it belongs: the transformation of a level gives for the place of each of its texels that texel. *)
Theorem C46_read_back : forall fs, make_texture t F xw yw ws wt chans acc mem trash fresh tiles lines b = Some fs ->
  exists ts, init_levels (map (fun f => (i_width samples f, i_height samples f)) fs) = Some ts /\ length ts = length fs /\
  forall i tr, nth_error ts i = Some tr -> forall p,
    (x_scale tr * (place (b_width samples b) i p + x_offset tr) == p)%Q /\ (y_scale tr * (place (b_height samples b) i p + y_offset tr) == p)%Q.
Proof.
  intros fs E. destruct C46_levels_partial as (fs' & l & E' & K & Len & Sz & _). rewrite E in E'. injection E' as <-.
  destruct HB as [ W H ]. set (n := Z.log2_up (Z.max (b_width samples b) (b_height samples b))) in *.
  assert (Nn : 0 <= n) by apply Z.log2_up_nonneg.
  destruct (init_levels_ok (b_width samples b) (b_height samples b) (Z.to_nat n) (map (fun f => (i_width samples f, i_height samples f)) fs)) as (ts & Et & Lt & P); try lia.
  - rewrite map_length. lia.
  - intros k Kk. destruct (nth_error fs k) as [ f | ] eqn:Ek; [ | apply nth_error_None in Ek; lia ].
    rewrite (map_nth_error _ _ _ Ek). destruct (Sz k f Ek) as [ -> -> ]. reflexivity.
  - intros k Kk.
    assert (D : 2 ^ Z.of_nat k < Z.max (b_width samples b) (b_height samples b)).
    { destruct (Z.le_gt_cases (Z.max (b_width samples b) (b_height samples b)) 1) as [ L1 | L1 ].
      - assert (n = 0) by (unfold n; apply Z.log2_up_eqn0; exact L1). lia.
      - pose proof (Z.log2_up_spec _ L1) as [ A _ ]. fold n in A.
        eapply Z.le_lt_trans; [ apply (Z.pow_le_mono_r 2 (Z.of_nat k) (Z.pred n)); lia | exact A ]. }
    destruct (Z.max_spec (b_width samples b) (b_height samples b)) as [ [ _ R ] | [ _ R ] ]; rewrite R in D;
      [ right | left ]; apply level_size_gt; lia.
  - exists ts. split; [ exact Et | ]. split; [ lia | ]. intros i tr Ei p. destruct (P i tr Ei) as [ A B ]. split; [ apply A | apply B ].
Qed.

(** C46: a texture of one value has it at every level, if no weight is left out for being small.
    The value is any number for channels of floats, and an integer from 0 to the greatest one for
    channels of integers.  Missing: small weights, other values (see the refutations below), and the
    rounding of floats. *)
Theorem C46_one_colour_partial : forall fs v z ch,
  make_texture t F xw yw ws wt chans acc mem trash fresh tiles lines b = Some fs ->
  (forall w h, 0 < w -> 0 < h -> all_kept (weight_at F (clamp_width xw) (clamp_width yw) (above w 0) (above h 0))
     (points (region w h (clamp_width xw) (clamp_width yw) (above w 0) (above h 0)))) ->
  ws = Periodic \/ ws = Clamp -> wt = Periodic \/ wt = Clamp -> 0 <= ch < chans ->
  match t with Some m => 0 < m /\ 0 <= z <= m /\ (v == inject_Z z)%Q | None => True end ->
  (forall x y, 0 <= x < b_width samples b -> 0 <= y < b_height samples b -> (image_of b x y ch == v)%Q) ->
  forall i f, nth_error fs i = Some f -> exists img, holds (as_texture f 32 32) img /\
    forall x y, 0 <= x < i_width samples f -> 0 <= y < i_height samples f -> (img x y ch == v)%Q.
Proof.
  intros fs v z ch E Kp Ws Wt Hc V B i f If.
  destruct C46_levels_partial as (fs' & l & E' & K & _ & Sz & Vals). rewrite E in E'. injection E' as <-.
  destruct HF as (FN & Bx & By & Fu). destruct HB as [ W H ].
  pose proof (clamp_width_ok xw Bx) as Cx. pose proof (clamp_width_ok yw By) as Cy.
  assert (Pick : forall i c, nth_error (b :: l) i = Some c -> exists f, nth_error fs i = Some f /\ kept_in c f).
  { clear - K. induction K as [ | c g cs gs A K IH ]; intros i d Id; [ destruct i; discriminate | ].
    destruct i as [ | i ]; [ injection Id as <-; exists g; auto | ]. apply IH, Id. }
  assert (All : forall i c, nth_error (b :: l) i = Some c -> forall x y, 0 <= x < b_width samples c -> 0 <= y < b_height samples c -> (image_of c x y ch == v)%Q).
  { induction i0 as [ | j IH ]; intros c Ic x y X Y; [ injection Ic as <-; apply B; assumption | ].
    destruct (nth_error (b :: l) j) as [ d | ] eqn:Ed.
    2: { apply nth_error_None in Ed. assert (nth_error (b :: l) (S j) <> None) by congruence. apply nth_error_Some in H0. lia. }
    specialize (IH d eq_refl). rewrite (Vals j d c x y ch Ed Ic X Y Hc).
    destruct (Pick j d Ed) as (g & Eg & Gw & Gh & _). destruct (Sz j g Eg) as [ Sw Sh ]. rewrite Gw in Sw. rewrite Gh in Sh.
    pose proof (level_size_pos (b_width samples b) (Z.of_nat j) ltac:(lia) ltac:(lia)). pose proof (level_size_pos (b_height samples b) (Z.of_nat j) ltac:(lia) ltac:(lia)).
    assert (Dw : 0 < b_width samples d) by lia. assert (Dh : 0 < b_height samples d) by lia.
    rewrite (expected_const t F _ _ ws wt d v ch Dw Dh Ws Wt IH x y). cbv zeta.
    rewrite share_total; [ | | apply weights_move; try assumption; try lra; apply Kp; assumption ].
    - rewrite Qmult_1_r. apply (save_load t v z V).
    - change (~ (sum (weights_for F (b_width samples d) (b_height samples d) (clamp_width xw) (clamp_width yw) x y) (points (spot (b_width samples d) (b_height samples d) (clamp_width xw) (clamp_width yw) x y)) == 0)%Q).
      rewrite <- total_ok by (try assumption; lra). rewrite (total_ok F FN _ _ (clamp_width xw) (clamp_width yw) Dw Dh ltac:(lra) ltac:(lra) 0 0). apply Fu; assumption. }
  assert (X : exists c, nth_error (b :: l) i = Some c /\ kept_in c f).
  { clear - K If. revert i If. induction K as [ | c g cs gs A K IH ]; intros i If; [ destruct i; discriminate | ].
    destruct i as [ | i ]; [ injection If as <-; exists c; auto | ]. apply IH, If. }
  destruct X as (c & Ic & Kw & Kh & Hf). exists (image_of c). split; [ exact Hf | ]. rewrite Kw, Kh. apply (All i c Ic).
Qed.
End Make.
Print Assumptions C46_levels_partial.
Print Assumptions C46_read_back.
Print Assumptions C46_one_colour_partial.

(** C46: what is lost at one level when small weights are left out: at most a hundred-thousandth
    of the value for each texel that is combined. *)
Theorem C46_loss F xw yw b v ch c : of_numbers F -> usable F xw yw -> (1 <= xw <= 2 ^ 23)%Q -> (1 <= yw <= 2 ^ 23)%Q ->
  good_size b -> forall ws wt chans acc mem, good_wrap ws wt -> ws = Periodic \/ ws = Clamp -> wt = Periodic \/ wt = Clamp -> 0 <= ch < chans ->
  (forall x y, 0 <= x < b_width samples b -> 0 <= y < b_height samples b -> (image_of b x y ch == v)%Q) ->
  downsample None F xw yw ws wt chans acc mem b = Some c ->
  forall x y, 0 <= x < b_width samples c -> 0 <= y < b_height samples c ->
  exists s, (image_of c x y ch == v * s)%Q /\
  let n := inject_Z (Z.of_nat (length (points (region (b_width samples b) (b_height samples b) xw yw (above (b_width samples b) (inject_Z x)) (above (b_height samples b) (inject_Z y)))))) in
  (1 - n * (1 # 100000) <= s <= 1 + n * (1 # 100000))%Q.
Proof.
  intros FN Fu Px Py [ W H ] ws wt chans acc mem (Ws & Wt & M) Ps Pt Hc B E x y X Y.
  destruct (downsample_ok None F FN xw yw Px Py ws wt Ws Wt M chans ltac:(lia) b W H acc mem (Fu _ _ (proj1 W) (proj1 H))) as (c' & E' & _ & _ & V).
  rewrite E in E'. injection E' as <-. eexists. split.
  - rewrite V by assumption. apply (expected_const None F xw yw ws wt b v ch (proj1 W) (proj1 H) Ps Pt B x y).
  - cbv zeta. apply share_loss.
    change (~ (sum (weights_for F (b_width samples b) (b_height samples b) xw yw x y) (points (spot (b_width samples b) (b_height samples b) xw yw x y)) == 0)%Q).
    rewrite <- total_ok by (try tauto; lra). rewrite (total_ok F FN _ _ xw yw (proj1 W) (proj1 H) ltac:(lra) ltac:(lra) 0 0). apply Fu; tauto.
Qed.
Print Assumptions C46_loss.

(** ** Lookups *)

(** The part of a region that is used at the last level: ten texels around its middle. *)
Definition around (s : support) : support :=
  let mx := Z.quot (sx0 s + sx1 s) 2 in let my := Z.quot (sy0 s + sy1 s) 2 in
  mkSupport (Z.max (sx0 s) (mx - 10)) (Z.min (sx1 s) (mx + 10 + 1)) (Z.max (sy0 s) (my - 10)) (Z.min (sy1 s) (my + 10 + 1)).

(** C46: a lookup filters one level, or mixes it with the next. *)
Theorem C46_lookup (log2 : Q -> Q) minor factory mode min_width s_blur t_blur start chans fill ws wt length_ t
    (fs : list (file samples)) imgs levels transforms fresh w0 h0 out tmp :
  fs <> [] -> Forall2 holds fs imgs -> Forall2 used fs levels -> length transforms = length fs ->
  Forall (fun f => f_width samples f <= 2 ^ 24 /\ f_height samples f <= 2 ^ 24) fs ->
  (forall tr, near (snd (factory tr)) /\ near (around (snd (factory tr)))) -> good_wrap ws wt -> 0 <= start -> 0 <= chans -> 0 < length_ ->
  let n := Z.of_nat (length fs) in
  let ratio := blur_ratio minor mode s_blur t_blur w0 h0 in
  let cts := level_cts log2 minor mode min_width s_blur t_blur w0 h0 in
  exists res i q f1 f2 tr1 tr2 img1 img2 first second,
    apply_filter log2 minor factory mode min_width s_blur t_blur start chans fill ws wt length_ t levels transforms fresh w0 h0 out tmp = Some res /\
    (* the level *)
    0 <= i < n /\ ((cts <= 0)%Q -> i = 0) /\ ((0 <= cts)%Q -> i = Z.min (Qfloor cts) (n - 1)) /\
    (0 <= q < 1)%Q /\ 
    (mode = Lerp_never \/ (mode = Lerp_auto /\ ratio <= 1 # 5)%Q \/ (cts <= 0)%Q \/ i = n - 1 -> (q == 0)%Q) /\
    ((mode = Lerp_always \/ mode = Lerp_auto /\ (1 # 5 < ratio)%Q) /\ (0 < cts)%Q /\ i < n - 1 -> (q == (cts - inject_Z i) * (cts - inject_Z i))%Q) /\
    (* the two results *)
    nth_error fs (Z.to_nat i) = Some f1 /\ nth_error imgs (Z.to_nat i) = Some img1 /\ nth_error transforms (Z.to_nat i) = Some tr1 /\
    filtered false (fst (factory tr1)) (if i =? n - 1 then around (snd (factory tr1)) else snd (factory tr1))
      (wrapped_texel nothing (fun x y c => load t (img1 x y c)) ws wt (f_width samples f1) (f_height samples f1)) length_ start chans fill out first /\
    ((0 < q)%Q -> nth_error fs (Z.to_nat (i + 1)) = Some f2 /\ nth_error imgs (Z.to_nat (i + 1)) = Some img2 /\ nth_error transforms (Z.to_nat (i + 1)) = Some tr2 /\
      filtered false (fst (factory tr2)) (if (i + 1 =? n - 1)%Z then around (snd (factory tr2)) else snd (factory tr2))
      (wrapped_texel nothing (fun x y c => load t (img2 x y c)) ws wt (f_width samples f2) (f_height samples f2)) length_ start chans fill tmp second) /\
    (forall c, 0 <= c < chans -> (res c == (1 - q) * first c + q * second c)%Q) /\
    (forall c, c < 0 \/ chans <= c -> res c = out c).
Proof.
  intros NE Hi Hu Lt Sm Nr (Ws & Wt & M) S0 C0 L0 n ratio cts.
  assert (Ll : length levels = length fs) by (clear - Hu; induction Hu; cbn; congruence).
  assert (Pn : 0 < n) by (unfold n; destruct fs; [ congruence | cbn [length]; lia ]).
  assert (At : forall i, 0 <= i < n -> exists f img a tr, nth_error fs (Z.to_nat i) = Some f /\ nth_error imgs (Z.to_nat i) = Some img /\
     nth_error levels (Z.to_nat i) = Some a /\ nth_error transforms (Z.to_nat i) = Some tr /\ holds f img /\ used f a /\ f_width samples f <= 2 ^ 24 /\ f_height samples f <= 2 ^ 24).
  { intros i I. assert (K : (Z.to_nat i < length fs)%nat) by (unfold n in I; lia). set (k := Z.to_nat i) in *. clearbody k.
    destruct (nth_error transforms k) as [ tr | ] eqn:Et; [ | apply nth_error_None in Et; lia ].
    assert (G : exists f img a, nth_error fs k = Some f /\ nth_error imgs k = Some img /\ nth_error levels k = Some a /\ holds f img /\ used f a /\ f_width samples f <= 2 ^ 24 /\ f_height samples f <= 2 ^ 24).
    { clear - K Hi Hu Sm. revert k K imgs levels Hi Hu. induction fs as [ | f r IH ]; intros k K imgs levels Hi Hu; [ cbn in K; lia | ].
      inversion_clear Hi as [ | ? img ? imgs' A B ]. inversion_clear Hu as [ | ? a ? levels' C D ]. apply Forall_cons_iff in Sm. destruct Sm as [ E Sm ].
      destruct k as [ | k ]; [ exists f, img, a; repeat (split; [ tauto || assumption || reflexivity | ]); tauto | ].
      destruct (IH Sm k ltac:(cbn in K; lia) imgs' levels' B D) as (f' & img' & a' & R). exists f', img', a'. exact R. }
    destruct G as (f & img & a & R). exists f, img, a, tr. tauto. }
  assert (Fl : forall i o, 0 <= i < n -> exists f img tr res, nth_error fs (Z.to_nat i) = Some f /\ nth_error imgs (Z.to_nat i) = Some img /\ nth_error transforms (Z.to_nat i) = Some tr /\
     filter_level factory start chans fill ws wt length_ t levels transforms fresh i o = Some res /\
     filtered false (fst (factory tr)) (if i =? n - 1 then around (snd (factory tr)) else snd (factory tr))
      (wrapped_texel nothing (fun x y c => load t (img x y c)) ws wt (f_width samples f) (f_height samples f)) length_ start chans fill o res).
  { intros i o I. destruct (At i I) as (f & img & a & tr & A & B & C & D & Hf & Uf & Wf & Hh). exists f, img, tr.
    unfold filter_level. rewrite C, D. pose proof (Nr tr) as Ntr. destruct (factory tr) as [ weight s ] eqn:Ef. cbn [fst snd] in *.
    destruct (used_valid f img Hf a Uf) as [ Ea Va ]. rewrite Ea. rewrite Ll. fold n.
    destruct (lookup_ok t f img Hf Wf Hh fresh a (if i =? n - 1 then around s else s) ws wt weight length_ start chans fill o (conj Ea Va)) as (res & Er & Fr); try assumption.
    { destruct (i =? n - 1); tauto. }
    exists res. split; [ exact A | ]. split; [ exact B | ]. split; [ reflexivity | ]. split; [ | exact Fr ].
    rewrite <- Er. destruct (i =? n - 1); [ | reflexivity ].
    replace (intersect s _) with (around s); [ reflexivity | ]. unfold around, intersect. cbn [sx0 sx1 sy0 sy1]. f_equal; lia. }
  set (i := choose_level levels cts).
  assert (Ci : i = Z.max 0 (Z.min (Qfloor cts) (n - 1))).
  { unfold i, choose_level, clamp. rewrite Ll. fold n. destruct (Z.ltb_spec (Qfloor cts) 0); [ lia | ]. destruct (Z.ltb_spec (n - 1) (Qfloor cts)); lia. }
  assert (Ii : 0 <= i < n) by lia.
  destruct (Fl i out Ii) as (f1 & img1 & tr1 & first & A1 & B1 & D1 & E1 & F1).
  set (mix := match mode with Lerp_always => true | Lerp_auto => negb (Qle_bool ratio (1 # 5)) | Lerp_never => false end
              && (i <? n - 1) && negb (Qle_bool cts 0)).
  assert (Zero : (cts <= 0)%Q -> i = 0).
  { intros L. rewrite Ci. assert (Qfloor cts <= 0); [ change 0 with (Qfloor 0); apply Qfloor_resp_le, L | lia ]. }
  assert (Pos : (0 <= cts)%Q -> i = Z.min (Qfloor cts) (n - 1)).
  { intros L. rewrite Ci. assert (0 <= Qfloor cts); [ change 0 with (Qfloor 0); apply Qfloor_resp_le, L | lia ]. }
  destruct mix eqn:Mx.
  - unfold mix in Mx. rewrite !andb_true_iff, Z.ltb_lt, negb_true_iff in Mx. destruct Mx as [ [ Mm Mi ] Mc ]. apply le_false in Mc.
    destruct (Fl (i + 1) tmp ltac:(lia)) as (f2 & img2 & tr2 & second & A2 & B2 & D2 & E2 & F2).
    assert (Fi : i = Qfloor cts) by (specialize (Pos (Qlt_le_weak _ _ Mc)); lia).
    assert (Fq : (0 <= cts - inject_Z i < 1)%Q).
    { rewrite Fi. pose proof (Qfloor_le cts). pose proof (Qlt_floor cts) as U. rewrite inject_Z_plus in U. change (inject_Z 1) with 1%Q in U. lra. }
    set (d := (cts - inject_Z i)%Q) in *.
    exists (change 0 chans (fun k => (1 - d * d) * first k + d * d * second k)%Q first), i, (d * d)%Q, f1, f2, tr1, tr2, img1, img2, first, second.
    split.
    { unfold apply_filter. cbv zeta. fold ratio cts. fold i. rewrite E1. rewrite Ll. fold n. fold mix.
      replace mix with true; [ | unfold mix; symmetry; rewrite !andb_true_iff, Z.ltb_lt, negb_true_iff; split; [ split; [ exact Mm | exact Mi ] | apply not_true_is_false; intros T; apply le_true in T; lra ] ].
      rewrite E2. reflexivity. }
    split; [ exact Ii | ]. split; [ exact Zero | ]. split; [ exact Pos | ].
    assert (Q1 : (0 <= d * d)%Q) by (apply Qmult_le_0_compat; lra).
    assert (Q2 : (d * d < 1)%Q) by nra.
    split; [ split; assumption | ]. split.
    { intros [ R | [ [ R1 R2 ] | [ R | R ] ] ]; [ rewrite R in Mm; discriminate | | lra | lia ].
      rewrite R1 in Mm. apply negb_true_iff, le_false in Mm. lra. }
    split; [ reflexivity | ]. do 3 (split; [ assumption | ]). split; [ exact F1 | ]. split; [ intros _; tauto | ]. split.
    + intros c Hc. rewrite change_in by lia. reflexivity.
    + intros c Hc. rewrite change_out by lia. destruct F1 as (_ & _ & F1). apply F1. exact Hc.
  - exists first, i, 0%Q, f1, f1, tr1, tr1, img1, img1, first, first.
    split.
    { unfold apply_filter. cbv zeta. fold ratio cts. fold i. rewrite E1. rewrite Ll. fold n. fold mix. rewrite Mx. reflexivity. }
    split; [ exact Ii | ]. split; [ exact Zero | ]. split; [ exact Pos | ].
    split; [ lra | ]. split; [ reflexivity | ]. split.
    { intros (Rm & Rc & Ri). exfalso. unfold mix in Mx.
      replace (match mode with Lerp_never => false | Lerp_always => true | Lerp_auto => negb (Qle_bool ratio (1 # 5)) end) with true in Mx.
      2: { destruct Rm as [ -> | [ -> Rr ] ]; [ reflexivity | ]. symmetry. apply negb_true_iff, not_true_is_false. intros T. apply le_true in T. lra. }
      cbn [andb] in Mx. rewrite andb_false_iff, Z.ltb_ge, negb_false_iff in Mx.
      destruct Mx as [ Mx | Mx ]; [ lia | apply le_true in Mx; lra ]. }
    do 3 (split; [ assumption | ]). split; [ exact F1 | ]. split; [ intros L; lra | ]. split.
    + intros c Hc. ring.
    + destruct F1 as (_ & _ & F1). exact F1.
Qed.
Print Assumptions C46_lookup.

(** C46: how much blur counts: nothing unless it is asked for and interpolation is automatic, and
    otherwise twice the blur (in texels) over the width of the filter, but at most 1. *)
Theorem C46_blur minor mode s_blur t_blur w h : let ratio := blur_ratio minor mode s_blur t_blur w h in
  let blur := qmax (s_blur * inject_Z w) (t_blur * inject_Z h) in
  (0 <= ratio <= 1)%Q /\
  ((s_blur == 0)%Q /\ (t_blur == 0)%Q \/ mode <> Lerp_auto -> (ratio == 0)%Q) /\
  (mode = Lerp_auto -> (0 < minor)%Q -> (0 <= s_blur)%Q -> (0 <= t_blur)%Q -> 0 <= w -> 0 <= h ->
     (blur * 2 <= minor -> ratio * minor == blur * 2)%Q /\ (minor <= blur * 2 -> ratio == 1)%Q) /\
  (s_blur * inject_Z w <= blur)%Q /\ (t_blur * inject_Z h <= blur)%Q /\ ((blur == s_blur * inject_Z w)%Q \/ (blur == t_blur * inject_Z h)%Q).
Proof.
  intros ratio blur.
  assert (C01 : forall v, (0 <= clamp01 v <= 1)%Q).
  { intros v. unfold clamp01. destruct (Qle_bool 0 v) eqn:A; cbn [negb]; [ | lra ]. destruct (Qle_bool v 1) eqn:B; cbn [negb]; [ | lra ].
    apply le_true in A. apply le_true in B. lra. }
  assert (Mx : (s_blur * inject_Z w <= blur)%Q /\ (t_blur * inject_Z h <= blur)%Q /\ ((blur == s_blur * inject_Z w)%Q \/ (blur == t_blur * inject_Z h)%Q)).
  { unfold blur, qmax. destruct (Qle_bool (t_blur * inject_Z h) (s_blur * inject_Z w)) eqn:E.
    - apply le_true in E. split; [ lra | ]. split; [ exact E | left; lra ].
    - apply le_false in E. split; [ lra | ]. split; [ lra | right; lra ]. }
  split; [ | split; [ | split; [ | exact Mx ] ] ].
  - unfold ratio, blur_ratio. destruct mode; try lra. destruct (negb _ || negb _); [ apply C01 | lra ].
  - unfold ratio, blur_ratio. intros [ [ A B ] | A ].
    + destruct mode; try reflexivity. apply Qeq_bool_iff in A. apply Qeq_bool_iff in B. rewrite A, B. reflexivity.
    + destruct mode; try reflexivity. congruence.
  - intros -> P Ps Pt Pw Ph. unfold ratio, blur_ratio. fold blur.
    assert (Iw : (0 <= inject_Z w)%Q) by (change 0%Q with (inject_Z 0); rewrite <- Zle_Qle; exact Pw).
    assert (Ih : (0 <= inject_Z h)%Q) by (change 0%Q with (inject_Z 0); rewrite <- Zle_Qle; exact Ph).
    assert (B0 : (0 <= blur)%Q) by (destruct Mx as (M1 & _); pose proof (Qmult_le_0_compat _ _ Ps Iw); lra).
    assert (D0 : (0 <= 2 * blur / minor)%Q) by (apply Qle_shift_div_l; [ exact P | lra ]).
    assert (Main : (blur * 2 <= minor -> clamp01 (2 * blur / minor) * minor == blur * 2)%Q /\ (minor <= blur * 2 -> clamp01 (2 * blur / minor) == 1)%Q).
    { unfold clamp01. rewrite (proj2 (Qle_bool_iff _ _) D0). cbn [negb]. destruct (Qle_bool (2 * blur / minor) 1) eqn:E; cbn [negb].
      - apply le_true in E. split; [ intros _; field; lra | ]. intros L. apply Qle_antisym; [ exact E | ]. apply Qle_shift_div_l; [ exact P | lra ].
      - apply le_false in E. split; [ | reflexivity ]. intros L. exfalso.
        assert (2 * blur / minor <= 1)%Q; [ apply Qle_shift_div_r; [ exact P | lra ] | lra ]. }
    destruct (negb (Qeq_bool s_blur 0) || negb (Qeq_bool t_blur 0)) eqn:E; [ exact Main | ].
    rewrite orb_false_iff, !negb_false_iff in E. destruct E as [ A B ]. apply Qeq_bool_eq in A. apply Qeq_bool_eq in B.
    assert (Z0 : (blur == 0)%Q) by (destruct Mx as (_ & _ & [ Q0 | Q0 ]); rewrite Q0, ?A, ?B; ring).
    split; intros L; [ rewrite Z0; ring | exfalso; lra ].
Qed.
Print Assumptions C46_blur.

(** C46: so a lookup in a texture of one value, with weights that are not negative, gives that value
    (scaled to 1, for integers), whatever levels it uses. *)
Theorem C46_lookup_colour t v weight1 weight2 s1 s2 img1 img2 w1 h1 w2 h2 ws wt length_ start chans fill out tmp first second q c :
  ws = Periodic \/ ws = Clamp -> wt = Periodic \/ wt = Clamp -> 0 < w1 -> 0 < h1 -> 0 < w2 -> 0 < h2 ->
  filtered false weight1 s1 (wrapped_texel nothing (fun x y c => load t (img1 x y c)) ws wt w1 h1) length_ start chans fill out first ->
  filtered false weight2 s2 (wrapped_texel nothing (fun x y c => load t (img2 x y c)) ws wt w2 h2) length_ start chans fill tmp second ->
  0 <= c < chans -> start + c < length_ ->
  (forall x y, within s1 x y -> 0 <= weight1 x y)%Q -> (0 < sum weight1 (points s1))%Q ->
  (forall x y, within s2 x y -> 0 <= weight2 x y)%Q -> (0 < sum weight2 (points s2))%Q ->
  (forall x y, 0 <= x < w1 -> 0 <= y < h1 -> (img1 x y (start + c)%Z == v)%Q) -> (forall x y, 0 <= x < w2 -> 0 <= y < h2 -> (img2 x y (start + c)%Z == v)%Q) ->
  ((1 - q) * first c + q * second c == load t v)%Q.
Proof.
  intros Ws Wt W1 H1 W2 H2 F1 F2 Hc Hs P1 S1 P2 S2 B1 B2.
  assert (K : forall img w h, 0 < w -> 0 < h -> (forall x y, 0 <= x < w -> 0 <= y < h -> (img x y (start + c)%Z == v)%Q) ->
    forall x y, (wrapped_texel nothing (fun x y c => load t (img x y c)) ws wt w h x y (start + c)%Z == load t v)%Q).
  { intros img w h W H B x y. unfold wrapped_texel. destruct (wrapped_inside ws w x W Ws) as (i & -> & I). destruct (wrapped_inside wt h y H Wt) as (j & -> & J).
    rewrite B by assumption. reflexivity. }
  assert (A1 : (first c == load t v)%Q).
  { apply Qle_antisym; apply (C44_between false weight1 s1 _ length_ start chans fill out first c (load t v) (load t v) F1 Hc Hs P1 S1);
      intros x y _; rewrite (K img1 w1 h1 W1 H1 B1); split; apply Qle_refl. }
  assert (A2 : (second c == load t v)%Q).
  { apply Qle_antisym; apply (C44_between false weight2 s2 _ length_ start chans fill tmp second c (load t v) (load t v) F2 Hc Hs P2 S2);
      intros x y _; rewrite (K img2 w2 h2 W2 H2 B2); split; apply Qle_refl. }
  rewrite A1, A2. ring.
Qed.
Print Assumptions C46_lookup_colour.

(** ** What does not hold *)

(** RiBoxFilter (filters.cpp:125-140) and RiTriangleFilter (filters.cpp:147-161). *)
Definition qabs (q : Q) : Q := if Qle_bool 0 q then q else (- q)%Q.
Definition qmin (a b : Q) : Q := if Qle_bool a b then a else b.
Definition box : filter_func := fun x y xw yw =>
  qmin (if Qle_bool (qabs x) (xw / 2) then 1 else 0)%Q (if Qle_bool (qabs y) (yw / 2) then 1 else 0)%Q.
Definition triangle : filter_func := fun x y xw yw =>
  let hx := (xw / 2)%Q in let hy := (yw / 2)%Q in
  qmin (if Qle_bool (qabs x) hx then (hx - qabs x) / hx else 0)%Q (if Qle_bool (qabs y) hy then (hy - qabs y) / hy else 0)%Q.
Definition white (n : Z) (v : Q) : buffer samples := mkBuffer samples n n (fun _ _ => v).
Definition corner (r : option (buffer samples)) : option Q :=
  match r with Some c => Some (Qred (image_of c 0 0 0)) | None => None end.

(** A white texture of bytes becomes darker with a triangle filter of a width just above 3, because
    the outermost weights are left out after the others were made smaller for them. *)
Theorem C46_small_weights_refuted :
  corner (downsample (Some 255) triangle (300001 # 100000) (300001 # 100000) Periodic Periodic 1 (fun _ => 0%Q) (fun _ _ => 0%Q) (white 2 255)) = Some 254%Q.
Proof. vm_compute. reflexivity. Qed.
Print Assumptions C46_small_weights_refuted.

(** Negative values become 0. *)
Theorem C46_signed_refuted :
  corner (downsample (Some 127) box 1 1 Periodic Periodic 1 (fun _ => 0%Q) (fun _ _ => 0%Q) (white 2 (-(50)))) = Some 0%Q.
Proof. vm_compute. reflexivity. Qed.
Print Assumptions C46_signed_refuted.

(** With floats, some values of channels of 16 bits become one less, and the greatest value of
    channels of 32 bits has no defined result. Bytes are kept. *)
Theorem C46_integers_refuted : repeated 65535 257 = Some 256 /\ repeated 4294967295 4294967295 = None /\ repeated 2147483647 2147483647 = None.
Proof. vm_compute. auto. Qed.
Print Assumptions C46_integers_refuted.
Theorem C46_bytes v : 1 <= v <= 255 -> repeated 255 v = Some v.
Proof.
  intros V. assert (A : forallb (fun k => match repeated 255 (Z.of_nat k) with Some r => r =? Z.of_nat k | None => false end) (seq 1 255) = true) by (vm_compute; reflexivity).
  rewrite forallb_forall in A. specialize (A (Z.to_nat v)). rewrite in_seq in A. specialize (A ltac:(lia)). rewrite Z2Nat.id in A by lia.
  destruct (repeated 255 v) as [ r | ]; [ | discriminate ]. apply Z.eqb_eq in A. congruence.
Qed.
Print Assumptions C46_bytes.

(** A file is only accepted when all levels that are used have the sizes of the levels of the
    first. *)
Lemma init_more_checked W H : 0 < W -> 0 < H -> forall r i xo yo ts, (0 < i)%nat ->
  init_more (Z.of_nat i) (level_size W (Z.of_nat (i - 1))) (level_size H (Z.of_nat (i - 1))) xo yo r = Some ts ->
  (length ts <= length r)%nat /\
  (forall k, (k < length ts)%nat -> nth_error r k = Some (level_size W (Z.of_nat (i + k)), level_size H (Z.of_nat (i + k)))) /\
  ((length ts < length r)%nat -> level_size W (Z.of_nat (i + length ts - 1)) = 1 /\ level_size H (Z.of_nat (i + length ts - 1)) = 1).
Proof.
  intros PW PH. induction r as [ | [ fw fh ] r IH ]; intros i xo yo ts I E; cbn [init_more] in E.
  - injection E as <-. cbn [length]. split; [ lia | ]. split; [ intros k K; lia | lia ].
  - set (w := level_size W (Z.of_nat (i - 1))) in *. set (h := level_size H (Z.of_nat (i - 1))) in *.
    assert (Pw : 0 < w) by (apply level_size_pos; lia). assert (Ph : 0 < h) by (apply level_size_pos; lia).
    destruct ((w =? 1) && (h =? 1)) eqn:One.
    + injection E as <-. rewrite andb_true_iff, !Z.eqb_eq in One. cbn [length]. split; [ lia | ]. split; [ intros k K; lia | ].
      intros _. rewrite Nat.add_0_r. exact One.
    + rewrite !next_size in E by assumption.
      assert (Nw : (w + 1) / 2 = level_size W (Z.of_nat i)).
      { unfold w. rewrite <- level_size_next by lia. f_equal. lia. }
      assert (Nh : (h + 1) / 2 = level_size H (Z.of_nat i)).
      { unfold h. rewrite <- level_size_next by lia. f_equal. lia. }
      rewrite Nw, Nh in E.
      destruct (negb (level_size W (Z.of_nat i) =? fw) || negb (level_size H (Z.of_nat i) =? fh)) eqn:Sz; [ discriminate E | ].
      rewrite orb_false_iff, !negb_false_iff, !Z.eqb_eq in Sz. destruct Sz as [ <- <- ].
      replace (Z.of_nat i + 1) with (Z.of_nat (S i)) in E by lia.
      match type of E with match init_more _ _ _ ?a ?c _ with _ => _ end = _ =>
        destruct (init_more (Z.of_nat (S i)) (level_size W (Z.of_nat i)) (level_size H (Z.of_nat i)) a c r) as [ l | ] eqn:El; [ | discriminate E ];
        destruct (IH (S i) a c l) as (A & B & C) end.
      * lia.
      * replace (S i - 1)%nat with i by lia. exact El.
      * injection E as <-. cbn [length]. split; [ lia | ]. split.
        -- intros k K. destruct k as [ | k ]; [ rewrite Nat.add_0_r; reflexivity | ]. cbn [nth_error].
           replace (i + S k)%nat with (S i + k)%nat by lia. apply B. lia.
        -- intros L. replace (i + S (length l) - 1)%nat with (S i + length l - 1)%nat by lia. apply C. lia.
Qed.
Theorem C46_checked W H r ts : 0 < W -> 0 < H -> init_levels ((W, H) :: r) = Some ts ->
  (length ts <= S (length r))%nat /\
  (forall k, (k < length ts)%nat -> nth_error ((W, H) :: r) k = Some (level_size W (Z.of_nat k), level_size H (Z.of_nat k))) /\
  ((length ts < S (length r))%nat -> level_size W (Z.of_nat (length ts - 1)) = 1 /\ level_size H (Z.of_nat (length ts - 1)) = 1).
Proof.
  intros PW PH E. unfold init_levels in E.
  destruct (init_more 1 W H 0 0 r) as [ l | ] eqn:El; [ | discriminate E ]. injection E as <-.
  destruct (init_more_checked W H PW PH r 1 0 0 l) as (A & B & C).
  - lia.
  - cbn [Nat.sub]. change (Z.of_nat 0) with 0. rewrite !level_size_0. exact El.
  - cbn [length]. split; [ lia | ]. split.
    + intros k K. destruct k as [ | k ]; [ change (Z.of_nat 0) with 0; rewrite !level_size_0; reflexivity | ].
      cbn [nth_error]. apply B. lia.
    + intros L. replace (S (length l) - 1)%nat with (1 + length l - 1)%nat by lia. apply C. lia.
Qed.
Print Assumptions C46_checked.
Example checked_sizes : init_levels [(13, 6); (7, 3); (4, 2); (2, 1); (1, 1); (9, 9)] <> None /\ init_levels [(13, 6); (7, 2)] = None /\ init_levels [(13, 6); (6, 3)] = None.
Proof. vm_compute. repeat split; discriminate. Qed.

(** A texture so wide that its size is not a float is halved to another size than the one that is
    expected when it is used: it is refused. *)
Theorem C46_large_refuted : half_size 16777217 = 8388608 /\ init_levels [(16777217, 1); (half_size 16777217, 1)] = None.
Proof. vm_compute. auto. Qed.
Print Assumptions C46_large_refuted.

(** The box filter is such a function. *)
Lemma box_numbers : of_numbers box.
Proof.
  intros a a' A b b' B c c' C d d' D. unfold box, qabs. rewrite A, B.
  assert (E : forall u u' v v', (u == u')%Q -> (v == v')%Q -> Qle_bool (if Qle_bool 0 u' then u else - u) (v / 2) = Qle_bool (if Qle_bool 0 u' then u' else - u') (v' / 2)).
  { intros u u' v v' U V. destruct (Qle_bool 0 u'); rewrite U, V; reflexivity. }
  rewrite (E a a' c c' A C), (E b b' d d' B D). reflexivity.
Qed.
Lemma triangle_numbers : of_numbers triangle.
Proof.
  intros a a' A b b' B c c' C d d' D. unfold triangle, qmin. cbv zeta.
  assert (E : forall u u' v v', (u == u')%Q -> (v == v')%Q ->
     ((if Qle_bool (qabs u) (v / 2) then (v / 2 - qabs u) / (v / 2) else 0) == (if Qle_bool (qabs u') (v' / 2) then (v' / 2 - qabs u') / (v' / 2) else 0))%Q).
  { intros u u' v v' U V. assert (Au : (qabs u == qabs u')%Q) by (unfold qabs; rewrite U; destruct (Qle_bool 0 u'); rewrite U; reflexivity).
    rewrite Au, V. destruct (Qle_bool _ _); [ rewrite Au, V | ]; reflexivity. }
  pose proof (E a a' c c' A C) as E1. pose proof (E b b' d d' B D) as E2.
  set (p := if Qle_bool (qabs a) _ then _ else _) in *. set (q := if Qle_bool (qabs b) _ then _ else _) in *.
  set (p' := if Qle_bool (qabs a') _ then _ else _) in *. set (q' := if Qle_bool (qabs b') _ then _ else _) in *. clearbody p q p' q'.
  replace (Qle_bool p q) with (Qle_bool p' q') by (rewrite E1, E2; reflexivity). destruct (Qle_bool p' q'); assumption.
Qed.

(** A white texture becomes black with a box filter of 400 texels: every weight is small, so that
    none is left. *)
Theorem C46_wide_refuted : exists c,
  downsample None box 400 400 Periodic Periodic 1 (fun _ => 0%Q) (fun _ _ => 0%Q) (white 2 1) = Some c /\ (image_of c 0%Z 0%Z 0%Z == 0)%Q.
Proof.
  assert (Wt : forall x y, In (x, y) (points (region 2 2 400 400 (above 2 0) (above 2 0))) -> (weight_at box 400 400 (above 2 0) (above 2 0) x y == 1)%Q).
  { intros x y I. apply points_in in I. unfold within in I.
    change (sx0 (region 2 2 400 400 (above 2 0) (above 2 0))) with (-199) in I. change (sx1 (region 2 2 400 400 (above 2 0) (above 2 0))) with 201 in I.
    change (sy0 (region 2 2 400 400 (above 2 0) (above 2 0))) with (-199) in I. change (sy1 (region 2 2 400 400 (above 2 0) (above 2 0))) with 201 in I.
    unfold weight_at, box.
    assert (G : forall z, -199 <= z < 201 -> Qle_bool (qabs ((inject_Z z - above 2 0) / 2)) (400 / 2 / 2) = true).
    { intros z Hz. apply Qle_bool_iff. change (above 2 0) with (2 * 0 + (1 # 2))%Q.
      setoid_replace (400 / 2 / 2)%Q with 100%Q by reflexivity.
      assert (Iz : (-(199) <= inject_Z z <= 200)%Q).
      { change (- (199))%Q with (inject_Z (-199)). change 200%Q with (inject_Z 200). rewrite <- !Zle_Qle. lia. }
      assert (E2 : ((inject_Z z - (2 * 0 + (1 # 2))) / 2 == (1 # 2) * inject_Z z - (1 # 4))%Q) by field.
      unfold qabs. destruct (Qle_bool 0 _); lra. }
    rewrite !G by lia. reflexivity. }
  assert (Sm : (sum (weight_at box 400 400 (above 2 0) (above 2 0)) (points (region 2 2 400 400 (above 2 0) (above 2 0))) == 160000)%Q).
  { rewrite (sum_ext _ (fun _ _ => 1%Q) _ Wt).
    assert (L : forall l, (sum (fun _ _ => 1) l == inject_Z (Z.of_nat (length l)))%Q).
    { induction l as [ | p l IH ]; [ reflexivity | ]. cbn [length]. rewrite Nat2Z.inj_succ, <- Z.add_1_r, inject_Z_plus. cbn [sum fold_right]. unfold sum in IH. rewrite IH. change (inject_Z 1) with 1%Q. ring. }
    rewrite L. unfold points.
    assert (G : forall xs ys : list Z, length (flat_map (fun y => map (fun x => (x, y)) xs) ys) = (length ys * length xs)%nat).
    { intros xs. induction ys as [ | y ys IH ]; [ reflexivity | ]. cbn [flat_map length]. rewrite app_length, map_length, IH. reflexivity. }
    rewrite G, !numbers_length.
    change (sx1 (region 2 2 400 400 (above 2 0) (above 2 0)) - sx0 (region 2 2 400 400 (above 2 0) (above 2 0))) with 400.
    change (sy1 (region 2 2 400 400 (above 2 0) (above 2 0)) - sy0 (region 2 2 400 400 (above 2 0) (above 2 0))) with 400.
    rewrite Nat2Z.inj_mul, !Z2Nat.id by lia. reflexivity. }
  destruct (downsample_ok None box box_numbers 400 400) with (ws := Periodic) (wt := Periodic) (chans := 1) (b := white 2 1) (acc := fun _ : Z => 0%Q) (mem := fun _ _ : Z => 0%Q)
    as (c & E & Cw & Ch & V); try reflexivity; try (cbn; lia).
  - split; unfold Qle; cbn; lia.
  - split; unfold Qle; cbn; lia.
  - cbn [b_width b_height white]. rewrite Sm. intros T. discriminate T.
  - exists c. split; [ exact E | ]. rewrite V by (rewrite ?Cw, ?Ch; cbn; lia).
    rewrite (expected_const None box 400 400 Periodic Periodic (white 2 1) 1 0) by (try (left; reflexivity); try (cbn; lia); intros; reflexivity).
    cbv zeta. cbn [b_width b_height white save load]. change (inject_Z 0) with 0%Q.
    transitivity (1 * 0)%Q; [ | reflexivity ]. apply Qmult_comp; [ reflexivity | ].
    set (l := points _) in *. transitivity (sum (fun _ _ => 0 * 0) l)%Q.
    + apply sum_ext. intros x y I. unfold share. rewrite (Wt x y I), Sm. reflexivity.
    + rewrite sum_scale. ring.
Qed.
Print Assumptions C46_wide_refuted.

(** ** The hypotheses are met *)
Lemma parity w : Z.odd w = true /\ (forall h, above w h = above 1 h) /\ (forall q, reach w q = reach 1 q) \/
                 Z.odd w = false /\ (forall h, above w h = above 2 h) /\ (forall q, reach w q = reach 2 q).
Proof. unfold above, reach. destruct (Z.odd w); [ left | right ]; auto. Qed.
Example good_box : good_filter box 1 2.
Proof.
  split; [ exact box_numbers | ]. split; [ unfold Qle; cbn; lia | ]. split; [ unfold Qle; cbn; lia | ].
  intros w h _ _. unfold region.
  destruct (parity w) as [ (_ & A & B) | (_ & A & B) ], (parity h) as [ (_ & C & D) | (_ & C & D) ]; rewrite A, B, C, D; vm_compute; discriminate.
Qed.
Example kept_box w h : 0 < w -> 0 < h -> all_kept (weight_at box (clamp_width 1) (clamp_width 2) (above w 0) (above h 0))
     (points (region w h (clamp_width 1) (clamp_width 2) (above w 0) (above h 0))).
Proof.
  intros _ _. unfold region.
  destruct (parity w) as [ (_ & A & B) | (_ & A & B) ], (parity h) as [ (_ & C & D) | (_ & C & D) ]; rewrite A, B, C, D;
    intros x y I; vm_compute in I; repeat (destruct I as [ I | I ]; [ injection I as <- <-; vm_compute; try discriminate; reflexivity | ]); destruct I.
Qed.
Definition ramp : buffer samples := mkBuffer samples 3 2 (fun k c => inject_Z (10 * k + c)).
Example ramp_levels :
  match make_texture None box 1 2 Periodic Clamp 2 (fun _ => 9%Q) (fun _ _ => 8%Q) (fun m => m) (fun _ _ => 7%Q) (fun _ _ _ _ => 6%Q) (fun _ _ _ => 5%Q) ramp with
  | Some fs => map (fun f => (i_width samples f, i_height samples f)) fs
  | None => []
  end = [(3, 2); (2, 1); (1, 1)] /\
  match pyramid None box 1 2 Periodic Periodic 2 (fun _ => 9%Q) (fun _ _ => 8%Q) 5 ramp with
  | Some l => map (fun b => map (fun k => (Qred (b_data samples b k 0), Qred (b_data samples b k 1))) [0; 1]) l
  | None => []
  end = [[(15, 16); (35, 36)]; [(25, 26); (8, 8)]]%Q.
Proof. split; vm_compute; reflexivity. Qed.
Example ramp_transforms : match init_levels [(3, 2); (2, 1); (1, 1)] with
  | Some ts => map (fun t => (Qred (x_scale t), Qred (x_offset t), Qred (y_scale t), Qred (y_offset t))) ts
  | None => []
  end = [(1, 0, 1, 0); (1 # 2, 0, 1 # 2, - (1 # 2)); (1 # 4, - (1), 1 # 4, - (1 # 2))]%Q /\
  (place 3 2 0 == 1)%Q /\ (place 2 2 0 == 1 # 2)%Q.
Proof. repeat split; vm_compute; reflexivity. Qed.
Example clamped_region : around (mkSupport (-100) 50 3 5) = mkSupport (-35) (-14) 3 5.
Proof. reflexivity. Qed.

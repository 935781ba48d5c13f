(** Proofs for C63. *)

From Coq Require Import List Bool ZArith QArith Qround Lia Lqa Setoid.
From Verif Require Import MatModel MatSpec MatProofs CamModel CamSpec.
Import ListNotations.
Local Open Scope Q_scope.

(** * Images *)

Lemma image_product : forall A B v p q,
  image A v p -> image B p q -> image (product A B) v q.
Proof.
  intros A B v p q [NA PA] [NB PB].
  set (wa := moved A (point v) 3%nat) in *. set (wb := moved B (point p) 3%nat) in *.
  assert (MT : forall j, (j < 4)%nat -> moved (product A B) (point v) j == moved B (point p) j * wa).
  { intros j Hj. rewrite moved_product by exact Hj.
    transitivity (moved B (fun i => point p i * wa) j).
    - apply moved_ext; [exact Hj|apply same_refl|]. intros i Hi. unfold point at 2.
      destruct (Nat.ltb_spec i 3) as [L|L]; [symmetry; apply PA; exact L|].
      assert (i = 3%nat) by lia. subst i. fold wa. ring.
    - unfold moved, sum4. ring. }
  split.
  - rewrite (MT 3%nat) by lia. fold wb. intros K. apply Qmult_integral in K. destruct K; contradiction.
  - intros j Hj. rewrite (MT 3%nat), (MT j) by lia. fold wb. rewrite <- (PB j Hj). ring.
Qed.

Lemma image_same : forall A B v p, same A B -> image A v p -> image B v p.
Proof.
  intros A B v p S [N P].
  assert (M : forall j, (j < 4)%nat -> moved B (point v) j == moved A (point v) j)
    by (intros j Hj; symmetry; apply moved_ext; [exact Hj|exact S|intros; reflexivity]).
  split; [rewrite (M 3%nat) by lia; exact N|].
  intros j Hj. rewrite (M 3%nat), (M j) by lia. apply P. exact Hj.
Qed.

Lemma image_times : forall A B v p q, honest A -> honest B ->
  image (E B) v p -> image (E A) p q -> image (E (times A B)) v q.
Proof.
  intros A B v p q HA HB IB IA. destruct (times_ok A B HA HB) as [S _].
  eapply image_same; [apply same_sym; exact S|]. eapply image_product; eassumption.
Qed.

Lemma image_goes : forall m v p, honest m -> image (E m) v p -> goes_to m v (p 0%nat) (p 1%nat) (p 2%nat).
Proof.
  intros m v p H [N P]. assert (K := image3_ok m v H). unfold goes_to.
  destruct (image3 m v) as [r|]; [|contradiction]. destruct K as [_ K]. exists r. split; [reflexivity|].
  assert (J : forall j, (j < 3)%nat -> r j == p j).
  { intros j Hj. assert (X := K j Hj). rewrite <- (P j Hj) in X.
    apply Qmult_inj_r in X; [exact X|exact N]. }
  split; [|split]; apply J; lia.
Qed.

Lemma honest_elements : forall l, honest (with_elements l).
Proof. intros l H. discriminate H. Qed.

Lemma honest_times : forall A B, honest A -> honest B -> honest (times A B).
Proof. intros A B HA HB. apply (times_ok A B HA HB). Qed.

Ltac three j := destruct j as [|[|[|j]]]; [| | |lia].

Ltac ev := cbv beta iota delta [E identity with_elements find at_place Nat.eqb andb triple Nat.ltb Nat.leb moved sum4 point scaling_spec nth].

(** * The stages *)

Section Stages.
Variable tan_half : Q -> Q.

(** The options say what the requests in force say. *)
Record agrees (o : options) (l : list op) : Prop := {
  ag_x : xres o = width l;
  ag_y : yres o = height l;
  ag_p : pixel_ratio o = pixel l;
  ag_crop : (crop_l o, crop_r o, (crop_t o, crop_b o)) = crop l;
  ag_ratio : if ratio_set o then asked_ratio l = Some (frame_ratio o) else asked_ratio l = None;
  ag_win : let w := latest (fun r => match r with ScreenWindow x0 x1 y0 y1 => Some (x0, x1, (y0, y1)) | _ => None end) l in
           if window_set o then w = Some (win_l o, win_r o, (win_b o, win_t o)) else w = None;
  ag_proj : proj o = kind l;
  ag_fov : fov o = angle l;
  ag_clip : (near o, far o) = clip l }.

Lemma to_image_ok : forall o l c, agrees o l -> sensible tan_half l ->
  (kind l = Perspective -> ~ c 2%nat == 0) ->
  image (E (to_image tan_half o)) c (projected tan_half l c).
Proof.
  intros o l c A (_ & _ & _ & _ & _ & _ & NF & S) Z. unfold to_image, projected.
  rewrite <- (ag_clip o l A) in *. cbn [fst snd] in NF.
  rewrite (ag_proj o l A), (ag_fov o l A).
  assert (D : ~ far o - near o == 0) by (intros K; apply NF; lra).
  destruct (kind l).
  - split; ev; [intros K; lra|].
    intros j Hj. three j; ev; field; exact D.
  - specialize (S eq_refl). specialize (Z eq_refl). split; ev.
    + intros K. apply Z. lra.
    + intros j Hj. three j; ev; field; auto.
  - split; ev; [intros K; lra|].
    intros j Hj. three j; ev; ring.
Qed.

Lemma to_screen_ok : forall o k l r b t, win_l o = l -> win_r o = r -> win_b o = b -> win_t o = t ->
  ~ l == r -> ~ t == b ->
  image (E (to_screen o)) k
    (triple (2 * ((k 0%nat - l) / (r - l)) - 1) (1 - 2 * ((t - k 1%nat) / (t - b))) (k 2%nat)).
Proof.
  intros o k l r b t <- <- <- <- N1 N2. unfold to_screen.
  assert (D1 : ~ win_r o - win_l o == 0) by (intros K; apply N1; lra).
  assert (D2 : ~ win_t o - win_b o == 0) by (intros K; apply N2; lra).
  split; ev; [intros K; lra|].
  intros j Hj. three j; ev; field; assumption.
Qed.

Lemma to_ndc_honest : honest to_ndc.
Proof. intros H. vm_compute in H. discriminate H. Qed.

Lemma to_ndc_ok : forall x y z p, p = triple (2 * x - 1) (1 - 2 * y) z -> image (E to_ndc) p (triple x y z).
Proof.
  intros x y z p ->.
  apply image_same with (A := fun i j => nth j (nth i [[1 # 2; 0; 0; 0]; [0; -1 # 2; 0; 0]; [0; 0; 1; 0]; [1 # 2; 1 # 2; 0; 1]] []) 0).
  - intros i j Hi Hj. destruct i as [|[|[|[|i]]]]; [| | | |lia]; destruct j as [|[|[|[|j]]]]; try lia; vm_compute; reflexivity.
  - split; ev; [intros K; lra|]. intros j Hj. three j; ev; ring.
Qed.

Lemma to_raster_ok : forall o p, image (E (to_raster o)) p
  (triple (frame_x o * p 0%nat) (frame_y o * p 1%nat) (p 2%nat)).
Proof.
  intros o p. destruct (scaling_ok (frame_x o) (frame_y o) 1) as [S H].
  eapply image_same; [apply same_sym; exact S|].
  split; ev; [intros K; lra|].
  intros j Hj. three j; ev; ring.
Qed.
End Stages.

(** * Borders of the crop window *)

Lemma crop_pixels : forall res a b, (0 < res)%Z -> pixels res a b (crop_border res a) (crop_border res b).
Proof.
  intros res a b R i.
  assert (C : forall x, crop_border res x = Z.max 0 (Z.min res (Qceiling (inject_Z res * x)))).
  { intros x. unfold crop_border, clamp. destruct (Z.ltb_spec (Qceiling (inject_Z res * x)) 0); [lia|].
    destruct (Z.ltb_spec res (Qceiling (inject_Z res * x))); lia. }
  assert (L : forall x (i : Z), (Qceiling (inject_Z res * x) <= i)%Z <-> x * inject_Z res <= inject_Z i).
  { intros x k. split; intros H.
    - apply Qle_trans with (inject_Z (Qceiling (inject_Z res * x))).
      + rewrite Qmult_comm. apply Qle_ceiling.
      + rewrite <- Zle_Qle. exact H.
    - rewrite <- (Qceiling_Z k). apply Qceiling_resp_le. rewrite Qmult_comm. exact H. }
  rewrite !C. split.
  - intros H. assert (0 <= i < res)%Z by lia. split; [assumption|]. split.
    + apply L. lia.
    + apply Qnot_le_lt. intros K. apply L in K. lia.
  - intros (Hi & A & B). apply L in A.
    assert (~ (Qceiling (inject_Z res * b) <= i)%Z) by (intros K; apply L in K; lra). lia.
Qed.

(** * The frame *)

Lemma le1 : forall x, Qle_bool 1 x = true <-> 1 <= x.
Proof. intros x. apply Qle_bool_iff. Qed.

Lemma derive_agrees : forall o l, agrees o l -> agrees (derive_window (derive_ratio o)) l.
Proof.
  intros o l A. assert (B : agrees (derive_ratio o) l).
  { unfold derive_ratio. destruct (ratio_set o) eqn:R; [exact A|].
    destruct A as [a1 a2 a3 a4 a5 a6 a7 a8 a9]. rewrite R in a5. constructor; cbn; try assumption; rewrite R; assumption. }
  unfold derive_window. destruct (window_set (derive_ratio o)) eqn:R; [exact B|].
  destruct B as [a1 a2 a3 a4 a5 a6 a7 a8 a9]. rewrite R in a6.
  destruct (Qle_bool _ _); constructor; cbn -[derive_ratio]; try assumption; rewrite R; assumption.
Qed.

Lemma derived_ratio : forall o l, agrees o l -> frame_ratio (derive_window (derive_ratio o)) = ratio l.
Proof.
  intros o l A. assert (X := ag_ratio o l A). assert (AX := ag_x o l A). assert (AY := ag_y o l A). assert (AP := ag_p o l A).
  assert (W : forall p, frame_ratio (derive_window p) = frame_ratio p).
  { intros p. unfold derive_window, with_window. destruct (window_set p); [reflexivity|]. destruct (Qle_bool _ _); reflexivity. }
  rewrite W. unfold derive_ratio, ratio. destruct (ratio_set o); rewrite X; [reflexivity|].
  cbn. rewrite AX, AY, AP. reflexivity.
Qed.

Lemma derived_window : forall o l, agrees o l ->
  let d := derive_window (derive_ratio o) in
  win_l d == left_side l /\ win_r d == right_side l /\ win_b d == bottom_side l /\ win_t d == top_side l.
Proof.
  intros o l A d. assert (R := derived_ratio o l A). assert (X := ag_win o l A). cbv zeta in X.
  unfold left_side, right_side, bottom_side, top_side, window.
  assert (FR : frame_ratio (derive_ratio o) = ratio l).
  { rewrite <- R. unfold derive_window, with_window. destruct (window_set (derive_ratio o)); [reflexivity|].
    destruct (Qle_bool _ _); reflexivity. }
  assert (WS : window_set (derive_ratio o) = window_set o) by (unfold derive_ratio; destruct (ratio_set o); reflexivity).
  subst d. unfold derive_window. rewrite WS, FR. destruct (window_set o).
  - rewrite X. cbn [or_else fst snd].
    assert (K : win_l (derive_ratio o) = win_l o /\ win_r (derive_ratio o) = win_r o /\
                win_b (derive_ratio o) = win_b o /\ win_t (derive_ratio o) = win_t o)
      by (unfold derive_ratio; destruct (ratio_set o); auto).
    destruct K as (-> & -> & -> & ->). repeat split; reflexivity.
  - rewrite X. cbn [or_else]. destruct (Qle_bool 1 (ratio l)) eqn:L.
    + apply le1 in L. destruct (Qlt_le_dec (ratio l) 1) as [H|H]; [exfalso; lra|].
      cbn. repeat split; reflexivity.
    + assert (~ 1 <= ratio l) by (intros K; apply le1 in K; congruence).
      destruct (Qlt_le_dec (ratio l) 1) as [H'|H']; [|contradiction].
      cbn [with_window win_l win_r win_b win_t fst snd]. repeat split; try reflexivity.
      unfold Qdiv. ring.
Qed.

Lemma frame_fits : forall tan_half o l, agrees o l -> sensible tan_half l -> shaped l ->
  let d := derive_window (derive_ratio o) in fits l (frame_x d) (frame_y d).
Proof.
  intros tan_half o l A (W & H & P & R & _) SH d. unfold shaped in SH.
  assert (D := derived_ratio o l A). assert (AG := derive_agrees o l A). fold d in D, AG.
  assert (X := ag_x d l AG). assert (Y := ag_y d l AG). assert (PX := ag_p d l AG).
  unfold fits, frame_x, frame_y. rewrite D, X, Y, PX.
  assert (W' : 0 < inject_Z (width l)) by (replace 0 with (inject_Z 0) by reflexivity; rewrite <- Zlt_Qlt; exact W).
  assert (H' : 0 < inject_Z (height l)) by (replace 0 with (inject_Z 0) by reflexivity; rewrite <- Zlt_Qlt; exact H).
  set (w := inject_Z (width l)) in *. set (h := inject_Z (height l)) in *. set (p := pixel l) in *. set (r := ratio l) in *.
  assert (NP : ~ p == 0) by lra. assert (NR : ~ r == 0) by lra. assert (NH : ~ h == 0) by lra.
  assert (K : (1 <= r -> w * p <= r * h) /\ (r < 1 -> r * h <= w * p)).
  { destruct SH as [N|[[A1 A2]|[A1 A2]]]; [|split; intros; [exact A2|exfalso; lra]|split; intros; [exfalso; lra|exact A2]].
    assert (Er : r == w * p / h) by (unfold r, ratio; rewrite N; reflexivity).
    assert (Er' : r * h == w * p) by (rewrite Er; field; exact NH).
    split; intros _; rewrite Er'; apply Qle_refl. }
  destruct (Qle_bool 1 r) eqn:L; cbn [negb].
  - apply le1 in L. destruct K as [K _]. specialize (K L). split; [field; exact NR|].
    split; [apply Qle_refl|]. split; [|left; reflexivity].
    apply Qle_shift_div_r; [exact R|]. rewrite (Qmult_comm h r). exact K.
  - assert (L' : r < 1) by (apply Qnot_le_lt; intros Q; apply le1 in Q; congruence).
    destruct K as [_ K]. specialize (K L'). split; [field; exact NP|].
    split; [|split; [apply Qle_refl|right; reflexivity]].
    apply Qle_shift_div_r; [exact P|]. rewrite (Qmult_comm h r). exact K.
Qed.

(** * The picture of one world *)

Lemma goes_eq : forall m v x y z x' y' z', goes_to m v x y z -> x == x' -> y == y' -> z == z' -> goes_to m v x' y' z'.
Proof.
  intros m v x y z x' y' z' (r & E1 & E2 & E3 & E4) X Y Z. exists r.
  split; [exact E1|]. split; [rewrite <- X; exact E2|]. split; [rewrite <- Y; exact E3|]. rewrite <- Z. exact E4.
Qed.

Definition same_pre (pre : option matrix) (A : elements) : Prop :=
  honest (or_else pre identity) /\ same (E (or_else pre identity)) A.

Lemma picture_ok : forall tan_half o pre cam l,
  agrees o l -> sensible tan_half l -> shaped l -> same_pre pre (way_before l) -> honest cam -> same (E cam) (way l) ->
  let d := derive_window (derive_ratio o) in
  shows tan_half l (picture_of tan_half d pre cam).
Proof.
  intros tan_half o pre cam l A S SH [HP SP] HC SC d. assert (AG := derive_agrees o l A). fold d in AG.
  assert (Wn := derived_window o l A). cbv zeta in Wn. fold d in Wn. destruct Wn as (WL & WR & WB & WT).
  assert (FF := frame_fits tan_half o l A S SH). cbv zeta in FF. fold d in FF.
  assert (S' := S). destruct S' as (W & H & P & R & N1 & N2 & _).
  split.
  { unfold cropped. rewrite <- (ag_crop d l AG). cbn [first_x end_x first_y end_y picture_of].
    rewrite <- (ag_x d l AG), <- (ag_y d l AG) in *. split; apply crop_pixels; assumption. }
  exists (frame_x d), (frame_y d). split; [exact FF|].
  intros v c k IV Z IK x y.
  assert (I1 : image (E cam) v c) by (eapply image_same; [apply same_sym; exact SC|exact IV]).
  assert (I2 := to_image_ok tan_half d l c AG S Z).
  assert (I3 : image (E (or_else pre identity)) (projected tan_half l c) k)
    by (eapply image_same; [apply same_sym; exact SP|exact IK]).
  assert (I4 := to_screen_ok d k _ _ _ _ eq_refl eq_refl eq_refl eq_refl).
  assert (M1 : ~ win_l d == win_r d) by (rewrite WL, WR; exact N1).
  assert (M2 : ~ win_t d == win_b d) by (rewrite WT, WB; exact N2).
  specialize (I4 M1 M2).
  set (x1 := (k 0%nat - win_l d) / (win_r d - win_l d)) in *.
  set (y1 := (win_t d - k 1%nat) / (win_t d - win_b d)) in *.
  assert (EX : x1 == x) by (unfold x1, x; rewrite WL, WR; reflexivity).
  assert (EY : y1 == y) by (unfold y1, y; rewrite WT, WB; reflexivity).
  assert (I5 := to_ndc_ok x1 y1 (k 2%nat) _ eq_refl).
  assert (I6 := to_raster_ok d (triple x1 y1 (k 2%nat))). cbn [triple] in I6.
  assert (HI : honest (to_image tan_half d)).
  { unfold to_image. destruct (proj d); [apply honest_elements|apply honest_elements|exact identity_honest]. }
  assert (HS : honest (to_screen d)) by apply honest_elements.
  assert (HR : honest (to_raster d)) by apply scaling_ok.
  assert (HN := to_ndc_honest).
  assert (HCS : honest (camera_to_screen tan_half d pre)).
  { unfold camera_to_screen. apply honest_times; [apply honest_times; assumption|exact HI]. }
  assert (IC : image (E (camera_to_screen tan_half d pre)) c
                 (triple (2 * x1 - 1) (1 - 2 * y1) (k 2%nat))).
  { unfold camera_to_screen. eapply image_times; [apply honest_times; assumption|exact HI|exact I2|].
    eapply image_times; [exact HS|exact HP|exact I3|exact I4]. }
  cbn [screen ndc raster picture_of]. split; [|split].
  - eapply goes_eq; [eapply image_goes; [apply honest_times; assumption|]; eapply image_times; [exact HCS|exact HC|exact I1|exact IC]
      | cbn [triple]..]; [rewrite EX|rewrite EY|]; reflexivity.
  - eapply goes_eq; [eapply image_goes; [apply honest_times; [apply honest_times; assumption|exact HC]|];
      eapply image_times; [apply honest_times; assumption|exact HC|exact I1|]; eapply image_times; [exact HN|exact HCS|exact IC|exact I5]
      | cbn [triple]..]; [rewrite EX|rewrite EY|]; reflexivity.
  - eapply goes_eq; [eapply image_goes; [apply honest_times; [apply honest_times; [apply honest_times; assumption|assumption]|exact HC]|];
      eapply image_times; [apply honest_times; [apply honest_times; assumption|exact HCS]|exact HC|exact I1|];
      eapply image_times; [apply honest_times; assumption|exact HCS|exact IC|]; eapply image_times; [exact HR|exact HN|exact I5|exact I6]
      | cbn [triple]..]; [rewrite EX|rewrite EY|]; reflexivity.
Qed.

(** * Histories *)

Definition plain (r : op) : Prop :=
  match r with FrameBegin => False | FrameEnd => False | World => False | _ => True end.

Definition has_projection (l : list op) : bool :=
  existsb (fun r => match r with ProjectionRequest (Some _) _ => true | _ => false end) l.

Record block_ok (c : options * matrix) (l : list op) : Prop := {
  bo : agrees (fst c) l;
  bh : honest (snd c);
  bs : same (E (snd c)) (way l) }.

Record match_state (s : state) (k : scope) (stale : bool) (inside : option bool) : Prop := {
  ms_main : block_ok (main s) (outside k);
  ms_inner : match inner s, frame k with
             | Some c, Some f => block_ok c (f ++ outside k)
             | None, None => True
             | _, _ => False
             end;
  ms_inside : match inside, frame k with
              | Some b, Some f => b = has_projection f
              | None, None => True
              | _, _ => False
              end;
  ms_honest : honest (or_else (pre s) identity);
  ms_pre : stale = false -> same_pre (pre s) (way_before (in_force k)) }.

Lemma current_ok : forall s k st i, match_state s k st i -> block_ok (current s) (in_force k).
Proof.
  intros s k st i [M I _ _ _]. unfold current, in_force.
  destruct (inner s), (frame k); try contradiction; assumption.
Qed.

Lemma agrees_set : forall o l r,
  agrees o l ->
  match r with
  | Format x y a => agrees (format x y a o) (r :: l)
  | FrameAspectRatio a => agrees (aspect a o) (r :: l)
  | ScreenWindow x0 x1 y0 y1 => agrees (screen_window x0 x1 y0 y1 o) (r :: l)
  | CropWindow x0 x1 y0 y1 => agrees (crop_window x0 x1 y0 y1 o) (r :: l)
  | ProjectionRequest (Some p) a => agrees (projecting p a o) (r :: l)
  | Clipping n f => agrees (clipping n f o) (r :: l)
  | _ => agrees o (r :: l)
  end.
Proof.
  intros o l r [a1 a2 a3 a4 a5 a6 a7 a8 a9].
  assert (T : forall a : Q, (if negb (Qle_bool 0 a) then 1 else a) = if Qlt_le_dec a 0 then 1 else a).
  { intros a. destruct (Qle_bool 0 a) eqn:L; cbn [negb]; destruct (Qlt_le_dec a 0) as [K|K]; try reflexivity.
    - apply Qle_bool_iff in L. exfalso. lra.
    - apply Qle_bool_iff in K. congruence. }
  destruct r as [x y a| | | |[p|] a| | | | | |]; try (constructor; cbn; assumption || reflexivity).
  - constructor; cbn; try assumption; try reflexivity. apply T.
  - constructor; cbn; try assumption; try reflexivity. destruct a; [reflexivity|assumption].
Qed.

Lemma way_before_app : forall f l, has_projection f = false -> way_before (f ++ l) = way_before l.
Proof.
  induction f as [|r f IH]; intros l H; [reflexivity|]. cbn in H. apply orb_false_elim in H. destruct H as [H1 H2].
  destruct r as [| | | |[p|] a| | | | | |]; try discriminate H1; exact (IH l H2).
Qed.

Lemma with_current_ok : forall s k st i c r, plain r ->
  match_state s k st i -> block_ok c (r :: in_force k) ->
  forall p st' i', honest (or_else p identity) ->
  (st' = false -> same_pre p (way_before (r :: in_force k))) ->
  i' = option_map (fun b => has_projection [r] || b) i ->
  match_state (State (main (with_current c s)) (inner (with_current c s)) p) (note r k) st' i'.
Proof.
  intros s k st i c r PL [M I J H P] B p st' i' HP SP ->. unfold with_current, note, in_force in *.
  destruct k as [out [f|]], s as [mn [c0|] pr]; cbn in I, J, P, B; cbn [inner main pre frame outside]; try contradiction;
    destruct i as [b|]; cbn in J; try contradiction.
  - assert (X : match r with
                | FrameBegin => Scope out (Some f)
                | FrameEnd => Scope out None
                | World => Scope out (Some f)
                | _ => Scope out (Some (r :: f))
                end = Scope out (Some (r :: f))) by (destruct r; try contradiction PL; reflexivity).
    rewrite X. constructor; cbn [inner main pre frame outside option_map in_force]; try assumption.
    cbn [has_projection existsb] in *. rewrite orb_false_r. f_equal. exact J.
  - assert (X : match r with
                | FrameBegin => Scope out (Some [])
                | FrameEnd => Scope out None
                | World => Scope out None
                | _ => Scope (r :: out) None
                end = Scope (r :: out) None) by (destruct r; try contradiction PL; reflexivity).
    rewrite X. constructor; cbn [inner main pre frame outside option_map in_force]; try assumption; exact Logic.I.
Qed.

Lemma pre_with_current : forall c s, pre (with_current c s) = pre s.
Proof. intros c s. unfold with_current. destruct (inner s); reflexivity. Qed.

Lemma eta : forall s, State (main s) (inner s) (pre s) = s.
Proof. intros []. reflexivity. Qed.

Lemma quiet_ok : forall s k st i c r, plain r -> has_projection [r] = false ->
  match_state s k st i -> block_ok c (r :: in_force k) -> match_state (with_current c s) (note r k) st i.
Proof.
  intros s k st i c r PL NP M B.
  rewrite <- (eta (with_current c s)), pre_with_current.
  apply (with_current_ok s k st i c r PL M B); [apply (ms_honest _ _ _ _ M)| |].
  - intros E. replace (way_before (r :: in_force k)) with (way_before (in_force k)).
    + apply (ms_pre _ _ _ _ M E).
    + symmetry. apply (way_before_app [r]). exact NP.
  - destruct i as [b|]; cbn [option_map]; [|reflexivity]. rewrite NP. reflexivity.
Qed.

Lemma worlds_plain : forall r l k, plain r -> worlds (r :: l) k = worlds l (note r k).
Proof. intros r l k P. destruct r; try contradiction; reflexivity. Qed.

Lemma run_ok : forall tan_half l s k st i,
  match_state s k st i -> settled st i l = true -> Forall honest_op l ->
  Forall (fun w => sensible tan_half w /\ shaped w) (worlds l k) ->
  Forall2 (shows tan_half) (worlds l k) (run tan_half l s).
Proof.
  intros tan_half. induction l as [|r l IH]; intros s k st i M S H W; [constructor|].
  inversion H as [|? ? Hr Hl]; subst.
  assert (C := current_ok s k st i M). destruct C as [C1 C2 C3].
  assert (A := agrees_set (fst (current s)) (in_force k) r C1).
  destruct r as [x y a|a|x0 x1 y0 y1|x0 x1 y0 y1|[p|] a|n f|m|m| | |];
    cbn [settled] in S; cbn [worlds] in W |- *; cbn [run step].
  - apply (IH _ _ st i); [|assumption..]. apply quiet_ok; [exact Logic.I|reflexivity|exact M|].
    constructor; [exact A|exact C2|exact C3].
  - apply (IH _ _ st i); [|assumption..]. apply quiet_ok; [exact Logic.I|reflexivity|exact M|].
    constructor; [exact A|exact C2|exact C3].
  - apply (IH _ _ st i); [|assumption..]. apply quiet_ok; [exact Logic.I|reflexivity|exact M|].
    constructor; [exact A|exact C2|exact C3].
  - apply (IH _ _ st i); [|assumption..]. apply quiet_ok; [exact Logic.I|reflexivity|exact M|].
    constructor; [exact A|exact C2|exact C3].
  - (* projection *)
    cbn [app]. set (cs := current s) in *.
    assert (E1 : move (fun _ => identity) (with_pre (snd (current (set (projecting p a) s))) (set (projecting p a) s))
                 = State (main (with_current (projecting p a (fst cs), identity) s))
                         (inner (with_current (projecting p a (fst cs), identity) s)) (Some (snd cs))).
    { unfold cs, move, with_pre, set, with_current, current. destruct s as [mn [c0|] pr]; reflexivity. }
    rewrite E1. apply (IH _ _ false (option_map (fun _ => true) i)); [|assumption..].
    apply (with_current_ok s k st i _ (ProjectionRequest (Some p) a)); [exact Logic.I|exact M| | | |].
    + constructor; [exact A|exact identity_honest|apply same_refl].
    + exact C2.
    + intros _. split; [exact C2|exact C3].
    + destruct i; reflexivity.
  - apply (IH _ _ st i); [|assumption..].
    assert (Q : with_current (current s) s = s) by (unfold with_current, current; destruct s as [mn [c0|] pr]; reflexivity).
    rewrite <- Q. apply quiet_ok; [exact Logic.I|reflexivity|exact M|].
    constructor; [exact A|exact C2|exact C3].
  - apply (IH _ _ st i); [|assumption..]. apply quiet_ok; [exact Logic.I|reflexivity|exact M|].
    constructor; [exact A|exact C2|exact C3].
  - (* concat *)
    apply (IH _ _ st i); [|assumption..]. apply quiet_ok; [exact Logic.I|reflexivity|exact M|].
    cbn in Hr. constructor; cbn [fst snd].
    + exact A.
    + apply honest_times; assumption.
    + cbn [way]. destruct (times_ok (snd (current s)) m C2 Hr) as [TS _]. eapply same_trans; [exact TS|].
      apply product_ext; [apply same_refl|exact C3].
  - apply (IH _ _ st i); [|assumption..]. apply quiet_ok; [exact Logic.I|reflexivity|exact M|].
    constructor; [exact A|exact Hr|apply same_refl].
  - (* frame begin *)
    cbn [app]. apply (IH _ _ st (match i with None => Some false | x => x end)); [|assumption..].
    destruct M as [M1 M2 M3 M4 M5].
    destruct s as [mn [c0|] pr], k as [out [f|]]; cbn in M2; try contradiction; cbn [inner note frame outside main pre].
    + destruct i as [b|]; cbn in M3; [|contradiction]. constructor; assumption.
    + destruct i as [b|]; cbn in M3; [contradiction|]. constructor; cbn [inner main pre frame outside in_force app] in *; try assumption.
      reflexivity.
  - (* frame end *)
    cbn [app]. apply (IH _ _ (st || match i with Some b => b | None => false end) None); [|assumption..].
    destruct M as [M1 M2 M3 M4 M5]. constructor; cbn [inner main pre frame outside note]; try assumption; try exact Logic.I.
    intros E. apply orb_false_elim in E. destruct E as [E1 E2]. specialize (M5 E1).
    unfold in_force in *. cbn [frame outside]. destruct (frame k) as [f|]; [|exact M5].
    destruct i as [b|]; [|contradiction]. subst b. rewrite way_before_app in M5 by exact E2. exact M5.
  - (* world *)
    cbn [app]. apply andb_prop in S. destruct S as [S1 S2]. apply negb_true_iff in S1.
    inversion W as [|? ? [W1 W2] W3]; subst.
    assert (Cd : current (set (fun o => derive_window (derive_ratio o)) s)
                 = (derive_window (derive_ratio (fst (current s))), snd (current s)))
      by (unfold set, with_current, current; destruct s as [mn [c0|] pr]; reflexivity).
    constructor.
    + rewrite Cd. cbn [fst snd].
      assert (Pr : pre (set (fun o => derive_window (derive_ratio o)) s) = pre s) by apply pre_with_current.
      rewrite Pr. apply picture_ok; try assumption. apply (ms_pre _ _ _ _ M). reflexivity.
    + apply (IH _ _ false i); [|assumption..].
      assert (D := derive_agrees _ _ C1).
      destruct M as [M1 M2 M3 M4 M5].
      destruct s as [mn [c0|] pr], k as [out [f|]]; cbn in M2; try contradiction; cbn in C2, C3, D;
        constructor; cbn [inner main pre frame outside in_force set with_current current fst snd] in *; try assumption.
      * constructor; assumption.
      * constructor; assumption.
Qed.

Lemma start_ok : match_state start (Scope [] None) false None.
Proof.
  constructor; cbn; try exact Logic.I.
  - constructor; [constructor; reflexivity|exact identity_honest|apply same_refl].
  - exact identity_honest.
  - intros _. split; [exact identity_honest|apply same_refl].
Qed.

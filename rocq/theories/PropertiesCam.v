(** C63: the camera. *)

From Coq Require Import List Bool ZArith QArith Lia Lqa.
From Verif Require Import MatModel MatSpec MatProofs CamModel CamSpec CamProofs.
Import ListNotations.
Local Open Scope Q_scope.

(** Each world is shown by the requests in force at it, and cut to the crop window. *)
Theorem C63_pictures_partial : forall tan_half l,
  Forall honest_op l -> settled false None l = true ->
  Forall (fun w => sensible tan_half w /\ shaped w) (all_worlds l) ->
  Forall2 (shows tan_half) (all_worlds l) (pictures tan_half l).
Proof. intros tan_half l H S W. exact (run_ok tan_half l start _ false None start_ok S H W). Qed.
Print Assumptions C63_pictures_partial.

(** Without a ratio asked for, the screen window fills the picture: its sides are the
    sides of the picture. *)
Theorem C63_filled_partial : forall tan_half l,
  Forall honest_op l -> settled false None l = true ->
  Forall (fun w => sensible tan_half w /\ shaped w) (all_worlds l) ->
  Forall2 (fun w p => asked_ratio w = None ->
    forall v c k, image (way w) v c -> (kind w = Perspective -> ~ c 2%nat == 0) ->
    image (way_before w) (projected tan_half w c) k ->
    exists r, image3 (raster p) v = Some r /\
      (k 0%nat == left_side w -> r 0%nat == 0) /\
      (k 0%nat == right_side w -> r 0%nat == inject_Z (width w)) /\
      (k 1%nat == top_side w -> r 1%nat == 0) /\
      (k 1%nat == bottom_side w -> r 1%nat == inject_Z (height w)))
    (all_worlds l) (pictures tan_half l).
Proof.
  intros tan_half l H S W. assert (P := C63_pictures_partial tan_half l H S W). revert W P.
  generalize (all_worlds l) (pictures tan_half l). induction l0 as [|w ws IH]; intros ps Wf P;
    inversion P as [|? p ? ps' [_ (fx & fy & F & Pl)] P']; subst; [constructor|].
  inversion Wf as [|? ? [Sn _] Wf']; subst. constructor; [|exact (IH _ Wf' P')].
  intros NR v c k I1 Z I2. destruct (Pl v c k I1 Z I2) as (_ & _ & r & Er & X & Y & _).
  exists r. split; [exact Er|]. destruct Sn as (Wp & Hp & Pp & _ & N1 & N2 & _).
  destruct F as (F1 & F2 & F3 & F4). unfold ratio in F1. rewrite NR in F1. cbn [or_else] in F1.
  assert (Wq : 0 < inject_Z (width w)) by (replace 0 with (inject_Z 0) by reflexivity; rewrite <- Zlt_Qlt; exact Wp).
  assert (Hq : 0 < inject_Z (height w)) by (replace 0 with (inject_Z 0) by reflexivity; rewrite <- Zlt_Qlt; exact Hp).
  set (ww := inject_Z (width w)) in *. set (hh := inject_Z (height w)) in *.
  assert (NH : ~ hh == 0) by lra. assert (NP : ~ pixel w == 0) by lra.
  assert (F1' : fx * hh == ww * fy).
  { assert (K : (fx * hh) * pixel w == (ww * fy) * pixel w).
    { transitivity ((fx * pixel w) * hh); [ring|]. rewrite F1. field. exact NH. }
    apply Qmult_inj_r in K; [exact K|exact NP]. }
  assert (FX : fx == ww /\ fy == hh).
  { destruct F4 as [F4|F4].
    - split; [exact F4|]. rewrite F4 in F1'. apply Qmult_inj_l in F1'; [symmetry; exact F1'|lra].
    - split; [|exact F4]. rewrite F4 in F1'. apply Qmult_inj_r in F1'; [exact F1'|lra]. }
  destruct FX as [FX FY].
  assert (D1 : ~ right_side w - left_side w == 0) by (intros K; apply N1; lra).
  assert (D2 : ~ top_side w - bottom_side w == 0) by (intros K; apply N2; lra).
  split; [|split; [|split]]; intros K.
  - rewrite X, K. field. exact D1.
  - rewrite X, K, FX. field. exact D1.
  - rewrite Y, K. field. exact D2.
  - rewrite Y, K, FY. field. exact D2.
Qed.
Print Assumptions C63_filled_partial.

(** In a perspective the near plane has the depth 0 and the far plane the depth 1, and
    what is farther away is deeper. *)
Theorem C63_depth_partial : forall tan_half l,
  Forall honest_op l -> settled false None l = true ->
  Forall (fun w => sensible tan_half w /\ shaped w) (all_worlds l) ->
  Forall2 (fun w p => kind w = Perspective -> same (way_before w) one ->
    let '(n, f) := clip w in 0 < n -> n < f ->
    forall v c, image (way w) v c -> 0 < c 2%nat ->
    exists r, image3 (raster p) v = Some r /\
      (c 2%nat == n -> r 2%nat == 0) /\ (c 2%nat == f -> r 2%nat == 1) /\
      forall v' c', image (way w) v' c' -> c 2%nat < c' 2%nat ->
      exists r', image3 (raster p) v' = Some r' /\ r 2%nat < r' 2%nat)
    (all_worlds l) (pictures tan_half l).
Proof.
  intros tan_half l H S W. assert (P := C63_pictures_partial tan_half l H S W). revert W P.
  generalize (all_worlds l) (pictures tan_half l). induction l0 as [|w ws IH]; intros ps Wf P;
    inversion P as [|? p ? ps' [_ (fx & fy & F & Pl)] P']; subst; [constructor|].
  inversion Wf as [|? ? [Sn _] Wf']; subst. constructor; [|exact (IH _ Wf' P')].
  intros KP O. destruct (clip w) as [n f] eqn:CL. intros N0 NF v c I1 Z.
  assert (ID : forall q, image (way_before w) q q).
  { intros q. eapply image_same; [apply same_sym; exact O|].
    split; unfold moved, sum4, point, one; cbn; [intros K; lra|].
    intros j Hj. destruct j as [|[|[|j]]]; [| | |lia]; cbn; ring. }
  assert (DP : forall q, projected tan_half w q 2%nat = f * (q 2%nat - n) / ((f - n) * q 2%nat))
    by (intros q; unfold projected; rewrite CL, KP; reflexivity).
  assert (G : forall v c, image (way w) v c -> 0 < c 2%nat ->
     exists r, image3 (raster p) v = Some r /\ r 2%nat == f * (c 2%nat - n) / ((f - n) * c 2%nat)).
  { intros v0 c0 I0 Z0. assert (NZ : kind w = Perspective -> ~ c0 2%nat == 0) by (intros _; lra).
    destruct (Pl v0 c0 _ I0 NZ (ID (projected tan_half w c0))) as (_ & _ & r & Er & _ & _ & E3).
    exists r. split; [exact Er|]. rewrite E3, DP. reflexivity. }
  destruct (G v c I1 Z) as (r & Er & Dr). exists r. split; [exact Er|].
  assert (NZ : ~ c 2%nat == 0) by lra. assert (NN : ~ f - n == 0) by lra.
  split; [|split].
  - intros K. rewrite Dr, K. field. split; [lra|exact NN].
  - intros K. rewrite Dr, K. field. split; [lra|exact NN].
  - intros v' c' I' L. assert (Z' : 0 < c' 2%nat) by lra.
    destruct (G v' c' I' Z') as (r' & Er' & Dr'). exists r'. split; [exact Er'|]. rewrite Dr, Dr'.
    set (a := c 2%nat) in *. set (b := c' 2%nat) in *.
    assert (NB : ~ b == 0) by lra.
    setoid_replace (f * (a - n) / ((f - n) * a)) with ((f / (f - n)) * (1 - n / a)) by (field; auto).
    setoid_replace (f * (b - n) / ((f - n) * b)) with ((f / (f - n)) * (1 - n / b)) by (field; auto).
    assert (Q1 : n / b < n / a).
    { apply Qlt_shift_div_l; [exact Z|]. setoid_replace (n / b * a) with (n * a / b) by (field; exact NB).
      apply Qlt_shift_div_r; [exact Z'|]. nra. }
    assert (Q2 : 0 < f / (f - n)) by (apply Qlt_shift_div_l; lra).
    nra.
Qed.
Print Assumptions C63_depth_partial.

(** Crop windows that share a border share no pixel and leave none out. *)
Theorem C63_crop_tiles_partial : forall tan_half w w' p p' a b c,
  shows tan_half w p -> shows tan_half w' p' -> width w' = width w ->
  fst (crop w) = (a, b) -> fst (crop w') = (b, c) -> a <= b -> b <= c ->
  forall i : Z,
  ((first_x p <= i < end_x p)%Z \/ (first_x p' <= i < end_x p')%Z <->
   (0 <= i < width w)%Z /\ a * inject_Z (width w) <= inject_Z i /\ inject_Z i < c * inject_Z (width w)) /\
  ~ ((first_x p <= i < end_x p)%Z /\ (first_x p' <= i < end_x p')%Z).
Proof.
  intros tan_half w w' p p' a b c [C _] [C' _] EW F F' AB BC i. unfold cropped in C, C'.
  destruct (crop w) as [[x0 x1] [y0 y1]], (crop w') as [[u0 u1] [t0 t1]]. cbn [fst] in F, F'.
  injection F as -> ->. injection F' as -> ->. destruct C as [C _], C' as [C' _]. rewrite EW in C'.
  specialize (C i). specialize (C' i).
  destruct (Z_lt_le_dec i 0) as [I0|I0]; [split; [split; [intros [K|K]; [apply C in K|apply C' in K]; lia|lia]|intros [K _]; apply C in K; lia]|].
  destruct (Z_lt_le_dec i (width w)) as [I1|I1]; [|split; [split; [intros [K|K]; [apply C in K|apply C' in K]; lia|lia]|intros [K _]; apply C in K; lia]].
  assert (W : 0 <= inject_Z (width w)) by (replace 0 with (inject_Z 0) by reflexivity; rewrite <- Zle_Qle; lia).
  assert (L1 : a * inject_Z (width w) <= b * inject_Z (width w)) by (apply Qmult_le_compat_r; assumption).
  assert (L2 : b * inject_Z (width w) <= c * inject_Z (width w)) by (apply Qmult_le_compat_r; assumption).
  split; [split|].
  - intros [K|K]; [apply C in K|apply C' in K]; destruct K as (K1 & K2 & K3); split; [lia|split; lra|lia|split; lra].
  - intros (K1 & K2 & K3). destruct (Qlt_le_dec (inject_Z i) (b * inject_Z (width w))) as [Q|Q].
    + left. apply C. auto.
    + right. apply C'. auto.
  - intros [K K']. apply C in K. apply C' in K'. destruct K as (_ & _ & K), K' as (_ & K' & _). lra.
Qed.
Print Assumptions C63_crop_tiles_partial.

(** * Examples *)

(** The tangents of 45 degrees and, nearly, of half of 53 degrees. *)
Definition tans (a : Q) : Q := if Qeq_bool a 90 then 1 else 1 # 2.

Definition session : list op :=
  [Format 320 240 1; Clipping 1 9; ConcatTransform (scaling 1 1 1); World;
   FrameBegin; ProjectionRequest (Some Perspective) (Some 90); ConcatTransform (translation 0 0 5); World;
   ScreenWindow (-1) 1 (-1) 1; CropWindow 0 (1 # 3) 0 1; World; FrameEnd;
   FrameBegin; Format 200 400 1; ConcatTransform (scaling 2 2 1); ProjectionRequest (Some Orthographic) None;
   FrameAspectRatio (1 # 2); CropWindow (1 # 3) 1 (1 # 2) 1; World; FrameEnd].

Example session_settled : settled false None session = true.
Proof. reflexivity. Qed.

Example session_honest : Forall honest_op session.
Proof.
  repeat constructor; cbn; try exact Logic.I; try (intros K; vm_compute in K; discriminate K).
Qed.

Ltac small := vm_compute; (reflexivity || discriminate || (intros K; discriminate K)).

Example session_sensible : Forall (fun w => sensible tans w /\ shaped w) (all_worlds session).
Proof.
  cbn [all_worlds worlds session note in_force frame outside app].
  repeat (apply Forall_cons || apply Forall_nil);
    (split; [unfold sensible; repeat split; small|]).
  - left. reflexivity.
  - left. reflexivity.
  - left. reflexivity.
  - right. right. split; small.
Qed.

Definition seen (p : picture) (v : nat -> Q) : option (list Q) :=
  option_map (fun r => map (fun j => Qred (r j)) [0; 1; 2]%nat) (image3 (raster p) v).

Example session_seen :
  map (fun p => (seen p (triple 1 (1 # 2) 5), first_x p, end_x p, first_y p, end_y p)) (pictures tans session) =
  [(Some [280; 60; 0], 0%Z, 320%Z, 0%Z, 240%Z);
   (Some [172; 114; 81 # 80], 0%Z, 320%Z, 0%Z, 240%Z);
   (Some [176; 114; 81 # 80], 0%Z, 107%Z, 0%Z, 240%Z);
   (Some [300; 100; 0], 67%Z, 200%Z, 200%Z, 400%Z)].
Proof. vm_compute. reflexivity. Qed.

(** * What does not hold *)

(** The transformation before a projection in a frame stays after the end of the frame. *)
Theorem C63_frames_refuted : exists tan_half l,
  Forall honest_op l /\ Forall (fun w => sensible tan_half w /\ shaped w) (all_worlds l) /\
  ~ Forall2 (shows tan_half) (all_worlds l) (pictures tan_half l).
Proof.
  exists tans, [FrameBegin; ConcatTransform (scaling 2 2 1); ProjectionRequest (Some Orthographic) None; FrameEnd;
                Clipping 1 9; World].
  split; [repeat constructor; intros K; vm_compute in K; discriminate K|]. split.
  - repeat constructor; try small. 
  - intros P. inversion P as [|? ? ? ? [_ (fx & fy & _ & Pl)] _]; subst. clear P.
    assert (ID : forall q, image one q q).
    { intros q. split; unfold moved, sum4, point, one; cbn; [intros K; lra|].
      intros j Hj. destruct j as [|[|[|j]]]; [| | |lia]; cbn; ring. }
    destruct (Pl (triple 1 0 1) (triple 1 0 1) (projected tans [Clipping 1 9] (triple 1 0 1))) as [(r & E1 & X & _) _].
    + apply ID.
    + intros K. discriminate K.
    + apply ID.
    + vm_compute in E1. injection E1 as <-. vm_compute in X. discriminate X.
Qed.
Print Assumptions C63_frames_refuted.

(** The frame of a ratio of 1 is higher than the picture: its lower part is lost. *)
Theorem C63_aspect_refuted : exists tan_half l,
  Forall honest_op l /\ settled false None l = true /\ Forall (sensible tan_half) (all_worlds l) /\
  ~ Forall2 (shows tan_half) (all_worlds l) (pictures tan_half l).
Proof.
  exists tans, [FrameAspectRatio 1; Clipping 1 9; World].
  split; [repeat constructor|]. split; [reflexivity|]. split.
  - repeat constructor; try small.
  - intros P. inversion P as [|? ? ? ? [_ (fx & fy & F & Pl)] _]; subst. clear P.
    assert (ID : forall q, image one q q).
    { intros q. split; unfold moved, sum4, point, one; cbn; [intros K; lra|].
      intros j Hj. destruct j as [|[|[|j]]]; [| | |lia]; cbn; ring. }
    destruct (Pl (triple 1 0 1) (triple 1 0 1) (projected tans [Clipping 1 9; FrameAspectRatio 1] (triple 1 0 1)))
      as (_ & _ & r & E1 & X & _).
    + apply ID.
    + intros K. discriminate K.
    + apply ID.
    + vm_compute in E1. injection E1 as <-. destruct F as (F1 & F2 & F3 & _).
      assert (F1' : fx * 1 == 1 * fy) by exact F1.
      assert (X' : fx * 1 == 640).
      { eapply Qeq_trans; [|eapply Qeq_trans; [apply Qeq_sym; exact X|vm_compute; reflexivity]].
        apply Qmult_comp; [apply Qeq_refl|vm_compute; reflexivity]. }
      assert (F3' : fy <= 480) by exact F3. lra.
Qed.
Print Assumptions C63_aspect_refuted.

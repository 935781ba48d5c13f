(** C61: the requests for the current transformation do what they mean. *)

From Coq Require Import List Arith Bool QArith ZArith Sorting.Sorted.
From Verif Require Import MatModel MatSpec MotionModel XformModel XformSpec XformProofs.
From Verif Require StateModel.
Import ListNotations.
Local Open Scope nat_scope.

(** Scenes without motion blocks: whatever the requests and blocks, each primitive has
    the transformation that the requests mean, and the camera is the transformation at
    the beginning of the world. *)
Theorem C61_still : forall shutter l out,
  expected shutter l = Some out -> Forall still_op l ->
  exists o, observed shutter l = Some o /\
    Forall2 (fun p g => right_matrices (fst p) (snd p) g) o out.
Proof.
  intros sh l out E0 F.
  destruct (observed_right sh l out E0 (still_simple sh l sstart keyless_start F)) as (o & Eo & A & _). eauto.
Qed.
Print Assumptions C61_still.

(** Without requests for named spaces, the handedness of each primitive of the world
    tells whether the way from the object to the camera is a reflection. *)
Theorem C61_still_handedness_partial : forall shutter l out,
  expected shutter l = Some out -> Forall still_op l -> Forall no_space l ->
  exists o, observed shutter l = Some o /\
    Forall2 (fun p g => right_handedness (fst p) g) o out.
Proof.
  intros sh l out E0 F N.
  destruct (observed_right sh l out E0 (still_simple sh l sstart keyless_start F)) as (o & Eo & _ & A). eauto.
Qed.
Print Assumptions C61_still_handedness_partial.

(** With motion blocks, for programs that are [simple]. *)
Theorem C61_moving_partial : forall shutter l out,
  expected shutter l = Some out -> all_simple shutter l sstart ->
  exists o, observed shutter l = Some o /\
    Forall2 (fun p g => right_matrices (fst p) (snd p) g) o out.
Proof.
  intros sh l out E0 F.
  destruct (observed_right sh l out E0 F) as (o & Eo & A & _). eauto.
Qed.
Print Assumptions C61_moving_partial.

Theorem C61_moving_handedness_partial : forall shutter l out,
  expected shutter l = Some out -> all_simple shutter l sstart -> Forall no_space l ->
  exists o, observed shutter l = Some o /\
    Forall2 (fun p g => right_handedness (fst p) g) o out.
Proof.
  intros sh l out E0 F N.
  destruct (observed_right sh l out E0 F) as (o & Eo & _ & A). eauto.
Qed.
Print Assumptions C61_moving_handedness_partial.

(** * Examples *)

Definition motion (tms : list time) (rs : list request) : list op :=
  Begin StateModel.BMotion tms :: map Do rs ++ [End StateModel.BMotion].

Definition mirror : elements := fun i j => if i =? j then (if i =? 0 then (-2)%Q else 1%Q) else 0%Q.

(** A camera, a world, nested blocks; the third primitive has the transformation of
    the first. *)
Definition scene : list op :=
  [Do (Translate 0 0 5); Do (Scale 1 (-1) 1); Begin StateModel.BWorld [];
   Do (Translate 1 2 3); Primitive;
   Begin StateModel.BAttribute []; Do (ConcatTransform mirror); Do Other; Primitive;
   Begin StateModel.BTransform []; Do (Transform mirror); Do (Perspective (1#2)); End StateModel.BTransform;
   Do Identity; Primitive; End StateModel.BAttribute; Primitive;
   End StateModel.BWorld]%Q.

(** How many primitives a proper program has. *)
Definition primitives (l : list op) : option nat := option_map (@List.length given) (expected 0%Z l).

Example scene_expected : primitives scene = Some 4.
Proof. vm_compute. reflexivity. Qed.

Example scene_still : Forall still_op scene /\ Forall no_space scene.
Proof. split; repeat (constructor; [first [exact Logic.I|discriminate|intros m; discriminate]|]); constructor. Qed.

Definition row (x : xform) (t : time) : option (list Q * bool) :=
  match mat_at x t, hand_at x t with
  | Some m, Some h => Some (map (fun i => Qred (E m 3 i)) [0; 1; 2] ++ [Qred (E m 0 0)], h)
  | _, _ => None
  end.

Example scene_observed :
  option_map (map (fun p => row (fst p) 0%Z)) (observed 0%Z scene) =
  Some [Some ([1; 2; 3; 1]%Q, true); Some ([1; 2; 3; -2 # 1]%Q, false);
        Some ([0; 0; 0; 1]%Q, true); Some ([1; 2; 3; 1]%Q, true)].
Proof. vm_compute. reflexivity. Qed.

(** A moving object, turned and scaled afterwards. *)
Definition moving_scene : list op :=
  Do (Translate 0 0 5) :: Begin StateModel.BWorld [] :: Do (Translate 7 0 0) ::
  motion [3; 1]%Z [Translate 0 1 0; Translate 0 2 0]%Q ++
  [Do (Scale 2 2 2)%Q; Primitive] ++ motion [1; 3]%Z [Transform mirror; Other] ++
  [Primitive; End StateModel.BWorld].

Example moving_scene_fine : primitives moving_scene = Some 2 /\
  all_simple 0%Z moving_scene sstart /\ Forall no_space moving_scene.
Proof.
  split; [vm_compute; reflexivity|split].
  - apply all_simple_test_ok. vm_compute. reflexivity.
  - repeat (constructor; [intros m; discriminate|]). constructor.
Qed.

Example moving_scene_observed :
  option_map (map (fun p => (MotionModel.times (slots (fst p)), row (fst p) 1%Z, row (fst p) 3%Z))) (observed 0%Z moving_scene) =
  Some [([1; 3]%Z, Some ([7; 2; 0; 2]%Q, false), Some ([7; 1; 0; 2]%Q, false));
        ([1; 3]%Z, Some ([0; 0; 0; -2 # 1]%Q, true), Some ([7; 1; 0; 2]%Q, false))].
Proof. vm_compute. reflexivity. Qed.

(** * What does not hold *)

(** A motion block in the world of a moving camera works on the keys of the camera. *)
Theorem C61_moving_camera_refuted : exists l, expected 0%Z l <> None /\
  forall o out, observed 0%Z l = Some o -> expected 0%Z l = Some out ->
  ~ Forall2 (fun p g => right_matrices (fst p) (snd p) g) o out.
Proof.
  exists (motion [0; 1]%Z [Translate 1 0 0; Translate 2 0 0]%Q ++ Begin StateModel.BWorld [] ::
          motion [0; 1]%Z [Translate 0 1 0; Translate 0 2 0]%Q ++ [Primitive]).
  apply (wrong_test_ok 0%Z _ 0%Z 3 0); [vm_compute; reflexivity|repeat constructor|repeat constructor].
Qed.
Print Assumptions C61_moving_camera_refuted.

(** A request to replace a moving transformation leaves it moving. *)
Theorem C61_replace_refuted : exists l, expected 0%Z l <> None /\
  forall o out, observed 0%Z l = Some o -> expected 0%Z l = Some out ->
  ~ Forall2 (fun p g => right_matrices (fst p) (snd p) g) o out.
Proof.
  exists (Begin StateModel.BWorld [] ::
          motion [0; 1]%Z [Translate 1 0 0; Translate 2 0 0]%Q ++ [Do Identity; Primitive]).
  apply (wrong_test_ok 0%Z _ 1%Z 3 0); [vm_compute; reflexivity|repeat constructor|repeat constructor].
Qed.
Print Assumptions C61_replace_refuted.

(** What such a request does instead: the first key becomes the new transformation, and
    each of the others what is reached by the new transformation, then the way back of
    the key itself, then the first key as it was.  It is done whenever the keys after
    the first can be inverted. *)
Theorem C61_replace_partial : forall camera t T x t0 ts k0 ks,
  moving x = true -> MotionModel.times (slots x) = t0 :: ts -> objects (slots x) = k0 :: ks ->
  List.length ts = List.length ks -> StronglySorted Z.lt (t0 :: ts) ->
  Forall (fun k => honest (kmat k)) (k0 :: ks) -> honest T -> honest camera ->
  Forall (fun k => ~ (det (E (kmat k)) == 0)%Q) ks ->
  exists x' h, set_transform false camera t T x = Some x' /\ moving x' = true /\
    MotionModel.times (slots x') = t0 :: ts /\
    mat_at x t0 = Some (kmat k0) /\ mat_at x' t0 = Some T /\ hand_at x' t0 = Some h /\
    (~ (det (product (E T) (E camera)) == 0)%Q -> (h = true <-> (det (product (E T) (E camera)) < 0)%Q)) /\
    forall i u k, nth_error ts i = Some u -> nth_error ks i = Some k ->
      exists m back, mat_at x u = Some (kmat k) /\ mat_at x' u = Some m /\
        same (product (E (kmat k)) back) one /\
        same (E m) (product (E T) (product back (E (kmat k0)))) /\
        exists h', hand_at x' u = Some h' /\
          (h' = negb h <-> (det (product back (E (kmat k0))) < 0)%Q).
Proof.
  intros c t T x t0 ts k0 ks M Et Eo L S Hk HT Hc D.
  inversion_clear Hk as [|? ? H0 Hks].
  destruct (replace_right c t T x t0 ts k0 ks M Et Eo L S) as (x' & E1 & M1 & T1 & V0 & V1 & V2 & R).
  { rewrite Forall_forall in *. intros k Ik E0. exact (D k Ik (MatProofs.inverse_none _ (Hks k Ik) E0)). }
  exists x', (turned (flips T) (flips c)).
  split; [exact E1|]. split; [exact M1|]. split; [exact T1|]. split; [exact V0|]. split; [exact V1|]. split; [exact V2|].
  split.
  { intros N. pose proof (fits_set True (E c) (E T) T c (MatProofs.same_refl _) Hc (MatProofs.same_refl _) HT) as F.
    destruct F as (_ & _ & F). apply F; [exact Logic.I|exact N]. }
  intros i u k Nu Nk. destruct (R i u k Nu Nk) as (new & A1 & A2 & A3 & inv & Ei & ->).
  rewrite Forall_forall in Hks. pose proof (Hks k (nth_error_In _ _ Nk)) as Hk1.
  destruct (MatProofs.inverse_some _ _ Hk1 Ei) as (_ & Hinv & I1 & _).
  destruct (MatProofs.times_ok (kmat k0) inv H0 Hinv) as [P1 HP1].
  destruct (MatProofs.times_ok _ T HP1 HT) as [P2 _].
  cbn [kmat khand] in A2, A3.
  eexists _, (E inv). split; [exact A1|]. split; [exact A2|]. split; [exact I1|]. split.
  - eapply MatProofs.same_trans; [exact P2|]. apply MatProofs.product_ext; [apply MatProofs.same_refl|exact P1].
  - eexists. split; [exact A3|].
    rewrite <- (MatProofs.det_ext _ _ P1), <- det_negative_ok.
    destruct (det_negative (MatModel.times (kmat k0) inv)), (turned (flips T) (flips c)); cbn; intuition congruence.
Qed.
Print Assumptions C61_replace_partial.

Definition three_keys : xform :=
  Xform (mkspec [0; 1; 4]%Z [Key (scaling 2 1 1) false; Key (translation 1 2 3) false; Key (scaling (-1) 1 1) true]
                no_key) true identity false.

Example three_keys_met : StronglySorted Z.lt [0; 1; 4]%Z /\
  Forall (fun k => honest (kmat k)) (objects (slots three_keys)) /\
  Forall (fun k => ~ (det (E (kmat k)) == 0)%Q) (objects (slots three_keys)).
Proof.
  split; [repeat constructor|]. split.
  - repeat (constructor; [intros D; discriminate D|]). constructor.
  - repeat (constructor; [intros D; vm_compute in D; discriminate D|]). constructor.
Qed.

Example three_keys_replaced :
  option_map (fun x => map (row x) [0; 1; 4]%Z)
    (set_transform false identity 9%Z (translation 7 7 7) three_keys) =
  Some [Some ([7; 7; 7; 1]%Q, false); Some ([12; 5; 4; 2]%Q, false); Some ([-14 # 1; 7; 7; -2 # 1]%Q, true)].
Proof. vm_compute. reflexivity. Qed.

(** A second motion block with a new time starts from the first key, not from the
    transformation which does not move. *)
Theorem C61_new_key_refuted : exists l, expected 0%Z l <> None /\
  forall o out, observed 0%Z l = Some o -> expected 0%Z l = Some out ->
  ~ Forall2 (fun p g => right_matrices (fst p) (snd p) g) o out.
Proof.
  exists (Begin StateModel.BWorld [] ::
          motion [0; 1]%Z [Translate 1 0 0; Translate 2 0 0]%Q ++
          motion [1; 2]%Z [Translate 0 1 0; Translate 0 2 0]%Q ++ [Primitive]).
  apply (wrong_test_ok 0%Z _ 2%Z 3 0); [vm_compute; reflexivity|repeat constructor|repeat constructor].
Qed.
Print Assumptions C61_new_key_refuted.

(** Going to a named space keeps the handedness of the transformation it replaces. *)
Theorem C61_space_handedness_refuted : exists l, expected 0%Z l <> None /\ Forall still_op l /\
  forall o out, observed 0%Z l = Some o -> expected 0%Z l = Some out ->
  ~ Forall2 (fun p g => right_handedness (fst p) g) o out.
Proof.
  exists [Begin StateModel.BWorld []; Do (Scale (-1) 1 1)%Q; Do (Space identity); Primitive].
  match goal with |- expected _ ?l <> None /\ _ =>
    destruct (wrong_hand_test_ok 0%Z l 0%Z) as [W1 W2]; [vm_compute; reflexivity|] end.
  split; [exact W1|]. split; [|exact W2].
  constructor; [discriminate|]. constructor; [exact Logic.I|].
  constructor; [exact MatProofs.identity_honest|]. constructor; [exact Logic.I|constructor].
Qed.
Print Assumptions C61_space_handedness_refuted.

(** C66: pictures are copied, laid over one another and filled pixel by pixel. *)

From Coq Require Import List Arith Bool QArith Qround Qabs Qminmax ZArith String Lia Lqa.
From Verif Require Import NurbModel NurbClamp ImageModel ImageSpec ImageProofs.
Import ListNotations.
Local Open Scope Z_scope.

(** A picture copied into another, its corner at any place, may stand out on any side: each
    pixel it covers takes its numbers, converted to the kind of the channel, and every other
    pixel keeps its own. *)
Theorem C66_copy : forall dst src x0 y0, sound dst -> well_typed dst -> sound src ->
  List.length (names src) = List.length (names dst) ->
  exists d', copy_all dst src x0 y0 = Some (Done d') /\ fits dst d' /\
    forall x y c, inside dst x y c ->
      (covers src x0 y0 x y ->
         stores (kind_of dst c) (level (kind_of src c) (cell src (data src) (x - x0) (y - y0) c)) (cell dst d' x y c)) /\
      (~ covers src x0 y0 x y -> cell dst d' x y c = cell dst (data dst) x y c).
Proof.
  intros dst src x0 y0 SD TD SS NC. destruct (copy_ok dst src x0 y0 SD SS NC) as (d' & E & F & C).
  exists d'. split; auto. split; auto. intros x y c IN. destruct (C x y c IN) as [C1 C2]. split; auto.
  intros CO. rewrite (C1 CO), <- to_float_level. apply from_float_stores, TD, IN.
Qed.

(** Between channels of the same kind nothing is lost. *)
Theorem C66_exact : forall dst src x0 y0, sound dst -> sound src -> List.length (names src) = List.length (names dst) ->
  exists d', copy_all dst src x0 y0 = Some (Done d') /\
    forall x y c, inside dst x y c -> covers src x0 y0 x y -> kind_of dst c = kind_of src c ->
      holds (kind_of src c) (cell src (data src) (x - x0) (y - y0) c) ->
      (cell dst d' x y c == cell src (data src) (x - x0) (y - y0) c)%Q.
Proof.
  intros dst src x0 y0 SD SS NC. destruct (copy_ok dst src x0 y0 SD SS NC) as (d' & E & F & C).
  exists d'. split; auto. intros x y c IN CO K H. destruct (C x y c IN) as [C1 _].
  rewrite (C1 CO), K. apply round_trip. auto.
Qed.

(** Pictures with different numbers of channels are refused, and nothing is changed. *)
Theorem C66_refused : forall dst src x0 y0, List.length (names src) <> List.length (names dst) ->
  copy_all dst src x0 y0 = Some (Thrown (data dst)).
Proof.
  intros dst src x0 y0 N. unfold copy_all. destruct (Nat.eqb_spec (List.length (names src)) (List.length (names dst))); [contradiction|].
  reflexivity.
Qed.

Lemma names_all : forall dst src map_, all_names dst src map_ -> all_named dst src map_.
Proof. intros dst src map_ (ND & N). split; auto. intros [to from] P. apply (N to from P). Qed.

(** With names: the channels named, and no others. *)
Theorem C66_named : forall dst src map_ x0 y0, sound dst -> well_typed dst -> sound src -> all_names dst src map_ ->
  exists d', copy_named dst src map_ x0 y0 = Some (Done d') /\ fits dst d' /\
    forall x y c, inside dst x y c ->
      (forall to from j, In (to, from) map_ -> named dst to c -> named src from j -> covers src x0 y0 x y ->
         stores (kind_of dst c) (level (kind_of src j) (cell src (data src) (x - x0) (y - y0) j)) (cell dst d' x y c)) /\
      ((forall to from, In (to, from) map_ -> ~ named dst to c) \/ ~ covers src x0 y0 x y ->
         cell dst d' x y c = cell dst (data dst) x y c).
Proof.
  intros dst src map_ x0 y0 SD TD SS AN.
  destruct (copy_named_ok dst src map_ x0 y0 SD SS (names_all _ _ _ AN)) as (d' & E & F & C).
  exists d'. split; auto. split; auto. intros x y c IN. destruct (C x y c IN) as [C1 C2]. split; auto.
  intros to from j P NI NJ CO. rewrite (C1 to from j P NI NJ CO), <- to_float_level. apply from_float_stores, TD, IN.
Qed.

(** Laid over: what is under shows through as far as the picture does not cover it. *)
Theorem C66_over : forall dst src map_ x0 y0 alpha al, sound dst -> well_typed dst -> sound src -> all_names dst src map_ ->
  named src alpha al ->
  exists d', composite dst src map_ x0 y0 alpha = Some (Done d') /\ fits dst d' /\
    forall x y c, inside dst x y c ->
      (forall to from j, In (to, from) map_ -> named dst to c -> named src from j -> covers src x0 y0 x y ->
         stores (kind_of dst c)
           (over (level (kind_of src j) (cell src (data src) (x - x0) (y - y0) j))
                 (level (kind_of src al) (cell src (data src) (x - x0) (y - y0) al))
                 (level (kind_of dst c) (cell dst (data dst) x y c)))
           (cell dst d' x y c)) /\
      ((forall to from, In (to, from) map_ -> ~ named dst to c) \/ ~ covers src x0 y0 x y ->
         cell dst d' x y c = cell dst (data dst) x y c).
Proof.
  intros dst src map_ x0 y0 alpha al SD TD SS AN NA.
  destruct (composite_ok dst src map_ x0 y0 alpha al SD SS (names_all _ _ _ AN) NA) as (d' & E & F & C).
  exists d'. split; auto. split; auto. intros x y c IN. destruct (C x y c IN) as [C1 C2]. split; auto.
  intros to from j P NI NJ CO. rewrite (C1 to from j P NI NJ CO). unfold onto, over. rewrite <- !to_float_level.
  apply from_float_stores, TD, IN.
Qed.

(** A picture without the channel that says how much it covers hides what is under it. *)
Theorem C66_opaque : forall dst src map_ x0 y0 alpha, (forall al, ~ named src alpha al) ->
  composite dst src map_ x0 y0 alpha = copy_named dst src map_ x0 y0.
Proof.
  intros dst src map_ x0 y0 alpha NA. unfold composite. rewrite index_none; auto.
  intros c. induction c as [c IH] using lt_wf_ind. intros L E. apply (NA (Z.of_nat c)).
  split; [unfold chans; lia|]. rewrite Nat2Z.id. split; auto. intros i I. apply IH; lia.
Qed.

(** Filled: every pixel with the number, or with the squares of a chequer board. *)
Theorem C66_fill : forall b f, sound b -> well_typed b -> 0 < bw b -> 0 < bh b ->
  exists d', fill_all (Constant f) b = Some (Done d') /\ fits b d' /\
    forall x y c, inside b x y c -> stores (kind_of b c) f (cell b d' x y c).
Proof.
  intros b f SB TB W H. destruct (fill_ok b (Constant f) (fun _ _ => f) SB W H (const_gives _ _ f)) as (d' & E & F & C).
  exists d'. split; auto. split; auto. intros x y c IN. rewrite (C x y c IN). apply from_float_stores, TB, IN.
Qed.

Theorem C66_chequer : forall b t, sound b -> well_typed b -> 0 < bw b -> 0 < bh b -> 0 < t ->
  exists d', fill_all (Checkered t) b = Some (Done d') /\ fits b d' /\
    forall x y c, inside b x y c -> stores (kind_of b c) (chequer t x y) (cell b d' x y c).
Proof.
  intros b t SB TB W H T. destruct (checker_gives (bw b) (bh b) t T) as (v & G & V).
  destruct (fill_ok b (Checkered t) v SB W H G) as (d' & E & F & C).
  exists d'. split; auto. split; auto. intros x y c IN. rewrite (C x y c IN).
  apply (stores_comp _ (v x y)); [|apply from_float_stores, TB, IN]. destruct IN as (IX & IY & _). apply V; auto.
Qed.

(** Made larger: each pixel of the source becomes a square, and the columns that do not make up
    a square become 0 (the height must be made of whole squares). *)
Theorem C66_zoom : forall dst src c j z, sound dst -> well_typed dst -> sound src -> 0 < bw dst -> 0 < bh dst ->
  0 <= c < chans dst -> 0 <= j < chans src -> 0 < z -> 0 < bw src -> 0 < bh src ->
  bw dst / z = bw src -> bh dst = z * bh src ->
  exists t s d', channel_of dst (Z.to_nat c) 0 0 0 0 = Some t /\ channel_of src (Z.to_nat j) 0 0 0 0 = Some s /\
    copy_channel t (Zoom z (Of (data src) s)) (data dst) = Some (Done d') /\ fits dst d' /\
    forall x y c', inside dst x y c' ->
      (c' = c -> x < z * bw src ->
         stores (kind_of dst c) (level (kind_of src j) (cell src (data src) (x / z) (y / z) j)) (cell dst d' x y c')) /\
      (c' = c -> z * bw src <= x -> stores (kind_of dst c) 0 (cell dst d' x y c')) /\
      (c' <> c -> cell dst d' x y c' = cell dst (data dst) x y c').
Proof.
  intros dst src c j z SD TD SS W0 H0 CI JI Z0 SW SH WZ HZ.
  assert (HD : bh dst / z = bh src) by (rewrite HZ, Z.mul_comm, Z.div_mul by lia; reflexivity).
  assert (CE : channel_of src (Z.to_nat j) 0 0 0 0 = channel_of src (Z.to_nat j) 0 0 (bw src) (bh src)).
  { unfold channel_of. cbn [Z.eqb]. destruct (Z.eqb_spec (bw src) 0), (Z.eqb_spec (bh src) 0); try lia; reflexivity. }
  rewrite (channel_ok src j 0 0 (bw src) (bh src)) in CE by lia.
  pose proof (image_gives src 0 0 (bw src) (bh src) j (kind_of src j) SS ltac:(lia) ltac:(lia) ltac:(lia) ltac:(lia) ltac:(lia) ltac:(lia) JI) as G.
  match type of G with gives _ _ ?o ?v => assert (G' : gives (bw dst / z) (bh dst / z) o v) by (rewrite WZ, HD; exact G) end.
  clear G. rename G' into G.
  apply (zoom_gives (bw dst) (bh dst) z) in G; auto; [|lia|rewrite HZ, Z.mul_comm; apply Z.mod_mul; lia].
  destruct (whole_ok dst c _ _ SD W0 H0 CI G) as (t & d' & E1 & E2 & F & C).
  exists t. eexists. exists d'. split; [exact E1|]. split; [exact CE|]. split; [exact E2|]. split; auto.
  intros x y c' IN. rewrite (C x y c' IN). rewrite WZ. cbn beta. split; [|split].
  - intros -> X. rewrite Z.eqb_refl. destruct (Z.ltb_spec x (bw src * z)); [|lia].
    rewrite !Z.add_0_l, <- to_float_level. apply from_float_stores, TD, CI.
  - intros -> X. rewrite Z.eqb_refl. destruct (Z.ltb_spec x (bw src * z)); [lia|]. apply from_float_stores, TD, CI.
  - intros N. destruct (Z.eqb_spec c' c); [contradiction|reflexivity].
Qed.

(** A channel of another size is refused, and nothing is changed. *)
Theorem C66_size : forall t s d0 d, cw s <> cw t \/ ch s <> ch t ->
  copy_channel t (Of d0 s) d = Some (Thrown d) /\
  (forall a, composite_channel t (Of d0 s) a d = Some (Thrown d) /\ composite_channel t a (Of d0 s) d = Some (Thrown d)).
Proof.
  intros t s d0 d N.
  assert (H : has_size (Of d0 s) (cw t) (ch t) = false).
  { cbn [has_size]. destruct (Z.eqb_spec (cw s) (cw t)), (Z.eqb_spec (ch s) (ch t)); auto. lia. }
  unfold copy_channel, composite_channel. rewrite H. split; auto. intros a. rewrite andb_false_r. auto.
Qed.

(** * Cases *)

Definition byte := Int 0 255.
(** Two by two pixels of colour and cover. *)
Definition small : buf := Buf [("r"%string, byte); ("a"%string, byte)] 2 2 [255; 255; 100; 51; 0; 0; 10; 255]%Q.
(** Three by two pixels with floating point colour. *)
Definition wide : buf := Buf [("r"%string, Flt); ("z"%string, Flt)] 3 2 [1 # 4; 7; 1 # 2; 8; 1; 9; 0; 10; 3 # 4; 11; 1; 12]%Q.

Example small_sound : sound small /\ well_typed small.
Proof.
  split; [repeat split; cbn; lia|]. intros c C. change (chans small) with 2 in C.
  assert (E : c = 0 \/ c = 1) by lia. destruct E as [-> | ->]; reflexivity.
Qed.

Example wide_sound : sound wide /\ well_typed wide.
Proof.
  split; [repeat split; cbn; lia|]. intros c C. change (chans wide) with 2 in C.
  assert (E : c = 0 \/ c = 1) by lia. destruct E as [-> | ->]; cbn; exact I.
Qed.

Definition at_ (b : buf) (r : option answer) (x y c : Z) : Q :=
  match r with Some (Done d) => Qred (cell b d x y c) | _ => -1 end.

(** The small picture stands out at the right and at the top. *)
Example ex_copy : map (fun '(x, y, c) => at_ wide (copy_all wide small 2 (-1)) x y c)
  [(2, 0, 0); (2, 0, 1); (1, 0, 0); (2, 1, 0); (0, 0, 1)] = [0; 0; 1 # 2; 1; 7]%Q.
Proof. vm_compute. reflexivity. Qed.

(** Bytes hold the nearest level. *)
Example ex_bytes : map (fun '(x, y, c) => at_ small (copy_all small wide 0 0) x y c)
  [(0, 0, 0); (0, 0, 1); (1, 0, 0); (1, 1, 0)] = [64; 255; 128; 191]%Q.
Proof. vm_compute. reflexivity. Qed.

Example ex_names : all_names wide small [("z"%string, "a"%string)].
Proof.
  split; [repeat constructor; intros []|]. intros to from [E|[]]. injection E as <- <-. split; exists 1; repeat split; cbn; try lia.
  - intros i I. assert (i = 0) by lia. subst i. cbn. congruence.
  - intros i I. assert (i = 0) by lia. subst i. cbn. congruence.
Qed.

(** 100 bytes of red that cover a fifth of one half. *)
Example ex_over : map (fun '(x, y, c) => at_ wide (composite wide small [("r"%string, "r"%string)] 0 0 "a") x y c)
  [(0, 0, 0); (1, 0, 0); (0, 1, 0); (1, 1, 0); (2, 0, 0); (1, 0, 1)] = [1; 202 # 255; 0; 2 # 51; 1; 8]%Q.
Proof. vm_compute. reflexivity. Qed.

Example ex_chequer : map (fun '(x, y, c) => at_ wide (fill_all (Checkered 2) wide) x y c)
  [(0, 0, 0); (1, 1, 1); (2, 0, 0); (2, 1, 1)] = [1 # 2; 1 # 2; 1; 1]%Q.
Proof. vm_compute. reflexivity. Qed.

Example ex_refused : copy_all wide (Buf [("r"%string, Flt)] 1 1 [1%Q]) 0 0 = Some (Thrown (data wide)).
Proof. apply C66_refused. cbn. lia. Qed.

(** Two columns are not three. *)
Example ex_size : exists t s, channel_of wide 0 0 0 0 0 = Some t /\ channel_of small 0 0 0 0 0 = Some s /\
  (cw s <> cw t \/ ch s <> ch t).
Proof. do 2 eexists. split; [reflexivity|]. split; [reflexivity|]. left. cbn. lia. Qed.

(** A request that is refused has not always left the picture as it was: if a name is missing,
    the channels named before it are already written. *)
Theorem C66_refused_unchanged_refuted : exists dst src map_ d', sound dst /\ sound src /\
  copy_named dst src map_ 0 0 = Some (Thrown d') /\ cell dst d' 0 0 0 <> cell dst (data dst) 0 0 0.
Proof.
  exists wide, small, [("r"%string, "r"%string); ("z"%string, "b"%string)]. eexists.
  split; [apply wide_sound|]. split; [apply small_sound|]. split; [vm_compute; reflexivity|]. vm_compute. discriminate.
Qed.

(** Made twice as large, and one column more. *)
Definition large : buf := Buf [("r"%string, Flt)] 5 4 (repeat 7%Q 20).
Definition zoomed : option answer :=
  bind (channel_of large 0 0 0 0 0) (fun t => bind (channel_of small 0 0 0 0 0) (fun s =>
  copy_channel t (Zoom 2 (Of (data small) s)) (data large))).
Example ex_zoom : map (fun '(x, y) => at_ large zoomed x y 0)
  [(0, 0); (1, 1); (2, 0); (3, 1); (0, 2); (3, 3); (4, 0)] = [1; 1; 20 # 51; 20 # 51; 0; 2 # 51; 0]%Q.
Proof. vm_compute. reflexivity. Qed.

(** If the height is not made of whole squares, the last rows are read beyond the source. *)
Theorem C66_zoom_height_refuted : exists dst src t s, sound dst /\ sound src /\
  channel_of dst 0 0 0 0 0 = Some t /\ channel_of src 0 0 0 0 0 = Some s /\
  has_size (Zoom 2 (Of (data src) s)) (bw dst) (bh dst) = true /\
  copy_channel t (Zoom 2 (Of (data src) s)) (data dst) = None.
Proof.
  exists (Buf [("r"%string, Flt)] 2 3 (repeat 0%Q 6)), (Buf [("r"%string, Flt)] 1 1 [1%Q]). do 2 eexists.
  split; [repeat split; cbn; lia|]. split; [repeat split; cbn; lia|].
  split; [reflexivity|]. split; [reflexivity|]. split; vm_compute; reflexivity.
Qed.

Print Assumptions C66_size.
Print Assumptions C66_zoom.
Print Assumptions C66_zoom_height_refuted.
Print Assumptions C66_copy.
Print Assumptions C66_exact.
Print Assumptions C66_refused.
Print Assumptions C66_named.
Print Assumptions C66_over.
Print Assumptions C66_opaque.
Print Assumptions C66_fill.
Print Assumptions C66_chequer.
Print Assumptions C66_refused_unchanged_refuted.

(* C52: nothing of a scene is lost or rendered twice on its way through the buckets. *)
From Coq Require Import ZArith QArith Qround List Bool Lia Permutation.
From Verif Require Import BucketModel BucketSpec BucketProofs PostModel PostSpec PostProofs.
Import ListNotations.
Local Open Scope Z_scope.

(* For every scene with honest bounds, in whatever order the surfaces are taken and whatever the
   occlusion tests answer: rendering ends, and at each position a pixel of the picture needs, the
   micropolygons which touch it are exactly those rendered in the bucket that samples the
   position, each once, and those of the surfaces which were found hidden in that bucket. *)
Theorem C52_positions : forall o choice scene n m,
  sensible o -> large_buckets o -> Forall honest scene ->
  (sizes scene <= n)%nat -> rwidth (bregion o) * rheight (bregion o) <= Z.of_nat m ->
  exists st, render_scene o choice n m scene = Some st /\
    forall p, o_cx0 o - Qfloor (o_fx o / 2) <= fst p < o_cx1 o + Qfloor (o_fx o / 2) ->
              o_cy0 o - Qfloor (o_fy o / 2) <= snd p < o_cy1 o + Qfloor (o_fy o / 2) ->
      exists b, Permutation
        (filter (touches p) (rendered_in st b) ++
         filter (touches p) (flat_map micropolygons (hidden_in st b)))
        (filter (touches p) (flat_map micropolygons scene)).
Proof.
  intros o choice scene n m S L H N M.
  destruct (render_scene_spec o choice scene n m S H N M) as (st & E & _ & _ & P).
  exists st. split; auto. intros p X Y. exists (owner o p).
  assert (EX : ext o p) by (split; auto).
  assert (I : in_region o (owner o p)).
  { pose proof (region_bounds o S) as (_ & _ & _ & _ & B5 & B6 & _). unfold owner. split; cbn [fst snd]; lia. }
  specialize (P _ I). apply (filter_perm (touches p)) in P. rewrite filter_app in P.
  rewrite waiting_spec in P by auto.
  assert (Q : filter (touches p) (flat_map (fun s => waiting o (micropolygons s) (owner o p)) (hidden_in st (owner o p)))
            = filter (touches p) (flat_map micropolygons (hidden_in st (owner o p)))).
  { rewrite <- waiting_flat. apply waiting_spec; auto. }
  rewrite Q in P. auto.
Qed.
Print Assumptions C52_positions.

(* The same for each bucket, whatever its size: what is rendered in it, and what is hidden in it,
   is exactly what was put into it by its bound. *)
Theorem C52_buckets : forall o choice scene n m,
  sensible o -> Forall honest scene ->
  (sizes scene <= n)%nat -> rwidth (bregion o) * rheight (bregion o) <= Z.of_nat m ->
  exists st, render_scene o choice n m scene = Some st /\ q_pending st = [] /\ q_waiting st = [] /\
    forall b, rx0 (bregion o) <= fst b < rx1 (bregion o) -> ry0 (bregion o) <= snd b < ry1 (bregion o) ->
      Permutation (rendered_in st b ++ waiting o (flat_map micropolygons (hidden_in st b)) b)
                  (waiting o (flat_map micropolygons scene) b).
Proof.
  intros o choice scene n m S H N M.
  destruct (render_scene_spec o choice scene n m S H N M) as (st & E & A & B & P).
  exists st. repeat split; auto. intros b X Y. rewrite waiting_flat. apply P. split; auto.
Qed.
Print Assumptions C52_buckets.

(* The whole way, from the scene to the picture: if nothing is found hidden, each pixel is made of
   all micropolygons of the scene which touch the positions the filter reaches. *)
Theorem C52_picture : forall o choice scene n m,
  sensible o -> large_buckets o -> Forall honest scene -> (forall st, snd (choice st) = false) ->
  (sizes scene <= n)%nat -> rwidth (bregion o) * rheight (bregion o) <= Z.of_nat m ->
  exists st out, render_scene o choice n m scene = Some st /\
    render_image o m (rendered_in st) = Some out /\ NoDup (map fst out) /\
    forall x y, o_cx0 o <= x < o_cx1 o -> o_cy0 o <= y < o_cy1 o ->
      exists v l, In ((x, y), v) out /\ made_of v l /\
        Forall2 (fun i j => fst i = fst j /\ Permutation (snd i) (snd j))
                l (ingredients (flat_map micropolygons scene) o x y).
Proof.
  intros o choice scene n m S L H NH N M.
  destruct (render_scene_spec o choice scene n m S H N M) as (st & E & _ & _ & P).
  assert (HID : q_hidden st = []) by (eapply nothing_hidden; eauto).
  destruct (image_spec o S L (rendered_in st) m) as (out & E2 & ND & _ & V); [auto|].
  exists st, out. repeat split; auto. intros x y X Y.
  destruct (V (x, y)) as (v & I & RV); [split; auto|].
  exists v, (map (fun d => let q := (x + fst d - shiftx o, y + snd d - shifty o) in
                           (q, filter (touches q) (rendered_in st (owner o q)))) (offsets o)).
  split; [auto|]. split.
  - destruct v as [|es]; cbn [made_of right_value] in *.
    + intros i J. apply in_map_iff in J. destruct J as (d & <- & J). cbv zeta. cbn [snd]. apply (RV d J).
    + subst es. rewrite !map_map. apply map_ext_in. intros d J. reflexivity.
  - unfold ingredients. rewrite around_offsets, map_map by auto.
    assert (K : forall l, (forall d, In d l -> In d (offsets o)) -> Forall2 (fun i j : (Z * Z) * list mpoly => fst i = fst j /\ Permutation (snd i) (snd j))
      (map (fun d => let q := (x + fst d - shiftx o, y + snd d - shifty o) in (q, filter (touches q) (rendered_in st (owner o q)))) l)
      (map (fun d => ((x + fst d - shiftx o, y + snd d - shifty o), filter (touches (x + fst d - shiftx o, y + snd d - shifty o)) (flat_map micropolygons scene))) l)).
    { induction l as [|d l IH]; intros J; cbn [map]; constructor; [|apply IH; intros; apply J; right; auto].
      cbv zeta. cbn [fst snd]. split; auto.
      assert (EX : ext o (x + fst d - shiftx o, y + snd d - shifty o))
        by (apply (crop_ext o (x, y) d); [split; auto | apply J; left; auto]).
      set (q := (x + fst d - shiftx o, y + snd d - shifty o)) in *.
      rewrite <- (waiting_spec o S L (flat_map micropolygons scene) q EX). apply filter_perm.
      assert (I' : in_region o (owner o q)).
      { pose proof (region_bounds o S) as (_ & _ & _ & _ & B5 & B6 & _). unfold owner. split; cbn [fst snd]; lia. }
      specialize (P _ I'). unfold hidden_in in P. rewrite HID in P. cbn [filter map flat_map] in P. rewrite app_nil_r in P. auto. }
    apply K. auto.
Qed.
Print Assumptions C52_picture.

(* Why the bounds must be honest: a part that reaches the plane of the eye, of a surface that does
   not, is put into the first bucket, and is lost when that bucket is done. *)
Theorem C52_dishonest_refuted :
  exists o scene st, sensible o /\ large_buckets o /\
    render_scene o (fun _ => (O, false)) 10 10 scene = Some st /\
    flat_map micropolygons scene <> [] /\ q_rendered st = [] /\ q_hidden st = [].
Proof.
  set (m := MP 1 5 0 6 1).
  exists (Options 8 1 4 1 0 0 0 8 0 1).
  exists [Split (Some (Box 5 0 6 1)) false [Split None false [Dice (Some (Box 5 0 6 1)) false [m]]]].
  eexists. split; [repeat split; vm_compute; discriminate || reflexivity|].
  split; [split; vm_compute; discriminate|]. split; [vm_compute; reflexivity|].
  split; [discriminate|]. split; reflexivity.
Qed.
Print Assumptions C52_dishonest_refuted.

(* ---- examples ---- *)
(* A surface over all six buckets is hidden in the first two, then split and diced in the third; a
   second surface reaches the plane of the eye. *)
Definition ex_o : options := Options 6 4 2 2 0 0 0 6 0 4.
Definition ex_scene : list surf :=
  [Split (Some (Box (1 # 2) (1 # 2) (11 # 2) (7 # 2))) false
     [Dice (Some (Box (1 # 2) (1 # 2) (11 # 2) (3 # 2))) false [MP 1 (1 # 2) (1 # 2) (5 # 2) (3 # 2); MP 2 (5 # 2) (1 # 2) (11 # 2) (3 # 2)];
      Dice (Some (Box (1 # 2) (3 # 2) (11 # 2) (7 # 2))) false [MP 3 (1 # 2) (3 # 2) (5 # 2) (7 # 2); MP 4 (5 # 2) (3 # 2) (11 # 2) (7 # 2)]];
   Split None false
     [Dice (Some (Box 3 3 4 4)) false [MP 5 3 3 4 4]; Discard None false]].
Example ex_honest : Forall honest ex_scene.
Proof.
  assert (D : forall b ms, (forall m, In m ms -> inside m b) -> honest (Dice (Some b) false ms)) by (intros; constructor; auto).
  constructor; [|constructor; [|constructor]].
  - apply honest_split.
    + intros p m I J. cbn in I. destruct I as [<-|[<-|[]]]; cbn in J; intuition; subst; vm_compute; repeat split; discriminate.
    + intros p I. cbn in I. destruct I as [<-|[<-|[]]]; discriminate.
    + intros p I. cbn in I. destruct I as [<-|[<-|[]]]; apply D; intros m J; cbn in J; intuition; subst; vm_compute; repeat split; discriminate.
  - apply honest_eye. intros p I. cbn in I. destruct I as [<-|[<-|[]]].
    + apply D. intros m J; cbn in J; intuition; subst; vm_compute; repeat split; discriminate.
    + apply honest_discard.
Qed.
Definition ex_choice (st : pstate) : nat * bool :=
  (1%nat, match q_hidden st with
          | [] => true                                          (* the first surface, in (0,0) *)
          | [_] => match q_pending st with [_; _] => true | _ => false end
          | _ => false
          end).
Definition ex_result := match render_scene ex_o ex_choice 10 6 ex_scene with
                        | Some st => (map (fun b => map m_id (rendered_in st b)) (cells (bregion ex_o)),
                                      map (fun b => map m_id (flat_map micropolygons (hidden_in st b))) (cells (bregion ex_o)))
                        | None => ([], [])
                        end.
Example ex_run : ex_result =
  ([[]; []; [4%nat; 2%nat]; [3%nat]; [3%nat; 4%nat; 5%nat]; [4%nat; 5%nat]],
   [[1%nat; 2%nat; 3%nat; 4%nat]; [1%nat; 2%nat; 3%nat; 4%nat]; []; []; []; []]).
Proof. vm_compute. reflexivity. Qed.
Example ex_sensible : sensible ex_o /\ large_buckets ex_o.
Proof. repeat split; vm_compute; discriminate || reflexivity. Qed.

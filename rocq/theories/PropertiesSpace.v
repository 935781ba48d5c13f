(** C62: named coordinate systems. *)

From Coq Require Import List Arith Bool ZArith QArith String Lia.
From Verif Require Import MatModel MatSpec MatProofs HashModel MotionModel XformModel SpaceModel SpaceSpec SpaceProofs.
Import ListNotations.
Local Open Scope nat_scope.

(** Whatever was saved, set and asked before, each question about the way from one space
    to another has the answer that is expected, as long as the names have different
    hashes, the matrices can be inverted and the program has one renderer. *)
Theorem C62_answers_partial : forall word l,
  told_apart word l -> all_fine l sstart -> ~ In NewRenderer l ->
  exists out, answers word l = Some out /\ right_answers l sstart out.
Proof. exact answers_right. Qed.
Print Assumptions C62_answers_partial.

(** The way from a to b and on to c is the way from a to c. *)
Theorem C62_chain_partial : forall word l a b c shader object t,
  let q x y := Ask Points x y shader object t in
  let l' := l ++ [q a b; q b c; q a c] in
  told_apart word l' -> all_fine l' sstart -> ~ In NewRenderer l' ->
  (forall v m, In (View v m) l -> ~ (det (E m) == 0)%Q) ->
  forall out R1 R2 R3, answers word l' = Some (out ++ [Some R1; Some R2; Some R3]) ->
  same (product (E R1) (E R2)) (E R3).
Proof.
  intros word l a b c sh ob t q l' T A N V out R1 R2 R3 Ea.
  destruct (answers_right word l' T A N) as (out' & Eo & R). rewrite Eo in Ea. injection Ea as ->.
  destruct (right_answers_app l _ sstart _ R) as (o1 & o2 & Eq & R').
  assert (L2 : List.length o2 = 3) by exact (right_answers_asks _ _ _ R').
  apply app_tail_inv in Eq; [|rewrite L2; reflexivity]. destruct Eq as [_ <-].
  cbn [right_answers] in R'. destruct R' as (Q1 & Q2 & Q3 & _).
  set (s := fold_left (fun s o => sstep o s) l sstart) in *.
  destruct (right_points _ _ _ _ _ _ _ Q1) as (A1 & B1 & LA1 & LB1 & S1).
  destruct (right_points _ _ _ _ _ _ _ Q2) as (A2 & B2 & LA2 & LB2 & S2).
  destruct (right_points _ _ _ _ _ _ _ Q3) as (A3 & B3 & LA3 & LB3 & S3).
  assert (W : views_regular s) by (apply views_kept; [exact views_start|exact V]).
  assert (I : back B1 A2) by (exact (ways_back s sh ob t b A2 B1 W LA2 LB1)).
  assert (EA : same A1 A3) by (exact (to_world_unique s sh ob t a A1 A3 LA1 LA3)).
  assert (EB : same B2 B3) by (exact (from_world_unique s sh ob t c B2 B3 LB2 LB3)).
  eapply same_trans; [apply product_ext; [exact S1|exact S2]|].
  eapply same_trans; [|apply same_sym; exact S3].
  eapply same_trans; [apply product_assoc|].
  apply product_ext; [exact EA|].
  eapply same_trans; [apply same_sym; apply product_assoc|].
  eapply same_trans; [apply product_ext; [exact I|exact EB]|]. apply one_product.
Qed.
Print Assumptions C62_chain_partial.

(** The way from a space to itself changes nothing. *)
Theorem C62_itself_partial : forall word l a shader object t,
  let l' := l ++ [Ask Points a a shader object t] in
  told_apart word l' -> all_fine l' sstart -> ~ In NewRenderer l' ->
  (forall v m, In (View v m) l -> ~ (det (E m) == 0)%Q) ->
  forall out R, answers word l' = Some (out ++ [Some R]) -> same (E R) one.
Proof.
  intros word l a sh ob t l' T A N V out R Ea.
  destruct (answers_right word l' T A N) as (out' & Eo & Ro). rewrite Eo in Ea. injection Ea as ->.
  destruct (right_answers_app l _ sstart _ Ro) as (o1 & o2 & Eq & R').
  assert (L2 : List.length o2 = 1) by exact (right_answers_asks _ _ _ R').
  apply app_tail_inv in Eq; [|rewrite L2; reflexivity]. destruct Eq as [_ <-].
  cbn [right_answers] in R'. destruct R' as (Q1 & _).
  destruct (right_points _ _ _ _ _ _ _ Q1) as (A1 & B1 & LA1 & LB1 & S1).
  eapply same_trans; [exact S1|]. apply left_inverse_right.
  exact (ways_back _ sh ob t a A1 B1 (views_kept l sstart views_start V) LA1 LB1).
Qed.
Print Assumptions C62_itself_partial.

(** * Examples *)

Definition n (s : string) : name := text s.

Definition fixed_x (m : matrix) : xform := Xform (new_spec no_key) false m false.

Definition perspective_like : matrix :=
  full (fun i j => nth j (nth i [[2; 0; 0; 0]; [0; 2; 0; 0]; [0; 0; 1; 1]; [0; 0; -2 # 1; 0]]%Q []) 0%Q).

Definition session : list op :=
  [Camera (fixed_x (translation 0 0 5)); View Screen perspective_like;
   Save (n "a") (scaling 2 4 8); Ask Points (n "a") (n "camera") None None 0%Z;
   Save (n "b") (translation 1 2 3); Ask Vectors (n "b") (n "a") None None 0%Z;
   Ask Vectors (n "b") (n "a") None None 0%Z; Ask Points (n "nosuch") (n "a") None None 0%Z;
   Save (n "a") (translation 7 0 0); Ask Points (n "a") (n "b") None None 0%Z;
   Ask Normals (n "object") (n "world") None (Some (fixed_x (scaling 2 4 8))) 0%Z;
   Ask Normals (n "object") (n "world") None (Some (fixed_x (scaling 2 4 8))) 0%Z;
   Ask Points (n "screen") (n "screen") None None 0%Z].

Example session_apart : told_apart (2 ^ 64) session /\ told_apart (2 ^ 32) session.
Proof. split; apply apart_test_ok; vm_compute; reflexivity. Qed.

Example session_one_renderer : ~ In NewRenderer session.
Proof. cbn. intuition discriminate. Qed.

Example session_fine : all_fine session sstart.
Proof.
  assert (R1 : regular (scaling 2 4 8)) by (apply regular_test_ok; vm_compute; reflexivity).
  unfold session. cbn [all_fine]. 
  split; [apply regular_fixed; apply regular_test_ok; vm_compute; reflexivity|].
  split; [intros D; discriminate D|]. split; [exact R1|].
  split; [repeat split; discriminate|]. split; [apply regular_test_ok; vm_compute; reflexivity|].
  split; [repeat split; discriminate|]. split; [repeat split; discriminate|]. split; [repeat split; discriminate|].
  split; [apply regular_test_ok; vm_compute; reflexivity|].
  split; [repeat split; discriminate|].
  assert (N : fine (Ask Normals (n "object") (n "world") None (Some (fixed_x (scaling 2 4 8))) 0%Z)
                   (SWorld [(n "world", Saved one)] new_xform)).
  { split; [exact Logic.I|]. split; [apply regular_fixed; exact R1|]. intros _ A B LA LB.
    destruct LA as (m & Em & SA). injection Em as <-.
    assert (S : same (linear (product A B)) (scaling_spec 2 4 8)).
    { eapply same_trans; [apply linear_ext|].
      - eapply same_trans; [apply product_ext; [exact SA|]|apply product_one].
        eapply same_trans; [apply same_sym; apply one_product|]. exact LB.
      - intros i j Hi Hj. destruct i as [|[|[|[|i]]]]; [| | | |lia]; destruct j as [|[|[|[|j]]]]; try lia; vm_compute; reflexivity. }
    rewrite (det_ext _ _ S). vm_compute. discriminate. }
  split; [exact N|]. split; [exact N|]. split; [repeat split; discriminate|exact Logic.I].
Qed.

Definition rows (m : matrix) : list (list Q) :=
  map (fun i => map (fun j => Qred (E m i j)) [0; 1; 2; 3]) [0; 1; 2; 3].

Example session_answers :
  option_map (map (option_map rows)) (answers (2 ^ 64) session) = Some
  [Some [[2;0;0;0]; [0;4;0;0]; [0;0;8;0]; [0;0;5;1]];
   Some [[1#2;0;0;0]; [0;1#4;0;0]; [0;0;1#8;0]; [0;0;0;1]];
   Some [[1#2;0;0;0]; [0;1#4;0;0]; [0;0;1#8;0]; [0;0;0;1]];
   None;
   Some [[1;0;0;0]; [0;1;0;0]; [0;0;1;0]; [6; -2 # 1; -3 # 1; 1]];
   Some [[1#2;0;0;0]; [0;1#4;0;0]; [0;0;1#8;0]; [0;0;0;1]];
   Some [[1#2;0;0;0]; [0;1#4;0;0]; [0;0;1#8;0]; [0;0;0;1]];
   Some [[1;0;0;0]; [0;1;0;0]; [0;0;1;0]; [0;0;0;1]]]%Q.
Proof. vm_compute. reflexivity. Qed.

(** * What does not hold *)

(** The place of the last search is remembered for all renderers: the first question to
    a new one can read behind its last coordinate system. *)
Theorem C62_new_renderer_refuted : exists l,
  told_apart (2 ^ 64) l /\ all_fine l sstart /\ answers (2 ^ 64) l = None.
Proof.
  exists [Save (n "a") identity; Ask Points (n "world") (n "a") None None 0%Z; NewRenderer;
          Ask Points (n "camera") (n "raster") None None 0%Z].
  split; [apply apart_test_ok; vm_compute; reflexivity|]. split; [|vm_compute; reflexivity].
  cbn [all_fine]. split; [exact regular_identity|]. repeat split; discriminate.
Qed.
Print Assumptions C62_new_renderer_refuted.

(** Names with the same hash are the same space. *)
Theorem C62_hash_refuted : exists l out,
  all_fine l sstart /\ ~ In NewRenderer l /\ answers (2 ^ 64) l = Some out /\ ~ right_answers l sstart out.
Proof.
  eexists [Save (n "PT") identity; Ask Points (n "Os") (n "world") None None 0%Z], _.
  split; [cbn [all_fine]; split; [exact regular_identity|]; repeat split; discriminate|].
  split; [cbn; intuition discriminate|].
  split; [vm_compute; reflexivity|]. intros [R _]. discriminate R.
Qed.
Print Assumptions C62_hash_refuted.

(** A matrix that cannot be inverted is a division by zero. *)
Theorem C62_singular_refuted : exists l, told_apart (2 ^ 64) l /\ ~ In NewRenderer l /\ answers (2 ^ 64) l = None.
Proof.
  exists [Save (n "a") (scaling 1 1 0)].
  split; [apply apart_test_ok; vm_compute; reflexivity|]. split; [cbn; intuition discriminate|vm_compute; reflexivity].
Qed.
Print Assumptions C62_singular_refuted.

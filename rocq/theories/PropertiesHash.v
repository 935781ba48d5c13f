(** C25: names are looked up by name. *)

From Coq Require Import List Bool ZArith Lia String.
From Verif Require Import HashModel HashSpec HashProofs.
Import ListNotations.
Open Scope Z_scope.

Section Plain.
Variables word lo most : Z.
Hypotheses (Hlo : 0 < lo) (Hs : short word most).
Let clash names s : Forall (plain lo most) names -> plain lo most s -> no_clash word names s.
Proof.
  intros F P n I E. rewrite Forall_forall in F. destruct Hs as [ A B ].
  assert (0 < word) by (pose proof (Z.pow_pos_nonneg 31 most ltac:(lia) A); lia).
  apply (hash_inj word H lo most); auto.
Qed.

(** C25: among names with characters within 31 codes and of at most 12 characters (6 where words
    have 32 bits), a name stands for what has this name.  Missing: other names (see below). First
    the compiler: the first local variable of the name, or else the standard variable. *)
Theorem C25_compiler_partial locals standards s :
  Forall (plain lo most) locals -> Forall (plain lo most) standards -> plain lo most s ->
  match find_variable word locals standards s with
  | Local i => first_at locals s i
  | Standard i => ~ In s locals /\ first_at standards s i
  | Nowhere => ~ In s locals /\ ~ In s standards
  end.
Proof.
  intros Fl Fs P. unfold find_variable. destruct (search (hash word s) 0 (map (hash word) locals)) as [ i | ] eqn:E.
  - apply (search_first word); auto.
  - assert (Nl : ~ In s locals) by (apply (search_absent word locals s locals); auto).
    destruct (search (hash word s) 0 (map (hash word) standards)) as [ i | ] eqn:E2; (split; [ exact Nl | ]).
    + apply (search_first word); auto.
    + apply (search_absent word standards s standards); auto.
Qed.

(** Then the variables of the machine, for all lookups one after the other, wherever the first of
    them begins. *)
Theorem C25_machine_partial names : Forall (plain lo most) names -> forall queries last, Forall (plain lo most) queries ->
  Forall2 (fun s o => match o with Some i => is_at names s i | None => ~ In s names end) queries (find_all word names last queries).
Proof.
  intros F. induction queries as [ | s r IH ]; intros last Q; cbn [find_all]; [ constructor | ].
  apply Forall_cons_iff in Q. destruct Q as [ Qs Qr ]. pose proof (find_from_ok word names last s (clash names s F Qs)) as K.
  destruct (find_from word names last s) as [ [ i | ] n ]; (constructor; [ apply K | apply IH, Qr ]).
Qed.
Theorem C25_machine_const_partial names s : Forall (plain lo most) names -> plain lo most s ->
  match find_const word names s with Some i => first_at names s i | None => ~ In s names end.
Proof.
  intros F P. unfold find_const. destruct (search _ _ _) as [ i | ] eqn:E; [ apply (search_first word); auto | apply (search_absent word names s names); auto ].
Qed.
Theorem C25_operand_partial locals standards last s :
  Forall (plain lo most) locals -> Forall (plain lo most) standards -> plain lo most s -> In s locals \/ In s standards ->
  match fst (load_operand word locals standards last s) with
  | Local i => is_at locals s i
  | Standard i => ~ In s locals /\ is_at standards s i
  | Nowhere => False
  end.
Proof.
  intros Fl Fs P I. unfold load_operand. pose proof (find_from_ok word locals (fst last) s (clash locals s Fl P)) as K.
  destruct (find_from word locals (fst last) s) as [ [ i | ] n ]; [ apply K | ]. destruct K as [ K _ ].
  pose proof (find_from_ok word standards (snd last) s (clash standards s Fs P)) as K2.
  destruct (find_from word standards (snd last) s) as [ [ i | ] m ]; cbn [fst]; [ split; [ exact K | apply K2 ] | tauto ].
Qed.
(** Then the variables of primitives. *)
Theorem C25_params_partial (V : Type) (params : list (name * V)) s : Forall (plain lo most) (map fst params) -> plain lo most s ->
  match find_param word params s with
  | Some v => exists i, first_at (map fst params) s i /\ nth_error params i = Some (s, v)
  | None => ~ In s (map fst params)
  end.
Proof.
  intros F P. induction params as [ | [ n v ] r IH ]; cbn [find_param map fst] in *; [ intros [] | ].
  apply Forall_cons_iff in F. destruct F as [ Fn F ].
  destruct (Z.eqb_spec (hash word n) (hash word s)) as [ E | E ].
  - assert (n = s) by (apply (clash [n] s); [ constructor; [ exact Fn | constructor ] | exact P | left; reflexivity | exact E ]). subst n.
    exists 0%nat. split; [ split; [ reflexivity | lia ] | reflexivity ].
  - specialize (IH F). destruct (find_param word r s) as [ v' | ].
    + destruct IH as (i & [ A B ] & C). exists (S i). split; [ split; [ exact A | ] | exact C ].
      intros [ | j ] J; cbn [nth_error]; [ congruence | apply B; lia ].
    + intros [ I | I ]; [ congruence | exact (IH I) ].
Qed.
End Plain.
Print Assumptions C25_compiler_partial.
Print Assumptions C25_machine_partial.
Print Assumptions C25_machine_const_partial.
Print Assumptions C25_operand_partial.
Print Assumptions C25_params_partial.

(** C25: whatever the names are, one that is there is never missed. *)
Theorem C25_present word locals standards s last : In s locals \/ In s standards ->
  find_variable word locals standards s <> Nowhere /\
  (In s locals -> exists i n, find_from word locals last s = (Some i, i) /\ nth_error locals i = Some n /\ hash word n = hash word s).
Proof.
  intros I. split; [ | apply find_from_present ]. unfold find_variable.
  destruct (search (hash word s) 0 (map (hash word) locals)) as [ i | ] eqn:E; [ discriminate | ].
  destruct (search (hash word s) 0 (map (hash word) standards)) as [ i | ] eqn:E2; [ discriminate | ].
  destruct I as [ I | I ]; [ destruct (search_none _ _ _ E (in_map _ _ _ I)) | destruct (search_none _ _ _ E2 (in_map _ _ _ I)) ].
Qed.
Print Assumptions C25_present.

(** C25 does not hold for other names: with a parameter [PT], a shader that uses [Os] reads that
    parameter; the machine takes it for [Os] too, and so does a primitive with both. *)
Theorem C25_refuted word : word = 2 ^ 64 \/ word = 2 ^ 32 ->
  find_variable word [text "PT"] standard_names (text "Os") = Local 0 /\
  find_variable word [] standard_names (text "PT") = Standard 1 /\
  fst (load_operand word [text "PT"] standard_names (0, 0)%nat (text "Os")) = Local 0 /\
  find_param word [(text "PT", 1); (text "Os", 2)] (text "Os") = Some 1.
Proof. intros [ -> | -> ]; vm_compute; auto. Qed.
Print Assumptions C25_refuted.
(** Nor for longer names, even of small letters only: 13 letters, or 7 with 32 bits. *)
Theorem C25_length_refuted :
  find_const (2 ^ 64) [text "xnahgalegaiha"] (text "aaaaanaaalaap") = Some 0%nat /\
  find_const (2 ^ 32) [text "fabaaae"] (text "afalbha") = Some 0%nat.
Proof. vm_compute. auto. Qed.
Print Assumptions C25_length_refuted.

(** C25: no two operations of the machine, and no two standard variables, are taken for each other. *)
Theorem C25_tables word : word = 2 ^ 64 \/ word = 2 ^ 32 -> forall names, names = operations \/ names = standard_names ->
  forall i s, nth_error names i = Some s -> search (hash word s) 0 (map (hash word) names) = Some i.
Proof.
  assert (G : forall hs, forallb (fun i => match search (nth i hs 0) 0 hs with Some j => Nat.eqb j i | None => false end) (seq 0 (List.length hs)) = true ->
     forall i h, nth_error hs i = Some h -> search h 0 hs = Some i).
  { intros hs H i h E. rewrite forallb_forall in H. assert (L : (i < List.length hs)%nat) by (apply nth_error_Some; congruence).
    specialize (H i ltac:(apply in_seq; lia)). rewrite (nth_error_nth hs i 0 E) in H.
    destruct (search _ _ _) as [ j | ]; [ | discriminate ]. apply Nat.eqb_eq in H. congruence. }
  intros W names N i s E.
  assert (V : forallb (fun w => forallb (fun l => let hs := map (hash w) l in forallb (fun i => match search (nth i hs 0) 0 hs with Some j => Nat.eqb j i | None => false end) (seq 0 (List.length hs)))
      [operations; standard_names]) [2 ^ 64; 2 ^ 32] = true) by (vm_compute; reflexivity).
  rewrite forallb_forall in V. specialize (V word ltac:(cbn [In]; intuition congruence)). rewrite forallb_forall in V.
  specialize (V names ltac:(cbn [In]; intuition congruence)). apply (G _ V). rewrite nth_error_map, E. reflexivity.
Qed.
Print Assumptions C25_tables.

(** The hypotheses are met: small letters. *)
Example small_letters : short (2 ^ 64) 12 /\ short (2 ^ 32) 6 /\ Forall (plain 97 12) (map text ["roughness"; "specularcol"; "a"; "maxdiffuse"]%string).
Proof. split; [ split; [ lia | vm_compute; reflexivity ] | ]. split; [ split; [ lia | vm_compute; reflexivity ] | ].
  repeat constructor; vm_compute; discriminate. Qed.
Example shader_lookup : find_all (2 ^ 64) (map text ["ka"; "kd"; "ks"]%string) 2 (map text ["kd"; "ks"; "zz"; "ka"; "kd"]%string) = [Some 1; Some 2; None; Some 0; Some 1]%nat.
Proof. vm_compute. reflexivity. Qed.
Example negative_chars : hash (2 ^ 64) [200; 65] = (-56 * 31 + 65) mod 2 ^ 64.
Proof. vm_compute. reflexivity. Qed.

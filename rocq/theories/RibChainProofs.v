(** Proofs about reading written requests back through the lexer. *)

From Coq Require Import List Bool Arith ZArith Lia.
From Verif Require Import RibTokModel RibTokSpec RibWriteModel RibWriteSpec RibLexModel RibLexSpec RibLexProofs RibChainSpec.
Import ListNotations.
Open Scope Z_scope.

Section Chain.
  Variable F : Type.
  Variable of_bits32 : Z -> F.
  Variable of_int : Z -> F.
  Local Notation ahead := (ahead F).

  Lemma string_no_zero s : is_string s -> ~ In 0 s.
  Proof. intros [H _] I. rewrite Forall_forall in H. apply H in I. lia. Qed.

  Lemma arg_spelt a : is_arg a -> spells F of_int (kind_of a) (RibWriteSpec.value F of_bits32 a) (value_of F of_bits32 a) /\
    no_zero F (value_of F of_bits32 a) /\ RibWriteSpec.value F of_bits32 a <> [].
  Proof.
    intros H. destruct a; cbn [kind_of RibWriteSpec.value value_of no_zero is_arg] in *.
    - repeat split; [constructor|discriminate].
    - repeat split; [constructor; constructor|discriminate].
    - split; [constructor|]. split; [apply string_no_zero; exact H|discriminate].
    - repeat split; [apply sp_ints|discriminate].
    - split; [|split; [exact I|discriminate]]. apply (sp_floats F of_int (-1) (map (fun b => TFloat F (of_bits32 b)) l) (map of_bits32 l)); [|lia].
      induction l; constructor; [constructor|auto]. apply IHl. destruct H as [H L]. inversion H; subst. split; [assumption|]. cbn [length] in L. lia.
    - split; [apply sp_strings|]. split; [|discriminate]. intros s I. apply string_no_zero. rewrite Forall_forall in H. apply H, I.
  Qed.

  Lemma same_nil l : same_stream F [] l -> forall t r, l = t :: r -> t = TEof F.
  Proof. intros S t r ->. specialize (S 0%nat). cbn in S. congruence. Qed.
  Lemma same_cons t a l : t <> TEof F -> same_stream F l (t :: a) -> exists b, l = t :: b /\ same_stream F b a.
  Proof.
    intros N S. destruct l as [|u b]; [specialize (S 0%nat); cbn in S; congruence|].
    pose proof (S 0%nat) as E. cbn in E. subst u. exists b. split; [reflexivity|]. intros n. exact (S (Datatypes.S n)).
  Qed.
  Lemma same_app ts : (forall t, In t ts -> t <> TEof F) -> forall a l, same_stream F l (ts ++ a) ->
    exists b, l = ts ++ b /\ same_stream F b a.
  Proof.
    induction ts as [|t ts IH]; intros N a l S; [exists l; split; auto|].
    cbn [app] in S. apply same_cons in S as (b & -> & S); [|apply N; left; reflexivity].
    apply IH in S as (c & -> & S); [|intros u I; apply N; right; exact I]. exists c. auto.
  Qed.
  Lemma same_trans l l' l'' : same_stream F l l' -> same_stream F l' l'' -> same_stream F l l''.
  Proof. intros a b n. rewrite a. apply b. Qed.

  Lemma value_not_eof a t : In t (RibWriteSpec.value F of_bits32 a) -> t <> TEof F.
  Proof.
    destruct a; cbn [RibWriteSpec.value]; intros I; repeat (destruct I as [<-|I]; [discriminate|]); try contradiction;
      apply in_app_or in I as [I|I]; repeat (destruct I as [<-|I]; [discriminate|]); try contradiction;
      apply in_map_iff in I as (? & <- & _); discriminate.
  Qed.

  Lemma args_read args : Forall is_arg args -> forall x rest, lexer_ok F x ->
    same_stream F (ahead x) (flat_map (RibWriteSpec.value F of_bits32) args ++ rest) ->
    exists rs z, read_args F of_int (map kind_of args) x = Some (rs, z) /\ lexer_ok F z /\ keeps F x z /\
      map (deref F z) rs = map (value_of F of_bits32) args /\ same_stream F (ahead z) rest.
  Proof.
    induction 1 as [|a args Ha _ IH]; intros x rest H S; cbn [map read_args flat_map] in *.
    - exists [], x. repeat split; auto; try apply H.
    - rewrite <- app_assoc in S. apply same_app in S as (b & A & S); [|apply value_not_eof].
      destruct (arg_spelt a Ha) as (P & Z & NE).
      destruct (read_value F of_int (kind_of a) x (value_of F of_bits32 a) b H) as (r & y & R & V & Sy); [|exact Z|].
      { exists (RibWriteSpec.value F of_bits32 a). split; [exact A|]. split; [exact P|]. intros Q. destruct (NE Q). }
      rewrite R. pose proof (read_good F of_int (kind_of a) x H) as (G1 & G2 & G3). rewrite R in G1, G2, G3. cbn [fst snd] in *.
      destruct (IH y rest G1 (same_trans _ _ _ Sy S)) as (rs & z & R' & Z1 & K & V' & S').
      rewrite R'. exists (r :: rs), z. split; [reflexivity|]. split; [exact Z1|]. split; [eapply keeps_all_trans; eassumption|].
      split; [|exact S']. cbn [map]. rewrite V'. f_equal. rewrite <- V. apply keeps_deref; [exact K|]. apply G3. reflexivity.
  Qed.

  Lemma names_no_zero n : In n request_names -> ~ In 0 n.
  Proof.
    assert (H : forallb (fun n => forallb (fun c => negb (c =? 0)) n) request_names = true) by (vm_compute; reflexivity).
    intros I J. rewrite forallb_forall in H. specialize (H n I). rewrite forallb_forall in H. specialize (H 0 J). discriminate.
  Qed.

  Lemma calls_read cs : Forall is_call cs -> forall x, lexer_ok F x ->
    same_stream F (ahead x) (flat_map (meaning F of_bits32) cs) -> reads_back F of_bits32 of_int cs x.
  Proof.
    induction 1 as [|c cs Hc _ IH]; intros x H S; cbn [reads_back flat_map] in *.
    - destruct (next_cases F x) as [(y & E & R)|[(y & E & R & B & _)|(r & y & s & E & A & V & _)]].
      + rewrite E. reflexivity.
      + destruct (ahead x) as [|t a]; [cbn in B; lia|]. specialize (S 0%nat). cbn in S. subst t. cbn in B. lia.
      + rewrite A in S. specialize (S 0%nat). cbn in S. congruence.
    - destruct c as [name args|s|s]; cbn [meaning] in S; try (apply IH; assumption).
      destruct Hc as [In Ha]. cbn [app] in S.
      apply same_cons in S as (b & A & S); [|discriminate].
      destruct (next_cases F x) as [(y & E & R)|[(y & E & R & B & Q)|(r & y & s & E & A' & V & Hr)]].
      + rewrite A in R. discriminate.
      + rewrite A in Q. discriminate.
      + rewrite A in A'. inversion A'; subst.
        assert (Hy : lexer_ok F y) by (pose proof (next_ok F x) as X; rewrite E in X; exact X).
        destruct (args_read args Ha y _ Hy S) as (rs & z & R & Hz & K & V' & S').
        exists r, y, rs, z. split; [exact E|]. split; [exact R|]. split; [|split; [exact V'|apply IH; assumption]].
        rewrite (proj1 (keeps_deref F y z r K Hr)), V, cstr_id by (apply names_no_zero; exact In). reflexivity.
  Qed.
End Chain.

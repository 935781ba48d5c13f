(** C32: nested RIB streams. *)

From Coq Require Import List Bool Arith ZArith String Lia.
From Verif Require Import RibBufModel RibTokModel RibTokSpec RibTokProofs RibWriteModel RibStackModel RibStackSpec RibStackProofs.
Import ListNotations.
Open Scope Z_scope.

Section C32.
  Variable F : Type.
  Variable ob32 ob64 oi : Z -> F.
  Variable add mul : F -> F -> F.
  Variable tt : F -> F.
  Variable tenth : F.
  Variable tp : F -> Z -> F.
  Variable fx : Z -> Z -> Z -> F.
  Local Notation do_calls := (do_calls F ob32 ob64 oi add mul tt tenth tp fx).

  (** C32.  Pushing a stream, reading from it whatever there is, reading other
      streams in between, and popping it: the token in stock and what is left of
      every outer stream are as before. *)
  Theorem C32_position_restored : forall b cs s ts s', balanced cs ->
    do_calls (Push b :: cs ++ [Pop]) s = Some (ts, s') ->
    inputs F s' = inputs F s /\ next_tok F s' = next_tok F s /\ have_next F s' = have_next F s.
  Proof. intros b cs s ts s'. exact (returns F ob32 ob64 oi add mul tt tenth tp fx b cs s ts s'). Qed.

  (** Token for token, whatever the outer stream is, if the streams pushed define
      no codes and contain no encoded arrays (ASCII for example): what is read
      later is what would have been read without them.  The outer stream was not
      interrupted within an encoded array. *)
  Theorem C32_continues_partial : forall b cs s ts s' later, balanced cs -> pushes quiet (Push b :: cs) ->
    left (codes F s) < 0 -> do_calls (Push b :: cs ++ [Pop]) s = Some (ts, s') ->
    do_calls later s' = do_calls later s.
  Proof.
    intros b cs s ts s' later B P L E. f_equal.
    exact (quiet_returns F ob32 ob64 oi add mul tt tenth tp fx b cs s ts s' B P L E).
  Qed.

  (** Token for token, whatever the streams pushed are, if the outer streams use
      no codes and the streams pushed were not left within an encoded array. *)
  Theorem C32_plain_outer_partial : forall b cs s ts s' later, balanced cs ->
    do_calls (Push b :: cs ++ [Pop]) s = Some (ts, s') ->
    left (codes F s) < 0 -> left (codes F s') < 0 ->
    Forall (fun i => codeless (left_in F i)) (inputs F s) -> pushes codeless later ->
    option_map fst (do_calls later s') = option_map fst (do_calls later s).
  Proof. intros b cs s ts s' later. exact (plain_outer F ob32 ob64 oi add mul tt tenth tp fx b cs s ts s' later). Qed.

  (** They are not left within an encoded array if they are read to the end. *)
  Theorem C32_read_to_end : forall b cs s ts s', Forall (fun c => c = Get \/ c = PeekTok \/ c = Unget) cs ->
    left (codes F s) < 0 -> do_calls (Push b :: cs ++ [Pop]) s = Some (ts, s') ->
    last ts (TError F) = TEof F -> left (codes F s') < 0.
  Proof. intros b cs s ts s'. exact (push_eof F ob32 ob64 oi add mul tt tenth tp fx b cs s ts s'). Qed.

  (** What is read from a pushed stream depends only on that stream and the
      codes, not on the stream that was interrupted. *)
  Theorem C32_inner_alone : forall b cs s1 s2, orderly cs -> codes F s1 = codes F s2 ->
    option_map fst (do_calls (Push b :: cs) s1) = option_map fst (do_calls (Push b :: cs) s2).
  Proof. intros b cs s1 s2. exact (inner_alone F ob32 ob64 oi add mul tt tenth tp fx b cs s1 s2). Qed.

  (** The first request of the stream pushed inside defines code 0, which the
      outer stream uses: after the inner stream the outer one means something
      else. *)
  Definition outer_codes : list Z := [204; 0; 146; 65; 66] ++ [166; 0; 166; 0].
  Definition inner_codes : list Z := [204; 0; 146; 67; 68; 166; 0].
  Theorem C32_inner_codes_leak_refuted : exists b cs outer ts s s' l l' ts1,
    balanced cs /\ do_calls [Push outer; Get] (new_tokeniser F) = Some (ts1, s) /\
    do_calls (Push b :: cs ++ [Pop]) s = Some (ts, s') /\ last ts (TError F) = TEof F /\
    option_map fst (do_calls [Get] s) = Some l /\ option_map fst (do_calls [Get] s') = Some l' /\ l <> l'.
  Proof.
    exists inner_codes, [Get; Get], outer_codes. do 6 eexists.
    split; [repeat (apply bal_read; [solve [auto]|]); apply bal_nil|].
    split; [reflexivity|]. split; [reflexivity|]. split; [reflexivity|]. split; [reflexivity|]. split; [reflexivity|]. discriminate.
  Qed.

  (** Interrupting the outer stream within an encoded array: the inner stream,
      a request in ASCII, is read as a float, and the array of the outer stream
      ends early. *)
  Definition outer_array : list Z := [200; 2; 0; 0; 0; 0; 0; 0; 0; 1].
  Theorem C32_within_array_refuted : exists ts1 s l f,
    do_calls [Push outer_array; Get] (new_tokeniser F) = Some (ts1, s) /\
    option_map fst (do_calls [Push (text "Sides 2"%string); Get; Pop; Get; Get] s) = Some [TFloat F f; TFloat F (ob32 0); TArrayEnd F] /\
    option_map fst (do_calls [Get; Get; Get] s) = Some l /\ l = [TFloat F (ob32 0); TFloat F (ob32 1); TArrayEnd F].
  Proof.
    do 4 eexists. split; [reflexivity|]. split; [reflexivity|]. split; reflexivity.
  Qed.
End C32.
Print Assumptions C32_position_restored.
Print Assumptions C32_continues_partial.
Print Assumptions C32_plain_outer_partial.
Print Assumptions C32_read_to_end.
Print Assumptions C32_inner_alone.
Print Assumptions C32_inner_codes_leak_refuted.
Print Assumptions C32_within_array_refuted.

(** Non-vacuity: an outer stream with a token in stock, an ASCII archive that
    reads another archive. *)
Definition zcalls := do_calls Z (fun z => z) (fun z => z) (fun z => z) Z.add Z.mul (fun z => z) 0 (fun z _ => z) (fun m _ _ => m).
Definition case_calls : list call := [PeekTok; Get; Push (text "2"%string); Get; Get; Unget; Pop; Get].
Example C32_case :
  exists s ts s', zcalls [Push outer_codes; Get; PeekTok] (new_tokeniser Z) = Some ([TRequest Z [65; 66]; TRequest Z [65; 66]], s) /\
    balanced case_calls /\ orderly case_calls /\ pushes quiet (Push (text "Sides 1"%string) :: case_calls) /\ left (codes Z s) < 0 /\
    zcalls (Push (text "Sides 1"%string) :: case_calls ++ [Pop]) s = Some (ts, s') /\
    ts = [TRequest Z (text "Sides"%string); TRequest Z (text "Sides"%string); TInteger Z 2; TEof Z; TInteger Z 1] /\
    option_map fst (zcalls [Get] s') = Some [TRequest Z [65; 66]].
Proof.
  do 3 eexists. split; [vm_compute; reflexivity|]. split.
  { unfold case_calls. repeat (apply bal_read; [solve [auto]|]). apply (bal_nested (text "2"%string) [Get; Get; Unget] [Get]);
      repeat (apply bal_read; [solve [auto]|]); apply bal_nil. }
  split.
  { unfold case_calls. apply ord_peek, ord_get. apply (ord_nested (text "2"%string) [Get; Get; Unget] [Get]).
    - apply ord_get, ord_unget, ord_nil.
    - apply ord_get, ord_nil. }
  split.
  { assert (Q : forall b, forallb (fun c => (0 <=? c) && (c <? 128)) b = true -> quiet b).
    { intros b H. rewrite forallb_forall in H. split; apply Forall_forall; intros c I; specialize (H c I);
        apply andb_true_iff in H as [A B]; apply Z.leb_le in A; apply Z.ltb_lt in B; lia. }
    intros b [E|I]; [injection E as <-; apply Q; reflexivity|].
    unfold case_calls in I. cbn [In] in I. repeat destruct I as [I|I]; try discriminate I; try contradiction.
    injection I as <-. apply Q. reflexivity. }
  split; [vm_compute; reflexivity|]. split; [vm_compute; reflexivity|]. split; vm_compute; reflexivity.
Qed.

(** C01 and C02: the RIB input buffer. *)

From Coq Require Import List Bool Arith ZArith Lia.
From Verif Require Import RibBufModel RibBufSpec RibBufProofs.
Import ListNotations.

(** C01.  Whatever the stream, the sizes of the chunks it hands out, the junk
    in the uninitialised array and the interleaving of get with single ungets:
    no assertion fails, nothing outside the array is touched, and each get
    returns the byte of the stream at the cursor, 255 from the end on. *)
Theorem C01_bytes_delivered : forall junk s chunks ops,
  length junk = bufSize - 2 -> single_ungets false ops ->
  exists r, run ops (open_buf junk s chunks) = Some r /\ map fst r = map fst (shows s 0 ops).
Proof.
  intros junk s chunks ops J S. destruct (bytes junk s chunks ops J S) as (r & R & E). exists r.
  split; [exact R|]. apply (f_equal (map fst)) in E. rewrite !map_map in E. exact E.
Qed.
Print Assumptions C01_bytes_delivered.

(** C02, columns: right for every stream. *)
Theorem C02_columns : forall junk s chunks ops,
  length junk = bufSize - 2 -> single_ungets false ops ->
  exists r, run ops (open_buf junk s chunks) = Some r /\
    map (fun x => snd (snd x)) r = map (fun x => snd (snd x)) (shows s 0 ops).
Proof.
  intros junk s chunks ops J S. destruct (bytes junk s chunks ops J S) as (r & R & E). exists r.
  split; [exact R|]. apply (f_equal (map snd)) in E. rewrite !map_map in E. exact E.
Qed.
Print Assumptions C02_columns.

(** C02, lines.  Missing: streams in which a CR LF pair straddles a wrap of the
    array (see [wraps_cleanly]), where the claim is false. *)
Theorem C02_positions_partial : forall junk s chunks ops,
  length junk = bufSize - 2 -> single_ungets false ops -> wraps_cleanly s ->
  run ops (open_buf junk s chunks) = Some (shows s 0 ops).
Proof. exact positions. Qed.
Print Assumptions C02_positions_partial.

(** A file with CR LF line ends whose first line is 253 bytes long: the second
    line is reported as line 3, however the bytes arrive. *)
Theorem C02_crlf_at_wrap_refuted : exists s, forall junk chunks,
  length junk = bufSize - 2 ->
  exists r, run (repeat Get 256) (open_buf junk s chunks) = Some r /\
    last r (None, (0, 0)%Z) = (Some 65%Z, (3, 1)%Z) /\
    last (shows s 0 (repeat Get 256)) (None, (0, 0)%Z) = (Some 65%Z, (2, 1)%Z).
Proof.
  exists (repeat 32%Z 253 ++ [CR; LF; 65%Z]). intros junk chunks J.
  exists (shows' (repeat 32%Z 253 ++ [CR; LF; 65%Z]) 0 (repeat Get 256)). split.
  - apply reads; [exact J|]. exact I.
  - split; vm_compute; reflexivity.
Qed.
Print Assumptions C02_crlf_at_wrap_refuted.

(** ... and a lone LF after CR, another byte, at the wrap is not counted. *)
Theorem C02_lf_at_wrap_refuted : exists s, forall junk chunks,
  length junk = bufSize - 2 ->
  exists r, run (repeat Get 256) (open_buf junk s chunks) = Some r /\
    last r (None, (0, 0)%Z) = (Some 65%Z, (2, 1)%Z) /\
    last (shows s 0 (repeat Get 256)) (None, (0, 0)%Z) = (Some 65%Z, (3, 1)%Z).
Proof.
  exists (repeat 32%Z 252 ++ [CR; 32%Z; LF; 65%Z]). intros junk chunks J.
  exists (shows' (repeat 32%Z 252 ++ [CR; 32%Z; LF; 65%Z]) 0 (repeat Get 256)). split.
  - apply reads; [exact J|]. exact I.
  - split; vm_compute; reflexivity.
Qed.
Print Assumptions C02_lf_at_wrap_refuted.

(** ** The hypotheses can be met *)

Example C02_clean_stream : wraps_cleanly [65; 13; 10; 66]%Z.
Proof.
  intros i M B. assert (i = 2 \/ i <> 2) as [->|N] by lia; [discriminate M|].
  destruct i as [|[|[|[|i]]]]; try discriminate B; try lia.
  unfold byte_at in B. simpl in B. destruct i; discriminate B.
Qed.

(** Ungets after the second byte, after CR LF, and at the end of the file; the
    stream hands out two bytes, then nothing, then one. *)
Example C01_case :
  single_ungets false [Get; Get; Unget; Get; Get; Unget; Get; Get; Get; Unget; Get] /\
  run [Get; Get; Unget; Get; Get; Unget; Get; Get; Get; Unget; Get]
      (open_buf (repeat 7%Z 254) [65; 13; 10; 66]%Z [2; 0; 1]) =
  Some [(Some 65, (1, 1)); (Some 13, (2, 0)); (None, (1, 1)); (Some 13, (2, 0)); (Some 10, (2, 0));
        (None, (2, 0)); (Some 10, (2, 0)); (Some 66, (2, 1)); (Some 255, (2, 2)); (None, (2, 1)); (Some 255, (2, 2))]%Z.
Proof. split; [cbn; tauto|vm_compute; reflexivity]. Qed.

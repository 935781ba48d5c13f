(** C03: the RIB tokeniser. *)

From Coq Require Import List Bool Arith ZArith Lia.
From Verif Require Import RibBufModel RibTokModel RibTokSpec RibTokProofs.
Import ListNotations.
Open Scope Z_scope.

(** C03, one call.  In every state of the tokeniser and for every byte string
    with no number over INT_MAX in it, scanNext returns within as many rounds
    as there are bytes, what remains is a suffix of what there was, and unless
    it is inside an encoded array or at the end of the file it is a shorter one.
    The float operations are arbitrary.  Missing: numbers over INT_MAX, where
    the arithmetic overflows. *)
Theorem C03_token_partial : forall F ob32 ob64 oi add mul tt tenth tp fx k l,
  bytes l -> ~ big_number l ->
  exists t k' l',
    scan F ob32 ob64 oi add mul tt tenth tp fx (S (length l)) k l = Scanned F t k' l' /\
    rest_of l l' /\
    (left k < 0 -> t <> TEof F -> (length l' < length l)%nat) /\
    (0 <= left k -> t <> TEof F /\ left k' = left k - 1).
Proof. exact scan_ok. Qed.
Print Assumptions C03_token_partial.

(** C03, all calls.  From every state the calls reach the end of the file after
    finitely many tokens, which are determined by the state and the bytes. *)
Theorem C03_ends_partial : forall F ob32 ob64 oi add mul tt tenth tp fx k l,
  bytes l -> ~ big_number l ->
  exists ts k' l', scans F ob32 ob64 oi add mul tt tenth tp fx k l ts k' l' /\
    forall ts2 k2 l2, scans F ob32 ob64 oi add mul tt tenth tp fx k l ts2 k2 l2 -> ts2 = ts.
Proof.
  intros F ob32 ob64 oi add mul tt tenth tp fx k l B N.
  destruct (scans_exist F ob32 ob64 oi add mul tt tenth tp fx _ _ k l (le_n _) (le_n _) B N) as (ts & k' & l' & S).
  exists ts, k', l'. split; [exact S|]. intros ts2 k2 l2 S2.
  apply (scans_unique _ _ _ _ _ _ _ _ _ _ _ _ _ _ _ S _ _ _ S2).
Qed.
Print Assumptions C03_ends_partial.

(** The fuel of the model is no restriction: every call, whatever the bytes,
    is decided by it: it returns, or a number overflows. *)
Theorem C03_never_loops : forall F ob32 ob64 oi add mul tt tenth tp fx k l,
  bytes l ->
  scan F ob32 ob64 oi add mul tt tenth tp fx (S (length l)) k l = Overflow F \/
  exists t k' l', scan F ob32 ob64 oi add mul tt tenth tp fx (S (length l)) k l = Scanned F t k' l'.
Proof.
  intros F ob32 ob64 oi add mul tt tenth tp fx k l B.
  pose proof (scan_fine F ob32 ob64 oi add mul tt tenth tp fx (S (length l)) k l B (Nat.lt_succ_diag_r _)) as X.
  destruct (scan _ _ _ _ _ _ _ _ _ _ _ k l) as [t k' l'| |]; eauto. destruct X.
Qed.
Print Assumptions C03_never_loops.

(** The number 2147483648 overflows an int, although the code means such a
    number to be a float as well ("3000000000.0" overflows too). *)
Theorem C03_overflow_refuted : exists l, bytes l /\
  forall F ob32 ob64 oi add mul tt tenth tp fx n,
  scan F ob32 ob64 oi add mul tt tenth tp fx (S n) (no_codes) l = Overflow F.
Proof.
  exists [51; 48; 48; 48; 48; 48; 48; 48; 48; 48; 46; 48]. split.
  - apply bytes_ok. reflexivity.
  - intros. reflexivity.
Qed.
Print Assumptions C03_overflow_refuted.

(** A string that promises three bytes at a place where the file has one: the
    tokeniser reads past the end and returns two bytes that are not in the file. *)
Theorem C03_truncated_string_refuted : exists l, bytes l /\
  forall F ob32 ob64 oi add mul tt tenth tp fx n,
  scan F ob32 ob64 oi add mul tt tenth tp fx (S n) no_codes l
    = Scanned F (TString F [65; 255; 255]) no_codes [] /\ ~ In 255 l.
Proof.
  exists [147; 65]. split.
  - apply bytes_ok. reflexivity.
  - intros. split; [reflexivity|]. simpl. lia.
Qed.
Print Assumptions C03_truncated_string_refuted.

(** An encoded array with a length over INT_MAX starts but is never ended. *)
Theorem C03_long_array_refuted : exists l, bytes l /\
  forall F ob32 ob64 oi add mul tt tenth tp fx,
  exists k' l', scans F ob32 ob64 oi add mul tt tenth tp fx no_codes l [TArrayBegin F; TRequest F [65]] k' l'.
Proof.
  exists [203; 128; 0; 0; 0; 65]. split.
  - apply bytes_ok. reflexivity.
  - intros. eexists. eexists. eapply scans_more with (fuel := 1%nat); [reflexivity|discriminate|].
    eapply scans_more with (fuel := 1%nat); [reflexivity|discriminate|].
    apply scans_eof with (fuel := 1%nat). reflexivity.
Qed.
Print Assumptions C03_long_array_refuted.

(** Non-vacuity: [a # c LF 12 "x y" 0314 1 "Hi" 0246 1 0310 1 (4 bytes) z]; here a float is its bits. *)
Example C03_case :
  let l := [97; 32; 35; 99; 10; 49; 50; 34; 120; 92; 32; 121; 34; 204; 1; 146; 72; 105; 166; 1;
            200; 1; 63; 128; 0; 0; 122] in
  bytes l /\ ~ big_number l /\
  exists k' l', scans Z (fun z => z) (fun z => z) (fun z => z) Z.add Z.mul (fun z => z) 0 (fun z _ => z)
    (fun _ _ _ => 0) no_codes l
    [TRequest Z [97]; TInteger Z 12; TString Z [120; 32; 121]; TRequest Z [72; 105];
     TArrayBegin Z; TFloat Z 1065353216; TArrayEnd Z; TRequest Z [122]] k' l'.
Proof.
  cbv zeta. split; [apply bytes_ok; reflexivity|]. split.
  - apply small_numbers_ok. vm_compute. reflexivity.
  - eexists. eexists.
    do 8 (eapply scans_more with (fuel := 12%nat); [reflexivity|discriminate|]).
    apply scans_eof with (fuel := 1%nat). reflexivity.
Qed.

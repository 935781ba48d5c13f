(** C04, C05 and C06: what the RIB writer writes, read back by the tokeniser. *)

From Coq Require Import List Bool Arith ZArith String Lia.
From Verif Require Import RibBufModel RibTokModel RibTokSpec RibTokProofs RibWriteModel RibWriteSpec RibWriteProofs.
Import ListNotations.
Open Scope Z_scope.

(** C04.  Every sequence of calls of the interface is written in binary without
    a failing assertion, and reading the bytes from the start to the end of the
    file gives the names and arguments that were written, and nothing else.
    Floats are the same bits.  The float operations are arbitrary. *)
Theorem C04_binary_roundtrip : forall F ob32 ob64 oi add mul tt tenth tp fx asserts cs,
  Forall is_call cs ->
  exists b, bin_calls asserts cs no_requests = Some b /\
    (exists k', scans F ob32 ob64 oi add mul tt tenth tp fx no_codes b (flat_map (meaning F ob32) cs) k' []) /\
    (forall ts k' l', scans F ob32 ob64 oi add mul tt tenth tp fx no_codes b ts k' l' ->
       ts = flat_map (meaning F ob32) cs).
Proof. exact binary_calls. Qed.
Print Assumptions C04_binary_roundtrip.

(** ... and the same for names that are not in the interface, as long as there
    are at most 256 of them, 255 with assertions compiled in. *)
Theorem C04_any_names : forall F ob32 ob64 oi add mul tt tenth tp fx (asserts : bool) cs,
  (List.length (nodup (list_eq_dec Z.eq_dec) (names cs)) <= if asserts then 255 else 256)%nat ->
  Forall encodable cs ->
  exists b, bin_calls asserts cs no_requests = Some b /\
    exists k', scans F ob32 ob64 oi add mul tt tenth tp fx no_codes b (flat_map (meaning F ob32) cs) k' [].
Proof. exact binary_any_names. Qed.
Print Assumptions C04_any_names.

(** C06.  Reading back, the requests are the requests written, in order, however
    many there are. *)
Theorem C06_request_codes_partial : forall F ob32 ob64 oi add mul tt tenth tp fx asserts cs,
  Forall is_call cs ->
  exists b, bin_calls asserts cs no_requests = Some b /\
    forall ts k' l', scans F ob32 ob64 oi add mul tt tenth tp fx no_codes b ts k' l' ->
      flat_map (fun t => match t with TRequest _ n => [n] | _ => [] end) ts = names cs.
Proof. exact binary_names. Qed.
Print Assumptions C06_request_codes_partial.

(** The formatter itself does not guard against more names than there are codes
    (the interface has 108).  With 257 names and without assertions the first
    name is read back as the last one... *)
Theorem C06_names_257_refuted : exists cs b ts k',
  Forall encodable cs /\ bin_calls false cs no_requests = Some b /\
  scans unit (fun _ => tt) (fun _ => tt) (fun _ => tt) (fun _ _ => tt) (fun _ _ => tt) (fun _ => tt) tt
    (fun _ _ => tt) (fun _ _ _ => tt) no_codes b ts k' [] /\
  last (names cs) [] = [65; 65] /\ last ts (TEof unit) = TRequest unit [74; 87].
Proof. exact many_names_wrong. Qed.
Print Assumptions C06_names_257_refuted.

(** ... and with assertions the 256th name stops the program. *)
Theorem C06_names_256_refuted : exists cs, Forall encodable cs /\
  List.length (names cs) = 256%nat /\ bin_calls true cs no_requests = None.
Proof.
  exists (many_names 256). split; [apply many_encodable|split; vm_compute; reflexivity].
Qed.
Print Assumptions C06_names_256_refuted.

(** Non-vacuity of C04 and C06: requests with every kind of argument, a repeated
    request, negative and extreme ints, a long string, empty arrays and strings
    and a comment. *)
Definition sample : list call := [
  Comment (text "Scene 1");
  Request (text "Format") [AInt 640; AInt (-2147483648); AFloat 1065353216];
  Request (text "Display") [AString (text "a file name with more than 15 bytes"); AString []];
  Request (text "Points") [AString (text "P"); AFloats [0; 4294967295; 1065353216]; AString (text "width"); AFloats []];
  Request (text "Blobby") [AInt 2; AInts [65536; -1; 255; 256]; AFloats []; AStrings [text "x"; []]];
  Request (text "Format") [AInt 1; AInt 2147483647; AFloat 0];
  Structure (text "End")].

Example sample_calls : Forall is_call sample.
Proof.
  unfold sample. repeat match goal with |- Forall is_call (_ :: _) => apply Forall_cons end; try apply Forall_nil; cbn [is_call].
  1: apply one_line_ok; reflexivity.
  6: apply one_line_ok; reflexivity.
  all: split; [apply in_names_ok; vm_compute; reflexivity|].
  all: repeat match goal with |- Forall is_arg (_ :: _) => apply Forall_cons end; try apply Forall_nil; cbn [is_arg]; unfold is_int, is_bits; try lia.
  all: try (apply is_string_ok; [reflexivity|cbn; lia]).
  all: try (split; [|cbn; unfold int_max; lia]).
  all: repeat (apply Forall_cons; [|]); try apply Forall_nil; try lia.
  all: apply is_string_ok; [reflexivity|cbn; lia].
Qed.

Example sample_bytes :
  bin_calls true (firstn 2 (skipn 5 sample) ++ [Request (text "Format") [AInts [256]; AFloats []]]) no_requests =
  Some ([204; 0; 150] ++ text "Format" ++ [166; 0; 128; 1; 131; 127; 255; 255; 255; 164; 0; 0; 0; 0]
        ++ text "##End" ++ [10] ++ [166; 0; 91; 129; 1; 0; 93; 200; 0]).
Proof. reflexivity. Qed.

(** C05.  Every sequence of calls with int, string and array arguments, written
    in ASCII with any indentation of white space, is read back unchanged.
    Missing: the smallest int, and strings with characters the writer escapes:
    see the theorems below. *)
Theorem C05_ascii_roundtrip_partial : forall F ob32 ob64 oi add mul tt tenth tp fx show_float step ch indent cs,
  white ch -> Forall (ascii_call plain) cs ->
  (exists k', scans F ob32 ob64 oi add mul tt tenth tp fx no_codes (show_calls show_float step ch cs indent)
     (flat_map (meaning F ob32) cs) k' []) /\
  (forall ts k' l', scans F ob32 ob64 oi add mul tt tenth tp fx no_codes (show_calls show_float step ch cs indent) ts k' l' ->
     ts = flat_map (meaning F ob32) cs).
Proof. exact ascii_plain. Qed.
Print Assumptions C05_ascii_roundtrip_partial.

(** For all strings: everything is read back unchanged but for the strings,
    which come back with the escapes still in them... *)
Theorem C05_ascii_escapes : forall F ob32 ob64 oi add mul tt tenth tp fx show_float step ch indent cs,
  white ch -> Forall (ascii_call (Forall (fun c => 0 < c < 256))) cs ->
  (exists k', scans F ob32 ob64 oi add mul tt tenth tp fx no_codes (show_calls show_float step ch cs indent)
     (flat_map (meaning F ob32) (map escaped_call cs)) k' []) /\
  (forall ts k' l', scans F ob32 ob64 oi add mul tt tenth tp fx no_codes (show_calls show_float step ch cs indent) ts k' l' ->
     ts = flat_map (meaning F ob32) (map escaped_call cs)).
Proof. exact ascii_escaped. Qed.
Print Assumptions C05_ascii_escapes.

(** ... so a string survives if and only if it has none of the characters that
    are escaped. *)
Theorem C05_survives_iff_plain : forall s, Forall (fun c => 0 < c < 256) s -> (escaped s = s <-> plain s).
Proof. exact escaped_iff. Qed.
Print Assumptions C05_survives_iff_plain.

(** A path with a backslash comes back with two. *)
Theorem C05_backslash_refuted : exists cs, Forall is_call cs /\ cs = [Request (text "ReadArchive") [AString (text "C:\a")]] /\
  forall F ob32 ob64 oi add mul tt tenth tp fx show_float,
  exists k', scans F ob32 ob64 oi add mul tt tenth tp fx no_codes (show_calls show_float 4 32 cs 0)
    [TRequest F (text "ReadArchive"); TString F (text "C:\\a")] k' [].
Proof.
  exists [Request (text "ReadArchive") [AString (text "C:\a")]]. split; [|split; [reflexivity|]].
  - constructor; [|constructor]. split.
    + apply in_names_ok. vm_compute. reflexivity.
    + constructor; [|constructor]. apply is_string_ok; [reflexivity|cbn; lia].
  - intros. eexists. eapply scans_more with (fuel := 1%nat); [reflexivity|discriminate|].
    eapply scans_more with (fuel := 2%nat); [reflexivity|discriminate|].
    apply scans_eof with (fuel := 2%nat). reflexivity.
Qed.
Print Assumptions C05_backslash_refuted.

(** The smallest int is written as -2147483648, which overflows when read. *)
Theorem C05_int_min_refuted : forall F ob32 ob64 oi add mul tt tenth tp fx show_float,
  exists k' l', scan F ob32 ob64 oi add mul tt tenth tp fx 1 no_codes
      (show_calls show_float 4 32 [Request (text "Sides") [AInt (-2147483648)]] 0)
    = Scanned F (TRequest F (text "Sides")) k' l' /\
  scan F ob32 ob64 oi add mul tt tenth tp fx 2 k' l' = Overflow F.
Proof. intros. eexists. eexists. split; reflexivity. Qed.
Print Assumptions C05_int_min_refuted.

(** A comment with a line break in it adds requests to the file, in both
    formats. *)
Theorem C05_comment_refuted : forall F ob32 ob64 oi add mul tt tenth tp fx show_float,
  let cs := [Comment (text "one" ++ [LF] ++ text "WorldEnd")] in
  flat_map (meaning F ob32) cs = [] /\
  exists k', scans F ob32 ob64 oi add mul tt tenth tp fx no_codes (show_calls show_float 4 32 cs 0)
    [TRequest F (text "WorldEnd")] k' [].
Proof.
  intros. split; [reflexivity|]. eexists. eapply scans_more with (fuel := 3%nat); [reflexivity|discriminate|].
  apply scans_eof with (fuel := 2%nat). reflexivity.
Qed.
Print Assumptions C05_comment_refuted.

(** Non-vacuity of C05. *)
Definition ascii_sample : list call := [
  Request (text "WorldBegin") [];
  Request (text "Blobby") [AInt (-12); AInts [0; 2147483647]; AStrings [text "a b"; []]; AInts []];
  Comment (text " done");
  Request (text "WorldEnd") []].

Example ascii_sample_calls : Forall (ascii_call plain) ascii_sample /\
  show_calls (fun _ => []) 4 32 ascii_sample 0 =
  text "WorldBegin" ++ [LF] ++ text "    Blobby -12 [0 2147483647] [" ++ [34] ++ text "a b" ++ [34; 32; 34; 34] ++ text "] []" ++ [LF]
  ++ text "    # done" ++ [LF] ++ text "WorldEnd" ++ [LF].
Proof.
  split; [|reflexivity].
  assert (P : plain (text "a b")) by (apply plain_ok; reflexivity).
  unfold ascii_sample. repeat match goal with |- Forall (ascii_call _) (_ :: _) => apply Forall_cons end; try apply Forall_nil; cbn [ascii_call].
  3: apply one_line_ok; reflexivity.
  all: split; [apply in_names_ok; vm_compute; reflexivity|].
  all: repeat match goal with |- Forall (ascii_arg _) (_ :: _) => apply Forall_cons end; try apply Forall_nil; cbn [ascii_arg]; unfold int_max; try lia.
  all: repeat (apply Forall_cons; [first [exact P|apply Forall_nil|lia]|]); apply Forall_nil.
Qed.

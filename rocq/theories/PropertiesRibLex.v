(** C07, C08, C36 and C37: reading requests and arguments from tokens. *)

From Coq Require Import List Bool Arith ZArith String Lia.
From Verif Require Import RibBufModel RibTokModel RibTokSpec RibWriteModel RibWriteSpec RibWriteProofs RibLexModel RibLexSpec RibLexProofs
  RibChainSpec RibChainProofs PropertiesRibWrite.
Import ListNotations.
Open Scope Z_scope.

(** C07.  Whatever the tokens, whichever arguments the handlers of requests try
    to read and whether that fails or not: the requests the parser meets are
    all the request tokens up to the end of the file, in order. *)
Theorem C07_no_request_lost : forall F of_int (handler_of : list Z -> option (handler F)) l es x',
  parses F of_int handler_of (new_lexer F l) es x' ->
  map fst es = map cstr (requests F l).
Proof. intros F of_int hs l es x'. exact (parses_requests F of_int hs (new_lexer F l) es x'). Qed.
Print Assumptions C07_no_request_lost.

(** ... and it gets to the end, if every handler gets to an end. *)
Theorem C07_parser_ends : forall F of_int (handler_of : list Z -> option (handler F)) l,
  (forall n h, handler_of n = Some h -> forall x, exists b y, handles F of_int h [] x b y) ->
  exists es x', parses F of_int handler_of (new_lexer F l) es x'.
Proof. intros F of_int hs l H. exact (parses_exist F of_int hs H _ (new_lexer F l) (Nat.lt_succ_diag_r _)). Qed.
Print Assumptions C07_parser_ends.

(** After any calls that read arguments, successful or not, error recovery
    makes the next request the first request token that was ahead before these
    calls; if there is none the stream ends. *)
Theorem C07_recovery : forall F of_int start l ops, within_request ops ->
  let x := run F of_int start (new_lexer F l) in
  let next := next_request F (run F of_int (ops ++ [ODiscard]) x) in
  match requests F (ahead F x) with
  | [] => fst next = None
  | s :: more => exists r y, next = (Some (Ok F r), y) /\ deref F y r = VString F (cstr s) /\ requests F (ahead F y) = more
  end.
Proof.
  intros F of_int start l ops N x next.
  pose proof (recovery F of_int ops x (run_ok F of_int start _ (new_ok F l)) N) as R.
  destruct (requests F (ahead F x)); [destruct R as [y R]; unfold next; rewrite R; reflexivity|exact R].
Qed.
Print Assumptions C07_recovery.

(** C08.  In every state of the lexer: if the stream starts with a value of the
    kind asked for, the read returns it and leaves the rest of the stream; if it
    does not, the read fails.  Missing: strings with zero bytes in them, of
    which the caller sees the part before (C08_zero_byte_refuted). *)
Theorem C08_typed_read_partial : forall F of_int start l k,
  let x := run F of_int start (new_lexer F l) in
  (forall v rest, starts_with F of_int k (ahead F x) v rest -> no_zero F v ->
     exists r y, read F of_int k x = (Ok F r, y) /\ deref F y r = v /\ same_stream F (ahead F y) rest) /\
  ((forall v rest, ~ starts_with F of_int k (ahead F x) v rest) ->
     fst (read F of_int k x) = Failed F).
Proof.
  intros F of_int start l k x. split.
  - intros v rest. exact (read_value F of_int k x v rest (run_ok F of_int start _ (new_ok F l))).
  - intros N. destruct (read F of_int k x) as [[r|] y] eqn:E; [|reflexivity].
    destruct (read_inv F of_int k x r y E) as (v & rest & S). destruct (N _ _ S).
Qed.
Print Assumptions C08_typed_read_partial.

Theorem C08_zero_byte_refuted : forall F of_int,
  exists l v, starts_with F of_int KString l v [] /\
    exists r y, read F of_int KString (new_lexer F l) = (Ok F r, y) /\ deref F y r <> v.
Proof.
  intros F of_int. exists [TString F [65; 0; 66]], (VString F [65; 0; 66]). split.
  - exists [TString F [65; 0; 66]]. repeat split; [constructor|discriminate].
  - eexists. eexists. split; [reflexivity|]. discriminate.
Qed.
Print Assumptions C08_zero_byte_refuted.

(** C36.  What a read returns stays as it is whatever else is read, until the
    next request; so does the name of the request. *)
Theorem C36_values_stay : forall F of_int start l k r y ops, within_request ops ->
  read F of_int k (run F of_int start (new_lexer F l)) = (Ok F r, y) ->
  deref F (run F of_int ops y) r = deref F y r.
Proof.
  intros F of_int start l k r y ops N E.
  exact (lifetime F of_int k _ r y ops (run_ok F of_int start _ (new_ok F l)) E N).
Qed.
Print Assumptions C36_values_stay.
Theorem C36_name_stays : forall F of_int start l r y ops, within_request ops ->
  next_request F (run F of_int start (new_lexer F l)) = (Some (Ok F r), y) ->
  deref F (run F of_int ops y) r = deref F y r.
Proof. intros F of_int start l r y ops N E. exact (lifetime_name F of_int _ r y ops E N). Qed.
Print Assumptions C36_name_stays.

(** C37.  From the calls of the writer to the values its reader gets: requests
    written in binary, read by the tokeniser, and read from its tokens by the
    lexer, are the requests written, with the same arguments. *)
Theorem C37_written_requests_read : forall F ob32 ob64 oi add mul tt tenth tp fx asserts cs,
  Forall is_call cs ->
  exists b ts k', bin_calls asserts cs no_requests = Some b /\
    scans F ob32 ob64 oi add mul tt tenth tp fx no_codes b ts k' [] /\
    reads_back F ob32 oi cs (new_lexer F ts).
Proof.
  intros F ob32 ob64 oi add mul tt tenth tp fx asserts cs H.
  destruct (C04_binary_roundtrip F ob32 ob64 oi add mul tt tenth tp fx asserts cs H) as (b & B & (k' & S) & _).
  exists b, (flat_map (meaning F ob32) cs), k'. split; [exact B|]. split; [exact S|].
  apply calls_read; [exact H|apply new_ok|]. intros n. reflexivity.
Qed.
Print Assumptions C37_written_requests_read.

(** Non-vacuity.  A stream with an unknown request, a request that lacks an
    argument, one whose argument is of the wrong type, and one with too many. *)
Definition sample_tokens : list (token Z) :=
  [TInteger Z 3; TRequest Z (text "Sides"); TInteger Z 2; TRequest Z (text "Foo"); TString Z []; TRequest Z (text "Sides");
   TRequest Z (text "Sides"); TArrayBegin Z; TInteger Z 1; TArrayEnd Z; TRequest Z (text "Sides"); TInteger Z 1; TInteger Z 2].
Definition sample_handlers (n : list Z) : option (handler Z) :=
  if name_eqb n (text "Sides") then
    Some (fun past => match past with [] => Read KInt | _ => Done end)
  else None.
Example C07_case :
  (forall n h, sample_handlers n = Some h -> forall x, exists b y, handles Z (fun z => z) h [] x b y) /\
  requests Z sample_tokens = map text ["Sides"; "Foo"; "Sides"; "Sides"; "Sides"]%string.
Proof.
  split; [|reflexivity]. unfold sample_handlers. intros n h. destruct (name_eqb n (text "Sides")); [|discriminate].
  intros E x. injection E as <-. destruct (read Z (fun z => z) KInt x) as [[r|] y] eqn:R.
  - exists true, y. eapply h_read; [reflexivity|exact R|]. apply h_done. reflexivity.
  - exists false, y. eapply h_fail; [reflexivity|exact R].
Qed.

(** The kinds of arrays of floats. *)
Example C08_case : let oi := fun z : Z => z in let ts := [TInteger Z 1; TFloat Z 7] in
  starts_with Z oi (KFloats 2) (ts ++ [TEof Z]) (VFloats Z [1; 7]) [TEof Z] /\
  starts_with Z oi (KFloats 2) (bracket Z ts) (VFloats Z [1; 7]) [] /\
  starts_with Z oi KFloatParam (bracket Z ts) (VFloats Z [1; 7]) [] /\
  starts_with Z oi KFloatParam ts (VFloats Z [1]) [TFloat Z 7] /\
  fst (read Z oi (KFloats (-1)) (new_lexer Z ts)) = Failed Z /\
  fst (read Z oi (KFloats 3) (new_lexer Z (bracket Z ts))) = Failed Z.
Proof.
  cbv zeta.
  assert (N : Forall2 (number Z (fun z => z)) [TInteger Z 1; TFloat Z 7] [1; 7]) by (constructor; [constructor|constructor; [constructor|constructor]]).
  repeat split.
  - exists [TInteger Z 1; TFloat Z 7]. split; [reflexivity|]. split; [constructor; [exact N|reflexivity]|discriminate].
  - exists (bracket Z [TInteger Z 1; TFloat Z 7]). split; [reflexivity|]. split; [constructor; [exact N|right; reflexivity]|discriminate].
  - exists (bracket Z [TInteger Z 1; TFloat Z 7]). split; [reflexivity|]. split; [constructor; exact N|discriminate].
  - exists [TInteger Z 1]. split; [reflexivity|]. split; [constructor; constructor|discriminate].
Qed.

(** C37 has the sample of C04. *)
Example C37_case : Forall is_call sample.
Proof. exact sample_calls. Qed.

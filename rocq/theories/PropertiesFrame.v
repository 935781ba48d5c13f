(** C12: frame dropping. *)

From Coq Require Import List Bool ZArith Lia.
From Verif Require Import FrameModel FrameSpec FrameProofs.
Import ListNotations.
Open Scope Z_scope.

(** C12.  For every frame list in the documented form (numbers and ranges
    separated by commas) and every request sequence: the filter passes on all
    requests but those belonging to a frame that is not listed.  Missing: numbers
    that do not fit an int, and INT_MAX, see below. *)
Theorem C12_frames_kept_partial :
  forall R s l (qs : list (request R)),
    denotes s l -> (forall a b, In (a, b) l -> - 2 ^ 31 <= a /\ b < 2 ^ 31 - 1) ->
    exists frames, parse_frames s = Frames frames /\ (forall n, In n frames <-> listed l n) /\
      kept R (listed l) [] qs (frame_drop R frames qs).
Proof.
  intros R s l qs D B. destruct (parse_frames_ok s l D) as (r & P & H).
  - apply Forall_forall. intros [a b] I. exact (B a b I).
  - exists r. split; [exact P|]. split; [exact H|]. apply frame_drop_kept. exact H.
Qed.
Print Assumptions C12_frames_kept_partial.

(** On streams in which frames are blocks, whole blocks are removed. *)
Theorem C12_blocks_removed :
  forall R frames (ps : list (part R)),
    frame_drop R frames (flat_map (requests_of R) ps) = flat_map (requests_of R) (filter (part_wanted R (desired frames)) ps).
Proof. intros R frames ps. apply frame_drop_parts. Qed.
Print Assumptions C12_blocks_removed.

(** "1, 4-+2,,-3--5" *)
Definition some_list : list Z := [49; 44; 32; 52; 45; 43; 50; 44; 44; 45; 51; 45; 45; 53].
Lemma digit_text d : 0 <= d <= 9 -> signed [48 + d] d.
Proof. intros D. apply sig_plain, num_digit, D. Qed.
Example C12_example_list : denotes some_list [(1, 1); (2, 4); (-5, -3)].
Proof.
  change some_list with ([48 + 1] ++ COMMA :: (([32; 48 + 4] ++ MINUS :: [PLUS; 48 + 2]) ++ COMMA :: COMMA :: ([MINUS; 48 + 3] ++ MINUS :: [MINUS; 48 + 5]))).
  apply den_entry; [apply ent_one, digit_text; lia|]. apply den_entry.
  - apply (ent_range [32; 48 + 4] 4 [PLUS; 48 + 2] 2).
    + apply sig_space; [cbn; auto 10|apply digit_text; lia].
    + apply sig_plus, num_digit. lia.
  - apply den_comma, den_last. apply (ent_range [MINUS; 48 + 3] (-3) [MINUS; 48 + 5] (-5));
      [apply (sig_minus [48 + 3] 3)|apply (sig_minus [48 + 5] 5)]; apply num_digit; lia.
Qed.
Example C12_example_parse : parse_frames some_list = Frames [1; 2; 3; 4; -5; -4; -3].
Proof. reflexivity. Qed.
Example C12_example_stream :
  frame_drop Z [1; 3] [Other Z 0; FrameBegin Z 1; Other Z 1; FrameEnd Z; FrameBegin Z 2; Other Z 2; FrameEnd Z; Other Z 9; FrameBegin Z 3; FrameEnd Z]
  = [Other Z 0; FrameBegin Z 1; Other Z 1; FrameEnd Z; Other Z 9; FrameBegin Z 3; FrameEnd Z].
Proof. reflexivity. Qed.

(** Refuted in general: 4294967297 is taken for frame 1, a range ending at
    INT_MAX overflows, and "6-9-12" is taken for 6-9 and frame -12. *)
Theorem C12_large_number_refuted :
  number [52; 50; 57; 52; 57; 54; 55; 50; 57; 55] 4294967297 /\ parse_frames [52; 50; 57; 52; 57; 54; 55; 50; 57; 55] = Frames [1].
Proof.
  split; [|reflexivity].
  assert (M : forall s v d, number s v -> 0 <= d <= 9 -> number (s ++ [48 + d]) (10 * v + d)) by apply num_more.
  apply (M [52; 50; 57; 52; 57; 54; 55; 50; 57] 429496729 7); [|lia].
  apply (M [52; 50; 57; 52; 57; 54; 55; 50] 42949672 9); [|lia].
  apply (M [52; 50; 57; 52; 57; 54; 55] 4294967 2); [|lia].
  apply (M [52; 50; 57; 52; 57; 54] 429496 7); [|lia].
  apply (M [52; 50; 57; 52; 57] 42949 6); [|lia].
  apply (M [52; 50; 57; 52] 4294 9); [|lia].
  apply (M [52; 50; 57] 429 4); [|lia].
  apply (M [52; 50] 42 9); [|lia].
  apply (M [52] 4 2); [|lia]. apply (num_digit 4). lia.
Qed.
Print Assumptions C12_large_number_refuted.
Theorem C12_int_max_refuted : parse_frames [49; 45; 50; 49; 52; 55; 52; 56; 51; 54; 52; 55] = Overflow.
Proof. reflexivity. Qed.
Print Assumptions C12_int_max_refuted.
Theorem C12_three_numbers_refuted : parse_frames [54; 45; 57; 45; 49; 50] = Frames [6; 7; 8; 9; -12].
Proof. reflexivity. Qed.
Print Assumptions C12_three_numbers_refuted.

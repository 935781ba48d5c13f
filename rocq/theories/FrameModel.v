(** Model of the filter that drops frames.

    Modelled code: FrameDropFilter and parseFrames
    (/repo/libs/riutil/framedrop_filter.cpp:49-131) and OnOffFilter
    (/repo/include/aqsis/riutil/ricxx_filter.h:311-319, and the generated methods
    in /repo/libs/riutil/ricxx_filter.cpp).

    Simplifications:
    - Requests other than FrameBegin and FrameEnd are [Other r].
    - The "frames" parameter has been found in the parameter list already.
    - strtol is the C library's: white space, sign, decimal digits, clamped to
      the range of a 64 bit long; the conversion to int keeps the low 32 bits.
    - The string ends where the list ends. *)

From Coq Require Import List Bool ZArith.
Import ListNotations.
Open Scope Z_scope.

Section Filter.
  Variable R : Type.

  Inductive request := FrameBegin (number : Z) | FrameEnd | Other (r : R).

  (** m_desiredFrames (framedrop_filter.cpp:52), a set. *)
  Definition desired (frames : list Z) (n : Z) : bool := existsb (Z.eqb n) frames.

  (** A request, given and leaving m_isActive: the new m_isActive and what is
      passed on. *)
  Definition handle (frames : list Z) (active : bool) (q : request) : bool * list request :=
    match q with
    (** framedrop_filter.cpp:59-64 *)
    | FrameBegin n => let a := desired frames n in (a, if a then [q] else [])
    (** framedrop_filter.cpp:66-71 *)
    | FrameEnd => (true, if active then [q] else [])
    (** OnOffFilter *)
    | Other _ => (active, if active then [q] else [])
    end.
  Fixpoint filter_from (frames : list Z) (active : bool) (qs : list request) : list request :=
    match qs with
    | [] => []
    | q :: r => let (a, o) := handle frames active q in o ++ filter_from frames a r
    end.
  (** A new filter is active (ricxx_filter.h:314). *)
  Definition frame_drop (frames : list Z) (qs : list request) : list request := filter_from frames true qs.
End Filter.

(** * parseFrames (framedrop_filter.cpp:75-131) *)

Definition is_space (c : Z) : bool := ((9 <=? c) && (c <=? 13)) || (c =? 32).
Definition is_digit (c : Z) : bool := (48 <=? c) && (c <=? 57).
Definition COMMA := 44.
Definition MINUS := 45.
Definition PLUS := 43.

Fixpoint skip_spaces (s : list Z) : list Z :=
  match s with c :: r => if is_space c then skip_spaces r else s | [] => [] end.
(** The digits at the start of [s]: their value after [acc], and the rest. *)
Fixpoint digits (acc : Z) (s : list Z) : Z * list Z :=
  match s with
  | c :: r => if is_digit c then digits (acc * 10 + (c - 48)) r else (acc, s)
  | [] => (acc, [])
  end.
Definition clamp_long (z : Z) : Z := Z.max (- 2 ^ 63) (Z.min (2 ^ 63 - 1) z).
Definition to_int (z : Z) : Z := (z + 2 ^ 31) mod 2 ^ 32 - 2 ^ 31.

(** strtol(nptr, &nend, 10) as an int: the value and the string at nend, None if
    nend is nptr. *)
Definition strtol (s : list Z) : option (Z * list Z) :=
  let s1 := skip_spaces s in
  let '(neg, s2) := match s1 with
                    | c :: r => if c =? MINUS then (true, r) else if c =? PLUS then (false, r) else (false, s1)
                    | [] => (false, s1)
                    end in
  match s2 with
  | c :: _ =>
      if is_digit c then let (v, r) := digits 0 s2 in Some (to_int (clamp_long (if neg then - v else v)), r)
      else None
  | [] => None
  end.

Inductive parsed := Frames (l : list Z) | Error | Overflow.

(** for(int i = fmin; i <= fmax; i++): overflows if fmax is INT_MAX. *)
Definition range (a b : Z) : list Z := map (fun k => a + Z.of_nat k) (seq 0 (Z.to_nat (b - a + 1))).
Definition INT_MAX := 2 ^ 31 - 1.

Fixpoint parse_from (fuel : nat) (acc : list Z) (s : list Z) : parsed :=
  match fuel with
  | O => Error
  | S k =>
      match s with
      | [] => Frames acc
      | c :: r =>
          match strtol s with
          | Some (f1, e) =>
              match e with
              | d :: e1 =>
                  if d =? MINUS then
                    match strtol e1 with
                    | Some (f2, e2) =>
                        let fmin := Z.min f1 f2 in
                        let fmax := Z.max f1 f2 in
                        if fmax =? INT_MAX then Overflow else parse_from k (acc ++ range fmin fmax) e2
                    | None => Error
                    end
                  else parse_from k (acc ++ [f1]) e
              | [] => parse_from k (acc ++ [f1]) e
              end
          | None => if c =? COMMA then parse_from k acc r else Error
          end
      end
  end.
(** Every round takes at least one character. *)
Definition parse_frames (s : list Z) : parsed := parse_from (S (length s)) [] s.

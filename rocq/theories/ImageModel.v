(** Model of image buffers with channels of several types:
    libs/tex/buffers/mixedimagebuffer.cpp, libs/tex/buffers/imagechannel.cpp and
    include/aqsis/tex/buffers/imagechannel.h.

    Simplifications: the memory is a list of cells, and one cell stands for the bytes of
    one channel of one pixel (so the bytes of a pixel are the number of channels, and
    the byte offset of a channel is its index; the file that computes the byte offsets
    is not in the repository).  Numbers are exact rationals where the code has floats,
    and integers do not overflow.  [None] is an access outside the memory. *)

From Coq Require Import List Bool QArith Qround ZArith String.
From Verif Require Import NurbModel.
Import ListNotations.
Local Open Scope Z_scope.

(** include/aqsis/tex/buffers/channelinfo.h: the type of a channel, by the least and
    the greatest number it holds, or floating point. *)
Inductive kind := Int (lo hi : Z) | Flt.

(** mixedimagebuffer.h:265-269: the members of CqMixedImageBuffer. *)
Record buf := Buf { names : list (string * kind); bw : Z; bh : Z; data : list Q }.

Definition chans (b : buf) : Z := Z.of_nat (List.length (names b)).

(** imagechannel.h:304-320 convertToFloat. *)
Definition to_float (k : kind) (v : Q) : Q :=
  match k with
  | Int lo hi => ((v - inject_Z lo) / (inject_Z hi - inject_Z lo))%Q
  | Flt => v
  end.

(** include/aqsis/math/math.h:66-70 lround. *)
Definition lround (x : Q) : Z := Qfloor (x - (1 # 2)) + 1.

(** clamp to the range from 0 to 1. *)
Definition unit_clamp (x : Q) : Q := if Qle_bool x 0 then 0%Q else if Qle_bool 1 x then 1%Q else x.

(** imagechannel.h:322-341 convertFromFloat. *)
Definition from_float (k : kind) (f : Q) : Q :=
  match k with
  | Int lo hi => inject_Z (lround (unit_clamp f * (inject_Z hi - inject_Z lo) + inject_Z lo))
  | Flt => f
  end.

(** imagechannel.cpp:177-186: a channel of an image; the data are those of the image,
    from cell [start] on. *)
Record channel := Channel { ckind : kind; start : Z; cw : Z; ch : Z; stride : Z; skip : Z }.

(** imagechannel.h:266, 280 and 293: where a row begins. *)
Definition row_start (c : channel) (row : Z) : Z := start c + row * stride c * (cw c + skip c).

(** imagechannel.h:263-275 getRow. *)
Fixpoint get_row (d : list Q) (k : kind) (at_ st : Z) (n : nat) : option (list Q) :=
  match n with
  | O => Some []
  | S n => bind (get d at_) (fun v => option_map (cons (to_float k v)) (get_row d k (at_ + st) st n))
  end.

(** imagechannel.h:277-287 replaceRow. *)
Definition replace_row (c : channel) (row : Z) (r : list Q) (d : list Q) : option (list Q) :=
  loop (rounds 0 (cw c)) 0 (fun i d =>
    bind (get r i) (fun f => put d (row_start c row + i * stride c) (from_float (ckind c) f))) d.

(** imagechannel.h:289-302 compositeRow. *)
Definition composite_row (c : channel) (row : Z) (r a : list Q) (d : list Q) : option (list Q) :=
  loop (rounds 0 (cw c)) 0 (fun i d =>
    bind (get d (row_start c row + i * stride c)) (fun old =>
    bind (get r i) (fun f => bind (get a i) (fun al =>
    put d (row_start c row + i * stride c)
      (from_float (ckind c) (f + (1 - al) * to_float (ckind c) old)%Q))))) d.

(** What a channel is copied from: imagechannel.cpp:94-109 (a constant), 111-143 (a
    pattern of squares), the channel of another image, or 146-173 (another source made
    larger). *)
Inductive source :=
| Constant (f : Q)
| Checkered (tile : Z)
| Of (d : list Q) (c : channel)
| Zoom (factor : Z) (s : source).

(** imagechannel.cpp:148-153. *)
Definition zoom_factor (f : Z) : Z := if Z.ltb 0 f then f else 1.

(** imagechannel.cpp:100-104, 120-135, 155-160 and 188-197 requireSize: whether the size can
    be had. *)
Fixpoint has_size (s : source) (w h : Z) : bool :=
  match s with
  | Of _ c => Z.eqb (cw c) w && Z.eqb (ch c) h
  | Zoom f s => has_size s (Z.quot w (zoom_factor f)) (Z.quot h (zoom_factor f))
  | _ => true
  end.

(** imagechannel.cpp:126-133: the two rows of the pattern. *)
Definition checker_row (tile : Z) (which : bool) (w : Z) : list Q :=
  map (fun col => let t := Z.quot (Z.rem (Z.of_nat col) (tile * 2)) tile in
                  if which then (inject_Z (t + 1) * (1 # 2))%Q else (inject_Z (2 - t) * (1 # 2))%Q)
      (seq 0 (Z.to_nat w)).

(** imagechannel.cpp:165-172: the loops of CqImageChannelZoom::getRow.  The buffer is taken
    as new for each row; where it is not written it holds the zeros of its making. *)
Definition zoom_row (z w : Z) (r : list Q) : option (list Q) :=
  loop (rounds 0 (Z.quot w z)) 0 (fun i b =>
    bind (get r i) (fun v =>
    loop (rounds (i * z) ((i + 1) * z)) (i * z) (fun j b => put b j v) b)) (repeat 0%Q (Z.to_nat w)).

(** imagechannel.cpp:106-109, 137-143 and 162-173, imagechannel.h:263-275 getRow. *)
Fixpoint source_row (s : source) (w row : Z) : option (list Q) :=
  match s with
  | Constant f => Some (repeat f (Z.to_nat w))
  | Checkered tile => Some (checker_row tile (Z.eqb (Z.quot (Z.rem row (tile * 2)) tile) 0) w)
  | Of d c => get_row d (ckind c) (row_start c row) (stride c) (Z.to_nat (cw c))
  | Zoom f s =>
      bind (source_row s (Z.quot w (zoom_factor f)) (Z.quot row (zoom_factor f))) (fun r =>
      zoom_row (zoom_factor f) w r)
  end.

(** What a request answers: an exception, or the new data. *)
Inductive answer := Thrown (d : list Q) | Done (d : list Q).

(** imagechannel.cpp:199-210 copyFrom. *)
Definition copy_channel (c : channel) (s : source) (d : list Q) : option answer :=
  if has_size s (cw c) (ch c)
  then option_map Done
         (loop (rounds 0 (ch c)) 0 (fun row d =>
            bind (source_row s (cw c) row) (fun r => replace_row c row r d)) d)
  else Some (Thrown d).

(** imagechannel.cpp:212-220 compositeOver. *)
Definition composite_channel (c : channel) (s a : source) (d : list Q) : option answer :=
  if has_size s (cw c) (ch c) && has_size a (cw c) (ch c)
  then option_map Done
         (loop (rounds 0 (ch c)) 0 (fun row d =>
            bind (source_row s (cw c) row) (fun r => bind (source_row a (cw c) row) (fun al =>
            composite_row c row r al d))) d)
  else Some (Thrown d).

(** mixedimagebuffer.cpp:233-287 channelImpl; the assertions are not in a release. *)
Definition channel_of (b : buf) (index : nat) (x y w h : Z) : option channel :=
  let w := if Z.eqb w 0 then bw b else w in
  let h := if Z.eqb h 0 then bh b else h in
  option_map (fun '(_, k) =>
    Channel k ((y * bw b + x) * chans b + Z.of_nat index) w h (chans b) (bw b - w))
    (nth_error (names b) index).

(** mixedimagebuffer.cpp:106-112 getCopyRegionSize: where in the source, where in the
    destination, and how much. *)
Definition copy_region (offset sw dw : Z) : Z * Z * Z :=
  let dest := Z.max offset 0 in
  (Z.max (- offset) 0, dest, Z.min dw (offset + sw) - dest).

(** A list of steps; the first exception ends it. *)
Fixpoint steps {A} (f : A -> list Q -> option answer) (l : list A) (d : list Q) : option answer :=
  match l with
  | [] => Some (Done d)
  | a :: l => bind (f a d) (fun r => match r with Done d => steps f l d | Thrown d => Some (Thrown d) end)
  end.

(** mixedimagebuffer.cpp:76-90 clearBuffer and initToCheckerboard. *)
Definition fill_all (s : source) (b : buf) : option answer :=
  steps (fun i d => bind (channel_of b i 0 0 0 0) (fun c => copy_channel c s d))
    (seq 0 (List.length (names b))) (data b).

(** mixedimagebuffer.cpp:114-142 copyFrom.  Source and destination are different images. *)
Definition copy_all (dst src : buf) (x y : Z) : option answer :=
  if negb (Nat.eqb (List.length (names src)) (List.length (names dst))) then Some (Thrown (data dst))
  else
    let '(sx, dx, w) := copy_region x (bw src) (bw dst) in
    let '(sy, dy, h) := copy_region y (bh src) (bh dst) in
    if Z.leb w 0 || Z.leb h 0 then Some (Done (data dst))
    else
      steps (fun i d =>
        bind (channel_of dst i dx dy w h) (fun c => bind (channel_of src i sx sy w h) (fun s =>
        copy_channel c (Of (data src) s) d)))
        (seq 0 (List.length (names dst))) (data dst).

(** include/aqsis/tex/buffers/channellist.h: findChannelIndex, the index of a name. *)
Fixpoint index_of (l : list (string * kind)) (n : string) (i : nat) : option nat :=
  match l with
  | [] => None
  | (m, _) :: l => if String.eqb m n then Some i else index_of l n (i + 1)
  end.

(** mixedimagebuffer.cpp:144-170 copyFrom with names; the map is a list of pairs. *)
Definition copy_named (dst src : buf) (map_ : list (string * string)) (x y : Z) : option answer :=
  let '(sx, dx, w) := copy_region x (bw src) (bw dst) in
  let '(sy, dy, h) := copy_region y (bh src) (bh dst) in
  if Z.leb w 0 || Z.leb h 0 then Some (Done (data dst))
  else
    steps (fun '(to, from) d =>
      match index_of (names dst) to 0, index_of (names src) from 0 with
      | Some i, Some j =>
          bind (channel_of dst i dx dy w h) (fun c => bind (channel_of src j sx sy w h) (fun s =>
          copy_channel c (Of (data src) s) d))
      | _, _ => Some (Thrown d)
      end) map_ (data dst).

(** mixedimagebuffer.cpp:172-205 compositeOver. *)
Definition composite (dst src : buf) (map_ : list (string * string)) (x y : Z) (alpha : string) : option answer :=
  match index_of (names src) alpha 0 with
  | None => copy_named dst src map_ x y
  | Some al =>
      let '(sx, dx, w) := copy_region x (bw src) (bw dst) in
      let '(sy, dy, h) := copy_region y (bh src) (bh dst) in
      if Z.leb w 0 || Z.leb h 0 then Some (Done (data dst))
      else
        steps (fun '(to, from) d =>
          match index_of (names dst) to 0, index_of (names src) from 0 with
          | Some i, Some j =>
              bind (channel_of dst i dx dy w h) (fun c => bind (channel_of src j sx sy w h) (fun s =>
              bind (channel_of src al sx sy w h) (fun a =>
              composite_channel c (Of (data src) s) (Of (data src) a) d)))
          | _, _ => Some (Thrown d)
          end) map_ (data dst)
  end.

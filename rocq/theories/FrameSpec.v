(** What frame dropping means. *)

From Coq Require Import List Bool ZArith.
From Verif Require Import FrameModel.
Import ListNotations.
Open Scope Z_scope.

Section Spec.
  Variable R : Type.

  (** The frame that is open after the requests [before], last request first. *)
  Fixpoint open_frame (before : list (request R)) : option Z :=
    match before with
    | [] => None
    | FrameBegin _ n :: _ => Some n
    | FrameEnd _ :: _ => None
    | Other _ _ :: r => open_frame r
    end.
  (** The frame a request belongs to. *)
  Definition frame_of (before : list (request R)) (q : request R) : option Z :=
    match q with FrameBegin _ n => Some n | _ => open_frame before end.
  (** [kept wanted before qs out]: after [before], [out] is [qs] without the
      requests of frames that are not wanted. *)
  Inductive kept (wanted : Z -> Prop) : list (request R) -> list (request R) -> list (request R) -> Prop :=
  | kept_nil before : kept wanted before [] []
  | kept_take before q r out : (forall n, frame_of before q = Some n -> wanted n) ->
      kept wanted (q :: before) r out -> kept wanted before (q :: r) (q :: out)
  | kept_drop before q r out n : frame_of before q = Some n -> ~ wanted n ->
      kept wanted (q :: before) r out -> kept wanted before (q :: r) out.

  (** Streams in which frames are blocks. *)
  Inductive part := Outside (r : R) | Frame (n : Z) (body : list R).
  Definition requests_of (p : part) : list (request R) :=
    match p with
    | Outside r => [Other R r]
    | Frame n b => FrameBegin R n :: map (Other R) b ++ [FrameEnd R]
    end.
  Definition part_wanted (wanted : Z -> bool) (p : part) : bool :=
    match p with Outside _ => true | Frame n _ => wanted n end.
End Spec.

(** * Frame lists *)

(** A decimal number as text. *)
Inductive number : list Z -> Z -> Prop :=
| num_digit d : 0 <= d <= 9 -> number [48 + d] d
| num_more s v d : number s v -> 0 <= d <= 9 -> number (s ++ [48 + d]) (10 * v + d).
Inductive signed : list Z -> Z -> Prop :=
| sig_plain s v : number s v -> signed s v
| sig_plus s v : number s v -> signed (PLUS :: s) v
| sig_minus s v : number s v -> signed (MINUS :: s) (- v)
| sig_space c s v : In c [9; 10; 11; 12; 13; 32] -> signed s v -> signed (c :: s) v.

(** An entry: a frame, or a range in either order. *)
Inductive entry : list Z -> Z -> Z -> Prop :=
| ent_one s v : signed s v -> entry s v v
| ent_range s a t b : signed s a -> signed t b -> entry (s ++ MINUS :: t) (Z.min a b) (Z.max a b).

(** [denotes s l]: the text [s] lists the ranges [l], separated by commas. *)
Inductive denotes : list Z -> list (Z * Z) -> Prop :=
| den_nil : denotes [] []
| den_comma s l : denotes s l -> denotes (COMMA :: s) l
| den_last s a b : entry s a b -> denotes s [(a, b)]
| den_entry s a b t l : entry s a b -> denotes t l -> denotes (s ++ COMMA :: t) ((a, b) :: l).

Definition listed (l : list (Z * Z)) (n : Z) : Prop := exists a b, In (a, b) l /\ a <= n <= b.

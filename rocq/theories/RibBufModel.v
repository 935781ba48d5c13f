(** Model of the RIB input buffer.

    Modelled code: RibInputBuffer (/repo/libs/riutil/ribinputbuffer.h:72-180,
    /repo/libs/riutil/ribinputbuffer.cpp:47-128).

    Simplifications:
    - The stream is the list of bytes it has still to deliver; how many bytes
      readsome() hands out at each call is a list of numbers chosen by the
      environment.  A stream that has come to its end stays there.
    - Reading the gzip magic number (ribinputbuffer.cpp:131-144) and putting it
      back leaves the stream as it was; the stream here is the decompressed
      one. *)

From Coq Require Import List Bool Arith ZArith.
Import ListNotations.

(** RibInputBuffer::eof (ribinputbuffer.h:79); CR and LF. *)
Definition eof : Z := 255%Z.
Definition CR : Z := 13%Z.
Definition LF : Z := 10%Z.

(** m_bufSize (ribinputbuffer.h:107). *)
Definition bufSize : nat := 256.

(** SourcePos (ribinputbuffer.h:50-55). *)
Definition pos : Type := Z * Z.

(** The members (ribinputbuffer.h:98-121) and the stream with the sizes of the
    chunks it is going to hand out. *)
Record buf := mkBuf {
  b_rest : list Z;      (* not yet read from the stream *)
  b_chunks : list nat;  (* what readsome() will have available *)
  b_data : list Z;      (* m_buffer *)
  b_pos : nat;          (* m_bufPos *)
  b_end : nat;          (* m_bufEnd *)
  b_curr : pos;         (* m_currPos *)
  b_prev : pos }.       (* m_prevPos *)

(** The constructor (ribinputbuffer.cpp:47-73).  Only the first two cells of
    the array are initialised; [junk] is what the others hold. *)
Definition open_buf (junk : list Z) (stream : list Z) (chunks : list nat) : buf :=
  mkBuf stream chunks (0%Z :: 0%Z :: junk) 1 2 (1%Z, 0%Z) (-1, -1)%Z.

(** Storing bytes at an index; [None] if they do not fit in the array. *)
Definition put (data : list Z) (at_ : nat) (bs : list Z) : option (list Z) :=
  if at_ + length bs <=? length data
  then Some (firstn at_ data ++ bs ++ skipn (at_ + length bs) data)
  else None.

(** bufferNextChars (ribinputbuffer.cpp:88-128), [None] for a failed assertion
    or an access outside the array. *)
Definition buffer_next_chars (b : buf) : option buf :=
  if negb (b_pos b =? b_end b) then None
  else
    match
      (if b_end b =? bufSize
       then match nth_error (b_data b) (bufSize - 2), nth_error (b_data b) (bufSize - 1) with
            | Some x, Some y =>
                match put (b_data b) 0 [x; y] with Some d => Some (d, 1) | None => None end
            | _, _ => None
            end
       else Some (b_data b, b_pos b))
    with
    | None => None
    | Some (d, p) =>
        let want := Nat.min (hd 0 (b_chunks b)) (bufSize - p) in
        let got := firstn want (b_rest b) in
        match got with
        | _ :: _ =>
            match put d p got with
            | Some d' => Some (mkBuf (skipn want (b_rest b)) (tl (b_chunks b)) d' p (p + length got)
                                 (b_curr b) (b_prev b))
            | None => None
            end
        | [] =>
            match put d p [hd eof (b_rest b)] with
            | Some d' => Some (mkBuf (tl (b_rest b)) (tl (b_chunks b)) d' p (p + 1) (b_curr b) (b_prev b))
            | None => None
            end
        end
    end.

(** get (ribinputbuffer.h:130-149); looking back from index 0 would be outside
    the array. *)
Definition get (b : buf) : option (Z * buf) :=
  let b1 := mkBuf (b_rest b) (b_chunks b) (b_data b) (S (b_pos b)) (b_end b) (b_curr b) (b_prev b) in
  match (if b_end b1 <=? b_pos b1 then buffer_next_chars b1 else Some b1) with
  | None => None
  | Some b2 =>
      match nth_error (b_data b2) (b_pos b2),
            (match b_pos b2 with O => None | S q => nth_error (b_data b2) q end) with
      | Some c, Some before =>
          let (line, col) := b_curr b2 in
          let now := if ((c =? CR) || ((c =? LF) && negb (before =? CR)))%Z
                     then (line + 1, 0)%Z
                     else if (c =? LF)%Z then (line, 0%Z) else (line, (col + 1)%Z) in
          Some (c, mkBuf (b_rest b2) (b_chunks b2) (b_data b2) (b_pos b2) (b_end b2) now (b_curr b2))
      | _, _ => None
      end
  end.

(** unget (ribinputbuffer.h:151-158), [None] for a failed assertion. *)
Definition unget (b : buf) : option buf :=
  match b_pos b with
  | O => None
  | S p => Some (mkBuf (b_rest b) (b_chunks b) (b_data b) p (b_end b) (b_prev b) (b_prev b))
  end.

(** What a client does, and what it sees: the bytes it gets, and pos()
    (ribinputbuffer.h:160-163) after each call. *)
Inductive bop := Get | Unget.

Fixpoint run (ops : list bop) (b : buf) : option (list (option Z * pos)) :=
  match ops with
  | [] => Some []
  | Get :: r =>
      match get b with
      | Some (c, b') => option_map (cons (Some c, b_curr b')) (run r b')
      | None => None
      end
  | Unget :: r =>
      match unget b with
      | Some b' => option_map (cons (None, b_curr b')) (run r b')
      | None => None
      end
  end.

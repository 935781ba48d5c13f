(** Model of CqBitVector (include/aqsis/util/bitvector.h, libs/util/bitvector.cpp). *)
From Coq Require Export List Arith NArith Lia Bool.
Export ListNotations.

(** bitvector.h:260-262.  [m_aBits] is an array of [m_cNumInts] bytes, so [m_cNumInts] is [length bytes].
    Bytes are [N]; the model keeps them below 256 (see [wf_bytes] in the proofs). *)
Record bv := mkbv { bytes : list N; len : nat }.

(** Fresh memory from [new bit[n]] is uninitialised: its contents are an arbitrary function of the byte index. *)
Definition junk := nat -> N.
Definition fresh (j : junk) (n : nat) : list N := map (fun i => N.modulo (j i) 256) (seq 0 n).

(** bitvector.h:254-257 NumberOfInts, CHAR_BIT = 8 *)
Definition number_of_ints (size : nat) : nat := (size + 8 - 1) / 8.

(** bitvector.h:84-94 SetSize: reallocates (losing the contents) only when the byte count changes *)
Definition set_size (j : junk) (size : nat) (v : bv) : bv :=
  let n := number_of_ints size in
  if Nat.eqb (length (bytes v)) n then mkbv (bytes v) size
  else mkbv (fresh j n) size.

(** bitvector.h:56-60 default constructor *)
Definition construct (j : junk) (size : nat) : bv :=
  if Nat.ltb 0 size then set_size j size (mkbv [] 0) else mkbv [] 0.

(** Array cell update, used for [m_aBits[i] = ...]; the callers below check the bound. *)
Fixpoint upd (l : list N) (i : nat) (x : N) : list N :=
  match l, i with
  | [], _ => []
  | _ :: t, O => x :: t
  | h :: t, S k => h :: upd t k x
  end.

(** bitvector.h:100-102: (bit)~0 >> (CHAR_BIT - (len % 8 ? len % 8 : 8)) *)
Definition canon_mask (length_ : nat) : N :=
  let r := length_ mod 8 in
  N.shiftr 255 (N.of_nat (8 - (if Nat.eqb r 0 then 8 else r))).

(** bitvector.h:98-103 Canonize.  With no bytes it writes [m_aBits[-1]]: undefined behaviour, [None]. *)
Definition canonize (v : bv) : option bv :=
  match length (bytes v) with
  | O => None
  | S k => match nth_error (bytes v) k with
           | Some b => Some (mkbv (upd (bytes v) k (N.land b (canon_mask (len v)))) (len v))
           | None => None
           end
  end.

(** bitvector.h:108-115 SetValue; [None] when the assertion fails or the byte is out of bounds *)
Definition set_value (elem : nat) (value : bool) (v : bv) : option bv :=
  if Nat.ltb elem (len v) then
    match nth_error (bytes v) (elem / 8) with
    | Some b =>
        let m := N.shiftl 1 (N.of_nat (elem mod 8)) in
        Some (mkbv (upd (bytes v) (elem / 8) (if value then N.lor b m else N.ldiff b m)) (len v))
    | None => None
    end
  else None.

(** bitvector.h:119-123 Value *)
Definition value (elem : nat) (v : bv) : option bool :=
  if Nat.ltb elem (len v) then
    match nth_error (bytes v) (elem / 8) with
    | Some b => Some (negb (N.eqb (N.land b (N.shiftl 1 (N.of_nat (elem mod 8)))) 0))
    | None => None
    end
  else None.

(** bitvector.h:127-131 Toggle *)
Definition toggle (elem : nat) (v : bv) : option bv :=
  if Nat.ltb elem (len v) then
    match nth_error (bytes v) (elem / 8) with
    | Some b => Some (mkbv (upd (bytes v) (elem / 8)
                              (N.lxor b (N.shiftl 1 (N.of_nat (elem mod 8))))) (len v))
    | None => None
    end
  else None.

(** bitvector.h:135-143 SetAll *)
Definition set_all (x : bool) (v : bv) : option bv :=
  canonize (mkbv (map (fun _ => if x then 255%N else 0%N) (bytes v)) (len v)).

(** bitvector.h:146-153 Complement; [~b] truncated to a byte is [b xor 255] *)
Definition complement (v : bv) : option bv :=
  canonize (mkbv (map (fun b => N.lxor b 255) (bytes v)) (len v)).

(** Loops [for i < numints: m_aBits[i] = op m_aBits[i] from.m_aBits[i]]; reading past either array is [None]. *)
Fixpoint zip_first (op : N -> N -> N) (k : nat) (a b : list N) : option (list N) :=
  match k with
  | O => Some a
  | S k' => match a, b with
            | x :: a', y :: b' =>
                match zip_first op k' a' b' with
                | Some r => Some (op x y :: r)
                | None => None
                end
            | _, _ => None
            end
  end.

(** bitvector.cpp:39-52 Intersect *)
Definition intersect (j : junk) (v from : bv) : option bv :=
  let size := if Nat.ltb (len from) (len v) then len from else len v in
  let v1 := set_size j size v in
  match zip_first N.land (number_of_ints size) (bytes v1) (bytes from) with
  | Some bs => canonize (mkbv bs (len v1))
  | None => None
  end.

(** bitvector.cpp:61-75 Union *)
Definition union (j : junk) (v from : bv) : option bv :=
  let size := if Nat.ltb (len v) (len from) then len from else len v in
  let ssize := if Nat.ltb (len from) (len v) then len from else len v in
  let v1 := set_size j size v in
  match zip_first N.lor (number_of_ints ssize) (bytes v1) (bytes from) with
  | Some bs => canonize (mkbv bs (len v1))
  | None => None
  end.

(** bitvector.cpp:84-98 Difference (the code computes exclusive or) *)
Definition difference (j : junk) (v from : bv) : option bv :=
  let size := if Nat.ltb (len v) (len from) then len from else len v in
  let ssize := if Nat.ltb (len from) (len v) then len from else len v in
  let v1 := set_size j size v in
  match zip_first N.lxor (number_of_ints ssize) (bytes v1) (bytes from) with
  | Some bs => canonize (mkbv bs (len v1))
  | None => None
  end.

(** bitvector.h:166-174 operator= *)
Definition assign (j : junk) (v from : bv) : option bv :=
  let v1 := set_size j (len from) v in
  match zip_first (fun _ y => y) (length (bytes v1)) (bytes v1) (bytes from) with
  | Some bs => Some (mkbv bs (len v1))
  | None => None
  end.

(** bitvector.cpp:110-126 the table of bit counts *)
Definition bitcount : list nat :=
  [ 0; 1; 1; 2; 1; 2; 2; 3; 1;
    2; 2; 3; 2; 3; 3; 4; 1; 2; 2; 3; 2; 3; 3; 4; 2; 3; 3; 4; 3;
    4; 4; 5; 1; 2; 2; 3; 2; 3; 3; 4; 2; 3; 3; 4; 3; 4; 4; 5; 2;
    3; 3; 4; 3; 4; 4; 5; 3; 4; 4; 5; 4; 5; 5; 6; 1; 2; 2; 3; 2;
    3; 3; 4; 2; 3; 3; 4; 3; 4; 4; 5; 2; 3; 3; 4; 3; 4; 4; 5; 3;
    4; 4; 5; 4; 5; 5; 6; 2; 3; 3; 4; 3; 4; 4; 5; 3; 4; 4; 5; 4;
    5; 5; 6; 3; 4; 4; 5; 4; 5; 5; 6; 4; 5; 5; 6; 5; 6; 6; 7; 1;
    2; 2; 3; 2; 3; 3; 4; 2; 3; 3; 4; 3; 4; 4; 5; 2; 3; 3; 4; 3;
    4; 4; 5; 3; 4; 4; 5; 4; 5; 5; 6; 2; 3; 3; 4; 3; 4; 4; 5; 3;
    4; 4; 5; 4; 5; 5; 6; 3; 4; 4; 5; 4; 5; 5; 6; 4; 5; 5; 6; 5;
    6; 6; 7; 2; 3; 3; 4; 3; 4; 4; 5; 3; 4; 4; 5; 4; 5; 5; 6; 3;
    4; 4; 5; 4; 5; 5; 6; 4; 5; 5; 6; 5; 6; 6; 7; 3; 4; 4; 5; 4;
    5; 5; 6; 4; 5; 5; 6; 5; 6; 6; 7; 4; 5; 5; 6; 5; 6; 6; 7; 5;
    6; 6; 7; 6; 7; 7; 8 ].

(** bitvector.cpp:105-131 Count; a table index past 255 would be [None] (cannot happen for bytes) *)
Fixpoint count_bytes (l : list N) : option nat :=
  match l with
  | [] => Some 0
  | b :: t => match nth_error bitcount (N.to_nat b), count_bytes t with
              | Some c, Some r => Some (c + r)
              | _, _ => None
              end
  end.
Definition count (v : bv) : option nat := count_bytes (bytes v).

(** Programs over a file of vectors, all constructed with the same size: the shape in which the shader VM uses them
    (shaderexecenv.h:119-169 and shadervm1.cpp:440-512). *)
Inductive bop :=
| BSetAll (r : nat) (x : bool)
| BSetValue (r i : nat) (x : bool)
| BToggle (r i : nat)
| BComplement (r : nat)
| BIntersect (r s : nat)
| BUnion (r s : nat)
| BDifference (r s : nat)
| BAssign (r s : nat).

Fixpoint updg {A} (l : list A) (i : nat) (x : A) : list A :=
  match l, i with
  | [], _ => []
  | _ :: t, O => x :: t
  | h :: t, S k => h :: updg t k x
  end.

Definition bstep (j : junk) (rf : list bv) (o : bop) : option (list bv) :=
  let un r f := match nth_error rf r with
                | Some v => match f v with Some v' => Some (updg rf r v') | None => None end
                | None => None end in
  let bin r s f := match nth_error rf r, nth_error rf s with
                   | Some v, Some w => match f v w with Some v' => Some (updg rf r v') | None => None end
                   | _, _ => None end in
  match o with
  | BSetAll r x => un r (set_all x)
  | BSetValue r i x => un r (set_value i x)
  | BToggle r i => un r (toggle i)
  | BComplement r => un r complement
  | BIntersect r s => bin r s (intersect j)
  | BUnion r s => bin r s (union j)
  | BDifference r s => bin r s (difference j)
  | BAssign r s => bin r s (assign j)
  end.

Fixpoint brun (j : junk) (rf : list bv) (p : list bop) : option (list bv) :=
  match p with
  | [] => Some rf
  | o :: p' => match bstep j rf o with Some rf' => brun j rf' p' | None => None end
  end.

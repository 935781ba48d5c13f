(** Model of the trim curves: libs/core/geometry/trimcurve.{h,cpp} (CqTrimCurve and the
    preparation of CqTrimLoop) and the request RiTrimCurve of libs/core/api/ri.cpp.

    Numbers are exact rationals, where the code has floats (and doubles for the
    factor of the basis functions).  [None] is an access outside a vector, a division
    by zero or a loop that does not end. *)

From Coq Require Import List Arith Bool QArith ZArith.
From Verif Require Import TrimModel.
Import ListNotations.
Local Open Scope nat_scope.

Definition bind {A B} (a : option A) (f : A -> option B) : option B :=
  match a with Some a => f a | None => None end.

(** libs/core CqVector3D, as far as it is used here. *)
Record vec := Vec { vx : Q; vy : Q; vz : Q }.

(** trimcurve.h:112-115: the members m_Order, m_aKnots and m_aVerts; m_cVerts is the
    length of m_aVerts (trimcurve.h:94-101 Init). *)
Record curve := Curve { order : nat; knots : list Q; verts : list vec }.

Definition cverts (c : curve) : nat := List.length (verts c).

(** A division of the code. *)
Definition over (a b : Q) : option Q := if Qeq_bool b 0 then None else Some (a / b)%Q.

(** trimcurve.cpp:30-41: the loop of FindSpan. *)
Fixpoint search (U : list Q) (u : Q) (low high fuel : nat) : option nat :=
  match fuel with
  | O => None
  | Datatypes.S fuel =>
      let mid := (low + high) / 2 in
      bind (nth_error U mid) (fun a =>
      if less u a then search U u low mid fuel
      else
        bind (nth_error U (mid + 1)) (fun b =>
        if Qle_bool b u then search U u mid high fuel else Some mid))
  end.

(** trimcurve.cpp:23-43 FindSpan.  The numbers are unsigned: an order or a number of
    points of zero leads to an access far outside the vectors. *)
Definition find_span (c : curve) (u : Q) : option nat :=
  match order c, cverts c with
  | Datatypes.S degree, Datatypes.S last =>
      bind (nth_error (knots c) (cverts c)) (fun b =>
      if Qle_bool b u then Some last
      else
        bind (nth_error (knots c) degree) (fun a =>
        if Qle_bool u a then Some degree
        else search (knots c) u 0 (cverts c + 1) (cverts c + 2)))
  | _, _ => None
  end.

(** A vector as a function of the index. *)
Definition upd (B : nat -> Q) (i : nat) (x : Q) : nat -> Q := fun j => if Nat.eqb j i then x else B j.

(** trimcurve.cpp:60-69: the loop over s, which runs down from [m - 1] to 0.  The
    indices of the basis values are below r. *)
Fixpoint inner (U : list Q) (u : Q) (r : nat) (i : Z) (m : nat) (B : nat -> Q) : option (nat -> Q) :=
  match m with
  | O => Some B
  | Datatypes.S s =>
      let i := (i + 1)%Z in
      bind (if Z.ltb i 0 then Some 0%Q
            else
              bind (nth_error U (Z.to_nat i)) (fun a =>
              bind (nth_error U (Z.to_nat (i + Z.of_nat r - 1))) (fun b =>
              over (u - a) (b - a)))) (fun omega =>
      let B1 := upd B (s + 1) (B (s + 1)%nat + (1 - omega) * B s)%Q in
      inner U u r i s (upd B1 s (omega * B1 s)%Q))
  end.

(** trimcurve.cpp:56-70: the loop over r, [m] times. *)
Fixpoint outer (U : list Q) (u : Q) (span : nat) (r m : nat) (B : nat -> Q) : option (nat -> Q) :=
  match m with
  | O => Some B
  | Datatypes.S m =>
      bind (inner U u r (Z.of_nat span - Z.of_nat r + 1) (r - 1) (upd B (r - 1) 0%Q)) (fun B =>
      outer U u span (r + 1) m B)
  end.

(** trimcurve.cpp:50-71 BasisFunctions. *)
Definition basis (c : curve) (u : Q) (span : nat) : option (nat -> Q) :=
  outer (knots c) u span 2 (order c - 1) (upd (fun _ => 0%Q) 0 1%Q).

(** trimcurve.cpp:92-103: the loop over the points. *)
Fixpoint weigh (c : curve) (B : nat -> Q) (first j m : nat) (r : vec) : option vec :=
  match m with
  | O => Some r
  | Datatypes.S m =>
      let tmp := B (order c - 1 - j) in
      bind (nth_error (verts c) (j + first)) (fun cp =>
      weigh c B first (j + 1) m
        (Vec (vx r + vx cp * tmp) (vy r + vy cp * tmp) (vz r + vz cp * tmp))%Q)
  end.

(** trimcurve.cpp:78-106 Evaluate.  The first index is unsigned. *)
Definition evaluate (c : curve) (u : Q) : option point :=
  bind (find_span c u) (fun span =>
  if Nat.ltb (span + 1) (order c) then None
  else
    bind (basis c u span) (fun B =>
    bind (weigh c B (span + 1 - order c) 0 (order c) (Vec 0 0 0)) (fun r =>
    bind (over (vx r) (vz r)) (fun x =>
    bind (over (vy r) (vz r)) (fun y => Some (Pt x y)))))).

(** Vectors with signed indices. *)
Definition get {A} (l : list A) (i : Z) : option A :=
  if Z.ltb i 0 then None else nth_error l (Z.to_nat i).

Definition put {A} (l : list A) (i : Z) (x : A) : option (list A) :=
  if Z.ltb i 0 then None
  else if Nat.ltb (Z.to_nat i) (List.length l)
       then Some (firstn (Z.to_nat i) l ++ x :: skipn (Z.to_nat i + 1) l) else None.

Definition resize {A} (d : A) (l : list A) (n : nat) : list A :=
  firstn n l ++ repeat d (n - List.length l).

(** [for (i = from; …; i++)], [n] times. *)
Fixpoint loop {A} (n : nat) (i : Z) (f : Z -> A -> option A) (a : A) : option A :=
  match n with
  | O => Some a
  | Datatypes.S n => bind (f i a) (loop n (i + 1) f)
  end.

(** The number of rounds of [for (i = a; i < b; i++)]. *)
Definition rounds (a b : Z) : nat := Z.to_nat (b - a).

(** trimcurve.cpp:261-269: the last knot that is not above [u]. *)
Fixpoint last_below (U : list Q) (u : Q) (i : nat) : Z :=
  match U with
  | [] => Z.of_nat i - 1
  | a :: r => if less u a then Z.of_nat i - 1 else last_below r u (i + 1)
  end.

(** trimcurve.cpp:274-280: the loop that counts equal knots downwards from [i]. *)
Fixpoint count_equal (U : list Q) (i : nat) (s : Z) : option Z :=
  match i with
  | O => Some s
  | Datatypes.S i' =>
      bind (nth_error U i) (fun a => bind (nth_error U i') (fun b =>
      if Qle_bool a b then count_equal U i' (s + 1) else Some s))
  end.

Definition mix (alpha : Q) (a b : vec) : vec :=
  Vec (alpha * vx a + (1 - alpha) * vx b) (alpha * vy a + (1 - alpha) * vy b)
      (alpha * vz a + (1 - alpha) * vz b).

(** trimcurve.cpp:319-326: the inner loop of the insertion. *)
Definition refine_row (U : list Q) (u : Q) (k ll n : Z) (R : list vec) : option (list vec) :=
  loop (rounds 0 (n + 1)) 0 (fun i R =>
    bind (get U (ll + i)) (fun a => bind (get U (k + i + 1)) (fun b =>
    bind (over (u - a) (b - a)) (fun alpha =>
    bind (get R (i + 1)) (fun r1 => bind (get R i) (fun r0 =>
    put R i (mix alpha r1 r0))))))) R.

(** trimcurve.cpp:250-344 InsertKnot; the second result is the number of new knots. *)
Definition insert_knot (c : curve) (u : Q) (r : Z) : option (curve * Z) :=
  let U := knots c in
  let p := (Z.of_nat (order c) - 1)%Z in
  bind (get U p) (fun lo => bind (get U (Z.of_nat (cverts c))) (fun hi =>
  if less u lo || less hi u then Some (c, 0%Z)
  else
    let k := last_below U u 0 in
    bind (get U k) (fun uk =>
    bind (if Qle_bool u uk then count_equal U (Z.to_nat k) 1 else Some 0%Z) (fun s =>
    let r := if Z.ltb (p + 1) (r + s) then (p + 1 - s)%Z else r in
    if Z.leb r 0 then Some (c, 0%Z)
    else
      let K0 := resize 0%Q U (cverts c + Z.to_nat r + order c) in
      let V0 := resize (Vec 0 0 0) (verts c) (cverts c + Z.to_nat r) in
      bind (loop (rounds 0 (k + 1)) 0 (fun i K => bind (get U i) (put K i)) K0) (fun K =>
      bind (loop (rounds 1 (r + 1)) 1 (fun i K => put K (k + i) u) K) (fun K =>
      bind (loop (rounds (k + 1) (Z.of_nat (List.length U))) (k + 1)
              (fun i K => bind (get U i) (put K (i + r))) K) (fun K =>
      bind (loop (rounds 0 (k - p + 1)) 0 (fun i V => bind (get (verts c) i) (put V i)) V0) (fun V =>
      bind (loop (rounds (k - s) (Z.of_nat (cverts c))) (k - s)
              (fun i V => bind (get (verts c) i) (put V (i + r))) V) (fun V =>
      bind (loop (rounds 0 (p - s + 1)) 0
              (fun i R => bind (get (verts c) (k - p + i)) (put R i))
              (repeat (Vec 0 0 0) (order c))) (fun R =>
      bind (loop (rounds 1 (r + 1)) 1
              (fun j '(V, R) =>
                 bind (refine_row U u k (k - p + j) (p - j - s) R) (fun R =>
                 bind (bind (get R 0) (put V (k - p + j))) (fun V =>
                 if Z.ltb 0 (p - j - s)
                 then bind (bind (get R (p - j - s)) (put V (k + r - j - s))) (fun V => Some (V, R))
                 else Some (V, R))))
              (V, R)) (fun '(V, R) =>
      let ll := (k - p + r)%Z in
      bind (loop (rounds (ll + 1) (k - s)) (ll + 1) (fun i V => bind (get R (i - ll)) (put V i)) V) (fun V =>
      Some (Curve (order c) K V, r))))))))))))).

(** trimcurve.cpp:352-372 Clamp. *)
Definition clamp (c : curve) : option curve :=
  let p := (order c - 1)%nat in
  bind (nth_error (knots c) p) (fun u1 => bind (insert_knot c u1 (Z.of_nat p)) (fun '(c1, n1) =>
  bind (nth_error (knots c1) (cverts c1)) (fun u2 => bind (insert_knot c1 u2 (Z.of_nat p)) (fun '(c2, n2) =>
  let n1 := Z.to_nat n1 in let n2 := Z.to_nat n2 in
  if Nat.eqb n1 0 && Nat.eqb n2 0 then Some c2
  else
    Some (Curve (order c2)
           (skipn n1 (firstn (List.length (knots c2) - n2) (knots c2)))
           (skipn n1 (firstn (cverts c2 - n2) (verts c2)))))))).

(** trimcurve.cpp:126-132: the points of one curve. *)
Fixpoint sampled (c : curve) (u du : Q) (n : nat) : option (list point) :=
  match n with
  | O => Some []
  | Datatypes.S n =>
      bind (evaluate c u) (fun v => option_map (cons v) (sampled c (u + du)%Q du n))
  end.

(** trimcurve.cpp:110-134 CqTrimLoop::Prepare.  [pieces] is what TrimDecimation of the
    surface (nurbs.cpp:1749-1788) answers for the curve as it was given; it depends on
    the shape of the surface on the screen. *)
Fixpoint prepare (pieces : curve -> nat) (cs : list curve) : option (list point) :=
  match cs with
  | [] => Some []
  | c :: cs =>
      let n := pieces c in
      bind (clamp c) (fun c' =>
      bind (nth_error (knots c') (cverts c' + order c' - 1)) (fun top =>
      bind (nth_error (knots c') 0) (fun bottom =>
      bind (match n with O => Some [] | _ => sampled c' bottom ((top - bottom) / inject_Z (Z.of_nat n))%Q n end)
           (fun l => option_map (app l) (prepare pieces cs)))))
  end.

(** ri.cpp:2812-2814: [n] knots from place [i] on; ri.cpp:2818-2823: [n] points. *)
Fixpoint read_knots (knot : list Q) (i n : nat) : option (list Q) :=
  match n with
  | O => Some []
  | Datatypes.S n => bind (nth_error knot i) (fun x => option_map (cons x) (read_knots knot (i + 1) n))
  end.

Fixpoint read_points (u v w : list Q) (i n : nat) : option (list vec) :=
  match n with
  | O => Some []
  | Datatypes.S n =>
      bind (nth_error u i) (fun x => bind (nth_error v i) (fun y => bind (nth_error w i) (fun z =>
      option_map (cons (Vec x y z)) (read_points u v w (i + 1) n))))
  end.

(** ri.cpp:2802-2826: the curves of one loop.  The places are those in the arrays of
    the orders and of the numbers of points (always the same), of the knots and of the
    points. *)
Fixpoint read_loop (ord num : list nat) (knot u v w : list Q) (m : nat) (at_ : nat * nat * nat)
  : option (list curve * (nat * nat * nat)) :=
  match m with
  | O => Some ([], at_)
  | Datatypes.S m =>
      let '(icurve, iknot, ivert) := at_ in
      bind (nth_error ord icurve) (fun o => bind (nth_error num icurve) (fun n =>
      bind (read_knots knot iknot (o + n)) (fun K =>
      bind (read_points u v w ivert n) (fun V =>
      bind (read_loop ord num knot u v w m (icurve + 1, iknot + o + n, ivert + n)) (fun '(l, at_) =>
      Some (Curve o K V :: l, at_))))))
  end.

Fixpoint read_loops (ord num : list nat) (knot u v w : list Q) (ncurves : list nat) (at_ : nat * nat * nat)
  : option (list (list curve)) :=
  match ncurves with
  | [] => Some []
  | m :: ncurves =>
      bind (read_loop ord num knot u v w m at_) (fun '(l, at_) =>
      option_map (cons l) (read_loops ord num knot u v w ncurves at_))
  end.

(** ri.cpp:2787-2831 TrimCurve: the loops that become the attribute. *)
Definition trim_curve (ncurves ord : list nat) (knot min max : list Q) (num : list nat) (u v w : list Q)
  : option (list (list curve)) :=
  read_loops ord num knot u v w ncurves (0, 0, 0).

(** Model of the splitting and dicing of patches and of their primitive variables (libs/core/geometry/patch.cpp,
    libs/core/geometry/surface.cpp, libs/core/parameters.h, libs/core/bilinear.h, libs/core/forwarddiff.h).
    Exact arithmetic: the rounding of floats is not modelled.  A variable with vector values (point, vector, normal,
    hpoint, colour) is modelled by one variable for each component, which all operations below treat alike.  A read or a
    write outside of the values of a variable is [None]. *)
From Coq Require Export QArith List Bool Arith ZArith String.
Export ListNotations.
Open Scope Q_scope.
Local Open Scope string_scope.

(** Running a loop whose body may fail *)
Fixpoint loop {I S} (f : I -> S -> option S) (l : list I) (s : S) : option S :=
  match l with
  | nil => Some s
  | i :: l => match f i s with Some s => loop f l s | None => None end
  end.

Definition bind {A B} (a : option A) (f : A -> option B) : option B := match a with Some a => f a | None => None end.
Notation "x <- a ;; b" := (bind a (fun x => b)) (at level 61, a at next level, right associativity).
Notation "' p <- a ;; b" := (bind a (fun x => match x with p => b end))
  (at level 61, p pattern, a at next level, right associativity).

(** The operations the templates use on the type of a variable: T is the type, E that of a product with a float. *)
Record arith (T E : Type) := mkarith {
  t_add : T -> T -> T;
  t_sub : T -> T -> T;
  t_mul : T -> Q -> E;
  t_div : T -> Q -> E;
  e_add : E -> E -> E;
  e_addt : E -> T -> E;
  e_cast : E -> T;
  t_zero : T
}.
Arguments t_add {T E}. Arguments t_sub {T E}. Arguments t_mul {T E}. Arguments t_div {T E}.
Arguments e_add {T E}. Arguments e_addt {T E}. Arguments e_cast {T E}. Arguments t_zero {T E}.

(** float, and the components of points and colours *)
Definition num_arith : arith Q Q :=
  mkarith _ _ Qplus Qminus Qmult Qdiv Qplus Qplus (fun e => e) 0.

(** int: a product with a float is a float, and the cast cuts the fraction off *)
Definition trunc (q : Q) : Z := Z.quot (Qnum q) (Zpos (Qden q)).
Definition int_arith : arith Z Q :=
  mkarith _ _ Z.add Z.sub (fun a f => inject_Z a * f) (fun a f => inject_Z a / f) Qplus (fun e a => e + inject_Z a)
          trunc 0%Z.

(** libs/util/sstring.cpp:374-410: the sum of two strings is their concatenation; difference, product and quotient are
    the first string *)
Definition str_arith : arith string string :=
  mkarith _ _ append (fun a _ => a) (fun a _ => a) (fun a _ => a) append append (fun e => e) "".

(** include/aqsis/math/matrix.h:673-685, libs/math/matrix.cpp:232-256: the product of a matrix with a float is its
    product with the diagonal matrix (S, S, S, 1), which leaves the last column alone.  The 16 elements row by row; there
    is no quotient. *)
Definition mat := list Q.
Fixpoint map2 {A B C} (f : A -> B -> C) (l : list A) (m : list B) : list C :=
  match l, m with a :: l, b :: m => f a b :: map2 f l m | _, _ => nil end.
Definition mat_scale (m : mat) (f : Q) : mat :=
  map2 (fun a n => if Nat.eqb (n mod 4) 3 then a else a * f) m (seq 0 16).
Definition mat_arith : arith mat mat :=
  mkarith _ _ (map2 Qplus) (map2 Qminus) mat_scale (fun m f => mat_scale m (/ f)) (map2 Qplus) (map2 Qplus) (fun e => e)
          [1;0;0;0; 0;1;0;0; 0;0;1;0; 0;0;0;1].

(** Storage class of a variable *)
Inductive class := Constant | Uniform | Varying | FaceVarying | Vertex | FaceVertex.

(** parameters.h: a variable: its class, whether it is one of the array classes, m_Count, and m_aValues.  The array
    classes hold pValue(i)[k] at i * m_Count + k (parameters.h:917-930); the others have m_Count = 1. *)
Record param (T : Type) := mkparam { p_class : class; p_array : bool; p_count : nat; p_vals : list T }.
Arguments mkparam {T}. Arguments p_class {T}. Arguments p_array {T}. Arguments p_count {T}. Arguments p_vals {T}.

Definition with_vals {T} (p : param T) (l : list T) : param T := mkparam (p_class p) (p_array p) (p_count p) l.

(** pValue(i)[k], read and written *)
Definition rd {T} (p : param T) (i k : nat) : option T := nth_error (p_vals p) (i * p_count p + k).
Fixpoint set_nth {T} (l : list T) (n : nat) (x : T) : option (list T) :=
  match l, n with
  | nil, _ => None
  | _ :: l, O => Some (x :: l)
  | a :: l, S n => match set_nth l n x with Some l => Some (a :: l) | None => None end
  end.
Definition wr {T} (p : param T) (i k : nat) (x : T) : option (param T) :=
  match set_nth (p_vals p) (i * p_count p + k) x with Some l => Some (with_vals p l) | None => None end.

(** Size(): parameters.h:264-267, 834-837 *)
Definition size {T} (p : param T) : nat := (List.length (p_vals p) / p_count p)%nat.

(** SetSize: parameters.h:260-263, 829-833; vector::resize cuts the values off or appends new ones *)
Definition set_size {T} (z : T) (n : nat) (p : param T) : param T :=
  let m := (n * p_count p)%nat in
  with_vals p (firstn m (p_vals p) ++ repeat z (m - List.length (p_vals p))).

Section Typed.
Context {T E : Type} (A : arith T E).

(** The mean of two values: static_cast<T>( ( a + b ) * 0.5 ) *)
Definition mean (a b : T) : T := e_cast A (t_mul A (t_add A a b) (1 # 2)).

(** The body of the loops of parameters.h:856-864, 870-878 (CqParameterTypedVaryingArray::Subdivide), of
    parameters.h:284-297 (CqParameterTypedVarying::Subdivide, with k = 0) and of surface.cpp:310-323
    (surfaceNaturalSubdivide): one element of the two halves of a quadrilateral *)
Definition halve (u : bool) (src : param T) (k : nat) (r : param T * param T) : option (param T * param T) :=
  let '(r1, r2) := r in
  a0 <- rd src 0 k ;; a1 <- rd src 1 k ;; a2 <- rd src 2 k ;; a3 <- rd src 3 k ;;
  if u then
    r2 <- wr r2 1 k a1 ;; r2 <- wr r2 3 k a3 ;;
    let m := mean a0 a1 in
    r2 <- wr r2 0 k m ;; r1 <- wr r1 1 k m ;;
    let m := mean a2 a3 in
    r2 <- wr r2 2 k m ;; r1 <- wr r1 3 k m ;;
    Some (r1, r2)
  else
    r2 <- wr r2 2 k a2 ;; r2 <- wr r2 3 k a3 ;;
    let m := mean a0 a2 in
    r2 <- wr r2 0 k m ;; r1 <- wr r1 2 k m ;;
    let m := mean a1 a3 in
    r2 <- wr r2 1 k m ;; r1 <- wr r1 3 k m ;;
    Some (r1, r2).

(** parameters.h:272-299 CqParameterTypedVarying::Subdivide and 843-881 CqParameterTypedVaryingArray::Subdivide.  The two
    results are clones (surface.cpp:554-556). *)
Definition subdivide_varying (u : bool) (src : param T) : option (param T * param T) :=
  let r := (set_size (t_zero A) 4 src, set_size (t_zero A) 4 src) in
  if Nat.eqb (size src) 4
  then loop (halve u src) (if p_array src then rev (seq 0 (p_count src)) else [0%nat]) r
  else Some r.

(** surface.cpp:299-327 surfaceNaturalSubdivide *)
Definition natural_subdivide_linear (u : bool) (src : param T) : option (param T * param T) :=
  loop (halve u src) (seq 0 (p_count src)) (src, src).

(** patch.cpp:86-131 bicubicPatchNatSubdiv: the four values at base, base + step, ... of each row (or column) *)
Definition halve_cubic (base step : nat) (src : param T) (r : param T * param T) : option (param T * param T) :=
  let '(r1, r2) := r in
  let at_ (p : param T) n := nth_error (p_vals p) (base + n * step)%nat in
  let put (p : param T) n x :=
    match set_nth (p_vals p) (base + n * step)%nat x with Some l => Some (with_vals p l) | None => None end in
  p0 <- at_ src 0%nat ;; p1 <- at_ src 1%nat ;; p2 <- at_ src 2%nat ;; p3 <- at_ src 3%nat ;;
  r1 <- put r1 0%nat p0 ;;
  r1 <- put r1 1%nat (e_cast A (t_div A (t_add A p0 p1) 2)) ;;
  x <- at_ r1 1%nat ;;
  r1 <- put r1 2%nat (e_cast A (e_add A (t_div A x 2) (t_div A (t_add A p1 p2) 4))) ;;
  r2 <- put r2 3%nat p3 ;;
  r2 <- put r2 2%nat (e_cast A (t_div A (t_add A p2 p3) 2)) ;;
  y <- at_ r2 2%nat ;;
  r2 <- put r2 1%nat (e_cast A (e_add A (t_div A y 2) (t_div A (t_add A p1 p2) 4))) ;;
  x <- at_ r1 2%nat ;; y <- at_ r2 1%nat ;;
  r1 <- put r1 3%nat (e_cast A (t_div A (t_add A x y) 2)) ;;
  z <- at_ r1 3%nat ;;
  r2 <- put r2 0%nat z ;;
  Some (r1, r2).

Definition natural_subdivide_cubic (u : bool) (src : param T) : option (param T * param T) :=
  if u then loop (fun iv => halve_cubic (iv * 4) 1 src) (seq 0 4) (src, src)
  else loop (fun iu => halve_cubic iu 4 src) (seq 0 4) (src, src).

(** bilinear.h:189-226 BilinearEvaluate *)
Definition bilinear_evaluate (a b c d : T) (s t : Q) : T :=
  let '(ab, cd) :=
    if Qle_bool s 0 then (a, c)
    else if Qle_bool 1 s then (b, d)
    else (e_cast A (e_addt A (t_mul A (t_sub A b a) s) a), e_cast A (e_addt A (t_mul A (t_sub A d c) s) c)) in
  if Qle_bool t 0 then ab
  else if Qle_bool 1 t then cd
  else e_cast A (e_addt A (t_mul A (t_sub A cd ab) t) ab).

(** The variable of the grid: the values of each element of an array; a variable that is not an array has one element.
    SetValue, and writing through the pointers GetValuePtr gives *)
Definition put (g : list (list T)) (k pos : nat) (x : T) : option (list (list T)) :=
  match nth_error g k with
  | Some l => match set_nth l pos x with Some l => set_nth g k l | None => None end
  | None => None
  end.

Definition Qnat (n : nat) : Q := inject_Z (Z.of_nat n).

(** parameters.h:1377-1433 CqParameterTypedVarying::Dice, 1456-1496 CqParameterTypedVaryingArray::Dice, for a grid
    variable that is varying.  The state of the loops is how far the pointers have been moved, and the grid. *)
Definition dice_varying (u v : nat) (p : param T) (g : list (list T)) : option (list (list T)) :=
  let elements := if p_array p then seq 0 (p_count p) else [0%nat] in
  let diu := 1 / Qnat u in
  let div := 1 / Qnat v in
  let each (f : nat -> nat -> nat -> option T) :=
    '(_, g) <- loop (fun iv st =>
      loop (fun iu (st : nat * list (list T)) =>
        let '(pos, g) := st in
        g <- loop (fun k g => x <- f iv iu k ;; put g k pos x) elements g ;;
        Some (Datatypes.S pos, g))
      (seq 0 (Datatypes.S u)) st)
    (seq 0 (Datatypes.S v)) (0%nat, g) ;;
    Some g in
  if (if p_array p then Nat.eqb (size p) 4 else Nat.leb 4 (size p)) then
    each (fun iv iu k =>
      a <- rd p 0 k ;; b <- rd p 1 k ;; c <- rd p 2 k ;; d <- rd p 3 k ;;
      Some (bilinear_evaluate a b c d (Qnat iu * diu) (Qnat iv * div)))
  else if p_array p then Some g
  else each (fun _ _ k => rd p 0 k).

(** parameters.h:424-436, 565-575, 993-1006, 1132-1145: uniform and constant variables: one value for the whole grid.  The
    bound of the loop is the greater of u * v and the size of the grid variable. *)
Definition dice_uniform (u v : nat) (p : param T) (g : list (list T)) : option (list (list T)) :=
  let n := Nat.max (u * v) (List.length (nth 0 g nil)) in
  loop (fun i g => loop (fun k g => x <- rd p 0 k ;; put g k i x) (if p_array p then seq 0 (p_count p) else [0%nat]) g)
       (seq 0 n) g.

(** surface.cpp:372-397 surfaceNaturalDice *)
Definition natural_dice_linear (u v : nat) (p : param T) (g : list (list T)) : option (list (list T)) :=
  loop (fun iv g =>
    let fv := 1 / Qnat v * Qnat iv in
    loop (fun iu g =>
      let fu := 1 / Qnat u * Qnat iu in
      loop (fun k g =>
        a <- rd p 0 k ;; b <- rd p 1 k ;; c <- rd p 2 k ;; d <- rd p 3 k ;;
        put g k (iv * (u + 1) + iu)%nat (bilinear_evaluate a b c d fu fv))
      (seq 0 (p_count p)) g)
    (seq 0 (Datatypes.S u)) g)
  (seq 0 (Datatypes.S v)) g.

(** forwarddiff.h:36-105 CqForwardDiffBezier: f, df, ddf, dddf after CalcForwardDiff *)
Record fd := mkfd { fd_f : T; fd_df : T; fd_ddf : T; fd_dddf : T }.
Definition calc_forward_diff (dt : Q) (a b c d : T) : fd :=
  let dt2 := dt * dt in
  let dt3 := dt2 * dt in
  let m00 := - (6 * dt3) in let m01 := 18 * dt3 in let m02 := - (18 * dt3) in let m03 := 6 * dt3 in
  let m10 := 6 * dt2 - 6 * dt3 in let m11 := 18 * dt3 - 2 * (6 * dt2) in
  let m12 := 6 * dt2 - 18 * dt3 in let m13 := 6 * dt3 in
  let m20 := 3 * dt2 - 3 * dt - dt3 in let m21 := 3 * dt3 - 6 * dt2 + 3 * dt in
  let m22 := 3 * dt2 - 3 * dt3 in let m23 := dt3 in
  let comb x y z w := e_cast A (e_add A (e_add A (e_add A (t_mul A a x) (t_mul A b y)) (t_mul A c z)) (t_mul A d w)) in
  mkfd a (comb m20 m21 m22 m23) (comb m10 m11 m12 m13) (comb m00 m01 m02 m03).
(** GetValue: the value returned, and the state afterwards *)
Definition get_value (s : fd) : T * fd :=
  (fd_f s, mkfd (t_add A (fd_f s) (fd_df s)) (t_add A (fd_df s) (fd_ddf s)) (t_add A (fd_ddf s) (fd_dddf s)) (fd_dddf s)).

(** patch.cpp:205-252 bicubicPatchNatDice *)
Definition natural_dice_cubic (u v : nat) (p : param T) (g : list (list T)) : option (list (list T)) :=
  let fdv k i := a <- rd p i k ;; b <- rd p (4 + i) k ;; c <- rd p (8 + i) k ;; d <- rd p (12 + i) k ;;
                 Some (calc_forward_diff (1 / Qnat v) a b c d) in
  loop (fun k g =>
    v0 <- fdv k 0%nat ;; v1 <- fdv k 1%nat ;; v2 <- fdv k 2%nat ;; v3 <- fdv k 3%nat ;;
    '(_, g) <- loop (fun iv st =>
      let '((v0, v1, v2, v3), g) := st in
      let '(a, v0) := get_value v0 in
      let '(b, v1) := get_value v1 in
      let '(c, v2) := get_value v2 in
      let '(d, v3) := get_value v3 in
      '(_, g) <- loop (fun iu st =>
        let '(uf, g) := st in
        let '(x, uf) := get_value uf in
        g <- put g k (iv * (u + 1) + iu)%nat x ;;
        Some (uf, g))
      (seq 0 (Datatypes.S u)) (calc_forward_diff (1 / Qnat u) a b c d, g) ;;
      Some ((v0, v1, v2, v3), g))
    (seq 0 (Datatypes.S v)) ((v0, v1, v2, v3), g) ;;
    Some g)
  (seq 0 (p_count p)) g.

(** The two kinds of patches *)
Inductive kind := Bilinear | Bicubic.

(** The virtual functions Subdivide of the parameter classes: uniform and constant variables are copied (parameters.h:415-423,
    552-560, 991-992, 1130-1131); vertex variables are split by the surface (661-667), but the class of arrays of vertex
    variables inherits the function of the varying arrays (1224-1285).  [cubic] is false for the types which the bicubic
    patch does not split (patch.cpp:158-163). *)
Definition subdivide (kd : kind) (cubic u : bool) (p : param T) : option (param T * param T) :=
  match p_class p with
  | Constant | Uniform => Some (p, p)
  | Varying | FaceVarying => subdivide_varying u p
  | Vertex | FaceVertex =>
      if p_array p then subdivide_varying u p
      else match kd with
           | Bilinear => natural_subdivide_linear u p
           | Bicubic => if cubic then natural_subdivide_cubic u p else Some (p, p)
           end
  end.

(** surface.cpp:462-485 in CqSurface::Dice, and the virtual functions Dice of the parameter classes, which
    CqShaderVM::SetArgument calls *)
Definition dice (kd : kind) (u v : nat) (p : param T) (g : list (list T)) : option (list (list T)) :=
  match p_class p with
  | Constant | Uniform => dice_uniform u v p g
  | Varying | FaceVarying => dice_varying u v p g
  | Vertex | FaceVertex =>
      match kd with
      | Bilinear => natural_dice_linear u v p g
      | Bicubic => natural_dice_cubic u v p g
      end
  end.

(** DiceOne: parameters.h:1525-1557 for varying arrays, 1008-1020 for uniform arrays, 1268-1272 for vertex arrays (which does
    nothing).  s and t of a patch with a variable "st" are diced with it (surface.cpp:446-456). *)
Definition dice_one (u v : nat) (p : param T) (k : nat) (g : list T) : option (list T) :=
  match p_class p with
  | Constant | Uniform =>
      loop (fun i g => x <- rd p 0 k ;; set_nth g i x) (seq 0 (Nat.max (u * v) (List.length g))) g
  | Varying | FaceVarying =>
      if Nat.eqb (size p) 4 then
        '(_, g) <- loop (fun iv st =>
          loop (fun iu (st : nat * list T) =>
            let '(pos, g) := st in
            a <- rd p 0 k ;; b <- rd p 1 k ;; c <- rd p 2 k ;; d <- rd p 3 k ;;
            g <- set_nth g pos (bilinear_evaluate a b c d (Qnat iu * (1 / Qnat u)) (Qnat iv * (1 / Qnat v))) ;;
            Some (Datatypes.S pos, g))
          (seq 0 (Datatypes.S u)) st)
        (seq 0 (Datatypes.S v)) (0%nat, g) ;;
        Some g
      else Some g
  | Vertex | FaceVertex => Some g
  end.

End Typed.

(** A variable of any type *)
Inductive variable :=
| VNum (p : param Q) | VInt (p : param Z) | VStr (p : param string) | VMat (p : param mat).

Definition var_pair {T} (f : param T -> variable) (r : option (param T * param T)) : option (variable * variable) :=
  match r with Some (a, b) => Some (f a, f b) | None => None end.
Definition subdivide_var (kd : kind) (u : bool) (x : variable) : option (variable * variable) :=
  match x with
  | VNum p => var_pair VNum (subdivide num_arith kd true u p)
  | VInt p => var_pair VInt (subdivide int_arith kd true u p)
  | VStr p => var_pair VStr (subdivide str_arith kd true u p)
  | VMat p => var_pair VMat (subdivide mat_arith kd false u p)
  end.

(** A patch: its kind, m_fHasPhantomFourthVertex (only for bilinear patches), m_SplitDir (true for U), m_fDiceable,
    m_SplitCount, and the primitive variables *)
Record patch := mkpatch { s_kind : kind; s_phantom : bool; s_dir : bool; s_diceable : bool; s_splits : nat;
                          s_vars : list variable }.

(** The halves of each variable of a list *)
Fixpoint subdivide_vars (kd : kind) (u : bool) (l : list variable) : option (list variable * list variable) :=
  match l with
  | nil => Some (nil, nil)
  | x :: l => '(a, b) <- subdivide_var kd u x ;; '(la, lb) <- subdivide_vars kd u l ;; Some (a :: la, b :: lb)
  end.

(** surface.cpp:529-560 in CqSurface::Split: the two halves *)
Definition split_once (s : patch) : option (list patch) :=
  '(a, b) <- subdivide_vars (s_kind s) (s_dir s) (s_vars s) ;;
  let child l := mkpatch (s_kind s) false (negb (s_dir s)) true (Datatypes.S (s_splits s)) l in
  Some [child a; child b].

(** surface.cpp:529-577 CqSurface::Split: a patch that cannot be diced is split twice.  The halves can be diced, so they
    are not split a third time. *)
Definition split_bicubic (s : patch) : option (list patch) :=
  l <- split_once s ;;
  if s_diceable s then Some l
  else match l with
       | [a; b] => la <- split_once a ;; lb <- split_once b ;; Some (la ++ lb)%list
       | _ => None
       end.

(** patch.cpp:744-829 CqSurfacePatchBilinear::Split *)
Definition split_bilinear (s : patch) : option (list patch) :=
  let child ph l := mkpatch Bilinear ph (negb (s_dir s)) true (Datatypes.S (s_splits s)) l in
  '(a, b) <- subdivide_vars Bilinear (s_dir s) (s_vars s) ;;
  if s_phantom s then
    '(c, d) <- subdivide_vars Bilinear (negb (s_dir s)) a ;;
    '(e, f) <- subdivide_vars Bilinear (negb (s_dir s)) b ;;
    let all := [child false c; child true d; child true e; child false f] in
    Some (removelast all)
  else Some [child false a; child false b].

Definition split_patch (s : patch) : option (list patch) :=
  match s_kind s with Bilinear => split_bilinear s | Bicubic => split_bicubic s end.

(** What the renderer does with a patch: it keeps it, or it splits it, in a direction found by Diceable, which also finds
    whether it can be diced (the renderer's bounds may forbid it), and goes on with the pieces *)
Inductive tree := Keep | Split (dir diceable : bool) (children : nat -> tree).

Definition prepare (dir diceable : bool) (s : patch) : patch :=
  mkpatch (s_kind s) (s_phantom s) dir diceable (s_splits s) (s_vars s).

Fixpoint split_all (t : tree) (s : patch) : option (list patch) :=
  match t with
  | Keep => Some [s]
  | Split dir diceable children =>
      l <- split_patch (prepare dir diceable s) ;;
      (fix go (n : nat) (l : list patch) : option (list patch) :=
         match l with
         | nil => Some nil
         | c :: l => a <- split_all (children n) c ;; b <- go (Datatypes.S n) l ;; Some (a ++ b)%list
         end) 0%nat l
  end.

(** Matrices of 4 x 4 values *)
Definition matrix := nat -> nat -> Q.
Definition sum4 (f : nat -> Q) : Q := f 0%nat + f 1%nat + f 2%nat + f 3%nat.
(** matrix.cpp:150-225 operator*=: a * b is the product of b with a *)
Definition mmul (a b : matrix) : matrix := fun i j => sum4 (fun k => b i k * a k j).
Definition mtranspose (a : matrix) : matrix := fun i j => a j i.
(** The inverse of RiBezierBasis (libs/riutil/risyms.cpp:147-150).  The code computes it with CqMatrix::Inverse. *)
Definition inverse_bezier : matrix := fun i j =>
  nth (i * 4 + j) [0; 0; 0; 1;  0; 0; 1 # 3; 1;  0; 1 # 3; 2 # 3; 1;  1; 1; 1; 1] 0.

(** patch.cpp:384-567 ConvertToBezierBasis for one variable, or one component: the class must be class_vertex and only the
    element 0 of an array is converted; the types are point, vector, normal, hpoint, colour and float *)
Definition convert_param (mu mv : matrix) (p : param Q) : option (param Q) :=
  match p_class p with
  | Vertex =>
      cp <- loop (fun n l => x <- rd p n 0 ;; Some (l ++ [x])%list) (seq 0 16) nil ;;
      let uconv := mmul mu inverse_bezier in
      let vconv := mmul mv inverse_bezier in
      let g : matrix := fun i j => nth (i * 4 + j) cp 0 in
      let r := mmul (mmul (mtranspose uconv) g) vconv in
      loop (fun n q => wr q n 0 (r (n / 4)%nat (n mod 4)%nat)) (seq 0 16) p
  | _ => Some p
  end.
Definition convert_var (mu mv : matrix) (x : variable) : option variable :=
  match x with
  | VNum p => p <- convert_param mu mv p ;; Some (VNum p)
  | _ => Some x
  end.
Fixpoint convert_vars (mu mv : matrix) (l : list variable) : option (list variable) :=
  match l with
  | nil => Some nil
  | x :: l => y <- convert_var mu mv x ;; l <- convert_vars mu mv l ;; Some (y :: l)
  end.
Definition convert_to_bezier (mu mv : matrix) (s : patch) : option patch :=
  l <- convert_vars mu mv (s_vars s) ;;
  Some (mkpatch (s_kind s) (s_phantom s) (s_dir s) (s_diceable s) (s_splits s) l).

(** surface.cpp:269-283 in SetDefaultPrimitiveVariables: the variables u and v *)
Definition default_u : param Q := mkparam Varying false 1 [0; 1; 0; 1].
Definition default_v : param Q := mkparam Varying false 1 [0; 0; 1; 1].

(** patch.cpp:177-204 CqSurfacePatchBicubic::Bound, 625-655 CqSurfacePatchBilinear::Bound for one coordinate of P: the least
    and the greatest value, starting with FLT_MAX and -FLT_MAX *)
Definition bound_param (big : Q) (kd : kind) (phantom : bool) (p : param Q) : option (Q * Q) :=
  loop (fun n (b : Q * Q) =>
    let '(lo, hi) := b in
    x <- rd p n 0 ;;
    Some (if Qle_bool lo x then lo else x, if Qle_bool x hi then hi else x))
  (seq 0 (match kd with Bicubic => 16 | Bilinear => if phantom then 3 else 4 end)) (big, - big).

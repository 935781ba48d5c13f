(** What a user expects of patches and their variables: the value of a variable at a point (u, v) of a patch, the parts of
    the patch the pieces stand for, and the surface of a patch given in another basis. *)
From Verif Require Export SplitModel.
Open Scope Q_scope.

(** Linear interpolation between two values, and a cubic Bezier curve with four control values *)
Definition line2 (a b x : Q) : Q := (1 - x) * a + x * b.
Definition bezier4 (a b c d x : Q) : Q :=
  (1 - x) * (1 - x) * (1 - x) * a + 3 * x * (1 - x) * (1 - x) * b + 3 * x * x * (1 - x) * c + x * x * x * d.

(** The values over a quadrilateral with values at its four corners, and over a bicubic patch with sixteen control values;
    u varies fastest *)
Definition bilinear_at (c : nat -> Q) (u v : Q) : Q :=
  line2 (line2 (c 0%nat) (c 1%nat) u) (line2 (c 2%nat) (c 3%nat) u) v.
Definition bicubic_at (c : nat -> Q) (u v : Q) : Q :=
  bezier4 (bezier4 (c 0%nat) (c 1%nat) (c 2%nat) (c 3%nat) u)
          (bezier4 (c 4%nat) (c 5%nat) (c 6%nat) (c 7%nat) u)
          (bezier4 (c 8%nat) (c 9%nat) (c 10%nat) (c 11%nat) u)
          (bezier4 (c 12%nat) (c 13%nat) (c 14%nat) (c 15%nat) u) v.

(** The control values of element k of a variable *)
Definition controls (p : param Q) (k : nat) (i : nat) : Q := nth (i * p_count p + k) (p_vals p) 0.

(** The value of element k of a variable at (u, v) *)
Definition value_at (kd : kind) (p : param Q) (k : nat) (u v : Q) : Q :=
  match p_class p with
  | Constant | Uniform => controls p k 0
  | Varying | FaceVarying => bilinear_at (controls p k) u v
  | Vertex | FaceVertex =>
      match kd with Bilinear => bilinear_at (controls p k) u v | Bicubic => bicubic_at (controls p k) u v end
  end.

(** How many values a variable of a patch has: one for the whole patch, one at each corner, or one for each control point *)
Definition needed (kd : kind) (c : class) : nat :=
  match c with
  | Constant | Uniform => 1
  | Varying | FaceVarying => 4
  | Vertex | FaceVertex => match kd with Bilinear => 4 | Bicubic => 16 end
  end.

(** A variable as the requests store it *)
Definition proper {T} (kd : kind) (p : param T) : Prop :=
  (1 <= p_count p)%nat /\ (p_array p = false -> p_count p = 1%nat) /\
  List.length (p_vals p) = (needed kd (p_class p) * p_count p)%nat.

(** The variables which the theorem excludes: arrays with a value for each control point of a bicubic patch *)
Definition cubic_array {T} (kd : kind) (p : param T) : Prop :=
  kd = Bicubic /\ p_array p = true /\ (p_class p = Vertex \/ p_class p = FaceVertex).

Definition proper_var (kd : kind) (x : variable) : Prop :=
  match x with
  | VNum p => proper kd p /\ ~ cubic_array kd p
  | VInt p => proper kd p /\ ~ cubic_array kd p
  | VStr p => proper kd p /\ ~ cubic_array kd p
  | VMat p => proper kd p /\ ~ cubic_array kd p
  end.
Definition proper_patch (s : patch) : Prop :=
  Forall (proper_var (s_kind s)) (s_vars s) /\ (s_kind s = Bicubic -> s_phantom s = false).

(** A part of the unit square: the rectangle with a corner at (u0, v0) and the sides du and dv *)
Record part := mkpart { u0 : Q; v0 : Q; du : Q; dv : Q }.
Definition whole : part := mkpart 0 0 1 1.

(** The points of a part: those of the rectangle, or for a triangle the half of it at the corner (u0, v0) *)
Definition covers (triangle : bool) (r : part) (u v : Q) : Prop :=
  exists s t, 0 <= s <= 1 /\ 0 <= t <= 1 /\ (triangle = true -> s + t <= 1) /\ u == u0 r + du r * s /\ v == v0 r + dv r * t.
(** The points in the interior of a part *)
Definition covers_inside (triangle : bool) (r : part) (u v : Q) : Prop :=
  exists s t, 0 < s < 1 /\ 0 < t < 1 /\ (triangle = true -> s + t < 1) /\ u == u0 r + du r * s /\ v == v0 r + dv r * t.

(** The variable of a piece has at each of its points the value which the variable of the patch has there *)
Definition same_variable (kd : kind) (r : part) (x y : variable) : Prop :=
  match x, y with
  | VNum p, VNum q =>
      p_class q = p_class p /\ p_array q = p_array p /\ p_count q = p_count p /\
      forall k s t, (k < p_count p)%nat -> value_at kd q k s t == value_at kd p k (u0 r + du r * s) (v0 r + dv r * t)
  | VInt _, VInt _ | VStr _, VStr _ | VMat _, VMat _ => True
  | _, _ => False
  end.

(** The piece s' shows the part r of the patch s *)
Definition shows (s : patch) (r : part) (s' : patch) : Prop :=
  s_kind s' = s_kind s /\ 0 < du r /\ 0 < dv r /\ Forall2 (same_variable (s_kind s) r) (s_vars s) (s_vars s').

(** The pieces with their parts make up the patch: every point of the patch is shown, nothing else is, and no point is
    inside of two pieces *)
Definition make_up (s : patch) (rs : list part) (l : list patch) : Prop :=
  Forall2 (shows s) rs l /\
  (forall u v, covers (s_phantom s) whole u v <->
     exists n r s', nth_error rs n = Some r /\ nth_error l n = Some s' /\ covers (s_phantom s') r u v) /\
  (forall n m r r' a b u v, n <> m ->
     nth_error rs n = Some r -> nth_error l n = Some a -> nth_error rs m = Some r' -> nth_error l m = Some b ->
     covers_inside (s_phantom a) r u v -> covers_inside (s_phantom b) r' u v -> False).

(** A cubic curve in a basis: the row of powers of the parameter, times the basis, times the control values *)
Definition basis_curve (m : matrix) (a b c d x : Q) : Q :=
  (x * x * x * m 0%nat 0%nat + x * x * m 1%nat 0%nat + x * m 2%nat 0%nat + m 3%nat 0%nat) * a +
  (x * x * x * m 0%nat 1%nat + x * x * m 1%nat 1%nat + x * m 2%nat 1%nat + m 3%nat 1%nat) * b +
  (x * x * x * m 0%nat 2%nat + x * x * m 1%nat 2%nat + x * m 2%nat 2%nat + m 3%nat 2%nat) * c +
  (x * x * x * m 0%nat 3%nat + x * x * m 1%nat 3%nat + x * m 2%nat 3%nat + m 3%nat 3%nat) * d.
(** The surface of a bicubic patch whose curves in u and v are in the bases mu and mv *)
Definition basis_at (mu mv : matrix) (c : nat -> Q) (u v : Q) : Q :=
  basis_curve mv (basis_curve mu (c 0%nat) (c 1%nat) (c 2%nat) (c 3%nat) u)
                 (basis_curve mu (c 4%nat) (c 5%nat) (c 6%nat) (c 7%nat) u)
                 (basis_curve mu (c 8%nat) (c 9%nat) (c 10%nat) (c 11%nat) u)
                 (basis_curve mu (c 12%nat) (c 13%nat) (c 14%nat) (c 15%nat) u) v.

(** The grid holds for the element k the values of f at all its points *)
Definition grid_holds (u v : nat) (g : list (list Q)) (k : nat) (f : Q -> Q -> Q) : Prop :=
  forall iu iv, (iu <= u)%nat -> (iv <= v)%nat ->
    exists l x, nth_error g k = Some l /\ nth_error l (iv * (u + 1) + iu)%nat = Some x /\
                x == f (Qnat iu / Qnat u) (Qnat iv / Qnat v).

(** A grid variable ready for a grid of u x v micropolygons: [n] elements with a value at each point *)
Definition grid_for {T} (u v n : nat) (g : list (list T)) : Prop :=
  List.length g = n /\ Forall (fun l => List.length l = ((u + 1) * (v + 1))%nat) g.

(** The value of a variable of a bicubic patch in the bases mu and mv *)
Definition value_in_basis (mu mv : matrix) (p : param Q) (k : nat) (u v : Q) : Q :=
  match p_class p with
  | Vertex | FaceVertex => basis_at mu mv (controls p k) u v
  | _ => value_at Bicubic p k u v
  end.

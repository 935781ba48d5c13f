(** Model of the length checks of the validation filter for geometry calls, and of
    how the renderer reads the arrays and primitive variables of such a call.

    Modelled code: checkArraySize, checkParamListArraySizes, checkPointParamPresent
    and the geometry methods of RiCxxValidate
    (/repo/libs/riutil/ricxx_validate.cpp:398-442, 1334-1547, 1548-1575, 1794-1817);
    iclassCount, sum, max, countP (/repo/include/aqsis/riutil/ricxxutil.h:574-636);
    TypeSpec::storageCount (/repo/include/aqsis/riutil/ricxx.h:173-190);
    ProcessPrimitiveVariables and the geometry methods of RiCxxCore
    (/repo/libs/core/api/ri.cpp:1847-1990, 2171-2180, 2236-2300, 2310-2575,
    2627-2830, 3286-3422, 3578-3795); the value counts of the surfaces
    (/repo/libs/core/geometry/polygon.h:179-194, 331-346, patch.h:90-105, 160-175,
    nurbs.h:319-344, quadrics.h:56-71).

    Simplifications:
    - Lengths of arrays fit an int.  Values that are not used as a count or an index
      are left out; of an array of floats only the length is kept.
    - The checks of the scope and of the ranges of floats (radius, umin < umax) are
      left out.  They only refuse more.
    - Variables of type pointer and mpoint, for which the renderer has no storage,
      are left out; the other types and all classes are there.
    - The reads that follow only if positions were given, if the scheme is
      catmull-clark or if the mesh is manifold are always counted.
    - A number is read from an array given as a list; reading outside gives 0, and the
      read is recorded.  Array indices are exact; counts are ints, [None] when one of
      them leaves the range of int. *)

From Coq Require Import List Bool ZArith.
From Verif Require Import MeshModel.
Import ListNotations.
Open Scope Z_scope.
Open Scope do_scope.

(** Ri::TypeSpec (ricxx.h:100-160) and Ri::Param. *)
Inductive iclass := Constant | Uniform | Varying | Vertex | FaceVarying | FaceVertex.
Inductive ptype := Float | Integer | String_ | Point | Normal | Vector | Color | HPoint | Matrix.
Inductive pname := NameP | NamePz | NamePw | OtherName.
Record param := mkParam {
  p_name : pname; p_class : iclass; p_type : ptype; p_array : Z; p_len : Z }.

Inductive tag := Boundary | Crease | Corner | Hole | OtherTag.

(** The geometry calls.  [tris] are the triangles into which the renderer divides a
    general polygon, three vertex numbers each; they depend on the positions. *)
Inductive call :=
| Polygon (ps : list param)
| GeneralPolygon (nverts tris : list Z) (ps : list param)
| PointsPolygons (nverts verts : list Z) (ps : list param)
| PointsGeneralPolygons (nloops nverts verts : list Z) (ps : list param)
| Patch (cubic : bool) (ps : list param)
| PatchMesh (cubic : bool) (nu : Z) (uper : bool) (nv : Z) (vper : bool) (ps : list param)
| NuPatch (nu uorder uknots nv vorder vknots : Z) (ps : list param)
| TrimCurve (ncurves order : list Z) (knots mins maxs : Z) (n : list Z) (us vs ws : Z)
| SubdivisionMesh (nverts verts : list Z) (tags : list tag) (nargs intargs : list Z) (floatargs : Z)
    (ps : list param)
| Quadric (ps : list param)
| Points (ps : list param)
| Curves (cubic : bool) (nverts : list Z) (periodic : bool) (ps : list param).

Definition size {A} (l : list A) : Z := Z.of_nat (length l).

(* ---------- The validation filter ---------- *)

(** storageCount (ricxx.h:173-190). *)
Definition type_count (t : ptype) : Z :=
  match t with
  | Float | Integer | String_ => 1
  | Point | Normal | Vector => 3
  | Color => 3
  | HPoint => 4
  | Matrix => 16
  end.
Definition storage_count (p : param) : option Z := mul (type_count (p_type p)) (p_array p).

(** iclassCount (ricxxutil.h:574-588). *)
Definition iclass_count (c : counts) (k : iclass) : Z :=
  match k with
  | Constant => 1
  | Uniform => uniform c
  | Varying => varying c
  | Vertex => vertex c
  | FaceVarying => facevarying c
  | FaceVertex => facevertex c
  end.

(** sum with a step of 2 (ricxxutil.h:598-604): [here] tells whether the next entry
    is added. *)
Fixpoint sum_step (s : Z) (here : bool) (a : list Z) : option Z :=
  match a with
  | [] => Some s
  | x :: r => if here then do s1 <- add s x; sum_step s1 false r else sum_step s true r
  end.

(** max (ricxxutil.h:606-615). *)
Fixpoint max_from (m : Z) (a : list Z) : Z :=
  match a with
  | [] => m
  | x :: r => max_from (if m <? x then x else m) r
  end.
Definition max (a : list Z) : Z :=
  match a with [] => 0 | _ => max_from (-2147483648) a end.

(** countP (ricxxutil.h:623-635); [None] when it throws. *)
Fixpoint count_p (ps : list param) : option Z :=
  match ps with
  | [] => None
  | p :: r =>
      match p_name p with
      | NameP => Some (Z.quot (p_len p) 3)
      | NamePw => Some (Z.quot (p_len p) 4)
      | _ => count_p r
      end
  end.

(** checkArraySize (ricxx_validate.cpp:411-427): [Some false] when it throws. *)
Definition check_size (expected actual : Z) : option bool := Some (negb (actual <? expected)).
Notation "'check' a ; b" := (match a with Some true => b | r => r end)
  (at level 200, a at level 100, b at level 200) : do_scope.

(** checkParamListArraySizes (ricxx_validate.cpp:429-442). *)
Fixpoint check_params (c : counts) (ps : list param) : option bool :=
  match ps with
  | [] => Some true
  | p :: r =>
      do st <- storage_count p;
      do expected <- mul (iclass_count c (p_class p)) st;
      if expected <? 0 then check_params c r
      else check check_size expected (p_len p); check_params c r
  end.

(** checkPointParamPresent (ricxx_validate.cpp:398-408). *)
Definition has_points (ps : list param) : bool :=
  existsb (fun p => match p_name p with NameP | NamePw => true | _ => false end) ps.

(** The checks of the geometry methods.  [ustep], [vstep] are the steps of the current
    attributes, [known] is false when the attribute state is relaxed, [archive] tells
    that the call is directly inside an archive. *)
Definition accepts (ustep vstep : Z) (known archive : bool) (cl : call) : option bool :=
  match cl with
  (* ricxx_validate.cpp:1334-1345 *)
  | Polygon ps =>
      match count_p ps with
      | None => Some false
      | Some n => check check_params (mkCounts 1 n n n n) ps; Some (has_points ps)
      end
  (* 1347-1359 *)
  | GeneralPolygon nverts _ ps =>
      do n <- sum nverts;
      check check_params (mkCounts 1 n n n n) ps; Some (has_points ps)
  (* 1361-1377 *)
  | PointsPolygons nverts verts ps =>
      do n <- sum nverts;
      check check_size n (size verts);
      do v <- add (max verts) 1;
      check check_params (mkCounts (size nverts) v v n n) ps; Some (has_points ps)
  (* 1379-1397 *)
  | PointsGeneralPolygons nloops nverts verts ps =>
      do l <- sum nloops;
      check check_size l (size nverts);
      do n <- sum nverts;
      check check_size n (size verts);
      do v <- add (max verts) 1;
      check_params (mkCounts (size nloops) v v n n) ps
  (* 1421-1431 *)
  | Patch cubic ps => check_params (mkCounts 1 4 (if cubic then 16 else 4) 4 4) ps
  (* 1433-1457 *)
  | PatchMesh cubic nu uper nv vper ps =>
      if nu <=? 0 then Some false else
      if nv <=? 0 then Some false else
      do c <- patch_mesh_counts (negb cubic) nu uper nv vper ustep vstep known;
      if archive then Some true else check_params c ps
  (* 1459-1520 *)
  | NuPatch nu uorder uknots nv vorder vknots ps =>
      if nu <=? 0 then Some false else
      if uorder <=? 0 then Some false else
      do ku <- add nu uorder;
      check check_size ku uknots;
      if nv <=? 0 then Some false else
      if vorder <=? 0 then Some false else
      do kv <- add nv vorder;
      check check_size kv vknots;
      do a0 <- add 1 nu; do a1 <- sub a0 uorder; do a <- add a1 1;
      do b0 <- add 1 nv; do b1 <- sub b0 vorder; do b <- add b1 1;
      do s <- mul a b;
      do v <- mul nu nv;
      check_params (mkCounts s s v s s) ps
  (* 1522-1546 *)
  | TrimCurve ncurves order knots mins maxs n us vs ws =>
      do c <- sum ncurves;
      check check_size c (size order);
      do o <- sum order;
      do m <- sum n;
      do k <- add o m;
      check check_size k knots;
      check check_size (size order) mins;
      check check_size (size order) maxs;
      check check_size (size order) (size n);
      check check_size m us;
      check check_size us vs;
      check_size us ws
  (* 1548-1575 *)
  | SubdivisionMesh nverts verts tags nargs intargs floatargs ps =>
      do n <- sum nverts;
      check check_size n (size verts);
      do t <- mul 2 (size tags);
      check check_size t (size nargs);
      do i <- sum_step 0 true nargs;
      check check_size i (size intargs);
      do f <- sum_step 0 false nargs;
      check check_size f floatargs;
      do v <- add (max verts) 1;
      check_params (mkCounts (size nverts) v v n n) ps
  (* 1577-1792: the seven quadrics *)
  | Quadric ps => check_params (mkCounts 1 4 4 4 4) ps
  (* 1794-1805 *)
  | Points ps =>
      match count_p ps with
      | None => Some false
      | Some n => check check_params (mkCounts 1 n n n n) ps; Some (has_points ps)
      end
  (* 1807-1817 *)
  | Curves cubic nverts periodic ps =>
      do c <- curves_counts cubic nverts periodic vstep known;
      check (if archive then Some true else check_params c ps); Some (has_points ps)
  end.

(* ---------- The renderer ---------- *)

(** The arrays of a call.  [Own] are the vertex values copied from the positions,
    [Around v] are the faces round vertex [v] of a subdivision mesh, and [Loop n] are
    the [n] vertices of a loop, or the [n] loops of a polygon. *)
Inductive array :=
| Counts | Verts | Values (i : nat) | Uknots | Vknots | Orders | Lengths | Knots | Us | Vs | Ws
| Nargs | Intargs | Floatargs | Own | Around (v : Z) | Loop (n : Z).

(** The entries [lo], .., [hi - 1] of an array are read. *)
Record read := mkRead { r_array : array; lo : Z; hi : Z }.

(** Where the position is (ri.cpp:3599-3626): the number of the last parameter that is
    taken for it, and how many floats a position has. *)
Definition position_width (p : param) : option Z :=
  match p_class p with
  | Vertex => match p_name p with NameP => Some 3 | NamePz => Some 1 | NamePw => Some 4 | OtherName => None end
  | _ => None
  end.
Fixpoint positions (i : nat) (ps : list param) (found : option (nat * Z)) : option (nat * Z) :=
  match ps with
  | [] => found
  | p :: r => positions (S i) r (match position_width p with Some w => Some (i, w) | None => found end)
  end.
(** How many values of a class there are, and how many entries of the array make one
    of them (ri.cpp:3665-3690, 3695-3785). *)
Definition class_values (c : counts) (k : iclass) : Z :=
  match k with
  | Constant => 1
  | Uniform => uniform c
  | Varying => varying c
  | Vertex => vertex c
  | FaceVarying => facevarying c
  | FaceVertex => facevertex c
  end.
Definition value_entries (t : ptype) : Z :=
  match t with
  | Float | Integer | String_ => 1
  | Point | Normal | Vector | Color => 3
  | HPoint => 4
  | Matrix => 16
  end.
(** The other parameters (ri.cpp:3658-3790). *)
Fixpoint user_reads (c : counts) (i : nat) (ps : list param) : list read :=
  match ps with
  | [] => []
  | p :: r =>
      match position_width p with
      | Some _ => user_reads c (S i) r
      | None =>
          mkRead (Values i) 0
            (Z.max 0 (class_values c (p_class p)) * Z.max 0 (p_array p) * value_entries (p_type p))
          :: user_reads c (S i) r
      end
  end.
(** ProcessPrimitiveVariables (ri.cpp:3578-3795). *)
Definition param_reads (c : counts) (ps : list param) : list read :=
  (match positions 0 ps None with
   | Some (i, w) => [mkRead (Values i) 0 (vertex c * w)]
   | None => []
   end) ++ user_reads c 0 ps.

(** Entry [i] of an array, and its first [n] entries. *)
Definition entry (l : list Z) (i : Z) : Z := if i <? 0 then 0 else nth (Z.to_nat i) l 0.
Fixpoint take (n : Z) (l : list Z) : list Z :=
  match l with
  | [] => []
  | x :: r => if 0 <? n then x :: take (n - 1) r else []
  end.

(** The loops over the vertices of faces (ri.cpp:2320-2329, 3295-3304): how many
    vertices there are, what is read, and the value of sumnVerts. *)
Fixpoint steps (nverts : list Z) : Z :=
  match nverts with
  | [] => 0
  | n :: r => Z.max 0 n + steps r
  end.
(** cVerts after that loop: one more than the largest number read. *)
Fixpoint top (m : Z) (l : list Z) : option Z :=
  match l with
  | [] => Some m
  | x :: r => do x1 <- add x 1; top (Z.max x1 m) r
  end.

(** AddFacet for each face (ri.cpp:3330-3334, subdivision2.cpp:1160-1190). *)
Fixpoint facet_reads (pos : Z) (verts nverts : list Z) : list read :=
  match nverts with
  | [] => []
  | n :: r =>
      mkRead Verts pos (pos + n) :: facet_reads (pos + n) verts r
  end.
(** A vertex number used as an index of the copied positions. *)
Definition own_reads (l : list Z) : list read := map (fun x => mkRead Own x (x + 1)) l.

(** The vertex of a crease or corner (ri.cpp:3357-3363, 3385-3390,
    subdivision2.cpp:117-121). *)
Definition tag_vertex (nv x : Z) : list read :=
  if x <? nv then [mkRead Own x (x + 1); mkRead (Around x) 0 1] else [].
(** The edges of a crease (ri.cpp:3354-3378): the first vertex is looked up if both
    numbers are small enough. *)
Fixpoint crease_edges (nv : Z) (l : list Z) : list read :=
  match l with
  | x :: r =>
      match r with
      | y :: _ => (if y <? nv then tag_vertex nv x else []) ++ crease_edges nv r
      | [] => []
      end
  | [] => []
  end.
Fixpoint drop (n : Z) (l : list Z) : list Z :=
  match l with
  | [] => []
  | x :: r => if 0 <? n then drop (n - 1) r else l
  end.
(** The loop over the tags (ri.cpp:3338-3408). *)
Fixpoint tag_reads (nv : Z) (nargs intargs : list Z) (argc fl it : Z) (tags : list tag) : list read :=
  match tags with
  | [] => []
  | t :: r =>
      let ni := entry nargs argc in
      let nf := entry nargs (argc + 1) in
      (match t with
       | Crease => [mkRead Floatargs fl (fl + 1); mkRead Nargs argc (argc + 1)]
                   ++ (if 1 <? ni then [mkRead Intargs it (it + ni)] else [])
                   ++ crease_edges nv (take ni (drop it intargs))
       | Corner => [mkRead Nargs argc (argc + 1); mkRead Intargs it (it + ni)]
                   ++ flat_map (tag_vertex nv) (take ni (drop it intargs))
       | Hole => [mkRead Nargs argc (argc + 1); mkRead Intargs it (it + ni)]
       | Boundary | OtherTag => []
       end)
      ++ mkRead Nargs argc (argc + 2) :: tag_reads nv nargs intargs (argc + 2) (fl + nf) (it + ni) r
  end.

(** The loops of TrimCurve (ri.cpp:2797-2830); iorder and in run on from loop to loop
    and are equal, so that curve [j] of all is read here. *)
Fixpoint trim_reads (count : nat) (order n : list Z) (j knot vert : Z) : list read :=
  match count with
  | O => []
  | S k =>
      let o := entry order j in
      let c := entry n j in
      [mkRead Orders j (j + 1); mkRead Lengths j (j + 1);
       mkRead Knots knot (knot + (o + c));
       mkRead Us vert (vert + c); mkRead Vs vert (vert + c); mkRead Ws vert (vert + c)]
      ++ trim_reads k order n (j + 1) (knot + Z.max 0 (o + c)) (vert + Z.max 0 c)
  end.

(** A count read as a TqUint (ri.cpp:2368, 2413). *)
Definition unsigned (n : Z) : Z := n mod 4294967296.

(** The second pass of PointsGeneralPolygons (ri.cpp:2405-2430): before each loop the
    first vertex number after the loops so far is read. *)
Fixpoint loop_reads (pos : Z) (verts nverts : list Z) : list read :=
  match nverts with
  | [] => []
  | n :: r => mkRead Verts pos (pos + 1) :: mkRead Verts pos (pos + Z.max 0 n)
              :: loop_reads (pos + Z.max 0 n) verts r
  end.

(** CalcOrientation of each loop and of each polygon (genpoly.cpp:121-141). *)
Definition loops_read (nverts : list Z) : list read := map (fun n => mkRead (Loop n) 0 1) nverts.

(** What the renderer reads, and how many vertex values it copies. *)
Definition reads (ustep vstep : Z) (cl : call) : option (Z * list read) :=
  match cl with
  (* ri.cpp:1847-1853; polygon.h:179-194 *)
  | Polygon ps => do n <- count_p ps; Some (n, param_reads (mkCounts 1 n n n n) ps)
  (* ri.cpp:1878-2012; the first position (1911) and the first vertex of each loop
     (genpoly.cpp:121-141) are read in any case; the same parameters are then read as
     those of a PointsPolygons of triangles (2010), which reads copied positions as
     below *)
  | GeneralPolygon nverts tris ps =>
      do n <- sum nverts;
      let t := size tris / 3 in
      do s <- mul t 3;
      do v <- top 0 (take s tris);
      Some (n, param_reads (mkCounts 1 n n n n) ps
               ++ [mkRead Own 0 1; mkRead Own 1 n; mkRead Own 0 (steps nverts)]
               ++ loops_read nverts
               ++ param_reads (mkCounts t v v s s) ps)
  (* ri.cpp:2310-2347, polygon.cpp:530-565: numbers not below the number of positions
     are left out *)
  | PointsPolygons nverts verts ps =>
      do n <- sum nverts;
      let l := take (steps nverts) verts in
      do v <- top 0 l;
      Some (v, mkRead Verts 0 (steps nverts) :: param_reads (mkCounts (size nverts) v v n n) ps
               ++ own_reads (filter (fun x => unsigned x <? v) l))
  (* ri.cpp:2352-2575 *)
  | PointsGeneralPolygons nloops nverts verts ps =>
      let k := steps (map unsigned nloops) in
      let loops := take k nverts in
      do n <- sum loops;
      let l := take (steps loops) verts in
      do v <- top 0 l;
      Some (v, mkRead Counts 0 k :: mkRead Verts 0 (steps loops)
               :: param_reads (mkCounts (size nloops) v v n n) ps
               ++ loop_reads 0 verts loops ++ own_reads l
               ++ loops_read nloops ++ loops_read loops)
  (* ri.cpp:2627-2680, patch.h:90-105, 160-175 *)
  | Patch cubic ps =>
      let n := if cubic then 16 else 4 in Some (n, param_reads (mkCounts 1 4 n 4 4) ps)
  (* ri.cpp:2684-2743 *)
  | PatchMesh cubic nu uper nv vper ps =>
      do m <- new_mesh cubic nu nv uper vper ustep vstep;
      do c <- mesh_counts m;
      Some (vertex c, param_reads c ps)
  (* ri.cpp:2747-2765, nurbs.h:319-344 *)
  | NuPatch nu uorder uknots nv vorder vknots ps =>
      do ku <- add nu uorder;
      do kv <- add nv vorder;
      do a0 <- add 1 nu; do a <- sub a0 uorder;
      do b0 <- add 1 nv; do b <- sub b0 vorder;
      do u <- mul a b;
      do a1 <- add a 1; do b1 <- add b 1;
      do s <- mul a1 b1;
      do v <- mul nu nv;
      Some (v, mkRead Uknots 0 ku :: mkRead Vknots 0 kv :: param_reads (mkCounts u s v s s) ps)
  (* ri.cpp:2787-2832 *)
  | TrimCurve ncurves order knots mins maxs n us vs ws =>
      Some (0, trim_reads (Z.to_nat (steps ncurves)) order n 0 0 0)
  (* ri.cpp:3286-3422 *)
  | SubdivisionMesh nverts verts tags nargs intargs floatargs ps =>
      do n <- sum nverts;
      let l := take (steps nverts) verts in
      do v <- top 0 l;
      Some (v, mkRead Verts 0 (steps nverts) :: param_reads (mkCounts (size nverts) v v n n) ps
               ++ facet_reads 0 verts nverts ++ own_reads l
               ++ tag_reads v nargs intargs 0 0 0 tags)
  (* ri.cpp:2836-3120, quadrics.h:56-71 *)
  | Quadric ps => Some (4, param_reads (mkCounts 1 4 4 4 4) ps)
  (* ri.cpp:2171-2180 *)
  | Points ps => do n <- count_p ps; Some (n, param_reads (mkCounts 1 n n n n) ps)
  (* ri.cpp:2236-2300 *)
  | Curves cubic nverts periodic ps =>
      do c <- group_counts cubic periodic vstep nverts;
      Some (vertex c, param_reads c ps)
  end.

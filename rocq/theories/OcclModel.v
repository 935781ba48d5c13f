(** Model of the occlusion tree of a bucket: which surfaces are thrown away because they
    are hidden.

    Modelled code: CqOcclusionTree (/repo/libs/core/occlusion.cpp:54-281) and the part of
    CqBucketProcessor::StoreSample that records occluding hits
    (/repo/libs/core/bucketprocessor.cpp:1471-1536).

    Simplifications:
    - Screen positions and depths are integers: positions in a unit small enough that all
      corners of subpixels are whole, [wide] by [high] units making one subpixel.  Rounding
      of the corners of nodes is not modelled.
    - [far] is FLT_MAX.
    - The number of subdivisions, lceil(log2(n)) (occlusion.cpp:64-65), is any number of
      subdivisions that is enough to cover n subpixels, [covering].
    - Node numbers do not leave the range of int. *)

From Coq Require Import List Bool ZArith.
Import ListNotations.
Open Scope Z_scope.

(** The subpixels of a bucket (occlusion.cpp:56-62), its top left corner, and the size of a subpixel. *)
Record bucket := mkBucket { across : Z; down : Z; left : Z; top : Z; wide : Z; high : Z }.

(** CqOcclusionTree (occlusion.h:139-152), apart from the depths. *)
Record shape := mkShape { depth_x : Z; depth_y : Z; split_x_first : bool }.
Definition num_levels (s : shape) : Z := depth_x s + depth_y s + 1.
Definition first_leaf (s : shape) : Z := 2 ^ (depth_x s + depth_y s) - 1.
Definition num_nodes (s : shape) : Z := 2 * 2 ^ (depth_x s + depth_y s) - 1.

Section Tree.
Variable covering : Z -> Z.
Variable far : Z.
Variable b : bucket.

(** The depths in both directions (occlusion.cpp:64-73). *)
Definition tree_shape : shape :=
  let dx := covering (across b) in
  let dy := covering (down b) in
  let dx1 := if dx <? dy then dy - 1 else dx in
  let dy1 := if dx <? dy then dy else if dy <? dx then dx - 1 else dy in
  mkShape dx1 dy1 (dy1 <=? dx1).

(** treeIndexForPoint (occlusion.cpp:249-281). *)
Fixpoint interlace (fuel : nat) (x y index bit : Z) : option Z :=
  match fuel with
  | O => None
  | S f =>
      if negb (x =? 0) || negb (y =? 0) then
        interlace f (Z.shiftr x 1) (Z.shiftr y 1)
          (Z.lor index (Z.lor (Z.shiftl (Z.land x 1) bit) (Z.shiftl (Z.land y 1) (bit + 1))))
          (bit + 2)
      else Some (index - 1)
  end.
Definition tree_index (levels : Z) (x_first : bool) (x y : Z) : option Z :=
  let swap := xorb (negb x_first) (levels mod 2 =? 1) in
  let '(x, y) := if swap then (y, x) else (x, y) in
  interlace (S (Z.to_nat (levels + x + y))) x y (Z.shiftl 1 (levels - 1)) 0.

(** m_depthTree (occlusion.h:144): reading and writing an entry. *)
Definition get (t : list Z) (i : Z) : Z := nth (Z.to_nat i) t 0.
Fixpoint set_nth (t : list Z) (i : nat) (d : Z) : list Z :=
  match t, i with
  | [], _ => []
  | _ :: r, O => d :: r
  | x :: r, S k => x :: set_nth r k d
  end.
Definition set (t : list Z) (i d : Z) : list Z := set_nth t (Z.to_nat i) d.

(** propagateDepths (occlusion.cpp:130-138): [k] nodes are left to do. *)
Fixpoint propagate_loop (k : nat) (t : list Z) : list Z :=
  match k with
  | O => t
  | S i =>
      let n := Z.of_nat i in
      propagate_loop i (set t n (Z.max (get t (2 * n + 1)) (get t (2 * n + 2))))
  end.
Definition propagate (s : shape) (t : list Z) : list Z :=
  propagate_loop (Z.to_nat (2 ^ (num_levels s - 1) - 2 + 1)) t.

(** A sample: the depth of the stored occluding hit, and occlZ (bucketprocessor.cpp:1475, 1508-1510). *)
Record sample := mkSample { hit : option Z; occl_z : Z }.
Definition fresh : sample := mkSample None far.

(** The occlusion part of StoreSample for a micropolygon that is opaque and cullable
    (bucketprocessor.cpp:1475-1536): the sample, and the depth given to the tree. *)
Definition store (midpoint : bool) (s : sample) (d : Z) : sample * option Z :=
  if occl_z s <=? d then (s, None)
  else if midpoint then
    let prev := match hit s with Some z => z | None => far end in
    if prev <? d then (mkSample (hit s) d, Some d)
    else (mkSample (Some d) prev, Some prev)
  else (mkSample (Some d) d, Some d).

(** The state: the samples by their subpixels, m_depthTree and m_needsUpdate (occlusion.h:144-152). *)
Record state := mkState { samples : Z -> Z -> sample; depths : list Z; needs_update : bool }.

Definition grid (n m : Z) : list (Z * Z) :=
  list_prod (map Z.of_nat (seq 0 (Z.to_nat n))) (map Z.of_nat (seq 0 (Z.to_nat m))).
Definition leaf_of (x y : Z) : Z :=
  match tree_index (num_levels tree_shape) (split_x_first tree_shape) x y with Some i => i | None => 0 end.
(** setupTree (occlusion.cpp:54-107). *)
Definition setup : list Z :=
  propagate tree_shape
    (fold_left (fun t p => set t (leaf_of (fst p) (snd p)) far) (grid (across b) (down b))
       (repeat 0 (Z.to_nat (num_nodes tree_shape)))).

(** What happens to a bucket (bucketprocessor.cpp:935, 1516, 1527, 1533).  [Hit] is an opaque and cullable hit of the sample of a
    subpixel. *)
Inductive event := Hit (x y d : Z) | Update.
Definition put (f : Z -> Z -> sample) (x y : Z) (s : sample) : Z -> Z -> sample :=
  fun u v => if (u =? x) && (v =? y) then s else f u v.
Definition step (midpoint : bool) (st : state) (e : event) : state :=
  match e with
  | Hit x y d =>
      let '(s, new) := store midpoint (samples st x y) d in
      match new with
      | None => st
      (* setSampleDepth, occlusion.cpp:110-115 *)
      | Some z => mkState (put (samples st) x y s) (set (depths st) (leaf_of x y) z) true
      end
  (* updateTree, occlusion.cpp:117-123 *)
  | Update =>
      if needs_update st then mkState (samples st) (propagate tree_shape (depths st)) false else st
  end.
(** Before the tree is set up, samples may already have hits from neighbouring buckets
    (bucketprocessor.cpp:182-205). *)
Definition before (midpoint : bool) (prior : list (Z * Z * Z)) : Z -> Z -> sample :=
  fold_left (fun f h => let '(x, y, d) := h in put f x y (fst (store midpoint (f x y) d))) prior
    (fun _ _ => fresh).
Definition start (midpoint : bool) (prior : list (Z * Z * Z)) : state :=
  mkState (before midpoint prior) setup false.
Definition run (midpoint : bool) (prior : list (Z * Z * Z)) (l : list event) : state :=
  fold_left (step midpoint) l (start midpoint prior).

(** CqBound (/repo/libs/core/bound.h), as far as canCull uses it. *)
Record box := mkBox { min_x : Z; min_y : Z; max_x : Z; max_y : Z; min_z : Z }.

(** SqNodeBound (occlusion.cpp:144-157). *)
Record node := mkNode { n_min_x : Z; n_min_y : Z; n_max_x : Z; n_max_y : Z; n_index : Z; n_split_x : bool }.

(** canCull (occlusion.cpp:161-213).  [room] is the size of the stack; [None] when it is
    exceeded. *)
Fixpoint cull_loop (fuel : nat) (room : Z) (s : shape) (t : list Z) (q : box)
    (tx0 ty0 tx1 ty1 : Z) (stack : list node) : option bool :=
  match fuel with
  | O => None
  | S f =>
      match stack with
      | [] => Some true
      | n :: rest =>
          if negb ((n_max_x n <? tx0) || (n_max_y n <? ty0) || (tx1 <? n_min_x n) || (ty1 <? n_min_y n)) then
            if get t (n_index n) <? min_z q then cull_loop f room s t q tx0 ty0 tx1 ty1 rest
            else if first_leaf s <=? n_index n then Some false
            else
              let i := n_index n in
              let children :=
                if n_split_x n then
                  let avg := (n_max_x n + n_min_x n) / 2 in
                  [mkNode avg (n_min_y n) (n_max_x n) (n_max_y n) (i * 2 + 2) (negb (n_split_x n));
                   mkNode (n_min_x n) (n_min_y n) avg (n_max_y n) (i * 2 + 1) (negb (n_split_x n))]
                else
                  let avg := (n_max_y n + n_min_y n) / 2 in
                  [mkNode (n_min_x n) avg (n_max_x n) (n_max_y n) (i * 2 + 2) (negb (n_split_x n));
                   mkNode (n_min_x n) (n_min_y n) (n_max_x n) avg (i * 2 + 1) (negb (n_split_x n))] in
              if room <? Z.of_nat (length (children ++ rest)) then None
              else cull_loop f room s t q tx0 ty0 tx1 ty1 (children ++ rest)
          else cull_loop f room s t q tx0 ty0 tx1 ty1 rest
      end
  end.
Definition can_cull (st : state) (q : box) : option bool :=
  let s := tree_shape in
  let x1 := left b + 2 ^ depth_x s * wide b in
  let y1 := top b + 2 ^ depth_y s * high b in
  cull_loop (S (Z.to_nat (num_nodes s))) (2 * num_levels s) s (depths st) q
    (Z.max (min_x q) (left b)) (Z.max (min_y q) (top b)) (Z.min (max_x q) x1) (Z.min (max_y q) y1)
    [mkNode (left b) (top b) x1 y1 0 (split_x_first s)].
End Tree.

(** Specification for CSG: a ray and boolean solids. *)
From Verif Require Import CsgModel.

(** Primitive solids of a tree *)
Fixpoint prims (t : csg) : list nat :=
  match t with Prim i => [i] | Node _ _ ch => flat_map prims ch end.

(** Is a point inside the boolean solid?  [ins p]: is it inside primitive [p]? *)
Fixpoint inside (ins : nat -> bool) (t : csg) : bool :=
  match t with
  | Prim p => ins p
  | Node Union _ ch => existsb (inside ins) ch
  | Node Intersection _ ch => forallb (inside ins) ch
  | Node Difference _ ch =>
      match ch with [] => false | c :: r => inside ins c && forallb (fun d => negb (inside ins d)) r end
  end.

(** Crossing the surface of primitive [p] *)
Definition cross (p : nat) (ins : nat -> bool) : nat -> bool :=
  fun q => if q =? p then negb (ins q) else ins q.

Definition solid_of (forest : list csg) (p : nat) : option csg :=
  find (fun t => existsb (Nat.eqb p) (prims t)) forest.

(** Walk along the ray.  A hit that belongs to no solid is seen.  A hit on a primitive of a boolean solid is seen
    exactly if crossing it enters or leaves the boolean solid; nothing is attached to a solid afterwards. *)
Fixpoint seen {A} (forest : list csg) (ins : nat -> bool) (hits : list (option nat * A)) : list (option nat * A) :=
  match hits with
  | [] => []
  | (None, a) :: r => (None, a) :: seen forest ins r
  | (Some p, a) :: r =>
      let ins' := cross p ins in
      match solid_of forest p with
      | None => seen forest ins' r
      | Some t => if Bool.eqb (inside ins t) (inside ins' t) then seen forest ins' r
                  else (None, a) :: seen forest ins' r
      end
  end.

(** Every boolean operation has an operand.  (A node that is alive was kept alive by a child: children are never
    removed from the list, csgtree.h:87-91, and a node without children dies with its block, graphicsstate.cpp:194-220,
    leaving an expired pointer in its parent.) *)
Fixpoint operands_ok (t : csg) : bool :=
  match t with
  | Prim _ => true
  | Node _ _ ch => negb (match ch with [] => true | _ => false end) && forallb operands_ok ch
  end.

(** The trees are trees: no node occurs twice. *)
Definition forest_ok (forest : list csg) : Prop :=
  NoDup (flat_map ids forest) /\ forallb operands_ok forest = true.

(** Hits are attached to primitives (libs/core/geometry/surface.cpp:171-173). *)
Definition hits_ok {A} (forest : list csg) (hits : list (option nat * A)) : Prop :=
  forall p a, In (Some p, a) hits -> In p (flat_map prims forest).

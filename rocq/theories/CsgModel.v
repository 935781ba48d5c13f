(** Model of CSG resolution of the hits of one pixel sample (libs/core/csgtree.{h,cpp}, libs/core/imagepixel.cpp). *)
From Coq Require Export List Arith Bool Lia.
Export ListNotations.

(** csgtree.h:70-76; primitives have their own constructor below. *)
Inductive kind := Union | Intersection | Difference.

(** A CSG tree (csgtree.h:51-124): nodes are identified by a number (their address); [pParent] is implicit in the
    nesting.  A child whose weak pointer has expired (csgtree.cpp:107-110, 177-179) has no hits left and is the same as
    a primitive child without hits. *)
Inductive csg :=
| Prim (id : nat)
| Node (k : kind) (id : nat) (ch : list csg).

Definition rid (t : csg) : nat := match t with Prim i => i | Node _ i _ => i end.

(** A hit (imagepixel.h:70-105 SqImageSample): its CSG node, if any, and the rest. *)
Section Samples.
Context {A : Type}.
Definition sample := (option nat * A)%type.

(** csgtree.cpp:280-346 EvaluateState; reading element 0 of an empty vector is undefined *)
Definition eval_state (k : kind) (v : list bool) : option bool :=
  match k with
  | Union => Some (existsb (fun b => b) v)
  | Intersection => Some (forallb (fun b => b) v)
  | Difference => match v with
                  | [] => None
                  | a :: r => Some (a && negb (existsb (fun b => b) r))
                  end
  end.

(** csgtree.cpp:96-113 isChild: index of the first child with the given address *)
Fixpoint index_of (p : nat) (l : list nat) : option nat :=
  match l with
  | [] => None
  | q :: r => if q =? p then Some 0 else match index_of p r with Some i => Some (S i) | None => None end
  end.
Definition is_child (rids : list nat) (n : option nat) : option nat :=
  match n with None => None | Some p => index_of p rids end.

Fixpoint toggle (i : nat) (v : list bool) : list bool :=
  match v, i with
  | [], _ => []
  | b :: r, O => negb b :: r
  | b :: r, S j => b :: toggle j r
  end.

(** csgtree.cpp:210-243: the loop over the samples.  [aChildIndex[j]] was computed before the loop from the labels the
    samples have then (csgtree.cpp:194-206); a sample's label is changed only after it has been looked at, so it is
    computed here on the fly. *)
Fixpoint pass (k : kind) (label : option nat) (rids : list nat) (v : list bool) (cur : bool) (s : list sample)
  : option (list sample) :=
  match s with
  | [] => Some []
  | (n, a) :: r =>
      match is_child rids n with
      | None => match pass k label rids v cur r with Some r' => Some ((n, a) :: r') | None => None end
      | Some i =>
          let v' := toggle i v in
          match eval_state k v' with
          | None => None
          | Some new =>
              if Bool.eqb new cur then pass k label rids v' cur r
              else match pass k label rids v' new r with Some r' => Some ((label, a) :: r') | None => None end
          end
      end
  end.

(** csgtree.cpp:254-265 *)
Definition null_out (id : nat) (s : list sample) : list sample :=
  map (fun x => match fst x with Some p => if p =? id then (None, snd x) else x | None => x end) s.

(** csgtree.cpp:166-244 ProcessSampleList.  [top]: the node has no parent.  The initial child states are all false: the
    test in csgtree.cpp:200-201 (type is Primitive and type is Union) is never true. *)
Fixpoint process (top : bool) (t : csg) (s : list sample) : option (list sample) :=
  match t with
  | Prim id => Some (null_out id s)
  | Node k id ch =>
      match (fix children (cs : list csg) (s : list sample) : option (list sample) :=
               match cs with
               | [] => Some s
               | c :: r => match c with
                           | Prim _ => children r s
                           | Node _ _ _ => match process false c s with Some s' => children r s' | None => None end
                           end
               end) ch s with
      | None => None
      | Some s' =>
          let v := map (fun _ => false) ch in
          match eval_state k v with
          | None => None
          | Some cur => pass k (if top then None else Some id) (map rid ch) v cur s'
          end
      end
  end.

(** All node addresses of a tree *)
Fixpoint ids (t : csg) : list nat :=
  match t with Prim i => [i] | Node _ i ch => i :: flat_map ids ch end.

(** csgtree.cpp:144-154 ProcessTree: the tree a node belongs to is found by going up to the root.  [forest] holds all
    the trees there are; [None] if the node is in none of them. *)
Definition process_tree (forest : list csg) (p : nat) (s : list sample) : option (list sample) :=
  match find (fun t => existsb (Nat.eqb p) (ids t)) forest with
  | Some t => process true t s
  | None => None
  end.

(** imagepixel.cpp:171-188: process the tree of the first sample that has a node, until there is none. *)
Inductive result := Resolved (s : list sample) | Error | StillRunning.

Definition first_node (s : list sample) : option nat :=
  match find (fun x : sample => match fst x with Some _ => true | None => false end) s with
  | Some (n, _) => n
  | None => None
  end.

Fixpoint csg_loop (fuel : nat) (forest : list csg) (s : list sample) : result :=
  match first_node s with
  | None => Resolved s
  | Some p =>
      match fuel with
      | O => StillRunning
      | S f => match process_tree forest p s with
               | Some s' => csg_loop f forest s'
               | None => Error
               end
      end
  end.

End Samples.

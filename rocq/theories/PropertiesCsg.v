(** Properties C17 and C18: constructive solid geometry along a sample ray. *)
From Coq Require Import List Arith Bool.
From Verif Require Import CsgModel CsgSpec CsgProofs.
Import ListNotations.

(** C17.  For every collection of CSG trees and every list of hits (in the order along the ray) attached to their
    primitives or to nothing, the eye being outside every primitive, the hits left after CSG processing are, in order,
    exactly those seen according to the specification: the hits that belong to no solid and the hits at which the ray
    enters or leaves the boolean solid they belong to. *)
Theorem C17_csg_is_boundary_partial :
  forall (A : Type) (forest : list csg) (hits : list (option nat * A)),
  forest_ok forest -> hits_ok forest hits ->
  exists fuel, csg_loop fuel forest hits = Resolved (seen forest (fun _ => false) hits).
Proof. intros A forest hits F H. exists (length forest). exact (csg_resolves forest hits F H _ (le_n _)). Qed.
Print Assumptions C17_csg_is_boundary_partial.

(** C18.  The processing loop ends after at most as many rounds as there are trees, without error, and no remaining hit
    is attached to a solid. *)
Theorem C18_csg_terminates :
  forall (A : Type) (forest : list csg) (hits : list (option nat * A)),
  forest_ok forest -> hits_ok forest hits ->
  forall fuel, length forest <= fuel ->
  exists s, csg_loop fuel forest hits = Resolved s /\ forall n a, In (n, a) s -> n = None.
Proof.
  intros A forest hits F H fuel L. exists (seen forest (fun _ => false) hits).
  exact (conj (csg_resolves forest hits F H fuel L) (seen_free forest hits (fun _ => false))).
Qed.
Print Assumptions C18_csg_terminates.

(** Non-vacuity: a block (primitive 1) minus the union of two holes (2, 3), another solid (primitive 10) and a surface
    that is no solid.  Hits are labelled with letters' numbers. *)
Definition drilled : csg := Node Difference 0 [Prim 1; Node Union 4 [Prim 2; Prim 3]].
Definition ray : list (option nat * nat) :=
  [(Some 2, 100); (Some 1, 101); (Some 3, 102); (Some 2, 103); (None, 104); (Some 3, 105); (Some 10, 106);
   (Some 1, 107); (Some 10, 108)].

Example C17_case : forest_ok [drilled; Prim 10] /\ hits_ok [drilled; Prim 10] ray /\
  csg_loop 2 [drilled; Prim 10] ray = Resolved [(None, 104); (None, 105); (None, 106); (None, 107); (None, 108)].
Proof.
  split; [split; [|reflexivity]|split; [|reflexivity]].
  - simpl. repeat constructor; simpl; intuition discriminate.
  - intros p a H. simpl in H. repeat (destruct H as [H|H]; [inversion H; subst; simpl; auto 10|]). destruct H.
Qed.

(** The restriction to an eye outside all primitives is needed: inside primitive 1, which the ray leaves at the hit
    103, it sees the intersection of 1 and 2 at 101 and 102; the processing removes everything (the test for the
    starting state at csgtree.cpp:200-201 can never succeed). *)
Theorem C17_eye_inside_refuted :
  exists (forest : list csg) (hits : list (option nat * nat)),
    forest_ok forest /\ hits_ok forest hits /\
    seen forest (fun p => p =? 1) hits = [(None, 101); (None, 102)] /\
    csg_loop 5 forest hits = Resolved [].
Proof.
  exists [Node Intersection 0 [Prim 1; Prim 2]], [(Some 2, 101); (Some 2, 102); (Some 1, 103)].
  split; [split; [|reflexivity]|split; [|split; reflexivity]].
  - simpl. repeat constructor; simpl; intuition discriminate.
  - intros p a H. simpl in H. repeat (destruct H as [H|H]; [inversion H; subst; simpl; auto 10|]). destruct H.
Qed.
Print Assumptions C17_eye_inside_refuted.

(** C29: recycling pixels through the pool is invisible. *)

From Coq Require Import List Arith Bool ZArith Lia.
From Verif Require Import PixelModel PixelSpec PixelProofs.
Import ListNotations.

(** Any use of pixels that is correct when every allocation makes a new blank
    pixel (first premise) runs without touching a deleted pixel, a null
    pointer or storage out of range when pixels are recycled, and every
    pointer shows the same hits, occluding hit, depth and flag. *)
Theorem C29_pool_is_invisible_partial : forall (N W n : nat) (ops : list op) (v : vmach),
  0 < W ->
  Forall writes_all ops ->
  vrun N W ops (vstart n) = Some v ->
  exists m, run N W ops (start n) = Some m /\ forall k, read_slot W m k = vread v k.
Proof. intros N W n ops v H. exact (pool_invisible N W H n ops v). Qed.
Print Assumptions C29_pool_is_invisible_partial.

(** Whatever the client does, a live pixel has exactly as many references as
    there are pointers to it, at least one (no leak), and a deleted pixel has
    none (no dangling pointer). *)
Theorem C29_references_are_exact : forall (N W n : nat) (ops : list op) (m : mach),
  0 < W ->
  run N W ops (start n) = Some m ->
  forall a, match nth_error (m_heap m) a with
            | Some (Some (rc, _)) => rc = holders m a /\ 0 < rc
            | _ => holders m a = 0
            end.
Proof. intros N W n ops m H. exact (references_exact N W H n ops m). Qed.
Print Assumptions C29_references_are_exact.

(** Two pixels: one is cached and applied again, one goes through the pool and
    comes back.  Both are used, in both kinds of storage, and collapsed. *)
Definition C29_story : list op :=
  [ OAlloc 0; OStore 0 1 false None [Some 5; Some 6]%Z;
    OStore 0 1 true (Some 9%Z) [Some 9; Some 1]%Z; OCombine 0 1 [1; 0] [Some 3; None]%Z;
    OCopy 2 0;                     (* kept by a cache segment *)
    OAlloc 0; OStore 0 0 true (Some 4%Z) [Some 4; Some 4]%Z;
    OFree 0;                       (* goes into the pool *)
    OAlloc 1;                      (* the same storage again *)
    OStore 1 0 false None [Some 7; None]%Z;
    OFree 2;                       (* the only pointer: into the pool *)
    OAlloc 2; OCopy 0 2; OFree 2;  (* shared: nothing happens *)
    OReset 1 ].

Example C29_story_is_correct_use :
  Forall writes_all C29_story /\ exists v, vrun 2 2 C29_story (vstart 3) = Some v.
Proof.
  split.
  - repeat constructor; discriminate.
  - eexists. vm_compute. reflexivity.
Qed.

(** The pool does recycle in this story: two pixels are made, not four. *)
Example C29_story_recycles :
  option_map (fun m => length (m_heap m)) (run 2 2 C29_story (start 3)) = Some 2 /\
  option_map (fun v => length (v_heap v)) (vrun 2 2 C29_story (vstart 3)) = Some 4.
Proof. split; vm_compute; reflexivity. Qed.

(** Finding: a surface that does not have an output variable (StoreExtraData
    skips it) shows, in the occluding storage, the value of an earlier and now
    hidden hit, or of another pixel altogether: the second component read back
    is 6, the value of the hidden hit, rather than 0.  The list storage does
    not have the defect. *)
Theorem C29_missing_output_variable_refuted :
  exists ops, match vrun 1 2 ops (vstart 1), run 1 2 ops (start 1) with
    | Some v, Some m => vread v 0 = Some ([([], Some [3; 0]%Z, Some 3%Z)], true) /\
                        read_slot 2 m 0 = Some ([([], Some [3; 6]%Z, Some 3%Z)], true)
    | _, _ => False
    end.
Proof.
  exists [OAlloc 0; OStore 0 0 true (Some 5%Z) [Some 5; Some 6]%Z; OFree 0; OAlloc 0;
          OStore 0 0 true (Some 3%Z) [Some 3%Z; None]].
  vm_compute. split; reflexivity.
Qed.
Print Assumptions C29_missing_output_variable_refuted.

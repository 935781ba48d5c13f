(** Property C14: running-state bit vectors behave as sets of shading points. *)
From Coq Require Import List Bool Arith NArith.
From Verif Require Import BitVectorModel BitVectorSpec BitVectorProofs.
Import ListNotations.

(** Registers of [n > 0] bits are constructed (with arbitrary memory contents [j]) and set to all-true or all-false.
    Any program of set, toggle, complement, intersect, union, difference and assignment operations then has the effect
    of the corresponding operation on lists of booleans; size, every bit and the population count are compared; an
    out-of-range element or register is an error on both sides and on neither otherwise. *)
Theorem C14_bitvectors_are_sets :
  forall (j : junk) (n : nat) (bs : list bool) (p : list bop), 0 < n ->
  exists rf, map (fun b => set_all b (construct j n)) bs = map Some rf /\
             agree (brun j rf p) (spec_run (map (fun b => repeat b n) bs) p).
Proof. exact bitvector_program_correct. Qed.
Print Assumptions C14_bitvectors_are_sets.

(** Outside the property (equal lengths): operands of different byte counts lose the left operand's contents. *)
Theorem C14_intersect_different_sizes_refuted :
  exists v w, observes v (repeat true 16) /\ observes w (repeat true 8) /\
    exists j r, intersect j v w = Some r /\ value 0 r = Some false.
Proof. exact intersect_sizes_junk. Qed.
Print Assumptions C14_intersect_different_sizes_refuted.

Theorem C14_union_different_sizes_refuted :
  exists v w, observes v (repeat true 8) /\ observes w (repeat true 16) /\
    exists j r, union j v w = Some r /\ value 8 r = Some false.
Proof. exact union_sizes_junk. Qed.
Print Assumptions C14_union_different_sizes_refuted.

Theorem C14_count_after_shrink_refuted :
  exists v, observes v (repeat true 8) /\ forall j, len (set_size j 1 v) = 1 /\ count (set_size j 1 v) = Some 8.
Proof. exact shrink_count. Qed.
Print Assumptions C14_count_after_shrink_refuted.

(** Non-vacuity: eleven shading points, two registers, a run that ends normally with a non-trivial pattern. *)
Example C14_case :
  let j := fun i => N.of_nat (i * 37 + 5) in
  match map (fun b => set_all b (construct j 11)) [true; false] with
  | [Some a; Some b] =>
      match brun j [a; b] [BSetValue 0 3 false; BSetValue 1 9 true; BComplement 1; BIntersect 0 1; BToggle 1 0] with
      | Some [x; y] => (count x, count y, value 3 x, value 9 x, value 10 x, value 11 x)
                       = (Some 9, Some 9, Some false, Some false, Some true, None)
      | _ => False
      end
  | _ => False
  end.
Proof. vm_compute. reflexivity. Qed.

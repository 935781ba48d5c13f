(** What a client of pixels relies on, stated without reference counts, pool,
    shared storage or indices: every allocation gives a brand new blank pixel
    of its own, a pixel lives as long as somebody needs it, and a hit holds the
    values written to it (0 for values that were not written). *)

From Coq Require Import List Arith Bool ZArith.
From Verif Require Import PixelModel.
Import ListNotations.

Section Spec.
  Variables N W : nat.

  (** A sample: the hits in its list, its occluding hit, its occluding depth,
      and whether it has been collapsed since it was last blank. *)
  Record asample := mkA {
    a_hits : list (list Z); a_occl : option (list Z); a_z : option Z; a_done : bool }.

  Definition apixel := (list asample * bool)%type.

  Definition blank : apixel := (repeat (mkA [] None None false) N, false).

  (** [v_heap]: all pixels ever made.  [v_slots]: who points where. *)
  Record vmach := mkV { v_heap : list apixel; v_slots : list (option nat) }.

  Definition vstart (n : nat) : vmach := mkV [] (repeat None n).

  Definition written (w : list (option Z)) : list Z := merge w (repeat 0%Z W).

  (** Recording a hit.  It is a client error to record into a collapsed
      sample. *)
  Definition astore (i : nat) (occluding : bool) (z : option Z) (w : list (option Z))
      (p : apixel) : option apixel :=
    match nth_error (fst p) i with
    | None => None
    | Some s =>
        if a_done s || negb (length w =? W) then None
        else
          Some (lset i (if occluding then mkA (a_hits s) (Some (written w)) z false
                        else mkA (a_hits s ++ [written w]) (a_occl s) (a_z s) false) (fst p),
                true)
    end.

  Fixpoint nodupb (l : list nat) : bool :=
    match l with [] => true | x :: t => negb (existsb (Nat.eqb x) t) && nodupb t end.

  (** Collapsing a sample.  It is a client error to do so twice. *)
  Definition acombine (i : nat) (order : list nat) (w : list (option Z)) (p : apixel)
      : option apixel :=
    match nth_error (fst p) i with
    | None => None
    | Some s =>
        if a_done s || negb (length w =? W) || negb (nodupb order) then None
        else
          match a_hits s with
          | [] => Some (lset i (mkA [] (option_map (merge w) (a_occl s)) (a_z s) true) (fst p), snd p)
          | _ :: _ =>
              match pick (a_hits s ++ match a_occl s with Some o => [o] | None => [] end) order with
              | None => None
              | Some [] => Some (lset i (mkA [] (a_occl s) (a_z s) true) (fst p), snd p)
              | Some (h :: t) =>
                  Some (lset i (mkA (merge w h :: t) (Some (merge w h)) (a_z s) true) (fst p), snd p)
              end
          end
    end.

  Definition vthrough (k : nat) (f : apixel -> option apixel) (v : vmach) : option vmach :=
    match nth_error (v_slots v) k with
    | Some (Some id) =>
        match nth_error (v_heap v) id with
        | Some p => match f p with
                    | Some p' => Some (mkV (lset id p' (v_heap v)) (v_slots v))
                    | None => None
                    end
        | None => None
        end
    | _ => None
    end.

  Definition points_to (id : nat) (s : option nat) : bool :=
    match s with Some x => x =? id | None => false end.

  (** [None]: the client uses a pointer or slot it does not have, or makes
      one of the errors above. *)
  Definition vstep (o : op) (v : vmach) : option vmach :=
    match o with
    | OAlloc k =>
        if k <? length (v_slots v) then
          Some (mkV (v_heap v ++ [blank]) (lset k (Some (length (v_heap v))) (v_slots v)))
        else None
    | OFree k =>
        match nth_error (v_slots v) k with
        | Some (Some id) =>
            if length (filter (points_to id) (v_slots v)) =? 1
            then Some (mkV (v_heap v) (lset k None (v_slots v)))
            else Some v
        | _ => None
        end
    | OCopy k j =>
        match nth_error (v_slots v) j with
        | Some x => if k <? length (v_slots v)
                    then Some (mkV (v_heap v) (lset k x (v_slots v))) else None
        | None => None
        end
    | OReset k => if k <? length (v_slots v)
                  then Some (mkV (v_heap v) (lset k None (v_slots v))) else None
    | OClear k => vthrough k (fun _ => Some blank) v
    | OStore k i occ z w => vthrough k (astore i occ z w) v
    | OCombine k i order w => vthrough k (acombine i order w) v
    end.

  Fixpoint vrun (ops : list op) (v : vmach) : option vmach :=
    match ops with
    | [] => Some v
    | o :: r => match vstep o v with Some v' => vrun r v' | None => None end
    end.

  (** What can be read through slot [k]. *)
  Definition vread (v : vmach) (k : nat) :=
    match nth_error (v_slots v) k with
    | Some (Some id) =>
        match nth_error (v_heap v) id with
        | Some p => Some (map (fun s => (a_hits s, a_occl s, a_z s)) (fst p), snd p)
        | None => None
        end
    | _ => None
    end.
End Spec.

(** Every value of a hit in the occluding storage is written. *)
Definition writes_all (o : op) : Prop :=
  match o with
  | OStore _ _ true _ w => Forall (fun x => x <> None) w
  | _ => True
  end.

(** Who holds a pointer to pixel [a]. *)
Definition holders (m : mach) (a : nat) : nat :=
  length (filter (points_to a) (m_slots m)) + count_occ Nat.eq_dec (m_pool m) a.

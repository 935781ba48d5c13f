(** Specification of bit vectors: plain lists of booleans. *)
From Coq Require Import List Bool.
From Verif Require Import BitVectorModel.
Import ListNotations.

Definition map2 {A B C} (f : A -> B -> C) (l : list A) (m : list B) : list C :=
  map (fun p => f (fst p) (snd p)) (combine l m).

(** Set meaning of each operation, on a file of registers of booleans. *)
Definition spec_step (rf : list (list bool)) (o : bop) : option (list (list bool)) :=
  let un r f := match nth_error rf r with Some l => Some (updg rf r (f l)) | None => None end in
  let bin r s f := match nth_error rf r, nth_error rf s with
                   | Some l, Some m => Some (updg rf r (f l m)) | _, _ => None end in
  match o with
  | BSetAll r x => un r (map (fun _ => x))
  | BSetValue r i x =>
      match nth_error rf r with
      | Some l => if Nat.ltb i (length l) then Some (updg rf r (updg l i x)) else None
      | None => None end
  | BToggle r i =>
      match nth_error rf r with
      | Some l => match nth_error l i with
                  | Some b => Some (updg rf r (updg l i (negb b))) | None => None end
      | None => None end
  | BComplement r => un r (map negb)
  | BIntersect r s => bin r s (map2 andb)
  | BUnion r s => bin r s (map2 orb)
  | BDifference r s => bin r s (map2 xorb)
  | BAssign r s => bin r s (fun _ m => m)
  end.

Fixpoint spec_run (rf : list (list bool)) (p : list bop) : option (list (list bool)) :=
  match p with
  | [] => Some rf
  | o :: p' => match spec_step rf o with Some rf' => spec_run rf' p' | None => None end
  end.

(** What a user observes of a vector: its size, the value of each bit and the count. *)
Definition observes (v : bv) (l : list bool) : Prop :=
  len v = length l /\
  (forall i, i < length l -> value i v = nth_error l i) /\
  count v = Some (length (filter (fun b => b) l)).

Definition agree (a : option (list bv)) (b : option (list (list bool))) : Prop :=
  match a, b with
  | Some rf, Some sf => Forall2 observes rf sf
  | None, None => True
  | _, _ => False
  end.

(** C21: key frames behave as an ordered map from times to values with clamped linear interpolation. *)
From Verif Require Import MotionModel MotionSpec MotionProofs.
Open Scope Z_scope.

(** After any sequence of operations: no vector access is out of range; the slots are exactly the keys in increasing
    order; if there is a key, the interpolated value at every time is the one prescribed, and the exact lookup returns
    the key's value. *)
Theorem C21_keyframes : forall T (concat : T -> T -> T) (lerp : Q -> T -> T -> T) l d,
  exists s, mexec_all T concat l (new_spec d) = Some s /\
    let m := fst (effects T concat l d) in
    def_object s = snd (effects T concat l d) /\
    enumerates T m (times s) /\
    (forall i, (i < length (times s))%nat -> slot_time T (Z.of_nat i) s = nth i (times s) 0) /\
    ((exists k, m k <> None) -> forall t,
       (exists v, get_interpolated T lerp t s = Some v /\ value_at T lerp m t v) /\
       (forall v, m t = Some v -> get_motion_object T t s = Some v)).
Proof. exact motion_refines. Qed.
Print Assumptions C21_keyframes.

(** Keys given out of order, a replaced key and a concatenation onto a new and an old key. *)
Definition ops_ex : list (mop Q) := [Add 8 1%Q; Add 2 5%Q; Add 8 3%Q; Concat 4 7%Q; Concat 2 1%Q].
Definition lerp_ex (f a b : Q) : Q := Qred ((1 - f) * a + f * b).

Example C21_case :
  match mexec_all Q Qplus ops_ex (new_spec 0%Q) with
  | Some s => times s = [2; 4; 8] /\
      map (fun t => get_interpolated Q lerp_ex t s) [0; 2; 3; 5; 9] =
      [Some (6 # 1); Some (6 # 1); Some (13 # 2); Some (6 # 1); Some (3 # 1)]%Q
  | None => False
  end.
Proof. vm_compute. repeat split; reflexivity. Qed.

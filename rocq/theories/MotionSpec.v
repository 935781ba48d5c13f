(** Specification of key frames: a finite map from times to values. *)
From Verif Require Import MotionModel.
Open Scope Z_scope.

Section MotionSpec.
Variable T : Type.
Variable concat : T -> T -> T.
Variable lerp : Q -> T -> T -> T.

Definition keymap := time -> option T.
Definition put (m : keymap) (t : time) (v : T) : keymap := fun k => if k =? t then Some v else m k.

(** What each operation does to the key frames and the default value. *)
Definition effect (o : mop T) (md : keymap * T) : keymap * T :=
  let (m, d) := md in
  match o with
  | Add t v => (put m t v, d)
  | Concat t v => (put m t (concat (match m t with Some x => x | None => d end) v), d)
  | ConcatAll v => (fun k => option_map (fun x => concat x v) (m k), d)
  | SetDefault v => (m, v)
  | Reset => (fun _ => None, d)
  end.

Definition effects (l : list (mop T)) (d : T) : keymap * T := fold_left (fun md o => effect o md) l (fun _ => None, d).

(** The value at time [t]: the key's own value; before the first or after the last key, that key's value; between two
    neighbouring keys, the linear interpolation at the right fraction. *)
Inductive value_at (m : keymap) (t : time) : T -> Prop :=
| at_key : forall v, m t = Some v -> value_at m t v
| before_first : forall k v, t < k -> m k = Some v -> (forall k', k' < k -> m k' = None) -> value_at m t v
| after_last : forall k v, k < t -> m k = Some v -> (forall k', k < k' -> m k' = None) -> value_at m t v
| between : forall k1 k2 v1 v2, k1 < t < k2 -> m k1 = Some v1 -> m k2 = Some v2 ->
    (forall k, k1 < k < k2 -> m k = None) ->
    value_at m t (lerp (inject_Z (t - k1) / inject_Z (k2 - k1))%Q v1 v2).

(** An increasing enumeration of all the keys. *)
Definition enumerates (m : keymap) (ts : list time) : Prop :=
  (forall i j, (i < j < length ts)%nat -> nth i ts 0 < nth j ts 0) /\ (forall k, In k ts <-> m k <> None).
End MotionSpec.

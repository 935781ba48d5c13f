(** Model of motion-blur key frames (libs/core/motion.h, class CqMotionSpec). *)
From Coq Require Export ZArith List QArith Lia.
Export ListNotations.
Open Scope Z_scope.

(** A time is a finite single precision number, represented by the integer it is a multiple of 2^-149 of; NaN and
    infinite times are not modelled.  The fraction handed to the interpolation is exact (not rounded). *)
Definition time := Z.

Section Motion.
Variable T : Type.
(** ConcatMotionObjects and LinearInterpolateMotionObjects, motion.h:286-289, are pure virtual *)
Variable concat : T -> T -> T.
Variable lerp : Q -> T -> T -> T.

(** motion.h:292-294 *)
Record mspec := mkspec { times : list time; objects : list T; def_object : T }.

(** motion.h:47-51 constructor *)
Definition new_spec (a : T) : mspec := mkspec [] [] a.

(** motion.h:205-215 TimeSlotExists; [Some i] is "true with iIndex = i" *)
Fixpoint slot_exists_from (t : time) (ts : list time) (i : nat) : option nat :=
  match ts with
  | [] => None
  | x :: ts => if t =? x then Some i else slot_exists_from t ts (S i)
  end.
Definition time_slot_exists (t : time) (s : mspec) : option nat := slot_exists_from t (times s) 0.

(** vector element assignment; outside the vector is an error *)
Fixpoint set_nth (i : nat) (v : T) (l : list T) : option (list T) :=
  match i, l with
  | _, [] => None
  | O, _ :: l => Some (v :: l)
  | S i, x :: l => match set_nth i v l with Some l' => Some (x :: l') | None => None end
  end.

(** motion.h:102-108: the two iterators advance together; the object iterator must stay inside its vector *)
Fixpoint insert_slot (t : time) (o : T) (ts : list time) (os : list T) : option (list time * list T) :=
  match ts with
  | [] => match os with [] => Some ([t], [o]) | _ => None end
  | x :: ts' =>
      if x <? t then
        match os with
        | [] => None
        | y :: os' => match insert_slot t o ts' os' with Some (a, b) => Some (x :: a, y :: b) | None => None end
        end
      else Some (t :: ts, o :: os)
  end.

(** motion.h:86-111 AddTimeSlot (ClearMotionObject only resets the value that is overwritten) *)
Definition add_time_slot (t : time) (o : T) (s : mspec) : option mspec :=
  match times s with
  | [] => Some (mkspec (times s ++ [t]) (objects s ++ [o]) (def_object s))
  | _ =>
      match time_slot_exists t s with
      | Some i => match set_nth i o (objects s) with
                  | Some os => Some (mkspec (times s) os (def_object s)) | None => None end
      | None => match insert_slot t o (times s) (objects s) with
                | Some (ts, os) => Some (mkspec ts os (def_object s)) | None => None end
      end
  end.

(** [m_aObjects[i] = ConcatMotionObjects(m_aObjects[i], Object)] *)
Definition concat_at (i : nat) (o : T) (s : mspec) : option mspec :=
  match nth_error (objects s) i with
  | None => None
  | Some x => match set_nth i (concat x o) (objects s) with
              | Some os => Some (mkspec (times s) os (def_object s)) | None => None end
  end.

(** motion.h:117-130 ConcatTimeSlot *)
Definition concat_time_slot (t : time) (o : T) (s : mspec) : option mspec :=
  match time_slot_exists t s with
  | Some i => concat_at i o s
  | None =>
      match add_time_slot t (def_object s) s with
      | None => None
      | Some s1 => match time_slot_exists t s1 with
                   | Some i => concat_at i o s1
                   | None => concat_at (length (times s1)) o s1   (* iIndex runs to cTimes() *)
                   end
      end
  end.

(** motion.h:134-138 *)
Definition concat_all (o : T) (s : mspec) : mspec :=
  mkspec (times s) (map (fun x => concat x o) (objects s)) (def_object s).

(** motion.h:143-154 Time *)
Definition slot_time (i : Z) (s : mspec) : time :=
  match times s with
  | [] => 0
  | x :: ts => if i <? 0 then x
               else if i <? Z.of_nat (length (times s)) then nth (Z.to_nat i) (times s) 0
               else last (times s) 0
  end.

(** motion.h:190-193: the search; running off the end of the vector is an error *)
Fixpoint search_span (t : time) (ts : list time) (i : nat) : option nat :=
  match ts with
  | _ :: ((y :: _) as ts') => if y <=? t then search_span t ts' (S i) else Some i
  | _ => None
  end.

(** motion.h:176-199 GetTimeSlot: exactness, index and fraction *)
Definition get_time_slot (t : time) (s : mspec) : option (bool * nat * Q) :=
  match times s with
  | [] => None                                     (* assert( cTimes() > 0 ) *)
  | f :: _ =>
      if last (times s) 0 <=? t then Some (true, length (times s) - 1, 0%Q)%nat
      else if t <=? f then Some (true, 0%nat, 0%Q)
      else match search_span t (times s) 0 with
           | None => None
           | Some i =>
               match nth_error (times s) i, nth_error (times s) (i + 1) with
               | Some a, Some b => Some (a =? t, i, inject_Z (t - a) / inject_Z (b - a))%Q
               | _, _ => None
               end
           end
  end.

(** motion.h:220-228 GetMotionObjectInterpolated *)
Definition get_interpolated (t : time) (s : mspec) : option T :=
  match get_time_slot t s with
  | None => None
  | Some (true, i, _) => nth_error (objects s) i
  | Some (false, i, fr) =>
      match nth_error (objects s) i, nth_error (objects s) (i + 1) with
      | Some a, Some b => Some (lerp fr a b)
      | _, _ => None
      end
  end.

(** motion.h:234-245 GetMotionObject(time): only for exact times *)
Definition get_motion_object (t : time) (s : mspec) : option T :=
  match get_time_slot t s with
  | Some (true, i, _) => nth_error (objects s) i
  | _ => None
  end.

(** The mutating operations: AddTimeSlot, ConcatTimeSlot, ConcatAllTimeSlots, SetDefaultObject (motion.h:265-268),
    Reset (273-280) *)
Inductive mop := Add (t : time) (o : T) | Concat (t : time) (o : T) | ConcatAll (o : T) | SetDefault (o : T) | Reset.

Definition mexec (o : mop) (s : mspec) : option mspec :=
  match o with
  | Add t x => add_time_slot t x s
  | Concat t x => concat_time_slot t x s
  | ConcatAll x => Some (concat_all x s)
  | SetDefault x => Some (mkspec (times s) (objects s) x)
  | Reset => Some (mkspec [] [] (def_object s))
  end.

Fixpoint mexec_all (l : list mop) (s : mspec) : option mspec :=
  match l with
  | [] => Some s
  | o :: l => match mexec o s with Some s' => mexec_all l s' | None => None end
  end.
End Motion.

Arguments Add {T}. Arguments Concat {T}. Arguments ConcatAll {T}. Arguments SetDefault {T}. Arguments Reset {T}.
Arguments new_spec {T}. Arguments times {T}. Arguments objects {T}. Arguments def_object {T}. Arguments mkspec {T}.

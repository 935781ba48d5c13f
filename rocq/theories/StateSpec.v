(** Specification of the graphics state: values are saved when a block is opened and restored when it is closed.
    There are no pointers, no sharing and no reference counts here. *)
From Verif Require Import StateModel.

(** attribute values: named parameters and plain fields (shaders) *)
Record avalue := mkav { av_param : nat -> nat -> option Z; av_field : nat -> option Z }.
Definition ovalue := nat -> nat -> option Z.
Definition set2 (f : nat -> nat -> option Z) (n p : nat) (v : Z) : nat -> nat -> option Z :=
  fun n' p' => if (n' =? n) && (p' =? p) then Some v else f n' p'.
Definition set1 (f : nat -> option Z) (k : nat) (v : Z) : nat -> option Z :=
  fun k' => if k' =? k then Some v else f k'.

Section Spec.
Variable T : Type.
Variable world_copy : Z -> T -> T.
Variable motion_copy : T -> T.
Variable identity : T.

(** the whole graphics state as values; [g_stack] are the options set aside by push *)
Record gstate := mkg { g_attr : avalue; g_trans : T; g_opt : ovalue; g_stack : list ovalue }.
(** an open block: its kind, its motion times still to come, and the state when it was opened *)
Record open_block := mkopen { ob_type : btype; ob_times : list Z; ob_saved : gstate }.
Record sstate := mks { s_cur : gstate; s_open : list open_block; s_prims : list (avalue * T); s_pins : list ovalue }.

(** kind of the innermost open block *)
Definition kind (s : sstate) : btype := match s_open s with [] => BMain | b :: _ => ob_type b end.
Definition time_now (s : sstate) : Z :=
  match s_open s with
  | mkopen BMotion ts _ :: _ => hd 0%Z ts
  | _ => match g_opt (s_cur s) n_system p_shutter with Some v => v | None => 0%Z end
  end.

(** what closing a block brings back from [old], and what it keeps from [now] *)
Definition restore (ty : btype) (old now : gstate) : gstate :=
  match ty with
  | BFrame => old
  | BWorld | BAttribute | BSolid => mkg (g_attr old) (g_trans old) (g_opt now) (g_stack now)
  | BTransform => mkg (g_attr now) (g_trans old) (g_opt now) (g_stack now)
  | BMain | BMotion => now
  end.

Definition with_cur (s : sstate) (g : gstate) : sstate := mks g (s_open s) (s_prims s) (s_pins s).

Definition sexec (o : op T) (s : sstate) : option sstate :=
  let g := s_cur s in
  match o with
  | OBegin _ ty times =>
      if allows (kind s) ty then
        let t := match ty with
          | BWorld => world_copy (time_now s) (g_trans g)
          | BMotion => motion_copy (g_trans g)
          | _ => g_trans g end in
        Some (mks (mkg (g_attr g) t (g_opt g) (match ty with BFrame => [] | _ => g_stack g end))
                  (mkopen ty times g :: s_open s) (s_prims s) (s_pins s))
      else Some s
  | OEnd _ ty =>
      if btype_eqb (kind s) ty then
        match s_open s with
        | [] => None
        | b :: bs => Some (mks (restore ty (ob_saved b) g) bs (s_prims s) (s_pins s))
        end
      else Some s
  | OAttr _ n p v =>
      Some (with_cur s (mkg (mkav (set2 (av_param (g_attr g)) n p v) (av_field (g_attr g)))
                            (g_trans g) (g_opt g) (g_stack g)))
  | OShader _ k v =>
      Some (with_cur s (mkg (mkav (av_param (g_attr g)) (set1 (av_field (g_attr g)) k v))
                            (g_trans g) (g_opt g) (g_stack g)))
  | OTrim _ _ => Some s                      (* trim curves are not part of this specification *)
  | OTransform _ f =>
      let g' := mkg (g_attr g) (f (is_motion (kind s)) (time_now s) (g_trans g)) (g_opt g) (g_stack g) in
      match s_open s with
      | mkopen BMotion ts old :: bs =>
          match ts with
          | [] => None                       (* more transformations than times *)
          | _ :: ts => Some (mks g' (mkopen BMotion ts old :: bs) (s_prims s) (s_pins s))
          end
      | _ => Some (with_cur s g')
      end
  | OOption _ n p v => Some (with_cur s (mkg (g_attr g) (g_trans g) (set2 (g_opt g) n p v) (g_stack g)))
  | OPushOptions _ => Some (with_cur s (mkg (g_attr g) (g_trans g) (g_opt g) (g_opt g :: g_stack g)))
  | OPopOptions _ =>
      match g_stack g with
      | [] => None
      | o :: os => Some (with_cur s (mkg (g_attr g) (g_trans g) o os))
      end
  | OPrim _ => Some (mks g (s_open s) ((g_attr g, g_trans g) :: s_prims s) (s_pins s))
  | OFreePrim _ k => Some (mks g (s_open s) (remove_nth k (s_prims s)) (s_pins s))
  | OPin _ => Some (mks g (s_open s) (s_prims s) (g_opt g :: s_pins s))
  | OUnpin _ k => Some (mks g (s_open s) (s_prims s) (remove_nth k (s_pins s)))
  end.

Fixpoint srun (l : list (op T)) (s : sstate) : option sstate :=
  match l with
  | [] => Some s
  | o :: l => match sexec o s with Some s => srun l s | None => None end
  end.

Definition defaults (d : plist) : nat -> nat -> option Z := fun n p => if n =? n_system then find p d else None.
Definition sstart (adef odef : plist) : sstate :=
  mks (mkg (mkav (defaults adef) (fun _ => None)) identity (defaults odef) []) [] [] [].

(** The model's state and the specification's look the same to every observer: current state, and everything kept by
    primitives and by holders of options. *)
Definition same_view (st : state T) (s : sstate) : Prop :=
  (forall n p, cur_param T st n p = av_param (g_attr (s_cur s)) n p) /\
  (forall k, cur_field T st k = av_field (g_attr (s_cur s)) k) /\
  cur_trans T identity st = g_trans (s_cur s) /\
  (forall n p, cur_option T st n p = g_opt (s_cur s) n p) /\
  (forall k, match nth_error (s_prims s) k with
     | Some (a, t) => (forall n p, prim_param T st k n p = av_param a n p) /\
                      (forall j, prim_field T st k j = av_field a j) /\ prim_trans T st k = Some t
     | None => nth_error (prims T st) k = None end) /\
  (forall k, match nth_error (s_pins s) k with
     | Some o => forall n p, pin_param T st k n p = o n p
     | None => nth_error (pins T st) k = None end).

(** Well-nested requests: every block that is opened is one its surroundings accept and is closed by its own kind of
    end request.  [enclosing] is the kind of the innermost open block. *)
Inductive nested (enclosing : btype) : list (op T) -> Prop :=
| n_nil : nested enclosing []
| n_op : forall o l, match o with OBegin _ _ _ | OEnd _ _ => False | _ => True end ->
    nested enclosing l -> nested enclosing (o :: l)
| n_block : forall ty times body l, allows enclosing ty = true ->
    nested ty body -> nested enclosing l ->
    nested enclosing (OBegin T ty times :: body ++ OEnd T ty :: l).

(** The kind of the innermost block of a model state. *)
Definition cur_kind (st : state T) : btype :=
  match blocks T st with b :: _ => b_type T b | [] => BMain end.

(** Closing restores.  [before] is the state in which the block was opened, [inside] the state just before it is
    closed, [after] the state when it has been closed. *)
Definition attrs_equal (a b : state T) : Prop :=
  (forall n p, cur_param T a n p = cur_param T b n p) /\ (forall k, cur_field T a k = cur_field T b k).
Definition opts_equal (a b : state T) : Prop := forall n p, cur_option T a n p = cur_option T b n p.
Definition trans_equal (a b : state T) : Prop := cur_trans T identity a = cur_trans T identity b.

Definition closes (ty : btype) (before inside after : state T) : Prop :=
  match ty with
  | BFrame => attrs_equal after before /\ trans_equal after before /\ opts_equal after before
  | BWorld | BAttribute | BSolid =>
      attrs_equal after before /\ trans_equal after before /\ opts_equal after inside
  | BTransform => attrs_equal after inside /\ trans_equal after before /\ opts_equal after inside
  | BMotion => attrs_equal after inside /\ trans_equal after inside /\ opts_equal after inside
  | BMain => True
  end.
End Spec.

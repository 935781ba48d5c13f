(** Model of the graphics state: mode blocks (libs/core/api/graphicsstate.{h,cpp}), their management by CqRenderer
    (libs/core/renderer.cpp:165-663) and the copy-on-write attribute and option objects
    (libs/core/attributes.{h,cpp}, libs/core/options.{h,cpp}, libs/core/parameters.h).
    The session modelled is the part between RiBegin and RiEnd.  Shared pointers are indices into a store; their
    reference counts are obtained by counting the holders. *)
From Coq Require Export ZArith List Bool Arith Lia.
Export ListNotations.

(** ** Copy-on-write objects *)

(** parameters.h:1644: the map of a CqNamedParameterList, from parameter names to values.  Names are numbers and
    values integers; the typing of parameters is not modelled. *)
Definition plist := list (nat * Z).

(** attributes.h:468-479 and options.h (end): named lists are held by shared pointer (here: an index); the shader
    pointers are plain fields; trim curves only exist in attributes. *)
Record obj := mkobj { o_lists : list (nat * nat); o_fields : list (nat * Z); o_trim : list Z }.
Record store := mkstore { s_objs : list obj; s_lists : list plist }.

Definition no_obj := mkobj [] [] [].
Definition get_obj (s : store) (id : nat) : obj := nth id (s_objs s) no_obj.

(** std::map find, and insertion or replacement *)
Fixpoint find {A} (k : nat) (l : list (nat * A)) : option A :=
  match l with [] => None | (k', v) :: l => if k =? k' then Some v else find k l end.
Fixpoint put {A} (k : nat) (v : A) (l : list (nat * A)) : list (nat * A) :=
  match l with
  | [] => [(k, v)]
  | (k', v') :: l => if k =? k' then (k, v) :: l else (k', v') :: put k v l
  end.
Fixpoint upd {A} (i : nat) (v : A) (l : list A) {struct l} : list A :=
  match l, i with [], _ => [] | _ :: l, O => v :: l | x :: l, S i => x :: upd i v l end.

(** shared_ptr::use_count of an object whose holders are [hs] (with repetitions) *)
Definition uses (hs : list nat) (id : nat) : nat := count_occ Nat.eq_dec hs id.
(** shared_ptr::use_count of a named list: only objects that are still held count, the others are destroyed *)
Definition list_uses (s : store) (hs : list nat) (lid : nat) : nat :=
  count_occ Nat.eq_dec (flat_map (fun id => map snd (o_lists (get_obj s id))) (nodup Nat.eq_dec hs)) lid.

(** attributes.cpp:138-145 and 173-198: the copy constructor shares the named lists, copies the shader pointers and
    light list, and leaves the trim curves empty.  options.cpp copies likewise. *)
Definition copy_obj (s : store) (id : nat) : store * nat :=
  let o := get_obj s id in
  (mkstore (s_objs s ++ [mkobj (o_lists o) (o_fields o) []]) (s_lists s), length (s_objs s)).

(** attributes.h:73-80 Write: [pWrite] is one more reference *)
Definition attr_write (s : store) (hs : list nat) (id : nat) : store * nat :=
  if 2 <? S (uses hs id) then copy_obj s id else (s, id).

(** graphicsstate.h:326-331 and 396-401 poptWriteCurrent *)
Definition opt_write (s : store) (hs : list nat) (id : nat) : store * nat :=
  if uses hs id =? 1 then (s, id) else copy_obj s id.

Definition set_obj (s : store) (id : nat) (o : obj) : store := mkstore (upd id o (s_objs s)) (s_lists s).

(** attributes.h:105-123 pAttributeWrite (the local [pAttr] is one more reference) and options.cpp:328-351
    pOptionWrite ([unique()], no local reference: the same condition).  [threshold] is the use count above which
    the list is copied, [extra] the local references. *)
Definition list_write (extra threshold : nat) (s : store) (hs : list nat) (id name : nat) : store * nat :=
  let o := get_obj s id in
  let new l :=
    (mkstore (upd id (mkobj (put name (length (s_lists s)) (o_lists o)) (o_fields o) (o_trim o)) (s_objs s))
             (s_lists s ++ [l]), length (s_lists s)) in
  match find name (o_lists o) with
  | Some lid => if (list_uses s hs lid + extra) <=? threshold then (s, lid) else new (nth lid (s_lists s) [])
  | None => new []
  end.

(** parameters.h:1599-1609 AddParameter, and assignment through the pointer returned by pParameter *)
Definition add_parameter (s : store) (lid param : nat) (v : Z) : store :=
  mkstore (s_objs s) (upd lid (put param v (nth lid (s_lists s) [])) (s_lists s)).

Definition set_attr_param (s : store) (hs : list nat) (id name param : nat) (v : Z) : store :=
  let '(s, lid) := list_write 1 2 s hs id name in add_parameter s lid param v.
Definition set_opt_param (s : store) (hs : list nat) (id name param : nat) (v : Z) : store :=
  let '(s, lid) := list_write 0 1 s hs id name in add_parameter s lid param v.

(** attributes.h:161-211 SetpshadSurface and the like *)
Definition set_field (s : store) (id k : nat) (v : Z) : store :=
  let o := get_obj s id in set_obj s id (mkobj (o_lists o) (put k v (o_fields o)) (o_trim o)).
(** ri.cpp:2791-2828 TrimCurve *)
Definition set_trim (s : store) (id : nat) (t : list Z) : store :=
  let o := get_obj s id in set_obj s id (mkobj (o_lists o) (o_fields o) t).

(** What a reader sees: attributes.cpp:201-215 pParameter, attributes.h:156-210, options.cpp:357-375 *)
Definition param_of (s : store) (id name param : nat) : option Z :=
  match find name (o_lists (get_obj s id)) with
  | Some lid => find param (nth lid (s_lists s) [])
  | None => None
  end.
Definition field_of (s : store) (id k : nat) : option Z := find k (o_fields (get_obj s id)).
Definition trim_of (s : store) (id : nat) : list Z := o_trim (get_obj s id).

(** ** Blocks *)

(** graphicsstate.h:57-69.  Object and Resource blocks are never opened by the core (ri.cpp ObjectBegin reports an
    error, BeginResourceModeBlock has no caller). *)
Inductive btype := BMain | BFrame | BWorld | BAttribute | BTransform | BSolid | BMotion.
Definition btype_eqb (a b : btype) : bool :=
  match a, b with
  | BMain, BMain | BFrame, BFrame | BWorld, BWorld | BAttribute, BAttribute
  | BTransform, BTransform | BSolid, BSolid | BMotion, BMotion => true
  | _, _ => false
  end.

(** The overrides returning a null pointer: graphicsstate.h 309-312 (main), 368-385 (frame), and those of the
    world, attribute, transform, solid and motion blocks. *)
Definition allows (outer inner : btype) : bool :=
  match outer, inner with
  | _, BMain => false
  | BMain, _ => true
  | BFrame, (BFrame | BSolid) => false
  | BFrame, _ => true
  | BMotion, _ => false
  | _, (BFrame | BWorld) => false
  | _, _ => true
  end.

(** name and parameter numbers of the option "System" "Shutter" *)
Definition n_system := 0.
Definition p_shutter := 0.

Section Blocks.
(** CqTransform values.  Every change of the current transformation makes a new object (renderer.cpp:641-663), so
    they are modelled as values. *)
Variable T : Type.
(** transform.cpp:89-96: the constructor used by world blocks (argument: the current time) *)
Variable world_copy : Z -> T -> T.
(** graphicsstate.cpp:270-280: a motion block renews the default key of its copy *)
Variable motion_copy : T -> T.
(** transform.cpp:34 *)
Variable identity : T.

Record block := mkblock {
  b_type : btype;
  b_attr : nat;                (* m_pattrCurrent *)
  b_trans : T;                 (* m_ptransCurrent *)
  b_opt : nat;                 (* m_poptCurrent *)
  b_optstack : list nat;       (* m_optionsStack *)
  b_times : list Z;            (* m_aTimes of motion blocks *)
  b_itime : nat                (* m_iTime *)
}.

Record state := mkstate {
  blocks : list block;         (* m_pconCurrent and its chain of parents *)
  attrs : store;
  opts : store;
  prims : list (nat * T);      (* attributes and transformation held by primitives (surface.h:m_pAttributes) *)
  pins : list nat              (* option objects held elsewhere *)
}.

Definition attr_holders (st : state) : list nat := map b_attr (blocks st) ++ map fst (prims st).
Definition opt_holders (st : state) : list nat :=
  flat_map (fun b => b_opt b :: b_optstack b) (blocks st) ++ pins st.

Definition set_b_attr (b : block) (a : nat) : block :=
  mkblock (b_type b) a (b_trans b) (b_opt b) (b_optstack b) (b_times b) (b_itime b).
Definition set_b_trans (b : block) (t : T) : block :=
  mkblock (b_type b) (b_attr b) t (b_opt b) (b_optstack b) (b_times b) (b_itime b).
Definition set_b_opt (b : block) (o : nat) (os : list nat) : block :=
  mkblock (b_type b) (b_attr b) (b_trans b) o os (b_times b) (b_itime b).
Definition set_b_itime (b : block) (i : nat) : block :=
  mkblock (b_type b) (b_attr b) (b_trans b) (b_opt b) (b_optstack b) (b_times b) i.

(** Main and frame blocks own options (graphicsstate.h:322-347, 392-417), all others delegate to their parent *)
Definition owns_options (ty : btype) : bool := match ty with BMain | BFrame => true | _ => false end.
Fixpoint owner (bs : list block) : option block :=
  match bs with [] => None | b :: bs => if owns_options (b_type b) then Some b else owner bs end.
Fixpoint set_owner (bs : list block) (o : nat) (os : list nat) : list block :=
  match bs with
  | [] => []
  | b :: bs => if owns_options (b_type b) then set_b_opt b o os :: bs else b :: set_owner bs o os
  end.

(** renderer.cpp:510-516 Time, graphicsstate.h:838-848 *)
Definition cur_time (st : state) (b : block) : Z :=
  match b_type b with
  | BMotion => nth (b_itime b) (b_times b) 0%Z
  | _ => match owner (blocks st) with
         | Some ob => match param_of (opts st) (b_opt ob) n_system p_shutter with Some v => v | None => 0%Z end
         | None => 0%Z
         end
  end.
Definition is_motion (ty : btype) : bool := match ty with BMotion => true | _ => false end.

Inductive op :=
| OBegin (ty : btype) (times : list Z)
| OEnd (ty : btype)
| OAttr (name param : nat) (v : Z)         (* Attribute, Color, ShadingRate, ... *)
| OShader (k : nat) (v : Z)                (* Surface, Displacement, ... *)
| OTrim (t : list Z)                       (* TrimCurve *)
| OTransform (f : bool -> Z -> T -> T)     (* any transformation request: a function of "in a motion block?", the
                                              current time and the current transformation, transform.cpp:165-287 *)
| OOption (name param : nat) (v : Z)
| OPushOptions
| OPopOptions
| OPrim                                    (* a primitive is created and keeps the current state *)
| OFreePrim (k : nat)                      (* a primitive is destroyed *)
| OPin                                     (* someone keeps the current options *)
| OUnpin (k : nat).

Fixpoint remove_nth {A} (k : nat) (l : list A) {struct l} : list A :=
  match l, k with [], _ => [] | _ :: l, O => l | x :: l, S k => x :: remove_nth k l end.

(** renderer.cpp:191-373 with the constructors graphicsstate.cpp:85-296 *)
Definition begin_block (st : state) (ty : btype) (times : list Z) : option state :=
  match blocks st with
  | [] => None
  | b :: rest =>
      if allows (b_type b) ty then
        let '(a, aid) := match ty with
          | BTransform | BMotion => (attrs st, b_attr b)
          | _ => copy_obj (attrs st) (b_attr b)
          end in
        let t := match ty with
          | BWorld => world_copy (cur_time st b) (b_trans b)
          | BMotion => motion_copy (b_trans b)
          | _ => b_trans b
          end in
        let '(o, oid) := copy_obj (opts st) (b_opt b) in
        Some (mkstate (mkblock ty aid t oid [] times 0 :: b :: rest) a o (prims st) (pins st))
      else Some st
  end.

(** renderer.cpp:378-503.  Ending the main block ends the session, which is outside the model. *)
Definition end_block (st : state) (ty : btype) : option state :=
  match blocks st with
  | [] => None
  | b :: rest =>
      if btype_eqb (b_type b) ty then
        match rest with
        | [] => None
        | p :: rest' =>
            let p := match ty with
              | BTransform => set_b_attr p (b_attr b)
              | BMotion => set_b_trans (set_b_attr p (b_attr b)) (b_trans b)
              | _ => p
              end in
            Some (mkstate (p :: rest') (attrs st) (opts st) (prims st) (pins st))
        end
      else Some st
  end.

(** graphicsstate.h:193-197 pattrWriteCurrent followed by an update of the object *)
Definition with_attr (st : state) (f : store -> list nat -> nat -> store) : option state :=
  match blocks st with
  | [] => None
  | b :: rest =>
      let '(s, id) := attr_write (attrs st) (attr_holders st) (b_attr b) in
      let bs := set_b_attr b id :: rest in
      let hs := attr_holders (mkstate bs s (opts st) (prims st) (pins st)) in
      Some (mkstate bs (f s hs id) (opts st) (prims st) (pins st))
  end.

Definition with_opt (st : state) (f : store -> list nat -> nat -> store) : option state :=
  match owner (blocks st) with
  | None => None
  | Some ob =>
      let '(s, id) := opt_write (opts st) (opt_holders st) (b_opt ob) in
      let bs := set_owner (blocks st) id (b_optstack ob) in
      let hs := opt_holders (mkstate bs (attrs st) s (prims st) (pins st)) in
      Some (mkstate bs (attrs st) (f s hs id) (prims st) (pins st))
  end.

(** One request.  [None]: a failed assertion, or the session has ended. *)
Definition exec (o : op) (st : state) : option state :=
  match o with
  | OBegin ty times => begin_block st ty times
  | OEnd ty => end_block st ty
  | OAttr n p v => with_attr st (fun s hs id => set_attr_param s hs id n p v)
  | OShader k v => with_attr st (fun s _ id => set_field s id k v)
  | OTrim t => with_attr st (fun s _ id => set_trim s id t)
  | OTransform f =>                         (* renderer.cpp:641-663, then AdvanceTime, graphicsstate.h:850-855 *)
      match blocks st with
      | [] => None
      | b :: rest =>
          let b' := set_b_trans b (f (is_motion (b_type b)) (cur_time st b) (b_trans b)) in
          if is_motion (b_type b) then
            if S (b_itime b) <=? length (b_times b)
            then Some (mkstate (set_b_itime b' (S (b_itime b)) :: rest) (attrs st) (opts st) (prims st) (pins st))
            else None
          else Some (mkstate (b' :: rest) (attrs st) (opts st) (prims st) (pins st))
      end
  | OOption n p v => with_opt st (fun s hs id => set_opt_param s hs id n p v)
  | OPushOptions =>                         (* graphicsstate.h:332-338 *)
      match owner (blocks st) with
      | None => None
      | Some ob =>
          let '(s, id) := copy_obj (opts st) (b_opt ob) in
          Some (mkstate (set_owner (blocks st) id (b_opt ob :: b_optstack ob)) (attrs st) s (prims st) (pins st))
      end
  | OPopOptions =>                          (* graphicsstate.h:339-347 *)
      match owner (blocks st) with
      | Some ob =>
          match b_optstack ob with
          | [] => None
          | id :: os => Some (mkstate (set_owner (blocks st) id os) (attrs st) (opts st) (prims st) (pins st))
          end
      | None => None
      end
  | OPrim =>
      match blocks st with
      | [] => None
      | b :: _ => Some (mkstate (blocks st) (attrs st) (opts st) ((b_attr b, b_trans b) :: prims st) (pins st))
      end
  | OFreePrim k => Some (mkstate (blocks st) (attrs st) (opts st) (remove_nth k (prims st)) (pins st))
  | OPin =>
      match owner (blocks st) with
      | None => None
      | Some ob => Some (mkstate (blocks st) (attrs st) (opts st) (prims st) (b_opt ob :: pins st))
      end
  | OUnpin k => Some (mkstate (blocks st) (attrs st) (opts st) (prims st) (remove_nth k (pins st)))
  end.

Fixpoint run (l : list op) (st : state) : option state :=
  match l with
  | [] => Some st
  | o :: l => match exec o st with Some st => run l st | None => None end
  end.

(** renderer.cpp:172-182 and graphicsstate.cpp:58-64: the state after RiBegin.  The default parameters are one named
    list [n_system], attributes.cpp:104-131, options.cpp:275-320. *)
Definition new_store (defaults : plist) : store := mkstore [mkobj [(n_system, 0)] [] []] [defaults].
Definition start (adef odef : plist) : state :=
  mkstate [mkblock BMain 0 identity 0 [] [] 0] (new_store adef) (new_store odef) [] [].

(** What a user can observe: the current attributes, transformation and options, and what each primitive has kept. *)
Definition cur_param (st : state) (n p : nat) : option Z :=
  match blocks st with b :: _ => param_of (attrs st) (b_attr b) n p | [] => None end.
Definition cur_field (st : state) (k : nat) : option Z :=
  match blocks st with b :: _ => field_of (attrs st) (b_attr b) k | [] => None end.
Definition cur_trim (st : state) : list Z :=
  match blocks st with b :: _ => trim_of (attrs st) (b_attr b) | [] => [] end.
Definition cur_trans (st : state) : T := match blocks st with b :: _ => b_trans b | [] => identity end.
Definition cur_option (st : state) (n p : nat) : option Z :=
  match owner (blocks st) with Some b => param_of (opts st) (b_opt b) n p | None => None end.
Definition prim_param (st : state) (k n p : nat) : option Z :=
  match nth_error (prims st) k with Some (a, _) => param_of (attrs st) a n p | None => None end.
Definition prim_field (st : state) (k j : nat) : option Z :=
  match nth_error (prims st) k with Some (a, _) => field_of (attrs st) a j | None => None end.
Definition prim_trans (st : state) (k : nat) : option T :=
  match nth_error (prims st) k with Some (_, t) => Some t | None => None end.
Definition pin_param (st : state) (k n p : nat) : option Z :=
  match nth_error (pins st) k with Some o => param_of (opts st) o n p | None => None end.
End Blocks.

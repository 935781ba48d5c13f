(** What options are meant to be: values, not shared objects. *)

From Coq Require Import List Bool ZArith Arith.
From Verif Require Import HashModel SearchModel OptModel.
Import ListNotations.
Open Scope nat_scope.

(** A full set of options: the value of each parameter of each option, the
    filter and the imager. *)
Record sopt := {
  s_val : name -> name -> option (ty * list elt);
  s_filter : Z;
  s_imager : option Z
}.

Definition same_name (a b : name) : bool := if list_eq_dec Z.eq_dec a b then true else false.

(** A search path, with the former one and the default one put in. *)
Definition new_path (env : list Z -> option (list Z)) (default : list Z) (new old : elt)
  : option elt :=
  match new, old with
  | Str n, Str o => option_map Str (expand env o default (S (2 * List.length n)) n)
  | _, _ => None
  end.

Fixpoint new_paths (env : list Z -> option (list Z)) (default : list Z) (new old : list elt)
  : option (list elt) :=
  match new, old with
  | [], _ => Some []
  | n :: new', o :: old' =>
      match new_path env default n o, new_paths env default new' old' with
      | Some a, Some b => Some (a :: b)
      | _, _ => None
      end
  | _, _ => None
  end.

(** Giving a parameter a value.  None: the request is one that is not treated
    here, for it changes the type or the number of values of the parameter,
    has no values, or is a search path with an unclosed '%'. *)
Definition s_set (env : list Z -> option (list Z)) (s : sopt) (nm pm : name) (t : ty)
    (vals : list elt) : option sopt :=
  let old := match s_val s nm pm with
             | Some (t', o) => if ty_eqb t' t && (List.length o =? List.length vals) then Some o else None
             | None => Some (repeat (empty_elt t) (List.length vals))
             end in
  match old, vals with
  | Some o, _ :: _ =>
      let new :=
        match t with
        | TString =>
            if same_name nm searchpath then
              match s_val s defaultsearchpath pm with
              | Some (TString, Str d :: _) => new_paths env d vals o
              | None => new_paths env [] vals o
              | _ => None
              end
            else if same_name nm defaultsearchpath then new_paths env [] vals o
            else Some vals
        | _ => Some vals
        end in
      match new with
      | Some v =>
          Some {| s_val := fun n p => if same_name n nm && same_name p pm then Some (t, v)
                                      else s_val s n p;
                  s_filter := s_filter s; s_imager := s_imager s |}
      | None => None
      end
  | _, _ => None
  end.

Fixpoint s_set_all (env : list Z -> option (list Z)) (s : sopt)
    (ws : list (name * name * ty * list elt)) : option sopt :=
  match ws with
  | [] => Some s
  | (nm, pm, t, vals) :: r =>
      match s_set env s nm pm t vals with Some s' => s_set_all env s' r | None => None end
  end.

(** The blocks: the main block and frames have their own options, and options
    that have been pushed; the others have none. *)
Inductive sblock := Owner (k : kind) (cur : sopt) (saved : list sopt) | Plain.

Record sstate := { s_blocks : list sblock; s_held : list sopt }.

(** The options in force: those of the innermost block that has some. *)
Fixpoint s_current (bs : list sblock) : option sopt :=
  match bs with
  | [] => None
  | Plain :: r => s_current r
  | Owner _ c _ :: _ => Some c
  end.

Fixpoint s_change (f : sopt -> list sopt -> option (sopt * list sopt)) (bs : list sblock)
  : option (list sblock) :=
  match bs with
  | [] => None
  | Plain :: r => option_map (cons Plain) (s_change f r)
  | Owner k c l :: r =>
      match f c l with Some (c', l') => Some (Owner k c' l' :: r) | None => None end
  end.

Definition on_blocks (ss : sstate) (r : option (list sblock)) : option sstate :=
  option_map (fun bs => {| s_blocks := bs; s_held := s_held ss |}) r.

(** One step.  None: the step is not treated here: besides the requests of
    [s_set], popping what was not pushed, releasing what is not held, and
    setting an imager where one is in force already. *)
Definition s_step (env : list Z -> option (list Z)) (ss : sstate) (a : op) : option sstate :=
  let bs := s_blocks ss in
  match a with
  | Begin Inner => on_blocks ss (Some (match bs with [] => [] | _ => Plain :: bs end))
  | Begin Frame => on_blocks ss (Some (match bs with
      | Owner Main c _ :: _ => Owner Frame c [] :: bs
      | _ => bs
      end))
  | Begin Main => Some ss
  | End_ Inner => on_blocks ss (Some (match bs with Plain :: r => r | _ => bs end))
  | End_ Frame => on_blocks ss (Some (match bs with Owner Frame _ _ :: r => r | _ => bs end))
  | End_ Main => Some ss
  | Push => on_blocks ss (s_change (fun c l => Some (c, c :: l)) bs)
  | Pop => on_blocks ss (s_change (fun _ l => match l with c :: r => Some (c, r) | [] => None end) bs)
  | Hold => option_map (fun c => {| s_blocks := bs; s_held := s_held ss ++ [c] |}) (s_current bs)
  | Release i =>
      if i <? List.length (s_held ss)
      then Some {| s_blocks := bs; s_held := firstn i (s_held ss) ++ skipn (S i) (s_held ss) |}
      else None
  | Set_ nm pm t vals =>
      on_blocks ss (s_change (fun c l =>
        option_map (fun c' => (c', l)) (s_set env c nm pm t vals)) bs)
  | SetFilter f =>
      on_blocks ss (s_change (fun c l =>
        Some ({| s_val := s_val c; s_filter := f; s_imager := s_imager c |}, l)) bs)
  | SetImager s =>
      on_blocks ss (s_change (fun c l =>
        match s_imager c with
        | None => Some ({| s_val := s_val c; s_filter := s_filter c; s_imager := Some s |}, l)
        | Some _ => None
        end) bs)
  | PushSet ws =>
      on_blocks ss (s_change (fun c l =>
        option_map (fun c' => (c', c :: l)) (s_set_all env c ws)) bs)
  end.

Fixpoint s_run (env : list Z -> option (list Z)) (ss : sstate) (ops : list op) : option sstate :=
  match ops with
  | [] => Some ss
  | a :: r => match s_step env ss a with Some ss' => s_run env ss' r | None => None end
  end.

(** The start: the main block with the given lists of parameters. *)
Fixpoint listed {A} (n : name) (l : list (name * A)) : option A :=
  match l with
  | [] => None
  | (m, a) :: r => if same_name m n then Some a else listed n r
  end.

Definition s_start (cs : list cell) (filter : Z) : sstate :=
  {| s_blocks := [Owner Main
       {| s_val := fun nm pm =>
            match listed nm (map (fun c => (c_name c, c_params c)) cs) with
            | Some ps => option_map (fun p => (p_type p, p_vals p)) (listed pm ps)
            | None => None
            end;
          s_filter := filter; s_imager := None |} []];
     s_held := [] |}.

(** The names of options a program uses. *)
Definition op_names (a : op) : list name :=
  match a with
  | Set_ nm _ _ _ => [nm]
  | PushSet ws => map (fun w => fst (fst (fst w))) ws
  | _ => []
  end.

Definition names_used (cs : list cell) (ops : list op) : list name :=
  [searchpath; defaultsearchpath] ++ map c_name cs ++ flat_map op_names ops.

(** Different names have different hashes (see C25). *)
Definition no_clash (word : Z) (l : list name) : Prop :=
  forall a b, In a l -> In b l -> hash word a = hash word b -> a = b.

(** Rows of operations in which the blocks that begin also end. *)
Inductive Balanced : list op -> Prop :=
| balanced_none : Balanced []
| balanced_other : forall a r, (match a with Begin _ | End_ _ => False | _ => True end) ->
    Balanced r -> Balanced (a :: r)
| balanced_block : forall a r, Balanced a -> Balanced r ->
    Balanced (Begin Inner :: a ++ End_ Inner :: r).

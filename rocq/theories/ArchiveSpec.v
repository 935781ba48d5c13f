(** What a RIB stream with inline archives, objects and conditionals means.

    The stream is given as a tree; [flat] is its text.  [runs] says, without any
    machine, which requests reach the renderer. *)

From Coq Require Import List Bool ZArith.
From Verif Require Import ArchiveModel.
Import ListNotations.

Section Spec.
  Variable R C : Type.
  Local Notation request := (request R C).
  Local Notation effect := (effect R C).

  Inductive item :=
  | Plain (r : R) | Comment (r : R)
  | Archive (n : name) (body : list item) | Read (n : name)
  | Object (n : name) (body : list item) | Instance (n : name)
  | Cond (c : C) (body : list item) (more : list (C * list item)) (last : option (list item)).

  (** The requests of an item. *)
  Fixpoint flat_item (i : item) : list request :=
    let flat := flat_map flat_item in
    match i with
    | Plain r => [RPlain R C r]
    | Comment r => [RRecord R C r]
    | Archive n b => RArchiveBegin R C n :: flat b ++ [RArchiveEnd R C]
    | Read n => [RReadArchive R C n]
    | Object n b => RObjectBegin R C n :: flat b ++ [RObjectEnd R C]
    | Instance n => [RObjectInstance R C n]
    | Cond c b m l =>
        RIfBegin R C c :: flat b ++ flat_map (fun p => RElseIf R C (fst p) :: flat (snd p)) m ++
        match l with Some e => RElse R C :: flat e | None => [] end ++ [RIfEnd R C]
    end.
  Definition flat (l : list item) : list request := flat_map flat_item l.

  (** Comments are not part of archives and objects. *)
  Fixpoint bare_item (i : item) : list item :=
    let bare := flat_map bare_item in
    match i with
    | Comment _ => []
    | Archive n b => [Archive n (bare b)]
    | Object n b => [Object n (bare b)]
    | Cond c b m l => [Cond c (bare b) (map (fun p => (fst p, bare (snd p))) m) (option_map bare l)]
    | _ => [i]
    end.
  Definition bare (l : list item) : list item := flat_map bare_item l.

  (** Objects are not nested in objects. *)
  Fixpoint objectless_item (i : item) : bool :=
    let objectless := forallb objectless_item in
    match i with
    | Object _ _ => false
    | Archive _ b => objectless b
    | Cond _ b m l => objectless b && forallb (fun p => objectless (snd p)) m &&
                      match l with Some e => objectless e | None => true end
    | _ => true
    end.
  Fixpoint legal_item (i : item) : bool :=
    let legal := forallb legal_item in
    match i with
    | Object _ b => forallb objectless_item b
    | Archive _ b => legal b
    | Cond _ b m l => legal b && forallb (fun p => legal (snd p)) m && match l with Some e => legal e | None => true end
    | _ => true
    end.
  Definition legal (l : list item) : bool := forallb legal_item l.

  (** No condition is tested while the items run: no conditionals, and no archives
      or instances, which might contain some. *)
  Definition direct_item (i : item) : bool :=
    match i with Cond _ _ _ _ | Read _ | Instance _ => false | _ => true end.
  Definition direct (l : list item) : bool := forallb direct_item l.
  (** No conditional within a clause that is followed by another clause. *)
  Fixpoint plain_item (i : item) : bool :=
    let plain := forallb plain_item in
    match i with
    | Archive _ b | Object _ b => plain b
    | Cond _ b m l =>
        plain b && forallb (fun p => plain (snd p)) m && match l with Some e => plain e | None => true end &&
        forallb direct (let all := b :: map snd m in match l with Some _ => all | None => removelast all end)
    | _ => true
    end.
  Definition plain (l : list item) : bool := forallb plain_item l.

  (** The first clause whose condition is true. *)
  Fixpoint choose (f : C -> bool) (clauses : list (C * list item)) (last : option (list item)) : list item :=
    match clauses with
    | [] => match last with Some e => e | None => [] end
    | (c, b) :: r => if f c then b else choose f r last
    end.

  (** The archives and objects defined. *)
  Record env := mkEnv { arch : name -> option (list item); obj : name -> option (list item) }.
  Definition no_env : env := mkEnv (fun _ => None) (fun _ => None).
  Definition set (f : name -> option (list item)) (n : name) (b : list item) : name -> option (list item) :=
    fun m => if same_name m n then Some b else f m.

  Variable f : list effect -> C -> bool.

  (** [runs live e o is e' o']: with the definitions [e], and after the effects
      [o], the items [is] give the definitions [e'] and all the effects [o'].
      [live] lists the archives and objects being read at the moment; they may not
      be defined anew. *)
  Inductive runs : list cached -> env -> list effect -> list item -> env -> list effect -> Prop :=
  | run_nil live e o : runs live e o [] e o
  | run_plain live e o r is e' o' :
      runs live e (o ++ [Passed R C (RPlain R C r)]) is e' o' -> runs live e o (Plain r :: is) e' o'
  | run_comment live e o r is e' o' :
      runs live e (o ++ [Passed R C (RRecord R C r)]) is e' o' -> runs live e o (Comment r :: is) e' o'
  | run_archive live e o n b is e' o' : ~ In (InArchives n) live ->
      runs live (mkEnv (set (arch e) n (bare b)) (obj e)) o is e' o' -> runs live e o (Archive n b :: is) e' o'
  | run_object live e o n b is e' o' : ~ In (InObjects n) live ->
      runs live (mkEnv (arch e) (set (obj e) n (bare b))) o is e' o' -> runs live e o (Object n b :: is) e' o'
  | run_read live e o n b e1 o1 is e' o' : arch e n = Some b ->
      runs (InArchives n :: live) e o b e1 o1 -> runs live e1 o1 is e' o' -> runs live e o (Read n :: is) e' o'
  | run_read_other live e o n is e' o' : arch e n = None ->
      runs live e (o ++ [Passed R C (RReadArchive R C n)]) is e' o' -> runs live e o (Read n :: is) e' o'
  | run_instance live e o n b e1 o1 is e' o' : obj e n = Some b ->
      runs (InObjects n :: live) e o b e1 o1 -> runs live e1 o1 is e' o' -> runs live e o (Instance n :: is) e' o'
  | run_instance_other live e o n is e' o' : obj e n = None ->
      runs live e (o ++ [BadObject R C n]) is e' o' -> runs live e o (Instance n :: is) e' o'
  | run_cond live e o c b m l e1 o1 is e' o' :
      runs live e o (choose (f o) ((c, b) :: m) l) e1 o1 -> runs live e1 o1 is e' o' ->
      runs live e o (Cond c b m l :: is) e' o'.

  (** Streams of plain requests and conditionals only: the effects after them. *)
  Fixpoint archiveless_item (i : item) : bool :=
    let archiveless := forallb archiveless_item in
    match i with
    | Plain _ | Comment _ => true
    | Cond _ b m l => archiveless b && forallb (fun p => archiveless (snd p)) m && match l with Some e => archiveless e | None => true end
    | _ => false
    end.
  Definition archiveless (l : list item) : bool := forallb archiveless_item l.
  Fixpoint eval_item (i : item) (o : list effect) : list effect :=
    let evals := fix evals (l : list item) (o : list effect) : list effect := match l with [] => o | a :: r => evals r (eval_item a o) end in
    match i with
    | Plain r => o ++ [Passed R C (RPlain R C r)]
    | Comment r => o ++ [Passed R C (RRecord R C r)]
    | Cond c b m l =>
        if f o c then evals b o
        else (fix clauses (m : list (C * list item)) : list effect :=
                match m with
                | [] => match l with Some e => evals e o | None => o end
                | (c', b') :: r => if f o c' then evals b' o else clauses r
                end) m
    | _ => o
    end.
  Fixpoint evals (l : list item) (o : list effect) : list effect := match l with [] => o | a :: r => evals r (eval_item a o) end.
End Spec.

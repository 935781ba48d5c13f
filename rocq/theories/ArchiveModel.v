(** Model of the filter for inline archives, objects and conditionals.

    Modelled code: RenderUtilFilter
    (/repo/libs/riutil/renderutil_filter.cpp:52-329 and the generated methods
    after line 357) and CachedRiStream (/repo/libs/riutil/ricxx_cache.h:77-97).

    Simplifications:
    - All requests this filter does not treat specially are [RPlain r], [r] being
      the name and the arguments.  Caching a request is taken to copy its
      arguments.
    - The first filter of the chain, to which cached streams are replayed, is this
      filter.
    - The callback for conditions may look at all that was passed on to the next
      filter so far.
    - A stream deleted while it is replayed, and top() of an empty stack, are
      undefined behaviour. *)

From Coq Require Import List Bool Arith ZArith.
Import ListNotations.
Open Scope Z_scope.

Definition name := list Z.
Definition same_name (a b : name) : bool := if list_eq_dec Z.eq_dec a b then true else false.

Section Filter.
  Variable R : Type.        (* ordinary requests with arguments *)
  Variable C : Type.        (* conditions *)

  Inductive request :=
  | RPlain (r : R) | RRecord (r : R)      (* RRecord: ArchiveRecord *)
  | RArchiveBegin (n : name) | RArchiveEnd | RReadArchive (n : name)
  | RObjectBegin (n : name) | RObjectEnd | RObjectInstance (n : name)
  | RIfBegin (c : C) | RElseIf (c : C) | RElse | RIfEnd.

  (** What leaves the filter: requests for the next filter, and errors. *)
  Inductive effect := Passed (r : request) | BadObject (n : name).

  (** m_ifElseTest (renderutil_filter.cpp:62), which may be null. *)
  Variable test : option (list effect -> C -> bool).

  (** Cached streams (56-60): streams of one vector have different names, so a
      stream is given by its vector and name. *)
  Definition streams := list (name * list request).
  Inductive cached := InArchives (n : name) | InObjects (n : name).

  Record state := mkState {
    archives : streams; objects : streams; cur : option cached; nested : nat; in_object : bool;
    if_stack : list bool; found : bool; inactive : bool; out : list effect }.

  (** The constructor (103-113). *)
  Definition new_state : state := mkState [] [] None 0 false [] false false [].

  (** findCachedStream (71-77). *)
  Fixpoint find (n : name) (c : streams) : option (list request) :=
    match c with
    | [] => None
    | (m, l) :: r => if same_name m n then Some l else find n r
    end.
  (** newCachedStream (83-100). *)
  Fixpoint fresh (n : name) (c : streams) : streams :=
    match c with
    | [] => [(n, [])]
    | (m, l) :: r => if same_name m n then (n, []) :: r else (m, l) :: fresh n r
    end.
  (** push_back on the stream called [n] (ricxx_cache.h:87-90). *)
  Fixpoint append (n : name) (q : request) (c : streams) : streams :=
    match c with
    | [] => []
    | (m, l) :: r => if same_name m n then (m, l ++ [q]) :: r else (m, l) :: append n q r
    end.

  Definition set_cur s x := mkState (archives s) (objects s) x (nested s) (in_object s) (if_stack s) (found s) (inactive s) (out s).
  Definition set_nested s x := mkState (archives s) (objects s) (cur s) x (in_object s) (if_stack s) (found s) (inactive s) (out s).
  Definition set_in_object s x := mkState (archives s) (objects s) (cur s) (nested s) x (if_stack s) (found s) (inactive s) (out s).
  Definition set_archives s x := mkState x (objects s) (cur s) (nested s) (in_object s) (if_stack s) (found s) (inactive s) (out s).
  Definition set_objects s x := mkState (archives s) x (cur s) (nested s) (in_object s) (if_stack s) (found s) (inactive s) (out s).
  Definition set_if s st f i := mkState (archives s) (objects s) (cur s) (nested s) (in_object s) st f i (out s).
  Definition emit s e := mkState (archives s) (objects s) (cur s) (nested s) (in_object s) (if_stack s) (found s) (inactive s) (out s ++ [e]).

  Definition record (c : cached) (q : request) (s : state) : state :=
    match c with
    | InArchives n => set_archives s (append n q (archives s))
    | InObjects n => set_objects s (append n q (objects s))
    end.

  (** What a request does: it ends in a state, or a cached stream is replayed. *)
  Inductive action := Go (s : state) | Replay (which : cached) (l : list request) (s : state) | Bad.

  (** Streams being replayed; deleting one of them is undefined behaviour. *)
  Definition is_live (c : cached) (live : list cached) : bool :=
    existsb (fun d => match c, d with
                      | InArchives a, InArchives b => same_name a b
                      | InObjects a, InObjects b => same_name a b
                      | _, _ => false
                      end) live.

  Definition handle (live : list cached) (q : request) (s : state) : action :=
    match q with
    (** The generated methods (340-349, e.g. 359-366). *)
    | RPlain _ =>
        if inactive s then Go s
        else match cur s with Some c => Go (record c q s) | None => Go (emit s (Passed q)) end
    (** ArchiveRecord (323-328). *)
    | RRecord _ =>
        if inactive s then Go s
        else match cur s with Some _ => Go s | None => Go (emit s (Passed q)) end
    (** ArchiveBegin (125-135). *)
    | RArchiveBegin n =>
        if inactive s then Go s
        else match cur s with
             | Some c => Go (record c q (set_nested s (S (nested s))))
             | None => if is_live (InArchives n) live then Bad
                       else Go (set_cur (set_archives s (fresh n (archives s))) (Some (InArchives n)))
             end
    (** ArchiveEnd (137-147). *)
    | RArchiveEnd =>
        if inactive s then Go s
        else match cur s, nested s with
             | Some c, S k => Go (set_nested (record c q s) k)
             | _, _ => Go (set_cur s None)
             end
    (** ReadArchive (149-168). *)
    | RReadArchive n =>
        if inactive s then Go s
        else match cur s with
             | Some c => Go (record c q s)
             | None => match find n (archives s) with
                       | Some l => Replay (InArchives n) l s
                       | None => Go (emit s (Passed q))
                       end
             end
    (** ObjectBegin (172-187). *)
    | RObjectBegin n =>
        if inactive s then Go s
        else match cur s with
             | Some c => Go (record c q s)
             | None => if is_live (InObjects n) live then Bad
                       else Go (set_in_object (set_cur (set_objects s (fresh n (objects s))) (Some (InObjects n))) true)
             end
    (** ObjectEnd (189-206). *)
    | RObjectEnd =>
        if inactive s then Go s
        else match cur s with
             | Some c => if in_object s then Go (set_cur (set_in_object s false) None) else Go (record c q s)
             | None => Go s
             end
    (** ObjectInstance (208-226). *)
    | RObjectInstance n =>
        if inactive s then Go s
        else match cur s with
             | Some c => Go (record c q s)
             | None => match find n (objects s) with
                       | Some l => Replay (InObjects n) l s
                       | None => Go (emit s (BadObject n))
                       end
             end
    (** IfBegin (236-253). *)
    | RIfBegin c =>
        match cur s with
        | Some k => Go (record k q s)
        | None =>
            match test with
            | None => Go (emit s (Passed q))
            | Some f =>
                if inactive s then Go (set_if s (inactive s :: if_stack s) (found s) (inactive s))
                else let b := f (out s) c in Go (set_if s (inactive s :: if_stack s) b (negb b))
            end
        end
    (** ElseIf (255-282). *)
    | RElseIf c =>
        match cur s with
        | Some k => Go (record k q s)
        | None =>
            match test with
            | None => Go (emit s (Passed q))
            | Some f =>
                match if_stack s with
                | [] => Bad
                | b :: _ =>
                    if b then Go s
                    else if found s then Go (set_if s (if_stack s) (found s) true)
                    else let b := f (out s) c in Go (set_if s (if_stack s) b (negb b))
                end
            end
        end
    (** Else (284-301). *)
    | RElse =>
        match cur s with
        | Some k => Go (record k q s)
        | None =>
            match test with
            | None => Go (emit s (Passed q))
            | Some _ =>
                match if_stack s with
                | [] => Bad
                | b :: _ => if b then Go s else Go (set_if s (if_stack s) (found s) (found s))
                end
            end
        end
    (** IfEnd (303-320). *)
    | RIfEnd =>
        match cur s with
        | Some k => Go (record k q s)
        | None =>
            match test with
            | None => Go (emit s (Passed q))
            | Some _ =>
                match if_stack s with
                | [] => Go s
                | b :: r => Go (set_if s r (found s) b)
                end
            end
        end
    end.

  (** Requests one after the other; replay (ricxx_cache.h:91-95) feeds them to
      this filter again. *)
  Inductive result := Done (s : state) | Undefined | OutOfFuel.
  Fixpoint run (fuel : nat) (live : list cached) (qs : list request) (s : state) : result :=
    match fuel with
    | O => OutOfFuel
    | S k =>
        match qs with
        | [] => Done s
        | q :: r =>
            match handle live q s with
            | Go s1 => run k live r s1
            | Replay w l s1 =>
                match run k (w :: live) l s1 with
                | Done s2 => run k live r s2
                | e => e
                end
            | Bad => Undefined
            end
        end
    end.
End Filter.

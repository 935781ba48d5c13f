(** The options of the renderer: the copies made by blocks and by
    pushOptions/popOptions, the sharing of option lists between copies, and
    copying on writing.

    Options objects and option lists ("cells") live in two heaps; the
    reference count of a shared pointer is the number of places which hold
    it.  Nothing is ever removed from the heaps: an object that nothing refers
    to any more counts for nothing.  Numbers are rationals. *)

From Coq Require Import List Bool ZArith QArith Arith String.
From Verif Require Import HashModel SearchModel.
Import ListNotations.
Open Scope nat_scope.

Definition name := list Z.

Fixpoint name_eqb (a b : name) : bool :=
  match a, b with
  | [], [] => true
  | x :: a', y :: b' => (x =? y)%Z && name_eqb a' b'
  | _, _ => false
  end.

(** The types of the parameters of options: libs/core/options.cpp:402-553
    (normals and vectors are stored as points, libs/core/api/ri.cpp:
    1151-1169). *)
Inductive ty := TFloat | TInteger | TString | TPoint | TColor.

Definition ty_eqb (a b : ty) : bool :=
  match a, b with
  | TFloat, TFloat | TInteger, TInteger | TString, TString | TPoint, TPoint
  | TColor, TColor => true
  | _, _ => false
  end.

Inductive elt := Num (q : Q) | Str (s : list Z) | Tri (a b c : Q).

(** What std::vector::resize fills a new parameter with. *)
Definition empty_elt (t : ty) : elt :=
  match t with
  | TFloat | TInteger => Num 0
  | TString => Str []
  | TPoint | TColor => Tri 0 0 0
  end.

(** CqParameterTypedUniform and CqParameterTypedUniformArray: only the type
    and the values; libs/core/parameters.h:940-1080. *)
Record param := { p_type : ty; p_vals : list elt }.

(** CqNamedParameterList: libs/core/parameters.h:1566-1647.  The map from
    names to parameters is a list without order. *)
Record cell := { c_name : name; c_params : list (name * param) }.

(** CqOptions: the vector of pointers to cells, the pixel filter and the raw
    pointer to the imager; libs/core/options.h:56-180. *)
Record obj := { o_cells : list nat; o_filter : Z; o_imager : option nat }.

(** The blocks that hold options of their own (main and frame) and the others,
    which hand every question on to their parent; libs/core/api/
    graphicsstate.h:322-346, 392-416, 462-477. *)
Inductive kind := Main | Frame | Inner.

Definition kind_eqb (a b : kind) : bool :=
  match a, b with
  | Main, Main | Frame, Frame | Inner, Inner => true
  | _, _ => false
  end.

Record block := { b_kind : kind; b_cur : nat; b_saved : list nat }.

(** [blocks] begins with the innermost block; [held] are the pointers to
    options kept elsewhere in the program; [imagers] are the imager sources,
    with a flag telling whether they have been deleted. *)
Record state := {
  cells : list cell;
  objs : list obj;
  blocks : list block;
  held : list nat;
  imagers : list (Z * bool)
}.

(** Results: a value, undefined behaviour, or a request that never ends. *)
Inductive res (A : Type) := Ok (a : A) | Undef | Hang.
Arguments Ok {A} a.
Arguments Undef {A}.
Arguments Hang {A}.

Definition bind {A B} (r : res A) (f : A -> res B) : res B :=
  match r with Ok a => f a | Undef => Undef | Hang => Hang end.

Fixpoint upd {A} (n : nat) (a : A) (l : list A) : list A :=
  match n, l with
  | _, [] => []
  | O, _ :: r => a :: r
  | S m, x :: r => x :: upd m a r
  end.

Definition no_cell : cell := {| c_name := []; c_params := [] |}.
Definition no_obj : obj := {| o_cells := []; o_filter := 0; o_imager := None |}.

Definition cell_at (st : state) (c : nat) : cell := nth c (cells st) no_cell.
Definition obj_at (st : state) (o : nat) : obj := nth o (objs st) no_obj.

Definition with_cells (st : state) (cs : list cell) : state :=
  {| cells := cs; objs := objs st; blocks := blocks st; held := held st; imagers := imagers st |}.
Definition with_objs (st : state) (os : list obj) : state :=
  {| cells := cells st; objs := os; blocks := blocks st; held := held st; imagers := imagers st |}.
Definition with_blocks (st : state) (bs : list block) : state :=
  {| cells := cells st; objs := objs st; blocks := bs; held := held st; imagers := imagers st |}.
Definition with_held (st : state) (h : list nat) : state :=
  {| cells := cells st; objs := objs st; blocks := blocks st; held := h; imagers := imagers st |}.
Definition with_imagers (st : state) (i : list (Z * bool)) : state :=
  {| cells := cells st; objs := objs st; blocks := blocks st; held := held st; imagers := i |}.

(** The pointers to options objects. *)
Definition roots (st : state) : list nat :=
  flat_map (fun b => b_cur b :: b_saved b) (blocks st) ++ held st.

(** shared_ptr::unique() of a pointer to options: libs/core/api/
    graphicsstate.h:328, 398. *)
Definition unique_obj (st : state) (o : nat) : bool :=
  count_occ Nat.eq_dec (roots st) o =? 1.

(** shared_ptr::unique() of a pointer to a cell, libs/core/options.cpp:338: the
    pointers to cells are those in the vectors of the objects alive. *)
Definition unique_cell (st : state) (c : nat) : bool :=
  count_occ Nat.eq_dec
    (flat_map (fun o => o_cells (obj_at st o)) (nodup Nat.eq_dec (roots st))) c =? 1.

(** CqOptions::CqOptions( const CqOptions& ) and operator=: libs/core/
    options.cpp:204-243: the pointers are copied, that to the imager too. *)
Definition copy_obj (st : state) (o : nat) : state * nat :=
  (with_objs st (objs st ++ [obj_at st o]), List.length (objs st)).

(** The two options whose strings are expanded: libs/core/api/ri.cpp:1106,
    1118. *)
Definition searchpath : name := text "searchpath".
Definition defaultsearchpath : name := text "defaultsearchpath".

Section Options.
  (** The size of a word of the hash function (C25). *)
  Variable word : Z.
  (** The environment, for search paths (C50). *)
  Variable env : list Z -> option (list Z).

  (** The loops of CqOptions::pOption and pOptionWrite: the first slot whose
      cell has the hash of the name; libs/core/options.cpp:312-326,
      328-336. *)
  Fixpoint find_slot (st : state) (h : Z) (i : nat) (cs : list nat) : option (nat * nat) :=
    match cs with
    | [] => None
    | c :: r => if (hash word (c_name (cell_at st c)) =? h)%Z then Some (i, c)
                else find_slot st h (S i) r
    end.

  (** std::map::find: libs/core/parameters.h:1614-1637. *)
  Fixpoint assoc {A} (n : name) (l : list (name * A)) : option A :=
    match l with
    | [] => None
    | (m, a) :: r => if name_eqb m n then Some a else assoc n r
    end.

  (** CqOptions::pParameter: libs/core/options.cpp:360-371. *)
  Definition p_parameter (st : state) (o : nat) (nm pm : name) : option param :=
    match find_slot st (hash word nm) 0 (o_cells (obj_at st o)) with
    | Some (_, c) => assoc pm (c_params (cell_at st c))
    | None => None
    end.

  (** GetFloatOption and the others: libs/core/options.cpp:560-635.  A null
      pointer is None; reading through a pointer cast to another type is
      undefined. *)
  Definition get (st : state) (o : nat) (nm pm : name) (t : ty) : res (option (list elt)) :=
    match p_parameter st o nm pm with
    | None => Ok None
    | Some p => if ty_eqb (p_type p) t then Ok (Some (p_vals p)) else Undef
    end.

  (** CqOptions::pOptionWrite: libs/core/options.cpp:328-351.  The list is
      handed out as it is when nothing else points to it, else it is copied
      (with its parameters: libs/core/parameters.cpp:375-383) and the copy
      takes its place; a list that is not there is added. *)
  Definition option_write (st : state) (o : nat) (nm : name) : state * nat :=
    let ob := obj_at st o in
    match find_slot st (hash word nm) 0 (o_cells ob) with
    | Some (i, c) =>
        if unique_cell st c then (st, c)
        else
          let n := List.length (cells st) in
          (with_objs (with_cells st (cells st ++ [cell_at st c]))
             (upd o {| o_cells := upd i n (o_cells ob); o_filter := o_filter ob;
                       o_imager := o_imager ob |} (objs st)), n)
    | None =>
        let n := List.length (cells st) in
        (with_objs (with_cells st (cells st ++ [{| c_name := nm; c_params := [] |}]))
           (upd o {| o_cells := o_cells ob ++ [n]; o_filter := o_filter ob;
                     o_imager := o_imager ob |} (objs st)), n)
    end.

  (** Changes the parameter of that name, or adds it:
      CqNamedParameterList::AddParameter, libs/core/parameters.h:1599-1609,
      and writing through the pointer to the values. *)
  Fixpoint set_assoc {A} (n : name) (a : A) (l : list (name * A)) : list (name * A) :=
    match l with
    | [] => [(n, a)]
    | (m, b) :: r => if name_eqb m n then (m, a) :: r else (m, b) :: set_assoc n a r
    end.

  Definition set_param (st : state) (c : nat) (pm : name) (p : param) : state :=
    let x := cell_at st c in
    with_cells st (upd c {| c_name := c_name x; c_params := set_assoc pm p (c_params x) |} (cells st)).

  (** GetFloatOptionWrite and the others: libs/core/options.cpp:402-553, giving
      the cell and the parameter that is to be written to.  The parameter
      found is cast without looking at its type or its size; a new one has
      room for one value at least.  (The static_cast of integer parameters to
      CqParameterTyped<TqInt, TqFloat>, when the renderer made them as
      CqParameterTyped<TqInt, TqInt>, is taken to work.) *)
  Definition get_write (st : state) (o : nat) (nm pm : name) (t : ty) (count : nat)
    : res (state * nat * param) :=
    let (st1, c) := option_write st o nm in
    match assoc pm (c_params (cell_at st1 c)) with
    | Some p => if ty_eqb (p_type p) t then Ok (st1, c, p) else Undef
    | None =>
        let (st2, c2) := option_write st1 o nm in
        let p := {| p_type := t; p_vals := repeat (empty_elt t) (Nat.max 1 count) |} in
        Ok (set_param st2 c2 pm p, c2, p)
    end.

  (** One value of a "searchpath" or "defaultsearchpath" option:
      libs/core/api/ri.cpp:1106-1125, with [default] the default path.
      C50_pieces bounds the number of turns of a loop that ends. *)
  Definition expand_elt (default : list Z) (new old : elt) : res elt :=
    match new, old with
    | Str n, Str o =>
        match expand env o default (S (2 * List.length n)) n with
        | Some e => Ok (Str e)
        | None => Hang
        end
    | _, _ => Undef
    end.

  (** The default path used by "searchpath" (libs/core/api/ri.cpp:1108-1114)
      and by "defaultsearchpath" (1120-1123).  The code reads it again for
      each value; it does not change. *)
  Definition default_path (st : state) (o : nat) (nm pm : name) : res (list Z) :=
    if name_eqb nm searchpath then
      match get st o defaultsearchpath pm TString with
      | Ok (Some (Str s :: _)) => Ok s
      | Ok None => Ok []
      | _ => Undef
      end
    else Ok [].

  Fixpoint expand_all (default : list Z) (new old : list elt) : res (list elt) :=
    match new, old with
    | n :: new', o :: old' =>
        bind (expand_elt default n o) (fun e =>
        bind (expand_all default new' old') (fun r => Ok (e :: r)))
    | _, _ => Ok []
    end.

  (** One parameter of RiCxxCore::Option (libs/core/api/ri.cpp:1068-1180) once
      the options object to write to is there; the requests with an option of
      their own (RiFormat and the others) do the same with the option
      "System".  The values are written one after the other from the front:
      writing beyond the end of the parameter is undefined, and values of the
      parameter beyond those written stay. *)
  Definition set_in (st : state) (o : nat) (nm pm : name) (t : ty) (vals : list elt)
    : res state :=
    bind (get_write st o nm pm t (List.length vals)) (fun r =>
    let '(st1, c, p) := r in
    if List.length vals <=? List.length (p_vals p) then
      bind (if ty_eqb t TString && (name_eqb nm searchpath || name_eqb nm defaultsearchpath) then
              bind (default_path st1 o nm pm) (fun d =>
              expand_all d vals (p_vals p))
            else Ok vals) (fun new =>
      Ok (set_param st1 c pm {| p_type := p_type p;
            p_vals := new ++ skipn (List.length vals) (p_vals p) |}))
    else Undef).

  (** The block whose options are used: blocks of the other kinds ask their
      parent; libs/core/api/graphicsstate.h:462-477 and the like. *)
  Fixpoint owner (bs : list block) : nat :=
    match bs with
    | [] => 0
    | b :: r => if kind_eqb (b_kind b) Inner then S (owner r) else 0
    end.

  Definition no_block : block := {| b_kind := Main; b_cur := 0; b_saved := [] |}.
  Definition owner_block (st : state) : block := nth (owner (blocks st)) (blocks st) no_block.

  (** poptCurrent: libs/core/api/graphicsstate.h:322-325, 392-395. *)
  Definition current (st : state) : nat := b_cur (owner_block st).

  Definition set_owner (st : state) (b : block) : state :=
    with_blocks st (upd (owner (blocks st)) b (blocks st)).

  (** poptWriteCurrent: libs/core/api/graphicsstate.h:326-331, 396-401. *)
  Definition write_current (st : state) : state :=
    let b := owner_block st in
    if unique_obj st (b_cur b) then st
    else
      let (st1, n) := copy_obj st (b_cur b) in
      set_owner st1 {| b_kind := b_kind b; b_cur := n; b_saved := b_saved b |}.

  (** pushOptions: libs/core/api/graphicsstate.h:332-338, 402-408. *)
  Definition push (st : state) : state :=
    let b := owner_block st in
    let (st1, n) := copy_obj st (b_cur b) in
    set_owner st1 {| b_kind := b_kind b; b_cur := n; b_saved := b_cur b :: b_saved b |}.

  (** popOptions: libs/core/api/graphicsstate.h:339-346, 409-416; the top of an
      empty stack is undefined. *)
  Definition pop (st : state) : res state :=
    let b := owner_block st in
    match b_saved b with
    | [] => Undef
    | o :: r => Ok (set_owner st {| b_kind := b_kind b; b_cur := o; b_saved := r |})
    end.

  (** The constructors of the blocks (libs/core/api/graphicsstate.cpp:82-93,
      111-120, 143-152 and the like): the options of the parent block itself
      are copied, whether it uses them or not.  A frame may begin in the main
      block only (graphicsstate.h:374-377 and the like); which other blocks
      may begin in which is the subject of C22. *)
  Definition begin_block (st : state) (k : kind) : state :=
    match blocks st with
    | [] => st
    | b :: _ =>
        match k, b_kind b with
        | Main, _ => st
        | Frame, Frame => st
        | Frame, Inner => st
        | _, _ =>
            let (st1, n) := copy_obj st (b_cur b) in
            with_blocks st1 ({| b_kind := k; b_cur := n; b_saved := [] |} :: blocks st1)
        end
    end.

  (** The ends of blocks: only the innermost block can end (libs/core/
      renderer.cpp:380-505); the main block is not ended here. *)
  Definition end_block (st : state) (k : kind) : state :=
    match blocks st with
    | b :: r => if kind_eqb (b_kind b) k && negb (kind_eqb k Main) then with_blocks st r else st
    | [] => st
    end.

  (** SetfuncFilter: libs/core/options.h:119-122. *)
  Definition set_filter (st : state) (o : nat) (f : Z) : state :=
    let ob := obj_at st o in
    with_objs st (upd o {| o_cells := o_cells ob; o_filter := f; o_imager := o_imager ob |} (objs st)).

  (** SetpshadImager: libs/core/options.cpp:673-679: the former imager is
      deleted, whether another copy of the options points to it or not. *)
  Definition set_imager (st : state) (o : nat) (s : Z) : res state :=
    let ob := obj_at st o in
    bind (match o_imager ob with
          | None => Ok (imagers st)
          | Some i => match nth i (imagers st) (0%Z, false) with
                      | (x, true) => Ok (upd i (x, false) (imagers st))
                      | (_, false) => Undef
                      end
          end) (fun im =>
    Ok (with_imagers
          (with_objs st (upd o {| o_cells := o_cells ob; o_filter := o_filter ob;
                                  o_imager := Some (List.length im) |} (objs st)))
          (im ++ [(s, true)]))).

  (** pshadImager: libs/core/options.cpp:682-688; looking at a deleted imager
      is undefined. *)
  Definition get_imager (st : state) (o : nat) : res (option Z) :=
    match o_imager (obj_at st o) with
    | None => Ok None
    | Some i => match nth i (imagers st) (0%Z, false) with
                | (x, true) => Ok (Some x)
                | (_, false) => Undef
                end
    end.

  Inductive op :=
  | Begin (k : kind)
  | End_ (k : kind)
  | Push
  | Pop
  | Hold                       (** somebody keeps the pointer poptCurrent() *)
  | Release (i : nat)          (** and lets it go *)
  | Set_ (nm pm : name) (t : ty) (vals : list elt)
  | SetFilter (f : Z)
  | SetImager (s : Z)
  | PushSet (ws : list (name * name * ty * list elt)).

  Fixpoint set_all (st : state) (o : nat) (ws : list (name * name * ty * list elt)) : res state :=
    match ws with
    | [] => Ok st
    | (nm, pm, t, vals) :: r => bind (set_in st o nm pm t vals) (fun st1 => set_all st1 o r)
    end.

  Fixpoint remove_at {A} (i : nat) (l : list A) : list A :=
    match i, l with
    | _, [] => []
    | O, _ :: r => r
    | S j, x :: r => x :: remove_at j r
    end.

  (** [Set_] is a request (libs/core/api/ri.cpp:1068-1180); [PushSet] is the
      beginning of the pass for an automatic shadow map, which writes
      directly to the options returned by pushOptions (libs/core/
      renderer.cpp:734-764). *)
  Definition step (st : state) (a : op) : res state :=
    match a with
    | Begin k => Ok (begin_block st k)
    | End_ k => Ok (end_block st k)
    | Push => Ok (push st)
    | Pop => pop st
    | Hold => Ok (with_held st (held st ++ [current st]))
    | Release i => if i <? List.length (held st) then Ok (with_held st (remove_at i (held st)))
                   else Undef
    | Set_ nm pm t vals =>
        let st1 := write_current st in set_in st1 (current st1) nm pm t vals
    | SetFilter f =>
        let st1 := write_current st in Ok (set_filter st1 (current st1) f)
    | SetImager s =>
        let st1 := write_current st in set_imager st1 (current st1) s
    | PushSet ws =>
        let st1 := push st in set_all st1 (current st1) ws
    end.

  Fixpoint run (st : state) (ops : list op) : res state :=
    match ops with
    | [] => Ok st
    | a :: r => bind (step st a) (fun st1 => run st1 r)
    end.
End Options.

(** The main block with its options: libs/core/api/graphicsstate.cpp:60-66.
    The lists of parameters given are those of InitialiseDefaultOptions,
    libs/core/options.cpp:270-310. *)
Definition start (cs : list cell) (filter : Z) : state :=
  {| cells := cs;
     objs := [{| o_cells := seq 0 (List.length cs); o_filter := filter; o_imager := None |}];
     blocks := [{| b_kind := Main; b_cur := 0; b_saved := [] |}];
     held := [];
     imagers := [] |}.

(** CqOptions::InitialiseDefaultOptions: libs/core/options.cpp:270-310.
    Numbers are written exactly; FLT_EPSILON is 2^-23 and 4/3 is not
    rounded. *)
Definition flt_max : Q := inject_Z (2 ^ 128 - 2 ^ 104).

Definition default_options : list cell :=
  let num n l := (text n, {| p_type := TFloat; p_vals := map Num l |}) in
  let int n l := (text n, {| p_type := TInteger; p_vals := map (fun z => Num (inject_Z z)) l |}) in
  let str n s := (text n, {| p_type := TString; p_vals := [Str (text s)] |}) in
  [{| c_name := text "System";
      c_params :=
        [num "PixelVariance" [1%Q]; int "PixelSamples" [2; 2]%Z; num "FilterWidth" [2; 2]%Q;
         num "Exposure" [1; 1]%Q; str "Imager" "null"; str "DisplayType" "file";
         str "DisplayName" "aqsis.tif"; int "DisplayMode" [1%Z]; str "Hider" "hidden";
         int "ColorSamples" [3%Z]; num "RelativeDetail" [1%Q]; int "Resolution" [640; 480]%Z;
         num "PixelAspectRatio" [1%Q]; num "CropWindow" [0; 1; 0; 1]%Q;
         num "FrameAspectRatio" [(4 # 3)%Q]; num "ScreenWindow" [- (4 # 3); 4 # 3; 1; - (1)]%Q;
         int "Projection" [1%Z]; num "Clipping" [1 # (2 ^ 23); flt_max]%Q;
         num "DepthOfField" [flt_max; flt_max; flt_max]; num "Shutter" [0; 0]%Q;
         num "FOV" [90%Q]; num "SqrtGridSize" [16%Q]]%string |};
   {| c_name := text "Quantize";
      c_params := [num "Color" [255; 0; 255; 1 # 2]%Q; num "Depth" [0; 0; 0; 0]%Q]%string |}].

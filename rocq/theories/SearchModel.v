(** Search paths: how the path given to the "searchpath" option is expanded,
    how a search path is cut into directories, and how a file is looked for.

    Strings are lists of character codes, without the terminating zero; the
    posix branch of the code is modelled.  The file system answers for each
    path whether it is a regular file, is not one, or cannot be examined. *)

From Coq Require Import List Bool ZArith.
Import ListNotations.
Open Scope Z_scope.

(** Splits a string before its first character satisfying the test: what
    std::string::find_first_of and find give together with substr in
    libs/util/file.cpp:162-190, and the loops of include/aqsis/util/file.h:
    189-196. *)
Fixpoint break (stop : Z -> bool) (s : list Z) : list Z * list Z :=
  match s with
  | [] => ([], [])
  | c :: r => if stop c then ([], s) else let (a, b) := break stop r in (c :: a, b)
  end.

(** The characters looked for: libs/util/file.cpp:162. *)
Definition special (c : Z) : bool := (c =? 38) || (c =? 64) || (c =? 37).

Section Expand.
  (** The environment (getenv), libs/util/file.cpp:184.  Names with zero
      characters in them are not considered. *)
  Variable env : list Z -> option (list Z).
  Variable old default : list Z.

  (** The loop of expandSearchPath, libs/util/file.cpp:160-196: [s] is the
      part of newPath from strt on, [acc] is expandedPath.  [fuel] bounds the
      number of turns; None means that the loop is still turning after that
      many.  A '%' with no other '%' behind it leaves strt where it is. *)
  Fixpoint expand_loop (fuel : nat) (s acc : list Z) : option (list Z) :=
    match fuel with
    | O => None
    | S f =>
        let (t, r) := break special s in
        match r with
        | [] => Some (acc ++ t)
        | c :: r' =>
            if c =? 38 then expand_loop f r' (acc ++ t ++ old)
            else if c =? 64 then expand_loop f r' (acc ++ t ++ default)
            else
              let (v, e) := break (fun x => x =? 37) r' in
              match e with
              | [] => expand_loop f s (acc ++ t)
              | _ :: e' =>
                  expand_loop f e'
                    (acc ++ t ++ match env v with Some x => x | None => [] end)
              end
        end
    end.

  (** expandSearchPath: libs/util/file.cpp:151-199 (mtorPathFudge returns its
      argument on posix, 121-149), stopped after [fuel] turns. *)
  Definition expand (fuel : nat) (s : list Z) : option (list Z) := expand_loop fuel s [].
End Expand.

(** CqSearchPathsTokenFunc::isDelim: include/aqsis/util/file.h:176-181. *)
Definition delim (c : Z) : bool := (c =? 58) || (c =? 59).

(** One call of CqSearchPathsTokenFunc::operator() for each turn:
    include/aqsis/util/file.h:183-211.  [fuel] only makes the recursion
    structural, see [directories]. *)
Fixpoint tokens (fuel : nat) (s : list Z) : list (list Z) :=
  match fuel with
  | O => []
  | S f =>
      let (_, s') := break (fun c => negb (delim c)) s in
      match s' with
      | [] => []
      | _ => let (t, r) := break delim s' in t :: tokens f r
      end
  end.

(** TqPathsTokenizer: include/aqsis/util/file.h:152-153. *)
Definition directories (s : list Z) : list (list Z) := tokens (S (length s)) s.

(** The status of a path in the file system: boost's is_regular_file returns
    true, false, or throws boost::filesystem::filesystem_error. *)
Inductive status := Regular | Other | Unreadable.

(** What a search gives: a path, nothing, or an exception which leaves the
    function. *)
Inductive outcome := Found (p : list Z) | Missing | Throws.

(** isRegularFile: libs/util/file.cpp:66-82.  The handler names
    std::filesystem::filesystem_error, which is not the exception that
    boost's function throws, so that the exception goes through. *)
Definition is_regular_file (files : list Z -> status) (p : list Z) : option bool :=
  match files p with
  | Regular => Some true
  | Other => Some false
  | Unreadable => None
  end.

(** boost::filesystem::path::operator/ for a relative right hand side on
    posix: a separator is put between the two unless the left one ends with
    one (or is empty). *)
Definition path_join (d f : list Z) : list Z :=
  match d with
  | [] => f
  | _ => if last d 0 =? 47 then d ++ f else d ++ 47 :: f
  end.

(** filePath.is_absolute() || *filePath.begin() == "." ||
    *filePath.begin() == "..": libs/util/file.cpp:92.  Names beginning with
    two slashes (network names for boost) are not considered. *)
Definition direct (f : list Z) : bool :=
  match f with
  | 47 :: _ => true
  | [46] | 46 :: 47 :: _ => true
  | [46; 46] | 46 :: 46 :: 47 :: _ => true
  | _ => false
  end.

(** The loop over the directories: libs/util/file.cpp:100-108. *)
Fixpoint find_in (files : list Z -> status) (ds : list (list Z)) (f : list Z) : outcome :=
  match ds with
  | [] => Missing
  | d :: r =>
      match is_regular_file files (path_join d f) with
      | Some true => Found (path_join d f)
      | Some false => find_in files r f
      | None => Throws
      end
  end.

(** findFileNothrow: libs/util/file.cpp:84-109. *)
Definition find_file (files : list Z -> status) (f search : list Z) : outcome :=
  match f with
  | [] => Missing
  | _ =>
      if direct f then
        match is_regular_file files f with
        | Some true => Found f
        | Some false => Missing
        | None => Throws
        end
      else find_in files (directories search) f
  end.

(** CqOptions::findRiFileNothrow: libs/core/options.cpp:787-803.  [option_of]
    gives the value of the parameter of the option "searchpath" with the
    given name, if there is one. *)
Definition find_ri_file (files : list Z -> status)
    (option_of : list Z -> option (list Z)) (resource : list Z)
    (f name : list Z) : outcome :=
  let loc := match option_of name with
             | Some s => find_file files f s
             | None => Missing
             end in
  match loc with
  | Missing =>
      match option_of resource with
      | Some s => find_file files f s
      | None => Missing
      end
  | _ => loc
  end.

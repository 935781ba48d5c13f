(** What search paths are meant to be. *)

From Coq Require Import List Bool ZArith.
From Verif Require Import SearchModel.
Import ListNotations.
Open Scope Z_scope.

(** A search path as the user writes it is a row of pieces: plain text, '&'
    for the previous path, '@' for the default path, and %name% for the
    variable "name" of the environment. *)
Inductive piece := Text (t : list Z) | Previous | Default | Variable_named (v : list Z).

Definition write_piece (p : piece) : list Z :=
  match p with
  | Text t => t
  | Previous => [38]
  | Default => [64]
  | Variable_named v => [37] ++ v ++ [37]
  end.

(** Plain text has none of the three characters; the name of a variable has
    no '%'. *)
Definition proper_piece (p : piece) : Prop :=
  match p with
  | Text t => ~ In 38 t /\ ~ In 64 t /\ ~ In 37 t
  | Variable_named v => ~ In 37 v
  | _ => True
  end.

(** What a piece stands for. *)
Definition meaning (env : list Z -> option (list Z)) (old default : list Z) (p : piece) : list Z :=
  match p with
  | Text t => t
  | Previous => old
  | Default => default
  | Variable_named v => match env v with Some x => x | None => [] end
  end.

(** The number of '%' in a string. *)
Fixpoint percents (s : list Z) : nat :=
  match s with
  | [] => 0
  | c :: r => if c =? 37 then S (percents r) else percents r
  end.

(** A list of directories with the separators (':' or ';') around them. *)
Definition separators (s : list Z) : Prop := forall c, In c s -> c = 58 \/ c = 59.

Definition directory (d : list Z) : Prop := d <> [] /\ ~ In 58 d /\ ~ In 59 d.

(** [Listed s ds]: the string [s] lists the directories [ds]. *)
Inductive Listed : list Z -> list (list Z) -> Prop :=
| listed_none : forall s, separators s -> Listed s []
| listed_last : forall s d, separators s -> directory d -> Listed (s ++ d) [d]
| listed_more : forall s d c r ds, separators s -> directory d -> c = 58 \/ c = 59 ->
    Listed r ds -> Listed (s ++ d ++ c :: r) (d :: ds).

(** The path of a file in a directory. *)
Definition inside (d f : list Z) : list Z :=
  match rev d with
  | 47 :: _ => d ++ f
  | _ => d ++ [47] ++ f
  end.

(** Files whose name is absolute, or whose first component is "." or "..",
    are not looked for in the search path. *)
Definition named_directly (f : list Z) : Prop :=
  (exists r, f = 47 :: r) \/
  exists c r, f = c ++ r /\ (c = [46] \/ c = [46; 46]) /\ (r = [] \/ exists r', r = 47 :: r').

(** The first directory of a list in which the file is a regular one. *)
Definition first_with (files : list Z -> status) (ds : list (list Z)) (f p : list Z) : Prop :=
  exists before d after, ds = before ++ d :: after /\ p = inside d f /\ files p = Regular /\
    forall b, In b before -> files (inside b f) <> Regular.

(** What a patch mesh and a set of curves are made of, from the RenderMan
    interface: along one direction with [n] control vertices a cubic has a piece
    for each [step] vertices, the piece number [k] having its first vertex at
    [k * step].  A cubic piece has 4 vertices and a linear one 2, with step 1.  In a
    periodic direction the vertices go round, in the other all must be there. *)

From Coq Require Import List Bool ZArith.
From Verif Require Import MeshModel.
Import ListNotations.
Open Scope Z_scope.

Definition width (cubic : bool) : Z := if cubic then 4 else 2.

Definition is_piece (cubic periodic : bool) (n step k : Z) : Prop :=
  0 <= k /\ (if periodic then (k + 1) * step <= n else k * step + width cubic <= n).

(** There are [q] pieces, numbered from 0. *)
Definition pieces (cubic periodic : bool) (n step q : Z) : Prop :=
  0 <= q /\ forall k, is_piece cubic periodic n step k <-> 0 <= k < q.

(** Enough vertices for at least one piece, where vertices do not go round. *)
Definition enough (cubic periodic : bool) (n step : Z) : Prop :=
  0 < step /\ (cubic = false -> step = 1) /\ (if periodic then 0 <= n else width cubic <= n).

(** The ends of [q] pieces: piece [k] goes from end [k] to end [after k]. *)
Definition ends (periodic : bool) (q : Z) : Z := if periodic then q else q + 1.
Definition after (periodic : bool) (q k : Z) : Z := if periodic then (k + 1) mod q else k + 1.

(** Vertex [x] of a direction, going round if that is periodic. *)
Definition wrap (periodic : bool) (n x : Z) : Z := if periodic then x mod n else x.

(** The patch in row [i] and column [j] of [qu] by [qv] patches: its corners and
    vertices by number, rows one after the other. *)
Definition own_corners (uper vper : bool) (qu qv i j : Z) : list Z :=
  let corner r c := r * ends uper qu + c in
  [corner i j; corner i (after uper qu j);
   corner (after vper qv i) j; corner (after vper qv i) (after uper qu j)].
Definition own_vertices (cubic uper vper : bool) (nu nv ustep vstep i j : Z) : list Z :=
  let offsets := if cubic then [0; 1; 2; 3] else [0; 1] in
  flat_map (fun a => map (fun b =>
    wrap vper nv (i * vstep + a) * nu + wrap uper nu (j * ustep + b)) offsets) offsets.
Definition own_face (qu i j : Z) : Z := i * qu + j.

(** Curves: how many ends there are in all, and at which number the vertices and
    ends of curve [c] start. *)
Definition total (l : list Z) : Z := fold_right Z.add 0 l.
Definition all_pieces (cubic periodic : bool) (step : Z) (nverts qs : list Z) : Prop :=
  Forall2 (fun n q => pieces cubic periodic n step q) nverts qs.
Definition start_of (l : list Z) (c : nat) : Z := total (firstn c l).
Definition fits_int (z : Z) : Prop := -2147483648 <= z <= 2147483647.

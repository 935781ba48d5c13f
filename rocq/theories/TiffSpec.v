(** What is expected of an image file. *)

From Coq Require Import List Bool ZArith.
From Verif Require Import TexModel TexSpec TiffModel.
Import ListNotations.
Open Scope Z_scope.

(** The lines of buffers one below the other. *)
Fixpoint stacked {V} (bs : list (buffer V)) (x y : Z) : option V :=
  match bs with
  | [] => None
  | b :: r => if y <? b_height V b then Some (b_data V b (y * b_width V b + x)) else stacked r x (y - b_height V b)
  end.
Fixpoint lines_of {V} (bs : list (buffer V)) : Z :=
  match bs with [] => 0 | b :: r => b_height V b + lines_of r end.

(** The buffer holds [n] lines of the image from line [start]. *)
Definition shows {V} (b : buffer V) (width n start : Z) (img : Z -> Z -> V) : Prop :=
  b_width V b = width /\ b_height V b = n /\ buffer_holds b (fun x y => img x (start + y)).

(** The tiles of the file as a texture sees them. *)
Definition as_texture {V} (f : image_file V) (tw th : Z) : file V :=
  mkFile V (i_width V f) (i_height V f) tw th (i_tiles V f).

(** C34 and C35: the values of numbers, and what codes refer to, in a RIB stream. *)

From Coq Require Import List Bool Arith ZArith QArith.
From Verif Require Import RibBufModel RibTokModel RibTokSpec RibNumSpec RibTokProofs RibNumProofs.
Import ListNotations.
Open Scope Z_scope.

(** C34.  With exact arithmetic for floats, a number is read as one token: the
    number spelt.  The token is an integer exactly if there is neither a point nor
    an exponent.  Partial: the whole part and the exponent fit in an int (see
    C03_overflow_refuted for what happens otherwise) and the rounding of floats is
    not modelled. *)
Theorem C34_literal_partial : forall k n r fuel, left k < 0 -> well_spelt n -> stops n r ->
  exists t, q_scan (S fuel) k (spell n ++ r) = Scanned Q t k r /\
    match t with
    | TFloat _ q => (frac n <> None \/ expo n <> None) /\ (q == denotes n)%Q
    | TInteger _ i => frac n = None /\ expo n = None /\ (inject_Z i == denotes n)%Q
    | _ => False
    end.
Proof. intros k n r fuel. exact (literal_value k n r fuel). Qed.
Print Assumptions C34_literal_partial.

(** Binary fixed point numbers: [w]+1 bytes, most significant first, [d] of them
    after the binary point. *)
Theorem C34_fixed_point : forall k w d bs r fuel,
  left k < 0 -> 0 <= w <= 3 -> 1 <= d <= 3 -> Z.of_nat (length bs) = w + 1 ->
  exists q, q_scan (S fuel) k (128 + 4 * d + w :: bs ++ r) = Scanned Q (TFloat Q q) k r /\
    (q == inject_Z (number256 bs) / 256 ^ d)%Q.
Proof. intros k w d bs r fuel. exact (fixed_value k w d bs r fuel). Qed.
Print Assumptions C34_fixed_point.

(** C35.  However floats are represented: a code gives the request name or string
    of its last definition before the use, and an error if there is none. *)
Theorem C35_codes : forall F ob32 ob64 oi add mul tt tenth tp fx l, Forall is_item l ->
  exists k', scans F ob32 ob64 oi add mul tt tenth tp fx no_codes (flat_map spell_item l) (item_tokens [] l) k' [].
Proof.
  intros F ob32 ob64 oi add mul tt tenth tp fx l H.
  exact (items_read F ob32 ob64 oi add mul tt tenth tp fx l H [] no_codes knows_nothing).
Qed.
Print Assumptions C35_codes.

(** Non-vacuity.  "-12.50e+1 " is -125. *)
Definition sample_literal : literal :=
  mkLit (Some true) [49; 50] (Some [53; 48]) (Some (101, Some false, [49])).
Example C34_case : well_spelt sample_literal /\ stops sample_literal [32] /\ (denotes sample_literal == -125)%Q /\
  spell sample_literal = [45; 49; 50; 46; 53; 48; 101; 43; 49].
Proof.
  split; [|split; [|split]]; try reflexivity.
  - unfold well_spelt, sample_literal, all_digits. cbn [whole frac expo].
    repeat split; try (repeat constructor; discriminate); try discriminate; try (left; discriminate); left; reflexivity.
  - repeat split; discriminate.
Qed.

(** A code defined twice, used between and after, an undefined one, and string
    codes of both widths. *)
Definition sample_items : list item :=
  [DefRequest 7 [65; 66]; UseRequest 7; DefRequest 7 [67]; UseRequest 7; UseRequest 8;
   DefString false 9 [68]; DefString true 300 []; UseString true 9; UseString true 300; UseString false 44].
Example C35_case : Forall is_item sample_items /\
  @item_tokens Q [] sample_items =
    [TRequest Q [65; 66]; TRequest Q [67]; TError Q; TString Q [68]; TString Q []; TError Q].
Proof.
  split; [|reflexivity]. unfold sample_items, bytes.
  repeat match goal with |- Forall is_item (_ :: _) => apply Forall_cons | |- Forall is_item [] => apply Forall_nil end;
    unfold is_item; cbn [length]; repeat split; try discriminate; try Lia.lia; unfold bytes;
    repeat match goal with |- Forall _ (_ :: _) => apply Forall_cons | |- Forall _ [] => apply Forall_nil end; Lia.lia.
Qed.

(** C33: random numbers stay in their documented ranges, for every history of calls and every seed, and a reseeded
    generator produces exactly the MT19937 sequence of its seed. *)
From Verif Require Import RandomModel RandomSpec RandomProofs.
Open Scope Z_scope.

(** From program start, any sequence of constructions, reseeds and draws on any objects runs without leaving the state
    array, and every result is in the documented half-open range.  This includes the rounding of every float
    operation. *)
Theorem C33_random_in_range_partial : forall l junk, Forall op_ok l ->
  exists rs st', exec_all l (start junk) = Some (rs, st') /\ Forall2 in_range l rs.
Proof. exact exec_all_ok. Qed.
Print Assumptions C33_random_in_range_partial.

(** In whatever state the generator is, the draws that follow Reseed(seed) are the MT19937 outputs for that seed. *)
Theorem C33_reseed_gives_mt19937 : forall seed st, exists x,
  is_mt_sequence seed x /\
  forall n, exists st', exec_all (Reseed seed :: repeat RandomInt n) st =
    Some (RUnit :: map (fun k => RInt (mt_temper (x (624 + k)%nat))) (seq 0 n), st').
Proof. exact reseed_gives_mt19937. Qed.
Print Assumptions C33_reseed_gives_mt19937.

(** Finding: the seed given to a constructor is ignored. *)
Theorem C33_constructor_seed_refuted : forall s1 s2 l st,
  exec_all (NewSeeded s1 :: l) st = exec_all (NewSeeded s2 :: l) st.
Proof. reflexivity. Qed.
Print Assumptions C33_constructor_seed_refuted.

(** Finding: for a subnormal range the bound itself can be returned ("0 <= value < Range" fails), so [op_ok] cannot
    simply ask for a positive float. *)
Theorem C33_tiny_range_refuted : exists y, 0 <= y < 2 ^ 32 /\
  is_float (Flocq.Core.Raux.bpow Flocq.Core.Zaux.radix2 (-149)) /\
  float_in_range (Flocq.Core.Raux.bpow Flocq.Core.Zaux.radix2 (-149)) y =
  Flocq.Core.Raux.bpow Flocq.Core.Zaux.radix2 (-149).
Proof. exact tiny_range. Qed.
Print Assumptions C33_tiny_range_refuted.

(** The hypotheses are met by an ordinary history. *)
Example C33_case : Forall op_ok [NewSeeded 42; RandomFloat; RandomIntRange 250; Reseed 19; RandomInt; RandomFloatRange 1].
Proof.
  assert (E : (1 = Flocq.Core.Raux.bpow Flocq.Core.Zaux.radix2 0)%R) by reflexivity.
  repeat apply Forall_cons; try exact I; try apply Forall_nil; try (split; reflexivity || discriminate).
  rewrite E. split.
  - apply Flocq.Core.Generic_fmt.generic_format_bpow. cbn. discriminate.
  - apply Flocq.Core.Raux.bpow_le. discriminate.
Qed.

(** The first words of the initial state for the default seed, as published. *)
Example C33_first_words :
  exists x, is_mt_sequence 5489 x /\ map x [0; 1; 2; 3]%nat = [5489; 1301868182; 2938499221; 2950281878].
Proof. exists (mt_x 5489). split; [apply mt_x_is|]. vm_compute. reflexivity. Qed.

(** C20: the sample patterns handed out by the multi-jittered sampler are stratified. *)
From Verif Require Import JitterModel JitterSpec JitterProofs.

(** For every numbers of samples [numX], [numY], every number of cached patterns and every outcome of the random
    generator: constructing the sampler succeeds without touching memory outside its tables, and every later request
    returns a pattern with one 2-d sample in each cell of the grid, in each fine column and in each fine row, one 1-d
    sample per interval, and a permutation of the sample indices. *)
Theorem C20_samples_stratified : forall g numX numY cache c junk t,
  rng_ok g -> 0 < numX -> 0 < numY -> 0 < cache ->
  exists c' t', make_sampler g numX numY cache c junk t = Some (c', t') /\
    forall d,
      stratified2d numX numY (get_2d_samples g numX numY cache d t') /\
      stratified1d (numX * numY) (get_1d_samples g numX numY cache d t') /\
      permutation_of_indices (numX * numY) (get_shuffled_indices g numX numY cache d t').
Proof. exact sampler_requests. Qed.
Print Assumptions C20_samples_stratified.

(** A generator meeting the hypothesis: draws that depend on the draw number. *)
Definition rng_ex : rng := mkrng (fun c k => (c * 7 + 1) mod k) (fun _ => 1 # 2)%Q.

Example rng_ex_ok : rng_ok rng_ex.
Proof.
  split; [intros c k H; apply Nat.mod_upper_bound; lia|].
  intros c; split; [discriminate|reflexivity].
Qed.

(** The 2 by 3 pattern it produces is not the canonical one. *)
Example C20_case :
  match multi_jitter_indices rng_ex 2 3 0 (fun _ => 0) with
  | Some (_, f) => map f (seq 0 12) = [0; 0; 2; 1; 2; 1; 1; 0; 1; 0; 0; 1]
  | None => False
  end.
Proof. vm_compute. reflexivity. Qed.

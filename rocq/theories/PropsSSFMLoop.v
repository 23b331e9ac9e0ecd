(** Property theorems proved in SSFMLoopProofs.v (generated by tools/gen_props.py). *)
From Coq Require Import Reals List ZArith Bool Arith Lia Lra.
From Coquelicot Require Import Complex.
From Verif Require Import Base CNum NumPy ModelFFT ModelPulse ModelSSFM SSFMLoopProofs.
Import ListNotations.
Local Open Scope R_scope.

(** C28 (partial): for every positive distance and initial step, whatever the field does, integrate_over_dz terminates; the kept step lengths are positive and add up to at least the requested distance, and to exactly that distance unless the step before the last one left a residue in (0, 2*dz_min]. Missing: exact coverage in that last case, refuted below. *)
Theorem C28_terminates_and_covers_partial : forall (c : cfg) (delta_z dir : R) (s : ssfm),
  0 < delta_z -> 0 < s_dz s ->
  exists fuel r, integrate_trace c fuel delta_z dir s = Some r /\
    (forall h, In h (l_steps r) -> 0 < h) /\ delta_z <= lrsum (l_steps r) /\
    (lrsum (l_steps r) = delta_z \/
     exists last earlier, l_steps r = last :: earlier /\ 0 < delta_z - lrsum earlier <= 2 * / 10 ^ 12).
Proof. exact C28_terminates_and_covers_partial_l. Qed.
Print Assumptions C28_terminates_and_covers_partial.

(** C28 (partial, arbitrary error estimates): the same for every sequence of error values, NaN (None) included, fed to the step controller. *)
Theorem C28_any_errors_partial : forall (c : cfg) (errs : nat -> option R) (delta_z dz0 : R),
  0 < delta_z -> 0 < dz0 ->
  exists fuel r, loop c (fun (_ : R) (k : nat) => (errs k, S k, S k)) fuel delta_z (first_dz delta_z dz0) None [] 0%nat = Some r /\
    (forall h, In h (l_steps r) -> 0 < h) /\ delta_z <= lrsum (l_steps r) /\
    (lrsum (l_steps r) = delta_z \/
     exists last earlier, l_steps r = last :: earlier /\ 0 < delta_z - lrsum earlier <= 2 * / 10 ^ 12).
Proof. exact C28_any_errors_partial_l. Qed.
Print Assumptions C28_any_errors_partial.

(** C28 refuted for a solver that was once asked to integrate over zero distance (a fiber of length 0): its step size is then 0 and no later call ever returns. *)
Theorem C28_zero_distance_refuted : forall (c : cfg) (dir : R) (s : ssfm),
  0 < s_dz s ->
  exists s', integrate_over_dz c 0 0 dir s = Some s' /\
    forall (fuel : nat) (delta_z dir' : R), 0 < delta_z -> integrate_over_dz c fuel delta_z dir' s' = None.
Proof. exact C28_zero_distance_refuted_l. Qed.
Print Assumptions C28_zero_distance_refuted.

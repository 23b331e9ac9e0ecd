(** Property theorems proved in SSFMNanProofs.v (generated by tools/gen_props.py). *)
From Coq Require Import Reals List ZArith Bool Arith Lia Lra.
From Coquelicot Require Import Complex.
From Verif Require Import Base CNum NumPy ModelSSFM SSFMNanProofs.
Import ListNotations.
Local Open Scope R_scope.

(** C28: when the error estimate is NaN every comparison of the step controller is false: every attempted step is kept, and the second is 2^(1/eta) times as long as the first (if the distance leaves room for both), though nothing is known about the error. *)
Theorem C28_nan_grows : forall (c : cfg) (fuel : nat) (delta_z dz0 : R) (r : lres nat), (0 < c_eta c)%nat -> 0 < dz0 ->
  let f := Rpower 2 (1 / INR (c_eta c)) in 2 * dz0 + 2 * (dz0 * f) <= delta_z ->
  loop c (fun (_ : R) (k : nat) => (None, S k, S k)) fuel delta_z (first_dz delta_z dz0) None [] 0%nat = Some r ->
  l_st r = length (l_steps r) /\ exists later, l_steps r = later ++ [2 * (dz0 * f); 2 * dz0] /\ 2 * dz0 < 2 * (dz0 * f).
Proof. exact C28_nan_grows_l. Qed.
Print Assumptions C28_nan_grows.

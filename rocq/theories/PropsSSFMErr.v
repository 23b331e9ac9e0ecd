(** Property theorems proved in SSFMErrProofs.v (generated by tools/gen_props.py). *)
From Coq Require Import Reals List ZArith Bool Arith Lia Lra.
From Coquelicot Require Import Coquelicot.
From Verif Require Import Base CNum NumPy ModelFFT FFTProofs ModelPulse Spec PulseProofs PulseOpsProofs PulseRegridProofs ModelSSFM SSFMLoopProofs SSFMProofs SSFMSymProofs SSFMPropProofs SSFMErrProofs.
Import ListNotations.
Local Open Scope R_scope.
Local Open Scope py_scope.
Local Notation z0 := (RtoC 0).

(** C88: whatever the medium, the method and the tolerance, the field integrate_over_dz ends with is reached through the steps it kept. Each of them, of length 2h, starts from the field the previous one left; unless h is below twice the smallest allowed step, one step over 2h and two steps over h (each with its own propagator) differ by at most twice the local error, relative to the finer field; and the field it leaves is the extrapolation that makes the error of the coarse field exactly 2^(eta-1) times that of the fine one. *)
Theorem C88_kept_steps : forall (c : cfg) (n fuel : nat) (delta_z dir : R) (s : ssfm) (r : lres ssfm),
  wf n s -> (2 <= c_eta c)%nat -> 0 < delta_z -> 0 < s_dz s -> integrate_trace c fuel delta_z dir s = Some r ->
  kept c s dir (s_A s) (l_steps r) (s_A (l_st r)).
Proof. exact C88_kept_steps_l. Qed.
Print Assumptions C88_kept_steps.

(** Property theorems proved in RkOrderProofs.v (generated by tools/gen_props.py). *)
From Coq Require Import Reals List ZArith Bool Arith Lra Lia Psatz FunctionalExtensionality.
From Coquelicot Require Import Coquelicot.
From Verif Require Import Base CNum NumPy ModelFFT FFTProofs ModelPulse PulseProofs PulseOpsProofs ModelSSFM SSFMLoopProofs SSFMProofs SSFMSymProofs SSFMGnlseProofs JetProofs RkJetProofs TaylorProofs RkOrderProofs.
Import ListNotations.
Local Open Scope R_scope.
Local Notation z0 := (RtoC 0).

(** C100: RK4IP is a fourth-order method for the generalised nonlinear Schroedinger equation. Whatever the dispersion, loss, Raman response, self-steepening and direction: if y is a solution of dA/dz = dir*(D A + N(A) A) starting at A, one RK4IP sub-step of length h from A differs from y(h) in every sample by at most a constant times h^5, for all h up to some h0 > 0. With self-steepening on, no sample of A may lie exactly at the code's threshold 1e-15. *)
Theorem C100_rk4ip_order : forall (c : cfg) (n : nat) (s : ssfm) (A : list C) (dir Z : R) (y : R -> list C),
  c_method c = METHOD_RK4IP -> wf n s -> cok s -> length A = n -> off_threshold c n A -> 0 < Z -> gnlse_solution c n s dir Z y -> y 0 = A ->
  exists K h0, 0 <= K /\ 0 < h0 /\ forall h k, 0 < h <= h0 -> (k < n)%nat -> Cmod (nth k (fst (advance c A h dir s)) z0 - nth k (y h) z0)%C <= K * h ^ 5.
Proof. exact C100_rk4ip_order_l. Qed.
Print Assumptions C100_rk4ip_order.

(** C101: with the default eta = 5 the step the loop keeps is one order better: the Richardson combination of two RK4IP sub-steps of length h and one of length 2h differs from the solution of the generalised nonlinear Schroedinger equation at 2h in every sample by at most a constant times h^6, for all h up to some h0 > 0. *)
Theorem C101_kept_step_order : forall (c : cfg) (n : nat) (s : ssfm) (dir Z : R) (y : R -> list C),
  c_method c = METHOD_RK4IP -> c_eta c = 5%nat -> wf n s -> cok s -> off_threshold c n (s_A s) -> 0 < Z -> gnlse_solution c n s dir Z y -> y 0 = s_A s ->
  exists K h0, 0 <= K /\ 0 < h0 /\ forall h k, 0 < h <= h0 -> (k < n)%nat -> Cmod (nth k (s_A (snd (attempt c dir h s))) z0 - nth k (y (2 * h)%R) z0)%C <= K * h ^ 6.
Proof. exact C101_kept_step_order_l. Qed.
Print Assumptions C101_kept_step_order.

(** C102: the error the loop measures for an attempt of step h, |Af - Ac|/|Af|, is at most a constant times h^5 for all h up to some h0 > 0, whatever the medium and the (non-zero) field. *)
Theorem C102_estimate_order : forall (c : cfg) (n : nat) (s : ssfm) (dir : R),
  c_method c = METHOD_RK4IP -> wf n s -> cok s -> off_threshold c n (s_A s) -> norm2 (s_A s) <> 0 ->
  exists K h0, 0 <= K /\ 0 < h0 /\ forall h, 0 < h <= h0 ->
    exists d, fst (fst (attempt c dir h s)) = Some d /\ 0 <= d <= K * h ^ 5.
Proof. exact C102_estimate_order_l. Qed.
Print Assumptions C102_estimate_order.

(** C102 (no endless rejection): for every positive tolerance there is a step length below which every attempt is kept and the next one is longer. *)
Theorem C102_short_steps_kept : forall (c : cfg) (n : nat) (s : ssfm) (dir : R),
  c_method c = METHOD_RK4IP -> 0 < c_err c -> wf n s -> cok s -> off_threshold c n (s_A s) -> norm2 (s_A s) <> 0 ->
  exists h0, 0 < h0 /\ forall h, 0 < h <= h0 -> step_ctl c h (fst (fst (attempt c dir h s))) = (true, h * Rpower 2 (1 / INR (c_eta c))).
Proof. exact C102_short_steps_kept_l. Qed.
Print Assumptions C102_short_steps_kept.

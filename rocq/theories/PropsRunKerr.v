(** Property theorems proved in RunKerrProofs.v (generated by tools/gen_props.py). *)
From Coq Require Import String.
From Coq Require Import Reals List ZArith Bool Arith Factorial Lia Lra.
From Coquelicot Require Import Complex.
From Verif Require Import Base CNum NumPy ModelFFT FFTProofs ModelPulse PulseProofs PulseRegridProofs PulseMoreProofs ModelSSFM SSFMLoopProofs SSFMProofs SSFMSymProofs SSFMPropProofs SSFMTrivProofs SSFMRamanProofs SSFMGnlseProofs ModelRun RunProofs RunKerrProofs.
From Verif Require ModelCrystal ModelFiber FiberProofs FiberLocalProofs CrystalShareProofs.
Import ListNotations.
Local Open Scope R_scope.
Local Open Scope py_scope.
Local Notation z0 := (RtoC 0).
Local Notation fibr := (ModelFiber.heap * ModelFiber.fiber)%type.

(** C116: a fiber without dispersion and gain whose nonlinear coefficient is a constant gamma or a function of the position (set_gamma_function), a pulse on an even grid and the split-step method without Raman response and self-steepening: propagate returns, and sample k of AT column i is the input sample A_k times exp(i |A_k|^2 sum_j d_j gamma(z_j)), z_j = j L/N with reloading and 0 without; d_j is L/N unless a residue below 2e-12 m was left before the last step of slice j (C28); pulse_out is the last column. *)
Theorem C116_kerr_fiber : forall (polyfit : list R -> list R -> nat -> result (list R)) (spline : list R -> list R -> list R -> result (list R)) (h : ModelFiber.heap) (f : ModelFiber.fiber) (len center : R) (betas : list R) (gamma : R) (gz : option (R -> R)) (units label : string)
  (c : cfg) (N : nat) (op : option R) (reload : bool) (s : ssfm) (p : pulse) (a : list C) (m : nat),
  ModelFiber.f_dz f = None -> ModelFiber.f_gz f = None -> (forall b, In b betas -> b = 0) -> center <> 0 -> 0 < len ->
  holds p a -> p_n p = (2 * m)%nat -> (1 < m)%nat -> p_tw p <> 0 -> p_f p <> 0 -> (0 < N)%nat -> 0 < s_dz s ->
  c_method c = METHOD_SSFM -> c_noSS c = true -> c_noRaman c = true -> (2 <= c_eta c)%nat -> 0 < c_err c ->
  exists st, (ModelFiber.generate_fiber len center betas gamma 0 units label ;;; match gz with Some g => ModelFiber.set_gamma_function g | None => ret tt end) (h, f) = (Ok tt, st) /\
  (exists fuel r q, propagate c fuel (view polyfit spline st) N op reload s p = (Ok (Some r), q)) /\
  forall fuel z AW AT po s' q, propagate c fuel (view polyfit spline st) N op reload s p = (Ok (Some (z, AW, AT, po, s')), q) ->
    get_AT po = (Ok (last AT []), po) /\
    exists d : nat -> R, (forall j, (j < N)%nat -> len / INR N <= d j /\ (d j = len / INR N \/ exists last, 0 < len / INR N - (d j - last) <= 2 * / 10 ^ 12)) /\
    forall i k, (i < N)%nat -> (k < p_n p)%nat -> let A := nth k (IFFT_t a) z0 in
      nth k (nth i AT []) z0 =
      (A * cis (Cmod A ^ 2 * rsum (S i) (fun j => d j * match gz with Some g => g (if reload then INR j * len / INR N else 0) | None => gamma end))%R)%C.
Proof. exact C116_kerr_fiber_l. Qed.
Print Assumptions C116_kerr_fiber.

(** Property theorems proved in RunProofs.v (generated by tools/gen_props.py). *)
From Coq Require Import String.
From Coq Require Import Reals List ZArith Bool Arith Factorial Lia Lra.
From Coquelicot Require Import Complex.
From Verif Require Import Base CNum NumPy ModelFFT FFTProofs ModelPulse PulseProofs PulseRegridProofs PulseMoreProofs ModelSSFM SSFMLoopProofs SSFMProofs SSFMSymProofs SSFMPropProofs SSFMTrivProofs SSFMRamanProofs SSFMGnlseProofs ModelRun RunProofs.
From Verif Require ModelCrystal ModelFiber FiberProofs FiberLocalProofs CrystalShareProofs.
Import ListNotations.
Local Open Scope R_scope.
Local Open Scope py_scope.
Local Notation z0 := (RtoC 0).
Local Notation fibr := (ModelFiber.heap * ModelFiber.fiber)%type.

(** C103: a fiber generated from Taylor coefficients without nonlinearity, a pulse on an even grid and the solver (RK4IP) together: propagate returns, and bin k of AW column i is the input bin times exp(D (gain/2 + i beta_k)): D is the distance covered so far, gain the power gain per metre given to generate_fiber and beta_k the Taylor series around the fiber's centre wavelength with its value and slope at the pulse's centre removed; pulse_out is the last column. D is (i+1) L/N unless a residue below 2e-12 m was left before a last step (C28). *)
Theorem C103_uniform_fiber : forall (polyfit : list R -> list R -> nat -> result (list R)) (spline : list R -> list R -> list R -> result (list R)) (h : ModelFiber.heap) (f : ModelFiber.fiber) (len center : R) (betas : list R) (gain : R) (units label : string)
  (c : cfg) (N : nat) (op : option R) (reload : bool) (s : ssfm) (p : pulse) (a : list C) (m : nat) (Rw : list C) (F : R),
  ModelFiber.f_dz f = None -> ModelFiber.f_gz f = None -> center <> 0 -> 0 < len ->
  holds p a -> p_n p = (2 * m)%nat -> (1 < m)%nat -> p_tw p <> 0 -> p_f p <> 0 -> fst (calc_raman c (s_fR s) p) = Ok (Rw, F) -> (0 < N)%nat -> 0 < s_dz s -> c_method c = METHOD_RK4IP -> (2 <= c_eta c)%nat ->
  let b := if String.eqb units "ps^n/km" then map (fun b => b * 1.0e-3) betas else betas in
  exists st, ModelFiber.generate_fiber len center betas 0 gain units label (h, f) = (Ok tt, st) /\
  (exists fuel r q, propagate c fuel (view polyfit spline st) N op reload s p = (Ok (Some r), q)) /\
  forall fuel z AW AT po s' q, propagate c fuel (view polyfit spline st) N op reload s p = (Ok (Some (z, AW, AT, po, s')), q) ->
    get_AW po = (Ok (last AW []), po) /\
    exists d : nat -> R, (forall j, (j < N)%nat -> len / INR N <= d j /\ (d j = len / INR N \/ exists last, 0 < len / INR N - (d j - last) <= 2 * / 10 ^ 12)) /\
    forall i k, (i < N)%nat -> (k < p_n p)%nat -> let D := rsum (S i) d in
      nth k (nth i AW []) z0 = (nth k a z0 * cexp (D * (gain / 2), D * beta_bin m (p_tw p) (p_f p) center b k)%R)%C.
Proof. exact C103_uniform_fiber_l. Qed.
Print Assumptions C103_uniform_fiber.

(** C103: the same fiber with Taylor coefficients df(z) that depend on the position, reloaded at each step: the phase is the sum over the slices of slice length times the propagation constant of df at the beginning of the slice; without reloading it is that of the fiber's input. *)
Theorem C103_varying_fiber : forall (polyfit : list R -> list R -> nat -> result (list R)) (spline : list R -> list R -> list R -> result (list R)) (h : ModelFiber.heap) (f : ModelFiber.fiber) (len center : R) (betas : list R) (gain : R) (units label : string) (df : R -> list R)
  (c : cfg) (N : nat) (op : option R) (reload : bool) (s : ssfm) (p : pulse) (a : list C) (m : nat) (Rw : list C) (F : R),
  ModelFiber.f_dz f = None -> ModelFiber.f_gz f = None -> center <> 0 -> 0 < len ->
  holds p a -> p_n p = (2 * m)%nat -> (1 < m)%nat -> p_tw p <> 0 -> p_f p <> 0 -> fst (calc_raman c (s_fR s) p) = Ok (Rw, F) -> (0 < N)%nat -> 0 < s_dz s -> c_method c = METHOD_RK4IP -> (2 <= c_eta c)%nat ->
  exists st, (ModelFiber.generate_fiber len center betas 0 gain units label ;;; ModelFiber.set_dispersion_function (ModelFiber.DBetas df) "GVD") (h, f) = (Ok tt, st) /\
  (exists fuel r q, propagate c fuel (view polyfit spline st) N op reload s p = (Ok (Some r), q)) /\
  forall fuel z AW AT po s' q, propagate c fuel (view polyfit spline st) N op reload s p = (Ok (Some (z, AW, AT, po, s')), q) ->
    get_AW po = (Ok (last AW []), po) /\
    exists d : nat -> R, (forall j, (j < N)%nat -> len / INR N <= d j /\ (d j = len / INR N \/ exists last, 0 < len / INR N - (d j - last) <= 2 * / 10 ^ 12)) /\
    forall i k, (i < N)%nat -> (k < p_n p)%nat ->
      nth k (nth i AW []) z0 = (nth k a z0 * cexp (gain / 2 * rsum (S i) d, rsum (S i) (fun j => d j * beta_bin m (p_tw p) (p_f p) center (df (if reload then INR j * len / INR N else 0)%R) k))%R)%C.
Proof. exact C103_varying_fiber_l. Qed.
Print Assumptions C103_varying_fiber.

(** Property theorems proved in SSFMSymProofs.v (generated by tools/gen_props.py). *)
From Coq Require Import Reals List ZArith Bool Arith Lia Lra Permutation.
From Coquelicot Require Import Complex.
From Verif Require Import Base CNum NumPy ModelFFT FFTProofs ModelPulse ModelSSFM SSFMLoopProofs SSFMProofs SSFMSymProofs.
Import ListNotations.
Local Open Scope R_scope.
Local Notation z0 := (RtoC 0).

(** C30: self-steepening off, any method, medium, tolerance: multiplying the input field by exp(i*theta) multiplies the output of integrate_over_dz by exp(i*theta) and leaves the accepted steps and the final step size unchanged. *)
Theorem C30_phase_equivariance : forall (c : cfg) (n fuel : nat) (delta_z dir theta : R) (s : ssfm),
  c_noSS c = true -> wf n s -> 0 < delta_z -> 0 < s_dz s ->
  match integrate_trace c fuel delta_z dir (with_A (vscale (cis theta) (s_A s)) s), integrate_trace c fuel delta_z dir s with
  | Some r, Some r' => s_A (l_st r) = vscale (cis theta) (s_A (l_st r')) /\ l_steps r = l_steps r' /\ final_dz r = final_dz r' /\ s_iter (l_st r) = s_iter (l_st r')
  | None, None => True
  | _, _ => False
  end.
Proof. exact C30_phase_equivariance_l. Qed.
Print Assumptions C30_phase_equivariance.

(** C31: any method, medium, Raman response, self-steepening on or off: circularly shifting the input field shifts the output of integrate_over_dz by the same number of samples, with the same accepted steps and final step size. *)
Theorem C31_shift_equivariance : forall (c : cfg) (n fuel : nat) (delta_z dir : R) (k : Z) (s : ssfm),
  (c_noSS c = true \/ s_w0 s <> 0) -> wf n s -> 0 < delta_z -> 0 < s_dz s ->
  match integrate_trace c fuel delta_z dir (with_A (roll k (s_A s)) s), integrate_trace c fuel delta_z dir s with
  | Some r, Some r' => s_A (l_st r) = roll k (s_A (l_st r')) /\ l_steps r = l_steps r' /\ final_dz r = final_dz r' /\ s_iter (l_st r) = s_iter (l_st r')
  | None, None => True
  | _, _ => False
  end.
Proof. exact C31_shift_equivariance_l. Qed.
Print Assumptions C31_shift_equivariance.

(** C29: without self-steepening the nonlinear operator is i*gamma*|A|^2 when the response is 1 (Raman off), and for every response that is real in the time domain its every sample is purely imaginary: the nonlinear term changes no sample's power, and the exact nonlinear sub-step exp(h*N)*A preserves every |A(t)|. *)
Theorem C29_nonlinear_moves_no_power : forall (c : cfg) (n : nat) (s : ssfm) (A : list C),
  c_noSS c = true -> wf n s -> length A = n ->
  (s_R s = repeat (RtoC 1) n -> forall k, (k < n)%nat -> nth k (nonlinear c s A) z0 = (Ci * RtoC (s_gamma s * Cnorm2 (nth k A z0)))%C) /\
  (real_response c n (s_R s) -> forall k, (k < n)%nat ->
     Re (nth k (nonlinear c s A) z0) = 0 /\
     Re (Cconj (nth k A z0) * (nth k (nonlinear c s A) z0 * nth k A z0))%C = 0 /\
     forall h, Cnorm2 (cexp (RtoC h * nth k (nonlinear c s A) z0) * nth k A z0)%C = Cnorm2 (nth k A z0)).
Proof. exact C29_nonlinear_moves_no_power_l. Qed.
Print Assumptions C29_nonlinear_moves_no_power.

(** C32 (integrator, every n): running integrate_over_dz on FFT-shifted arrays with the unshifted transforms gives the FFT-shifted field, the same steps and step size. *)
Theorem C32_integrator_shift : forall (c : cfg) (n fuel : nat) (delta_z dir : R) (s : ssfm),
  (c_noSS c = true \/ s_w0 s <> 0) -> wf n s -> 0 < delta_z -> 0 < s_dz s ->
  match integrate_trace (set_pre true c) fuel delta_z dir (shifted s), integrate_trace (set_pre false c) fuel delta_z dir s with
  | Some r, Some r' => s_A (l_st r) = fftshift (s_A (l_st r')) /\ l_steps r = l_steps r' /\ final_dz r = final_dz r' /\ s_iter (l_st r) = s_iter (l_st r')
  | None, None => True
  | _, _ => False
  end.
Proof. exact C32_integrator_shift_l. Qed.
Print Assumptions C32_integrator_shift.

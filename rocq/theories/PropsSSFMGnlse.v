(** Property theorems proved in SSFMGnlseProofs.v (generated by tools/gen_props.py). *)
From Coq Require Import Reals List ZArith Bool Arith Lia Lra.
From Coquelicot Require Import Coquelicot.
From Verif Require Import Base CNum NumPy ModelFFT FFTProofs ModelPulse PulseProofs PulseOpsProofs PulseRegridProofs ModelSSFM SSFMLoopProofs SSFMProofs SSFMSymProofs SSFMPropProofs SSFMGnlseProofs.
Import ListNotations.
Local Open Scope R_scope.
Local Open Scope py_scope.
Local Notation z0 := (RtoC 0).

(** C72: RK4IP with self-steepening off, any dispersion, loss, Raman response, tolerance, direction: adding a constant b0 to every propagation constant multiplies the field integrate_over_dz leaves behind by exp(i*dir*b0*d), d the distance covered, and changes neither the kept steps nor the step size nor the iteration count. *)
Theorem C72_gauge : forall (c : cfg) (n fuel : nat) (delta_z dir b0 : R) (s : ssfm),
  c_method c = METHOD_RK4IP -> c_noSS c = true -> wf n s -> 0 < delta_z -> 0 < s_dz s ->
  match integrate_trace c fuel delta_z dir (with_fiber (map (fun b => b + RtoC b0)%C (s_betas s)) (s_gamma s) s), integrate_trace c fuel delta_z dir s with
  | Some r, Some r' => l_steps r = l_steps r' /\ final_dz r = final_dz r' /\ s_iter (l_st r) = s_iter (l_st r') /\
                       s_A (l_st r) = vscale (cis (dir * b0 * lrsum (l_steps r'))) (s_A (l_st r'))
  | None, None => True
  | _, _ => False
  end.
Proof. exact C72_gauge_l. Qed.
Print Assumptions C72_gauge.

(** C73 (RK4IP): a field in a medium without dispersion, loss or Raman response, self-steepening off: one RK4IP sub-step of length h gives every sample the exact self-phase-modulation solution a*exp(i*theta), theta = dir*h*gamma*|a|^2, up to |theta|^5/2 relative, for |theta| <= 1 (fourth order). *)
Theorem C73_rk4ip_spm_order : forall (c : cfg) (n : nat) (s : ssfm) (A : list C) (h dir : R) (k : nat),
  c_method c = METHOD_RK4IP -> c_noSS c = true -> wf n s ->
  s_betas s = repeat z0 n -> s_alpha s = repeat z0 n -> s_R s = repeat (RtoC 1) n ->
  length A = n -> (k < n)%nat -> 0 < h ->
  let a := nth k A z0 in
  let theta := s_gamma s * Cnorm2 a * h * dir in
  Rabs theta <= 1 ->
  Cmod (nth k (fst (advance c A h dir (with_lasth None s))) z0 - a * cis theta)%C <= Rabs theta ^ 5 / 2 * Cmod a.
Proof. exact C73_rk4ip_spm_order_l. Qed.
Print Assumptions C73_rk4ip_spm_order.

(** C73 (split step): in the same medium METHOD_SSFM is exact: whatever steps were taken, every sample of the field after integrate_over_dz is a*exp(i*dir*gamma*|a|^2*d), d the distance covered, and no step is ever rejected. *)
Theorem C73_split_step_spm_exact : forall (c : cfg) (n fuel : nat) (delta_z dir : R) (s : ssfm) (r : lres ssfm),
  c_method c = METHOD_SSFM -> c_noSS c = true -> (2 <= c_eta c)%nat -> 0 < c_err c -> wf n s ->
  s_betas s = repeat z0 n -> s_alpha s = repeat z0 n -> s_R s = repeat (RtoC 1) n ->
  0 < delta_z -> 0 < s_dz s -> integrate_trace c fuel delta_z dir s = Some r ->
  s_iter (l_st r) = (length (l_steps r) + s_iter s)%nat /\
  forall k, (k < n)%nat ->
    let a := nth k (s_A s) z0 in
    nth k (s_A (l_st r)) z0 = (a * cis (dir * lrsum (l_steps r) * (s_gamma s * Cnorm2 a)))%C.
Proof. exact C73_split_step_spm_exact_l. Qed.
Print Assumptions C73_split_step_spm_exact.

(** C74: with self-steepening on, the operator applied to a field is i*gamma*I - (gamma/w0)*(dI/dt + I*(dA/dt)/A) sample by sample, where I is the delayed intensity, the derivatives are the true time derivatives of the trigonometric interpolants of A and I on the pulse's time grid, the denominator is A + 1e-20, and the last term is dropped where |A| <= 1e-15. *)
Theorem C74_self_steepening : forall (c : cfg) (n : nat) (s : ssfm) (A : list C) (v : nat -> R) (dt : R) (k : nat),
  c_pre c = true -> c_noSS c = false -> wf n s -> length A = n -> (k < n)%nat ->
  s_omegas s = mk n (fun m => RtoC (v m)) -> bins n v dt ->
  let I := fft (vmul (s_R s) (ifft (map (fun z => RtoC (Cnorm2 z)) A))) in
  trig n v A (INR k * dt) = nth k A z0 /\ trig n v I (INR k * dt) = nth k I z0 /\
  exists dA dI : C, is_cderive (trig n v A) (INR k * dt) dA /\ is_cderive (trig n v I) (INR k * dt) dI /\
  nth k (nonlinear c s A) z0 =
    (Ci * RtoC (s_gamma s) * nth k I z0 - RtoC (s_gamma s / s_w0 s) *
      (dI + (if Rlt_dec (/ 10 ^ 15) (Cmod (nth k A z0)) then dA * nth k I z0 / (RtoC (/ 10 ^ 20) + nth k A z0) else z0)))%C.
Proof. exact C74_self_steepening_l. Qed.
Print Assumptions C74_self_steepening.

(** C74 (one line): on a single spectral line a*exp(-i*v_m*t) of strength |a| > 1e-15 the operator is i*gamma*|a|^2*R(0)*(1 + (v_m/w0)*A/(A + 1e-20)): gamma grows in proportion to the absolute frequency w0 + v_m. *)
Theorem C74_single_line : forall (c : cfg) (n : nat) (s : ssfm) (a : C) (v : nat -> R) (m k : nat),
  c_pre c = true -> c_noSS c = false -> wf n s -> (m < n)%nat -> (k < n)%nat ->
  s_omegas s = mk n (fun j => RtoC (v j)) -> v 0%nat = 0 -> / 10 ^ 15 < Cmod a ->
  let A := mk n (fun j => a * cis (- (2 * PI * INR m * INR j / INR n)))%C in
  nth k (nonlinear c s A) z0 =
    (Ci * RtoC (s_gamma s * Cnorm2 a) * nth 0 (s_R s) z0 * (1 + RtoC (v m / s_w0 s) * (nth k A z0 / (RtoC (/ 10 ^ 20) + nth k A z0))))%C.
Proof. exact C74_single_line_l. Qed.
Print Assumptions C74_single_line.

(** C75: a fiber with gamma = 0 (RK4IP; even grid or internal shift off), dispersion b(z) and gain g: bin k of AW column i is the input bin times exp(sum over the slices so far of d_j*(i*b(z_j)_k + g_k/2)), z_j the position loaded for slice j; d_j, the distance covered in slice j, is the slice length L/N, unless the step before the last one left a residue below 2e-12 m. *)
Theorem C75_linear_fiber_columns : forall (c : cfg) (fuel : nat) (fb : fiber) (N : nat) (op : option R) (reload : bool) (s : ssfm) (p : pulse) (a : list C) (b : R -> list R) (g : list R) (Rw : list C) (F : R)
  (z : list R) (AW AT : list (list C)) (po : pulse) (s' : ssfm) (q : pulse), setting c fb N op s p a b g Rw F ->
  c_method c = METHOD_RK4IP -> (2 <= c_eta c)%nat -> (c_pre c = false \/ Nat.even (p_n p) = true) -> (forall x, fb_get_gamma fb x = 0) ->
  propagate c fuel fb N op reload s p = (Ok (Some (z, AW, AT, po, s')), q) ->
  exists d : nat -> R,
  (forall j, (j < N)%nat -> fb_len fb / INR N <= d j /\ (d j = fb_len fb / INR N \/ exists last, 0 < fb_len fb / INR N - (d j - last) <= 2 * / 10 ^ 12)) /\
  forall i k, (i < N)%nat -> (k < p_n p)%nat ->
    nth k (nth i AW []) z0 =
    (nth k a z0 * cexp (rsum (S i) (fun j => d j * (nth k g 0 / 2)), rsum (S i) (fun j => d j * nth k (b (if reload then nth j z 0 else 0)) 0))%R)%C.
Proof. exact C75_linear_fiber_columns_l. Qed.
Print Assumptions C75_linear_fiber_columns.

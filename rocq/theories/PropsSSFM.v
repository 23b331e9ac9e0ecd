(** Property theorems proved in SSFMProofs.v (generated by tools/gen_props.py). *)
From Coq Require Import Reals List ZArith Bool Arith Lia Lra.
From Coquelicot Require Import Complex.
From Verif Require Import Base CNum NumPy ModelFFT FFTProofs ModelPulse ModelSSFM SSFMLoopProofs SSFMProofs.
Import ListNotations.
Local Open Scope R_scope.
Local Notation z0 := (RtoC 0).

(** C27: integrate_over_dz, started from any solver state (whatever the cache holds, whatever parameters were loaded since), takes the same steps and produces the same field, step size and iteration count as a solver that recomputes the propagator for every linear sub-step; recomputing gives exp(dir*h/2*(i*beta - alpha/2)) bin by bin. *)
Theorem C27_cache_never_stale : forall (c : cfg) (fuel : nat) (delta_z dir : R) (s : ssfm),
  0 < delta_z -> 0 < s_dz s ->
  match integrate_trace c fuel delta_z dir s, loop c (attempt_fresh c dir) fuel delta_z (first_dz delta_z (s_dz s)) None [] s with
  | Some r, Some r' => l_steps r = l_steps r' /\ l_dist r = l_dist r' /\ final_dz r = final_dz r' /\
                       s_A (l_st r) = s_A (l_st r') /\ s_iter (l_st r) = s_iter (l_st r')
  | None, None => True
  | _, _ => False
  end /\
  (forall (A : list C) (h d : R) (k : nat), (k < length (s_betas s))%nat -> length (s_alpha s) = length (s_betas s) ->
     nth k (s_expD (snd (linear_step c A h d (with_lasth None s)))) z0 =
     cexp (RtoC (d * h / 2) * (Ci * nth k (s_betas s) z0 - nth k (s_alpha s) z0 / RtoC 2))%C).
Proof. exact C27_cache_never_stale_l. Qed.
Print Assumptions C27_cache_never_stale.

(** C27 (what the guard depends on): the cache key is (step length, direction) only. Calling a sub-step directly, outside integrate_over_dz, after loading other fiber parameters reuses the old propagator. *)
Theorem C27_direct_substep_stale : forall (c : cfg) (A : list C) (h dir g : R) (b : list C) (s : ssfm),
  let s1 := snd (linear_step c A h dir s) in
  let s2 := with_fiber b g s1 in
  s_expD (snd (linear_step c A h dir s2)) = s_expD s1.
Proof. exact C27_direct_substep_stale_l. Qed.
Print Assumptions C27_direct_substep_stale.

(** C26: in a medium with gamma = 0 (RK4IP), whatever steps were taken and rejected, the spectrum after integrate_over_dz is the initial one times exp(dir*d*(i*beta+gain/2)) bin by bin, where d is the distance covered (the sum of the kept steps: see C28, d >= delta_z with equality unless a residue below 2e-12 m was left); the power in bin k is multiplied by exp(dir*gain_k*d). *)
Theorem C26_linear_propagation : forall (c : cfg) (n fuel : nat) (delta_z dir : R) (s : ssfm) (b g : nat -> R) (r : lres ssfm),
  c_method c = METHOD_RK4IP -> (2 <= c_eta c)%nat -> (c_noSS c = true \/ s_w0 s <> 0) ->
  wf n s -> s_gamma s = 0 -> s_betas s = mk n (fun k => RtoC (b k)) -> s_alpha s = mk n (fun k => RtoC (- g k)) ->
  0 < delta_z -> 0 < s_dz s -> integrate_trace c fuel delta_z dir s = Some r ->
  let d := lrsum (l_steps r) in
  length (s_A (l_st r)) = n /\
  forall k, (k < n)%nat ->
    nth k (fft_t c (s_A (l_st r))) z0 = (cexp (dir * d * (g k / 2), dir * d * b k)%R * nth k (fft_t c (s_A s)) z0)%C /\
    Cnorm2 (nth k (fft_t c (s_A (l_st r))) z0) = exp (dir * g k * d) * Cnorm2 (nth k (fft_t c (s_A s)) z0).
Proof. exact C26_linear_propagation_l. Qed.
Print Assumptions C26_linear_propagation.

(** C28 refuted (exact coverage): linear medium, positive tolerance, step dz > dz_min, distance 2*dz + dz_min. After one step a residue of dz_min is left, which is not enough to shorten the last step; the solver covers 2*dz + 2*dz*2^(1/eta), more than twice the requested distance minus dz_min. *)
Theorem C28_overshoot_refuted : forall (c : cfg) (n : nat) (dir dz : R) (s : ssfm),
  (2 <= c_eta c)%nat -> 0 < c_err c -> (c_noSS c = true \/ s_w0 s <> 0) -> wf n s -> s_gamma s = 0 -> s_dz s = dz -> / 10 ^ 12 < dz ->
  exists r, integrate_trace c 2 (2 * dz + / 10 ^ 12) dir s = Some r /\
    lrsum (l_steps r) = 2 * dz + 2 * (dz * Rpower 2 (1 / INR (c_eta c))) /\ 2 * (2 * dz + / 10 ^ 12) - 2 * / 10 ^ 12 < lrsum (l_steps r).
Proof. exact C28_overshoot_refuted_l. Qed.
Print Assumptions C28_overshoot_refuted.

(** C35 (RK4IP): with gamma = 0 one Advance of length h multiplies the spectrum by exp(dir*h*(i*beta - alpha/2)). Missing: METHOD_SSFM, refuted below. *)
Theorem C35_rk4ip_linear_partial : forall (c : cfg) (n : nat) (s : ssfm) (A : list C) (h dir : R) (k : nat),
  c_method c = METHOD_RK4IP -> (c_noSS c = true \/ s_w0 s <> 0) -> wf n s -> s_gamma s = 0 -> length A = n -> 0 < h -> (k < n)%nat ->
  nth k (fft_t c (fst (advance c A h dir (with_lasth None s)))) z0 =
  (cexp (RtoC (dir * h) * (Ci * nth k (s_betas s) z0 - nth k (s_alpha s) z0 / RtoC 2)) * nth k (fft_t c A) z0)%C.
Proof. exact C35_rk4ip_linear_partial_l. Qed.
Print Assumptions C35_rk4ip_linear_partial.

(** C35 refuted (METHOD_SSFM): with gamma = 0 one Advance of length h applies only half of the linear propagator. *)
Theorem C35_ssfm_half_step_refuted : forall (c : cfg) (n : nat) (s : ssfm) (A : list C) (h dir : R) (k : nat),
  c_method c = METHOD_SSFM -> (c_noSS c = true \/ s_w0 s <> 0) -> wf n s -> s_gamma s = 0 -> length A = n -> 0 < h -> (k < n)%nat ->
  nth k (fft_t c (fst (advance c A h dir (with_lasth None s)))) z0 =
  (cexp (RtoC (dir * (h / 2)) * (Ci * nth k (s_betas s) z0 - nth k (s_alpha s) z0 / RtoC 2)) * nth k (fft_t c A) z0)%C.
Proof. exact C35_ssfm_half_step_refuted_l. Qed.
Print Assumptions C35_ssfm_half_step_refuted.

(** C38 (partial): in a linear medium a forward run and a backward run that cover the same distance restore the field exactly, whatever the two step sequences were. Missing: covering the same distance, which can fail (refuted below). *)
Theorem C38_round_trip_partial : forall (c : cfg) (n f1 f2 : nat) (d1 d2 : R) (s s1 : ssfm) (r1 r2 : lres ssfm),
  (2 <= c_eta c)%nat -> (c_noSS c = true \/ s_w0 s <> 0) -> wf n s -> s_gamma s = 0 -> 0 < d1 -> 0 < d2 -> 0 < s_dz s ->
  integrate_trace c f1 d1 1 s = Some r1 -> integrate_over_dz c f1 d1 1 s = Some s1 -> integrate_trace c f2 d2 (-1) s1 = Some r2 ->
  lrsum (l_steps r1) = lrsum (l_steps r2) -> s_A (l_st r2) = s_A s.
Proof. exact C38_round_trip_partial_l. Qed.
Print Assumptions C38_round_trip_partial.

(** C38 (partial, no condition on the steps): with positive tolerance and a distance of at most twice the current step the round trip is exact. *)
Theorem C38_short_round_trip_partial : forall (c : cfg) (n : nat) (d : R) (s : ssfm),
  (2 <= c_eta c)%nat -> 0 < c_err c -> (c_noSS c = true \/ s_w0 s <> 0) -> wf n s -> s_gamma s = 0 -> 0 < d -> d <= 2 * s_dz s ->
  exists fuel s1 s2, integrate_over_dz c fuel d 1 s = Some s1 /\ integrate_over_dz c fuel d (-1) s1 = Some s2 /\ s_A s2 = s_A s.
Proof. exact C38_short_round_trip_partial_l. Qed.
Print Assumptions C38_short_round_trip_partial.

(** C38 refuted: linear medium with gain, forward then backward over 2*dz + dz_min. The forward run overshoots, the backward run does not: every bin with gain and nonzero amplitude ends with strictly more power than it started with. *)
Theorem C38_round_trip_refuted : forall (c : cfg) (n : nat) (dz : R) (s : ssfm) (g : nat -> R),
  c_method c = METHOD_RK4IP -> (2 <= c_eta c)%nat -> 0 < c_err c -> (c_noSS c = true \/ s_w0 s <> 0) -> wf n s -> s_gamma s = 0 ->
  (forall k, (k < n)%nat -> Im (nth k (s_betas s) z0) = 0) -> (forall k, (k < n)%nat -> nth k (s_alpha s) z0 = RtoC (- g k)) -> s_dz s = dz -> INR (c_eta c) * / 10 ^ 12 < 2 * dz ->
  exists s1 s2, integrate_over_dz c 2 (2 * dz + / 10 ^ 12) 1 s = Some s1 /\ integrate_over_dz c 2 (2 * dz + / 10 ^ 12) (-1) s1 = Some s2 /\
    forall k, (k < n)%nat -> 0 < g k -> nth k (fft_t c (s_A s)) z0 <> z0 ->
    Cnorm2 (nth k (fft_t c (s_A s)) z0) < Cnorm2 (nth k (fft_t c (s_A s2)) z0).
Proof. exact C38_round_trip_refuted_l. Qed.
Print Assumptions C38_round_trip_refuted.

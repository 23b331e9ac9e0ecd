(** Property theorems proved in SSFMPhotonProofs.v (generated by tools/gen_props.py). *)
From Coq Require Import Reals List ZArith Bool Arith Lia Lra.
From Coquelicot Require Import Coquelicot.
From Verif Require Import Base CNum NumPy ModelFFT FFTProofs ModelPulse PulseProofs PulseOpsProofs ModelSSFM SSFMLoopProofs SSFMProofs SSFMSymProofs SSFMPropProofs SSFMRamanProofs SSFMGnlseProofs ODETableauProofs SSFMPhotonProofs.
Import ListNotations.
Local Open Scope R_scope.
Local Notation z0 := (RtoC 0).

(** C113 (the equation): on a band-limited field (spectrum zero beyond bin B, 6*B < n) whose samples are all above the 1e-15 threshold, the spectrum of N(A)*A is i*gamma*(1 + Omega/w0) times the spectrum of A*I in every bin - the generalised nonlinear Schroedinger equation with its shock term, no aliasing - up to |gamma/w0| times the mean of |dA/dt|*|I|*1e-20/(|A| - 1e-20), what the regularised denominator leaves. *)
Theorem C113_shock_equation : forall (c : cfg) (n : nat) (s : ssfm) (A : list C) (B : Z) (dw : R) (m : nat) (dA : nat -> C),
  c_pre c = true -> c_noSS c = false -> wf n s -> length A = n -> (m < n)%nat -> dw <> 0 -> s_w0 s <> 0 ->
  s_omegas s = mk n (fun j => RtoC (dfreq dw n j)) -> (0 <= B)%Z -> (6 * B < Z.of_nat n)%Z -> band n B A ->
  (forall k, (k < n)%nat -> / 10 ^ 15 < Cmod (nth k A z0)) ->
  (forall k, (k < n)%nat -> is_cderive (trig n (dfreq dw n) A) (INR k * (2 * PI / (INR n * dw))) (dA k)) ->
  let I := fft (vmul (s_R s) (ifft (map (fun z => RtoC (Cnorm2 z)) A))) in
  Cmod (nth m (ifft (vmul (nonlinear c s A) A)) z0 - Ci * RtoC (s_gamma s * ((s_w0 s + dfreq dw n m) / s_w0 s)) * nth m (ifft (vmul A I)) z0)%C
    <= Rabs (s_gamma s / s_w0 s) * (/ INR n * rsum n (fun k => Cmod (dA k) * Cmod (nth k I z0) * (/ 10 ^ 20 / (Cmod (nth k A z0) - / 10 ^ 20)))).
Proof. exact C113_shock_equation_l. Qed.
Print Assumptions C113_shock_equation.

(** C113 (photon number): with shock term, any response that is real in time, any real propagation constants and losses, the photon number sum |A(w)|^2/w of a band-limited field changes along the whole right-hand side exactly at the rate -sum alpha*|A(w)|^2/w of the losses, up to what the 1e-20 in the denominator leaves; without loss it is conserved to that accuracy. *)
Theorem C113_photon_number : forall (c : cfg) (n : nat) (s : ssfm) (A : list C) (B : Z) (dw : R) (dA : nat -> C) (be al : nat -> R),
  c_pre c = true -> c_noSS c = false -> wf n s -> length A = n -> dw <> 0 -> s_w0 s <> 0 ->
  s_omegas s = mk n (fun j => RtoC (dfreq dw n j)) -> s_betas s = mk n (fun j => RtoC (be j)) -> s_alpha s = mk n (fun j => RtoC (al j)) ->
  real_response c n (s_R s) -> (forall m, (m < n)%nat -> 0 < s_w0 s + dfreq dw n m) ->
  (0 <= B)%Z -> (6 * B < Z.of_nat n)%Z -> band n B A ->
  (forall k, (k < n)%nat -> / 10 ^ 15 < Cmod (nth k A z0)) ->
  (forall k, (k < n)%nat -> is_cderive (trig n (dfreq dw n) A) (INR k * (2 * PI / (INR n * dw))) (dA k)) ->
  let I := fft (vmul (s_R s) (ifft (map (fun z => RtoC (Cnorm2 z)) A))) in
  exists r, is_derive (fun t => photons n (s_w0 s) dw (vadd A (vscale (RtoC t) (gnlse c s A)))) 0 r /\
    Rabs (r - - rsum n (fun m => al m * Cnorm2 (nth m (ifft A) z0) / (s_w0 s + dfreq dw n m))) <=
      2 * (Rabs (s_gamma s / s_w0 s) * (/ INR n * rsum n (fun k => Cmod (dA k) * Cmod (nth k I z0) * (/ 10 ^ 20 / (Cmod (nth k A z0) - / 10 ^ 20))))) *
      rsum n (fun m => Cmod (nth m (ifft A) z0) / (s_w0 s + dfreq dw n m)).
Proof. exact C113_photon_number_l. Qed.
Print Assumptions C113_photon_number.

(** C113 (reachability): the solver that setup_fftw and load_fiber_parameters leave for a pulse on an even grid and a fiber with real betas and gain is one C113 speaks about: offset frequencies 2*pi/window times the signed bin number, centre 2*pi*f0, real propagation constants, loss = -gain, a response real in time. *)
Theorem C113_setup : forall (c : cfg) (fb : fiber) (p q : pulse) (op : option R) (b : R -> list R) (g : list R) (a Rw : list C) (F : R) (s : ssfm) (h : nat),
  c_pre c = true -> p_n p = (2 * h)%nat -> (0 < h)%nat -> p_tw p <> 0 ->
  holds p a -> answers fb p op b g -> fst (calc_raman c (s_fR s) p) = Ok (Rw, F) -> like p q ->
  exists s0 s1 q1 q2 be al, setup_fftw c fb op s q = (Ok s0, q1) /\ load_fiber_parameters c fb 0 s0 q1 = (Ok s1, q2) /\ wf (p_n p) s1 /\
    s_omegas s1 = mk (p_n p) (fun j => RtoC (dfreq (2 * PI / p_tw p) (p_n p) j)) /\ s_w0 s1 = 2 * PI * p_f p /\
    s_betas s1 = mk (p_n p) (fun j => RtoC (be j)) /\ s_alpha s1 = mk (p_n p) (fun j => RtoC (al j)) /\ real_response c (p_n p) (s_R s1) /\
    (forall j, (j < p_n p)%nat -> be j = nth (zmodn (p_n p) (Z.of_nat j - Z.of_nat h)) (b 0) 0 /\ al j = - nth (zmodn (p_n p) (Z.of_nat j - Z.of_nat h)) g 0).
Proof. exact C113_setup_l. Qed.
Print Assumptions C113_setup.

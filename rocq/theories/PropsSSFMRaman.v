(** Property theorems proved in SSFMRamanProofs.v (generated by tools/gen_props.py). *)
From Coq Require Import Reals List ZArith Bool Arith Lia Lra Permutation.
From Coquelicot Require Import Complex.
From Verif Require Import Base CNum NumPy ModelFFT FFTProofs ModelPulse PulseProofs PulseOpsProofs ModelSSFM SSFMLoopProofs SSFMProofs SSFMSymProofs SSFMPropProofs SSFMTrivProofs SSFMRamanProofs.
Import ListNotations.
Local Open Scope R_scope.
Local Open Scope py_scope.
Local Notation z0 := (RtoC 0).

(** C29: the response that setup computes, with Raman on or off and either built-in model, is real in the time domain in the sense C29_nonlinear_moves_no_power needs, whatever the internal shift. *)
Theorem C29_setup_response_real : forall (c : cfg) (fR : R) (p q : pulse) (Rw : list C) (F : R),
  calc_raman c fR p = (Ok (Rw, F), q) -> real_response c (p_n p) (cfftshift c Rw).
Proof. exact C29_setup_response_real_l. Qed.
Print Assumptions C29_setup_response_real.

(** C37 (partial): on every even grid the response at the zero-frequency bin is 1 plus f_R/2 times the sampling step times the last sample of the normalised response: the trapezoidal normalisation and the plain sum of the transform differ by half the end sample. Hence it is exactly 1 when Raman is off, when the fraction is 0, and when the sampled response ends at 0. Missing: equality to 1 in general, which is false. *)
Theorem C37_zero_frequency_partial : forall (c : cfg) (fR : R) (p q : pulse) (Rw : list C) (F : R) (h : nat),
  calc_raman c fR p = (Ok (Rw, F), q) -> p_n p = (2 * h)%nat -> (0 < h)%nat -> p_tw p <> 0 ->
  nth h (V_of p) 1 = 0 /\
  (c_noRaman c = true -> nth h Rw z0 = RtoC 1) /\
  (c_noRaman c = false -> let RT := raman_RT c (T_of p) in let area := trapz_x RT (T_of p) in let dT := p_tw p / INR (p_n p) in
     nth h Rw z0 = RtoC (1 + F * dT * (nth (p_n p - 1) RT 0 / area) / 2)) /\
  (F = 0 \/ raman_shape c (nth (p_n p - 1) (T_of p) 0) = 0 -> nth h Rw z0 = RtoC 1).
Proof. exact C37_zero_frequency_partial_l. Qed.
Print Assumptions C37_zero_frequency_partial.

(** C37 (refuted): on every 4-point grid whose last sample of the response is not zero the zero-frequency response of the simple model is 1 + f_R, so for f_R <> 0 the steady-state nonlinearity is not gamma. *)
Theorem C37_zero_frequency_refuted : forall (c : cfg) (fR : R) (p : pulse),
  c_noRaman c = false -> c_simple c = true -> c_tau1 c <> 0 -> c_tau2 c <> 0 -> p_ready p = true -> p_n p = 4%nat -> p_tw p <> 0 -> sin (p_tw p / 4 / c_tau1 c) <> 0 ->
  exists Rw, calc_raman c fR p = (Ok (Rw, fR), p) /\ nth 2 (V_of p) 1 = 0 /\ nth 2 Rw z0 = RtoC (1 + fR).
Proof. exact C37_zero_frequency_refuted_l. Qed.
Print Assumptions C37_zero_frequency_refuted.

(** C37 (partial): with the simple model (and with Raman off) the fraction used is the constructor's f_R. Missing: the default two-peak model, see C37_fraction_refuted. *)
Theorem C37_fraction_partial : forall (c : cfg) (fR : R) (p q : pulse) (Rw : list C) (F : R),
  calc_raman c fR p = (Ok (Rw, F), q) -> c_simple c = true \/ c_noRaman c = true -> F = fR.
Proof. exact C37_fraction_partial_l. Qed.
Print Assumptions C37_fraction_partial.

(** C37 (refuted): the two-peak model ignores the constructor's f_R: it uses 0.245 and stores that back, for every f_R. *)
Theorem C37_fraction_refuted : forall (c : cfg) (fR : R) (p q : pulse) (Rw : list C) (F : R),
  calc_raman c fR p = (Ok (Rw, F), q) -> c_simple c = false -> c_noRaman c = false -> F = 245 / 1000 /\ (fR <> 245 / 1000 -> F <> fR) /\
  forall fR', calc_raman c fR' p = (Ok (Rw, F), q).
Proof. exact C37_fraction_refuted_l. Qed.
Print Assumptions C37_fraction_refuted.

(** C36: what calculate_coherence returns for one bin: with u_i the unit phasors of the N >= 2 trials, | |u_1+...+u_N|^2 - N | / (N(N-1)). *)
Theorem C36_coherence_value : forall E : list C, (2 <= length E)%nat -> (forall z, In z E -> z <> z0) ->
  coherence_bin E = Ok (Rabs (Cnorm2 (lsum (map (fun z => z * RtoC (/ Cmod z))%C E)) - INR (length E)) / (INR (length E) * (INR (length E) - 1))).
Proof. exact C36_coherence_value_l. Qed.
Print Assumptions C36_coherence_value.

(** C36: the value lies in [0,1], is 1 when all trials agree up to a positive amplitude, does not depend on the order of the trials, and fewer than two trials is an error. *)
Theorem C36_coherence_range : forall E : list C, (forall z, In z E -> z <> z0) ->
  ((2 <= length E)%nat -> exists v, coherence_bin E = Ok v /\ 0 <= v <= 1) /\
  ((2 <= length E)%nat -> forall w, w <> z0 -> (forall z, In z E -> exists r, 0 < r /\ z = (RtoC r * w)%C) -> coherence_bin E = Ok 1) /\
  (forall E', Permutation E E' -> coherence_bin E' = coherence_bin E) /\
  ((length E < 2)%nat -> coherence_bin E = Raise NameError).
Proof. exact C36_coherence_range_l. Qed.
Print Assumptions C36_coherence_range.

(** C36: with exactly two trials the number returned is |cos| of their phase difference, so two trials in perfect antiphase also count as perfectly coherent. *)
Theorem C36_two_trials : forall (r1 r2 t1 t2 : R), 0 < r1 -> 0 < r2 ->
  coherence_bin [(RtoC r1 * cis t1)%C; (RtoC r2 * cis t2)%C] = Ok (Rabs (cos (t1 - t2))).
Proof. exact C36_two_trials_l. Qed.
Print Assumptions C36_two_trials.

(** Property theorems proved in DerivedMoreProofs.v (generated by tools/gen_props.py). *)
From Coq Require Import String.
From Coq Require Import Reals List ZArith Bool Arith Lia Lra.
From Coquelicot Require Import Complex.
From Verif Require Import Base CNum NumPy ModelFFT FFTProofs ModelPulse Spec ModelPulseOps PulseProofs PulseHistory PulseOpsProofs PulseRegridProofs ModelDerived DerivedProofs DerivedMoreProofs.
Import ListNotations.
Local Open Scope R_scope.

(** C81 (sech): constructing with GDD, TOD, chirp2, chirp3 is constructing without them and then calling chirp_pulse_W(GDD, TOD) and chirp_pulse_T(chirp2, chirp3, T0), which never fail; both sides raise the same exception when the arguments are bad. *)
Theorem C81_sech_chirp_parameters : forall (power T0 wl tw : R) (frep : option R) (n : nat) (avg : bool) (g t c2 c3 : R),
  construct (sech_pulse power T0 wl tw frep n g t c2 c3 avg) =
    match construct (sech_pulse power T0 wl tw frep n 0 0 0 0 avg) with
    | Ok p => then_chirp g t c2 c3 T0 p
    | Raise e => Raise e
    end /\
  (forall p, construct (sech_pulse power T0 wl tw frep n 0 0 0 0 avg) = Ok p -> exists p', then_chirp g t c2 c3 T0 p = Ok p').
Proof. exact C81_sech_chirp_parameters_l. Qed.
Print Assumptions C81_sech_chirp_parameters.

(** C81 (Gaussian): the same. *)
Theorem C81_gaussian_chirp_parameters : forall (power T0 wl tw : R) (frep : option R) (n : nat) (avg : bool) (g t c2 c3 : R),
  construct (gaussian_pulse power T0 wl tw frep n g t c2 c3 avg) =
    match construct (gaussian_pulse power T0 wl tw frep n 0 0 0 0 avg) with
    | Ok p => then_chirp g t c2 c3 T0 p
    | Raise e => Raise e
    end /\
  (forall p, construct (gaussian_pulse power T0 wl tw frep n 0 0 0 0 avg) = Ok p -> exists p', then_chirp g t c2 c3 T0 p = Ok p').
Proof. exact C81_gaussian_chirp_parameters_l. Qed.
Print Assumptions C81_gaussian_chirp_parameters.

(** C81 (sinc): the same, the temporal chirp being scaled by the zero-crossing time FWHM/3.7909885. *)
Theorem C81_sinc_chirp_parameters : forall (power FWHM wl tw : R) (frep : option R) (n : nat) (avg : bool) (g t c2 c3 : R),
  let T0 := FWHM / (37909885 / 10000000) in
  construct (sinc_pulse power FWHM wl tw frep n g t c2 c3 avg) =
    match construct (sinc_pulse power FWHM wl tw frep n 0 0 0 0 avg) with
    | Ok p => then_chirp g t c2 c3 T0 p
    | Raise e => Raise e
    end /\
  (forall p, construct (sinc_pulse power FWHM wl tw frep n 0 0 0 0 avg) = Ok p -> exists p', then_chirp g t c2 c3 T0 p = Ok p').
Proof. exact C81_sinc_chirp_parameters_l. Qed.
Print Assumptions C81_sinc_chirp_parameters.

(** C82: the sech, Gaussian, sinc, FROG and CW constructors all raise AssertionError when the centre wavelength (nm) or the time window (ps) is not above one, which is what catches values given in metres or seconds. *)
Theorem C82_constructors_reject_mks_units : forall (strf : R -> string) (power T0 wl tw : R) (frep : option R) (n : nat) (g t c2 c3 : R) (avg flip : bool)
    (file : option (list R * list R * list R)) (off : option R),
  wl <= 1 \/ tw <= 1 ->
  construct (sech_pulse power T0 wl tw frep n g t c2 c3 avg) = Raise AssertionError /\
  construct (gaussian_pulse power T0 wl tw frep n g t c2 c3 avg) = Raise AssertionError /\
  construct (sinc_pulse power T0 wl tw frep n g t c2 c3 avg) = Raise AssertionError /\
  construct (frog_pulse strf tw wl power frep n avg file flip) = Raise AssertionError /\
  construct (cw_pulse power wl tw n off) = Raise AssertionError.
Proof. exact C82_constructors_reject_mks_units_l. Qed.
Print Assumptions C82_constructors_reject_mks_units.

(** C83 (partial): when the file is present and sorted by wavelength, the field at every bin is c*I*exp(i s P), I and P being the second and third column interpolated linearly at the bin's wavelength (zero outside the file), s = -1 with flip_phase and 1 without, and c one nonnegative constant, positive for a positive energy. *)
Theorem C83_frog_spectrum_partial : forall (strf : R -> string) (tw wl power f : R) (frep : option R) (n : nat) (avg flip : bool) (wls inten phase : list R) (p : pulse),
  1 < wl -> 1 < tw -> eff_frep frep = Some f -> (2 <= length wls)%nat -> increasing wls ->
  construct (frog_pulse strf tw wl power frep n avg (Some (wls, inten, phase)) flip) = Ok p ->
  exists a c, get_AW p = (Ok a, p) /\ length a = n /\ 0 <= c /\ (0 < (if avg then power / (f * 1000000) else power) -> 0 < c) /\
    forall k, (k < n)%nat -> let lam := 2 * PI * c_nmps / nth k (spec_W n tw (c_nmps / wl)) 0 in
      exists I P, piecewise wls inten lam I /\ piecewise wls phase lam P /\
        nth k a (RtoC 0) = (RtoC (c * I) * cis (if flip then - P else P))%C.
Proof. exact C83_frog_spectrum_partial_l. Qed.
Print Assumptions C83_frog_spectrum_partial.

(** C83 refuted: the file's intensity column is used as the field amplitude, so the power spectrum of the pulse goes as the square of the measured intensity: at two bins where the measured intensities are positive and differ, the power spectrum is not in their ratio. *)
Theorem C83_frog_power_spectrum_refuted : forall (strf : R -> string) (tw wl power f : R) (frep : option R) (n : nat) (avg flip : bool) (wls inten phase : list R) (p : pulse) (j k : nat) (Ij Ik : R),
  1 < wl -> 1 < tw -> eff_frep frep = Some f -> (2 <= length wls)%nat -> increasing wls ->
  construct (frog_pulse strf tw wl power frep n avg (Some (wls, inten, phase)) flip) = Ok p ->
  0 < (if avg then power / (f * 1000000) else power) -> (j < n)%nat -> (k < n)%nat ->
  piecewise wls inten (2 * PI * c_nmps / nth j (spec_W n tw (c_nmps / wl)) 0) Ij ->
  piecewise wls inten (2 * PI * c_nmps / nth k (spec_W n tw (c_nmps / wl)) 0) Ik ->
  0 < Ij -> 0 < Ik -> Ij <> Ik ->
  exists a, get_AW p = (Ok a, p) /\
    Cmod (nth j a (RtoC 0)) ^ 2 * Ik ^ 2 = Cmod (nth k a (RtoC 0)) ^ 2 * Ij ^ 2 /\
    Cmod (nth j a (RtoC 0)) ^ 2 * Ik <> Cmod (nth k a (RtoC 0)) ^ 2 * Ij.
Proof. exact C83_frog_power_spectrum_refuted_l. Qed.
Print Assumptions C83_frog_power_spectrum_refuted.

(** C83 (accepted files): with two or more points, a readable file whose interpolated intensity is nonzero at some bin, and a nonnegative energy, the constructor returns. *)
Theorem C83_frog_accepts : forall (strf : R -> string) (tw wl power f : R) (frep : option R) (n : nat) (avg flip : bool) (wls inten phase : list R) (k : nat) (Ik : R),
  1 < wl -> 1 < tw -> eff_frep frep = Some f -> f <> 0 -> (2 <= length wls)%nat -> increasing wls -> (2 <= n)%nat ->
  0 <= (if avg then power / (f * 1000000) else power) -> (k < n)%nat ->
  piecewise wls inten (2 * PI * c_nmps / nth k (spec_W n tw (c_nmps / wl)) 0) Ik -> Ik <> 0 ->
  exists p, construct (frog_pulse strf tw wl power frep n avg (Some (wls, inten, phase)) flip) = Ok p.
Proof. exact C83_frog_accepts_l. Qed.
Print Assumptions C83_frog_accepts.

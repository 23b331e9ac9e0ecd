(** Property theorems proved in DerivedProofs.v (generated by tools/gen_props.py). *)
From Coq Require Import String.
From Coq Require Import Reals List ZArith Bool Arith Lia Lra.
From Coquelicot Require Import Complex.
From Verif Require Import Base CNum NumPy ModelFFT FFTProofs ModelPulse Spec ModelPulseOps PulseProofs PulseHistory PulseOpsProofs PulseRegridProofs ModelDerived DerivedProofs.
Import ListNotations.
Local Open Scope R_scope.

(** C23 (sech, average power): with power_is_avg the pulse satisfies calc_epp * frep = power exactly and its magnitude is proportional to sech(t/T0), for every temporal chirp. *)
Theorem C23_sech_average_power : forall (power T0 wl tw f : R) (n : nat) (c2 c3 : R),
  0 <= power -> T0 <> 0 -> 1 < wl -> 1 < tw -> 0 < f -> (2 <= n)%nat ->
  exists p t e k, construct (sech_pulse power T0 wl tw (Some f) n 0 0 c2 c3 true) = Ok p /\
    frame p = (n, c_nmps / wl, tw, Some f, true) /\
    calc_epp p = (Ok e, p) /\ get_frep_mks p = (Ok (Some (f * 1000000)), p) /\ e * (f * 1000000) = power /\
    get_AT p = (Ok t, p) /\ length t = n /\ 0 <= k /\
    (forall j, (j < n)%nat -> Cmod (nth j t (RtoC 0)) = k / cosh (time_of tw n j / T0)).
Proof. exact C23_sech_average_power_l. Qed.
Print Assumptions C23_sech_average_power.

(** C23 (sech, peak power): |AT|^2 is power * sech^2(t/T0) at every sample, so it never exceeds the requested peak power and reaches it at t = 0 (even NPTS). *)
Theorem C23_sech_peak_power : forall (power T0 wl tw : R) (frep : option R) (n : nat) (c2 c3 : R),
  0 <= power -> T0 <> 0 -> 1 < wl -> 1 < tw ->
  exists p t, construct (sech_pulse power T0 wl tw frep n 0 0 c2 c3 false) = Ok p /\
    frame p = (n, c_nmps / wl, tw, eff_frep frep, true) /\
    get_AT p = (Ok t, p) /\ length t = n /\
    (forall j, (j < n)%nat -> Cmod (nth j t (RtoC 0)) ^ 2 = power / cosh (time_of tw n j / T0) ^ 2 /\
                              Cmod (nth j t (RtoC 0)) ^ 2 <= power) /\
    (forall h, n = (2 * h)%nat -> (0 < h)%nat -> Cmod (nth h t (RtoC 0)) ^ 2 = power).
Proof. exact C23_sech_peak_power_l. Qed.
Print Assumptions C23_sech_peak_power.

(** C23 (Gaussian, average power): as for sech, with the Gaussian profile; the power has to be positive. *)
Theorem C23_gaussian_average_power : forall (power T0 wl tw f : R) (n : nat) (c2 c3 : R),
  0 < power -> T0 <> 0 -> 1 < wl -> 1 < tw -> 0 < f -> (2 <= n)%nat ->
  exists p t e k, construct (gaussian_pulse power T0 wl tw (Some f) n 0 0 c2 c3 true) = Ok p /\
    frame p = (n, c_nmps / wl, tw, Some f, true) /\
    calc_epp p = (Ok e, p) /\ get_frep_mks p = (Ok (Some (f * 1000000)), p) /\ e * (f * 1000000) = power /\
    get_AT p = (Ok t, p) /\ length t = n /\ 0 <= k /\
    (forall j, (j < n)%nat -> Cmod (nth j t (RtoC 0)) = k * gauss T0 (time_of tw n j)).
Proof. exact C23_gaussian_average_power_l. Qed.
Print Assumptions C23_gaussian_average_power.

(** C23 (Gaussian, zero average power) refuted: asking for average power 0 divides 0 by 0; the constructor does not produce a zero field. *)
Theorem C23_gaussian_zero_average_power_refuted : forall (T0 wl tw f : R) (n : nat) (c2 c3 : R),
  T0 <> 0 -> 1 < wl -> 1 < tw -> 0 < f -> (2 <= n)%nat ->
  construct (gaussian_pulse 0 T0 wl tw (Some f) n 0 0 c2 c3 true) = Raise NonFinite.
Proof. exact C23_gaussian_zero_average_power_refuted_l. Qed.
Print Assumptions C23_gaussian_zero_average_power_refuted.

(** C23 (Gaussian, peak power): |AT|^2 = power * exp(-2.77 (t/T0)^2): at most the requested peak power, equal to it at t = 0 (even NPTS). *)
Theorem C23_gaussian_peak_power : forall (power T0 wl tw : R) (frep : option R) (n : nat) (c2 c3 : R),
  0 <= power -> T0 <> 0 -> 1 < wl -> 1 < tw ->
  exists p t, construct (gaussian_pulse power T0 wl tw frep n 0 0 c2 c3 false) = Ok p /\
    frame p = (n, c_nmps / wl, tw, eff_frep frep, true) /\
    get_AT p = (Ok t, p) /\ length t = n /\
    (forall j, (j < n)%nat -> Cmod (nth j t (RtoC 0)) ^ 2 = power * gauss T0 (time_of tw n j) ^ 2 /\
                              Cmod (nth j t (RtoC 0)) ^ 2 <= power) /\
    (forall h, n = (2 * h)%nat -> (0 < h)%nat -> Cmod (nth h t (RtoC 0)) ^ 2 = power).
Proof. exact C23_gaussian_peak_power_l. Qed.
Print Assumptions C23_gaussian_peak_power.

(** C23 (Gaussian, documented profile) refuted: the docstring's profile sqrt(power)*exp(-(t/T0)^2/2) is not what is built; it already differs at the first sample. *)
Theorem C23_gaussian_docstring_profile_refuted : forall (power T0 wl tw : R) (frep : option R) (n : nat),
  0 < power -> T0 <> 0 -> 1 < wl -> 1 < tw -> (0 < n)%nat ->
  exists p t, construct (gaussian_pulse power T0 wl tw frep n 0 0 0 0 false) = Ok p /\ get_AT p = (Ok t, p) /\
    Cmod (nth 0 t (RtoC 0)) < sqrt power * exp (- (time_of tw n 0 / T0) ^ 2 / 2).
Proof. exact C23_gaussian_docstring_profile_refuted_l. Qed.
Print Assumptions C23_gaussian_docstring_profile_refuted.

(** C24 (no offset): on every even grid the CW pulse is a single line in bin NPTS/2, whose frequency is the requested one, with |AW|^2 equal to the requested power. *)
Theorem C24_cw_line : forall (power wl tw : R) (n h : nat),
  0 <= power -> 1 < wl -> 1 < tw -> n = (2 * h)%nat -> (0 < h)%nat ->
  exists p a F, construct (cw_pulse power wl tw n None) = Ok p /\ get_AW p = (Ok a, p) /\ length a = n /\
    get_F_THz p = (Ok F, p) /\ nth h F 0 = c_nmps / wl /\
    Cmod (nth h a (RtoC 0)) ^ 2 = power /\ (forall k, (k < n)%nat -> k <> h -> nth k a (RtoC 0) = RtoC 0).
Proof. exact C24_cw_line_l. Qed.
Print Assumptions C24_cw_line.

(** C24 (offset, even grid): when the offset, rounded to the nearest multiple r of the bin spacing 1/time_window, falls inside the grid, the spectrum is one line whose frequency is exactly the requested c/wavelength and whose |AW|^2 is the requested power; the grid is centred r bins away from it. *)
Theorem C24_cw_offset_partial : forall (power wl tw off : R) (n h : nat) (r : Z),
  0 <= power -> 1 < wl -> 1 < tw -> n = (2 * h)%nat ->
  r = py_round (off * tw) -> (- Z.of_nat h <= r < Z.of_nat h)%Z -> c_nmps / wl <> IZR r / tw ->
  exists p a F i, construct (cw_pulse power wl tw n (Some off)) = Ok p /\ get_AW p = (Ok a, p) /\ length a = n /\
    get_F_THz p = (Ok F, p) /\ get_center_frequency_THz p = (Ok (c_nmps / wl - IZR r / tw), p) /\
    Rabs (IZR r / tw - off) <= 1 / 2 / tw /\
    (i < n)%nat /\ nth i F 0 = c_nmps / wl /\ Cmod (nth i a (RtoC 0)) ^ 2 = power /\
    (forall k, (k < n)%nat -> k <> i -> nth k a (RtoC 0) = RtoC 0).
Proof. exact C24_cw_offset_partial_l. Qed.
Print Assumptions C24_cw_offset_partial.

(** C24 (offset beyond the upper edge): the constructor raises IndexError instead of producing a pulse. *)
Theorem C24_cw_offset_above : forall (power wl tw off : R) (n h : nat),
  0 <= power -> 1 < wl -> 1 < tw -> n = (2 * h)%nat ->
  (Z.of_nat h <= py_round (off * tw))%Z -> c_nmps / wl <> IZR (py_round (off * tw)) / tw ->
  construct (cw_pulse power wl tw n (Some off)) = Raise IndexError.
Proof. exact C24_cw_offset_above_l. Qed.
Print Assumptions C24_cw_offset_above.

(** C24 refuted for offsets below the lower edge: Python's negative indexing wraps, and the line is silently placed one full bandwidth (n/time_window) above the requested frequency. *)
Theorem C24_cw_offset_below_refuted : forall (power wl tw off : R) (n h : nat) (r : Z),
  0 <= power -> 1 < wl -> 1 < tw -> n = (2 * h)%nat -> (0 < h)%nat ->
  r = py_round (off * tw) -> (- (3 * Z.of_nat h) <= r < - Z.of_nat h)%Z -> c_nmps / wl <> IZR r / tw ->
  exists p a F i, construct (cw_pulse power wl tw n (Some off)) = Ok p /\ get_AW p = (Ok a, p) /\ get_F_THz p = (Ok F, p) /\
    (i < n)%nat /\ Cmod (nth i a (RtoC 0)) ^ 2 = power /\ (forall k, (k < n)%nat -> k <> i -> nth k a (RtoC 0) = RtoC 0) /\
    nth i F 0 = c_nmps / wl + INR n / tw /\ nth i F 0 <> c_nmps / wl.
Proof. exact C24_cw_offset_below_refuted_l. Qed.
Print Assumptions C24_cw_offset_below_refuted.

(** C25 (sinc, peak power): |AT|^2 = power * (sin(t/T0)/(t/T0))^2 with T0 = FWHM/3.7909885; never above the requested peak power, equal to it at t = 0 (even NPTS). Missing from the full claim: the average-power branch, which is refuted below. *)
Theorem C25_sinc_peak_power_partial : forall (power FWHM wl tw : R) (frep : option R) (n : nat) (c2 c3 : R),
  0 <= power -> FWHM <> 0 -> 1 < wl -> 1 < tw ->
  let T0 := FWHM / (37909885 / 10000000) in
  exists p t, construct (sinc_pulse power FWHM wl tw frep n 0 0 c2 c3 false) = Ok p /\
    frame p = (n, c_nmps / wl, tw, eff_frep frep, true) /\
    get_AT p = (Ok t, p) /\ length t = n /\
    (forall j, (j < n)%nat -> Cmod (nth j t (RtoC 0)) ^ 2 <= power /\
       (time_of tw n j <> 0 -> Cmod (nth j t (RtoC 0)) ^ 2 = power * (sin (time_of tw n j / T0) / (time_of tw n j / T0)) ^ 2)) /\
    (forall h, n = (2 * h)%nat -> (0 < h)%nat -> Cmod (nth h t (RtoC 0)) ^ 2 = power).
Proof. exact C25_sinc_peak_power_partial_l. Qed.
Print Assumptions C25_sinc_peak_power_partial.

(** C25 refuted (sinc, average power): the profile built is the reciprocal of a sinc. Every sample away from t = 0 is *larger* than the centre sample, by the factor 1/|np.sinc(t/T0)|; a sinc pulse has its maximum at the centre. *)
Theorem C25_sinc_average_power_refuted : forall (power FWHM wl tw f : R) (n h : nat) (c2 c3 : R),
  0 < power -> FWHM <> 0 -> 1 < wl -> 1 < tw -> 0 < f -> n = (2 * h)%nat -> (0 < h)%nat ->
  let T0 := FWHM / (37909885 / 10000000) in
  (forall j, (j < n)%nat -> np_sinc (time_of tw n j / T0) <> 0) ->
  exists p t, construct (sinc_pulse power FWHM wl tw (Some f) n 0 0 c2 c3 true) = Ok p /\ get_AT p = (Ok t, p) /\ length t = n /\
    (forall j, (j < n)%nat -> Cmod (nth j t (RtoC 0)) * Rabs (np_sinc (time_of tw n j / T0)) = Cmod (nth h t (RtoC 0))) /\
    (forall j, (j < n)%nat -> j <> h -> Cmod (nth h t (RtoC 0)) < Cmod (nth j t (RtoC 0))).
Proof. exact C25_sinc_average_power_refuted_l. Qed.
Print Assumptions C25_sinc_average_power_refuted.

(** C25 (noise): whatever the random draws in [0,1), every spectral amplitude is non-zero and at most 1e-30 in magnitude. Missing: constant magnitude and random phase, refuted below. *)
Theorem C25_noise_tiny_partial : forall (wl tw : R) (n : nat) (frep : option R) (rand : nat -> R),
  (forall k, 0 <= rand k < 1) ->
  exists p a, construct (noise_pulse wl tw n frep rand) = Ok p /\ get_AW p = (Ok a, p) /\ length a = n /\
    (forall k, (k < n)%nat -> / 10 ^ 30 * exp (- (2 * PI)) < Cmod (nth k a (RtoC 0)) <= / 10 ^ 30).
Proof. exact C25_noise_tiny_partial_l. Qed.
Print Assumptions C25_noise_tiny_partial.

(** C25 refuted (noise): whatever the draws, every amplitude is a positive real number (phase 0), and two bins have equal magnitudes only if their draws were equal. *)
Theorem C25_noise_phase_refuted : forall (wl tw : R) (n : nat) (frep : option R) (rand : nat -> R),
  exists p a, construct (noise_pulse wl tw n frep rand) = Ok p /\ get_AW p = (Ok a, p) /\ length a = n /\
    (forall k, (k < n)%nat -> Im (nth k a (RtoC 0)) = 0 /\ 0 < Re (nth k a (RtoC 0))) /\
    (forall j k, (j < n)%nat -> (k < n)%nat -> Cmod (nth j a (RtoC 0)) = Cmod (nth k a (RtoC 0)) -> rand j = rand k).
Proof. exact C25_noise_phase_refuted_l. Qed.
Print Assumptions C25_noise_phase_refuted.

(** C25 (FROG): whenever the constructor completes with the file present, the energy per pulse is the requested one: power itself, or power/(repetition rate) when power is an average power. *)
Theorem C25_frog_energy : forall (strf : R -> string) (tw wl power f : R) (frep : option R) (n : nat) (avg flip : bool) (wls inten phase : list R) (p : pulse),
  1 < wl -> 1 < tw -> eff_frep frep = Some f ->
  construct (frog_pulse strf tw wl power frep n avg (Some (wls, inten, phase)) flip) = Ok p ->
  calc_epp p = (Ok (if avg then power / (f * 1000000) else power), p).
Proof. exact C25_frog_energy_l. Qed.
Print Assumptions C25_frog_energy.

(** C25 refuted (FROG, unreadable file): the IOError is swallowed and the constructor returns a pulse that holds no field at all. *)
Theorem C25_frog_missing_file_refuted : forall (strf : R -> string) (tw wl power : R) (frep : option R) (n : nat) (flip : bool),
  1 < wl -> 1 < tw ->
  exists p, construct (frog_pulse strf tw wl power frep n false None flip) = Ok p /\
    fst (get_AW p) = Raise RuntimeError /\ fst (calc_epp p) <> Ok power.
Proof. exact C25_frog_missing_file_refuted_l. Qed.
Print Assumptions C25_frog_missing_file_refuted.

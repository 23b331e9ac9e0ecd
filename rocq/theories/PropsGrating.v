(** Property theorems proved in GratingProofs.v (generated by tools/gen_props.py). *)
From Coq Require Import String.
From Coq Require Import Reals List ZArith Bool Arith Lia Lra.
From Coquelicot Require Import Rcomplements Hierarchy Continuity Derive AutoDerive Complex.
From Verif Require Import Base CNum NumPy ModelFFT FFTProofs ModelPulse ModelPulseOps Spec PulseProofs PulseOpsProofs ModelCrystal CrystalProofs ModelBeam BeamProofs ModelGrating GratingProofs.
Import ListNotations.
Local Open Scope R_scope.
Local Open Scope py_scope.

(** C64: whenever calc_theta returns a number, it solves the grating equation sin(g - theta) + sin g = lambda/d with a diffraction angle g - theta between -pi/2 and pi/2; it returns a number exactly for the wavelengths that are diffracted. *)
Theorem C64_grating_equation : forall (t : treacy) (wavelength_nm : R),
  (forall theta, calc_theta t wavelength_nm = Ok theta -> sin (t_g t - theta) + sin (t_g t) = wavelength_nm * 1e-9 / t_d t /\ - (PI / 2) <= t_g t - theta <= PI / 2) /\
  ((exists theta, calc_theta t wavelength_nm = Ok theta) <-> t_d t <> 0 /\ exists alpha, sin alpha + sin (t_g t) = wavelength_nm * 1e-9 / t_d t).
Proof. exact C64_grating_equation_l. Qed.
Print Assumptions C64_grating_equation.

(** C64: calc_theta on an array of wavelengths always returns (for a grating with a period); every entry that is diffracted is exactly what calc_theta gives for that wavelength alone, and every entry that is not is sent along the grating surface. *)
Theorem C64_theta_array : forall (t : treacy) (wls : list R), t_d t <> 0 ->
  exists ths, calc_theta_array t wls = Ok ths /\ length ths = length wls /\ forall i, (i < length wls)%nat ->
    (forall theta, calc_theta t (nth i wls 0) = Ok theta -> nth i ths 0 = theta) /\
    ((forall theta, calc_theta t (nth i wls 0) <> Ok theta) -> Rabs (t_g t - nth i ths 0) = PI / 2).
Proof. exact C64_theta_array_l. Qed.
Print Assumptions C64_theta_array.

(** C64: for every grating, separation and (nonzero) frequency strictly inside the diffracted range: calc_dphi_domega gives a number for all nearby frequencies, and calc_dt_dw_singlepass at the same wavelength is its derivative with respect to the angular frequency; the compressor's GDD is twice that. *)
Theorem C64_dispersion_is_derivative : forall (t : treacy) (om G : R), om <> 0 -> t_d t <> 0 -> -1 < 2 * PI * c_mks / (om * t_d t) - sin (t_g t) < 1 ->
  exists eps v : R, 0 < eps /\ (forall x, Rabs (x - om) < eps -> exists y, calc_dphi_domega t x G = Ok y) /\
    (forall F : R -> R, (forall x, Rabs (x - om) < eps -> calc_dphi_domega t x G = Ok (F x)) -> derivable_pt_lim F om v) /\
    calc_dt_dw_singlepass t (1e9 * 2 * PI * c_mks / om) G = Ok v /\ calc_compressor_gdd t (1e9 * 2 * PI * c_mks / om) G = Ok (2 * v).
Proof. exact C64_dispersion_is_derivative_l. Qed.
Print Assumptions C64_dispersion_is_derivative.

(** C64: whatever quadrature and fit are used, a compressor that returns leaves the modulus of every spectral bin, the spectral and the temporal energy sum, the grid and the repetition rate unchanged. *)
Theorem C64_spectrum_unchanged : forall (strf : R -> string) (quad : (R -> result R) -> R -> R -> result R) (polyfit2 : list R -> list R -> R * R * R) (t : treacy) (G : R) (p p' : pulse) (a : list C),
  p_ready p = true -> p_AW p = Some a -> length a = p_n p -> apply_phase_to_pulse strf quad polyfit2 t G p = (Ok tt, p') ->
  exists b, p_AW p' = Some b /\ same_mags b a /\ power_sum b = power_sum a /\ power_sum (IFFT_t b) = power_sum (IFFT_t a) /\
    p_n p' = p_n p /\ p_f p' = p_f p /\ p_tw p' = p_tw p /\ p_frep p' = p_frep p.
Proof. exact C64_spectrum_unchanged_l. Qed.
Print Assumptions C64_spectrum_unchanged.

(** C64: with a quadrature that returns a number at each frequency of the pulse's grid, applying the compressor to a pulse that holds a field succeeds. *)
Theorem C64_apply_succeeds : forall (strf : R -> string) (quad : (R -> result R) -> R -> R -> result R) (polyfit2 : list R -> list R -> R * R * R) (t : treacy) (G : R) (p : pulse) (a : list C),
  p_ready p = true -> p_AW p = Some a -> length a = p_n p -> p_Wh p = None ->
  (forall x, In x (map (fun w => w * 1000000000000) (W_of p)) -> exists y, quad (fun x => match calc_dphi_domega t x G with Ok y => Ok (2 * y) | Raise e => Raise e end) (p_f p * 2 * PI * 1e12) x = Ok y) ->
  exists p', apply_phase_to_pulse strf quad polyfit2 t G p = (Ok tt, p').
Proof. exact C64_apply_succeeds_l. Qed.
Print Assumptions C64_apply_succeeds.

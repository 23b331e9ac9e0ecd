(** Property theorems proved in PulseProofs.v (generated by tools/gen_props.py). *)
From Coq Require Import String.
From Coq Require Import Reals List ZArith Bool Arith Lia Lra.
From Coquelicot Require Import Complex.
From Verif Require Import Base CNum NumPy ModelFFT FFTProofs ModelPulse PulseProofs.
Import ListNotations.
Local Open Scope R_scope.

(** C01: after set_AT x, AT is x (and AW is the transform); nothing else in the pulse changes. *)
Theorem C01_set_AT_round_trip : forall (p : pulse) (x : list C),
  writable p -> length x = p_n p ->
  exists p', set_AT x p = (Ok tt, p') /\
             get_AT p' = (Ok x, p') /\
             get_AW p' = (Ok (FFT_t x), p') /\
             p' = with_AW (p_AW p') p.
Proof. exact C01_set_AT_round_trip_l. Qed.
Print Assumptions C01_set_AT_round_trip.

(** C01: after set_AW x, AW is x, AT is its inverse transform and transforming AT gives x back. *)
Theorem C01_set_AW_round_trip : forall (p : pulse) (x : list C),
  writable p -> length x = p_n p ->
  exists p' t, set_AW x p = (Ok tt, p') /\
             get_AW p' = (Ok x, p') /\
             get_AT p' = (Ok t, p') /\ FFT_t t = x /\ length t = p_n p' /\
             p' = with_AW (p_AW p') p.
Proof. exact C01_set_AW_round_trip_l. Qed.
Print Assumptions C01_set_AW_round_trip.

(** C01: the two transforms are mutually inverse on arrays of every length. *)
Theorem C01_transforms_inverse : forall x : list C,
  IFFT_t (FFT_t x) = x /\ FFT_t (IFFT_t x) = x.
Proof. exact C01_transforms_inverse_l. Qed.
Print Assumptions C01_transforms_inverse.

(** C02: on even grids AW and AT are the Fourier sums of each other on the published V and T grids. *)
Theorem C02_fourier_series_on_published_grids : forall (p : pulse) (a : list C) (h : nat),
  holds p a -> (p_n p = 2 * h)%nat -> (0 < h)%nat -> p_tw p <> 0 ->
  exists V T t,
    get_V p = (Ok V, p) /\ get_T p = (Ok T, p) /\ get_AW p = (Ok a, p) /\ get_AT p = (Ok t, p) /\
    length V = p_n p /\ length T = p_n p /\ length t = p_n p /\
    (forall k, (k < p_n p)%nat ->
       nth k a (RtoC 0) = (RtoC (/ INR (p_n p)) *
         csum (p_n p) (fun j => nth j t (RtoC 0) * cexp (Ci * RtoC (nth k V 0%R * nth j T 0%R))))%C) /\
    (forall j, (j < p_n p)%nat ->
       nth j t (RtoC 0) =
         csum (p_n p) (fun k => nth k a (RtoC 0) * cexp (- (Ci * RtoC (nth k V 0%R * nth j T 0%R))))%C).
Proof. exact C02_fourier_series_on_published_grids_l. Qed.
Print Assumptions C02_fourier_series_on_published_grids.

(** C02 (odd grids): for every odd NPTS and every window some field violates the relation. *)
Theorem C02_odd_grid_refuted : forall (p : pulse) (h : nat),
  p_ready p = true -> (p_n p = 2 * h + 1)%nat -> p_tw p <> 0 ->
  exists t a, length t = p_n p /\ a = FFT_t t /\
    nth 0 a (RtoC 0) <> (RtoC (/ INR (p_n p)) *
         csum (p_n p) (fun j => nth j t (RtoC 0) * cexp (Ci * RtoC (nth 0 (V_of p) 0%R * nth j (T_of p) 0%R))))%C.
Proof. exact C02_odd_grid_refuted_l. Qed.
Print Assumptions C02_odd_grid_refuted.

(** C03: energy is the same in both domains, for every length. *)
Theorem C03_parseval : forall (p : pulse) (a : list C), holds p a ->
  exists t, get_AT p = (Ok t, p) /\ length t = p_n p /\
    lrsum (map (fun z => Cmod z ^ 2) t) = INR (p_n p) * lrsum (map (fun z => Cmod z ^ 2) a).
Proof. exact C03_parseval_l. Qed.
Print Assumptions C03_parseval.

(** C03: both transforms are linear. *)
Theorem C03_linear : forall (x y : list C) (s : C), length x = length y ->
  FFT_t (map2 (fun a b => a + s * b)%C x y) = map2 (fun a b => a + s * b)%C (FFT_t x) (FFT_t y) /\
  IFFT_t (map2 (fun a b => a + s * b)%C x y) = map2 (fun a b => a + s * b)%C (IFFT_t x) (IFFT_t y).
Proof. exact C03_linear_l. Qed.
Print Assumptions C03_linear.

(** C04: every published grid of a ready pulse with at least one point, in closed form. *)
Theorem C04_grids : forall p : pulse, p_ready p = true -> (0 < p_n p)%nat -> p_tw p <> 0 ->
  exists dT T V W F,
    get_dT_ps p = (Ok dT, p) /\ get_T p = (Ok T, p) /\ get_V p = (Ok V, p) /\
    get_W p = (Ok W, p) /\ get_F_THz p = (Ok F, p) /\
    dT * INR (p_n p) = p_tw p /\
    length T = p_n p /\ length V = p_n p /\ length W = p_n p /\ length F = p_n p /\
    (forall j, (j < p_n p)%nat -> nth j T 0 = - (p_tw p / 2) + INR j * dT) /\
    (forall k, (k < p_n p)%nat ->
        nth k V 0 = (INR k - INR (p_n p) / 2) * (2 * PI / p_tw p) /\
        nth k W 0 = nth k V 0 + 2 * PI * p_f p /\
        nth k F 0 * (2 * PI) = nth k W 0) /\
    (forall h, (p_n p = 2 * h)%nat -> nth h F 0 = p_f p /\ nth h V 0 = 0 /\ nth h T 0 = 0).
Proof. exact C04_grids_l. Qed.
Print Assumptions C04_grids.

(** C04: SI and THz/ps variants differ by the fixed unit factor; the frequency step is 1/window. *)
Theorem C04_units : forall p : pulse, p_ready p = true -> (0 < p_n p)%nat -> p_tw p <> 0 ->
  (exists dT, get_dT_ps p = (Ok dT, p) /\ get_dT_mks p = (Ok (dT / 1000000000000), p)) /\
  (exists T, get_T p = (Ok T, p) /\ get_T_mks p = (Ok (map (fun x => x / 1000000000000) T), p)) /\
  (exists V, get_V p = (Ok V, p) /\ get_V_mks p = (Ok (map (fun x => 1000000000000 * x) V), p)) /\
  get_time_window_mks p = (Ok (p_tw p / 1000000000000), p) /\
  get_center_frequency_THz p = (Ok (p_f p), p) /\
  get_center_frequency_mks p = (Ok (1000000000000 * p_f p), p) /\
  ((2 <= p_n p)%nat -> get_dF_THz p = (Ok (/ Rabs (p_tw p)), p)).
Proof. exact C04_units_l. Qed.
Print Assumptions C04_units.

(** C05 (nm): writing the centre wavelength in nm or m and reading it in nm returns it. *)
Theorem C05_center_wavelength_nm : forall (p : pulse) (w : R), w <> 0 ->
  (exists p', set_center_wavelength_nm w p = (Ok tt, p') /\ get_center_wavelength_nm p' = (Ok w, p')) /\
  (exists p', set_center_wavelength_m w p = (Ok tt, p') /\
              get_center_wavelength_nm p' = (Ok (w * 1000000000), p')).
Proof. exact C05_center_wavelength_nm_l. Qed.
Print Assumptions C05_center_wavelength_nm.

(** C05 (mks) refuted: for every nonzero wavelength center_wavelength_mks differs from the wavelength in metres; it is too large by the factor 1e18. *)
Theorem C05_center_wavelength_mks_refuted : forall (p : pulse) (w : R), w <> 0 ->
  exists p' v, set_center_wavelength_m w p = (Ok tt, p') /\
    get_center_wavelength_mks p' = (Ok v, p') /\ v <> w /\ v = w * 1000000000000000000.
Proof. exact C05_center_wavelength_mks_refuted_l. Qed.
Print Assumptions C05_center_wavelength_mks_refuted.

(** C06: unit variants of the setters lead to identical states. *)
Theorem C06_unit_setters : forall (p : pulse) (x : R), x <> 0 ->
  set_time_window_s (x / 1000000000000) p = set_time_window_ps x p /\
  set_center_wavelength_m (x / 1000000000) p = set_center_wavelength_nm x p /\
  set_frequency_window_mks (x * 1000000000000) p = set_frequency_window_THz x p.
Proof. exact C06_unit_setters_l. Qed.
Print Assumptions C06_unit_setters.

(** C06: after set_frequency_window_THz D the bins are D/NPTS wide and the whole grid spans D. *)
Theorem C06_frequency_window : forall (p : pulse) (D : R), 0 < D -> (2 <= p_n p)%nat ->
  exists p' F, set_frequency_window_THz D p = (Ok tt, p') /\ get_F_THz p' = (Ok F, p') /\
    length F = p_n p /\
    get_dF_THz p' = (Ok (D / INR (p_n p)), p') /\
    (forall k, (k < p_n p)%nat -> nth k F 0 = p_f p + (INR k - INR (p_n p) / 2) * (D / INR (p_n p))) /\
    p' = with_ready true (with_tw (p_tw p') p).
Proof. exact C06_frequency_window_l. Qed.
Print Assumptions C06_frequency_window.

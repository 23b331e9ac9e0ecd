(** Property theorems proved in CrystalMoreProofs.v (generated by tools/gen_props.py). *)
From Coq Require Import String.
From Coq Require Import Reals List ZArith Bool Arith Lra Lia Psatz Factorial.
From Coquelicot Require Import Coquelicot.
From Verif Require Import Base CNum NumPy ModelPulse ModelCrystal ModelBeam ModelDFG ModelCrystalMore CrystalMoreProofs.
Import ListNotations.
Local Open Scope R_scope.
Local Open Scope py_scope.

(** C94: at every wavelength around which the index of a crystal is a positive number, the inverse of the group velocity returned is dk/dw of that crystal up to 5e-13 wl/c times a bound of the eleventh derivative of the index; the call fails only when the inverse computed is zero. *)
Theorem C94_group_velocity : forall (x : crystal) (axis : option string) (wl M : R),
  0 < wl -> (forall t, wl - 1 < t < wl + 1 -> exists n, n_on_axis (x_mat x) axis t = Ok n /\ 0 < n) ->
  (forall t, Rabs (t - wl) <= 1 / 2 -> Rabs (Derive_n (index (x_mat x) axis) 11 t) <= M) ->
  ex_derive (wavevector (index (x_mat x) axis)) (2 * PI * c_nmps / wl) /\
  exists q, Rabs (q - inv_vg (index (x_mat x) axis) wl) <= wl / c_nmps * 5e-13 * M /\
    group_velocity_nm_ps x axis wl = if Req_EM_T q 0 then Raise NonFinite else Ok (1 / q).
Proof. exact C94_group_velocity_l. Qed.
Print Assumptions C94_group_velocity.

(** C95 (partial: with the sign reversed): what calculate_D_ps_nm_km returns is MINUS the derivative of the inverse group velocity by the wavelength, in ps/(nm km), up to 2.2 wl/c times a bound of the eleventh derivative of the index; calculate_D_fs_um_mm returns the same number. *)
Theorem C95_dispersion_partial : forall (x : crystal) (axis : option string) (wl M : R),
  0 < wl -> (forall t, wl - 1 < t < wl + 1 -> exists n, n_on_axis (x_mat x) axis t = Ok n /\ 0 < n) ->
  (forall t, Rabs (t - wl) <= 1 / 2 -> Rabs (Derive_n (index (x_mat x) axis) 11 t) <= M) ->
  ex_derive (inv_vg (index (x_mat x) axis)) wl /\
  exists D, D_ps_nm_km x axis wl = Ok D /\ D_fs_um_mm x axis wl = Ok D /\
    Rabs (D - - (1e12 * Derive (inv_vg (index (x_mat x) axis)) wl)) <= 2.2 * wl / c_nmps * M.
Proof. exact C95_dispersion_partial_l. Qed.
Print Assumptions C95_dispersion_partial.

(** C94 (default axis, refuted): on an AgGaSe2 crystal none of these methods returns with its default axis: axis = None is handed on to n, which refuses it. *)
Theorem C94_default_axis_refuted : forall (x : crystal) (a : agse) (wl wl2 : R) (len : option R), x_mat x = Agse a ->
  (forall v, group_velocity_nm_ps x None wl <> Ok v) /\ (forall v, D_ps_nm_km x None wl <> Ok v) /\
  (forall v, pulse_delay_ps x wl wl2 len None <> Ok v) /\ (forall v, mix_phasematching_bw x wl wl2 None <> Ok v) /\
  (forall n, agse_n a (wl - 0.5) "o" = Ok n -> group_velocity_nm_ps x None wl = Raise ValueError /\ D_ps_nm_km x None wl = Raise ValueError).
Proof. exact C94_default_axis_refuted_l. Qed.
Print Assumptions C94_default_axis_refuted.

(** C96: the delay returned for two wavelengths is the length times the difference of dk/dw at the two, up to the accuracy of the two group velocities (C94). *)
Theorem C96_delay : forall (x : crystal) (axis : option string) (wl1 wl2 M1 M2 L d : R),
  0 < wl1 -> (forall t, wl1 - 1 < t < wl1 + 1 -> exists n, n_on_axis (x_mat x) axis t = Ok n /\ 0 < n) ->
  (forall t, Rabs (t - wl1) <= 1 / 2 -> Rabs (Derive_n (index (x_mat x) axis) 11 t) <= M1) ->
  0 < wl2 -> (forall t, wl2 - 1 < t < wl2 + 1 -> exists n, n_on_axis (x_mat x) axis t = Ok n /\ 0 < n) ->
  (forall t, Rabs (t - wl2) <= 1 / 2 -> Rabs (Derive_n (index (x_mat x) axis) 11 t) <= M2) ->
  pulse_delay_ps x wl1 wl2 (Some L) axis = Ok d ->
  Rabs (d - 1e9 * L * (inv_vg (index (x_mat x) axis) wl1 - inv_vg (index (x_mat x) axis) wl2)) <= 1e9 * Rabs L * (wl1 * M1 + wl2 * M2) / c_nmps * 5e-13.
Proof. exact C96_delay_l. Qed.
Print Assumptions C96_delay.

(** C96 (default length): without a length argument the crystal's own length is used; a crystal without one raises TypeError. *)
Theorem C96_default_length : forall (x : crystal) (axis : option string) (wl1 wl2 : R),
  pulse_delay_ps x wl1 wl2 None axis = match x_len x with None => Raise TypeError | Some L => pulse_delay_ps x wl1 wl2 (Some L) axis end.
Proof. exact C96_default_length_l. Qed.
Print Assumptions C96_default_length.

(** C97: a returned phase-matching bandwidth is positive and is 0.886 pi over c times the larger of the two group-velocity mismatches, signal against pump and idler against pump (in s/m, the idler at 1/(1/pump - 1/signal)). *)
Theorem C97_bandwidth : forall (x : crystal) (axis : option string) (p s w : R), mix_phasematching_bw x p s axis = Ok w ->
  exists gs gi gp, group_velocity_nm_ps x axis s = Ok gs /\ group_velocity_nm_ps x axis (1 / (1 / p - 1 / s)) = Ok gi /\ group_velocity_nm_ps x axis p = Ok gp /\
    0 < w /\ w = 0.886 * PI / (c_mks * (Rmax (Rabs (1 / gs - 1 / gp)) (Rabs (1 / gi - 1 / gp)) / 1e3)).
Proof. exact C97_bandwidth_l. Qed.
Print Assumptions C97_bandwidth.

(** C97 (exchange): giving the idler's wavelength instead of the signal's returns the same number. *)
Theorem C97_exchange : forall (x : crystal) (axis : option string) (p s w : R), mix_phasematching_bw x p s axis = Ok w ->
  mix_phasematching_bw x p (1 / (1 / p - 1 / s)) axis = Ok w.
Proof. exact C97_exchange_l. Qed.
Print Assumptions C97_exchange.

(** C97 (degenerate): a signal at the pump wavelength is a division by zero. *)
Theorem C97_degenerate : forall (x : crystal) (axis : option string) (p : R), mix_phasematching_bw x p p axis = Raise ZeroDivisionError.
Proof. exact C97_degenerate_l. Qed.
Print Assumptions C97_degenerate.

(** Property theorems proved in CrystalGroupProofs.v (generated by tools/gen_props.py). *)
From Coq Require Import String.
From Coq Require Import Reals List ZArith Bool Arith Lra Lia Psatz Factorial.
From Coquelicot Require Import Coquelicot.
From Verif Require Import Base CNum NumPy ModelPulse ModelCrystal ModelBeam ModelDFG ModelCrystalMore CrystalIndexProofs CrystalMoreProofs CrystalGroupProofs.
Import ListNotations.
Local Open Scope R_scope.
Local Open Scope py_scope.

(** C94 (PPLN): on a PPLN crystal at any temperature from 20 to 250 degC, with either Sellmeier data, the group velocity at every wavelength from 501 to 4499 nm is returned; it is positive, below c/n, and c over it is the group index c dk/dw to 2e-5. *)
Theorem C94_ppln : forall (x : crystal) (m : ppln) (T wl : R) (axis : option string), x_mat x = Ppln (set_T T m) -> 20 <= T <= 250 -> 501 <= wl <= 4499 ->
  exists n vg, n_on_axis (x_mat x) axis wl = Ok n /\ group_velocity_nm_ps x axis wl = Ok vg /\ 0 < vg < c_nmps / n /\
    Rabs (c_nmps / vg - c_nmps * inv_vg (index (x_mat x) axis) wl) <= 2e-5 /\ ex_derive (wavevector (index (x_mat x) axis)) (2 * PI * c_nmps / wl).
Proof. exact C94_ppln_l. Qed.
Print Assumptions C94_ppln.

(** C96 (PPLN): for PPLN in the same ranges the delay of two wavelengths over a length is returned, and is the length times the difference of dk/dw to 4e-5 times length over c. *)
Theorem C96_ppln : forall (x : crystal) (m : ppln) (T wl1 wl2 L : R) (axis : option string), x_mat x = Ppln (set_T T m) -> 20 <= T <= 250 -> 501 <= wl1 <= 4499 -> 501 <= wl2 <= 4499 -> 0 <= L ->
  exists d, pulse_delay_ps x wl1 wl2 (Some L) axis = Ok d /\
    Rabs (d - 1e9 * L * (inv_vg (index (x_mat x) axis) wl1 - inv_vg (index (x_mat x) axis) wl2)) <= 4e-5 * (1e9 * L / c_nmps).
Proof. exact C96_ppln_l. Qed.
Print Assumptions C96_ppln.

(** C95 (sign, refuted): PPLN has normal dispersion at 1000 nm (group velocity rising with wavelength, D below -300 ps/(nm km)), at every temperature from 20 to 250 degC and with either data, and calculate_D_ps_nm_km returns a number above +300 for it. *)
Theorem C95_sign_refuted : forall (x : crystal) (m : ppln) (T : R) (axis : option string), x_mat x = Ppln (set_T T m) -> 20 <= T <= 250 ->
  exists D, D_ps_nm_km x axis 1000 = Ok D /\ 300 < D /\ ex_derive (inv_vg (index (x_mat x) axis)) 1000 /\ 1e12 * Derive (inv_vg (index (x_mat x) axis)) 1000 < - 300.
Proof. exact C95_sign_refuted_l. Qed.
Print Assumptions C95_sign_refuted.

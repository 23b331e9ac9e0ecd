(** Property theorems proved in GratingHodProofs.v (generated by tools/gen_props.py). *)
From Coq Require Import Reals List ZArith Bool Arith Lia Lra Psatz Factorial.
From Coquelicot Require Import Coquelicot.
From Verif Require Import Base CNum NumPy ModelPulse ModelCrystal CrystalProofs ModelGrating ModelGratingHigh CrystalMoreProofs BeamProofs GratingProofs StencilProofs GratingHighProofs GratingHodProofs.
Import ListNotations.
Local Open Scope R_scope.
Local Open Scope py_scope.

(** C120: calc_compressor_HOD of order m (3 to 102), at a wavelength around which all colours within 0.1 rad/ps are diffracted, is twice the derivative of order m - 1 of the single-pass group delay (the m-th derivative of the double-pass phase) in SI units, up to an error of at most (m-2)! 2550^101/100! (2 pi 1e8)^(103-m) M, M bounding twice the derivative of order 102. *)
Theorem C120_hod_value : forall (t : treacy) (wl G M : R) (F : R -> R) (m : nat), let w0 := 2 * PI * c_mks / (wl * 1e-9) in
  wl <> 0 -> t_d t <> 0 -> (3 <= m <= 102)%nat ->
  (forall y, Rabs (y - w0) < 1e11 -> y <> 0 /\ -1 < 2 * PI * c_mks / (y * t_d t) - sin (t_g t) < 1 /\ calc_dphi_domega t y G = Ok (F y)) ->
  (forall y, Rabs (y - w0) < 1e11 -> 2 * Rabs (Derive_n F 102 y) <= M) ->
  exists v, calc_compressor_HOD t wl G (Z.of_nat m) = Ok v /\
    Rabs (v - 2 * Derive_n F (m - 1) w0) <= INR (fact (m - 2)) * 2550 ^ 101 / INR (fact 100) * (2 * PI * 1e8) ^ (103 - m) * M.
Proof. exact C120_hod_value_l. Qed.
Print Assumptions C120_hod_value.

(** C120: orders below three and above 102 are refused with ValueError. *)
Theorem C120_order_refused : forall (t : treacy) (wl G : R) (m : Z), wl <> 0 -> (m < 3)%Z \/ (102 < m)%Z -> calc_compressor_HOD t wl G m = Raise ValueError.
Proof. exact C120_order_refused_l. Qed.
Print Assumptions C120_order_refused.

(** C119: for order one the result is the single-pass group-delay dispersion in fs^2: half of calc_compressor_gdd times 10^30, up to the error of C118. *)
Theorem C119_first_order : forall (t : treacy) (wl G M : R) (F : R -> R), let w0 := 2 * PI * c_mks / (wl * 1e-9) in
  wl <> 0 -> t_d t <> 0 ->
  (forall y, Rabs (y - w0) <= 10e12 -> y <> 0 /\ -1 < 2 * PI * c_mks / (y * t_d t) - sin (t_g t) < 1 /\ calc_dphi_domega t y G = Ok (F y)) ->
  (forall y, Rabs (y - w0) <= 1e12 -> Rabs (Derive_n F 8 y) <= M) ->
  exists v g, calc_compressor_dnphi_domega_n t wl G 1 = Ok v /\ calc_compressor_gdd t wl G = Ok g /\ Rabs (v - 10 ^ 30 * (g / 2)) <= 10 ^ 30 * (5 / 2 * M * 2e11 ^ 7).
Proof. exact C119_first_order_l. Qed.
Print Assumptions C119_first_order.

(** C119: (refuted for higher orders) at order two the result is not the third-order dispersion in fs^3, which is 10^45 times the second derivative of the group delay: with 1000 lines/mm at normal incidence, 500 nm and one metre, it is more than 10^44 times too large. *)
Theorem C119_second_order_refuted : exists (t : treacy) (F : R -> R) (v : R), treacy_init 1000 0 = Ok t /\
  (forall y, Rabs (y - 2 * PI * c_mks / (500 * 1e-9)) <= 10e12 -> calc_dphi_domega t y 1 = Ok (F y)) /\
  calc_compressor_dnphi_domega_n t 500 1 2 = Ok v /\ 0 < Derive_n F 2 (2 * PI * c_mks / (500 * 1e-9)) /\ v > 10 ^ 44 * (10 ^ 45 * Derive_n F 2 (2 * PI * c_mks / (500 * 1e-9))).
Proof. exact C119_second_order_refuted_l. Qed.
Print Assumptions C119_second_order_refuted.

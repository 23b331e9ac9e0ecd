(** Property theorems proved in GratingHighProofs.v (generated by tools/gen_props.py). *)
From Coq Require Import Reals List ZArith Bool Arith Lia Lra Psatz Factorial.
From Coquelicot Require Import Coquelicot.
From Verif Require Import Base CNum NumPy ModelPulse ModelCrystal CrystalProofs ModelGrating ModelGratingHigh CrystalMoreProofs BeamProofs GratingProofs StencilProofs GratingHighProofs.
Import ListNotations.
Local Open Scope R_scope.
Local Open Scope py_scope.

(** C118: all derivatives of the single-pass group delay exist where the colour is diffracted, and the n-th is at most n! (5 B / |w|)^n times (|G|/c)(1 + |sin g| |2 pi c/(w d)|)/sqrt(1 - sin^2 out). *)
Theorem C118_derivative_bound : forall (t : treacy) (G w r B : R) (F : R -> R) (n : nat), t_d t <> 0 -> 0 < r ->
  (forall y, Rabs (y - w) < r -> y <> 0 /\ -1 < 2 * PI * c_mks / (y * t_d t) - sin (t_g t) < 1 /\ calc_dphi_domega t y G = Ok (F y)) ->
  let k := Rabs (2 * PI * c_mks / (w * t_d t)) in let q := 1 - (2 * PI * c_mks / (w * t_d t) - sin (t_g t)) ^ 2 in
  1 <= B -> (k ^ 2 + Rabs (sin (t_g t)) * k) / q <= B -> (1 <= n)%nat ->
  ex_derive_n F n w /\ Rabs (Derive_n F n w) <= INR (fact n) * (5 * B / Rabs w) ^ n * (Rabs G / c_mks * (1 + Rabs (sin (t_g t)) * k) / sqrt q).
Proof. exact C118_derivative_bound_l. Qed.
Print Assumptions C118_derivative_bound.

(** C118: calc_compressor_dnphi_domega_n of order n (1 to 4), at a wavelength around which all colours within 10 rad/ps are diffracted, is the n-th derivative of the single-pass group delay at that colour, in SI units times 10^(15 n (n+1)), up to an error of at most 2.5 M (2e11)^(8-n) in the same units, M bounding the eighth derivative within 1 rad/ps. *)
Theorem C118_dnphi_value : forall (t : treacy) (wl G M : R) (F : R -> R) (n : nat), let w0 := 2 * PI * c_mks / (wl * 1e-9) in
  wl <> 0 -> t_d t <> 0 -> (1 <= n <= 4)%nat ->
  (forall y, Rabs (y - w0) <= 10e12 -> y <> 0 /\ -1 < 2 * PI * c_mks / (y * t_d t) - sin (t_g t) < 1 /\ calc_dphi_domega t y G = Ok (F y)) ->
  (forall y, Rabs (y - w0) <= 1e12 -> Rabs (Derive_n F 8 y) <= M) ->
  exists v, calc_compressor_dnphi_domega_n t wl G (Z.of_nat n) = Ok v /\
    Rabs (v - 10 ^ (15 * n * (n + 1)) * Derive_n F n w0) <= 10 ^ (15 * n * (n + 1)) * (5 / 2 * M * 2e11 ^ (8 - n)).
Proof. exact C118_dnphi_value_l. Qed.
Print Assumptions C118_dnphi_value.

(** C118: an order below one is refused with ValueError. *)
Theorem C118_order_refused : forall (t : treacy) (wl G : R) (n : Z), (n < 1)%Z -> calc_compressor_dnphi_domega_n t wl G n = Raise ValueError.
Proof. exact C118_order_refused_l. Qed.
Print Assumptions C118_order_refused.

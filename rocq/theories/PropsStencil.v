(** Property theorems proved in StencilProofs.v (generated by tools/gen_props.py). *)
From Coq Require Import Reals List ZArith Bool Arith Lia Lra Psatz Factorial.
From Coquelicot Require Import Coquelicot.
From Verif Require Import Base CNum NumPy ModelPulse ModelCrystal ModelGrating ModelGratingHigh CrystalMoreProofs StencilProofs.
Import ListNotations.
Local Open Scope R_scope.

(** C118: the Savitzky-Golay filter, at an index with five samples on each side, gives the derivative at the middle of the polynomial of degree seven that is closest in least squares to those eleven samples. *)
Theorem C118_least_squares : forall (y : list R) (deriv i : nat) (c : nat -> R), (deriv <= 7)%nat ->
  (forall c', rsum 11 (fun k => (nth (i - 5 + k) y 0 - rsum 8 (fun j => c j * (INR k - 5) ^ j)) ^ 2) <= rsum 11 (fun k => (nth (i - 5 + k) y 0 - rsum 8 (fun j => c' j * (INR k - 5) ^ j)) ^ 2)) ->
  savgol_filter_at y (Z.of_nat deriv) i = INR (fact deriv) * c deriv.
Proof. exact C118_least_squares_l. Qed.
Print Assumptions C118_least_squares.

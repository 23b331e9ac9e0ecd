(** Property theorems proved in TightProofs.v (generated by tools/gen_props.py). *)
From Coq Require Import String.
From Coq Require Import Reals List ZArith Bool Arith Lia Lra Psatz.
From Coquelicot Require Import Complex.
From Verif Require Import Base CNum NumPy ModelFFT FFTProofs ModelPulse ModelPulseOps PulseProofs PulseOpsProofs TightProofs.
Import ListNotations.
Local Open Scope R_scope.

(** C16: a requested shift of a whole number of bins and a half moves the spectrum by the even one of the two neighbouring whole numbers. *)
Theorem C16_tie : forall (p : pulse) (a : list C) (wl : R) (z : Z), holds p a -> (2 <= p_n p)%nat -> 0 < p_tw p -> (c_nmps / wl - p_f p) * p_tw p = IZR z + 1 / 2 ->
  exists p' b (r : Z), rotate_spectrum_to_new_center_wl wl p = (Ok tt, p') /\ get_AW p' = (Ok b, p') /\ Z.even r = true /\ (r = z \/ r = (z + 1)%Z) /\
  forall k, (k < p_n p)%nat -> nth (Z.to_nat ((Z.of_nat k + r) mod Z.of_nat (p_n p))) b (RtoC 0) = nth k a (RtoC 0).
Proof. exact C16_tie_l. Qed.
Print Assumptions C16_tie.

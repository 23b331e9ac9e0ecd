(** Property theorems proved in EnergyFlowProofs.v (generated by tools/gen_props.py). *)
From Coq Require Import Reals List ZArith Bool Arith Lia Lra.
From Coquelicot Require Import Coquelicot.
From Verif Require Import Base CNum NumPy Spec ModelFFT FFTProofs ModelPulse PulseProofs PulseOpsProofs ModelSSFM SSFMLoopProofs SSFMProofs SSFMSymProofs SSFMErrProofs SSFMPropProofs SSFMGnlseProofs SSFMRamanProofs SSFMPhotonProofs GnlseFlowProofs SplitFlowProofs EnergyFlowProofs.
Import ListNotations.
Local Open Scope R_scope.
Local Notation z0 := (RtoC 0).

(** C128: the energy of every stored column of propagate (fourth-order method, self-steepening off): if the gain coefficients of the fiber lie between lo and hi, the energy after the distance D actually covered lies between the input energy times exp(lo D) and times exp(hi D), up to a constant times the fourth (eta = 5: fifth) power of the section length; in a fiber without gain and loss (lo = hi = 0) the energy is conserved to that order, with Raman scattering or without. *)
Theorem C128_energy_balance : forall (c : cfg) (fb : fiber) (op : option R) (s : ssfm) (p : pulse) (a : list C) (b : R -> list R) (g : list R) (Rw : list C) (F : R) (L lo hi : R),
  setting c fb 1 op s p a b g Rw F -> (c_pre c = false \/ Nat.even (p_n p) = true) -> c_method c = METHOD_RK4IP -> (2 <= c_eta c)%nat -> c_noSS c = true -> fb_len fb <= L ->
  (forall m, (m < p_n p)%nat -> lo <= nth m g 0 <= hi) ->
  exists K N0, 0 <= K /\ forall N fuel reload z AW AT po s' q, (N0 <= N)%nat -> (0 < N)%nat -> (reload = true -> forall x, b x = b 0 /\ fb_get_gamma fb x = fb_get_gamma fb 0) ->
    propagate c fuel fb N op reload s p = (Ok (Some (z, AW, AT, po, s')), q) ->
    exists d : nat -> R, (forall j, (j < N)%nat -> fb_len fb / INR N <= d j /\ (d j = fb_len fb / INR N \/ exists last, 0 < fb_len fb / INR N - (d j - last) <= 2 * / 10 ^ 12)) /\
    forall i, (i < N)%nat -> rsum (S i) d <= L -> let D := rsum (S i) d in let err := K * (fb_len fb / INR N) ^ (if Nat.eqb (c_eta c) 5 then 5 else 4) in
      power_sum (IFFT_t a) * exp (lo * D) - err <= power_sum (nth i AT []) <= power_sum (IFFT_t a) * exp (hi * D) + err.
Proof. exact C128_energy_balance_l. Qed.
Print Assumptions C128_energy_balance.

(** C128: the same for METHOD_SSFM with half the gain: after the distance D the energy lies between the input energy times exp(lo D / 2) and times exp(hi D / 2), up to a constant times the section length, so that a fiber of uniform gain g delivers exp(g D / 2) however small the steps are. *)
Theorem C128_splitting_energy : forall (c : cfg) (fb : fiber) (op : option R) (s : ssfm) (p : pulse) (a : list C) (b : R -> list R) (g : list R) (Rw : list C) (F : R) (L lo hi : R),
  setting c fb 1 op s p a b g Rw F -> (c_pre c = false \/ Nat.even (p_n p) = true) -> c_method c = METHOD_SSFM -> (2 <= c_eta c)%nat -> c_noSS c = true -> fb_len fb <= L ->
  (forall m, (m < p_n p)%nat -> lo <= nth m g 0 <= hi) ->
  exists K N0, 0 <= K /\ forall N fuel reload z AW AT po s' q, (N0 <= N)%nat -> (0 < N)%nat -> (reload = true -> forall x, b x = b 0 /\ fb_get_gamma fb x = fb_get_gamma fb 0) ->
    propagate c fuel fb N op reload s p = (Ok (Some (z, AW, AT, po, s')), q) ->
    exists d : nat -> R, (forall j, (j < N)%nat -> fb_len fb / INR N <= d j /\ (d j = fb_len fb / INR N \/ exists last, 0 < fb_len fb / INR N - (d j - last) <= 2 * / 10 ^ 12)) /\
    forall i, (i < N)%nat -> rsum (S i) d <= L -> let D := rsum (S i) d in let err := K * (fb_len fb / INR N) in
      power_sum (IFFT_t a) * exp (lo / 2 * D) - err <= power_sum (nth i AT []) <= power_sum (IFFT_t a) * exp (hi / 2 * D) + err.
Proof. exact C128_splitting_energy_l. Qed.
Print Assumptions C128_splitting_energy.

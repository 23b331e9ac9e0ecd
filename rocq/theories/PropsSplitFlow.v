(** Property theorems proved in SplitFlowProofs.v (generated by tools/gen_props.py). *)
From Coq Require Import Reals List ZArith Bool Arith Lra Lia Psatz FunctionalExtensionality.
From Coquelicot Require Import Coquelicot.
From Verif Require Import Base CNum NumPy Spec ModelFFT FFTProofs ModelPulse PulseProofs PulseOpsProofs ModelSSFM SSFMLoopProofs SSFMProofs SSFMSymProofs SSFMErrProofs SSFMPropProofs SSFMGnlseProofs JetProofs RkJetProofs TaylorProofs RkOrderProofs ConvergeProofs GlobalOrderProofs SplitFlowProofs.
From Verif Require Import SSFMRamanProofs GnlseFlowProofs SplitFlowProofs.
Import ListNotations.
Local Open Scope R_scope.
Local Notation z0 := (RtoC 0).

(** C127: METHOD_SSFM converges, but to another equation: its linear step spans only half of each step, so let y follow dA/dz = dir*(D A / 2 + N(A) A) on [0, Z], the equation with half the dispersion and half the gain (self-steepening off, or no sample of y at the threshold 1e-15). There are constants K and H0 such that for every tolerance, initial step, fuel and every distance up to L < Z, integrate_over_dz with METHOD_SSFM started from y(0) ends, in every sample, within K*H of y at the distance it covered, H <= H0 being any bound on the steps it kept. *)
Theorem C127_splitting_convergence : forall (c : cfg) (n : nat) (s : ssfm) (dir Z L : R) (y : R -> list C),
  c_method c = METHOD_SSFM -> (2 <= c_eta c)%nat -> wf n s -> 0 <= L < Z -> half_solution c n s dir Z y -> off_path c n Z y ->
  exists K H0, 0 <= K /\ 0 < H0 /\ forall c' s' fuel delta_z r H,
    c_method c' = c_method c -> c_eta c' = c_eta c -> c_noSS c' = c_noSS c -> c_pre c' = c_pre c -> same_medium s' s -> s_A s' = y 0 -> 0 < s_dz s' ->
    0 < delta_z <= L -> integrate_trace c' fuel delta_z dir s' = Some r -> (forall h, In h (l_steps r) -> h <= H) -> 0 < H <= H0 ->
    forall k, (k < n)%nat -> Cmod (nth k (s_A (l_st r)) z0 - nth k (y (lrsum (l_steps r))) z0)%C <= K * H.
Proof. exact C127_splitting_convergence_l. Qed.
Print Assumptions C127_splitting_convergence.

(** C127: propagate with METHOD_SSFM, for a fiber whose parameters do not vary (or are not reloaded): as n_steps grows its columns converge, whatever the tolerance, to the solution of the equation with half the dispersion and half the gain, with an error proportional to the section length. *)
Theorem C127_propagate : forall (c : cfg) (fb : fiber) (op : option R) (s : ssfm) (p : pulse) (a : list C) (b : R -> list R) (g : list R) (Rw : list C) (F : R) (Z L : R) (y : R -> list C),
  setting c fb 1 op s p a b g Rw F -> (c_pre c = false \/ Nat.even (p_n p) = true) -> c_method c = METHOD_SSFM -> (2 <= c_eta c)%nat -> fb_len fb <= L < Z ->
  half_solution c (p_n p) (start c fb p (b 0) g a Rw F s) 1 Z y -> off_path c (p_n p) Z y -> y 0 = cfftshift c (IFFT_t a) ->
  exists K N0, 0 <= K /\ forall N fuel reload z AW AT po s' q, (N0 <= N)%nat -> (0 < N)%nat -> (reload = true -> forall x, b x = b 0 /\ fb_get_gamma fb x = fb_get_gamma fb 0) ->
    propagate c fuel fb N op reload s p = (Ok (Some (z, AW, AT, po, s')), q) ->
    exists d : nat -> R, (forall j, (j < N)%nat -> fb_len fb / INR N <= d j /\ (d j = fb_len fb / INR N \/ exists last, 0 < fb_len fb / INR N - (d j - last) <= 2 * / 10 ^ 12)) /\
    forall i k, (i < N)%nat -> (k < p_n p)%nat -> rsum (S i) d <= L -> Cmod (nth k (nth i AT []) z0 - nth k (cifftshift c (y (rsum (S i) d))) z0)%C <= K * (fb_len fb / INR N).
Proof. exact C127_propagate_l. Qed.
Print Assumptions C127_propagate.

(** C127: without self-steepening nothing need be assumed about a solution: once setup succeeds the half equation has a solution through the input pulse for all distances, unique, whose energy stays between the input energy times the exponentials of half the smallest and half the largest gain coefficient that the fiber reports, and propagate with METHOD_SSFM converges to it: a fiber of gain g per metre amplifies the energy by exp(g L / 2), not exp(g L). *)
Theorem C127_half_gain : forall (c : cfg) (fb : fiber) (op : option R) (s : ssfm) (p : pulse) (a : list C) (b : R -> list R) (g : list R) (Rw : list C) (F : R) (L : R),
  setting c fb 1 op s p a b g Rw F -> (c_pre c = false \/ Nat.even (p_n p) = true) -> c_method c = METHOD_SSFM -> (2 <= c_eta c)%nat -> c_noSS c = true -> fb_len fb <= L ->
  exists y, y 0 = cfftshift c (IFFT_t a) /\ (forall Z, half_solution c (p_n p) (start c fb p (b 0) g a Rw F s) 1 Z y) /\
  (forall Z y', half_solution c (p_n p) (start c fb p (b 0) g a Rw F s) 1 Z y' -> y' 0 = y 0 -> forall z, 0 <= z <= Z -> y' z = y z) /\
  (forall lo hi, (forall m, (m < p_n p)%nat -> lo <= nth m g 0 <= hi) -> forall z, 0 <= z -> power_sum (IFFT_t a) * exp (lo / 2 * z) <= power_sum (y z) <= power_sum (IFFT_t a) * exp (hi / 2 * z)) /\
  exists K N0, 0 <= K /\ forall N fuel reload z AW AT po s' q, (N0 <= N)%nat -> (0 < N)%nat -> (reload = true -> forall x, b x = b 0 /\ fb_get_gamma fb x = fb_get_gamma fb 0) ->
    propagate c fuel fb N op reload s p = (Ok (Some (z, AW, AT, po, s')), q) ->
    exists d : nat -> R, (forall j, (j < N)%nat -> fb_len fb / INR N <= d j /\ (d j = fb_len fb / INR N \/ exists last, 0 < fb_len fb / INR N - (d j - last) <= 2 * / 10 ^ 12)) /\
    forall i k, (i < N)%nat -> (k < p_n p)%nat -> rsum (S i) d <= L -> Cmod (nth k (nth i AT []) z0 - nth k (cifftshift c (y (rsum (S i) d))) z0)%C <= K * (fb_len fb / INR N).
Proof. exact C127_half_gain_l. Qed.
Print Assumptions C127_half_gain.

(** Property theorems proved in GlobalOrderProofs.v (generated by tools/gen_props.py). *)
From Coq Require Import Reals List ZArith Bool Arith Lra Lia Psatz FunctionalExtensionality.
From Coquelicot Require Import Coquelicot.
From Verif Require Import Base CNum NumPy ModelFFT FFTProofs ModelPulse PulseProofs PulseOpsProofs ModelSSFM SSFMLoopProofs SSFMProofs SSFMSymProofs SSFMErrProofs SSFMPropProofs SSFMGnlseProofs JetProofs RkJetProofs TaylorProofs RkOrderProofs ConvergeProofs GlobalOrderProofs.
Import ListNotations.
Local Open Scope R_scope.
Local Notation z0 := (RtoC 0).

(** C121: the adaptive integrator converges. Let y be a solution of the generalised nonlinear Schroedinger equation dA/dz = dir*(D A + N(A) A) on [0, Z] (with self-steepening on, no sample of y may pass through the code's threshold 1e-15). There are constants K and H0 such that for every tolerance, initial step, fuel and every distance up to L < Z: integrate_over_dz started from y(0) ends, in every sample, within K*H^4 of y at the distance it covered, H <= H0 being any bound on the steps it kept; with the default local-error exponent 5 the bound is K*H^5. *)
Theorem C121_adaptive_convergence : forall (c : cfg) (n : nat) (s : ssfm) (dir Z L : R) (y : R -> list C),
  c_method c = METHOD_RK4IP -> (2 <= c_eta c)%nat -> wf n s -> 0 <= L < Z -> gnlse_solution c n s dir Z y -> off_path c n Z y ->
  exists K H0, 0 <= K /\ 0 < H0 /\ forall c' s' fuel delta_z r H,
    c_method c' = c_method c -> c_eta c' = c_eta c -> c_noSS c' = c_noSS c -> c_pre c' = c_pre c -> same_medium s' s -> s_A s' = y 0 -> 0 < s_dz s' ->
    0 < delta_z <= L -> integrate_trace c' fuel delta_z dir s' = Some r -> (forall h, In h (l_steps r) -> h <= H) -> 0 < H <= H0 ->
    forall k, (k < n)%nat -> Cmod (nth k (s_A (l_st r)) z0 - nth k (y (lrsum (l_steps r))) z0)%C <= K * H ^ (if Nat.eqb (c_eta c) 5 then 5 else 4).
Proof. exact C121_adaptive_convergence_l. Qed.
Print Assumptions C121_adaptive_convergence.

(** C122: the columns propagate returns converge to the solution of the generalised nonlinear Schroedinger equation as n_steps grows, whatever the tolerance: for a fiber whose parameters do not vary (or are not reloaded) and a solution y on [0, Z] starting at the pulse, there are K and N0 such that for all n_steps >= N0 column i of AT differs from y at the distance covered so far by at most K*(L/n_steps)^4 in every sample, and K*(L/n_steps)^5 with the default local-error exponent 5. The distance covered per section is L/n_steps unless a residue below 2e-12 m was left before its last step. *)
Theorem C122_propagate_convergence : forall (c : cfg) (fb : fiber) (op : option R) (s : ssfm) (p : pulse) (a : list C) (b : R -> list R) (g : list R) (Rw : list C) (F : R) (Z L : R) (y : R -> list C),
  setting c fb 1 op s p a b g Rw F -> (c_pre c = false \/ Nat.even (p_n p) = true) -> c_method c = METHOD_RK4IP -> (2 <= c_eta c)%nat -> fb_len fb <= L < Z ->
  gnlse_solution c (p_n p) (start c fb p (b 0) g a Rw F s) 1 Z y -> off_path c (p_n p) Z y -> y 0 = cfftshift c (IFFT_t a) ->
  exists K N0, 0 <= K /\ forall N fuel reload z AW AT po s' q, (N0 <= N)%nat -> (0 < N)%nat -> (reload = true -> forall x, b x = b 0 /\ fb_get_gamma fb x = fb_get_gamma fb 0) ->
    propagate c fuel fb N op reload s p = (Ok (Some (z, AW, AT, po, s')), q) ->
    exists d : nat -> R, (forall j, (j < N)%nat -> fb_len fb / INR N <= d j /\ (d j = fb_len fb / INR N \/ exists last, 0 < fb_len fb / INR N - (d j - last) <= 2 * / 10 ^ 12)) /\
    forall i k, (i < N)%nat -> (k < p_n p)%nat -> rsum (S i) d <= L ->
      Cmod (nth k (nth i AT []) z0 - nth k (cifftshift c (y (rsum (S i) d))) z0)%C <= K * (fb_len fb / INR N) ^ (if Nat.eqb (c_eta c) 5 then 5 else 4).
Proof. exact C122_propagate_convergence_l. Qed.
Print Assumptions C122_propagate_convergence.

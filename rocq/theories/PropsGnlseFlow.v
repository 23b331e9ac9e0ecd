(** Property theorems proved in GnlseFlowProofs.v (generated by tools/gen_props.py). *)
From Coq Require Import Reals List ZArith Bool Arith Lia Lra FunctionalExtensionality.
From Coquelicot Require Import Coquelicot.
From Verif Require Import Base CNum NumPy Spec ModelFFT FFTProofs ModelPulse PulseProofs PulseOpsProofs ModelSSFM SSFMLoopProofs SSFMProofs SSFMSymProofs SSFMErrProofs SSFMPropProofs SSFMGnlseProofs SSFMRamanProofs SSFMPhotonProofs ODETableauProofs RkOrderProofs PicardProofs MixingProofs GlobalOrderProofs GlobalFlowProofs GnlseFlowProofs.
Import ListNotations.
Local Open Scope R_scope.
Local Notation z0 := (RtoC 0).
Local Notation V := (nat -> C).

(** C125: without self-steepening, and with any response that is real in time (those that setup computes all are), the equation that the split-step methods discretise has, for every initial field on the grid, a solution defined at every distance, and only one; its energy grows or decays at a rate between the extreme gains of the medium, so a medium without gain or loss conserves it at every distance; and running the equation backwards from any point of the path gives the path back. *)
Theorem C125_equation : forall (c : cfg) (n : nat) (s : ssfm) (dir : R) (A0 : list C), c_noSS c = true -> wf n s -> real_response c n (s_R s) -> length A0 = n ->
  (exists y, y 0 = A0 /\ forall Z, gnlse_solution c n s dir Z y) /\
  (forall Z y y', gnlse_solution c n s dir Z y -> gnlse_solution c n s dir Z y' -> y 0 = A0 -> y' 0 = A0 -> forall z, 0 <= z <= Z -> y z = y' z) /\
  (forall Z y lo hi, gnlse_solution c n s dir Z y -> y 0 = A0 -> (forall m, (m < n)%nat -> lo <= dir * (- Re (nth m (s_alpha s) z0) - 2 * Im (nth m (s_betas s) z0)) <= hi) ->
     forall z, 0 <= z <= Z -> power_sum A0 * exp (lo * z) <= power_sum (y z) <= power_sum A0 * exp (hi * z)) /\
  (forall Z y y', gnlse_solution c n s dir Z y -> y 0 = A0 -> gnlse_solution c n s (- dir) Z y' -> y' 0 = y Z -> forall z, 0 <= z <= Z -> y' z = y (Z - z)).
Proof. exact C125_equation_l. Qed.
Print Assumptions C125_equation.

(** C125: the adaptive integrator converges to that solution with no assumption about a solution: for every medium without self-steepening, every field and every distance there is an exact field path, and every run that starts at the field and keeps its steps below H ends within a constant times H^4 (H^5 for eta = 5) of it. *)
Theorem C125_adaptive : forall (c : cfg) (n : nat) (s : ssfm) (dir L : R), c_method c = METHOD_RK4IP -> (2 <= c_eta c)%nat -> c_noSS c = true -> wf n s -> real_response c n (s_R s) -> 0 <= L ->
  exists y, y 0 = s_A s /\ (forall Z, gnlse_solution c n s dir Z y) /\ exists K H0, 0 <= K /\ 0 < H0 /\ forall c' s' fuel delta_z r H,
    c_method c' = c_method c -> c_eta c' = c_eta c -> c_noSS c' = c_noSS c -> c_pre c' = c_pre c -> same_medium s' s -> s_A s' = s_A s -> 0 < s_dz s' ->
    0 < delta_z <= L -> integrate_trace c' fuel delta_z dir s' = Some r -> (forall h, In h (l_steps r) -> h <= H) -> 0 < H <= H0 ->
    forall k, (k < n)%nat -> Cmod (nth k (s_A (l_st r)) z0 - nth k (y (lrsum (l_steps r))) z0)%C <= K * H ^ (if Nat.eqb (c_eta c) 5 then 5 else 4).
Proof. exact C125_adaptive_l. Qed.
Print Assumptions C125_adaptive.

(** C125: propagate without self-steepening converges, with no assumption about a solution: once setup succeeds there is an exact field path through the input pulse, unique, defined for all distances and with its energy between the input energy times the exponentials of the smallest and largest gain coefficient the fiber reports, and the stored time-domain columns approach it at the stated order. *)
Theorem C125_propagate : forall (c : cfg) (fb : fiber) (op : option R) (s : ssfm) (p : pulse) (a : list C) (b : R -> list R) (g : list R) (Rw : list C) (F : R) (L : R),
  setting c fb 1 op s p a b g Rw F -> (c_pre c = false \/ Nat.even (p_n p) = true) -> c_method c = METHOD_RK4IP -> (2 <= c_eta c)%nat -> c_noSS c = true -> fb_len fb <= L ->
  exists y, y 0 = cfftshift c (IFFT_t a) /\ (forall Z, gnlse_solution c (p_n p) (start c fb p (b 0) g a Rw F s) 1 Z y) /\
  (forall lo hi, (forall m, (m < p_n p)%nat -> lo <= nth m g 0 <= hi) -> forall z, 0 <= z -> power_sum (IFFT_t a) * exp (lo * z) <= power_sum (y z) <= power_sum (IFFT_t a) * exp (hi * z)) /\
  exists K N0, 0 <= K /\ forall N fuel reload z AW AT po s' q, (N0 <= N)%nat -> (0 < N)%nat -> (reload = true -> forall x, b x = b 0 /\ fb_get_gamma fb x = fb_get_gamma fb 0) ->
    propagate c fuel fb N op reload s p = (Ok (Some (z, AW, AT, po, s')), q) ->
    exists d : nat -> R, (forall j, (j < N)%nat -> fb_len fb / INR N <= d j /\ (d j = fb_len fb / INR N \/ exists last, 0 < fb_len fb / INR N - (d j - last) <= 2 * / 10 ^ 12)) /\
    forall i k, (i < N)%nat -> (k < p_n p)%nat -> rsum (S i) d <= L ->
      Cmod (nth k (nth i AT []) z0 - nth k (cifftshift c (y (rsum (S i) d))) z0)%C <= K * (fb_len fb / INR N) ^ (if Nat.eqb (c_eta c) 5 then 5 else 4).
Proof. exact C125_propagate_l. Qed.
Print Assumptions C125_propagate.

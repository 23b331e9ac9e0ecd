(** Property theorems proved in ODERunProofs.v (generated by tools/gen_props.py). *)
From Coq Require Import Reals List ZArith Bool Arith Lia Lra.
From Coquelicot Require Import Complex.
From Verif Require Import Base CNum NumPy ModelDopr ModelODE ODEOutputProofs ODEStepProofs ODETableauProofs ODEIntProofs ODERunProofs.
Import ListNotations.
Local Open Scope R_scope.
Local Open Scope py_scope.
Local Notation z0 := (RtoC 0).

(** C43: refuted, for every start: with y' = 0 the error estimate is exactly zero, Dopr853's error() computes 0 * sqrt(1/0) = NaN and integrate raises AssertionError; for every initial state (any length), interval, tolerances, first step, dense output on or off. The solution is not returned (ystart and x are as before), and the controller shared by all solvers is left with its rejected flag set. *)
Theorem C43_zero_estimate_refuted : forall (W : Type) (f : R -> list C -> M W (list C)) (fuel : nat) (w : W) (con : ctrl) (ystart : list C) (x1 x2 atol rtol h1 hmin : R) (nsaves : nat) (dense : bool) (dt : dtype),
  (forall x y w, exists w', f x y w = (Ok (repeat z0 (length ystart)), w')) -> (2 <= fuel)%nat -> (dense = true -> (0 < nsaves)%nat) ->
  exists g, integrate f fuel (new_ode w con ystart x1 x2 atol rtol h1 hmin (new_output (Some nsaves)) dense dt) = (Raise AssertionError, g) /\
    c_reject (g_con g) = true /\ e_nok (g_ode g) = 0%nat /\ e_nbad (g_ode g) = 0%nat /\ e_ystart (g_ode g) = ystart.
Proof. exact C43_zero_estimate_refuted_l. Qed.
Print Assumptions C43_zero_estimate_refuted.

(** C43: what does hold: one evaluation of the stages for y' = 0 returns exactly the unchanged state with both error estimates exactly zero. *)
Theorem C43_zero_stage_partial : forall (W : Type) (f : R -> list C -> M W (list C)) (h : R) (g : G W),
  (forall x y w, exists w', f x y w = (Ok (repeat z0 (length (p_y (g_s g)))), w')) -> (forall i, nth i (p_dydx (g_s g)) z0 = z0) ->
  exists g', dy f h g = (Ok tt, g') /\ p_yout (g_s g') = p_y (g_s g) /\ p_yerr (g_s g') = repeat z0 (length (p_y (g_s g))) /\ p_yerr2 (g_s g') = repeat z0 (length (p_y (g_s g))).
Proof. exact C43_zero_stage_partial_l. Qed.
Print Assumptions C43_zero_stage_partial.

(** C44: what dense output with Output(N) stores, for every run that returns (grid point j = x1 + j (x2-x1)/N; the spacing is assumed to be above the 100 eps tolerance of the final test). A run of one step stores exactly x1, x1+dx, ..., x1+(N-1)dx, x2, and the first N samples are the interpolant of the step; a run of two steps stores the first k0 grid points and then x2; a longer run stores the first k0 grid points, then the end X of the second step, then the grid points from k0+1 on, and x2 last. So from two steps on grid point k0 is replaced by the end of the second step. *)
Theorem C44_stored_points_partial : forall (W : Type) (f : R -> list C -> M W (list C)) (fuel : nat) (w : W) (con : ctrl) (ystart : list C) (x1 x2 atol rtol h1 hmin : R) (N : nat) (dt : dtype) (g' : G W),
  x1 <> x2 -> 0 <= hmin -> (0 < N)%nat -> 100 * Rabs x2 * EPS < Rabs ((x2 - x1) / INR N) ->
  integrate f fuel (new_ode w con ystart x1 x2 atol rtol h1 hmin (new_output (Some N)) true dt) = (Ok tt, g') ->
  let m := (e_nok (g_ode g') + e_nbad (g_ode g'))%nat in let P j := x1 + INR j * ((x2 - x1) / INR N) in let xs := firstn (o_count (g_out g')) (o_xsave (g_out g')) in
  (m = 1%nat -> xs = map P (seq 0 N) ++ [x2] /\ forall j, (j < N)%nat -> nth j (o_ysave (g_out g')) [] = dense_out (g_s g') (P j) (p_hdid (g_s g'))) /\
  (m = 2%nat -> exists k0, (1 <= k0 <= N)%nat /\ xs = map P (seq 0 k0) ++ [x2]) /\
  ((3 <= m)%nat -> exists k0 X rest, (1 <= k0 <= N)%nat /\ Rmin x1 x2 < X < Rmax x1 x2 /\ xs = map P (seq 0 k0) ++ X :: map P (seq (k0 + 1) (N - (k0 + 1))) ++ rest /\ (rest = [x2] \/ (rest = [] /\ (N <= k0 + 1)%nat))).
Proof. exact C44_stored_points_partial_l. Qed.
Print Assumptions C44_stored_points_partial.

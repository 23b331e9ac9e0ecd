(** Property theorems proved in ODEEmptyProofs.v (generated by tools/gen_props.py). *)
From Coq Require Import Reals List ZArith Bool Arith Lia Lra.
From Coquelicot Require Import Complex.
From Verif Require Import Base CNum NumPy ModelDopr ModelODE ODEOutputProofs ODEStepProofs ODETableauProofs ODEIntProofs ODEEmptyProofs.
Import ListNotations.
Local Open Scope R_scope.
Local Open Scope py_scope.
Local Notation z0 := (RtoC 0).

(** C42: an integration from x to x itself (whatever the right-hand side, the first step asked for, the output object and the dense flag), if it returns, returns at x with the start values, reported as the result, after exactly one step, of length zero. *)
Theorem C42_empty_interval : forall (W : Type) (f : R -> list C -> M W (list C)) (fuel : nat) (w : W) (con : ctrl) (ys : list C) (x atol rtol h1 hmin : R) (out : output) (dense : bool) (dt : dtype) (g : G W),
  integrate f fuel (new_ode w con ys x x atol rtol h1 hmin out dense dt) = (Ok tt, g) ->
  p_x (g_s g) = x /\ p_y (g_s g) = ys /\ e_ystart (g_ode g) = ys /\ p_hdid (g_s g) = 0 /\ e_nok (g_ode g) = 1%nat /\ e_nbad (g_ode g) = 0%nat.
Proof. exact C42_empty_interval_l. Qed.
Print Assumptions C42_empty_interval.

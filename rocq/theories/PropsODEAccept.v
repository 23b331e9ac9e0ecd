(** Property theorems proved in ODEAcceptProofs.v (generated by tools/gen_props.py). *)
From Coq Require Import QArith Qreals Reals List ZArith Bool Arith Lia Lra.
From Coquelicot Require Import Complex.
From Verif Require Import Base CNum NumPy ModelDopr ModelODE ODEStepProofs ODETableauProofs SSFMGnlseProofs ODEWitnessProofs ODELinearProofs ODETreeProofs BSeriesProofs ODEOrderProofs ODEAcceptProofs.
Import ListNotations.
Local Open Scope R_scope.
Local Open Scope py_scope.
Local Notation z0 := (RtoC 0).

(** C115: wherever a smooth right-hand side that always answers is not zero at the start (in some component) and atol is positive, every small enough step is accepted at the first attempt, whatever the controller went through before, and the next step is proposed six times as long (as long, if the attempt before was rejected). *)
Theorem C115_small_steps : forall (n : nat) (phi : R -> list C -> nat -> C) (x0 : R) (y0 : list C) (T : list (nat -> C) -> nat -> C) (k : nat) (atol : R),
  length y0 = n -> taylor7 n phi x0 y0 T -> (k < n)%nat -> phi x0 y0 k <> z0 -> 0 < atol ->
  exists h0, 0 < h0 /\
  forall (W : Type) (f : R -> list C -> M W (list C)) (fuel : nat) (h : R) (g : G W),
  (forall x y w, length y = n -> exists d w', f x y w = (Ok d, w') /\ forall i, (i < n)%nat -> nth i d z0 = phi x y i) ->
  p_x (g_s g) = x0 -> p_y (g_s g) = y0 -> (forall i, (i < n)%nat -> nth i (p_dydx (g_s g)) z0 = phi x0 y0 i) ->
  p_atol (g_s g) = atol -> 0 <= p_rtol (g_s g) -> Rabs h <= h0 ->
  exists g', step f (S fuel) h g = (Ok tt, g') /\ p_hdid (g_s g') = h /\ p_hnext (g_s g') = (if c_reject (g_con g) then h else 6 * h).
Proof. exact C115_small_steps_l. Qed.
Print Assumptions C115_small_steps.

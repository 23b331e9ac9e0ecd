(** Property theorems proved in ODEWitnessProofs.v (generated by tools/gen_props.py). *)
From Coq Require Import Reals List ZArith QArith Qreals Bool Arith Lia Lra.
From Coquelicot Require Import Complex.
From Verif Require Import Base CNum NumPy ModelDopr ModelODE ODEOutputProofs ODEStepProofs ODETableauProofs ODEIntProofs ODERunProofs ODEShareProofs ODEWitnessProofs.
Import ListNotations.
Local Open Scope R_scope.
Local Open Scope py_scope.
Local Notation z0 := (RtoC 0).

(** C47: refuted: after a solver for y' = 0 has raised (C43), its rejection is still recorded in the controller shared by all solvers, and a later, unrelated integration of y' = x^5 from 0 to 1 takes four steps ending at 0.1, 0.2, 0.8, 1 instead of the three (0.1, 0.7, 1) it takes in a fresh process. *)
Theorem C47_after_failure_refuted : exists (fA fB : R -> list C -> M unit (list C)) (fuel : nat) (gA gB gB' : G unit),
  let newA := new_ode tt new_ctrl [RtoC 1] 0 1 1 0 (1 / 10) 0 (new_output (Some 0%nat)) false Float64 in
  let newB con := new_ode tt con [RtoC 0] 0 1 (10 ^ 6) 0 (1 / 10) 0 (new_output (Some 0%nat)) false Float64 in
  (forall x y, fA x y tt = (Ok [RtoC 0], tt)) /\ (forall x y, fB x y tt = (Ok [RtoC (x ^ 5)], tt)) /\
  integrate fA fuel newA = (Raise AssertionError, gA) /\
  integrate fB fuel (newB new_ctrl) = (Ok tt, gB) /\ e_nok (g_ode gB) = 3%nat /\ firstn (o_count (g_out gB)) (o_xsave (g_out gB)) = [0; 1 / 10; 7 / 10; 1] /\
  integrate fB fuel (newB (g_con gA)) = (Ok tt, gB') /\ e_nok (g_ode gB') = 4%nat /\ firstn (o_count (g_out gB')) (o_xsave (g_out gB')) = [0; 1 / 10; 2 / 10; 8 / 10; 1].
Proof. exact C47_after_failure_refuted_l. Qed.
Print Assumptions C47_after_failure_refuted.

(** C44: refuted: y' = x^5 from 0 to 1 with first step 0.1 and Output(10) returns after three steps (0.1, 0.7, 1) with the samples stored at 0, 0.7, 0.2, 0.3, ..., 0.9, 1: the grid point 0.1 is missing, 0.7 occurs twice, and the abscissae are not in order. *)
Theorem C44_grid_refuted : forall fuel : nat, (9 <= fuel)%nat -> exists g : G unit,
  integrate (fun x y => ret [RtoC (x ^ 5)]) fuel (new_ode tt new_ctrl [RtoC 0] 0 1 (10 ^ 6) 0 (1 / 10) 0 (new_output (Some 10%nat)) true Float64) = (Ok tt, g) /\
  e_nok (g_ode g) = 3%nat /\ firstn (o_count (g_out g)) (o_xsave (g_out g)) = [0; 7 / 10; 2 / 10; 3 / 10; 4 / 10; 5 / 10; 6 / 10; 7 / 10; 8 / 10; 9 / 10; 1].
Proof. exact C44_grid_refuted_l. Qed.
Print Assumptions C44_grid_refuted.

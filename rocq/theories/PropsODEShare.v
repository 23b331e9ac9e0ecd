(** Property theorems proved in ODEShareProofs.v (generated by tools/gen_props.py). *)
From Coq Require Import Reals List ZArith QArith Qreals Bool Arith Lia Lra.
From Coquelicot Require Import Complex.
From Verif Require Import Base CNum NumPy ModelDopr ModelODE ODEOutputProofs ODEStepProofs ODETableauProofs ODEIntProofs ODERunProofs ODEShareProofs.
Import ListNotations.
Local Open Scope R_scope.
Local Open Scope py_scope.
Local Notation z0 := (RtoC 0).

(** C47: what does hold: the only thing a run can see of what happened before in the process is the controller's rejected flag: from any two controller states with the same flag it returns or raises the same, with the same samples, state, counters and right-hand side effects. An integration that returned has cleared the flag, so a later solver behaves as in a fresh process, whatever it solves. *)
Theorem C47_after_success_partial : forall (W : Type) (f : R -> list C -> M W (list C)) (fuel : nat) (w : W) (ystart : list C) (x1 x2 atol rtol h1 hmin : R) (nsaves : option nat) (dense : bool) (dt : dtype),
  let run con := integrate f fuel (new_ode w con ystart x1 x2 atol rtol h1 hmin (new_output nsaves) dense dt) in
  let same (a b : result unit * G W) := fst a = fst b /\ g_w (snd a) = g_w (snd b) /\ g_s (snd a) = g_s (snd b) /\ g_out (snd a) = g_out (snd b) /\ g_ode (snd a) = g_ode (snd b) in
  (forall con con', c_reject con = c_reject con' -> same (run con) (run con')) /\
  (forall (V : Type) (fA : R -> list C -> M V (list C)) (fuelA : nat) (v : V) (con : ctrl) (yA : list C) (a1 a2 atolA rtolA hA hminA : R) (k : nat) (denseA : bool) (dtA : dtype) (g : G V), a1 <> a2 -> 0 <= hminA ->
     integrate fA fuelA (new_ode v con yA a1 a2 atolA rtolA hA hminA (new_output (Some k)) denseA dtA) = (Ok tt, g) -> same (run (g_con g)) (run new_ctrl)).
Proof. exact C47_after_success_partial_l. Qed.
Print Assumptions C47_after_success_partial.

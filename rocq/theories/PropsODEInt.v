(** Property theorems proved in ODEIntProofs.v (generated by tools/gen_props.py). *)
From Coq Require Import Reals List ZArith Bool Arith Lia Lra.
From Coquelicot Require Import Complex.
From Verif Require Import Base CNum NumPy ModelDopr ModelODE ODEOutputProofs ODEStepProofs ODETableauProofs ODEIntProofs.
Import ListNotations.
Local Open Scope R_scope.
Local Open Scope py_scope.
Local Notation z0 := (RtoC 0).

(** C42: for every right-hand side, controller state, tolerances, first step (of either sign or zero), x1 <> x2 in either direction and hmin >= 0, with any storing Output: x never leaves the interval from x1 to x2; if integrate returns, the stepper stands exactly at x2, ystart is its final state (same length as the start), 1 <= nok + nbad <= 50000, and without dense output exactly 1 + nok + nbad samples are stored, the first (x1, ystart), the last (x2, final state), each strictly further towards x2 than the one before; if it raises, ystart is untouched. *)
Theorem C42_ends_exactly : forall (W : Type) (f : R -> list C -> M W (list C)) (fuel : nat) (w : W) (con : ctrl) (ystart : list C) (x1 x2 atol rtol h1 hmin : R) (nsaves : nat) (dense : bool) (dt : dtype),
  x1 <> x2 -> 0 <= hmin ->
  match integrate f fuel (new_ode w con ystart x1 x2 atol rtol h1 hmin (new_output (Some nsaves)) dense dt) with (r, g) =>
    Rmin x1 x2 <= p_x (g_s g) <= Rmax x1 x2 /\
    match r with
    | Ok _ => let m := (e_nok (g_ode g) + e_nbad (g_ode g))%nat in
        p_x (g_s g) = x2 /\ e_ystart (g_ode g) = p_y (g_s g) /\ length (p_y (g_s g)) = length ystart /\ (1 <= m)%nat /\ (Z.of_nat m <= 50000)%Z /\
        (dense = false -> o_count (g_out g) = (1 + m)%nat /\ nth 0 (o_xsave (g_out g)) 0 = x1 /\ nth 0 (o_ysave (g_out g)) [] = ystart /\
          nth m (o_xsave (g_out g)) 0 = x2 /\ nth m (o_ysave (g_out g)) [] = e_ystart (g_ode g) /\
          forall i, (i < m)%nat -> (x1 < x2 -> nth i (o_xsave (g_out g)) 0 < nth (S i) (o_xsave (g_out g)) 0) /\ (x2 < x1 -> nth (S i) (o_xsave (g_out g)) 0 < nth i (o_xsave (g_out g)) 0))
    | Raise _ => e_ystart (g_ode g) = ystart
    end
  end.
Proof. exact C42_ends_exactly_l. Qed.
Print Assumptions C42_ends_exactly.

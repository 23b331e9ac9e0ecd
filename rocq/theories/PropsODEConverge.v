(** Property theorems proved in ODEConvergeProofs.v (generated by tools/gen_props.py). *)
From Coq Require Import Reals List ZArith Bool Arith Lia Lra.
From Coquelicot Require Import Complex.
From Verif Require Import Base CNum NumPy ModelDopr ModelODE ODEOutputProofs ODEStepProofs ODETableauProofs ODEIntProofs ODERunProofs ODEChainProofs SSFMGnlseProofs ODELinearProofs ODETreeProofs BSeriesProofs ODEOrderProofs ODEAcceptProofs ODEConvergeProofs.
Import ListNotations.
Local Open Scope R_scope.
Local Open Scope py_scope.
Local Notation z0 := (RtoC 0).

(** C123: the global error of whole integrations, for every smooth system with a solution on [a, b] and a Lipschitz constant La in the tube of radius rho around it: there are K and h0, independent of the program, of the interval from x1 to x2 (in either direction, within [a', b'] inside [a, b]), of the tolerances, the first step and the starting error e0, such that every run that returns, stores its steps (dense = False) and takes no step longer than h <= h0 has, at every stored abscissa and in the ystart it leaves, an error of at most exp(26 La |x2-x1|) (e0 + |x2-x1| (K h^8 + 1e-26 M)), as long as that bound is within a quarter of the tube. 1e-26 M is the rounding of the tabulated coefficients (M bounds the derivatives along the solution). *)
Theorem C123_convergence : forall (n : nat) (phi : R -> list C -> nat -> C) (a a' b' b : R) (sol : R -> list C) (T : R -> list (nat -> C) -> nat -> C) (M La rho : R),
  a < a' -> b' < b -> (forall x, length (sol x) = n) ->
  (forall x j, (j < n)%nat -> a <= x <= b -> is_cderive (fun t => nth j (sol t) z0) x (phi x (sol x) j)) ->
  utaylor7 (I := {x | a <= x <= b}) n phi (fun o => proj1_sig o) (fun o => sol (proj1_sig o)) (fun o => T (proj1_sig o)) ->
  1 <= M -> (forall x l rs i, a <= x <= b -> (i < n)%nat -> (length l <= 7)%nat -> List.Forall2 (bd (S n)) l rs -> Cmod (T x l i) <= M * rprod rs) ->
  0 <= La -> 0 < rho ->
  (forall x y z d, a <= x <= b -> length y = n -> length z = n -> near n y (sol x) rho -> near n z (sol x) rho -> near n y z d -> forall i, (i < n)%nat -> Cmod (phi x y i - phi x z i)%C <= La * d) ->
  exists K h0, 0 <= K /\ 0 < h0 /\
  forall (W : Type) (f : R -> list C -> Base.M W (list C)) (fuel : nat) (w : W) (con : ctrl) (ystart : list C) (x1 x2 atol rtol h1 hmin : R) (nsaves : nat) (dt : dtype) (g' : G W) (h e0 : R),
  (forall x y w d w', length y = n -> f x y w = (Ok d, w') -> forall i, (i < n)%nat -> nth i d z0 = phi x y i) ->
  x1 <> x2 -> a' <= x1 <= b' -> a' <= x2 <= b' -> 0 <= hmin -> length ystart = n -> 0 <= e0 -> near n ystart (sol x1) e0 ->
  integrate f fuel (new_ode w con ystart x1 x2 atol rtol h1 hmin (new_output (Some nsaves)) false dt) = (Ok tt, g') ->
  let m := (e_nok (g_ode g') + e_nbad (g_ode g'))%nat in let X k := nth k (o_xsave (g_out g')) 0 in
  h <= h0 -> (forall k, (k < m)%nat -> Rabs (X (S k) - X k) <= h) ->
  let E := exp (26 * La * Rabs (x2 - x1)) * (e0 + Rabs (x2 - x1) * (K * h ^ 8 + / 10 ^ 26 * M)) in E <= rho / 4 ->
  (forall k, (k <= m)%nat -> near n (nth k (o_ysave (g_out g')) []) (sol (X k)) E) /\ near n (e_ystart (g_ode g')) (sol x2) E.
Proof. exact C123_convergence_l. Qed.
Print Assumptions C123_convergence.

(** C123: runs within reach of the bound exist: wherever a smooth right-hand side that always answers is not zero at the start and atol is positive, every integration over a short enough interval, in either direction, with a first step of at least that length, returns after one accepted step and stores exactly x1 and x2, whatever the controller went through before. *)
Theorem C123_short_runs : forall (n : nat) (phi : R -> list C -> nat -> C) (x1 : R) (ystart : list C) (T : list (nat -> C) -> nat -> C) (k : nat) (atol : R),
  length ystart = n -> taylor7 n phi x1 ystart T -> (k < n)%nat -> phi x1 ystart k <> z0 -> 0 < atol ->
  exists h0, 0 < h0 /\
  forall (W : Type) (f : R -> list C -> Base.M W (list C)) (fuel : nat) (w : W) (con : ctrl) (x2 rtol h1 hmin : R) (nsaves : nat) (dt : dtype),
  (forall x y w, length y = n -> exists d w', f x y w = (Ok d, w') /\ forall i, (i < n)%nat -> nth i d z0 = phi x y i) ->
  x1 <> x2 -> Rabs (x2 - x1) <= h0 -> Rabs (x2 - x1) <= Rabs h1 -> 0 <= rtol -> 0 <= hmin ->
  exists g', integrate f (S fuel) (new_ode w con ystart x1 x2 atol rtol h1 hmin (new_output (Some nsaves)) false dt) = (Ok tt, g') /\
    e_nok (g_ode g') = 1%nat /\ e_nbad (g_ode g') = 0%nat /\ nth 0 (o_xsave (g_out g')) 0 = x1 /\ nth 1 (o_xsave (g_out g')) 0 = x2.
Proof. exact C123_short_runs_l. Qed.
Print Assumptions C123_short_runs.

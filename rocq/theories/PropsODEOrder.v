(** Property theorems proved in ODEOrderProofs.v (generated by tools/gen_props.py). *)
From Coq Require Import QArith Qreals Reals List ZArith Bool Arith Lia Lra.
From Coquelicot Require Import Complex.
From Verif Require Import Base CNum NumPy ModelDopr ModelODE ODEStepProofs ODETableauProofs SSFMGnlseProofs ODELinearProofs ODETreeProofs BSeriesProofs ODEOrderProofs.
Import ListNotations.
Local Open Scope R_scope.
Local Open Scope py_scope.
Local Notation z0 := (RtoC 0).

(** C114: for every smooth right-hand side (seventh-order Taylor expansion at the start, derivatives bounded by M) with a solution through the start there are K and h0, independent of the program, such that every returned step with |h| <= h0 ends within K |h|^9 + 1e-26 M |h| of the solution, its interpolant stays within K |h|^8 + 1e-22 M |h| of the solution over the whole step, and the two error estimates are at most K |h|^3 + 1e-26 M and K |h|^5 + 1e-26 M. *)
Theorem C114_order : forall (n : nat) (phi : R -> list C -> nat -> C) (x0 : R) (y0 : list C) (T : list (nat -> C) -> nat -> C) (M : R) (sol : R -> list C) (h1 : R),
  length y0 = n -> taylor7 n phi x0 y0 T ->
  1 <= M -> (forall l rs i, (i < n)%nat -> (length l <= 7)%nat -> List.Forall2 (bd (S n)) l rs -> Cmod (T l i) <= M * rprod rs) ->
  0 < h1 -> (forall x, length (sol x) = n) -> sol x0 = y0 ->
  (forall x j, (j < n)%nat -> Rabs (x - x0) <= h1 -> is_cderive (fun t => nth j (sol t) z0) x (phi x (sol x) j)) ->
  exists K h0, 0 <= K /\ 0 < h0 /\
  forall (W : Type) (f : R -> list C -> Base.M W (list C)) (fuel : nat) (htry : R) (g g' : G W),
  (forall x y w d w', length y = n -> f x y w = (Ok d, w') -> forall i, (i < n)%nat -> nth i d z0 = phi x y i) ->
  p_x (g_s g) = x0 -> p_y (g_s g) = y0 -> (forall i, (i < n)%nat -> nth i (p_dydx (g_s g)) z0 = phi x0 y0 i) ->
  step f fuel htry g = (Ok tt, g') ->
  let s' := g_s g' in let h := p_hdid s' in Rabs h <= h0 -> forall i, (i < n)%nat ->
  Cmod (nth i (p_y s') z0 - nth i (sol (x0 + h)%R) z0)%C <= K * Rabs h ^ 9 + / 10 ^ 26 * M * Rabs h /\
  Cmod (nth i (p_yerr s') z0) <= K * Rabs h ^ 3 + / 10 ^ 26 * M /\
  Cmod (nth i (p_yerr2 s') z0) <= K * Rabs h ^ 5 + / 10 ^ 26 * M /\
  (p_dense (g_s g) = true -> h <> 0 -> forall t, 0 <= t <= 1 ->
    Cmod (nth i (dense_out s' (x0 + t * h)%R h) z0 - nth i (sol (x0 + t * h)%R) z0)%C <= K * Rabs h ^ 8 + / 10 ^ 22 * M * Rabs h).
Proof. exact C114_order_l. Qed.
Print Assumptions C114_order.

(** Property theorems proved in ODELinearProofs.v (generated by tools/gen_props.py). *)
From Coq Require Import QArith Qreals Reals List ZArith Bool Arith Lia Lra.
From Coquelicot Require Import Complex.
From Verif Require Import Base CNum NumPy ModelDopr ModelODE ODEStepProofs ODETableauProofs ODELinearProofs.
Import ListNotations.
Local Open Scope R_scope.
Local Open Scope py_scope.
Local Notation z0 := (RtoC 0).

(** C76: there are numbers beta, e1, e2 and functions delta on [0, 1], fixed by the method, such that every returning step (of any size, after any number of rejections) of every linear system y' = A y + sum_(m < 8) (x - x0)^m u_m with polynomial forcing returns exactly y + sum_l beta(l,0) h^(l+1) A^(l+1) y + sum_m sum_l beta(l,m) h^(l+m+1) A^l u_m, leaves the two estimates given by e1 and e2 in the same way, and with dense output interpolates by delta. The exact solution has m!/(l+m+1)! (times t^(l+m+1)) in the place of beta (of delta): beta agrees with it to 1e-27 for all terms through order 8, delta to 1e-24 through order 7, and the estimates vanish to 1e-27 below orders 3 and 5, with leading coefficients 0.0042.. and -1.3..e-5. *)
Theorem C76_linear_systems : exists (beta e1 e2 : nat -> nat -> R) (delta : R -> nat -> nat -> R),
  (forall l m, (l + m <= 7)%nat -> Rabs (beta l m - INR (fact m) / INR (fact (l + m + 1))) <= / 10 ^ 27) /\ (forall l, (8 <= l <= 11)%nat -> 0 < beta l 0%nat <= / INR (fact (l + 1))) /\
  (forall t l m, 0 <= t <= 1 -> (l + m <= 6)%nat -> Rabs (delta t l m - t ^ (l + m + 1) * INR (fact m) / INR (fact (l + m + 1))) <= / 10 ^ 24) /\ (forall t l, 0 <= t <= 1 -> (7 <= l <= 15)%nat -> Rabs (delta t l 0%nat) <= / 100) /\
  (forall l m, (l + m < 3)%nat -> Rabs (e1 l m) <= / 10 ^ 27) /\ 0.0042 <= e1 3%nat 0%nat <= 0.0043 /\ (forall l, (4 <= l < 12)%nat -> Rabs (e1 l 0%nat) <= 0.002) /\
  (forall l m, (l + m < 5)%nat -> Rabs (e2 l m) <= / 10 ^ 27) /\ 0.000013 <= - e2 5%nat 0%nat <= 0.000014 /\ (forall l, (6 <= l < 12)%nat -> Rabs (e2 l 0%nat) <= 0.0000003) /\
  forall (W : Type) (f : R -> list C -> M W (list C)) (n : nat) (A v : nat -> nat -> C) (w : nat -> nat -> nat -> C) (fuel : nat) (htry : R) (g g' : G W),
  let s := g_s g in let s' := g_s g' in let h := p_hdid s' in
  let series (N : nat) (c : nat -> nat -> R) (e i : nat) := (csum N (fun l => RtoC (c l 0%nat * h ^ (l + e)) * v (S l) i) + csum 8 (fun m => csum N (fun l => RtoC (c l m * h ^ (l + m + e)) * w m l i)))%C in
  (forall x y st, exists d st', f x y st = (Ok d, st') /\ forall i, (i < n)%nat -> nth i d z0 = (csum n (fun j => A i j * nth j y z0) + csum 8 (fun m => RtoC ((x - p_x s) ^ m) * w m 0%nat i))%C) ->
  (forall k i, (i < n)%nat -> v (S k) i = csum n (fun j => A i j * v k j)%C) -> (forall m k i, (i < n)%nat -> w m (S k) i = csum n (fun j => A i j * w m k j)%C) ->
  length (p_y s) = n -> (forall i, (i < n)%nat -> nth i (p_y s) z0 = v 0%nat i /\ nth i (p_dydx s) z0 = (v 1%nat i + w 0%nat 0%nat i)%C) ->
  step f fuel htry g = (Ok tt, g') -> forall i, (i < n)%nat ->
    nth i (p_y s') z0 = (v 0%nat i + series 12%nat beta 1%nat i)%C /\
    nth i (p_yerr s') z0 = series 12%nat e1 0%nat i /\ nth i (p_yerr2 s') z0 = series 12%nat e2 0%nat i /\
    (p_dense s = true -> htry <> 0 -> forall t, nth i (dense_out s' (p_x s + t * h) h) z0 = (v 0%nat i + series 16%nat (delta t) 1%nat i)%C).
Proof. exact C76_linear_systems_l. Qed.
Print Assumptions C76_linear_systems.

(** Property theorems proved in ODEStepProofs.v (generated by tools/gen_props.py). *)
From Coq Require Import Reals List ZArith Bool Arith Lia Lra.
From Coquelicot Require Import Complex Coquelicot.
From Verif Require Import Base CNum NumPy ModelDopr ModelODE ODEStepProofs.
Import ListNotations.
Local Open Scope R_scope.
Local Open Scope py_scope.
Local Notation z0 := (RtoC 0).

(** C40: whatever the controller went through before, a call with a nonnegative estimate err and step h either accepts (exactly when err <= 1), keeps h and proposes between 0.9 and 6 times h, and at most h when the call before was a rejection; or it rejects a finite or infinite err > 1 with a new step between 0.333 and 0.9 times h, so with the same sign and strictly shorter when h is nonzero. *)
Theorem C40_controller_limits : forall (calls : list (efl * option R)) (err : efl) (h : R),
  estimate_ok err -> err <> NaN ->
  let c := con_history calls in
  ((exists e, err = Fin e /\ e <= 1) -> exists c' k, success err (Some h) c = (Ok (true, Some h), c') /\ c_hnext c' = k * h /\ 0.9 <= k <= 6 /\
     (forall l e0 h0, calls = l ++ [(e0, Some h0)] -> estimate_ok e0 -> fst (success e0 (Some h0) (con_history l)) <> Ok (true, Some h0) -> k <= 1)) /\
  ((forall e, err = Fin e -> 1 < e) -> exists c' k, success err (Some h) c = (Ok (false, Some (k * h)), c') /\ 0.333 <= k <= 0.9).
Proof. exact C40_controller_limits_l. Qed.
Print Assumptions C40_controller_limits.

(** C41: whatever the right-hand side answers, a step that returns advanced x by exactly hdid, hdid is a positive fraction (at most all) of the attempted step, y keeps its length, the new derivative is the right-hand side's answer at the new x and y, and the proposed next step is 0.9 to 6 times hdid; a step that raises leaves x, y, dydx, hdid and hnext as they were, and the exception is the underflow error, the NaN assertion or one raised by the right-hand side itself. From x <> 0 the retry loop ends: with enough fuel, the fuel is never used up. *)
Theorem C41_step_or_raise : forall (W : Type) (f : R -> list C -> M W (list C)) (htry : R) (g : G W),
  (forall fuel, match step f fuel htry g with
    | (Ok _, g') => (exists t, 0 < t <= 1 /\ p_hdid (g_s g') = t * htry) /\ p_x (g_s g') = p_x (g_s g) + p_hdid (g_s g') /\ length (p_y (g_s g')) = length (p_y (g_s g)) /\
        (exists w d w', f (p_x (g_s g')) (p_y (g_s g')) w = (Ok d, w') /\ p_dydx (g_s g') = mk (length (p_y (g_s g))) (fun i => nth i d z0)) /\
        (exists k, 0.9 <= k <= 6 /\ p_hnext (g_s g') = k * p_hdid (g_s g'))
    | (Raise e, g') => p_x (g_s g') = p_x (g_s g) /\ p_y (g_s g') = p_y (g_s g) /\ p_dydx (g_s g') = p_dydx (g_s g) /\ p_hdid (g_s g') = p_hdid (g_s g) /\ p_hnext (g_s g') = p_hnext (g_s g) /\
        (e = OverflowError \/ e = AssertionError \/ e = NoFuel \/ exists x y w, fst (f x y w) = Raise e)
    end) /\
  (p_x (g_s g) <> 0 -> (forall x y w, fst (f x y w) <> Raise NoFuel) -> exists fuel0, forall fuel, (fuel0 <= fuel)%nat -> fst (step f fuel htry g) <> Raise NoFuel).
Proof. exact C41_step_or_raise_l. Qed.
Print Assumptions C41_step_or_raise.

(** C45: after a step with dense output from x to x' (attempted step nonzero), the interpolant takes the old state at x and the new state at x', and its slope (of the real and of the imaginary part of every component) is the derivative used at x and the derivative the right-hand side returned at x'. As the new state and derivative are those the next step starts from, consecutive steps join with a continuous derivative. *)
Theorem C45_dense_hermite : forall (W : Type) (f : R -> list C -> M W (list C)) (fuel : nat) (htry : R) (g g' : G W),
  step f fuel htry g = (Ok tt, g') -> p_dense (g_s g) = true -> htry <> 0 ->
  let s := g_s g in let s' := g_s g' in let D x := dense_out s' x (p_hdid s') in
  D (p_x s) = p_y s /\ D (p_x s') = p_y s' /\
  forall i, (i < length (p_y s))%nat ->
    is_derive (fun x => Re (nth i (D x) z0)) (p_x s) (Re (nth i (p_dydx s) z0)) /\ is_derive (fun x => Im (nth i (D x) z0)) (p_x s) (Im (nth i (p_dydx s) z0)) /\
    is_derive (fun x => Re (nth i (D x) z0)) (p_x s') (Re (nth i (p_dydx s') z0)) /\ is_derive (fun x => Im (nth i (D x) z0)) (p_x s') (Im (nth i (p_dydx s') z0)).
Proof. exact C45_dense_hermite_l. Qed.
Print Assumptions C45_dense_hermite.

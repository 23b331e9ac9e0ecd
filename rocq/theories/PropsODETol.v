(** Property theorems proved in ODETolProofs.v (generated by tools/gen_props.py). *)
From Coq Require Import Reals List ZArith Bool Arith Lia Lra.
From Coquelicot Require Import Complex.
From Verif Require Import Base CNum NumPy ModelDopr ModelODE ODEStepProofs ODETolProofs.
Import ListNotations.
Local Open Scope R_scope.
Local Open Scope py_scope.
Local Notation z0 := (RtoC 0).

(** C77: every returning step meets the tolerances. With sk_i = atol + rtol*max(|y_i|, |y'_i|) (y before, y' after the step), E1 and E2 the sums of the squares of the two scaled estimates and h the step taken, no sk_i is 0, E1 + 0.01*E2 > 0, and the error |h|*E1/sqrt(n*(E1 + 0.01*E2)) is at most 1. The next step proposed is h times min(6, 0.9*error^(-1/8)) (6 for error 0), and that factor is cut to at most 1 when an attempt was rejected just before. *)
Theorem C77_tolerance_met : forall (W : Type) (f : R -> list C -> M W (list C)) (fuel : nat) (htry : R) (g g' : G W),
  step f fuel htry g = (Ok tt, g') ->
  let s := g_s g in let s' := g_s g' in let n := length (p_y s) in let h := p_hdid s' in
  let sk i := p_atol s + p_rtol s * Rmax (Cmod (nth i (p_y s) z0)) (Cmod (nth i (p_y s') z0)) in
  let E1 := rsum n (fun i => (Cmod (nth i (p_yerr2 s') z0) / sk i) ^ 2) in let E2 := rsum n (fun i => (Cmod (nth i (p_yerr s') z0) / sk i) ^ 2) in
  (forall i, (i < n)%nat -> sk i <> 0) /\ 0 < INR n * (E1 + 0.01 * E2) /\
  let e := Rabs h * E1 / sqrt (INR n * (E1 + 0.01 * E2)) in
  let k := if Req_EM_T e 0 then 6 else Rmin 6 (0.9 * Rpower e (- (1 / 8))) in
  0 <= e <= 1 /\ (h = htry /\ p_hnext s' = h * (if c_reject (g_con g) then Rmin k 1 else k) \/ Rabs h <= 0.9 * Rabs htry /\ p_hnext s' = h * Rmin k 1).
Proof. exact C77_tolerance_met_l. Qed.
Print Assumptions C77_tolerance_met.

(** Property theorems proved in ODETableauProofs.v (generated by tools/gen_props.py). *)
From Coq Require Import QArith Qreals Qabs Reals List ZArith Bool Arith Lia Lra.
From Coquelicot Require Import Complex.
From Verif Require Import Base CNum NumPy ModelDopr ModelODE ODEStepProofs ODETableauProofs.
Import ListNotations.
Local Open Scope R_scope.
Local Open Scope py_scope.
Local Notation z0 := (RtoC 0).

(** C46 (order): for y' = p(x) with p any complex polynomial of degree at most 7 per component, one dy over (x, h) returns y plus the exact integral of p up to 1e-27 relative to |h| * sum |a_k| (|x|+|h|)^k; for degree at most 4 the estimate yerr2 and for degree at most 2 the estimate yerr is zero up to the same relative rounding. *)
Theorem C46_quadrature_order : forall (W : Type) (f : R -> list C -> M W (list C)) (p : R -> list C) (N i : nat) (a : nat -> C) (h : R) (g : G W),
  (forall x y w, exists w', f x y w = (Ok (p x), w')) ->
  let s := g_s g in let x := p_x s in let n := length (p_y s) in
  (i < n)%nat -> (N <= 8)%nat -> (forall u, nth i (p u) z0 = csum N (fun k => a k * RtoC (u ^ k))%C) -> nth i (p_dydx s) z0 = nth i (p x) z0 ->
  let B := / 10 ^ 27 * rsum N (fun k => Cmod (a k) * (Rabs x + Rabs h) ^ k) in
  exists g', dy f h g = (Ok tt, g') /\
    Cmod (nth i (p_yout (g_s g')) z0 - (nth i (p_y s) z0 + csum N (fun k => a k * RtoC (((x + h) ^ S k - x ^ S k) / INR (S k)))%C))%C <= Rabs h * B /\
    ((N <= 5)%nat -> Cmod (nth i (p_yerr2 (g_s g')) z0) <= B) /\ ((N <= 3)%nat -> Cmod (nth i (p_yerr (g_s g')) z0) <= B).
Proof. exact C46_quadrature_order_l. Qed.
Print Assumptions C46_quadrature_order.

(** C46 (nodes): every node of the tableau, including the three of the dense output, is the sum of its row up to 1e-27. *)
Theorem C46_nodes_are_row_sums : forall c row, In (c, row)
  [(c2, [a21]); (c3, [a31; a32]); (c4, [a41; a43]); (c5, [a51; a53; a54]); (c6, [a61; a64; a65]); (c7, [a71; a74; a75; a76]); (c8, [a81; a84; a85; a86; a87]);
   (c9, [a91; a94; a95; a96; a97; a98]); (c10, [a101; a104; a105; a106; a107; a108; a109]); (c11, [a111; a114; a115; a116; a117; a118; a119; a1110]);
   (1, [a121; a124; a125; a126; a127; a128; a129; a1210; a1211]);
   (c14, [a141; a147; a148; a149; a1410; a1411; a1412; a1413]); (c15, [a151; a156; a157; a158; a1511; a1512; a1513; a1514]); (c16, [a161; a166; a167; a168; a169; a1613; a1614; a1615])] ->
  Rabs (lrsum row - c) <= / 10 ^ 27.
Proof. exact C46_nodes_are_row_sums_l. Qed.
Print Assumptions C46_nodes_are_row_sums.

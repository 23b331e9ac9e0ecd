(** Property theorems proved in SSFMTrivProofs.v (generated by tools/gen_props.py). *)
From Coq Require Import Reals List ZArith Bool Arith Lia Lra.
From Coquelicot Require Import Complex.
From Verif Require Import Base CNum NumPy ModelFFT FFTProofs ModelPulse PulseProofs PulseOpsProofs PulseRegridProofs ModelSSFM SSFMLoopProofs SSFMProofs SSFMSymProofs SSFMPropProofs SSFMTrivProofs.
Import ListNotations.
Local Open Scope R_scope.
Local Open Scope py_scope.
Local Notation z0 := (RtoC 0).

(** C33 (refuted on odd grids): there is a 3-point pulse which, sent through a fiber that does nothing, comes out of propagate with pulse_out.AT different from the last AT column (and so from the input), the internal shift being on. *)
Theorem C33_odd_grid_refuted : exists (c : cfg) (fuel : nat) (fb : fiber) (N : nat) (op : option R) (reload : bool) (s : ssfm) (p : pulse) (x : list C) (z : list R) (AW AT : list (list C)) (po : pulse) (s' : ssfm) (q : pulse),
  (forall zz, fb_betas fb zz p = (Ok [0; 0; 0], p) /\ fb_get_gamma fb zz = 0) /\ fb_gain fb op p = (Ok [0; 0; 0], p) /\ get_AT p = (Ok x, p) /\
  propagate c fuel fb N op reload s p = (Ok (Some (z, AW, AT, po, s')), q) /\ last AT [] = x /\ ~ get_AT po = (Ok x, po).
Proof. exact C33_odd_grid_refuted_l. Qed.
Print Assumptions C33_odd_grid_refuted.

(** C33: for every medium, nonlinear or not, every grid and every number of steps, propagate finishes and returns a result (given enough loop iterations). *)
Theorem C33_propagate_returns : forall (c : cfg) (fb : fiber) (N : nat) (op : option R) (reload : bool) (s : ssfm) (p : pulse) (a : list C) (b : R -> list R) (g : list R) (Rw : list C) (F : R),
  setting c fb N op s p a b g Rw F -> exists fuel z AW AT po s' q, propagate c fuel fb N op reload s p = (Ok (Some (z, AW, AT, po, s')), q).
Proof. exact C33_propagate_returns_l. Qed.
Print Assumptions C33_propagate_returns.

(** Concrete cases for C112: the pulses and the crystal of ExDFG, solved over the crystal's length with the defaults of the example script. *)
From Coq Require Import String.
From Coq Require Import Reals List ZArith Bool Arith Lia Lra.
From Coquelicot Require Import Coquelicot.
From Verif Require Import Base CNum NumPy FFTProofs ModelPulse Spec ModelDerived PulseProofs ModelCrystal ModelBeam ExOptics ModelODE ModelDFG DFGProofs DFGInitProofs DFGOutProofs DFGTotalProofs DFGAcceptProofs DFGBulkProofs DFGRunProofs.
From Verif Require Import PropsDFGRun ExDFG ExDFGBulk.
Import ListNotations.
Local Open Scope R_scope.
Local Open Scope py_scope.

(** a poled free-space crystal, ten dense saves *)
Example ex_C112_free_space : forall strf rand k0 ofuel, exists q fc, dfg_init strf 3 rand pu sg (xd "PP") true ex_waist true false None k0 = (Ok (q, fc), k0) /\
  exists r g, integrate (rhs_of strf q (repeat (RtoC 0) 6)) ofuel (new_ode (mkDS k0 fc) new_ctrl (q_ystart q) 0 3 0.001 0.001 0.1 0 (new_output (Some 10%nat)) true Complex128) = (r, g) /\ run_reads strf q 2 3 true r g.
Proof.
  intros strf rand k0 ofuel. destruct (C112_free_space strf 3 rand pu sg (xd "PP") ex_waist true None k0 2 3 (repeat (RtoC 0) 6) ofuel new_ctrl 0.001 0.001 0.1 0 10 true (ex_bulk strf "PP" (or_intror (or_intror eq_refl))) eq_refl ltac:(lra) ltac:(lra) ltac:(intros; lia)) as (q & fc & E & _ & _ & _ & R).
  exists q, fc. auto.
Qed.
(** a waveguide, every step saved *)
Example ex_C112_waveguide : forall strf rand k0 ofuel, exists q fc, dfg_init strf 3 rand pu sg (xd "simple") true 1 false true (Some 100) k0 = (Ok (q, fc), k0) /\ p_f (q_idlr q) = 10 /\
  exists r g, integrate (rhs_of strf q ye) ofuel (new_ode (mkDS k0 fc) new_ctrl (q_ystart q) 0 3 0.001 0.001 0.1 0 (new_output (Some 0%nat)) false Complex128) = (r, g) /\ run_reads strf q 2 3 false r g.
Proof.
  intros strf rand k0 ofuel. destruct (cur_pu strf) as [A B]. destruct (cur_sg strf) as [C D].
  destruct (C112_waveguide strf 3 rand pu sg (xd "simple") 1 false 100 3 k0 2 [RtoC 2; Ci] [RtoC 1; RtoC 1] 3 ye ofuel new_ctrl 0.001 0.001 0.1 0 0 false) as (q & fc & E & _ & _ & F & R); try assumption; try reflexivity; try (repeat split; reflexivity); try lia; try lra; try discriminate.
  - cbn. lra.
  - exact ex_ranges.
  - exact ex_order.
  - apply xd_pos.
  - left. reflexivity.
  - exists q, fc. split; [exact E|]. split; [rewrite F; cbn; lra|exact R].
Qed.
(** the work array: zeros or leftovers of an earlier call *)
Example ex_C112_buffer : forall strf rand k0 q fc, dfg_init strf 3 rand pu sg (xd "simple") true 1 false true (Some 100) k0 = (Ok (q, fc), k0) -> q_n q = 2%nat -> deriv strf q 0.7 ye (repeat (RtoC 0) 6) (mkDS k0 fc) = deriv strf q 0.7 ye ye (mkDS k0 fc).
Proof. intros strf rand k0 q fc _ Qn. apply C112_buffer; rewrite Qn; reflexivity. Qed.

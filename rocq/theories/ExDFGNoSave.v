(** A concrete case for DFGNoSaveProofs.v: the two-point problem of ExDFG.v and an Output(5) that was set up and never saved into. *)
From Coq Require Import String.
From Coq Require Import Reals List ZArith Bool Arith Lia Lra.
From Coquelicot Require Import Coquelicot.
From Verif Require Import Base CNum NumPy ModelPulse PulseProofs ModelODE ModelDFG DFGOutProofs PropsDFGNoSave ExDFG.
Import ListNotations.
Local Open Scope R_scope.
Local Open Scope py_scope.

Example ex_C53_nothing : forall strf rand k0, exists q, dfg_init strf 3 rand pu sg (xd "PP") true 1 true true (Some 100) k0 = (Ok (q, fftc_init 2), k0) /\
  process_stepper_output strf q (mkRW (out_init 6 0 1 Complex128 (new_output (Some 5%nat))) [pu]) = (Raise ValueError, mkRW (out_init 6 0 1 Complex128 (new_output (Some 5%nat))) [pu]) /\
  process_stepper_output strf q (mkRW (out_init 6 0 1 Complex128 (new_output None)) [pu]) = (Raise TypeError, mkRW (out_init 6 0 1 Complex128 (new_output None)) [pu]).
Proof.
  intros strf rand k0. destruct (ex_dfg strf rand k0) as (q & nc & z & E & Sz & Qp & Qs & Enc & Hnc & _). exists q. split; [exact E|].
  assert (Hh : holds (q_pump q) [RtoC 2; Ci]) by (rewrite Qp; repeat split). split.
  - apply (proj1 (C53_nothing_saved strf q nc _ _ Enc Hnc Hh)) with (km := 500%nat); reflexivity.
  - apply (proj2 (C53_nothing_saved strf q nc _ _ Enc Hnc Hh)). reflexivity.
Qed.
Example ex_C53_real : forall strf rand k0, exists q, dfg_init strf 3 rand pu sg (xd "PP") true 1 true true (Some 100) k0 = (Ok (q, fftc_init 2), k0) /\
  process_stepper_output strf q (mkRW (mkO (Some 2%nat) 6 1 false 1 0 3 0 0 [3; 0] [ye; ye] Float64) []) = (Raise TypeError, mkRW (mkO (Some 2%nat) 6 1 false 1 0 3 0 0 [3; 0] [ye; ye] Float64) []).
Proof.
  intros strf rand k0. destruct (ex_dfg strf rand k0) as (q & nc & z & E & Sz & Qp & Qs & Enc & Hnc & _). exists q. split; [exact E|].
  apply (C53_real_saves strf q nc _ 2%nat Enc Hnc); [reflexivity..|cbn; lia].
Qed.
Example ex_C53_past : forall strf rand k0, exists q f z w1, dfg_init strf 3 rand pu sg (xd "PP") true 1 true true (Some 100) k0 = (Ok (q, fftc_init 2), k0) /\
  process_stepper_output strf q (mkRW (saved1 z) []) = (Ok f, w1) /\ get_sgnl f 1 w1 = (Raise IndexError, w1).
Proof.
  intros strf rand k0. destruct (ex_C53_read strf rand k0) as (q & f & z & w1 & _ & _ & _ & _ & _ & E & H & _). exists q, f, z, w1. split; [exact E|]. split; [exact H|].
  apply (C53_past_the_saves strf q _ _ f 1 H). cbn. lia.
Qed.

(** Property theorems proved in DFGNoSaveProofs.v (generated by tools/gen_props.py). *)
From Coq Require Import String.
From Coq Require Import Reals List ZArith Bool Arith Lia Lra.
From Coquelicot Require Import Coquelicot.
From Verif Require Import Base CNum NumPy FFTProofs ModelPulse Spec PulseProofs PulseHistory PulseOpsProofs PulseRegridProofs ModelCrystal CrystalProofs ModelBeam BeamProofs FiberShareProofs ModelODE ODEOutputProofs ModelDFG DFGMixProofs DFGProofs DFGInitProofs DFGOutProofs DFGNoSaveProofs.
Import ListNotations.
Local Open Scope R_scope.
Local Open Scope py_scope.

(** C53: process_stepper_output given an Output that was set up but holds no saved point raises ValueError (the maximum over no values), real or complex; it changes neither the Output nor any pulse handed out before. An Output made without saves is a TypeError. *)
Theorem C53_nothing_saved : forall (strf : R -> string) (q : dfg) (nc : R) (ap : list C) (w : rworld),
  nth_error (q_np q) (q_centre q) = Some nc -> nc <> 0 -> holds (q_pump q) ap ->
  (forall km, o_kmax (rw_out w) = Some km -> o_count (rw_out w) = 0%nat -> process_stepper_output strf q w = (Raise ValueError, w)) /\
  (o_kmax (rw_out w) = None -> process_stepper_output strf q w = (Raise TypeError, w)).
Proof. exact C53_nothing_saved_l. Qed.
Print Assumptions C53_nothing_saved.

(** C53: an Output that saved real numbers is refused with a TypeError before anything is written, because the phases are complex. *)
Theorem C53_real_saves : forall (strf : R -> string) (q : dfg) (nc : R) (w : rworld) (km : nat),
  nth_error (q_np q) (q_centre q) = Some nc -> nc <> 0 -> o_kmax (rw_out w) = Some km -> o_dtype (rw_out w) = Float64 -> (0 < o_count (rw_out w))%nat ->
  process_stepper_output strf q w = (Raise TypeError, w).
Proof. exact C53_real_saves_l. Qed.
Print Assumptions C53_real_saves.

(** C53: the interface made from a solver output with that many saves has exactly that many results: asking any of the three fields for a later one is an IndexError that changes nothing, though the solver's own arrays are usually longer. *)
Theorem C53_past_the_saves : forall (strf : R -> string) (q : dfg) (w w1 : rworld) (f : iface) (k : nat),
  process_stepper_output strf q w = (Ok f, w1) -> (o_count (rw_out w) <= k)%nat ->
  get_pump f k w1 = (Raise IndexError, w1) /\ get_sgnl f k w1 = (Raise IndexError, w1) /\ get_idlr f k w1 = (Raise IndexError, w1).
Proof. exact C53_past_the_saves_l. Qed.
Print Assumptions C53_past_the_saves.

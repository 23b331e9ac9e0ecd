(** Post-processing a solver output into which nothing was saved (C53). *)
From Coq Require Import String.
From Coq Require Import Reals List ZArith Bool Arith Lia Lra.
From Coquelicot Require Import Coquelicot.
From Verif Require Import Base CNum NumPy FFTProofs ModelPulse Spec PulseProofs PulseHistory PulseOpsProofs PulseRegridProofs ModelCrystal CrystalProofs ModelBeam BeamProofs FiberShareProofs ModelODE ODEOutputProofs ModelDFG DFGMixProofs DFGProofs DFGInitProofs DFGOutProofs.
Import ListNotations.
Local Open Scope R_scope.
Local Open Scope py_scope.

(*! C53: process_stepper_output given an Output that was set up but holds no saved point raises ValueError (the maximum over no values), real or complex; it changes neither the Output nor any pulse handed out before. An Output made without saves is a TypeError. *)
Lemma C53_nothing_saved_l : forall (strf : R -> string) (q : dfg) (nc : R) (ap : list C) (w : rworld),
  nth_error (q_np q) (q_centre q) = Some nc -> nc <> 0 -> holds (q_pump q) ap ->
  (forall km, o_kmax (rw_out w) = Some km -> o_count (rw_out w) = 0%nat -> process_stepper_output strf q w = (Raise ValueError, w)) /\
  (o_kmax (rw_out w) = None -> process_stepper_output strf q w = (Raise TypeError, w)).
Proof.
  intros strf q nc ap w Enc Hnc Hh. pose proof (clone_new_run (q_pump q) ap Hh) as Cl. split.
  - intros km Ek Ct. unfold process_stepper_output. unfold bind at 1, get at 1. rewrite Ek. unfold bind at 1, ret at 1. unfold bind at 1. rewrite Enc. unfold lift at 1. unfold bind at 1. rewrite fdiv_ok by exact Hnc. unfold lift at 1. cbv zeta. rewrite Ct. cbn [Nat.eqb].
    unfold bind at 1. replace ((match o_dtype (rw_out w) with Float64 => ret tt | Complex128 => ret tt end) w) with (Ok tt, w) by (destruct (o_dtype (rw_out w)); reflexivity).
    unfold bind at 1. unfold on_out. cbn [phase_rows]. unfold ret at 1. unfold bind at 1. unfold rd. rewrite Cl. cbn [fst orb]. destruct w. reflexivity.
  - intros Ek. unfold process_stepper_output. unfold bind at 1, get at 1. rewrite Ek. reflexivity.
Qed.

(*! C53: an Output that saved real numbers is refused with a TypeError before anything is written, because the phases are complex. *)
Lemma C53_real_saves_l : forall (strf : R -> string) (q : dfg) (nc : R) (w : rworld) (km : nat),
  nth_error (q_np q) (q_centre q) = Some nc -> nc <> 0 -> o_kmax (rw_out w) = Some km -> o_dtype (rw_out w) = Float64 -> (0 < o_count (rw_out w))%nat ->
  process_stepper_output strf q w = (Raise TypeError, w).
Proof.
  intros strf q nc w km Enc Hnc Ek Dt Ct. unfold process_stepper_output. unfold bind at 1, get at 1. rewrite Ek. unfold bind at 1, ret at 1. unfold bind at 1. rewrite Enc. unfold lift at 1. unfold bind at 1. rewrite fdiv_ok by exact Hnc. unfold lift at 1. cbv zeta. rewrite Dt.
  destruct (Nat.eqb_spec (o_count (rw_out w)) 0); [lia|]. reflexivity.
Qed.

(*! C53: the interface made from a solver output with that many saves has exactly that many results: asking any of the three fields for a later one is an IndexError that changes nothing, though the solver's own arrays are usually longer. *)
Lemma C53_past_the_saves_l : forall (strf : R -> string) (q : dfg) (w w1 : rworld) (f : iface) (k : nat),
  process_stepper_output strf q w = (Ok f, w1) -> (o_count (rw_out w) <= k)%nat ->
  get_pump f k w1 = (Raise IndexError, w1) /\ get_sgnl f k w1 = (Raise IndexError, w1) /\ get_idlr f k w1 = (Raise IndexError, w1).
Proof.
  intros strf q w w1 f k H Hk.
  assert (S : i_saves f = o_count (rw_out w)).
  { assert (B : forall A (m : M rworld A) (h : A -> M rworld iface), (forall a v, h a v = (Ok f, w1) -> i_saves f = o_count (rw_out w)) -> forall v, bind m h v = (Ok f, w1) -> i_saves f = o_count (rw_out w)).
    { intros A m h Hh v. unfold bind. destruct (m v) as [[a|e] v']; [apply Hh|discriminate]. }
    revert H. unfold process_stepper_output. unfold bind at 1, get at 1. cbv zeta. generalize w at 7. do 8 (apply B; intros ?). intros v E. unfold ret in E. apply (f_equal fst), Ok_inj in E. cbn [fst] in E. rewrite <- E. reflexivity. }
  unfold get_pump, get_sgnl, get_idlr, get_field, bind, get. rewrite S. destruct (Nat.ltb_spec k (o_count (rw_out w))); [lia|]. repeat split; reflexivity.
Qed.

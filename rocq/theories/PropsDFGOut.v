(** Property theorems proved in DFGOutProofs.v (generated by tools/gen_props.py). *)
From Coq Require Import String.
From Coq Require Import Reals List ZArith Bool Arith Lia Lra.
From Coquelicot Require Import Coquelicot.
From Verif Require Import Base CNum NumPy FFTProofs ModelPulse Spec PulseProofs PulseHistory PulseRegridProofs ModelCrystal CrystalProofs ModelBeam BeamProofs FiberShareProofs ModelODE ODEOutputProofs ModelDFG DFGMixProofs DFGProofs DFGInitProofs DFGOutProofs.
Import ListNotations.
Local Open Scope R_scope.
Local Open Scope py_scope.
Local Notation z0 := (RtoC 0).
Local Notation at0 x i := (nth i x z0).

(** C53 (partial): process_stepper_output on a freshly solved problem, then any sequence of reads, then a read of the pump, signal or idler at save k: the pulse returned is a new object that holds save k of that field with the crystal's dispersion put back, at that field's centre frequency and on the pump's time window; other pulses and the saved data are not changed by reads. Missing: a second call of process_stepper_output and pulses kept from earlier reads, refuted below. *)
Theorem C53_read_after_processing_partial : forall strf q n nc ap w saves (l : list (which * nat)) (x : which) (k : nat),
  sized strf q n -> saved (rw_out w) n saves -> nth_error (q_np q) (q_centre q) = Some nc -> nc <> 0 -> holds (q_pump q) ap ->
  p_f (q_pump q) <> 0 -> p_f (q_sgnl q) <> 0 -> p_f (q_idlr q) <> 0 ->
  (forall x' k', In (x', k') l -> (k' < saves)%nat) -> (k < saves)%nat ->
  exists f w1 w2 w3 i p a,
    process_stepper_output strf q w = (Ok f, w1) /\ reads l f w1 = (Ok tt, w2) /\ getter x f k w2 = (Ok i, w3) /\
    nth_error (rw_pulses w) i = None /\ nth_error (rw_pulses w3) i = Some p /\ holds p a /\
    p_n p = n /\ p_f p = p_f (source x q) /\ p_tw p = p_tw (q_pump q) /\
    (forall m, (m < n)%nat -> nth m a (RtoC 0) = (nth (slot x n + m) (nth k (o_ysave (rw_out w)) []) (RtoC 0) * dispersion q (c_mks / nc) (nth k (o_xsave (rw_out w)) 0%R) (slot x n + m))%C) /\
    rw_out w3 = rw_out w1 /\ (forall j, (j < length (rw_pulses w))%nat -> nth_error (rw_pulses w3) j = nth_error (rw_pulses w) j).
Proof. exact C53_read_after_processing_partial_l. Qed.
Print Assumptions C53_read_after_processing_partial.

(** C53 refuted (reads): two reads return the same object, so the pulse obtained first holds the second field (and wavelength) afterwards. Wherever the two fields differ, the pulse obtained from the first read has changed. *)
Theorem C53_reads_share_refuted : forall q n saves f w (x x' : which) (k k' : nat),
  iface_ok q n saves f w -> (k < saves)%nat -> (k' < saves)%nat -> p_f (source x q) <> 0 -> p_f (source x' q) <> 0 ->
  exists i w1 w2 p1 p2 a1 a2,
    getter x f k w = (Ok i, w1) /\ getter x' f k' w1 = (Ok i, w2) /\
    nth_error (rw_pulses w1) i = Some p1 /\ holds p1 a1 /\ p_f p1 = p_f (source x q) /\
    nth_error (rw_pulses w2) i = Some p2 /\ holds p2 a2 /\ p_f p2 = p_f (source x' q) /\
    (forall m, (m < n)%nat -> nth m a1 (RtoC 0) = nth (slot x n + m) (nth k (o_ysave (rw_out w)) []) (RtoC 0) /\ nth m a2 (RtoC 0) = nth (slot x' n + m) (nth k' (o_ysave (rw_out w)) []) (RtoC 0)).
Proof. exact C53_reads_share_refuted_l. Qed.
Print Assumptions C53_reads_share_refuted.

(** C53 refuted (processing twice): the phases are multiplied into the solver's own arrays, so a second call multiplies them again. For every solver output, what the first interface showed and what the solver output holds after the second call differ by the dispersion factor at every element; where that factor is not 1 and the field is not 0 the results differ. *)
Theorem C53_processing_twice_refuted : forall strf q n nc ap w saves,
  sized strf q n -> saved (rw_out w) n saves -> nth_error (q_np q) (q_centre q) = Some nc -> nc <> 0 -> holds (q_pump q) ap -> p_f (q_pump q) <> 0 ->
  exists f1 w1 f2 w2,
    process_stepper_output strf q w = (Ok f1, w1) /\ process_stepper_output strf q w1 = (Ok f2, w2) /\
    forall k m, (k < saves)%nat -> (m < 3 * n)%nat ->
      let v1 := nth m (nth k (o_ysave (rw_out w1)) []) (RtoC 0) in let v2 := nth m (nth k (o_ysave (rw_out w2)) []) (RtoC 0) in
      let phi := dispersion q (c_mks / nc) (nth k (o_xsave (rw_out w)) 0%R) m in
      v2 = (v1 * phi)%C /\ (nth m (nth k (o_ysave (rw_out w)) []) (RtoC 0) <> RtoC 0 -> phi <> RtoC 1 -> v2 <> v1).
Proof. exact C53_processing_twice_refuted_l. Qed.
Print Assumptions C53_processing_twice_refuted.

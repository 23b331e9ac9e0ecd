(** Property theorems proved in SSFMRaiseProofs.v (generated by tools/gen_props.py). *)
From Coq Require Import Reals List ZArith Bool Arith Lia Lra.
From Coquelicot Require Import Complex.
From Verif Require Import Base CNum NumPy ModelFFT FFTProofs ModelPulse PulseProofs PulseOpsProofs PulseRegridProofs ModelSSFM SSFMLoopProofs SSFMProofs SSFMSymProofs SSFMPropProofs SSFMRaiseProofs.
Import ListNotations.
Local Open Scope R_scope.
Local Open Scope py_scope.

(** C133: for a live pulse and a fiber that answers, asking for no sections is an IndexError that leaves the pulse as it was, and no other number of sections is refused that way. *)
Theorem C133_no_sections : forall (c : cfg) (fuel : nat) (fb : fiber) (N : nat) (op : option R) (reload : bool) (s : ssfm) (p : pulse) (a : list C) (b : R -> list R) (g : list R) (Rw : list C) (F : R),
  holds p a -> (0 < p_n p)%nat -> p_f p <> 0 -> answers fb p op b g -> fst (calc_raman c (s_fR s) p) = Ok (Rw, F) -> 0 < fb_len fb -> 0 < s_dz s ->
  (fst (propagate c fuel fb N op reload s p) = Raise IndexError <-> N = 0%nat) /\ propagate c fuel fb 0 op reload s p = (Raise IndexError, p).
Proof. exact C133_no_sections_l. Qed.
Print Assumptions C133_no_sections.

(** C133: with the Raman response on, a Raman time of zero stops propagate with a ZeroDivisionError, whichever of the two built-in models is selected and however many sections were asked for; the pulse keeps its field and grid. With the response off the times are not looked at. *)
Theorem C133_zero_times : forall (c : cfg) (fuel : nat) (fb : fiber) (N : nat) (op : option R) (reload : bool) (s : ssfm) (p : pulse) (a : list C) (b : R -> list R) (g : list R),
  holds p a -> (0 < p_n p)%nat -> answers fb p op b g -> (0 < N)%nat -> c_tau1 c = 0 \/ c_tau2 c = 0 ->
  (c_noRaman c = false -> exists q, propagate c fuel fb N op reload s p = (Raise ZeroDivisionError, q) /\ like p q /\ get_AW q = (Ok a, q)) /\
  (c_noRaman c = true -> p_f p <> 0 -> 0 < fb_len fb -> 0 < s_dz s -> exists r q, propagate c fuel fb N op reload s p = (Ok r, q)).
Proof. exact C133_zero_times_l. Qed.
Print Assumptions C133_zero_times.

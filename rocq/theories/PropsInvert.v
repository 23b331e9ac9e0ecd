(** Property theorems proved in InvertProofs.v (generated by tools/gen_props.py). *)
From Coq Require Import Reals List String Lia Lra.
From Verif Require Import Base ModelCrystal ModelInvert CrystalProofs QpmProofs InvertProofs.
Local Open Scope R_scope.

(** C126: the objective that invert_dfg_qpm_to_signal_wl minimises is nonnegative, it is zero at a wavelength exactly when the wanted period (nonzero) closes the mixing process pump -> signal + idler with the default set point, and it has the same value at the signal and at the idler that belongs to it. *)
Theorem C126_objective : forall (n : R -> result R) (len : option R) (P period S v : R), inv_objective n len P period S = Ok v ->
  0 <= v /\ (v = 0 <-> period <> 0 /\ closes n len P S period) /\ exists I, / P = / S + / I /\ inv_objective n len P period I = Ok v.
Proof. exact C126_objective_l. Qed.
Print Assumptions C126_objective.

(** C126: if the minimiser is exact and some signal wavelength between 1.001 times the pump and max_signal_wl_nm has the wanted period, the wavelength invert_dfg_qpm_to_signal_wl returns lies in that range and is quasi-phase-matched by the period; with max_signal_wl_nm below 1.001 times the pump it raises. *)
Theorem C126_inverts : forall (minimize : (R -> result R) -> R -> R -> R) (n : R -> result R) (len : option R) (P period S max_signal : R) (w : option R),
  let f := inv_objective n len P period in
  (P * 1.001 <= S <= max_signal -> poling_period n len (Some P) (Some S) None 3.2 = Ok (period, w) -> exact_min f (P * 1.001) max_signal (minimize f (P * 1.001) max_signal) ->
     exists r, invert_dfg minimize n len P period max_signal = Ok r /\ P * 1.001 <= r <= max_signal /\ closes n len P r period /\ exists w', poling_period n len (Some P) (Some r) None 3.2 = Ok (period, w')) /\
  (max_signal < P * 1.001 -> invert_dfg minimize n len P period max_signal = Raise ValueError).
Proof. exact C126_inverts_l. Qed.
Print Assumptions C126_inverts.

(** C126: but the answer need not be the signal asked for, even with an exact minimiser: in PPLN at any temperature from 20 to 250 C, with either index data, pumped at 800 nm, the period calculated for a signal at 1500 nm is matched exactly at its idler at 12000/7 = 1714 nm as well, both below the default limit of 2000 nm, and an exact minimiser may return either. *)
Theorem C126_signal_refuted : forall (x : ppln) (T : R), 20 <= T <= 250 -> exists period w1 w2, let n := ppln_n (set_T T x) in
  poling_period n None (Some 800) (Some 1500) None 3.2 = Ok (period, w1) /\ poling_period n None (Some 800) (Some (12000 / 7)) None 3.2 = Ok (period, w2) /\ 0 < period /\
  exact_min (inv_objective n None 800 period) (800 * 1.001) 2000 1500 /\ exact_min (inv_objective n None 800 period) (800 * 1.001) 2000 (12000 / 7) /\ 12000 / 7 <> 1500.
Proof. exact C126_signal_refuted_l. Qed.
Print Assumptions C126_signal_refuted.

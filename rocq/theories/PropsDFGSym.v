(** Property theorems proved in DFGSymProofs.v (generated by tools/gen_props.py). *)
From Coq Require Import String.
From Coq Require Import Reals List ZArith Bool Arith Lia Lra.
From Coquelicot Require Import Coquelicot.
From Verif Require Import Base CNum NumPy FFTProofs ModelPulse ModelCrystal ModelBeam ModelODE ModelDFG DFGMixProofs DFGProofs DFGSymProofs.
Import ListNotations.
Local Open Scope R_scope.
Local Open Scope py_scope.
Local Notation z0 := (RtoC 0).
Local Notation at0 x i := (nth i x z0).

(** C69: in every mode (bulk or waveguide, any crystal, poling and Gouy setting), scaling the pump, signal and idler by complex numbers alpha, beta, gamma scales the three derivatives by beta*gamma, alpha*conj(gamma) and alpha*conj(beta). So common phases that satisfy the energy-conserving phase relation carry over, the right-hand side is homogeneous of degree two, and with two of the fields zero nothing happens. *)
Theorem C69_scaling : forall strf q z y y' dydx dydx' s d d' s1 s2 n (al be ga : C),
  q_n q = n -> (2 <= n)%nat -> Nat.Even n -> fc_ok n (ds_fc s) -> length y = (3 * n)%nat -> length y' = (3 * n)%nat -> length dydx = (3 * n)%nat -> length dydx' = (3 * n)%nat ->
  deriv strf q z y dydx s = (Ok d, s1) -> deriv strf q z y' dydx' s = (Ok d', s2) ->
  (forall m, (m < n)%nat -> nth m (Ap q y') (RtoC 0) = (al * nth m (Ap q y) (RtoC 0))%C /\ nth m (As q y') (RtoC 0) = (be * nth m (As q y) (RtoC 0))%C /\ nth m (Ai q y') (RtoC 0) = (ga * nth m (Ai q y) (RtoC 0))%C) ->
  forall m, (m < n)%nat -> nth m (Ap q d') (RtoC 0) = (be * ga * nth m (Ap q d) (RtoC 0))%C /\ nth m (As q d') (RtoC 0) = (al * Cconj ga * nth m (As q d) (RtoC 0))%C /\ nth m (Ai q d') (RtoC 0) = (al * Cconj be * nth m (Ai q d) (RtoC 0))%C.
Proof. exact C69_scaling_l. Qed.
Print Assumptions C69_scaling.

(** C69: delaying the three pulses by the same time (a phase tau per grid point about the centre) and rotating pump and signal phases by phi_p and phi_s and the idler's by phi_p - phi_s delays and rotates the derivatives in the same way. *)
Theorem C69_shift : forall strf q z y y' dydx dydx' s d d' s1 s2 n (tau fp fs : R),
  q_n q = n -> (2 <= n)%nat -> Nat.Even n -> fc_ok n (ds_fc s) -> length y = (3 * n)%nat -> length y' = (3 * n)%nat -> length dydx = (3 * n)%nat -> length dydx' = (3 * n)%nat ->
  deriv strf q z y dydx s = (Ok d, s1) -> deriv strf q z y' dydx' s = (Ok d', s2) ->
  let rot := fun (f : R) (m : nat) => cis (f + tau * (INR m - INR n / 2)) in
  (forall m, (m < n)%nat -> nth m (Ap q y') (RtoC 0) = (rot fp m * nth m (Ap q y) (RtoC 0))%C /\ nth m (As q y') (RtoC 0) = (rot fs m * nth m (As q y) (RtoC 0))%C /\ nth m (Ai q y') (RtoC 0) = (rot (fp - fs)%R m * nth m (Ai q y) (RtoC 0))%C) ->
  forall m, (m < n)%nat -> nth m (Ap q d') (RtoC 0) = (rot fp m * nth m (Ap q d) (RtoC 0))%C /\ nth m (As q d') (RtoC 0) = (rot fs m * nth m (As q d) (RtoC 0))%C /\ nth m (Ai q d') (RtoC 0) = (rot (fp - fs)%R m * nth m (Ai q d) (RtoC 0))%C.
Proof. exact C69_shift_l. Qed.
Print Assumptions C69_shift.

(** C70: with SPM enabled - the constructor's default - the right-hand side never returns; wherever it would have returned a derivative with SPM disabled it raises AttributeError (Pulse has no attribute w_hz). *)
Theorem C70_spm_default : forall strf q z y dydx s,
  (forall d, fst (deriv strf (with_noSPM false q) z y dydx s) <> Ok d) /\
  (forall d s', deriv strf (with_noSPM true q) z y dydx s = (Ok d, s') -> fst (deriv strf (with_noSPM false q) z y dydx s) = Raise AttributeError).
Proof. exact C70_spm_default_l. Qed.
Print Assumptions C70_spm_default.

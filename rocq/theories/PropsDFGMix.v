(** Property theorems proved in DFGMixProofs.v (generated by tools/gen_props.py). *)
From Coq Require Import String.
From Coq Require Import Reals List ZArith Bool Arith Lia Lra.
From Coquelicot Require Import Complex.
From Verif Require Import Base CNum NumPy FFTProofs ModelPulse ModelDerived ModelCrystal ModelBeam ModelODE ModelDFG DFGMixProofs.
Import ListNotations.
Local Open Scope R_scope.
Local Open Scope py_scope.
Local Notation z0 := (RtoC 0).
Local Notation at0 x i := (nth i x z0).

(** C49: the convolution is the finite sum over index pairs that add up to the output index about the grid centre, for every size and whatever the buffers held *)
Theorem C49_conv : forall n s r g, fc_ok n s -> (0 < n)%nat -> length r = n -> length g = n ->
  exists out s', conv r g s = (Ok out, s') /\ fc_ok n s' /\ length out = n /\
    forall m, (m < n)%nat -> nth m out (RtoC 0) = csum n (fun a => csum n (fun b => if Nat.eqb (a + b) (m + Nat.div2 n) then (nth a r (RtoC 0) * nth b g (RtoC 0))%C else RtoC 0)).
Proof. exact C49_conv_l. Qed.
Print Assumptions C49_conv.

(** C49: on an even grid the correlation is the finite sum over index pairs whose difference is the output index, both counted from the grid centre *)
Theorem C49_corr : forall n s d1 d2, fc_ok n s -> (0 < n)%nat -> Nat.Even n -> length d1 = n -> length d2 = n ->
  exists out s', corr d1 d2 s = (Ok out, s') /\ fc_ok n s' /\ length out = n /\
    forall m, (m < n)%nat -> nth m out (RtoC 0) = csum n (fun a => csum n (fun b => if Nat.eqb (a + n / 2) (b + m) then (nth a d1 (RtoC 0) * Cconj (nth b d2 (RtoC 0)))%C else RtoC 0)).
Proof. exact C49_corr_l. Qed.
Print Assumptions C49_corr.

(** C49: on an odd grid the correlation lands one point too high *)
Theorem C49_corr_odd : forall n s d1 d2, fc_ok n s -> Nat.Odd n -> length d1 = n -> length d2 = n ->
  exists out s', corr d1 d2 s = (Ok out, s') /\ fc_ok n s' /\ length out = n /\
    forall m, (m < n)%nat -> nth m out (RtoC 0) = csum n (fun a => csum n (fun b => if Nat.eqb (a + n / 2 + 1) (b + m) then (nth a d1 (RtoC 0) * Cconj (nth b d2 (RtoC 0)))%C else RtoC 0)).
Proof. exact C49_corr_odd_l. Qed.
Print Assumptions C49_corr_odd.

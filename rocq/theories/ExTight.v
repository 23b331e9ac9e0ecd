(** Concrete cases for TightProofs.v. *)
From Coq Require Import String.
From Coq Require Import Reals List ZArith Bool Arith Lia Lra.
From Coquelicot Require Import Complex.
From Verif Require Import Base CNum NumPy ModelFFT FFTProofs ModelPulse ModelPulseOps PulseProofs PulseOpsProofs TightProofs PropsTight.
Import ListNotations.
Local Open Scope R_scope.

(** four bins 1 THz apart, centred at c_nmps/1000: moving to 1/2 THz above leaves the field, 3/2 THz above moves it by two bins *)
Definition tie_p : pulse := mkPulse 4 (c_nmps / 1000) 1 (Some [RtoC 1; RtoC 2; RtoC 3; RtoC 4]) None true None None None None.
Lemma tie_holds : holds tie_p [RtoC 1; RtoC 2; RtoC 3; RtoC 4].
Proof. repeat split. Qed.
Lemma tie_wl x : 0 < c_nmps / 1000 + x -> c_nmps / (c_nmps / (c_nmps / 1000 + x)) = c_nmps / 1000 + x.
Proof. intros H. assert (0 < c_nmps) by (unfold c_nmps, c_mks; lra). field. split; lra. Qed.
Example ex_C16_tie : exists p0 p1, rotate_spectrum_to_new_center_wl (c_nmps / (c_nmps / 1000 + 1 / 2)) tie_p = (Ok tt, p0) /\ rotate_spectrum_to_new_center_wl (c_nmps / (c_nmps / 1000 + 3 / 2)) tie_p = (Ok tt, p1) /\
  (exists b, get_AW p0 = (Ok b, p0) /\ nth 0 b (RtoC 0) = RtoC 1) /\ (exists b, get_AW p1 = (Ok b, p1) /\ nth 2 b (RtoC 0) = RtoC 1).
Proof.
  assert (HC : 0 < c_nmps) by (unfold c_nmps, c_mks; lra).
  destruct (C16_tie tie_p _ (c_nmps / (c_nmps / 1000 + 1 / 2)) 0 tie_holds ltac:(cbn; lia) ltac:(cbn; lra)) as (p0 & b0 & r0 & E0 & G0 & V0 & R0 & N0); [rewrite tie_wl by lra; cbn [tie_p p_f p_tw]; lra|].
  destruct (C16_tie tie_p _ (c_nmps / (c_nmps / 1000 + 3 / 2)) 1 tie_holds ltac:(cbn; lia) ltac:(cbn; lra)) as (p1 & b1 & r1 & E1 & G1 & V1 & R1 & N1); [rewrite tie_wl by lra; cbn [tie_p p_f p_tw]; lra|].
  exists p0, p1. split; [exact E0|]. split; [exact E1|]. split; [exists b0|exists b1]; (split; [assumption|]).
  - destruct R0 as [->| ->]; [|discriminate V0]. exact (N0 0%nat ltac:(cbn; lia)).
  - destruct R1 as [->| ->]; [discriminate V1|]. exact (N1 0%nat ltac:(cbn; lia)).
Qed.

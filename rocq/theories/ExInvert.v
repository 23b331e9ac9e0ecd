(** Concrete cases for C126. *)
From Coq Require Import Reals List String Lia Lra.
From Verif Require Import Base ModelCrystal ModelInvert CrystalProofs InvertProofs.
From Verif Require Import PropsCrystal PropsInvert.
Local Open Scope R_scope.

(** index 1 + 1000 / wl, pump 1000 nm, signal 1500 nm, idler 3000 nm *)
Definition iv_n (wl : R) : result R := Ok (1 + 1000 / wl).
Lemma iv_period : exists q, poling_period iv_n None (Some 1000) (Some 1500) None 3.2 = Ok (q, Some 3000) /\ 2 * PI / q = 2 * PI * (4 / 9) * 1000000.
Proof.
  pose proof PI_RGT_0 as Hpi. destruct (C60_poling_period iv_n None (Some 1000) (Some 1500) None 3.2 1000 1500 3000 2 (5 / 3) (4 / 3) (Some 3000) ltac:(lra) ltac:(lra) ltac:(lra) ltac:(discriminate)) as [A _].
  - right. split; [field|]. right. right. auto.
  - unfold iv_n. f_equal. field.
  - unfold iv_n. f_equal. field.
  - unfold iv_n. f_equal. field.
  - cbv zeta in A. assert (E : 2 * PI * 2 / (1000 * 1e-9) - 2 * PI * (5 / 3) / (1500 * 1e-9) - 2 * PI * (4 / 3) / (3000 * 1e-9) = 2 * PI * (4 / 9) * 1000000) by lra. rewrite E in A. destruct A as (q & F & _ & M); [nra|]. exists q. split; [exact F|lra].
Qed.
Example ex_C126_objective : exists q, inv_objective iv_n None 1000 q 1500 = Ok 0 /\ inv_objective iv_n None 1000 q 3000 = Ok 0 /\ closes iv_n None 1000 1500 q.
Proof.
  destruct iv_period as (q & E & _). exists q. assert (E0 : inv_objective iv_n None 1000 q 1500 = Ok 0) by (unfold inv_objective; rewrite E; cbn [rbind fst]; f_equal; ring). split; [exact E0|].
  destruct (C126_objective iv_n None 1000 q 1500 0 E0) as (_ & Z & I & T & EI). split; [|apply Z; reflexivity]. replace 3000 with I; [exact EI|]. assert (T2 : / I = / 3000) by lra. rewrite <- (Rinv_inv I), T2. apply Rinv_inv.
Qed.
(** a minimiser that returns 3000 nm is exact here: the call returns the idler, which the period matches as well *)
Example ex_C126_inverts : exists q r, invert_dfg (fun _ _ _ => 3000) iv_n None 1000 q 4000 = Ok r /\ r = 3000 /\ closes iv_n None 1000 r q.
Proof.
  destruct ex_C126_objective as (q & E1 & E2 & _). destruct iv_period as (q' & E & _). exists q'.
  assert (E0 : inv_objective iv_n None 1000 q' 1500 = Ok 0) by (unfold inv_objective; rewrite E; cbn [rbind fst]; f_equal; ring). destruct (C126_objective iv_n None 1000 q' 1500 0 E0) as (_ & _ & I & T & EI). assert (I = 3000) as ->. { assert (T2 : / I = / 3000) by lra. rewrite <- (Rinv_inv I), T2. apply Rinv_inv. }
  destruct (C126_inverts (fun _ _ _ => 3000) iv_n None 1000 q' 1500 4000 (Some 3000)) as [A _]. destruct (A ltac:(lra) E) as (r & R1 & _ & R2 & _).
  - split; [lra|]. exists 0. split; [exact EI|]. intros y v _ Hy. apply (C126_objective _ _ _ _ _ _ Hy).
  - exists r. split; [exact R1|]. split; [|exact R2]. unfold invert_dfg in R1. destruct (Rlt_dec 4000 (1000 * 1.001)); [lra|]. now injection R1.
Qed.
Example ex_C126_bounds : invert_dfg (fun _ _ _ => 3000) iv_n None 1999 1 2000 = Raise ValueError.
Proof. apply (C126_inverts (fun _ _ _ => 3000) iv_n None 1999 1 0 2000 None). lra. Qed.
Example ex_C126_refuted : exists period w1 w2, let n := ppln_n (set_T 25 (mkPpln 0 0 0 Gayer)) in
  poling_period n None (Some 800) (Some 1500) None 3.2 = Ok (period, w1) /\ poling_period n None (Some 800) (Some (12000 / 7)) None 3.2 = Ok (period, w2).
Proof. destruct (C126_signal_refuted (mkPpln 0 0 0 Gayer) 25 ltac:(lra)) as (p & w1 & w2 & H). exists p, w1, w2. split; apply H. Qed.

(** Concrete cases for C124. *)
From Coq Require Import String.
From Coq Require Import Reals List Arith Lia Lra.
From Coquelicot Require Import Coquelicot.
From Verif Require Import Base CNum NumPy FFTProofs ModelPulse Spec PulseProofs ModelCrystal ModelBeam SSFMGnlseProofs ModelODE MixingProofs ModelDFG DFGMixProofs DFGProofs DFGInitProofs DFGOutProofs DFGTotalProofs DFGAcceptProofs DFGRunProofs DFGFlowProofs PropsDFGFlow ExDFG.
Import ListNotations.
Local Open Scope R_scope.
Local Open Scope py_scope.

Lemma ex_wg strf : waveguide_inputs strf pu sg (xd "simple") 100 2.
Proof.
  destruct (cur_pu strf) as [A B]. destruct (cur_sg strf) as [C D]. unfold waveguide_inputs.
  split; [exists [RtoC 2; Ci]; repeat split; reflexivity|]. split; [exists [RtoC 1; RtoC 1]; repeat split; reflexivity|]. split; [reflexivity|]. split; [reflexivity|]. split; [lia|]. split; [exists 1%nat; reflexivity|]. split; [cbn; lra|]. split; [reflexivity|].
  do 4 (split; [assumption|]). split; [exact ex_ranges|]. split; [exact ex_order|]. split; [apply xd_pos|]. split; [reflexivity|]. split; [exists 3; reflexivity|]. split; [lra|reflexivity].
Qed.
(** at the entrance the pump's first element grows out of signal 0 times idler 1 and signal 1 times idler 0, whatever the pulses *)
Example ex_C124_equations : forall strf rand k0, exists q, dfg_init strf 3 rand pu sg (xd "simple") true 1 false true (Some 100) k0 = (Ok (q, fftc_init 2), k0) /\ forall a b c d e f s, fc_ok 2 (ds_fc s) ->
  exists r s', deriv strf q 0 [a; b; c; d; e; f] (repeat (RtoC 0) 6) s = (Ok r, s') /\
    nth 0 r (RtoC 0) = (Ci * RtoC (strength q (100 * / 10 ^ 12) (dx_deff (xd "simple")) Pump 0) * (RtoC (amplitude q (100 * / 10 ^ 12) Sgnl 0 * amplitude q (100 * / 10 ^ 12) Idlr 1) * (c * f) + RtoC (amplitude q (100 * / 10 ^ 12) Sgnl 1 * amplitude q (100 * / 10 ^ 12) Idlr 0) * (d * e)))%C.
Proof.
  intros strf rand k0. destruct (C124_equations strf 3 rand pu sg (xd "simple") 1 false 100 k0 2 (ex_wg strf)) as (q & E & Qn & _ & _ & _ & _ & _ & D). exists q. split; [exact E|]. intros a b c d e f s Fc. destruct (D 0 [a; b; c; d; e; f] (repeat (RtoC 0) 6) s Fc eq_refl eq_refl) as (r & s' & Hd & _ & _ & V). exists r, s'. split; [exact Hd|].
  rewrite (V 0%nat ltac:(lia)). unfold three_wave, mixing, tw_coef, tw_left, tw_right. rewrite Qn. rewrite !csum_S, !csum_0. cbn [field_of Nat.ltb Nat.leb Nat.mul Nat.add Nat.div Nat.divmod Nat.eqb fst snd nth lin]. rewrite !Rmult_0_r. replace (cis 0) with (RtoC 1) by (unfold cis; rewrite cos_0, sin_0; reflexivity). unfold lin. cbn [fst snd nth]. rewrite !RtoC_mult. ring.
Qed.
Example ex_C124_solution : forall strf rand k0, exists q u, dfg_init strf 3 rand pu sg (xd "simple") true 1 false true (Some 100) k0 = (Ok (q, fftc_init 2), k0) /\ solves q (100 * / 10 ^ 12) (dx_deff (xd "simple")) (fun _ => True) u /\ nth 1 (u 0) (RtoC 0) = Ci.
Proof.
  intros strf rand k0. destruct (C124_solution strf 3 rand pu sg (xd "simple") 1 false 100 k0 2 (ex_wg strf)) as (q & u & E & U0 & _ & So & _). exists q, u. split; [exact E|]. split; [exact So|]. rewrite U0.
  destruct (C124_equations strf 3 rand pu sg (xd "simple") 1 false 100 k0 2 (ex_wg strf)) as (q' & E' & _ & Qp & _). rewrite E in E'. assert (q = q') by congruence. subst q'. unfold input_of, source. rewrite Qp. reflexivity.
Qed.
(** coefficient bounds exist, so the convergence bound is usable *)
Example ex_C124_converges : forall strf rand k0, exists q u G Th K hmax, dfg_init strf 3 rand pu sg (xd "simple") true 1 false true (Some 100) k0 = (Ok (q, fftc_init 2), k0) /\ solves q (100 * / 10 ^ 12) (dx_deff (xd "simple")) (fun _ => True) u /\ tw_bounds q (100 * / 10 ^ 12) (dx_deff (xd "simple")) G Th /\ 0 <= K /\ 0 < hmax.
Proof.
  intros strf rand k0. destruct (C124_converges strf 3 rand pu sg (xd "simple") 1 false 100 k0 2 (ex_wg strf)) as (q & u & E & _ & So & (G & Th & Bd) & R). destruct (R 3 1 G Th ltac:(lra) ltac:(lra) Bd) as (K & h & HK & Hh & _). exists q, u, G, Th, K, h. auto.
Qed.

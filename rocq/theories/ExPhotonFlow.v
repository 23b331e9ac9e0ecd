(** Concrete cases for C129 and for the runs of C124. *)
From Coq Require Import String.
From Coq Require Import Reals List Arith Lia Lra.
From Coquelicot Require Import Coquelicot.
From Verif Require Import Base CNum NumPy FFTProofs ModelPulse Spec PulseProofs ModelCrystal ModelBeam SSFMGnlseProofs ModelODE MixingProofs ModelDFG DFGMixProofs DFGProofs DFGInitProofs DFGOutProofs DFGTotalProofs DFGAcceptProofs DFGRunProofs DFGFlowProofs PropsDFGFlow PhotonFlowProofs PropsPhotonFlow ExDFG ExDFGFlow.
Import ListNotations.
Local Open Scope R_scope.
Local Open Scope py_scope.
Local Notation z0 := (RtoC 0).

Lemma amp_pos strf rand k0 q w m : dfg_init strf 3 rand pu sg (xd "simple") true 1 false true (Some 100) k0 = (Ok (q, fftc_init 2), k0) -> (m < 2)%nat -> 0 < amplitude q (100 * / 10 ^ 12) w m /\ 0 < index_at q w m.
Proof.
  intros E Hm. destruct (C124_equations strf 3 rand pu sg (xd "simple") 1 false 100 k0 2 (ex_wg strf)) as (q' & E' & _ & _ & _ & _ & _ & (_ & T & _) & _). rewrite E in E'. assert (q = q') by congruence. subst q'. destruct (T w m Hm) as [I _].
  split; [|exact I]. unfold amplitude. assert (0 < eps0) by (unfold eps0; lra). assert (0 < c_mks) by (unfold c_mks; lra). apply Rdiv_lt_0_compat; [lra|]. apply sqrt_lt_R0. assert (A : 0 < 100 * / 10 ^ 12) by (apply Rmult_lt_0_compat; [lra|apply Rinv_0_lt_compat, pow_lt; lra]). apply Rmult_lt_0_compat; [apply Rmult_lt_0_compat; [apply Rmult_lt_0_compat|]|]; assumption.
Qed.
(** the middle element of the idler is driven by pump 0 with signal 0 and pump 1 with signal 1: not zero, whatever the random idler *)
Lemma ex_driven strf rand k0 q : dfg_init strf 3 rand pu sg (xd "simple") true 1 false true (Some 100) k0 = (Ok (q, fftc_init 2), k0) ->
  three_wave q (100 * / 10 ^ 12) (dx_deff (xd "simple")) 0 (input_of Pump q ++ input_of Sgnl q ++ input_of Idlr q) 5 <> z0.
Proof.
  intros E. destruct (C124_equations strf 3 rand pu sg (xd "simple") 1 false 100 k0 2 (ex_wg strf)) as (q' & E' & Qn & Qp & Qs & _). rewrite E in E'. assert (q = q') by congruence. subst q'.
  destruct (C129_photon_balance strf 3 rand pu sg (xd "simple") 1 false 100 k0 2 (ex_wg strf)) as (q' & _ & E'' & _ & _ & W & _). rewrite E in E''. assert (q = q') by congruence. subst q'. pose proof (W Idlr 1%nat ltac:(lia)) as Wi.
  assert (Ip : input_of Pump q = [RtoC 2; Ci]) by (unfold input_of, source; rewrite Qp; reflexivity). assert (Is : input_of Sgnl q = [RtoC 1; RtoC 1]) by (unfold input_of, source; rewrite Qs; reflexivity). rewrite Ip, Is.
  unfold three_wave, mixing, tw_coef, tw_left, tw_right. rewrite Qn. rewrite !csum_S, !csum_0. cbn [field_of Nat.ltb Nat.leb Nat.mul Nat.add Nat.div Nat.divmod Nat.sub Nat.eqb fst snd nth lin app]. rewrite !Rmult_0_r. replace (cis 0) with (RtoC 1) by (unfold cis; rewrite cos_0, sin_0; reflexivity). unfold lin. cbn [fst snd nth].
  destruct (amp_pos strf rand k0 q Pump 0 E ltac:(lia)) as [A1 _]. destruct (amp_pos strf rand k0 q Sgnl 0 E ltac:(lia)) as [A2 _]. destruct (amp_pos strf rand k0 q Idlr 1 E ltac:(lia)) as [A3 I3].
  assert (S : 0 < strength q (100 * / 10 ^ 12) (dx_deff (xd "simple")) Idlr 1).
  { unfold strength, angular. assert (0 < c_mks) by (unfold c_mks; lra). change (dx_deff (xd "simple")) with 5. apply Rdiv_lt_0_compat; [|exact A3]. apply Rdiv_lt_0_compat; [|now apply Rmult_lt_0_compat]. apply Rmult_lt_0_compat; [|lra]. apply Rmult_lt_0_compat; [lra|]. apply Rmult_lt_0_compat; [exact Wi|lra]. }
  revert A1 A2 S. generalize (amplitude q (100 * / 10 ^ 12) Pump 0) (amplitude q (100 * / 10 ^ 12) Sgnl 0) (strength q (100 * / 10 ^ 12) (dx_deff (xd "simple")) Idlr 1) (amplitude q (100 * / 10 ^ 12) Pump 1) (amplitude q (100 * / 10 ^ 12) Sgnl 1).
  intros a1 a2 st a4 a5 A1 A2 S HH. apply (f_equal Im) in HH. cbn in HH. assert (0 < st * a1 * a2) by (apply Rmult_lt_0_compat; [apply Rmult_lt_0_compat|]; assumption). ring_simplify in HH. nra.
Qed.
(** the input holds pump photons, so the balance is not about empty fields *)
Example ex_C129_balance : forall strf rand k0, exists q u, dfg_init strf 3 rand pu sg (xd "simple") true 1 false true (Some 100) k0 = (Ok (q, fftc_init 2), k0) /\ solves q (100 * / 10 ^ 12) (dx_deff (xd "simple")) (fun _ => True) u /\
  0 < photons q Pump (u 0) /\ forall z, photons q Idlr (u z) <= photons q Idlr (u 0) + photons q Pump (u 0).
Proof.
  intros strf rand k0. destruct (C129_photon_balance strf 3 rand pu sg (xd "simple") 1 false 100 k0 2 (ex_wg strf)) as (q & u & E & U0 & So & W & F). exists q, u. split; [exact E|]. split; [exact So|]. split; [|intros z; apply F].
  destruct (C124_equations strf 3 rand pu sg (xd "simple") 1 false 100 k0 2 (ex_wg strf)) as (q' & E' & Qn & Qp & _). rewrite E in E'. assert (q = q') by congruence. subst q'.
  unfold photons. rewrite Qn, !rsum_S, rsum_0, U0. assert (Ip : input_of Pump q = [RtoC 2; Ci]) by (unfold input_of, source; rewrite Qp; reflexivity). rewrite Ip. cbn [app nth].
  rewrite Cmod_R, Rabs_pos_eq by lra. pose proof (W Pump 0%nat ltac:(lia)) as W0. pose proof (W Pump 1%nat ltac:(lia)) as W1. assert (0 < 2 ^ 2 / omega (source Pump q) 0) by (apply Rdiv_lt_0_compat; [lra|exact W0]).
  assert (0 <= Cmod Ci ^ 2 / omega (source Pump q) 1) by (apply Rmult_le_pos; [apply pow2_ge_0|left; now apply Rinv_0_lt_compat]). lra.
Qed.
(** a run that meets every hypothesis of C124_converges and C129_run: a crystal so short that one step suffices *)
Example ex_C129_run : forall strf rand k0, exists q y0 K L g' E, dfg_init strf 3 rand pu sg (xd "simple") true 1 false true (Some 100) k0 = (Ok (q, fftc_init 2), k0) /\ y0 = input_of Pump q ++ input_of Sgnl q ++ input_of Idlr q /\ 0 <= K /\ 0 < L /\ 0 <= E <= 1 / 4 /\
  integrate (rhs_of strf q (repeat z0 6)) 1 (new_ode (mkDS k0 (fftc_init 2)) new_ctrl (q_ystart q) 0 L (/ 10 ^ 3) (/ 10 ^ 3) L 0 (new_output (Some 5%nat)) false Complex128) = (Ok tt, g') /\ (e_nok (g_ode g') + e_nbad (g_ode g'))%nat = 1%nat /\
  let row := nth 1 (o_ysave (g_out g')) [] in let B := sqrt (rsum 6 (fun j => Cmod (nth j y0 z0) ^ 2)) in
  Rabs (rsum 6 (fun j => Cmod (nth j row z0) ^ 2) - B ^ 2) <= E * (2 * B + E) * 6.
Proof.
  intros strf rand k0. destruct (C129_run strf 3 rand pu sg (xd "simple") 1 false 100 k0 2 (ex_wg strf)) as (q & y0 & E & Y0 & R). destruct (C124_short_crystals strf 3 rand pu sg (xd "simple") 1 false 100 k0 2 (ex_wg strf)) as (q' & E' & Sh). rewrite E in E'. assert (q = q') by congruence. subst q'.
  destruct (tw_bounds_exist q (100 * / 10 ^ 12) (dx_deff (xd "simple"))) as (G & Th & Bd). pose proof Bd as (G0 & T1 & _). destruct (R 1 1 G Th ltac:(lra) ltac:(lra) Bd) as (K & hm & HK & Hh & Rn).
  destruct (Sh 5%nat (/ 10 ^ 3) ltac:(lia) (ex_driven strf rand k0 q E) ltac:(apply Rinv_0_lt_compat, pow_lt; lra)) as (h0 & Hh0 & Ru).
  set (B := sqrt (rsum 6 (fun j => Cmod (nth j y0 z0) ^ 2))). assert (B0 : 0 <= B) by apply sqrt_pos.
  set (X := exp (52 * G * (B + 1) * 1) * (K + / 10 ^ 26 * (1 + G * (Th ^ 7 * (B + 7) * (B + 7))))).
  assert (P7 : 0 <= G * (Th ^ 7 * (B + 7) * (B + 7))) by (apply Rmult_le_pos; [exact G0|]; apply Rmult_le_pos; [apply Rmult_le_pos; [apply pow_le|]|]; lra).
  assert (I26 : 0 < / 10 ^ 26) by (apply Rinv_0_lt_compat, pow_lt; lra). assert (Q0 : 0 <= / 10 ^ 26 * (1 + G * (Th ^ 7 * (B + 7) * (B + 7)))) by (apply Rmult_le_pos; lra). set (Qe := / 10 ^ 26 * (1 + G * (Th ^ 7 * (B + 7) * (B + 7)))) in *.
  assert (X0 : 0 <= X) by (apply Rmult_le_pos; [left; apply exp_pos|lra]).
  set (L := Rmin 1 (Rmin hm (Rmin h0 (/ (4 * (X + 1)))))). assert (L1 : L <= 1) by apply Rmin_l. assert (L2 : L <= hm) by (eapply Rle_trans; [apply Rmin_r|apply Rmin_l]). assert (L3 : L <= h0) by (eapply Rle_trans; [apply Rmin_r|]; eapply Rle_trans; [apply Rmin_r|apply Rmin_l]).
  assert (L4 : L <= / (4 * (X + 1))) by (eapply Rle_trans; [apply Rmin_r|]; eapply Rle_trans; [apply Rmin_r|apply Rmin_r]). assert (LP : 0 < L) by (unfold L; repeat apply Rmin_glb_lt; try lra; apply Rinv_0_lt_compat; lra).
  destruct (Ru (repeat z0 6) 0%nat new_ctrl L (/ 10 ^ 3) L 0 5%nat eq_refl ltac:(lra) ltac:(rewrite Rabs_pos_eq; lra) ltac:(left; apply Rinv_0_lt_compat, pow_lt; lra) ltac:(lra)) as (g' & I & N1 & N2 & X0' & X1').
  specialize (Rn (repeat z0 6) 1%nat new_ctrl L (/ 10 ^ 3) (/ 10 ^ 3) L 0 5%nat g' L eq_refl ltac:(lra) ltac:(lra) I). cbv zeta in Rn. rewrite N1, N2 in Rn. change (3 * 2)%nat with 6%nat in Rn. fold B in Rn. fold Qe in Rn. clearbody Qe.
  exists q, y0, K, L, g', (exp (52 * G * (B + 1) * L) * (L * (K * L ^ 8 + Qe))).
  assert (L8 : 0 <= L ^ 8 <= 1). { split; [apply pow_le; lra|]. rewrite <- (pow1 8). apply pow_incr. lra. }
  assert (Ex : exp (52 * G * (B + 1) * L) <= exp (52 * G * (B + 1) * 1)). { destruct (Rle_lt_or_eq_dec L 1 L1) as [Z|Z]; [|rewrite Z; lra]. assert (Y : 52 * G * (B + 1) * L <= 52 * G * (B + 1) * 1) by (apply Rmult_le_compat_l; [apply Rmult_le_pos; lra|lra]). destruct Y as [Y|Y]; [left; now apply exp_increasing|rewrite Y; lra]. }
  pose proof (exp_pos (52 * G * (B + 1) * L)) as Ep. assert (K8 : 0 <= K * L ^ 8 <= K) by (split; [apply Rmult_le_pos; lra|rewrite <- (Rmult_1_r K) at 2; apply Rmult_le_compat_l; lra]).
  assert (EE : 0 <= exp (52 * G * (B + 1) * L) * (L * (K * L ^ 8 + Qe)) <= 1 / 4).
  { split; [apply Rmult_le_pos; [lra|apply Rmult_le_pos; lra]|]. apply Rle_trans with (L * X).
    - unfold X. replace (L * (exp (52 * G * (B + 1) * 1) * (K + Qe))) with (exp (52 * G * (B + 1) * 1) * (L * (K + Qe))) by ring. apply Rmult_le_compat; [lra|apply Rmult_le_pos; lra|exact Ex|]. apply Rmult_le_compat_l; lra.
    - apply Rle_trans with (/ (4 * (X + 1)) * X); [apply Rmult_le_compat_r; lra|]. apply Rmult_le_reg_l with (4 * (X + 1)); [lra|]. rewrite <- Rmult_assoc, Rinv_r by lra. lra. }
  split; [exact E|]. split; [exact Y0|]. split; [exact HK|]. split; [exact LP|]. split; [exact EE|]. split; [exact I|]. split; [rewrite N1, N2; reflexivity|]. cbv zeta.
  destruct (Rn L2) with (k := 1%nat) as (_ & _ & F); [|lra|lia|].
  - intros k Hk. assert (k = 0%nat) as -> by lia. rewrite X0', X1'. rewrite Rminus_0_r, Rabs_pos_eq; lra.
  - replace (INR 6) with 6 in F by (cbn; ring). exact F.
Qed.

(** Concrete cases that meet the hypotheses of C100-C102. *)
From Coq Require Import Reals List ZArith Bool Arith Lia Lra.
From Coquelicot Require Import Coquelicot.
From Verif Require Import Base CNum NumPy ModelFFT FFTProofs ModelPulse PulseProofs ModelSSFM SSFMLoopProofs SSFMProofs SSFMSymProofs SSFMGnlseProofs RkOrderProofs.
From Verif Require Import PropsSSFMGnlse PropsRkOrder ExGnlse.
Import ListNotations.
Local Open Scope R_scope.
Local Notation z0 := (RtoC 0).

(** a continuous wave of unit amplitude in a dispersive medium with a delayed response, self-steepening on: it turns its phase at beta_0 + gamma = 3 + 1/2 *)
Definition xcw : ssfm := mkS [RtoC 1; RtoC 1] (1 / 100) 0 None 1 [z0; z0] [RtoC 3; RtoC 7] [z0; z0] (1 / 2) 5 [RtoC 0; RtoC (-1)] [RtoC 1; RtoC (1 / 2)] 0.
Lemma xcw_wf : wf 2 xcw. Proof. repeat split. Qed.
Lemma xcw_cok : cok xcw. Proof. left. reflexivity. Qed.
Definition ycw (z : R) : list C := line 2 (cis (7 / 2 * z)) 0.
Lemma line0 a : line 2 a 0 = [a; a].
Proof. unfold line, mk. cbn [seq map]. cbn [INR]. replace (- (2 * PI * 0 * 0 / (1 + 1))) with 0 by field. replace (- (2 * PI * 0 * 1 / (1 + 1))) with 0 by field. rewrite cis_0. f_equal; [ring|]. f_equal. ring. Qed.
Lemma tiny : / 10 ^ 15 < 1. Proof. apply Rlt_le_trans with (/ 1); [apply Rinv_lt_contravar|]; lra. Qed.
Lemma xcw_solution Z : gnlse_solution xsteep 2 xcw 1 Z ycw.
Proof.
  split; [intros; apply mk_length|]. intros z k _ Hk. unfold gnlse_rhs.
  assert (NL : nth k (nonlinear xsteep xcw (ycw z)) z0 = (Ci * RtoC (1 / 2))%C).
  { unfold ycw. pose proof (C74_single_line xsteep 2 xcw (cis (7 / 2 * z)) xv 0 k eq_refl eq_refl xcw_wf ltac:(lia) Hk eq_refl eq_refl) as H. rewrite cis_mod in H. specialize (H tiny). cbv zeta in H. unfold line. rewrite H.
    rewrite cis_norm2. cbn [s_gamma s_R s_w0 xcw nth xv Nat.eqb]. replace (1 / 2 * 1) with (1 / 2) by ring. replace (0 / 5) with 0 by field. ring. }
  rewrite NL. unfold ycw. unfold fft_t, ifft_t. cbn [c_pre xsteep]. rewrite ifft_line, vmul_bin, fft_bin by (try reflexivity; lia). cbn [map2 s_betas s_alpha xcw nth]. 
  assert (E : forall b, nth k (line 2 b 0) z0 = b) by (intros b; rewrite line0; destruct k as [|[|k]]; [reflexivity|reflexivity|lia]). rewrite !E.
  apply (cderive_ext (fun t => cis (7 / 2 * t))); [intros x; symmetry; apply E|].
  replace (RtoC 1 * ((Ci * RtoC 3 - z0 / RtoC 2) * cis (7 / 2 * z) + Ci * RtoC (1 / 2) * cis (7 / 2 * z)))%C with (- Ci * RtoC (- (7 / 2)) * (RtoC 1 * cis (- (- (7 / 2) * z))))%C.
  - apply (cderive_ext (fun t => RtoC 1 * cis (- (- (7 / 2) * t)))%C); [intros x; rewrite Cmult_1_l; f_equal; ring|]. apply cderive_line.
  - replace (- (- (7 / 2) * z)) with (7 / 2 * z) by ring. replace (RtoC 3) with (RtoC (7 / 2) - RtoC (1 / 2))%C by (rewrite <- RtoC_minus; f_equal; lra). rewrite RtoC_opp. field. intro F. apply RtoC_inj in F. lra.
Qed.
Lemma xcw_off : off_threshold xsteep 2 [RtoC 1; RtoC 1].
Proof. right. intros [|[|k]] Hk; try lia; cbn [nth]; rewrite Cmod_1; pose proof tiny; lra. Qed.
Lemma ycw0 : ycw 0 = [RtoC 1; RtoC 1]. Proof. unfold ycw. rewrite line0, Rmult_0_r, cis_0. reflexivity. Qed.
Example ex_C100 : exists K h0, 0 <= K /\ 0 < h0 /\ forall h, 0 < h <= h0 -> Cmod (nth 1 (fst (advance xsteep [RtoC 1; RtoC 1] h 1 xcw)) z0 - cis (7 / 2 * h))%C <= K * h ^ 5.
Proof.
  destruct (C100_rk4ip_order xsteep 2 xcw [RtoC 1; RtoC 1] 1 1 ycw eq_refl xcw_wf xcw_cok eq_refl xcw_off ltac:(lra) (xcw_solution 1) ycw0) as (K & h0 & PK & Ph & H). exists K, h0. split; [exact PK|]. split; [exact Ph|].
  intros h Hh. specialize (H h 1%nat Hh ltac:(lia)). unfold ycw in H. rewrite line0 in H. exact H.
Qed.
Example ex_C101 : exists K h0, 0 <= K /\ 0 < h0 /\ forall h, 0 < h <= h0 -> Cmod (nth 1 (s_A (snd (attempt xsteep 1 h xcw))) z0 - cis (7 / 2 * (2 * h)))%C <= K * h ^ 6.
Proof.
  destruct (C101_kept_step_order xsteep 2 xcw 1 1 ycw eq_refl eq_refl xcw_wf xcw_cok xcw_off ltac:(lra) (xcw_solution 1) ycw0) as (K & h0 & PK & Ph & H). exists K, h0. split; [exact PK|]. split; [exact Ph|].
  intros h Hh. specialize (H h 1%nat Hh ltac:(lia)). unfold ycw in H. rewrite line0 in H. exact H.
Qed.
Lemma xst_norm : norm2 [RtoC 1; Ci] <> 0.
Proof. unfold norm2, lrsum. cbn [map fold_right]. unfold Cnorm2. cbn. apply Rgt_not_eq, sqrt_lt_R0. lra. Qed.
Lemma xst_off : off_threshold xsteep 2 [RtoC 1; Ci].
Proof.
  right. intros [|[|k]] Hk; try lia; cbn [nth]; [rewrite Cmod_1; pose proof tiny; lra|]. replace (Cmod Ci) with 1; [pose proof tiny; lra|]. unfold Cmod, Ci. cbn [fst snd]. replace (0 ^ 2 + 1 ^ 2) with (1 ^ 2) by ring. symmetry. apply sqrt_pow2; lra.
Qed.
(** the modulated field (1, i) of the C74 example *)
Example ex_C102 : exists K h0, 0 <= K /\ 0 < h0 /\ forall h, 0 < h <= h0 -> exists d, fst (fst (attempt xsteep 1 h xst)) = Some d /\ 0 <= d <= K * h ^ 5.
Proof. exact (C102_estimate_order xsteep 2 xst 1 eq_refl xst_wf ltac:(left; reflexivity) xst_off xst_norm). Qed.
Example ex_C102_kept : exists h0, 0 < h0 /\ forall h, 0 < h <= h0 -> step_ctl xsteep h (fst (fst (attempt xsteep 1 h xst))) = (true, h * Rpower 2 (1 / INR 5)).
Proof. exact (C102_short_steps_kept xsteep 2 xst 1 eq_refl ltac:(cbn; lra) xst_wf ltac:(left; reflexivity) xst_off xst_norm). Qed.

(** Concrete cases that meet the hypotheses of C72-C75 and C88. *)
From Coq Require Import Reals List ZArith Bool Arith Lia Lra.
From Coquelicot Require Import Complex.
From Verif Require Import Base CNum NumPy ModelFFT FFTProofs ModelPulse PulseProofs ModelSSFM SSFMLoopProofs SSFMProofs SSFMSymProofs SSFMPropProofs SSFMTrivProofs SSFMGnlseProofs SSFMErrProofs.
From Verif Require Import PropsSSFMLoop PropsSSFM PropsSSFMProp PropsSSFMTriv PropsSSFMGnlse PropsSSFMErr ExSSFM.
Import ListNotations.
Local Open Scope R_scope.
Local Open Scope py_scope.
Local Notation z0 := (RtoC 0).

(** the nonlinear two-bin run with a delayed response, 7/m added to both propagation constants *)
Example ex_C72 : exists fuel r r', integrate_trace xc fuel 1 1 xr = Some r' /\
  integrate_trace xc fuel 1 1 (with_fiber [RtoC 1 + RtoC 7; RtoC 2 + RtoC 7]%C 3 xr) = Some r /\ s_A (l_st r) = vscale (cis (1 * 7 * lrsum (l_steps r'))) (s_A (l_st r')) /\ 1 <= lrsum (l_steps r').
Proof.
  destruct (C28_terminates_and_covers_partial xc 1 1 xr) as (fuel & r' & E & _ & H & _); [lra|cbn; lra|].
  pose proof (C72_gauge xc 2 fuel 1 1 7 xr eq_refl eq_refl xr_wf ltac:(lra) ltac:(cbn; lra)) as G. cbn [map s_betas s_gamma xr] in G. rewrite E in G.
  destruct (integrate_trace xc fuel 1 1 (with_fiber [RtoC 1 + RtoC 7; RtoC 2 + RtoC 7]%C 3 xr)) as [r|] eqn:E1; [|contradiction]. exists fuel, r, r'. split; [exact E|]. split; [exact E1|]. split; [apply G|exact H].
Qed.
(** no dispersion: two samples 1 and 2i, gamma = 1/2; phases 1/20 and 1/5 over a step of 0.1 *)
Definition xflat : ssfm := mkS [RtoC 1; (RtoC 2 * Ci)%C] (1 / 100) 0 None 1 [z0; z0] [z0; z0] [z0; z0] (1 / 2) 5 [RtoC (-1); RtoC 1] [RtoC 1; RtoC 1] 0.
Lemma xflat_wf : wf 2 xflat. Proof. repeat split. Qed.
Example ex_C73_rk : Cmod (nth 1 (fst (advance xc [RtoC 1; (RtoC 2 * Ci)%C] (1 / 10) 1 (with_lasth None xflat))) z0 - RtoC 2 * Ci * cis (1 / 5))%C <= (1 / 5) ^ 5 / 2 * 2.
Proof.
  assert (E : s_gamma xflat * Cnorm2 (RtoC 2 * Ci)%C * (1 / 10) * 1 = 1 / 5) by (unfold Cnorm2; cbn; field).
  assert (A5 : Rabs (1 / 5) = 1 / 5) by (apply Rabs_pos_eq; lra).
  assert (M : Cmod (RtoC 2 * Ci)%C = 2). { unfold Cmod. cbn [RtoC Ci Cmult fst snd]. replace ((2 * 0 - 0 * 1) ^ 2 + (2 * 1 + 0 * 0) ^ 2) with (2 ^ 2) by ring. apply sqrt_pow2; lra. }
  pose proof (C73_rk4ip_spm_order xc 2 xflat [RtoC 1; (RtoC 2 * Ci)%C] (1 / 10) 1 1 eq_refl eq_refl xflat_wf eq_refl eq_refl eq_refl eq_refl ltac:(lia) ltac:(lra)) as H.
  cbv zeta in H. change (nth 1 [RtoC 1; (RtoC 2 * Ci)%C] z0) with (RtoC 2 * Ci)%C in H. rewrite E, A5, M in H. apply H. lra.
Qed.
Example ex_C73_split : exists fuel r, integrate_trace xss fuel 1 1 xflat = Some r /\ nth 1 (s_A (l_st r)) z0 = (RtoC 2 * Ci * cis (1 * lrsum (l_steps r) * (1 / 2 * Cnorm2 (RtoC 2 * Ci))))%C.
Proof.
  destruct (C28_terminates_and_covers_partial xss 1 1 xflat) as (fuel & r & E & _); [lra|cbn; lra|]. exists fuel, r. split; [exact E|].
  destruct (C73_split_step_spm_exact xss 2 fuel 1 1 xflat r eq_refl eq_refl ltac:(cbn; lia) ltac:(cbn; lra) xflat_wf eq_refl eq_refl eq_refl ltac:(lra) ltac:(cbn; lra) E) as [_ H]. apply (H 1%nat). lia.
Qed.
(** self-steepening on; the grid of a two-point pulse: frequencies 0 and -1, sampling time PI *)
Definition xsteep : cfg := mkCfg (1 / 1000) METHOD_RK4IP 5 false false true (1 / 10) (3 / 10) true.
Definition xv (m : nat) : R := if Nat.eqb m 0 then 0 else -1.
Definition xst : ssfm := mkS [RtoC 1; Ci] (1 / 100) 0 None 1 [z0; z0] [z0; z0] [z0; z0] (1 / 2) 5 [RtoC 0; RtoC (-1)] [RtoC 1; RtoC (1 / 2)] 0.
Lemma xst_wf : wf 2 xst. Proof. repeat split. Qed.
Example ex_C74 : exists dA dI : C, is_cderive (trig 2 xv [RtoC 1; Ci]) (INR 1 * PI) dA /\
  nth 1 (nonlinear xsteep xst [RtoC 1; Ci]) z0 =
    (Ci * RtoC (1 / 2) * nth 1 (fft (vmul [RtoC 1; RtoC (1 / 2)] (ifft [RtoC (Cnorm2 1); RtoC (Cnorm2 Ci)]))) z0 - RtoC (1 / 2 / 5) *
      (dI + dA * nth 1 (fft (vmul [RtoC 1; RtoC (1 / 2)] (ifft [RtoC (Cnorm2 1); RtoC (Cnorm2 Ci)]))) z0 / (RtoC (/ 10 ^ 20) + Ci)))%C.
Proof.
  assert (B : bins 2 xv PI). { intros [|[|m]] Hm; try lia; [exists 0%Z; cbn; field|exists (-1)%Z; cbn; field]. }
  destruct (C74_self_steepening xsteep 2 xst [RtoC 1; Ci] xv PI 1 eq_refl eq_refl xst_wf eq_refl ltac:(lia) eq_refl B) as (_ & _ & dA & dI & H1 & _ & H3).
  exists dA, dI. split; [exact H1|]. rewrite H3. change (nth 1 [RtoC 1; Ci] z0) with Ci.
  destruct (Rlt_dec (/ 10 ^ 15) (Cmod Ci)) as [_|X]; [reflexivity|]. exfalso. apply X. replace (Cmod Ci) with 1.
  - apply Rlt_le_trans with (/ 1); [apply Rinv_lt_contravar|]; lra.
  - unfold Cmod, Ci. cbn [fst snd]. replace (0 ^ 2 + 1 ^ 2) with (1 ^ 2) by ring. symmetry. apply sqrt_pow2; lra.
Qed.
Example ex_C74_line : nth 1 (nonlinear xsteep xst (mk 2 (fun j => RtoC 1 * cis (- (2 * PI * INR 1 * INR j / INR 2)))%C)) z0 =
  (Ci * RtoC (1 / 2 * Cnorm2 1) * RtoC 1 * (1 + RtoC (-1 / 5) * (nth 1 (mk 2 (fun j => RtoC 1 * cis (- (2 * PI * INR 1 * INR j / INR 2)))%C) z0 / (RtoC (/ 10 ^ 20) + nth 1 (mk 2 (fun j => RtoC 1 * cis (- (2 * PI * INR 1 * INR j / INR 2)))%C) z0))))%C.
Proof.
  apply (C74_single_line xsteep 2 xst (RtoC 1) xv 1 1 eq_refl eq_refl xst_wf); try lia; try reflexivity. rewrite Cmod_1. apply Rlt_le_trans with (/ 1); [apply Rinv_lt_contravar|]; lra.
Qed.
(** the fiber of the C33 example with gamma = 0 *)
Definition xlin : fiber := mkFiber 2 (fun z => ret [z; 1; 2 - z; 0]) (fun _ => ret [1 / 2; 0; 0; 1 / 4]) 0 (fun _ => 0).
Example ex_C75 : exists fuel z AW AT po s' q (d : nat -> R), propagate (rc true) fuel xlin 2 None true x0 xp = (Ok (Some (z, AW, AT, po, s')), q) /\ 2 / INR 2 <= d 0%nat /\
  nth 2 (nth 0 AW []) z0 = (RtoC 2 * cexp (rsum 1 (fun j => d j * (0 / 2)), rsum 1 (fun j => d j * (2 - nth j z 0)))%R)%C.
Proof.
  destruct (xp_raman true) as (Rw & E0 & _).
  assert (HS : setting (rc true) xlin 2 None x0 xp xa (fun z => [z; 1; 2 - z; 0]) [1 / 2; 0; 0; 1 / 4] Rw (18 / 100)).
  { split; [repeat split|]. split; [cbn; lia|]. split; [cbn; lra|]. split; [|split; [exact E0|]; cbn; repeat split; try lia; lra].
    split; [intros z q Hq; exists q; split; [reflexivity|exact Hq]|]. split; [intros q Hq; exists q; split; [reflexivity|exact Hq]|]. split; reflexivity. }
  destruct (C33_propagate_returns _ _ _ _ true _ _ _ _ _ _ _ HS) as (fuel & z & AW & AT & po & s' & q & E).
  destruct (C75_linear_fiber_columns _ _ _ _ _ _ _ _ _ _ _ _ _ _ _ _ _ _ _ HS eq_refl ltac:(cbn; lia) ltac:(right; reflexivity) ltac:(reflexivity) E) as (d & H1 & H2).
  exists fuel, z, AW, AT, po, s', q, d. split; [exact E|]. split; [apply (H1 0%nat); lia|]. exact (H2 0%nat 2%nat ltac:(lia) ltac:(cbn; lia)).
Qed.

(** the nonlinear two-bin run with a delayed response: at least one step is kept, and the last one satisfies the claim *)
Example ex_C88 : exists fuel r h A steps, integrate_trace xc fuel 1 1 xr = Some r /\ l_steps r = 2 * h :: steps /\ good_step xc xr 1 h A (s_A (l_st r)) /\ kept xc xr 1 [RtoC 1; Ci] steps A.
Proof.
  destruct (C28_terminates_and_covers_partial xc 1 1 xr) as (fuel & r & E & _ & H & _); [lra|cbn; lra|].
  pose proof (C88_kept_steps xc 2 fuel 1 1 xr r xr_wf ltac:(cbn; lia) ltac:(lra) ltac:(cbn; lra) E) as K. remember (s_A (l_st r)) as B eqn:HB. remember (l_steps r) as L eqn:HL.
  destruct K as [|steps h A B Hh K G]; [cbn in H; lra|]. exists fuel, r, h, A, steps. subst B. auto.
Qed.

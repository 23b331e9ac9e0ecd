(** Concrete cases that meet the hypotheses of the SSFM theorems (C26-C38). *)
From Coq Require Import Reals List ZArith Bool Arith Lia Lra Permutation.
From Coquelicot Require Import Complex.
From Verif Require Import Base CNum NumPy ModelFFT FFTProofs ModelPulse PulseProofs PulseOpsProofs ModelSSFM SSFMLoopProofs SSFMProofs SSFMSymProofs SSFMPropProofs SSFMTrivProofs SSFMRamanProofs.
From Verif Require Import PropsSSFMLoop PropsSSFM PropsSSFMSym PropsSSFMProp PropsSSFMTriv PropsSSFMRaman.
Import ListNotations.
Local Open Scope R_scope.
Local Open Scope py_scope.
Local Notation z0 := (RtoC 0).

(** RK4IP, eta = 5, tolerance 0.001, no Raman, no self-steepening, internal shift on *)
Definition xc : cfg := mkCfg (1 / 1000) METHOD_RK4IP 5 true true true (1 / 10) (3 / 10) true.
(** two bins: betas 1 and 2, gain 1/2 and 0, step 1/100 *)
Definition xs (gamma : R) : ssfm :=
  mkS [RtoC 1; Ci] (1 / 100) 0 None 1 [z0; z0] (mk 2 (fun k => RtoC (INR k + 1))) (mk 2 (fun k => RtoC (- (if Nat.eqb k 0 then 1 / 2 else 0)))) gamma 5 [RtoC (-1); RtoC 1] [RtoC 1; RtoC 1] 0.
Lemma xs_wf g : wf 2 (xs g). Proof. repeat split. Qed.

Example ex_C26 : exists fuel r, integrate_trace xc fuel 1 1 (xs 0) = Some r /\ 1 <= lrsum (l_steps r) /\
  Cnorm2 (nth 0 (fft_t xc (s_A (l_st r))) z0) = exp (1 * (1 / 2) * lrsum (l_steps r)) * Cnorm2 (nth 0 (fft_t xc [RtoC 1; Ci]) z0).
Proof.
  destruct (C28_terminates_and_covers_partial xc 1 1 (xs 0)) as (fuel & r & E & _ & E2 & _); [lra|cbn; lra|]. exists fuel, r. split; [exact E|]. split; [exact E2|].
  destruct (C26_linear_propagation xc 2 fuel 1 1 (xs 0) (fun k => INR k + 1) (fun k => if Nat.eqb k 0 then 1 / 2 else 0) r) as [_ H]; try reflexivity; try assumption; try apply xs_wf; try (cbn; lra); try (cbn; lia); try (left; reflexivity).
  destruct (H 0%nat ltac:(lia)) as [_ H0]. exact H0.
Qed.
(** a nonlinear run (gamma = 3) started with a stale cache claiming step 1/100 *)
Example ex_C27 : let s := with_cache (Some (1 / 100)) 1 [z0; z0] (xs 3) in
  exists fuel r r', integrate_trace xc fuel 1 1 s = Some r /\ loop xc (attempt_fresh xc 1) fuel 1 (first_dz 1 (s_dz s)) None [] s = Some r' /\ s_A (l_st r) = s_A (l_st r').
Proof.
  intros s. destruct (C28_terminates_and_covers_partial xc 1 1 s) as (fuel & r & E & _); [lra|cbn; lra|].
  destruct (C27_cache_never_stale xc fuel 1 1 s) as [H _]; [lra|cbn; lra|]. rewrite E in H. destruct (loop xc (attempt_fresh xc 1) fuel 1 (first_dz 1 (s_dz s)) None [] s) as [r'|] eqn:E2; [|contradiction].
  exists fuel, r, r'. split; [exact E|]. split; [exact E2|]. apply H.
Qed.
Example ex_C28_overshoot : exists r, integrate_trace xc 2 (2 * (1 / 100) + / 10 ^ 12) 1 (xs 0) = Some r /\ 2 * (2 * (1 / 100) + / 10 ^ 12) - 2 * / 10 ^ 12 < lrsum (l_steps r).
Proof.
  destruct (C28_overshoot_refuted xc 2 1 (1 / 100) (xs 0) ltac:(cbn; lia) ltac:(cbn; lra) ltac:(now left) (xs_wf 0) eq_refl eq_refl ltac:(lra)) as (r & E & _ & H). exists r. split; [exact E|exact H].
Qed.
Example ex_C28_zero : exists s', integrate_over_dz xc 0 0 1 (xs 3) = Some s' /\ integrate_over_dz xc 1000 1 1 s' = None.
Proof. destruct (C28_zero_distance_refuted xc 1 (xs 3)) as (s' & E & H); [cbn; lra|]. exists s'. split; [exact E|]. apply H. lra. Qed.

(** a real response 1 + 2 z-transform of [1; 3] *)
Definition xr : ssfm :=
  mkS [RtoC 1; Ci] (1 / 100) 0 None 1 [z0; z0] [RtoC 1; RtoC 2] [z0; z0] 3 5 [RtoC (-1); RtoC 1] (map (fun z => RtoC 1 + RtoC 2 * z)%C (fft_t xc (map RtoC [1; 3]))) 0.
Lemma xr_wf : wf 2 xr.
Proof. repeat split. Qed.
Example ex_C29 : Re (nth 0 (nonlinear xc xr (s_A xr)) z0) = 0 /\ nth 1 (nonlinear xc (xs 3) [RtoC 1; RtoC 2]) z0 = (Ci * RtoC (3 * 4))%C.
Proof.
  split.
  - destruct (C29_nonlinear_moves_no_power xc 2 xr (s_A xr)) as [_ H]; try reflexivity; [apply xr_wf|]. apply (H ltac:(exists 1, 2, [1; 3]; split; reflexivity) 0%nat); lia.
  - destruct (C29_nonlinear_moves_no_power xc 2 (xs 3) [RtoC 1; RtoC 2]) as [H _]; try reflexivity; [apply xs_wf|]. rewrite (H eq_refl 1%nat) by lia. cbn [nth s_gamma xs]. f_equal. f_equal. rewrite Cnorm2_R. ring.
Qed.

(** the nonlinear two-bin run, its phase-rotated and shifted variants *)
Example ex_C30_C31 : exists fuel r1 r2 r3, integrate_trace xc fuel 1 1 xr = Some r1 /\
  integrate_trace xc fuel 1 1 (with_A (vscale (cis 1) (s_A xr)) xr) = Some r2 /\ s_A (l_st r2) = vscale (cis 1) (s_A (l_st r1)) /\
  integrate_trace xc fuel 1 1 (with_A (roll 1 (s_A xr)) xr) = Some r3 /\ s_A (l_st r3) = roll 1 (s_A (l_st r1)).
Proof.
  destruct (C28_terminates_and_covers_partial xc 1 1 xr) as (fuel & r & E & _); [lra|cbn; lra|]. exists fuel, r.
  pose proof (C30_phase_equivariance xc 2 fuel 1 1 1 xr eq_refl xr_wf ltac:(lra) ltac:(cbn; lra)) as H1. pose proof (C31_shift_equivariance xc 2 fuel 1 1 1 xr ltac:(now left) xr_wf ltac:(lra) ltac:(cbn; lra)) as H2.
  rewrite E in H1, H2. destruct (integrate_trace xc fuel 1 1 (with_A (vscale (cis 1) (s_A xr)) xr)) as [r2|]; [|contradiction]. destruct (integrate_trace xc fuel 1 1 (with_A (roll 1 (s_A xr)) xr)) as [r3|]; [|contradiction].
  exists r2, r3. split; [exact E|]. split; [reflexivity|]. split; [apply H1|]. split; [reflexivity|apply H2].
Qed.
Example ex_C32 : exists fuel r1 r2, integrate_trace (set_pre true xc) fuel 1 1 (shifted xr) = Some r1 /\ integrate_trace (set_pre false xc) fuel 1 1 xr = Some r2 /\ s_A (l_st r1) = fftshift (s_A (l_st r2)).
Proof.
  destruct (C28_terminates_and_covers_partial (set_pre false xc) 1 1 xr) as (fuel & r & E & _); [lra|cbn; lra|]. exists fuel.
  pose proof (C32_integrator_shift xc 2 fuel 1 1 xr ltac:(now left) xr_wf ltac:(lra) ltac:(cbn; lra)) as H. rewrite E in H. destruct (integrate_trace (set_pre true xc) fuel 1 1 (shifted xr)) as [r1|]; [|contradiction].
  exists r1, r. split; [reflexivity|]. split; [exact E|apply H].
Qed.
Example ex_C35 : nth 0 (fft_t xc (fst (advance xc [RtoC 1; Ci] (1 / 2) 1 (with_lasth None (xs 0))))) z0 =
  (cexp (RtoC (1 * (1 / 2)) * (Ci * RtoC (0 + 1) - RtoC (- (1 / 2)) / RtoC 2)) * nth 0 (fft_t xc [RtoC 1; Ci]) z0)%C.
Proof. apply (C35_rk4ip_linear_partial xc 2 (xs 0)); try reflexivity; try lra; try lia; [now left|apply xs_wf]. Qed.
Definition xss : cfg := mkCfg (1 / 1000) METHOD_SSFM 3 true true true (1 / 10) (3 / 10) true.
Example ex_C35_half : nth 0 (fft_t xss (fst (advance xss [RtoC 1; Ci] (1 / 2) 1 (with_lasth None (xs 0))))) z0 =
  (cexp (RtoC (1 * (1 / 2 / 2)) * (Ci * RtoC (0 + 1) - RtoC (- (1 / 2)) / RtoC 2)) * nth 0 (fft_t xss [RtoC 1; Ci]) z0)%C.
Proof. apply (C35_ssfm_half_step_refuted xss 2 (xs 0)); try reflexivity; try lra; try lia; [now left|apply xs_wf]. Qed.
Example ex_C38_short : exists fuel s1 s2, integrate_over_dz xc fuel (1 / 100) 1 (xs 0) = Some s1 /\ integrate_over_dz xc fuel (1 / 100) (-1) s1 = Some s2 /\ s_A s2 = [RtoC 1; Ci].
Proof. apply (C38_short_round_trip_partial xc 2 (1 / 100) (xs 0)); try reflexivity; try (cbn; lra); try (cbn; lia); apply xs_wf. Qed.
Example ex_C38_refuted : exists s1 s2, integrate_over_dz xc 2 (2 * (1 / 100) + / 10 ^ 12) 1 (xs 0) = Some s1 /\ integrate_over_dz xc 2 (2 * (1 / 100) + / 10 ^ 12) (-1) s1 = Some s2 /\
  Cnorm2 (nth 0 (fft_t xc [RtoC 1; Ci]) z0) < Cnorm2 (nth 0 (fft_t xc (s_A s2)) z0).
Proof.
  destruct (C38_round_trip_refuted xc 2 (1 / 100) (xs 0) (fun k => if Nat.eqb k 0 then 1 / 2 else 0)) as (s1 & s2 & E1 & E2 & H).
  - reflexivity.
  - cbn; lia.
  - cbn; lra.
  - now left.
  - apply xs_wf.
  - reflexivity.
  - intros [|[|k]] Hk; try lia; reflexivity.
  - intros [|[|k]] Hk; try lia; reflexivity.
  - reflexivity.
  - cbn [c_eta xc]. replace (INR 5) with 5 by (cbn; lra). lra.
  - exists s1, s2. split; [exact E1|]. split; [exact E2|]. apply (H 0%nat); [lia|cbn; lra|]. intros E0. apply (f_equal Im) in E0. revert E0. unfold fft_t. cbn [c_pre xc]. rewrite ifft_nth by (cbn; lia).
    cbn [length xs s_A]. rewrite (csum_ext 2 _ (fun j => nth j [RtoC 1; Ci] z0)).
    + rewrite !csum_S, csum_0. cbn. lra.
    + intros j Hj. replace (Z.of_nat j * Z.of_nat 0)%Z with 0%Z by lia. rewrite tw_0. ring.
Qed.

(** ** A full propagation: 4 points, simple Raman model with a response that can be normalised, z-dependent dispersion and nonlinearity, gain *)
Definition rc (pre : bool) : cfg := mkCfg (1 / 1000) METHOD_RK4IP 5 false false true 1 1 pre.
Definition xa : list C := [RtoC 1; Ci; RtoC 2; z0].
Definition xp : pulse := mkPulse 4 200 (2 * PI) (Some xa) (Some 100) true None None None None.
Definition xf : fiber := mkFiber 2 (fun z => ret [z; 1; 2 - z; 0]) (fun _ => ret [1 / 2; 0; 0; 1 / 4]) 1 (fun z => 1 + z).
Definition x0 : ssfm := mkS [] (1 / 100) 0 None 1 [] [] [] 0 1 [] [] (18 / 100).
Lemma xp_raman pre : exists Rw, fst (calc_raman (rc pre) (18 / 100) xp) = Ok (Rw, 18 / 100) /\ nth 2 Rw z0 = RtoC (1 + 18 / 100).
Proof.
  pose proof PI_RGT_0 as HP.
  destruct (C37_zero_frequency_refuted (rc pre) (18 / 100) xp) as (Rw & E & _ & E2); try reflexivity; try (cbn; lra).
  - cbn. replace (2 * PI / 4 / 1) with (PI / 2) by field. rewrite sin_PI2. lra.
  - exists Rw. rewrite E. auto.
Qed.
Lemma xp_setting pre : exists Rw, setting (rc pre) xf 2 None x0 xp xa (fun z => [z; 1; 2 - z; 0]) [1 / 2; 0; 0; 1 / 4] Rw (18 / 100).
Proof.
  destruct (xp_raman pre) as (Rw & E & _). exists Rw. split; [repeat split|]. split; [cbn; lia|]. split; [cbn; lra|]. split; [|split; [exact E|]; cbn; repeat split; try lia; lra].
  split; [intros z q Hq; exists q; split; [reflexivity|exact Hq]|]. split; [intros q Hq; exists q; split; [reflexivity|exact Hq]|]. split; reflexivity.
Qed.
Example ex_C33 : exists fuel z AW AT po s' q, propagate (rc true) fuel xf 2 None true x0 xp = (Ok (Some (z, AW, AT, po, s')), q) /\
  nth 1 z 0 = 1 /\ length AT = 2%nat /\ get_AT po = (Ok (last AT []), po) /\ get_AW q = (Ok xa, q).
Proof.
  destruct (xp_setting true) as (Rw & HS). destruct (C33_propagate_returns _ _ _ _ true _ _ _ _ _ _ _ HS) as (fuel & z & AW & AT & po & s' & q & E). exists fuel, z, AW, AT, po, s', q. split; [exact E|].
  destruct (C33_propagate_bookkeeping _ _ _ _ _ _ _ _ _ _ _ _ _ _ _ _ _ _ _ HS E) as (_ & Z & L & _ & _ & _ & _ & _ & _ & _ & G & _). 
  destruct (C33_output_is_last_column_partial _ _ _ _ _ _ _ _ _ _ _ _ _ _ _ _ _ _ _ HS ltac:(right; reflexivity) E) as (_ & O).
  split; [rewrite Z by lia; cbn; field|]. auto.
Qed.
Example ex_C33_prefix : exists fuel z AW AT po s' q z2 po2 s2 q2, propagate (rc true) fuel xf 2 None true x0 xp = (Ok (Some (z, AW, AT, po, s')), q) /\
  propagate (rc true) fuel (mkFiber (2 * INR 1 / INR 2) (fb_betas xf) (fb_gain xf) (fb_gamma xf) (fb_get_gamma xf)) 1 None true x0 xp = (Ok (Some (z2, firstn 1 AW, firstn 1 AT, po2, s2)), q2).
Proof.
  destruct (xp_setting true) as (Rw & HS). destruct (C33_propagate_returns _ _ _ _ true _ _ _ _ _ _ _ HS) as (fuel & z & AW & AT & po & s' & q & E).
  destruct (C33_columns_are_prefixes _ _ _ _ 1 _ _ _ _ _ _ _ _ _ _ _ _ _ _ _ HS ltac:(lia) E) as (z2 & po2 & s2 & q2 & E2). exists fuel, z, AW, AT, po, s', q, z2, po2, s2, q2. auto.
Qed.
Example ex_C34 : exists fuel AT st, (exists z AW po s' q, propagate (rc true) fuel xf 2 None true x0 xp = (Ok (Some (z, AW, AT, po, s')), q)) /\
  integrate_over_dz (rc true) fuel (2 / INR 2) 1 (with_fiber (fftshift (map RtoC [1; 1; 2 - 1; 0])) (1 + 1) (st 1%nat)) = Some (st 2%nat) /\ nth 1 AT [] = ifftshift (s_A (st 2%nat)).
Proof.
  destruct (xp_setting true) as (Rw & HS). destruct (C33_propagate_returns _ _ _ _ true _ _ _ _ _ _ _ HS) as (fuel & z & AW & AT & po & s' & q & E).
  destruct (C34_fiber_position _ _ _ _ _ _ _ _ _ _ _ _ _ _ _ _ _ _ _ HS ltac:(right; reflexivity) E) as (st & _ & H). specialize (H 1%nat ltac:(lia)).
  destruct (C33_propagate_bookkeeping _ _ _ _ _ _ _ _ _ _ _ _ _ _ _ _ _ _ _ HS E) as (_ & Z & _).
  exists fuel, AT, st. split; [exists z, AW, po, s', q; exact E|]. cbv iota zeta in H. rewrite Z in H by lia. cbn [fb_len xf] in H. replace (INR 1 * 2 / INR 2) with 1 in H by (cbn; field).
  destruct H as (_ & _ & H1 & H2). split; [exact H1|exact H2].
Qed.
Example ex_C32_propagate : exists fuel z AW AT po po' s1 s2 q1 q2,
  propagate (rc true) fuel xf 2 None true x0 xp = (Ok (Some (z, AW, AT, po, s1)), q1) /\ propagate (rc false) fuel xf 2 None true x0 xp = (Ok (Some (z, AW, AT, po', s2)), q2).
Proof.
  destruct (xp_setting true) as (Rw & HS). destruct (C33_propagate_returns _ _ _ _ true _ _ _ _ _ _ _ HS) as (fuel & z & AW & AT & po & s' & q & E).
  pose proof (C32_propagate_shift_invisible _ fuel _ _ _ true _ _ _ _ _ _ _ HS eq_refl) as H. change (set_pre true (rc true)) with (rc true) in H. change (set_pre false (rc true)) with (rc false) in H. rewrite E in H.
  destruct (propagate (rc false) fuel xf 2 None true x0 xp) as [[[[[[[z' AW'] AT'] po'] s2]|]|] q2] eqn:E3; try contradiction. destruct H as (-> & -> & -> & _). exists fuel, z', AW', AT', po, po', s', s2, q, q2. auto.
Qed.
Example ex_C36 : exists v, coherence_bin [RtoC 1; Ci; (RtoC 2 + Ci)%C] = Ok v /\ 0 <= v <= 1.
Proof.
  destruct (C36_coherence_range [RtoC 1; Ci; (RtoC 2 + Ci)%C]) as [H _]; [|apply H; cbn; lia].
  intros z [<-|[<-|[<-|[]]]] E; apply (f_equal (fun w => (Re w, Im w))) in E; cbn in E; injection E; intros; lra.
Qed.
Example ex_C36_antiphase : coherence_bin [(RtoC 1 * cis PI)%C; (RtoC 3 * cis 0)%C] = Ok 1.
Proof. rewrite C36_two_trials by lra. rewrite Rminus_0_r, cos_PI. f_equal. unfold Rabs. destruct (Rcase_abs (-1)); lra. Qed.
Example ex_C37 : exists Rw q, calc_raman (rc true) (18 / 100) xp = (Ok (Rw, 18 / 100), q) /\ nth 2 Rw z0 = RtoC (1 + 18 / 100) /\ real_response (rc true) 4 (cfftshift (rc true) Rw).
Proof.
  destruct (xp_raman true) as (Rw & E & E2). destruct (calc_raman (rc true) (18 / 100) xp) as [r q] eqn:E0. cbn [fst] in E. subst r. exists Rw, q. split; [reflexivity|]. split; [exact E2|]. now apply (C29_setup_response_real _ _ _ _ _ _ E0).
Qed.

(** C27, the direct call: two bins, the betas change from 1, 2 to 5, 7 and the phase factors of the old ones are used again *)
Example ex_C27_stale : let s1 := snd (linear_step xc [RtoC 1; Ci] (1 / 100) 1 (xs 3)) in
  s_expD (snd (linear_step xc [RtoC 1; Ci] (1 / 100) 1 (with_fiber [RtoC 5; RtoC 7] 3 s1))) = s_expD s1 /\ length (s_expD s1) = 2%nat.
Proof. intros s1. split; [exact (C27_direct_substep_stale xc [RtoC 1; Ci] (1 / 100) 1 3 [RtoC 5; RtoC 7] (xs 3))|reflexivity]. Qed.
(** C28: every third attempt reports a large error, one in three an exact zero, the rest a small one *)
Example ex_C28_errors : exists fuel r, loop xc (fun (_ : R) (k : nat) => (match Nat.modulo k 3 with O => Some 1 | 1%nat => None | _ => Some (1 / 1000000) end, S k, S k)) fuel 2 (first_dz 2 (1 / 100)) None [] 0%nat = Some r /\
  2 <= lrsum (l_steps r).
Proof.
  destruct (C28_any_errors_partial xc (fun k => match Nat.modulo k 3 with O => Some 1 | 1%nat => None | _ => Some (1 / 1000000) end) 2 (1 / 100) ltac:(lra) ltac:(lra)) as (fuel & r & E & _ & S & _).
  exists fuel, r. split; [exact E|exact S].
Qed.
(** C33 on an odd grid: three points, the output pulse is the last column moved by one *)
Definition xp3 : pulse := mkPulse 3 200 (2 * PI) (Some [RtoC 1; Ci; RtoC 2]) (Some 100) true None None None None.
Definition xf3 : fiber := mkFiber 2 (fun z => ret [z; 1; 2 - z]) (fun _ => ret [1 / 2; 0; 0]) 1 (fun z => 1 + z).
Example ex_C33_odd : exists fuel z AW AT po s' q, propagate xc fuel xf3 2 None true x0 xp3 = (Ok (Some (z, AW, AT, po, s')), q) /\
  length AT = 2%nat /\ get_AT po = (Ok (roll 1 (last AT [])), po).
Proof.
  assert (HS : exists Rw, setting xc xf3 2 None x0 xp3 [RtoC 1; Ci; RtoC 2] (fun z => [z; 1; 2 - z]) [1 / 2; 0; 0] Rw (18 / 100)).
  { eexists. split; [repeat split|]. split; [cbn; lia|]. split; [cbn; lra|]. split; [|split; [reflexivity|]; cbn; repeat split; try lia; lra].
    split; [intros z q Hq; exists q; split; [reflexivity|exact Hq]|]. split; [intros q Hq; exists q; split; [reflexivity|exact Hq]|]. split; reflexivity. }
  destruct HS as (Rw & HS). destruct (C33_propagate_returns _ _ _ _ true _ _ _ _ _ _ _ HS) as (fuel & z & AW & AT & po & s' & q & E). exists fuel, z, AW, AT, po, s', q. split; [exact E|].
  destruct (C33_propagate_bookkeeping _ _ _ _ _ _ _ _ _ _ _ _ _ _ _ _ _ _ _ HS E) as (_ & _ & L & _). split; [apply L|].
  exact (C33_odd_grid_rolls_output _ _ _ _ _ _ _ _ _ _ _ _ _ _ _ _ _ _ _ HS eq_refl eq_refl E).
Qed.
(** C36: two trials 1 and i: |1 + i|^2 - 2 = 0, no coherence *)
Example ex_C36_value : coherence_bin [RtoC 1; Ci] = Ok 0.
Proof.
  rewrite C36_coherence_value; [|cbn; lia|intros z [<-|[<-|[]]] E; apply (f_equal (fun w => (Re w, Im w))) in E; cbn in E; injection E; intros; lra].
  assert (M : Cmod Ci = 1) by (rewrite Cmod_Cnorm2; unfold Cnorm2, Ci; cbn; replace (0 * 0 + 1 * 1) with 1 by ring; apply sqrt_1).
  f_equal. unfold lsum, Cnorm2. cbn [map fold_right length]. rewrite Cmod_R, Rabs_R1, M, Rinv_1. cbn. 
  match goal with |- Rabs ?a / ?b = 0 => replace a with 0 by ring end. rewrite Rabs_R0. unfold Rdiv. ring.
Qed.
(** C37: the response at zero frequency read off a run on an even grid *)
Example ex_C37_zero : exists Rw q, calc_raman (rc true) (18 / 100) xp = (Ok (Rw, 18 / 100), q) /\ nth 2 (V_of xp) 1 = 0.
Proof.
  destruct (xp_raman true) as (Rw & E & _). destruct (calc_raman (rc true) (18 / 100) xp) as [r q] eqn:E0. cbn [fst] in E. subst r. exists Rw, q. split; [reflexivity|].
  assert (T : p_tw xp <> 0) by (cbn [xp p_tw]; pose proof PI_RGT_0; lra).
  exact (proj1 (C37_zero_frequency_partial _ _ _ _ _ _ 2 E0 eq_refl ltac:(lia) T)).
Qed.
Example ex_C37_fraction : exists Rw q, calc_raman xc (25 / 100) xp = (Ok (Rw, 25 / 100), q).
Proof. unfold calc_raman. do 2 eexists. reflexivity. Qed.

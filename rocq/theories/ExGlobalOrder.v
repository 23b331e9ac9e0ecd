(** Concrete cases that meet the hypotheses of C121 and C122. *)
From Coq Require Import Reals List ZArith Bool Arith Lia Lra.
From Coquelicot Require Import Coquelicot.
From Verif Require Import Base CNum NumPy ModelFFT FFTProofs ModelPulse PulseProofs ModelSSFM SSFMLoopProofs SSFMProofs SSFMSymProofs SSFMErrProofs SSFMPropProofs SSFMGnlseProofs RkOrderProofs GlobalOrderProofs.
From Verif Require Import PropsSSFMGnlse PropsSSFMTriv PropsSSFMProp PropsSSFMLoop PropsGlobalOrder ExGnlse ExRkOrder.
Import ListNotations.
Local Open Scope R_scope.
Local Notation z0 := (RtoC 0).

Lemma ycw_nth z k : (k < 2)%nat -> nth k (ycw z) z0 = cis (7 / 2 * z).
Proof. intros Hk. unfold ycw. rewrite line0. destruct k as [|[|k]]; [reflexivity|reflexivity|lia]. Qed.
Lemma ycw_off Z : off_path xsteep 2 Z ycw.
Proof. right. intros z k _ Hk. rewrite ycw_nth, cis_mod by exact Hk. pose proof tiny. lra. Qed.
(** the wave of the C100 example, over one metre: whatever the tolerance, a run whose kept steps are at most H long ends within K H^5 of the exact phase *)
Example ex_C121 : exists K H0, 0 <= K /\ 0 < H0 /\ forall err fuel r H, integrate_trace (mkCfg err METHOD_RK4IP 5 false false true (1 / 10) (3 / 10) true) fuel 1 1 xcw = Some r ->
  (forall h, In h (l_steps r) -> h <= H) -> 0 < H <= H0 -> Cmod (nth 1 (s_A (l_st r)) z0 - cis (7 / 2 * lrsum (l_steps r)))%C <= K * H ^ 5.
Proof.
  destruct (C121_adaptive_convergence xsteep 2 xcw 1 2 1 ycw eq_refl ltac:(cbn; lia) xcw_wf ltac:(lra) (xcw_solution 2) (ycw_off 2)) as (K & H0 & PK & PH & H). exists K, H0. split; [exact PK|]. split; [exact PH|].
  intros err fuel r h E Hs Hh. specialize (H (mkCfg err METHOD_RK4IP 5 false false true (1 / 10) (3 / 10) true) xcw fuel 1 r h eq_refl eq_refl eq_refl eq_refl ltac:(repeat split) (eq_sym ycw0) ltac:(cbn; lra) ltac:(lra) E Hs Hh 1%nat ltac:(lia)). rewrite ycw_nth in H by lia. exact H.
Qed.
(** the hypotheses on the run are met: the loop ends, and every H at least as long as its steps qualifies when the distance is short *)
Example ex_C121_run : exists fuel r, integrate_trace xsteep fuel 1 1 xcw = Some r.
Proof. destruct (C28_terminates_and_covers_partial xsteep 1 1 xcw) as (fuel & r & E & _); [lra|cbn; lra|]. exists fuel, r. exact E. Qed.
(** a fiber of one metre with dispersion and Kerr effect, self-steepening on, and a constant field on two points: propagate converges to the phase-rotating wave *)
Definition cv_c : cfg := mkCfg (1 / 1000) METHOD_RK4IP 5 true false true (1 / 10) (3 / 10) true.
Definition cv_f : fiber := mkFiber 1 (fun _ => ret [7; 3]) (fun _ => ret [0; 0]) (1 / 2) (fun _ => 1 / 2).
Definition cv_a : list C := FFT_t [RtoC 1; RtoC 1].
Definition cv_p : pulse := mkPulse 2 100 1 (Some cv_a) (Some 1) true None None None None.
Definition cv_s : ssfm := mkS [] 1 0 None 1 [] [] [] 0 1 [] [] 0.
Definition cv_0 : ssfm := start cv_c cv_f cv_p [7; 3] [0; 0] cv_a [RtoC 1; RtoC 1] 0 cv_s.
Lemma cv_setting N : (0 < N)%nat -> setting cv_c cv_f N None cv_s cv_p cv_a (fun _ => [7; 3]) [0; 0] [RtoC 1; RtoC 1] 0.
Proof.
  intros HN. split; [repeat split|]. split; [cbn; lia|]. split; [cbn; lra|]. split; [|split; [reflexivity|]; cbn; repeat split; try exact HN; lra].
  split; [intros z q Hq; exists q; split; [reflexivity|exact Hq]|]. split; [intros q Hq; exists q; split; [reflexivity|exact Hq]|]. split; reflexivity.
Qed.
Lemma cv_wf : wf 2 cv_0.
Proof. destruct (cv_setting 1 ltac:(lia)) as (Hh & Hn & Hf & An & HR & _). exact (start_wf cv_c cv_f cv_p None (fun _ => [7; 3]) [0; 0] cv_a [RtoC 1; RtoC 1] 0 cv_s Hh An HR). Qed.
Lemma cv_solution Z : gnlse_solution cv_c 2 cv_0 1 Z ycw.
Proof.
  split; [intros; apply mk_length|]. intros z k _ Hk. unfold gnlse_rhs.
  assert (NL : nth k (nonlinear cv_c cv_0 (ycw z)) z0 = (Ci * RtoC (1 / 2))%C).
  { unfold ycw. set (v := fun j => nth j (fftshift (V_of cv_p)) 0).
    assert (V0 : v 0%nat = 0) by (unfold v; change (nth 0 (fftshift (V_of cv_p)) 0) with (2 * PI * (- (INR 2 / 2) + INR 1) / (INR 2 * (1 / INR 2))); cbn [INR]; field).
    pose proof (C74_single_line cv_c 2 cv_0 (cis (7 / 2 * z)) v 0 k eq_refl eq_refl cv_wf ltac:(lia) Hk eq_refl V0) as H. rewrite cis_mod in H. specialize (H tiny). cbv zeta in H. unfold line. rewrite H.
    rewrite cis_norm2, V0. change (s_gamma cv_0) with (1 / 2). change (nth 0 (s_R cv_0) z0) with (RtoC 1). replace (1 / 2 * 1) with (1 / 2) by ring. unfold Rdiv at 2. rewrite Rmult_0_l. ring. }
  rewrite NL. unfold ycw. unfold fft_t, ifft_t. cbn [c_pre cv_c]. rewrite ifft_line, vmul_bin, fft_bin by (try reflexivity; lia).
  change (s_betas cv_0) with [RtoC 3; RtoC 7]. change (s_alpha cv_0) with [RtoC (- 0); RtoC (- 0)]. cbn [map2 nth]. rewrite Ropp_0.
  assert (E : forall b, nth k (line 2 b 0) z0 = b) by (intros b; rewrite line0; destruct k as [|[|k]]; [reflexivity|reflexivity|lia]). rewrite !E.
  apply (cderive_ext (fun t => cis (7 / 2 * t))); [intros x; symmetry; apply E|].
  replace (RtoC 1 * ((Ci * RtoC 3 - z0 / RtoC 2) * cis (7 / 2 * z) + Ci * RtoC (1 / 2) * cis (7 / 2 * z)))%C with (- Ci * RtoC (- (7 / 2)) * (RtoC 1 * cis (- (- (7 / 2) * z))))%C.
  - apply (cderive_ext (fun t => RtoC 1 * cis (- (- (7 / 2) * t)))%C); [intros x; rewrite Cmult_1_l; f_equal; ring|]. apply cderive_line.
  - replace (- (- (7 / 2) * z)) with (7 / 2 * z) by ring. replace (RtoC 3) with (RtoC (7 / 2) - RtoC (1 / 2))%C by (rewrite <- RtoC_minus; f_equal; lra). rewrite RtoC_opp. field. intro F. apply RtoC_inj in F. lra.
Qed.
Example ex_C122 : exists K N0, 0 <= K /\ forall N fuel z AW AT po s' q, (N0 <= N)%nat -> (0 < N)%nat -> propagate cv_c fuel cv_f N None true cv_s cv_p = (Ok (Some (z, AW, AT, po, s')), q) ->
  exists d : nat -> R, (forall j, (j < N)%nat -> 1 / INR N <= d j /\ (d j = 1 / INR N \/ exists last, 0 < 1 / INR N - (d j - last) <= 2 * / 10 ^ 12)) /\
  forall i, (i < N)%nat -> rsum (S i) d <= 2 -> Cmod (nth 0 (nth i AT []) z0 - cis (7 / 2 * rsum (S i) d))%C <= K * (1 / INR N) ^ 5.
Proof.
  assert (Y0 : ycw 0 = cfftshift cv_c (IFFT_t cv_a)) by (rewrite ycw0; unfold cv_a; rewrite IFFT_FFT_t; reflexivity). assert (OFF : off_path cv_c 2 3 ycw) by (right; intros z k _ Hk; rewrite ycw_nth, cis_mod by exact Hk; pose proof tiny; lra).
  destruct (C122_propagate_convergence cv_c cv_f None cv_s cv_p cv_a (fun _ => [7; 3]) [0; 0] [RtoC 1; RtoC 1] 0 3 2 ycw (cv_setting 1 ltac:(lia)) ltac:(right; reflexivity) eq_refl ltac:(cbn; lia) ltac:(cbn; lra) (cv_solution 3) OFF Y0) as (K & N0 & PK & H).
  exists K, N0. split; [exact PK|]. intros N fuel z AW AT po s' q H1 H2 E. destruct (H N fuel true z AW AT po s' q H1 H2 ltac:(intros; split; reflexivity) E) as (d & D1 & D2). exists d. split; [exact D1|]. intros i Hi HT. specialize (D2 i 0%nat Hi ltac:(cbn; lia) HT).
  unfold cifftshift in D2. cbn [c_pre cv_c] in D2. unfold ycw in D2. rewrite line0 in D2. exact D2.
Qed.
Example ex_C122_runs N : (0 < N)%nat -> exists fuel r q, propagate cv_c fuel cv_f N None true cv_s cv_p = (Ok (Some r), q).
Proof. intros HN. destruct (C33_propagate_returns _ _ _ _ true _ _ _ _ _ _ _ (cv_setting N HN)) as (fuel & z & AW & AT & po & s' & q & E). exists fuel. eexists. exists q. exact E. Qed.

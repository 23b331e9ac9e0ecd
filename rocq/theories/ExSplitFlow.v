(** Concrete cases that meet the hypotheses of C127. *)
From Coq Require Import Reals List ZArith Bool Arith Lia Lra.
From Coquelicot Require Import Coquelicot.
From Verif Require Import Base CNum NumPy Spec ModelFFT FFTProofs ModelPulse PulseProofs PulseOpsProofs ModelSSFM SSFMLoopProofs SSFMProofs SSFMSymProofs SSFMErrProofs SSFMPropProofs SSFMGnlseProofs RkOrderProofs GlobalOrderProofs GnlseFlowProofs SplitFlowProofs.
From Verif Require Import PropsSSFMProp PropsSSFMLoop PropsSSFMTriv PropsSplitFlow ExGnlseFlow.
Import ListNotations.
Local Open Scope R_scope.
Local Notation z0 := (RtoC 0).

Definition hf_c : cfg := mkCfg (1 / 1000) METHOD_SSFM 5 true true true (1 / 10) (3 / 10) true.
Lemma hf_resp : real_response hf_c 2 (s_R gf_s). Proof. exists 1, 2, [1; 3]. split; reflexivity. Qed.
(** the lossy medium of ExGnlseFlow, forwards and backwards *)
Lemma hf_solution dir : exists y, y 0 = s_A gf_s /\ forall Z, half_solution hf_c 2 gf_s dir Z y.
Proof.
  destruct (sol_exists hf_c 2 (halved gf_s) dir (s_A gf_s) eq_refl (halved_wf 2 gf_s gf_wf) hf_resp eq_refl) as (y & Y0 & S). exists y. split; [exact Y0|]. intros Z. exact (proj2 (half_gnlse hf_c 2 gf_s dir Z y gf_wf) (S Z)).
Qed.
Example ex_C127_adaptive dir : exists y, y 0 = s_A gf_s /\ half_solution hf_c 2 gf_s dir 2 y /\ exists K H0, 0 <= K /\ 0 < H0 /\ forall err fuel r H, integrate_trace (mkCfg err METHOD_SSFM 5 false true true (1 / 10) (3 / 10) true) fuel 1 dir gf_s = Some r ->
  (forall h, In h (l_steps r) -> h <= H) -> 0 < H <= H0 -> Cmod (nth 1 (s_A (l_st r)) z0 - nth 1 (y (lrsum (l_steps r))) z0)%C <= K * H.
Proof.
  destruct (hf_solution dir) as (y & Y0 & S). exists y. split; [exact Y0|]. split; [exact (S 2)|].
  destruct (C127_splitting_convergence hf_c 2 gf_s dir 2 1 y eq_refl ltac:(cbn; lia) gf_wf ltac:(lra) (S 2) (or_introl eq_refl)) as (K & H0 & PK & PH & H). exists K, H0. split; [exact PK|]. split; [exact PH|].
  intros err fuel r h E Hs Hh. exact (H (mkCfg err METHOD_SSFM 5 false true true (1 / 10) (3 / 10) true) gf_s fuel 1 r h eq_refl eq_refl eq_refl eq_refl ltac:(repeat split) (eq_sym Y0) ltac:(cbn; lra) ltac:(lra) E Hs Hh 1%nat ltac:(lia)).
Qed.
(** a fiber of one metre with dispersion, Kerr effect and a gain of 2/5 per metre: the energy 5 grows to 5 exp(1/5), not to 5 exp(2/5) *)
Definition hf_f : fiber := mkFiber 1 (fun _ => ret [7; 3]) (fun _ => ret [2 / 5; 2 / 5]) (1 / 2) (fun _ => 1 / 2).
Lemma hf_setting N : (0 < N)%nat -> setting hf_c hf_f N None gf_i gf_p gf_a (fun _ => [7; 3]) [2 / 5; 2 / 5] [RtoC 1; RtoC 1] 0.
Proof.
  intros HN. split; [repeat split|]. split; [cbn; lia|]. split; [cbn; lra|]. split; [|split; [reflexivity|]; cbn; repeat split; try exact HN; lra].
  split; [intros z q Hq; exists q; split; [reflexivity|exact Hq]|]. split; [intros q Hq; exists q; split; [reflexivity|exact Hq]|]. split; reflexivity.
Qed.
Example ex_C127_propagate : exists y, y 0 = [RtoC 2; RtoC 1] /\ power_sum (y 1) = 5 * exp (1 / 5) /\
  exists K N0, 0 <= K /\ forall N fuel z AW AT po s' q, (N0 <= N)%nat -> (0 < N)%nat -> propagate hf_c fuel hf_f N None true gf_i gf_p = (Ok (Some (z, AW, AT, po, s')), q) ->
  exists d : nat -> R, (forall j, (j < N)%nat -> 1 / INR N <= d j) /\ forall i, (i < N)%nat -> rsum (S i) d <= 2 -> Cmod (nth 0 (nth i AT []) z0 - nth 1 (y (rsum (S i) d)) z0)%C <= K * (1 / INR N).
Proof.
  destruct (C127_half_gain hf_c hf_f None gf_i gf_p gf_a (fun _ => [7; 3]) [2 / 5; 2 / 5] [RtoC 1; RtoC 1] 0 2 (hf_setting 1 ltac:(lia)) ltac:(right; reflexivity) eq_refl ltac:(cbn; lia) eq_refl ltac:(cbn; lra)) as (y & Y0 & SOL & _ & E & K & N0 & PK & H).
  exists y. unfold gf_a in Y0, E. rewrite IFFT_FFT_t in Y0, E. split; [exact Y0|]. split.
  - assert (P : power_sum [RtoC 1; RtoC 2] = 5) by (rewrite power_sum_rsum; cbn [length]; rewrite !rsum_S, rsum_0; unfold Cnorm2; cbn; ring). rewrite P in E. specialize (E (2 / 5) (2 / 5)). change (p_n gf_p) with 2%nat in E. assert (Q : 5 * exp (2 / 5 / 2 * 1) <= power_sum (y 1) <= 5 * exp (2 / 5 / 2 * 1)) by (apply E; [intros [|[|m]] Hm; [cbn [nth]; lra|cbn [nth]; lra|lia]|lra]).
    replace (2 / 5 / 2 * 1) with (1 / 5) in Q by field. lra.
  - exists K, N0. split; [exact PK|]. intros N fuel z AW AT po s' q H1 H2 R. destruct (H N fuel true z AW AT po s' q H1 H2 ltac:(intros; split; reflexivity) R) as (d & D1 & D2). exists d. split; [intros j Hj; apply (D1 j Hj)|]. intros i Hi HT. specialize (D2 i 0%nat Hi ltac:(cbn; lia) HT).
    unfold cifftshift in D2. cbn [c_pre hf_c] in D2. assert (LY := proj1 (SOL 0) (rsum (S i) d)). rewrite ifftshift_nth in D2 by (rewrite LY; cbn; lia). rewrite LY in D2. exact D2.
Qed.
Example ex_C127_given : exists y, half_solution hf_c 2 (start hf_c hf_f gf_p [7; 3] [2 / 5; 2 / 5] gf_a [RtoC 1; RtoC 1] 0 gf_i) 1 2 y /\ y 0 = cfftshift hf_c (IFFT_t gf_a) /\ exists K N0, 0 <= K /\ forall N fuel z AW AT po s' q, (N0 <= N)%nat -> (0 < N)%nat ->
  propagate hf_c fuel hf_f N None true gf_i gf_p = (Ok (Some (z, AW, AT, po, s')), q) -> exists d : nat -> R, rsum 1 d <= 1 -> Cmod (nth 1 (nth 0 AT []) z0 - nth 1 (cifftshift hf_c (y (rsum 1 d))) z0)%C <= K * (1 / INR N).
Proof.
  destruct (C127_half_gain hf_c hf_f None gf_i gf_p gf_a (fun _ => [7; 3]) [2 / 5; 2 / 5] [RtoC 1; RtoC 1] 0 2 (hf_setting 1 ltac:(lia)) ltac:(right; reflexivity) eq_refl ltac:(cbn; lia) eq_refl ltac:(cbn; lra)) as (y & Y0 & SOL & _).
  exists y. split; [exact (SOL 2)|]. split; [exact Y0|].
  destruct (C127_propagate hf_c hf_f None gf_i gf_p gf_a (fun _ => [7; 3]) [2 / 5; 2 / 5] [RtoC 1; RtoC 1] 0 2 1 y (hf_setting 1 ltac:(lia)) ltac:(right; reflexivity) eq_refl ltac:(cbn; lia) ltac:(cbn; lra) (SOL 2) (or_introl eq_refl) Y0) as (K & N0 & PK & H).
  exists K, N0. split; [exact PK|]. intros N fuel z AW AT po s' q H1 H2 R. destruct (H N fuel true z AW AT po s' q H1 H2 ltac:(intros; split; reflexivity) R) as (d & _ & D2). exists d. intros HT. exact (D2 0%nat 1%nat ltac:(lia) ltac:(cbn; lia) HT).
Qed.
Example ex_C127_runs N : (0 < N)%nat -> exists fuel r q, propagate hf_c fuel hf_f N None true gf_i gf_p = (Ok (Some r), q).
Proof. intros HN. destruct (C33_propagate_returns _ _ _ _ true _ _ _ _ _ _ _ (hf_setting N HN)) as (fuel & z & AW & AT & po & s' & q & E). exists fuel. eexists. exists q. exact E. Qed.

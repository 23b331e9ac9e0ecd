(** Concrete cases that meet the hypotheses of C125. *)
From Coq Require Import Reals List ZArith Bool Arith Lia Lra.
From Coquelicot Require Import Coquelicot.
From Verif Require Import Base CNum NumPy Spec ModelFFT FFTProofs ModelPulse PulseProofs PulseOpsProofs ModelSSFM SSFMLoopProofs SSFMProofs SSFMSymProofs SSFMErrProofs SSFMPropProofs SSFMGnlseProofs RkOrderProofs GlobalOrderProofs.
From Verif Require Import PropsSSFMProp PropsSSFMLoop PropsSSFMTriv PropsGnlseFlow.
Import ListNotations.
Local Open Scope R_scope.
Local Notation z0 := (RtoC 0).

(** a lossy medium with a delayed response on two points: a path through every pair of values, and its energy stays between E0 exp(-3 z) and E0 exp(-z) *)
Definition gf_c : cfg := mkCfg (1 / 1000) METHOD_RK4IP 5 true true true (1 / 10) (3 / 10) true.
Definition gf_s : ssfm := mkS [RtoC 1; (RtoC 2 + Ci)%C] 1 0 None 1 [] [RtoC 3; RtoC 7] [RtoC 1; RtoC 3] (1 / 2) 1 [RtoC 0; RtoC 1] (map (fun z => RtoC 1 + RtoC 2 * z)%C (fft_t gf_c (map RtoC [1; 3]))) 1.
Lemma gf_wf : wf 2 gf_s. Proof. repeat split. Qed.
Lemma gf_resp : real_response gf_c 2 (s_R gf_s). Proof. exists 1, 2, [1; 3]. split; reflexivity. Qed.
Example ex_C125_equation : exists y, y 0 = [RtoC 1; (RtoC 2 + Ci)%C] /\ (forall Z, gnlse_solution gf_c 2 gf_s 1 Z y) /\ (forall y', gnlse_solution gf_c 2 gf_s 1 5 y' -> y' 0 = y 0 -> y' 5 = y 5) /\
  forall z, 0 <= z <= 5 -> 6 * exp (-3 * z) <= power_sum (y z) <= 6 * exp (-1 * z).
Proof.
  destruct (C125_equation gf_c 2 gf_s 1 [RtoC 1; (RtoC 2 + Ci)%C] eq_refl gf_wf gf_resp eq_refl) as ((y & Y0 & S) & U & E & _). exists y. split; [exact Y0|]. split; [exact S|]. split.
  - intros y' S' E'. apply (U 5 y' y S' (S 5)); [congruence|exact Y0|lra].
  - intros z Hz. assert (P : power_sum [RtoC 1; (RtoC 2 + Ci)%C] = 6) by (rewrite power_sum_rsum; cbn [length]; rewrite !rsum_S, rsum_0; unfold Cnorm2; cbn; ring). rewrite <- P.
    apply (E 5 y (-3) (-1) (S 5) Y0); [|exact Hz]. intros [|[|m]] Hm; [| |lia]; cbn; lra.
Qed.
Example ex_C125_back : exists y y', y 0 = [RtoC 1; (RtoC 2 + Ci)%C] /\ gnlse_solution gf_c 2 gf_s 1 5 y /\ gnlse_solution gf_c 2 gf_s (-1) 5 y' /\ y' 0 = y 5 /\ y' 5 = [RtoC 1; (RtoC 2 + Ci)%C].
Proof.
  destruct (C125_equation gf_c 2 gf_s 1 [RtoC 1; (RtoC 2 + Ci)%C] eq_refl gf_wf gf_resp eq_refl) as ((y & Y0 & S) & _ & _ & B). destruct (C125_equation gf_c 2 gf_s (-1) (y 5) eq_refl gf_wf gf_resp (proj1 (S 5) 5)) as ((y' & Y0' & S') & _). exists y, y'. split; [exact Y0|]. split; [exact (S 5)|]. split; [exact (S' 5)|]. split; [exact Y0'|].
  replace (-1) with (- (1)) in S' by lra. rewrite (B 5 y y' (S 5) Y0 (S' 5) Y0' 5) by lra. replace (5 - 5) with 0 by ring. exact Y0.
Qed.
Example ex_C125_adaptive : exists y, y 0 = s_A gf_s /\ exists K H0, 0 <= K /\ 0 < H0 /\ forall err fuel r H, integrate_trace (mkCfg err METHOD_RK4IP 5 false true true (1 / 10) (3 / 10) true) fuel 1 1 gf_s = Some r ->
  (forall h, In h (l_steps r) -> h <= H) -> 0 < H <= H0 -> Cmod (nth 1 (s_A (l_st r)) z0 - nth 1 (y (lrsum (l_steps r))) z0)%C <= K * H ^ 5.
Proof.
  destruct (C125_adaptive gf_c 2 gf_s 1 1 eq_refl ltac:(cbn; lia) eq_refl gf_wf gf_resp ltac:(lra)) as (y & Y0 & _ & K & H0 & PK & PH & H). exists y. split; [exact Y0|]. exists K, H0. split; [exact PK|]. split; [exact PH|].
  intros err fuel r h E Hs Hh. exact (H (mkCfg err METHOD_RK4IP 5 false true true (1 / 10) (3 / 10) true) gf_s fuel 1 r h eq_refl eq_refl eq_refl eq_refl ltac:(repeat split) eq_refl ltac:(cbn; lra) ltac:(lra) E Hs Hh 1%nat ltac:(lia)).
Qed.
(** a fiber of one metre with dispersion, Kerr effect and gain, and a pulse that is no eigenstate *)
Definition gf_f : fiber := mkFiber 1 (fun _ => ret [7; 3]) (fun _ => ret [1 / 10; 1 / 5]) (1 / 2) (fun _ => 1 / 2).
Definition gf_a : list C := FFT_t [RtoC 1; RtoC 2].
Definition gf_p : pulse := mkPulse 2 100 1 (Some gf_a) (Some 1) true None None None None.
Definition gf_i : ssfm := mkS [] 1 0 None 1 [] [] [] 0 1 [] [] 0.
Lemma gf_setting N : (0 < N)%nat -> setting gf_c gf_f N None gf_i gf_p gf_a (fun _ => [7; 3]) [1 / 10; 1 / 5] [RtoC 1; RtoC 1] 0.
Proof.
  intros HN. split; [repeat split|]. split; [cbn; lia|]. split; [cbn; lra|]. split; [|split; [reflexivity|]; cbn; repeat split; try exact HN; lra].
  split; [intros z q Hq; exists q; split; [reflexivity|exact Hq]|]. split; [intros q Hq; exists q; split; [reflexivity|exact Hq]|]. split; reflexivity.
Qed.
Example ex_C125_propagate : exists y, y 0 = [RtoC 2; RtoC 1] /\ (forall z, 0 <= z -> 5 * exp (1 / 10 * z) <= power_sum (y z) <= 5 * exp (1 / 5 * z)) /\
  exists K N0, 0 <= K /\ forall N fuel z AW AT po s' q, (N0 <= N)%nat -> (0 < N)%nat -> propagate gf_c fuel gf_f N None true gf_i gf_p = (Ok (Some (z, AW, AT, po, s')), q) ->
  exists d : nat -> R, (forall j, (j < N)%nat -> 1 / INR N <= d j) /\ forall i, (i < N)%nat -> rsum (S i) d <= 2 -> Cmod (nth 0 (nth i AT []) z0 - nth 1 (y (rsum (S i) d)) z0)%C <= K * (1 / INR N) ^ 5.
Proof.
  destruct (C125_propagate gf_c gf_f None gf_i gf_p gf_a (fun _ => [7; 3]) [1 / 10; 1 / 5] [RtoC 1; RtoC 1] 0 2 (gf_setting 1 ltac:(lia)) ltac:(right; reflexivity) eq_refl ltac:(cbn; lia) eq_refl ltac:(cbn; lra)) as (y & Y0 & SOL & E & K & N0 & PK & H).
  exists y. unfold gf_a in Y0, E. rewrite IFFT_FFT_t in Y0, E. split; [exact Y0|]. split.
  - intros z Hz. assert (P : power_sum [RtoC 1; RtoC 2] = 5) by (rewrite power_sum_rsum; cbn [length]; rewrite !rsum_S, rsum_0; unfold Cnorm2; cbn; ring). rewrite P in E. apply E; [|exact Hz]. change (p_n gf_p) with 2%nat. intros [|[|m]] Hm; [cbn [nth]; lra|cbn [nth]; lra|lia].
  - exists K, N0. split; [exact PK|]. intros N fuel z AW AT po s' q H1 H2 R. destruct (H N fuel true z AW AT po s' q H1 H2 ltac:(intros; split; reflexivity) R) as (d & D1 & D2). exists d. split; [intros j Hj; apply (D1 j Hj)|]. intros i Hi HT. specialize (D2 i 0%nat Hi ltac:(cbn; lia) HT).
    unfold cifftshift in D2. cbn [c_pre gf_c] in D2. assert (LY := proj1 (SOL 0) (rsum (S i) d)). rewrite ifftshift_nth in D2 by (rewrite LY; cbn; lia). rewrite LY in D2. exact D2.
Qed.
Example ex_C125_runs N : (0 < N)%nat -> exists fuel r q, propagate gf_c fuel gf_f N None true gf_i gf_p = (Ok (Some r), q).
Proof. intros HN. destruct (C33_propagate_returns _ _ _ _ true _ _ _ _ _ _ _ (gf_setting N HN)) as (fuel & z & AW & AT & po & s' & q & E). exists fuel. eexists. exists q. exact E. Qed.

(** Concrete cases that meet the hypotheses of C113. *)
From Coq Require Import Reals List ZArith Bool Arith Lia Lra.
From Coquelicot Require Import Coquelicot.
From Verif Require Import Base CNum NumPy ModelFFT FFTProofs ModelPulse PulseProofs ModelSSFM SSFMLoopProofs SSFMProofs SSFMSymProofs SSFMPropProofs SSFMGnlseProofs SSFMPhotonProofs.
From Verif Require Import PropsSSFMPhoton ExSSFM ExGnlse.
Import ListNotations.
Local Open Scope R_scope.
Local Notation z0 := (RtoC 0).

(** 8 samples of 2 + exp(-i t), a delayed response, gamma 1/2, centre frequency 5, offset frequencies -4 .. 3, loss 1/10 *)
Definition phA : list C := vadd (line 8 (RtoC 2) 0) (vscale (RtoC 1) (line 8 (RtoC 1) 1)).
Definition phR : list C := map (fun z => RtoC (1 / 2) + RtoC 3 * z)%C (fft_t xsteep (map RtoC [1; 0; 2; 0; 0; 1; 0; 0])).
Definition phs : ssfm := mkS phA (1 / 100) 0 None 1 (repeat z0 8) (mk 8 (fun j => RtoC (INR j))) (mk 8 (fun _ => RtoC (1 / 10))) (1 / 2) 5 (mk 8 (fun j => RtoC (dfreq 1 8 j))) phR 0.
Lemma phA_len : length phA = 8%nat. Proof. reflexivity. Qed.
Lemma ph_wf : wf 8 phs.
Proof. repeat split. Qed.
Lemma ph_band : band 8 1 phA.
Proof.
  intros m Hm Hs. unfold phA. rewrite (ifft_line_at 8) by (try exact Hm; apply mk_length). rewrite !ifft_line by lia. unfold bin. rewrite !mk_nth by exact Hm.
  destruct m as [|[|m]]; [discriminate Hs|discriminate Hs|]. cbn [Nat.eqb]. ring.
Qed.
Lemma ph_big k : (k < 8)%nat -> / 10 ^ 15 < Cmod (nth k phA z0).
Proof.
  intros Hk. apply Rlt_le_trans with 1; [apply Rlt_le_trans with (/ 1); [apply Rinv_lt_contravar|]; lra|].
  unfold phA. rewrite vadd_nth by reflexivity. rewrite vscale_nth. unfold line. rewrite !mk_nth by exact Hk.
  set (w := cis _). set (u := (RtoC 1 * (RtoC 1 * cis (- (2 * PI * INR 1 * INR k / INR 8))))%C).
  assert (Hw : w = RtoC 1). { unfold w. replace (- (2 * PI * INR 0 * INR k / INR 8)) with 0 by (cbn [INR]; unfold Rdiv; ring). apply cis_0. }
  assert (Hu : Cmod u = 1) by (unfold u; rewrite !Cmod_mult, Cmod_R, cis_mod, Rabs_pos_eq; lra).
  rewrite Hw. pose proof (Cmod_triangle (RtoC 2 * RtoC 1 + u)%C (- u)%C) as T. rewrite Cmod_opp, Hu in T. replace (RtoC 2 * RtoC 1 + u + - u)%C with (RtoC 2) in T by ring.
  rewrite Cmod_R, Rabs_pos_eq in T by lra. lra.
Qed.
Lemma ph_freq m : (m < 8)%nat -> 0 < s_w0 phs + dfreq 1 8 m.
Proof.
  intros Hm. cbn [s_w0 phs]. unfold dfreq. pose proof (sbin_range 8 m Hm) as (L & _). assert (-4 <= sbin 8 m)%Z by lia. apply IZR_le in H. lra.
Qed.
Example ex_C113_equation : Cmod (nth 2 (ifft (vmul (nonlinear xsteep phs phA) phA)) z0 - Ci * RtoC (1 / 2 * ((5 + dfreq 1 8 2) / 5)) * nth 2 (ifft (vmul phA (fft (vmul phR (ifft (map (fun z => RtoC (Cnorm2 z)) phA)))))) z0)%C
    <= Rabs (1 / 2 / 5) * (/ INR 8 * rsum 8 (fun k => Cmod (nth k (dlist 8 1 phA) z0) * Cmod (nth k (fft (vmul phR (ifft (map (fun z => RtoC (Cnorm2 z)) phA)))) z0) * (/ 10 ^ 20 / (Cmod (nth k phA z0) - / 10 ^ 20)))).
Proof.
  apply (C113_shock_equation xsteep 8 phs phA 1 1 2 (fun k => nth k (dlist 8 1 phA) z0) eq_refl eq_refl ph_wf phA_len); try lia; try reflexivity; try exact ph_band; try exact ph_big; try (cbn [s_w0 phs]; lra).
  intros k Hk. apply dlist_cderive; [lra|exact phA_len|exact Hk].
Qed.
Example ex_C113_photons : exists r, is_derive (fun t => photons 8 5 1 (vadd phA (vscale (RtoC t) (gnlse xsteep phs phA)))) 0 r /\
    Rabs (r - - rsum 8 (fun m => 1 / 10 * Cnorm2 (nth m (ifft phA) z0) / (5 + dfreq 1 8 m))) <=
      2 * (Rabs (1 / 2 / 5) * (/ INR 8 * rsum 8 (fun k => Cmod (nth k (dlist 8 1 phA) z0) * Cmod (nth k (fft (vmul phR (ifft (map (fun z => RtoC (Cnorm2 z)) phA)))) z0) * (/ 10 ^ 20 / (Cmod (nth k phA z0) - / 10 ^ 20))))) *
      rsum 8 (fun m => Cmod (nth m (ifft phA) z0) / (5 + dfreq 1 8 m)).
Proof.
  apply (C113_photon_number xsteep 8 phs phA 1 1 (fun k => nth k (dlist 8 1 phA) z0) INR (fun _ => 1 / 10) eq_refl eq_refl ph_wf phA_len); try lia; try reflexivity; try exact ph_band; try exact ph_big; try exact ph_freq; try (cbn [s_w0 phs]; lra).
  - exists (1 / 2), 3, [1; 0; 2; 0; 0; 1; 0; 0]. split; reflexivity.
  - intros k Hk. apply dlist_cderive; [lra|exact phA_len|exact Hk].
Qed.
(** the four-point pulse and fiber of ExSSFM *)
Example ex_C113_setup : exists s0 s1 q1 q2 be al, setup_fftw (rc true) xf None x0 xp = (Ok s0, q1) /\ load_fiber_parameters (rc true) xf 0 s0 q1 = (Ok s1, q2) /\ wf 4 s1 /\
    s_omegas s1 = mk 4 (fun j => RtoC (dfreq (2 * PI / (2 * PI)) 4 j)) /\ s_w0 s1 = 2 * PI * 200 /\
    s_betas s1 = mk 4 (fun j => RtoC (be j)) /\ s_alpha s1 = mk 4 (fun j => RtoC (al j)) /\ real_response (rc true) 4 (s_R s1) /\
    (forall j, (j < 4)%nat -> be j = nth (zmodn 4 (Z.of_nat j - Z.of_nat 2)) [0; 1; 2 - 0; 0] 0 /\ al j = - nth (zmodn 4 (Z.of_nat j - Z.of_nat 2)) [1 / 2; 0; 0; 1 / 4] 0).
Proof.
  destruct (xp_setting true) as (Rw & HA & _ & _ & An & HR & _).
  apply (C113_setup (rc true) xf xp xp None (fun z => [z; 1; 2 - z; 0]) [1 / 2; 0; 0; 1 / 4] xa Rw (18 / 100) x0 2); try assumption; try reflexivity; try lia; try apply like_refl.
  cbn [p_tw xp]. pose proof PI_RGT_0. lra.
Qed.

(** Concrete cases that meet the hypotheses of the derived-pulse theorems (C23-C25). *)
From Coq Require Import String.
From Coq Require Import Reals List ZArith Bool Arith Lia Lra.
From Coquelicot Require Import Complex.
From Verif Require Import Base CNum NumPy ModelFFT FFTProofs ModelPulse Spec ModelPulseOps PulseProofs PulseHistory PulseOpsProofs PulseRegridProofs ModelDerived DerivedProofs.
From Verif Require Import PropsDerived ExPulse.
Import ListNotations.
Local Open Scope R_scope.

(** 1 kW, 0.5 ps, 1550 nm, 10 ps window, 4 points *)
Example ex_C23_sech : exists p t, construct (sech_pulse 1000 (1/2) 1550 10 None 4 0 0 3 (-1) false) = Ok p /\ get_AT p = (Ok t, p) /\
  Cmod (nth 2 t (RtoC 0)) ^ 2 = 1000 /\ Cmod (nth 3 t (RtoC 0)) ^ 2 < 1000 /\ p_frep p = Some 100.
Proof.
  destruct (C23_sech_peak_power 1000 (1/2) 1550 10 None 4 3 (-1)) as (p & t & E1 & E2 & E3 & E4 & E5 & E6); try lra.
  exists p, t. split; [exact E1|]. split; [exact E3|]. split; [apply (E6 2%nat); lia|]. split; [|unfold frame in E2; injection E2; intros; assumption].
  destruct (E5 3%nat) as [V _]; [lia|]. rewrite V. unfold time_of. simpl INR.
  replace ((- (10 / 2) + (1 + 1 + 1) * (10 / (1 + 1 + 1 + 1))) / (1 / 2)) with 5 by field.
  assert (H : 3 < cosh 5). { unfold cosh. pose proof (exp_ineq1 5 ltac:(lra)). pose proof (exp_pos (Ropp 5)). lra. }
  assert (9 < cosh 5 ^ 2) by (simpl; nra). apply (Rmult_lt_reg_r (cosh 5 ^ 2)); [lra|].
  replace (1000 / cosh 5 ^ 2 * cosh 5 ^ 2) with 1000 by (field; nra). lra.
Qed.
Example ex_C23_sech_avg : exists p e, construct (sech_pulse (1/10) (1/2) 1550 10 (Some 80) 4 0 0 3 (-1) true) = Ok p /\ calc_epp p = (Ok e, p) /\ e * 80000000 = 1 / 10.
Proof.
  destruct (C23_sech_average_power (1/10) (1/2) 1550 10 80 4 3 (-1)) as (p & t & e & k & E1 & E2 & E3 & E4 & E5 & E6 & _); try lra; try lia.
  exists p, e. repeat split; [exact E1|exact E3|]. rewrite <- E5. ring.
Qed.
Example ex_C23_gauss_avg : exists p e, construct (gaussian_pulse (1/10) (1/2) 1550 10 (Some 80) 4 0 0 3 (-1) true) = Ok p /\ calc_epp p = (Ok e, p) /\ e * 80000000 = 1 / 10.
Proof.
  destruct (C23_gaussian_average_power (1/10) (1/2) 1550 10 80 4 3 (-1)) as (p & t & e & k & E1 & E2 & E3 & E4 & E5 & E6 & _); try lra; try lia.
  exists p, e. repeat split; [exact E1|exact E3|]. rewrite <- E5. ring.
Qed.
Example ex_C23_gauss_peak : exists p t, construct (gaussian_pulse 1000 (1/2) 1550 10 None 4 0 0 3 (-1) false) = Ok p /\ get_AT p = (Ok t, p) /\ Cmod (nth 2 t (RtoC 0)) ^ 2 = 1000.
Proof.
  destruct (C23_gaussian_peak_power 1000 (1/2) 1550 10 None 4 3 (-1)) as (p & t & E1 & E2 & E3 & E4 & E5 & E6); try lra.
  exists p, t. repeat split; [exact E1|exact E3|]. apply (E6 2%nat); lia.
Qed.
Example ex_C23_gauss_zero : exists e, construct (gaussian_pulse 0 (1/2) 1550 10 (Some 80) 4 0 0 0 0 true) = Raise e.
Proof. eexists. apply C23_gaussian_zero_average_power_refuted; try lra; lia. Qed.
Example ex_C23_doc : exists p t, construct (gaussian_pulse 1000 (1/2) 1550 10 None 4 0 0 0 0 false) = Ok p /\ get_AT p = (Ok t, p) /\
  Cmod (nth 0 t (RtoC 0)) < sqrt 1000 * exp (- (time_of 10 4 0 / (1/2)) ^ 2 / 2).
Proof. apply C23_gaussian_docstring_profile_refuted; try lra; lia. Qed.

Lemma py_round_int z : py_round (IZR z) = z.
Proof.
  pose proof (py_round_half (IZR z)) as H. rewrite <- minus_IZR in H. set (d := (py_round (IZR z) - z)%Z) in *.
  assert (IZR d < 1 /\ -1 < IZR d) as [A B] by (unfold Rabs in H; destruct (Rcase_abs (IZR d)); lra).
  apply lt_IZR in A. apply (lt_IZR (-1)) in B. unfold d in *. lia.
Qed.
Lemma freq_big r : (Z.abs r <= 1000)%Z -> c_nmps / 1550 <> IZR r / 10.
Proof.
  intros H. assert (IZR r <= 1000) by (apply IZR_le; lia). unfold c_nmps, c_mks. intros E. lra.
Qed.

Example ex_C24 : exists p a, construct (cw_pulse 2 1550 10 16 None) = Ok p /\ get_AW p = (Ok a, p) /\ Cmod (nth 8 a (RtoC 0)) ^ 2 = 2 /\ nth 9 a (RtoC 0) = RtoC 0.
Proof.
  destruct (C24_cw_line 2 1550 10 16 8) as (p & a & F & E1 & E2 & E3 & E4 & E5 & E6 & E7); try lra; try lia.
  exists p, a. repeat split; [exact E1|exact E2|exact E6|apply E7; lia].
Qed.
(** an offset of half a THz is five bins of 0.1 THz *)
Example ex_C24_offset : exists p a F i, construct (cw_pulse 2 1550 10 16 (Some (1/2))) = Ok p /\ get_AW p = (Ok a, p) /\ get_F_THz p = (Ok F, p) /\
  get_center_frequency_THz p = (Ok (c_nmps / 1550 - 1 / 2), p) /\ (i < 16)%nat /\ nth i F 0 = c_nmps / 1550 /\ Cmod (nth i a (RtoC 0)) ^ 2 = 2.
Proof.
  assert (Hr : 5%Z = py_round (1 / 2 * 10)) by (replace (1 / 2 * 10) with 5 by field; now rewrite py_round_int).
  destruct (C24_cw_offset_partial 2 1550 10 (1/2) 16 8 5) as (p & a & F & i & E1 & E2 & E3 & E4 & E5 & E6 & E7 & E8 & E9 & _); try lra; try lia; try assumption.
  { apply freq_big. lia. }
  exists p, a, F, i. repeat split; try assumption. rewrite E5. f_equal. f_equal. field.
Qed.
Example ex_C24_above : construct (cw_pulse 2 1550 10 16 (Some 1)) = Raise IndexError.
Proof.
  apply (C24_cw_offset_above 2 1550 10 1 16 8); try lra; try lia; rewrite Rmult_1_l, py_round_int; [lia|apply freq_big; lia].
Qed.
Example ex_C24_below : exists p a F i, construct (cw_pulse 2 1550 10 16 (Some (-1))) = Ok p /\ get_AW p = (Ok a, p) /\ get_F_THz p = (Ok F, p) /\
  Cmod (nth i a (RtoC 0)) ^ 2 = 2 /\ nth i F 0 = c_nmps / 1550 + 16 / 10.
Proof.
  assert (Hr : (-10)%Z = py_round (-1 * 10)) by (replace (-1 * 10) with (-10) by ring; now rewrite py_round_int).
  destruct (C24_cw_offset_below_refuted 2 1550 10 (-1) 16 8 (-10)) as (p & a & F & i & E1 & E2 & E3 & E4 & E5 & E6 & E7 & E8); try lra; try lia; try assumption.
  { apply freq_big. lia. }
  exists p, a, F, i. repeat split; try assumption. rewrite E7. simpl INR. f_equal. f_equal. ring.
Qed.

Example ex_C25_sinc : exists p t, construct (sinc_pulse 1000 (1/2) 1550 10 None 4 0 0 0 0 false) = Ok p /\ get_AT p = (Ok t, p) /\ Cmod (nth 2 t (RtoC 0)) ^ 2 = 1000.
Proof.
  destruct (C25_sinc_peak_power_partial 1000 (1/2) 1550 10 None 4 0 0) as (p & t & E1 & E2 & E3 & E4 & E5 & E6); try lra.
  exists p, t. repeat split; [exact E1|exact E3|]. apply (E6 2%nat); lia.
Qed.
(** a wide sinc on a narrow window: no sample of the model's np.sinc vanishes, |pi t/T0| < pi *)
Example ex_C25_sinc_avg : exists p t, construct (sinc_pulse 1 (37909885/1000000) 1550 10 (Some 80) 4 0 0 0 0 true) = Ok p /\ get_AT p = (Ok t, p) /\
  Cmod (nth 2 t (RtoC 0)) < Cmod (nth 3 t (RtoC 0)).
Proof.
  destruct (C25_sinc_average_power_refuted 1 (37909885/1000000) 1550 10 80 4 2 0 0) as (p & t & E1 & E2 & E3 & E4 & E5); try lra; try lia.
  - intros j Hj. replace (37909885 / 1000000 / (37909885 / 10000000)) with 10 by field.
    unfold np_sinc. destruct (Req_EM_T (time_of 10 4 j / 10) 0) as [_|N]; [lra|]. pose proof PI_RGT_0.
    assert (B : -1/2 <= time_of 10 4 j / 10 <= 1/2).
    { unfold time_of. do 4 (destruct j as [|j]; [simpl INR; lra|]). lia. }
    set (x := time_of 10 4 j / 10) in *. assert (sin (PI * x) <> 0).
    { destruct (Rlt_le_dec x 0).
      - assert (sin (PI * x) < 0); [|lra]. apply sin_lt_0_var; nra.
      - assert (0 < sin (PI * x)); [|lra]. apply sin_gt_0; [apply Rmult_lt_0_compat; lra|nra]. }
    intros E. apply Rmult_integral in E. destruct E as [E|E]; [contradiction|]. revert E. apply Rinv_neq_0_compat. apply Rmult_integral_contrapositive; split; lra.
  - exists p, t. repeat split; [exact E1|exact E2|apply E5; lia].
Qed.
Example ex_C25_noise : exists p a, construct (noise_pulse 1550 10 4 None (fun k => INR k / 10)) = Ok p /\ get_AW p = (Ok a, p) /\
  Im (nth 1 a (RtoC 0)) = 0 /\ Cmod (nth 1 a (RtoC 0)) <> Cmod (nth 2 a (RtoC 0)).
Proof.
  destruct (C25_noise_phase_refuted 1550 10 4 None (fun k => INR k / 10)) as (p & a & E1 & E2 & E3 & E4 & E5).
  exists p, a. repeat split; [exact E1|exact E2|apply E4; lia|]. intros E. apply E5 in E; try lia. simpl INR in E. lra.
Qed.
Example ex_C25_noise_tiny : exists p a, construct (noise_pulse 1550 10 4 None (fun _ => 1 / 2)) = Ok p /\ get_AW p = (Ok a, p) /\ Cmod (nth 1 a (RtoC 0)) <= / 10 ^ 30.
Proof.
  destruct (C25_noise_tiny_partial 1550 10 4 None (fun _ => 1 / 2)) as (p & a & E1 & E2 & E3 & E4); [intros; lra|].
  exists p, a. repeat split; [exact E1|exact E2|apply E4; lia].
Qed.
Example ex_C25_frog_missing : exists p, construct (frog_pulse ex_str 10 1550 1 None 4 false None false) = Ok p /\ fst (get_AW p) = Raise RuntimeError.
Proof. destruct (C25_frog_missing_file_refuted ex_str 10 1550 1 None 4 false) as (p & A & B & _); try lra. eauto. Qed.

(** a FROG file with a flat spectrum over 1000-2000 nm *)
Lemma frog_flat c : 0 < c -> forall v, 1000 <= v <= 2000 -> interp_real [1000; 2000] [c; c] v = c.
Proof.
  intros Hc v Hv. unfold interp_real. change [1000; 2000] with (mk 2 (fun i => nth i [1000; 2000] 0)).
  rewrite (interp1_chord 2 _ _ v 0); cbn [nth]; [|intros i k Hk; assert (i = 0%nat) by lia; assert (k = 1%nat) by lia; subst; cbn [nth]; lra|lia|exact Hv].
  cbn [map nth]. simpl. field.
Qed.
Lemma frog_zero_phase v : 1000 <= v <= 2000 -> interp_real [1000; 2000] [0; 0] v = 0.
Proof.
  intros Hv. unfold interp_real. change [1000; 2000] with (mk 2 (fun i => nth i [1000; 2000] 0)).
  rewrite (interp1_chord 2 _ _ v 0); cbn [nth]; [|intros i k Hk; assert (i = 0%nat) by lia; assert (k = 1%nat) by lia; subst; cbn [nth]; lra|lia|exact Hv].
  cbn [map nth]. simpl. field.
Qed.
Example ex_C25_frog : exists p, construct (frog_pulse ex_str 10 1550 3 None 4 false (Some ([1000; 2000], [1/4; 1/4], [0; 0])) false) = Ok p /\ calc_epp p = (Ok 3, p).
Proof.
  assert (X : exists p, construct (frog_pulse ex_str 10 1550 3 None 4 false (Some ([1000; 2000], [1/4; 1/4], [0; 0])) false) = Ok p).
  2:{ destruct X as [p X]. exists p. split; [exact X|]. apply (C25_frog_energy ex_str 10 1550 3 100 None 4 false false [1000; 2000] [1/4; 1/4] [0; 0] p); try lra; [reflexivity|exact X]. }
  set (s0 := blank None 4 1550 10). set (w := map (fun x => 2 * PI * c_nmps / x) (W_of s0)).
  assert (Lw : length w = 4%nat) by reflexivity.
  assert (Hw : forall v, In v w -> 1000 <= v <= 2000).
  { intros v Hv. unfold w in Hv. apply in_map_iff in Hv. destruct Hv as (x & <- & Hx). rewrite W_of_spec in Hx. apply (In_nth _ _ 0) in Hx.
    destruct Hx as (k & Hk & <-). change (length (spec_W (p_n s0) (p_tw s0) (p_f s0))) with 4%nat in Hk. rewrite spec_W_nth by exact Hk.
    change (p_n s0) with 4%nat. change (p_tw s0) with 10. change (p_f s0) with (c_nmps / 1550). pose proof PI_RGT_0.
    assert (B : 151 < c_nmps / 1550 + (INR k - INR 4 / 2) / 10 < 290).
    { unfold c_nmps, c_mks. do 4 (destruct k as [|k]; [simpl INR; lra|]). lia. }
    set (y := c_nmps / 1550 + (INR k - INR 4 / 2) / 10) in *.
    replace (2 * PI * c_nmps / (2 * PI * y)) with (c_nmps / y) by (field; split; lra).
    split; apply (Rmult_le_reg_r y); try lra; unfold Rdiv; rewrite Rmult_assoc, Rinv_l by lra; unfold c_nmps, c_mks in *; lra. }
  set (p1 := with_wlc (Some (hash_of ex_str s0)) (Some w) s0).
  assert (Hg : get_wl_nm ex_str s0 = (Ok (Some w), p1)) by reflexivity.
  assert (Es : map2 (fun i t => (RtoC i * cis t)%C) (map (interp_real [1000; 2000] [1/4; 1/4]) w) (map (interp_real [1000; 2000] [0; 0]) w) = FFT_t (delta 4 2)).
  { apply (list_ext (RtoC 0)); rewrite map2_length by now rewrite !map_length.
    - now rewrite map_length, FFT_t_length.
    - rewrite map_length, Lw. intros k Hk. rewrite (map2_nth _ _ _ _ 0 0) by (rewrite ?map_length, ?Lw; auto).
      rewrite !(nth_map' _ w k 0) by lia. assert (Hin : In (nth k w 0) w) by (apply nth_In; lia).
      rewrite frog_flat, frog_zero_phase by (try lra; now apply Hw). rewrite FFT_t_delta by lia.
      rewrite (tw_mod 4 _ 0) by (try lia; change (Z.of_nat (Nat.div2 4)) with 2%Z; change (Z.of_nat 2) with 2%Z; replace ((2 + 2) * (Z.of_nat k + 2))%Z with ((Z.of_nat k + 2) * Z.of_nat 4)%Z by (simpl (Z.of_nat 4); ring); now rewrite Z_mod_mult).
      rewrite tw_0, cis_0. f_equal. f_equal. simpl INR. lra. }
  unfold construct, frog_pulse. unfold assert_gt1. destruct (Rlt_dec 1 1550); [|lra]. destruct (Rlt_dec 1 10); [|lra].
  match goal with |- context [bind get ?k] => match goal with |- context [match ?z with _ => _ end = Ok _] =>
    assert (H0 : z = k s0 s0) by reflexivity; rewrite H0; clear H0 end end.
  cbv beta. unfold bind at 1, ret at 1. cbv beta zeta. unfold bind at 1. rewrite Hg. unfold bind at 1, as_array at 1, ret at 1.
  unfold bind at 1. rewrite (get_wl_hit ex_str p1 w) by reflexivity. unfold bind at 1, as_array at 1, ret at 1.
  unfold bind at 1, lift at 1. rewrite broadcast2_eq by now rewrite !map_length. rewrite Es.
  unfold bind at 1. rewrite set_AW_ok; [|split; [reflexivity|left; reflexivity]|reflexivity].
  set (p2 := with_AW (Some (FFT_t (delta 4 2))) p1). 
  assert (Hh : holds p2 (FFT_t (delta 4 2))) by (split; [reflexivity|split; reflexivity]).
  unfold bind at 1. rewrite (calc_epp_run p2 _ Hh) by (change (0 < 4)%nat; lia).
  rewrite IFFT_FFT_t, trapz_delta by lia. cbn [Nat.eqb Nat.sub]. change (p_n p2) with 4%nat. change (p_tw p2) with 10. simpl INR.
  unfold bind at 1, finite_unless, is0, neg.
  match goal with |- context [Req_EM_T ?e 0] => destruct (Req_EM_T e 0); [lra|]; assert (0 < e) by lra; assert (0 < 3 / e) by (apply Rdiv_lt_0_compat; lra); destruct (Rlt_dec (3 / e) 0); [lra|] end.
  cbn [orb]. unfold ret at 1. unfold bind at 1. rewrite (get_AT_run p2 (FFT_t (delta 4 2))) by reflexivity.
  rewrite set_AT_ok; [eexists; reflexivity| |].
  - split; [reflexivity|right; eexists; split; reflexivity].
  - rewrite map_length, IFFT_t_length, FFT_t_length. reflexivity.
Qed.

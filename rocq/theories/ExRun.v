(** Concrete cases for C103-C105: a generated fiber, a four-point pulse and the solver. *)
From Coq Require Import String.
From Coq Require Import Reals List ZArith Bool Arith Lia Lra.
From Coquelicot Require Import Complex.
From Verif Require Import Base CNum NumPy ModelPulse PulseProofs PulseRegridProofs PulseMoreProofs ModelSSFM SSFMPropProofs SSFMTrivProofs ModelRun RunProofs CoherenceProofs PropsRun PropsCoherence ExSSFM.
From Verif Require ModelFiber FiberProofs ExFiber.
Import ListNotations.
Local Open Scope R_scope.
Local Open Scope py_scope.

(** 200 THz, 2 pi ps window; 5 m of fiber, beta2 = 2 ps^2/km, beta3 = 3 ps^3/km around 1550 nm *)
Lemma xp_holds : holds xp xa.
Proof. repeat split. Qed.
Lemma xp_tw : p_tw xp <> 0 /\ 0 < p_tw xp.
Proof. cbn [xp p_tw]. pose proof PI_RGT_0. split; lra. Qed.
Lemma xp_raman : fst (calc_raman xc (s_fR x0) xp) = Ok (repeat (RtoC 1) 4, 18 / 100).
Proof. reflexivity. Qed.
Example ex_C103 : exists st fuel r q, ModelFiber.generate_fiber 5 1550 [2; 3] 0 (1 / 2) "ps^n/km" "mine" ([ModelFiber.empty_specs], ExFiber.f0) = (Ok tt, st) /\
  propagate xc fuel (view ExFiber.pf ExFiber.sp st) 10 None true x0 xp = (Ok (Some r), q).
Proof.
  destruct (C103_uniform_fiber ExFiber.pf ExFiber.sp [ModelFiber.empty_specs] ExFiber.f0 5 1550 [2; 3] (1 / 2) "ps^n/km" "mine" xc 10 None true x0 xp xa 2 _ _ eq_refl eq_refl ltac:(lra) ltac:(lra) xp_holds eq_refl ltac:(lia) (proj1 xp_tw) ltac:(cbn; lra) xp_raman ltac:(lia) ltac:(cbn; lra) eq_refl ltac:(cbn; lia))
    as (st & E & (fuel & r & q & H) & _). exists st, fuel, r, q. auto.
Qed.
(** the position-dependent case with beta2 = 2 + z *)
Example ex_C103_varying : exists st fuel r q,
  (ModelFiber.generate_fiber 5 1550 [2; 3] 0 (1 / 2) "ps^n/m" "mine" ;;; ModelFiber.set_dispersion_function (ModelFiber.DBetas (fun z => [2 + z])) "GVD") ([ModelFiber.empty_specs], ExFiber.f0) = (Ok tt, st) /\
  propagate xc fuel (view ExFiber.pf ExFiber.sp st) 10 None true x0 xp = (Ok (Some r), q).
Proof.
  destruct (C103_varying_fiber ExFiber.pf ExFiber.sp [ModelFiber.empty_specs] ExFiber.f0 5 1550 [2; 3] (1 / 2) "ps^n/m" "mine" (fun z => [2 + z]) xc 10 None true x0 xp xa 2 _ _ eq_refl eq_refl ltac:(lra) ltac:(lra) xp_holds eq_refl ltac:(lia) (proj1 xp_tw) ltac:(cbn; lra) xp_raman ltac:(lia) ltac:(cbn; lra) eq_refl ltac:(cbn; lia))
    as (st & E & (fuel & r & q & H) & _). exists st, fuel, r, q. auto.
Qed.
(** the propagation constant of the formula is not constantly zero: beta2 alone, pulse centred on the fiber's wavelength *)
Example ex_C103_beta : beta_bin 2 (2 * PI) (c_nmps / 1550) 1550 [2] 0 = 4.
Proof.
  unfold beta_bin, rsum, lrsum, mk. cbn [length seq map fold_right nth Nat.add Nat.sub Factorial.fact Nat.mul]. rewrite !INR_IZR_INZ. cbn [Z.of_nat Pos.of_succ_nat Pos.succ].
  assert (PI <> 0) by (pose proof PI_RGT_0; lra). set (w := 2 * PI * (c_nmps / 1550)). replace (2 * PI * c_nmps / 1550) with w by (unfold w; field). clearbody w. field. assumption.
Qed.

(** C104: a nonlinear fiber from generate_fiber answers for every pulse on the grid, so that the setting is met; both noise types *)
Lemma ex_C104_setting kind : kind <> other_noise -> exists st, ModelFiber.generate_fiber 5 1550 [2; 3] (1 / 10) (1 / 2) "ps^n/km" "mine" ([ModelFiber.empty_specs], ExFiber.f0) = (Ok tt, st) /\
  exists b g, coherence_setting (6.6e-34) xc (view ExFiber.pf ExFiber.sp st) 10 kind x0 xp xa b g (repeat (RtoC 1) 4) (18 / 100).
Proof.
  intros Hk. destruct (generated_taylor [ModelFiber.empty_specs] ExFiber.f0 5 1550 [2; 3] (1 / 10) (1 / 2) "ps^n/km" "mine" eq_refl eq_refl) as (st & E & T & _). exists st. split; [exact E|].
  exists (fun z => mk 4 (beta_bin 2 (2 * PI) 200 1550 (map (fun b => b * 1.0e-3) [2; 3]))), (repeat (1 / 2) 4).
  split; [exact xp_holds|]. split; [cbn; lia|]. split; [apply xp_tw|]. split; [cbn; lra|]. split; [lra|]. split.
  { intros k Hk4. cbn [xp p_f p_n p_tw] in *. pose proof PI_RGT_0 as Hp. pose proof PI2_3_2 as P2. assert (L : -1 <= (INR k - INR 4 / 2) / (2 * PI)).
    { apply Rmult_le_reg_r with (2 * PI); [lra|]. unfold Rdiv. rewrite Rmult_assoc, Rinv_l, Rmult_1_r by lra. assert (0 <= INR k) by apply pos_INR. rewrite (INR_IZR_INZ 4). cbn [Z.of_nat Pos.of_succ_nat Pos.succ]. unfold PI2 in P2. lra. }
    lra. }
  split; [exact Hk|]. split; [lia|]. split. { destruct T as (_ & _ & E3 & _). cbn [view fb_len]. rewrite E3. lra. }
  split; [cbn; lra|]. split; [reflexivity|]. intros q a' (Hr & _) (G1 & G2 & G3 & _).
  pose proof (view_answers ExFiber.pf ExFiber.sp st 5 1550 (1 / 10) (1 / 2) _ q 2 None T Hr G1 ltac:(lia) ltac:(rewrite G2; apply xp_tw) ltac:(lra)) as A. rewrite G1, G2, G3 in A. exact A.
Qed.
Example ex_C104 : forall strf gen seed, exists st fuel,
  (exists r, calculate_coherence strf (6.6e-34) xc fuel (view ExFiber.pf ExFiber.sp st) 5 seed sqrt_N_freq 10 None false gen x0 xp = (Ok (Some r), xp)) \/
  calculate_coherence strf (6.6e-34) xc fuel (view ExFiber.pf ExFiber.sp st) 5 seed sqrt_N_freq 10 None false gen x0 xp = (Raise NonFinite, xp).
Proof.
  intros strf gen seed. destruct (ex_C104_setting sqrt_N_freq ltac:(discriminate)) as (st & _ & b & g & Hs).
  destruct (C104_coherence_ends strf _ _ _ 5 seed _ _ None false gen _ _ _ _ _ _ _ Hs) as (fuel & H). exists st, fuel. apply (H fuel (le_n fuel)). lia.
Qed.
(** a run that returns for certain: the two trials of the witness, read by the description of coherence runs *)
Example ex_C104_returns : forall strf, exists fuel G rs s' gen', calculate_coherence strf 1 sw_c fuel (empty_fiber 1 2) 2 None one_photon_freq 1 None false (sw_gen 1 true) sw_s sw_p = (Ok (Some (G, rs, s', gen')), sw_p) /\
  length rs = 2%nat /\ length G = 1%nat /\ 0 <= nth 1 (nth 0 G []) 0 <= 1.
Proof.
  intros strf.
  assert (NZ : forall j k, (j < 2)%nat -> (k < 2)%nat -> nth k (noisy 1 one_photon_freq 2 1 100 [RtoC 1; RtoC 1] (sw_gen 1 true j)) (RtoC 0) <> RtoC 0).
  { intros j k Hj Hk. rewrite (sw_input 1 true j k ltac:(lra) Hj Hk). intros E. apply (f_equal Re) in E. destruct (true && Nat.eqb j 1)%bool; cbn in E; lra. }
  destruct (C104_linear_fiber strf 1 sw_c (empty_fiber 1 2) 2 None one_photon_freq 1 None false (sw_gen 1 true) sw_s sw_p _ _ _ _ _ (sw_setting 1 ltac:(lra)) (le_n 2) eq_refl (le_n 2) (or_intror eq_refl) (fun _ => eq_refl) NZ) as (fuel & H).
  destruct (H fuel (le_n fuel)) as (G & rs & s' & gen' & E & _). exists fuel, G, rs, s', gen'. split; [exact E|].
  destruct (C104_coherence_run strf 1 sw_c fuel (empty_fiber 1 2) 2 None one_photon_freq 1 None false (sw_gen 1 true) sw_s sw_p _ _ _ _ _ _ _ _ _ _ (sw_setting 1 ltac:(lra)) E) as (_ & _ & _ & L & _ & LG & V).
  split; [exact L|]. split; [exact LG|]. apply (proj2 (V 0%nat ltac:(lia)) 1%nat ltac:(cbn; lia)).
Qed.

(** C105 *)
Example ex_C105 : setting sw_c (empty_fiber 1 2) 1 (Some (1 * 3)) sw_s sw_p [RtoC 1; RtoC 1] (fun _ => repeat 0 2) (repeat 0 2) (repeat (RtoC 1) 2) 0.
Proof. apply (empty_setting sw_c 1 1 (Some (1 * 3)) sw_s sw_p); try reflexivity; try (cbn; lra); try (cbn; lia). repeat split. Qed.

(** Proofs about the grating compressor: C64. *)
From Coq Require Import String.
From Coq Require Import Reals List ZArith Bool Arith Lia Lra.
From Coquelicot Require Import Rcomplements Hierarchy Continuity Derive AutoDerive Complex.
From Verif Require Import Base CNum NumPy ModelFFT FFTProofs ModelPulse ModelPulseOps Spec PulseProofs PulseOpsProofs ModelCrystal CrystalProofs ModelBeam BeamProofs ModelGrating.
Import ListNotations.
Local Open Scope R_scope.
Local Open Scope py_scope.

Lemma arcsin_ok x : -1 <= x <= 1 -> np_arcsin x = Ok (asin x).
Proof. intros [A B]. unfold np_arcsin. destruct (Rle_dec (-1) x); [|lra]. destruct (Rle_dec x 1); [reflexivity|lra]. Qed.
Lemma arcsin_inv x y : np_arcsin x = Ok y -> -1 <= x <= 1 /\ y = asin x.
Proof. unfold np_arcsin. destruct (Rle_dec (-1) x); [|discriminate]. destruct (Rle_dec x 1); [|discriminate]. intros [= <-]. auto. Qed.

(*! C64: whenever calc_theta returns a number, it solves the grating equation sin(g - theta) + sin g = lambda/d with a diffraction angle g - theta between -pi/2 and pi/2; it returns a number exactly for the wavelengths that are diffracted. *)
Lemma C64_grating_equation_l : forall (t : treacy) (wavelength_nm : R),
  (forall theta, calc_theta t wavelength_nm = Ok theta -> sin (t_g t - theta) + sin (t_g t) = wavelength_nm * 1e-9 / t_d t /\ - (PI / 2) <= t_g t - theta <= PI / 2) /\
  ((exists theta, calc_theta t wavelength_nm = Ok theta) <-> t_d t <> 0 /\ exists alpha, sin alpha + sin (t_g t) = wavelength_nm * 1e-9 / t_d t).
Proof.
  intros t wl. unfold calc_theta. set (l := wl * 1e-9). split; [|split].
  - intros theta H. destruct (fdiv l (t_d t)) as [q|] eqn:E; [|discriminate]. cbn [rbind] in H. destruct (np_arcsin (q - sin (t_g t))) as [a|] eqn:Ea; [|discriminate]. injection H as <-. apply fdiv_inv in E as [Z ->]. apply arcsin_inv in Ea as [B ->]. replace (t_g t - (t_g t - asin (l / t_d t - sin (t_g t)))) with (asin (l / t_d t - sin (t_g t))) by ring. rewrite sin_asin by exact B. split; [ring|]. apply asin_bound.
  - intros [theta H]. destruct (fdiv l (t_d t)) as [q|] eqn:E; [|discriminate]. cbn [rbind] in H. destruct (np_arcsin (q - sin (t_g t))) as [a|] eqn:Ea; [|discriminate]. apply fdiv_inv in E as [Z ->]. apply arcsin_inv in Ea as [B ->]. split; [exact Z|]. exists (asin (l / t_d t - sin (t_g t))). rewrite sin_asin by exact B. ring.
  - intros [Z [alpha H]]. rewrite fdiv_ok by exact Z. cbn [rbind]. replace (l / t_d t - sin (t_g t)) with (sin alpha) by lra. rewrite arcsin_ok by apply SIN_bound. eexists. reflexivity.
Qed.
(*! C64: calc_theta on an array of wavelengths always returns (for a grating with a period); every entry that is diffracted is exactly what calc_theta gives for that wavelength alone, and every entry that is not is sent along the grating surface. *)
Lemma C64_theta_array_l : forall (t : treacy) (wls : list R), t_d t <> 0 ->
  exists ths, calc_theta_array t wls = Ok ths /\ length ths = length wls /\ forall i, (i < length wls)%nat ->
    (forall theta, calc_theta t (nth i wls 0) = Ok theta -> nth i ths 0 = theta) /\
    ((forall theta, calc_theta t (nth i wls 0) <> Ok theta) -> Rabs (t_g t - nth i ths 0) = PI / 2).
Proof.
  intros t wls Z. unfold calc_theta_array. set (f := fun wl : R => q <-r fdiv (wl * 1e-9) (t_d t) ;; alpha <-r np_arcsin (coerce (q - sin (t_g t))) ;; Ok (t_g t - alpha)). assert (C : forall v, -1 <= coerce v <= 1) by (intros v; unfold coerce; destruct (Rlt_dec 1 v); [lra|destruct (Rlt_dec v (-1)); lra]).
  assert (E : forall wl, f wl = Ok (t_g t - asin (coerce (wl * 1e-9 / t_d t - sin (t_g t))))). { intros wl. unfold f. rewrite fdiv_ok by exact Z. cbn [rbind]. rewrite arcsin_ok by apply C. reflexivity. }
  rewrite (rtraverse_ok f (fun wl => t_g t - asin (coerce (wl * 1e-9 / t_d t - sin (t_g t))))) by (intros; apply E). eexists. split; [reflexivity|]. split; [apply map_length|]. intros i Hi. rewrite (nth_map' _ _ _ 0) by exact Hi. set (wl := nth i wls 0). unfold calc_theta. rewrite fdiv_ok by exact Z. cbn [rbind]. set (v := wl * 1e-9 / t_d t - sin (t_g t)). split.
  - intros theta H. destruct (np_arcsin v) as [a|] eqn:Ea; [|discriminate]. injection H as <-. apply arcsin_inv in Ea as [B ->]. unfold coerce. destruct (Rlt_dec 1 v); [lra|]. destruct (Rlt_dec v (-1)); [lra|]. reflexivity.
  - intros H. assert (W : 1 < v \/ v < -1). { destruct (Rlt_dec 1 v); [auto|]. destruct (Rlt_dec v (-1)); [auto|]. exfalso. rewrite arcsin_ok in H by lra. exact (H _ eq_refl). } pose proof PI_RGT_0. replace (t_g t - (t_g t - asin (coerce v))) with (asin (coerce v)) by ring. unfold coerce. destruct (Rlt_dec 1 v); [rewrite asin_1, Rabs_pos_eq; lra|]. destruct (Rlt_dec v (-1)); [|lra]. change (-1) with (IZR (Zneg xH)); replace (IZR (Zneg xH)) with (- (1)) by lra; rewrite asin_opp, asin_1, Rabs_Ropp, Rabs_pos_eq; lra.
Qed.

Lemma nm_m (y : R) : 1e9 * y * 1e-9 = y.
Proof. lra. Qed.
Lemma theta_of_omega t om : om <> 0 -> t_d t <> 0 -> -1 <= 2 * PI * c_mks / (om * t_d t) - sin (t_g t) <= 1 -> calc_theta t (1e9 * 2 * PI * c_mks / om) = Ok (t_g t - asin (2 * PI * c_mks / (om * t_d t) - sin (t_g t))).
Proof.
  intros Z D H. unfold calc_theta. replace (1e9 * 2 * PI * c_mks / om * 1e-9) with (2 * PI * c_mks / om) by (replace (1e9 * 2 * PI * c_mks / om) with (1e9 * (2 * PI * c_mks / om)) by (unfold Rdiv; ring); symmetry; apply nm_m). rewrite fdiv_ok by exact D. cbn [rbind]. replace (2 * PI * c_mks / om / t_d t) with (2 * PI * c_mks / (om * t_d t)) by (field; auto). rewrite arcsin_ok by exact H. reflexivity.
Qed.
Lemma cos_asin_pos s : -1 < s < 1 -> 0 < cos (asin s).
Proof. intros H. destruct (asin_bound_lt s H). apply cos_gt_0; assumption. Qed.
Lemma asin_derive x : -1 < x < 1 -> derivable_pt_lim asin x (/ sqrt (1 - x²)).
Proof. intros H. replace (/ sqrt (1 - x²)) with (derive_pt asin x (derivable_pt_asin x H)) by (rewrite derive_pt_asin; unfold Rdiv; ring). apply derive_pt_eq_1 with (pr := derivable_pt_asin x H). reflexivity. Qed.
Lemma c_pos : 0 < c_mks. Proof. unfold c_mks. lra. Qed.
Lemma dphi_ok t om G : om <> 0 -> t_d t <> 0 -> -1 < 2 * PI * c_mks / (om * t_d t) - sin (t_g t) < 1 ->
  let a := asin (2 * PI * c_mks / (om * t_d t) - sin (t_g t)) in calc_dphi_domega t om G = Ok (G / cos a * (1 + cos (t_g t - a)) / c_mks).
Proof.
  intros Z D H a. unfold calc_dphi_domega. rewrite fdiv_ok by exact Z. cbn [rbind]. rewrite theta_of_omega by (assumption || lra). cbn [rbind]. fold a. replace (t_g t - (t_g t - a)) with a by ring. pose proof (cos_asin_pos _ H) as P. fold a in P. rewrite fdiv_ok by lra. cbn [rbind]. pose proof c_pos. rewrite fdiv_ok by lra. reflexivity.
Qed.

(*! C64: for every grating, separation and (nonzero) frequency strictly inside the diffracted range: calc_dphi_domega gives a number for all nearby frequencies, and calc_dt_dw_singlepass at the same wavelength is its derivative with respect to the angular frequency; the compressor's GDD is twice that. *)
Lemma C64_dispersion_is_derivative_l : forall (t : treacy) (om G : R), om <> 0 -> t_d t <> 0 -> -1 < 2 * PI * c_mks / (om * t_d t) - sin (t_g t) < 1 ->
  exists eps v : R, 0 < eps /\ (forall x, Rabs (x - om) < eps -> exists y, calc_dphi_domega t x G = Ok y) /\
    (forall F : R -> R, (forall x, Rabs (x - om) < eps -> calc_dphi_domega t x G = Ok (F x)) -> derivable_pt_lim F om v) /\
    calc_dt_dw_singlepass t (1e9 * 2 * PI * c_mks / om) G = Ok v /\ calc_compressor_gdd t (1e9 * 2 * PI * c_mks / om) G = Ok (2 * v).
Proof.
  intros t om G Z D H. set (s := fun x : R => 2 * PI * c_mks / (x * t_d t) - sin (t_g t)). change (-1 < s om < 1) in H. pose proof c_pos as Pc. pose proof PI_RGT_0 as Ppi.
  assert (Ds : is_derive s om (- (2 * PI * c_mks / (om ^ 2 * t_d t)))). { unfold s. auto_derive; [apply Rmult_integral_contrapositive_currified; assumption|]. field. auto. }
  assert (Cs : continuous s om) by (apply @ex_derive_continuous; eexists; exact Ds).
  assert (Nb : locally om (fun x => x <> 0 /\ -1 < s x < 1)).
  { apply filter_and; [apply (open_neq 0); exact Z|]. apply (Cs (fun y => -1 < y < 1)). apply open_and; [apply open_gt|apply open_lt|exact H]. }
  destruct Nb as [eps Heps]. assert (He : forall x, Rabs (x - om) < eps -> x <> 0 /\ -1 < s x < 1) by (intros x Hx; apply Heps; exact Hx).
  set (h := fun a : R => G / cos a * (1 + cos (t_g t - a)) / c_mks). set (a0 := asin (s om)). pose proof (cos_asin_pos _ H) as Pa. fold a0 in Pa.
  assert (S0 : sin a0 = s om) by (unfold a0; apply sin_asin; lra). assert (C2 : 1 - s om ^ 2 = cos a0 ^ 2) by (rewrite <- S0; pose proof (sin2_cos2 a0) as Q; unfold Rsqr in Q; lra).
  set (v := -4 * PI ^ 2 * c_mks * (G / cos a0) / (om ^ 3 * t_d t ^ 2 * (1 - s om ^ 2))).
  assert (Dh : is_derive h a0 (G / (c_mks * cos a0 ^ 2) * (2 * PI * c_mks / (om * t_d t)))).
  { unfold h. auto_derive; [lra|]. replace (2 * PI * c_mks / (om * t_d t)) with (sin a0 + sin (t_g t)) by (rewrite S0; unfold s; ring). replace (sin (t_g t)) with (sin (t_g t + - a0) * cos a0 + cos (t_g t + - a0) * sin a0) by (rewrite <- sin_plus; f_equal; ring). field. lra. }
  assert (Da : is_derive asin (s om) (/ cos a0)). { apply is_derive_Reals. replace (cos a0) with (sqrt (1 - (s om)²)); [apply asin_derive; exact H|]. unfold Rsqr. replace (1 - s om * s om) with (cos a0 ^ 2) by (rewrite <- C2; ring). rewrite <- Rsqr_pow2. apply sqrt_Rsqr. lra. }
  assert (Dt : is_derive (fun x => h (asin (s x))) om v).
  { replace v with (scal (- (2 * PI * c_mks / (om ^ 2 * t_d t)) * / cos a0) (G / (c_mks * cos a0 ^ 2) * (2 * PI * c_mks / (om * t_d t)))).
    - apply (is_derive_comp h (fun x => asin (s x))); [exact Dh|]. apply (is_derive_comp asin s); [exact Da|exact Ds].
    - unfold scal; cbn. unfold mult; cbn. unfold v. rewrite C2. field. repeat split; lra || assumption. }
  assert (Sg : calc_dt_dw_singlepass t (1e9 * 2 * PI * c_mks / om) G = Ok v).
  { unfold calc_dt_dw_singlepass. replace (1e9 * 2 * PI * c_mks / om * 1e-9) with (2 * PI * c_mks / om) by (replace (1e9 * 2 * PI * c_mks / om) with (1e9 * (2 * PI * c_mks / om)) by (unfold Rdiv; ring); symmetry; apply nm_m).
    assert (P2 : 0 < 2 * PI * c_mks) by (apply Rmult_lt_0_compat; lra). rewrite fdiv_ok by (apply Rmult_integral_contrapositive_currified; [lra|apply Rinv_neq_0_compat; exact Z]). cbn [rbind]. replace (2 * PI * c_mks / (2 * PI * c_mks / om)) with om by (field; lra).
    rewrite theta_of_omega; [|exact Z|exact D|change (-1 <= s om <= 1); lra]. cbn [rbind]. change (2 * PI * c_mks / (om * t_d t) - sin (t_g t)) with (s om). fold a0. replace (t_g t - (t_g t - a0)) with a0 by ring. rewrite fdiv_ok by lra. cbn [rbind]. rewrite fdiv_ok by (apply Rmult_integral_contrapositive_currified; assumption). cbn [rbind]. change (2 * PI * c_mks / (om * t_d t) - sin (t_g t)) with (s om).
    rewrite fdiv_ok; [reflexivity|]. rewrite C2. apply Rmult_integral_contrapositive_currified; [apply Rmult_integral_contrapositive_currified; apply pow_nonzero; assumption|apply pow_nonzero; lra]. }
  exists eps, v. split; [apply cond_pos|]. split; [|split; [|split; [exact Sg|unfold calc_compressor_gdd; rewrite Sg; reflexivity]]].
  - intros x Hx. destruct (He x Hx) as [Zx Sx]. rewrite (dphi_ok t x G Zx D Sx). eexists. reflexivity.
  - intros F HF. apply is_derive_Reals. apply (is_derive_ext_loc (fun x => h (asin (s x)))); [|exact Dt]. exists eps. intros x Hx. change (Rabs (x - om) < eps) in Hx. specialize (HF x Hx). destruct (He x Hx) as [Zx Sx]. rewrite (dphi_ok t x G Zx D Sx) in HF. injection HF as <-. reflexivity.
Qed.

Lemma W_mks_reads strf p o p' : get_W_mks strf p = (o, p') -> exists h v, p' = with_Wc h v p.
Proof.
  unfold get_W_mks, bind, get. destruct (hash_eqb (p_Wh p) (hash_of strf p)).
  - intros [= _ <-]. exists (p_Wh p), (p_Wv p). destruct p. reflexivity.
  - unfold modify, get_W, need_ready, bind, get, gets, ret, raise. cbn [p_ready with_Wc]. destruct (p_ready p); intros [= _ <-]; eexists _, _; reflexivity.
Qed.

(*! C64: whatever quadrature and fit are used, a compressor that returns leaves the modulus of every spectral bin, the spectral and the temporal energy sum, the grid and the repetition rate unchanged. *)
Lemma C64_spectrum_unchanged_l : forall (strf : R -> string) (quad : (R -> result R) -> R -> R -> result R) (polyfit2 : list R -> list R -> R * R * R) (t : treacy) (G : R) (p p' : pulse) (a : list C),
  p_ready p = true -> p_AW p = Some a -> length a = p_n p -> apply_phase_to_pulse strf quad polyfit2 t G p = (Ok tt, p') ->
  exists b, p_AW p' = Some b /\ same_mags b a /\ power_sum b = power_sum a /\ power_sum (IFFT_t b) = power_sum (IFFT_t a) /\
    p_n p' = p_n p /\ p_f p' = p_f p /\ p_tw p' = p_tw p /\ p_frep p' = p_frep p.
Proof.
  intros strf quad polyfit2 t G p p' a Hr Ha Hl. unfold apply_phase_to_pulse. unfold bind at 1. unfold get_center_frequency_THz, gets. set (f := p_f p). unfold bind at 1. destruct (get_W_mks strf p) as [[o|] p1] eqn:E1; [|discriminate].
  destruct (W_mks_reads _ _ _ _ E1) as (h & v & ->). unfold bind at 1. destruct o as [w|]; [|discriminate]. cbn [as_array ret]. unfold bind at 1. unfold lift at 1. destruct (rtraverse _ w) as [phase|]; [|discriminate].
  unfold bind at 1. destruct (get_W_mks strf (with_Wc h v p)) as [[o2|] p2] eqn:E2; [|discriminate]. destruct (W_mks_reads _ _ _ _ E2) as (h2 & v2 & ->). unfold bind at 1. destruct o2 as [w2|]; [|discriminate]. cbn [as_array ret].
  set (p2 := with_Wc h2 v2 (with_Wc h v p)). unfold bind at 1. assert (Hh : holds p2 a) by (split; [exact Hr|split; [exact Ha|exact Hl]]).
  assert (EV : exists vv, get_V_mks p2 = (Ok vv, p2)). { unfold get_V_mks, get_V, need_ready, bind, get, gets, ret. change (p_ready p2) with (p_ready p). rewrite Hr. eexists. reflexivity. } destruct EV as [vv EV]. rewrite EV.
  unfold bind at 1. unfold lift at 1. destruct (broadcast2 _ phase vv) as [ph|]; [|discriminate]. intros H.
  destruct (phase_op_mags strf (OApplyPhase ph) p2 a p' I Hh H) as (b & -> & Hm). exists b. split; [reflexivity|]. split; [exact Hm|]. split; [now apply power_sum_mags|]. split; [|repeat split].
  rewrite !power_sum_AT. rewrite (map_eq_length _ _ _ _ Hm). f_equal. now apply power_sum_mags.
Qed.
(*! C64: with a quadrature that returns a number at each frequency of the pulse's grid, applying the compressor to a pulse that holds a field succeeds. *)
Lemma C64_apply_succeeds_l : forall (strf : R -> string) (quad : (R -> result R) -> R -> R -> result R) (polyfit2 : list R -> list R -> R * R * R) (t : treacy) (G : R) (p : pulse) (a : list C),
  p_ready p = true -> p_AW p = Some a -> length a = p_n p -> p_Wh p = None ->
  (forall x, In x (map (fun w => w * 1000000000000) (W_of p)) -> exists y, quad (fun x => match calc_dphi_domega t x G with Ok y => Ok (2 * y) | Raise e => Raise e end) (p_f p * 2 * PI * 1e12) x = Ok y) ->
  exists p', apply_phase_to_pulse strf quad polyfit2 t G p = (Ok tt, p').
Proof.
  intros strf quad polyfit2 t G p a Hr Ha Hl Hw Hq. set (W := map (fun w => w * 1000000000000) (W_of p)) in *.
  assert (E1 : get_W_mks strf p = (Ok (Some W), with_Wc (Some (hash_of strf p)) (Some W) p)).
  { unfold get_W_mks, bind, get, modify, get_W, need_ready, gets, ret, raise. rewrite Hw. cbn [hash_eqb p_ready with_Wc]. unfold bind, get. cbn [p_ready with_Wc]. rewrite Hr. reflexivity. }
  set (p1 := with_Wc (Some (hash_of strf p)) (Some W) p) in *. assert (E2 : get_W_mks strf p1 = (Ok (Some W), p1)).
  { unfold get_W_mks, bind, get. replace (hash_eqb (p_Wh p1) (hash_of strf p1)) with true; [reflexivity|]. symmetry. apply String.eqb_refl. }
  unfold apply_phase_to_pulse. unfold bind at 1. unfold get_center_frequency_THz, gets. unfold bind at 1. rewrite E1. unfold bind at 1. cbn [as_array ret].
  set (integ := fun x => y <-r calc_dphi_domega t x G ;; Ok (2 * y)). destruct (rtraverse_some (fun x => quad integ (p_f p * 2 * PI * 1e12) x) W) as [phase Ep]; [exact Hq|].
  unfold bind at 1. unfold lift at 1. rewrite Ep. unfold bind at 1. rewrite E2. unfold bind at 1. cbn [as_array ret]. destruct (rtraverse_inv _ _ _ 0 0 Ep) as [Lp _].
  assert (LW : length W = p_n p) by (unfold W; rewrite map_length, W_of_length; reflexivity).
  assert (EV : get_V_mks p1 = (Ok (map (fun x => x * 1000000000000) (V_of p)), p1)). { unfold get_V_mks, get_V, need_ready, bind, get, gets, ret. change (p_ready p1) with (p_ready p). rewrite Hr. reflexivity. }
  unfold bind at 1. rewrite EV. unfold bind at 1. unfold lift. rewrite broadcast2_eq by (rewrite map_length, V_of_length; lia). eexists. apply (apply_run _ p1 a); [split; [exact Hr|split; [exact Ha|exact Hl]]|]. rewrite map2_length; rewrite ?map_length, ?V_of_length; change (p_n p1) with (p_n p); lia.
Qed.

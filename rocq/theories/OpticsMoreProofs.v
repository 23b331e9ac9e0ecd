(** Proofs about the field amplitude per root watt of a beam and of a waveguide mode (C86) and about the phase a grating compressor writes into a pulse (C87). *)
From Coq Require Import String.
From Coq Require Import Reals List ZArith Bool Arith Lia Lra Psatz.
From Coquelicot Require Import Coquelicot.
From Verif Require Import Base CNum NumPy ModelFFT FFTProofs ModelPulse ModelPulseOps Spec PulseProofs PulseHistory PulseOpsProofs PulseRegridProofs DerivedProofs ModelCrystal CrystalProofs ModelBeam BeamProofs ModelGrating GratingProofs ModelODE ModelDFG DFGMixProofs DFGProofs DFGInitProofs DFGOutProofs DFGTotalProofs DFGAcceptProofs.
Import ListNotations.
Local Open Scope R_scope.
Local Open Scope py_scope.

(** ** Power of a Gaussian beam *)
Definition disc_power (I0 w r : R) : R := RInt (fun r => I0 * exp (- 2 * r ^ 2 / w ^ 2) * (2 * PI * r)) 0 r.
Lemma disc_power_eq I0 w r : 0 < w -> disc_power I0 w r = I0 * (PI * w ^ 2 / 2) * (1 - exp (- 2 * r ^ 2 / w ^ 2)).
Proof.
  intros Hw. unfold disc_power. apply is_RInt_unique.
  replace (I0 * (PI * w ^ 2 / 2) * (1 - exp (- 2 * r ^ 2 / w ^ 2))) with
    (minus ((fun r => - (I0 * (PI * w ^ 2 / 2)) * exp (- 2 * r ^ 2 / w ^ 2)) r) ((fun r => - (I0 * (PI * w ^ 2 / 2)) * exp (- 2 * r ^ 2 / w ^ 2)) 0)).
  - apply (is_RInt_derive (fun r => - (I0 * (PI * w ^ 2 / 2)) * exp (- 2 * r ^ 2 / w ^ 2))).
    + intros x _. auto_derive; [exact Logic.I|]. match goal with |- @eq _ ?u ?v => change (@eq R u v) end. change (-2 * (x * (x * 1)) * / (w * (w * 1))) with (-2 * x ^ 2 / w ^ 2). set (e := exp (-2 * x ^ 2 / w ^ 2)). field. lra.
    + intros x _. apply (ex_derive_continuous (fun r => I0 * exp (- 2 * r ^ 2 / w ^ 2) * (2 * PI * r))). auto_derive. exact Logic.I.
  - unfold minus, plus, opp; cbn. replace (-2 * (0 * (0 * 1)) / (w * (w * 1))) with 0 by (field; lra). rewrite exp_0. ring.
Qed.
Lemma disc_power_lim I0 w : 0 < w -> is_lim (disc_power I0 w) p_infty (I0 * (PI * w ^ 2 / 2)).
Proof.
  intros Hw. apply (is_lim_ext (fun r => I0 * (PI * w ^ 2 / 2) * (1 - exp (- 2 * r ^ 2 / w ^ 2)))).
  { intros r. symmetry. apply disc_power_eq. exact Hw. }
  assert (W2 : 0 < w ^ 2) by (apply pow_lt; exact Hw).
  assert (E : is_lim (fun r => exp (- 2 * r ^ 2 / w ^ 2)) p_infty 0).
  { apply (is_lim_comp exp (fun r => - 2 * r ^ 2 / w ^ 2) p_infty 0 m_infty).
    - apply is_lim_exp_m.
    - apply (is_lim_ext (fun r => (- 2 / w ^ 2) * (r * r))); [intros; field; lra|].
      replace m_infty with (Rbar_mult (- 2 / w ^ 2) (Rbar_mult p_infty p_infty)).
      + apply is_lim_scal_l. apply is_lim_mult; [apply is_lim_id|apply is_lim_id|exact Logic.I].
      + cbn. destruct (Rle_dec 0 (-2 / (w * (w * 1)))) as [L|L]; [|reflexivity]. exfalso. assert (0 < / (w * (w * 1))) by (apply Rinv_0_lt_compat; cbn in W2; lra). unfold Rdiv in L. lra.
    - exists 0. intros y _. discriminate. }
  replace (Finite (I0 * (PI * w ^ 2 / 2))) with (Rbar_mult (I0 * (PI * w ^ 2 / 2)) (Finite (1 - 0))) by (cbn; f_equal; ring).
  apply is_lim_scal_l. apply (is_lim_minus' (fun _ => 1)); [apply is_lim_const|exact E].
Qed.
Lemma eps0_pos : 0 < eps0. Proof. unfold eps0. lra. Qed.

(*! C86: for a beam with positive waists in a medium with positive indices, rtP_to_a gives at every wavelength the amplitude a whose Gaussian beam, of intensity 2 n eps0 c a^2 exp(-2 r^2/w^2), carries one watt
    through the whole transverse plane; the waist used is the focal one, whatever z is given. *)
Lemma C86_one_watt_l : forall (b : beam) (ns : list R) (z : R),
  length (b_w0 b) = length ns -> (forall w, In w (b_w0 b) -> 0 < w) -> (forall n, In n ns -> 0 < n) ->
  exists a, rtP_to_a b ns z = Ok a /\ length a = length ns /\ forall i, (i < length ns)%nat -> 0 < nth i a 0 /\
    is_lim (fun radius => RInt (fun r => 2 * nth i ns 0 * eps0 * 299792458 * nth i a 0 ^ 2 * exp (- 2 * r ^ 2 / nth i (b_w0 b) 0 ^ 2) * (2 * PI * r)) 0 radius) p_infty 1.
Proof.
  intros b ns z L Hw Hn. unfold rtP_to_a, rtP_to_a_. cbn [rbind]. unfold bcast. rewrite broadcast2_eq by exact L. cbn [rbind].
  set (g := fun ab : R * R => / sqrt (PI * fst ab ^ 2 * snd ab * eps0 * c_mks)).
  assert (Pq : forall w n, 0 < w -> 0 < n -> 0 < PI * w ^ 2 * n * eps0 * c_mks).
  { intros w n H1 H2. pose proof PI_RGT_0. pose proof eps0_pos. assert (0 < w ^ 2) by (apply pow_lt; exact H1). apply Rmult_lt_0_compat; [|apply c_pos]. apply Rmult_lt_0_compat; [|apply eps0_pos]. apply Rmult_lt_0_compat; [|lra]. apply Rmult_lt_0_compat; lra. }
  assert (N : forall i, (i < length ns)%nat -> 0 < nth i (b_w0 b) 0 /\ 0 < nth i ns 0) . { intros i Hi. split; [apply Hw; apply nth_In; rewrite L; exact Hi|apply Hn; apply nth_In; exact Hi]. }
  rewrite (rtraverse_ok _ g).
  - eexists. split; [reflexivity|]. split; [rewrite map_length, map2_length by exact L; exact L|]. intros i Hi. destruct (N i Hi) as [W1 N1].
    rewrite (nth_map' _ _ _ (0, 0)) by (rewrite map2_length by exact L; lia). rewrite (map2_nth _ _ _ i 0 0 (0, 0)) by lia. unfold g. cbn [fst snd].
    set (w := nth i (b_w0 b) 0) in *. set (n := nth i ns 0) in *. pose proof (Pq w n W1 N1) as P. pose proof (sqrt_lt_R0 _ P) as P'. split; [apply Rinv_0_lt_compat; exact P'|].
    assert (E : 2 * n * eps0 * 299792458 * (/ sqrt (PI * w ^ 2 * n * eps0 * c_mks)) ^ 2 * (PI * w ^ 2 / 2) = 1).
    { rewrite pow_inv. rewrite pow2_sqrt by lra. unfold c_mks. pose proof PI_RGT_0. pose proof eps0_pos. field. repeat split; lra. }
    rewrite <- E. apply (disc_power_lim _ w W1).
  - intros [w n] H. apply (In_nth _ _ (0, 0)) in H as (i & Hi & Ei). rewrite map2_length in Hi by exact L. rewrite (map2_nth _ _ _ i 0 0 (0, 0)) in Ei by lia. injection Ei as <- <-. destruct (N i ltac:(lia)) as [W1 N1]. pose proof (Pq _ _ W1 N1) as P. unfold g. cbn [fst snd].
    rewrite fsqrt_ok by lra. cbn [rbind]. rewrite fdiv_ok by (apply Rgt_not_eq, sqrt_lt_R0; exact P). f_equal. unfold Rdiv. ring.
Qed.

(*! C86 (waveguide): a waveguide mode whose effective area (in square microns) is pi times the square of a beam's waist (in microns) has the same amplitude per root watt as that beam, in every medium. *)
Lemma C86_waveguide_matches_beam_l : forall (w_um : R) (lam ns : list R) (axis axis' : option string) (z : R), 0 < w_um -> (forall n, In n ns -> 0 < n) ->
  exists a, wg_rtP_to_a (wg_init (PI * w_um ^ 2) axis) ns = Ok a /\ rtP_to_a (mkBeam (repeat (w_um * 1e-6) (length ns)) lam axis') ns z = Ok a.
Proof.
  intros w lam ns axis axis' z Hw Hn. set (g := fun n : R => / sqrt (PI * (w * 1e-6) ^ 2 * n * eps0 * c_mks)).
  assert (P : forall n, In n ns -> 0 < PI * (w * 1e-6) ^ 2 * n * eps0 * c_mks).
  { intros n Hi. specialize (Hn n Hi). pose proof PI_RGT_0. pose proof eps0_pos. assert (0 < (w * 1e-6) ^ 2) by (apply pow_lt; lra). apply Rmult_lt_0_compat; [|apply c_pos]. apply Rmult_lt_0_compat; [|apply eps0_pos]. apply Rmult_lt_0_compat; [|lra]. apply Rmult_lt_0_compat; lra. }
  exists (map g ns). split.
  - unfold wg_rtP_to_a, wg_init. cbn [g_Aeff]. apply rtraverse_ok. intros n Hi. specialize (P n Hi).
    replace (PI * w ^ 2 * 1e-12 * n * eps0 * c_mks) with (PI * (w * 1e-6) ^ 2 * n * eps0 * c_mks) by (unfold c_mks; field).
    rewrite fsqrt_ok by lra. cbn [rbind]. rewrite fdiv_ok by (apply Rgt_not_eq, sqrt_lt_R0; exact P). f_equal. unfold g, Rdiv. ring.
  - unfold rtP_to_a, rtP_to_a_. cbn [rbind b_w0]. unfold bcast. rewrite broadcast2_eq by apply repeat_length. cbn [rbind].
    rewrite (rtraverse_ok _ (fun ab => g (snd ab))).
    + f_equal. clear. induction ns as [|n ns IH]; [reflexivity|]. cbn [length repeat map2 map snd]. f_equal. exact IH.
    + intros [u n] H. apply (In_nth _ _ (0, 0)) in H as (i & Hi & Ei). rewrite map2_length in Hi by apply repeat_length. rewrite repeat_length in Hi.
      rewrite (map2_nth _ _ _ i 0 0 (0, 0)) in Ei by (rewrite ?repeat_length; lia). injection Ei as <- <-. cbn [fst snd].
      rewrite (nth_indep _ 0 (w * 1e-6)) by (rewrite repeat_length; lia). rewrite nth_repeat. specialize (P _ (nth_In ns 0 Hi)).
      rewrite fsqrt_ok by lra. cbn [rbind]. rewrite fdiv_ok by (apply Rgt_not_eq, sqrt_lt_R0; exact P). f_equal. unfold g, Rdiv. ring.
Qed.

(** ** The grating compressor *)
(*! C87 (units): a grating made with its ruling in lines per millimetre and its angle of incidence in degrees diffracts according to sin(diffraction angle) + sin(angle of incidence) = (wavelength in mm) x (lines per mm); making it fails only for a ruling of zero lines. *)
Lemma C87_ruling_l : forall lines degrees : R,
  (lines = 0 -> treacy_init lines degrees = Raise ZeroDivisionError) /\
  (lines <> 0 -> exists t, treacy_init lines degrees = Ok t /\
     forall wl_nm theta, calc_theta t wl_nm = Ok theta -> sin (PI * (degrees / 180) - theta) + sin (PI * (degrees / 180)) = wl_nm * 1e-6 * lines).
Proof.
  intros l dg. unfold treacy_init. destruct (Req_EM_T l 0) as [Z|Z].
  - split; [reflexivity|intros H; contradiction].
  - split; [intros H; contradiction|]. intros _. eexists. split; [reflexivity|]. intros wl th E.
    destruct (C64_grating_equation_l (mkTreacy (1e-3 / l) (dg * 2 * PI / 360)) wl) as [A _]. destruct (A th E) as [Q _]. cbn [t_g t_d] in Q.
    replace (PI * (dg / 180)) with (dg * 2 * PI / 360) by field. rewrite Q. field. repeat split; solve [exact Z|lra].
Qed.

(** scipy.integrate.quad computes the integral of every continuous integrand. *)
Definition quad_exact (quad : (R -> result R) -> R -> R -> result R) : Prop :=
  forall (f : R -> result R) (F : R -> R) (a b : R), (forall x, Rmin a b <= x <= Rmax a b -> f x = Ok (F x) /\ continuous F x) -> quad f a b = Ok (RInt F a b).
(** the frequency x (rad/s) is diffracted *)
Definition diffracted (t : treacy) (x : R) : Prop := 0 < x /\ -1 < 2 * PI * c_mks / (x * t_d t) - sin (t_g t) < 1.

Definition delay_of (t : treacy) (G x : R) : R := let a := asin (2 * PI * c_mks / (x * t_d t) - sin (t_g t)) in G / cos a * (1 + cos (t_g t - a)) / c_mks.
Lemma delay_ok t G x : t_d t <> 0 -> diffracted t x -> calc_dphi_domega t x G = Ok (delay_of t G x).
Proof. intros D [Z H]. apply dphi_ok; [apply Rgt_not_eq; exact Z|exact D|exact H]. Qed.
Lemma delay_cont t G x : t_d t <> 0 -> diffracted t x -> continuous (delay_of t G) x.
Proof.
  intros D [Z H]. destruct (C64_dispersion_is_derivative_l t x G ltac:(apply Rgt_not_eq; exact Z) D H) as (eps & v & He & Hy & HF & _).
  assert (Q : exists e2, 0 < e2 /\ forall y, Rabs (y - x) < e2 -> diffracted t y).
  { set (s := fun x : R => 2 * PI * c_mks / (x * t_d t) - sin (t_g t)).
    assert (Cs : continuous s x). { apply @ex_derive_continuous. unfold s. auto_derive. apply Rmult_integral_contrapositive_currified; [apply Rgt_not_eq; exact Z|exact D]. }
    assert (Nb : locally x (fun y => 0 < y /\ -1 < s y < 1)).
    { apply filter_and; [apply (open_gt 0); exact Z|]. apply (Cs (fun y => -1 < y < 1)). apply open_and; [apply open_gt|apply open_lt|exact H]. }
    destruct Nb as [e2 H2]. exists e2. split; [apply cond_pos|]. intros y Hy'. apply H2. exact Hy'. }
  destruct Q as (e2 & He2 & H2).
  apply (continuous_ext_loc _ (fun y => match calc_dphi_domega t y G with Ok u => u | Raise _ => 0 end)).
  - exists (mkposreal e2 He2). intros y Hy'. change (Rabs (y - x) < e2) in Hy'. rewrite (delay_ok t G y D (H2 y Hy')). reflexivity.
  - apply @ex_derive_continuous. exists v. apply is_derive_Reals. apply HF. intros y Hy'. destruct (Hy y Hy') as [u ->]. reflexivity.
Qed.

Lemma W_again strf p : cur_W strf p -> fst (get_W_mks strf (snd (get_W_mks strf p))) = fst (get_W_mks strf p).
Proof.
  unfold cur_W. intros C. rewrite W_mks_fst in C. rewrite !W_mks_fst. revert C.
  unfold get_W_mks, get_W, need_ready, gets, bind, modify, get, ret, raise. destruct (hash_eqb (p_Wh p) (hash_of strf p)) eqn:E.
  - cbn [snd]. rewrite E. reflexivity.
  - change (p_ready (with_Wc (Some (hash_of strf p)) (p_Wv p) p)) with (p_ready p). destruct (p_ready p); [|discriminate]. intros _. cbn [snd].
    match goal with |- context [hash_eqb (p_Wh ?q) (hash_of strf ?q)] => replace (hash_eqb (p_Wh q) (hash_of strf q)) with true by (symmetry; apply String.eqb_refl) end. reflexivity.
Qed.

Section Comp.
Variables (strf : R -> string) (quad : (R -> result R) -> R -> R -> result R) (polyfit2 : list R -> list R -> R * R * R) (t : treacy) (G : R) (p : pulse) (a : list C).
Hypothesis (QE : quad_exact quad) (D : t_d t <> 0) (Hh : holds p a) (CW : cur_W strf p).
Let Wm := map (fun w => w * 1000000000000) (spec_W (p_n p) (p_tw p) (p_f p)).
Hypothesis Df : forall x j, (j < p_n p)%nat -> Rmin (2 * PI * p_f p * 1e12) (nth j Wm 0) <= x <= Rmax (2 * PI * p_f p * 1e12) (nth j Wm 0) -> diffracted t x.
Let phi := map (fun w => RInt (fun x => 2 * delay_of t G x) (2 * PI * p_f p * 1e12) w) Wm.
Lemma comp_run : exists p', apply_phase_to_pulse strf quad polyfit2 t G p = (Ok tt, p') /\ p_AW p' = Some (map2 Cmult a (map cis (map2 (fun ph v => ph + v * (2 * fst (fst (polyfit2 Wm phi)))) phi (map (fun x => x * 1000000000000) (V_of p))))).
Proof.
  destruct Hh as (Hr & Ha & Hl). unfold apply_phase_to_pulse. unfold bind at 1. unfold get_center_frequency_THz, gets.
  pose proof (W_again strf p CW) as CW2. unfold cur_W in CW. fold Wm in CW. rewrite CW in CW2. unfold bind at 1.
  destruct (get_W_mks strf p) as [r p1] eqn:E1. cbn [fst] in CW. subst r. cbn [snd] in CW2. destruct (W_mks_reads _ _ _ _ E1) as (h & v & E1').
  unfold bind at 1. cbn [as_array ret].
  assert (LW : length Wm = p_n p) by (unfold Wm; rewrite map_length; apply spec_W_length).
  assert (Ep : rtraverse (fun x => quad (fun x0 => y <-r calc_dphi_domega t x0 G ;; Ok (2 * y)) (p_f p * 2 * PI * 1e12) x) Wm = Ok phi).
  { apply rtraverse_ok. intros w Hw. apply (In_nth _ _ 0) in Hw as (j & Hj & <-). rewrite LW in Hj. replace (p_f p * 2 * PI * 1e12) with (2 * PI * p_f p * 1e12) by ring. apply QE. intros x Hx. specialize (Df x j Hj Hx). split; [rewrite (delay_ok t G x D Df); reflexivity|].
    apply (continuous_scal_r 2 (delay_of t G) x). apply delay_cont; assumption. }
  unfold bind at 1. unfold lift at 1. rewrite Ep. unfold bind at 1.
  destruct (get_W_mks strf p1) as [r p2] eqn:E2. cbn [fst] in CW2. subst r. destruct (W_mks_reads _ _ _ _ E2) as (h2 & v2 & E2'). unfold bind at 1. cbn [as_array ret]. 
  assert (EV : get_V_mks p2 = (Ok (map (fun x => x * 1000000000000) (V_of p)), p2)). { rewrite E2', E1'. unfold get_V_mks, get_V, need_ready, bind, get, gets, ret. change (p_ready (with_Wc h2 v2 (with_Wc h v p))) with (p_ready p). rewrite Hr. reflexivity. }
  unfold bind at 1. rewrite EV. unfold bind at 1. unfold lift. assert (Lp : length phi = p_n p) by (unfold phi; rewrite map_length; exact LW).
  assert (LV : length (map (fun x => x * 1000000000000) (V_of p)) = p_n p) by (rewrite map_length; apply V_of_length).
  rewrite broadcast2_eq by (rewrite LV; exact Lp). eexists. unfold polyder_0. split; [apply (apply_run _ p2 a)|reflexivity].
  - rewrite E2', E1'. split; [exact Hr|split; [exact Ha|exact Hl]].
  - rewrite map2_length by (rewrite LV; exact Lp). rewrite E2', E1'. exact Lp.
Qed.
Lemma comp_bin : exists p' b, apply_phase_to_pulse strf quad polyfit2 t G p = (Ok tt, p') /\ p_AW p' = Some b /\ length b = p_n p /\
  forall j, (j < p_n p)%nat -> nth j b (RtoC 0) = (nth j a (RtoC 0) * cis (nth j phi 0 + 2 * fst (fst (polyfit2 Wm phi)) * (nth j Wm 0 - 2 * PI * p_f p * 1e12)))%C.
Proof.
  destruct comp_run as (p' & E & Eb). destruct Hh as (Hr & Ha & Hl). eexists p', _. split; [exact E|]. split; [exact Eb|].
  assert (LW : length Wm = p_n p) by (unfold Wm; rewrite map_length; apply spec_W_length). assert (Lp : length phi = p_n p) by (unfold phi; rewrite map_length; exact LW).
  assert (LV : length (map (fun x => x * 1000000000000) (V_of p)) = p_n p) by (rewrite map_length; apply V_of_length).
  set (f := fun ph v => ph + v * (2 * fst (fst (polyfit2 Wm phi)))). set (Vm := map (fun x => x * 1000000000000) (V_of p)) in *.
  assert (Lm : length (map2 f phi Vm) = p_n p) by (transitivity (length phi); [apply map2_length; transitivity (p_n p); [exact Lp|symmetry; exact LV]|exact Lp]). assert (Lc : length (map cis (map2 f phi Vm)) = p_n p) by (rewrite map_length; exact Lm).
  split; [rewrite map2_length; [exact Hl|rewrite Hl; symmetry; exact Lc]|]. intros j Hj.
  rewrite (map2_nth _ _ _ j (RtoC 0) (RtoC 0) (RtoC 0)) by (rewrite ?Lc, ?Hl; first [exact Hj|reflexivity]). f_equal. rewrite (nth_map' _ _ _ 0) by (rewrite Lm; exact Hj). f_equal.
  rewrite (map2_nth f phi Vm j 0 0 0 (eq_trans Lp (eq_sym LV)) (eq_ind_r (fun m => (j < m)%nat) Hj Lp)). unfold f. f_equal. unfold Vm. rewrite (nth_map' _ _ _ 0) by (rewrite V_of_length; exact Hj). unfold Wm. rewrite (nth_map' _ _ _ 0) by (rewrite spec_W_length; exact Hj).
  rewrite <- W_of_spec. unfold W_of. rewrite (nth_map' _ _ _ 0) by (rewrite V_of_length; exact Hj). unfold w0_of. fold Wm. lra.
Qed.
End Comp.

(*! C87 (partial: the linear term is not the group delay, see the refutation): with an exact quadrature, a compressor whose grating diffracts every frequency between the centre and the ends of the pulse's grid multiplies the bin at each frequency W
    by exp(i phase), the phase being twice the integral of the single-pass group delay from the centre frequency to W, plus a term linear in W - w0 whose factor is the second derivative of the quadratic fitted to that phase. *)
Lemma C87_written_phase_partial_l : forall (strf : R -> string) (quad : (R -> result R) -> R -> R -> result R) (polyfit2 : list R -> list R -> R * R * R) (t : treacy) (G : R) (p : pulse) (a : list C) (tau : R -> R),
  quad_exact quad -> t_d t <> 0 -> holds p a -> cur_W strf p ->
  let w0 := 2 * PI * p_f p * 1e12 in let W := map (fun w => w * 1e12) (spec_W (p_n p) (p_tw p) (p_f p)) in
  (forall x j, (j < p_n p)%nat -> Rmin w0 (nth j W 0) <= x <= Rmax w0 (nth j W 0) -> diffracted t x /\ calc_dphi_domega t x G = Ok (tau x)) ->
  let phi := map (fun w => 2 * RInt tau w0 w) W in
  exists p' b, apply_phase_to_pulse strf quad polyfit2 t G p = (Ok tt, p') /\ p_AW p' = Some b /\ length b = p_n p /\
    forall j c2 c1 c0, (j < p_n p)%nat -> polyfit2 W phi = (c2, c1, c0) ->
      nth j b (RtoC 0) = (nth j a (RtoC 0) * cis (2 * RInt tau w0 (nth j W 0) + 2 * c2 * (nth j W 0 - w0)))%C.
Proof.
  intros strf quad polyfit2 t G p a tau QE D Hh CW w0 W H phi.
  assert (EW : W = map (fun w => w * 1000000000000) (spec_W (p_n p) (p_tw p) (p_f p))) by (apply map_ext; intros w; lra).
  assert (LW : length W = p_n p) by (unfold W; rewrite map_length; apply spec_W_length).
  assert (Df : forall x j, (j < p_n p)%nat -> Rmin w0 (nth j W 0) <= x <= Rmax w0 (nth j W 0) -> diffracted t x) by (intros x j Hj Hx; apply (H x j Hj Hx)).
  assert (Ep : map (fun w => RInt (fun x => 2 * delay_of t G x) w0 w) W = phi).
  { apply map_ext_in. intros w Hw. apply (In_nth _ _ 0) in Hw as (j & Hj & <-). rewrite LW in Hj.
    assert (Et : forall x, Rmin w0 (nth j W 0) <= x <= Rmax w0 (nth j W 0) -> delay_of t G x = tau x).
    { intros x Hx. destruct (H x j Hj Hx) as [Hd Ht]. rewrite (delay_ok t G x D Hd) in Ht. now injection Ht. }
    transitivity (2 * RInt (delay_of t G) w0 (nth j W 0)).
    - apply (RInt_scal (V := R_CompleteNormedModule)). apply (ex_RInt_continuous (V := R_CompleteNormedModule)). intros x Hx. apply delay_cont; [exact D|]. apply (Df x j Hj Hx).
    - f_equal. apply RInt_ext. intros x Hx. apply Et. lra. }
  rewrite EW in Df. destruct (comp_bin strf quad polyfit2 t G p a QE D Hh CW Df) as (p' & b & E & Eb & Lb & N).
  exists p', b. split; [exact E|]. split; [exact Eb|]. split; [exact Lb|]. intros j c2 c1 c0 Hj Hc. rewrite (N j Hj). rewrite <- EW. fold w0. fold W in Ep. rewrite Ep, Hc. cbn [fst]. do 2 f_equal.
  unfold phi. rewrite (nth_map' _ _ _ 0) by (rewrite LW; exact Hj). reflexivity.
Qed.

(** numpy.polyfit of degree 2 through three points passes through them. *)
Definition interp3 (polyfit2 : list R -> list R -> R * R * R) : Prop :=
  forall x0 x1 x2 y0 y1 y2, x0 < x1 < x2 -> exists c2 c1 c0, polyfit2 [x0; x1; x2] [y0; y1; y2] = (c2, c1, c0) /\
    c2 * x0 ^ 2 + c1 * x0 + c0 = y0 /\ c2 * x1 ^ 2 + c1 * x1 + c0 = y1 /\ c2 * x2 ^ 2 + c1 * x2 + c0 = y2.
Definition gr1000 : treacy := mkTreacy (1e-3 / 1000) (0 * 2 * PI / 360).
Definition p500 : pulse := mkPulse 3 599.584916 1 (Some [RtoC 1; RtoC 1; RtoC 1]) None true None None None None.
Lemma gr_diff x : 2 * PI * 5e14 < x < 2 * PI * 7e14 -> diffracted gr1000 x /\ 1e-6 / c_mks <= delay_of gr1000 1e-6 x <= 4e-6 / c_mks.
Proof.
  intros Hx. assert (G0 : t_g gr1000 = 0) by (cbn; lra). assert (D0 : t_d gr1000 = 1e-6) by (cbn; lra). unfold diffracted, delay_of. rewrite G0, D0, sin_0.
  set (s := 2 * PI * c_mks / (x * 1e-6) - 0). assert (S : 0.3 <= s <= 0.8).
  { unfold s. rewrite Rminus_0_r. pose proof PI_4. pose proof PI2_3_2. assert (B : 3 < PI) by lra.
    assert (0 < x * 1e-6) by lra. split; apply (Rmult_le_reg_r (x * 1e-6)); try assumption; unfold Rdiv; rewrite Rmult_assoc, Rinv_l, Rmult_1_r by lra; unfold c_mks; lra. }
  split; [lra|]. assert (E : cos (asin s) = sqrt (1 - s²)) by (apply cos_asin; lra). assert (C1 : 0.6 <= cos (asin s)). { rewrite E. rewrite <- (sqrt_square 0.6) by lra. apply sqrt_le_1; unfold Rsqr; nra. }
  pose proof (COS_bound (asin s)) as [_ C2]. set (k := cos (asin s)) in *. replace (cos (0 - asin s)) with k by (unfold k; rewrite <- cos_neg; f_equal; ring). clearbody k.
  replace (1e-6 / k * (1 + k) / c_mks) with (1e-6 * (/ k + 1) / c_mks) by (field; unfold c_mks; lra). assert (K : 1 <= / k <= 2).
  { split; [rewrite <- Rinv_1; apply Rinv_le_contravar; lra|]. replace 2 with (/ (1 / 2)) by field. apply Rinv_le_contravar; lra. }
  pose proof c_pos. split; apply Rmult_le_compat_r; try (left; apply Rinv_0_lt_compat; assumption); lra.
Qed.
Lemma RInt_bounds f a b m M : a <= b -> (forall x, a <= x <= b -> continuous f x /\ m <= f x <= M) -> ex_RInt f a b /\ m * (b - a) <= RInt f a b <= M * (b - a).
Proof.
  intros L H. assert (E : ex_RInt f a b). { apply (ex_RInt_continuous (V := R_CompleteNormedModule)). intros x Hx. rewrite Rmin_left, Rmax_right in Hx by exact L. apply (H x Hx). }
  split; [exact E|]. assert (K : forall k, RInt (fun _ => k) a b = k * (b - a)) by (intros k; rewrite RInt_const; unfold scal; cbn; unfold mult; cbn; ring).
  rewrite <- (K m), <- (K M). split; apply RInt_le; try exact L; try exact E; try apply ex_RInt_const; intros x Hx; apply (H x); lra.
Qed.

(*! C87 (refutation): the linear term does not remove the group delay, which is what the code computes it for.  For every exact quadrature and every quadratic fit that is exact on three points there are a grating of 1000 lines/mm,
    a separation and a three-point pulse for which the field written differs from the one whose phase has the fitted group delay at the centre frequency taken out. *)
Lemma C87_group_delay_refuted_l : forall (strf : R -> string) (quad : (R -> result R) -> R -> R -> result R) (polyfit2 : list R -> list R -> R * R * R),
  quad_exact quad -> interp3 polyfit2 ->
  exists (t : treacy) (G : R) (p p' : pulse) (a b : list C) (tau : R -> R) (c2 c1 c0 : R),
    let w0 := 2 * PI * p_f p * 1e12 in let W := map (fun w => w * 1e12) (spec_W (p_n p) (p_tw p) (p_f p)) in
    treacy_init 1000 0 = Ok t /\ 0 < G /\ holds p a /\ p_n p = 3%nat /\ cur_W strf p /\
    (forall x j, (j < p_n p)%nat -> Rmin w0 (nth j W 0) <= x <= Rmax w0 (nth j W 0) -> diffracted t x /\ calc_dphi_domega t x G = Ok (tau x)) /\
    polyfit2 W (map (fun w => 2 * RInt tau w0 w) W) = (c2, c1, c0) /\
    apply_phase_to_pulse strf quad polyfit2 t G p = (Ok tt, p') /\ p_AW p' = Some b /\
    nth 2 b (RtoC 0) <> (nth 2 a (RtoC 0) * cis (2 * RInt tau w0 (nth 2 W 0) - (2 * c2 * w0 + c1) * (nth 2 W 0 - w0)))%C.
Proof.
  intros strf quad polyfit2 QE IP. set (p := p500). set (tau := delay_of gr1000 1e-6). set (w0 := 2 * PI * p_f p * 1e12). set (Dl := 2 * PI * 1e12).
  pose proof PI_4 as Pi4. assert (Pi3 : 3 < PI) by (pose proof PI2_3_2; lra).
  assert (EW : map (fun w => w * 1e12) (spec_W (p_n p) (p_tw p) (p_f p)) = [w0 - 3 / 2 * Dl; w0 - / 2 * Dl; w0 + / 2 * Dl]).
  { unfold spec_W, mk, w0, Dl, p. cbn [p500 p_n p_tw p_f seq map INR]. apply (f_equal2 cons); [|apply (f_equal2 cons); [|apply (f_equal2 cons); [|reflexivity]]]; lra. }
  assert (Bw : 2 * PI * 5.5e14 < w0 < 2 * PI * 6.5e14 /\ 6e12 < Dl <= 8e12 /\ Dl = 2 * PI * 1e12) by (unfold w0, Dl, p; cbn [p500 p_f]; lra). destruct Bw as (Bw & BD & Ew0).
  assert (R0 : forall x, w0 - 3 / 2 * Dl <= x <= w0 + / 2 * Dl -> diffracted gr1000 x /\ 1e-6 / c_mks <= tau x <= 4e-6 / c_mks) by (intros x Hx; apply gr_diff; lra).
  assert (D0 : t_d gr1000 <> 0) by (cbn; lra).
  assert (Ct : forall x, w0 - 3 / 2 * Dl <= x <= w0 + / 2 * Dl -> continuous tau x) by (intros x Hx; apply delay_cont; [exact D0|apply R0; exact Hx]).
  assert (Hr : forall x j, (j < p_n p)%nat -> Rmin w0 (nth j [w0 - 3 / 2 * Dl; w0 - / 2 * Dl; w0 + / 2 * Dl] 0) <= x <= Rmax w0 (nth j [w0 - 3 / 2 * Dl; w0 - / 2 * Dl; w0 + / 2 * Dl] 0) -> w0 - 3 / 2 * Dl <= x <= w0 + / 2 * Dl).
  { intros x j Hj Hx. change (p_n p) with 3%nat in Hj. destruct j as [|[|[|j]]]; [| | |lia]; cbn [nth] in Hx; [rewrite Rmin_right, Rmax_left in Hx by lra|rewrite Rmin_right, Rmax_left in Hx by lra|rewrite Rmin_left, Rmax_right in Hx by lra]; lra. }
  assert (Hd : forall x j, (j < p_n p)%nat -> Rmin w0 (nth j [w0 - 3 / 2 * Dl; w0 - / 2 * Dl; w0 + / 2 * Dl] 0) <= x <= Rmax w0 (nth j [w0 - 3 / 2 * Dl; w0 - / 2 * Dl; w0 + / 2 * Dl] 0) -> diffracted gr1000 x /\ calc_dphi_domega gr1000 x 1e-6 = Ok (tau x)).
  { intros x j Hj Hx. specialize (Hr x j Hj Hx). destruct (R0 x Hr) as [Q _]. split; [exact Q|]. apply delay_ok; assumption. }
  assert (Hh : holds p [RtoC 1; RtoC 1; RtoC 1]) by (repeat split).
  assert (CW : cur_W strf p). { unfold cur_W. rewrite W_mks_fst. unfold p. cbn [p500 p_Wh hash_eqb p_ready]. rewrite W_of_spec. reflexivity. }
  destruct (IP (w0 - 3 / 2 * Dl) (w0 - / 2 * Dl) (w0 + / 2 * Dl) (2 * RInt tau w0 (w0 - 3 / 2 * Dl)) (2 * RInt tau w0 (w0 - / 2 * Dl)) (2 * RInt tau w0 (w0 + / 2 * Dl)) ltac:(lra)) as (c2 & c1 & c0 & Ec & I0 & I1 & I2).
  destruct (C87_written_phase_partial_l strf quad polyfit2 gr1000 1e-6 p [RtoC 1; RtoC 1; RtoC 1] tau QE D0 Hh CW) as (p' & b & Ea & Eb & Lb & N).
  { cbv zeta. rewrite EW. exact Hd. }
  cbv zeta in N. rewrite EW in N. fold w0 in N. cbn [map] in N. specialize (N 2%nat c2 c1 c0 ltac:(cbn; lia) Ec). cbn [nth] in N.
  exists gr1000, 1e-6, p, p', [RtoC 1; RtoC 1; RtoC 1], b, tau, c2, c1, c0. cbv zeta. rewrite EW. fold w0.
  split; [unfold treacy_init; destruct (Req_EM_T 1000 0); [lra|reflexivity]|]. split; [lra|]. split; [exact Hh|]. split; [reflexivity|]. split; [exact CW|]. split; [exact Hd|]. split; [exact Ec|]. split; [exact Ea|]. split; [exact Eb|].
  cbn [nth]. rewrite N. clear N Ea Eb Lb Ec. rewrite !Cmult_1_l. intros Q.
  destruct (RInt_bounds tau (w0 - / 2 * Dl) (w0 + / 2 * Dl) (1e-6 / c_mks) (4e-6 / c_mks)) as [X1 B1]; [lra|intros x Hx; split; [apply Ct; lra|apply R0; lra]|].
  destruct (RInt_bounds tau (w0 - 3 / 2 * Dl) (w0 - / 2 * Dl) (1e-6 / c_mks) (4e-6 / c_mks)) as [X2 B2]; [lra|intros x Hx; split; [apply Ct; lra|apply R0; lra]|].
  assert (X3 : ex_RInt tau w0 (w0 - / 2 * Dl)). { apply (ex_RInt_continuous (V := R_CompleteNormedModule)). intros x Hx. rewrite Rmin_right, Rmax_left in Hx by lra. apply Ct. lra. }
  assert (X4 : ex_RInt tau w0 (w0 - 3 / 2 * Dl)). { apply (ex_RInt_continuous (V := R_CompleteNormedModule)). intros x Hx. rewrite Rmin_right, Rmax_left in Hx by lra. apply Ct. lra. }
  pose proof (RInt_Chasles tau w0 (w0 - / 2 * Dl) (w0 + / 2 * Dl) X3 X1) as S1. pose proof (RInt_Chasles tau w0 (w0 - 3 / 2 * Dl) (w0 - / 2 * Dl) X4 X2) as S2. change (RInt tau w0 (w0 - / 2 * Dl) + RInt tau (w0 - / 2 * Dl) (w0 + / 2 * Dl) = RInt tau w0 (w0 + / 2 * Dl)) in S1. change (RInt tau w0 (w0 - 3 / 2 * Dl) + RInt tau (w0 - 3 / 2 * Dl) (w0 - / 2 * Dl) = RInt tau w0 (w0 - / 2 * Dl)) in S2.
  set (A1 := RInt tau (w0 - / 2 * Dl) (w0 + / 2 * Dl)) in *. set (A2 := RInt tau (w0 - 3 / 2 * Dl) (w0 - / 2 * Dl)) in *.
  set (P0 := RInt tau w0 (w0 - 3 / 2 * Dl)) in *. set (P1 := RInt tau w0 (w0 - / 2 * Dl)) in *. set (P2 := RInt tau w0 (w0 + / 2 * Dl)) in *. clearbody A1 A2 P0 P1 P2.
  assert (K1 : (2 * c2 * w0 + c1) * Dl = 2 * A1).
  { transitivity ((c2 * (w0 + / 2 * Dl) ^ 2 + c1 * (w0 + / 2 * Dl) + c0) - (c2 * (w0 - / 2 * Dl) ^ 2 + c1 * (w0 - / 2 * Dl) + c0)); [field|]. rewrite I2, I1. lra. }
  assert (K2 : 2 * c2 * (Dl * Dl) = 2 * A1 - 2 * A2).
  { transitivity (((c2 * (w0 + / 2 * Dl) ^ 2 + c1 * (w0 + / 2 * Dl) + c0) - (c2 * (w0 - / 2 * Dl) ^ 2 + c1 * (w0 - / 2 * Dl) + c0)) - ((c2 * (w0 - / 2 * Dl) ^ 2 + c1 * (w0 - / 2 * Dl) + c0) - (c2 * (w0 - 3 / 2 * Dl) ^ 2 + c1 * (w0 - 3 / 2 * Dl) + c0))); [field|]. rewrite I2, I1, I0. lra. }
  set (X := (2 * c2 + (2 * c2 * w0 + c1)) * (/ 2 * Dl)). assert (EX : X * Dl = A1 * Dl + A1 - A2) by (unfold X; transitivity (((2 * c2 * (Dl * Dl)) + (2 * c2 * w0 + c1) * Dl * Dl) / 2); [field|rewrite K1, K2; field]).
  assert (QX : cis X = RtoC 1).
  { transitivity (cis (2 * P2 + 2 * c2 * (w0 + / 2 * Dl - w0)) * cis (- (2 * P2 - (2 * c2 * w0 + c1) * (w0 + / 2 * Dl - w0))))%C.
    - rewrite <- cis_add. f_equal. unfold X. ring.
    - rewrite Q, <- cis_add. replace (2 * P2 - (2 * c2 * w0 + c1) * (w0 + / 2 * Dl - w0) + - (2 * P2 - (2 * c2 * w0 + c1) * (w0 + / 2 * Dl - w0))) with 0 by ring. apply cis_0. }
  destruct (cis_eq_1 X QX) as [k Hk]. assert (BX : 0 < X < 2 * PI).
  { assert (E1 : w0 + / 2 * Dl - (w0 - / 2 * Dl) = Dl) by lra. assert (E2 : w0 - / 2 * Dl - (w0 - 3 / 2 * Dl) = Dl) by lra. rewrite E1 in B1. rewrite E2 in B2. unfold c_mks in B1, B2.
    split; apply (Rmult_lt_reg_r Dl); try lra; rewrite EX; nra. }
  rewrite Hk in BX. destruct (Z_lt_le_dec 0 k) as [L|L].
  - apply Zlt_le_succ in L. apply IZR_le in L. cbn in L. nra.
  - apply IZR_le in L. nra.
Qed.

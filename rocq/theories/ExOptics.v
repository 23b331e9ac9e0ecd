(** Concrete cases that meet the hypotheses of the crystal, beam and grating theorems (C59-C65). *)
From Coq Require Import String.
From Coq Require Import Reals List ZArith Bool Arith Lia Lra.
From Coquelicot Require Import Rcomplements Complex.
From Verif Require Import Base CNum NumPy ModelFFT ModelPulse Spec ModelCrystal CrystalProofs CrystalShareProofs ModelBeam BeamProofs ModelGrating GratingProofs.
From Verif Require Import PropsCrystal PropsCrystalShare PropsBeam PropsGrating.
Import ListNotations.
Local Open Scope R_scope.
Local Open Scope py_scope.

(** ** C59: a birefringent crystal with dispersion *)
Definition so : sellmeier := mkSell (16 / 3) (11 / 3) 0 0 0 0 0 (INR 2) 0 0.
Definition se : sellmeier := mkSell 4 0 0 0 0 0 0 (INR 2) 0 0.
Definition bx : agse := mkAgse so se 0.
Lemma sell_val A B wl n : 0 < wl -> 0 <= n -> A + B / (wl * 0.001) ^ 2 = n ^ 2 -> sell_n (mkSell A B 0 0 0 0 0 (INR 2) 0 0) wl = Ok n.
Proof.
  intros H Hn E. assert (P : 0 < wl * 0.001) by lra. assert (P2 : 0 < (wl * 0.001) ^ 2) by (apply pow_lt; exact P). unfold sell_n, fpow. cbn [sa sb sc sA sB sC sD sE sF sG]. destruct (Rlt_dec 0 (wl * 0.001)); [|lra]. cbn [rbind]. rewrite Rpower_pow, Rpower_O by exact P. rewrite fdiv_ok by lra. cbn [rbind]. rewrite fdiv_ok by lra. cbn [rbind]. rewrite fdiv_ok by lra. cbn [rbind]. rewrite fdiv_ok by lra. cbn [rbind].
  replace (A + B / ((wl * 0.001) ^ 2 - 0) + 0 / (1 - 0) + 0 / (1 - 0 / 1)) with (n ^ 2) by (rewrite <- E; replace ((wl * 0.001) ^ 2 - 0) with ((wl * 0.001) ^ 2) by ring; field; lra). rewrite fsqrt_ok by apply pow2_ge_0. rewrite <- Rsqr_pow2, sqrt_Rsqr by exact Hn. reflexivity.
Qed.
Lemma bx_no1 : sell_n so 1000 = Ok 3. Proof. apply sell_val; lra. Qed.
Lemma bx_no2 : sell_n so 2000 = Ok (5 / 2). Proof. apply sell_val; lra. Qed.
Lemma bx_ne wl : 0 < wl -> sell_n se wl = Ok 2. Proof. intros H. apply sell_val; [exact H|lra|]. assert (0 < (wl * 0.001) ^ 2) by (apply pow_lt; lra). field. lra. Qed.
(** the idler is not given; a phase-matching angle exists, so phasematch returns one, together with the idler 2000 nm *)
Example ex_C59 : exists theta m, phasematch bx (Some 1000) (Some 2000) None true = Ok (theta, Some 2000) /\ 0 <= theta <= PI / 2 /\ agse_n (set_theta theta bx) 1000 "mix" = Ok m /\ m = 5 / 2.
Proof.
  assert (E1 : agse_n bx 1000 "e" = Ok 2) by (unfold agse_n; cbn [bx ag_o ag_e]; rewrite bx_no1, bx_ne by lra; reflexivity).
  assert (E2 : agse_n bx 1000 "o" = Ok 3) by (unfold agse_n; cbn [bx ag_o ag_e]; rewrite bx_no1, bx_ne by lra; reflexivity).
  assert (E3 : agse_n bx 2000 "o" = Ok (5 / 2)) by (unfold agse_n; cbn [bx ag_o ag_e]; rewrite bx_no2, bx_ne by lra; reflexivity).
  pose proof (C59_phasematch bx (Some 1000) (Some 2000) None true 1000 2000 2000 2 3 (5 / 2) (5 / 2) (Some 2000) ltac:(lra) ltac:(lra) ltac:(lra)) as H.
  assert (H1 : / 1000 = / 2000 + / 2000) by lra. specialize (H (or_intror (conj H1 (or_intror (or_intror (conj eq_refl (conj eq_refl (conj eq_refl eq_refl)))))))). specialize (H E1 E2 E3 E3 ltac:(lra) ltac:(lra) ltac:(lra) ltac:(lra) ltac:(lra)). cbv beta zeta in H. pose proof PI_RGT_0 as Hpi.
  destruct (phasematch bx (Some 1000) (Some 2000) None true) as [[theta wl]|e].
  - destruct H as (B & (m & Em & Hm) & ->). exists theta, m. split; [reflexivity|]. split; [exact B|]. split; [exact Em|]. replace (5 / 2 * (2 * PI / 2000) + 5 / 2 * (2 * PI / 2000)) with (5 / 2 * (2 * PI / 1000)) in Hm by (field; lra). apply (Rmult_eq_reg_r (2 * PI / 1000)); [exact Hm|]. lra.
  - exfalso. destruct H as [_ H]. set (u := 81 / 125). assert (U : 0 < u < 1) by (unfold u; lra). set (th := acos (sqrt u)). assert (Su : 0 <= sqrt u) by apply sqrt_pos. assert (S2 : sqrt u * sqrt u = u) by (apply sqrt_sqrt; lra). assert (S1 : sqrt u <= 1) by (rewrite <- sqrt_1; apply sqrt_le_1_alt; lra).
    apply (H th). exists (5 / 2). split; [|field; lra]. unfold agse_n. cbn [set_theta bx ag_o ag_e ag_theta]. rewrite bx_no1, bx_ne by lra. cbn [rbind]. change (String.eqb "mix" "mix") with true. cbv iota. rewrite !fdiv_ok by lra. cbn [rbind].
    assert (Ct : cos th ^ 2 = u) by (unfold th; rewrite cos_acos by lra; lra). assert (St : sin th ^ 2 = 1 - u) by (pose proof (sin2_cos2 th) as Q; unfold Rsqr in Q; lra). rewrite Ct, St.
    replace ((1 - u) / 2 ^ 2 + u / 3 ^ 2) with ((2 / 5) ^ 2) by (unfold u; field). rewrite fsqrt_ok by apply pow2_ge_0. cbn [rbind]. rewrite <- Rsqr_pow2, sqrt_Rsqr by lra. rewrite fdiv_ok by lra. f_equal. field.
Qed.
(** an index 1 + 1000/lambda, 1000 nm -> 2000 nm + 2000 nm: a period of 2 um *)
Example ex_C60 : exists period, poling_period (fun wl => Ok (1 + 1000 / wl)) None (Some 1000) (Some 2000) None 0 = Ok (period, Some 2000) /\ 2 * PI / period = PI * 1000000.
Proof.
  pose proof (C60_poling_period (fun wl => Ok (1 + 1000 / wl)) None (Some 1000) (Some 2000) None 0 1000 2000 2000 2 (3 / 2) (3 / 2) (Some 2000) ltac:(lra) ltac:(lra) ltac:(lra) ltac:(discriminate)) as H. pose proof PI_RGT_0 as Hpi.
  assert (H1 : / 1000 = / 2000 + / 2000) by lra. specialize (H (or_intror (conj H1 (or_intror (or_intror (conj eq_refl (conj eq_refl (conj eq_refl eq_refl)))))))). specialize (H ltac:(cbv beta; apply f_equal; field) ltac:(cbv beta; apply f_equal; field) ltac:(cbv beta; apply f_equal; field)). cbv beta zeta in H.
  assert (M : 2 * PI * 2 / (1000 * 1e-9) - 2 * PI * (3 / 2) / (2000 * 1e-9) - 2 * PI * (3 / 2) / (2000 * 1e-9) = PI * 1000000). { replace (1000 * 1e-9) with (/ 1000000) by lra. replace (2000 * 1e-9) with (/ 500000) by lra. field. }
  rewrite M in H. destruct H as [H _]. destruct H as (period & E & _ & Q); [lra|]. exists period. split; [exact E|lra].
Qed.

(** ** C61 *)
Example ex_C61_provenance : forall strf : R -> string, exists r, fst (xstep strf (xrun strf [XNewPpln 24.5 Gayer None true; XReadN 0 p12 None] xworld0) (XReadN 0 p12 None)) = OIndex r.
Proof. intros strf. destruct (C61_provenance_partial strf [XNewPpln 24.5 Gayer None true; XReadN 0 p12 None] 0 p12 None (mkX (Ppln (mkPpln 24.5 24.5 24.5 Gayer)) None true)) as (r & E & _); [|exists r; exact E]. unfold xrun. cbn [fold_left xstep ppln_init bind modify ret snd xworld0 xw_k xw_xs app nth_error]. destruct (get_pulse_n strf _ _ _) as [r s]. reflexivity. Qed.
Example ex_C61_transparent : forall strf : R -> string, let x := mkX (Ppln (mkPpln 24.5 24.5 24.5 Gayer)) None true in
  fst (xstep strf (xrun strf [XNewPpln 24.5 Gayer None true; XReadN 0 p12 None] xworld0) (XReadN 0 p12 None)) = OIndex (fst (get_pulse_n strf (set_caching false x) None (shared0, p12))).
Proof.
  intros strf x. apply (C61_transparent_partial strf [XNewPpln 24.5 Gayer None true; XReadN 0 p12 None] 0 p12 None x).
  - unfold xrun. cbn [fold_left xstep ppln_init bind modify ret snd xworld0 xw_k xw_xs app nth_error]. destruct (get_pulse_n strf _ _ _) as [r s]. reflexivity.
  - intros _ a j q ax b y E Ey _ _. destruct a as [|o1 [|o2 a]]; cbn [app] in E; [discriminate| |injection E as _ E; destruct a; discriminate]. injection E as <- <- <- <- _. unfold xrun in Ey. cbn [fold_left xstep ppln_init bind modify ret snd xworld0 xw_k xw_xs app nth_error] in Ey. injection Ey as <-. reflexivity.
Qed.
Example ex_C61_damage : forall strf : R -> string, fst (xstep strf (xrun strf [XNewAgse 1 None true; XSetTheta 0 2] xworld0) (XReadDamage 0)) = ODamage (Ok 1e13).
Proof. intros strf. apply (C61_damage_partial strf [XNewAgse 1 None true; XSetTheta 0 2] 0). cbn. lia. Qed.

(** ** C62, C63, C65: beams of 10 um and 20 um waist at 2000 and 1000 nm in a crystal of index 2 *)
Definition xc : crystal := mkX (Agse (mkAgse se se 0)) None false.
Definition b1 : beam := mkBeam [1e-5] [2e-6; 1e-6] (Some "o"%string).
Definition b2 : beam := mkBeam [2e-5] [2e-6; 1e-6] (Some "e"%string).
Lemma xc_n strf b k : b_axis b = Some "o"%string \/ b_axis b = Some "e"%string -> get_n_in_crystal strf b p12 xc k = (Ok [2; 2], k).
Proof.
  intros Ha. unfold get_n_in_crystal, reading, get_pulse_n. cbn [xc x_caching]. unfold compute_n, on_pulse, bind. cbn [fst snd]. destruct (p12_wl strf) as [p' E]. rewrite E. cbn [as_array ret lift xc x_mat index rtraverse].
  assert (N : forall w, 0 < w -> agse_n (mkAgse se se 0) w (match b_axis b with Some a => a | None => "mix"%string end) = Ok 2) by (intros w Hw; unfold agse_n; cbn [ag_o ag_e]; rewrite bx_ne by exact Hw; destruct Ha as [-> | ->]; reflexivity).
  rewrite !N by lra. reflexivity.
Qed.
Lemma b_conf w ax : calc_confocal (mkBeam [w] [2e-6; 1e-6] ax) [2; 2] = Ok [2 * PI * w ^ 2 * (2 / 2e-6); 2 * PI * w ^ 2 * (2 / 1e-6)].
Proof. unfold calc_confocal, bcast. cbn [b_lam b_w0]. rewrite broadcast2_eq by reflexivity. cbn [map2 rbind rtraverse fst snd]. rewrite !fdiv_ok by lra. reflexivity. Qed.
Example ex_C62_match : forall strf k, exists b1', set_waist_to_match_confocal strf b1 p12 p12 b2 xc k = (Ok b1', k) /\ calc_confocal b1' [2; 2] = calc_confocal b2 [2; 2].
Proof.
  intros strf k. destruct (C62_match_confocal strf b1 b2 p12 p12 xc k k k [2; 2] [2; 2] _ (xc_n strf b1 k (or_introl eq_refl)) (xc_n strf b2 k (or_intror eq_refl)) (b_conf 2e-5 (Some "e"%string))) as (b' & E & C & _); [cbn; lia|reflexivity|reflexivity|intros v [<-|[<-|[]]]; lra|intros v [<-|[<-|[]]]; lra|cbn; intros v [<-|[<-|[]]]; lra|cbn; intros v [<-|[<-|[]]]; lra|].
  exists b'. split; [exact E|]. rewrite C. symmetry. apply b_conf.
Qed.
Example ex_C62_central : forall strf k, exists b1' c, set_waist_to_match_central_waist strf b1 p12 3e-5 xc k = (Ok b1', k) /\ nth 1 (b_w0 b1') 0 = 3e-5 /\ calc_confocal b1' [2; 2] = Ok [c; c].
Proof.
  intros strf k. destruct (C62_match_central strf b1 p12 3e-5 xc k k [2; 2] (xc_n strf b1 k (or_introl eq_refl))) as (b' & E & W & _ & c & C & _); [cbn; lia|reflexivity|intros v [<-|[<-|[]]]; lra|cbn; intros v [<-|[<-|[]]]; lra|lra|]. exists b', c. split; [exact E|]. split; [exact W|exact C].
Qed.
Lemma b_waist w ax z : 0 < w -> calculate_waist (mkBeam [w] [2e-6; 1e-6] ax) z [2; 2] = Ok [w * sqrt (1 + (2 * z / (2 * PI * w ^ 2 * (2 / 2e-6))) ^ 2); w * sqrt (1 + (2 * z / (2 * PI * w ^ 2 * (2 / 1e-6))) ^ 2)].
Proof.
  intros Hw. unfold calculate_waist. rewrite b_conf. cbn [rbind]. unfold bcast. cbn [b_w0]. unfold broadcast2. cbn [length Nat.eqb map rbind rtraverse fst snd]. pose proof PI_RGT_0. assert (0 < w ^ 2) by (apply pow_lt; exact Hw). assert (0 < 2 * PI * w ^ 2) by (apply Rmult_lt_0_compat; lra).
  rewrite !fdiv_ok; [reflexivity| |]; apply Rgt_not_eq; apply Rmult_lt_0_compat; lra.
Qed.
Example ex_C62_growth : exists w w', calculate_waist b1 (- 1e-3) [2; 2] = Ok w /\ calculate_waist b1 2e-3 [2; 2] = Ok w' /\ nth 1 w 0 < nth 1 w' 0.
Proof.
  eexists _, _. split; [apply b_waist; lra|]. split; [apply b_waist; lra|]. destruct (C62_waist_growth b1 [2; 2] (- 1e-3) 2e-3 _ _ 1 (b_waist 1e-5 (Some "o"%string) _ ltac:(lra)) (b_waist 1e-5 (Some "o"%string) _ ltac:(lra))) as (_ & _ & G & _); [cbn; lia|intros v [<-|[]]; lra|]. apply G. rewrite Rabs_left, Rabs_right; lra.
Qed.
Example ex_C65 : exists w zR Rz ph, calculate_waist b1 1e-3 [2; 2] = Ok w /\ calculate_zR b1 [2; 2] = Ok zR /\ calculate_R b1 1e-3 [2; 2] = Ok Rz /\ calculate_gouy_phase b1 1e-3 [2; 2] = Ok ph /\
  (/ (RtoC 1e-3 + Ci * RtoC (nth 1 zR 0)) = RtoC (/ nth 1 Rz 0) - Ci * RtoC (1e-6 / (PI * 2 * nth 1 w 0 ^ 2)))%C.
Proof.
  pose proof (b_waist 1e-5 (Some "o"%string) 1e-3 ltac:(lra)) as Ew. assert (Ez : calculate_zR b1 [2; 2] = Ok (map (fun x => x / 2) [2 * PI * 1e-5 ^ 2 * (2 / 2e-6); 2 * PI * 1e-5 ^ 2 * (2 / 1e-6)])) by (unfold calculate_zR, b1; rewrite b_conf; reflexivity).
  assert (ER : exists Rz, calculate_R b1 1e-3 [2; 2] = Ok Rz). { unfold calculate_R. rewrite Ez. cbn [rbind map rtraverse]. rewrite !fdiv_ok by lra. eexists. reflexivity. } destruct ER as [Rz ER]. assert (Eg : exists ph, calculate_gouy_phase b1 1e-3 [2; 2] = Ok ph) by (unfold calculate_gouy_phase; rewrite Ez; eexists; reflexivity). destruct Eg as [ph Eg]. eexists _, _, Rz, ph. split; [exact Ew|]. split; [exact Ez|]. split; [exact ER|]. split; [exact Eg|].
  destruct (C65_beam_parameter b1 [2; 2] 1e-3 _ _ Rz ph 1 Ew Ez ER Eg) as [A _]; [cbn; lia|reflexivity|intros v [<-|[<-|[]]]; lra|cbn; intros v [<-|[<-|[]]]; lra|cbn; intros v [<-|[]]; lra|reflexivity|]. exact A.
Qed.
Lemma xc_k strf b k : b_axis b = Some "o"%string \/ b_axis b = Some "e"%string -> exists k1 k2, 0 < k1 /\ 0 < k2 /\ get_k_in_crystal strf b p12 xc k = (Ok [k1; k2], k).
Proof.
  intros Ha. unfold get_k_in_crystal, reading, get_pulse_k, on_pulse. unfold bind at 1. cbn [fst snd].
  rewrite p12_wl'. cbn [as_array]. unfold bind at 1, ret at 1. unfold bind at 1, lift at 1. cbn [xc x_mat index rtraverse].
  assert (N : forall w, 0 < w -> agse_n (mkAgse se se 0) w (match b_axis b with Some a => a | None => "mix"%string end) = Ok 2) by (intros w Hw; unfold agse_n; cbn [ag_o ag_e]; rewrite bx_ne by exact Hw; destruct Ha as [-> | ->]; reflexivity).
  rewrite !N by lra. cbn [rbind]. unfold bind at 1. cbn [snd fst].
  set (q := with_wlc _ _ _). assert (Ew : exists q', get_wl_mks strf q = (Ok (map (fun x => 2 * PI * c_mks / x) (map (fun x => x * 1000000000000) (W_of p12))), q')).
  { unfold get_wl_mks, get_W_mks, get_W, need_ready, gets, bind, get, modify, ret. cbn [hash_eqb p_Wh p12 with_wlc q with_Wc p_ready as_array]. eexists. reflexivity. }
  destruct Ew as [q' Ew]. rewrite Ew. assert (EW : map (fun x => 2 * PI * c_mks / x) (map (fun x => x * 1000000000000) (W_of p12)) = [2e-6; 1e-6]).
  { unfold W_of, V_of, arange_sym, mk, c_mks, w0_of. cbn [p_n p_f p_tw p12 seq map INR]. pose proof PI_RGT_0. apply (f_equal2 cons); [|apply (f_equal2 cons); [|reflexivity]].
    - replace (2 * PI * (- ((1 + 1) / 2) + 0) / ((1 + 1) * (2 / 299.792458 / (1 + 1))) + 2 * PI * 299.792458) with (PI * 299.792458) by (field; lra). field_simplify; lra.
    - replace (2 * PI * (- ((1 + 1) / 2) + 1) / ((1 + 1) * (2 / 299.792458 / (1 + 1))) + 2 * PI * 299.792458) with (2 * PI * 299.792458) by (field; lra). field_simplify; lra. }
  rewrite EW. unfold bind, lift. rewrite broadcast2_eq by reflexivity. cbn [map2 rtraverse fst snd]. rewrite !fdiv_ok by lra. cbn [rbind]. pose proof PI_RGT_0. eexists _, _. split; [|split; [|reflexivity]]; apply Rdiv_lt_0_compat; lra.
Qed.
Example ex_C63 : forall strf k, exists r, calc_overlap_integral strf b1 5e-3 p12 p12 b2 xc k = (Ok r, k) /\ length r = 2%nat /\ 0 < nth 0 r 0 <= 1 /\ calc_overlap_integral strf b2 5e-3 p12 p12 b1 xc k = (Ok r, k).
Proof.
  intros strf k. destruct (xc_k strf b1 k (or_introl eq_refl)) as (k1 & k2 & P1 & P2 & E1). destruct (xc_k strf b2 k (or_intror eq_refl)) as (k3 & k4 & P3 & P4 & E2). pose proof PI_RGT_0.
  assert (Z : forall w ax, calculate_zR (mkBeam [w] [2e-6; 1e-6] ax) [2; 2] = Ok [2 * PI * w ^ 2 * (2 / 2e-6) / 2; 2 * PI * w ^ 2 * (2 / 1e-6) / 2]) by (intros; unfold calculate_zR; rewrite b_conf; reflexivity).
  assert (Pz : forall w l, 0 < w -> 0 < l -> 0 < 2 * PI * w ^ 2 * (2 / l) / 2). { intros w l Hw Hl. assert (0 < w ^ 2) by (apply pow_lt; exact Hw). assert (0 < 2 / l) by (apply Rdiv_lt_0_compat; lra). assert (0 < 2 * PI * w ^ 2) by (apply Rmult_lt_0_compat; lra). apply Rdiv_lt_0_compat; [apply Rmult_lt_0_compat; assumption|lra]. }
  destruct (C63_overlap_fraction strf b1 b2 5e-3 p12 p12 xc k k k k k [2; 2] [2; 2] _ _ [k1; k2] [k3; k4] 2 (xc_n strf b1 k (or_introl eq_refl)) (xc_n strf b2 k (or_intror eq_refl)) (Z _ _) (Z _ _) E1 E2) as (r & E & L & N); [reflexivity..| |].
  { intros v [[<-|[<-|[]]]|[[<-|[<-|[]]]|[[<-|[<-|[]]]|[<-|[<-|[]]]]]]; try assumption; apply Pz; lra. }
  exists r. split; [exact E|]. split; [exact L|]. split; [apply (N 0%nat); lia|]. apply C63_overlap_symmetric; [reflexivity|exact E].
Qed.

(** ** C64: 1000 lines/mm, used at normal incidence; at 500 nm the diffracted beam leaves at 30 degrees *)
Definition gr : treacy := mkTreacy 1e-6 0.
Example ex_C64_theta : exists theta, calc_theta gr 500 = Ok theta /\ sin (0 - theta) = 1 / 2.
Proof.
  destruct (C64_grating_equation gr 500) as [A [_ B]]. destruct B as [theta E]; [split; [cbn; lra|]; exists (PI / 6); cbn [t_g t_d gr]; rewrite sin_0, sin_PI6; lra|]. exists theta. split; [exact E|]. destruct (A theta E) as [Q _]. cbn [t_g t_d gr] in Q. rewrite sin_0 in Q. lra.
Qed.
(** 2000 nm is not diffracted: a float gives nan, an array is coerced *)
Example ex_C64_array : exists ths, calc_theta_array gr [500; 2000] = Ok ths /\ sin (0 - nth 0 ths 0) = 1 / 2 /\ Rabs (0 - nth 1 ths 0) = PI / 2.
Proof.
  destruct (C64_theta_array gr [500; 2000]) as (ths & E & L & N); [cbn; lra|]. exists ths. split; [exact E|]. destruct ex_C64_theta as (theta & Et & Q). split; [destruct (N 0%nat) as [N0 _]; [cbn; lia|]; rewrite (N0 theta Et); exact Q|]. destruct (N 1%nat) as [_ N1]; [cbn; lia|]. apply N1. intros th H. assert (X : exists th, calc_theta gr 2000 = Ok th) by eauto. apply (C64_grating_equation gr 2000) in X as [_ [al X]]. cbn [t_g t_d gr] in X. rewrite sin_0 in X. pose proof (SIN_bound al). lra.
Qed.
Example ex_C64_dispersion : exists v, calc_dt_dw_singlepass gr (1e9 * 2 * PI * c_mks / (4 * PI * c_mks * 1000000)) 1e-2 = Ok v.
Proof.
  pose proof PI_RGT_0. assert (C : 0 < c_mks) by (unfold c_mks; lra). assert (P : 0 < PI * c_mks) by (apply Rmult_lt_0_compat; lra). destruct (C64_dispersion_is_derivative gr (4 * PI * c_mks * 1000000) 1e-2) as (eps & v & _ & _ & _ & E & _); [lra|cbn; lra| |exists v; exact E].
  cbn [gr t_d t_g]. rewrite sin_0. replace (2 * PI * c_mks / (4 * PI * c_mks * 1000000 * 1e-6)) with (1 / 2); [lra|]. replace (4 * PI * c_mks * 1000000 * 1e-6) with (4 * PI * c_mks) by lra. field. lra.
Qed.
(** any quadrature and fit that return numbers *)
Example ex_C64_apply : forall (strf : R -> string) a0 a1, let p := mkPulse 2 299.792458 (2 / 299.792458) (Some [a0; a1]) None true None None None None in
  exists p' b, apply_phase_to_pulse strf (fun _ a b => Ok (b - a)) (fun _ _ => (1, 0, 0)) gr 1e-2 p = (Ok tt, p') /\ p_AW p' = Some b /\ map Cmod b = [Cmod a0; Cmod a1].
Proof.
  intros strf a0 a1 p. destruct (C64_apply_succeeds strf (fun _ a b => Ok (b - a)) (fun _ _ => (1, 0, 0)) gr 1e-2 p [a0; a1] eq_refl eq_refl eq_refl eq_refl) as [p' E]; [intros; eexists; reflexivity|]. destruct (C64_spectrum_unchanged strf _ _ gr 1e-2 p p' [a0; a1] eq_refl eq_refl eq_refl E) as (b & Eb & M & _). exists p', b. split; [exact E|]. split; [exact Eb|exact M].
Qed.

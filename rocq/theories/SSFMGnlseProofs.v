(** The SSFM integrator against the equation it solves: gauge of the propagation constants, self-phase modulation, self-steepening, linear propagation end to end (C72-C75). *)
From Coq Require Import Reals List ZArith Bool Arith Lia Lra.
From Coquelicot Require Import Coquelicot.
From Verif Require Import Base CNum NumPy ModelFFT FFTProofs ModelPulse PulseProofs PulseOpsProofs PulseRegridProofs ModelSSFM SSFMLoopProofs SSFMProofs SSFMSymProofs SSFMPropProofs.
Import ListNotations.
Local Open Scope R_scope.
Local Open Scope py_scope.
Local Notation z0 := (RtoC 0).

(** two loops in lock step, the relation depending on the steps kept so far *)
Section SimSteps.
Context {S1 S2 : Type}.
Variable c : cfg.
Variable att1 : R -> S1 -> option R * S1 * S1.
Variable att2 : R -> S2 -> option R * S2 * S2.
Variable Rel : list R -> S1 -> S2 -> Prop.
Hypothesis Hatt : forall dz st a b, 0 < dz -> Rel st a b ->
  fst (fst (att1 dz a)) = fst (fst (att2 dz b)) /\ Rel st (snd (fst (att1 dz a))) (snd (fst (att2 dz b))) /\ Rel (2 * dz :: st) (snd (att1 dz a)) (snd (att2 dz b)).
Lemma loop_sim_steps fuel dist dz ret steps a b : 0 < dz -> Rel steps a b ->
  match loop c att1 fuel dist dz ret steps a, loop c att2 fuel dist dz ret steps b with
  | Some x, Some y => l_dist x = l_dist y /\ l_dz x = l_dz y /\ l_ret x = l_ret y /\ l_steps x = l_steps y /\ Rel (l_steps y) (l_st x) (l_st y)
  | None, None => True
  | _, _ => False
  end.
Proof.
  revert dist dz ret steps a b. induction fuel as [|f IH]; intros dist dz ret steps a b Hdz Hab.
  - simpl. destruct (Rlt_dec 0 dist); simpl; auto.
  - destruct (Rlt_dec 0 dist) as [Hd|Hd].
    + rewrite !loop_turn by exact Hd. pose proof (Hatt dz steps a b Hdz Hab) as H.
      destruct (att1 dz a) as [[d1 a1] a2], (att2 dz b) as [[d2 b1] b2]. destruct H as (E1 & E2 & E3). cbn [fst snd] in *. subst d2.
      destruct (step_ctl c dz d1) as [keep dz1] eqn:E. destruct (ctl_spec _ _ _ _ _ E Hdz) as (_ & _ & Hp).
      destruct keep; apply IH; auto. now apply next_dz_pos.
    + rewrite !loop_done by lra. simpl. auto.
Qed.
End SimSteps.

(** ** C72: a constant added to the propagation constants *)
Lemma vscale_add u a b : length a = length b -> vadd (vscale u a) (vscale u b) = vscale u (vadd a b).
Proof. intros L. apply (vec_extn (length a)); vl. intros i Hi. rewrite vscale_nth, !vadd_nth, !vscale_nth by (rewrite ?vscale_length; exact L). ring. Qed.
Lemma vscale_sub u a b : length a = length b -> vsub (vscale u a) (vscale u b) = vscale u (vsub a b).
Proof. intros L. apply (vec_extn (length a)); vl. intros i Hi. rewrite vscale_nth, !vsub_nth, !vscale_nth by (rewrite ?vscale_length; exact L). ring. Qed.
Lemma vscale_swap u k a : vscale k (vscale u a) = vscale u (vscale k a).
Proof. rewrite !vscale_vscale. f_equal. ring. Qed.
Lemma vmul_scale_r u a b : length a = length b -> vmul a (vscale u b) = vscale u (vmul a b).
Proof. intros L. apply (vec_extn (length a)); vl. intros i Hi. rewrite vscale_nth, !vmul_nth, vscale_nth by (rewrite ?vscale_length; exact L). ring. Qed.
Lemma diag_vscale_d c u d x : length d = length x -> diag c (vscale u d) x = vscale u (diag c d x).
Proof.
  intros H. unfold diag. rewrite <- ifft_t_scale. f_equal. apply (vec_extn (length x)); vl. intros i Hi.
  rewrite vscale_nth, !vmul_nth, vscale_nth by (rewrite ?vscale_length, ?fft_t_length; congruence). ring.
Qed.

Section Gauge.
Variables (c : cfg) (n : nat) (p1 p2 : ssfm) (b0 dir : R).
Hypothesis Hm : c_method c = METHOD_RK4IP.
Hypothesis Hss : c_noSS c = true.
Hypothesis W : wf n p2.
Hypothesis Hb : s_betas p1 = map (fun b => b + RtoC b0)%C (s_betas p2).
Hypothesis Ha : s_alpha p1 = s_alpha p2.
Hypothesis Hr : s_gamma p1 = s_gamma p2 /\ s_w0 p1 = s_w0 p2 /\ s_omegas p1 = s_omegas p2 /\ s_R p1 = s_R p2.

Lemma gauge_P h : calc_expD h dir (s_betas p1) (s_alpha p1) = vscale (cis (dir * h * (1 / 2) * b0)) (calc_expD h dir (s_betas p2) (s_alpha p2)).
Proof.
  rewrite !expD_P. pose proof W as (_ & L1 & L2 & _). assert (LP : length (P p1 (dir * h * (1 / 2))) = n).
  { unfold P. rewrite Hb, Ha, map2_length; rewrite map_length; congruence. }
  apply (vec_extn n); vl. intros i Hi. rewrite vscale_nth, (P_nth n p2) by (try exact W; exact Hi).
  unfold P. rewrite (map2_nth _ _ _ _ z0 z0) by (rewrite Hb, ?Ha, map_length; congruence). rewrite Hb, Ha, (nth_map' _ _ _ z0) by congruence.
  rewrite <- cexp_imag, <- cexp_add. f_equal. apply C_eq; cbn; ring.
Qed.
Lemma gauge_adv s t u A h : pars s p1 -> pars t p2 -> Cnorm2 u = 1 -> length A = n -> 0 < h ->
  advance_fresh c s (vscale u A) h dir = vscale (u * cis (dir * h * b0))%C (advance_fresh c t A h dir) /\ length (advance_fresh c t A h dir) = n.
Proof.
  intros Ps Pt Hu LA Hh. rewrite !advance_fresh_eq by exact Hh. unfold adv_with. rewrite Hm.
  assert (N1 : forall x, nonlinear c s x = nonlinear c p2 x).
  { intros. unfold nonlinear. destruct Ps as (_ & _ & -> & -> & -> & ->). destruct Hr as (-> & -> & -> & ->). reflexivity. }
  assert (N2 : forall x, nonlinear c t x = nonlinear c p2 x) by (intros; now apply nonlinear_pars).
  destruct Ps as (B1 & B2 & _). destruct Pt as (D1 & D2 & _). rewrite B1, B2, D1, D2, gauge_P.
  assert (LE : length (calc_expD h dir (s_betas p2) (s_alpha p2)) = n) by (rewrite expD_P; now apply P_length).
  set (E := calc_expD h dir (s_betas p2) (s_alpha p2)) in *. set (e := cis (dir * h * (1 / 2) * b0)).
  assert (He : Cnorm2 e = 1) by apply cis_norm2.
  assert (EE : (u * cis (dir * h * b0) = e * (e * u))%C). { unfold e. rewrite Cmult_assoc, <- cis_add, Cmult_comm. f_equal. f_equal. field. }
  assert (Heu : Cnorm2 (e * u)%C = 1) by (rewrite Cnorm2_mult, He, Hu; ring).
  assert (Heeu : Cnorm2 (e * (e * u))%C = 1) by (rewrite Cnorm2_mult, He, Heu; ring).
  assert (DG : forall v x, length x = n -> diag c (vscale e E) (vscale v x) = vscale (e * v)%C (diag c E x)).
  { intros v x Lx. rewrite diag_vscale_d by (rewrite vscale_length; congruence). rewrite diag_scale by congruence. apply vscale_vscale. }
  assert (NL : forall v x, length x = n -> Cnorm2 v = 1 -> vmul (vscale (RtoC (h * dir)) (nonlinear c s (vscale v x))) (vscale v x) = vscale v (vmul (vscale (RtoC (h * dir)) (nonlinear c t x)) x) /\
                            length (vmul (vscale (RtoC (h * dir)) (nonlinear c t x)) x) = n).
  { intros v x Lx Hv. rewrite N1, N2, nonlinear_phase by assumption. pose proof (nonlinear_length c n p2 x W Lx). split; [apply vmul_scale_r; rewrite vscale_length; congruence|vl]. }
  rewrite EE. unfold rk_with. cbv zeta.
  rewrite (DG u A LA). set (AI := diag c E A). assert (LAI : length AI = n) by (unfold AI; vl).
  destruct (NL u A LA Hu) as [Q L1]. rewrite Q. clear Q. set (k0 := vmul (vscale (RtoC (h * dir)) (nonlinear c t A)) A) in *.
  rewrite (DG u k0 L1). set (k1 := diag c E k0). assert (Lk1 : length k1 = n) by (unfold k1; vl).
  set (v := (e * u)%C) in *.
  rewrite (vscale_swap v (/ RtoC 2)%C k1), (vscale_add v AI) by (rewrite vscale_length; congruence).
  destruct (NL v (vadd AI (vscale (/ RtoC 2)%C k1)) ltac:(vl) Heu) as [Q L2]. rewrite Q. clear Q.
  set (k2 := vmul (vscale (RtoC (h * dir)) (nonlinear c t (vadd AI (vscale (/ RtoC 2)%C k1)))) (vadd AI (vscale (/ RtoC 2)%C k1))) in *.
  rewrite (vscale_swap v (/ RtoC 2)%C k2), (vscale_add v AI (vscale (/ RtoC 2)%C k2)) by (rewrite vscale_length; congruence).
  destruct (NL v (vadd AI (vscale (/ RtoC 2)%C k2)) ltac:(vl) Heu) as [Q L3]. rewrite Q. clear Q.
  set (k3 := vmul (vscale (RtoC (h * dir)) (nonlinear c t (vadd AI (vscale (/ RtoC 2)%C k2)))) (vadd AI (vscale (/ RtoC 2)%C k2))) in *.
  rewrite (vscale_add v AI k3) by congruence. rewrite (DG v (vadd AI k3)) by vl.
  destruct (NL (e * v)%C (diag c E (vadd AI k3)) ltac:(vl) Heeu) as [Q L4]. rewrite Q. clear Q.
  set (k4 := vmul (vscale (RtoC (h * dir)) (nonlinear c t (diag c E (vadd AI k3)))) (diag c E (vadd AI k3))) in *.
  rewrite !(vscale_swap v), (vscale_swap (e * v)%C). rewrite (vscale_add v AI) by (rewrite vscale_length; congruence).
  rewrite (vscale_add v (vadd AI _)) by (rewrite vscale_length; transitivity n; [auto 12 with vl|congruence]). rewrite (vscale_add v (vadd (vadd AI _) _)).
  2:{ rewrite vscale_length. transitivity n; [auto 12 with vl|congruence]. }
  rewrite DG by auto 12 with vl. split; [|auto 12 with vl]. apply vscale_add. transitivity n; [auto 12 with vl|symmetry; vl].
Qed.

Definition gauge (steps : list R) (s t : ssfm) : Prop :=
  pars s p1 /\ pars t p2 /\ s_A s = vscale (cis (dir * b0 * lrsum steps)) (s_A t) /\ length (s_A t) = n /\ s_iter s = s_iter t.
Lemma gauge_attempt dz st s t : 0 < dz -> gauge st s t ->
  fst (fst (attempt_fresh c dir dz s)) = fst (fst (attempt_fresh c dir dz t)) /\ gauge st (snd (fst (attempt_fresh c dir dz s))) (snd (fst (attempt_fresh c dir dz t))) /\
  gauge (2 * dz :: st) (snd (attempt_fresh c dir dz s)) (snd (attempt_fresh c dir dz t)).
Proof.
  intros Hdz (Ps & Pt & EA & LA & EI). unfold attempt_fresh. rewrite EA. cbn [fst snd].
  pose proof (cis_norm2 (dir * b0 * lrsum st)) as Hu. set (u := cis (dir * b0 * lrsum st)) in *.
  destruct (gauge_adv s t u (s_A t) (2 * dz) Ps Pt Hu LA ltac:(lra)) as [Ec Lc].
  destruct (gauge_adv s t u (s_A t) dz Ps Pt Hu LA Hdz) as [E1 L1].
  set (w := cis (dir * dz * b0)) in *. assert (Hw : Cnorm2 (u * w)%C = 1) by (unfold w; rewrite Cnorm2_mult, Hu, cis_norm2; ring).
  destruct (gauge_adv s t (u * w)%C (advance_fresh c t (s_A t) dz dir) dz Ps Pt Hw L1 Hdz) as [Ef Lf]. fold w in Ef.
  assert (E2 : (u * cis (dir * (2 * dz) * b0) = u * w * w)%C).
  { unfold w. rewrite <- Cmult_assoc, <- cis_add. f_equal. f_equal. ring. }
  rewrite Ec, E1, Ef, E2. set (Af := advance_fresh c t (advance_fresh c t (s_A t) dz dir) dz dir) in *. set (Ac := advance_fresh c t (s_A t) (2 * dz) dir) in *.
  assert (Hv : Cnorm2 (u * w * w)%C = 1) by (rewrite Cnorm2_mult, Hw; unfold w; rewrite cis_norm2; ring). set (v := (u * w * w)%C) in *.
  assert (EL : local_err (vscale v Af) (vscale v Ac) = local_err Af Ac).
  { unfold local_err. rewrite vscale_sub, !norm2_scale by (assumption || congruence). reflexivity. }
  assert (ER : richardson c (vscale v Af) (vscale v Ac) = vscale v (richardson c Af Ac) /\ length (richardson c Af Ac) = n).
  { unfold richardson. destruct (Nat.eqb (c_eta c) 3); [|destruct (Nat.eqb (c_eta c) 5)]; cbv zeta; rewrite !(vscale_swap v); rewrite vscale_sub by (rewrite !vscale_length; congruence); split; vl. }
  destruct ER as [ER LR]. rewrite EL, ER. split; [reflexivity|]. split; [repeat split; try apply Ps; try apply Pt; assumption|].
  repeat split; try apply Ps; try apply Pt; try exact LR; cbn [s_iter s_A with_iter with_A]; [|now rewrite EI].
  f_equal. unfold v, u, w. rewrite <- Cmult_assoc, <- !cis_add. f_equal. cbn [lrsum fold_right]. fold (lrsum st). ring.
Qed.
End Gauge.

(*! C72: RK4IP with self-steepening off, any dispersion, loss, Raman response, tolerance, direction: adding a constant b0 to every propagation constant multiplies the field
    integrate_over_dz leaves behind by exp(i*dir*b0*d), d the distance covered, and changes neither the kept steps nor the step size nor the iteration count. *)
Lemma C72_gauge_l : forall (c : cfg) (n fuel : nat) (delta_z dir b0 : R) (s : ssfm),
  c_method c = METHOD_RK4IP -> c_noSS c = true -> wf n s -> 0 < delta_z -> 0 < s_dz s ->
  match integrate_trace c fuel delta_z dir (with_fiber (map (fun b => b + RtoC b0)%C (s_betas s)) (s_gamma s) s), integrate_trace c fuel delta_z dir s with
  | Some r, Some r' => l_steps r = l_steps r' /\ final_dz r = final_dz r' /\ s_iter (l_st r) = s_iter (l_st r') /\
                       s_A (l_st r) = vscale (cis (dir * b0 * lrsum (l_steps r'))) (s_A (l_st r'))
  | None, None => True
  | _, _ => False
  end.
Proof.
  intros c n fuel delta_z dir b0 t Hm Hss W Hd Hdz. set (s := with_fiber (map (fun b => b + RtoC b0)%C (s_betas t)) (s_gamma t) t).
  destruct (first_dz_pos delta_z (s_dz t) Hd Hdz) as [P1 _].
  assert (H1 : res_rel same_run (integrate_trace c fuel delta_z dir s) (loop c (attempt_fresh c dir) fuel delta_z (first_dz delta_z (s_dz t)) None [] s)).
  { unfold integrate_trace. apply loop_sim; [intros; now apply attempt_same|exact P1|]. split; [right; left; reflexivity|reflexivity]. }
  assert (H2 : res_rel same_run (integrate_trace c fuel delta_z dir t) (loop c (attempt_fresh c dir) fuel delta_z (first_dz delta_z (s_dz t)) None [] t)).
  { unfold integrate_trace. apply loop_sim; [intros; now apply attempt_same|exact P1|]. split; [right; left; reflexivity|reflexivity]. }
  pose proof (loop_sim_steps c (attempt_fresh c dir) (attempt_fresh c dir) (gauge n s t b0 dir)
    ltac:(intros dz st a b Hz Hg; apply gauge_attempt; try assumption; try reflexivity; repeat split) fuel delta_z (first_dz delta_z (s_dz t)) None [] s t P1) as H3.
  assert (G0 : gauge n s t b0 dir [] s t).
  { repeat split; try apply W. cbn [lrsum fold_right s s_A with_fiber]. rewrite Rmult_0_r, cis_0. apply (vec_extn (length (s_A t))); vl. intros. rewrite vscale_nth. ring. }
  specialize (H3 G0).
  destruct (loop c (attempt_fresh c dir) fuel _ _ _ _ s) as [r1|], (loop c (attempt_fresh c dir) fuel _ _ _ _ t) as [r2|]; simpl in H3; try contradiction;
    destruct (integrate_trace c fuel delta_z dir s) as [r|], (integrate_trace c fuel delta_z dir t) as [r'|]; simpl in H1, H2; try contradiction; auto.
  destruct H1 as (A1 & A2 & A3 & A4 & [_ A5]), H2 as (D1 & D2 & D3 & D4 & [_ D5]), H3 as (G1 & G2 & G3 & G4 & (G5 & G6 & G7 & G8 & G9)).
  destruct (nocache_fields _ _ A5) as (Q1 & _ & Q3 & _). destruct (nocache_fields _ _ D5) as (S1 & _ & S3 & _).
  unfold final_dz. rewrite A2, A3, A4, D2, D3, D4, G2, G3, G4, Q1, Q3, S1, S3. auto.
Qed.

(** ** C73: self-phase modulation without dispersion *)
Definition flat (n : nat) (s : ssfm) : Prop := s_betas s = repeat z0 n /\ s_alpha s = repeat z0 n /\ s_R s = repeat (RtoC 1) n.
Lemma flat_P n s d : wf n s -> flat n s -> P s d = repeat (RtoC 1) n.
Proof.
  intros W (Hb & Ha & _). apply (vec_extn n); [vl|apply repeat_length|]. intros i Hi. rewrite (P_nth n) by assumption. rewrite Hb, Ha, !nth_repeat.
  rewrite nth_indep with (d' := RtoC 1) by now rewrite repeat_length. rewrite nth_repeat. rewrite <- cexp_0. f_equal. apply C_eq; cbn; field.
Qed.
Lemma diag_ones c n x : length x = n -> diag c (repeat (RtoC 1) n) x = x.
Proof.
  intros L. unfold diag. replace (vmul (repeat (RtoC 1) n) (fft_t c x)) with (fft_t c x); [apply ifft_fft_t|].
  apply (vec_extn n); [vl|apply len_vmul; [apply repeat_length|vl]|]. intros i Hi. rewrite vmul_nth by (rewrite repeat_length, fft_t_length; auto).
  rewrite nth_indep with (l := repeat (RtoC 1) n) (d' := RtoC 1) by now rewrite repeat_length. rewrite nth_repeat. ring.
Qed.
Lemma spm_nth c n s x k : c_noSS c = true -> wf n s -> flat n s -> length x = n -> (k < n)%nat ->
  nth k (nonlinear c s x) z0 = (Ci * RtoC (s_gamma s * Cnorm2 (nth k x z0)))%C.
Proof. intros Hs W (_ & _ & HR) L Hk. destruct (C29_nonlinear_moves_no_power_l c n s x Hs W L) as [H _]. now apply H. Qed.

(** the amplification factor of one RK4 step for a' = i |a|^2 a *)
Definition spm_r2 (u : R) := 1 + u / 4.
Definition spm_a3 (u : R) := 1 - u * spm_r2 u / 4.
Definition spm_r3 (u : R) := spm_a3 u ^ 2 + u * spm_r2 u ^ 2 / 4.
Definition spm_b4 (u : R) := 1 - u * spm_r3 u * spm_r2 u / 2.
Definition spm_r4 (u : R) := spm_b4 u ^ 2 + u * spm_r3 u ^ 2 * spm_a3 u ^ 2.
Definition spm_re (u : R) := 1 - u * (spm_r2 u + spm_r3 u * spm_r2 u + spm_r4 u * spm_r3 u * spm_a3 u) / 6.
Definition spm_im (u : R) := (1 + 2 * spm_r2 u + 2 * spm_r3 u * spm_a3 u + spm_r4 u * spm_b4 u) / 6.

Fixpoint pevalZ (l : list Z) (u : R) : R := match l with [] => 0 | a :: t => IZR a + u * pevalZ t u end.
Lemma pevalZ_bound l u : 0 <= u <= 1 -> Rabs (pevalZ l u) <= IZR (fold_right (fun a b => Z.abs a + b)%Z 0%Z l).
Proof.
  intros Hu. induction l as [|a l IH]; [cbn; rewrite Rabs_R0; lra|]. cbn [pevalZ fold_right]. rewrite plus_IZR, abs_IZR.
  eapply Rle_trans; [apply Rabs_triang|]. apply Rplus_le_compat_l. rewrite Rabs_mult, (Rabs_pos_eq u) by lra.
  apply Rle_trans with (1 * Rabs (pevalZ l u)); [apply Rmult_le_compat_r; [apply Rabs_pos|lra]|lra].
Qed.
Definition spm_cre : list Z := [47244640256; -59055800320; 17985175552; 3422552064; -4546625536; 671088640; 339738624; -144703488; -17301504; 11075584; 638976; -405504; 84992; 62720; 11904; 1104; 52; 1]%Z.
Definition spm_cim : list Z := [-21474836480; 28991029248; -9395240960; -1744830464; 2214592512; -327155712; -146800640; 70778880; -2097152; -10354688; -1548288; -260096; -228352; -77568; -12672; -1120; -52; -1]%Z.
Lemma spm_re_poly u : 412316860416 * (spm_re u - (1 - u / 2 + u ^ 2 / 24)) = u ^ 3 * pevalZ spm_cre u.
Proof. unfold spm_re, spm_r4, spm_b4, spm_r3, spm_a3, spm_r2, spm_cre. cbn [pevalZ]. field. Qed.
Lemma spm_im_poly u : 206158430208 * (spm_im u - (1 - u / 6)) = u ^ 2 * pevalZ spm_cim u.
Proof. unfold spm_im, spm_r4, spm_b4, spm_r3, spm_a3, spm_r2, spm_cim. cbn [pevalZ]. field. Qed.
Lemma spm_re_bound u : 0 <= u <= 1 -> Rabs (spm_re u - (1 - u / 2 + u ^ 2 / 24)) <= 33 / 100 * u ^ 3.
Proof.
  intros Hu. pose proof (spm_re_poly u) as H. pose proof (pevalZ_bound spm_cre u Hu) as B.
  match type of B with _ <= IZR ?z => let z' := eval vm_compute in z in change z with z' in B end.
  replace (spm_re u - (1 - u / 2 + u ^ 2 / 24)) with (u ^ 3 * (pevalZ spm_cre u / 412316860416)) by (unfold Rdiv; rewrite <- Rmult_assoc, <- H; field).
  assert (H3 : 0 <= u ^ 3) by (apply pow_le; lra). rewrite Rabs_mult, (Rabs_pos_eq (u ^ 3)), Rmult_comm by exact H3.
  apply Rmult_le_compat_r; [exact H3|]. unfold Rdiv. rewrite Rabs_mult, (Rabs_pos_eq (/ 412316860416)) by lra. lra.
Qed.
Lemma spm_im_bound u : 0 <= u <= 1 -> Rabs (spm_im u - (1 - u / 6)) <= 32 / 100 * u ^ 2.
Proof.
  intros Hu. pose proof (spm_im_poly u) as H. pose proof (pevalZ_bound spm_cim u Hu) as B.
  match type of B with _ <= IZR ?z => let z' := eval vm_compute in z in change z with z' in B end.
  replace (spm_im u - (1 - u / 6)) with (u ^ 2 * (pevalZ spm_cim u / 206158430208)) by (unfold Rdiv; rewrite <- Rmult_assoc, <- H; field).
  assert (H3 : 0 <= u ^ 2) by (apply pow_le; lra). rewrite Rabs_mult, (Rabs_pos_eq (u ^ 2)), Rmult_comm by exact H3.
  apply Rmult_le_compat_r; [exact H3|]. unfold Rdiv. rewrite Rabs_mult, (Rabs_pos_eq (/ 206158430208)) by lra. lra.
Qed.

Lemma cos_near t : Rabs t <= 1 -> Rabs (cos t - (1 - t ^ 2 / 2 + (t ^ 2) ^ 2 / 24)) <= (t ^ 2) ^ 3 / 720.
Proof.
  intros H. apply Rabs_le_between in H || idtac. assert (H' : -1 <= t <= 1) by (revert H; unfold Rabs; destruct (Rcase_abs t); lra).
  destruct (pre_cos_bound t 1 ltac:(lra) ltac:(lra)) as [L _]. destruct (pre_cos_bound t 0 ltac:(lra) ltac:(lra)) as [_ U].
  unfold cos_approx, cos_term in L, U. cbn [sum_f_R0 Nat.mul Nat.add fact] in L, U. simpl INR in L, U.
  apply Rabs_le. split; lra.
Qed.
Lemma sin_near t : Rabs t <= 1 -> Rabs (sin t - t * (1 - t ^ 2 / 6)) <= Rabs t * ((t ^ 2) ^ 2 / 120).
Proof.
  assert (Hp : forall t, 0 <= t <= 1 -> Rabs (sin t - t * (1 - t ^ 2 / 6)) <= t * ((t ^ 2) ^ 2 / 120)).
  { clear. intros t H. destruct (pre_sin_bound t 0 ltac:(lra) ltac:(lra)) as [L U].
    unfold sin_approx, sin_term in L, U. cbn [sum_f_R0 Nat.mul Nat.add fact] in L, U. simpl INR in L, U. apply Rabs_le. split; lra. }
  intros H. destruct (Rle_dec 0 t) as [P|P].
  - rewrite (Rabs_pos_eq t) by exact P. apply Hp. split; [exact P|]. now rewrite Rabs_pos_eq in H.
  - assert (N : t < 0) by lra. rewrite (Rabs_left t N) in *. specialize (Hp (- t) ltac:(lra)). rewrite sin_neg in Hp.
    replace (- sin t - - t * (1 - (- t) ^ 2 / 6)) with (- (sin t - t * (1 - t ^ 2 / 6))) in Hp by field. rewrite Rabs_Ropp in Hp.
    replace ((- t) ^ 2) with (t ^ 2) in Hp by ring. exact Hp.
Qed.

Lemma spm_step c n s A h dir k : c_method c = METHOD_RK4IP -> c_noSS c = true -> wf n s -> flat n s -> length A = n -> (k < n)%nat -> 0 < h ->
  let t := s_gamma s * Cnorm2 (nth k A z0) * h * dir in
  nth k (advance_fresh c s A h dir) z0 = (nth k A z0 * (spm_re (t ^ 2), t * spm_im (t ^ 2))%R)%C.
Proof.
  intros Hm Hs W Fl LA Hk Hh t. rewrite advance_fresh_eq by exact Hh. unfold adv_with. rewrite Hm, expD_P, (flat_P n) by assumption. unfold rk_with. cbv zeta.
  assert (DG : forall x, length x = n -> diag c (repeat (RtoC 1) n) x = x) by (intros; now apply diag_ones).
  set (nl := fun x => vmul (vscale (RtoC (h * dir)) (nonlinear c s x)) x).
  assert (LN : forall x, length x = n -> length (nl x) = n) by (intros x Lx; unfold nl; pose proof (nonlinear_length c n s x W Lx); vl).
  assert (NN : forall x w, length x = n -> nth k x z0 = (nth k A z0 * w)%C -> nth k (nl x) z0 = (nth k A z0 * (Ci * RtoC (t * Cnorm2 w) * w))%C).
  { intros x w Lx Ew. unfold nl. rewrite vmul_nth by (rewrite vscale_length, (nonlinear_length c n s) by assumption; auto).
    rewrite vscale_nth, (spm_nth c n) by assumption. rewrite Ew, Cnorm2_mult. unfold t. rewrite !RtoC_mult. ring. }
  rewrite (DG A LA). change (vmul (vscale (RtoC (h * dir)) (nonlinear c s A)) A) with (nl A). rewrite (DG (nl A)) by auto. set (k1 := nl A).
  assert (L1 : length k1 = n) by (unfold k1; auto).
  assert (E1 : nth k k1 z0 = (nth k A z0 * (0, t)%R)%C).
  { unfold k1. rewrite (NN A (RtoC 1) LA) by ring. f_equal. rewrite Cnorm2_R. apply C_eq; cbn; ring. }
  set (x2 := vadd A (vscale (/ RtoC 2)%C k1)). assert (Lx2 : length x2 = n) by (unfold x2; vl).
  assert (Ex2 : nth k x2 z0 = (nth k A z0 * (1, t / 2)%R)%C).
  { unfold x2. rewrite vadd_nth, vscale_nth, E1 by (rewrite vscale_length; congruence). apply C_eq; cbn; field. }
  change (vmul (vscale (RtoC (h * dir)) (nonlinear c s x2)) x2) with (nl x2). set (k2 := nl x2). assert (L2 : length k2 = n) by (unfold k2; auto).
  assert (E2 : nth k k2 z0 = (nth k A z0 * (- (t ^ 2) * spm_r2 (t ^ 2) / 2, t * spm_r2 (t ^ 2))%R)%C).
  { unfold k2. rewrite (NN x2 _ Lx2 Ex2). f_equal. assert (Q : Cnorm2 (1, t / 2)%R = spm_r2 (t ^ 2)) by (unfold Cnorm2, spm_r2; cbn; field). rewrite Q. clear. apply C_eq; cbn; field. }
  set (x3 := vadd A (vscale (/ RtoC 2)%C k2)). assert (Lx3 : length x3 = n) by (unfold x3; vl).
  assert (Ex3 : nth k x3 z0 = (nth k A z0 * (spm_a3 (t ^ 2), t * spm_r2 (t ^ 2) / 2)%R)%C).
  { unfold x3. rewrite vadd_nth, vscale_nth, E2 by (rewrite vscale_length; congruence). unfold spm_a3. clear. apply C_eq; cbn; field. }
  change (vmul (vscale (RtoC (h * dir)) (nonlinear c s x3)) x3) with (nl x3). set (k3 := nl x3). assert (L3 : length k3 = n) by (unfold k3; auto).
  assert (E3 : nth k k3 z0 = (nth k A z0 * (- (t ^ 2) * spm_r3 (t ^ 2) * spm_r2 (t ^ 2) / 2, t * spm_r3 (t ^ 2) * spm_a3 (t ^ 2))%R)%C).
  { unfold k3. rewrite (NN x3 _ Lx3 Ex3). f_equal. assert (Q : Cnorm2 (spm_a3 (t ^ 2), t * spm_r2 (t ^ 2) / 2)%R = spm_r3 (t ^ 2)) by (unfold Cnorm2, spm_r3; cbn; field). rewrite Q. clear. apply C_eq; cbn; field. }
  assert (L4' : length (vadd A k3) = n) by vl. rewrite (DG (vadd A k3) L4').
  assert (Ex4 : nth k (vadd A k3) z0 = (nth k A z0 * (spm_b4 (t ^ 2), t * spm_r3 (t ^ 2) * spm_a3 (t ^ 2))%R)%C).
  { rewrite vadd_nth, E3 by congruence. unfold spm_b4. clear. apply C_eq; cbn; field. }
  change (vmul (vscale (RtoC (h * dir)) (nonlinear c s (vadd A k3))) (vadd A k3)) with (nl (vadd A k3)). set (k4 := nl (vadd A k3)). assert (L4 : length k4 = n) by (unfold k4; auto).
  assert (E4 : nth k k4 z0 = (nth k A z0 * (- (t ^ 2) * spm_r4 (t ^ 2) * spm_r3 (t ^ 2) * spm_a3 (t ^ 2), t * spm_r4 (t ^ 2) * spm_b4 (t ^ 2))%R)%C).
  { unfold k4. rewrite (NN _ _ L4' Ex4). f_equal. assert (Q : Cnorm2 (spm_b4 (t ^ 2), t * spm_r3 (t ^ 2) * spm_a3 (t ^ 2))%R = spm_r4 (t ^ 2)) by (unfold Cnorm2, spm_r4; cbn; field). rewrite Q. clear. apply C_eq; cbn; field. }
  rewrite DG by auto 12 with vl.
  assert (LS : forall (a b : list C) (q : C), length a = n -> length b = n -> length a = length (vscale q b)) by (intros; rewrite vscale_length; congruence).
  rewrite !vadd_nth by (apply LS; auto 12 with vl). rewrite !vscale_nth, E1, E2, E3, E4. unfold spm_re, spm_im. clear. apply C_eq; cbn; field.
Qed.

(*! C73 (RK4IP): a field in a medium without dispersion, loss or Raman response, self-steepening off: one RK4IP sub-step of length h gives every sample the exact
    self-phase-modulation solution a*exp(i*theta), theta = dir*h*gamma*|a|^2, up to |theta|^5/2 relative, for |theta| <= 1 (fourth order). *)
Lemma C73_rk4ip_spm_order_l : forall (c : cfg) (n : nat) (s : ssfm) (A : list C) (h dir : R) (k : nat),
  c_method c = METHOD_RK4IP -> c_noSS c = true -> wf n s ->
  s_betas s = repeat z0 n -> s_alpha s = repeat z0 n -> s_R s = repeat (RtoC 1) n ->
  length A = n -> (k < n)%nat -> 0 < h ->
  let a := nth k A z0 in
  let theta := s_gamma s * Cnorm2 a * h * dir in
  Rabs theta <= 1 ->
  Cmod (nth k (fst (advance c A h dir (with_lasth None s))) z0 - a * cis theta)%C <= Rabs theta ^ 5 / 2 * Cmod a.
Proof.
  intros c n s A h dir k Hm Hs W F1 F2 F3 LA Hk Hh a t Ht. change (fst (advance c A h dir (with_lasth None s))) with (advance_fresh c s A h dir).
  rewrite (spm_step c n) by (try assumption; repeat split; assumption). fold a. fold t.
  replace (a * (spm_re (t ^ 2), (t * spm_im (t ^ 2))%R) - a * cis t)%C with (a * ((spm_re (t ^ 2), (t * spm_im (t ^ 2))%R) - cis t))%C by ring.
  rewrite Cmod_mult, Rmult_comm. apply Rmult_le_compat_r; [apply Cmod_ge_0|].
  assert (Hu : 0 <= t ^ 2 <= 1). { split; [apply pow2_ge_0|]. rewrite <- (pow2_abs t). replace 1 with (1 ^ 2) by ring. apply pow_incr. split; [apply Rabs_pos|exact Ht]. }
  pose proof (spm_re_bound _ Hu) as B1. pose proof (spm_im_bound _ Hu) as B2. pose proof (cos_near t Ht) as B3. pose proof (sin_near t Ht) as B4.
  set (q := Rabs t ^ 5). assert (Hq : 0 <= q) by (apply pow_le, Rabs_pos).
  assert (Q5 : Rabs t * (t ^ 2) ^ 2 = q) by (unfold q; rewrite <- (pow2_abs t); ring).
  assert (Q6 : (t ^ 2) ^ 3 <= q). { replace ((t ^ 2) ^ 3) with (Rabs t * q) by (unfold q; rewrite <- (pow2_abs t); ring). rewrite <- (Rmult_1_l q) at 2. now apply Rmult_le_compat_r. }
  assert (X : Rabs (spm_re (t ^ 2) - cos t) <= 332 / 1000 * q).
  { replace (spm_re (t ^ 2) - cos t) with ((spm_re (t ^ 2) - (1 - t ^ 2 / 2 + (t ^ 2) ^ 2 / 24)) - (cos t - (1 - t ^ 2 / 2 + (t ^ 2) ^ 2 / 24))) by ring.
    eapply Rle_trans; [apply Rabs_triang|]. rewrite Rabs_Ropp. lra. }
  assert (Y : Rabs (t * spm_im (t ^ 2) - sin t) <= 329 / 1000 * q).
  { replace (t * spm_im (t ^ 2) - sin t) with (t * (spm_im (t ^ 2) - (1 - t ^ 2 / 6)) - (sin t - t * (1 - t ^ 2 / 6))) by ring.
    eapply Rle_trans; [apply Rabs_triang|]. rewrite Rabs_Ropp, Rabs_mult.
    assert (Rabs t * Rabs (spm_im (t ^ 2) - (1 - t ^ 2 / 6)) <= Rabs t * (32 / 100 * (t ^ 2) ^ 2)) by (apply Rmult_le_compat_l; [apply Rabs_pos|exact B2]). 
    replace (Rabs t * (32 / 100 * (t ^ 2) ^ 2)) with (32 / 100 * q) in H by (rewrite <- Q5; ring). replace (Rabs t * ((t ^ 2) ^ 2 / 120)) with (q / 120) in B4 by (rewrite <- Q5; field). lra. }
  apply Rsqr_incr_0; [|apply Cmod_ge_0|lra]. rewrite !Rsqr_pow2. unfold Cmod. rewrite pow2_sqrt by (apply Rplus_le_le_0_compat; apply pow2_ge_0).
  unfold cis. cbn [Cminus Copp Cplus fst snd].
  assert (X2 : (spm_re (t ^ 2) - cos t) ^ 2 <= (332 / 1000 * q) ^ 2) by (rewrite <- (pow2_abs (_ - _)); apply pow_incr; split; [apply Rabs_pos|exact X]).
  assert (Y2 : (t * spm_im (t ^ 2) - sin t) ^ 2 <= (329 / 1000 * q) ^ 2) by (rewrite <- (pow2_abs (_ - _)); apply pow_incr; split; [apply Rabs_pos|exact Y]).
  unfold Rminus in X2, Y2. eapply Rle_trans; [apply Rplus_le_compat; [exact X2|exact Y2]|]. pose proof (pow2_ge_0 q). lra.
Qed.

(** a split step is exact *)
Lemma kerr_flat c n s A h dir k : c_noSS c = true -> wf n s -> flat n s -> length A = n -> (k < n)%nat ->
  nth k (kerr c s A h dir) z0 = (nth k A z0 * cis (dir * h * (s_gamma s * Cnorm2 (nth k A z0))))%C.
Proof.
  intros Hs W Fl LA Hk. unfold kerr. pose proof (nonlinear_length c n s A W LA) as LN. rewrite vmul_nth by (rewrite map_length; congruence).
  rewrite (nth_map' _ _ _ z0) by congruence. rewrite (spm_nth c n) by assumption. rewrite Cmult_comm. f_equal. rewrite <- cexp_imag. f_equal. apply C_eq; cbn; ring.
Qed.
Definition spun (n : nat) (s : ssfm) (d : R) : list C := mk n (fun k => nth k (s_A s) z0 * cis (d * (s_gamma s * Cnorm2 (nth k (s_A s) z0))))%C.
Lemma split_flat c n s t d h dir : c_method c = METHOD_SSFM -> c_noSS c = true -> wf n s -> flat n s -> pars t s -> 0 < h ->
  advance_fresh c t (spun n s d) h dir = spun n s (d + dir * h).
Proof.
  intros Hm Hs W Fl Pt Hh. rewrite advance_fresh_eq by exact Hh. unfold adv_with. rewrite Hm.
  assert (KE : forall x, kerr c t x h dir = kerr c s x h dir) by (intros; unfold kerr; now rewrite (nonlinear_pars c t s x Pt)).
  pose proof Pt as (-> & -> & _). rewrite expD_P, (flat_P n) by assumption. 
  assert (LS : forall e, length (spun n s e) = n) by (intros; apply mk_length).
  assert (K : kerr c t (spun n s d) h dir = spun n s (d + dir * h)).
  { rewrite KE. apply (vec_extn n); [unfold kerr; pose proof (nonlinear_length c n s (spun n s d) W (LS d)); vl|apply LS|].
    intros i Hi. rewrite (kerr_flat c n) by auto. unfold spun. rewrite !mk_nth by exact Hi. rewrite Cnorm2_mult, cis_norm2, Rmult_1_r, <- Cmult_assoc, <- cis_add. f_equal. f_equal. ring. }
  destruct (Req_EM_T dir 1).
  - rewrite diag_ones by apply LS. exact K.
  - rewrite K. apply diag_ones, LS.
Qed.

(*! C73 (split step): in the same medium METHOD_SSFM is exact: whatever steps were taken, every sample of the field after integrate_over_dz is a*exp(i*dir*gamma*|a|^2*d), d the distance covered,
    and no step is ever rejected. *)
Lemma C73_split_step_spm_exact_l : forall (c : cfg) (n fuel : nat) (delta_z dir : R) (s : ssfm) (r : lres ssfm),
  c_method c = METHOD_SSFM -> c_noSS c = true -> (2 <= c_eta c)%nat -> 0 < c_err c -> wf n s ->
  s_betas s = repeat z0 n -> s_alpha s = repeat z0 n -> s_R s = repeat (RtoC 1) n ->
  0 < delta_z -> 0 < s_dz s -> integrate_trace c fuel delta_z dir s = Some r ->
  s_iter (l_st r) = (length (l_steps r) + s_iter s)%nat /\
  forall k, (k < n)%nat ->
    let a := nth k (s_A s) z0 in
    nth k (s_A (l_st r)) z0 = (a * cis (dir * lrsum (l_steps r) * (s_gamma s * Cnorm2 a)))%C.
Proof.
  intros c n fuel delta_z dir s r Hm Hs He Her W F1 F2 F3 Hd Hdz HL. assert (Fl : flat n s) by (repeat split; assumption).
  destruct (trace_fresh c fuel delta_z dir s r Hd Hdz HL) as (r' & HL' & E1 & _ & _ & _ & [_ E5]). destruct (first_dz_pos delta_z (s_dz s) Hd Hdz) as [P1 _].
  set (Inv := fun (steps : list R) (t : ssfm) => pars t s /\ s_A t = spun n s (dir * lrsum steps) /\ s_iter t = (length steps + s_iter s)%nat).
  destruct (loop_inv c (attempt_fresh c dir) (fun _ _ _ steps t => Inv steps t)) with (fuel := fuel) (dist := delta_z) (dz := first_dz delta_z (s_dz s)) (ret := @None R) (steps := @nil R) (s := s) (r := r')
    as (H & _); try assumption.
  - clear - Hm Hs He Her W Fl. intros dist dz ret steps t delta s1 s2 keep dz1 Hd Hdz (Pt & EA & EI) Ha Hc.
    unfold attempt_fresh in Ha. rewrite EA in Ha.
    rewrite !(split_flat c n s t) in Ha by (assumption || lra).
    replace (dir * lrsum steps + dir * dz + dir * dz) with (dir * lrsum steps + dir * (2 * dz)) in Ha by ring.
    rewrite local_err_same, richardson_same in Ha by exact He. injection Ha as <- <- <-.
    unfold step_ctl in Hc. destruct (Rlt_dec (2 * c_err c) 0); [lra|]. destruct (Rle_dec (c_err c) 0); [lra|].
    assert (keep = true) as -> by (destruct (Rle_dec (1 / 2 * c_err c) 0); injection Hc as <- _; reflexivity).
    repeat split; try apply Pt; cbn [s_iter s_A with_iter with_A length]; [|lia]. f_equal. cbn [lrsum fold_right]. fold (lrsum steps). ring.
  - repeat split. cbn [lrsum fold_right]. destruct W as (LA & _). apply (vec_extn n); [exact LA|apply mk_length|]. intros i Hi. unfold spun. rewrite mk_nth by exact Hi.
    rewrite Rmult_0_r, Rmult_0_l, cis_0. ring.
  - destruct H as (_ & HA & HI). destruct (nocache_fields _ _ E5) as (Q1 & _ & Q3 & _). rewrite Q1, Q3, E1, HA, HI. split; [reflexivity|].
    intros k Hk a. unfold spun. now rewrite mk_nth by exact Hk.
Qed.

(** ** C74: self-steepening *)
(** The trigonometric interpolant of samples [x] taken at the times k*dt, built from the frequencies [v] of the transform bins: sum_m X_m exp(-i v_m t). *)
Definition trig (n : nat) (v : nat -> R) (x : list C) (t : R) : C := csum n (fun m => nth m (ifft x) z0 * cis (- (v m * t)))%C.
Definition bins (n : nat) (v : nat -> R) (dt : R) : Prop := forall m, (m < n)%nat -> exists z : Z, v m * dt = 2 * PI * (INR m / INR n + IZR z).
Lemma bins_tw n v dt m k : bins n v dt -> (m < n)%nat -> cis (- (v m * (INR k * dt))) = tw n (- (Z.of_nat m * Z.of_nat k)).
Proof.
  intros H Hm. destruct (H m Hm) as (z & E). assert (Hn : INR n <> 0) by (apply not_0_INR; lia). replace (v m * (INR k * dt)) with (INR k * (v m * dt)) by ring. rewrite E. unfold tw.
  replace (- (INR k * (2 * PI * (INR m / INR n + IZR z)))) with (2 * PI * IZR (- (Z.of_nat m * Z.of_nat k)) / INR n + 2 * PI * IZR (- (Z.of_nat k * z))).
  - rewrite cis_add, cis_2PI_Z. ring.
  - rewrite !opp_IZR, !mult_IZR, <- !INR_IZR_INZ. field. exact Hn.
Qed.
Lemma trig_at n v dt x k : bins n v dt -> length x = n -> (k < n)%nat -> trig n v x (INR k * dt) = nth k x z0.
Proof.
  intros H L Hk. rewrite <- (fft_ifft x) at 2. rewrite fft_nth by (rewrite ifft_length; lia). rewrite ifft_length, L. unfold trig. apply csum_ext. intros m Hm. now rewrite (bins_tw n v dt).
Qed.
(** its time derivative *)
Definition is_cderive (f : R -> C) (t : R) (l : C) : Prop := is_derive (fun x => Re (f x)) t (Re l) /\ is_derive (fun x => Im (f x)) t (Im l).
Lemma cderive_ext f g t l : (forall x, f x = g x) -> is_cderive f t l -> is_cderive g t l.
Proof. intros E (H1 & H2). split; [eapply is_derive_ext; [|exact H1]|eapply is_derive_ext; [|exact H2]]; intros; cbv beta; now rewrite E. Qed.
Lemma cderive_plus f g t l m : is_cderive f t l -> is_cderive g t m -> is_cderive (fun x => f x + g x)%C t (l + m)%C.
Proof. intros (H1 & H2) (H3 & H4). split; cbn [Re Im Cplus fst snd]; [exact (is_derive_plus _ _ _ _ _ H1 H3)|exact (is_derive_plus _ _ _ _ _ H2 H4)]. Qed.
Lemma cderive_line z w t : is_cderive (fun x => z * cis (- (w * x)))%C t (- Ci * RtoC w * (z * cis (- (w * t))))%C.
Proof. split; unfold cis; cbn [Re Im Cmult Copp Ci RtoC fst snd]; auto_derive; auto; cbn; ring. Qed.
Lemma cderive_csum n (f : nat -> R -> C) t (l : nat -> C) : (forall m, (m < n)%nat -> is_cderive (f m) t (l m)) -> is_cderive (fun x => csum n (fun m => f m x)) t (csum n l).
Proof.
  induction n as [|n IH]; intros H.
  - rewrite csum_0. apply (cderive_ext (fun _ => RtoC 0)); [intros; now rewrite csum_0|]. split; cbn; apply (is_derive_const 0).
  - rewrite csum_S. apply (cderive_ext (fun x => csum n (fun m => f m x) + f n x)%C); [intros; now rewrite csum_S|]. apply cderive_plus; [apply IH; intros; apply H; lia|apply H; lia].
Qed.
Lemma deriv_nth c n v dt x k : c_pre c = true -> bins n v dt -> length x = n -> (k < n)%nat ->
  is_cderive (trig n v x) (INR k * dt) (nth k (deriv c (mk n (fun m => RtoC (v m))) (fft_t c x)) z0).
Proof.
  intros Hp H L Hk. unfold deriv, ifft_t, fft_t. rewrite Hp. set (om := mk n (fun m => RtoC (v m))).
  assert (Lo : length (map (fun w => - Ci * w)%C om) = n) by (rewrite map_length; apply mk_length).
  assert (Li : length (ifft x) = n) by now rewrite ifft_length.
  rewrite fft_nth by (rewrite vmul_length; congruence). rewrite vmul_length by congruence. rewrite Lo. unfold trig. 
  rewrite (csum_ext n _ (fun m => - Ci * RtoC (v m) * (nth m (ifft x) z0 * cis (- (v m * (INR k * dt)))))%C).
  - apply cderive_csum. intros m Hm. apply cderive_line.
  - intros m Hm. rewrite vmul_nth by congruence. rewrite (nth_map' _ _ _ z0) by (unfold om; now rewrite mk_length). unfold om. rewrite mk_nth by exact Hm. rewrite (bins_tw n v dt) by assumption. ring.
Qed.

(*! C74: with self-steepening on, the operator applied to a field is i*gamma*I - (gamma/w0)*(dI/dt + I*(dA/dt)/A) sample by sample, where I is the delayed intensity, the derivatives are the true time derivatives
    of the trigonometric interpolants of A and I on the pulse's time grid, the denominator is A + 1e-20, and the last term is dropped where |A| <= 1e-15. *)
Lemma C74_self_steepening_l : forall (c : cfg) (n : nat) (s : ssfm) (A : list C) (v : nat -> R) (dt : R) (k : nat),
  c_pre c = true -> c_noSS c = false -> wf n s -> length A = n -> (k < n)%nat ->
  s_omegas s = mk n (fun m => RtoC (v m)) -> bins n v dt ->
  let I := fft (vmul (s_R s) (ifft (map (fun z => RtoC (Cnorm2 z)) A))) in
  trig n v A (INR k * dt) = nth k A z0 /\ trig n v I (INR k * dt) = nth k I z0 /\
  exists dA dI : C, is_cderive (trig n v A) (INR k * dt) dA /\ is_cderive (trig n v I) (INR k * dt) dI /\
  nth k (nonlinear c s A) z0 =
    (Ci * RtoC (s_gamma s) * nth k I z0 - RtoC (s_gamma s / s_w0 s) *
      (dI + (if Rlt_dec (/ 10 ^ 15) (Cmod (nth k A z0)) then dA * nth k I z0 / (RtoC (/ 10 ^ 20) + nth k A z0) else z0)))%C.
Proof.
  intros c n s A v dt k Hp Hs W LA Hk Ho Hb I. pose proof W as (_ & _ & _ & LR & LO).
  set (A2 := map (fun z => RtoC (Cnorm2 z)) A). assert (L2 : length A2 = n) by (unfold A2; now rewrite map_length).
  assert (LI : length I = n). { unfold I. fold A2. rewrite fft_length, vmul_length; [exact LR|]. rewrite ifft_length. congruence. }
  split; [now apply trig_at|]. split; [now apply trig_at|].
  exists (nth k (deriv c (mk n (fun m => RtoC (v m))) (fft_t c A)) z0), (nth k (deriv c (mk n (fun m => RtoC (v m))) (fft_t c I)) z0).
  split; [now apply deriv_nth|]. split; [now apply deriv_nth|].
  unfold nonlinear. cbv zeta. rewrite Hs. fold A2. rewrite Ho.
  assert (EI : ifft_t c (vmul (s_R s) (fft_t c A2)) = I) by (unfold ifft_t, fft_t; rewrite Hp; reflexivity). rewrite EI.
  set (om := mk n (fun m => RtoC (v m))). assert (Lo : length om = n) by apply mk_length.
  assert (ED : ifft_t c (vmul (s_R s) (fft_t c (deriv c om (fft_t c A2)))) = deriv c om (fft_t c I)).
  { unfold deriv. rewrite <- EI, !fft_ifft_t. f_equal. apply (vec_extn n); [auto 12 with vl|auto 12 with vl|]. intros i Hi.
    assert (length (map (fun w => - Ci * w)%C om) = n) by (now rewrite map_length). assert (length (fft_t c A2) = n) by now rewrite fft_t_length.
    rewrite !vmul_nth by (rewrite ?vmul_length; congruence). ring. }
  rewrite ED. set (dA := deriv c om (fft_t c A)). set (dI := deriv c om (fft_t c I)).
  assert (LdA : length dA = n) by (unfold dA; auto 12 with vl). assert (LdI : length dI = n) by (unfold dI; auto 12 with vl).
  rewrite vsub_nth, !vscale_nth.
  2:{ rewrite !vscale_length. transitivity n; [exact LI|]. symmetry. apply len_vadd; [exact LdI|]. apply len_map2; [exact LA|]. now apply len_vmul. }
  rewrite vadd_nth. 2:{ transitivity n; [exact LdI|]. symmetry. apply len_map2; [exact LA|]. now apply len_vmul. }
  rewrite (map2_nth _ _ _ _ z0 z0) by (try congruence; rewrite vmul_length; congruence). rewrite vmul_nth by congruence. reflexivity.
Qed.

Definition line (n : nat) (a : C) (m : nat) : list C := mk n (fun j => a * cis (- (2 * PI * INR m * INR j / INR n)))%C.
Definition bin (n : nat) (a : C) (m : nat) : list C := mk n (fun j => if Nat.eqb j m then a else z0).
Lemma fft_bin n a m : (m < n)%nat -> fft (bin n a m) = line n a m.
Proof.
  intros Hm. assert (LD : length (bin n a m) = n) by apply mk_length. assert (Hn : INR n <> 0) by (apply not_0_INR; lia).
  apply (vec_extn n); [rewrite fft_length; exact LD|apply mk_length|]. intros j Hj. unfold line. rewrite mk_nth by exact Hj. rewrite fft_nth by congruence. rewrite LD.
  rewrite (csum_single n m).
  - unfold bin. rewrite mk_nth by exact Hm. rewrite Nat.eqb_refl. f_equal. unfold tw. f_equal. rewrite opp_IZR, mult_IZR, <- !INR_IZR_INZ. field. exact Hn.
  - exact Hm.
  - intros i Hi E. unfold bin. rewrite mk_nth by exact Hi. apply Nat.eqb_neq in E. rewrite E. ring.
Qed.
Lemma ifft_line n a m : (m < n)%nat -> ifft (line n a m) = bin n a m.
Proof. intros Hm. rewrite <- fft_bin by exact Hm. apply ifft_fft. Qed.
Lemma vmul_bin n d a m : length d = n -> (m < n)%nat -> vmul d (bin n a m) = bin n (nth m d z0 * a)%C m.
Proof.
  intros L Hm. assert (LD : length (bin n a m) = n) by apply mk_length. apply (vec_extn n); [vl|apply mk_length|]. intros j Hj. rewrite vmul_nth by congruence.
  unfold bin. rewrite !mk_nth by exact Hj. destruct (Nat.eqb j m) eqn:E; [apply Nat.eqb_eq in E; now subst|ring].
Qed.

(*! C74 (one line): on a single spectral line a*exp(-i*v_m*t) of strength |a| > 1e-15 the operator is i*gamma*|a|^2*R(0)*(1 + (v_m/w0)*A/(A + 1e-20)): gamma grows in proportion to the absolute frequency w0 + v_m. *)
Lemma C74_single_line_l : forall (c : cfg) (n : nat) (s : ssfm) (a : C) (v : nat -> R) (m k : nat),
  c_pre c = true -> c_noSS c = false -> wf n s -> (m < n)%nat -> (k < n)%nat ->
  s_omegas s = mk n (fun j => RtoC (v j)) -> v 0%nat = 0 -> / 10 ^ 15 < Cmod a ->
  let A := mk n (fun j => a * cis (- (2 * PI * INR m * INR j / INR n)))%C in
  nth k (nonlinear c s A) z0 =
    (Ci * RtoC (s_gamma s * Cnorm2 a) * nth 0 (s_R s) z0 * (1 + RtoC (v m / s_w0 s) * (nth k A z0 / (RtoC (/ 10 ^ 20) + nth k A z0))))%C.
Proof.
  intros c n s a v m k Hp Hs W Hm Hk Ho Hv Ha A. pose proof W as (_ & _ & _ & LR & LO). assert (LA : length A = n) by apply mk_length.
  assert (Hn : INR n <> 0) by (apply not_0_INR; lia).
  assert (Dm : forall (b : C) (q : nat), (q < n)%nat -> deriv c (s_omegas s) (fft_t c (line n b q)) = line n (- Ci * RtoC (v q) * b)%C q).
  { intros b q Hq. unfold deriv, fft_t, ifft_t. rewrite Hp, ifft_line by exact Hq. rewrite vmul_bin by (try exact Hq; now rewrite map_length). rewrite fft_bin by exact Hq. f_equal.
    rewrite (nth_map' _ _ _ z0) by congruence. now rewrite Ho, mk_nth by exact Hq. }
  assert (RM : forall (b : C), ifft_t c (vmul (s_R s) (fft_t c (line n b 0))) = line n (nth 0 (s_R s) z0 * b)%C 0).
  { intros b. unfold fft_t, ifft_t. rewrite Hp, ifft_line by lia. rewrite vmul_bin by (try exact LR; lia). apply fft_bin; lia. }
  assert (L0 : forall b i, (i < n)%nat -> nth i (line n b 0) z0 = b).
  { intros b i Hi. unfold line. rewrite mk_nth by exact Hi. cbn [INR]. replace (- (2 * PI * 0 * INR i / INR n)) with 0 by (unfold Rdiv; ring). rewrite cis_0. ring. }
  assert (NA : forall i, (i < n)%nat -> Cnorm2 (nth i A z0) = Cnorm2 a) by (intros i Hi; unfold A; rewrite mk_nth by exact Hi; rewrite Cnorm2_mult, cis_norm2; ring).
  assert (E2 : map (fun z => RtoC (Cnorm2 z)) A = line n (RtoC (Cnorm2 a)) 0).
  { apply (vec_extn n); [now rewrite map_length|apply mk_length|]. intros i Hi. rewrite (nth_map' _ _ _ z0) by congruence. now rewrite NA, L0 by exact Hi. }
  unfold nonlinear. cbv zeta. rewrite Hs, E2, RM. rewrite (Dm (RtoC (Cnorm2 a)) 0%nat) by lia. rewrite RM. change A with (line n a m) at 2. rewrite (Dm a m Hm).
  set (r := (nth 0 (s_R s) z0 * RtoC (Cnorm2 a))%C).
  assert (LL : forall b q, length (line n b q) = n) by (intros; apply mk_length).
  rewrite vsub_nth, !vscale_nth. 2:{ rewrite !vscale_length. transitivity n; [apply LL|]. symmetry. apply len_vadd; [apply LL|]. apply len_map2; [exact LA|]. apply len_vmul; apply LL. }
  rewrite vadd_nth. 2:{ transitivity n; [apply LL|]. symmetry. apply len_map2; [exact LA|]. apply len_vmul; apply LL. }
  rewrite (map2_nth _ _ _ _ z0 z0) by (try congruence; rewrite vmul_length; rewrite !LL; congruence). rewrite vmul_nth by now rewrite !LL. rewrite !L0 by exact Hk.
  assert (MA : Cmod (nth k A z0) = Cmod a) by (unfold A; rewrite mk_nth by exact Hk; rewrite Cmod_mult, cis_mod; ring).
  destruct (Rlt_dec (/ 10 ^ 15) (Cmod (nth k A z0))) as [_|X]; [|rewrite MA in X; contradiction].
  replace (nth k (line n (- Ci * RtoC (v m) * a)%C m) z0) with (- Ci * RtoC (v m) * nth k A z0)%C by (unfold line, A; rewrite !mk_nth by exact Hk; ring).
  rewrite Hv. unfold r, Cdiv, Rdiv. rewrite !RtoC_mult. ring.
Qed.

(** ** C75: linear propagation from the input pulse to every column *)
Lemma cshift_vmul c n d x : length d = n -> length x = n -> cifftshift c (vmul (cfftshift c d) x) = vmul d (cifftshift c x).
Proof.
  intros L1 L2. unfold cifftshift, cfftshift. destruct (c_pre c); [|reflexivity]. rewrite <- (fftshift_ifftshift x) at 1.
  rewrite <- shift_vmul by (rewrite ifftshift_length; congruence). apply ifftshift_fftshift.
Qed.
Lemma fin_choice N (Q : nat -> R -> Prop) : (forall j, (j < N)%nat -> exists x, Q j x) -> exists d : nat -> R, forall j, (j < N)%nat -> Q j (d j).
Proof.
  induction N as [|N IH]; intros H; [exists (fun _ => 0); intros; lia|]. destruct IH as (d & Hd); [intros; apply H; lia|]. destruct (H N ltac:(lia)) as (x & Hx).
  exists (fun j => if Nat.eqb j N then x else d j). intros j Hj. destruct (Nat.eqb j N) eqn:E; [apply Nat.eqb_eq in E; now subst|]. apply Nat.eqb_neq in E. apply Hd. lia.
Qed.
(** the states between the columns, with what the integrator is given over each slice *)
Lemma chain_states c fuel fb N op reload s p a b g Rw F z AW AT po s' q : setting c fb N op s p a b g Rw F -> straight c (p_n p) ->
  propagate c fuel fb N op reload s p = (Ok (Some (z, AW, AT, po, s')), q) ->
  exists st : nat -> ssfm, s_A (st 0%nat) = cfftshift c (IFFT_t a) /\
  forall i, (i < N)%nat ->
    let zi := if reload then nth i z 0 else 0 in
    exists u, wf (p_n p) u /\ 0 < s_dz u /\ s_A u = s_A (st i) /\ s_betas u = cfftshift c (map RtoC (b zi)) /\ s_alpha u = cfftshift c (map (fun x => RtoC (- x)) g) /\ s_gamma u = fb_get_gamma fb zi /\ s_R u = cfftshift c Rw /\
    integrate_over_dz c fuel (fb_len fb / INR N) 1 u = Some (st (S i)) /\
    nth i AW [] = cifftshift c (fft_t c (s_A (st (S i)))).
Proof.
  intros Hs Hst H. destruct (propagate_inv _ _ _ _ _ _ _ _ _ _ _ _ _ _ _ _ _ _ _ Hs H) as (Lq & -> & -> & LA & _ & sf & EC & Wf & EP & _).
  destruct Hs as (Hh & Hn & Hf & An & HR & HN & HL & Hd). destruct (cols_chain _ _ _ _ _ _ _ _ _ EC) as (_ & st & S0 & SN & S3).
  assert (Hdz : 0 < step_of (fb_len fb) N) by (unfold step_of; apply Rdiv_lt_0_compat; [exact HL|apply lt_0_INR; lia]).
  assert (Wc : forall j, (j <= N)%nat -> wf (p_n p) (st j) /\ 0 < s_dz (st j)).
  { apply (wf_chain c p b fb reload (step_of (fb_len fb) N) fuel st N AT); try assumption; [apply An|rewrite S0; apply (start_wf c fb p op b g a Rw F s); assumption|rewrite S0; exact Hd]. }
  assert (Wl : forall j, (j < N)%nat -> wf (p_n p) (reloaded c fb b reload (step_of (fb_len fb) N) j (st j)) /\ 0 < s_dz (reloaded c fb b reload (step_of (fb_len fb) N) j (st j))).
  { intros j Hj. destruct (Wc j ltac:(lia)) as ((J1 & J2 & J3 & J4 & J5) & D). unfold reloaded. destruct reload; [|repeat split; assumption]. split; [|exact D]. repeat split; try assumption. cbn [with_fiber s_betas].
    rewrite cfftshift_length, map_length. apply An. }
  assert (PA : forall j, (j <= N)%nat -> s_alpha (st j) = cfftshift c (map (fun x => RtoC (- x)) g) /\ s_R (st j) = cfftshift c Rw /\
     (reload = false -> s_betas (st j) = cfftshift c (map RtoC (b 0)) /\ s_gamma (st j) = fb_get_gamma fb 0)).
  { induction j as [|j IH]; intros Hj; [rewrite S0; auto|]. destruct (IH ltac:(lia)) as (I1 & I2 & I3). destruct (S3 j ltac:(lia)) as (s2 & E1 & _ & E3). rewrite E3. cbn [with_A s_alpha s_R s_betas s_gamma].
    destruct (Wl j ltac:(lia)) as (W1 & D1). destruct (integrate_over_len c (p_n p) fuel _ _ s2 W1 Hdz D1 E1) as (_ & (Q1 & Q2 & Q3 & Q4 & Q5 & Q6) & _). rewrite Q1, Q2, Q3, Q6. unfold reloaded. destruct reload; cbn [with_fiber s_alpha s_R]; [|auto].
    split; [exact I1|]. split; [exact I2|]. discriminate. }
  exists st. split; [now rewrite S0|]. intros i Hi zi. destruct (PA i ltac:(lia)) as (I1 & I2 & I3). destruct (Wl i Hi) as (W1 & D1).
  exists (reloaded c fb b reload (step_of (fb_len fb) N) i (st i)). split; [exact W1|]. split; [exact D1|].
  destruct (S3 i Hi) as (s2 & E1 & E2 & E3). change (0 + i)%nat with i in E1.
  destruct (integrate_over_len c (p_n p) fuel _ _ s2 W1 Hdz D1 E1) as ((L2 & _) & _).
  split; [unfold reloaded; now destruct reload|]. split; [|split; [|split; [|split; [|split]]]].
  - unfold reloaded, zi. destruct reload; [now rewrite z_nth by lia|now apply I3].
  - unfold reloaded. destruct reload; exact I1.
  - unfold reloaded, zi. destruct reload; [now rewrite z_nth by lia|now apply I3].
  - unfold reloaded. destruct reload; exact I2.
  - change (fb_len fb / INR N) with (step_of (fb_len fb) N). rewrite E1, E3. rewrite (cifft_twice c (p_n p)) by assumption. f_equal. unfold with_A. now destruct s2.
  - rewrite (nth_indep _ [] (FFT_t [])) by (rewrite map_length; lia). rewrite map_nth, E2, AW_col. rewrite E3. cbn [with_A s_A]. now rewrite (cifft_twice c (p_n p) (s_A s2)).
Qed.

(*! C75: a fiber with gamma = 0 (RK4IP; even grid or internal shift off), dispersion b(z) and gain g: bin k of AW column i is the input bin times exp(sum over the slices so far of d_j*(i*b(z_j)_k + g_k/2)), z_j the position
    loaded for slice j; d_j, the distance covered in slice j, is the slice length L/N, unless the step before the last one left a residue below 2e-12 m. *)
Lemma C75_linear_fiber_columns_l : forall (c : cfg) (fuel : nat) (fb : fiber) (N : nat) (op : option R) (reload : bool) (s : ssfm) (p : pulse) (a : list C) (b : R -> list R) (g : list R) (Rw : list C) (F : R)
  (z : list R) (AW AT : list (list C)) (po : pulse) (s' : ssfm) (q : pulse), setting c fb N op s p a b g Rw F ->
  c_method c = METHOD_RK4IP -> (2 <= c_eta c)%nat -> (c_pre c = false \/ Nat.even (p_n p) = true) -> (forall x, fb_get_gamma fb x = 0) ->
  propagate c fuel fb N op reload s p = (Ok (Some (z, AW, AT, po, s')), q) ->
  exists d : nat -> R,
  (forall j, (j < N)%nat -> fb_len fb / INR N <= d j /\ (d j = fb_len fb / INR N \/ exists last, 0 < fb_len fb / INR N - (d j - last) <= 2 * / 10 ^ 12)) /\
  forall i k, (i < N)%nat -> (k < p_n p)%nat ->
    nth k (nth i AW []) z0 =
    (nth k a z0 * cexp (rsum (S i) (fun j => d j * (nth k g 0 / 2)), rsum (S i) (fun j => d j * nth k (b (if reload then nth j z 0 else 0)) 0))%R)%C.
Proof.
  intros c fuel fb N op reload s p a b g Rw F z AW AT po s' q Hs Hm He Hst Hg H.
  destruct (chain_states _ _ _ _ _ _ _ _ _ _ _ _ _ _ _ _ _ _ _ Hs Hst H) as (st & S0 & S1).
  destruct Hs as ((Hh1 & Hh2 & Hh3) & Hn & Hf & An & HR & HN & HL & Hd). destruct An as (_ & _ & Lb & Lg).
  assert (Hdz : 0 < fb_len fb / INR N) by (apply Rdiv_lt_0_compat; [exact HL|apply lt_0_INR; lia]).
  set (n := p_n p) in *. set (X := fun i => cifftshift c (fft_t c (s_A (st i)))). set (zz := fun j => if reload then nth j z 0 else 0).
  assert (T : forall j, (j < N)%nat -> exists dj, (fb_len fb / INR N <= dj /\ (dj = fb_len fb / INR N \/ exists last, 0 < fb_len fb / INR N - (dj - last) <= 2 * / 10 ^ 12)) /\
     nth j AW [] = X (S j) /\ length (X j) = n /\ forall k, (k < n)%nat -> nth k (X (S j)) z0 = (nth k (X j) z0 * cexp (dj * (nth k g 0 / 2), dj * nth k (b (zz j)) 0)%R)%C).
  { intros j Hj. destruct (S1 j Hj) as (u & W & Du & UA & UB & UC & UG & _ & E & EAW). fold (zz j) in UB, UG.
    unfold integrate_over_dz in E. destruct (integrate_trace c fuel (fb_len fb / INR N) 1 u) as [r|] eqn:ER; [|discriminate]. assert (E' : with_dz (final_dz r) (l_st r) = st (S j)) by congruence.
    destruct (trace_linear c n fuel _ 1 u r W ltac:(rewrite UG; apply Hg) He Hdz Du ER) as (EA & _). rewrite (Rmult_1_l (lrsum _)) in EA. replace (reach c) with 1 in EA by (unfold reach; now rewrite Hm).
    rewrite Rmult_1_r in EA. exists (lrsum (l_steps r)). destruct (first_dz_pos (fb_len fb / INR N) (s_dz u) Hdz Du) as [P1 P2].
    split; [|split; [exact EAW|split]].
    - destruct (loop_cov c (attempt c 1) (fb_len fb / INR N) fuel _ _ r P1 P2 ER) as (C1 & C2 & C3 & C4). split; [lra|]. destruct C4 as [C4|(last & ear & C4 & C5)]; [left; lra|right]. exists last.
      rewrite C4. cbn [lrsum fold_right]. fold (lrsum ear). unfold dz_min in C5. replace (last + lrsum ear - last) with (lrsum ear) by ring. lra.
    - unfold X. rewrite cifftshift_length, fft_t_length, <- UA. apply W.
    - intros k Hk. unfold X. rewrite <- E'. cbn [with_dz s_A]. rewrite EA, fft_diag.
      set (D := map2 (fun b a => cexp (RtoC (lrsum (l_steps r)) * (Ci * b - a / RtoC 2)))%C (map RtoC (b (zz j))) (map (fun x => RtoC (- x)) g)).
      assert (LD : length D = n) by (unfold D; rewrite map2_length; rewrite !map_length; [apply Lb|rewrite Lb, Lg; reflexivity]).
      assert (PD : P u (lrsum (l_steps r)) = cfftshift c D).
      { unfold P. rewrite UB, UC. unfold cfftshift, D. destruct (c_pre c); [|reflexivity]. apply fftshift_map2. rewrite !map_length, Lb, Lg. reflexivity. }
      assert (LF : length (fft_t c (s_A u)) = n) by (rewrite fft_t_length; apply W).
      rewrite PD, (cshift_vmul c n) by assumption. rewrite vmul_nth by (rewrite cifftshift_length; congruence). rewrite UA, Cmult_comm. f_equal.
      unfold D. rewrite (map2_nth _ _ _ _ z0 z0) by (rewrite !map_length; rewrite ?Lb, ?Lg; auto). rewrite (nth_map' _ _ _ 0) by (rewrite Lb; exact Hk). rewrite (nth_map' _ _ _ 0) by (rewrite Lg; exact Hk).
      f_equal. apply C_eq; cbn; field. }
  destruct (fin_choice _ _ T) as (d & Td). exists d. split; [intros j Hj; now apply Td|].
  assert (X0 : X 0%nat = a).
  { unfold X. rewrite S0, AW_col. unfold cifftshift, cfftshift. destruct (c_pre c); rewrite ?ifftshift_fftshift; apply FFT_IFFT_t. }
  assert (IND : forall i k, (i <= N)%nat -> (k < n)%nat -> nth k (X i) z0 = (nth k a z0 * cexp (rsum i (fun j => d j * (nth k g 0 / 2)), rsum i (fun j => d j * nth k (b (zz j)) 0))%R)%C).
  { induction i as [|i IH]; intros k Hi Hk.
    - rewrite X0. cbn [rsum]. replace (cexp (rsum 0 (fun j => d j * (nth k g 0 / 2)), rsum 0 (fun j => d j * nth k (b (zz j)) 0))%R) with (cexp 0) by (f_equal; reflexivity). rewrite cexp_0. ring.
    - destruct (Td i ltac:(lia)) as (_ & _ & _ & TX). rewrite TX, IH by (lia || exact Hk). rewrite <- Cmult_assoc, <- cexp_add. f_equal. f_equal. rewrite !rsum_S. reflexivity. }
  intros i k Hi Hk. destruct (Td i Hi) as (_ & -> & _ & _). rewrite IND by (lia || exact Hk). reflexivity.
Qed.

(** The SSFM integrator: nonlinear operator and symmetries (C29, C30, C31, C32 in part). *)
From Coq Require Import Reals List ZArith Bool Arith Lia Lra Permutation.
From Coquelicot Require Import Complex.
From Verif Require Import Base CNum NumPy ModelFFT FFTProofs ModelPulse ModelSSFM SSFMLoopProofs SSFMProofs.
Import ListNotations.
Local Open Scope R_scope.
Local Notation z0 := (RtoC 0).

(** ** Two runs related by a map of fields *)
Definition pars (s p : ssfm) : Prop :=
  s_betas s = s_betas p /\ s_alpha s = s_alpha p /\ s_gamma s = s_gamma p /\ s_w0 s = s_w0 p /\ s_omegas s = s_omegas p /\ s_R s = s_R p.
Lemma nonlinear_pars c s p A : pars s p -> nonlinear c s A = nonlinear c p A.
Proof. intros (_ & _ & H1 & H2 & H3 & H4). unfold nonlinear. now rewrite H1, H2, H3, H4. Qed.
Lemma loop_cfg {S} c1 c2 (att : R -> S -> option R * S * S) fuel : c_err c1 = c_err c2 -> c_eta c1 = c_eta c2 ->
  forall dist dz ret steps s, loop c1 att fuel dist dz ret steps s = loop c2 att fuel dist dz ret steps s.
Proof.
  intros H1 H2. assert (Hc : forall dz d, step_ctl c1 dz d = step_ctl c2 dz d) by (intros; unfold step_ctl, dz_factor; now rewrite H1, H2).
  induction fuel as [|f IH]; intros; simpl; [reflexivity|]. destruct (Rlt_dec 0 dist); [|reflexivity]. destruct (att dz s) as [[d a] b]. rewrite Hc. destruct (step_ctl c2 dz d) as [k dz1].
  destruct k; [|apply IH]. destruct (Rlt_dec (dist - 2 * dz) (2 * dz1)); [destruct (Rlt_dec (2 * dz_min) (dist - 2 * dz))|]; apply IH.
Qed.

Section Sym.
Variables (c1 c2 : cfg) (n : nat) (p1 p2 : ssfm) (tau nu : list C -> list C).
Hypothesis Hmeth : c_method c1 = c_method c2.
Hypothesis Heta : c_eta c1 = c_eta c2.
Hypothesis Herr : c_err c1 = c_err c2.
Hypothesis W2 : wf n p2.
Hypothesis Hadd : forall a b, length a = n -> length b = n -> vadd (tau a) (tau b) = tau (vadd a b).
Hypothesis Hsub : forall a b, length a = n -> length b = n -> vsub (tau a) (tau b) = tau (vsub a b).
Hypothesis Hsc : forall k a, length a = n -> vscale k (tau a) = tau (vscale k a).
Hypothesis Hdg : forall h dir x, length x = n -> diag c1 (calc_expD h dir (s_betas p1) (s_alpha p1)) (tau x) = tau (diag c2 (calc_expD h dir (s_betas p2) (s_alpha p2)) x).
Hypothesis Hnl : forall x, length x = n -> nonlinear c1 p1 (tau x) = nu (nonlinear c2 p2 x).
Hypothesis Hmul : forall f a x, length a = n -> length x = n -> vmul (map f (nu a)) (tau x) = tau (vmul (map f a) x).
Hypothesis Hnrm : forall x, length x = n -> norm2 (tau x) = norm2 x.

Definition sym (s t : ssfm) : Prop := pars s p1 /\ pars t p2 /\ s_A s = tau (s_A t) /\ length (s_A t) = n /\ s_iter s = s_iter t.

Lemma expD_len h dir : length (calc_expD h dir (s_betas p2) (s_alpha p2)) = n.
Proof. rewrite expD_P. now apply P_length. Qed.
Lemma adv_sym s t A h dir : pars s p1 -> pars t p2 -> length A = n -> 0 < h ->
  advance_fresh c1 s (tau A) h dir = tau (advance_fresh c2 t A h dir) /\ length (advance_fresh c2 t A h dir) = n.
Proof.
  intros Ps Pt LA Hh. rewrite !advance_fresh_eq by exact Hh. unfold adv_with. rewrite Hmeth.
  destruct Ps as (B1 & B2 & B3 & B4 & B5 & B6). destruct Pt as (D1 & D2 & D3 & D4 & D5 & D6). rewrite B1, B2, D1, D2.
  assert (N1 : forall x, nonlinear c1 s x = nonlinear c1 p1 x) by (intros; apply nonlinear_pars; repeat split; assumption).
  assert (N2 : forall x, nonlinear c2 t x = nonlinear c2 p2 x) by (intros; apply nonlinear_pars; repeat split; assumption).
  pose proof (expD_len h dir) as LE.
  set (E2 := calc_expD h dir (s_betas p2) (s_alpha p2)) in *.
  assert (K : forall x, length x = n -> kerr c1 s (tau x) h dir = tau (kerr c2 t x h dir) /\ length (kerr c2 t x h dir) = n).
  { intros x Lx. unfold kerr. rewrite N1, N2, Hnl by exact Lx. split; [apply Hmul; vl|]. pose proof (nonlinear_length c2 n p2 x W2 Lx). vl. }
  destruct (c_method c2).
  - destruct (Req_EM_T dir 1).
    + rewrite Hdg by exact LA. apply K. vl.
    + destruct (K A LA) as [K1 K2]. rewrite K1, Hdg by exact K2. split; [reflexivity|vl].
  - unfold rk_with. cbv zeta.
    assert (NL : forall x, length x = n -> vmul (vscale (RtoC (h * dir)) (nonlinear c1 s (tau x))) (tau x) = tau (vmul (vscale (RtoC (h * dir)) (nonlinear c2 t x)) x) /\
                            length (vmul (vscale (RtoC (h * dir)) (nonlinear c2 t x)) x) = n).
    { intros x Lx. rewrite N1, N2, Hnl by exact Lx. pose proof (nonlinear_length c2 n p2 x W2 Lx). split; [apply Hmul; vl|vl]. }
    rewrite (Hdg h dir A LA). fold E2. set (AI := diag c2 E2 A). assert (LAI : length AI = n) by (unfold AI; vl).
    destruct (NL A LA) as [E L1]. rewrite E. clear E. set (k0 := vmul (vscale (RtoC (h * dir)) (nonlinear c2 t A)) A) in *.
    rewrite (Hdg h dir k0 L1). fold E2. set (k1 := diag c2 E2 k0). assert (Lk1 : length k1 = n) by (unfold k1; vl).
    rewrite (Hsc (/ RtoC 2)%C k1 Lk1), (Hadd AI (vscale (/ RtoC 2)%C k1) LAI) by vl.
    destruct (NL (vadd AI (vscale (/ RtoC 2)%C k1)) ltac:(vl)) as [E L2]. rewrite E. clear E.
    set (k2 := vmul (vscale (RtoC (h * dir)) (nonlinear c2 t (vadd AI (vscale (/ RtoC 2)%C k1)))) (vadd AI (vscale (/ RtoC 2)%C k1))) in *.
    rewrite (Hsc (/ RtoC 2)%C k2 L2), (Hadd AI (vscale (/ RtoC 2)%C k2) LAI) by vl.
    destruct (NL (vadd AI (vscale (/ RtoC 2)%C k2)) ltac:(vl)) as [E L3]. rewrite E. clear E.
    set (k3 := vmul (vscale (RtoC (h * dir)) (nonlinear c2 t (vadd AI (vscale (/ RtoC 2)%C k2)))) (vadd AI (vscale (/ RtoC 2)%C k2))) in *.
    rewrite (Hadd AI k3 LAI L3), (Hdg h dir (vadd AI k3)) by vl. fold E2.
    destruct (NL (diag c2 E2 (vadd AI k3)) ltac:(vl)) as [E L4]. rewrite E. clear E.
    set (k4 := vmul (vscale (RtoC (h * dir)) (nonlinear c2 t (diag c2 E2 (vadd AI k3)))) (diag c2 E2 (vadd AI k3))) in *.
    rewrite (Hsc _ k1 Lk1), (Hsc _ k2 L2), (Hsc _ k3 L3), (Hsc _ k4 L4). rewrite (Hadd AI) by vl. rewrite (Hadd (vadd AI _)) by vl. rewrite (Hadd (vadd (vadd AI _) _)) by vl.
    rewrite Hdg by auto 12 with vl. fold E2. rewrite Hadd by auto 12 with vl. split; [reflexivity|auto 12 with vl].
Qed.

Lemma attempt_sym dir dz s t : 0 < dz -> sym s t -> att_rel sym (attempt_fresh c1 dir dz s) (attempt_fresh c2 dir dz t).
Proof.
  intros Hdz (Ps & Pt & EA & LA & EI). unfold attempt_fresh. rewrite EA.
  destruct (adv_sym s t (s_A t) (2 * dz) dir Ps Pt LA ltac:(lra)) as [Ec Lc].
  destruct (adv_sym s t (s_A t) dz dir Ps Pt LA Hdz) as [E1 L1].
  destruct (adv_sym s t (advance_fresh c2 t (s_A t) dz dir) dz dir Ps Pt L1 Hdz) as [Ef Lf].
  rewrite Ec, E1, Ef. set (Af := advance_fresh c2 t (advance_fresh c2 t (s_A t) dz dir) dz dir) in *. set (Ac := advance_fresh c2 t (s_A t) (2 * dz) dir) in *.
  assert (EL : local_err (tau Af) (tau Ac) = local_err Af Ac).
  { unfold local_err. rewrite Hsub, !Hnrm by vl. reflexivity. }
  assert (ER : richardson c1 (tau Af) (tau Ac) = tau (richardson c2 Af Ac) /\ length (richardson c2 Af Ac) = n).
  { unfold richardson. rewrite Heta. destruct (Nat.eqb (c_eta c2) 3); [|destruct (Nat.eqb (c_eta c2) 5)]; cbv zeta; rewrite !Hsc by vl; rewrite Hsub by vl; split; vl. }
  destruct ER as [ER LR]. rewrite EL, ER. split; [reflexivity|]. split; [repeat split; try apply Ps; try apply Pt; assumption|].
  cbn [snd]. repeat split; try apply Ps; try apply Pt; try assumption. cbn [s_iter with_iter with_A]. now rewrite EI.
Qed.

Lemma integrate_sym fuel delta_z dir s t : 0 < delta_z -> 0 < s_dz s -> s_dz s = s_dz t -> sym s t ->
  match integrate_trace c1 fuel delta_z dir s, integrate_trace c2 fuel delta_z dir t with
  | Some r, Some r' => l_steps r = l_steps r' /\ l_dist r = l_dist r' /\ final_dz r = final_dz r' /\
                       s_A (l_st r) = tau (s_A (l_st r')) /\ s_iter (l_st r) = s_iter (l_st r') /\ length (s_A (l_st r')) = n /\
                       pars (l_st r) p1 /\ pars (l_st r') p2
  | None, None => True
  | _, _ => False
  end.
Proof.
  intros Hd Hdz Edz Hs. destruct (first_dz_pos delta_z (s_dz s) Hd Hdz) as [P1 _].
  assert (H1 : res_rel same_run (integrate_trace c1 fuel delta_z dir s) (loop c1 (attempt_fresh c1 dir) fuel delta_z (first_dz delta_z (s_dz s)) None [] s)).
  { unfold integrate_trace. apply loop_sim; [intros; now apply attempt_same|exact P1|]. split; [right; left; reflexivity|reflexivity]. }
  assert (H2 : res_rel same_run (integrate_trace c2 fuel delta_z dir t) (loop c2 (attempt_fresh c2 dir) fuel delta_z (first_dz delta_z (s_dz t)) None [] t)).
  { unfold integrate_trace. apply loop_sim; [intros; now apply attempt_same|rewrite <- Edz; exact P1|]. split; [right; left; reflexivity|reflexivity]. }
  assert (H3 : res_rel sym (loop c1 (attempt_fresh c1 dir) fuel delta_z (first_dz delta_z (s_dz s)) None [] s) (loop c2 (attempt_fresh c2 dir) fuel delta_z (first_dz delta_z (s_dz t)) None [] t)).
  { rewrite <- Edz. rewrite (loop_cfg c1 c2) by assumption. apply loop_sim; [intros; now apply attempt_sym|exact P1|exact Hs]. }
  destruct (loop c1 (attempt_fresh c1 dir) fuel _ _ _ _ _) as [r1|], (loop c2 (attempt_fresh c2 dir) fuel _ _ _ _ _) as [r2|]; simpl in H3; try contradiction;
    destruct (integrate_trace c1 fuel delta_z dir s) as [r|], (integrate_trace c2 fuel delta_z dir t) as [r'|]; simpl in H1, H2; try contradiction; auto.
  destruct H1 as (A1 & A2 & A3 & A4 & [_ A5]), H2 as (D1 & D2 & D3 & D4 & [_ D5]), H3 as (G1 & G2 & G3 & G4 & (G5 & G6 & G7 & G8 & G9)).
  destruct (nocache_fields _ _ A5) as (Q1 & Q2 & Q3 & Q4 & Q5 & Q6 & Q7 & Q8 & Q9 & _). destruct (nocache_fields _ _ D5) as (S1 & S2 & S3 & S4 & S5 & S6 & S7 & S8 & S9 & _).
  unfold final_dz, pars in *. rewrite A2, A3, D2, D3, G2, G3, Q1, S1, Q3, S3, Q4, Q5, Q6, Q7, Q8, Q9, S4, S5, S6, S7, S8, S9. intuition congruence.
Qed.
End Sym.

(** ** C30: constant phase *)
Lemma vscale_vscale a b x : vscale a (vscale b x) = vscale (a * b)%C x.
Proof. apply (vec_extn (length x)); vl. intros. rewrite !vscale_nth. ring. Qed.
Lemma norm2_scale u x : Cnorm2 u = 1 -> norm2 (vscale u x) = norm2 x.
Proof.
  intros H. unfold norm2. f_equal. unfold vscale. rewrite map_map. f_equal. apply map_ext. intros z. rewrite Cnorm2_mult, H. ring.
Qed.
Lemma nonlinear_phase c s u x : c_noSS c = true -> Cnorm2 u = 1 -> nonlinear c s (vscale u x) = nonlinear c s x.
Proof.
  intros H Hu. unfold nonlinear. rewrite H. cbv zeta. replace (map (fun z => RtoC (Cnorm2 z)) (vscale u x)) with (map (fun z => RtoC (Cnorm2 z)) x); [reflexivity|].
  unfold vscale. rewrite map_map. apply map_ext. intros z. rewrite Cnorm2_mult, Hu. now rewrite Rmult_1_l.
Qed.

(*! C30: self-steepening off, any method, medium, tolerance: multiplying the input field by exp(i*theta) multiplies the output of integrate_over_dz by exp(i*theta)
    and leaves the accepted steps and the final step size unchanged. *)
Lemma C30_phase_equivariance_l : forall (c : cfg) (n fuel : nat) (delta_z dir theta : R) (s : ssfm),
  c_noSS c = true -> wf n s -> 0 < delta_z -> 0 < s_dz s ->
  match integrate_trace c fuel delta_z dir (with_A (vscale (cis theta) (s_A s)) s), integrate_trace c fuel delta_z dir s with
  | Some r, Some r' => s_A (l_st r) = vscale (cis theta) (s_A (l_st r')) /\ l_steps r = l_steps r' /\ final_dz r = final_dz r' /\ s_iter (l_st r) = s_iter (l_st r')
  | None, None => True
  | _, _ => False
  end.
Proof.
  intros c n fuel delta_z dir theta s Hs W Hd Hdz. pose proof (cis_norm2 theta) as Hu. set (u := cis theta) in *.
  pose proof (integrate_sym c c n s s (vscale u) (fun x => x)) as H.
  specialize (H eq_refl eq_refl eq_refl W).
  assert (X1 : forall a b : list C, length a = n -> length b = n -> vadd (vscale u a) (vscale u b) = vscale u (vadd a b)).
  { intros a b La Lb. apply (vec_extn n); vl. intros. rewrite vscale_nth, !vadd_nth, !vscale_nth by (rewrite ?vscale_length; congruence). ring. }
  assert (X2 : forall a b : list C, length a = n -> length b = n -> vsub (vscale u a) (vscale u b) = vscale u (vsub a b)).
  { intros a b La Lb. apply (vec_extn n); vl. intros. rewrite vscale_nth, !vsub_nth, !vscale_nth by (rewrite ?vscale_length; congruence). ring. }
  specialize (H X1 X2).
  assert (X3 : forall k a, length a = n -> vscale k (vscale u a) = vscale u (vscale k a)) by (intros; rewrite !vscale_vscale; f_equal; ring).
  specialize (H X3).
  assert (X4 : forall h d x, length x = n -> diag c (calc_expD h d (s_betas s) (s_alpha s)) (vscale u x) = vscale u (diag c (calc_expD h d (s_betas s) (s_alpha s)) x)).
  { intros h d x Lx. apply diag_scale. rewrite expD_P, (P_length n) by exact W. auto. }
  specialize (H X4). specialize (H (fun x _ => nonlinear_phase c s u x Hs Hu)).
  assert (X5 : forall (f : C -> C) a x, length a = n -> length x = n -> vmul (map f a) (vscale u x) = vscale u (vmul (map f a) x)).
  { intros f a x La Lx. apply (vec_extn n); vl. intros. rewrite vscale_nth, !vmul_nth, !vscale_nth by (rewrite ?vscale_length, map_length; congruence). ring. }
  specialize (H X5). specialize (H (fun x _ => norm2_scale u x Hu)).
  specialize (H fuel delta_z dir (with_A (vscale u (s_A s)) s) s Hd Hdz eq_refl). 
  assert (Y : sym n s s (vscale u) (with_A (vscale u (s_A s)) s) s) by (repeat split; apply W).
  specialize (H Y). destruct (integrate_trace c fuel delta_z dir (with_A (vscale u (s_A s)) s)), (integrate_trace c fuel delta_z dir s); try exact H. tauto.
Qed.

(** ** Rolls *)
Lemma ifft_roll k x : ifft (roll k x) = vmul (mk (length x) (fun j => tw (length x) (k * Z.of_nat j))) (ifft x).
Proof.
  destruct x as [|x0 x']; [now rewrite roll_nil|]. set (x := x0 :: x') in *. set (n := length x). assert (Hn : (0 < n)%nat) by (unfold n, x; simpl; lia).
  apply (vec_extn n); [now rewrite ifft_length, roll_length|apply len_vmul; [apply mk_length|apply ifft_length]|]. intros j Hj.
  rewrite vmul_nth by (rewrite mk_length, ifft_length; reflexivity). rewrite mk_nth by exact Hj. rewrite !ifft_nth by (rewrite ?roll_length; exact Hj).
  rewrite roll_length. fold n. rewrite Cmult_assoc, (Cmult_comm (tw n _)), <- Cmult_assoc. f_equal. rewrite <- csum_scal_l.
  symmetry. rewrite <- (csum_shift n _ (- k)). apply csum_ext. intros i Hi. symmetry.
  rewrite roll_nth by exact Hi. fold n.
  replace (Z.of_nat i - k)%Z with (Z.of_nat i + - k)%Z by lia. rewrite (Cmult_comm (tw n (k * Z.of_nat j))), <- Cmult_assoc. f_equal.
  rewrite <- tw_add. apply tw_mod; [exact Hn|]. rewrite zmodn_of by exact Hn.
  rewrite Zplus_mod, Zmult_mod_idemp_l, <- Zplus_mod. f_equal. ring.
Qed.
Lemma fft_phase k y : fft (vmul (mk (length y) (fun j => tw (length y) (k * Z.of_nat j))) y) = roll k (fft y).
Proof.
  pose proof (ifft_roll k (fft y)) as H. rewrite ifft_fft, fft_length in H. rewrite <- H. apply fft_ifft.
Qed.
Lemma roll_vmul k a b : length a = length b -> vmul (roll k a) (roll k b) = roll k (vmul a b).
Proof. intros. unfold vmul. now rewrite roll_map2. Qed.
Lemma diag_roll c d k x : length d = length x -> diag c d (roll k x) = roll k (diag c d x).
Proof.
  intros L.
  assert (B : forall d x, length d = length x -> fft (vmul d (ifft (roll k x))) = roll k (fft (vmul d (ifft x)))).
  { clear. intros d x L. rewrite ifft_roll, <- fft_phase. f_equal.
    rewrite vmul_length by now rewrite ifft_length. rewrite L. set (ph := mk (length x) _). assert (Lp : length ph = length x) by apply mk_length.
    assert (Li : length (ifft x) = length x) by apply ifft_length.
    apply (vec_extn (length x)); vl. intros i Hi. rewrite !vmul_nth by (rewrite ?vmul_length; congruence). ring. }
  unfold diag, fft_t, ifft_t. destruct (c_pre c); [now apply B|].
  set (sh := Z.of_nat (Nat.div2 (length x))).
  assert (F : fftshift (roll k x) = roll k (fftshift x)) by (unfold fftshift; rewrite roll_length, !roll_roll; f_equal; lia).
  rewrite F. set (y := fftshift x). assert (Ly : length y = length x) by apply fftshift_length.
  assert (G : forall q, length q = length x -> fftshift (vmul d (ifftshift q)) = vmul (fftshift d) q).
  { intros q Lq. unfold fftshift at 1. unfold vmul at 1. rewrite map2_length by (rewrite ifftshift_length; congruence).
    change (map2 Cmult d (ifftshift q)) with (vmul d (ifftshift q)). rewrite <- roll_vmul by (rewrite ifftshift_length; congruence). f_equal.
    unfold ifftshift. rewrite roll_roll, L, Lq. replace (_ + _)%Z with 0%Z by lia. apply roll_0. }
  rewrite G by (rewrite ifft_length, roll_length; exact Ly). rewrite G by (rewrite ifft_length; exact Ly).
  rewrite B by (rewrite fftshift_length; congruence). unfold ifftshift. rewrite roll_length, !roll_roll. f_equal. lia.
Qed.
Lemma norm2_roll k x : norm2 (roll k x) = norm2 x.
Proof. unfold norm2. f_equal. rewrite <- roll_map. apply lrsum_perm, roll_perm. Qed.
Lemma nonlinear_diag c s A :
  nonlinear c s A =
  let A2 := map (fun z => RtoC (Cnorm2 z)) A in
  let R_A2 := diag c (s_R s) A2 in
  let D := map (fun w => - Ci * w)%C (s_omegas s) in
  if c_noSS c then vscale (Ci * RtoC (s_gamma s))%C R_A2 else
  vsub (vscale (Ci * RtoC (s_gamma s))%C R_A2)
    (vscale (RtoC (s_gamma s / s_w0 s))
       (vadd (diag c (s_R s) (diag c D A2))
             (map2 (fun a x => if Rlt_dec (/ 10 ^ 15) (Cmod a) then (x / (RtoC (/ 10 ^ 20) + a))%C else RtoC 0) A (vmul (diag c D A) R_A2)))).
Proof. reflexivity. Qed.
Lemma nonlinear_roll c n s k A : wf n s -> length A = n -> nonlinear c s (roll k A) = roll k (nonlinear c s A).
Proof.
  intros (_ & _ & _ & LR & LO) LA. rewrite !nonlinear_diag. cbv zeta. rewrite <- roll_map.
  set (A2 := map (fun z => RtoC (Cnorm2 z)) A). set (D := map (fun w => - Ci * w)%C (s_omegas s)).
  assert (L2 : length A2 = n) by (unfold A2; vl). assert (LD : length D = n) by (unfold D; vl).
  rewrite (diag_roll c (s_R s) k A2), (diag_roll c D k A2), (diag_roll c D k A) by congruence. rewrite (diag_roll c (s_R s) k (diag c D A2)) by (rewrite diag_length; congruence).
  assert (Q : forall z y, vscale z (roll k y) = roll k (vscale z y)) by (intros; unfold vscale; now rewrite roll_map).
  rewrite Q. destruct (c_noSS c); [reflexivity|].
  rewrite roll_vmul by (rewrite !diag_length; congruence).
  rewrite <- roll_map2 by (rewrite vmul_length; rewrite !diag_length; congruence).
  unfold vadd, vsub. rewrite <- roll_map2, Q, <- roll_map2; [reflexivity| |].
  - rewrite vscale_length, diag_length by congruence. rewrite vscale_length. rewrite L2. symmetry. apply len_map2; [vl|]. apply len_map2; vl.
  - transitivity n; [vl|]. symmetry. apply len_map2; vl.
Qed.

(*! C31: any method, medium, Raman response, self-steepening on or off: circularly shifting the input field shifts the output of integrate_over_dz by the same number of samples, with
    the same accepted steps and final step size. *)
Lemma C31_shift_equivariance_l : forall (c : cfg) (n fuel : nat) (delta_z dir : R) (k : Z) (s : ssfm),
  (c_noSS c = true \/ s_w0 s <> 0) -> wf n s -> 0 < delta_z -> 0 < s_dz s ->
  match integrate_trace c fuel delta_z dir (with_A (roll k (s_A s)) s), integrate_trace c fuel delta_z dir s with
  | Some r, Some r' => s_A (l_st r) = roll k (s_A (l_st r')) /\ l_steps r = l_steps r' /\ final_dz r = final_dz r' /\ s_iter (l_st r) = s_iter (l_st r')
  | None, None => True
  | _, _ => False
  end.
Proof.
  intros c n fuel delta_z dir k s _ W Hd Hdz.
  pose proof (integrate_sym c c n s s (roll k) (roll k)) as H.
  specialize (H eq_refl eq_refl eq_refl W).
  assert (X1 : forall f a b, length a = n -> length b = n -> map2 f (roll k a) (roll k b) = roll k (@map2 C C C f a b)) by (intros; rewrite roll_map2; congruence).
  specialize (H (X1 Cplus) (X1 Cminus)).
  specialize (H (fun z a _ => eq_sym (roll_map (Cmult z) k a))).
  assert (X4 : forall h d x, length x = n -> diag c (calc_expD h d (s_betas s) (s_alpha s)) (roll k x) = roll k (diag c (calc_expD h d (s_betas s) (s_alpha s)) x)).
  { intros h d x Lx. apply diag_roll. rewrite expD_P, (P_length n) by exact W. auto. }
  specialize (H X4). specialize (H (fun x Lx => nonlinear_roll c n s k x W Lx)).
  assert (X5 : forall (f : C -> C) a x, length a = n -> length x = n -> vmul (map f (roll k a)) (roll k x) = roll k (vmul (map f a) x)).
  { intros f a x La Lx. rewrite <- roll_map. apply X1; vl. }
  specialize (H X5). specialize (H (fun x _ => norm2_roll k x)).
  specialize (H fuel delta_z dir (with_A (roll k (s_A s)) s) s Hd Hdz eq_refl). 
  assert (Y : sym n s s (roll k) (with_A (roll k (s_A s)) s) s) by (repeat split; apply W).
  specialize (H Y). destruct (integrate_trace c fuel delta_z dir (with_A (roll k (s_A s)) s)), (integrate_trace c fuel delta_z dir s); try exact H. tauto.
Qed.

(** ** C29: the nonlinear operator *)
(** [x] read at the negated index *)
Definition crev (x : list C) : list C := mk (length x) (fun k => nth (zmodn (length x) (- Z.of_nat k)) x z0).
Definition cconj (x : list C) : list C := map Cconj x.
Lemma crev_length x : length (crev x) = length x. Proof. apply mk_length. Qed.
Lemma cconj_length x : length (cconj x) = length x. Proof. apply map_length. Qed.
Lemma crev_nth x k : (k < length x)%nat -> nth k (crev x) z0 = nth (zmodn (length x) (- Z.of_nat k)) x z0.
Proof. intros. unfold crev. now rewrite mk_nth. Qed.
Lemma cconj_nth x k : nth k (cconj x) z0 = Cconj (nth k x z0).
Proof. unfold cconj. rewrite <- (map_nth Cconj). f_equal. now rewrite Cconj_R. Qed.
Lemma crev_crev x : crev (crev x) = x.
Proof.
  apply (vec_extn (length x)); [now rewrite !crev_length|reflexivity|]. intros i Hi. assert (Hn : (0 < length x)%nat) by lia.
  rewrite crev_nth by now rewrite crev_length. rewrite crev_length, crev_nth by now apply zmodn_lt. f_equal.
  rewrite <- (zmodn_id (length x) i Hi) at 2. apply zmodn_eq. rewrite zmodn_of by exact Hn.
  replace (- (- Z.of_nat i mod Z.of_nat (length x)))%Z with (0 - (- Z.of_nat i mod Z.of_nat (length x)))%Z by lia.
  rewrite Zminus_mod_idemp_r. f_equal. lia.
Qed.
Lemma tw_zmodn n a b : (0 < n)%nat -> tw n (a * Z.of_nat (zmodn n b)) = tw n (a * b).
Proof. intros Hn. apply tw_mod; [exact Hn|]. rewrite zmodn_of by exact Hn. now rewrite Zmult_mod_idemp_r. Qed.
Lemma conj_ifft x : cconj (ifft x) = crev (ifft (cconj x)).
Proof.
  apply (vec_extn (length x)); [now rewrite cconj_length, ifft_length|now rewrite crev_length, ifft_length, cconj_length|]. intros k Hk. assert (Hn : (0 < length x)%nat) by lia.
  rewrite cconj_nth, crev_nth by now rewrite ifft_length, cconj_length. rewrite ifft_length, cconj_length.
  rewrite !ifft_nth by (rewrite ?cconj_length; try exact Hk; now apply zmodn_lt). rewrite cconj_length, Cconj_mult, Cconj_R, Cconj_csum. f_equal. apply csum_ext. intros j Hj.
  rewrite cconj_nth, Cconj_mult, tw_conj, tw_zmodn by exact Hn. f_equal. f_equal. lia.
Qed.
Lemma conj_fft x : cconj (fft x) = crev (fft (cconj x)).
Proof.
  apply (vec_extn (length x)); [now rewrite cconj_length, fft_length|now rewrite crev_length, fft_length, cconj_length|]. intros k Hk. assert (Hn : (0 < length x)%nat) by lia.
  rewrite cconj_nth, crev_nth by now rewrite fft_length, cconj_length. rewrite fft_length, cconj_length.
  rewrite !fft_nth by (rewrite ?cconj_length; try exact Hk; now apply zmodn_lt). rewrite cconj_length, Cconj_csum. apply csum_ext. intros j Hj.
  rewrite cconj_nth, Cconj_mult, tw_conj. f_equal. symmetry. rewrite <- Z.mul_opp_l, tw_zmodn by exact Hn. f_equal. lia.
Qed.
Lemma fft_crev x : fft (crev x) = crev (fft x).
Proof.
  apply (vec_extn (length x)); [now rewrite fft_length, crev_length|now rewrite crev_length, fft_length|]. intros k Hk. assert (Hn : (0 < length x)%nat) by lia.
  rewrite crev_nth, fft_length by now rewrite fft_length. rewrite !fft_nth by (rewrite ?crev_length; try exact Hk; now apply zmodn_lt). rewrite crev_length.
  set (n := length x) in *. set (F := fun j : nat => (nth j x z0 * tw n (- (Z.of_nat j * - Z.of_nat k)))%C).
  transitivity (csum n (fun j => F (zmodn n (- Z.of_nat j)))).
  - apply csum_ext. intros j Hj. rewrite crev_nth by exact Hj. unfold F.
    replace (- (Z.of_nat (zmodn n (- Z.of_nat j)) * - Z.of_nat k))%Z with (Z.of_nat k * Z.of_nat (zmodn n (- Z.of_nat j)))%Z by ring. rewrite tw_zmodn by exact Hn.
    replace (- (Z.of_nat j * Z.of_nat k))%Z with (Z.of_nat k * - Z.of_nat j)%Z by ring. reflexivity.
  - transitivity (csum n F).
    + unfold csum. apply lsum_perm. clear - Hn.
      assert (E : mk n (fun j => F (zmodn n (- Z.of_nat j))) = map F (mk n (fun j => zmodn n (- Z.of_nat j)))) by now rewrite map_mk.
      rewrite E. change (mk n F) with (map F (seq 0 n)). apply Permutation_map.
      apply Permutation_sym, NoDup_Permutation_bis.
      * apply seq_NoDup.
      * rewrite mk_length, seq_length. lia.
      * intros i Hi. apply in_seq in Hi. unfold mk. apply in_map_iff. exists (zmodn n (- Z.of_nat i)). split.
        -- rewrite <- (zmodn_id n i) at 2 by lia. apply zmodn_eq. rewrite zmodn_of by exact Hn.
           replace (- (- Z.of_nat i mod Z.of_nat n))%Z with (0 - (- Z.of_nat i mod Z.of_nat n))%Z by lia. rewrite Zminus_mod_idemp_r. f_equal. lia.
        -- apply in_seq. pose proof (zmodn_lt n (- Z.of_nat i) Hn). lia.
    + apply csum_ext. intros j Hj. unfold F. rewrite <- !Z.mul_opp_l, tw_zmodn by exact Hn. reflexivity.
Qed.
Lemma crev_vmul a b : length a = length b -> vmul (crev a) (crev b) = crev (vmul a b).
Proof.
  intros L. apply (vec_extn (length a)); [apply len_vmul; rewrite crev_length; congruence|rewrite crev_length; vl|]. intros i Hi.
  rewrite vmul_nth by (rewrite !crev_length; exact L). rewrite !crev_nth by (rewrite ?vmul_length by exact L; congruence). rewrite vmul_nth, vmul_length by exact L. now rewrite L.
Qed.
Definition real_list (x : list C) : Prop := cconj x = x.
Lemma real_map (x : list R) : real_list (map RtoC x).
Proof. unfold real_list, cconj. rewrite map_map. apply map_ext. intros; apply Cconj_R. Qed.
Lemma real_nth x i : real_list x -> exists r, nth i x z0 = RtoC r.
Proof.
  intros H. exists (Re (nth i x z0)). assert (E : Cconj (nth i x z0) = nth i x z0) by (rewrite <- cconj_nth; now rewrite H).
  destruct (nth i x z0) as [a b]. unfold Cconj in E. injection E as E. unfold RtoC, Re. simpl. f_equal. lra.
Qed.
Lemma real_conv a b : length a = length b -> real_list a -> real_list b -> real_list (fft (vmul (ifft a) (ifft b))).
Proof.
  intros L Ra Rb. unfold real_list. rewrite conj_fft. 
  assert (E : cconj (vmul (ifft a) (ifft b)) = crev (vmul (ifft a) (ifft b))).
  { rewrite <- crev_vmul by (rewrite !ifft_length; exact L). transitivity (vmul (cconj (ifft a)) (cconj (ifft b))).
    - apply (vec_extn (length a)); [rewrite cconj_length; apply len_vmul; rewrite ifft_length; congruence|apply len_vmul; rewrite cconj_length, ifft_length; congruence|].
      intros i Hi. rewrite cconj_nth, !vmul_nth, !cconj_nth, Cconj_mult by (rewrite ?cconj_length, !ifft_length; exact L). reflexivity.
    - now rewrite !conj_ifft, Ra, Rb. }
  rewrite E, fft_crev. apply crev_crev.
Qed.
Lemma real_roll k x : real_list x -> real_list (roll k x).
Proof. unfold real_list, cconj. intros H. rewrite <- roll_map. now rewrite H. Qed.

(** a response function: real in the time domain; [q] is the instantaneous part *)
Definition real_response (c : cfg) (n : nat) (Rw : list C) : Prop :=
  exists (q k : R) (r : list R), length r = n /\ Rw = map (fun z => RtoC q + RtoC k * z)%C (fft_t c (map RtoC r)).

Lemma fft_add a b : length a = length b -> fft (vadd a b) = vadd (fft a) (fft b).
Proof.
  intros L. apply (vec_extn (length a)); [rewrite fft_length; vl|apply len_vadd; rewrite fft_length; congruence|]. intros i Hi.
  rewrite vadd_nth by (rewrite !fft_length; exact L). rewrite !fft_nth by (rewrite ?vadd_length by exact L; congruence). rewrite vadd_length, <- L, <- csum_plus by exact L.
  apply csum_ext. intros. rewrite vadd_nth by exact L. ring.
Qed.
Lemma roll_vadd k a b : length a = length b -> vadd (roll k a) (roll k b) = roll k (vadd a b).
Proof. intros. unfold vadd. now rewrite roll_map2. Qed.
Lemma ifft_t_add c a b : length a = length b -> ifft_t c (vadd a b) = vadd (ifft_t c a) (ifft_t c b).
Proof.
  intros L. unfold ifft_t. destruct (c_pre c); [now apply fft_add|]. unfold fftshift. rewrite vadd_length by exact L. rewrite <- L at 1.
  rewrite <- roll_vadd by exact L. rewrite fft_add by (rewrite !roll_length; exact L). unfold ifftshift. rewrite vadd_length by (rewrite !fft_length, !roll_length; exact L).
  rewrite <- roll_vadd by (rewrite !fft_length, !roll_length; exact L). rewrite !fft_length, !roll_length. now rewrite L.
Qed.
Lemma diag_affine c q k d x : length d = length x ->
  diag c (map (fun z => RtoC q + RtoC k * z)%C d) x = vadd (vscale (RtoC q) x) (vscale (RtoC k) (diag c d x)).
Proof.
  intros L. unfold diag. assert (Lf : length (fft_t c x) = length x) by apply fft_t_length.
  transitivity (ifft_t c (vadd (vscale (RtoC q) (fft_t c x)) (vscale (RtoC k) (vmul d (fft_t c x))))).
  - f_equal. apply (vec_extn (length x)); [vl|vl|]. intros i Hi. rewrite vadd_nth by (rewrite !vscale_length, vmul_length; congruence).
    rewrite !vscale_nth, !vmul_nth by (rewrite ?map_length; congruence). rewrite (nth_map' _ _ _ z0) by congruence. ring.
  - rewrite ifft_t_add by (rewrite !vscale_length, vmul_length; congruence). now rewrite !ifft_t_scale, ifft_fft_t.
Qed.
Lemma real_vadd a b : length a = length b -> real_list a -> real_list b -> real_list (vadd a b).
Proof.
  intros L Ra Rb. unfold real_list. apply (vec_extn (length a)); [rewrite cconj_length; vl|vl|]. intros i Hi. rewrite cconj_nth, vadd_nth, Cconj_plus by exact L.
  now rewrite <- !cconj_nth, Ra, Rb.
Qed.
Lemma real_vscale q a : real_list a -> real_list (vscale (RtoC q) a).
Proof.
  intros Ra. unfold real_list. apply (vec_extn (length a)); [rewrite cconj_length; vl|vl|]. intros i Hi. rewrite cconj_nth, vscale_nth, Cconj_mult, Cconj_R.
  now rewrite <- cconj_nth, Ra.
Qed.
Lemma shift_vmul a b : length a = length b -> fftshift (vmul a b) = vmul (fftshift a) (fftshift b).
Proof. intros L. unfold fftshift. rewrite vmul_length, <- L by exact L. now rewrite roll_vmul. Qed.
Lemma real_diag c r x : length r = length x -> real_list r -> real_list x -> real_list (diag c (fft_t c r) x).
Proof.
  intros L Rr Rx. unfold diag, ifft_t, fft_t. destruct (c_pre c); [now apply real_conv|].
  rewrite shift_vmul by (rewrite !ifftshift_length, !ifft_length, !fftshift_length; exact L). rewrite !fftshift_ifftshift.
  apply real_roll. apply real_conv; [now rewrite !fftshift_length| |]; now apply real_roll.
Qed.

(*! C29: without self-steepening the nonlinear operator is i*gamma*|A|^2 when the response is 1 (Raman off), and for every response that is real in the time domain its
    every sample is purely imaginary: the nonlinear term changes no sample's power, and the exact nonlinear sub-step exp(h*N)*A preserves every |A(t)|. *)
Lemma C29_nonlinear_moves_no_power_l : forall (c : cfg) (n : nat) (s : ssfm) (A : list C),
  c_noSS c = true -> wf n s -> length A = n ->
  (s_R s = repeat (RtoC 1) n -> forall k, (k < n)%nat -> nth k (nonlinear c s A) z0 = (Ci * RtoC (s_gamma s * Cnorm2 (nth k A z0)))%C) /\
  (real_response c n (s_R s) -> forall k, (k < n)%nat ->
     Re (nth k (nonlinear c s A) z0) = 0 /\
     Re (Cconj (nth k A z0) * (nth k (nonlinear c s A) z0 * nth k A z0))%C = 0 /\
     forall h, Cnorm2 (cexp (RtoC h * nth k (nonlinear c s A) z0) * nth k A z0)%C = Cnorm2 (nth k A z0)).
Proof.
  intros c n s A Hs W LA. pose proof W as (_ & _ & _ & LR & _). rewrite nonlinear_diag, Hs. cbv zeta. set (A2 := map (fun z => RtoC (Cnorm2 z)) A).
  assert (L2 : length A2 = n) by (unfold A2; vl).
  assert (N2 : forall k, (k < n)%nat -> nth k A2 z0 = RtoC (Cnorm2 (nth k A z0))) by (intros; unfold A2; rewrite (nth_map' _ _ _ z0) by congruence; reflexivity).
  split.
  - intros HR k Hk. rewrite vscale_nth. replace (diag c (s_R s) A2) with A2.
    + rewrite N2 by exact Hk. rewrite RtoC_mult. ring.
    + symmetry. rewrite HR. unfold diag. transitivity (ifft_t c (fft_t c A2)); [f_equal|apply ifft_fft_t].
      apply (vec_extn n); [apply len_vmul; [apply repeat_length|vl]|vl|]. intros i Hi. rewrite vmul_nth by (rewrite repeat_length, fft_t_length; congruence).
      replace (nth i (repeat (RtoC 1) n) z0) with (RtoC 1); [ring|]. symmetry. rewrite (nth_indep _ _ (RtoC 1)) by now rewrite repeat_length. apply nth_repeat.
  - intros (q & k' & r & Lr & ER) k Hk.
    assert (RD : real_list (diag c (s_R s) A2)).
    { rewrite ER, diag_affine by (rewrite fft_t_length, map_length; congruence). apply real_vadd.
      - rewrite !vscale_length, diag_length; rewrite ?fft_t_length, ?map_length; congruence.
      - apply real_vscale. unfold A2. rewrite <- map_map. apply real_map.
      - apply real_vscale. apply real_diag; [rewrite map_length; congruence|apply real_map|]. unfold A2. rewrite <- map_map. apply real_map. }
    destruct (real_nth _ k RD) as [x Hx]. rewrite vscale_nth, Hx.
    assert (R0 : Re (Ci * RtoC (s_gamma s) * RtoC x)%C = 0) by (simpl; ring).
    split; [exact R0|]. split.
    + destruct (nth k A z0) as [a b]. simpl. ring.
    + intros h. rewrite Cnorm2_mult, cexp_norm2. replace (Re (RtoC h * (Ci * RtoC (s_gamma s) * RtoC x))%C) with 0 by (simpl; ring). rewrite Rmult_0_r, exp_0. ring.
Qed.

(** ** C32: internal shifting *)
Definition set_pre (b : bool) (c : cfg) : cfg :=
  mkCfg (c_err c) (c_method c) (c_eta c) (c_noRaman c) (c_noSS c) (c_simple c) (c_tau1 c) (c_tau2 c) b.
(** the solver state with every array kept FFT-shifted *)
Definition shifted (s : ssfm) : ssfm :=
  mkS (fftshift (s_A s)) (s_dz s) (s_iter s) (s_lasth s) (s_lastdir s) (fftshift (s_expD s)) (fftshift (s_betas s)) (fftshift (s_alpha s)) (s_gamma s) (s_w0 s)
      (fftshift (s_omegas s)) (fftshift (s_R s)) (s_fR s).
Lemma diag_shift c d x : length d = length x -> diag (set_pre true c) (fftshift d) (fftshift x) = fftshift (diag (set_pre false c) d x).
Proof.
  intros L. unfold diag, fft_t, ifft_t. cbn [set_pre c_pre]. rewrite fftshift_ifftshift. f_equal.
  rewrite shift_vmul by (rewrite ifftshift_length, ifft_length, fftshift_length; exact L). now rewrite fftshift_ifftshift.
Qed.
Lemma fftshift_map {A B} (f : A -> B) x : map f (fftshift x) = fftshift (map f x).
Proof. unfold fftshift. rewrite map_length. symmetry. apply roll_map. Qed.
Lemma fftshift_map2 {A B D} (f : A -> B -> D) a b : length a = length b -> map2 f (fftshift a) (fftshift b) = fftshift (map2 f a b).
Proof. intros L. unfold fftshift. rewrite map2_length, <- L by exact L. symmetry. now apply roll_map2. Qed.
Lemma nonlinear_shift c n s A : wf n s -> length A = n -> nonlinear (set_pre true c) (shifted s) (fftshift A) = fftshift (nonlinear (set_pre false c) s A).
Proof.
  intros (_ & _ & _ & LR & LO) LA. rewrite !nonlinear_diag. cbv zeta. cbn [shifted s_R s_omegas s_gamma s_w0 set_pre c_noSS]. rewrite !fftshift_map.
  set (A2 := map (fun z => RtoC (Cnorm2 z)) A). set (D := map (fun w => - Ci * w)%C (s_omegas s)).
  assert (L2 : length A2 = n) by (unfold A2; vl). assert (LD : length D = n) by (unfold D; vl).
  change (mkCfg (c_err c) (c_method c) (c_eta c) (c_noRaman c) (c_noSS c) (c_simple c) (c_tau1 c) (c_tau2 c) true) with (set_pre true c).
  change (mkCfg (c_err c) (c_method c) (c_eta c) (c_noRaman c) (c_noSS c) (c_simple c) (c_tau1 c) (c_tau2 c) false) with (set_pre false c).
  rewrite (diag_shift c (s_R s) A2), (diag_shift c D A2), (diag_shift c D A) by congruence. rewrite (diag_shift c (s_R s) (diag (set_pre false c) D A2)) by (rewrite diag_length; congruence).
  assert (Q : forall z y, vscale z (fftshift y) = fftshift (vscale z y)) by (intros; apply fftshift_map).
  rewrite Q. destruct (c_noSS c); [reflexivity|].
  unfold vmul at 1. rewrite fftshift_map2 by (rewrite !diag_length; congruence). fold vmul.
  rewrite fftshift_map2 by (rewrite map2_length; rewrite !diag_length; congruence).
  unfold vadd, vsub. rewrite fftshift_map2, Q, fftshift_map2; [reflexivity| |].
  - transitivity n; [vl|]. symmetry. apply len_vscale. apply len_map2; [vl|]. apply len_map2; [vl|]. apply len_map2; vl.
  - transitivity n; [vl|]. symmetry. apply len_map2; [vl|]. apply len_map2; vl.
Qed.
Lemma expD_shift h dir b a : length b = length a -> calc_expD h dir (fftshift b) (fftshift a) = fftshift (calc_expD h dir b a).
Proof. intros. unfold calc_expD. now apply fftshift_map2. Qed.

(** one state holding the shifted arrays of another *)
Definition shrel (n : nat) (s1 s : ssfm) : Prop := pars s1 (shifted s) /\ s_A s1 = fftshift (s_A s) /\ s_iter s1 = s_iter s /\ s_dz s1 = s_dz s /\ wf n s.
Lemma shift_sim c n fuel delta_z dir s1 s : shrel n s1 s -> 0 < delta_z -> 0 < s_dz s ->
  match integrate_trace (set_pre true c) fuel delta_z dir s1, integrate_trace (set_pre false c) fuel delta_z dir s with
  | Some r, Some r' => s_A (l_st r) = fftshift (s_A (l_st r')) /\ l_steps r = l_steps r' /\ final_dz r = final_dz r' /\ s_iter (l_st r) = s_iter (l_st r') /\
                       pars (l_st r) (shifted s) /\ pars (l_st r') s /\ length (s_A (l_st r')) = n
  | None, None => True
  | _, _ => False
  end.
Proof.
  intros (SP & SA & SI & SD & W) Hd Hdz.
  pose proof (integrate_sym (set_pre true c) (set_pre false c) n (shifted s) s fftshift fftshift) as H.
  specialize (H eq_refl eq_refl eq_refl W).
  assert (X1 : forall f a b, length a = n -> length b = n -> map2 f (fftshift a) (fftshift b) = fftshift (@map2 C C C f a b)) by (intros; apply fftshift_map2; congruence).
  specialize (H (X1 Cplus) (X1 Cminus)).
  specialize (H (fun z a _ => fftshift_map (Cmult z) a)).
  pose proof W as (LA & LB & LL & _ & _).
  assert (X4 : forall h d x, length x = n -> diag (set_pre true c) (calc_expD h d (s_betas (shifted s)) (s_alpha (shifted s))) (fftshift x) = fftshift (diag (set_pre false c) (calc_expD h d (s_betas s) (s_alpha s)) x)).
  { intros h d x Lx. cbn [shifted s_betas s_alpha]. rewrite expD_shift by congruence. apply diag_shift. rewrite expD_P, (P_length n) by exact W. auto. }
  specialize (H X4). specialize (H (fun x Lx => nonlinear_shift c n s x W Lx)).
  assert (X5 : forall (f : C -> C) a x, length a = n -> length x = n -> vmul (map f (fftshift a)) (fftshift x) = fftshift (vmul (map f a) x)).
  { intros f a x La Lx. rewrite fftshift_map. apply X1; vl. }
  specialize (H X5). specialize (H (fun x _ => norm2_roll _ x)).
  specialize (H fuel delta_z dir s1 s Hd ltac:(now rewrite SD) SD).
  assert (Y : sym n (shifted s) s fftshift s1 s) by (split; [exact SP|]; split; [repeat split|]; split; [exact SA|]; split; [exact LA|exact SI]).
  specialize (H Y). destruct (integrate_trace (set_pre true c) fuel delta_z dir s1), (integrate_trace (set_pre false c) fuel delta_z dir s); try exact H. tauto.
Qed.
(*! C32 (integrator, every n): running integrate_over_dz on FFT-shifted arrays with the unshifted transforms gives the FFT-shifted field, the same steps and step size. *)
Lemma C32_integrator_shift_l : forall (c : cfg) (n fuel : nat) (delta_z dir : R) (s : ssfm),
  (c_noSS c = true \/ s_w0 s <> 0) -> wf n s -> 0 < delta_z -> 0 < s_dz s ->
  match integrate_trace (set_pre true c) fuel delta_z dir (shifted s), integrate_trace (set_pre false c) fuel delta_z dir s with
  | Some r, Some r' => s_A (l_st r) = fftshift (s_A (l_st r')) /\ l_steps r = l_steps r' /\ final_dz r = final_dz r' /\ s_iter (l_st r) = s_iter (l_st r')
  | None, None => True
  | _, _ => False
  end.
Proof.
  intros c n fuel delta_z dir s _ W Hd Hdz. pose proof (shift_sim c n fuel delta_z dir (shifted s) s) as H.
  specialize (H ltac:(split; [repeat split|]; repeat split; apply W) Hd Hdz).
  destruct (integrate_trace (set_pre true c) fuel delta_z dir (shifted s)), (integrate_trace (set_pre false c) fuel delta_z dir s); try exact H. tauto.
Qed.

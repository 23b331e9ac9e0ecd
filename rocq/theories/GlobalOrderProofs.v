(** Convergence of the adaptive integrator to the solution of the generalised nonlinear Schroedinger equation (C121). *)
From Coq Require Import Reals List ZArith Bool Arith Lra Lia Psatz FunctionalExtensionality.
From Coquelicot Require Import Coquelicot.
From Verif Require Import Base CNum NumPy ModelFFT FFTProofs ModelPulse PulseProofs PulseOpsProofs ModelSSFM SSFMLoopProofs SSFMProofs SSFMSymProofs SSFMErrProofs SSFMPropProofs SSFMGnlseProofs JetProofs RkJetProofs TaylorProofs RkOrderProofs ConvergeProofs.
Import ListNotations.
Local Open Scope R_scope.
Local Notation z0 := (RtoC 0).

(** ** The operators of the equation are bounded and Lipschitz along a bounded family *)
Section Medium.
Variables (c : cfg) (n : nat) (s : ssfm) (dir : R).
Hypothesis W : wf n s.
Lemma Nv_lip A : (exists B, bnd A B) -> smooth_at c n A -> lipn A (Nv c n s dir).
Proof.
  intros HA SM. pose proof (lipn_id A HA) as T0. pose proof (lipn_lin _ _ _ (linear_tr n) T0) as T1. pose proof (lipn_lin _ _ _ linear_cj T1) as T2. pose proof (lipn_pm _ _ _ T1 T2) as TA2.
  pose proof (lipn_lin _ _ _ (linear_diag c n _ (wfR n s W)) TA2) as TR. pose proof (lipn_lin _ _ _ (linear_cs (Ci * RtoC (s_gamma s))%C) TR) as TG.
  assert (TN : lipn A (NLv c n s)).
  { unfold NLv. destruct (c_noSS c) eqn:Ess; [exact TG|]. destruct SM as [SM|SM]; [congruence|].
    pose proof (lipn_lin _ _ _ (linear_diag c n _ (wfR n s W)) (lipn_lin _ _ _ (linear_diag c n _ (om_length n s W)) TA2)) as TD2.
    assert (QQ : 0 <= / 10 ^ 20 < / 10 ^ 15) by (split; [left; apply Rinv_0_lt_compat, pow_lt; lra|apply Rinv_lt_contravar; [apply Rmult_lt_0_compat; apply pow_lt; lra|apply Rlt_pow; [lra|lia]]]).
    pose proof (lipn_rcp A n (/ 10 ^ 15) (/ 10 ^ 20) QQ SM) as TC.
    pose proof (lipn_pm _ _ _ TC (lipn_pm _ _ _ (lipn_lin _ _ _ (linear_diag c n _ (om_length n s W)) T0) TR)) as TW.
    exact (lipn_plus _ _ _ TG (lipn_lin _ _ _ (linear_vs (- (s_gamma s / s_w0 s))) (lipn_plus _ _ _ TD2 TW))). }
  exact (lipn_lin _ _ _ (linear_vs dir) (lipn_pm _ _ _ TN T1)).
Qed.
Lemma Ev_add t a b : Ev c n s dir t (vp a b) = vp (Ev c n s dir t a) (Ev c n s dir t b).
Proof.
  destruct (linear_diag c n (P s (dir * t)) ltac:(vl)) as (S & _). destruct (linear_hi n) as (S' & _). unfold Ev. rewrite S, S'. vext.
Qed.
Lemma Ev_near : exists U K, 0 < U /\ 0 <= K /\ forall h v B, 0 <= h <= U -> bnd v B -> bnd (vd (Ev c n s dir h v) v) (K * h * B).
Proof.
  destruct (app_sum 1 _ _ (app_exp n s dir W 1 1)) as (r & (Br & U & PU & Hr) & U' & PU' & E). destruct (linear_fft_t n c) as (_ & _ & M & PM & HM). destruct (linear_ifft_t n c) as (BA & BS & M' & PM' & HM').
  assert (PB : 0 <= Br) by (apply (bnd_ge (r 0)), Hr; lra). pose proof (Rmin_l U U') as M1. pose proof (Rmin_r U U') as M2.
  exists (Rmin U U'), (M' * (Br * M)). split; [now apply Rmin_glb_lt|]. split; [apply Rmult_le_pos; [exact PM'|apply Rmult_le_pos; assumption]|]. intros h v B Hh Hv.
  set (w := LV n (fft_t c) v). replace (vd (Ev c n s dir h v) v) with (vs h (LV n (ifft_t c) (pm (r h) w))).
  - eapply bnd_le; [apply bnd_vs, HM', bnd_pm; [apply Hr; lra|apply HM, Hv]|]. rewrite Rabs_pos_eq by lra. right. ring.
  - rewrite <- BS. assert (T0 : tr n v = LV n (ifft_t c) (pm (one n) w)).
    { transitivity (LV n (ifft_t c) w); [symmetry; apply BF|]. unfold LV. apply emb_ext. intros t. f_equal. apply (vec_extn n); [apply out_length|apply out_length|]. intros i Hi. unfold out. rewrite !mk_nth by exact Hi. unfold pm, one. cbn [snd]. destruct (lt_dec i n); [ring|lia]. }
    specialize (E h ltac:(lra)). cbv beta in E. rewrite Rmult_1_l in E. unfold Ev. rewrite LV_diag by vl. rewrite E. fold w.
    transitivity (vd (LV n (ifft_t c) (pm (vp (psum 1 (fun j : nat => vs (1 ^ j / INR (fact j)) (dpow n s dir j)) h) (vs (h ^ 1) (r h))) w)) (tr n v)).
    + rewrite T0. unfold vd. rewrite <- BS, <- BA. f_equal. cbn [psum dpow pow fact]. change (INR 1) with 1. replace (1 / 1) with 1 by field. rewrite vs_1. vx.
    + assert (HH : hi n v = vd v (tr n v)) by (extensionality k; unfold vd, vp, vs, hi; rewrite tr_nth, RtoC_m1; destruct (lt_dec (snd k) n); ring). rewrite HH. vx.
Qed.
End Medium.

Lemma cderive_shift f x0 t l : is_cderive f (x0 + t) l -> is_cderive (fun x => f (x0 + x)) t l.
Proof.
  intros [H1 H2]. split.
  - replace (Re l) with (1 * Re l) by ring. apply (is_derive_comp (fun x => Re (f x)) (fun x => x0 + x) t _ 1 H1). auto_derive; [trivial|ring].
  - replace (Im l) with (1 * Im l) by ring. apply (is_derive_comp (fun x => Im (f x)) (fun x => x0 + x) t _ 1 H2). auto_derive; [trivial|ring].
Qed.
(** ** Continuous functions on a closed interval *)
Lemma cmod_cont f x l : is_cderive f x l -> continuity_pt (fun t => Cmod (f t)) x.
Proof.
  intros [D1 D2]. unfold Cmod. apply (continuity_pt_comp (fun t => fst (f t) ^ 2 + snd (f t) ^ 2) sqrt); [|apply continuity_pt_sqrt; nra].
  pose (p := fun t => Re (f t)). pose (q := fun t => Im (f t)). assert (D1' : is_derive p x (Re l)) by exact D1. assert (D2' : is_derive q x (Im l)) by exact D2. change (continuity_pt (fun t => p t ^ 2 + q t ^ 2) x). clearbody p q.
  apply derivable_continuous_pt. apply ex_derive_Reals_0. exists (INR 2 * Re l * p x ^ 1 + INR 2 * Im l * q x ^ 1). apply (is_derive_plus (fun t => p t ^ 2) (fun t => q t ^ 2)); apply is_derive_pow; assumption.
Qed.
Lemma unif_max n Z (g : nat -> R -> R) : 0 <= Z -> (forall k z, (k < n)%nat -> 0 <= z <= Z -> continuity_pt (g k) z) -> exists B, 0 <= B /\ forall k z, (k < n)%nat -> 0 <= z <= Z -> g k z <= B.
Proof.
  intros PZ. induction n as [|n IHn]; intros H; [exists 0; split; [lra|intros; lia]|]. destruct IHn as (B & PB & IH); [intros; apply H; [lia|assumption]|]. destruct (continuity_ab_maj (g n) 0 Z PZ) as (m & Hm & _); [intros; apply H; [lia|assumption]|].
  exists (Rmax B (g n m)). pose proof (Rmax_l B (g n m)). pose proof (Rmax_r B (g n m)). split; [lra|]. intros k z Hk Hz. destruct (Nat.eq_dec k n) as [->|]; [specialize (Hm z Hz); lra|]. specialize (IH k z ltac:(lia) Hz). lra.
Qed.
Lemma unif_min n Z (g : nat -> R -> R) : 0 <= Z -> (forall k z, (k < n)%nat -> 0 <= z <= Z -> continuity_pt (g k) z) -> (forall k z, (k < n)%nat -> 0 <= z <= Z -> 0 < g k z) -> exists d, 0 < d /\ forall k z, (k < n)%nat -> 0 <= z <= Z -> d < g k z.
Proof.
  intros PZ. induction n as [|n IHn]; intros H P; [exists 1; split; [lra|intros; lia]|]. destruct IHn as (B & PB & IH); [intros; apply H; [lia|assumption]|intros; apply P; [lia|assumption]|]. destruct (continuity_ab_min (g n) 0 Z PZ) as (m & Hm & Im); [intros; apply H; [lia|assumption]|].
  pose proof (P n m ltac:(lia) Im) as Pm. exists (Rmin B (g n m / 2)). pose proof (Rmin_l B (g n m / 2)). pose proof (Rmin_r B (g n m / 2)). split; [apply Rmin_glb_lt; lra|]. intros k z Hk Hz. destruct (Nat.eq_dec k n) as [->|]; [specialize (Hm z Hz); lra|]. specialize (IH k z ltac:(lia) Hz). lra.
Qed.
Definition cl (L t : R) : R := Rmax 0 (Rmin t L).
Lemma cl_in L t : 0 <= L -> 0 <= cl L t <= L.
Proof. intros PL. unfold cl. split; [apply Rmax_l|]. apply Rmax_lub; [exact PL|apply Rmin_r]. Qed.
Lemma cl_id L t : 0 <= t <= L -> cl L t = t.
Proof. intros Ht. unfold cl. rewrite Rmin_left by lra. apply Rmax_right. lra. Qed.

(** ** Kept steps *)
Lemma kept_pos c s dir A0 st B : kept c s dir A0 st B -> forall h, In h st -> 0 < h.
Proof. induction 1 as [|st h A B Ph KP IH G]; intros h' Hin; [destruct Hin|]. destruct Hin as [<-|Hin]; [lra|now apply IH]. Qed.
Lemma nonlinear_cfg c c' s x : c_noSS c' = c_noSS c -> c_pre c' = c_pre c -> nonlinear c' s x = nonlinear c s x.
Proof. intros H1 H2. unfold nonlinear, deriv, fft_t, ifft_t. rewrite H1, H2. reflexivity. Qed.
Lemma rk_with_cfg c c' s E A h dir : c_noSS c' = c_noSS c -> c_pre c' = c_pre c -> rk_with c' s E A h dir = rk_with c s E A h dir.
Proof.
  intros H1 H2. assert (D : forall d x, diag c' d x = diag c d x) by (intros; unfold diag, fft_t, ifft_t; rewrite H2; reflexivity). unfold rk_with. cbv zeta. rewrite !D, !(nonlinear_cfg c c') by assumption. reflexivity.
Qed.

(** ** Along one solution *)
(** self-steepening off, or no sample of the solution passes the threshold of SSFM.py:425-427 on [0, Z] *)
Definition off_path (c : cfg) (n : nat) (Z : R) (y : R -> list C) : Prop := c_noSS c = true \/ forall z k, 0 <= z <= Z -> (k < n)%nat -> Cmod (nth k (y z) z0) <> / 10 ^ 15.
Section Path.
Variables (c : cfg) (n : nat) (s : ssfm) (dir Z L : R) (y : R -> list C).
Hypothesis W : wf n s.
Hypothesis PL : 0 <= L.
Hypothesis LZ : L < Z.
Hypothesis SOL : gnlse_solution c n s dir Z y.
Hypothesis OFF : off_path c n Z y.
Lemma ylen z : length (y z) = n. Proof. apply SOL. Qed.
Lemma ycont k z : (k < n)%nat -> 0 <= z <= Z -> continuity_pt (fun t => Cmod (nth k (y t) z0)) z.
Proof. intros Hk Hz. eapply cmod_cont. apply SOL; assumption. Qed.
Definition fam (X : R) : V := emb (fun t => y (cl X t)).
Lemma fam_bnd X : 0 <= X <= Z -> exists B, bnd (fam X) B.
Proof.
  intros HX. destruct (unif_max n Z (fun k t => Cmod (nth k (y t) z0)) ltac:(lra) ycont) as (B & PB & H). exists B. intros [t k]. unfold fam, emb. cbn [fst snd]. destruct (lt_dec k n) as [Hk|Hk].
  - apply H; [exact Hk|]. pose proof (cl_in X t ltac:(lra)). lra.
  - rewrite nth_overflow by (rewrite ylen; lia). now rewrite Cmod_0.
Qed.
Lemma fam_smooth X : 0 <= X <= Z -> smooth_at c n (fam X).
Proof.
  intros HX. destruct OFF as [H|H]; [now left|right]. unfold gap. set (t0 := / 10 ^ 15) in *.
  destruct (unif_min n Z (fun k t => Rabs (Cmod (nth k (y t) z0) - t0)) ltac:(lra)) as (d & Pd & Hd).
  - intros k z Hk Hz. apply (continuity_pt_comp (fun t => Cmod (nth k (y t) z0) - t0) Rabs); [|apply Rcontinuity_abs]. apply (continuity_pt_minus (fun t => Cmod (nth k (y t) z0)) (fun _ => t0)); [now apply ycont|]. apply continuity_pt_const. intros ? ?. reflexivity.
  - intros k z Hk Hz. apply Rabs_pos_lt. pose proof (H z k Hz Hk). lra.
  - exists d. split; [exact Pd|]. intros [t k] Hk. unfold fam, emb. cbn [fst snd] in *. apply Hd; [exact Hk|]. pose proof (cl_in X t ltac:(lra)). lra.
Qed.
Lemma fam_flip : flip n (Z - L) (fun t u => y (cl L t + u)).
Proof.
  pose proof (fam_bnd Z ltac:(lra)) as HB. destruct (Nv_lip c n s dir W (fam Z) HB (fam_smooth Z ltac:(lra))) as (d & B1 & _ & Pd & PB1 & _ & H1 & _). destruct HB as (B & HB). destruct (Dv_linear c n s dir W) as (_ & _ & M & PM & HM).
  assert (PB : 0 <= B) by exact (bnd_ge _ _ HB). assert (HR : forall z k, 0 <= z <= Z -> (k < n)%nat -> Cmod (gnlse_rhs c s dir (y z) k) <= M * B + B1).
  { intros z k Hz Hk. pose proof (rhs_V c n s dir (fun t => y (cl Z t)) (z, k) W (fun t => ylen _)) as E. cbn [fst snd] in E. destruct (lt_dec k n); [|lia]. rewrite (cl_id Z z Hz) in E. rewrite <- E. apply (bnd_vp _ _ (M * B) B1); [apply HM, HB|]. apply H1. apply vd_self. lra. }
  exists (2 * (M * B + B1)). split; [nra|]. intros t u k Hu Hk. pose proof (cl_in L t PL) as Hc. rewrite Rplus_0_r. destruct (Req_dec u 0) as [->|NZ]; [rewrite Rplus_0_r; unfold Cminus; rewrite Cplus_opp_r, Cmod_0; nra|].
  pose proof (cmvt_bound (fun v => nth k (y (cl L t + v)) z0) (fun v => gnlse_rhs c s dir (y (cl L t + v)) k) u (M * B + B1) ltac:(lra)) as Q. cbv beta in Q. rewrite Rplus_0_r in Q. rewrite Rmult_assoc. apply Q.
  - intros v Hv. assert (D : is_cderive (fun t => nth k (y t) z0) (cl L t + v) (gnlse_rhs c s dir (y (cl L t + v)) k)) by (apply SOL; [lra|exact Hk]). 
    apply (cderive_shift (fun t => nth k (y t) z0)). exact D.
  - intros v Hv. apply HR; [lra|exact Hk].
Qed.
Let A := fam L.
Let Y (u : R) : V := emb (fun t => y (cl L t + u)).
Let N := Nv c n s dir.
Let E := Ev c n s dir.
Lemma bA : exists B, bnd A B. Proof. apply fam_bnd. lra. Qed.
Lemma sA : smooth_at c n A. Proof. apply fam_smooth. lra. Qed.
Lemma Y_0 : Y 0 = A. Proof. apply emb_ext. intros t. now rewrite Rplus_0_r. Qed.
Lemma fam_sol : app 1 (fun _ => A) Y /\ near (fun z => forall k, is_cderive (fun u => Y u k) z (vp (Dv c n s dir (Y z)) (N (Y z)) k)).
Proof.
  rewrite <- Y_0. apply (fsol_V c n s dir (Z - L) (fun t u => y (cl L t + u)) W); [lra| |exact fam_flip]. split; [intros; apply ylen|]. intros t u k Hu Hk. pose proof (cl_in L t PL).
  apply (cderive_shift (fun t => nth k (y t) z0)). apply SOL; [lra|exact Hk].
Qed.
Lemma fam_est : exists K, 0 <= K /\ near (fun h => bnd (vd (rk N E h (rk N E h A)) (rk N E (2 * h) A)) (K * h ^ 5)).
Proof.
  destruct (Nv_taylor c n s dir W A bA sA) as (Nm & TN).
  exact (est_order4 (Dv c n s dir) N Nm A E (Dv_linear c n s dir W) TN bA (Ev_hom c n s dir W) (Ev_exp c n s dir W)).
Qed.
Lemma fam_rich : exists K, 0 <= K /\ near (fun h => bnd (vp (rich N A E h) (vs (-1) (Y (2 * h)))) (K * h ^ 6)).
Proof.
  destruct (Nv_taylor c n s dir W A bA sA) as (Nm & TN). destruct fam_sol as (A1 & DY).
  exact (rich_order5 (Dv c n s dir) N Nm A E (Dv_linear c n s dir W) TN bA (Ev_hom c n s dir W) (Ev_exp c n s dir W) Y Y_0 A1 DY).
Qed.
(** the order of the kept step with extrapolation weight q *)
Definition ord_of (q : R) (p : nat) : Prop := p = 4%nat \/ (p = 5%nat /\ q = 1 / 15).
Lemma fam_local q p : ord_of q p -> exists K h0, 0 <= K /\ 0 < h0 <= 1 /\ forall h, 0 <= h <= h0 -> bnd (vd (keep N E q h A) (Y (2 * h))) (K * h ^ S p).
Proof.
  intros Hp. destruct fam_est as (K1 & P1 & h1 & Ph1 & H1). destruct fam_rich as (K2 & P2 & h2 & Ph2 & H2). pose proof (Rmin_l h1 (Rmin h2 1)). pose proof (Rmin_r h1 (Rmin h2 1)). pose proof (Rmin_l h2 1). pose proof (Rmin_r h2 1).
  exists (K2 + Rabs (q - 1 / 15) * K1), (Rmin h1 (Rmin h2 1)). pose proof (Rabs_pos (q - 1 / 15)) as PQ. split; [nra|]. split; [split; [repeat apply Rmin_glb_lt; lra|lra]|]. intros h Hh.
  replace (vd (keep N E q h A) (Y (2 * h))) with (vp (vp (rich N A E h) (vs (-1) (Y (2 * h)))) (vs (q - 1 / 15) (vd (rk N E h (rk N E h A)) (rk N E (2 * h) A)))).
  - assert (P5 : 0 <= h ^ 5) by (apply pow_le; lra). assert (P6 : h ^ 6 <= h ^ 5) by (cbn [pow] in *; nra). eapply bnd_le; [apply bnd_vp; [apply H2; lra|apply bnd_vs, H1; lra]|]. destruct Hp as [->|[-> ->]].
    + rewrite Rmult_plus_distr_r, Rmult_assoc. apply Rplus_le_compat_r. now apply Rmult_le_compat_l.
    + rewrite Rminus_diag_eq, Rabs_R0 by reflexivity. lra.
  - unfold keep, rich. cbv zeta. generalize (rk N E h (rk N E h A)) (rk N E (2 * h) A) (Y (2 * h)). intros a b d. extensionality k. unfold vd, vp, vs. rewrite RtoC_m1, RtoC_opp, !RtoC_minus. replace (RtoC (16 / 15)) with (RtoC 1 + RtoC (1 / 15))%C by (rewrite <- RtoC_plus; f_equal; lra). ring.
Qed.
Definition stp (h : R) (x : list C) : list C := rk_with c s (calc_expD h dir (s_betas s) (s_alpha s)) x h dir.
Definition keepl (q h : R) (x : list C) : list C := let f := stp h (stp h x) in vadd f (vscale (RtoC q) (vsub f (stp (2 * h) x))).
Lemma stp_len h x : length x = n -> length (stp h x) = n. Proof. exact (rk_len c n s x h dir W). Qed.
Lemma stp_emb h X : (forall t, length (X t) = n) -> rk (Nv c n s dir) (Ev c n s dir) h (emb X) = emb (fun t => stp h (X t)).
Proof. exact (rk_emb c n s dir W h X). Qed.
Opaque stp.
Lemma keepl_len q h x : length x = n -> length (keepl q h x) = n.
Proof. intros Lx. unfold keepl. cbv zeta. apply len_vadd; [apply stp_len, stp_len; auto|]. apply len_vscale, len_vsub; [apply stp_len, stp_len; auto|apply stp_len; auto]. Qed.
Lemma keep_emb q h X : (forall t, length (X t) = n) -> keep N E q h (emb X) = emb (fun t => keepl q h (X t)).
Proof.
  intros LX. unfold keep. cbv zeta. unfold N, E. rewrite (stp_emb h X LX), (stp_emb h (fun t => stp h (X t))) by (intros; apply stp_len, LX). rewrite (stp_emb (2 * h) X LX). unfold keepl. cbv zeta.
  set (f := fun t => stp h (stp h (X t))). set (g := fun t => stp (2 * h) (X t)). assert (Lf : forall t, length (f t) = n) by (intros; apply stp_len, stp_len; auto). assert (Lg : forall t, length (g t) = n) by (intros; apply stp_len; auto).
  change (vp (emb f) (vs q (vd (emb f) (emb g))) = emb (fun t => vadd (f t) (vscale (RtoC q) (vsub (f t) (g t))))).
  rewrite (emb_vadd f (fun t => vscale (RtoC q) (vsub (f t) (g t)))) by (intros; rewrite vscale_length, vsub_length; congruence). rewrite (emb_vscale q (fun t => vsub (f t) (g t))), (emb_vsub f g) by (intros; congruence). reflexivity.
Qed.
(** one kept step from a field near the solution at t *)
Lemma keep_step q p : ord_of q p -> exists d h0 M K, 0 < d /\ 0 < h0 <= 1 /\ 0 <= M /\ 0 <= K /\ forall t h x e, 0 <= t <= L -> 0 < h <= h0 -> length x = n -> (forall k, (k < n)%nat -> Cmod (nth k x z0 - nth k (y t) z0)%C <= e) -> 0 <= e <= d ->
  forall k, (k < n)%nat -> Cmod (nth k (keepl q h x) z0 - nth k (y (t + 2 * h)) z0)%C <= (1 + M * h) * e + K * h ^ S p.
Proof.
  intros Hp. destruct (fam_local q p Hp) as (K & h1 & PK & Ph1 & HL). destruct bA as (BA & HBA).
  destruct (ink_stable A (keep N E q) (ink_keep A BA N E HBA (Nv_lip c n s dir W A bA sA) (Ev_add c n s dir W) (Ev_hom c n s dir W) (Ev_near c n s dir W) q)) as (d & U & M & Pd & PU & PM & HS).
  pose proof (Rmin_l h1 U). pose proof (Rmin_r h1 U). exists d, (Rmin h1 U), M, K. split; [exact Pd|]. split; [split; [apply Rmin_glb_lt; lra|lra]|]. split; [exact PM|]. split; [exact PK|]. intros t h x e Ht Hh Lx Hx He k Hk.
  set (X := fun t' => vadd (y (cl L t')) (vsub x (y t))). assert (Ld : length (vsub x (y t)) = n) by (apply len_vsub; [exact Lx|apply ylen]). assert (LX : forall t', length (X t') = n) by (intros; apply len_vadd; [apply ylen|exact Ld]).
  assert (EX : X t = x). { unfold X. rewrite (cl_id L t Ht). apply (vec_extn n); [apply len_vadd; [apply ylen|exact Ld]|exact Lx|]. intros i Hi. rewrite vadd_nth by (rewrite ylen; congruence). rewrite vsub_nth by (rewrite ylen; congruence). ring. }
  assert (HX : bnd (vd (emb X) A) e). { intros [t' i]. unfold vd, vp, vs, A, fam, emb, X. cbn [fst snd]. rewrite vadd_nth by (rewrite ylen; congruence). rewrite vsub_nth by (rewrite ylen; congruence). rewrite RtoC_m1.
    replace (nth i (y (cl L t')) z0 + (nth i x z0 - nth i (y t) z0) + - RtoC 1 * nth i (y (cl L t')) z0)%C with (nth i x z0 - nth i (y t) z0)%C by ring. destruct (lt_dec i n) as [Hi|Hi]; [now apply Hx|]. rewrite !nth_overflow by (rewrite ?ylen; lia). replace (z0 - z0)%C with z0 by ring. rewrite Cmod_0. lra. }
  pose proof (HS h (emb X) e ltac:(lra) HX ltac:(lra)) as Q1. pose proof (HL h ltac:(lra)) as Q2. pose proof (bnd_vp _ _ _ _ Q1 Q2 (t, k)) as Q. rewrite (keep_emb q h X LX) in Q.
  unfold vp at 1, vd at 1, vp at 1, vs at 1 in Q. unfold vd, vp, vs in Q. rewrite RtoC_m1 in Q. set (kA := keep N E q h A (t, k)) in *. unfold Y, emb in Q. cbn [fst snd] in Q. rewrite EX, (cl_id L t Ht) in Q.
  match goal with |- Cmod ?z <= _ => match type of Q with Cmod ?w <= _ => replace z with w by ring end end. exact Q.
Qed.
(** ** Errors along a run *)
Lemma one_exp M h : 0 <= M * h -> 1 + M * h <= exp (M * (2 * h)).
Proof. intros P. pose proof (exp_ineq1_le (M * (2 * h))). lra. Qed.
Definition q_of (eta : nat) : R := / (2 ^ (eta - 1) - 1).
Lemma run_bound p : (2 <= c_eta c)%nat -> c_method c = METHOD_RK4IP -> ord_of (q_of (c_eta c)) p -> exists K H0, 0 <= K /\ 0 < H0 <= 1 /\ forall c' s' steps B H,
  c_method c' = METHOD_RK4IP -> c_eta c' = c_eta c -> c_noSS c' = c_noSS c -> c_pre c' = c_pre c -> same_medium s' s -> kept c' s' dir (y 0) steps B -> 0 < H <= H0 -> (forall h, In h steps -> h <= H) -> lrsum (List.tl steps) <= L ->
  length B = n /\ (forall h, In h steps -> 0 < h) /\ forall k, (k < n)%nat -> Cmod (nth k B z0 - nth k (y (lrsum steps)) z0)%C <= K * H ^ p.
Proof.
  intros He Hm Hp. destruct (keep_step _ _ Hp) as (d & h0 & M & K & Pd & Ph0 & PM & PK & HS).
  set (F := fun H T => K * T * H ^ p * exp (M * T)). set (K' := K * (L + 2) * exp (M * (L + 2))). assert (PK' : 0 <= K') by (apply Rmult_le_pos; [apply Rmult_le_pos; lra|left; apply exp_pos]).
  set (H0 := Rmin h0 (d / (K' + 1))). assert (PH0 : 0 < H0) by (apply Rmin_glb_lt; [lra|apply Rdiv_lt_0_compat; lra]). pose proof (Rmin_l h0 (d / (K' + 1))) as M1. pose proof (Rmin_r h0 (d / (K' + 1))) as M2. fold H0 in M1, M2.
  assert (Pp : (1 <= p)%nat) by (destruct Hp as [->|[-> _]]; lia).
  assert (HFK : forall H T, 0 < H <= H0 -> 0 <= T <= L + 2 -> 0 <= F H T <= K' * H ^ p).
  { intros H T HH HT. assert (PHp : 0 <= H ^ p) by (apply pow_le; lra). pose proof (exp_pos (M * T)) as Pe. assert (X : exp (M * T) <= exp (M * (L + 2))). { assert (M * T <= M * (L + 2)) by (apply Rmult_le_compat_l; lra). destruct (Rle_lt_or_eq_dec _ _ H1) as [G|G]; [left; now apply exp_increasing|right; now rewrite G]. }
    unfold F, K'. split; [apply Rmult_le_pos; [apply Rmult_le_pos; [apply Rmult_le_pos; lra|exact PHp]|lra]|]. replace (K * (L + 2) * exp (M * (L + 2)) * H ^ p) with (K * (L + 2) * H ^ p * exp (M * (L + 2))) by ring.
    apply Rmult_le_compat; [apply Rmult_le_pos; [apply Rmult_le_pos; lra|exact PHp]|lra| |exact X]. apply Rmult_le_compat_r; [exact PHp|]. apply Rmult_le_compat_l; lra. }
  assert (HpH : forall H, 0 < H <= H0 -> H ^ p <= H). { intros H HH. destruct p as [|p']; [lia|]. cbn [pow]. assert (H ^ p' <= 1) by (rewrite <- (pow1 p'); apply pow_incr; lra). assert (0 <= H ^ p') by (apply pow_le; lra). nra. }
  assert (HFd : forall H, 0 < H <= H0 -> K' * H ^ p <= d). { intros H HH. apply Rle_trans with ((K' + 1) * (d / (K' + 1))); [|right; field; lra]. pose proof (HpH H HH). assert (0 <= H ^ p) by (apply pow_le; lra). apply Rmult_le_compat; lra. }
  exists K', H0. split; [exact PK'|]. split; [lra|]. intros c' s' steps B H Hm' He' Hs' Hp' SM KP HH. 
  assert (G : (forall h, In h steps -> h <= H) -> lrsum (List.tl steps) <= L -> length B = n /\ (forall h, In h steps -> 0 < h) /\ 0 <= lrsum steps /\ forall k, (k < n)%nat -> Cmod (nth k B z0 - nth k (y (lrsum steps)) z0)%C <= F H (lrsum steps)).
  { induction KP as [|st h A1 B Ph KP IH [_ GE]]; intros Hst Hl.
    - split; [apply ylen|]. split; [intros h []|]. split; [cbn; lra|]. intros k Hk. cbn [lrsum fold_right]. unfold Cminus. rewrite Cplus_opp_r, Cmod_0. unfold F. rewrite Rmult_0_r, !Rmult_0_l. lra.
    - cbn [List.tl] in Hl. destruct IH as (LA1 & PS & PT & IH); [intros; apply Hst; now right|destruct st as [|a st]; cbn [List.tl] in *; [cbn; lra|]|].
      { pose proof (kept_pos _ _ _ _ _ _ KP a ltac:(now left)). change (lrsum (a :: st)) with (a + lrsum st) in Hl. lra. }
      set (T := lrsum st) in *. change (lrsum (2 * h :: st)) with (2 * h + T). pose proof (Hst (2 * h) ltac:(now left)) as HhH.
      assert (EB : forall k, (k < n)%nat -> nth k B z0 = nth k (keepl (q_of (c_eta c)) h A1) z0).
      { destruct GE as [LB GE]. rewrite LA1 in LB. intros k Hk. specialize (GE k ltac:(lia)). assert (FE : forall x h', 0 < h' -> advance_fresh c' s' x h' dir = stp h' x).
        { intros x h' Ph'. rewrite (fresh_medium c' s' s x h' dir Ph' SM), advance_fresh_eq by exact Ph'. unfold adv_with. rewrite Hm'. Transparent stp. unfold stp. Opaque stp. apply rk_with_cfg; assumption. }
        rewrite !FE in GE by lra. rewrite He' in GE. unfold keepl. cbv zeta. set (f := stp h (stp h A1)) in *. set (g := stp (2 * h) A1) in *. assert (Lf : length f = n) by (intros; apply stp_len, stp_len; auto). assert (Lg : length g = n) by (apply stp_len; auto).
        rewrite vadd_nth by (rewrite vscale_length, vsub_length; congruence). rewrite vscale_nth, vsub_nth by congruence. unfold q_of. set (P2 := 2 ^ (c_eta c - 1)) in *. assert (P2' : 2 <= P2). { unfold P2. destruct (c_eta c) as [|[|e]]; try lia. cbn [Nat.sub]. cbn [pow]. pose proof (pow_R1_Rle 2 e ltac:(lra)). lra. }
        assert (NZ : (RtoC P2 - RtoC 1)%C <> RtoC 0) by (rewrite <- RtoC_minus; intro Q; apply RtoC_inj in Q; lra). rewrite RtoC_inv, RtoC_minus by lra.
        transitivity ((RtoC P2 * nth k f z0 - nth k g z0) / (RtoC P2 - RtoC 1))%C; [|field; exact NZ].
        assert (Q : ((RtoC P2 - RtoC 1) * nth k B z0 = RtoC P2 * nth k f z0 - nth k g z0)%C) by (replace (nth k g z0) with (RtoC P2 * (nth k f z0 - nth k B z0) + nth k B z0)%C by (rewrite GE; ring); ring). rewrite <- Q. field. exact NZ. }
      split; [destruct GE as [LB _]; congruence|]. split; [intros h' [<-|Hin]; [lra|now apply PS]|]. split; [lra|]. intros k Hk. rewrite (EB k Hk). destruct (HFK H T HH ltac:(lra)) as [PF HF]. pose proof (HFd H HH) as HF2.
      replace (2 * h + T) with (T + 2 * h) by ring. eapply Rle_trans; [apply (HS T h A1 (F H T)); try assumption; try lra; intros; now apply IH|].
      assert (PHp : 0 <= H ^ p) by (apply pow_le; lra). assert (E1 : exp (M * (T + 2 * h)) = exp (M * T) * exp (M * (2 * h))) by (rewrite <- exp_plus; f_equal; ring).
      pose proof (one_exp M h ltac:(apply Rmult_le_pos; lra)) as OE. pose proof (exp_pos (M * T)) as P1. pose proof (exp_pos (M * (2 * h))) as P2. assert (G1 : 1 <= exp (M * (T + 2 * h))) by (pose proof (exp_ineq1_le (M * (T + 2 * h))); assert (0 <= M * (T + 2 * h)) by (apply Rmult_le_pos; lra); lra).
      unfold F. replace (K * (T + 2 * h) * H ^ p * exp (M * (T + 2 * h))) with (exp (M * (2 * h)) * (K * T * H ^ p * exp (M * T)) + K * (2 * h) * H ^ p * exp (M * (T + 2 * h))) by (rewrite E1; ring).
      apply Rplus_le_compat; [apply Rmult_le_compat_r; [exact PF|exact OE]|]. cbn [pow]. rewrite <- (Rmult_1_r (K * (h * h ^ p))). apply Rmult_le_compat; [apply Rmult_le_pos; [exact PK|apply Rmult_le_pos; [lra|apply pow_le; lra]]|lra| |exact G1].
      rewrite Rmult_assoc. apply Rmult_le_compat_l; [exact PK|]. apply Rmult_le_compat; [lra|apply pow_le; lra|lra|]. apply pow_incr. lra. }
  intros Hst Hl. destruct (G Hst Hl) as (LB & PS & PT & HB). split; [exact LB|]. split; [exact PS|]. intros k Hk. eapply Rle_trans; [apply (HB k Hk)|]. apply HFK; [exact HH|]. split; [exact PT|].
  destruct steps as [|a st]; [cbn; lra|]. change (lrsum (a :: st)) with (a + lrsum st). cbn [List.tl] in Hl. pose proof (Hst a ltac:(now left)). lra.
Qed.
End Path.

(** ** Statements *)
Definition order_of (c : cfg) : nat := if Nat.eqb (c_eta c) 5 then 5%nat else 4%nat.
Lemma order_ord c : (2 <= c_eta c)%nat -> ord_of (q_of (c_eta c)) (order_of c).
Proof. intros He. unfold order_of, ord_of, q_of. destruct (Nat.eqb_spec (c_eta c) 5) as [->|_]; [right|left; reflexivity]. split; [reflexivity|]. change (5 - 1)%nat with 4%nat. replace (2 ^ 4 - 1) with 15 by ring. field. Qed.
Lemma factor_le2 c : dz_factor c <= 2.
Proof.
  unfold dz_factor. apply Rle_trans with (Rpower 2 1); [|rewrite Rpower_1 by lra; lra]. apply Rle_Rpower; [lra|]. unfold Rdiv. rewrite Rmult_1_l. destruct (c_eta c) as [|k]; [simpl; rewrite Rinv_0; lra|].
  apply Rle_trans with (/ 1); [|rewrite Rinv_1; lra]. apply Rinv_le_contravar; [lra|]. rewrite S_INR. pose proof (pos_INR k). lra.
Qed.
Lemma ctl_grow c dz d keep dz1 : step_ctl c dz d = (keep, dz1) -> 0 < dz -> dz1 <= 2 * dz.
Proof.
  intros H Hd. pose proof (factor_ge1 c) as Hf. pose proof (factor_le2 c) as Hf2. assert (Hg : dz * dz_factor c <= 2 * dz) by nra. assert (Hi : dz / dz_factor c <= dz).
  { apply (Rmult_le_reg_r (dz_factor c)); [lra|]. unfold Rdiv. rewrite Rmult_assoc, Rinv_l by lra. nra. }
  unfold step_ctl in H.
  repeat match type of H with
  | match ?x with Some _ => _ | None => _ end = _ => destruct x
  | (if ?x then _ else _) = _ => destruct x
  | (_, if ?x then _ else _) = _ => destruct x
  end; injection H as <- <-; lra.
Qed.
(** no kept step is longer than twice the distance asked for *)
Lemma loop_steps {S : Type} c (att : R -> S -> option R * S * S) d0 fuel dz s r : 0 < dz -> 2 * dz <= d0 -> loop c att fuel d0 dz None [] s = Some r -> forall h, In h (l_steps r) -> h <= 2 * d0.
Proof.
  intros Pdz Hdz HL. pose proof dz_min_pos as Hm.
  destruct (loop_inv c att (fun dist dz ret steps s => dist <= d0 /\ (forall h, In h steps -> h <= 2 * d0) /\ (2 * dz <= dist \/ dist <= 0 \/ (dist <= 2 * dz_min /\ dz <= d0)))) with (fuel := fuel) (dist := d0) (dz := dz) (ret := @None R) (steps := @nil R) (s := s) (r := r)
    as ((_ & HP & _) & _); try assumption.
  - clear - Hm. intros dist dz ret steps s delta s1 s2 keep dz1 Hd Hdz (C1 & C2 & C3) _ E2. destruct (ctl_spec _ _ _ _ _ E2 Hdz) as (F1 & F2 & F3). destruct keep.
    + assert (Q : dz <= d0) by lra. split; [lra|]. split; [intros h [<-|Hh]; [lra|now apply C2]|]. unfold next_dz. destruct (Rlt_dec (dist - 2 * dz) (2 * dz1)).
      * destruct (Rlt_dec (2 * dz_min) (dist - 2 * dz)); [left; lra|]. right. destruct (Rle_lt_dec (dist - 2 * dz) 0); [left; lra|right]. split; [lra|]. pose proof (ctl_grow _ _ _ _ _ E2 Hdz). lra.
      * left. lra.
    + destruct (F1 eq_refl) as [-> _]. split; [exact C1|]. split; [exact C2|]. lra.
  - split; [lra|]. split; [intros h []|]. left. lra.
Qed.
Lemma lrsum_pos l : (forall h, In h l -> 0 < h) -> 0 <= lrsum l.
Proof. induction l as [|a l IH]; intros H; [cbn; lra|]. change (lrsum (a :: l)) with (a + lrsum l). pose proof (H a ltac:(now left)). specialize (IH ltac:(intros; apply H; now right)). lra. Qed.
Lemma lrsum_app a b : lrsum (a ++ b) = lrsum a + lrsum b.
Proof. induction a as [|x a IH]; [change (lrsum ([] ++ b)) with (lrsum b); change (lrsum []) with 0; ring|]. change (lrsum ((x :: a) ++ b)) with (x + lrsum (a ++ b)). change (lrsum (x :: a)) with (x + lrsum a). rewrite IH. ring. Qed.
Lemma lrsum_tl l : (forall h, In h l -> 0 < h) -> lrsum (List.tl l) <= lrsum l.
Proof. destruct l as [|a l]; intros H; [cbn; lra|]. change (lrsum (a :: l)) with (a + lrsum l). cbn [List.tl]. pose proof (H a ltac:(now left)). lra. Qed.

(*! C121: the adaptive integrator converges.  Let y be a solution of the generalised nonlinear Schroedinger equation dA/dz = dir*(D A + N(A) A) on [0, Z] (with self-steepening on, no sample of y may pass through the code's threshold 1e-15).
    There are constants K and H0 such that for every tolerance, initial step, fuel and every distance up to L < Z: integrate_over_dz started from y(0) ends, in every sample, within K*H^4 of y at the distance it covered, H <= H0 being any bound on the steps it kept;
    with the default local-error exponent 5 the bound is K*H^5. *)
Lemma C121_adaptive_convergence_l : forall (c : cfg) (n : nat) (s : ssfm) (dir Z L : R) (y : R -> list C),
  c_method c = METHOD_RK4IP -> (2 <= c_eta c)%nat -> wf n s -> 0 <= L < Z -> gnlse_solution c n s dir Z y -> off_path c n Z y ->
  exists K H0, 0 <= K /\ 0 < H0 /\ forall c' s' fuel delta_z r H,
    c_method c' = c_method c -> c_eta c' = c_eta c -> c_noSS c' = c_noSS c -> c_pre c' = c_pre c -> same_medium s' s -> s_A s' = y 0 -> 0 < s_dz s' ->
    0 < delta_z <= L -> integrate_trace c' fuel delta_z dir s' = Some r -> (forall h, In h (l_steps r) -> h <= H) -> 0 < H <= H0 ->
    forall k, (k < n)%nat -> Cmod (nth k (s_A (l_st r)) z0 - nth k (y (lrsum (l_steps r))) z0)%C <= K * H ^ (if Nat.eqb (c_eta c) 5 then 5 else 4).
Proof.
  intros c n s dir Z L y Hm He W [PL LZ] SOL OFF. destruct (run_bound c n s dir Z L y W PL LZ SOL OFF (order_of c) He Hm (order_ord c He)) as (K & H0 & PK & PH & HB). exists K, H0. split; [exact PK|]. split; [lra|].
  intros c' s' fuel delta_z r H Hm' He' Hs' Hp' SM EA Pdz Hd HR Hst HH k Hk. assert (W' : wf n s').
  { destruct W as (_ & W1 & W2 & W3 & W4). destruct SM as (M1 & M2 & _ & _ & M5 & M6). split; [rewrite EA; apply SOL|]. rewrite M1, M2, M5, M6. auto. }
  pose proof (C88_kept_steps_l c' n fuel delta_z dir s' r W' ltac:(lia) ltac:(lra) Pdz HR) as KP. rewrite EA in KP. destruct (first_dz_pos delta_z (s_dz s') ltac:(lra) Pdz) as [P1 P2].
  destruct (loop_cov c' (attempt c' dir) delta_z fuel _ _ r P1 P2 HR) as (C1 & C2 & C3 & C4).
  assert (HT : lrsum (List.tl (l_steps r)) <= L). { destruct C4 as [C4|(lst & ear & E & C5)]; [pose proof (lrsum_tl _ C2); lra|]. rewrite E. cbn [List.tl]. lra. }
  rewrite Hm in Hm'. exact (proj2 (proj2 (HB c' s' (l_steps r) (s_A (l_st r)) H Hm' He' Hs' Hp' SM KP HH Hst HT)) k Hk).
Qed.

(** ** propagate *)
Lemma kept_medium c s t dir A0 st B : same_medium s t -> kept c s dir A0 st B -> kept c t dir A0 st B.
Proof.
  intros SM. induction 1 as [|st h A B Ph KP IH [GT GE]]; [constructor|]. apply kept_cons with (A := A); [exact Ph|exact IH|].
  assert (FE : forall x h', 0 < h' -> advance_fresh c s x h' dir = advance_fresh c t x h' dir) by (intros; now apply fresh_medium). cbv zeta in GT, GE. rewrite !(FE _ h Ph), (FE A (2 * h)) in GT, GE by lra. split; [exact GT|exact GE].
Qed.
Lemma kept_trans c s dir A0 st1 A1 st2 A2 : kept c s dir A0 st1 A1 -> kept c s dir A1 st2 A2 -> kept c s dir A0 (st2 ++ st1) A2.
Proof. intros K1. induction 1 as [|st h A B Ph KP IH G]; [exact K1|]. cbn [app]. now apply kept_cons with (A := A). Qed.
Lemma chain_kept c fuel fb N op reload s p a b g Rw F z AW AT po s' q : setting c fb N op s p a b g Rw F -> straight c (p_n p) -> (2 <= c_eta c)%nat -> (reload = true -> forall x, b x = b 0 /\ fb_get_gamma fb x = fb_get_gamma fb 0) ->
  propagate c fuel fb N op reload s p = (Ok (Some (z, AW, AT, po, s')), q) ->
  exists st : nat -> ssfm, s_A (st 0%nat) = cfftshift c (IFFT_t a) /\
  forall i, (i < N)%nat -> exists dj, (fb_len fb / INR N <= dj /\ (dj = fb_len fb / INR N \/ exists last, 0 < fb_len fb / INR N - (dj - last) <= 2 * / 10 ^ 12)) /\ nth i AT [] = cifftshift c (s_A (st (S i))) /\
    exists steps, dj = lrsum steps /\ kept c (start c fb p (b 0) g a Rw F s) 1 (s_A (st i)) steps (s_A (st (S i))) /\ forall h, In h steps -> h <= 2 * (fb_len fb / INR N).
Proof.
  intros Hs Hst He Hc H. destruct (propagate_inv _ _ _ _ _ _ _ _ _ _ _ _ _ _ _ _ _ _ _ Hs H) as (Lq & _ & _ & LA & _ & sf & EC & Wf & EP & _).
  destruct Hs as (Hh & Hn & Hf & An & HR & HN & HL & Hd). destruct (cols_chain _ _ _ _ _ _ _ _ _ EC) as (_ & st & S0 & SN & S3).
  assert (Hdz : 0 < step_of (fb_len fb) N) by (unfold step_of; apply Rdiv_lt_0_compat; [exact HL|apply lt_0_INR; lia]).
  assert (W0 : wf (p_n p) (start c fb p (b 0) g a Rw F s)) by (apply (start_wf c fb p op b g a Rw F s); assumption).
  assert (Wc : forall j, (j <= N)%nat -> wf (p_n p) (st j) /\ 0 < s_dz (st j)) by (apply (wf_chain c p b fb reload (step_of (fb_len fb) N) fuel st N AT); try assumption; [apply An|rewrite S0; exact W0|rewrite S0; exact Hd]).
  set (ld := fun j => reloaded c fb b reload (step_of (fb_len fb) N) j (st j)).
  assert (Wl : forall j, (j < N)%nat -> wf (p_n p) (ld j) /\ 0 < s_dz (ld j)).
  { intros j Hj. destruct (Wc j ltac:(lia)) as ((J1 & J2 & J3 & J4 & J5) & D). unfold ld, reloaded. destruct reload; [|repeat split; assumption]. split; [|exact D]. repeat split; try assumption. cbn [with_fiber s_betas]. rewrite cfftshift_length, map_length. apply An. }
  assert (SL : forall j, same_medium (st j) (start c fb p (b 0) g a Rw F s) -> same_medium (ld j) (start c fb p (b 0) g a Rw F s)).
  { intros j (J1 & J2 & J3 & J4 & J5 & J6). unfold ld, reloaded. destruct reload; [|repeat split; assumption]. destruct (Hc eq_refl (INR j * step_of (fb_len fb) N)) as [-> ->]. repeat split; assumption. }
  assert (PA : forall j, (j <= N)%nat -> same_medium (st j) (start c fb p (b 0) g a Rw F s)).
  { induction j as [|j IH]; intros Hj; [rewrite S0; repeat split|]. destruct (S3 j ltac:(lia)) as (s2 & E1 & _ & E3). rewrite E3. destruct (Wl j ltac:(lia)) as (W1 & D1). destruct (integrate_over_len c (p_n p) fuel _ _ s2 W1 Hdz D1 E1) as (_ & (Q1 & Q2 & Q3 & Q4 & Q5 & Q6) & _).
    destruct (SL j (IH ltac:(lia))) as (J1 & J2 & J3 & J4 & J5 & J6). fold (ld j) in E1. change (reloaded c fb b reload (step_of (fb_len fb) N) (0 + j) (st j)) with (ld j) in *. repeat split; cbn [with_A s_betas s_alpha s_gamma s_w0 s_omegas s_R]; congruence. }
  exists st. split; [now rewrite S0|]. intros j Hj. destruct (Wl j Hj) as (W1 & D1). destruct (S3 j Hj) as (s2 & E1 & E2 & E3). change (reloaded c fb b reload (step_of (fb_len fb) N) (0 + j) (st j)) with (ld j) in E1.
  destruct (integrate_over_len c (p_n p) fuel _ _ s2 W1 Hdz D1 E1) as ((L2 & _) & _).
  assert (EA : s_A (st (S j)) = s_A s2) by (rewrite E3; cbn [with_A s_A]; now apply (cifft_twice c (p_n p))). rewrite EA.
  unfold integrate_over_dz in E1. destruct (integrate_trace c fuel (step_of (fb_len fb) N) 1 (ld j)) as [r|] eqn:ER; [|discriminate]. assert (E' : with_dz (final_dz r) (l_st r) = s2) by congruence. change (fb_len fb / INR N) with (step_of (fb_len fb) N).
  destruct (first_dz_pos _ (s_dz (ld j)) Hdz D1) as [P1 P2]. exists (lrsum (l_steps r)). split; [|split; [exact E2|]].
  - destruct (loop_cov c (attempt c 1) _ fuel _ _ r P1 P2 ER) as (C1 & C2 & C3 & C4). split; [lra|]. destruct C4 as [C4|(last & ear & C4 & C5)]; [left; lra|right]. exists last.
    rewrite C4. change (lrsum (last :: ear)) with (last + lrsum ear). unfold dz_min in C5. replace (last + lrsum ear - last) with (lrsum ear) by ring. lra.
  - exists (l_steps r). split; [reflexivity|]. split.
    + replace (s_A s2) with (s_A (l_st r)) by (now rewrite <- E'). replace (s_A (st j)) with (s_A (ld j)) by (unfold ld, reloaded; now destruct reload). apply (kept_medium c (ld j)); [apply SL, PA; lia|]. exact (C88_kept_steps_l c (p_n p) fuel _ 1 (ld j) r W1 He Hdz D1 ER).
    + exact (loop_steps c (attempt c 1) _ fuel _ _ r P1 P2 ER).
Qed.

(*! C122: the columns propagate returns converge to the solution of the generalised nonlinear Schroedinger equation as n_steps grows, whatever the tolerance: for a fiber whose parameters do not vary (or are not reloaded) and a solution y on [0, Z] starting at the pulse,
    there are K and N0 such that for all n_steps >= N0 column i of AT differs from y at the distance covered so far by at most K*(L/n_steps)^4 in every sample, and K*(L/n_steps)^5 with the default local-error exponent 5.
    The distance covered per section is L/n_steps unless a residue below 2e-12 m was left before its last step. *)
Lemma C122_propagate_convergence_l : forall (c : cfg) (fb : fiber) (op : option R) (s : ssfm) (p : pulse) (a : list C) (b : R -> list R) (g : list R) (Rw : list C) (F : R) (Z L : R) (y : R -> list C),
  setting c fb 1 op s p a b g Rw F -> (c_pre c = false \/ Nat.even (p_n p) = true) -> c_method c = METHOD_RK4IP -> (2 <= c_eta c)%nat -> fb_len fb <= L < Z ->
  gnlse_solution c (p_n p) (start c fb p (b 0) g a Rw F s) 1 Z y -> off_path c (p_n p) Z y -> y 0 = cfftshift c (IFFT_t a) ->
  exists K N0, 0 <= K /\ forall N fuel reload z AW AT po s' q, (N0 <= N)%nat -> (0 < N)%nat -> (reload = true -> forall x, b x = b 0 /\ fb_get_gamma fb x = fb_get_gamma fb 0) ->
    propagate c fuel fb N op reload s p = (Ok (Some (z, AW, AT, po, s')), q) ->
    exists d : nat -> R, (forall j, (j < N)%nat -> fb_len fb / INR N <= d j /\ (d j = fb_len fb / INR N \/ exists last, 0 < fb_len fb / INR N - (d j - last) <= 2 * / 10 ^ 12)) /\
    forall i k, (i < N)%nat -> (k < p_n p)%nat -> rsum (S i) d <= L ->
      Cmod (nth k (nth i AT []) z0 - nth k (cifftshift c (y (rsum (S i) d))) z0)%C <= K * (fb_len fb / INR N) ^ (if Nat.eqb (c_eta c) 5 then 5 else 4).
Proof.
  intros c fb op s p a b g Rw F Z L y Hs1 Hst Hm He [HL1 HL2] SOL OFF Y0. pose proof Hs1 as (Hh & Hn & Hf & An & HR & _ & HL & Hd). set (n := p_n p) in *. set (s0 := start c fb p (b 0) g a Rw F s) in *.
  assert (W0 : wf n s0) by (apply (start_wf c fb p op b g a Rw F s); assumption). assert (PL : 0 <= L) by lra.
  destruct (run_bound c n s0 1 Z L y W0 PL HL2 SOL OFF (order_of c) He Hm (order_ord c He)) as (K & H0 & PK & PH & HB).
  set (p' := order_of c) in *. exists (K * 2 ^ p'), (Z.to_nat (up (2 * fb_len fb / H0))). split; [apply Rmult_le_pos; [exact PK|apply pow_le; lra]|].
  intros N fuel reload z AW AT po s' q HN0 HN Hc H. assert (PN : 0 < INR N) by (apply lt_0_INR; exact HN). set (dz := fb_len fb / INR N). assert (Pdz : 0 < dz) by (apply Rdiv_lt_0_compat; assumption).
  assert (Hs : setting c fb N op s p a b g Rw F) by (repeat split; try assumption; apply An || apply Hh).
  destruct (chain_kept _ _ _ _ _ _ _ _ _ _ _ _ _ _ _ _ _ _ _ Hs Hst He Hc H) as (st & S0 & S1). fold dz s0 in S1. destruct (fin_choice _ _ S1) as (d & Td). exists d. split; [intros j Hj; now apply Td|].
  assert (IND : forall i, (i <= N)%nat -> exists steps, lrsum steps = rsum i d /\ kept c s0 1 (y 0) steps (s_A (st i)) /\ forall h, In h steps -> h <= 2 * dz).
  { induction i as [|i IH]; intros Hi; [exists []; rewrite S0, Y0; split; [reflexivity|]; split; [constructor|intros h []]|]. destruct (IH ltac:(lia)) as (st1 & E1 & K1 & B1). destruct (Td i ltac:(lia)) as (_ & _ & st2 & E2 & K2 & B2).
    exists (st2 ++ st1). split; [rewrite lrsum_app, rsum_S, E1, <- E2; ring|]. split; [now apply kept_trans with (A1 := s_A (st i))|]. intros h Hin. apply in_app_or in Hin. destruct Hin; [now apply B2|now apply B1]. }
  assert (HH : 0 < 2 * dz <= H0).
  { split; [lra|]. destruct (archimed (2 * fb_len fb / H0)) as [U _]. assert (PX : 0 < 2 * fb_len fb / H0) by (apply Rdiv_lt_0_compat; lra). assert (0 <= up (2 * fb_len fb / H0))%Z by (apply le_IZR; lra).
    apply le_INR in HN0. rewrite INR_IZR_INZ, Z2Nat.id in HN0 by assumption. assert (Q : 2 * fb_len fb / H0 <= INR N) by lra. apply (Rmult_le_compat_r H0) in Q; [|lra]. unfold Rdiv in Q at 1. rewrite Rmult_assoc, Rinv_l, Rmult_1_r in Q by lra.
    unfold dz. apply (Rmult_le_reg_r (INR N)); [exact PN|]. unfold Rdiv. rewrite Rmult_assoc, (Rmult_assoc (fb_len fb)), Rinv_l, Rmult_1_r by lra. lra. }
  intros i k Hi Hk HT. destruct (IND (S i) ltac:(lia)) as (steps & E & KP & B). destruct (Td i Hi) as (_ & -> & _). rewrite <- E in HT |- *. pose proof (lrsum_tl _ (kept_pos _ _ _ _ _ _ KP)) as TL.
  destruct (HB c s0 steps (s_A (st (S i))) (2 * dz) Hm eq_refl eq_refl eq_refl ltac:(repeat split) KP HH B ltac:(lra)) as (LB & _ & HE). change (if Nat.eqb (c_eta c) 5 then 5%nat else 4%nat) with p'. rewrite Rmult_assoc, <- Rpow_mult_distr.
  unfold cifftshift. destruct (c_pre c); [|now apply HE]. assert (LY : length (y (lrsum steps)) = n) by apply SOL. rewrite !ifftshift_nth by congruence. rewrite LB, LY. apply HE. apply zmodn_lt. exact Hn.
Qed.

(** The order of RK4IP and of the kept step for the generalised nonlinear Schroedinger equation (C100, C101). *)
From Coq Require Import Reals List ZArith Bool Arith Lra Lia Psatz FunctionalExtensionality.
From Coquelicot Require Import Coquelicot.
From Verif Require Import Base CNum NumPy ModelFFT FFTProofs ModelPulse PulseProofs PulseOpsProofs ModelSSFM SSFMLoopProofs SSFMProofs SSFMSymProofs SSFMGnlseProofs JetProofs RkJetProofs TaylorProofs.
Import ListNotations.
Local Open Scope R_scope.
Local Notation z0 := (RtoC 0).

(** ** Families of lists of length n as vectors *)
Definition emb (x : R -> list C) : V := fun k => nth (snd k) (x (fst k)) z0.
Definition cst (x : list C) : V := emb (fun _ => x).
Definition out (n : nat) (v : V) (t : R) : list C := mk n (fun j => v (t, j)).
Lemma out_length n v t : length (out n v t) = n. Proof. apply mk_length. Qed.
Lemma out_emb n x t : length (x t) = n -> out n (emb x) t = x t.
Proof. intros L. apply (vec_extn n); [apply out_length|exact L|]. intros i Hi. unfold out. now rewrite mk_nth. Qed.
Lemma emb_hi x k : (length (x (fst k)) <= snd k)%nat -> emb x k = z0. Proof. intros. unfold emb. now apply nth_overflow. Qed.
Lemma emb_ext x y : (forall t, x t = y t) -> emb x = emb y. Proof. intros E. extensionality k. unfold emb. now rewrite E. Qed.
Lemma emb_vadd a b : (forall t, length (a t) = length (b t)) -> emb (fun t => vadd (a t) (b t)) = vp (emb a) (emb b).
Proof. intros L. extensionality k. unfold emb, vp. now apply vadd_nth. Qed.
Lemma emb_vsub a b : (forall t, length (a t) = length (b t)) -> emb (fun t => vsub (a t) (b t)) = vp (emb a) (vs (-1) (emb b)).
Proof. intros L. extensionality k. unfold emb, vp, vs. rewrite vsub_nth by apply L. rewrite RtoC_m1. ring. Qed.
Lemma emb_vmul a b : (forall t, length (a t) = length (b t)) -> emb (fun t => vmul (a t) (b t)) = pm (emb a) (emb b).
Proof. intros L. extensionality k. unfold emb, pm. now apply vmul_nth. Qed.
Lemma emb_vscale r a : emb (fun t => vscale (RtoC r) (a t)) = vs r (emb a).
Proof. extensionality k. unfold emb, vs. apply vscale_nth. Qed.
Lemma out_vp n a b t : out n (vp a b) t = vadd (out n a t) (out n b t).
Proof. apply (vec_extn n); [apply out_length|apply len_vadd; apply out_length|]. intros i Hi. rewrite vadd_nth by now rewrite !out_length. unfold out. now rewrite !mk_nth by exact Hi. Qed.
Lemma out_vs n r a t : out n (vs r a) t = vscale (RtoC r) (out n a t).
Proof. apply (vec_extn n); [apply out_length|apply len_vscale, out_length|]. intros i Hi. rewrite vscale_nth. unfold out. now rewrite !mk_nth by exact Hi. Qed.
(** the samples of one list are at most B *)
Definition lb (x : list C) (B : R) : Prop := forall k, Cmod (nth k x z0) <= B.
Lemma lb_ge x B : lb x B -> 0 <= B. Proof. intros H. eapply Rle_trans; [apply Cmod_ge_0|apply (H 0%nat)]. Qed.
Lemma lb_ex x : exists B, lb x B.
Proof.
  induction x as [|a x (B & HB)]; [exists 0; intros [|k]; cbn; rewrite Cmod_0; lra|]. exists (Cmod a + B). pose proof (lb_ge _ _ HB). pose proof (Cmod_ge_0 a). intros [|k]; cbn; [lra|]. pose proof (HB k) as Q. lra.
Qed.
Lemma bnd_emb x B : (forall t, lb (x t) B) -> bnd (emb x) B. Proof. intros H k. apply H. Qed.
Lemma emb_bnd x : exists B, bnd (cst x) B. Proof. destruct (lb_ex x) as (B & HB). exists B. now apply bnd_emb. Qed.

(** ** Bounded maps of lists *)
Definition lbd (n : nat) (f : list C -> list C) : Prop :=
  (forall x, length x = n -> length (f x) = n) /\ exists M, 0 <= M /\ forall x B, length x = n -> lb x B -> lb (f x) (M * B).
Lemma lbd_id n : lbd n (fun x => x).
Proof. split; [auto|]. exists 1. split; [lra|]. intros x B L H. rewrite Rmult_1_l. exact H. Qed.
Lemma lbd_comp n f g : lbd n f -> lbd n g -> lbd n (fun x => f (g x)).
Proof.
  intros (Lf & M & PM & Hf) (Lg & M' & PM' & Hg). split; [auto|]. exists (M * M'). split; [nra|]. intros x B L H. rewrite Rmult_assoc. apply Hf; [now apply Lg|now apply Hg].
Qed.
Lemma Cmod_csum_le n u B : 0 <= B -> (forall i, (i < n)%nat -> Cmod (u i) <= B) -> Cmod (csum n u) <= INR n * B.
Proof.
  intros PB. induction n as [|n IH]; intros H; [rewrite csum_0, Cmod_0; cbn; lra|]. rewrite csum_S, S_INR. eapply Rle_trans; [apply Cmod_triangle|]. specialize (IH ltac:(intros; apply H; lia)). pose proof (H n ltac:(lia)). lra.
Qed.
Lemma Cmod_tw n a : Cmod (tw n a) = 1.
Proof. unfold tw. pose proof (Cmod_cis_r (RtoC 1) (2 * PI * IZR a / INR n)) as H. rewrite Cmod_1, Cmult_1_l in H. exact H. Qed.
Lemma lbd_fft n : lbd n fft.
Proof.
  split; [intros; now rewrite fft_length|]. exists (INR n). split; [apply pos_INR|]. intros x B L H k. pose proof (lb_ge _ _ H) as PB. pose proof (pos_INR n). destruct (lt_dec k n) as [Hk|Hk].
  - rewrite fft_nth by lia. rewrite L. apply Cmod_csum_le; [exact PB|]. intros i Hi. rewrite Cmod_mult, Cmod_tw, Rmult_1_r. apply H.
  - rewrite nth_overflow by (rewrite fft_length; lia). rewrite Cmod_0. nra.
Qed.
Lemma lbd_ifft n : lbd n ifft.
Proof.
  split; [intros; now rewrite ifft_length|]. exists (Rabs (/ INR n) * INR n). split; [apply Rmult_le_pos; [apply Rabs_pos|apply pos_INR]|]. intros x B L H k. pose proof (lb_ge _ _ H) as PB. pose proof (pos_INR n). destruct (lt_dec k n) as [Hk|Hk].
  - rewrite ifft_nth by lia. rewrite L, Cmod_mult, Cmod_R, Rmult_assoc. apply Rmult_le_compat_l; [apply Rabs_pos|]. apply Cmod_csum_le; [exact PB|]. intros i Hi. rewrite Cmod_mult, Cmod_tw, Rmult_1_r. apply H.
  - rewrite nth_overflow by (rewrite ifft_length; lia). rewrite Cmod_0. apply Rmult_le_pos; [apply Rmult_le_pos; [apply Rabs_pos|apply pos_INR]|exact PB].
Qed.
Lemma lbd_roll n (z : nat -> Z) : lbd n (fun x => roll (z (length x)) x).
Proof.
  split; [intros; now rewrite roll_length|]. exists 1. split; [lra|]. intros x B L H k. pose proof (lb_ge _ _ H) as PB. rewrite Rmult_1_l. destruct (lt_dec k n) as [Hk|Hk].
  - rewrite roll_nth by lia. apply H.
  - rewrite nth_overflow by (rewrite roll_length; lia). rewrite Cmod_0. exact PB.
Qed.
Lemma lbd_fft_t n c : lbd n (fft_t c).
Proof.
  unfold fft_t. destruct (c_pre c); [apply lbd_ifft|]. apply (lbd_comp n ifftshift); [exact (lbd_roll n (fun n => - Z.of_nat (Nat.div2 n))%Z)|]. apply (lbd_comp n ifft); [apply lbd_ifft|exact (lbd_roll n (fun n => Z.of_nat (Nat.div2 n)))].
Qed.
Lemma lbd_ifft_t n c : lbd n (ifft_t c).
Proof.
  unfold ifft_t. destruct (c_pre c); [apply lbd_fft|]. apply (lbd_comp n ifftshift); [exact (lbd_roll n (fun n => - Z.of_nat (Nat.div2 n))%Z)|]. apply (lbd_comp n fft); [apply lbd_fft|exact (lbd_roll n (fun n => Z.of_nat (Nat.div2 n)))].
Qed.
Lemma fft_t_add c a b : length a = length b -> fft_t c (vadd a b) = vadd (fft_t c a) (fft_t c b).
Proof. intros L. rewrite <- (ifft_fft_t c a), <- (ifft_fft_t c b) at 1. rewrite <- ifft_t_add by (rewrite !fft_t_length; exact L). apply fft_ifft_t. Qed.
Definition LV (n : nat) (f : list C -> list C) (v : V) : V := emb (fun t => f (out n v t)).
Definition additive (n : nat) (f : list C -> list C) : Prop := (forall a b, length a = n -> length b = n -> f (vadd a b) = vadd (f a) (f b)) /\ (forall r a, length a = n -> f (vscale (RtoC r) a) = vscale (RtoC r) (f a)).
Lemma out_bnd n v B t : bnd v B -> lb (out n v t) B.
Proof. intros H k. unfold out. destruct (lt_dec k n) as [Hk|Hk]; [rewrite mk_nth by exact Hk; apply H|]. rewrite nth_overflow by (rewrite mk_length; lia). rewrite Cmod_0. apply (bnd_ge _ _ H). Qed.
Lemma linear_LV n f : lbd n f -> additive n f -> linear (LV n f).
Proof.
  intros (Lf & M & PM & HM) (FA & FS). unfold LV. split; [|split].
  - intros a b. rewrite <- emb_vadd by (intros; rewrite !Lf by apply out_length; reflexivity). apply emb_ext. intros t. rewrite out_vp. apply FA; apply out_length.
  - intros r a. rewrite <- emb_vscale. apply emb_ext. intros t. rewrite out_vs. apply FS, out_length.
  - exists M. split; [exact PM|]. intros a B H. apply bnd_emb. intros t. apply HM; [apply out_length|now apply out_bnd].
Qed.
Lemma linear_tr n : linear (LV n (fun x => x)).
Proof. apply linear_LV; [apply lbd_id|]. split; reflexivity. Qed.
Lemma linear_fft_t n c : linear (LV n (fft_t c)).
Proof. apply linear_LV; [apply lbd_fft_t|]. split; [intros; apply fft_t_add; congruence|intros; apply fft_t_scale]. Qed.
Lemma linear_ifft_t n c : linear (LV n (ifft_t c)).
Proof. apply linear_LV; [apply lbd_ifft_t|]. split; [intros; apply ifft_t_add; congruence|intros; apply ifft_t_scale]. Qed.
Lemma linear_pm d : (exists B, bnd d B) -> linear (pm d).
Proof.
  intros (B & HB). split; [|split].
  - intros a b. extensionality k. unfold pm, vp. ring.
  - intros r a. extensionality k. unfold pm, vs. ring.
  - exists B. split; [apply (bnd_ge _ _ HB)|]. intros a A HA. now apply bnd_pm.
Qed.
Lemma linear_comp L L' : linear L -> linear L' -> linear (fun v => L (L' v)).
Proof.
  intros (A & S & M & PM & H) (A' & S' & M' & PM' & H'). split; [|split].
  - intros. now rewrite A', A.
  - intros. now rewrite S', S.
  - exists (M * M'). split; [nra|]. intros a B HB. rewrite Rmult_assoc. now apply H, H'.
Qed.
Definition cs (z : C) (v : V) : V := fun k => (z * v k)%C.
Lemma linear_cs z : linear (cs z).
Proof. apply (linear_pm (fun _ => z)). exists (Cmod z). intros k. lra. Qed.
Definition cj (v : V) : V := fun k => Cconj (v k).
Lemma Cmod_cj z : Cmod (Cconj z) = Cmod z.
Proof. unfold Cmod, Cconj. f_equal. cbn. ring. Qed.
Lemma linear_cj : linear cj.
Proof.
  split; [|split].
  - intros a b. extensionality k. apply injective_projections; cbn; ring.
  - intros r a. extensionality k. apply injective_projections; cbn; ring.
  - exists 1. split; [lra|]. intros a B H k. unfold cj. rewrite Cmod_cj, Rmult_1_l. apply H.
Qed.
Lemma linear_vs r : linear (vs r).
Proof. split; [|split]; [intros; apply vs_vp|intros; rewrite !vs_vs, Rmult_comm; reflexivity|]. exists (Rabs r). split; [apply Rabs_pos|]. intros. now apply bnd_vs. Qed.

(** ** The operators of the equation *)
Section Medium.
Variables (c : cfg) (n : nat) (s : ssfm) (dir : R).
Hypothesis W : wf n s.
Let Fw := LV n (fft_t c).
Let Bw := LV n (ifft_t c).
Definition dcoef : list C := map2 (fun b a => RtoC dir * (Ci * b - a / RtoC 2))%C (s_betas s) (s_alpha s).
Lemma dcoef_length : length dcoef = n.
Proof. destruct W as (_ & H1 & H2 & _). unfold dcoef. rewrite map2_length; congruence. Qed.
Lemma dcoef_nth k : (k < n)%nat -> nth k dcoef z0 = (RtoC dir * (Ci * nth k (s_betas s) z0 - nth k (s_alpha s) z0 / RtoC 2))%C.
Proof. destruct W as (_ & H1 & H2 & _). intros Hk. unfold dcoef. now rewrite (map2_nth _ _ _ _ z0 z0) by congruence. Qed.
Lemma LV_diag d v : length d = n -> LV n (diag c d) v = Bw (pm (cst d) (Fw v)).
Proof.
  intros Ld. unfold Bw, Fw, LV, diag. apply emb_ext. intros t. f_equal. symmetry. unfold cst. rewrite <- emb_vmul by (intros; rewrite fft_t_length, out_length; exact Ld). apply out_emb. apply len_vmul; [exact Ld|]. rewrite fft_t_length. apply out_length.
Qed.
Lemma linear_diag d : length d = n -> linear (LV n (diag c d)).
Proof.
  intros Ld. pose proof (linear_comp _ _ (linear_ifft_t n c) (linear_comp _ _ (linear_pm (cst d) (emb_bnd d)) (linear_fft_t n c))) as H.
  replace (LV n (diag c d)) with (fun v : V => LV n (ifft_t c) (pm (cst d) (LV n (fft_t c) v))); [exact H|]. extensionality v. symmetry. now apply LV_diag.
Qed.
Definition Dv (v : V) : V := LV n (diag c dcoef) v.
Definition hi (v : V) : V := fun k => if lt_dec (snd k) n then z0 else v k.
Definition Ev (t : R) (v : V) : V := vp (LV n (diag c (P s (dir * t))) v) (hi v).
Lemma linear_hi : linear hi.
Proof.
  split; [|split].
  - intros a b. extensionality k. unfold hi, vp. destruct (lt_dec (snd k) n); ring.
  - intros r a. extensionality k. unfold hi, vs. destruct (lt_dec (snd k) n); ring.
  - exists 1. split; [lra|]. intros a B H k. unfold hi. rewrite Rmult_1_l. destruct (lt_dec (snd k) n); [rewrite Cmod_0; apply (bnd_ge _ _ H)|apply H].
Qed.
Lemma Dv_linear : linear Dv. Proof. apply linear_diag, dcoef_length. Qed.
Lemma Ev_hom t r v : Ev t (vs r v) = vs r (Ev t v).
Proof.
  destruct (linear_diag (P s (dir * t)) ltac:(vl)) as (_ & S & _). destruct linear_hi as (_ & S' & _). unfold Ev. rewrite S, S'. symmetry. apply vs_vp.
Qed.
Definition tr (v : V) : V := LV n (fun x => x) v.
Lemma tr_nth v k : tr v k = if lt_dec (snd k) n then v k else z0.
Proof. destruct k as [t k]. unfold tr, LV, emb, out. cbn [fst snd]. destruct (lt_dec k n) as [Hk|Hk]; [now rewrite mk_nth|]. apply nth_overflow. rewrite mk_length. lia. Qed.
Lemma split_tr v : v = vp (tr v) (hi v).
Proof. extensionality k. unfold vp, hi. rewrite tr_nth. destruct (lt_dec (snd k) n); ring. Qed.
Lemma FB v : Fw (Bw v) = tr v.
Proof. unfold Fw, Bw, tr, LV. apply emb_ext. intros t. rewrite out_emb by (rewrite ifft_t_length; apply out_length). now rewrite fft_ifft_t. Qed.
Lemma BF v : Bw (Fw v) = tr v.
Proof. unfold Fw, Bw, tr, LV. apply emb_ext. intros t. rewrite out_emb by (rewrite fft_t_length; apply out_length). now rewrite ifft_fft_t. Qed.
Lemma tr_emb x : (forall t, length (x t) = n) -> tr (emb x) = emb x.
Proof. intros L. unfold tr, LV. apply emb_ext. intros t. now rewrite out_emb. Qed.
Let dV := cst dcoef.
Lemma dV_tr v : tr (pm dV v) = pm dV v.
Proof. extensionality k. rewrite tr_nth. destruct (lt_dec (snd k) n) as [|Hk]; [reflexivity|]. unfold pm, dV, cst. rewrite emb_hi by (rewrite dcoef_length; lia). ring. Qed.
Lemma Dv_eq v : Dv v = Bw (pm dV (Fw v)). Proof. apply LV_diag, dcoef_length. Qed.
Lemma FD v : Fw (Dv v) = pm dV (Fw v). Proof. rewrite Dv_eq, FB. apply dV_tr. Qed.

(** the exponential and its expansion *)
Definition one : V := fun k => if lt_dec (snd k) n then RtoC 1 else z0.
Fixpoint dpow (j : nat) : V := match j with O => one | S j => pm dV (dpow j) end.
Lemma cexp_Cmod z : Cmod (cexp z) = exp (Re z).
Proof. apply Rsqr_inj; [apply Cmod_ge_0|left; apply exp_pos|]. unfold Rsqr. rewrite Cmod_sqr, cexp_norm2, <- exp_plus. f_equal. ring. Qed.
Lemma cexp_pair u p r : cexp (RtoC u * (p, r))%C = (exp (u * p) * cos (u * r), exp (u * p) * sin (u * r)).
Proof. unfold cexp. replace (RtoC u * (p, r))%C with (u * p, u * r) by (apply injective_projections; cbn; ring). reflexivity. Qed.
Lemma cderive_cexp a t : is_cderive (fun u => cexp (RtoC u * a)%C) t (a * cexp (RtoC t * a))%C.
Proof.
  destruct a as [p r]. rewrite cexp_pair. split.
  - apply (is_derive_ext (fun u => exp (u * p) * cos (u * r))); [intros u; now rewrite cexp_pair|]. auto_derive; [trivial|]. cbn. ring.
  - apply (is_derive_ext (fun u => exp (u * p) * sin (u * r))); [intros u; now rewrite cexp_pair|]. auto_derive; [trivial|]. cbn. ring.
Qed.
Lemma P_exp q u k : cst (P s (dir * (q * u))) k = if lt_dec (snd k) n then cexp (RtoC u * (RtoC q * nth (snd k) dcoef z0))%C else z0.
Proof.
  destruct (lt_dec (snd k) n) as [Hk|Hk]; [|apply emb_hi; rewrite (P_length n) by exact W; lia]. unfold cst, emb. rewrite (P_nth n) by assumption. rewrite dcoef_nth by exact Hk. f_equal. rewrite !RtoC_mult. ring.
Qed.
Lemma app_exp q m : app m (fun j => vs (q ^ j / INR (fact j)) (dpow j)) (fun u => cst (P s (dir * (q * u)))).
Proof.
  induction m as [|m IH].
  - destruct (emb_bnd dcoef) as (B & HB). exists (exp (Rabs q * B)). eapply near_imp; [|exact (near_le 1 ltac:(lra))]. intros u Hu Hu1 k. cbv beta in Hu1. rewrite P_exp. destruct (lt_dec (snd k) n) as [Hk|Hk]; [|rewrite Cmod_0; left; apply exp_pos].
    rewrite cexp_Cmod. pose proof (HB k) as Q. unfold cst, emb in Q. pose proof (Re_le_Cmod (RtoC u * (RtoC q * nth (snd k) dcoef z0))%C) as R1. rewrite !Cmod_mult, !Cmod_R, (Rabs_pos_eq u Hu) in R1. pose proof (Rle_abs (Re (RtoC u * (RtoC q * nth (snd k) dcoef z0))%C)) as R2.
    pose proof (Rabs_pos q). pose proof (Cmod_ge_0 (nth (snd k) dcoef z0)). assert (T : Re (RtoC u * (RtoC q * nth (snd k) dcoef z0))%C <= Rabs q * B) by (eapply Rle_trans; [exact R2|]; eapply Rle_trans; [exact R1|]; rewrite <- (Rmult_1_l (Rabs q * B)); apply Rmult_le_compat; [exact Hu|apply Rmult_le_pos; assumption|exact Hu1|apply Rmult_le_compat_l; assumption]). destruct T as [T|T]; [left; now apply exp_increasing|right; now rewrite T].
  - pose proof (app_lin _ m (linear_pm dV (emb_bnd dcoef)) _ _ IH) as F.
    assert (DE : near (fun u => forall k, is_cderive (fun t => cst (P s (dir * (q * t))) k) u (RtoC q * pm dV (cst (P s (dir * (q * u)))) k)%C)).
    { apply near_all. intros u _ k. destruct (lt_dec (snd k) n) as [Hk|Hk].
      - apply (cderive_ext (fun t => cexp (RtoC t * (RtoC q * nth (snd k) dcoef z0))%C)); [intros x; rewrite P_exp; destruct (lt_dec (snd k) n); [reflexivity|lia]|].
        replace (RtoC q * pm dV (cst (P s (dir * (q * u)))) k)%C with ((RtoC q * nth (snd k) dcoef z0) * cexp (RtoC u * (RtoC q * nth (snd k) dcoef z0)))%C; [apply cderive_cexp|]. unfold pm. rewrite P_exp. destruct (lt_dec (snd k) n); [unfold dV, cst, emb; ring|lia].
      - apply (cderive_ext (fun t => z0)); [intros x; rewrite P_exp; destruct (lt_dec (snd k) n); [lia|reflexivity]|]. unfold pm. rewrite P_exp. destruct (lt_dec (snd k) n); [lia|].
        replace (RtoC q * (dV k * z0))%C with z0 by ring. split; cbn; apply (is_derive_const (K := R_AbsRing) (V := R_NormedModule)). }
    eapply app_ext; [|apply near_all; reflexivity|exact (app_integral m q _ _ _ DE F)].
    intros [|j] Hj; cbn [cons0].
    + extensionality k. rewrite P_exp. unfold vs, dpow, one. cbn [pow fact]. change (INR 1) with 1. replace (1 / 1) with 1 by lra. destruct (lt_dec (snd k) n); [|ring]. rewrite Cmult_0_l, cexp_0. ring.
    + cbn [dpow]. extensionality k. unfold pm, vs. rewrite fact_simpl, mult_INR. cbn [pow]. pose proof (INR_fact_neq_0 j). pose proof (not_0_INR (S j) ltac:(lia)).
      replace (q * q ^ j / (INR (S j) * INR (fact j))) with (q / INR (S j) * (q ^ j / INR (fact j))) by (field; now split). rewrite (RtoC_mult (q / INR (S j))). ring.
Qed.
Lemma Ev_exp q x : bounded x -> exists r, bounded r /\ near (fun u => Ev (q * u) (x u) = vp (texp Dv (q * u) (x u)) (vs (u ^ 6) (r u))).
Proof.
  intros (Bx & Hx). destruct (app_sum 6 _ _ (app_exp q 6)) as (r & (Br & Hr) & E). exists (fun u => Bw (pm (r u) (Fw (x u)))). split.
  - destruct (linear_fft_t n c) as (_ & _ & M & PM & HM). destruct (linear_ifft_t n c) as (_ & _ & M' & PM' & HM'). exists (M' * (Br * (M * Bx))). eapply near_imp; [|exact (near_and _ _ Hx Hr)]. intros u _ [H1 H2]. apply HM', bnd_pm; [exact H2|now apply HM].
  - eapply near_imp; [|exact E]. intros u _ Eu. unfold Ev. rewrite LV_diag by vl. rewrite Eu. unfold texp.
    set (w := Fw (x u)). assert (T1 : Dv (x u) = Bw (pm dV w)) by apply Dv_eq. assert (T2 : Dv (Dv (x u)) = Bw (pm dV (pm dV w))) by (rewrite (Dv_eq (Dv (x u))), FD; reflexivity).
    assert (T3 : Dv (Dv (Dv (x u))) = Bw (pm dV (pm dV (pm dV w)))) by (rewrite (Dv_eq (Dv (Dv (x u)))), !FD; reflexivity).
    assert (T4 : Dv (Dv (Dv (Dv (x u)))) = Bw (pm dV (pm dV (pm dV (pm dV w))))) by (rewrite (Dv_eq (Dv (Dv (Dv (x u))))), !FD; reflexivity).
    assert (T5 : Dv (Dv (Dv (Dv (Dv (x u))))) = Bw (pm dV (pm dV (pm dV (pm dV (pm dV w)))))) by (rewrite (Dv_eq (Dv (Dv (Dv (Dv (x u)))))), !FD; reflexivity).
    rewrite T5, T4, T3, T2, T1. rewrite (split_tr (x u)) at 2. assert (T0 : tr (x u) = Bw (pm one w)).
    { transitivity (Bw w); [symmetry; apply BF|]. unfold Bw, LV. apply emb_ext. intros t. f_equal. apply (vec_extn n); [apply out_length|apply out_length|]. intros i Hi. unfold out. rewrite !mk_nth by exact Hi. unfold pm, one. cbn [snd]. destruct (lt_dec i n); [ring|lia]. }
    rewrite T0. destruct (linear_ifft_t n c) as (BA & BS & _). fold Bw in BA, BS. rewrite <- !BS.
    match goal with |- vp (Bw ?a) ?z = vp (vp (vp (Bw ?b0) ?z) (vp (Bw ?b1) (vp (Bw ?b2) (vp (Bw ?b3) (vp (Bw ?b4) (Bw ?b5)))))) (Bw ?b6) =>
      transitivity (vp (vp (Bw b0) (vp (Bw b1) (vp (Bw b2) (vp (Bw b3) (vp (Bw b4) (vp (Bw b5) (Bw b6))))))) z); [|vext] end.
    f_equal. rewrite <- !BA. f_equal. cbn [psum]. unfold tl. cbn [dpow fact].
    replace (INR (5 * (4 * (3 * (2 * (1 * 1)))))) with 120 by (cbn; ring). replace (INR (4 * (3 * (2 * (1 * 1))))) with 24 by (cbn; ring). replace (INR (3 * (2 * (1 * 1)))) with 6 by (cbn; ring).
    replace (INR (2 * (1 * 1))) with 2 by (cbn; ring). replace (INR (1 * 1)) with 1 by (cbn; ring). replace (INR 1) with 1 by (cbn; ring).
    extensionality k. assert (D1 : (dV k * one k)%C = dV k) by (unfold one; destruct (lt_dec (snd k) n); [ring|unfold dV, cst; rewrite emb_hi by (rewrite dcoef_length; lia); ring]).
    unfold vp, vs, pm. rewrite !D1. unfold Rdiv. rewrite !Rpow_mult_distr, !Rinv_1. cbn [pow]. rewrite !RtoC_mult. unfold v0. ring.
Qed.

(** the nonlinear term *)
Definition A2v (v : V) : V := pm (tr v) (cj (tr v)).
Definition RAv (v : V) : V := LV n (diag c (s_R s)) (A2v v).
Definition om : list C := map (fun w => - Ci * w)%C (s_omegas s).
Definition NLv (v : V) : V :=
  if c_noSS c then cs (Ci * RtoC (s_gamma s))%C (RAv v)
  else vp (cs (Ci * RtoC (s_gamma s))%C (RAv v)) (vs (- (s_gamma s / s_w0 s))
         (vp (LV n (diag c (s_R s)) (LV n (diag c om) (A2v v))) (pm (rcp n (/ 10 ^ 15) (/ 10 ^ 20) v) (pm (LV n (diag c om) v) (RAv v))))).
Definition Nv (v : V) : V := vs dir (pm (NLv v) (tr v)).
Definition smooth_at (A : V) : Prop := c_noSS c = true \/ gap n (/ 10 ^ 15) A.
Lemma wfR : length (s_R s) = n. Proof. apply W. Qed.
Lemma om_length : length om = n. Proof. unfold om. rewrite map_length. apply W. Qed.
Lemma Nv_taylor A : (exists B, bnd A B) -> smooth_at A -> exists Nm, taylor A Nv Nm.
Proof.
  intros HA SM. pose proof (taylor_id A HA) as T0. pose proof (taylor_lin _ _ _ _ (linear_tr n) T0) as T1. pose proof (taylor_lin _ _ _ _ linear_cj T1) as T2. pose proof (taylor_pm _ _ _ _ _ T1 T2) as TA2.
  pose proof (taylor_lin _ _ _ _ (linear_diag _ wfR) TA2) as TR. pose proof (taylor_lin _ _ _ _ (linear_cs (Ci * RtoC (s_gamma s))%C) TR) as TG.
  assert (TN : exists Nm, taylor A NLv Nm).
  { unfold NLv. destruct (c_noSS c) eqn:Ess; [eexists; exact TG|]. destruct SM as [SM|SM]; [congruence|].
    pose proof (taylor_lin _ _ _ _ (linear_diag _ wfR) (taylor_lin _ _ _ _ (linear_diag _ om_length) TA2)) as TD2.
    assert (QQ : 0 <= / 10 ^ 20 < / 10 ^ 15) by (split; [left; apply Rinv_0_lt_compat, pow_lt; lra|apply Rinv_lt_contravar; [apply Rmult_lt_0_compat; apply pow_lt; lra|apply Rlt_pow; [lra|lia]]]).
    pose proof (taylor_rcp n (/ 10 ^ 15) (/ 10 ^ 20) A QQ SM) as TC.
    pose proof (taylor_pm _ _ _ _ _ TC (taylor_pm _ _ _ _ _ (taylor_lin _ _ _ _ (linear_diag _ om_length) T0) TR)) as TW.
    eexists. exact (taylor_plus _ _ _ _ _ TG (taylor_lin _ _ _ _ (linear_vs (- (s_gamma s / s_w0 s))) (taylor_plus _ _ _ _ _ TD2 TW))). }
  destruct TN as (Nm & TN). eexists. exact (taylor_lin _ _ _ _ (linear_vs dir) (taylor_pm _ _ _ _ _ TN T1)).
Qed.
Lemma emb_norm2 x : emb (fun t => map (fun z => RtoC (Cnorm2 z)) (x t)) = pm (emb x) (cj (emb x)).
Proof.
  extensionality k. unfold emb, pm, cj. rewrite Cmult_conj. replace z0 with (RtoC (Cnorm2 z0)) at 1 by (unfold Cnorm2; cbn; f_equal; ring). apply (map_nth (fun z => RtoC (Cnorm2 z))).
Qed.
Lemma LV_emb f x : (forall t, length (x t) = n) -> LV n f (emb x) = emb (fun t => f (x t)). Proof. intros L. unfold LV. apply emb_ext. intros t. now rewrite out_emb. Qed.
Lemma Nv_emb x : (forall t, length (x t) = n) -> Nv (emb x) = emb (fun t => vscale (RtoC dir) (vmul (nonlinear c s (x t)) (x t))).
Proof.
  intros L. assert (LN : forall t, length (nonlinear c s (x t)) = n) by (intros; apply nonlinear_length; auto). rewrite (emb_vscale dir (fun t => vmul (nonlinear c s (x t)) (x t))), (emb_vmul (fun t => nonlinear c s (x t)) x) by (intros; rewrite LN, L; reflexivity). unfold Nv. rewrite tr_emb by exact L. do 2 f_equal.
  pose proof wfR as LR. pose proof om_length as LO. set (x2 := fun t => map (fun z => RtoC (Cnorm2 z)) (x t)). assert (L2 : forall t, length (x2 t) = n) by (intros; unfold x2; now rewrite map_length).
  assert (E2 : A2v (emb x) = emb x2) by (unfold A2v; rewrite tr_emb by exact L; symmetry; apply emb_norm2).
  assert (ER : RAv (emb x) = emb (fun t => diag c (s_R s) (x2 t))) by (unfold RAv; rewrite E2; now apply LV_emb). assert (LRA : forall t, length (diag c (s_R s) (x2 t)) = n) by (intros; apply len_diag; auto).
  unfold NLv. rewrite ER.
  assert (EG : cs (Ci * RtoC (s_gamma s))%C (emb (fun t => diag c (s_R s) (x2 t))) = emb (fun t => vscale (Ci * RtoC (s_gamma s))%C (diag c (s_R s) (x2 t)))) by (extensionality k; unfold cs, emb; now rewrite vscale_nth).
  rewrite EG. destruct (c_noSS c) eqn:Ess; [apply emb_ext; intros t; rewrite nonlinear_diag; cbv zeta; rewrite Ess; reflexivity|].
  set (w := fun t => map2 (fun a y => if Rlt_dec (/ 10 ^ 15) (Cmod a) then (y / (RtoC (/ 10 ^ 20) + a))%C else RtoC 0) (x t) (vmul (diag c om (x t)) (diag c (s_R s) (x2 t)))).
  transitivity (emb (fun t => vsub (vscale (Ci * RtoC (s_gamma s))%C (diag c (s_R s) (x2 t))) (vscale (RtoC (s_gamma s / s_w0 s)) (vadd (diag c (s_R s) (diag c om (x2 t))) (w t))))); [|apply emb_ext; intros t; rewrite nonlinear_diag; cbv zeta; rewrite Ess; reflexivity].
  assert (LDx : forall t, length (diag c om (x t)) = n) by (intros; apply len_diag; auto). assert (LD2 : forall t, length (diag c om (x2 t)) = n) by (intros; apply len_diag; auto).
  assert (Lm : forall t, length (vmul (diag c om (x t)) (diag c (s_R s) (x2 t))) = n) by (intros; apply len_vmul; auto). assert (Lw : forall t, length (w t) = n) by (intros; apply len_map2; auto).
  assert (LRD : forall t, length (diag c (s_R s) (diag c om (x2 t))) = n) by (intros; apply len_diag; auto).
  rewrite (emb_vsub (fun t => vscale (Ci * RtoC (s_gamma s))%C (diag c (s_R s) (x2 t))) (fun t => vscale (RtoC (s_gamma s / s_w0 s)) (vadd (diag c (s_R s) (diag c om (x2 t))) (w t)))) by (intros; rewrite !vscale_length, vadd_length by (rewrite Lw; auto); rewrite LRA, LRD; reflexivity).
  rewrite (emb_vscale (s_gamma s / s_w0 s) (fun t => vadd (diag c (s_R s) (diag c om (x2 t))) (w t))), vs_vs, (emb_vadd (fun t => diag c (s_R s) (diag c om (x2 t))) w) by (intros; rewrite LRD, Lw; reflexivity). f_equal. replace (-1 * (s_gamma s / s_w0 s)) with (- (s_gamma s / s_w0 s)) by ring. f_equal. f_equal.
  - rewrite E2, (LV_emb _ x2) by exact L2. now apply LV_emb.
  - rewrite LV_emb by exact L. rewrite <- (emb_vmul (fun t => diag c om (x t)) (fun t => diag c (s_R s) (x2 t))) by (intros; rewrite LDx, LRA; reflexivity). extensionality k. unfold pm, rcp, emb. destruct (lt_dec (snd k) n) as [Hk|Hk].
    + unfold w. rewrite (map2_nth _ _ _ _ z0 z0) by (rewrite ?Lm, ?L; auto). destruct (Rlt_dec (/ 10 ^ 15) (Cmod (nth (snd k) (x (fst k)) z0))); [unfold Cdiv; ring|ring].
    + rewrite (nth_overflow (w (fst k))) by (rewrite Lw; lia). ring.
Qed.
Lemma Ev_emb q x : (forall t, length (x t) = n) -> Ev q (emb x) = emb (fun t => diag c (P s (dir * q)) (x t)).
Proof.
  intros L. unfold Ev. rewrite LV_emb by exact L. extensionality k. unfold vp, hi. destruct (lt_dec (snd k) n); [ring|]. rewrite (emb_hi x) by (rewrite L; lia). ring.
Qed.
Lemma rk_emb h x : (forall t, length (x t) = n) -> rk Nv Ev h (emb x) = emb (fun t => rk_with c s (calc_expD h dir (s_betas s) (s_alpha s)) (x t) h dir).
Proof.
  intros L. rewrite expD_P. replace (dir * h * (1 / 2)) with (dir * (h / 2)) by field. set (e := P s (dir * (h / 2))). assert (Le : length e = n) by (unfold e; vl).
  assert (LD : forall y, length y = n -> length (diag c e y) = n) by (intros; apply len_diag; assumption).
  set (nl := fun y => vmul (vscale (RtoC (h * dir)) (nonlinear c s y)) y). assert (LNl : forall y, length y = n -> length (nl y) = n) by (intros; apply len_vmul; [apply len_vscale, nonlinear_length|]; assumption).
  assert (NE : forall y, (forall t, length (y t) = n) -> vs h (Nv (emb y)) = emb (fun t => nl (y t))).
  { intros y Ly. rewrite Nv_emb by exact Ly. extensionality k. unfold vs, emb, nl. rewrite vscale_nth, !vmul_nth by (rewrite ?vscale_length, (nonlinear_length c n) by auto; rewrite Ly; reflexivity). rewrite vscale_nth, RtoC_mult. ring. }
  assert (VS : forall r (y : R -> list C), r <> 0 -> vs (/ r) (emb y) = emb (fun t => vscale (/ RtoC r)%C (y t))). { intros r y NZ. rewrite <- RtoC_inv by exact NZ. symmetry. apply emb_vscale. }
  assert (N2 : 2 <> 0) by lra. assert (N3 : 3 <> 0) by lra. assert (N6 : 6 <> 0) by lra.
  assert (LS : forall z y, length y = n -> length (vscale z y) = n) by (intros; now apply len_vscale). assert (LA : forall a b, length a = n -> length b = n -> length (vadd a b) = n) by (intros; now apply len_vadd).
  assert (VA : forall a b, (forall t, length (a t) = n) -> (forall t, length (b t) = n) -> vp (emb a) (emb b) = emb (fun t => vadd (a t) (b t))) by (intros a b Ha Hb; symmetry; apply emb_vadd; intros; congruence).
  assert (EE : forall y, (forall t, length (y t) = n) -> Ev (h / 2) (emb y) = emb (fun t => diag c e (y t))) by (intros; now apply Ev_emb).
  unfold rk, rk_with. cbv zeta.
  repeat (first [rewrite NE by auto 20 | rewrite EE by auto 20 | rewrite (VS 2) by exact N2 | rewrite (VS 3) by exact N3 | rewrite (VS 6) by exact N6 | rewrite VA by auto 20]).
  reflexivity.
Qed.
End Medium.

(** ** C100, C101, C102 *)
(** dA/dz = dir*(D A + N(A) A): the propagation constants and the loss act on the spectrum, the operator of SSFM.py:404-433 on the field *)
Definition gnlse_rhs (c : cfg) (s : ssfm) (dir : R) (x : list C) (k : nat) : C :=
  (RtoC dir * (nth k (ifft_t c (vmul (map2 (fun b a => Ci * b - a / RtoC 2) (s_betas s) (s_alpha s)) (fft_t c x))) z0 + nth k (nonlinear c s x) z0 * nth k x z0))%C.
Definition gnlse_solution (c : cfg) (n : nat) (s : ssfm) (dir Z : R) (y : R -> list C) : Prop :=
  (forall z, length (y z) = n) /\ forall z k, 0 <= z <= Z -> (k < n)%nat -> is_cderive (fun t => nth k (y t) z0) z (gnlse_rhs c s dir (y z) k).
(** self-steepening off, or no sample exactly at the threshold of SSFM.py:425-427 *)
Definition off_threshold (c : cfg) (n : nat) (A : list C) : Prop := c_noSS c = true \/ forall k, (k < n)%nat -> Cmod (nth k A z0) <> / 10 ^ 15.

Lemma rhs_V c n s dir (x : R -> list C) k : wf n s -> (forall t, length (x t) = n) -> (vp (Dv c n s dir (emb x)) (Nv c n s dir (emb x)) k) = if lt_dec (snd k) n then gnlse_rhs c s dir (x (fst k)) (snd k) else z0.
Proof.
  intros W L'. rewrite Nv_emb by assumption. unfold Dv. rewrite LV_emb by exact L'. destruct k as [t k]. unfold vp, emb. cbn [fst snd]. pose proof (L' t) as L. set (xt := x t) in *. assert (LN : length (nonlinear c s xt) = n) by (apply nonlinear_length; assumption).
  set (d0 := map2 (fun b a => Ci * b - a / RtoC 2)%C (s_betas s) (s_alpha s)). destruct W as (WA & WB & WL & WR & WO). assert (Ld0 : length d0 = n) by (unfold d0; rewrite map2_length; congruence).
  assert (E : dcoef s dir = vscale (RtoC dir) d0). { apply (vec_extn n); [unfold dcoef; rewrite map2_length; congruence|now rewrite vscale_length|]. intros i Hi. rewrite vscale_nth. unfold dcoef, d0. rewrite !(map2_nth _ _ _ _ z0 z0) by congruence. reflexivity. }
  rewrite E, diag_vscale_d by congruence. assert (LD : length (diag c d0 xt) = n) by (apply len_diag; assumption). rewrite !vscale_nth, vmul_nth by congruence.
  destruct (lt_dec k n) as [Hk|Hk]; [unfold gnlse_rhs; fold d0; unfold diag; ring|]. rewrite (nth_overflow (diag c d0 xt)), (nth_overflow xt) by lia. ring.
Qed.
Lemma slope_bound f l : is_derive f 0 l -> exists U, 0 < U /\ forall u, 0 <= u <= U -> Rabs (f u - f 0) <= (Rabs l + 1) * u.
Proof.
  intros D. apply is_derive_Reals in D. destruct (D 1 ltac:(lra)) as (d & Hd). exists (d / 2). pose proof (cond_pos d) as Pd. split; [lra|]. intros u Hu. destruct (Req_dec u 0) as [->|NZ]; [rewrite Rminus_diag_eq, Rabs_R0 by reflexivity; lra|].
  specialize (Hd u NZ). rewrite Rplus_0_l, (Rabs_pos_eq u) in Hd by lra. specialize (Hd ltac:(lra)). replace (f u - f 0) with ((((f u - f 0) / u - l) + l) * u) by (field; exact NZ). rewrite Rabs_mult, (Rabs_pos_eq u) by lra.
  apply Rmult_le_compat_r; [lra|]. eapply Rle_trans; [apply Rabs_triang|]. lra.
Qed.
Lemma cslope_bound f l : is_cderive f 0 l -> exists U B, 0 < U /\ 0 <= B /\ forall u, 0 <= u <= U -> Cmod (f u - f 0)%C <= B * u.
Proof.
  intros [D1 D2]. destruct (slope_bound _ _ D1) as (U1 & P1 & H1). destruct (slope_bound _ _ D2) as (U2 & P2 & H2). exists (Rmin U1 U2), (Rabs (Re l) + 1 + (Rabs (Im l) + 1)). split; [now apply Rmin_glb_lt|]. split; [pose proof (Rabs_pos (Re l)); pose proof (Rabs_pos (Im l)); lra|].
  intros u Hu. pose proof (Rmin_l U1 U2). pose proof (Rmin_r U1 U2). eapply Rle_trans; [apply Cmod_le_sum|]. specialize (H1 u ltac:(lra)). specialize (H2 u ltac:(lra)). change (Re (f u - f 0)%C) with (Re (f u) - Re (f 0)). change (Im (f u - f 0)%C) with (Im (f u) - Im (f 0)). lra.
Qed.
(** a family of solutions, each on [0, U] *)
Definition fsol (c : cfg) (n : nat) (s : ssfm) (dir U : R) (y : R -> R -> list C) : Prop :=
  (forall t u, length (y t u) = n) /\ forall t u k, 0 <= u <= U -> (k < n)%nat -> is_cderive (fun v => nth k (y t v) z0) u (gnlse_rhs c s dir (y t u) k).
Definition flip (n : nat) (U : R) (y : R -> R -> list C) : Prop := exists B, 0 <= B /\ forall t u k, 0 <= u <= U -> (k < n)%nat -> Cmod (nth k (y t u) z0 - nth k (y t 0) z0)%C <= B * u.
Lemma first_app n U (y : R -> R -> list C) : 0 < U -> (forall t u, length (y t u) = n) -> flip n U y -> app 1 (fun _ => emb (fun t => y t 0)) (fun u => emb (fun t => y t u)).
Proof.
  intros PU L (B & PB & H). exists (fun u => if Req_EM_T u 0 then v0 else vs (/ u) (vp (emb (fun t => y t u)) (vs (-1) (emb (fun t => y t 0))))). split.
  - exists B. exists U. split; [exact PU|]. intros u Hu. destruct (Req_EM_T u 0) as [|NZ]; [now apply bnd_v0|]. intros [t k]. unfold vs at 1. rewrite Cmod_mult, Cmod_R, Rabs_pos_eq by (left; apply Rinv_0_lt_compat; lra).
    apply (Rmult_le_reg_l u); [lra|]. rewrite <- Rmult_assoc, Rinv_r, Rmult_1_l by exact NZ. rewrite Rmult_comm. unfold vp, vs, emb. cbn [fst snd]. destruct (lt_dec k n) as [Hk|Hk].
    + specialize (H t u k Hu Hk). replace (nth k (y t u) z0 + RtoC (-1) * nth k (y t 0) z0)%C with (nth k (y t u) z0 - nth k (y t 0) z0)%C by (rewrite RtoC_m1; ring). exact H.
    + rewrite !nth_overflow by (rewrite L; lia). replace (z0 + RtoC (-1) * z0)%C with z0 by ring. rewrite Cmod_0. apply Rmult_le_pos; lra.
  - apply near_all. intros u _. destruct (Req_EM_T u 0) as [->|NZ]; [vext|]. rewrite vs_vs, Rinv_r, vs_1 by exact NZ. vext.
Qed.
Lemma fsol_V c n s dir U y : wf n s -> 0 < U -> fsol c n s dir U y -> flip n U y ->
  app 1 (fun _ => emb (fun t => y t 0)) (fun u => emb (fun t => y t u)) /\ near (fun z => forall k, is_cderive (fun u => emb (fun t => y t u) k) z (vp (Dv c n s dir (emb (fun t => y t z))) (Nv c n s dir (emb (fun t => y t z))) k)).
Proof.
  intros W PU [L D] HF. split; [now apply (first_app n U)|]. exists U. split; [exact PU|]. intros z Hz k. rewrite rhs_V by (auto; apply L). destruct (lt_dec (snd k) n) as [Hk|Hk]; [now apply D|].
  apply (cderive_ext (fun _ => z0)); [intros x; symmetry; apply emb_hi; rewrite L; lia|]. split; cbn; apply (is_derive_const (K := R_AbsRing) (V := R_NormedModule)).
Qed.
Lemma slopes n (y : R -> list C) (g : nat -> C) : (forall k, (k < n)%nat -> is_cderive (fun t => nth k (y t) z0) 0 (g k)) -> exists U, 0 < U /\ flip n U (fun _ => y).
Proof.
  intros D. assert (G : forall m, exists U B, 0 < U /\ 0 <= B /\ forall u k, 0 <= u <= U -> (k < m)%nat -> (k < n)%nat -> Cmod (nth k (y u) z0 - nth k (y 0) z0)%C <= B * u).
  { induction m as [|m (U & B & PU & PB & H)]; [exists 1, 0; repeat split; try lra; intros; lia|]. destruct (lt_dec m n) as [Hm|Hm].
    - destruct (cslope_bound _ _ (D m Hm)) as (U' & B' & PU' & PB' & H'). exists (Rmin U U'), (B + B'). split; [now apply Rmin_glb_lt|]. split; [lra|]. intros u k Hu Hk Hkn. pose proof (Rmin_l U U'). pose proof (Rmin_r U U').
      destruct (Nat.eq_dec k m) as [->|]; [specialize (H' u ltac:(lra)); cbv beta in H'; nra|]. specialize (H u k ltac:(lra) ltac:(lia) Hkn). nra.
    - exists U, B. repeat split; try assumption. intros u k Hu Hk Hkn. apply H; [exact Hu|lia|exact Hkn]. }
  destruct (G n) as (U & B & PU & PB & H). exists U. split; [exact PU|]. exists B. split; [exact PB|]. intros _ u k Hu Hk. now apply H.
Qed.
Lemma sol_V c n s dir Z y : wf n s -> 0 < Z -> gnlse_solution c n s dir Z y ->
  app 1 (fun _ => cst (y 0)) (fun u => cst (y u)) /\ near (fun z => forall k, is_cderive (fun t => cst (y t) k) z (vp (Dv c n s dir (cst (y z))) (Nv c n s dir (cst (y z))) k)).
Proof.
  intros W PZ [L D]. destruct (slopes n y (gnlse_rhs c s dir (y 0))) as (U & PU & HF); [intros k Hk; apply D; [lra|exact Hk]|]. pose proof (Rmin_l U Z). pose proof (Rmin_r U Z).
  apply (fsol_V c n s dir (Rmin U Z) (fun _ => y) W); [now apply Rmin_glb_lt| |].
  - split; [intros; apply L|]. intros _ u k Hu Hk. apply D; [lra|exact Hk].
  - destruct HF as (B & PB & HB). exists B. split; [exact PB|]. intros t u k Hu Hk. apply (HB t u k ltac:(lra) Hk).
Qed.
Lemma off_smooth c n A : off_threshold c n A -> smooth_at c n (cst A).
Proof.
  intros [H|H]; [now left|right]. unfold gap. assert (G : forall m, (m <= n)%nat -> exists d, 0 < d /\ forall k, (k < m)%nat -> d < Rabs (Cmod (nth k A z0) - / 10 ^ 15)).
  { induction m as [|m IH]; intros Hm; [exists 1; split; [lra|intros; lia]|]. destruct IH as (d & Pd & Hd); [lia|]. set (t := / 10 ^ 15) in *.
    assert (Q : 0 < Rabs (Cmod (nth m A z0) - t)) by (apply Rabs_pos_lt; pose proof (H m ltac:(lia)); lra). exists (Rmin d (Rabs (Cmod (nth m A z0) - t) / 2)). split; [apply Rmin_glb_lt; lra|].
    intros k Hk. pose proof (Rmin_l d (Rabs (Cmod (nth m A z0) - t) / 2)). pose proof (Rmin_r d (Rabs (Cmod (nth m A z0) - t) / 2)). destruct (Nat.eq_dec k m) as [->|]; [lra|]. pose proof (Hd k ltac:(lia)). lra. }
  destruct (G n (le_n n)) as (d & Pd & Hd). exists d. split; [exact Pd|]. intros k Hk. apply Hd, Hk.
Qed.
Lemma rk_cst c n s dir h A : wf n s -> length A = n -> rk (Nv c n s dir) (Ev c n s dir) h (cst A) = cst (rk_with c s (calc_expD h dir (s_betas s) (s_alpha s)) A h dir).
Proof. intros W L. apply (rk_emb c n s dir W h (fun _ => A)). intros _. exact L. Qed.
Lemma rk_len c n s A h dir : wf n s -> length A = n -> length (rk_with c s (calc_expD h dir (s_betas s) (s_alpha s)) A h dir) = n.
Proof.
  intros W L. rewrite expD_P. set (e := P s _). assert (Le : length e = n) by (unfold e; vl). unfold rk_with. cbv zeta.
  assert (LNl : forall y, length y = n -> length (vmul (vscale (RtoC (h * dir)) (nonlinear c s y)) y) = n) by (intros; apply len_vmul; [apply len_vscale, nonlinear_length|]; assumption).
  repeat (assumption || apply len_vadd || apply len_vscale || apply len_diag || apply LNl).
Qed.
(*! C100: RK4IP is a fourth-order method for the generalised nonlinear Schroedinger equation.  Whatever the dispersion, loss, Raman response, self-steepening and direction: if y is a solution of
    dA/dz = dir*(D A + N(A) A) starting at A, one RK4IP sub-step of length h from A differs from y(h) in every sample by at most a constant times h^5, for all h up to some h0 > 0.
    With self-steepening on, no sample of A may lie exactly at the code's threshold 1e-15. *)
Lemma C100_rk4ip_order_l : forall (c : cfg) (n : nat) (s : ssfm) (A : list C) (dir Z : R) (y : R -> list C),
  c_method c = METHOD_RK4IP -> wf n s -> cok s -> length A = n -> off_threshold c n A -> 0 < Z -> gnlse_solution c n s dir Z y -> y 0 = A ->
  exists K h0, 0 <= K /\ 0 < h0 /\ forall h k, 0 < h <= h0 -> (k < n)%nat -> Cmod (nth k (fst (advance c A h dir s)) z0 - nth k (y h) z0)%C <= K * h ^ 5.
Proof.
  intros c n s A dir Z y M W CK LA OT PZ SOL Y0. destruct (Nv_taylor c n s dir W (cst A) (emb_bnd A) (off_smooth c n A OT)) as (Nm & TN). destruct (sol_V c n s dir Z y W PZ SOL) as (A1 & DY). rewrite Y0 in A1.
  destruct (rk_order4 (Dv c n s dir) (Nv c n s dir) Nm (cst A) (Ev c n s dir) (Dv_linear c n s dir W) TN (emb_bnd A) (Ev_hom c n s dir W) (Ev_exp c n s dir W) (fun u => cst (y u)) ltac:(cbv beta; now rewrite Y0) A1 DY) as (K & PK & h0 & Ph0 & H).
  exists K, h0. split; [exact PK|]. split; [exact Ph0|]. intros h k Hh Hk. specialize (H h ltac:(lra) (0, k)). rewrite (rk_cst c n s dir h A W LA) in H. destruct (advance_ok c A h dir s CK ltac:(lra)) as (s1 & E & _). rewrite E. cbn [fst]. unfold adv_with. rewrite M.
  unfold vp, vs, cst, emb in H. cbn [fst snd] in H. rewrite RtoC_m1 in H. match goal with |- Cmod ?z <= _ => match type of H with Cmod ?w <= _ => replace z with w by ring end end. exact H.
Qed.
Lemma kept_fields c dir h s : c_method c = METHOD_RK4IP -> cok s -> 0 < h ->
  let stp A h := rk_with c s (calc_expD h dir (s_betas s) (s_alpha s)) A h dir in
  let Ac := stp (s_A s) (2 * h) in let Af := stp (stp (s_A s) h) h in
  fst (fst (attempt c dir h s)) = Some (local_err Af Ac) /\ s_A (snd (attempt c dir h s)) = richardson c Af Ac.
Proof.
  intros M CK Hh. cbv zeta. pose proof (attempt_same c dir h s s Hh (conj CK eq_refl)) as (H1 & _ & _ & H2). unfold attempt_fresh in H1, H2. rewrite !advance_fresh_eq in H1, H2 by lra. unfold adv_with in H1, H2. rewrite M in H1, H2. cbn [fst snd] in H1, H2.
  split; [exact H1|]. apply nocache_fields in H2 as (H2 & _). rewrite H2. reflexivity.
Qed.
(*! C101: with the default eta = 5 the step the loop keeps is one order better: the Richardson combination of two RK4IP sub-steps of length h and one of length 2h differs from the solution of the generalised nonlinear
    Schroedinger equation at 2h in every sample by at most a constant times h^6, for all h up to some h0 > 0. *)
Lemma C101_kept_step_order_l : forall (c : cfg) (n : nat) (s : ssfm) (dir Z : R) (y : R -> list C),
  c_method c = METHOD_RK4IP -> c_eta c = 5%nat -> wf n s -> cok s -> off_threshold c n (s_A s) -> 0 < Z -> gnlse_solution c n s dir Z y -> y 0 = s_A s ->
  exists K h0, 0 <= K /\ 0 < h0 /\ forall h k, 0 < h <= h0 -> (k < n)%nat -> Cmod (nth k (s_A (snd (attempt c dir h s))) z0 - nth k (y (2 * h)%R) z0)%C <= K * h ^ 6.
Proof.
  intros c n s dir Z y M Eta W CK OT PZ SOL Y0. set (A := s_A s) in *. assert (LA : length A = n) by apply W. destruct (Nv_taylor c n s dir W (cst A) (emb_bnd A) (off_smooth c n A OT)) as (Nm & TN). destruct (sol_V c n s dir Z y W PZ SOL) as (A1 & DY). rewrite Y0 in A1.
  destruct (rich_order5 (Dv c n s dir) (Nv c n s dir) Nm (cst A) (Ev c n s dir) (Dv_linear c n s dir W) TN (emb_bnd A) (Ev_hom c n s dir W) (Ev_exp c n s dir W) (fun u => cst (y u)) ltac:(cbv beta; now rewrite Y0) A1 DY) as (K & PK & h0 & Ph0 & H).
  exists K, h0. split; [exact PK|]. split; [exact Ph0|]. intros h k Hh Hk. specialize (H h ltac:(lra) (0, k)). unfold rich in H. rewrite !(rk_cst c n s dir) in H by (try apply rk_len; assumption).
  destruct (kept_fields c dir h s M CK ltac:(lra)) as (_ & EK). cbv zeta in EK. rewrite EK. unfold richardson. rewrite Eta. cbn [Nat.eqb]. fold A.
  match goal with |- context [vsub (vscale _ ?a) (vscale _ ?b)] => set (Af := a) in *; set (Ac := b) in * end. assert (Lf : length Af = n) by (unfold Af; repeat apply rk_len; assumption). assert (Lc : length Ac = n) by (unfold Ac; apply rk_len; assumption).
  rewrite vsub_nth by (rewrite !vscale_length; congruence). rewrite !vscale_nth. unfold vp, vs, cst, emb in H. cbn [fst snd] in H. rewrite RtoC_m1, RtoC_opp in H. match goal with |- Cmod ?z <= _ => match type of H with Cmod ?w <= _ => replace z with w by ring end end. exact H.
Qed.
Lemma norm2_le n x B : length x = n -> 0 <= B -> (forall k, (k < n)%nat -> Cmod (nth k x z0) <= B) -> norm2 x <= INR n * B.
Proof.
  intros L PB H. unfold norm2. assert (Q : lrsum (map Cnorm2 x) <= INR n * B ^ 2).
  { subst n. induction x as [|a x IH]; [cbn; lra|]. cbn [length]. rewrite S_INR. assert (IH' : lrsum (map Cnorm2 x) <= INR (length x) * B ^ 2) by (apply IH; intros k Hk; apply (H (S k)); cbn; lia).
    change (lrsum (map Cnorm2 (a :: x))) with (Cnorm2 a + lrsum (map Cnorm2 x)). pose proof (H 0%nat ltac:(cbn; lia)) as Ha. cbn [nth] in Ha. rewrite <- Cmod_sqr. pose proof (Cmod_ge_0 a). nra. }
  pose proof (pos_INR n). assert (PN : 0 <= INR n * B) by (apply Rmult_le_pos; assumption). rewrite <- (sqrt_Rsqr (INR n * B)) by exact PN. apply sqrt_le_1_alt. eapply Rle_trans; [exact Q|]. unfold Rsqr. replace (INR n * B * (INR n * B)) with (INR n * INR n * B ^ 2) by ring.
  apply Rmult_le_compat_r; [apply pow2_ge_0|]. destruct n as [|n]; [cbn; lra|]. rewrite S_INR in *. pose proof (pos_INR n). nra.
Qed.
Lemma norm2_ge x k : Cmod (nth k x z0) <= norm2 x.
Proof.
  unfold norm2. destruct (lt_dec k (length x)) as [Hk|Hk]; [|rewrite nth_overflow by lia; rewrite Cmod_0; apply sqrt_pos].
  rewrite <- (sqrt_Rsqr (Cmod (nth k x z0))) by apply Cmod_ge_0. apply sqrt_le_1_alt. unfold Rsqr. rewrite Cmod_sqr. revert k Hk. induction x as [|a x IH]; intros k Hk; [cbn in Hk; lia|]. change (lrsum (map Cnorm2 (a :: x))) with (Cnorm2 a + lrsum (map Cnorm2 x)).
  assert (P0 : 0 <= lrsum (map Cnorm2 x)). { clear. induction x as [|b x IH]; [cbn; lra|]. change (lrsum (map Cnorm2 (b :: x))) with (Cnorm2 b + lrsum (map Cnorm2 x)). pose proof (Cnorm2_nonneg b). lra. }
  pose proof (Cnorm2_nonneg a). destruct k as [|k]; cbn [nth]; [lra|]. specialize (IH k ltac:(cbn in Hk; lia)). lra.
Qed.
Lemma norm2_some x : norm2 x <> 0 -> exists k, (k < length x)%nat /\ 0 < Cmod (nth k x z0).
Proof.
  intros H. destruct (Classical_Prop.classic (exists k, (k < length x)%nat /\ 0 < Cmod (nth k x z0))) as [(k & Hk)|N0]; [exists k; exact Hk|]. exfalso. apply H. pose proof (norm2_le (length x) x 0 eq_refl ltac:(lra)) as Q. rewrite Rmult_0_r in Q. apply Rle_antisym; [|apply sqrt_pos]. apply Q.
  intros k Hk. destruct (Rle_dec (Cmod (nth k x z0)) 0); [assumption|]. exfalso. apply N0. exists k. split; [exact Hk|lra].
Qed.
(*! C102: the error the loop measures for an attempt of step h, |Af - Ac|/|Af|, is at most a constant times h^5 for all h up to some h0 > 0, whatever the medium and the (non-zero) field. *)
Lemma C102_estimate_order_l : forall (c : cfg) (n : nat) (s : ssfm) (dir : R),
  c_method c = METHOD_RK4IP -> wf n s -> cok s -> off_threshold c n (s_A s) -> norm2 (s_A s) <> 0 ->
  exists K h0, 0 <= K /\ 0 < h0 /\ forall h, 0 < h <= h0 ->
    exists d, fst (fst (attempt c dir h s)) = Some d /\ 0 <= d <= K * h ^ 5.
Proof.
  intros c n s dir M W CK OT NZ. set (A := s_A s) in *. assert (LA : length A = n) by apply W. destruct (Nv_taylor c n s dir W (cst A) (emb_bnd A) (off_smooth c n A OT)) as (Nm & TN).
  destruct (est_order4 (Dv c n s dir) (Nv c n s dir) Nm (cst A) (Ev c n s dir) (Dv_linear c n s dir W) TN (emb_bnd A) (Ev_hom c n s dir W) (Ev_exp c n s dir W)) as (K & PK & h1 & Ph1 & H1).
  destruct (two_near (Dv c n s dir) (Nv c n s dir) Nm (cst A) (Ev c n s dir) (Dv_linear c n s dir W) TN (emb_bnd A) (Ev_hom c n s dir W) (Ev_exp c n s dir W)) as (K2 & PK2 & h2 & Ph2 & H2).
  destruct (norm2_some A NZ) as (j & Hj & Pj). set (a := Cmod (nth j A z0)) in *. set (h3 := a / (2 * (K2 + 1))). assert (Ph3 : 0 < h3) by (apply Rdiv_lt_0_compat; lra).
  exists (INR n * K * (2 / a)), (Rmin h1 (Rmin h2 h3)). pose proof (pos_INR n) as Pn. assert (P2a : 0 < 2 / a) by (apply Rdiv_lt_0_compat; lra).
  split; [apply Rmult_le_pos; [apply Rmult_le_pos; assumption|lra]|]. split; [repeat apply Rmin_glb_lt; assumption|]. intros h Hh.
  pose proof (Rmin_l h1 (Rmin h2 h3)). pose proof (Rmin_r h1 (Rmin h2 h3)). pose proof (Rmin_l h2 h3). pose proof (Rmin_r h2 h3).
  specialize (H1 h ltac:(lra)). specialize (H2 h ltac:(lra)). rewrite (rk_cst c n s dir (2 * h) A W LA) in H1. rewrite !(rk_cst c n s dir) in H1 by (try apply rk_len; assumption). rewrite !(rk_cst c n s dir) in H2 by (try apply rk_len; assumption).
  destruct (kept_fields c dir h s M CK ltac:(lra)) as (EE & _). cbv zeta in EE. rewrite EE. fold A.
  match goal with |- context [local_err ?x ?y] => set (Af := x) in *; set (Ac := y) in * end. assert (Lf : length Af = n) by (unfold Af; repeat apply rk_len; assumption). assert (Lc : length Ac = n) by (unfold Ac; apply rk_len; assumption).
  assert (Pf : a / 2 <= norm2 Af).
  { eapply Rle_trans; [|apply (norm2_ge Af j)]. specialize (H2 (0, j)). unfold vp, vs, cst, emb in H2. cbn [fst snd] in H2. rewrite RtoC_m1, pow_1 in H2. pose proof (Cmod_near (nth j Af z0) (- (nth j Af z0 + - RtoC 1 * nth j A z0))%C (K2 * h)) as CN. rewrite Cmod_opp in CN. specialize (CN H2).
    replace (nth j Af z0 + - (nth j Af z0 + - RtoC 1 * nth j A z0))%C with (nth j A z0) in CN by ring. fold a in CN. assert (K2 * h <= a / 2); [|lra].
    apply Rle_trans with ((K2 + 1) * h3); [apply Rmult_le_compat; lra|]. unfold h3. right. field. lra. }
  assert (Pd : norm2 (vsub Af Ac) <= INR n * (K * h ^ 5)).
  { apply norm2_le; [apply len_vsub; assumption|apply Rmult_le_pos; [exact PK|apply pow_le; lra]|]. intros k Hk. specialize (H1 (0, k)). rewrite vsub_nth by congruence. unfold vp, vs, cst, emb in H1. cbn [fst snd] in H1. rewrite RtoC_m1 in H1.
    match goal with |- Cmod ?z <= _ => match type of H1 with Cmod ?w <= _ => replace z with w by ring end end. exact H1. }
  exists (local_err Af Ac). split; [reflexivity|]. unfold local_err. destruct (Req_EM_T (norm2 Af) 0) as [Z0|NZf]; [rewrite Z0 in Pf; lra|]. assert (P0 : 0 <= norm2 (vsub Af Ac)) by apply sqrt_pos. split; [apply Rmult_le_pos; [exact P0|left; apply Rinv_0_lt_compat; lra]|].
  apply Rle_trans with (INR n * (K * h ^ 5) * (2 / a)); [|right; ring]. unfold Rdiv at 1. apply Rmult_le_compat; [exact P0|left; apply Rinv_0_lt_compat; lra|exact Pd|].
  replace (2 / a) with (/ (a / 2)) by (field; lra). apply Rinv_le_contravar; lra.
Qed.
(*! C102 (no endless rejection): for every positive tolerance there is a step length below which every attempt is kept and the next one is longer. *)
Lemma C102_short_steps_kept_l : forall (c : cfg) (n : nat) (s : ssfm) (dir : R),
  c_method c = METHOD_RK4IP -> 0 < c_err c -> wf n s -> cok s -> off_threshold c n (s_A s) -> norm2 (s_A s) <> 0 ->
  exists h0, 0 < h0 /\ forall h, 0 < h <= h0 -> step_ctl c h (fst (fst (attempt c dir h s))) = (true, h * Rpower 2 (1 / INR (c_eta c))).
Proof.
  intros c n s dir M PE W CK OT NZ. destruct (C102_estimate_order_l c n s dir M W CK OT NZ) as (K & h0 & PK & Ph0 & H). set (h1 := c_err c / (4 * (K + 1))). assert (Ph1 : 0 < h1) by (apply Rdiv_lt_0_compat; lra).
  exists (Rmin 1 (Rmin h0 h1)). split; [repeat apply Rmin_glb_lt; lra|]. intros h Hh. pose proof (Rmin_l 1 (Rmin h0 h1)). pose proof (Rmin_r 1 (Rmin h0 h1)). pose proof (Rmin_l h0 h1). pose proof (Rmin_r h0 h1).
  destruct (H h ltac:(lra)) as (d & -> & Hd). assert (Q : d < 1 / 2 * c_err c).
  { assert (K * h ^ 5 <= K * h1). { apply Rmult_le_compat_l; [exact PK|]. cbn [pow]. assert (h * h <= 1) by nra. assert (0 <= h * h) by nra. assert (h * h * (h * h) <= 1) by nra. replace (h * (h * (h * (h * (h * 1))))) with (h * (h * h * (h * h))) by ring. nra. }
    assert (K * h1 <= c_err c / 4). { unfold h1. apply Rle_trans with ((K + 1) * (c_err c / (4 * (K + 1)))); [apply Rmult_le_compat_r; [unfold h1 in Ph1; lra|lra]|right; field; lra]. } lra. }
  unfold step_ctl, dz_factor. destruct (Rlt_dec (2 * c_err c) d); [lra|]. destruct (Rle_dec (c_err c) d); [lra|]. destruct (Rle_dec (1 / 2 * c_err c) d); [lra|]. reflexivity.
Qed.

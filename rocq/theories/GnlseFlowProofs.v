(** The generalised nonlinear Schroedinger equation on a grid, without self-steepening: exactly one solution through every field, over any distance, and the energy law; hence
    convergence of the integrator and of propagate with no assumption on a solution (C125). *)
From Coq Require Import Reals List ZArith Bool Arith Lia Lra FunctionalExtensionality.
From Coquelicot Require Import Coquelicot.
From Verif Require Import Base CNum NumPy Spec ModelFFT FFTProofs ModelPulse PulseProofs PulseOpsProofs ModelSSFM SSFMLoopProofs SSFMProofs SSFMSymProofs SSFMErrProofs SSFMPropProofs SSFMGnlseProofs SSFMRamanProofs SSFMPhotonProofs ODETableauProofs RkOrderProofs PicardProofs MixingProofs GlobalOrderProofs GlobalFlowProofs.
Import ListNotations.
Local Open Scope R_scope.
Local Notation z0 := (RtoC 0).
Local Notation V := (nat -> C).

Lemma Re_scal r z : Re (RtoC r * z)%C = r * Re z. Proof. destruct z. unfold Re, RtoC. cbn. ring. Qed.
Lemma Re_norm z : Re (Cconj z * z)%C = Cnorm2 z. Proof. destruct z. unfold Cnorm2, Re, Im. cbn. ring. Qed.
Lemma Re_norm_mid d z : Re (Cconj z * (d * z))%C = Re d * Cnorm2 z. Proof. destruct z, d. unfold Cnorm2, Re, Im. cbn. ring. Qed.
Lemma Re_dir r z a b : Re (Cconj z * (RtoC r * (a + b * z)))%C = r * (Re (Cconj z * a)%C + Re (Cconj z * (b * z))%C). Proof. destruct z, a, b. unfold Re. cbn. ring. Qed.
Lemma Re_csum k : forall f : nat -> C, Re (csum k f) = rsum k (fun j => Re (f j)). Proof. induction k as [|k IH]; intros f; [rewrite csum_0, rsum_0; reflexivity|]. rewrite csum_S, rsum_S, <- IH. reflexivity. Qed.
(** ** Bounded and Lipschitz on every ball *)
Section Loc.
  Variable n : nat.
  Definition loc (F : V -> C) : Prop := forall B, 0 <= B -> exists K, 0 <= K /\ forall u v, (forall j, (j < n)%nat -> Cmod (u j) <= B) -> (forall j, (j < n)%nat -> Cmod (v j) <= B) ->
    Cmod (F u) <= K /\ forall d, 0 <= d -> (forall j, (j < n)%nat -> Cmod (u j - v j)%C <= d) -> Cmod (F u - F v)%C <= K * d.
  Lemma loc_ext F G : (forall v, F v = G v) -> loc F -> loc G.
  Proof. intros E H B HB. destruct (H B HB) as (K & HK & P). exists K. split; [exact HK|]. intros u v Hu Hv. rewrite <- !E. now apply P. Qed.
  Lemma loc_const c : loc (fun _ => c).
  Proof. intros B HB. exists (Cmod c). split; [apply Cmod_ge_0|]. intros u v _ _. split; [lra|]. intros d Hd _. replace (c - c)%C with z0 by ring. rewrite Cmod_0. apply Rmult_le_pos; [apply Cmod_ge_0|exact Hd]. Qed.
  Lemma loc_var j : (j < n)%nat -> loc (fun v => v j).
  Proof. intros Hj B HB. exists (B + 1). split; [lra|]. intros u v Hu _. split; [specialize (Hu j Hj); lra|]. intros d Hd H. specialize (H j Hj). pose proof (Rmult_le_pos B d HB Hd). lra. Qed.
  Lemma loc_plus F G : loc F -> loc G -> loc (fun v => F v + G v)%C.
  Proof.
    intros HF HG B HB. destruct (HF B HB) as (K & HK & P). destruct (HG B HB) as (K' & HK' & P'). exists (K + K'). split; [lra|]. intros u v Hu Hv. destruct (P u v Hu Hv) as [A1 A2]. destruct (P' u v Hu Hv) as [B1 B2]. split; [eapply Rle_trans; [apply Cmod_triangle|lra]|]. intros d Hd H. specialize (A2 d Hd H). specialize (B2 d Hd H).
    replace (F u + G u - (F v + G v))%C with ((F u - F v) + (G u - G v))%C by ring. eapply Rle_trans; [apply Cmod_triangle|lra].
  Qed.
  Lemma loc_mult F G : loc F -> loc G -> loc (fun v => F v * G v)%C.
  Proof.
    intros HF HG B HB. destruct (HF B HB) as (K & HK & P). destruct (HG B HB) as (K' & HK' & P'). exists (2 * (K * K')). pose proof (Rmult_le_pos K K' HK HK') as KK. split; [lra|]. intros u v Hu Hv. destruct (P u v Hu Hv) as [A1 A2]. destruct (P' u v Hu Hv) as [B1 B2]. destruct (P v u Hv Hu) as [C1 _].
    split; [rewrite Cmod_mult; apply Rle_trans with (K * K'); [apply Rmult_le_compat; try apply Cmod_ge_0; assumption|lra]|]. intros d Hd H. specialize (A2 d Hd H). specialize (B2 d Hd H).
    replace (F u * G u - F v * G v)%C with ((F u - F v) * G u + F v * (G u - G v))%C by ring. eapply Rle_trans; [apply Cmod_triangle|]. rewrite !Cmod_mult.
    assert (Cmod (F u - F v)%C * Cmod (G u) <= K * d * K') by (apply Rmult_le_compat; try apply Cmod_ge_0; assumption). assert (Cmod (F v) * Cmod (G u - G v)%C <= K * (K' * d)) by (apply Rmult_le_compat; try apply Cmod_ge_0; assumption). lra.
  Qed.
  Lemma loc_conj F : loc F -> loc (fun v => Cconj (F v)).
  Proof.
    intros HF B HB. destruct (HF B HB) as (K & HK & P). exists K. split; [exact HK|]. intros u v Hu Hv. destruct (P u v Hu Hv) as [A1 A2]. rewrite RkOrderProofs.Cmod_cj. split; [exact A1|]. intros d Hd H. specialize (A2 d Hd H). replace (Cconj (F u) - Cconj (F v))%C with (Cconj (F u - F v)%C) by (apply injective_projections; cbn; ring). now rewrite RkOrderProofs.Cmod_cj.
  Qed.
  Lemma loc_csum m (F : nat -> V -> C) : (forall j, (j < m)%nat -> loc (F j)) -> loc (fun v => csum m (fun j => F j v)).
  Proof.
    induction m as [|m IH]; intros H; [apply (loc_ext (fun _ => z0)); [intros v; now rewrite csum_0|apply loc_const]|]. apply (loc_ext (fun v => csum m (fun j => F j v) + F m v)%C); [intros v; now rewrite csum_S|]. apply loc_plus; [apply IH; intros; apply H; lia|apply H; lia].
  Qed.
  (** lists *)
  Definition locl (T : V -> list C) : Prop := (forall v, length (T v) = n) /\ forall k, (k < n)%nat -> loc (fun v => nth k (T v) z0).
  Lemma locl_fft T : locl T -> locl (fun v => fft (T v)).
  Proof.
    intros [L H]. split; [intros v; now rewrite fft_length|]. intros k Hk. apply (loc_ext (fun v => csum n (fun j => nth j (T v) z0 * tw n (- (Z.of_nat j * Z.of_nat k)))%C)); [intros v; rewrite fft_nth by (rewrite L; exact Hk); rewrite ?L; reflexivity|].
    apply loc_csum. intros j Hj. apply loc_mult; [now apply H|apply loc_const].
  Qed.
  Lemma locl_ifft T : locl T -> locl (fun v => ifft (T v)).
  Proof.
    intros [L H]. split; [intros v; now rewrite ifft_length|]. intros k Hk. apply (loc_ext (fun v => RtoC (/ INR n) * csum n (fun j => nth j (T v) z0 * tw n (Z.of_nat j * Z.of_nat k))%C)%C); [intros v; rewrite ifft_nth by (rewrite L; exact Hk); rewrite ?L; reflexivity|].
    apply loc_mult; [apply loc_const|]. apply loc_csum. intros j Hj. apply loc_mult; [now apply H|apply loc_const].
  Qed.
  Lemma locl_fs T : locl T -> locl (fun v => fftshift (T v)).
  Proof. intros [L H]. split; [intros v; now rewrite fftshift_length|]. intros k Hk. apply (loc_ext (fun v => nth (zmodn n (Z.of_nat k - Z.of_nat (Nat.div2 n))) (T v) z0)); [intros v; rewrite fftshift_nth by (rewrite L; exact Hk); rewrite ?L; reflexivity|]. apply H, zmodn_lt. lia. Qed.
  Lemma locl_is T : locl T -> locl (fun v => ifftshift (T v)).
  Proof. intros [L H]. split; [intros v; now rewrite ifftshift_length|]. intros k Hk. apply (loc_ext (fun v => nth (zmodn n (Z.of_nat k + Z.of_nat (Nat.div2 n))) (T v) z0)); [intros v; rewrite ifftshift_nth by (rewrite L; exact Hk); rewrite ?L; reflexivity|]. apply H, zmodn_lt. lia. Qed.
  Lemma locl_fft_t c T : locl T -> locl (fun v => fft_t c (T v)).
  Proof. intros H. unfold fft_t. destruct (c_pre c); [now apply locl_ifft|]. now apply locl_is, locl_ifft, locl_fs. Qed.
  Lemma locl_ifft_t c T : locl T -> locl (fun v => ifft_t c (T v)).
  Proof. intros H. unfold ifft_t. destruct (c_pre c); [now apply locl_fft|]. now apply locl_is, locl_fft, locl_fs. Qed.
  Lemma locl_vmul d T : length d = n -> locl T -> locl (fun v => vmul d (T v)).
  Proof. intros Ld [L H]. split; [intros v; unfold vmul; rewrite map2_length; congruence|]. intros k Hk. apply (loc_ext (fun v => nth k d z0 * nth k (T v) z0)%C); [intros v; rewrite vmul_nth by congruence; reflexivity|]. apply loc_mult; [apply loc_const|now apply H]. Qed.
  Lemma locl_vscale d T : locl T -> locl (fun v => vscale d (T v)).
  Proof. intros [L H]. split; [intros v; unfold vscale; now rewrite map_length|]. intros k Hk. apply (loc_ext (fun v => d * nth k (T v) z0)%C); [intros v; now rewrite vscale_nth|]. apply loc_mult; [apply loc_const|now apply H]. Qed.
  Lemma locl_mk : locl (fun v => mk n v).
  Proof. split; [intros v; apply mk_length|]. intros k Hk. apply (loc_ext (fun v => v k)); [intros v; now rewrite mk_nth|now apply loc_var]. Qed.
  Lemma locl_norm T : locl T -> locl (fun v => map (fun z => RtoC (Cnorm2 z)) (T v)).
  Proof.
    intros [L H]. split; [intros v; now rewrite map_length|]. intros k Hk. apply (loc_ext (fun v => nth k (T v) z0 * Cconj (nth k (T v) z0))%C); [|apply loc_mult; [now apply H|apply loc_conj; now apply H]].
    intros v. rewrite (nth_map' (fun z => RtoC (Cnorm2 z)) _ k z0) by now rewrite L. generalize (nth k (T v) z0); intros [a b]. unfold Cnorm2. apply injective_projections; cbn; ring.
  Qed.
End Loc.

(** ** The equation *)
Section Gnlse.
  Variables (c : cfg) (n : nat) (s : ssfm) (dir : R).
  Hypothesis NS : c_noSS c = true.
  Hypothesis W : wf n s.
  Hypothesis RR : real_response c n (s_R s).
  Definition FG (v : V) (k : nat) : C := gnlse_rhs c s dir (mk n v) k.
  Let dd := map2 (fun b a => Ci * b - a / RtoC 2)%C (s_betas s) (s_alpha s).
  Lemma dd_len : length dd = n. Proof. unfold dd. destruct W as (_ & L1 & L2 & _). rewrite map2_length; congruence. Qed.
  Lemma FG_loc k : (k < n)%nat -> loc n (fun v => FG v k).
  Proof.
    intros Hk. unfold FG, gnlse_rhs. fold dd. apply loc_mult; [apply loc_const|]. apply loc_plus.
    - apply (locl_ifft_t n c (fun v => vmul dd (fft_t c (mk n v)))); [|exact Hk]. apply locl_vmul; [apply dd_len|]. apply locl_fft_t, locl_mk.
    - apply loc_mult; [|now apply locl_mk]. apply (loc_ext n (fun v => nth k (vscale (Ci * RtoC (s_gamma s))%C (ifft_t c (vmul (s_R s) (fft_t c (map (fun z => RtoC (Cnorm2 z)) (mk n v)))))) z0)); [intros v; unfold nonlinear; rewrite NS; reflexivity|].
      apply (locl_vscale n (Ci * RtoC (s_gamma s))%C (fun v => ifft_t c (vmul (s_R s) (fft_t c (map (fun z => RtoC (Cnorm2 z)) (mk n v)))))); [|exact Hk]. apply locl_ifft_t, locl_vmul; [apply W|]. apply locl_fft_t, locl_norm, locl_mk.
  Qed.
  Lemma FG_Floc : forall B, 0 <= B -> exists K, 0 <= K /\ forall (x : R) u v i, (i < n)%nat -> (forall j, (j < n)%nat -> Cmod (u j) <= B) -> (forall j, (j < n)%nat -> Cmod (v j) <= B) ->
    Cmod (FG u i) <= K /\ forall d, (forall j, (j < n)%nat -> Cmod (u j - v j)%C <= d) -> Cmod (FG u i - FG v i)%C <= K * d.
  Proof.
    intros B HB. assert (Q : forall m, (m <= n)%nat -> exists K, 0 <= K /\ forall i, (i < m)%nat -> forall u v, (forall j, (j < n)%nat -> Cmod (u j) <= B) -> (forall j, (j < n)%nat -> Cmod (v j) <= B) -> Cmod (FG u i) <= K /\ forall d, 0 <= d -> (forall j, (j < n)%nat -> Cmod (u j - v j)%C <= d) -> Cmod (FG u i - FG v i)%C <= K * d).
    { induction m as [|m IH]; intros Hm; [exists 0; split; [lra|intros; lia]|]. destruct (IH ltac:(lia)) as (K & HK & P). destruct (FG_loc m ltac:(lia) B HB) as (K' & HK' & P'). exists (K + K'). split; [lra|]. intros i Hi u v Hu Hv. destruct (Nat.eq_dec i m) as [->|Ne].
      - destruct (P' u v Hu Hv) as [A1 A2]. split; [lra|]. intros d Hd H. specialize (A2 d Hd H). pose proof (Rmult_le_pos K d HK Hd). lra.
      - destruct (P i ltac:(lia) u v Hu Hv) as [A1 A2]. split; [lra|]. intros d Hd H. specialize (A2 d Hd H). pose proof (Rmult_le_pos K' d HK' Hd). lra. }
    destruct (Q n (le_n n)) as (K & HK & P). exists K. split; [exact HK|]. intros _ u v i Hi Hu Hv. destruct (P i Hi u v Hu Hv) as [A1 A2]. split; [exact A1|]. intros d Hd. apply A2; [|exact Hd]. eapply Rle_trans; [apply Cmod_ge_0|apply (Hd i Hi)].
  Qed.
  Lemma FG_ext u v i : (forall j, (j < n)%nat -> u j = v j) -> FG u i = FG v i.
  Proof. intros H. unfold FG. now rewrite (mk_ext n u v H). Qed.

  (** *** Energy *)
  Lemma csum_fs m (x y : list C) (g : C -> C -> C) : length x = m -> length y = m -> csum m (fun k => g (nth k (fftshift x) z0) (nth k (fftshift y) z0)) = csum m (fun k => g (nth k x z0) (nth k y z0)).
  Proof. intros Lx Ly. rewrite <- (csum_shift m (fun k => g (nth k x z0) (nth k y z0)) (- Z.of_nat (Nat.div2 m))). apply csum_ext. intros k Hk. rewrite !fftshift_nth, Lx, Ly by congruence. reflexivity. Qed.
  Lemma csum_is m (x y : list C) (g : C -> C -> C) : length x = m -> length y = m -> csum m (fun k => g (nth k (ifftshift x) z0) (nth k (ifftshift y) z0)) = csum m (fun k => g (nth k x z0) (nth k y z0)).
  Proof. intros Lx Ly. rewrite <- (csum_shift m (fun k => g (nth k x z0) (nth k y z0)) (Z.of_nat (Nat.div2 m))). apply csum_ext. intros k Hk. rewrite !ifftshift_nth, Lx, Ly by congruence. reflexivity. Qed.
  Lemma parseval_t x y : length x = n -> length y = n -> (0 < n)%nat -> csum n (fun m => Cconj (nth m (fft_t c x) z0) * nth m (fft_t c y) z0)%C = (RtoC (/ INR n) * csum n (fun k => Cconj (nth k x z0) * nth k y z0))%C.
  Proof.
    intros Lx Ly Hn. unfold fft_t. destruct (c_pre c); [now apply parseval2|]. rewrite (csum_is n (ifft (fftshift x)) (ifft (fftshift y)) (fun a b => Cconj a * b)%C) by now rewrite ifft_length, fftshift_length. rewrite parseval2 by (rewrite ?fftshift_length; assumption). f_equal. apply (csum_fs n x y (fun a b => Cconj a * b)%C Lx Ly).
  Qed.
  (** mean of the gain weighted with the spectrum *)
  Lemma FG_rate v : 2 * Re (csum n (fun j => Cconj (v j) * FG v j)%C) = 2 * dir * INR n * rsum n (fun m => Re (nth m dd z0) * Cnorm2 (nth m (fft_t c (mk n v)) z0)).
  Proof.
    destruct (Nat.eq_dec n 0) as [Z|Nz]; [rewrite Z; rewrite csum_0, rsum_0; cbn; ring|]. set (x := mk n v). assert (Lx : length x = n) by apply mk_length. set (X := fft_t c x). assert (LX : length X = n) by (unfold X; now rewrite fft_t_length).
    assert (Li : length (ifft_t c (vmul dd X)) = n) by (rewrite ifft_t_length; unfold vmul; rewrite map2_length; [apply dd_len|rewrite dd_len; congruence]).
    pose proof (parseval_t x (ifft_t c (vmul dd X)) Lx Li ltac:(lia)) as Pv. rewrite fft_ifft_t in Pv. fold X in Pv.
    assert (Nn : INR n <> 0) by (apply not_0_INR; exact Nz).
    assert (E1 : csum n (fun k => Cconj (nth k x z0) * nth k (ifft_t c (vmul dd X)) z0)%C = (RtoC (INR n) * csum n (fun m => Cconj (nth m X z0) * nth m (vmul dd X) z0))%C). { rewrite Pv. rewrite Cmult_assoc, <- RtoC_mult, Rinv_r by exact Nn. ring. }
    assert (E2 : Re (csum n (fun k => Cconj (nth k x z0) * nth k (ifft_t c (vmul dd X)) z0)%C) = INR n * rsum n (fun m => Re (nth m dd z0) * Cnorm2 (nth m X z0))).
    { rewrite E1, Re_scal, Re_csum. f_equal. apply rsum_ext. intros m Hm. rewrite vmul_nth by (rewrite dd_len; congruence). apply Re_norm_mid. }
    destruct (C29_nonlinear_moves_no_power_l c n s x NS W Lx) as [_ N29]. specialize (N29 RR).
    assert (E3 : Re (csum n (fun j => Cconj (v j) * FG v j)%C) = dir * Re (csum n (fun k => Cconj (nth k x z0) * nth k (ifft_t c (vmul dd X)) z0)%C)).
    { rewrite !Re_csum, <- rsum_scal_l. apply rsum_ext. intros k Hk. destruct (N29 k Hk) as (_ & N2 & _). unfold FG, gnlse_rhs. fold x. fold dd. fold X. replace (v k) with (nth k x z0) by (unfold x; now rewrite mk_nth).
      rewrite Re_dir, N2. ring. }
    rewrite E3, E2. ring.
  Qed.
  Lemma power_spec v : power n v = INR n * rsum n (fun m => Cnorm2 (nth m (fft_t c (mk n v)) z0)).
  Proof.
    destruct (Nat.eq_dec n 0) as [Z|Nz]; [unfold power; rewrite Z, !rsum_0; ring|]. set (x := mk n v). assert (Lx : length x = n) by apply mk_length. pose proof (parseval_t x x Lx Lx ltac:(lia)) as Pv. assert (Nn : INR n <> 0) by (apply not_0_INR; exact Nz).
    apply (f_equal Re) in Pv. rewrite Re_csum in Pv. assert (P2 : Re (RtoC (/ INR n) * csum n (fun k => Cconj (nth k x z0) * nth k x z0))%C = / INR n * rsum n (fun k => Cnorm2 (nth k x z0))). { rewrite Re_scal, Re_csum. f_equal. apply rsum_ext. intros k _. apply Re_norm. }
    rewrite P2 in Pv. rewrite (rsum_ext n _ (fun m => Re (Cconj (nth m (fft_t c x) z0) * nth m (fft_t c x) z0)%C)) by (intros m _; symmetry; apply Re_norm). rewrite Pv. rewrite <- Rmult_assoc, Rinv_r, Rmult_1_l by exact Nn. apply rsum_ext. intros k Hk. unfold x. rewrite mk_nth by exact Hk. rewrite <- Cmod_sqr. ring.
  Qed.
  Lemma FG_between lo hi : (forall m, (m < n)%nat -> lo <= 2 * dir * Re (nth m dd z0) <= hi) -> forall v, lo * power n v <= 2 * Re (csum n (fun j => Cconj (v j) * FG v j)%C) <= hi * power n v.
  Proof.
    intros H v. rewrite FG_rate, power_spec. set (X := fft_t c (mk n v)). 
    replace (2 * dir * INR n * rsum n (fun m => Re (nth m dd z0) * Cnorm2 (nth m X z0))) with (INR n * rsum n (fun m => 2 * dir * Re (nth m dd z0) * Cnorm2 (nth m X z0))) by (rewrite (rsum_ext n _ (fun m => 2 * dir * (Re (nth m dd z0) * Cnorm2 (nth m X z0)))) by (intros; ring); rewrite rsum_scal_l; ring).
    replace (lo * (INR n * rsum n (fun m => Cnorm2 (nth m X z0)))) with (INR n * rsum n (fun m => lo * Cnorm2 (nth m X z0))) by (rewrite rsum_scal_l; ring). replace (hi * (INR n * rsum n (fun m => Cnorm2 (nth m X z0)))) with (INR n * rsum n (fun m => hi * Cnorm2 (nth m X z0))) by (rewrite rsum_scal_l; ring).
    assert (P : forall m, 0 <= Cnorm2 (nth m X z0)) by (intros m; unfold Cnorm2; nra).
    split; (apply Rmult_le_compat_l; [apply pos_INR|]); apply rsum_le; intros m Hm; destruct (H m Hm); apply Rmult_le_compat_r; auto.
  Qed.
  Lemma dd_bounds : exists a, 0 <= a /\ forall m, (m < n)%nat -> - a <= 2 * dir * Re (nth m dd z0) <= a.
  Proof.
    exists (rsum n (fun m => Rabs (2 * dir * Re (nth m dd z0)))). split; [apply rsum_nonneg; intros; apply Rabs_pos|]. intros m Hm. pose proof (rsum_term_le n (fun m => Rabs (2 * dir * Re (nth m dd z0))) m (fun i _ => Rabs_pos _) Hm) as H. cbv beta in H. pose proof (Rle_abs (2 * dir * Re (nth m dd z0))). pose proof (Rle_abs (- (2 * dir * Re (nth m dd z0)))) as H2. rewrite Rabs_Ropp in H2. lra.
  Qed.
End Gnlse.

(** ** C125 *)
Lemma power_list n x : length x = n -> power n (fun j => nth j x z0) = power_sum x.
Proof. intros L. unfold power. rewrite power_sum_rsum, L. apply rsum_ext. intros j _. rewrite <- Cmod_sqr. ring. Qed.
Lemma rate_dd s n m : wf n s -> (m < n)%nat -> 2 * Re (nth m (map2 (fun b a => Ci * b - a / RtoC 2)%C (s_betas s) (s_alpha s)) z0) = - Re (nth m (s_alpha s) z0) - 2 * Im (nth m (s_betas s) z0).
Proof.
  intros (_ & L1 & L2 & _) Hm. rewrite (map2_nth _ _ _ _ z0 z0) by congruence. destruct (nth m (s_betas s) z0), (nth m (s_alpha s) z0). unfold Re, Im. cbn. field.
Qed.
Lemma sol_FG c n s dir Z y : gnlse_solution c n s dir Z y -> forall x j, (j < n)%nat -> 0 <= x <= Z -> is_cderive (fun t => nth j (y t) z0) x (FG c n s dir (fun i => nth i (y x) z0) j).
Proof. intros [L H] x j Hj Hx. unfold FG. replace (mk n (fun i => nth i (y x) z0)) with (y x); [now apply H|]. apply (vec_extn n); [apply L|apply mk_length|]. intros i Hi. now rewrite mk_nth. Qed.
Lemma sol_exists c n s dir A0 : c_noSS c = true -> wf n s -> real_response c n (s_R s) -> length A0 = n -> exists y, y 0 = A0 /\ forall Z, gnlse_solution c n s dir Z y.
Proof.
  intros NS W RR LA. destruct (dd_bounds n s dir) as (a & Ha & Hb). destruct (global_solution n (fun _ => FG c n s dir) (fun _ u v i _ H => FG_ext c n s dir u v i H) (FG_Floc c n s dir NS W) (fun v i x _ => ccont_const (FG c n s dir v i) x) (- a) a (fun _ => FG_between c n s dir NS W RR (- a) a Hb) (fun j => nth j A0 z0)) as (u & U0 & Du).
  exists (fun z => mk n (u z)). split; [apply (vec_extn n); [apply mk_length|exact LA|]; intros i Hi; rewrite mk_nth by exact Hi; now apply U0|]. intros Z. split; [intros; apply mk_length|]. intros z k _ Hk. destruct (Du z k Hk) as [D1 D2]. split; [apply (is_derive_ext (fun t => Re (u t k))); [|exact D1]|apply (is_derive_ext (fun t => Im (u t k))); [|exact D2]]; intros t; now rewrite mk_nth.
Qed.
Lemma sol_unique c n s dir Z y y' : c_noSS c = true -> wf n s -> real_response c n (s_R s) -> gnlse_solution c n s dir Z y -> gnlse_solution c n s dir Z y' -> y 0 = y' 0 -> forall z, 0 <= z <= Z -> y z = y' z.
Proof.
  intros NS W RR S1 S2 E z Hz. destruct (dd_bounds n s dir) as (a & Ha & Hb). apply (vec_extn n); [apply S1|apply S2|]. intros i Hi.
  apply (forward_unique n (fun _ => FG c n s dir) (FG_Floc c n s dir NS W) (- a) a (fun _ => FG_between c n s dir NS W RR (- a) a Hb) (fun z i => nth i (y z) z0) (fun z i => nth i (y' z) z0) Z (sol_FG c n s dir Z y S1) (sol_FG c n s dir Z y' S2)); [intros j _; now rewrite E|exact Hi|exact Hz].
Qed.
Lemma sol_energy c n s dir Z y lo hi : c_noSS c = true -> wf n s -> real_response c n (s_R s) -> gnlse_solution c n s dir Z y ->
  (forall m, (m < n)%nat -> lo <= dir * (- Re (nth m (s_alpha s) z0) - 2 * Im (nth m (s_betas s) z0)) <= hi) -> forall z, 0 <= z <= Z -> power_sum (y 0) * exp (lo * z) <= power_sum (y z) <= power_sum (y 0) * exp (hi * z).
Proof.
  intros NS W RR S1 Hb z Hz. rewrite <- !(power_list n) by apply S1.
  apply (forward_power n (fun _ => FG c n s dir) lo hi) with (u := fun z i => nth i (y z) z0) (Z := Z); [|exact (sol_FG c n s dir Z y S1)|exact Hz]. intros _. apply FG_between; try assumption. intros m Hm. specialize (Hb m Hm). rewrite <- (rate_dd s n m W Hm) in Hb. lra.
Qed.
Lemma sol_reverse c n s dir Z y : gnlse_solution c n s dir Z y -> gnlse_solution c n s (- dir) Z (fun z => y (Z - z)).
Proof.
  intros [L H]. split; [intros; apply L|]. intros z k Hz Hk. destruct (H (Z - z) k ltac:(lra) Hk) as [D1 D2]. set (r := gnlse_rhs c s dir (y (Z - z)) k) in *.
  assert (E : gnlse_rhs c s (- dir) (y (Z - z)) k = (- r)%C) by (unfold r, gnlse_rhs; rewrite RtoC_opp; ring). rewrite E.
  assert (Q : forall f l, is_derive f (Z - z) l -> is_derive (fun t => f (Z - t)) z (- l)). { intros f l D. evar_last; [apply (is_derive_comp f (fun t => Z - t) z l (-1)); [exact D|auto_derive; [exact I|ring]]|]. unfold scal. cbn. unfold mult. cbn. ring. }
  split; [apply (Q (fun t => Re (nth k (y t) z0)) _ D1)|apply (Q (fun t => Im (nth k (y t) z0)) _ D2)].
Qed.

(*! C125: without self-steepening, and with any response that is real in time (those that setup computes all are), the equation that the split-step methods discretise has, for every initial field on
    the grid, a solution defined at every distance, and only one; its energy grows or decays at a rate between the extreme gains of the medium, so a medium without gain or loss conserves it at every
    distance; and running the equation backwards from any point of the path gives the path back. *)
Lemma C125_equation_l : forall (c : cfg) (n : nat) (s : ssfm) (dir : R) (A0 : list C), c_noSS c = true -> wf n s -> real_response c n (s_R s) -> length A0 = n ->
  (exists y, y 0 = A0 /\ forall Z, gnlse_solution c n s dir Z y) /\
  (forall Z y y', gnlse_solution c n s dir Z y -> gnlse_solution c n s dir Z y' -> y 0 = A0 -> y' 0 = A0 -> forall z, 0 <= z <= Z -> y z = y' z) /\
  (forall Z y lo hi, gnlse_solution c n s dir Z y -> y 0 = A0 -> (forall m, (m < n)%nat -> lo <= dir * (- Re (nth m (s_alpha s) z0) - 2 * Im (nth m (s_betas s) z0)) <= hi) ->
     forall z, 0 <= z <= Z -> power_sum A0 * exp (lo * z) <= power_sum (y z) <= power_sum A0 * exp (hi * z)) /\
  (forall Z y y', gnlse_solution c n s dir Z y -> y 0 = A0 -> gnlse_solution c n s (- dir) Z y' -> y' 0 = y Z -> forall z, 0 <= z <= Z -> y' z = y (Z - z)).
Proof.
  intros c n s dir A0 NS W RR LA. split; [now apply sol_exists|]. split; [|split].
  - intros Z y y' S1 S2 E1 E2. apply (sol_unique c n s dir Z); try assumption. congruence.
  - intros Z y lo hi S1 E1 Hb z Hz. rewrite <- E1. now apply (sol_energy c n s dir Z y lo hi).
  - intros Z y y' S1 E1 S2 E2 z Hz. apply (sol_unique c n s (- dir) Z y' (fun z => y (Z - z))); try assumption; [now apply sol_reverse|]. rewrite E2. f_equal. ring.
Qed.

(*! C125: the adaptive integrator converges to that solution with no assumption about a solution: for every medium without self-steepening, every field and every distance there is an exact field path,
    and every run that starts at the field and keeps its steps below H ends within a constant times H^4 (H^5 for eta = 5) of it. *)
Lemma C125_adaptive_l : forall (c : cfg) (n : nat) (s : ssfm) (dir L : R), c_method c = METHOD_RK4IP -> (2 <= c_eta c)%nat -> c_noSS c = true -> wf n s -> real_response c n (s_R s) -> 0 <= L ->
  exists y, y 0 = s_A s /\ (forall Z, gnlse_solution c n s dir Z y) /\ exists K H0, 0 <= K /\ 0 < H0 /\ forall c' s' fuel delta_z r H,
    c_method c' = c_method c -> c_eta c' = c_eta c -> c_noSS c' = c_noSS c -> c_pre c' = c_pre c -> same_medium s' s -> s_A s' = s_A s -> 0 < s_dz s' ->
    0 < delta_z <= L -> integrate_trace c' fuel delta_z dir s' = Some r -> (forall h, In h (l_steps r) -> h <= H) -> 0 < H <= H0 ->
    forall k, (k < n)%nat -> Cmod (nth k (s_A (l_st r)) z0 - nth k (y (lrsum (l_steps r))) z0)%C <= K * H ^ (if Nat.eqb (c_eta c) 5 then 5 else 4).
Proof.
  intros c n s dir L Hm He NS W RR HL. destruct (sol_exists c n s dir (s_A s) NS W RR (proj1 W)) as (y & Y0 & S). exists y. split; [exact Y0|]. split; [exact S|].
  destruct (C121_adaptive_convergence_l c n s dir (L + 1) L y Hm He W ltac:(lra) (S (L + 1)) (or_introl NS)) as (K & H0 & PK & PH & H). exists K, H0. split; [exact PK|]. split; [exact PH|].
  intros c' s' fuel delta_z r h E1 E2 E3 E4 SM EA. apply H; try assumption. congruence.
Qed.

Lemma shift_in c n (l : list C) m : length l = n -> (m < n)%nat -> exists j, (j < n)%nat /\ nth m (cfftshift c l) z0 = nth j l z0.
Proof. intros L Hm. unfold cfftshift. destruct (c_pre c); [|now exists m]. exists (zmodn n (Z.of_nat m - Z.of_nat (Nat.div2 n))). split; [apply zmodn_lt; lia|]. rewrite fftshift_nth, L by congruence. reflexivity. Qed.
Lemma power_sum_fs x : power_sum (fftshift x) = power_sum x.
Proof.
  rewrite <- (power_list (length x) (fftshift x)), <- (power_list (length x) x) by now rewrite ?fftshift_length. unfold power. rewrite <- (rsum_shift (length x) (fun j => Cmod (nth j x z0) ^ 2) (- Z.of_nat (Nat.div2 (length x)))). apply rsum_ext. intros k Hk. now rewrite fftshift_nth by exact Hk.
Qed.

(*! C125: propagate without self-steepening converges, with no assumption about a solution: once setup succeeds there is an exact field path through the input pulse, unique, defined for all distances and
    with its energy between the input energy times the exponentials of the smallest and largest gain coefficient the fiber reports, and the stored time-domain columns approach it at the stated order. *)
Lemma C125_propagate_l : forall (c : cfg) (fb : fiber) (op : option R) (s : ssfm) (p : pulse) (a : list C) (b : R -> list R) (g : list R) (Rw : list C) (F : R) (L : R),
  setting c fb 1 op s p a b g Rw F -> (c_pre c = false \/ Nat.even (p_n p) = true) -> c_method c = METHOD_RK4IP -> (2 <= c_eta c)%nat -> c_noSS c = true -> fb_len fb <= L ->
  exists y, y 0 = cfftshift c (IFFT_t a) /\ (forall Z, gnlse_solution c (p_n p) (start c fb p (b 0) g a Rw F s) 1 Z y) /\
  (forall lo hi, (forall m, (m < p_n p)%nat -> lo <= nth m g 0 <= hi) -> forall z, 0 <= z -> power_sum (IFFT_t a) * exp (lo * z) <= power_sum (y z) <= power_sum (IFFT_t a) * exp (hi * z)) /\
  exists K N0, 0 <= K /\ forall N fuel reload z AW AT po s' q, (N0 <= N)%nat -> (0 < N)%nat -> (reload = true -> forall x, b x = b 0 /\ fb_get_gamma fb x = fb_get_gamma fb 0) ->
    propagate c fuel fb N op reload s p = (Ok (Some (z, AW, AT, po, s')), q) ->
    exists d : nat -> R, (forall j, (j < N)%nat -> fb_len fb / INR N <= d j /\ (d j = fb_len fb / INR N \/ exists last, 0 < fb_len fb / INR N - (d j - last) <= 2 * / 10 ^ 12)) /\
    forall i k, (i < N)%nat -> (k < p_n p)%nat -> rsum (S i) d <= L ->
      Cmod (nth k (nth i AT []) z0 - nth k (cifftshift c (y (rsum (S i) d))) z0)%C <= K * (fb_len fb / INR N) ^ (if Nat.eqb (c_eta c) 5 then 5 else 4).
Proof.
  intros c fb op s p a b g Rw F L Hs1 Hst Hm He NS HL. pose proof Hs1 as (Hh & Hn & Hf & An & HR & _ & HLp & Hd). set (s0 := start c fb p (b 0) g a Rw F s) in *.
  assert (W0 : wf (p_n p) s0) by (apply (start_wf c fb p op b g a Rw F s); assumption).
  assert (RR : real_response c (p_n p) (s_R s0)). { destruct (calc_raman c (s_fR s) p) as [r q] eqn:E. cbn [fst] in HR. subst r. exact (C29_setup_response_real_l c (s_fR s) p q Rw F E). }
  destruct (sol_exists c (p_n p) s0 1 (s_A s0) NS W0 RR (proj1 W0)) as (y & Y0 & S). exists y. split; [exact Y0|]. split; [exact S|]. split.
  - intros lo hi Hg z Hz. assert (EP : power_sum (IFFT_t a) = power_sum (y 0)) by (rewrite Y0; unfold s0, start; cbn [s_A]; unfold cfftshift; destruct (c_pre c); [now rewrite power_sum_fs|reflexivity]). rewrite EP.
    apply (sol_energy c (p_n p) s0 1 z y lo hi NS W0 RR (S z)); [|lra]. intros m Hm'. destruct An as (_ & _ & Lb & Lg).
    destruct (shift_in c (p_n p) (map (fun x => RtoC (- x)) g) m ltac:(now rewrite map_length) Hm') as (j & Hj & Ej). destruct (shift_in c (p_n p) (map RtoC (b 0)) m ltac:(now rewrite map_length) Hm') as (i & Hi & Ei).
    unfold s0, start. cbn [s_alpha s_betas]. rewrite Ej, Ei. rewrite (nth_map' (fun x => RtoC (- x)) g j 0) by congruence. rewrite (nth_map' RtoC (b 0) i 0) by (rewrite Lb; exact Hi). specialize (Hg j Hj). unfold Re, Im, RtoC. cbn [fst snd]. lra.
  - exact (C122_propagate_convergence_l c fb op s p a b g Rw F (L + 1) L y Hs1 Hst Hm He ltac:(lra) (S (L + 1)) (or_introl NS) Y0).
Qed.

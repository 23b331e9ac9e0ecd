(** The symmetric-looking METHOD_SSFM splitting: its linear step spans half the step, so it converges (with order one) to the equation with half the dispersion and half the gain (C127). *)
From Coq Require Import Reals List ZArith Bool Arith Lra Lia Psatz FunctionalExtensionality.
From Coquelicot Require Import Coquelicot.
From Verif Require Import Base CNum NumPy Spec ModelFFT FFTProofs ModelPulse PulseProofs PulseOpsProofs ModelSSFM SSFMLoopProofs SSFMProofs SSFMSymProofs SSFMErrProofs SSFMPropProofs SSFMGnlseProofs JetProofs RkJetProofs TaylorProofs RkOrderProofs ConvergeProofs GlobalOrderProofs.
From Verif Require Import SSFMRamanProofs GnlseFlowProofs.
Import ListNotations.
Local Open Scope R_scope.
Local Notation z0 := (RtoC 0).

(** ** The exponential near 0 *)
Lemma Rabs_Re_le z : Re z <= Cmod z. Proof. eapply Rle_trans; [apply Rle_abs|apply Re_le_Cmod]. Qed.
Lemma exp_le a b : a <= b -> exp a <= exp b. Proof. intros [H| ->]; [left; now apply exp_increasing|right; reflexivity]. Qed.
Lemma cexp_bound w : Cmod (cexp w) <= exp (Cmod w). Proof. rewrite cexp_Cmod. apply exp_le, Rabs_Re_le. Qed.
Lemma cexp_t w t : 0 <= t <= 1 -> Cmod (cexp (RtoC t * w)%C) <= exp (Cmod w).
Proof. intros Ht. eapply Rle_trans; [apply cexp_bound|]. apply exp_le. rewrite Cmod_mult, Cmod_R, Rabs_pos_eq by lra. pose proof (Cmod_ge_0 w). nra. Qed.
Lemma cexp_first w : Cmod (cexp w - RtoC 1)%C <= 2 * (Cmod w * exp (Cmod w)).
Proof.
  pose proof (cmvt_bound (fun t => cexp (RtoC t * w)%C) (fun t => (w * cexp (RtoC t * w))%C) 1 (Cmod w * exp (Cmod w)) ltac:(lra)) as Q. cbv beta in Q. rewrite Cmult_1_l, Cmult_0_l, cexp_0, Rmult_1_r in Q. apply Q.
  - intros t _. apply cderive_cexp.
  - intros t Ht. rewrite Cmod_mult. apply Rmult_le_compat_l; [apply Cmod_ge_0|now apply cexp_t].
Qed.
Lemma cexp_second w : Cmod (cexp w - RtoC 1 - w)%C <= 4 * (Cmod w ^ 2 * exp (Cmod w)).
Proof.
  pose proof (cmvt_bound (fun t => (cexp (RtoC t * w) - RtoC t * w)%C) (fun t => (w * cexp (RtoC t * w) - w)%C) 1 (2 * (Cmod w ^ 2 * exp (Cmod w))) ltac:(lra)) as Q. cbv beta in Q. rewrite !Cmult_1_l, Cmult_0_l, cexp_0, Rmult_1_r in Q.
  replace (cexp w - RtoC 1 - w)%C with (cexp w - w - (RtoC 1 - RtoC 0))%C by ring. replace (4 * (Cmod w ^ 2 * exp (Cmod w))) with (2 * (2 * (Cmod w ^ 2 * exp (Cmod w)))) by ring. apply Q.
  - intros t _. destruct (cderive_cexp w t) as [D1 D2]. destruct w as [p r]. split.
    + apply (is_derive_ext (fun t => Re (cexp (RtoC t * (p, r))%C) - t * p)); [intros x; cbn; ring|]. replace (Re ((p, r) * cexp (RtoC t * (p, r)) - (p, r))%C) with (Re ((p, r) * cexp (RtoC t * (p, r)))%C - p) by (cbn; ring).
      apply (is_derive_minus (fun t => Re (cexp (RtoC t * (p, r))%C)) (fun t => t * p)); [exact D1|]. auto_derive; [trivial|ring].
    + apply (is_derive_ext (fun t => Im (cexp (RtoC t * (p, r))%C) - t * r)); [intros x; cbn; ring|]. replace (Im ((p, r) * cexp (RtoC t * (p, r)) - (p, r))%C) with (Im ((p, r) * cexp (RtoC t * (p, r)))%C - r) by (cbn; ring).
      apply (is_derive_minus (fun t => Im (cexp (RtoC t * (p, r))%C)) (fun t => t * r)); [exact D2|]. auto_derive; [trivial|ring].
  - intros t Ht. replace (w * cexp (RtoC t * w) - w)%C with (w * (cexp (RtoC t * w) - RtoC 1))%C by ring. rewrite Cmod_mult. pose proof (Cmod_ge_0 w) as P. pose proof (cexp_first (RtoC t * w)%C) as F. rewrite Cmod_mult, Cmod_R, Rabs_pos_eq in F by lra.
    assert (E1 : exp (t * Cmod w) <= exp (Cmod w)) by (apply exp_le; nra). pose proof (exp_pos (t * Cmod w)). replace (2 * (Cmod w ^ 2 * exp (Cmod w))) with (Cmod w * (2 * (Cmod w * exp (Cmod w)))) by ring. apply Rmult_le_compat_l; [exact P|]. eapply Rle_trans; [exact F|].
    apply Rmult_le_compat_l; [lra|]. apply Rmult_le_compat; try lra; nra.
Qed.
Lemma cexp_diff w w' B : Cmod w <= B -> Cmod w' <= B -> Cmod (cexp w - cexp w')%C <= 2 * exp (3 * B) * Cmod (w - w')%C.
Proof.
  intros H1 H2. replace (cexp w - cexp w')%C with (cexp w' * (cexp (w - w') - RtoC 1))%C.
  - rewrite Cmod_mult. pose proof (cexp_bound w') as Q1. pose proof (cexp_first (w - w')%C) as Q2. pose proof (Cmod_triangle w (- w')%C) as Q3. rewrite Cmod_opp in Q3. change (w + - w')%C with (w - w')%C in Q3. pose proof (Cmod_ge_0 (w - w')%C) as P.
    assert (E1 : exp (Cmod w') <= exp B) by (apply exp_le; lra). assert (E2 : exp (Cmod (w - w')%C) <= exp (2 * B)) by (apply exp_le; lra). pose proof (exp_pos B). pose proof (exp_pos (2 * B)).
    replace (exp (3 * B)) with (exp B * exp (2 * B)) by (rewrite <- exp_plus; f_equal; ring).
    apply Rle_trans with (exp B * (2 * (Cmod (w - w')%C * exp (2 * B)))); [|right; ring]. apply Rmult_le_compat; try apply Cmod_ge_0; [lra|]. eapply Rle_trans; [exact Q2|]. apply Rmult_le_compat_l; [lra|]. now apply Rmult_le_compat_l.
  - assert (E : cexp w = (cexp (w - w') * cexp w')%C) by (rewrite <- cexp_add; f_equal; ring). rewrite E. ring.
Qed.

(** ** Families of maps F h v = v + h f + O(h^2) at v = A *)
Section First.
Variables (A : V) (BA : R).
Hypothesis HA : bnd A BA.
Definition first (F : R -> V -> V) (f : V) : Prop := exists K, 0 <= K /\ near (fun h => bnd (vd (F h A) (vp A (vs h f))) (K * h ^ 2)).
Lemma first_comp F G f g : ink A F -> ink A G -> first F f -> first G g -> first (fun h v => G h (F h v)) (vp f g).
Proof.
  intros (d1 & U1 & K1 & L1 & Pd1 & PU1 & PK1 & PL1 & H1) (d2 & U2 & K2 & L2 & Pd2 & PU2 & PK2 & PL2 & H2) (Kf & Pf & NF) (Kg & Pg & NG).
  exists (L2 * K1 + Kg + Kf). split; [nra|]. assert (N1 : near (fun h => h <= Rmin (Rmin U1 U2) (d2 / (K1 + 1)))) by (apply near_le; repeat apply Rmin_glb_lt; try assumption; apply Rdiv_lt_0_compat; lra).
  eapply near_imp; [|exact (near_and _ _ N1 (near_and _ _ NF NG))]. intros h Hh (Q1 & Q2 & Q3). cbv beta in *. pose proof (Rmin_l (Rmin U1 U2) (d2 / (K1 + 1))). pose proof (Rmin_r (Rmin U1 U2) (d2 / (K1 + 1))). pose proof (Rmin_l U1 U2). pose proof (Rmin_r U1 U2).
  destruct (H1 h ltac:(lra)) as [A1 _]. destruct (H2 h ltac:(lra)) as [_ A2]. pose proof (A1 A (vd_self A d1 ltac:(lra))) as QA. assert (Kd : K1 * h <= d2) by (apply Rle_trans with ((K1 + 1) * (d2 / (K1 + 1))); [apply Rmult_le_compat; lra|right; field; lra]).
  pose proof (A2 (F h A) A (K1 * h) (bnd_le _ _ _ QA Kd) (vd_self A d2 ltac:(lra)) QA) as QB.
  replace (vd (G h (F h A)) (vp A (vs h (vp f g)))) with (vp (vp (vd (vd (G h (F h A)) (F h A)) (vd (G h A) A)) (vd (G h A) (vp A (vs h g)))) (vd (F h A) (vp A (vs h f)))) by vx.
  eapply bnd_le; [apply bnd_vp; [apply bnd_vp; [exact QB|exact Q3]|exact Q2]|]. right. ring.
Qed.
Lemma first_dil F f : first F f -> first (fun h v => F (2 * h) v) (vs 2 f).
Proof.
  intros (K & PK & (U & PU & H)). exists (4 * K). split; [lra|]. exists (U / 2). split; [lra|]. intros h Hh. replace (vp A (vs h (vs 2 f))) with (vp A (vs (2 * h) f)) by vx. eapply bnd_le; [apply H; lra|]. right. ring.
Qed.
(** the kept step made of a one-step map S with extrapolation weight q *)
Definition keepS (S : R -> V -> V) (q h : R) (v : V) : V := let f := S h (S h v) in vp f (vs q (vd f (S (2 * h) v))).
Lemma ink_keepS S q : ink A S -> ink A (keepS S q).
Proof.
  intros HS. pose proof (ink_comp A _ _ HS HS) as F. pose proof (inc_dil A 2 _ ltac:(lra) HS) as C'. pose proof (inc_plus A _ _ F (inc_vs A q _ (inc_plus A _ _ F (inc_vs A (-1) _ C')))) as T.
  unfold ink. eapply inc_ext; [|exact T]. intros h v. cbv beta. unfold keepS. cbv zeta. vx.
Qed.
Lemma first_keepS S q f : ink A S -> first S f -> exists K, 0 <= K /\ near (fun h => bnd (vd (keepS S q h A) (vp A (vs (2 * h) f))) (K * h ^ 2)).
Proof.
  intros HS HF. destruct (first_comp S S f f HS HS HF HF) as (K1 & P1 & N1). destruct (first_dil S f HF) as (K2 & P2 & N2). pose proof (Rabs_pos q). exists (K1 + Rabs q * (K1 + K2)). split; [nra|].
  eapply near_imp; [|exact (near_and _ _ N1 N2)]. intros h Hh (Q1 & Q2). cbv beta in *. unfold keepS. cbv zeta. set (x := S h (S h A)) in *. set (y := S (2 * h) A) in *.
  replace (vd (vp x (vs q (vd x y))) (vp A (vs (2 * h) f))) with (vp (vd x (vp A (vs h (vp f f)))) (vs q (vp (vd x (vp A (vs h (vp f f)))) (vs (-1) (vd y (vp A (vs h (vs 2 f)))))))) by (extensionality k; unfold vd, vp, vs; rewrite ?RtoC_mult, ?RtoC_m1; replace (RtoC 2) with (RtoC 1 + RtoC 1)%C by (rewrite <- RtoC_plus; f_equal; ring); ring).
  eapply bnd_le; [apply bnd_vp; [exact Q1|apply bnd_vs, bnd_vp; [exact Q1|apply bnd_vs; exact Q2]]|]. right. rewrite (Rabs_left1 (-1)) by lra. ring.
Qed.
(** the pointwise exponential of a Lipschitz map *)
Definition Kv (m : V -> V) (h : R) (v : V) : V := pm (fun k => cexp (RtoC h * m v k)%C) v.
Lemma scaled z h B : 0 <= h <= 1 -> Cmod z <= B -> Cmod (RtoC h * z)%C <= h * B /\ h * B <= B.
Proof. intros Hh Hz. pose proof (Cmod_ge_0 z). rewrite Cmod_mult, Cmod_R, Rabs_pos_eq by lra. split; [apply Rmult_le_compat_l; lra|nra]. Qed.
Lemma near_one h z B : 0 <= h <= 1 -> Cmod z <= B -> Cmod (cexp (RtoC h * z) - RtoC 1)%C <= 2 * (B * exp B) * h.
Proof.
  intros Hh Hz. destruct (scaled z h B Hh Hz) as [S1 S2]. eapply Rle_trans; [apply cexp_first|]. set (x := Cmod (RtoC h * z)%C) in *. assert (E : exp x <= exp B) by (apply exp_le; lra). pose proof (exp_pos x). assert (0 <= x) by apply Cmod_ge_0.
  replace (2 * (B * exp B) * h) with (2 * (h * B * exp B)) by ring. apply Rmult_le_compat_l; [lra|]. apply Rmult_le_compat; lra.
Qed.
Lemma ink_kerr m : lipn A m -> ink A (Kv m).
Proof.
  intros (d & B & L & Pd & PB & PL & H1 & H2). pose proof (bnd_ge _ _ HA) as PA. pose proof (exp_pos B) as PE. pose proof (exp_pos (3 * B)) as PE3. pose proof (Rmin_l d 1) as H. pose proof (Rmin_r d 1).
  assert (P0 : 0 <= 2 * (B * exp B)) by (assert (0 <= B * exp B) by (apply Rmult_le_pos; lra); lra). assert (P1 : 0 <= 2 * exp (3 * B) * L * (1 + BA)) by (repeat apply Rmult_le_pos; lra).
  exists (Rmin d 1), 1, (2 * (B * exp B) * (1 + BA)), (2 * (B * exp B) + 2 * exp (3 * B) * L * (1 + BA)). split; [apply Rmin_glb_lt; lra|]. split; [lra|]. split; [apply Rmult_le_pos; lra|]. split; [lra|]. intros h Hh.
  assert (BV : forall v, bnd (vd v A) (Rmin d 1) -> bnd v (1 + BA)). { intros v Hv. replace v with (vp (vd v A) A) by vx. apply bnd_vp; [eapply bnd_le; [exact Hv|lra]|exact HA]. }
  assert (BM : forall v, bnd (vd v A) (Rmin d 1) -> bnd (m v) B) by (intros v Hv; apply H1; eapply bnd_le; [exact Hv|lra]). split.
  - intros v Hv k. unfold vd, vp, vs, Kv, pm. rewrite RtoC_m1. replace (cexp (RtoC h * m v k) * v k + - RtoC 1 * v k)%C with ((cexp (RtoC h * m v k) - RtoC 1) * v k)%C by ring. rewrite Cmod_mult.
    replace (2 * (B * exp B) * (1 + BA) * h) with (2 * (B * exp B) * h * (1 + BA)) by ring. apply Rmult_le_compat; try apply Cmod_ge_0; [apply near_one; [exact Hh|now apply BM]|now apply BV].
  - intros v w e Hv Hw He k. pose proof (bnd_ge _ _ He) as Pe. pose proof (H2 v w e (bnd_le _ _ d Hv H) (bnd_le _ _ d Hw H) He k) as HM. specialize (He k). unfold vd, vp, vs in HM, He |- *. unfold Kv, pm. rewrite RtoC_m1 in *.
    set (a := cexp (RtoC h * m v k)%C). set (b := cexp (RtoC h * m w k)%C). replace (a * v k + - RtoC 1 * v k + - RtoC 1 * (b * w k + - RtoC 1 * w k))%C with ((a - RtoC 1) * (v k + - RtoC 1 * w k) + (a - b) * w k)%C by ring.
    eapply Rle_trans; [apply Cmod_triangle|]. rewrite !Cmod_mult. replace ((2 * (B * exp B) + 2 * exp (3 * B) * L * (1 + BA)) * h * e) with (2 * (B * exp B) * h * e + 2 * exp (3 * B) * (h * (L * e)) * (1 + BA)) by ring.
    apply Rplus_le_compat; apply Rmult_le_compat; try apply Cmod_ge_0; [apply near_one; [exact Hh|now apply BM]|exact He| |now apply BV].
    destruct (scaled _ _ _ Hh (BM v Hv k)) as [S1 S2]. destruct (scaled _ _ _ Hh (BM w Hw k)) as [S3 S4]. eapply Rle_trans; [apply (cexp_diff _ _ B); lra|]. apply Rmult_le_compat_l; [lra|].
    replace (RtoC h * m v k - RtoC h * m w k)%C with (RtoC h * (m v k + - RtoC 1 * m w k))%C by ring. rewrite Cmod_mult, Cmod_R, Rabs_pos_eq by lra. apply Rmult_le_compat_l; [lra|exact HM].
Qed.
Lemma first_kerr m : lipn A m -> first (Kv m) (pm (m A) A).
Proof.
  intros (d & B & L & Pd & PB & PL & H1 & H2). pose proof (bnd_ge _ _ HA) as PA. pose proof (exp_pos B) as PE. pose proof (H1 A (vd_self A d ltac:(lra))) as BM. exists (4 * (B ^ 2 * exp B) * BA). assert (0 <= B ^ 2) by apply pow2_ge_0. split; [repeat apply Rmult_le_pos; lra|].
  eapply near_imp; [|exact (near_le 1 ltac:(lra))]. intros h Hh Hh1 k. cbv beta in Hh1. unfold vd, vp, vs, Kv, pm. rewrite RtoC_m1. set (w := (RtoC h * m A k)%C). destruct (scaled (m A k) h B ltac:(lra) (BM k)) as [S1 S2]. fold w in S1.
  replace (cexp w * A k + - RtoC 1 * (A k + RtoC h * (m A k * A k)))%C with ((cexp w - RtoC 1 - w) * A k)%C by (unfold w; ring). rewrite Cmod_mult. replace (4 * (B ^ 2 * exp B) * BA * h ^ 2) with (4 * ((h * B) ^ 2 * exp B) * BA) by ring.
  apply Rmult_le_compat; try apply Cmod_ge_0; [|apply HA]. eapply Rle_trans; [apply cexp_second|]. pose proof (Cmod_ge_0 w). apply Rmult_le_compat_l; [lra|]. apply Rmult_le_compat; [apply pow2_ge_0|left; apply exp_pos|apply pow_incr; lra|apply exp_le; lra].
Qed.
End First.

(** ** The medium METHOD_SSFM effectively propagates in: half the dispersion and half the gain *)
Definition halved (s : ssfm) : ssfm := mkS (s_A s) (s_dz s) (s_iter s) (s_lasth s) (s_lastdir s) (s_expD s) (map (fun b => b / RtoC 2)%C (s_betas s)) (map (fun a => a / RtoC 2)%C (s_alpha s)) (s_gamma s) (s_w0 s) (s_omegas s) (s_R s) (s_fR s).
Lemma halved_wf n s : wf n s -> wf n (halved s).
Proof. intros (H1 & H2 & H3 & H4 & H5). repeat split; cbn [halved s_A s_betas s_alpha s_R s_omegas]; rewrite ?map_length; assumption. Qed.
Lemma halved_P s d n : wf n s -> P s (d * (1 / 2)) = P (halved s) d.
Proof.
  intros W. pose proof (halved_wf n s W) as W'. apply (vec_extn n); [now apply P_length|now apply P_length|]. intros k Hk. rewrite !(P_nth n) by assumption. cbn [halved s_betas s_alpha]. destruct W as (_ & Lb & La & _).
  rewrite (nth_map' (fun b => b / RtoC 2)%C (s_betas s) k z0) by congruence. rewrite (nth_map' (fun b => b / RtoC 2)%C (s_alpha s) k z0) by congruence. f_equal. rewrite RtoC_mult, RtoC_div by lra. field. intro Q. apply RtoC_inj in Q. lra.
Qed.
Section Medium2.
Variables (c : cfg) (n : nat) (s : ssfm) (dir : R).
Hypothesis W : wf n s.
Lemma NLv_lip A : (exists B, bnd A B) -> smooth_at c n A -> lipn A (NLv c n s).
Proof.
  intros HA SM. pose proof (lipn_id A HA) as T0. pose proof (lipn_lin _ _ _ (linear_tr n) T0) as T1. pose proof (lipn_lin _ _ _ linear_cj T1) as T2. pose proof (lipn_pm _ _ _ T1 T2) as TA2.
  pose proof (lipn_lin _ _ _ (linear_diag c n _ (wfR n s W)) TA2) as TR. pose proof (lipn_lin _ _ _ (linear_cs (Ci * RtoC (s_gamma s))%C) TR) as TG.
  unfold NLv. destruct (c_noSS c) eqn:Ess; [exact TG|]. destruct SM as [SM|SM]; [congruence|].
  pose proof (lipn_lin _ _ _ (linear_diag c n _ (wfR n s W)) (lipn_lin _ _ _ (linear_diag c n _ (om_length n s W)) TA2)) as TD2.
  assert (QQ : 0 <= / 10 ^ 20 < / 10 ^ 15) by (split; [left; apply Rinv_0_lt_compat, pow_lt; lra|apply Rinv_lt_contravar; [apply Rmult_lt_0_compat; apply pow_lt; lra|apply Rlt_pow; [lra|lia]]]).
  pose proof (lipn_rcp A n (/ 10 ^ 15) (/ 10 ^ 20) QQ SM) as TC.
  pose proof (lipn_pm _ _ _ TC (lipn_pm _ _ _ (lipn_lin _ _ _ (linear_diag c n _ (om_length n s W)) T0) TR)) as TW.
  exact (lipn_plus _ _ _ TG (lipn_lin _ _ _ (linear_vs (- (s_gamma s / s_w0 s))) (lipn_plus _ _ _ TD2 TW))).
Qed.
Definition mv (v : V) : V := vs dir (tr n (NLv c n s v)).
Lemma mv_lip A : (exists B, bnd A B) -> smooth_at c n A -> lipn A mv.
Proof. intros HA SM. exact (lipn_lin _ _ _ (linear_vs dir) (lipn_lin _ _ _ (linear_tr n) (NLv_lip A HA SM))). Qed.
Lemma mv_Nv v : pm (mv v) v = Nv c n s dir v.
Proof. extensionality k. unfold pm, mv, Nv, vs, pm. rewrite !tr_nth. destruct (lt_dec (snd k) n); ring. Qed.
Lemma kerr_len h x : length x = n -> length (kerr c s x h dir) = n.
Proof. intros L. unfold kerr. apply len_vmul; [apply len_map, nonlinear_length|]; assumption. Qed.
Lemma kerr_emb h x : (forall t, length (x t) = n) -> Kv mv h (emb x) = emb (fun t => kerr c s (x t) h dir).
Proof.
  intros L. assert (LN : forall t, length (nonlinear c s (x t)) = n) by (intros; apply nonlinear_length; auto). pose proof (Nv_emb c n s dir W x L) as E. rewrite <- mv_Nv in E. extensionality k. pose proof (equal_f E k) as Ek. unfold pm, emb in Ek |- *. unfold Kv, pm, kerr.
  rewrite vmul_nth by (rewrite map_length, LN, L; reflexivity). rewrite vscale_nth, vmul_nth in Ek by (rewrite LN, L; reflexivity). set (xk := nth (snd k) (x (fst k)) z0) in *. change (emb x k) with xk. destruct (lt_dec (snd k) n) as [Hk|Hk].
  - rewrite (nth_map' (fun z => cexp (RtoC (h * dir) * z)%C) _ _ z0) by (rewrite LN; exact Hk). destruct (Ceq_dec xk z0) as [Z|Z]; [rewrite Z; ring|]. f_equal. f_equal. rewrite RtoC_mult. rewrite <- Cmult_assoc. f_equal. apply (f_equal (fun z => z / xk)%C) in Ek. 
    set (g := nth (snd k) (nonlinear c s (x (fst k))) z0) in *. match type of Ek with (?a * xk / xk)%C = _ => replace a with (a * xk / xk)%C by (field; exact Z) end. rewrite Ek. field. exact Z.
  - assert (Z : xk = z0) by (unfold xk; apply nth_overflow; rewrite L; lia). rewrite Z. ring.
Qed.
(** the step of METHOD_SSFM *)
Definition Sv (h : R) (v : V) : V := if Req_EM_T dir 1 then Kv mv h (Ev c n (halved s) dir h v) else Ev c n (halved s) dir h (Kv mv h v).
Definition sp (h : R) (x : list C) : list C := let E := calc_expD h dir (s_betas s) (s_alpha s) in if Req_EM_T dir 1 then kerr c s (diag c E x) h dir else diag c E (kerr c s x h dir).
Lemma E_len h : length (calc_expD h dir (s_betas s) (s_alpha s)) = n. Proof. rewrite expD_P. now apply P_length. Qed.
Lemma sp_len h x : length x = n -> length (sp h x) = n.
Proof. intros L. unfold sp. cbv zeta. destruct (Req_EM_T dir 1); [apply kerr_len, len_diag; [apply E_len|exact L]|apply len_diag; [apply E_len|now apply kerr_len]]. Qed.
Lemma sp_emb h x : (forall t, length (x t) = n) -> Sv h (emb x) = emb (fun t => sp h (x t)).
Proof.
  intros L. assert (EE : calc_expD h dir (s_betas s) (s_alpha s) = P (halved s) (dir * h)) by (rewrite expD_P; now apply (halved_P s (dir * h) n)).
  unfold Sv, sp. cbv zeta. destruct (Req_EM_T dir 1).
  - rewrite (Ev_emb c n (halved s) dir h x L). rewrite kerr_emb by (intros; apply len_diag; [rewrite <- EE; apply E_len|apply L]). now rewrite EE.
  - rewrite (kerr_emb h x L). rewrite (Ev_emb c n (halved s) dir h (fun t => kerr c s (x t) h dir)) by (intros; apply kerr_len, L). now rewrite EE.
Qed.
Lemma ev_first A BA : bnd A BA -> first A (fun h v => Ev c n (halved s) dir h v) (Dv c n (halved s) dir A).
Proof.
  intros HA. pose proof (halved_wf n s W) as W'. destruct (Ev_exp c n (halved s) dir W' 1 (fun _ => A) (bounded_const A BA HA)) as (r & (Br & Hr) & E). set (D := Dv c n (halved s) dir) in *.
  destruct (Dv_linear c n (halved s) dir W') as (_ & _ & M & PM & HM). fold D in HM. set (B2 := M * (M * BA)). assert (H2 : bnd (D (D A)) B2) by (apply HM, HM, HA). assert (H3 : bnd (D (D (D A))) (M * B2)) by now apply HM. assert (H4 : bnd (D (D (D (D A)))) (M * (M * B2))) by now apply HM. assert (H5 : bnd (D (D (D (D (D A))))) (M * (M * (M * B2)))) by now apply HM.
  pose proof (bnd_ge _ _ H2). pose proof (bnd_ge _ _ H3). pose proof (bnd_ge _ _ H4). pose proof (bnd_ge _ _ H5).
  assert (PB : 0 <= Rabs Br) by apply Rabs_pos. exists (B2 + M * B2 + M * (M * B2) + M * (M * (M * B2)) + Rabs Br). split; [lra|]. eapply near_imp; [|exact (near_and _ _ (near_le 1 ltac:(lra)) (near_and _ _ Hr E))]. intros h Hh (Q1 & Q2 & Q3). cbv beta in *. rewrite Rmult_1_l in Q3. rewrite Q3. unfold texp.
  set (d2 := D (D A)) in *. set (d3 := D d2) in *. set (d4 := D d3) in *. set (d5 := D d4) in *.
  match goal with |- bnd ?x _ => replace x with (vs (h ^ 2) (vp (vp (vp (vp (vs (/ 2) d2) (vs (h / 6) d3)) (vs (h ^ 2 / 24) d4)) (vs (h ^ 3 / 120) d5)) (vs (h ^ 4) (r h)))) end.
  - assert (P2 : 0 <= h ^ 2) by (apply pow_le; exact Hh). match goal with |- bnd _ (?b * _) => set (bb := b); replace (bb * h ^ 2) with (Rabs (h ^ 2) * bb) by (rewrite Rabs_pos_eq by exact P2; ring) end. apply bnd_vs. unfold bb.
    assert (PW : forall j, 0 <= h ^ j <= 1) by (intros j; split; [apply pow_le; exact Hh|rewrite <- (pow1 j); apply pow_incr; lra]).
    assert (SC : forall r v B, 0 <= r <= 1 -> bnd v B -> bnd (vs r v) B). { intros r0 v B Hr0 Hv. pose proof (bnd_ge _ _ Hv). eapply bnd_le; [apply bnd_vs, Hv|]. rewrite Rabs_pos_eq by lra. nra. }
    pose proof (PW 2%nat). pose proof (PW 3%nat). pose proof (PW 4%nat).
    repeat apply bnd_vp; apply SC; try lra; try assumption. eapply bnd_le; [exact Q2|apply Rle_abs].
  - extensionality k. unfold vd, vp, vs. rewrite RtoC_m1. replace (h ^ 6) with (h ^ 2 * h ^ 4) by ring. replace (h ^ 2 / 2) with (h ^ 2 * / 2) by (unfold Rdiv; ring). replace (h ^ 3 / 6) with (h ^ 2 * (h / 6)) by (unfold Rdiv; ring). replace (h ^ 4 / 24) with (h ^ 2 * (h ^ 2 / 24)) by (unfold Rdiv; ring). replace (h ^ 5 / 120) with (h ^ 2 * (h ^ 3 / 120)) by (unfold Rdiv; ring).
    rewrite !RtoC_mult. generalize (RtoC (h ^ 2)) (RtoC (/ 2)) (RtoC (h / 6)) (RtoC (h ^ 2 / 24)) (RtoC (h ^ 3 / 120)) (RtoC (h ^ 4)). intros. ring.
Qed.
End Medium2.
Section SplitPath.
Variables (c : cfg) (n : nat) (s : ssfm) (dir Z L : R) (y : R -> list C).
Hypothesis W : wf n s.
Hypothesis PL : 0 <= L.
Hypothesis LZ : L < Z.
Hypothesis SOL : gnlse_solution c n (halved s) dir Z y.
Hypothesis OFF : off_path c n Z y.
Let s2 := halved s.
Let W2 : wf n s2 := halved_wf n s W.
Let A := fam y L.
Let Y (u : R) : V := emb (fun t => y (cl L t + u)).
Let N := Nv c n s2 dir.
Let D := Dv c n s2 dir.
Lemma yl z : length (y z) = n. Proof. apply SOL. Qed.
Lemma bA2 : exists B, bnd A B. Proof. exact (bA c n s2 dir Z L y PL LZ SOL). Qed.
Lemma sA2 : smooth_at c n A. Proof. exact (sA c n s2 dir Z L y PL LZ SOL OFF). Qed.
Lemma first_Y : exists K, 0 <= K /\ near (fun h => bnd (vd (Y h) (vp A (vs h (vp (D A) (N A))))) (K * h ^ 2)).
Proof.
  destruct (fam_sol c n s2 dir Z L y W2 PL LZ SOL OFF) as (A1 & DY). fold A in A1. fold N D in DY. change (fun u : R => emb (fun t : R => y (cl L t + u))) with Y in A1.
  assert (DY' : near (fun z => forall k, is_cderive (fun u => Y u k) z (vp (D (Y z)) (N (Y z)) k))) by exact DY. clear DY.
  destruct (app_sum 1 _ _ A1) as (r & (Br & Hr) & E). assert (LG : lipn A (fun v => vp (D v) (N v))) by (apply lipn_plus; [apply (lipn_lin A (fun v => v) D (Dv_linear c n s2 dir W2)), lipn_id, bA2|apply (Nv_lip c n s2 dir W2 A bA2 sA2)]).
  destruct LG as (d & B & Lp & Pd & PB & PLp & _ & HG). set (b := Rabs Br). assert (Pb : 0 <= b) by apply Rabs_pos. exists (2 * (Lp * b)). split; [nra|].
  assert (N1 : near (fun h => h <= d / (b + 1))) by (apply near_le, Rdiv_lt_0_compat; lra). destruct (near_and _ _ N1 (near_and _ _ DY' (near_and _ _ Hr E))) as (U & PU & H). exists U. split; [exact PU|]. intros h Hh k.
  assert (NY : forall u, 0 <= u <= U -> bnd (vd (Y u) A) (b * u) /\ b * u <= d).
  { intros u Hu. destruct (H u Hu) as (Q1 & _ & Q3 & Q4). cbn [psum pow] in Q4. split.
    - rewrite Q4. replace (vd (vp (vp A (vs u v0)) (vs (u * 1) (r u))) A) with (vs u (r u)) by (rewrite Rmult_1_r; vx). replace (b * u) with (Rabs u * b) by (rewrite Rabs_pos_eq by lra; ring). apply bnd_vs. eapply bnd_le; [exact Q3|apply Rle_abs].
    - apply Rle_trans with ((b + 1) * (d / (b + 1))); [apply Rmult_le_compat; lra|right; field; lra]. }
  assert (GY : forall u, 0 <= u <= h -> Cmod (vp (D (Y u)) (N (Y u)) k - vp (D A) (N A) k)%C <= Lp * b * h).
  { intros u Hu. destruct (NY u ltac:(lra)) as [Q1 Q2]. pose proof (HG (Y u) A (b * u) (bnd_le _ _ _ Q1 Q2) (vd_self A d ltac:(lra)) Q1 k) as Q. cbv beta in Q. unfold vd in Q. unfold vp at 1, vs in Q. rewrite RtoC_m1 in Q.
    replace (vp (D (Y u)) (N (Y u)) k - vp (D A) (N A) k)%C with (vp (D (Y u)) (N (Y u)) k + - RtoC 1 * vp (D A) (N A) k)%C by ring. eapply Rle_trans; [exact Q|]. rewrite Rmult_assoc. apply Rmult_le_compat_l; [exact PLp|]. apply Rmult_le_compat_l; lra. }
  set (g := vp (D A) (N A)) in *. assert (Y0 : Y 0 = A) by (exact (Y_0 L y)). destruct (Req_dec h 0) as [Z0|NZ].
  { rewrite Z0, Y0. unfold vd, vp, vs. rewrite RtoC_m1. replace (A k + - RtoC 1 * (A k + RtoC 0 * g k))%C with z0 by ring. rewrite Cmod_0. lra. }
  pose proof (cmvt_bound (fun u => (Y u k - RtoC u * g k)%C) (fun u => (vp (D (Y u)) (N (Y u)) k - g k)%C) h (Lp * b * h) ltac:(lra)) as Q. cbv beta in Q. rewrite Y0 in Q. unfold vd, vp, vs. rewrite RtoC_m1.
  replace (Y h k + - RtoC 1 * (A k + RtoC h * g k))%C with (Y h k - RtoC h * g k - (A k - RtoC 0 * g k))%C by ring. replace (2 * (Lp * b) * h ^ 2) with (2 * (Lp * b * h * h)) by ring. apply Q; [|exact GY].
  intros u Hu. destruct (H u ltac:(lra)) as (_ & DU & _). specialize (DU k). set (l := vp (D (Y u)) (N (Y u)) k) in *. destruct DU as [D1 D2]. destruct (g k) as [p q]. destruct l as [l1 l2]. split.
  - apply (is_derive_ext (fun u => Re (Y u k) - u * p)); [intros x; generalize (Y x k); intros [? ?]; cbn; ring|]. replace (Re ((l1, l2) - (p, q))%C) with (Re (l1, l2) - p) by (cbn; ring). apply (is_derive_minus (fun u => Re (Y u k)) (fun u => u * p)); [exact D1|]. auto_derive; [trivial|ring].
  - apply (is_derive_ext (fun u => Im (Y u k) - u * q)); [intros x; generalize (Y x k); intros [? ?]; cbn; ring|]. replace (Im ((l1, l2) - (p, q))%C) with (Im (l1, l2) - q) by (cbn; ring). apply (is_derive_minus (fun u => Im (Y u k)) (fun u => u * q)); [exact D2|]. auto_derive; [trivial|ring].
Qed.
Let S := Sv c n s dir.
Lemma S_ink : ink A S.
Proof.
  destruct bA2 as (B & HB). assert (IE : ink A (Ev c n s2 dir)) by exact (inc_E0 A B (Ev c n s2 dir) HB (Ev_add c n s2 dir W2) (Ev_hom c n s2 dir W2) (Ev_near c n s2 dir W2)). assert (IK : ink A (Kv (mv c n s dir))) by exact (ink_kerr A B HB _ (mv_lip c n s dir W A bA2 sA2)).
  unfold S, Sv. destruct (Req_EM_T dir 1); [exact (ink_comp A _ _ IE IK)|exact (ink_comp A _ _ IK IE)].
Qed.
Lemma S_first : first A S (vp (D A) (N A)).
Proof.
  destruct bA2 as (B & HB). assert (IE : ink A (Ev c n s2 dir)) by exact (inc_E0 A B (Ev c n s2 dir) HB (Ev_add c n s2 dir W2) (Ev_hom c n s2 dir W2) (Ev_near c n s2 dir W2)). assert (IK : ink A (Kv (mv c n s dir))) by exact (ink_kerr A B HB _ (mv_lip c n s dir W A bA2 sA2)).
  pose proof (ev_first c n s dir W A B HB) as FE. pose proof (first_kerr A B HB _ (mv_lip c n s dir W A bA2 sA2)) as FK. rewrite mv_Nv in FK. change (Nv c n s dir A) with (N A) in FK.
  unfold S, Sv. destruct (Req_EM_T dir 1); [exact (first_comp A _ _ _ _ IE IK FE FK)|]. rewrite vp_comm. exact (first_comp A _ _ _ _ IK IE FK FE).
Qed.
Lemma split_local q : exists K h0, 0 <= K /\ 0 < h0 <= 1 /\ forall h, 0 <= h <= h0 -> bnd (vd (keepS S q h A) (Y (2 * h))) (K * h ^ 2).
Proof.
  destruct (first_keepS A S q _ S_ink S_first) as (K1 & P1 & h1 & Ph1 & H1). destruct first_Y as (K2 & P2 & h2 & Ph2 & H2). pose proof (Rmin_l h1 (Rmin (h2 / 2) 1)). pose proof (Rmin_r h1 (Rmin (h2 / 2) 1)). pose proof (Rmin_l (h2 / 2) 1). pose proof (Rmin_r (h2 / 2) 1).
  exists (K1 + 4 * K2), (Rmin h1 (Rmin (h2 / 2) 1)). split; [lra|]. split; [split; [repeat apply Rmin_glb_lt; lra|lra]|]. intros h Hh. set (g := vp (D A) (N A)) in *.
  replace (vd (keepS S q h A) (Y (2 * h))) with (vp (vd (keepS S q h A) (vp A (vs (2 * h) g))) (vs (-1) (vd (Y (2 * h)) (vp A (vs (2 * h) g))))) by (generalize (keepS S q h A) (Y (2 * h)) g; intros; vx).
  eapply bnd_le; [apply bnd_vp; [apply H1; lra|apply bnd_vs, H2; lra]|]. right. rewrite (Rabs_left1 (-1)) by lra. ring.
Qed.
Lemma adv_sp c' x h : c_method c' = METHOD_SSFM -> c_noSS c' = c_noSS c -> c_pre c' = c_pre c -> adv_with c' s (calc_expD h dir (s_betas s) (s_alpha s)) x h dir = sp c s dir h x.
Proof.
  intros Hm H1 H2. unfold adv_with, sp. rewrite Hm. cbv zeta. assert (DI : forall E a, diag c' E a = diag c E a) by (intros; unfold diag, ifft_t, fft_t; now rewrite H2). assert (KE : forall a, kerr c' s a h dir = kerr c s a h dir) by (intros; unfold kerr; now rewrite (nonlinear_cfg c c') by assumption).
  destruct (Req_EM_T dir 1); now rewrite KE, DI.
Qed.
Opaque sp.
Local Notation sp := (sp c s dir).
Definition keeps (q h : R) (x : list C) : list C := let f := sp h (sp h x) in vadd f (vscale (RtoC q) (vsub f (sp (2 * h) x))).
Lemma sp_len' h x : length x = n -> length (sp h x) = n. Proof. exact (sp_len c n s dir W h x). Qed.
Lemma keeps_emb q h X : (forall t, length (X t) = n) -> keepS S q h (emb X) = emb (fun t => keeps q h (X t)).
Proof.
  intros LX. unfold keepS. cbv zeta. unfold S. rewrite (sp_emb c n s dir W h X LX), (sp_emb c n s dir W h (fun t => sp h (X t))) by (intros; apply sp_len', LX). rewrite (sp_emb c n s dir W (2 * h) X LX). unfold keeps. cbv zeta.
  set (f := fun t => sp h (sp h (X t))). set (g := fun t => sp (2 * h) (X t)). assert (Lf : forall t, length (f t) = n) by (intros; apply sp_len', sp_len'; auto). assert (Lg : forall t, length (g t) = n) by (intros; apply sp_len'; auto).
  change (vp (emb f) (vs q (vd (emb f) (emb g))) = emb (fun t => vadd (f t) (vscale (RtoC q) (vsub (f t) (g t))))).
  rewrite (emb_vadd f (fun t => vscale (RtoC q) (vsub (f t) (g t)))) by (intros; rewrite vscale_length, vsub_length; congruence). rewrite (emb_vscale q (fun t => vsub (f t) (g t))), (emb_vsub f g) by (intros; congruence). reflexivity.
Qed.
Lemma split_step q : exists d h0 M K, 0 < d /\ 0 < h0 <= 1 /\ 0 <= M /\ 0 <= K /\ forall t h x e, 0 <= t <= L -> 0 < h <= h0 -> length x = n -> (forall k, (k < n)%nat -> Cmod (nth k x z0 - nth k (y t) z0)%C <= e) -> 0 <= e <= d ->
  forall k, (k < n)%nat -> Cmod (nth k (keeps q h x) z0 - nth k (y (t + 2 * h)) z0)%C <= (1 + M * h) * e + K * h ^ 2.
Proof.
  destruct (split_local q) as (K & h1 & PK & Ph1 & HL). destruct (ink_stable A (keepS S q) (ink_keepS A S q S_ink)) as (d & U & M & Pd & PU & PM & HS).
  pose proof (Rmin_l h1 U). pose proof (Rmin_r h1 U). exists d, (Rmin h1 U), M, K. split; [exact Pd|]. split; [split; [apply Rmin_glb_lt; lra|lra]|]. split; [exact PM|]. split; [exact PK|]. intros t h x e Ht Hh Lx Hx He k Hk.
  set (X := fun t' => vadd (y (cl L t')) (vsub x (y t))). assert (Ld : length (vsub x (y t)) = n) by (apply len_vsub; [exact Lx|apply yl]). assert (LX : forall t', length (X t') = n) by (intros; apply len_vadd; [apply yl|exact Ld]).
  assert (EX : X t = x). { unfold X. rewrite (cl_id L t Ht). apply (vec_extn n); [apply len_vadd; [apply yl|exact Ld]|exact Lx|]. intros i Hi. rewrite vadd_nth by (rewrite yl; congruence). rewrite vsub_nth by (rewrite yl; congruence). ring. }
  assert (HX : bnd (vd (emb X) A) e). { intros [t' i]. unfold vd, vp, vs, A, fam, emb, X. cbn [fst snd]. rewrite vadd_nth by (rewrite yl; congruence). rewrite vsub_nth by (rewrite yl; congruence). rewrite RtoC_m1.
    replace (nth i (y (cl L t')) z0 + (nth i x z0 - nth i (y t) z0) + - RtoC 1 * nth i (y (cl L t')) z0)%C with (nth i x z0 - nth i (y t) z0)%C by ring. destruct (lt_dec i n) as [Hi|Hi]; [now apply Hx|]. rewrite !nth_overflow by (rewrite ?yl; lia). replace (z0 - z0)%C with z0 by ring. rewrite Cmod_0. lra. }
  pose proof (HS h (emb X) e ltac:(lra) HX ltac:(lra)) as Q1. pose proof (HL h ltac:(lra)) as Q2. pose proof (bnd_vp _ _ _ _ Q1 Q2 (t, k)) as Q. rewrite (keeps_emb q h X LX) in Q.
  unfold vp at 1, vd at 1, vp at 1, vs at 1 in Q. unfold vd, vp, vs in Q. rewrite RtoC_m1 in Q. set (kA := keepS S q h A (t, k)) in *. unfold Y, emb in Q. cbn [fst snd] in Q. rewrite EX, (cl_id L t Ht) in Q.
  match goal with |- Cmod ?z <= _ => match type of Q with Cmod ?w <= _ => replace z with w by ring end end. exact Q.
Qed.
Lemma split_run : (2 <= c_eta c)%nat -> exists K H0, 0 <= K /\ 0 < H0 <= 1 /\ forall c' s' steps B H,
  c_method c' = METHOD_SSFM -> c_eta c' = c_eta c -> c_noSS c' = c_noSS c -> c_pre c' = c_pre c -> same_medium s' s -> kept c' s' dir (y 0) steps B -> 0 < H <= H0 -> (forall h, In h steps -> h <= H) -> lrsum (List.tl steps) <= L ->
  length B = n /\ (forall h, In h steps -> 0 < h) /\ forall k, (k < n)%nat -> Cmod (nth k B z0 - nth k (y (lrsum steps)) z0)%C <= K * H ^ 1.
Proof.
  intros He. set (p := 1%nat). destruct (split_step (q_of (c_eta c))) as (d & h0 & M & K & Pd & Ph0 & PM & PK & HS).
  set (F := fun H T => K * T * H ^ p * exp (M * T)). set (K' := K * (L + 2) * exp (M * (L + 2))). assert (PK' : 0 <= K') by (apply Rmult_le_pos; [apply Rmult_le_pos; lra|left; apply exp_pos]).
  set (H0 := Rmin h0 (d / (K' + 1))). assert (PH0 : 0 < H0) by (apply Rmin_glb_lt; [lra|apply Rdiv_lt_0_compat; lra]). pose proof (Rmin_l h0 (d / (K' + 1))) as M1. pose proof (Rmin_r h0 (d / (K' + 1))) as M2. fold H0 in M1, M2.
  assert (Pp : (1 <= p)%nat) by (unfold p; lia).
  assert (HFK : forall H T, 0 < H <= H0 -> 0 <= T <= L + 2 -> 0 <= F H T <= K' * H ^ p).
  { intros H T HH HT. assert (PHp : 0 <= H ^ p) by (apply pow_le; lra). pose proof (exp_pos (M * T)) as Pe. assert (X : exp (M * T) <= exp (M * (L + 2))). { assert (M * T <= M * (L + 2)) by (apply Rmult_le_compat_l; lra). destruct (Rle_lt_or_eq_dec _ _ H1) as [G|G]; [left; now apply exp_increasing|right; now rewrite G]. }
    unfold F, K'. split; [apply Rmult_le_pos; [apply Rmult_le_pos; [apply Rmult_le_pos; lra|exact PHp]|lra]|]. replace (K * (L + 2) * exp (M * (L + 2)) * H ^ p) with (K * (L + 2) * H ^ p * exp (M * (L + 2))) by ring.
    apply Rmult_le_compat; [apply Rmult_le_pos; [apply Rmult_le_pos; lra|exact PHp]|lra| |exact X]. apply Rmult_le_compat_r; [exact PHp|]. apply Rmult_le_compat_l; lra. }
  assert (HpH : forall H, 0 < H <= H0 -> H ^ p <= H). { intros H HH. destruct p as [|p']; [lia|]. cbn [pow]. assert (H ^ p' <= 1) by (rewrite <- (pow1 p'); apply pow_incr; lra). assert (0 <= H ^ p') by (apply pow_le; lra). nra. }
  assert (HFd : forall H, 0 < H <= H0 -> K' * H ^ p <= d). { intros H HH. apply Rle_trans with ((K' + 1) * (d / (K' + 1))); [|right; field; lra]. pose proof (HpH H HH). assert (0 <= H ^ p) by (apply pow_le; lra). apply Rmult_le_compat; lra. }
  exists K', H0. split; [exact PK'|]. split; [lra|]. intros c' s' steps B H Hm' He' Hs' Hp' SM KP HH. 
  assert (G : (forall h, In h steps -> h <= H) -> lrsum (List.tl steps) <= L -> length B = n /\ (forall h, In h steps -> 0 < h) /\ 0 <= lrsum steps /\ forall k, (k < n)%nat -> Cmod (nth k B z0 - nth k (y (lrsum steps)) z0)%C <= F H (lrsum steps)).
  { induction KP as [|st h A1 B Ph KP IH [_ GE]]; intros Hst Hl.
    - split; [apply yl|]. split; [intros h []|]. split; [cbn; lra|]. intros k Hk. cbn [lrsum fold_right]. unfold Cminus. rewrite Cplus_opp_r, Cmod_0. unfold F. rewrite Rmult_0_r, !Rmult_0_l. lra.
    - cbn [List.tl] in Hl. destruct IH as (LA1 & PS & PT & IH); [intros; apply Hst; now right|destruct st as [|a st]; cbn [List.tl] in *; [cbn; lra|]|].
      { pose proof (kept_pos _ _ _ _ _ _ KP a ltac:(now left)). change (lrsum (a :: st)) with (a + lrsum st) in Hl. lra. }
      set (T := lrsum st) in *. change (lrsum (2 * h :: st)) with (2 * h + T). pose proof (Hst (2 * h) ltac:(now left)) as HhH.
      assert (EB : forall k, (k < n)%nat -> nth k B z0 = nth k (keeps (q_of (c_eta c)) h A1) z0).
      { destruct GE as [LB GE]. rewrite LA1 in LB. intros k Hk. specialize (GE k ltac:(lia)). assert (FE : forall x h', 0 < h' -> advance_fresh c' s' x h' dir = sp h' x).
        { intros x h' Ph'. rewrite (fresh_medium c' s' s x h' dir Ph' SM), advance_fresh_eq by exact Ph'. now apply adv_sp. }
        rewrite !FE in GE by lra. rewrite He' in GE. unfold keeps. cbv zeta. set (f := sp h (sp h A1)) in *. set (g := sp (2 * h) A1) in *. assert (Lf : length f = n) by (intros; apply sp_len', sp_len'; auto). assert (Lg : length g = n) by (apply sp_len'; auto).
        rewrite vadd_nth by (rewrite vscale_length, vsub_length; congruence). rewrite vscale_nth, vsub_nth by congruence. unfold q_of. set (P2 := 2 ^ (c_eta c - 1)) in *. assert (P2' : 2 <= P2). { unfold P2. destruct (c_eta c) as [|[|e]]; try lia. cbn [Nat.sub]. cbn [pow]. pose proof (pow_R1_Rle 2 e ltac:(lra)). lra. }
        assert (NZ : (RtoC P2 - RtoC 1)%C <> RtoC 0) by (rewrite <- RtoC_minus; intro Q; apply RtoC_inj in Q; lra). rewrite RtoC_inv, RtoC_minus by lra.
        transitivity ((RtoC P2 * nth k f z0 - nth k g z0) / (RtoC P2 - RtoC 1))%C; [|field; exact NZ].
        assert (Q : ((RtoC P2 - RtoC 1) * nth k B z0 = RtoC P2 * nth k f z0 - nth k g z0)%C) by (replace (nth k g z0) with (RtoC P2 * (nth k f z0 - nth k B z0) + nth k B z0)%C by (rewrite GE; ring); ring). rewrite <- Q. field. exact NZ. }
      split; [destruct GE as [LB _]; congruence|]. split; [intros h' [<-|Hin]; [lra|now apply PS]|]. split; [lra|]. intros k Hk. rewrite (EB k Hk). destruct (HFK H T HH ltac:(lra)) as [PF HF]. pose proof (HFd H HH) as HF2.
      replace (2 * h + T) with (T + 2 * h) by ring. eapply Rle_trans; [apply (HS T h A1 (F H T)); try assumption; try lra; intros; now apply IH|].
      assert (PHp : 0 <= H ^ p) by (apply pow_le; lra). assert (E1 : exp (M * (T + 2 * h)) = exp (M * T) * exp (M * (2 * h))) by (rewrite <- exp_plus; f_equal; ring).
      pose proof (one_exp M h ltac:(apply Rmult_le_pos; lra)) as OE. pose proof (exp_pos (M * T)) as P1. pose proof (exp_pos (M * (2 * h))) as P2. assert (G1 : 1 <= exp (M * (T + 2 * h))) by (pose proof (exp_ineq1_le (M * (T + 2 * h))); assert (0 <= M * (T + 2 * h)) by (apply Rmult_le_pos; lra); lra).
      unfold F. replace (K * (T + 2 * h) * H ^ p * exp (M * (T + 2 * h))) with (exp (M * (2 * h)) * (K * T * H ^ p * exp (M * T)) + K * (2 * h) * H ^ p * exp (M * (T + 2 * h))) by (rewrite E1; ring).
      apply Rplus_le_compat; [apply Rmult_le_compat_r; [exact PF|exact OE]|]. change (h ^ 2) with (h * h ^ p). rewrite <- (Rmult_1_r (K * (h * h ^ p))). apply Rmult_le_compat; [apply Rmult_le_pos; [exact PK|apply Rmult_le_pos; [lra|apply pow_le; lra]]|lra| |exact G1].
      rewrite Rmult_assoc. apply Rmult_le_compat_l; [exact PK|]. apply Rmult_le_compat; [lra|apply pow_le; lra|lra|]. apply pow_incr. lra. }
  intros Hst Hl. destruct (G Hst Hl) as (LB & PS & PT & HB). split; [exact LB|]. split; [exact PS|]. intros k Hk. eapply Rle_trans; [apply (HB k Hk)|]. apply HFK; [exact HH|]. split; [exact PT|].
  destruct steps as [|a st]; [cbn; lra|]. change (lrsum (a :: st)) with (a + lrsum st). cbn [List.tl] in Hl. pose proof (Hst a ltac:(now left)). lra.
Qed.
End SplitPath.

(** ** Statements *)
(** a path that follows the equation dA/dz = dir * ((D / 2) A + N(A) A): the field's own nonlinear term, and half of the propagation constants and of the gain *)
Definition half_solution (c : cfg) (n : nat) (s : ssfm) (dir Z : R) (y : R -> list C) : Prop :=
  (forall z, length (y z) = n) /\ forall z k, 0 <= z <= Z -> (k < n)%nat ->
  is_cderive (fun t => nth k (y t) z0) z (RtoC dir * (nth k (ifft_t c (mk n (fun m => (Ci * nth m (s_betas s) z0 - nth m (s_alpha s) z0 / RtoC 2) / RtoC 2 * nth m (fft_t c (y z)) z0))) z0 + nth k (nonlinear c s (y z)) z0 * nth k (y z) z0))%C.
Lemma half_gnlse c n s dir Z y : wf n s -> half_solution c n s dir Z y <-> gnlse_solution c n (halved s) dir Z y.
Proof.
  intros W. unfold half_solution, gnlse_solution. assert (EQ : forall z k, length (y z) = n -> (RtoC dir * (nth k (ifft_t c (mk n (fun m => (Ci * nth m (s_betas s) z0 - nth m (s_alpha s) z0 / RtoC 2) / RtoC 2 * nth m (fft_t c (y z)) z0))) z0 + nth k (nonlinear c s (y z)) z0 * nth k (y z) z0))%C = gnlse_rhs c (halved s) dir (y z) k).
  { intros z k Ly. unfold gnlse_rhs. do 4 f_equal. destruct W as (_ & Lb & La & _). cbn [halved s_betas s_alpha]. set (bs := map (fun b => b / RtoC 2)%C (s_betas s)). set (al := map (fun a => a / RtoC 2)%C (s_alpha s)). assert (L1 : length bs = n) by (unfold bs; now rewrite map_length). assert (L2 : length al = n) by (unfold al; now rewrite map_length).
    assert (L3 : length (map2 (fun b a => Ci * b - a / RtoC 2)%C bs al) = n) by (rewrite map2_length; congruence). assert (L4 : length (fft_t c (y z)) = n) by now rewrite fft_t_length. apply (vec_extn n); [apply mk_length|now apply len_vmul|]. intros m Hm. rewrite mk_nth by exact Hm. rewrite vmul_nth by congruence. f_equal. rewrite (map2_nth _ _ _ _ z0 z0) by congruence.
    unfold bs, al. rewrite (nth_map' (fun b => b / RtoC 2)%C (s_betas s) m z0) by congruence. rewrite (nth_map' (fun b => b / RtoC 2)%C (s_alpha s) m z0) by congruence. field. intro Q. apply RtoC_inj in Q. lra. }
  split; intros (Ly & H); (split; [exact Ly|]); intros z k Hz Hk; specialize (H z k Hz Hk); [rewrite <- EQ by apply Ly|rewrite EQ by apply Ly]; exact H.
Qed.

(*! C127: METHOD_SSFM converges, but to another equation: its linear step spans only half of each step, so let y follow dA/dz = dir*(D A / 2 + N(A) A) on [0, Z], the equation with half the dispersion and half the gain (self-steepening off, or no sample of y at the threshold 1e-15).
    There are constants K and H0 such that for every tolerance, initial step, fuel and every distance up to L < Z, integrate_over_dz with METHOD_SSFM started from y(0) ends, in every sample, within K*H of y at the distance it covered, H <= H0 being any bound on the steps it kept. *)
Lemma C127_splitting_convergence_l : forall (c : cfg) (n : nat) (s : ssfm) (dir Z L : R) (y : R -> list C),
  c_method c = METHOD_SSFM -> (2 <= c_eta c)%nat -> wf n s -> 0 <= L < Z -> half_solution c n s dir Z y -> off_path c n Z y ->
  exists K H0, 0 <= K /\ 0 < H0 /\ forall c' s' fuel delta_z r H,
    c_method c' = c_method c -> c_eta c' = c_eta c -> c_noSS c' = c_noSS c -> c_pre c' = c_pre c -> same_medium s' s -> s_A s' = y 0 -> 0 < s_dz s' ->
    0 < delta_z <= L -> integrate_trace c' fuel delta_z dir s' = Some r -> (forall h, In h (l_steps r) -> h <= H) -> 0 < H <= H0 ->
    forall k, (k < n)%nat -> Cmod (nth k (s_A (l_st r)) z0 - nth k (y (lrsum (l_steps r))) z0)%C <= K * H.
Proof.
  intros c n s dir Z L y Hm He W [PL LZ] SOL' OFF. pose proof (proj1 (half_gnlse c n s dir Z y W) SOL') as SOL. destruct (split_run c n s dir Z L y W PL LZ SOL OFF He) as (K & H0 & PK & PH & HB). exists K, H0. split; [exact PK|]. split; [lra|].
  intros c' s' fuel delta_z r H Hm' He' Hs' Hp' SM EA Pdz Hd HR Hst HH k Hk. assert (W' : wf n s').
  { destruct W as (_ & W1 & W2 & W3 & W4). destruct SM as (M1 & M2 & _ & _ & M5 & M6). split; [rewrite EA; apply SOL|]. rewrite M1, M2, M5, M6. auto. }
  pose proof (C88_kept_steps_l c' n fuel delta_z dir s' r W' ltac:(lia) ltac:(lra) Pdz HR) as KP. rewrite EA in KP. destruct (first_dz_pos delta_z (s_dz s') ltac:(lra) Pdz) as [P1 P2].
  destruct (loop_cov c' (attempt c' dir) delta_z fuel _ _ r P1 P2 HR) as (C1 & C2 & C3 & C4).
  assert (HT : lrsum (List.tl (l_steps r)) <= L). { destruct C4 as [C4|(lst & ear & E & C5)]; [pose proof (lrsum_tl _ C2); lra|]. rewrite E. cbn [List.tl]. lra. }
  rewrite Hm in Hm'. pose proof (proj2 (proj2 (HB c' s' (l_steps r) (s_A (l_st r)) H Hm' He' Hs' Hp' SM KP HH Hst HT)) k Hk) as Q. rewrite pow_1 in Q. exact Q.
Qed.

Lemma split_propagate c fb op s p a b g Rw F Z L y : setting c fb 1 op s p a b g Rw F -> straight c (p_n p) -> c_method c = METHOD_SSFM -> (2 <= c_eta c)%nat -> fb_len fb <= L < Z ->
  gnlse_solution c (p_n p) (halved (start c fb p (b 0) g a Rw F s)) 1 Z y -> off_path c (p_n p) Z y -> y 0 = cfftshift c (IFFT_t a) ->
  exists K N0, 0 <= K /\ forall N fuel reload z AW AT po s' q, (N0 <= N)%nat -> (0 < N)%nat -> (reload = true -> forall x, b x = b 0 /\ fb_get_gamma fb x = fb_get_gamma fb 0) ->
    propagate c fuel fb N op reload s p = (Ok (Some (z, AW, AT, po, s')), q) ->
    exists d : nat -> R, (forall j, (j < N)%nat -> fb_len fb / INR N <= d j /\ (d j = fb_len fb / INR N \/ exists last, 0 < fb_len fb / INR N - (d j - last) <= 2 * / 10 ^ 12)) /\
    forall i k, (i < N)%nat -> (k < p_n p)%nat -> rsum (S i) d <= L -> Cmod (nth k (nth i AT []) z0 - nth k (cifftshift c (y (rsum (S i) d))) z0)%C <= K * (fb_len fb / INR N).
Proof.
  intros Hs1 Hst Hm He [HL1 HL2] SOL OFF Y0. pose proof Hs1 as (Hh & Hn & Hf & An & HR & _ & HL & Hd). set (n := p_n p) in *. set (s0 := start c fb p (b 0) g a Rw F s) in *.
  assert (W0 : wf n s0) by (apply (start_wf c fb p op b g a Rw F s); assumption). assert (PL : 0 <= L) by lra.
  destruct (split_run c n s0 1 Z L y W0 PL HL2 SOL OFF He) as (K & H0 & PK & PH & HB).
  exists (K * 2), (Z.to_nat (up (2 * fb_len fb / H0))). split; [lra|].
  intros N fuel reload z AW AT po s' q HN0 HN Hc H. assert (PN : 0 < INR N) by (apply lt_0_INR; exact HN). set (dz := fb_len fb / INR N). assert (Pdz : 0 < dz) by (apply Rdiv_lt_0_compat; assumption).
  assert (Hs : setting c fb N op s p a b g Rw F) by (repeat split; try assumption; apply An || apply Hh).
  destruct (chain_kept _ _ _ _ _ _ _ _ _ _ _ _ _ _ _ _ _ _ _ Hs Hst He Hc H) as (st & S0 & S1). fold dz s0 in S1. destruct (fin_choice _ _ S1) as (d & Td). exists d. split; [intros j Hj; now apply Td|].
  assert (IND : forall i, (i <= N)%nat -> exists steps, lrsum steps = rsum i d /\ kept c s0 1 (y 0) steps (s_A (st i)) /\ forall h, In h steps -> h <= 2 * dz).
  { induction i as [|i IH]; intros Hi; [exists []; rewrite S0, Y0; split; [reflexivity|]; split; [constructor|intros h []]|]. destruct (IH ltac:(lia)) as (st1 & E1 & K1 & B1). destruct (Td i ltac:(lia)) as (_ & _ & st2 & E2 & K2 & B2).
    exists (st2 ++ st1). split; [rewrite lrsum_app, rsum_S, E1, <- E2; ring|]. split; [now apply kept_trans with (A1 := s_A (st i))|]. intros h Hin. apply in_app_or in Hin. destruct Hin; [now apply B2|now apply B1]. }
  assert (HH : 0 < 2 * dz <= H0).
  { split; [lra|]. destruct (archimed (2 * fb_len fb / H0)) as [U _]. assert (PX : 0 < 2 * fb_len fb / H0) by (apply Rdiv_lt_0_compat; lra). assert (0 <= up (2 * fb_len fb / H0))%Z by (apply le_IZR; lra).
    apply le_INR in HN0. rewrite INR_IZR_INZ, Z2Nat.id in HN0 by assumption. assert (Q : 2 * fb_len fb / H0 <= INR N) by lra. apply (Rmult_le_compat_r H0) in Q; [|lra]. unfold Rdiv in Q at 1. rewrite Rmult_assoc, Rinv_l, Rmult_1_r in Q by lra.
    unfold dz. apply (Rmult_le_reg_r (INR N)); [exact PN|]. unfold Rdiv. rewrite Rmult_assoc, (Rmult_assoc (fb_len fb)), Rinv_l, Rmult_1_r by lra. lra. }
  intros i k Hi Hk HT. destruct (IND (S i) ltac:(lia)) as (steps & E & KP & B). destruct (Td i Hi) as (_ & -> & _). rewrite <- E in HT |- *. pose proof (lrsum_tl _ (kept_pos _ _ _ _ _ _ KP)) as TL.
  destruct (HB c s0 steps (s_A (st (S i))) (2 * dz) Hm eq_refl eq_refl eq_refl ltac:(repeat split) KP HH B ltac:(lra)) as (LB & _ & HE). rewrite pow_1 in HE. rewrite Rmult_assoc.
  unfold cifftshift. destruct (c_pre c); [|now apply HE]. assert (LY : length (y (lrsum steps)) = n) by apply SOL. rewrite !ifftshift_nth by congruence. rewrite LB, LY. apply HE. apply zmodn_lt. exact Hn.
Qed.

(*! C127: propagate with METHOD_SSFM, for a fiber whose parameters do not vary (or are not reloaded): as n_steps grows its columns converge, whatever the tolerance, to the solution of the equation with half the dispersion and half the gain, with an error proportional to the section length. *)
Lemma C127_propagate_l : forall (c : cfg) (fb : fiber) (op : option R) (s : ssfm) (p : pulse) (a : list C) (b : R -> list R) (g : list R) (Rw : list C) (F : R) (Z L : R) (y : R -> list C),
  setting c fb 1 op s p a b g Rw F -> (c_pre c = false \/ Nat.even (p_n p) = true) -> c_method c = METHOD_SSFM -> (2 <= c_eta c)%nat -> fb_len fb <= L < Z ->
  half_solution c (p_n p) (start c fb p (b 0) g a Rw F s) 1 Z y -> off_path c (p_n p) Z y -> y 0 = cfftshift c (IFFT_t a) ->
  exists K N0, 0 <= K /\ forall N fuel reload z AW AT po s' q, (N0 <= N)%nat -> (0 < N)%nat -> (reload = true -> forall x, b x = b 0 /\ fb_get_gamma fb x = fb_get_gamma fb 0) ->
    propagate c fuel fb N op reload s p = (Ok (Some (z, AW, AT, po, s')), q) ->
    exists d : nat -> R, (forall j, (j < N)%nat -> fb_len fb / INR N <= d j /\ (d j = fb_len fb / INR N \/ exists last, 0 < fb_len fb / INR N - (d j - last) <= 2 * / 10 ^ 12)) /\
    forall i k, (i < N)%nat -> (k < p_n p)%nat -> rsum (S i) d <= L -> Cmod (nth k (nth i AT []) z0 - nth k (cifftshift c (y (rsum (S i) d))) z0)%C <= K * (fb_len fb / INR N).
Proof.
  intros c fb op s p a b g Rw F Z L y Hs1 Hst Hm He HL SOL OFF Y0. pose proof Hs1 as (Hh & Hn & Hf & An & HR & _ & HLp & Hd).
  assert (W0 : wf (p_n p) (start c fb p (b 0) g a Rw F s)) by (apply (start_wf c fb p op b g a Rw F s); assumption). exact (split_propagate c fb op s p a b g Rw F Z L y Hs1 Hst Hm He HL (proj1 (half_gnlse c (p_n p) _ 1 Z y W0) SOL) OFF Y0).
Qed.

(*! C127: without self-steepening nothing need be assumed about a solution: once setup succeeds the half equation has a solution through the input pulse for all distances, unique, whose energy stays between the input energy times the exponentials of
    half the smallest and half the largest gain coefficient that the fiber reports, and propagate with METHOD_SSFM converges to it: a fiber of gain g per metre amplifies the energy by exp(g L / 2), not exp(g L). *)
Lemma C127_half_gain_l : forall (c : cfg) (fb : fiber) (op : option R) (s : ssfm) (p : pulse) (a : list C) (b : R -> list R) (g : list R) (Rw : list C) (F : R) (L : R),
  setting c fb 1 op s p a b g Rw F -> (c_pre c = false \/ Nat.even (p_n p) = true) -> c_method c = METHOD_SSFM -> (2 <= c_eta c)%nat -> c_noSS c = true -> fb_len fb <= L ->
  exists y, y 0 = cfftshift c (IFFT_t a) /\ (forall Z, half_solution c (p_n p) (start c fb p (b 0) g a Rw F s) 1 Z y) /\
  (forall Z y', half_solution c (p_n p) (start c fb p (b 0) g a Rw F s) 1 Z y' -> y' 0 = y 0 -> forall z, 0 <= z <= Z -> y' z = y z) /\
  (forall lo hi, (forall m, (m < p_n p)%nat -> lo <= nth m g 0 <= hi) -> forall z, 0 <= z -> power_sum (IFFT_t a) * exp (lo / 2 * z) <= power_sum (y z) <= power_sum (IFFT_t a) * exp (hi / 2 * z)) /\
  exists K N0, 0 <= K /\ forall N fuel reload z AW AT po s' q, (N0 <= N)%nat -> (0 < N)%nat -> (reload = true -> forall x, b x = b 0 /\ fb_get_gamma fb x = fb_get_gamma fb 0) ->
    propagate c fuel fb N op reload s p = (Ok (Some (z, AW, AT, po, s')), q) ->
    exists d : nat -> R, (forall j, (j < N)%nat -> fb_len fb / INR N <= d j /\ (d j = fb_len fb / INR N \/ exists last, 0 < fb_len fb / INR N - (d j - last) <= 2 * / 10 ^ 12)) /\
    forall i k, (i < N)%nat -> (k < p_n p)%nat -> rsum (S i) d <= L -> Cmod (nth k (nth i AT []) z0 - nth k (cifftshift c (y (rsum (S i) d))) z0)%C <= K * (fb_len fb / INR N).
Proof.
  intros c fb op s p a b g Rw F L Hs1 Hst Hm He NS HL. pose proof Hs1 as (Hh & Hn & Hf & An & HR & _ & HLp & Hd). set (s0 := start c fb p (b 0) g a Rw F s) in *.
  assert (W0 : wf (p_n p) s0) by (apply (start_wf c fb p op b g a Rw F s); assumption). pose proof (halved_wf _ _ W0) as W2.
  assert (RR : real_response c (p_n p) (s_R (halved s0))). { destruct (calc_raman c (s_fR s) p) as [r q] eqn:E. cbn [fst] in HR. subst r. exact (C29_setup_response_real_l c (s_fR s) p q Rw F E). }
  destruct (sol_exists c (p_n p) (halved s0) 1 (s_A s0) NS W2 RR (proj1 W0)) as (y & Y0 & S). exists y. split; [exact Y0|]. split; [intros Z; exact (proj2 (half_gnlse c (p_n p) s0 1 Z y W0) (S Z))|]. split.
  { intros Z y' S' E0 z Hz. exact (sol_unique c (p_n p) (halved s0) 1 Z y' y NS W2 RR (proj1 (half_gnlse c (p_n p) s0 1 Z y' W0) S') (S Z) E0 z Hz). }
  split.
  - intros lo hi Hg z Hz. assert (EP : power_sum (IFFT_t a) = power_sum (y 0)) by (rewrite Y0; unfold s0, start; cbn [s_A]; unfold cfftshift; destruct (c_pre c); [now rewrite power_sum_fs|reflexivity]). rewrite EP.
    apply (sol_energy c (p_n p) (halved s0) 1 z y (lo / 2) (hi / 2) NS W2 RR (S z)); [|lra]. intros m Hm'. destruct An as (_ & _ & Lb & Lg).
    destruct (shift_in c (p_n p) (map (fun x => RtoC (- x)) g) m ltac:(now rewrite map_length) Hm') as (j & Hj & Ej). destruct (shift_in c (p_n p) (map RtoC (b 0)) m ltac:(now rewrite map_length) Hm') as (i & Hi & Ei).
    cbn [halved s_alpha s_betas]. destruct W0 as (_ & Wb & Wa & _). rewrite (nth_map' (fun x => x / RtoC 2)%C (s_alpha s0) m z0) by congruence. rewrite (nth_map' (fun x => x / RtoC 2)%C (s_betas s0) m z0) by congruence.
    unfold s0, start. cbn [s_alpha s_betas]. rewrite Ej, Ei. rewrite (nth_map' (fun x => RtoC (- x)) g j 0) by congruence. rewrite (nth_map' RtoC (b 0) i 0) by (rewrite Lb; exact Hi). specialize (Hg j Hj). rewrite <- !RtoC_div by lra. unfold Re, Im, RtoC. cbn [fst snd]. lra.
  - exact (split_propagate c fb op s p a b g Rw F (L + 1) L y Hs1 Hst Hm He ltac:(lra) (S (L + 1)) (or_introl NS) Y0).
Qed.

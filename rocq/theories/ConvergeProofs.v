(** Propagation of errors through RK4IP steps: one step is the identity plus an increment that is Lipschitz with a constant proportional to the step, uniformly along a family of fields. *)
From Coq Require Import Reals List ZArith Bool Arith Lra Lia Psatz FunctionalExtensionality.
From Coquelicot Require Import Coquelicot.
From Verif Require Import CNum JetProofs RkJetProofs TaylorProofs.
Import ListNotations.
Local Open Scope R_scope.

Definition vd (a b : V) : V := vp a (vs (-1) b).
Lemma vd_self a B : 0 <= B -> bnd (vd a a) B. Proof. intros P k. unfold vd, vp, vs. rewrite RtoC_m1. replace (a k + - RtoC 1 * a k)%C with (RtoC 0) by ring. now rewrite Cmod_0. Qed.
Ltac vx := let k := fresh "k" in apply functional_extensionality; intros k; unfold vd, vp, vs, v0, pm; rewrite ?RtoC_mult, ?RtoC_plus, ?RtoC_minus, ?RtoC_m1; ring.
(** ** Maps that are bounded and Lipschitz near A *)
Definition lipn (A : V) (F : V -> V) : Prop := exists d B L, 0 < d /\ 0 <= B /\ 0 <= L /\ (forall v, bnd (vd v A) d -> bnd (F v) B) /\
  (forall v w e, bnd (vd v A) d -> bnd (vd w A) d -> bnd (vd v w) e -> bnd (vd (F v) (F w)) (L * e)).
Lemma lipn_id A : (exists B, bnd A B) -> lipn A (fun v => v).
Proof.
  intros (B & HB). pose proof (bnd_ge _ _ HB). exists 1, (1 + B), 1. repeat split; try lra.
  - intros v Hv. replace v with (vp (vd v A) A) by vx. now apply bnd_vp.
  - intros v w e _ _ H'. now rewrite Rmult_1_l.
Qed.
Lemma lipn_lin A F L : linear L -> lipn A F -> lipn A (fun v => L (F v)).
Proof.
  intros (LA & LS & M & PM & LB) (d & B & K & Pd & PB & PK & H1 & H2). exists d, (M * B), (M * K). repeat split; try assumption; try nra.
  - intros v Hv. now apply LB, H1.
  - intros v w e Hv Hw He. unfold vd. rewrite <- LS, <- LA. rewrite Rmult_assoc. now apply LB, H2.
Qed.
Lemma lipn_plus A F G : lipn A F -> lipn A G -> lipn A (fun v => vp (F v) (G v)).
Proof.
  intros (d & B & K & Pd & PB & PK & H1 & H2) (d' & B' & K' & Pd' & PB' & PK' & H1' & H2'). pose proof (Rmin_l d d') as M1. pose proof (Rmin_r d d') as M2. exists (Rmin d d'), (B + B'), (K + K'). split; [now apply Rmin_glb_lt|]. repeat split; try lra.
  - intros v Hv. apply bnd_vp; [apply H1|apply H1']; (eapply bnd_le; [exact Hv|assumption]).
  - intros v w e Hv Hw He. replace (vd (vp (F v) (G v)) (vp (F w) (G w))) with (vp (vd (F v) (F w)) (vd (G v) (G w))) by vx. rewrite Rmult_plus_distr_r.
    apply bnd_vp; [apply H2|apply H2']; try exact He; (eapply bnd_le; [eassumption|assumption]).
Qed.
Lemma lipn_pm A F G : lipn A F -> lipn A G -> lipn A (fun v => pm (F v) (G v)).
Proof.
  intros (d & B & K & Pd & PB & PK & H1 & H2) (d' & B' & K' & Pd' & PB' & PK' & H1' & H2'). pose proof (Rmin_l d d') as M1. pose proof (Rmin_r d d') as M2. exists (Rmin d d'), (B * B'), (K * B' + B * K'). split; [now apply Rmin_glb_lt|]. repeat split; try nra.
  - intros v Hv. apply bnd_pm; [apply H1|apply H1']; (eapply bnd_le; [exact Hv|assumption]).
  - intros v w e Hv Hw He. replace (vd (pm (F v) (G v)) (pm (F w) (G w))) with (vp (pm (vd (F v) (F w)) (G v)) (pm (F w) (vd (G v) (G w)))) by vx.
    replace ((K * B' + B * K') * e) with (K * e * B' + B * (K' * e)) by ring.
    apply bnd_vp; apply bnd_pm; [apply H2|apply H1'|apply H1|apply H2']; try exact He; (eapply bnd_le; [eassumption|assumption]).
Qed.
Lemma lipn_rcp A n t e0 : 0 <= e0 < t -> gap n t A -> lipn A (rcp n t e0).
Proof.
  intros He (d & Pd & Hd). set (W := / (t - e0)). assert (PW : 0 < W) by (apply Rinv_0_lt_compat; lra).
  assert (NZ : forall z, t < Cmod z -> (RtoC e0 + z)%C <> RtoC 0). { intros z Hz E0. pose proof (rcp_low t e0 z He Hz) as Q. rewrite E0, Cmod_0 in Q. lra. }
  assert (BW : forall z, t < Cmod z -> Cmod (/ (RtoC e0 + z))%C <= W). { intros z Hz. rewrite Cmod_inv by now apply NZ. apply Rinv_le_contravar; [lra|now apply rcp_low]. }
  assert (NR : forall v k, bnd (vd v A) d -> Cmod (A k) - d <= Cmod (v k) <= Cmod (A k) + d).
  { intros v k Hv. pose proof (Cmod_near (A k) (vd v A k) d (Hv k)) as Q. unfold vd, vp, vs in Q. rewrite RtoC_m1 in Q. replace (A k + (v k + - RtoC 1 * A k))%C with (v k) in Q by ring. exact Q. }
  exists d, W, (W * W). repeat split; try lra; [nra| |].
  - intros v Hv k. unfold rcp. destruct (lt_dec (snd k) n) as [Hk|Hk]; [|rewrite Cmod_0; lra]. destruct (Rlt_dec t (Cmod (v k))); [now apply BW|rewrite Cmod_0; lra].
  - intros v w e Hv Hw Hvw k. pose proof (bnd_ge _ _ Hvw) as Pe. assert (P0 : 0 <= W * W * e) by (apply Rmult_le_pos; [nra|exact Pe]). unfold vd, vp, vs, rcp. rewrite RtoC_m1.
    destruct (lt_dec (snd k) n) as [Hk|Hk]; [|replace (RtoC 0 + - RtoC 1 * RtoC 0)%C with (RtoC 0) by ring; now rewrite Cmod_0].
    pose proof (NR v k Hv) as N1. pose proof (NR w k Hw) as N2. pose proof (Hd k Hk) as D. destruct (Rle_lt_dec t (Cmod (A k))) as [Q|Q].
    + rewrite Rabs_pos_eq in D by lra. destruct (Rlt_dec t (Cmod (v k))) as [Q1|Q1]; [|lra]. destruct (Rlt_dec t (Cmod (w k))) as [Q2|Q2]; [|lra].
      pose proof (NZ _ Q1) as Z1. pose proof (NZ _ Q2) as Z2. replace (/ (RtoC e0 + v k) + - RtoC 1 * / (RtoC e0 + w k))%C with (- (/ (RtoC e0 + v k) * / (RtoC e0 + w k) * vd v w k))%C by (unfold vd, vp, vs; rewrite RtoC_m1; field; now split).
      rewrite Cmod_opp, !Cmod_mult. apply Rmult_le_compat; [apply Rmult_le_pos; apply Cmod_ge_0|apply Cmod_ge_0|apply Rmult_le_compat; try apply Cmod_ge_0; now apply BW|apply Hvw].
    + rewrite Rabs_left1 in D by lra. destruct (Rlt_dec t (Cmod (v k))) as [Q1|Q1]; [lra|]. destruct (Rlt_dec t (Cmod (w k))) as [Q2|Q2]; [lra|]. replace (RtoC 0 + - RtoC 1 * RtoC 0)%C with (RtoC 0) by ring. now rewrite Cmod_0.
Qed.

(** ** Increments: maps F h v of size h and with Lipschitz constant of size h near A *)
Section Increments.
Variables (A : V) (BA : R) (N : V -> V) (E : R -> V -> V).
Hypothesis HA : bnd A BA.
Hypothesis HN : lipn A N.
Hypothesis EA : forall h a b, E h (vp a b) = vp (E h a) (E h b).
Hypothesis EH : forall h r a, E h (vs r a) = vs r (E h a).
Hypothesis E1 : exists U K, 0 < U /\ 0 <= K /\ forall h v B, 0 <= h <= U -> bnd v B -> bnd (vd (E h v) v) (K * h * B).
Definition inc (F : R -> V -> V) : Prop := exists d U K L, 0 < d /\ 0 < U /\ 0 <= K /\ 0 <= L /\ forall h, 0 <= h <= U ->
  (forall v, bnd (vd v A) d -> bnd (F h v) (K * h)) /\ (forall v w e, bnd (vd v A) d -> bnd (vd w A) d -> bnd (vd v w) e -> bnd (vd (F h v) (F h w)) (L * h * e)).
Lemma inc_ext F G : (forall h v, F h v = G h v) -> inc F -> inc G.
Proof. intros EQ (d & U & K & L & Pd & PU & PK & PL & H). exists d, U, K, L. split; [exact Pd|]. split; [exact PU|]. split; [exact PK|]. split; [exact PL|]. intros h Hh. destruct (H h Hh) as [Q1 Q2]. split; intros; rewrite <- !EQ; auto. Qed.
Lemma inc_0 : inc (fun _ _ => v0).
Proof. exists 1, 1, 0, 0. repeat split; try lra; intros; [apply bnd_v0; lra|]. replace (vd v0 v0) with v0 by vx. apply bnd_v0. lra. Qed.
Lemma inc_plus F G : inc F -> inc G -> inc (fun h v => vp (F h v) (G h v)).
Proof.
  intros (d & U & K & L & Pd & PU & PK & PL & H) (d' & U' & K' & L' & Pd' & PU' & PK' & PL' & H'). pose proof (Rmin_l d d') as M1. pose proof (Rmin_r d d') as M2. pose proof (Rmin_l U U') as M3. pose proof (Rmin_r U U') as M4.
  exists (Rmin d d'), (Rmin U U'), (K + K'), (L + L'). split; [now apply Rmin_glb_lt|]. split; [now apply Rmin_glb_lt|]. split; [lra|]. split; [lra|]. intros h Hh. destruct (H h ltac:(lra)) as [A1 A2]. destruct (H' h ltac:(lra)) as [B1 B2]. split.
  - intros v Hv. rewrite Rmult_plus_distr_r. apply bnd_vp; [apply A1|apply B1]; (eapply bnd_le; [exact Hv|assumption]).
  - intros v w e Hv Hw He. replace (vd (vp (F h v) (G h v)) (vp (F h w) (G h w))) with (vp (vd (F h v) (F h w)) (vd (G h v) (G h w))) by vx. replace ((L + L') * h * e) with (L * h * e + L' * h * e) by ring.
    apply bnd_vp; [apply A2|apply B2]; try exact He; (eapply bnd_le; [eassumption|assumption]).
Qed.
Lemma inc_vs r F : inc F -> inc (fun h v => vs r (F h v)).
Proof.
  intros (d & U & K & L & Pd & PU & PK & PL & H). pose proof (Rabs_pos r) as Pr. exists d, U, (Rabs r * K), (Rabs r * L). repeat split; try assumption; try nra.
  - intros v Hv. rewrite Rmult_assoc. apply bnd_vs. now apply (H h).
  - intros v w e Hv Hw He. replace (vd (vs r (F h v)) (vs r (F h w))) with (vs r (vd (F h v) (F h w))) by vx. replace (Rabs r * L * h * e) with (Rabs r * (L * h * e)) by ring. apply bnd_vs. now apply (H h).
Qed.
Lemma inc_dil a F : 0 < a -> inc F -> inc (fun h v => F (a * h) v).
Proof.
  intros Pa (d & U & K & L & Pd & PU & PK & PL & H). exists d, (U / a), (K * a), (L * a). split; [assumption|]. split; [now apply Rdiv_lt_0_compat|]. split; [nra|]. split; [nra|]. intros h Hh.
  assert (Hah : 0 <= a * h <= U) by (split; [nra|]; apply Rle_trans with (a * (U / a)); [apply Rmult_le_compat_l; lra|right; field; lra]). destruct (H (a * h) Hah) as [A1 A2]. split; intros; rewrite !(Rmult_assoc _ a h); auto.
Qed.
Lemma inc_E0 : inc (fun h v => vd (E h v) v).
Proof.
  destruct E1 as (U & K & PU & PK & H). pose proof (bnd_ge _ _ HA). exists 1, U, (K * (1 + BA)), K. split; [lra|]. split; [exact PU|]. split; [nra|]. split; [exact PK|]. intros h Hh. split.
  - intros v Hv. replace (K * (1 + BA) * h) with (K * h * (1 + BA)) by ring. apply H; [exact Hh|]. replace v with (vp (vd v A) A) by vx. now apply bnd_vp.
  - intros v w e _ _ He. replace (vd (vd (E h v) v) (vd (E h w) w)) with (vd (E h (vd v w)) (vd v w)); [now apply H|]. unfold vd at 2. rewrite EA, EH. vx.
Qed.
Lemma inc_E F : inc F -> inc (fun h v => E h (F h v)).
Proof.
  intros (d & U & K & L & Pd & PU & PK & PL & H). destruct E1 as (U' & K' & PU' & PK' & H'). pose proof (Rmin_l U U') as M3. pose proof (Rmin_r U U') as M4.
  assert (EB : forall h v B, 0 <= h <= U' -> bnd v B -> bnd (E h v) ((1 + K' * U') * B)).
  { intros h v B Hh Hv. pose proof (bnd_ge _ _ Hv) as PB. replace (E h v) with (vp v (vd (E h v) v)) by vx. eapply bnd_le; [apply bnd_vp; [exact Hv|apply H'; [exact Hh|exact Hv]]|]. assert (K' * h * B <= K' * U' * B) by (apply Rmult_le_compat_r; [exact PB|apply Rmult_le_compat_l; lra]). lra. }
  assert (PQ : 0 <= 1 + K' * U') by nra.
  exists d, (Rmin U U'), ((1 + K' * U') * K), ((1 + K' * U') * L). split; [exact Pd|]. split; [now apply Rmin_glb_lt|]. split; [nra|]. split; [nra|]. intros h Hh. destruct (H h ltac:(lra)) as [A1 A2]. split.
  - intros v Hv. rewrite Rmult_assoc. apply EB; [lra|now apply A1].
  - intros v w e Hv Hw He. replace (vd (E h (F h v)) (E h (F h w))) with (E h (vd (F h v) (F h w))) by (unfold vd at 1; rewrite EA, EH; reflexivity). replace ((1 + K' * U') * L * h * e) with ((1 + K' * U') * (L * h * e)) by ring. apply EB; [lra|now apply A2].
Qed.
Lemma near_id F d1 : 0 < d1 -> inc F -> exists d U L, 0 < d /\ 0 < U /\ 0 <= L /\ forall h, 0 <= h <= U -> (forall v, bnd (vd v A) d -> bnd (vd (vp v (F h v)) A) d1) /\
  (forall v w e, bnd (vd v A) d -> bnd (vd w A) d -> bnd (vd v w) e -> bnd (vd (vp v (F h v)) (vp w (F h w))) ((1 + L * h) * e)).
Proof.
  intros P1 (d & U & K & L & Pd & PU & PK & PL & H). set (d2 := Rmin d (d1 / 2)). set (U2 := Rmin U (d1 / (2 * (K + 1)))).
  assert (Pd2 : 0 < d2) by (apply Rmin_glb_lt; lra). assert (PU2 : 0 < U2) by (apply Rmin_glb_lt; [exact PU|apply Rdiv_lt_0_compat; lra]).
  pose proof (Rmin_l d (d1 / 2)) as M1. pose proof (Rmin_r d (d1 / 2)) as M2. fold d2 in M1, M2. pose proof (Rmin_l U (d1 / (2 * (K + 1)))) as M3. pose proof (Rmin_r U (d1 / (2 * (K + 1)))) as M4. fold U2 in M3, M4.
  exists d2, U2, L. repeat split; try assumption; destruct (H h ltac:(lra)) as [A1 A2].
  - intros v Hv. replace (vd (vp v (F h v)) A) with (vp (vd v A) (F h v)) by vx. eapply bnd_le; [apply bnd_vp; [exact Hv|apply A1; eapply bnd_le; [exact Hv|exact M1]]|].
    assert (K * h <= d1 / 2); [|lra]. apply Rle_trans with ((K + 1) * (d1 / (2 * (K + 1)))); [apply Rmult_le_compat; lra|right; field; lra].
  - intros v w e Hv Hw He. replace (vd (vp v (F h v)) (vp w (F h w))) with (vp (vd v w) (vd (F h v) (F h w))) by vx. rewrite Rmult_plus_distr_r, Rmult_1_l. apply bnd_vp; [exact He|]. apply A2; try exact He; (eapply bnd_le; [eassumption|exact M1]).
Qed.
Lemma inc_comp F G : inc F -> inc G -> inc (fun h v => G h (vp v (F h v))).
Proof.
  intros HF (d & U & K & L & Pd & PU & PK & PL & H). destruct (near_id F d Pd HF) as (d2 & U2 & L2 & Pd2 & PU2 & PL2 & H2). pose proof (Rmin_l U U2) as M3. pose proof (Rmin_r U U2) as M4.
  exists d2, (Rmin U U2), K, (L * (1 + L2 * U2)). split; [exact Pd2|]. split; [now apply Rmin_glb_lt|]. split; [exact PK|]. split; [apply Rmult_le_pos; nra|]. intros h Hh. destruct (H h ltac:(lra)) as [A1 A2]. destruct (H2 h ltac:(lra)) as [B1 B2]. split.
  - intros v Hv. now apply A1, B1.
  - intros v w e Hv Hw He. pose proof (bnd_ge _ _ He) as Pe. eapply bnd_le; [apply A2; [now apply B1|now apply B1|now apply B2]|]. replace (L * (1 + L2 * U2) * h * e) with (L * h * ((1 + L2 * U2) * e)) by ring.
    apply Rmult_le_compat_l; [nra|]. apply Rmult_le_compat_r; [exact Pe|]. assert (L2 * h <= L2 * U2) by (apply Rmult_le_compat_l; lra). lra.
Qed.
Lemma inc_N F : inc F -> inc (fun h v => vs h (N (vp v (F h v)))).
Proof.
  intros HF. apply (inc_comp F (fun h v => vs h (N v))); [exact HF|]. destruct HN as (d & B & L & Pd & PB & PL & H1 & H2). exists d, 1, B, L. repeat split; try assumption; try lra.
  - intros v Hv. rewrite (Rmult_comm B). rewrite <- (Rabs_pos_eq h) at 2 by lra. apply bnd_vs. now apply H1.
  - intros v w e Hv Hw He. replace (vd (vs h (N v)) (vs h (N w))) with (vs h (vd (N v) (N w))) by vx. replace (L * h * e) with (Rabs h * (L * e)) by (rewrite Rabs_pos_eq by lra; ring). apply bnd_vs. now apply H2.
Qed.
Definition ink (F : R -> V -> V) : Prop := inc (fun h v => vd (F h v) v).
Lemma ink_comp F G : ink F -> ink G -> ink (fun h v => G h (F h v)).
Proof.
  intros HF HG. pose proof (inc_plus _ _ HF (inc_comp _ _ HF HG)) as H. unfold ink. eapply inc_ext; [|exact H]. intros h v. cbv beta. replace (vp v (vd (F h v) v)) with (F h v) by vx. vx.
Qed.
Lemma half h : / 2 * h = h / 2. Proof. lra. Qed.
Lemma ink_rk : ink (rk N E).
Proof.
  assert (H2 : 0 < / 2) by lra. pose proof (inc_dil _ _ H2 inc_E0) as F0.
  assert (IE : forall F, inc F -> inc (fun h v => E (/ 2 * h) (F h v))).
  { intros F HF. pose proof (inc_dil _ _ H2 (inc_E _ (inc_dil 2 _ ltac:(lra) HF))) as Q. cbv beta in Q. eapply inc_ext; [|exact Q]. intros h v. cbv beta. now replace (2 * (/ 2 * h)) with h by field. }
  pose proof (IE _ (inc_N _ inc_0)) as K1. pose proof (inc_N _ (inc_plus _ _ F0 (inc_vs (/ 2) _ K1))) as K2. pose proof (inc_N _ (inc_plus _ _ F0 (inc_vs (/ 2) _ K2))) as K3.
  pose proof (inc_plus _ _ F0 (IE _ (inc_plus _ _ F0 K3))) as FT. pose proof (inc_N _ FT) as K4.
  pose proof (inc_plus _ _ (inc_plus _ _ F0 (IE _ (inc_plus _ _ (inc_plus _ _ (inc_plus _ _ F0 (inc_vs (/ 6) _ K1)) (inc_vs (/ 3) _ K2)) (inc_vs (/ 3) _ K3)))) (inc_vs (/ 6) _ K4)) as T.
  unfold ink. eapply inc_ext; [|exact T]. intros h v. cbv beta. unfold rk. cbv zeta. rewrite half.
  set (e := E (h / 2)). assert (eA : forall a b, e (vp a b) = vp (e a) (e b)) by (intros; apply EA).
  rewrite vp_0_r. set (k1 := e (vs h (N v))).
  replace (vp v (vp (vd (e v) v) (vs (/ 2) k1))) with (vp (e v) (vs (/ 2) k1)) by vx. set (k2 := vs h (N (vp (e v) (vs (/ 2) k1)))).
  replace (vp v (vp (vd (e v) v) (vs (/ 2) k2))) with (vp (e v) (vs (/ 2) k2)) by vx. set (k3 := vs h (N (vp (e v) (vs (/ 2) k2)))).
  assert (ED : forall x, vp (vd (e v) v) (e (vp (vd (e v) v) x)) = vd (e (vp (e v) x)) v).
  { intros x. rewrite (eA (vd (e v) v) x), (eA (e v) x). unfold vd at 2. rewrite eA. replace (e (vs (-1) v)) with (vs (-1) (e v)) by (symmetry; apply EH). vx. }
  replace (vp v (vp (vd (e v) v) (e (vp (vd (e v) v) k3)))) with (e (vp (e v) k3)) by (rewrite ED; vx). set (k4 := vs h (N (e (vp (e v) k3)))).
  replace (vp (vp (vp (vd (e v) v) (vs (/ 6) k1)) (vs (/ 3) k2)) (vs (/ 3) k3)) with (vp (vd (e v) v) (vp (vp (vs (/ 6) k1) (vs (/ 3) k2)) (vs (/ 3) k3))) by vx. rewrite ED.
  replace (vp (vp (vp (e v) (vs (/ 6) k1)) (vs (/ 3) k2)) (vs (/ 3) k3)) with (vp (e v) (vp (vp (vs (/ 6) k1) (vs (/ 3) k2)) (vs (/ 3) k3))) by vx. vx.
Qed.
(** the kept step with extrapolation weight q *)
Definition keep (q : R) (h : R) (v : V) : V := let f := rk N E h (rk N E h v) in vp f (vs q (vd f (rk N E (2 * h) v))).
Lemma ink_keep q : ink (keep q).
Proof.
  pose proof (ink_comp _ _ ink_rk ink_rk) as F. pose proof (inc_dil 2 _ ltac:(lra) ink_rk) as C'. pose proof (inc_plus _ _ F (inc_vs q _ (inc_plus _ _ F (inc_vs (-1) _ C')))) as T.
  unfold ink. eapply inc_ext; [|exact T]. intros h v. cbv beta. unfold keep. cbv zeta. vx.
Qed.
Lemma ink_stable F : ink F -> exists d U L, 0 < d /\ 0 < U /\ 0 <= L /\ forall h v e, 0 <= h <= U -> bnd (vd v A) e -> e <= d -> bnd (vd (F h v) (F h A)) ((1 + L * h) * e).
Proof.
  intros HF. destruct (near_id _ 1 ltac:(lra) HF) as (d & U & L & Pd & PU & PL & H). exists d, U, L. repeat split; try assumption. intros h v e Hh Hv He. destruct (H h Hh) as [_ H2].
  replace (vd (F h v) (F h A)) with (vd (vp v (vd (F h v) v)) (vp A (vd (F h A) A))) by vx. apply H2; [eapply bnd_le; [exact Hv|exact He]|apply vd_self; lra|exact Hv].
Qed.
End Increments.

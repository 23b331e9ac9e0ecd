(** The refractive index of AgGaSe2 over its transparency range (C106). *)
From Coq Require Import String.
From Coq Require Import Reals List ZArith Bool Arith Lia Lra Psatz.
From Verif Require Import Base CNum NumPy ModelPulse ModelCrystal CrystalProofs.
Import ListNotations.
Local Open Scope R_scope.

(** ** Powers *)
Lemma root_le x y k : 0 < x -> 0 < y -> (0 < k)%nat -> x <= y ^ k -> Rpower x (/ INR k) <= y.
Proof.
  intros Hx Hy Hk H. assert (K : 0 < INR k) by (apply lt_0_INR; exact Hk). apply Rle_trans with (Rpower (y ^ k) (/ INR k)).
  - apply Rle_Rpower_l; [left; now apply Rinv_0_lt_compat|lra].
  - rewrite <- Rpower_pow by exact Hy. rewrite Rpower_mult, Rinv_r, Rpower_1 by lra. lra.
Qed.
Lemma root_ge x y k : 0 < x -> 0 < y -> (0 < k)%nat -> y ^ k <= x -> y <= Rpower x (/ INR k).
Proof.
  intros Hx Hy Hk H. assert (K : 0 < INR k) by (apply lt_0_INR; exact Hk). apply Rle_trans with (Rpower (y ^ k) (/ INR k)).
  - rewrite <- Rpower_pow by exact Hy. rewrite Rpower_mult, Rinv_r, Rpower_1 by lra. lra.
  - apply Rle_Rpower_l; [left; now apply Rinv_0_lt_compat|]. split; [now apply pow_lt|exact H].
Qed.
Lemma Rpower_ge1 u a : 1 <= u -> 0 <= a -> 1 <= Rpower u a.
Proof. intros Hu Ha. rewrite <- (Rpower_O u) by lra. apply Rle_Rpower; lra. Qed.
Lemma Rpower_one a : Rpower 1 a = 1.
Proof. unfold Rpower. rewrite ln_1, Rmult_0_r. apply exp_0. Qed.

(** ** One axis *)
Definition val (s : sellmeier) (u : R) : R := sA s + sB s / (Rpower u (sa s) - sC s) + sF s / (Rpower u (sb s) - sG s) + sD s / (1 - sE s / Rpower u (sc s)).
Definition good (s : sellmeier) : Prop := 0 < sB s /\ 0 < sF s /\ 0 < sD s /\ 0 < sE s /\ 0 <= sC s < 1 /\ 0 <= sG s < 1 /\ 0 < sa s /\ 0 < sb s /\ 0 < sc s.
Lemma good_o : good agse_o. Proof. unfold good, agse_o. cbn [sA sB sC sD sE sF sG sa sb sc]. lra. Qed.
Lemma good_e : good agse_e. Proof. unfold good, agse_e. cbn [sA sB sC sD sE sF sG sa sb sc]. lra. Qed.
Lemma last_term D E t : 0 < t < E -> D / (1 - E / t) = - (D * t / (E - t)).
Proof. intros H. field. repeat split; lra. Qed.
Lemma sell_run s wl : good s -> 1 <= wl * 0.001 -> Rpower (wl * 0.001) (sc s) < sE s -> 0 <= val s (wl * 0.001) -> sell_n s wl = Ok (sqrt (val s (wl * 0.001))).
Proof.
  intros (H1 & H2 & H3 & H4 & H5 & H6 & H7 & H8 & H9) Hu Hc Hv. unfold sell_n. cbv zeta. set (u := wl * 0.001) in *. unfold fpow. destruct (Rlt_dec 0 u); [|lra]. cbn [rbind].
  pose proof (Rpower_ge1 u (sa s) Hu ltac:(lra)) as P1. pose proof (Rpower_ge1 u (sb s) Hu ltac:(lra)) as P2. pose proof (Rpower_ge1 u (sc s) Hu ltac:(lra)) as P3.
  rewrite fdiv_ok by lra. cbn [rbind]. rewrite fdiv_ok by lra. cbn [rbind]. rewrite fdiv_ok by lra. cbn [rbind].
  assert (E1 : 1 < sE s / Rpower u (sc s)). { apply Rmult_lt_reg_r with (Rpower u (sc s)); [lra|]. unfold Rdiv. rewrite Rmult_assoc, Rinv_l by lra. lra. }
  rewrite fdiv_ok by lra. cbn [rbind]. apply fsqrt_ok, Hv.
Qed.
Lemma val_decr s u v : good s -> 1 <= u < v -> Rpower v (sc s) < sE s -> val s v < val s u.
Proof.
  intros (H1 & H2 & H3 & H4 & H5 & H6 & H7 & H8 & H9) [Hu Hv] Hc. unfold val.
  assert (I : forall a, 0 < a -> 1 <= Rpower u a < Rpower v a) by (intros a Ha; split; [apply Rpower_ge1; lra|apply Rlt_Rpower_l; lra]).
  pose proof (I _ H7) as P1. pose proof (I _ H8) as P2. pose proof (I _ H9) as P3.
  assert (T : forall B x y C, 0 < B -> C < 1 -> 1 <= x < y -> B / (y - C) < B / (x - C)). { intros B x y C HB HC Hx. apply Rmult_lt_compat_l; [exact HB|]. apply Rinv_lt_contravar; [apply Rmult_lt_0_compat; lra|lra]. }
  pose proof (T _ _ _ (sC s) H1 ltac:(lra) P1) as Q1. pose proof (T _ _ _ (sG s) H2 ltac:(lra) P2) as Q2. rewrite !last_term by lra.
  assert (Q3 : sD s * Rpower u (sc s) / (sE s - Rpower u (sc s)) < sD s * Rpower v (sc s) / (sE s - Rpower v (sc s))).
  { set (x := Rpower u (sc s)) in *. set (y := Rpower v (sc s)) in *. apply Rmult_lt_reg_r with ((sE s - x) * (sE s - y)); [apply Rmult_lt_0_compat; lra|].
    replace (sD s * x / (sE s - x) * ((sE s - x) * (sE s - y))) with (sD s * x * (sE s - y)) by (field; lra). replace (sD s * y / (sE s - y) * ((sE s - x) * (sE s - y))) with (sD s * y * (sE s - x)) by (field; lra).
    assert (0 < sD s * sE s * (y - x)) by (apply Rmult_lt_0_compat; [apply Rmult_lt_0_compat; lra|lra]). lra. }
  lra.
Qed.

(** ** Bounds of the powers up to 18 um *)
Lemma pow_o u : 1 <= u <= 18 -> Rpower u 1.921292 <= 261.3.
Proof.
  intros [H1 H2]. apply Rle_trans with (Rpower 18 1.921292); [apply Rle_Rpower_l; lra|]. apply Rle_trans with (Rpower 18 (2 + - / INR 13)).
  - apply Rle_Rpower; [lra|]. rewrite INR_IZR_INZ. cbn [Z.of_nat Pos.of_succ_nat Pos.succ]. lra.
  - rewrite Rpower_plus, Rpower_Ropp. replace 2 with (INR 2) by (cbn; lra). rewrite Rpower_pow by lra.
    pose proof (root_ge 18 1.24 13 ltac:(lra) ltac:(lra) ltac:(lia) ltac:(lra)) as R. set (x := Rpower 18 (/ INR 13)) in *. assert (/ x <= / 1.24) by (apply Rinv_le_contravar; lra). lra.
Qed.
Lemma pow_e u : 1 <= u <= 18 -> Rpower u 2.047204 <= 388.8.
Proof.
  intros [H1 H2]. apply Rle_trans with (Rpower 18 2.047204); [apply Rle_Rpower_l; lra|]. apply Rle_trans with (Rpower 18 (2 + / INR 20)).
  - apply Rle_Rpower; [lra|]. rewrite INR_IZR_INZ. cbn [Z.of_nat Pos.of_succ_nat Pos.succ]. lra.
  - rewrite Rpower_plus. replace 2 with (INR 2) by (cbn; lra). rewrite Rpower_pow by lra.
    pose proof (root_le 18 1.2 20 ltac:(lra) ltac:(lra) ltac:(lia) ltac:(lra)) as R. lra.
Qed.
Lemma val_1 : val agse_o 1 < 7.5 /\ val agse_e 1 < 7.5.
Proof. unfold val, agse_o, agse_e. cbn [sA sB sC sD sE sF sG sa sb sc]. rewrite !Rpower_one. lra. Qed.
Lemma term_pos B C x : 0 < B -> C < 1 -> 1 <= x -> 0 < B / (x - C).
Proof. intros. apply Rdiv_lt_0_compat; lra. Qed.
Lemma term_ge D E t T : 0 < D -> 0 < t <= T -> T < E -> - (D * T / (E - T)) <= D / (1 - E / t).
Proof.
  intros HD Ht HT. rewrite last_term by lra. apply Ropp_le_contravar. apply Rmult_le_reg_r with ((E - t) * (E - T)); [apply Rmult_lt_0_compat; lra|].
  replace (D * t / (E - t) * ((E - t) * (E - T))) with (D * t * (E - T)) by (field; lra). replace (D * T / (E - T) * ((E - t) * (E - T))) with (D * T * (E - t)) by (field; lra).
  assert (0 <= D * E * (T - t)) by (apply Rmult_le_pos; [left; apply Rmult_lt_0_compat; lra|lra]). lra.
Qed.
Lemma val_low u : 1 <= u <= 18 -> 6.1 < val agse_o u /\ 6.1 < val agse_e u.
Proof.
  intros Hu. pose proof (pow_o u Hu) as Po. pose proof (pow_e u Hu) as Pe. unfold val, agse_o, agse_e. cbn [sA sB sC sD sE sF sG sa sb sc].
  pose proof (Rpower_ge1 u 1.921292 ltac:(lra) ltac:(lra)) as P1. pose proof (Rpower_ge1 u 2.047204 ltac:(lra) ltac:(lra)) as P2.
  pose proof (term_pos 0.417863 0.178080 _ ltac:(lra) ltac:(lra) (Rpower_ge1 u 1.970203 ltac:(lra) ltac:(lra))) as T1. pose proof (term_pos 0.000442 0.889242 _ ltac:(lra) ltac:(lra) (Rpower_ge1 u 0.340086 ltac:(lra) ltac:(lra))) as T2.
  pose proof (term_pos 0.436579 0.229775 _ ltac:(lra) ltac:(lra) (Rpower_ge1 u 1.893694 ltac:(lra) ltac:(lra))) as T3. pose proof (term_pos 0.012063 0.213957 _ ltac:(lra) ltac:(lra) (Rpower_ge1 u 4.269152 ltac:(lra) ltac:(lra))) as T4.
  pose proof (term_ge 1.209374 915.345 (Rpower u 1.921292) 261.3 ltac:(lra) ltac:(lra) ltac:(lra)) as Q1. pose proof (term_ge 3.252722 3129.32 (Rpower u 2.047204) 388.8 ltac:(lra) ltac:(lra) ltac:(lra)) as Q2.
  assert (N1 : 1.209374 * 261.3 / (915.345 - 261.3) < 0.5) by lra. assert (N2 : 3.252722 * 388.8 / (3129.32 - 388.8) < 0.5) by lra. lra.
Qed.

(** ** The ordinary index is the larger one *)
Lemma frac_diff B C r x B' C' d : 0 < B -> 1 <= x -> 1 <= r -> C < 1 -> C' < 1 -> (B' - d * (x - C')) * (r * x - C) <= B * (x - C') -> - d <= B / (r * x - C) - B' / (x - C').
Proof.
  intros HB Hx Hr HC HC' H. assert (1 <= r * x) by nra. assert (P1 : 0 < r * x - C) by lra. assert (P2 : 0 < x - C') by lra.
  apply Rmult_le_reg_r with ((r * x - C) * (x - C')); [now apply Rmult_lt_0_compat|].
  replace ((B / (r * x - C) - B' / (x - C')) * ((r * x - C) * (x - C'))) with (B * (x - C') - B' * (r * x - C)) by (field; lra). lra.
Qed.
Lemma first_q B C r x B' C' d k : 0 < B -> 1 <= x -> 1 <= r <= k -> C < 1 -> C' < 1 -> (B' - d * (x - C')) * (k * x - C) <= B * (x - C') -> (B' - d * (x - C')) * (r * x - C) <= B * (x - C').
Proof.
  intros HB Hx Hr HC HC' H. assert (P : 0 <= B * (x - C')) by (apply Rmult_le_pos; lra). set (q := B' - d * (x - C')) in *. assert (1 <= r * x) by nra. assert (r * x <= k * x) by (apply Rmult_le_compat_r; lra).
  destruct (Rle_dec q 0) as [L|L]; [|apply Rle_trans with (2 := H); apply Rmult_le_compat_l; lra].
  apply Rle_trans with 0; [|exact P]. assert (0 <= (- q) * (r * x - C)) by (apply Rmult_le_pos; lra). lra.
Qed.
Lemma first_terms u : 1 <= u <= 18 -> -0.08 <= 0.417863 / (Rpower u 1.970203 - 0.178080) - 0.436579 / (Rpower u 1.893694 - 0.229775).
Proof.
  intros Hu. set (x := Rpower u 1.893694). set (r := Rpower u 0.076509).
  assert (E : Rpower u 1.970203 = r * x) by (unfold r, x; rewrite <- Rpower_plus; f_equal; lra). rewrite E.
  assert (Hx : 1 <= x) by (apply Rpower_ge1; lra). assert (Hr : 1 <= r) by (apply Rpower_ge1; lra).
  assert (E13 : 0.076509 <= / INR 13) by (rewrite INR_IZR_INZ; cbn [Z.of_nat Pos.of_succ_nat Pos.succ]; lra).
  replace (-0.08) with (- (0.08)) by lra. apply frac_diff; try lra. destruct (Rle_dec u 1.5) as [L|L].
  - assert (R : r <= 1.032). { apply Rle_trans with (Rpower u (/ INR 13)); [apply Rle_Rpower; lra|]. apply root_le; try lra; try lia. }
    clearbody x r. clear E. apply first_q with 1.032; try lra. nra.
  - assert (R : r <= 1.25). { apply Rle_trans with (Rpower u (/ INR 13)); [apply Rle_Rpower; lra|]. apply root_le; try lra; try lia. }
    assert (X : 1.8 <= x). { apply Rle_trans with (Rpower 1.5 1.893694); [|apply Rle_Rpower_l; lra]. apply Rle_trans with (Rpower 1.5 (INR 3 * / INR 2)).
      - rewrite <- Rpower_mult, Rpower_pow by lra. apply root_ge; try lra; try lia.
      - apply Rle_Rpower; [lra|]. rewrite !INR_IZR_INZ. cbn [Z.of_nat Pos.of_succ_nat Pos.succ]. lra. }
    clearbody x r. clear E. apply first_q with 1.25; try lra. nra.
Qed.

Lemma last_q t s k T : 0 < t <= T -> T <= 262 -> 1 <= k <= 1.4 -> k * t <= s -> s <= 400 -> -0.07 * ((915.345 - t) * (3129.32 - k * t)) <= 3.252722 * (k * t) * (915.345 - t) - 1.209374 * t * (3129.32 - k * t) -> -0.07 <= 1.209374 / (1 - 915.345 / t) - 3.252722 / (1 - 3129.32 / s).
Proof.
  intros Ht HT Hk Hs Hs4 H. assert (P : 0 < k * t) by (apply Rmult_lt_0_compat; lra). assert (K : k * t <= 1.4 * 262) by (apply Rmult_le_compat; lra).
  rewrite !last_term by lra.
  assert (S : 3.252722 * (k * t) / (3129.32 - k * t) <= 3.252722 * s / (3129.32 - s)).
  { set (y := k * t) in *. apply Rmult_le_reg_r with ((3129.32 - y) * (3129.32 - s)); [apply Rmult_lt_0_compat; lra|].
    replace (3.252722 * y / (3129.32 - y) * ((3129.32 - y) * (3129.32 - s))) with (3.252722 * y * (3129.32 - s)) by (field; lra). replace (3.252722 * s / (3129.32 - s) * ((3129.32 - y) * (3129.32 - s))) with (3.252722 * s * (3129.32 - y)) by (field; lra). lra. }
  apply Rle_trans with (- (1.209374 * t / (915.345 - t)) + 3.252722 * (k * t) / (3129.32 - k * t)); [|lra].
  set (y := k * t) in *. apply Rmult_le_reg_r with ((915.345 - t) * (3129.32 - y)); [apply Rmult_lt_0_compat; lra|].
  replace ((- (1.209374 * t / (915.345 - t)) + 3.252722 * y / (3129.32 - y)) * ((915.345 - t) * (3129.32 - y))) with (3.252722 * y * (915.345 - t) - 1.209374 * t * (3129.32 - y)) by (field; lra). exact H.
Qed.
Lemma last_terms u : 1 <= u <= 18 -> -0.07 <= 1.209374 / (1 - 915.345 / Rpower u 1.921292) - 3.252722 / (1 - 3129.32 / Rpower u 2.047204).
Proof.
  intros Hu. pose proof (pow_o u Hu) as Po. pose proof (pow_e u Hu) as Pe. pose proof (Rpower_ge1 u 1.921292 ltac:(lra) ltac:(lra)) as P1.
  assert (E : Rpower u 2.047204 = Rpower u 0.125912 * Rpower u 1.921292) by (rewrite <- Rpower_plus; f_equal; lra).
  set (t := Rpower u 1.921292) in *. destruct (Rle_dec u 12) as [L|L].
  - assert (T : t <= 144). { apply Rle_trans with (Rpower u 2); [apply Rle_Rpower; lra|]. replace 2 with (INR 2) by (cbn; lra). rewrite Rpower_pow by lra. assert (0 <= (12 - u) * (12 + u)) by (apply Rmult_le_pos; lra). lra. }
    assert (S : 1 * t <= Rpower u 2.047204). { rewrite E. apply Rmult_le_compat_r; [lra|]. apply Rpower_ge1; lra. }
    apply (last_q t _ 1 144); try lra. clearbody t. clear E. nra.
  - assert (S : 1.36 * t <= Rpower u 2.047204).
    { rewrite E. apply Rmult_le_compat_r; [lra|]. apply Rle_trans with (Rpower u (/ INR 8)).
      - apply root_ge; try lra; try lia.
      - apply Rle_Rpower; [lra|]. rewrite INR_IZR_INZ. cbn [Z.of_nat Pos.of_succ_nat Pos.succ]. lra. }
    apply (last_q t _ 1.36 261.3); try lra. clearbody t. clear E. nra.
Qed.
Lemma val_oe u : 1 <= u <= 18 -> val agse_e u < val agse_o u.
Proof.
  intros Hu. pose proof (first_terms u Hu) as F. pose proof (last_terms u Hu) as L. unfold val, agse_o, agse_e. cbn [sA sB sC sD sE sF sG sa sb sc].
  pose proof (term_pos 0.000442 0.889242 _ ltac:(lra) ltac:(lra) (Rpower_ge1 u 0.340086 ltac:(lra) ltac:(lra))) as T2.
  assert (T4 : 0.012063 / (Rpower u 4.269152 - 0.213957) <= 0.012063 / (1 - 0.213957)). { pose proof (Rpower_ge1 u 4.269152 ltac:(lra) ltac:(lra)). apply Rmult_le_compat_l; [lra|]. apply Rinv_le_contravar; lra. }
  lra.
Qed.

(** ** The three axes *)
Lemma sell_o wl : 1000 <= wl <= 18000 -> sell_n agse_o wl = Ok (sqrt (val agse_o (wl * 0.001))).
Proof. intros H. apply sell_run; [exact good_o|lra| |]. - change (sc agse_o) with 1.921292. change (sE agse_o) with 915.345. pose proof (pow_o (wl * 0.001) ltac:(lra)). lra. - pose proof (val_low (wl * 0.001) ltac:(lra)). lra. Qed.
Lemma sell_e wl : 1000 <= wl <= 18000 -> sell_n agse_e wl = Ok (sqrt (val agse_e (wl * 0.001))).
Proof. intros H. apply sell_run; [exact good_e|lra| |]. - change (sc agse_e) with 2.047204. change (sE agse_e) with 3129.32. pose proof (pow_e (wl * 0.001) ltac:(lra)). lra. - pose proof (val_low (wl * 0.001) ltac:(lra)). lra. Qed.
Lemma val_lt u v : 1 <= u < v -> v <= 18 -> val agse_o v < val agse_o u /\ val agse_e v < val agse_e u.
Proof.
  intros H Hv. split; apply val_decr; try exact good_o; try exact good_e; try exact H.
  - change (sc agse_o) with 1.921292. change (sE agse_o) with 915.345. pose proof (pow_o v ltac:(lra)). lra.
  - change (sc agse_e) with 2.047204. change (sE agse_e) with 3129.32. pose proof (pow_e v ltac:(lra)). lra.
Qed.
Lemma val_up u : 1 <= u <= 18 -> val agse_o u < 7.5.
Proof. intros H. destruct (Rle_lt_or_eq_dec 1 u (proj1 H)) as [L|<-]; [|apply val_1]. pose proof (val_lt 1 u ltac:(lra) ltac:(lra)). pose proof val_1. lra. Qed.
Definition n_o (wl : R) : R := sqrt (val agse_o (wl * 0.001)).
Definition n_e (wl : R) : R := sqrt (val agse_e (wl * 0.001)).
Lemma n_range wl : 1000 <= wl <= 18000 -> 2.46 < n_e wl /\ n_e wl < n_o wl /\ n_o wl < 2.74.
Proof.
  intros H. pose proof (val_low (wl * 0.001) ltac:(lra)) as [L1 L2]. pose proof (val_up (wl * 0.001) ltac:(lra)) as U. pose proof (val_oe (wl * 0.001) ltac:(lra)) as D. unfold n_e, n_o. repeat split.
  - rewrite <- (sqrt_pow2 2.46) by lra. apply sqrt_lt_1; lra.
  - apply sqrt_lt_1; lra.
  - rewrite <- (sqrt_pow2 2.74) by lra. apply sqrt_lt_1; lra.
Qed.
Lemma n_decr w1 w2 : 1000 <= w1 < w2 -> w2 <= 18000 -> n_o w2 < n_o w1 /\ n_e w2 < n_e w1.
Proof.
  intros H H2. destruct (val_lt (w1 * 0.001) (w2 * 0.001) ltac:(lra) ltac:(lra)) as [A B]. pose proof (val_low (w1 * 0.001) ltac:(lra)). pose proof (val_low (w2 * 0.001) ltac:(lra)). split; apply sqrt_lt_1; lra.
Qed.
Lemma mix_val theta wl : 1000 <= wl <= 18000 -> exists m, agse_n (mkAgse agse_o agse_e theta) wl "mix" = Ok m /\ 0 < m /\ m ^ 2 * (sin theta ^ 2 / n_e wl ^ 2 + cos theta ^ 2 / n_o wl ^ 2) = 1.
Proof.
  intros H. pose proof (n_range wl H) as R. destruct (agse_mix (mkAgse agse_o agse_e 0) wl (n_o wl) (n_e wl) theta (sell_o wl H) (sell_e wl H)) as (m & E & P); [lra|lra|]. exists m. split; [exact E|exact P].
Qed.
Lemma oe_val theta wl : 1000 <= wl <= 18000 -> agse_n (mkAgse agse_o agse_e theta) wl "o" = Ok (n_o wl) /\ agse_n (mkAgse agse_o agse_e theta) wl "e" = Ok (n_e wl).
Proof. intros H. unfold agse_n. cbn [ag_o ag_e]. rewrite (sell_o wl H), (sell_e wl H). split; reflexivity. Qed.
Lemma sc2 t : cos t ^ 2 = 1 - sin t ^ 2.
Proof. pose proof (sin2_cos2 t) as T. rewrite !Rsqr_pow2 in T. lra. Qed.
(** 1/m^2 is an affine function of sin^2 theta with the positive slope 1/ne^2 - 1/no^2. *)
Lemma mix_inv m s ne no : 0 < m -> 0 < ne -> 0 < no -> m ^ 2 * (s / ne ^ 2 + (1 - s) / no ^ 2) = 1 -> / m ^ 2 = / no ^ 2 + s * (/ ne ^ 2 - / no ^ 2).
Proof. intros Hm He Ho H. assert (m ^ 2 <> 0) by (apply pow_nonzero; lra). apply (Rmult_eq_reg_l (m ^ 2)); [|assumption]. rewrite Rinv_r by assumption. rewrite <- H. field. split; lra. Qed.
Lemma inv_sq_lt a b : 0 < a -> 0 < b -> (a < b <-> / b ^ 2 < / a ^ 2).
Proof.
  intros Ha Hb. assert (Qa : 0 < a ^ 2) by (apply pow_lt; exact Ha). assert (Qb : 0 < b ^ 2) by (apply pow_lt; exact Hb). split; intros H.
  - apply Rinv_lt_contravar; [now apply Rmult_lt_0_compat|]. nra.
  - apply Rnot_le_lt. intros L. assert (b ^ 2 <= a ^ 2) by (apply pow_incr; lra). assert (/ a ^ 2 <= / b ^ 2) by (apply Rinv_le_contravar; lra). lra.
Qed.
Lemma inv_sq_eq a b : 0 < a -> 0 < b -> (a = b <-> / a ^ 2 = / b ^ 2).
Proof. intros Ha Hb. split; [intros ->; reflexivity|]. intros H. destruct (Rtotal_order a b) as [L|[E|L]]; [|exact E|]; apply inv_sq_lt in L; lra. Qed.
Lemma slope ne no : 0 < ne < no -> 0 < / ne ^ 2 - / no ^ 2.
Proof. intros H. apply Rlt_Rminus. apply (proj1 (inv_sq_lt ne no ltac:(lra) ltac:(lra))); lra. Qed.

(*! C106: the constructed crystal, at every wavelength from 1 to 18 um and every angle: all three axes have an index, 2.46 < n_e < n_o < 2.74 (negative uniaxial), the index along the cut lies between them, equals n_o exactly when sin theta = 0 and n_e exactly when cos theta = 0; any other axis name raises ValueError. *)
Lemma C106_index_l : forall (theta : R) (len : option R) (caching : bool) (k : shared), exists (x : crystal) (a : agse), agse_init theta len caching k = (Ok x, k) /\ x_mat x = Agse a /\
  forall wl, 1000 <= wl <= 18000 -> exists no ne m, agse_n a wl "o" = Ok no /\ agse_n a wl "e" = Ok ne /\ agse_n a wl "mix" = Ok m /\
  2.46 < ne /\ ne < no /\ no < 2.74 /\ ne <= m <= no /\ (m = no <-> sin theta = 0) /\ (m = ne <-> cos theta = 0) /\
  forall axis, axis <> "o"%string -> axis <> "e"%string -> axis <> "mix"%string -> agse_n a wl axis = Raise ValueError.
Proof.
  intros theta len caching k. exists (mkX (Agse (mkAgse agse_o agse_e theta)) len caching), (mkAgse agse_o agse_e theta). split; [reflexivity|]. split; [reflexivity|]. intros wl H.
  destruct (mix_val theta wl H) as (m & Em & Pm & Qm). destruct (oe_val theta wl H) as [Eo Ee]. pose proof (n_range wl H) as (R1 & R2 & R3). exists (n_o wl), (n_e wl), m.
  rewrite sc2 in Qm. pose proof (mix_inv m (sin theta ^ 2) (n_e wl) (n_o wl) Pm ltac:(lra) ltac:(lra) Qm) as V. pose proof (slope (n_e wl) (n_o wl) ltac:(lra)) as Sl. set (d := / n_e wl ^ 2 - / n_o wl ^ 2) in *.
  pose proof (sc2 theta) as SC. pose proof (pow2_ge_0 (sin theta)) as S0. pose proof (pow2_ge_0 (cos theta)) as C0.
  assert (B : 0 <= sin theta ^ 2 * d <= d) by (split; [apply Rmult_le_pos; lra|]; assert (0 <= (1 - sin theta ^ 2) * d) by (apply Rmult_le_pos; lra); lra).
  split; [exact Eo|]. split; [exact Ee|]. split; [exact Em|]. split; [exact R1|]. split; [exact R2|]. split; [exact R3|]. split; [split|split; [|split]].
  - apply Rnot_lt_le. intros L. apply inv_sq_lt in L; try lra. unfold d in *. lra.
  - apply Rnot_lt_le. intros L. apply inv_sq_lt in L; try lra.
  - rewrite inv_sq_eq by lra. rewrite V. split; intros E.
    + assert (Z : sin theta ^ 2 * d = 0) by lra. apply Rmult_integral in Z as [Z|Z]; [|lra]. destruct (Req_dec (sin theta) 0) as [|N]; [assumption|]. exfalso. apply (pow_nonzero _ 2 N Z).
    + rewrite E. ring.
  - rewrite inv_sq_eq by lra. rewrite V. split; intros E.
    + assert (Z : (1 - sin theta ^ 2) * d = 0) by (unfold d in *; lra). apply Rmult_integral in Z as [Z|Z]; [|lra]. destruct (Req_dec (cos theta) 0) as [|N]; [assumption|]. exfalso. apply (pow_nonzero _ 2 N). lra.
    + rewrite E in SC. replace (sin theta ^ 2) with 1 by lra. unfold d. ring.
  - intros axis A1 A2 A3. unfold agse_n. cbn [ag_o ag_e]. rewrite (sell_o wl H), (sell_e wl H). cbn [rbind]. apply String.eqb_neq in A1, A2, A3. rewrite A1, A2, A3. reflexivity.
Qed.

(*! C106: normal dispersion: between 1 and 18 um all three indices fall strictly with the wavelength, at every angle. *)
Lemma C106_dispersion_l : forall (theta : R) (len : option R) (caching : bool) (k : shared) (x : crystal) (a : agse) (wl1 wl2 n1 n2 : R) (axis : string), agse_init theta len caching k = (Ok x, k) -> x_mat x = Agse a ->
  1000 <= wl1 < wl2 -> wl2 <= 18000 -> agse_n a wl1 axis = Ok n1 -> agse_n a wl2 axis = Ok n2 -> n2 < n1.
Proof.
  intros theta len caching k x a w1 w2 n1 n2 axis Hi Ha H H2 E1 E2. unfold agse_init, ret in Hi. apply (f_equal fst) in Hi. cbn [fst] in Hi. injection Hi as <-. cbn [x_mat] in Ha. injection Ha as <-.
  destruct (n_decr w1 w2 H H2) as [Do De]. destruct (oe_val theta w1 ltac:(lra)) as [Eo1 Ee1]. destruct (oe_val theta w2 ltac:(lra)) as [Eo2 Ee2].
  pose proof (n_range w1 ltac:(lra)) as R1. pose proof (n_range w2 ltac:(lra)) as R2.
  destruct (String.string_dec axis "o") as [->|A1]; [congruence|]. destruct (String.string_dec axis "e") as [->|A2]; [congruence|]. destruct (String.string_dec axis "mix") as [->|A3].
  - destruct (mix_val theta w1 ltac:(lra)) as (m1 & M1 & P1 & Q1). destruct (mix_val theta w2 ltac:(lra)) as (m2 & M2 & P2 & Q2). assert (n1 = m1) by congruence. assert (n2 = m2) by congruence. subst n1 n2.
    rewrite sc2 in Q1, Q2. apply mix_inv in Q1; try lra. apply mix_inv in Q2; try lra. apply inv_sq_lt; [lra|lra|]. rewrite Q1, Q2.
    assert (I1 : / n_o w1 ^ 2 < / n_o w2 ^ 2) by (apply (proj1 (inv_sq_lt (n_o w2) (n_o w1) ltac:(lra) ltac:(lra))); lra). assert (I2 : / n_e w1 ^ 2 < / n_e w2 ^ 2) by (apply (proj1 (inv_sq_lt (n_e w2) (n_e w1) ltac:(lra) ltac:(lra))); lra).
    pose proof (sc2 theta) as SC. pose proof (pow2_ge_0 (sin theta)) as S0. pose proof (pow2_ge_0 (cos theta)) as C0. set (s := sin theta ^ 2) in *. clearbody s.
    set (a1 := / n_o w1 ^ 2) in *. set (a2 := / n_o w2 ^ 2) in *. set (b1 := / n_e w1 ^ 2) in *. set (b2 := / n_e w2 ^ 2) in *. clearbody a1 a2 b1 b2.
    assert (0 <= s * (b2 - b1)) by (apply Rmult_le_pos; lra). assert (0 <= (1 - s) * (a2 - a1)) by (apply Rmult_le_pos; lra).
    destruct (Req_dec s 0) as [->|N]; [lra|]. assert (0 < s * (b2 - b1)) by (apply Rmult_lt_0_compat; lra). lra.
  - exfalso. unfold agse_n in E1. cbn [ag_o ag_e] in E1. rewrite (sell_o w1), (sell_e w1) in E1 by lra. cbn [rbind] in E1. apply String.eqb_neq in A1, A2, A3. rewrite A1, A2, A3 in E1. discriminate.
Qed.

(*! C106: turning the crystal: set_theta changes no ordinary or extraordinary index; the index along the cut falls strictly as the angle goes from 0 to 90 degrees, and is the same for theta, -theta and theta + pi. *)
Lemma C106_angle_l : forall (theta : R) (len : option R) (caching : bool) (k : shared) (x : crystal) (a : agse) (wl : R), agse_init theta len caching k = (Ok x, k) -> x_mat x = Agse a -> 1000 <= wl <= 18000 ->
  (forall t axis, (axis = "o"%string \/ axis = "e"%string) -> agse_n (set_theta t a) wl axis = agse_n a wl axis) /\
  (forall t1 t2 m1 m2, 0 <= t1 < t2 -> t2 <= PI / 2 -> agse_n (set_theta t1 a) wl "mix" = Ok m1 -> agse_n (set_theta t2 a) wl "mix" = Ok m2 -> m2 < m1) /\
  (forall t, agse_n (set_theta (- t) a) wl "mix" = agse_n (set_theta t a) wl "mix" /\ agse_n (set_theta (t + PI) a) wl "mix" = agse_n (set_theta t a) wl "mix").
Proof.
  intros theta len caching k x a wl Hi Ha H. unfold agse_init, ret in Hi. apply (f_equal fst) in Hi. cbn [fst] in Hi. injection Hi as <-. cbn [x_mat] in Ha. injection Ha as <-. split; [|split].
  - intros t axis [-> | ->]; reflexivity.
  - intros t1 t2 m1 m2 T1 T2 E1 E2. cbn [set_theta ag_o ag_e] in *. destruct (mix_val t1 wl H) as (m1' & M1 & P1 & Q1). destruct (mix_val t2 wl H) as (m2' & M2 & P2 & Q2).
    change (agse_n (mkAgse agse_o agse_e t1) wl "mix" = Ok m1) in E1. change (agse_n (mkAgse agse_o agse_e t2) wl "mix" = Ok m2) in E2. assert (m1 = m1') by congruence. assert (m2 = m2') by congruence. subst m1' m2'.
    pose proof (n_range wl H) as R. rewrite sc2 in Q1, Q2. apply mix_inv in Q1; try lra. apply mix_inv in Q2; try lra. apply inv_sq_lt; [lra|lra|]. rewrite Q1, Q2. pose proof (slope (n_e wl) (n_o wl) ltac:(lra)) as Sl. set (d := / n_e wl ^ 2 - / n_o wl ^ 2) in *.
    assert (S1 : 0 <= sin t1) by (apply sin_ge_0; pose proof PI_RGT_0; lra). assert (S2 : sin t1 < sin t2) by (apply sin_increasing_1; pose proof PI_RGT_0; lra).
    assert (S3 : sin t1 ^ 2 < sin t2 ^ 2) by nra. assert (0 < (sin t2 ^ 2 - sin t1 ^ 2) * d) by (apply Rmult_lt_0_compat; lra). lra.
  - intros t. unfold agse_n. cbn [set_theta ag_o ag_e ag_theta]. rewrite sin_neg, cos_neg, neg_sin, neg_cos. replace ((- sin t) ^ 2) with (sin t ^ 2) by ring. replace ((- cos t) ^ 2) with (cos t ^ 2) by ring. split; reflexivity.
Qed.

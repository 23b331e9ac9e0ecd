(** Type-I phase matching in AgGaSe2: when does phasematch find an angle (C107). *)
From Coq Require Import String.
From Coq Require Import Reals List ZArith Bool Arith Lia Lra Psatz.
From Verif Require Import Base CNum NumPy ModelPulse ModelCrystal CrystalProofs AgseProofs.
Import ListNotations.
Local Open Scope R_scope.

(** ** Enclosures of the indices at single wavelengths *)
Lemma rp_le u p m k y : 1 <= u -> 0 < y -> (0 < k)%nat -> p <= INR m * / INR k -> u ^ m <= y ^ k -> Rpower u p <= y.
Proof.
  intros Hu Hy Hk Hp H. apply Rle_trans with (Rpower u (INR m * / INR k)); [apply Rle_Rpower; lra|]. rewrite <- Rpower_mult, Rpower_pow by lra. apply root_le; try assumption. apply pow_lt. lra.
Qed.
Lemma rp_ge u p m k y : 1 <= u -> 0 < y -> (0 < k)%nat -> INR m * / INR k <= p -> y ^ k <= u ^ m -> y <= Rpower u p.
Proof.
  intros Hu Hy Hk Hp H. apply Rle_trans with (Rpower u (INR m * / INR k)); [|apply Rle_Rpower; lra]. rewrite <- Rpower_mult, Rpower_pow by lra. apply root_ge; try assumption. apply pow_lt. lra.
Qed.
Lemma frac_le B C x y : 0 < B -> C < y -> y <= x -> B / (x - C) <= B / (y - C).
Proof. intros. apply Rmult_le_compat_l; [lra|]. apply Rinv_le_contravar; lra. Qed.
Lemma tail_le D E t T : 0 < D -> 0 < t <= T -> T < E -> D / (1 - E / T) <= D / (1 - E / t).
Proof. intros HD Ht HT. rewrite (last_term D E T) by lra. now apply term_ge. Qed.
Lemma o_low u t : 1 <= u <= 18 -> Rpower u 1.921292 <= t -> t < 900 -> 6.849065 + 1.209374 / (1 - 915.345 / t) < val agse_o u.
Proof.
  intros Hu Ht T. unfold val, agse_o. cbn [sA sB sC sD sE sF sG sa sb sc].
  pose proof (term_pos 0.417863 0.178080 _ ltac:(lra) ltac:(lra) (Rpower_ge1 u 1.970203 ltac:(lra) ltac:(lra))) as T1. pose proof (term_pos 0.000442 0.889242 _ ltac:(lra) ltac:(lra) (Rpower_ge1 u 0.340086 ltac:(lra) ltac:(lra))) as T2.
  pose proof (Rpower_ge1 u 1.921292 ltac:(lra) ltac:(lra)) as P1. pose proof (tail_le 1.209374 915.345 (Rpower u 1.921292) t ltac:(lra) ltac:(lra) ltac:(lra)). lra.
Qed.
Lemma e_up u x s f : 1 <= u <= 18 -> 1 <= x -> 1 <= s -> 1 <= f -> x <= Rpower u 1.893694 -> s <= Rpower u 2.047204 -> f <= Rpower u 4.269152 -> val agse_e u <= 6.675232 + 0.436579 / (x - 0.229775) + 0.012063 / (f - 0.213957) + 3.252722 / (1 - 3129.32 / s).
Proof.
  intros Hu Hx1 Hs1 Hf1 Hx Hs Hf. unfold val, agse_e. cbn [sA sB sC sD sE sF sG sa sb sc].
  pose proof (frac_le 0.436579 0.229775 (Rpower u 1.893694) x ltac:(lra) ltac:(lra) Hx). pose proof (frac_le 0.012063 0.213957 (Rpower u 4.269152) f ltac:(lra) ltac:(lra) Hf). pose proof (pow_e u Hu) as P1. pose proof (tail_le 3.252722 3129.32 s (Rpower u 2.047204) ltac:(lra) ltac:(lra) ltac:(lra)). lra.
Qed.
Lemma o_up u x t f : 1 <= u <= 18 -> 1 <= x -> 1 <= t -> 1 <= f -> x <= Rpower u 1.970203 -> t <= Rpower u 1.921292 -> f <= Rpower u 0.340086 -> val agse_o u <= 6.849065 + 0.417863 / (x - 0.178080) + 0.000442 / (f - 0.889242) + 1.209374 / (1 - 915.345 / t).
Proof.
  intros Hu Hx1 Hs1 Hf1 Hx Hs Hf. unfold val, agse_o. cbn [sA sB sC sD sE sF sG sa sb sc].
  pose proof (frac_le 0.417863 0.178080 (Rpower u 1.970203) x ltac:(lra) ltac:(lra) Hx). pose proof (frac_le 0.000442 0.889242 (Rpower u 0.340086) f ltac:(lra) ltac:(lra) Hf). pose proof (pow_o u Hu) as P1. pose proof (tail_le 1.209374 915.345 t (Rpower u 1.921292) ltac:(lra) ltac:(lra) ltac:(lra)). lra.
Qed.
Lemma e_low u x s : 1 <= u <= 18 -> Rpower u 1.893694 <= x -> Rpower u 2.047204 <= s -> s < 3000 -> 6.675232 + 0.436579 / (x - 0.229775) + 3.252722 / (1 - 3129.32 / s) < val agse_e u.
Proof.
  intros Hu Hx Hs S. unfold val, agse_e. cbn [sA sB sC sD sE sF sG sa sb sc].
  pose proof (Rpower_ge1 u 1.893694 ltac:(lra) ltac:(lra)) as P0. pose proof (Rpower_ge1 u 2.047204 ltac:(lra) ltac:(lra)) as P1.
  pose proof (frac_le 0.436579 0.229775 x (Rpower u 1.893694) ltac:(lra) ltac:(lra) Hx). pose proof (term_pos 0.012063 0.213957 _ ltac:(lra) ltac:(lra) (Rpower_ge1 u 4.269152 ltac:(lra) ltac:(lra))) as T4.
  pose proof (tail_le 3.252722 3129.32 (Rpower u 2.047204) s ltac:(lra) ltac:(lra) ltac:(lra)). lra.
Qed.
Ltac num := try lia; try lra; repeat rewrite INR_IZR_INZ; cbn [Z.of_nat Pos.of_succ_nat Pos.succ]; lra.
Lemma olow_5 : 6.81 < val agse_o 5.
Proof. assert (T : Rpower 5 1.921292 <= 22.0889) by (apply (rp_le 5 _ 25 13); num). pose proof (o_low 5 22.0889 ltac:(lra) T ltac:(lra)). lra. Qed.
Lemma eup_2 : val agse_e 2 < 6.81.
Proof. assert (X : 3.7034 <= Rpower 2 1.893694) by (apply (rp_ge 2 _ 17 9); num). assert (S : 3.9999 <= Rpower 2 2.047204) by (apply (rp_ge 2 _ 2 1); num). assert (F : 15.9999 <= Rpower 2 4.269152) by (apply (rp_ge 2 _ 4 1); num). pose proof (e_up 2 3.7034 3.9999 15.9999 ltac:(lra) ltac:(lra) ltac:(lra) ltac:(lra) X S F). lra. Qed.
Lemma olow_8 : 6.76 < val agse_o 8.
Proof. assert (T : Rpower 8 1.921292 <= 54.5396) by (apply (rp_le 8 _ 25 13); num). pose proof (o_low 8 54.5396 ltac:(lra) T ltac:(lra)). lra. Qed.
Lemma eup_2_5 : val agse_e 2.5 < 6.76.
Proof. assert (X : 5.6450 <= Rpower 2.5 1.893694) by (apply (rp_ge 2.5 _ 17 9); num). assert (S : 6.2499 <= Rpower 2.5 2.047204) by (apply (rp_ge 2.5 _ 2 1); num). assert (F : 39.0624 <= Rpower 2.5 4.269152) by (apply (rp_ge 2.5 _ 4 1); num). pose proof (e_up 2.5 5.6450 6.2499 39.0624 ltac:(lra) ltac:(lra) ltac:(lra) ltac:(lra) X S F). lra. Qed.
Lemma olow_10_6 : 6.7 < val agse_o 10.6.
Proof. assert (T : Rpower 10.6 1.921292 <= 93.7006) by (apply (rp_le 10.6 _ 25 13); num). pose proof (o_low 10.6 93.7006 ltac:(lra) T ltac:(lra)). lra. Qed.
Lemma eup_4 : val agse_e 4 < 6.7.
Proof. assert (X : 13.7159 <= Rpower 4 1.893694) by (apply (rp_ge 4 _ 17 9); num). assert (S : 15.9999 <= Rpower 4 2.047204) by (apply (rp_ge 4 _ 2 1); num). assert (F : 255.9999 <= Rpower 4 4.269152) by (apply (rp_ge 4 _ 4 1); num). pose proof (e_up 4 13.7159 15.9999 255.9999 ltac:(lra) ltac:(lra) ltac:(lra) ltac:(lra) X S F). lra. Qed.
Lemma olow_12 : 6.666 < val agse_o 12.
Proof. assert (T : Rpower 12 1.921292 <= 118.9457) by (apply (rp_le 12 _ 25 13); num). pose proof (o_low 12 118.9457 ltac:(lra) T ltac:(lra)). lra. Qed.
Lemma eup_5_3 : val agse_e 5.3 < 6.666.
Proof. assert (X : 23.3386 <= Rpower 5.3 1.893694) by (apply (rp_ge 5.3 _ 17 9); num). assert (S : 28.0899 <= Rpower 5.3 2.047204) by (apply (rp_ge 5.3 _ 2 1); num). assert (F : 789.0480 <= Rpower 5.3 4.269152) by (apply (rp_ge 5.3 _ 4 1); num). pose proof (e_up 5.3 23.3386 28.0899 789.0480 ltac:(lra) ltac:(lra) ltac:(lra) ltac:(lra) X S F). lra. Qed.
Lemma oup_2 : val agse_o 2 < 6.97.
Proof. assert (X : 3.9168 <= Rpower 2 1.970203) by (apply (rp_ge 2 _ 65 33); num). assert (T : 3.7754 <= Rpower 2 1.921292) by (apply (rp_ge 2 _ 23 12); num). assert (F : 1.2599 <= Rpower 2 0.340086) by (apply (rp_ge 2 _ 1 3); num). pose proof (o_up 2 3.9168 3.7754 1.2599 ltac:(lra) ltac:(lra) ltac:(lra) ltac:(lra) X T F). lra. Qed.
Lemma elow_1_3 : 6.97 < val agse_e 1.3.
Proof. assert (X : Rpower 1.3 1.893694 <= 1.6440) by (apply (rp_le 1.3 _ 36 19); num). assert (S : Rpower 1.3 2.047204 <= 1.7113) by (apply (rp_le 1.3 _ 43 21); num). pose proof (e_low 1.3 1.6440 1.7113 ltac:(lra) X S ltac:(lra)). lra. Qed.
Lemma oup_2_6 : val agse_o 2.6 < 6.92.
Proof. assert (X : 6.5670 <= Rpower 2.6 1.970203) by (apply (rp_ge 2.6 _ 65 33); num). assert (T : 6.2426 <= Rpower 2.6 1.921292) by (apply (rp_ge 2.6 _ 23 12); num). assert (F : 1.3750 <= Rpower 2.6 0.340086) by (apply (rp_ge 2.6 _ 1 3); num). pose proof (o_up 2.6 6.5670 6.2426 1.3750 ltac:(lra) ltac:(lra) ltac:(lra) ltac:(lra) X T F). lra. Qed.
Lemma elow_1_4 : 6.92 < val agse_e 1.4.
Proof. assert (X : Rpower 1.4 1.893694 <= 1.8918) by (apply (rp_le 1.4 _ 36 19); num). assert (S : Rpower 1.4 2.047204 <= 1.9917) by (apply (rp_le 1.4 _ 43 21); num). pose proof (e_low 1.4 1.8918 1.9917 ltac:(lra) X S ltac:(lra)). lra. Qed.
Lemma oup_2_8 : val agse_o 2.8 < 6.898.
Proof. assert (X : 7.5991 <= Rpower 2.8 1.970203) by (apply (rp_ge 2.8 _ 65 33); num). assert (T : 7.1953 <= Rpower 2.8 1.921292) by (apply (rp_ge 2.8 _ 23 12); num). assert (F : 1.4094 <= Rpower 2.8 0.340086) by (apply (rp_ge 2.8 _ 1 3); num). pose proof (o_up 2.8 7.5991 7.1953 1.4094 ltac:(lra) ltac:(lra) ltac:(lra) ltac:(lra) X T F). lra. Qed.
Lemma elow_1_5 : 6.898 < val agse_e 1.5.
Proof. assert (X : Rpower 1.5 1.893694 <= 2.1560) by (apply (rp_le 1.5 _ 36 19); num). assert (S : Rpower 1.5 2.047204 <= 2.2939) by (apply (rp_le 1.5 _ 43 21); num). pose proof (e_low 1.5 2.1560 2.2939 ltac:(lra) X S ltac:(lra)). lra. Qed.
Lemma oup_14 : val agse_o 14 < 6.604.
Proof. assert (X : 180.9359 <= Rpower 14 1.970203) by (apply (rp_ge 14 _ 65 33); num). assert (T : 157.3060 <= Rpower 14 1.921292) by (apply (rp_ge 14 _ 23 12); num). assert (F : 2.4101 <= Rpower 14 0.340086) by (apply (rp_ge 14 _ 1 3); num). pose proof (o_up 14 180.9359 157.3060 2.4101 ltac:(lra) ltac:(lra) ltac:(lra) ltac:(lra) X T F). lra. Qed.
Lemma elow_8 : 6.604 < val agse_e 8.
Proof. assert (X : Rpower 8 1.893694 <= 51.4184) by (apply (rp_le 8 _ 36 19); num). assert (S : Rpower 8 2.047204 <= 70.6618) by (apply (rp_le 8 _ 43 21); num). pose proof (e_low 8 51.4184 70.6618 ltac:(lra) X S ltac:(lra)). lra. Qed.
Lemma oup_16 : val agse_o 16 < 6.55.
Proof. assert (X : 235.3702 <= Rpower 16 1.970203) by (apply (rp_ge 16 _ 65 33); num). assert (T : 203.1873 <= Rpower 16 1.921292) by (apply (rp_ge 16 _ 23 12); num). assert (F : 2.5198 <= Rpower 16 0.340086) by (apply (rp_ge 16 _ 1 3); num). pose proof (o_up 16 235.3702 203.1873 2.5198 ltac:(lra) ltac:(lra) ltac:(lra) ltac:(lra) X T F). lra. Qed.
Lemma elow_9 : 6.55 < val agse_e 9.
Proof. assert (X : Rpower 9 1.893694 <= 64.2745) by (apply (rp_le 9 _ 36 19); num). assert (S : Rpower 9 2.047204 <= 89.9343) by (apply (rp_le 9 _ 43 21); num). pose proof (e_low 9 64.2745 89.9343 ltac:(lra) X S ltac:(lra)). lra. Qed.

(** ** Degenerate mixing: one photon of wavelength u, two of 2u *)
Lemma val_ole u v : 1 <= u <= v -> v <= 18 -> val agse_o v <= val agse_o u.
Proof. intros H Hv. destruct (Rle_lt_or_eq_dec u v (proj2 H)) as [L|<-]; [|lra]. pose proof (val_lt u v ltac:(lra) Hv). lra. Qed.
Lemma val_ele u v : 1 <= u <= v -> v <= 18 -> val agse_e v <= val agse_e u.
Proof. intros H Hv. destruct (Rle_lt_or_eq_dec u v (proj2 H)) as [L|<-]; [|lra]. pose proof (val_lt u v ltac:(lra) Hv). lra. Qed.
Lemma deg_yes u : 2 <= u <= 6 -> val agse_e u < val agse_o (2 * u).
Proof.
  intros H.
  assert (C : forall a b y, 2 <= a -> b <= 6 -> a <= u <= b -> val agse_e a < y -> y < val agse_o (2 * b) -> val agse_e u < val agse_o (2 * u)).
  { intros a b y Ha Hb Hu A B. pose proof (val_ele a u ltac:(lra) ltac:(lra)). pose proof (val_ole (2 * u) (2 * b) ltac:(lra) ltac:(lra)). lra. }
  destruct (Rle_dec u 2.5) as [L1|L1]; [apply (C 2 2.5 6.81); try lra; [exact eup_2|replace (2 * 2.5) with 5 by lra; exact olow_5]|].
  destruct (Rle_dec u 4) as [L2|L2]; [apply (C 2.5 4 6.76); try lra; [exact eup_2_5|replace (2 * 4) with 8 by lra; exact olow_8]|].
  destruct (Rle_dec u 5.3) as [L3|L3]; [apply (C 4 5.3 6.7); try lra; [exact eup_4|replace (2 * 5.3) with 10.6 by lra; exact olow_10_6]|].
  apply (C 5.3 6 6.666); try lra; [exact eup_5_3|replace (2 * 6) with 12 by lra; exact olow_12].
Qed.
Lemma deg_no u : 1 <= u <= 1.5 \/ 7 <= u <= 9 -> val agse_o (2 * u) < val agse_e u.
Proof.
  intros H.
  assert (C : forall a b y, 1 <= a -> b <= 9 -> a <= u <= b -> val agse_o (2 * a) < y -> y < val agse_e b -> val agse_o (2 * u) < val agse_e u).
  { intros a b y Ha Hb Hu A B. pose proof (val_ele u b ltac:(lra) ltac:(lra)). pose proof (val_ole (2 * a) (2 * u) ltac:(lra) ltac:(lra)). lra. }
  destruct H as [H|H].
  - destruct (Rle_dec u 1.3) as [L1|L1]; [apply (C 1 1.3 6.97); try lra; [replace (2 * 1) with 2 by lra; exact oup_2|exact elow_1_3]|].
    destruct (Rle_dec u 1.4) as [L2|L2]; [apply (C 1.3 1.4 6.92); try lra; [replace (2 * 1.3) with 2.6 by lra; exact oup_2_6|exact elow_1_4]|].
    apply (C 1.4 1.5 6.898); try lra; [replace (2 * 1.4) with 2.8 by lra; exact oup_2_8|exact elow_1_5].
  - destruct (Rle_dec u 8) as [L1|L1]; [apply (C 7 8 6.604); try lra; [replace (2 * 7) with 14 by lra; exact oup_14|exact elow_8]|].
    apply (C 8 9 6.55); try lra; [replace (2 * 8) with 16 by lra; exact oup_16|exact elow_9].
Qed.

(** ** The angle *)
Lemma inv_lt_cancel x y : 0 < x -> 0 < y -> / y < / x -> x < y.
Proof. intros Hx Hy H. apply Rnot_le_lt. intros L. assert (/ x <= / y) by (apply Rinv_le_contravar; lra). lra. Qed.
Lemma angle_exists ne no N : 0 < ne < no -> ne <= N <= no -> exists t, 0 <= t <= PI / 2 /\ N ^ 2 * (sin t ^ 2 / ne ^ 2 + cos t ^ 2 / no ^ 2) = 1.
Proof.
  intros H HN. pose proof (slope ne no H) as Sl. set (d := / ne ^ 2 - / no ^ 2) in *. set (q := (/ N ^ 2 - / no ^ 2) / d).
  assert (L1 : / no ^ 2 <= / N ^ 2) by (apply Rinv_le_contravar; [apply pow_lt; lra|apply pow_incr; lra]). assert (L2 : / N ^ 2 <= / ne ^ 2) by (apply Rinv_le_contravar; [apply pow_lt; lra|apply pow_incr; lra]).
  assert (Q : 0 <= q <= 1). { unfold q. split; [apply Rmult_le_pos; [lra|left; now apply Rinv_0_lt_compat]|]. apply Rmult_le_reg_r with d; [exact Sl|]. unfold Rdiv. rewrite Rmult_assoc, Rinv_l by lra. unfold d. lra. }
  assert (SQ : 0 <= sqrt q <= 1) by (split; [apply sqrt_pos|rewrite <- sqrt_1; apply sqrt_le_1_alt; lra]).
  exists (asin (sqrt q)). split; [split|].
  - apply Rnot_lt_le. intros L. pose proof (asin_bound (sqrt q)) as B. pose proof PI_RGT_0. pose proof (sin_lt_0_var (asin (sqrt q)) ltac:(lra) L) as Z. rewrite sin_asin in Z by lra. lra.
  - apply asin_bound.
  - rewrite sc2, sin_asin by lra. rewrite pow2_sqrt by lra. assert (E : q * d = / N ^ 2 - / no ^ 2) by (unfold q; field; lra). assert (N2 : N ^ 2 <> 0) by (apply pow_nonzero; lra).
    replace (N ^ 2 * (q / ne ^ 2 + (1 - q) / no ^ 2)) with (N ^ 2 * (q * d + / no ^ 2)); [|unfold d; field; lra]. rewrite E. replace (N ^ 2 * (/ N ^ 2 - / no ^ 2 + / no ^ 2)) with (N ^ 2 * / N ^ 2) by ring. apply Rinv_r, N2.
Qed.

(*! C107: the constructed crystal and every energy-conserving triple of wavelengths between 1 and 18 um, however it is given: with N the mean of the ordinary indices of signal and idler weighted with their photon energies, N is always below n_o of the pump; phasematch succeeds exactly when n_e of the pump is at most N, and then returns the only matching angle of the first quadrant, which is never 0; otherwise it raises AttributeError. *)
Lemma C107_criterion_l : forall (theta : R) (len : option R) (caching : bool) (k : shared) (x : crystal) (a : agse) (P S I : R) (pump sgnl idlr w : option R) (rw : bool),
  agse_init theta len caching k = (Ok x, k) -> x_mat x = Agse a -> 1000 <= P -> 0 < S <= 18000 -> 0 < I <= 18000 -> / P = / S + / I ->
  (pump = Some P /\ sgnl = Some S /\ idlr = Some I /\ w = None \/ pump = None /\ sgnl = Some S /\ idlr = Some I /\ w = Some P \/
   pump = Some P /\ sgnl = None /\ idlr = Some I /\ w = Some S \/ pump = Some P /\ sgnl = Some S /\ idlr = None /\ w = Some I) ->
  exists ne no ns ni, agse_n a P "e" = Ok ne /\ agse_n a P "o" = Ok no /\ agse_n a S "o" = Ok ns /\ agse_n a I "o" = Ok ni /\
  let N := P * (ns / S + ni / I) in
  let matched t := exists m, agse_n (set_theta t a) P "mix" = Ok m /\ m * (2 * PI / P) = ns * (2 * PI / S) + ni * (2 * PI / I) in
  N < no /\
  (ne <= N -> exists t, phasematch a pump sgnl idlr rw = Ok (t, if rw then w else None) /\ 0 < t <= PI / 2 /\ matched t /\ forall t', 0 <= t' <= PI / 2 -> matched t' -> t' = t) /\
  (N < ne -> phasematch a pump sgnl idlr rw = Raise AttributeError).
Proof.
  intros theta len caching k x a P S I pump sgnl idlr w rw Hi Ha HP HS HI HE Hw.
  assert (Hi' := Hi). unfold agse_init, ret in Hi'. apply (f_equal fst) in Hi'. cbn [fst] in Hi'. injection Hi' as Hx. rewrite <- Hx in Ha. cbn [x_mat] in Ha. injection Ha as <-.
  assert (PS : P < S). { assert (/ S < / P) by (pose proof (Rinv_0_lt_compat I); lra). apply inv_lt_cancel; lra. } assert (PI' : P < I). { assert (/ I < / P) by (pose proof (Rinv_0_lt_compat S); lra). apply inv_lt_cancel; lra. }
  set (a := mkAgse agse_o agse_e theta).
  destruct (oe_val theta P ltac:(lra)) as [Eo Ee]. destruct (oe_val theta S ltac:(lra)) as [Es _]. destruct (oe_val theta I ltac:(lra)) as [Ei _]. fold a in Eo, Ee, Es, Ei.
  exists (n_e P), (n_o P), (n_o S), (n_o I). split; [exact Ee|]. split; [exact Eo|]. split; [exact Es|]. split; [exact Ei|]. intros N matched.
  pose proof (n_range P ltac:(lra)) as (R1 & R2 & R3). pose proof (n_range S ltac:(lra)) as RS. pose proof (n_range I ltac:(lra)) as RI.
  destruct (n_decr P S ltac:(lra) ltac:(lra)) as [DS _]. destruct (n_decr P I ltac:(lra) ltac:(lra)) as [DI _].
  assert (IS : 0 < / S) by (apply Rinv_0_lt_compat; lra). assert (II : 0 < / I) by (apply Rinv_0_lt_compat; lra).
  assert (NN : N < n_o P).
  { unfold N. replace (n_o P) with (P * (n_o P * / P)) by (field; lra). apply Rmult_lt_compat_l; [lra|]. rewrite HE, Rmult_plus_distr_l. apply Rplus_lt_compat; apply Rmult_lt_compat_r; assumption. }
  assert (N0 : 0 < N). { unfold N. apply Rmult_lt_0_compat; [lra|]. apply Rplus_lt_0_compat; apply Rdiv_lt_0_compat; lra. }
  pose proof PI_RGT_0 as PIp.
  assert (ME : forall m, m * (2 * PI / P) = n_o S * (2 * PI / S) + n_o I * (2 * PI / I) <-> m = N).
  { intros m. unfold N. split; intros E.
    - apply (Rmult_eq_reg_r (2 * PI / P)); [|apply Rmult_integral_contrapositive_currified; [lra|apply Rinv_neq_0_compat; lra]]. rewrite E. field. lra.
    - rewrite E. field. lra. }
  assert (M : forall t, matched t <-> N ^ 2 * (sin t ^ 2 / n_e P ^ 2 + cos t ^ 2 / n_o P ^ 2) = 1).
  { intros t. destruct (mix_val t P ltac:(lra)) as (m & Em & Pm & Qm). unfold matched. change (set_theta t a) with (mkAgse agse_o agse_e t). split.
    - intros (m' & E' & F'). apply ME in F'. assert (m = N) by congruence. subst m. exact Qm.
    - intros Q. exists m. split; [exact Em|]. apply ME. rewrite sc2 in Q, Qm. apply mix_inv in Q; try lra. apply mix_inv in Qm; try lra. apply inv_sq_eq; lra. }
  assert (C59 := C59_phasematch_l a pump sgnl idlr rw P S I (n_e P) (n_o P) (n_o S) (n_o I) w ltac:(lra) ltac:(lra) ltac:(lra) ltac:(tauto) Ee Eo Es Ei ltac:(lra) ltac:(lra) ltac:(lra) ltac:(lra) ltac:(lra)). cbv zeta in C59. fold matched in C59.
  split; [exact NN|]. split.
  - intros L. destruct (angle_exists (n_e P) (n_o P) N ltac:(lra) ltac:(lra)) as (t0 & T0 & Q0). apply M in Q0.
    destruct (phasematch a pump sgnl idlr rw) as [[t wl]|e]; [|destruct C59 as [_ C59]; exfalso; exact (C59 t0 Q0)]. destruct C59 as (B & Mt & ->). exists t. split; [reflexivity|].
    assert (U : forall t1 t2, 0 <= t1 <= PI / 2 -> 0 <= t2 <= PI / 2 -> matched t1 -> matched t2 -> ~ t1 < t2).
    { intros t1 t2 B1 B2 M1 M2 T. apply M in M1, M2. rewrite sc2 in M1, M2. apply mix_inv in M1; try lra. apply mix_inv in M2; try lra. pose proof (slope (n_e P) (n_o P) ltac:(lra)) as Sl. set (d := / n_e P ^ 2 - / n_o P ^ 2) in *.
      assert (S1 : 0 <= sin t1) by (apply sin_ge_0; lra). assert (S2 : sin t1 < sin t2) by (apply sin_increasing_1; lra). assert (S3 : sin t1 ^ 2 < sin t2 ^ 2) by nra. assert (0 < (sin t2 ^ 2 - sin t1 ^ 2) * d) by (apply Rmult_lt_0_compat; lra). lra. }
    split; [split; [|lra]|split; [exact Mt|]].
    + destruct (Req_dec t 0) as [->|Z]; [|lra]. exfalso. apply M in Mt. rewrite sc2, sin_0 in Mt. apply mix_inv in Mt; try lra. assert (E : N = n_o P) by (apply inv_sq_eq; lra). lra.
    + intros t' B' M'. destruct (Rtotal_order t' t) as [T|[T|T]]; [exfalso; exact (U t' t B' B M' Mt T)|exact T|exfalso; exact (U t t' B B' Mt M' T)].
  - intros L. destruct (phasematch a pump sgnl idlr rw) as [[t wl]|e]; [|destruct C59 as [-> _]; reflexivity]. exfalso. destruct C59 as (B & Mt & _). apply M in Mt. rewrite sc2 in Mt. apply mix_inv in Mt; try lra.
    assert (L' : / n_e P ^ 2 < / N ^ 2) by (apply (proj1 (inv_sq_lt N (n_e P) N0 ltac:(lra))), L). pose proof (slope (n_e P) (n_o P) ltac:(lra)) as Sl. pose proof (sc2 t) as SC. pose proof (pow2_ge_0 (cos t)) as C0.
    assert (0 <= (1 - sin t ^ 2) * (/ n_e P ^ 2 - / n_o P ^ 2)) by (apply Rmult_le_pos; lra). lra.
Qed.

(*! C107: frequency doubling into (or degenerate down-conversion of) the wavelength P in the constructed crystal: phasematch finds an angle for every P from 2.0 to 6.0 um, and raises AttributeError for every P from 1.0 to 1.5 um and from 7.0 to 9.0 um. *)
Lemma C107_doubling_l : forall (theta : R) (len : option R) (caching : bool) (k : shared) (x : crystal) (a : agse) (P : R) (pump sgnl idlr w : option R) (rw : bool),
  agse_init theta len caching k = (Ok x, k) -> x_mat x = Agse a ->
  (pump = Some P /\ sgnl = Some (2 * P) /\ idlr = Some (2 * P) /\ w = None \/ pump = None /\ sgnl = Some (2 * P) /\ idlr = Some (2 * P) /\ w = Some P \/
   pump = Some P /\ sgnl = None /\ idlr = Some (2 * P) /\ w = Some (2 * P) \/ pump = Some P /\ sgnl = Some (2 * P) /\ idlr = None /\ w = Some (2 * P)) ->
  (2000 <= P <= 6000 -> exists t np n2, phasematch a pump sgnl idlr rw = Ok (t, if rw then w else None) /\ 0 < t <= PI / 2 /\ agse_n (set_theta t a) P "mix" = Ok np /\ agse_n (set_theta t a) (2 * P) "o" = Ok n2 /\ np = n2) /\
  (1000 <= P <= 1500 \/ 7000 <= P <= 9000 -> phasematch a pump sgnl idlr rw = Raise AttributeError).
Proof.
  intros theta len caching k x a P pump sgnl idlr w rw Hi Ha Hw. split.
  - intros HP. destruct (C107_criterion_l theta len caching k x a P (2 * P) (2 * P) pump sgnl idlr w rw Hi Ha ltac:(lra) ltac:(lra) ltac:(lra) ltac:(field; lra) ltac:(exact Hw)) as (ne & no & ns & ni & Ee & Eo & Es & Ei & H). cbv zeta in H. destruct H as (_ & H & _).
    assert (ns = ni) by congruence. subst ni.
    unfold agse_init, ret in Hi. apply (f_equal fst) in Hi. cbn [fst] in Hi. injection Hi as <-. cbn [x_mat] in Ha. injection Ha as <-. destruct (oe_val theta P ltac:(lra)) as [Eo' Ee']. destruct (oe_val theta (2 * P) ltac:(lra)) as [Es' _].
    assert (ne = n_e P) by congruence. assert (ns = n_o (2 * P)) by congruence. subst ne ns. clear Ei.
    assert (E : P * (n_o (2 * P) / (2 * P) + n_o (2 * P) / (2 * P)) = n_o (2 * P)) by (field; lra). rewrite E in H.
    assert (L : n_e P <= n_o (2 * P)). { left. unfold n_e, n_o. pose proof (val_low (P * 0.001) ltac:(lra)). pose proof (val_low (2 * P * 0.001) ltac:(lra)). apply sqrt_lt_1; try lra. replace (2 * P * 0.001) with (2 * (P * 0.001)) by lra. apply deg_yes. lra. }
    destruct (H L) as (t & Et & Bt & (m & Em & Hm) & _). exists t, m, (n_o (2 * P)). split; [exact Et|]. split; [exact Bt|]. split; [exact Em|]. split; [exact (proj1 (oe_val t (2 * P) ltac:(lra)))|].
    pose proof PI_RGT_0 as PIp. apply (Rmult_eq_reg_r (2 * PI / P)); [|apply Rmult_integral_contrapositive_currified; [lra|apply Rinv_neq_0_compat; lra]]. rewrite Hm. field. lra.
  - intros HP. destruct (C107_criterion_l theta len caching k x a P (2 * P) (2 * P) pump sgnl idlr w rw Hi Ha ltac:(lra) ltac:(lra) ltac:(lra) ltac:(field; lra) ltac:(exact Hw)) as (ne & no & ns & ni & Ee & Eo & Es & Ei & H). cbv zeta in H. destruct H as (_ & _ & H).
    assert (ns = ni) by congruence. subst ni. apply H.
    unfold agse_init, ret in Hi. apply (f_equal fst) in Hi. cbn [fst] in Hi. injection Hi as <-. cbn [x_mat] in Ha. injection Ha as <-. destruct (oe_val theta P ltac:(lra)) as [Eo' Ee']. destruct (oe_val theta (2 * P) ltac:(lra)) as [Es' _].
    assert (ne = n_e P) by congruence. assert (ns = n_o (2 * P)) by congruence. subst ne ns. replace (P * (n_o (2 * P) / (2 * P) + n_o (2 * P) / (2 * P))) with (n_o (2 * P)) by (field; lra).
    unfold n_e, n_o. pose proof (val_low (P * 0.001) ltac:(lra)). pose proof (val_low (2 * P * 0.001) ltac:(lra)). apply sqrt_lt_1; try lra. replace (2 * P * 0.001) with (2 * (P * 0.001)) by lra. apply deg_no. lra.
Qed.

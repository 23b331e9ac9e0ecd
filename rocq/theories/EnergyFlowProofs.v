(** The energy of the columns that propagate stores: within O(h^p) of the exact energy law (C128). *)
From Coq Require Import Reals List ZArith Bool Arith Lia Lra.
From Coquelicot Require Import Coquelicot.
From Verif Require Import Base CNum NumPy Spec ModelFFT FFTProofs ModelPulse PulseProofs PulseOpsProofs ModelSSFM SSFMLoopProofs SSFMProofs SSFMSymProofs SSFMErrProofs SSFMPropProofs SSFMGnlseProofs SSFMRamanProofs SSFMPhotonProofs GnlseFlowProofs SplitFlowProofs.
Import ListNotations.
Local Open Scope R_scope.
Local Notation z0 := (RtoC 0).

Lemma norm_close (a b : C) e M : Cmod (a - b)%C <= e -> Cmod b <= M -> Rabs (Cnorm2 a - Cnorm2 b) <= e * (2 * M + e).
Proof.
  intros He HM. rewrite <- !Cmod_sqr. pose proof (Cmod_ge_0 a) as A. pose proof (Cmod_ge_0 b) as B. pose proof (Cmod_ge_0 (a - b)%C) as D.
  assert (U : Cmod a <= Cmod b + e). { replace a with (b + (a - b))%C by ring. eapply Rle_trans; [apply Cmod_triangle|lra]. }
  assert (Lo : Cmod b <= Cmod a + e). { replace b with (a + - (a - b))%C at 1 by ring. eapply Rle_trans; [apply Cmod_triangle|]. rewrite Cmod_opp. lra. }
  apply Rabs_le. split; nra.
Qed.
Lemma power_close n (a b : list C) e M : length a = n -> length b = n -> (forall k, (k < n)%nat -> Cmod (nth k a z0 - nth k b z0)%C <= e) -> 0 <= M -> power_sum b <= M ^ 2 ->
  Rabs (power_sum a - power_sum b) <= INR n * (e * (2 * M + e)).
Proof.
  intros La Lb H HM HP. rewrite !power_sum_rsum, La, Lb in *.
  assert (Bk : forall k, (k < n)%nat -> Cmod (nth k b z0) <= M).
  { intros k Hk. apply Rsqr_incr_0_var; [|exact HM]. unfold Rsqr. rewrite Cmod_sqr. replace (M * M) with (M ^ 2) by ring. eapply Rle_trans; [|exact HP]. apply (rsum_term_le n (fun i => Cnorm2 (nth i b z0)) k); [|exact Hk]. intros i _. apply Cnorm2_nonneg. }
  clear HP La Lb. induction n as [|n IH]; [rewrite !rsum_0, Rminus_0_r, Rabs_R0; cbn; lra|]. rewrite !rsum_S, S_INR.
  replace (rsum n _ + _ - _) with ((rsum n (fun i => Cnorm2 (nth i a z0)) - rsum n (fun i => Cnorm2 (nth i b z0))) + (Cnorm2 (nth n a z0) - Cnorm2 (nth n b z0))) by ring.
  eapply Rle_trans; [apply Rabs_triang|]. rewrite Rmult_plus_distr_r, Rmult_1_l. apply Rplus_le_compat; [apply IH; intros; [apply H|apply Bk]; lia|]. apply norm_close; [apply H|apply Bk]; lia.
Qed.
Lemma power_sum_ge0 l : 0 <= power_sum l.
Proof. rewrite power_sum_rsum. apply rsum_nonneg. intros. apply Cnorm2_nonneg. Qed.
(** from closeness of the columns to the energy law *)
Lemma energy_law n (a : list C) (P0 lo hi D Lm e : R) (y : list C) : length a = n -> length y = n -> (forall k, (k < n)%nat -> Cmod (nth k a z0 - nth k y z0)%C <= e) -> 0 <= P0 -> 0 <= D <= Lm -> 0 <= e ->
  P0 * exp (lo * D) <= power_sum y <= P0 * exp (hi * D) ->
  let B := INR n * (e * (2 * sqrt (P0 * exp (Rabs hi * Lm)) + e)) in P0 * exp (lo * D) - B <= power_sum a <= P0 * exp (hi * D) + B.
Proof.
  intros La Ly H HP HD He [E1 E2] B. set (Q := P0 * exp (Rabs hi * Lm)). assert (HQ : 0 <= Q) by (apply Rmult_le_pos; [exact HP|left; apply exp_pos]).
  assert (P : power_sum y <= sqrt Q ^ 2).
  { rewrite pow2_sqrt by exact HQ. eapply Rle_trans; [exact E2|]. apply Rmult_le_compat_l; [exact HP|]. assert (Z : hi * D <= Rabs hi * Lm). { apply Rle_trans with (Rabs hi * D); [apply Rmult_le_compat_r; [lra|apply Rle_abs]|apply Rmult_le_compat_l; [apply Rabs_pos|lra]]. }
    destruct Z as [Z|Z]; [left; now apply exp_increasing|rewrite Z; lra]. }
  pose proof (power_close n a y e (sqrt Q) La Ly H (sqrt_pos Q) P) as K. fold Q in B. fold B in K. apply Rabs_le_between in K. lra.
Qed.


Lemma energy_columns c fb op s p a b g Rw F (L lo hi : R) (pw : nat) (y : R -> list C) (K : R) (N0 : nat) : setting c fb 1 op s p a b g Rw F -> fb_len fb <= L -> (forall z, length (y z) = p_n p) ->
  (forall z, 0 <= z -> power_sum (IFFT_t a) * exp (lo * z) <= power_sum (y z) <= power_sum (IFFT_t a) * exp (hi * z)) -> 0 <= K ->
  (forall N fuel reload z AW AT po s' q, (N0 <= N)%nat -> (0 < N)%nat -> (reload = true -> forall x, b x = b 0 /\ fb_get_gamma fb x = fb_get_gamma fb 0) ->
    propagate c fuel fb N op reload s p = (Ok (Some (z, AW, AT, po, s')), q) ->
    exists d : nat -> R, (forall j, (j < N)%nat -> fb_len fb / INR N <= d j /\ (d j = fb_len fb / INR N \/ exists last, 0 < fb_len fb / INR N - (d j - last) <= 2 * / 10 ^ 12)) /\
    forall i k, (i < N)%nat -> (k < p_n p)%nat -> rsum (S i) d <= L -> Cmod (nth k (nth i AT []) z0 - nth k (cifftshift c (y (rsum (S i) d))) z0)%C <= K * (fb_len fb / INR N) ^ pw) ->
  exists K', 0 <= K' /\ forall N fuel reload z AW AT po s' q, (N0 <= N)%nat -> (0 < N)%nat -> (reload = true -> forall x, b x = b 0 /\ fb_get_gamma fb x = fb_get_gamma fb 0) ->
    propagate c fuel fb N op reload s p = (Ok (Some (z, AW, AT, po, s')), q) ->
    exists d : nat -> R, (forall j, (j < N)%nat -> fb_len fb / INR N <= d j /\ (d j = fb_len fb / INR N \/ exists last, 0 < fb_len fb / INR N - (d j - last) <= 2 * / 10 ^ 12)) /\
    forall i, (i < N)%nat -> rsum (S i) d <= L -> let D := rsum (S i) d in let err := K' * (fb_len fb / INR N) ^ pw in
      power_sum (IFFT_t a) * exp (lo * D) - err <= power_sum (nth i AT []) <= power_sum (IFFT_t a) * exp (hi * D) + err.
Proof.
  intros Hs1 HL Ly' En HK HN.
  pose proof Hs1 as (Hh & Hn & Hf & An & HR & _ & HLp & Hd).
  set (Q := sqrt (power_sum (IFFT_t a) * exp (Rabs hi * L))). exists (INR (p_n p) * (K * (2 * Q + K * L ^ pw))).
  assert (HQ : 0 <= Q) by apply sqrt_pos. assert (HLw : 0 <= L ^ pw) by (apply pow_le; lra). split. { apply Rmult_le_pos; [apply pos_INR|]. apply Rmult_le_pos; [exact HK|]. assert (0 <= K * L ^ pw) by (now apply Rmult_le_pos). lra. }
  intros N fuel reload z AW AT po s' q HN0 Np Hre E. destruct (HN N fuel reload z AW AT po s' q HN0 Np Hre E) as (d & Hd1 & Hd2). exists d. split; [exact Hd1|].
  assert (HS : setting c fb N op s p a b g Rw F) by (repeat (split; [assumption|]); assumption).
  destruct (C33_propagate_bookkeeping_l _ _ _ _ _ _ _ _ _ _ _ _ _ _ _ _ _ _ _ HS E) as (_ & _ & _ & _ & LT & _).
  intros i Hi HiL D err. set (h := fb_len fb / INR N) in *. assert (HNr : 1 <= INR N) by (change 1 with (INR 1); apply le_INR; lia). assert (Hh0 : 0 <= h) by (unfold h; apply Rmult_le_pos; [lra|left; apply Rinv_0_lt_compat; lra]).
  assert (HhL : h <= L). { unfold h. apply Rle_trans with (fb_len fb); [|exact HL]. apply Rmult_le_reg_r with (INR N); [lra|]. unfold Rdiv. rewrite Rmult_assoc, Rinv_l by lra. nra. }
  assert (HD : 0 <= D <= L). { split; [|exact HiL]. unfold D. apply rsum_nonneg. intros j Hj. destruct (Hd1 j ltac:(lia)) as [Z _]. lra. }
  assert (Hp : h ^ pw <= L ^ pw) by (apply pow_incr; lra). assert (Hp0 : 0 <= h ^ pw) by (apply pow_le; exact Hh0).
  assert (EQ : power_sum (cifftshift c (y D)) = power_sum (y D)).
  { unfold cifftshift. destruct (c_pre c); [|reflexivity]. unfold power_sum, ifftshift. rewrite <- roll_map. apply lrsum_perm, roll_perm. }
  pose proof (energy_law (p_n p) (nth i AT []) (power_sum (IFFT_t a)) lo hi D L (K * h ^ pw) (cifftshift c (y D)) (proj1 (LT i Hi))) as R.
  specialize (R ltac:(rewrite cifftshift_length; apply Ly') ltac:(intros k Hk; exact (Hd2 i k Hi Hk HiL)) (power_sum_ge0 _) HD ltac:(now apply Rmult_le_pos)).
  rewrite EQ in R. specialize (R (En D (proj1 HD))). cbv zeta in R. fold Q in R.
  assert (X : INR (p_n p) * (K * h ^ pw * (2 * Q + K * h ^ pw)) <= err).
  { unfold err. rewrite (Rmult_assoc (INR (p_n p))). apply Rmult_le_compat_l; [apply pos_INR|]. replace (K * (2 * Q + K * L ^ pw) * h ^ pw) with (K * h ^ pw * (2 * Q + K * L ^ pw)) by ring. apply Rmult_le_compat_l; [now apply Rmult_le_pos|]. apply Rplus_le_compat_l, Rmult_le_compat_l; assumption. }
  lra.
Qed.

(*! C128: the energy of every stored column of propagate (fourth-order method, self-steepening off): if the gain coefficients of the fiber lie between lo and hi, the energy after the distance D actually covered lies between the input energy times exp(lo D) and times exp(hi D), up to a constant times the fourth (eta = 5: fifth) power of the section length; in a fiber without gain and loss (lo = hi = 0) the energy is conserved to that order, with Raman scattering or without. *)
Lemma C128_energy_balance_l : forall (c : cfg) (fb : fiber) (op : option R) (s : ssfm) (p : pulse) (a : list C) (b : R -> list R) (g : list R) (Rw : list C) (F : R) (L lo hi : R),
  setting c fb 1 op s p a b g Rw F -> (c_pre c = false \/ Nat.even (p_n p) = true) -> c_method c = METHOD_RK4IP -> (2 <= c_eta c)%nat -> c_noSS c = true -> fb_len fb <= L ->
  (forall m, (m < p_n p)%nat -> lo <= nth m g 0 <= hi) ->
  exists K N0, 0 <= K /\ forall N fuel reload z AW AT po s' q, (N0 <= N)%nat -> (0 < N)%nat -> (reload = true -> forall x, b x = b 0 /\ fb_get_gamma fb x = fb_get_gamma fb 0) ->
    propagate c fuel fb N op reload s p = (Ok (Some (z, AW, AT, po, s')), q) ->
    exists d : nat -> R, (forall j, (j < N)%nat -> fb_len fb / INR N <= d j /\ (d j = fb_len fb / INR N \/ exists last, 0 < fb_len fb / INR N - (d j - last) <= 2 * / 10 ^ 12)) /\
    forall i, (i < N)%nat -> rsum (S i) d <= L -> let D := rsum (S i) d in let err := K * (fb_len fb / INR N) ^ (if Nat.eqb (c_eta c) 5 then 5 else 4) in
      power_sum (IFFT_t a) * exp (lo * D) - err <= power_sum (nth i AT []) <= power_sum (IFFT_t a) * exp (hi * D) + err.
Proof.
  intros c fb op s p a b g Rw F L lo hi Hs1 Hst Hm He NS HL Hg.
  destruct (C125_propagate_l c fb op s p a b g Rw F L Hs1 Hst Hm He NS HL) as (y & Y0 & Sol & En & K & N0 & HK & HN).
  destruct (energy_columns c fb op s p a b g Rw F L lo hi _ y K N0 Hs1 HL (proj1 (Sol 0)) (En lo hi Hg) HK HN) as (K' & HK' & H'). exists K', N0. split; [exact HK'|exact H'].
Qed.

(*! C128: the same for METHOD_SSFM with half the gain: after the distance D the energy lies between the input energy times exp(lo D / 2) and times exp(hi D / 2), up to a constant times the section length, so that a fiber of uniform gain g delivers exp(g D / 2) however small the steps are. *)
Lemma C128_splitting_energy_l : forall (c : cfg) (fb : fiber) (op : option R) (s : ssfm) (p : pulse) (a : list C) (b : R -> list R) (g : list R) (Rw : list C) (F : R) (L lo hi : R),
  setting c fb 1 op s p a b g Rw F -> (c_pre c = false \/ Nat.even (p_n p) = true) -> c_method c = METHOD_SSFM -> (2 <= c_eta c)%nat -> c_noSS c = true -> fb_len fb <= L ->
  (forall m, (m < p_n p)%nat -> lo <= nth m g 0 <= hi) ->
  exists K N0, 0 <= K /\ forall N fuel reload z AW AT po s' q, (N0 <= N)%nat -> (0 < N)%nat -> (reload = true -> forall x, b x = b 0 /\ fb_get_gamma fb x = fb_get_gamma fb 0) ->
    propagate c fuel fb N op reload s p = (Ok (Some (z, AW, AT, po, s')), q) ->
    exists d : nat -> R, (forall j, (j < N)%nat -> fb_len fb / INR N <= d j /\ (d j = fb_len fb / INR N \/ exists last, 0 < fb_len fb / INR N - (d j - last) <= 2 * / 10 ^ 12)) /\
    forall i, (i < N)%nat -> rsum (S i) d <= L -> let D := rsum (S i) d in let err := K * (fb_len fb / INR N) in
      power_sum (IFFT_t a) * exp (lo / 2 * D) - err <= power_sum (nth i AT []) <= power_sum (IFFT_t a) * exp (hi / 2 * D) + err.
Proof.
  intros c fb op s p a b g Rw F L lo hi Hs1 Hst Hm He NS HL Hg.
  destruct (C127_half_gain_l c fb op s p a b g Rw F L Hs1 Hst Hm He NS HL) as (y & Y0 & Sol & _ & En & K & N0 & HK & HN).
  destruct (energy_columns c fb op s p a b g Rw F L (lo / 2) (hi / 2) 1 y K N0 Hs1 HL (proj1 (Sol 0)) (En lo hi Hg) HK) as (K' & HK' & H').
  - intros N fuel reload z AW AT po s' q A B D E. rewrite pow_1. exact (HN N fuel reload z AW AT po s' q A B D E).
  - exists K', N0. split; [exact HK'|]. intros N fuel reload z AW AT po s' q A B D E. specialize (H' N fuel reload z AW AT po s' q A B D E). rewrite pow_1 in H'. exact H'.
Qed.

(** Concrete cases that meet the hypotheses of C78-C80. *)
From Coq Require Import String.
From Coq Require Import Reals List ZArith Bool Arith Lia Lra.
From Coquelicot Require Import Complex.
From Verif Require Import Base CNum NumPy ModelFFT FFTProofs ModelPulse Spec ModelPulseOps PulseProofs PulseHistory PulseOpsProofs PulseRegridProofs PulseMoreProofs.
From Verif Require Import ExPulse PropsPulseMore.
Import ListNotations.
Local Open Scope R_scope.

(** the 4-point pulse of ExPulse with spectrum 1, exp(i x), exp(i y), 0 *)
Definition ex_spec (x y : R) : list C := [RtoC 1; cis x; cis y; RtoC 0].
Definition ex_q (x y : R) : pulse := run_ops ex_str (ex_setup ++ [OSetAW (ex_spec x y)]) (new_pulse None None).
Lemma ex_q_eq x y : ex_q x y = mkPulse 4 (c_nmps / 1500) 4 (Some (ex_spec x y)) (Some 100) true None None None None.
Proof.
  change (ex_q x y) with (snd (set_AW (ex_spec x y) ex_blank)). rewrite set_AW_ok; [reflexivity|exact ex_blank_writable|reflexivity].
Qed.
Lemma ex_q_holds x y : holds (ex_q x y) (ex_spec x y).
Proof. rewrite ex_q_eq. repeat split. Qed.
Lemma ex_q_peak x y : peak_power (ex_spec x y) 1.
Proof.
  split.
  - intros k Hk. cbn in Hk. destruct k as [|[|[|[|k]]]]; try lia; cbn [ex_spec nth]; rewrite ?Cmod_R, ?cis_mod, ?Rabs_R1, ?Rabs_R0; lra.
  - exists 0%nat. split; [cbn; lia|]. cbn [ex_spec nth]. rewrite Cmod_R, Rabs_R1. lra.
Qed.
Lemma ex_q_bright x y : bright (ex_spec x y) (1 / 20) 1 = [0; 1; 2]%nat.
Proof.
  unfold bright. cbn [ex_spec length seq filter nth]. rewrite !Cmod_R, !cis_mod, Rabs_R1, Rabs_R0.
  repeat match goal with |- context [Rlt_dec ?a ?b] => destruct (Rlt_dec a b); try (exfalso; lra) end. reflexivity.
Qed.
Lemma ex_q_phase x y k : (k < 4)%nat -> nth k (ex_spec x y) (RtoC 0) = (RtoC (Cmod (nth k (ex_spec x y) (RtoC 0))) * cis (nth k [0; x; y; 0] 0))%C.
Proof.
  intros Hk. destruct k as [|[|[|[|k]]]]; try lia; cbn [ex_spec nth]; rewrite ?Cmod_R, ?cis_mod, ?Rabs_R1, ?Rabs_R0, ?cis_0; ring.
Qed.
Lemma ex_q_W x y k : (k < 4)%nat -> nth k (spec_W (p_n (ex_q x y)) (p_tw (ex_q x y)) (p_f (ex_q x y))) 0 = 2 * PI * (c_nmps / 1500 + (INR k - 2) / 4).
Proof. intros Hk. rewrite ex_q_eq. cbn [p_n p_tw p_f]. unfold spec_W. rewrite mk_nth by exact Hk. simpl (INR 4). f_equal. f_equal. lra. Qed.

Lemma ssr_nonneg f xs : forall ys, 0 <= ssr f xs ys.
Proof.
  induction xs as [|x xs IH]; intros [|y ys]; try (unfold ssr, lrsum; cbn; lra).
  change (0 <= (f x - y) ^ 2 + ssr f xs ys). specialize (IH ys). pose proof (pow2_ge_0 (f x - y)). lra.
Qed.

(** a chirped pulse with a nonzero value in every coefficient, at the carrier and elsewhere *)
Example C78_example : exists b, chirp_pulse_W 3 2 1 (Some 1250) (ex_q 0 1) = (Ok tt, with_AW (Some b) (ex_q 0 1)) /\ length b = 4%nat.
Proof.
  destruct (C78_chirp_applies_stated_dispersion 3 2 1 (Some 1250) (ex_q 0 1) _ (ex_q_holds 0 1)) as (phi & b & _ & H2 & H3 & _).
  exists b. split; [exact H3|]. rewrite H2, ex_q_eq. reflexivity.
Qed.

(** phases 0, 1, 4 on the three bright bins are quadratic in the frequency; the fit is that quadratic, and the result is real *)
Definition ex_f0 := c_nmps / 1500.
Definition ex_quad : list R := [(2 - 4 * ex_f0) ^ 2; 2 * (2 - 4 * ex_f0) * (4 / (2 * PI)); (4 / (2 * PI)) ^ 2].
Definition ex_line : list R := [2 - 4 * ex_f0; 4 / (2 * PI)].
Lemma ex_quad_val k : poly ex_quad (2 * PI * (ex_f0 + (INR k - 2) / 4)) = INR k ^ 2.
Proof. unfold ex_quad. cbn [poly]. pose proof PI_RGT_0. field. lra. Qed.
Lemma ex_line_val k : poly ex_line (2 * PI * (ex_f0 + (INR k - 2) / 4)) = INR k.
Proof. unfold ex_line. cbn [poly]. pose proof PI_RGT_0. field. lra. Qed.
Lemma ex_ls deg c xs : length c = S deg -> least_squares deg (poly c) xs (map (poly c) xs).
Proof.
  intros H. split; [exists c; auto|]. intros c' _.
  replace (ssr (poly c) xs (map (poly c) xs)) with 0; [apply ssr_nonneg|].
  induction xs as [|x xs IH]; [reflexivity|]. change (0 = (poly c x - poly c x) ^ 2 + ssr (poly c) xs (map (poly c) xs)). rewrite <- IH. ring.
Qed.

Example C79_dechirp_example : exists b, dechirp_pulse (fun _ => [0; 1; 4; 0]) (fun _ _ _ => poly ex_quad) (1 / 20) (ex_q 1 4) =
    (Ok tt, with_AW (Some b) (ex_q 1 4)) /\ nth 1 b (RtoC 0) = RtoC 1 /\ nth 2 b (RtoC 0) = RtoC 1.
Proof.
  destruct (C79_dechirp_removes_quadratic_phase (fun _ => [0; 1; 4; 0]) (fun _ _ _ => poly ex_quad) (1 / 20) (ex_q 1 4) (ex_spec 1 4) 1)
    as (b & H1 & H2 & H3 & H4).
  - apply ex_q_holds.
  - now rewrite ex_q_eq.
  - apply ex_q_peak.
  - rewrite ex_q_bright. discriminate.
  - intros k Hk. apply ex_q_phase. rewrite ex_q_eq in Hk. exact Hk.
  - exists b. split; [exact H1|].
    assert (A : forall k, In k [0; 1; 2]%nat -> nth k [0; 1; 4; 0] 0 = poly ex_quad (nth k (spec_W (p_n (ex_q 1 4)) (p_tw (ex_q 1 4)) (p_f (ex_q 1 4))) 0)).
    { intros k Hk. rewrite ex_q_W by (cbn in Hk; intuition lia). fold ex_f0. rewrite ex_quad_val.
      destruct Hk as [<-|[<-|[<-|[]]]]; simpl; lra. }
    assert (B : forall k, In k [0; 1; 2]%nat -> nth k b (RtoC 0) = RtoC (Cmod (nth k (ex_spec 1 4) (RtoC 0)))).
    { rewrite ex_q_bright in H4. unfold ex_quad in A, H4. refine (H4 ((2 - 4 * ex_f0) ^ 2) (2 * (2 - 4 * ex_f0) * (4 / (2 * PI))) ((4 / (2 * PI)) ^ 2) _ _).
      - rewrite (map_ext_in _ _ [0; 1; 2]%nat A). rewrite <- (map_map (fun k => nth k _ 0) (poly _)). apply ex_ls. reflexivity.
      - intros k Hk. rewrite (A k Hk). cbn [poly]. ring. }
    split; [rewrite B|rewrite B]; try (cbn; auto; fail); cbn [ex_spec nth]; now rewrite cis_mod.
Qed.

Example C79_delay_example : exists b, remove_time_delay (fun _ => [0; 1; 2; 0]) (fun _ _ _ => poly ex_line) (1 / 20) (ex_q 1 2) =
    (Ok tt, with_AW (Some b) (ex_q 1 2)) /\ nth 1 b (RtoC 0) = RtoC 1 /\ nth 2 b (RtoC 0) = RtoC 1.
Proof.
  destruct (C79_remove_time_delay_removes_linear_phase (fun _ => [0; 1; 2; 0]) (fun _ _ _ => poly ex_line) (1 / 20) (ex_q 1 2) (ex_spec 1 2) 1)
    as (b & H1 & H2 & H3 & H4).
  - apply ex_q_holds.
  - now rewrite ex_q_eq.
  - apply ex_q_peak.
  - rewrite ex_q_bright. discriminate.
  - intros k Hk. apply ex_q_phase. rewrite ex_q_eq in Hk. exact Hk.
  - exists b. split; [exact H1|].
    assert (A : forall k, In k [0; 1; 2]%nat -> nth k [0; 1; 2; 0] 0 = poly ex_line (nth k (spec_W (p_n (ex_q 1 2)) (p_tw (ex_q 1 2)) (p_f (ex_q 1 2))) 0)).
    { intros k Hk. rewrite ex_q_W by (cbn in Hk; intuition lia). fold ex_f0. rewrite ex_line_val.
      destruct Hk as [<-|[<-|[<-|[]]]]; simpl; lra. }
    assert (B : forall k, In k [0; 1; 2]%nat -> nth k b (RtoC 0) = RtoC (Cmod (nth k (ex_spec 1 2) (RtoC 0)))).
    { rewrite ex_q_bright in H4. unfold ex_line in A, H4. refine (H4 (2 - 4 * ex_f0) (4 / (2 * PI)) _ _).
      - rewrite (map_ext_in _ _ [0; 1; 2]%nat A). rewrite <- (map_map (fun k => nth k _ 0) (poly _)). apply ex_ls. reflexivity.
      - intros k Hk. rewrite (A k Hk). cbn [poly]. ring. }
    split; [rewrite B|rewrite B]; try (cbn; auto; fail); cbn [ex_spec nth]; now rewrite cis_mod.
Qed.

(** noise on the same pulse, all draws one half; bin 3 is empty, and h nu dF is far from one there *)
Lemma ex_q_Wm x y : exists p1, get_W_mks ex_str (ex_q x y) =
  (Ok (Some (map (fun w => w * 1000000000000) (spec_W (p_n (ex_q x y)) (p_tw (ex_q x y)) (p_f (ex_q x y))))), p1).
Proof. eexists. rewrite ex_q_eq. rewrite get_Wm_empty by reflexivity. unfold Wmks_now. rewrite W_of_spec. reflexivity. Qed.
Lemma ex_q_nu x y k : (k < p_n (ex_q x y))%nat -> 0 < spec_F_Hz (p_n (ex_q x y)) (p_tw (ex_q x y)) (p_f (ex_q x y)) k < 1000000000000000.
Proof.
  rewrite ex_q_eq. cbn [p_n p_tw p_f]. intros Hk. unfold spec_F_Hz, c_nmps, c_mks.
  assert (0 <= INR k) by apply pos_INR.
  assert (INR k <= 3). { replace 3 with (INR 3) by (simpl; lra). apply le_INR. lia. }
  simpl (INR 4). lra.
Qed.
Example C80_example : exists p1 b, get_W_mks ex_str (ex_q 0 1) =
    (Ok (Some (map (fun w => w * 1000000000000) (spec_W (p_n (ex_q 0 1)) (p_tw (ex_q 0 1)) (p_f (ex_q 0 1))))), p1) /\
  add_noise ex_str (/ 10 ^ 33) (fun _ => 1 / 2) (fun _ => 1 / 2) one_photon_freq (ex_q 0 1) = (Ok tt, with_AW (Some b) p1) /\
  fst (add_noise ex_str (/ 10 ^ 33) (fun _ => 1 / 2) (fun _ => 1 / 2) other_noise (ex_q 0 1)) = Raise ValueError.
Proof.
  destruct (ex_q_Wm 0 1) as [p1 HW]. exists p1.
  destruct (C80_noise_amplitudes_partial ex_str (/ 10 ^ 33) (fun _ => 1 / 2) (fun _ => 1 / 2) (ex_q 0 1) p1 (ex_spec 0 1)) as (H1 & (b & H2 & _) & _).
  - apply ex_q_holds.
  - rewrite ex_q_eq. cbn. lia.
  - rewrite ex_q_eq. cbn. lra.
  - apply Rinv_0_lt_compat, pow_lt. lra.
  - exact HW.
  - intros k Hk. apply Rgt_not_eq. apply ex_q_nu. exact Hk.
  - exists b. auto.
Qed.
Example C80_refuted_example : exists p1 b, add_noise ex_str (/ 10 ^ 33) (fun _ => 1 / 2) (fun _ => 1 / 2) one_photon_freq (ex_q 0 1) = (Ok tt, with_AW (Some b) p1) /\
  Cmod (nth 3 b (RtoC 0)) ^ 2 / (1000000000000 / 4) / (/ 10 ^ 33 * spec_F_Hz 4 4 (c_nmps / 1500) 3) <> (1 / 2) ^ 2.
Proof.
  destruct (ex_q_Wm 0 1) as [p1 HW]. exists p1.
  destruct (C80_one_photon_per_bin_refuted ex_str (/ 10 ^ 33) (fun _ => 1 / 2) (fun _ => 1 / 2) (ex_q 0 1) p1 (ex_spec 0 1) 3) as (b & H1 & _ & H2).
  - apply ex_q_holds.
  - rewrite ex_q_eq. cbn. lia.
  - rewrite ex_q_eq. cbn. lra.
  - apply Rinv_0_lt_compat, pow_lt. lra.
  - exact HW.
  - intros k Hk. apply Rgt_not_eq. apply ex_q_nu. exact Hk.
  - rewrite ex_q_eq. cbn. lia.
  - reflexivity.
  - apply Rgt_not_eq; lra.
  - rewrite ex_q_eq. cbn [p_n p_tw p_f]. apply Rlt_not_eq.
    pose proof (ex_q_nu 0 1 3 ltac:(rewrite ex_q_eq; cbn; lia)) as K. rewrite ex_q_eq in K. cbn [p_n p_tw p_f] in K.
    assert (Z : / 10 ^ 33 <= / 10 ^ 30) by (apply Rinv_le_contravar; [apply pow_lt; lra|apply Rle_pow; [lra|lia]]).
    assert (Z0 : 0 < / 10 ^ 33) by (apply Rinv_0_lt_compat, pow_lt; lra).
    assert (Z1 : / 10 ^ 30 = / 1000000000000000 * / 1000000000000000) by field.
    rewrite Z1 in Z. set (h := / 10 ^ 33) in *. set (nu := spec_F_Hz _ _ _ _) in *. nra.
  - exists b. split; [exact H1|]. rewrite ex_q_eq in H2. exact H2.
Qed.

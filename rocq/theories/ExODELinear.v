(** A concrete case that meets the hypotheses of C76: one step of y' = y + 1, y(0) = 1, whose solution is 2 e^x - 1. *)
From Coq Require Import Reals List ZArith Bool Arith Lia Lra.
From Coquelicot Require Import Complex.
From Verif Require Import Base CNum NumPy ModelDopr ModelODE ODEStepProofs ODETableauProofs ODEWitnessProofs ODELinearProofs.
From Verif Require Import PropsODELinear.
Import ListNotations.
Local Open Scope R_scope.
Local Open Scope py_scope.
Local Notation z0 := (RtoC 0).

Definition fe (x : R) (y : list C) : M unit (list C) := ret [nth 0 y z0 + RtoC 1]%C.
Definition ve (k i : nat) : C := RtoC 1.
Definition we (m k i : nat) : C := if Nat.eqb m 0 then RtoC 1 else z0.
Definition ge : G unit := mkG tt new_ctrl (let s := new_stepper [RtoC 1] 0 (10 ^ 6) 0 true Float64 in mkStp (p_x s) (p_xold s) (p_y s) [RtoC 2] (p_atol s) (p_rtol s) (p_dense s) (p_hdid s) (p_hnext s) (p_dtype s) (p_yout s) (p_yerr s) (p_yerr2 s) (p_k s) (p_rc s)) (new_output None) (mkOde 0 1 0 true 1 0 0 0 [RtoC 1]).
Lemma fe_lin : forall (x : R) (y : list C) (st : unit), exists d st', fe x y st = (Ok d, st') /\
  forall i, (i < 1)%nat -> nth i d z0 = (csum 1 (fun j => RtoC 1 * nth j y z0) + csum 8 (fun m => RtoC ((x - 0) ^ m) * we m 0%nat i))%C.
Proof.
  intros x y st. eexists. eexists. split; [reflexivity|]. intros i Hi. assert (i = 0)%nat as -> by lia. cbn [nth]. rewrite !csum_S, !csum_0. unfold we. cbn [Nat.eqb pow]. ring.
Qed.
Lemma ve_iter k i : (i < 1)%nat -> ve (S k) i = csum 1 (fun j => RtoC 1 * ve k j)%C.
Proof. intros _. rewrite csum_S, csum_0. unfold ve. ring. Qed.
Lemma we_iter m k i : (i < 1)%nat -> we m (S k) i = csum 1 (fun j => RtoC 1 * we m k j)%C.
Proof. intros _. rewrite csum_S, csum_0. unfold we. ring. Qed.
Lemma ge_start : start 1 ve we 0 (g_s ge).
Proof. split; [reflexivity|]. split; [reflexivity|]. split; intros i Hi; assert (i = 0)%nat as -> by lia; cbn [g_s ge p_y p_dydx new_stepper nth]; unfold ve, we; cbn [Nat.eqb]; [reflexivity|]. apply C_eq; cbn; lra. Qed.
Lemma dsum_e N c e : dsum N c e 1 ve we 0 = RtoC (2 * rsum N (fun l => c l 0%nat)).
Proof.
  unfold dsum. rewrite (csum_first 7), (csum_zero 7) by (intros m _; apply csum_zero; intros l _; unfold we; cbn [Nat.eqb]; ring).
  assert (H : csum N (fun l => RtoC (c l 0%nat * 1 ^ (l + e)) * ve (S l) 0)%C = RtoC (rsum N (fun l => c l 0%nat))) by (rewrite <- csum_RtoC; apply csum_ext; intros l _; rewrite pow1, Rmult_1_r; unfold ve; ring).
  assert (H2 : csum N (fun l => RtoC (c l 0%nat * 1 ^ (l + 0 + e)) * we 0 l 0)%C = RtoC (rsum N (fun l => c l 0%nat))) by (rewrite <- csum_RtoC; apply csum_ext; intros l _; rewrite pow1, Rmult_1_r; unfold we; cbn [Nat.eqb]; ring).
  rewrite H, H2, RtoC_mult. replace (RtoC 2) with (RtoC 1 + RtoC 1)%C by (rewrite <- RtoC_plus; f_equal; lra). ring.
Qed.

(** the estimate of this step and the controller's answer *)
Lemma e2_sum : 0.00002 <= - (2 * rsum 12 (fun l => coef PE2 l 0)) <= 0.00004.
Proof.
  assert (B : forall l, (l < 5)%nat -> - / 10 ^ 27 <= coef PE2 l 0 <= / 10 ^ 27) by (intros l Hl; pose proof (eps2_small l 0 ltac:(lia)) as H; unfold Rabs in H; destruct (Rcase_abs _); lra).
  assert (D : forall l, (6 <= l < 12)%nat -> - 0.0000003 <= coef PE2 l 0 <= 0.0000003) by (intros l Hl; pose proof (eps2_tail l Hl) as H; unfold Rabs in H; destruct (Rcase_abs _); lra).
  assert (T : / 10 ^ 27 <= 0.000000001) by (rewrite <- (Rinv_involutive 0.000000001) by lra; apply Rinv_le_contravar; [lra|]; apply Rle_trans with (10 ^ 9); [cbn [pow]; lra|]; apply Rle_pow; [lra|lia]).
  pose proof eps2_lead as M. rewrite !rsum_S, rsum_0.
  pose proof (B 0%nat ltac:(lia)). pose proof (B 1%nat ltac:(lia)). pose proof (B 2%nat ltac:(lia)). pose proof (B 3%nat ltac:(lia)). pose proof (B 4%nat ltac:(lia)).
  pose proof (D 6%nat ltac:(lia)). pose proof (D 7%nat ltac:(lia)). pose proof (D 8%nat ltac:(lia)). pose proof (D 9%nat ltac:(lia)). pose proof (D 10%nat ltac:(lia)). pose proof (D 11%nat ltac:(lia)). lra.
Qed.
Lemma attempts_e : exists g', attempts fe 1 (Some 1) ge = (Ok 1, g').
Proof.
  cbn [attempts]. destruct (dy_ev 1 (fun _ _ => RtoC 1) ve we ve_iter we_iter fe 0 fe_lin 1 ge ge_start) as (g1 & E & KY & _ & _ & R2 & _). pose proof (keeps_dy fe 1 ge) as K. rewrite E in K. cbn [snd] in K. destruct K as (_ & _ & _ & K4 & _ & K6 & _ & K8 & K9 & _).
  unfold bind at 1. rewrite E. unfold bind at 1, gets at 1. unfold bind at 1, oncon at 1.
  assert (Y : nth 0 (p_yerr2 (g_s g1)) z0 = RtoC (2 * rsum 12 (fun l => coef PE2 l 0))) by (rewrite (R2 0%nat ltac:(lia)), (val_sum ve we 1 PE2 12 0 len_PE2); apply dsum_e).
  pose proof e2_sum as B. set (S5 := 2 * rsum 12 _) in *. clearbody S5.
  assert (Ee : exists e, error (g_s g1) 1 = Fin e /\ 0 < e <= / 10 ^ 7).
  { unfold error. cbv zeta. rewrite K6. change (length (p_y (g_s ge))) with 1%nat. cbn [seq existsb]. assert (Es : error_scale (g_s g1) 0 = 10 ^ 6) by (unfold error_scale; rewrite K8, K9; change (p_atol (g_s ge)) with (10 ^ 6); change (p_rtol (g_s ge)) with 0; ring). rewrite Es. unfold isz at 1. destruct (Req_EM_T (10 ^ 6) 0) as [Z|_]; [exfalso; cbn in Z; lra|]. cbn [orb].
    unfold rsum, lrsum, mk. cbn [seq map fold_right]. rewrite Es, Y, Cmod_R. set (e2 := Cmod _). set (t := Rabs S5 / 10 ^ 6). assert (T6 : 10 ^ 6 = 1000000) by (cbn [pow]; lra). assert (Ht : 0 < t <= / 10 ^ 7).
    { unfold t. rewrite T6. assert (A : Rabs S5 = - S5) by (apply Rabs_left; lra). rewrite A. split; [apply Rdiv_lt_0_compat; lra|]. apply Rmult_le_reg_r with 1000000; [lra|]. replace (- S5 / 1000000 * 1000000) with (- S5) by field. cbn [pow]. lra. }
    set (u := (e2 / 10 ^ 6) ^ 2). assert (Hu : 0 <= u) by (unfold u; rewrite <- Rsqr_pow2; apply Rle_0_sqr). rewrite !Rplus_0_r. assert (Ht2 : 0 < t ^ 2) by (apply pow_lt; lra). destruct (Rlt_dec (t ^ 2 + 0.01 * u) 0) as [Z|_]; [lra|]. cbn [INR]. rewrite Rmult_1_r.
    unfold isz. destruct (Req_EM_T (t ^ 2 + 0.01 * u) 0) as [Z|_]; [lra|]. eexists. split; [reflexivity|]. assert (Q : 0 < sqrt (1 / (t ^ 2 + 0.01 * u)) <= / t).
    { split; [apply sqrt_lt_R0; apply Rdiv_lt_0_compat; lra|]. rewrite <- (sqrt_pow2 (/ t)) by (left; apply Rinv_0_lt_compat; lra). apply sqrt_le_1_alt. rewrite pow_inv by lra. unfold Rdiv. rewrite Rmult_1_l. apply Rinv_le_contravar; lra. }
    set (q := sqrt _) in *. rewrite (Rabs_pos_eq 1), (Rabs_pos_eq (t ^ 2)) by lra. assert (P : 0 < 1 * t ^ 2 * q) by (apply Rmult_lt_0_compat; [apply Rmult_lt_0_compat; lra|lra]). rewrite Rabs_pos_eq by lra. split; [exact P|].
    apply Rle_trans with (1 * t); [|lra]. replace (1 * t) with (1 * t ^ 2 * / t) by (field; lra). apply Rmult_le_compat_l; [|lra]. apply Rmult_le_pos; lra. }
  destruct Ee as (e & -> & He). pose proof (pow8_big e He) as Pb. unfold success. assert (T7 : / 10 ^ 7 < 1) by (cbn [pow]; lra). destruct (Rle_dec e 1) as [_|Z]; [|lra]. destruct (Rlt_dec e 0) as [Z|_]; [lra|]. destruct (Req_EM_T e 0) as [Z|_]; [lra|]. rewrite Rmult_1_r.
  destruct (Rlt_dec (0.9 * Rpower e (- (1 / 8))) 0.333) as [Z|_]; [lra|]. destruct (Rlt_dec 6 (0.9 * Rpower e (- (1 / 8)))) as [_|Z]; [|lra]. unfold bind, modify, ret. cbn [fst snd]. eexists. reflexivity.
Qed.
Lemma step_e : exists g', step fe 1 1 ge = (Ok tt, g') /\ p_hdid (g_s g') = 1.
Proof.
  destruct attempts_e as (g1 & E). pose proof (attempts_last fe _ _ _ _ _ E) as (g0 & g2 & Ss & Ed & Eg). assert (L : length (p_y (g_s g1)) = 1%nat).
  { pose proof (keeps_dy fe 1 g0) as K. rewrite Ed in K. cbn [snd] in K. destruct K as (_ & _ & _ & _ & _ & K6 & _). rewrite Eg, K6. destruct Ss as (_ & _ & -> & _). reflexivity. }
  unfold step. unfold bind at 1. rewrite E. unfold bind at 1, gets at 1. unfold bind at 1. unfold deriv at 1, bind at 1, onw at 1, fe at 1, ret at 1, ret at 1. unfold bind at 1. cbn [g_s].
  destruct (p_dense (g_s g1)).
  - unfold prepare_dense. unfold bind at 1, gets at 1. cbv zeta. cbn [g_s]. destruct (p_k (g_s g1)). do 3 (unfold bind at 1, deriv at 1, bind at 1, onw at 1, fe at 1, ret at 1, ret at 1). cbn [g_s bind get gets set_s modify ret]. eexists. split; reflexivity.
  - eexists. split; reflexivity.
Qed.
(** the state after the step is 2 e - 1 = 4.43656... up to 1e-4 *)
Example ex_C76 : exists g', step fe 1 1 ge = (Ok tt, g') /\ exists r, nth 0 (p_y (g_s g')) z0 = RtoC r /\ 4.4365 <= r <= 4.4366.
Proof.
  destruct step_e as (g' & E & Hh). exists g'. split; [exact E|]. destruct C76_linear_systems as (beta & e1 & e2 & delta & B & Bt & _ & _ & _ & _ & _ & _ & _ & _ & Th).
  specialize (Th unit fe 1%nat (fun _ _ => RtoC 1) ve we 1%nat 1 ge g' fe_lin ve_iter we_iter eq_refl). destruct (Th ltac:(intros i Hi; split; [exact (proj1 (proj2 (proj2 ge_start)) i Hi)|exact (proj2 (proj2 (proj2 ge_start)) i Hi)]) E 0%nat ltac:(lia)) as (Y & _). clear Th.
  cbv zeta in Y. rewrite Hh in Y. change (nth 0 (p_y (g_s g')) z0 = (ve 0 0 + dsum 12 beta 1 1 ve we 0)%C) in Y. rewrite dsum_e in Y. unfold ve in Y. rewrite <- RtoC_plus in Y. eexists. split; [exact Y|].
  assert (T : / 10 ^ 27 <= 0.000000001) by (rewrite <- (Rinv_involutive 0.000000001) by lra; apply Rinv_le_contravar; [lra|]; apply Rle_trans with (10 ^ 9); [cbn [pow]; lra|]; apply Rle_pow; [lra|lia]).
  assert (C : forall l, (l <= 7)%nat -> / INR (fact (l + 1)) - 0.000000001 <= beta l 0%nat <= / INR (fact (l + 1)) + 0.000000001).
  { intros l Hl. pose proof (B l 0%nat ltac:(lia)) as H. rewrite Nat.add_0_r in H. cbn [fact INR] in H. unfold Rdiv in H. rewrite Rmult_1_l in H. unfold Rabs in H. destruct (Rcase_abs _); lra. }
  assert (D : forall l, (8 <= l <= 11)%nat -> 0 <= beta l 0%nat <= 0.000003).
  { intros l Hl. destruct (Bt l Hl) as [D1 D2]. split; [lra|]. eapply Rle_trans; [exact D2|]. rewrite <- zfact_fact. assert (G : (362880 <= zfact (l + 1))%Z) by (destruct (Nat.eq_dec l 8) as [->|]; [vm_compute; discriminate|]; destruct (Nat.eq_dec l 9) as [->|]; [vm_compute; discriminate|]; destruct (Nat.eq_dec l 10) as [->|]; [vm_compute; discriminate|]; assert (l = 11)%nat as -> by lia; vm_compute; discriminate).
    apply IZR_le in G. apply Rle_trans with (/ 362880); [apply Rinv_le_contravar; lra|lra]. }
  rewrite !rsum_S, rsum_0. clear Y B Bt.
  pose proof (C 0%nat ltac:(lia)) as C0. pose proof (C 1%nat ltac:(lia)) as C1. pose proof (C 2%nat ltac:(lia)) as C2. pose proof (C 3%nat ltac:(lia)) as C3. pose proof (C 4%nat ltac:(lia)) as C4. pose proof (C 5%nat ltac:(lia)) as C5. pose proof (C 6%nat ltac:(lia)) as C6. pose proof (C 7%nat ltac:(lia)) as C7.
  rewrite <- zfact_fact in C0, C1, C2, C3, C4, C5, C6, C7. cbn in C0, C1, C2, C3, C4, C5, C6, C7.
  pose proof (D 8%nat ltac:(lia)). pose proof (D 9%nat ltac:(lia)). pose proof (D 10%nat ltac:(lia)). pose proof (D 11%nat ltac:(lia)). lra.
Qed.

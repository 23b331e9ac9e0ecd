(** Concrete cases that meet the hypotheses of C81-C83. *)
From Coq Require Import String.
From Coq Require Import Reals List ZArith Bool Arith Lia Lra.
From Coquelicot Require Import Complex.
From Verif Require Import Base CNum NumPy ModelFFT FFTProofs ModelPulse Spec ModelPulseOps PulseProofs PulseHistory PulseOpsProofs PulseRegridProofs ModelDerived DerivedProofs DerivedMoreProofs.
From Verif Require Import PropsDerived PropsDerivedMore ExPulse.
Import ListNotations.
Local Open Scope R_scope.

(** all four chirp parameters nonzero; the unchirped pulse exists, so the chirped one does and is what the two chirp calls make of it *)
Example ex_C81 : exists p p', construct (sech_pulse 1000 (1/2) 1550 10 None 4 0 0 0 0 false) = Ok p /\ then_chirp 3 2 1 (-1) (1/2) p = Ok p' /\
  construct (sech_pulse 1000 (1/2) 1550 10 None 4 3 2 1 (-1) false) = Ok p'.
Proof.
  destruct (C23_sech_peak_power 1000 (1/2) 1550 10 None 4 0 0) as (p & t & E1 & _); try lra.
  destruct (C81_sech_chirp_parameters 1000 (1/2) 1550 10 None 4 false 3 2 1 (-1)) as [A B]. destruct (B p E1) as [p' E2].
  exists p, p'. split; [exact E1|]. split; [exact E2|]. now rewrite A, E1.
Qed.
Example ex_C81_gauss : exists p', construct (gaussian_pulse 1000 (1/2) 1550 10 None 4 3 2 1 (-1) false) = Ok p'.
Proof.
  destruct (C23_gaussian_peak_power 1000 (1/2) 1550 10 None 4 0 0) as (p & t & E1 & _); try lra.
  destruct (C81_gaussian_chirp_parameters 1000 (1/2) 1550 10 None 4 false 3 2 1 (-1)) as [A B]. destruct (B p E1) as [p' E2].
  exists p'. now rewrite A, E1.
Qed.
(** both sides refuse a zero width *)
Example ex_C81_sinc : construct (sinc_pulse 1000 0 1550 10 None 4 3 2 1 (-1) false) = Raise NonFinite.
Proof.
  unfold construct, sinc_pulse. unfold bind at 1. rewrite head_run by lra. unfold bind at 1, finite_unless, is0.
  destruct (Req_EM_T (0 / (37909885 / 10000000)) 0) as [_|N]; [reflexivity|exfalso; apply N; field].
Qed.
(** 1.55e-6 m given where nm are expected *)
Example ex_C82 : construct (cw_pulse 1 (155 / 100000000) 10 4 None) = Raise AssertionError.
Proof. apply (C82_constructors_reject_mks_units ex_str 1 1 (155 / 100000000) 10 None 4 0 0 0 0 false false None None). left. lra. Qed.

(** a FROG file rising from 1 at 1000 nm to 3 at 2000 nm: the pulse exists and its power spectrum is not the measured one *)
Definition exf_wls : list R := [1000; 2000].
Definition exf_int : list R := [1; 3].
Definition exf_ph : list R := [0; 1].
Lemma exf_inc : increasing exf_wls.
Proof. intros i j H. unfold exf_wls in *. cbn [length] in H. assert (i = 0%nat) by lia. assert (j = 1%nat) by lia. subst. cbn [nth]. lra. Qed.
Lemma exf_lam k : (k = 1 \/ k = 2)%nat -> exists y, 193 < y < 194 /\ 2 * PI * c_nmps / nth k (spec_W 4 10 (c_nmps / 1550)) 0 = c_nmps / y /\ 1000 <= c_nmps / y <= 2000 /\ y = c_nmps / 1550 + (INR k - 2) / 10.
Proof.
  intros Hk. exists (c_nmps / 1550 + (INR k - 2) / 10).
  assert (B : 193 < c_nmps / 1550 + (INR k - 2) / 10 < 194) by (unfold c_nmps, c_mks; destruct Hk as [-> | ->]; simpl INR; lra).
  split; [exact B|]. set (y := c_nmps / 1550 + (INR k - 2) / 10) in *. split; [|split; [|reflexivity]].
  - unfold spec_W. rewrite mk_nth by lia. replace (INR 4 / 2) with 2 by (simpl INR; lra). fold y. pose proof PI_RGT_0. field. split; lra.
  - split; apply (Rmult_le_reg_r y); try lra; unfold Rdiv; rewrite Rmult_assoc, Rinv_l by lra; unfold c_nmps, c_mks in *; lra.
Qed.
Lemma exf_piece k : (k = 1 \/ k = 2)%nat ->
  piecewise exf_wls exf_int (2 * PI * c_nmps / nth k (spec_W 4 10 (c_nmps / 1550)) 0) (1 + (2 * PI * c_nmps / nth k (spec_W 4 10 (c_nmps / 1550)) 0 - 1000) / 500).
Proof.
  intros Hk. destruct (exf_lam k Hk) as (y & Y & E & B & _). rewrite E. left. exists 0%nat. unfold exf_wls, exf_int. cbn [length nth].
  split; [lia|]. split; [exact B|]. replace (2000 - 1000) with 1000 by ring. set (x := c_nmps / y). lra.
Qed.
Example ex_C83 : exists p a, construct (frog_pulse ex_str 10 1550 1 None 4 false (Some (exf_wls, exf_int, exf_ph)) true) = Ok p /\ get_AW p = (Ok a, p) /\
  let I k := 1 + (2 * PI * c_nmps / nth k (spec_W 4 10 (c_nmps / 1550)) 0 - 1000) / 500 in
  Cmod (nth 1 a (RtoC 0)) ^ 2 * I 2%nat <> Cmod (nth 2 a (RtoC 0)) ^ 2 * I 1%nat.
Proof.
  destruct (exf_lam 1 ltac:(auto)) as (y1 & Y1 & L1 & B1 & D1). destruct (exf_lam 2 ltac:(auto)) as (y2 & Y2 & L2 & B2 & D2).
  destruct (C83_frog_accepts ex_str 10 1550 1 100 None 4 false true exf_wls exf_int exf_ph 1 _ ltac:(lra) ltac:(lra) eq_refl ltac:(lra)
     ltac:(cbn; lia) exf_inc ltac:(lia) ltac:(cbn; lra) ltac:(lia) (exf_piece 1 ltac:(auto))) as [p Hp]; [rewrite L1; lra|].
  exists p.
  destruct (C83_frog_power_spectrum_refuted ex_str 10 1550 1 100 None 4 false true exf_wls exf_int exf_ph p 1 2 _ _ ltac:(lra) ltac:(lra) eq_refl
     ltac:(cbn; lia) exf_inc Hp ltac:(cbn; lra) ltac:(lia) ltac:(lia) (exf_piece 1 ltac:(auto)) (exf_piece 2 ltac:(auto))) as (a & Ha & _ & Hne);
    [rewrite L1; lra|rewrite L2; lra| |].
  - rewrite L1, L2. intros K. assert (K' : c_nmps / y1 = c_nmps / y2) by lra.
    assert (Hc : 0 < c_nmps) by (unfold c_nmps, c_mks; lra).
    assert (y1 = y2). { replace y1 with (c_nmps / (c_nmps / y1)) by (field; split; lra). rewrite K'. field. split; lra. }
    rewrite D1, D2 in H. simpl INR in H. lra.
  - exists a. split; [exact Hp|]. split; [exact Ha|exact Hne].
Qed.

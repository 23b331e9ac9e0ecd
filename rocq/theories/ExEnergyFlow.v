(** Concrete cases for C128: the amplifying fiber of ExSplitFlow with both methods. *)
From Coq Require Import Reals List ZArith Bool Arith Lia Lra.
From Coquelicot Require Import Coquelicot.
From Verif Require Import Base CNum NumPy Spec ModelFFT FFTProofs ModelPulse PulseProofs PulseOpsProofs ModelSSFM SSFMProofs SSFMPropProofs ExGnlseFlow ExSplitFlow PropsEnergyFlow PropsSSFMTriv.
Import ListNotations.
Local Open Scope R_scope.
Local Notation z0 := (RtoC 0).

Definition ef_c : cfg := mkCfg (1 / 1000) METHOD_RK4IP 5 true true true (1 / 10) (3 / 10) true.
Lemma ef_setting N : (0 < N)%nat -> setting ef_c hf_f N None gf_i gf_p gf_a (fun _ => [7; 3]) [2 / 5; 2 / 5] [RtoC 1; RtoC 1] 0.
Proof. intros HN. exact (hf_setting N HN). Qed.
Lemma ef_power : power_sum (IFFT_t gf_a) = 5.
Proof. unfold gf_a. rewrite IFFT_FFT_t, power_sum_rsum. cbn [length]. rewrite !rsum_S, rsum_0. unfold Cnorm2. cbn. ring. Qed.
Lemma ef_gain : forall m, (m < p_n gf_p)%nat -> 2 / 5 <= nth m [2 / 5; 2 / 5] 0 <= 2 / 5.
Proof. change (p_n gf_p) with 2%nat. intros [|[|m]] Hm; [cbn [nth]; lra|cbn [nth]; lra|lia]. Qed.
(** energy 5, gain 2/5 per metre: 5 exp(2 D / 5) within K / N^5 *)
Example ex_C128 : exists K N0, 0 <= K /\ forall N fuel z AW AT po s' q, (N0 <= N)%nat -> (0 < N)%nat -> propagate ef_c fuel hf_f N None true gf_i gf_p = (Ok (Some (z, AW, AT, po, s')), q) ->
  exists d : nat -> R, (forall j, (j < N)%nat -> 1 / INR N <= d j) /\ forall i, (i < N)%nat -> rsum (S i) d <= 2 -> Rabs (power_sum (nth i AT []) - 5 * exp (2 / 5 * rsum (S i) d)) <= K * (1 / INR N) ^ 5.
Proof.
  destruct (C128_energy_balance ef_c hf_f None gf_i gf_p gf_a (fun _ => [7; 3]) [2 / 5; 2 / 5] [RtoC 1; RtoC 1] 0 2 (2 / 5) (2 / 5) (ef_setting 1 ltac:(lia)) ltac:(right; reflexivity) eq_refl ltac:(cbn; lia) eq_refl ltac:(cbn; lra) ef_gain) as (K & N0 & PK & H).
  exists K, N0. split; [exact PK|]. intros N fuel z AW AT po s' q H1 H2 R. destruct (H N fuel true z AW AT po s' q H1 H2 ltac:(intros; split; reflexivity) R) as (d & D1 & D2). exists d. split; [intros j Hj; apply (D1 j Hj)|].
  intros i Hi HT. specialize (D2 i Hi HT). cbv zeta in D2. rewrite ef_power in D2. apply Rabs_le. change (fb_len hf_f) with 1 in D2. change (if Nat.eqb (c_eta ef_c) 5 then 5%nat else 4%nat) with 5%nat in D2. lra.
Qed.
Example ex_C128_splitting : exists K N0, 0 <= K /\ forall N fuel z AW AT po s' q, (N0 <= N)%nat -> (0 < N)%nat -> propagate hf_c fuel hf_f N None true gf_i gf_p = (Ok (Some (z, AW, AT, po, s')), q) ->
  exists d : nat -> R, (forall j, (j < N)%nat -> 1 / INR N <= d j) /\ forall i, (i < N)%nat -> rsum (S i) d <= 2 -> Rabs (power_sum (nth i AT []) - 5 * exp (1 / 5 * rsum (S i) d)) <= K * (1 / INR N).
Proof.
  destruct (C128_splitting_energy hf_c hf_f None gf_i gf_p gf_a (fun _ => [7; 3]) [2 / 5; 2 / 5] [RtoC 1; RtoC 1] 0 2 (2 / 5) (2 / 5) (hf_setting 1 ltac:(lia)) ltac:(right; reflexivity) eq_refl ltac:(cbn; lia) eq_refl ltac:(cbn; lra) ef_gain) as (K & N0 & PK & H).
  exists K, N0. split; [exact PK|]. intros N fuel z AW AT po s' q H1 H2 R. destruct (H N fuel true z AW AT po s' q H1 H2 ltac:(intros; split; reflexivity) R) as (d & D1 & D2). exists d. split; [intros j Hj; apply (D1 j Hj)|].
  intros i Hi HT. specialize (D2 i Hi HT). cbv zeta in D2. rewrite ef_power in D2. apply Rabs_le. change (fb_len hf_f) with 1 in D2. replace (2 / 5 / 2) with (1 / 5) in D2 by field. lra.
Qed.
Example ex_C128_runs N : (0 < N)%nat -> exists fuel r q, propagate ef_c fuel hf_f N None true gf_i gf_p = (Ok (Some r), q).
Proof. intros HN. destruct (C33_propagate_returns _ _ _ _ true _ _ _ _ _ _ _ (ef_setting N HN)) as (fuel & z & AW & AT & po & s' & q & E). exists fuel. eexists. exists q. exact E. Qed.

(** Concrete cases that meet the hypotheses of C118-C120: 1000 lines/mm at normal incidence, 500 nm, one metre. *)
From Coq Require Import Reals List ZArith Bool Arith Lia Lra Psatz Factorial.
From Coquelicot Require Import Coquelicot.
From Verif Require Import Base CNum NumPy ModelPulse ModelCrystal ModelGrating ModelGratingHigh StencilProofs GratingHighProofs GratingHodProofs PropsStencil PropsGratingHigh PropsGratingHod.
Import ListNotations.
Local Open Scope R_scope.
Opaque fact.

(** the filter on samples of x^3: the third derivative is six *)
Example ex_C118_least_squares : savgol_filter_at (mk 21 (fun i => (INR i - 10) ^ 3)) 3 10 = 6.
Proof.
  change 3%Z with (Z.of_nat 3). rewrite (C118_least_squares (mk 21 (fun i => (INR i - 10) ^ 3)) 3 10 (fun j => if (j =? 3)%nat then 1 else 0)).
  - cbn [Nat.eqb]. rewrite Rmult_1_r, INR_IZR_INZ. reflexivity.
  - lia.
  - intros c'. rewrite (rsum_zero 11).
    + apply rsum_nonneg. intros i _. rewrite <- Rsqr_pow2. apply Rle_0_sqr.
    + intros i Hi. rewrite mk_nth by lia. rewrite (rsum_single 8 3) by (try lia; intros j _ Hj; apply Nat.eqb_neq in Hj; rewrite Hj; ring). rewrite Nat.eqb_refl, plus_INR. replace (INR (10 - 5)) with 5 by (rewrite INR_IZR_INZ; reflexivity). ring.
Qed.
Lemma t0_d : t_d t0 <> 0.
Proof. destruct t0_facts as (E & _). rewrite E. lra. Qed.
(** the derivatives of the delay are bounded, so that every order from one to four has a value *)
Example ex_C118_bound : Rabs (Derive_n F0 3 w500) <= 6 * (5 / 349e13) ^ 3 * (1.2 / c_mks).
Proof. replace 6 with (INR (fact 3)) by (rewrite INR_IZR_INZ; reflexivity). apply F0_bound_n; [lia|]. rewrite Rminus_diag_eq, Rabs_R0 by reflexivity. lra. Qed.
Example ex_C118_dnphi : forall n, (1 <= n <= 4)%nat -> exists v, calc_compressor_dnphi_domega_n t0 500 1 (Z.of_nat n) = Ok v /\
  Rabs (v - 10 ^ (15 * n * (n + 1)) * Derive_n F0 n w500) <= 10 ^ (15 * n * (n + 1)) * (5 / 2 * M0 * 2e11 ^ (8 - n)).
Proof. intros n Hn. apply (C118_dnphi_value t0 500 1 M0 F0 n); [lra|apply t0_d|exact Hn|exact F0_delay|exact F0_bound]. Qed.
Example ex_C118_refused : calc_compressor_dnphi_domega_n t0 500 1 0 = Raise ValueError.
Proof. apply C118_order_refused. lia. Qed.
Example ex_C119 : exists v g, calc_compressor_dnphi_domega_n t0 500 1 1 = Ok v /\ calc_compressor_gdd t0 500 1 = Ok g /\ Rabs (v - 10 ^ 30 * (g / 2)) <= 10 ^ 30 * (5 / 2 * M0 * 2e11 ^ 7).
Proof. apply (C119_first_order t0 500 1 M0 F0); [lra|apply t0_d|exact F0_delay|exact F0_bound]. Qed.
Example ex_C120 : exists v, calc_compressor_HOD t0 500 1 3 = Ok v /\
  Rabs (v - 2 * Derive_n F0 2 w500) <= INR (fact 1) * 2550 ^ 101 / INR (fact 100) * (2 * PI * 1e8) ^ 100 * (2 * (INR (fact 102) * (5 / 349e13) ^ 102 * (1.2 / c_mks))).
Proof.
  apply (C120_hod_value t0 500 1 (2 * (INR (fact 102) * (5 / 349e13) ^ 102 * (1.2 / c_mks))) F0 3); [lra|apply t0_d|lia| |].
  - intros y Hy. apply F0_delay. unfold w500. lra.
  - intros y Hy. apply Rmult_le_compat_l; [lra|]. apply F0_bound_n; [lia|]. unfold w500. lra.
Qed.
Example ex_C120_refused : calc_compressor_HOD t0 500 1 2 = Raise ValueError /\ calc_compressor_HOD t0 500 1 103 = Raise ValueError.
Proof. split; apply C120_order_refused; try lra; lia. Qed.

(** Proofs about calc_compressor_HOD and about the units of calc_compressor_dnphi_domega_n: C119, C120. *)
From Coq Require Import Reals List ZArith Bool Arith Lia Lra Psatz Factorial.
From Coquelicot Require Import Coquelicot.
From Verif Require Import Base CNum NumPy ModelPulse ModelCrystal CrystalProofs ModelGrating ModelGratingHigh CrystalMoreProofs BeamProofs GratingProofs StencilProofs GratingHighProofs.
Import ListNotations.
Local Open Scope R_scope.
Local Open Scope py_scope.
Opaque fact.

(** ** The 101-point formula *)
Lemma points_length N : length (central_diff_points N) = N.
Proof. apply mk_length. Qed.
Lemma points_nth N i : (i < N)%nat -> nth i (central_diff_points N) 0 = INR i - INR (Nat.div2 N).
Proof. intros H. unfold central_diff_points. now rewrite mk_nth by exact H. Qed.
Lemma points_nodup N : NoDup (central_diff_points N).
Proof. apply (NoDup_nth _ 0). rewrite points_length. intros i j Hi Hj. rewrite !points_nth by assumption. intros E. apply INR_eq. lra. Qed.
Lemma INR_apart a b : INR a <> INR b -> 1 <= Rabs (INR a - INR b).
Proof.
  intros H. assert (N : a <> b) by congruence. rewrite !INR_IZR_INZ, <- minus_IZR, <- abs_IZR. apply IZR_le. lia.
Qed.
Lemma weights_nth N n i : (i < N)%nat -> nth i (central_diff_weights N n) 0 = INR (fact n) * nth n (lagrange (central_diff_points N) (nth i (central_diff_points N) 0)) 0.
Proof.
  intros Hi. unfold central_diff_weights. set (f := fun xk => INR (fact n) * nth n (lagrange (central_diff_points N) xk) 0). rewrite (nth_indep _ 0 (f 0)) by (rewrite map_length, points_length; exact Hi). rewrite map_nth. reflexivity.
Qed.
Lemma weights_moments N n k : (n < N)%nat -> (k < N)%nat -> rsum N (fun i => nth i (central_diff_weights N n) 0 * (INR i - INR (Nat.div2 N)) ^ k) = if (k =? n)%nat then INR (fact n) else 0.
Proof.
  intros Hn Hk. pose proof (lagrange_moments (central_diff_points N) n k (points_nodup N)) as L. rewrite points_length in L. specialize (L Hn Hk).
  rewrite (rsum_ext N _ (fun i => INR (fact n) * (nth n (lagrange (central_diff_points N) (nth i (central_diff_points N) 0)) 0 * nth i (central_diff_points N) 0 ^ k))) by (intros i Hi; rewrite weights_nth, !points_nth by exact Hi; ring).
  rewrite rsum_scal_l, L. destruct (k =? n)%nat; ring.
Qed.
Lemma prod_le (l : list R) c : (forall x, In x l -> 1 + Rabs x <= c) -> 0 <= c -> fold_right (fun x b => (1 + Rabs x) * b) 1 l <= c ^ length l.
Proof.
  intros H Hc. assert (P : forall l' : list R, 0 <= fold_right (fun x b => (1 + Rabs x) * b) 1 l') by (induction l' as [|y l' IH]; cbn; [lra|pose proof (Rabs_pos y); apply Rmult_le_pos; lra]).
  induction l as [|y l IH]; cbn [fold_right length pow]; [lra|]. apply Rmult_le_compat; [pose proof (Rabs_pos y); lra|apply P|apply H; left; reflexivity|apply IH; intros x Hx; apply H; right; exact Hx].
Qed.
Lemma point_bound N i : (i < N)%nat -> Rabs (INR i - INR (Nat.div2 N)) <= INR (Nat.div2 N).
Proof.
  intros Hi. pose proof (Nat.div2_odd N) as E. assert (Nat.b2n (Nat.odd N) <= 1)%nat by (destruct (Nat.odd N); cbn; lia). assert (I : (i <= 2 * Nat.div2 N)%nat) by lia. apply le_INR in I. rewrite mult_INR in I. cbn [INR] in I. pose proof (pos_INR i). apply Rabs_le. lra.
Qed.
Lemma weights_bound N n i : (i < N)%nat -> Rabs (nth i (central_diff_weights N n) 0) <= INR (fact n) * (1 + INR (Nat.div2 N)) ^ N.
Proof.
  intros Hi. rewrite weights_nth by exact Hi. rewrite Rabs_mult, (Rabs_pos_eq (INR (fact n))) by apply pos_INR. apply Rmult_le_compat_l; [apply pos_INR|]. eapply Rle_trans; [apply psize_nth|]. eapply Rle_trans; [apply lagrange_size|].
  - intros x Hx Hne. destruct (In_nth _ _ 0 Hx) as (j & Hj & <-). rewrite points_length in Hj. rewrite !points_nth in * by assumption. replace (INR i - INR (Nat.div2 N) - (INR j - INR (Nat.div2 N))) with (INR i - INR j) by ring. apply INR_apart. intros E. apply Hne. lra.
  - rewrite <- (points_length N) at 3. apply prod_le; [|pose proof (pos_INR (Nat.div2 N)); lra]. intros x Hx. destruct (In_nth _ _ 0 Hx) as (j & Hj & <-). rewrite points_length in Hj. rewrite points_nth by exact Hj. pose proof (point_bound N j Hj). lra.
Qed.
Lemma rtraverse_seq {B} (f : nat -> result B) (g : nat -> B) n : (forall i, (i < n)%nat -> f i = Ok (g i)) -> rtraverse f (seq 0 n) = Ok (mk n g).
Proof. intros H. unfold mk. apply rtraverse_map. intros i Hi. apply H. apply in_seq in Hi. lia. Qed.

(** scipy.misc.derivative on a function with derivatives of all orders *)
Lemma derivative_value N n (func : R -> result R) F x0 dx r M : Nat.odd N = true -> (n < N)%nat -> 0 < dx -> dx * INR (Nat.div2 N) < r ->
  (forall y, Rabs (y - x0) < r -> func y = Ok (F 0%nat y)) -> derivatives F N x0 r -> (forall y, Rabs (y - x0) <= dx * INR (Nat.div2 N) -> Rabs (F N y) <= M) ->
  exists v, derivative func x0 dx n N = Ok v /\ Rabs (v - F n x0) <= INR N * (INR (fact n) * (1 + INR (Nat.div2 N)) ^ N * INR (Nat.div2 N) ^ N) / INR (fact N) * (dx ^ N / dx ^ n) * M.
Proof.
  intros Ho Hn Hd Hr Hf HF HM. unfold derivative. replace (N <? n + 1)%nat with false by (symmetry; apply Nat.ltb_ge; lia). rewrite <- Nat.negb_odd, Ho. cbn [negb].
  rewrite (rtraverse_seq _ (fun k => F 0%nat (x0 + (INR k - INR (Nat.div2 N)) * dx))).
  - cbn [rbind]. rewrite CrystalProofs.fdiv_ok by (apply pow_nonzero; lra). eexists. split; [reflexivity|]. destruct N as [|m]; [lia|].
    rewrite (rsum_ext (S m) _ (fun i => nth i (central_diff_weights (S m) n) 0 * F 0%nat (x0 + (INR i - INR (Nat.div2 (S m))) * dx))) by (intros i Hi; rewrite mk_nth by exact Hi; reflexivity).
    pose proof (stencil (S m) (fun i => nth i (central_diff_weights (S m) n) 0) (fun i => INR i - INR (Nat.div2 (S m))) m n F x0 r dx (INR (Nat.div2 (S m))) M) as ST. cbv beta in ST.
    specialize (ST ltac:(intros k Hk; apply weights_moments; lia) ltac:(lia) HF ltac:(lra) ltac:(intros i Hi; apply point_bound, Hi) Hr HM).
    set (S0 := rsum (S m) (fun i => nth i (central_diff_weights (S m) n) 0 * F 0%nat (x0 + (INR i - INR (Nat.div2 (S m))) * dx))) in *. assert (Pn : 0 < dx ^ n) by (apply pow_lt; lra).
    replace (S0 / dx ^ n - F n x0) with ((S0 - dx ^ n * F n x0) * / dx ^ n) by (field; lra). rewrite Rabs_mult, (Rabs_pos_eq (/ dx ^ n)) by (left; apply Rinv_0_lt_compat, Pn).
    set (b := INR (fact n) * (1 + INR (Nat.div2 (S m))) ^ S m * INR (Nat.div2 (S m)) ^ S m) in *.
    assert (PM : 0 <= M). { eapply Rle_trans; [apply Rabs_pos|apply (HM x0)]. rewrite Rminus_diag_eq, Rabs_R0 by reflexivity. apply Rmult_le_pos; [lra|apply pos_INR]. }
    assert (W : rsum (S m) (fun i => Rabs (nth i (central_diff_weights (S m) n) 0) * Rabs (INR i - INR (Nat.div2 (S m))) ^ S m) <= INR (S m) * b).
    { rewrite <- rsum_const. apply rsum_le. intros i Hi. unfold b. apply Rmult_le_compat; [apply Rabs_pos|apply pow_le, Rabs_pos|apply weights_bound, Hi|]. apply pow_incr. split; [apply Rabs_pos|apply point_bound, Hi]. }
    replace (INR (S m) * b / INR (fact (S m)) * (dx ^ S m / dx ^ n) * M) with (INR (S m) * b / INR (fact (S m)) * dx ^ S m * M * / dx ^ n) by (unfold Rdiv; ring).
    apply Rmult_le_compat_r; [left; apply Rinv_0_lt_compat, Pn|]. eapply Rle_trans; [exact ST|]. apply Rmult_le_compat_r; [exact PM|]. apply Rmult_le_compat_r; [apply pow_le; lra|]. unfold Rdiv. apply Rmult_le_compat_r; [left; apply Rinv_0_lt_compat, INR_fact_lt_0|exact W].
  - intros k Hk. apply Hf. replace (x0 + (INR k - INR (Nat.div2 N)) * dx - x0) with ((INR k - INR (Nat.div2 N)) * dx) by ring. rewrite Rabs_mult, (Rabs_pos_eq dx) by lra. eapply Rle_lt_trans; [|exact Hr]. rewrite Rmult_comm. apply Rmult_le_compat_l; [lra|apply point_bound, Hk].
Qed.

Lemma gdd_value t G x : t_d t <> 0 -> diffracted t x -> calc_compressor_gdd t (1e9 * 2 * PI * c_mks / x) G = Ok (2 * taun t G 1 x).
Proof.
  intros D H. pose proof H as [Z V]. destruct (C64_dispersion_is_derivative_l t x G Z D V) as (eps & v & He & HX & HD & _ & E). rewrite E. do 2 f_equal.
  assert (DV : exists r, 0 < r /\ forall y, Rabs (y - x) < r -> diffracted t y).
  { assert (CV : continuous (fun y => 2 * PI * c_mks / (y * t_d t) - sin (t_g t)) x). { apply (@ex_derive_continuous R_AbsRing R_NormedModule). auto_derive. apply Rmult_integral_contrapositive_currified; assumption. }
    assert (Nb : locally x (fun y => y <> 0 /\ -1 < 2 * PI * c_mks / (y * t_d t) - sin (t_g t) < 1)).
    { apply filter_and; [apply (open_neq 0); exact Z|]. apply (CV (fun y => -1 < y < 1)). apply open_and; [apply open_gt|apply open_lt|exact V]. }
    destruct Nb as [r Hr]. exists r. split; [apply cond_pos|]. intros y Hy. apply Hr. exact Hy. }
  destruct DV as (r & Pr & Hr). set (F2 := fun y => match calc_dphi_domega t y G with Ok z => z | Raise _ => 0 end).
  assert (E2 : forall y, Rabs (y - x) < eps -> calc_dphi_domega t y G = Ok (F2 y)) by (intros y Hy; destruct (HX y Hy) as [z Ez]; unfold F2; rewrite Ez; reflexivity).
  specialize (HD F2 E2). apply is_derive_Reals in HD.
  assert (L : is_derive F2 x (taun t G 1 x)). { eapply is_derive_ext_loc; [|apply (taun_derive t G 0 x D H)]. exists (mkposreal _ Pr). intros y Hy. cbn [taun]. unfold F2. rewrite (dphi_value t G y D (Hr y Hy)). reflexivity. }
  apply is_derive_unique in HD. apply is_derive_unique in L. congruence.
Qed.

(*! C120: calc_compressor_HOD of order m (3 to 102), at a wavelength around which all colours within 0.1 rad/ps are diffracted, is twice the derivative of order m - 1 of the single-pass group delay (the m-th derivative of the double-pass phase) in SI units, up to an error of at most (m-2)! 2550^101/100! (2 pi 1e8)^(103-m) M, M bounding twice the derivative of order 102. *)
Lemma C120_hod_value_l : forall (t : treacy) (wl G M : R) (F : R -> R) (m : nat), let w0 := 2 * PI * c_mks / (wl * 1e-9) in
  wl <> 0 -> t_d t <> 0 -> (3 <= m <= 102)%nat ->
  (forall y, Rabs (y - w0) < 1e11 -> y <> 0 /\ -1 < 2 * PI * c_mks / (y * t_d t) - sin (t_g t) < 1 /\ calc_dphi_domega t y G = Ok (F y)) ->
  (forall y, Rabs (y - w0) < 1e11 -> 2 * Rabs (Derive_n F 102 y) <= M) ->
  exists v, calc_compressor_HOD t wl G (Z.of_nat m) = Ok v /\
    Rabs (v - 2 * Derive_n F (m - 1) w0) <= INR (fact (m - 2)) * 2550 ^ 101 / INR (fact 100) * (2 * PI * 1e8) ^ (103 - m) * M.
Proof.
  intros t wl G M F m w0 Hwl D Hm H HM. assert (Z1 : wl * 1e-9 <> 0) by (intros E; apply Hwl; lra). pose proof PI_RGT_0 as Ppi. pose proof PI_4 as Pi4.
  assert (Hd : forall y, Rabs (y - w0) < 1e11 -> diffracted t y) by (intros y Hy; destruct (H y Hy) as (A & B & _); split; assumption).
  pose proof (Derive_delay t G F w0 1e11 D ltac:(intros y Hy; destruct (H y Hy) as (A1 & A2 & A3); split; [split; assumption|assumption])) as DD.
  assert (Z0 : Rabs (w0 - w0) < 1e11) by (rewrite Rminus_diag_eq, Rabs_R0 by reflexivity; lra).
  unfold calc_compressor_HOD. replace (Z.of_nat m <? 3)%Z with false by (symmetry; apply Z.ltb_ge; lia). rewrite CrystalProofs.fdiv_ok by exact Z1. cbn [rbind]. fold w0.
  replace (Z.to_nat (Z.of_nat m - 2)) with (m - 2)%nat by lia. replace (2 * PI * 100e6) with (2 * PI * 1e8) by lra.
  assert (E50 : INR (Nat.div2 101) = 50) by (change (Nat.div2 101) with 50%nat; rewrite INR_IZR_INZ; reflexivity).
  destruct (derivative_value 101 (m - 2) (fun x => l <-r fdiv (1e9 * 2 * PI * c_mks) x ;; calc_compressor_gdd t l G) (fun k y => 2 * taun t G (S k) y) w0 (2 * PI * 1e8) 1e11 M) as (v & E & B).
  - reflexivity.
  - lia.
  - lra.
  - rewrite E50. lra.
  - intros y Hy. specialize (Hd y Hy). rewrite CrystalProofs.fdiv_ok by apply Hd. cbn [rbind]. apply gdd_value; assumption.
  - intros k y _ Hy. apply (is_derive_scal (taun t G (S k))). apply taun_derive; [exact D|apply Hd, Hy].
  - intros y Hy. rewrite E50 in Hy. rewrite Rabs_mult, (Rabs_pos_eq 2) by lra. rewrite <- (proj2 (DD 102%nat y ltac:(lra))). apply HM. lra.
  - exists v. split; [exact E|]. rewrite (proj2 (DD (m - 1)%nat w0 Z0)). replace (m - 1)%nat with (S (m - 2)) by lia. eapply Rle_trans; [exact B|]. right. rewrite E50.
    assert (F101 : INR (fact 101) = INR 101 * INR (fact 100)) by (rewrite (fact_simpl 100), mult_INR; reflexivity). rewrite F101.
    replace (1 + 50) with 51 by lra. replace (2550 ^ 101) with (51 ^ 101 * 50 ^ 101) by (rewrite <- Rpow_mult_distr; f_equal; lra).
    assert (N1 : INR 101 <> 0) by (apply not_0_INR; lia). pose proof (INR_fact_neq_0 100) as N2. set (h := 2 * PI * 1e8). assert (Ph : h <> 0) by (unfold h; lra).
    replace (h ^ 101 / h ^ (m - 2)) with (h ^ (103 - m)).
    + set (a := 51 ^ 101). set (b := 50 ^ 101). set (f := INR (fact (m - 2))). set (n1 := INR 101) in *. set (n2 := INR (fact 100)) in *. clearbody a b f n1 n2. field. split; assumption.
    + replace 101%nat with (103 - m + (m - 2))%nat at 2 by lia. rewrite pow_add. field. apply pow_nonzero, Ph.
Qed.
(*! C120: orders below three and above 102 are refused with ValueError. *)
Lemma C120_order_refused_l : forall (t : treacy) (wl G : R) (m : Z), wl <> 0 -> (m < 3)%Z \/ (102 < m)%Z -> calc_compressor_HOD t wl G m = Raise ValueError.
Proof.
  intros t wl G m Hwl H. unfold calc_compressor_HOD. destruct (m <? 3)%Z eqn:L; [reflexivity|]. apply Z.ltb_ge in L. rewrite CrystalProofs.fdiv_ok by (intros E; apply Hwl; lra). cbn [rbind]. unfold derivative.
  replace (101 <? Z.to_nat (m - 2) + 1)%nat with true; [reflexivity|]. symmetry. apply Nat.ltb_lt. lia.
Qed.

(** ** The unit of calc_compressor_dnphi_domega_n *)
(*! C119: for order one the result is the single-pass group-delay dispersion in fs^2: half of calc_compressor_gdd times 10^30, up to the error of C118. *)
Lemma C119_first_order_l : forall (t : treacy) (wl G M : R) (F : R -> R), let w0 := 2 * PI * c_mks / (wl * 1e-9) in
  wl <> 0 -> t_d t <> 0 ->
  (forall y, Rabs (y - w0) <= 10e12 -> y <> 0 /\ -1 < 2 * PI * c_mks / (y * t_d t) - sin (t_g t) < 1 /\ calc_dphi_domega t y G = Ok (F y)) ->
  (forall y, Rabs (y - w0) <= 1e12 -> Rabs (Derive_n F 8 y) <= M) ->
  exists v g, calc_compressor_dnphi_domega_n t wl G 1 = Ok v /\ calc_compressor_gdd t wl G = Ok g /\ Rabs (v - 10 ^ 30 * (g / 2)) <= 10 ^ 30 * (5 / 2 * M * 2e11 ^ 7).
Proof.
  intros t wl G M F w0 Hwl D H HM. destruct (C118_dnphi_value_l t wl G M F 1 Hwl D ltac:(lia) H HM) as (v & E & B). fold w0 in B.
  pose proof (Derive_delay t G F w0 10e12 D ltac:(intros y Hy; destruct (H y ltac:(lra)) as (A1 & A2 & A3); split; [split; assumption|assumption]) 1%nat w0 ltac:(rewrite Rminus_diag_eq, Rabs_R0 by reflexivity; lra)) as [_ DD].
  assert (Hd : diffracted t w0) by (destruct (H w0 ltac:(rewrite Rminus_diag_eq, Rabs_R0 by reflexivity; lra)) as (A & B' & _); split; assumption).
  exists v, (2 * taun t G 1 w0). split; [exact E|]. split.
  - rewrite <- (gdd_value t G w0 D Hd). f_equal. unfold w0. pose proof PI_RGT_0. pose proof c_pos. assert (E1 : 1e9 * 1e-9 = 1) by lra. revert E1. generalize 1e9 1e-9. intros u v' E1. assert (v' <> 0) by (intros ->; lra). transitivity ((u * v') * wl); [rewrite E1; ring|]. field. repeat split; lra.
  - rewrite DD in B. replace (2 * taun t G 1 w0 / 2) with (taun t G 1 w0) by field. exact B.
Qed.

(** a grating of 1000 lines/mm lit at normal incidence, at 500 nm *)
Definition t0 : treacy := mkTreacy (1e-3 / 1000) (0 * 2 * PI / 360).
Lemma t0_init : treacy_init 1000 0 = Ok t0.
Proof. unfold treacy_init. destruct (Req_EM_T 1000 0); [lra|reflexivity]. Qed.
Definition w500 : R := 2 * PI * c_mks / (500 * 1e-9).
Definition K0 : R := tK t0.
Lemma t0_facts : t_d t0 = 1e-6 /\ sin (t_g t0) = 0 /\ cos (t_g t0) = 1.
Proof. cbn [t0 t_d t_g]. split; [lra|]. replace (0 * 2 * PI / 360) with 0 by lra. split; [apply sin_0|apply cos_0]. Qed.
Lemma t0_num : 35e14 < w500 < 48e14 /\ tK t0 = w500 / 2.
Proof.
  destruct t0_facts as (E & _ & _). unfold w500, tK. rewrite E. pose proof PI_4 as P4. assert (P3 : 3 < PI) by (pose proof PI2_3_2; lra). unfold c_mks. split; [|lra]. lra.
Qed.
Lemma t0_window y : Rabs (y - w500) <= 10e12 -> 349e13 < y /\ 0 < 2 * PI * c_mks / (y * t_d t0) < 0.51 /\ diffracted t0 y.
Proof.
  intros Hy. destruct t0_num as [[L U] K]. destruct t0_facts as (E & S0 & _). apply Rabs_le_between in Hy.
  assert (Y : 349e13 < y) by lra. assert (V : 2 * PI * c_mks / (y * t_d t0) = w500 / 2 / y) by (rewrite <- K; unfold tK; generalize E; generalize (t_d t0); intros d Ed; field; split; lra).
  assert (B : 0 < w500 / 2 / y < 0.51). { split; [apply Rmult_lt_0_compat; [lra|apply Rinv_0_lt_compat; lra]|]. apply (Rmult_lt_reg_r y); [lra|]. unfold Rdiv. rewrite (Rmult_assoc _ (/ y)), Rinv_l by lra. lra. }
  split; [exact Y|]. rewrite V. split; [exact B|]. split; [lra|]. rewrite V, S0. lra.
Qed.
Definition F0 (y : R) : R := tau t0 1 y.
Lemma F0_delay y : Rabs (y - w500) <= 10e12 -> y <> 0 /\ -1 < 2 * PI * c_mks / (y * t_d t0) - sin (t_g t0) < 1 /\ calc_dphi_domega t0 y 1 = Ok (F0 y).
Proof.
  intros Hy. destruct (t0_window y Hy) as (Y & _ & D). destruct D as [D1 D2]. split; [exact D1|]. split; [exact D2|]. apply dphi_value; [destruct t0_facts as (E & _); rewrite E; lra|split; assumption].
Qed.
Definition M0 : R := 40320 * (5 / 349e13) ^ 8 * (1.2 / c_mks).
Lemma F0_bound_n n y : (1 <= n)%nat -> Rabs (y - w500) <= 1e12 -> Rabs (Derive_n F0 n y) <= INR (fact n) * (5 / 349e13) ^ n * (1.2 / c_mks).
Proof.
  intros Hn Hy. assert (Hy' : Rabs (y - w500) <= 10e12) by lra. destruct (t0_window y Hy') as (Y & V & _). destruct t0_facts as (E & S0 & _). pose proof c_pos as Pc. pose proof (INR_fact_lt_0 n) as Pf.
  set (k := 2 * PI * c_mks / (y * t_d t0)) in *.
  destruct (C118_derivative_bound_l t0 1 y 1e12 1 F0 n) as [_ B].
  - rewrite E. lra.
  - lra.
  - intros z Hz. apply F0_delay. replace (z - w500) with ((z - y) + (y - w500)) by ring. eapply Rle_trans; [apply Rabs_triang|]. lra.
  - lra.
  - rewrite S0, Rabs_R0. fold k. rewrite (Rabs_pos_eq k) by lra. apply (Rmult_le_reg_r (1 - (k - 0) ^ 2)); [nra|]. unfold Rdiv. rewrite Rmult_assoc, Rinv_l by nra. nra.
  - exact Hn.
  - fold k in B. rewrite S0, Rabs_R0, Rabs_R1 in B. eapply Rle_trans; [exact B|].
    assert (Q : 0.73 < 1 - (k - 0) ^ 2) by nra. assert (Sq : 0.85 < sqrt (1 - (k - 0) ^ 2)). { rewrite <- (sqrt_Rsqr 0.85) by lra. apply sqrt_lt_1; unfold Rsqr; lra. }
    assert (Yr : 0 < / Rabs y <= / 349e13). { rewrite Rabs_pos_eq by lra. split; [apply Rinv_0_lt_compat; lra|]. apply Rinv_le_contravar; lra. }
    apply Rmult_le_compat.
    + apply Rmult_le_pos; [lra|]. apply pow_le. unfold Rdiv. nra.
    + unfold Rdiv. repeat apply Rmult_le_pos; try lra; left; apply Rinv_0_lt_compat; lra.
    + apply Rmult_le_compat_l; [lra|]. apply pow_incr. unfold Rdiv. split; nra.
    + replace (1 / c_mks * (1 + 0 * Rabs k) / sqrt (1 - (k - 0) ^ 2)) with (/ sqrt (1 - (k - 0) ^ 2) * / c_mks) by (field; split; lra). unfold Rdiv. apply Rmult_le_compat_r; [left; apply Rinv_0_lt_compat; lra|].
      apply (Rle_trans _ (/ 0.85)); [apply Rinv_le_contravar; lra|lra].
Qed.
Lemma F0_bound y : Rabs (y - w500) <= 1e12 -> Rabs (Derive_n F0 8 y) <= M0.
Proof.
  intros Hy. eapply Rle_trans; [apply (F0_bound_n 8 y); [lia|exact Hy]|]. unfold M0. replace (INR (fact 8)) with 40320; [lra|]. rewrite INR_IZR_INZ. reflexivity.
Qed.
Lemma F0_second : 3e-32 / c_mks <= Derive_n F0 2 w500.
Proof.
  destruct t0_facts as (E & S0 & _). destruct t0_num as [[L U] K]. assert (Z0 : Rabs (w500 - w500) < 10e12) by (rewrite Rminus_diag_eq, Rabs_R0 by reflexivity; lra).
  rewrite (proj2 (Derive_delay t0 1 F0 w500 10e12 ltac:(rewrite E; lra) ltac:(intros y Hy; destruct (F0_delay y ltac:(lra)) as (A1 & A2 & A3); split; [split; assumption|assumption]) 2 w500 Z0)).
  destruct (t0_window w500 ltac:(lra)) as (_ & _ & D). pose proof (diff_inside t0 w500 ltac:(rewrite E; lra) D) as I. pose proof (ss_pos _ _ _ I) as P.
  assert (P1 : 1 <= ss (tK t0) (sin (t_g t0)) w500). { unfold ss. pose proof (inside_pos _ _ _ I) as W. apply (Rle_trans _ (/ 1)); [lra|]. apply Rinv_le_contravar; [apply sqrt_lt_R0, W|]. set (z := vv _ _ _) in *. assert (Sq : sqrt (1 - z ^ 2) <= sqrt 1) by (apply sqrt_le_1; nra). rewrite sqrt_1 in Sq. exact Sq. }
  cbn [taun Dn tau_mono Dm flat_map D1 app]. unfold ev. cbn [map lrsum fold_right ev1 Nat.add]. set (q := ss (tK t0) (sin (t_g t0)) w500) in *. rewrite S0. pose proof c_pos as Pc. pose proof (Rinv_0_lt_compat _ Pc) as Pi. rewrite K.
  cbn [INR]. unfold Rdiv. set (ic := / c_mks) in *. set (u := / w500). assert (Eu : w500 * u = 1) by (unfold u; apply Rinv_r; lra). assert (Pu : 0 < u) by (apply Rinv_0_lt_compat; lra).
  match goal with |- _ <= ?e => replace e with (ic * (3 / 4 * (w500 * u) ^ 2 * u ^ 2 * q ^ 3 + 3 / 16 * (w500 * u) ^ 4 * u ^ 2 * q ^ 5)) by (clearbody u ic; field) end. rewrite Eu.
  assert (U2 : (/ 48e14) ^ 2 <= u ^ 2). { apply pow_incr. split; [left; apply Rinv_0_lt_compat; lra|]. apply Rinv_le_contravar; lra. }
  assert (Q3 : 1 <= q ^ 3) by (apply pow_R1_Rle; exact P1). assert (Q5 : 1 <= q ^ 5) by (apply pow_R1_Rle; exact P1). rewrite (Rmult_comm _ ic). apply Rmult_le_compat_l; [lra|]. rewrite !pow1.
  assert (X1 : u ^ 2 * 1 <= u ^ 2 * q ^ 3) by (apply Rmult_le_compat_l; [nra|exact Q3]). assert (X2 : 0 <= u ^ 2 * q ^ 5) by (apply Rmult_le_pos; nra). lra.
Qed.

(*! C119: (refuted for higher orders) at order two the result is not the third-order dispersion in fs^3, which is 10^45 times the second derivative of the group delay: with 1000 lines/mm at normal incidence, 500 nm and one metre, it is more than 10^44 times too large. *)
Lemma C119_second_order_refuted_l : exists (t : treacy) (F : R -> R) (v : R), treacy_init 1000 0 = Ok t /\
  (forall y, Rabs (y - 2 * PI * c_mks / (500 * 1e-9)) <= 10e12 -> calc_dphi_domega t y 1 = Ok (F y)) /\
  calc_compressor_dnphi_domega_n t 500 1 2 = Ok v /\ 0 < Derive_n F 2 (2 * PI * c_mks / (500 * 1e-9)) /\ v > 10 ^ 44 * (10 ^ 45 * Derive_n F 2 (2 * PI * c_mks / (500 * 1e-9))).
Proof.
  destruct t0_facts as (E & _ & _). destruct (C118_dnphi_value_l t0 500 1 M0 F0 2) as (v & Ev & B); [lra|rewrite E; lra|lia|exact F0_delay|exact F0_bound|]. fold w500 in *.
  exists t0, F0, v. split; [apply t0_init|]. split; [intros y Hy; apply F0_delay, Hy|]. split; [exact Ev|]. pose proof F0_second as S2. set (d := Derive_n F0 2 w500) in *. clearbody d. pose proof c_pos as Pc. pose proof (Rinv_0_lt_compat _ Pc) as Pi.
  assert (Pd : 0 < 3e-32 / c_mks) by (unfold Rdiv; apply Rmult_lt_0_compat; lra). split; [lra|].
  assert (Er : 5 / 2 * M0 * 2e11 ^ (8 - 2) <= 1e-40 / c_mks). { unfold M0, Rdiv. set (ic := / c_mks) in *. cbn [Nat.sub]. replace (5 * / 2 * (40320 * (5 * / 349e13) ^ 8 * (1.2 * ic)) * 2e11 ^ 6) with ((5 * / 2 * (40320 * (5 * / 349e13) ^ 8 * 1.2) * 2e11 ^ 6) * ic) by (set (a1 := 349e13); set (a2 := 1.2); set (a3 := 2e11); clearbody a1 a2 a3; ring). apply Rmult_le_compat_r; [lra|]. lra. }
  change (15 * 2 * (2 + 1))%nat with 90%nat in B. apply Rabs_le_between in B as [B _].
  assert (T : 10 ^ 90 * (d - 5 / 2 * M0 * 2e11 ^ (8 - 2)) <= v) by lra. assert (H1 : 1e-40 / c_mks <= d / 2) by (unfold Rdiv in *; nra). assert (H2 : 10 ^ 90 * (d / 2) <= v) by (eapply Rle_trans; [|exact T]; apply Rmult_le_compat_l; [apply pow_le; lra|lra]).
  replace (10 ^ 44 * (10 ^ 45 * d)) with (10 ^ 89 * d) by (replace (10 ^ 89) with (10 ^ 44 * 10 ^ 45) by (rewrite <- pow_add; reflexivity); ring). replace (10 ^ 90) with (10 ^ 89 * 10) in H2 by (change 90%nat with (89 + 1)%nat; rewrite pow_add; ring). assert (P89 : 0 < 10 ^ 89) by (apply pow_lt; lra). set (z := 10 ^ 89) in *. clearbody z. assert (0 < d) by lra. nra.
Qed.

(** Concrete cases for C94-C97. *)
From Coq Require Import String.
From Coq Require Import Reals List ZArith Bool Arith Lra Lia Psatz.
From Coquelicot Require Import Coquelicot.
From Verif Require Import Base CNum NumPy ModelPulse ModelCrystal ModelBeam ModelDFG ModelCrystalMore CrystalIndexProofs CrystalMoreProofs CrystalGroupProofs PropsCrystalMore PropsCrystalGroup.
Import ListNotations.
Local Open Scope R_scope.
Local Open Scope py_scope.

(** a PPLN crystal 2 cm long at 30 degC *)
Definition xl : crystal := mkX (Ppln (set_T 30 (mkPpln 24.5 24.5 24.5 Gayer))) (Some 0.02) false.
Lemma xl_defined wl : 501 <= wl <= 4499 -> forall t, wl - 1 < t < wl + 1 -> exists n, n_on_axis (x_mat xl) None t = Ok n /\ 0 < n.
Proof.
  intros Hw t Ht. destruct (ppln_index_family (mkPpln 24.5 24.5 24.5 Gayer) 30 ltac:(lra)) as (F & _ & HF). destruct (HF t ltac:(lra)) as (E & B & _).
  exists (F 0%nat t). split; [exact E|lra].
Qed.
(** a continuous eleventh derivative is bounded on the closed interval *)
Lemma xl_bounded wl : 501 <= wl <= 4499 -> exists M, forall t, Rabs (t - wl) <= 1 / 2 -> Rabs (Derive_n (index (x_mat xl) None) 11 t) <= M.
Proof.
  intros Hw. destruct (index_family (x_mat xl) None wl 1 (xl_defined wl Hw) 12) as (F & DF & _ & NF).
  destruct (continuity_ab_maj (fun t => Rabs (F 11%nat t)) (wl - 1 / 2) (wl + 1 / 2) ltac:(lra)) as (y & Hy & _).
  - intros t Ht. apply (continuity_pt_comp (F 11%nat) Rabs); [|apply Rcontinuity_abs].
    apply derivable_continuous_pt. exists (F 12%nat t). apply is_derive_Reals. apply DF; [lia|]. unfold Rabs. destruct (Rcase_abs (t - wl)); lra.
  - exists (Rabs (F 11%nat y)). intros t Ht. rewrite NF by (try lia; lra). apply Hy. apply Rabs_def2' in Ht. lra.
Qed.
Example ex_C94_hypotheses : exists M, 0 < 1064 /\ (forall t, 1064 - 1 < t < 1064 + 1 -> exists n, n_on_axis (x_mat xl) None t = Ok n /\ 0 < n) /\
  (forall t, Rabs (t - 1064) <= 1 / 2 -> Rabs (Derive_n (index (x_mat xl) None) 11 t) <= M).
Proof. destruct (xl_bounded 1064 ltac:(lra)) as [M HM]. exists M. split; [lra|]. split; [apply xl_defined; lra|exact HM]. Qed.
Example ex_C94_ppln : exists vg, group_velocity_nm_ps xl None 1064 = Ok vg /\ 0 < vg.
Proof. destruct (C94_ppln xl _ 30 1064 None eq_refl ltac:(lra) ltac:(lra)) as (n & vg & _ & E & B & _). exists vg. split; [exact E|apply B]. Qed.
Example ex_C95 : exists M D, (forall t, Rabs (t - 1064) <= 1 / 2 -> Rabs (Derive_n (index (x_mat xl) None) 11 t) <= M) /\ D_fs_um_mm xl None 1064 = Ok D.
Proof.
  destruct (xl_bounded 1064 ltac:(lra)) as [M HM]. destruct (C95_dispersion_partial xl None 1064 M ltac:(lra) (xl_defined 1064 ltac:(lra)) HM) as (_ & D & _ & E & _).
  exists M, D. split; assumption.
Qed.
Example ex_C95_refuted : exists D, D_ps_nm_km xl None 1000 = Ok D /\ 300 < D.
Proof. destruct (C95_sign_refuted xl _ 30 None eq_refl ltac:(lra)) as (D & E & B & _). exists D. split; assumption. Qed.
Example ex_C96 : exists d, pulse_delay_ps xl 1064 1550 None None = Ok d.
Proof.
  rewrite C96_default_length. cbn [x_len xl]. destruct (C96_ppln xl _ 30 1064 1550 0.02 None eq_refl ltac:(lra) ltac:(lra) ltac:(lra) ltac:(lra)) as (d & E & _). exists d. exact E.
Qed.
Example ex_C96_no_length : pulse_delay_ps (mkX (x_mat xl) None false) 1064 1550 None None = Raise TypeError.
Proof. apply C96_default_length. Qed.

(** an AgGaSe2 crystal: both indices exist at 1000 nm, where every power of the wavelength is one *)
Definition xa : crystal := mkX (Agse (mkAgse agse_o agse_e 0.8)) (Some 0.01) false.
Lemma one_pow a : fpow (1000 * 0.001) a = Ok 1.
Proof. replace (1000 * 0.001) with 1 by lra. unfold fpow. destruct (Rlt_dec 0 1) as [_|N]; [|lra]. f_equal. unfold Rpower. rewrite ln_1, Rmult_0_r. apply exp_0. Qed.
Lemma sell_1000 s : 1 - sC s <> 0 -> 1 - sG s <> 0 -> 1 - sE s <> 0 -> 0 <= sA s + sB s / (1 - sC s) + sF s / (1 - sG s) + sD s / (1 - sE s) -> exists n, sell_n s 1000 = Ok n.
Proof.
  intros Z1 Z2 Z3 P. unfold sell_n. cbv zeta. rewrite !one_pow. cbn [rbind]. unfold fdiv at 1. destruct (Req_EM_T (1 - sC s) 0); [contradiction|]. cbn [rbind].
  unfold fdiv at 1. destruct (Req_EM_T (1 - sG s) 0); [contradiction|]. cbn [rbind]. unfold fdiv at 1. destruct (Req_EM_T 1 0); [lra|]. cbn [rbind].
  replace (sE s / 1) with (sE s) by field. unfold fdiv. destruct (Req_EM_T (1 - sE s) 0); [contradiction|]. cbn [rbind].
  unfold fsqrt. match goal with |- context [Rlt_dec ?z 0] => destruct (Rlt_dec z 0); [lra|] end. eexists. reflexivity.
Qed.
Example ex_C94_default_axis : group_velocity_nm_ps xa None 1000.5 = Raise ValueError.
Proof.
  destruct (C94_default_axis_refuted xa (mkAgse agse_o agse_e 0.8) 1000.5 1064 None eq_refl) as (_ & _ & _ & _ & H).
  destruct (sell_1000 agse_o) as [no Eo]; try (cbn [sA sB sC sD sE sF sG agse_o]; lra). destruct (sell_1000 agse_e) as [ne Ee]; try (cbn [sA sB sC sD sE sF sG agse_e]; lra).
  apply (H no). replace (1000.5 - 0.5) with 1000 by lra. unfold agse_n. cbn [ag_o ag_e]. rewrite Eo, Ee. reflexivity.
Qed.

(** PPLN mixing 510 nm with 1000 nm: the group index at 510 nm is larger, so that a bandwidth is returned *)
Lemma group_index x m T axis wl : 20 <= T <= 250 -> x_mat x = Ppln (set_T T m) -> 501 <= wl <= 4499 ->
  exists n d A B C D E F, 0.098 <= B <= 0.11 /\ 0 <= C <= 0.046 /\ 0 <= D <= 220 /\ 128 <= E /\ 0.0132 <= F <= 0.016 /\ 1.8 < n < 2.4 /\
    ppln_n (set_T T m) wl = Ok n /\ d = sell_family A B C D E F 1 wl / (2 * n) /\ c_nmps * inv_vg (index (x_mat x) axis) wl = n - wl * d.
Proof.
  intros HT Hx Hw. destruct (ppln_params m T HT) as (A & B & C & D & E & F & HB & HC & HD & HE & HF & Hn).
  assert (W : forall t, Rabs (t - wl) < 1 -> 500 <= t <= 4500) by (intros t; apply near_range; lra).
  assert (Z : Rabs (wl - wl) < 1) by (rewrite Rminus_eq_0, Rabs_R0; lra).
  destruct (Hn wl ltac:(lra)) as [En Bn]. set (s := sell_family A B C D E F) in *.
  assert (DF : derivatives (sqrt_family s) 3 wl 1).
  { apply sqrt_derivatives.
    - apply sell_derivatives. intros t Ht. specialize (W t Ht). set (l := t * 0.001). assert (0.5 <= l <= 4.5) by (unfold l; lra). assert (0.25 <= l ^ 2 <= 20.25) by (cbn [pow]; nra). split; lra.
    - intros t Ht. destruct (Hn t (W t Ht)) as [_ P]. lra. }
  assert (DN : is_derive (index (x_mat x) axis) wl (sqrt_family s 1%nat wl)).
  { eapply is_derive_ext_loc; [|apply (DF 0%nat wl ltac:(lia) Z)]. apply (in_locally (wl - 1) (wl + 1)); [lra|]. intros u Hu.
    unfold index. rewrite Hx. cbn [n_on_axis]. destruct (Hn u) as [-> _]; [lra|reflexivity]. }
  exists (sqrt (s 0%nat wl)), (sqrt_family s 1%nat wl), A, B, C, D, E, F. do 5 (split; [assumption|]).
  split. { pose proof (sqrt_sqrt (s 0%nat wl) ltac:(lra)). pose proof (sqrt_pos (s 0%nat wl)). split; nra. }
  split; [exact En|]. split; [reflexivity|]. pose proof c_pos as Hc. assert (Hw0 : 0 < wl) by lra. rewrite (inv_vg_value _ _ _ Hw0 DN).
  unfold index. rewrite Hx. cbn [n_on_axis]. rewrite En. field. apply Rgt_not_eq, Hc.
Qed.
Example ex_C97 : exists w, mix_phasematching_bw xl 510 1000 None = Ok w /\ 0 < w.
Proof.
  cut (exists w, mix_phasematching_bw xl 510 1000 None = Ok w).
  { intros [w E]. exists w. split; [exact E|]. destruct (C97_bandwidth xl None 510 1000 w E) as (? & ? & ? & _ & _ & _ & P & _). exact P. }
  set (m := mkPpln 24.5 24.5 24.5 Gayer). assert (Hx : x_mat xl = Ppln (set_T 30 m)) by reflexivity. assert (HT : 20 <= 30 <= 250) by lra.
  assert (HI : 501 <= 1 / (1 / 510 - 1 / 1000) <= 4499) by lra.
  destruct (ppln_group xl m 30 None HT Hx 510 ltac:(lra)) as (np & qp & _ & Ep & Bp & _ & Ap & _).
  destruct (ppln_group xl m 30 None HT Hx 1000 ltac:(lra)) as (ns & qs & _ & Es & Bs & _ & As & _).
  destruct (ppln_group xl m 30 None HT Hx _ HI) as (ni & qi & _ & Ei & Bi & _ & Ai & _).
  destruct (group_index xl m 30 None 510 HT Hx ltac:(lra)) as (n1 & d1 & A1 & B1 & C1 & D1 & E1 & F1 & HB1 & HC1 & HD1 & HE1 & HF1 & HN1 & I1 & Hd1 & G1).
  destruct (group_index xl m 30 None 1000 HT Hx ltac:(lra)) as (n2 & d2 & A2 & B2 & C2 & D2 & E2 & F2 & HB2 & HC2 & HD2 & HE2 & HF2 & HN2 & I2 & Hd2 & G2).
  assert (N : n2 < n1).
  { destruct (C84_ppln_index_l m 30 30 510 1000 HT HT ltac:(lra) ltac:(lra)) as (u & u' & v & Eu & _ & Ev & _ & _ & L).
    rewrite I1 in Eu. rewrite I2 in Ev. injection Eu as <-. injection Ev as <-. apply L. lra. }
  assert (S1 : sell_family A1 B1 C1 D1 E1 F1 1 510 <= - 1.4e-3).
  { cbn [sell_family]. set (l := 510 * 0.001). assert (El : l = 0.51) by (unfold l; lra). rewrite El.
    assert (P : 3.84 <= / (0.51 ^ 2 - C1)). { apply (Rmult_le_reg_r (0.51 ^ 2 - C1)); [lra|]. rewrite Rinv_l by lra. lra. }
    set (p := / (0.51 ^ 2 - C1)) in *. set (q := / (0.51 ^ 2 - E1)). clearbody p q. assert (P2 : 14.7 <= p ^ 2) by (cbn [pow]; nra). pose proof (pow2_ge_0 q) as Q2. set (p2 := p ^ 2) in *. set (q2 := q ^ 2) in *. clearbody p2 q2.
    assert (1.44 <= B1 * p2) by nra. assert (0 <= D1 * q2) by nra. lra. }
  destruct (sell_near1 A2 B2 C2 D2 E2 F2 HB2 HC2 HD2 HE2 HF2 1000 ltac:(lra)) as (S2 & _). apply Rabs_def2' in S2.
  assert (V1 : 510 * d1 <= - 0.14). { apply (Rmult_le_reg_r (2 * n1)); [lra|]. rewrite Hd1. replace (510 * (sell_family A1 B1 C1 D1 E1 F1 1 510 / (2 * n1)) * (2 * n1)) with (510 * sell_family A1 B1 C1 D1 E1 F1 1 510) by (field; lra). nra. }
  assert (V2 : - 0.09 <= 1000 * d2). { apply (Rmult_le_reg_r (2 * n2)); [lra|]. rewrite Hd2. replace (1000 * (sell_family A2 B2 C2 D2 E2 F2 1 1000 / (2 * n2)) * (2 * n2)) with (1000 * sell_family A2 B2 C2 D2 E2 F2 1 1000) by (field; lra). nra. }
  rewrite G1 in Ap. rewrite G2 in As. apply Rabs_def2' in Ap, As. pose proof c_pos as Hc.
  assert (NE : qs <> qp) by (intros ->; lra).
  assert (P1 : 0 < qp) by nra. assert (P2 : 0 < qs) by nra. assert (P3 : 0 < qi) by nra.
  unfold mix_phasematching_bw, pyinv. destruct (Req_EM_T 510 0); [lra|]. destruct (Req_EM_T 1000 0); [lra|]. cbn [rbind].
  destruct (Req_EM_T (1 / 510 - 1 / 1000) 0); [lra|]. cbn [rbind]. rewrite Es, Ei, Ep. cbn [rbind]. cbv zeta.
  assert (Y : forall q, 0 < q -> fdiv 1 (1 / q * 1e3) = Ok (q / 1e3)).
  { intros q Hq. assert (0 < 1 / q * 1e3) by (apply Rmult_lt_0_compat; [apply Rdiv_lt_0_compat; lra|lra]). unfold fdiv. destruct (Req_EM_T (1 / q * 1e3) 0); [lra|]. f_equal.
    set (k := 1e3). assert (k <> 0) by (unfold k; apply Rgt_not_eq; lra). clearbody k. field. split; [assumption|apply Rgt_not_eq, Hq]. }
  rewrite !Y by assumption. cbn [rbind]. unfold np_quot at 1. destruct (Req_EM_T (qs / 1e3 - qp / 1e3) 0) as [Z|_]; [exfalso; apply NE; lra|].
  destruct (np_quot _ _); cbn [rbind]; eexists; reflexivity.
Qed.
(** C97: the same bandwidth with the idler in the place of the signal, and no bandwidth for equal wavelengths *)
Example ex_C97_exchange : exists w, mix_phasematching_bw xl 510 (1 / (1 / 510 - 1 / 1000)) None = Ok w /\ mix_phasematching_bw xl 510 510 None = Raise ZeroDivisionError.
Proof. destruct ex_C97 as (w & E & _). exists w. split; [exact (C97_exchange xl None 510 1000 w E)|apply C97_degenerate]. Qed.
(** C96: an actual delay over 2 cm and the bound of the general theorem *)
Example ex_C96_bound : exists d M1 M2, pulse_delay_ps xl 1064 1550 (Some 0.02) None = Ok d /\
  Rabs (d - 1e9 * 0.02 * (inv_vg (index (x_mat xl) None) 1064 - inv_vg (index (x_mat xl) None) 1550)) <= 1e9 * Rabs 0.02 * (1064 * M1 + 1550 * M2) / c_nmps * 5e-13.
Proof.
  destruct (xl_bounded 1064 ltac:(lra)) as [M1 H1]. destruct (xl_bounded 1550 ltac:(lra)) as [M2 H2].
  destruct (C96_ppln xl _ 30 1064 1550 0.02 None eq_refl ltac:(lra) ltac:(lra) ltac:(lra) ltac:(lra)) as (d & E & _). exists d, M1, M2. split; [exact E|].
  exact (C96_delay xl None 1064 1550 M1 M2 0.02 d ltac:(lra) (xl_defined 1064 ltac:(lra)) H1 ltac:(lra) (xl_defined 1550 ltac:(lra)) H2 E).
Qed.

(** Proofs about the refractive index of PPLN (C84) and the wave vectors a crystal reports (C85). *)
From Coq Require Import String.
From Coq Require Import Reals List ZArith Bool Arith Lia Lra Psatz.
From Coquelicot Require Import Complex.
From Verif Require Import Base CNum NumPy ModelPulse Spec ModelPulseOps PulseProofs PulseHistory PulseOpsProofs PulseRegridProofs ModelCrystal.
Import ListNotations.
Local Open Scope R_scope.

(** ** A two-pole Sellmeier equation *)
Definition sell2 (A P c2 Q d2 b u : R) : R := A + P / (u - c2) + Q / (u - d2) - b * u.
Lemma sell2_decr A P c2 Q d2 b u v : 0 < P -> 0 <= Q -> 0 <= b -> c2 < u -> u < v -> v < d2 -> sell2 A P c2 Q d2 b v < sell2 A P c2 Q d2 b u.
Proof.
  intros HP HQ Hb H1 H2 H3. unfold sell2.
  assert (X : P / (v - c2) < P / (u - c2)).
  { apply Rmult_lt_compat_l; [exact HP|]. apply Rinv_lt_contravar; [apply Rmult_lt_0_compat; lra|lra]. }
  assert (Y : Q / (v - d2) <= Q / (u - d2)).
  { replace (Q / (v - d2)) with (- (Q / (d2 - v))) by (field; lra). replace (Q / (u - d2)) with (- (Q / (d2 - u))) by (field; lra).
    apply Ropp_le_contravar. apply Rmult_le_compat_l; [exact HQ|]. apply Rinv_le_contravar; lra. }
  assert (b * u <= b * v) by (apply Rmult_le_compat_l; lra). lra.
Qed.
Lemma div_between P a lo hi : 0 <= lo -> lo * a <= P -> P <= hi * a -> 0 < a -> lo <= P / a <= hi.
Proof.
  intros H0 H1 H2 Ha. split; apply (Rmult_le_reg_r a); try exact Ha; unfold Rdiv; rewrite Rmult_assoc, Rinv_l, Rmult_1_r by lra; assumption.
Qed.

(** the temperature variable *)
Definition temp (T : R) : R := (T - 24.5) * (T + 570.82).
Lemma temp_range T : 20 <= T <= 250 -> -2660 <= temp T <= 185200.
Proof. intros H. unfold temp. nra. Qed.
Lemma temp_incr T T' : 20 <= T -> T < T' -> temp T < temp T'.
Proof. intros H1 H2. unfold temp. nra. Qed.

Definition gayer2 (f u : R) : R := sell2 (5.756 + 2.860e-6 * f) (0.0983 + 4.700e-8 * f) ((0.2020 + 6.113e-8 * f) ^ 2) (189.32 + 1.516e-4 * f) (12.52 ^ 2) 1.32e-2 u.
Definition deng2 (f u : R) : R := sell2 (5.39121 + 4.96827e-7 * f) (0.100473 + 3.862e-8 * f) ((0.20692 + (- 0.89e-8) * f) ^ 2) (100.0 + 2.657e-5 * f) (11.34927 ^ 2) (1.544e-2 + 9.62119e-10 * f) u.

Section Ranges.
Variables (f u : R).
Hypothesis Hf : -2660 <= f <= 185200.
Hypothesis Hu : 0.25 <= u <= 20.25.

Lemma gayer_pole : 0 <= (0.2020 + 6.113e-8 * f) ^ 2 <= 0.046.
Proof. split; [apply pow2_ge_0|]. assert (0.2 <= 0.2020 + 6.113e-8 * f <= 0.2134) by lra. nra. Qed.
Lemma deng_pole : 0 <= (0.20692 + (- 0.89e-8) * f) ^ 2 <= 0.043.
Proof. split; [apply pow2_ge_0|]. assert (0.205 <= 0.20692 + (- 0.89e-8) * f <= 0.20695) by lra. nra. Qed.
Lemma gayer_bounds : 3.24 < gayer2 f u < 5.76.
Proof.
  unfold gayer2, sell2. pose proof gayer_pole as Hp. set (c := (0.2020 + 6.113e-8 * f) ^ 2) in *. clearbody c.
  assert (Q1 : 0 <= (0.0983 + 4.700e-8 * f) / (u - c) <= 0.53) by (apply div_between; lra).
  assert (Q2 : 1.1 <= (189.32 + 1.516e-4 * f) / (12.52 ^ 2 - u) <= 1.65) by (apply div_between; lra).
  replace ((189.32 + 1.516e-4 * f) / (u - 12.52 ^ 2)) with (- ((189.32 + 1.516e-4 * f) / (12.52 ^ 2 - u))) by (field; split; lra).
  lra.
Qed.
Lemma deng_bounds : 3.24 < deng2 f u < 5.76.
Proof.
  unfold deng2, sell2. pose proof deng_pole as Hp. set (c := (0.20692 + (- 0.89e-8) * f) ^ 2) in *. clearbody c.
  assert (Q1 : 0 <= (0.100473 + 3.862e-8 * f) / (u - c) <= 0.53) by (apply div_between; lra).
  assert (Q2 : 0.7 <= (100.0 + 2.657e-5 * f) / (11.34927 ^ 2 - u) <= 1) by (apply div_between; lra).
  replace ((100.0 + 2.657e-5 * f) / (u - 11.34927 ^ 2)) with (- ((100.0 + 2.657e-5 * f) / (11.34927 ^ 2 - u))) by (field; split; lra).
  assert (0 <= (1.544e-2 + 9.62119e-10 * f) * u <= 0.4) by nra. lra.
Qed.
End Ranges.

Lemma gayer_decr f u v : -2660 <= f <= 185200 -> 0.25 <= u -> u < v -> v <= 20.25 -> gayer2 f v < gayer2 f u.
Proof. intros Hf H1 H2 H3. pose proof (gayer_pole f Hf). unfold gayer2. apply sell2_decr; lra. Qed.
Lemma deng_decr f u v : -2660 <= f <= 185200 -> 0.25 <= u -> u < v -> v <= 20.25 -> deng2 f v < deng2 f u.
Proof. intros Hf H1 H2 H3. pose proof (deng_pole f Hf). unfold deng2. apply sell2_decr; lra. Qed.

Lemma gayer_incr f g u : -2660 <= f -> f < g -> g <= 185200 -> 0.25 <= u <= 20.25 -> gayer2 f u < gayer2 g u.
Proof.
  intros H1 H2 H3 Hu. pose proof (gayer_pole f ltac:(lra)) as Pf. pose proof (gayer_pole g ltac:(lra)) as Pg. unfold gayer2, sell2.
  assert (Hc : (0.2020 + 6.113e-8 * f) ^ 2 <= (0.2020 + 6.113e-8 * g) ^ 2) by (apply pow_incr; lra).
  set (cf := (0.2020 + 6.113e-8 * f) ^ 2) in *. set (cg := (0.2020 + 6.113e-8 * g) ^ 2) in *. clearbody cf cg.
  assert (Q1 : (0.0983 + 4.700e-8 * f) / (u - cf) <= (0.0983 + 4.700e-8 * g) / (u - cg)).
  { apply Rmult_le_compat; [lra|left; apply Rinv_0_lt_compat; lra|lra|apply Rinv_le_contravar; lra]. }
  assert (Q2 : (189.32 + 1.516e-4 * f) / (u - 12.52 ^ 2) - (189.32 + 1.516e-4 * g) / (u - 12.52 ^ 2) <= 1.2e-6 * (g - f)).
  { replace ((189.32 + 1.516e-4 * f) / (u - 12.52 ^ 2) - (189.32 + 1.516e-4 * g) / (u - 12.52 ^ 2)) with ((1.516e-4 * (g - f)) / (12.52 ^ 2 - u)) by (field; split; lra).
    apply (Rmult_le_reg_r (12.52 ^ 2 - u)); [lra|]. unfold Rdiv. rewrite Rmult_assoc, Rinv_l, Rmult_1_r by lra. nra. }
  lra.
Qed.
Lemma sqdiff p q f g : (p + q * f) ^ 2 - (p + q * g) ^ 2 = (- q) * (g - f) * (2 * p + q * (f + g)).
Proof. ring. Qed.
Lemma deng_incr f g u : -2660 <= f -> f < g -> g <= 185200 -> 0.25 <= u <= 20.25 -> deng2 f u < deng2 g u.
Proof.
  intros H1 H2 H3 Hu. pose proof (deng_pole f ltac:(lra)) as Pf. pose proof (deng_pole g ltac:(lra)) as Pg. unfold deng2, sell2.
  assert (Hc : (0.20692 + (- 0.89e-8) * f) ^ 2 - (0.20692 + (- 0.89e-8) * g) ^ 2 <= 0.38e-8 * (g - f)).
  { rewrite (sqdiff 0.20692 (- 0.89e-8) f g).
    assert (2 * 0.20692 + (- 0.89e-8) * (f + g) <= 0.42) by lra. nra. }
  set (cf := (0.20692 + (- 0.89e-8) * f) ^ 2) in *. set (cg := (0.20692 + (- 0.89e-8) * g) ^ 2) in *. clearbody cf cg.
  assert (Q1 : (0.100473 + 3.862e-8 * f) / (u - cf) - (0.100473 + 3.862e-8 * g) / (u - cg) <= 1.2e-8 * (g - f)).
  { apply Rle_trans with ((0.100473 + 3.862e-8 * f) / (u - cf) - (0.100473 + 3.862e-8 * f) / (u - cg)).
    - apply Rplus_le_compat_l, Ropp_le_contravar. apply Rmult_le_compat_r; [left; apply Rinv_0_lt_compat; lra|lra].
    - replace ((0.100473 + 3.862e-8 * f) / (u - cf) - (0.100473 + 3.862e-8 * f) / (u - cg)) with
        ((0.100473 + 3.862e-8 * f) * (cf - cg) / ((u - cf) * (u - cg))) by (field; split; lra).
      assert (D : 0.042 <= (u - cf) * (u - cg)) by nra.
      apply (Rmult_le_reg_r ((u - cf) * (u - cg))); [lra|]. unfold Rdiv. rewrite Rmult_assoc, Rinv_l, Rmult_1_r by lra.
      assert (L : (0.100473 + 3.862e-8 * f) * (cf - cg) <= 0.108 * (0.38e-8 * (g - f))).
      { destruct (Rle_dec 0 (cf - cg)); [apply Rmult_le_compat; lra|]. assert (0 <= 0.108 * (0.38e-8 * (g - f))) by (apply Rmult_le_pos; lra). nra. }
      apply Rle_trans with (1 := L). apply Rle_trans with (1.2e-8 * (g - f) * 0.042); [lra|]. apply Rmult_le_compat_l; lra. }
  assert (Q2 : (100.0 + 2.657e-5 * f) / (u - 11.34927 ^ 2) - (100.0 + 2.657e-5 * g) / (u - 11.34927 ^ 2) <= 2.5e-7 * (g - f)).
  { replace ((100.0 + 2.657e-5 * f) / (u - 11.34927 ^ 2) - (100.0 + 2.657e-5 * g) / (u - 11.34927 ^ 2)) with ((2.657e-5 * (g - f)) / (11.34927 ^ 2 - u)) by (field; split; lra).
    apply (Rmult_le_reg_r (11.34927 ^ 2 - u)); [lra|]. unfold Rdiv. rewrite Rmult_assoc, Rinv_l, Rmult_1_r by lra. nra. }
  assert (Q3 : (1.544e-2 + 9.62119e-10 * g) * u - (1.544e-2 + 9.62119e-10 * f) * u <= 2e-8 * (g - f)) by nra.
  lra.
Qed.

Definition src2 (s : source) (T u : R) : R := match s with Deng => deng2 (temp T) u | Gayer => gayer2 (temp T) u end.
Lemma ppln_run x T wl : 20 <= T <= 250 -> 500 <= wl <= 4500 ->
  ppln_n (set_T T x) wl = Ok (sqrt (src2 (pp_src x) T ((wl * 0.001) ^ 2))) /\ 3.24 < src2 (pp_src x) T ((wl * 0.001) ^ 2) < 5.76.
Proof.
  intros HT Hw. pose proof (temp_range T HT) as Hf.
  assert (Hu : 0.25 <= (wl * 0.001) ^ 2 <= 20.25).
  { assert (0.5 <= wl * 0.001 <= 4.5) by lra. split; simpl; nra. }
  unfold ppln_n, set_T. destruct (pp_src x); cbn [pp_src pp_deng pp_gayer src2].
  - pose proof (deng_bounds _ _ Hf Hu) as B. pose proof (deng_pole _ Hf) as P. split; [|exact B].
    unfold deng_n. fold (temp T). unfold deng2, sell2 in B. set (u := (wl * 0.001) ^ 2) in *.
    unfold fdiv at 1. destruct (Req_EM_T (u - (0.20692 + - 0.89e-8 * temp T) ^ 2) 0) as [E|_]; [lra|]. cbn [rbind].
    unfold fdiv at 1. destruct (Req_EM_T (u - 11.34927 ^ 2) 0) as [E|_]; [lra|]. cbn [rbind].
    unfold fsqrt. match goal with |- context [Rlt_dec ?z 0] => destruct (Rlt_dec z 0) as [L|_]; [lra|] end. reflexivity.
  - pose proof (gayer_bounds _ _ Hf Hu) as B. pose proof (gayer_pole _ Hf) as P. split; [|exact B].
    unfold gayer_n. fold (temp T). unfold gayer2, sell2 in B. set (u := (wl * 0.001) ^ 2) in *.
    unfold fdiv at 1. destruct (Req_EM_T (u - (0.2020 + 6.113e-8 * temp T) ^ 2) 0) as [E|_]; [lra|]. cbn [rbind].
    unfold fdiv at 1. destruct (Req_EM_T (u - 12.52 ^ 2) 0) as [E|_]; [lra|]. cbn [rbind].
    unfold fsqrt. match goal with |- context [Rlt_dec ?z 0] => destruct (Rlt_dec z 0) as [L|_]; [lra|] end. reflexivity.
Qed.

(*! C84: a PPLN crystal, whichever Sellmeier data it uses, brought to any temperature from 20 to 250 degC has a refractive index between 1.8 and 2.4 at every
    wavelength from 500 to 4500 nm; it falls strictly with wavelength (normal dispersion) and rises strictly with temperature. *)
Lemma C84_ppln_index_l : forall (x : ppln) (T T' wl wl' : R),
  20 <= T <= 250 -> 20 <= T' <= 250 -> 500 <= wl <= 4500 -> 500 <= wl' <= 4500 ->
  exists n nT nw, ppln_n (set_T T x) wl = Ok n /\ ppln_n (set_T T' x) wl = Ok nT /\ ppln_n (set_T T x) wl' = Ok nw /\
    1.8 < n < 2.4 /\ (T < T' -> n < nT) /\ (wl < wl' -> nw < n).
Proof.
  intros x T T' wl wl' HT HT' Hw Hw'.
  destruct (ppln_run x T wl HT Hw) as [E1 B1]. destruct (ppln_run x T' wl HT' Hw) as [E2 B2]. destruct (ppln_run x T wl' HT Hw') as [E3 B3].
  eexists _, _, _. split; [exact E1|]. split; [exact E2|]. split; [exact E3|].
  assert (Hu : 0.25 <= (wl * 0.001) ^ 2 <= 20.25) by (assert (0.5 <= wl * 0.001 <= 4.5) by lra; split; simpl; nra).
  assert (Hu' : 0.25 <= (wl' * 0.001) ^ 2 <= 20.25) by (assert (0.5 <= wl' * 0.001 <= 4.5) by lra; split; simpl; nra).
  split; [|split].
  - assert (S1 : sqrt 3.24 = 1.8) by (apply sqrt_lem_1; lra). assert (S2 : sqrt 5.76 = 2.4) by (apply sqrt_lem_1; lra).
    rewrite <- S1, <- S2. split; apply sqrt_lt_1; lra.
  - intros L. apply sqrt_lt_1; try lra. pose proof (temp_range T HT). pose proof (temp_range T' HT'). pose proof (temp_incr T T' ltac:(lra) L).
    destruct (pp_src x); cbn [src2]; [apply deng_incr|apply gayer_incr]; lra.
  - intros L. apply sqrt_lt_1; try lra. pose proof (temp_range T HT).
    assert ((wl * 0.001) ^ 2 < (wl' * 0.001) ^ 2) by (simpl; nra).
    destruct (pp_src x); cbn [src2]; [apply deng_decr|apply gayer_decr]; lra.
Qed.

(*! C84 (reference values): at 24.5 degC and 1064 nm the index is 2.164 with the Deng data and 2.148 with the Gayer data, to three decimals. *)
Lemma C84_ppln_reference_values_l : forall T1 T2 T3 : R,
  exists nd ng, ppln_n (set_T 24.5 (mkPpln T1 T2 T3 Deng)) 1064 = Ok nd /\ ppln_n (set_T 24.5 (mkPpln T1 T2 T3 Gayer)) 1064 = Ok ng /\
    2.1635 < nd < 2.1645 /\ 2.1475 < ng < 2.1485.
Proof.
  intros T1 T2 T3. destruct (ppln_run (mkPpln T1 T2 T3 Deng) 24.5 1064 ltac:(lra) ltac:(lra)) as [E1 B1].
  destruct (ppln_run (mkPpln T1 T2 T3 Gayer) 24.5 1064 ltac:(lra) ltac:(lra)) as [E2 B2].
  eexists _, _. split; [exact E1|]. split; [exact E2|]. cbn [pp_src src2] in *.
  assert (Z : temp 24.5 = 0) by (unfold temp; ring). rewrite Z in *. unfold deng2, gayer2, sell2 in *. clear E1 E2.
  assert (S1 : forall v, 0 <= v -> forall y, v * v < y -> v < sqrt y).
  { intros v Hv y H. rewrite <- (sqrt_square v Hv). apply sqrt_lt_1; nra. }
  assert (S2 : forall v, 0 <= v -> forall y, 0 <= y -> y < v * v -> sqrt y < v).
  { intros v Hv y Hy H. rewrite <- (sqrt_square v Hv). apply sqrt_lt_1; nra. }
  split; (split; [apply S1; lra|apply S2; lra]).
Qed.

(*! C84: a change of temperature reaches only the Sellmeier data in use: the reported temperature is the new one, the index in use depends on nothing but the new temperature, and the other data set keeps the temperature it had. *)
Lemma C84_temperature_change_l : forall (x : ppln) (T : R), pp_T (set_T T x) = T /\ pp_src (set_T T x) = pp_src x /\
  (forall y wl, pp_src y = pp_src x -> ppln_n (set_T T x) wl = ppln_n (set_T T y) wl) /\
  match pp_src x with Deng => pp_gayer (set_T T x) = pp_gayer x | Gayer => pp_deng (set_T T x) = pp_deng x end.
Proof.
  intros [t d g s] T. unfold set_T, ppln_n. cbn [pp_src pp_T pp_deng pp_gayer]. destruct s; cbn [pp_src pp_T pp_deng pp_gayer]; repeat split; intros y wl ->; reflexivity.
Qed.

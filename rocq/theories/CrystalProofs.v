(** Proofs about the crystals: C59, C60, C61. *)
From Coq Require Import String.
From Coq Require Import Reals List ZArith Bool Arith Lia Lra.
From Coquelicot Require Import Rcomplements Complex.
From Verif Require Import Base CNum NumPy ModelPulse ModelCrystal.
Import ListNotations.
Local Open Scope R_scope.
Local Open Scope py_scope.

Lemma fdiv_ok a b : b <> 0 -> fdiv a b = Ok (a / b).
Proof. intros H. unfold fdiv. destruct (Req_EM_T b 0); [contradiction|reflexivity]. Qed.
Lemma fdiv_inv a b r : fdiv a b = Ok r -> b <> 0 /\ r = a / b.
Proof. unfold fdiv. destruct (Req_EM_T b 0); [discriminate|]. intros [= <-]. auto. Qed.
Lemma fsqrt_ok x : 0 <= x -> fsqrt x = Ok (sqrt x).
Proof. intros H. unfold fsqrt. destruct (Rlt_dec x 0); [lra|reflexivity]. Qed.
Lemma fsqrt_inv x r : fsqrt x = Ok r -> 0 <= x /\ r = sqrt x.
Proof. unfold fsqrt. destruct (Rlt_dec x 0); [discriminate|]. intros [= <-]. split; [lra|reflexivity]. Qed.
Lemma sell_n_theta s w r : sell_n s w = Ok r -> 0 <= r.
Proof.
  unfold sell_n. cbv zeta. unfold rbind. intros H.
  repeat match type of H with match ?e with _ => _ end = _ => destruct e; [|discriminate] end. apply fsqrt_inv in H as [_ ->]. apply sqrt_pos.
Qed.
Lemma agse_o_val x w r : agse_n x w "o" = Ok r -> sell_n (ag_o x) w = Ok r /\ exists e, sell_n (ag_e x) w = Ok e.
Proof. unfold agse_n, rbind. destruct (sell_n (ag_o x) w) as [o|]; [|discriminate]. destruct (sell_n (ag_e x) w) as [e|]; [|discriminate]. cbn. intros [= ->]. eauto. Qed.
Lemma agse_e_val x w r : agse_n x w "e" = Ok r -> sell_n (ag_e x) w = Ok r /\ exists e, sell_n (ag_o x) w = Ok e.
Proof. unfold agse_n, rbind. destruct (sell_n (ag_o x) w) as [o|]; [|discriminate]. destruct (sell_n (ag_e x) w) as [e|]; [|discriminate]. cbn. intros [= ->]. eauto. Qed.
Lemma agse_mix x w no ne th : sell_n (ag_o x) w = Ok no -> sell_n (ag_e x) w = Ok ne -> no <> 0 -> ne <> 0 ->
  exists m, agse_n (set_theta th x) w "mix" = Ok m /\ 0 < m /\ m ^ 2 * (sin th ^ 2 / ne ^ 2 + cos th ^ 2 / no ^ 2) = 1.
Proof.
  intros Ho He Hno Hne. unfold agse_n, rbind. cbn [set_theta ag_o ag_e ag_theta]. rewrite Ho, He. cbn [String.eqb Ascii.eqb Bool.eqb].
  rewrite !fdiv_ok by (apply pow_nonzero; assumption).
  assert (P1 : 0 < ne ^ 2) by (rewrite <- Rsqr_pow2; apply Rsqr_pos_lt; exact Hne). assert (P2 : 0 < no ^ 2) by (rewrite <- Rsqr_pow2; apply Rsqr_pos_lt; exact Hno).
  assert (Q : 0 < sin th ^ 2 / ne ^ 2 + cos th ^ 2 / no ^ 2).
  { pose proof (sin2_cos2 th) as T. rewrite !Rsqr_pow2 in T. pose proof (pow2_ge_0 (sin th)). pose proof (pow2_ge_0 (cos th)).
    assert (0 <= sin th ^ 2 / ne ^ 2) by (apply Rdiv_le_0_compat; lra). assert (0 <= cos th ^ 2 / no ^ 2) by (apply Rdiv_le_0_compat; lra).
    destruct (Req_EM_T (sin th ^ 2) 0) as [Z|Z].
    - rewrite Z in *. replace (cos th ^ 2) with 1 by lra. assert (0 < 1 / no ^ 2) by (apply Rdiv_lt_0_compat; lra). lra.
    - assert (0 < sin th ^ 2 / ne ^ 2) by (apply Rdiv_lt_0_compat; lra). lra. }
  rewrite fsqrt_ok by lra. assert (S : 0 < sqrt (sin th ^ 2 / ne ^ 2 + cos th ^ 2 / no ^ 2)) by (apply sqrt_lt_R0; exact Q). rewrite fdiv_ok by lra.
  eexists. split; [reflexivity|]. split; [apply Rdiv_lt_0_compat; lra|]. set (q := sin th ^ 2 / ne ^ 2 + cos th ^ 2 / no ^ 2) in *. pose proof (sqrt_sqrt q ltac:(lra)) as E. rewrite <- E at 2. field. lra.
Qed.
(** the wavelength triple a call stands for: given, or one missing and determined by photon energy conservation *)
Lemma fill_ok pump sgnl idlr P S I w : P <> 0 -> S <> 0 -> I <> 0 ->
  (pump = Some P /\ sgnl = Some S /\ idlr = Some I /\ w = None \/
   / P = / S + / I /\ (pump = None /\ sgnl = Some S /\ idlr = Some I /\ w = Some P \/ pump = Some P /\ sgnl = None /\ idlr = Some I /\ w = Some S \/ pump = Some P /\ sgnl = Some S /\ idlr = None /\ w = Some I)) ->
  fill pump sgnl idlr = Ok (P, S, I, w).
Proof.
  intros HP HS HI [(-> & -> & -> & ->)|[E [(-> & -> & -> & ->)|[(-> & -> & -> & ->)|(-> & -> & -> & ->)]]]]; unfold fill, inv1; cbn [rbind].
  - reflexivity.
  - rewrite !fdiv_ok by assumption. cbn [rbind]. assert (X : 1 / I + 1 / S = / P) by (rewrite E; field; auto). rewrite X. rewrite fdiv_ok by (apply Rinv_neq_0_compat; assumption). cbn [rbind]. replace (1 / / P) with P by (field; assumption). reflexivity.
  - rewrite !fdiv_ok by assumption. cbn [rbind]. assert (X : 1 / P - 1 / I = / S) by (unfold Rdiv; rewrite E; field; auto). rewrite X. rewrite fdiv_ok by (apply Rinv_neq_0_compat; assumption). cbn [rbind]. replace (1 / / S) with S by (field; assumption). reflexivity.
  - rewrite !fdiv_ok by assumption. cbn [rbind]. assert (X : 1 / P - 1 / S = / I) by (unfold Rdiv; rewrite E; field; auto). rewrite X. rewrite fdiv_ok by (apply Rinv_neq_0_compat; assumption). cbn [rbind]. replace (1 / / I) with I by (field; assumption). reflexivity.
Qed.

Lemma quad_root a c x : a <> 0 -> 0 <= -4 * a * c -> let r := sqrt (-4 * a * c) in
  (x = r / (2 * a) /\ 0 <= x \/ x = - r / (2 * a) /\ r / (2 * a) < 0) -> 0 <= x /\ a * x ^ 2 + c = 0.
Proof.
  intros Ha H r [[E P]|[E P]].
  - split; [exact P|]. subst x. pose proof (sqrt_sqrt _ H) as Q. fold r in Q. replace (a * (r / (2 * a)) ^ 2) with (r * r / (4 * a)) by (field; exact Ha). rewrite Q. field. exact Ha.
  - split; [subst x; unfold Rdiv in *; rewrite Ropp_mult_distr_l_reverse; lra|]. subst x. pose proof (sqrt_sqrt _ H) as Q. fold r in Q. replace (a * (- r / (2 * a)) ^ 2) with (r * r / (4 * a)) by (field; exact Ha). rewrite Q. field. exact Ha.
Qed.
Lemma match_iff ne no N c2 : ne <> 0 -> no <> 0 -> N <> 0 ->
  (N ^ 2 * ((1 - c2) / ne ^ 2 + c2 / no ^ 2) = 1 <-> (ne ^ 2 - no ^ 2) * c2 + (no ^ 2 - ne ^ 2 * no ^ 2 / N ^ 2) = 0).
Proof.
  intros A B D. split; intros H.
  - replace ((ne ^ 2 - no ^ 2) * c2 + (no ^ 2 - ne ^ 2 * no ^ 2 / N ^ 2)) with ((N ^ 2 * ((1 - c2) / ne ^ 2 + c2 / no ^ 2) - 1) * (ne ^ 2 * no ^ 2 / N ^ 2)) by (field; auto). rewrite H. ring.
  - apply Rminus_diag_uniq. replace (N ^ 2 * ((1 - c2) / ne ^ 2 + c2 / no ^ 2) - 1) with (((ne ^ 2 - no ^ 2) * c2 + (no ^ 2 - ne ^ 2 * no ^ 2 / N ^ 2)) * (N ^ 2 / (ne ^ 2 * no ^ 2))) by (field; auto). rewrite H. ring.
Qed.

(*! C59: for every crystal (all Sellmeier coefficients), every way of giving the triple of positive wavelengths and all nonzero indices with n_e <> n_o at the pump: a returned angle lies in [0, pi/2] and rotating the crystal to it makes n_mix(pump) k_pump = k_signal + k_idler exactly; the missing wavelength is reported when asked for; otherwise AttributeError is raised and no angle phase-matches. *)
Lemma C59_phasematch_l : forall (x : agse) (pump sgnl idlr : option R) (rw : bool) (P S I ne no ns ni : R) (w : option R),
  0 < P -> 0 < S -> 0 < I ->
  (pump = Some P /\ sgnl = Some S /\ idlr = Some I /\ w = None \/
   / P = / S + / I /\ (pump = None /\ sgnl = Some S /\ idlr = Some I /\ w = Some P \/ pump = Some P /\ sgnl = None /\ idlr = Some I /\ w = Some S \/ pump = Some P /\ sgnl = Some S /\ idlr = None /\ w = Some I)) ->
  agse_n x P "e" = Ok ne -> agse_n x P "o" = Ok no -> agse_n x S "o" = Ok ns -> agse_n x I "o" = Ok ni -> ne <> 0 -> no <> 0 -> ns <> 0 -> ni <> 0 -> ne <> no ->
  let matched theta := exists m, agse_n (set_theta theta x) P "mix" = Ok m /\ m * (2 * PI / P) = ns * (2 * PI / S) + ni * (2 * PI / I) in
  match phasematch x pump sgnl idlr rw with
  | Ok (theta, wl) => 0 <= theta <= PI / 2 /\ matched theta /\ wl = (if rw then w else None)
  | Raise e => e = AttributeError /\ forall theta, ~ matched theta
  end.
Proof.
  intros x pump sgnl idlr rw P S I ne no ns ni w HP HS HI Htr He Ho Hs Hi Zne Zno Zns Zni Hne matched.
  pose proof PI_RGT_0 as Hpi.
  assert (Pos : forall w r, agse_n x w "o" = Ok r -> r <> 0 -> 0 < r). { intros w0 r E Z. apply agse_o_val in E as [E _]. pose proof (sell_n_theta _ _ _ E). lra. }
  pose proof (Pos _ _ Hs Zns) as Pns. pose proof (Pos _ _ Hi Zni) as Pni. pose proof (Pos _ _ Ho Zno) as Pno.
  assert (Pne : 0 < ne). { apply agse_e_val in He as [E _]. pose proof (sell_n_theta _ _ _ E). lra. }
  set (N := (ns * 2 * PI / S + ni * 2 * PI / I) / (2 * PI / P)).
  assert (K0 : 0 < 2 * PI / P) by (apply Rdiv_lt_0_compat; lra).
  assert (PN : 0 < N). { unfold N. apply Rdiv_lt_0_compat; [|exact K0]. assert (0 < ns * 2 * PI / S) by (apply Rdiv_lt_0_compat; [|exact HS]; apply Rmult_lt_0_compat; lra). assert (0 < ni * 2 * PI / I) by (apply Rdiv_lt_0_compat; [|exact HI]; apply Rmult_lt_0_compat; lra). lra. }
  assert (MN : forall theta, matched theta <-> N ^ 2 * (sin theta ^ 2 / ne ^ 2 + cos theta ^ 2 / no ^ 2) = 1).
  { intros th. destruct (agse_mix x P no ne th) as (m & Em & Pm & Qm); [exact (proj1 (agse_o_val _ _ _ Ho))|exact (proj1 (agse_e_val _ _ _ He))|lra|lra|]. unfold matched. split.
    - intros (m' & E' & H'). rewrite Em in E'. injection E' as <-. replace N with m; [exact Qm|]. unfold N. apply (Rmult_eq_reg_r (2 * PI / P)); [|lra]. rewrite H'. field. lra.
    - intros H. exists m. split; [exact Em|]. assert (m = N). { set (q := sin th ^ 2 / ne ^ 2 + cos th ^ 2 / no ^ 2) in *. assert (Hq : q <> 0) by (intros Z; rewrite Z in H; lra). assert (E2 : m ^ 2 = N ^ 2) by (apply (Rmult_eq_reg_r q); [congruence|exact Hq]). apply Rsqr_inj; [lra|lra|]. rewrite !Rsqr_pow2. exact E2. } subst m. unfold N. field. lra. }
  assert (MC : forall theta, matched theta <-> (ne ^ 2 - no ^ 2) * cos theta ^ 2 + (no ^ 2 - ne ^ 2 * no ^ 2 / N ^ 2) = 0).
  { intros th. rewrite MN, <- match_iff by lra. pose proof (sin2_cos2 th) as T. rewrite !Rsqr_pow2 in T. replace (sin th ^ 2) with (1 - cos th ^ 2) by lra. reflexivity. }
  unfold phasematch. rewrite (fill_ok pump sgnl idlr P S I w) by (lra || exact Htr). cbn [rbind]. rewrite fdiv_ok by lra. cbn [rbind]. rewrite Hs. cbn [rbind]. rewrite fdiv_ok by lra. cbn [rbind]. rewrite Hi. cbn [rbind]. rewrite fdiv_ok by lra. cbn [rbind].
  rewrite fdiv_ok by lra. cbn [rbind]. rewrite He, Ho. cbn [rbind]. fold N. rewrite fdiv_ok by (apply pow_nonzero; lra). cbn [rbind].
  set (a := ne ^ 2 - no ^ 2) in *. set (c := no ^ 2 - ne ^ 2 * no ^ 2 / N ^ 2) in *.
  assert (Ha : a <> 0). { unfold a. intros Z. apply Hne. apply Rsqr_inj; [lra|lra|]. rewrite !Rsqr_pow2. lra. }
  replace (0 ^ 2 - 4 * a * c) with (-4 * a * c) by ring. unfold fsqrt. destruct (Rlt_dec (-4 * a * c) 0) as [Neg|Neg]; cbn [rbind or_no_match].
  { split; [reflexivity|]. intros th M. apply MC in M. assert (E : c = - (a * cos th ^ 2)) by lra. rewrite E in Neg. replace (-4 * a * - (a * cos th ^ 2)) with (4 * (a * cos th) ^ 2) in Neg by ring. pose proof (pow2_ge_0 (a * cos th)). lra. }
  apply Rnot_lt_le in Neg. set (r := sqrt (-4 * a * c)). rewrite fdiv_ok by lra. cbn [rbind]. replace (- 0 + r) with r by ring. replace (- 0 - r) with (- r) by ring.
  assert (X : exists v, (if Rlt_dec (r / (2 * a)) 0 then fdiv (- r) (2 * a) else Ok (r / (2 * a))) = Ok v /\ 0 <= v /\ a * v ^ 2 + c = 0).
  { destruct (Rlt_dec (r / (2 * a)) 0) as [L|L]; [rewrite fdiv_ok by lra|]; eexists; (split; [reflexivity|]); apply quad_root; try assumption; [right; split; [reflexivity|exact L]|left; split; [reflexivity|lra]]. }
  destruct X as (v & -> & Pv & Qv). cbn [rbind]. unfold np_arccos. destruct (Rle_dec (-1) v) as [_|L]; [|lra]. destruct (Rle_dec v 1) as [L|L]; cbn [or_no_match rbind].
  - split; [|split; [|reflexivity]].
    + pose proof (acos_bound v). split; [lra|]. destruct (Rle_lt_dec (acos v) (PI / 2)) as [Q|Q]; [exact Q|]. exfalso. pose proof (cos_lt_0 (acos v) Q ltac:(lra)) as Z. rewrite cos_acos in Z by lra. lra.
    + apply MC. rewrite cos_acos by lra. exact Qv.
  - split; [reflexivity|]. intros th M. apply MC in M. assert (E : v ^ 2 = cos th ^ 2). { apply (Rmult_eq_reg_l a); [lra|exact Ha]. } pose proof (COS_bound th) as [B1 B2]. assert (cos th ^ 2 <= 1). { replace 1 with (1 ^ 2) by ring. rewrite <- !Rsqr_pow2. apply Rsqr_le_abs_1. rewrite Rabs_R1. apply Rabs_le. lra. } assert (1 < v ^ 2) by (replace 1 with (1 * 1) by ring; replace (v ^ 2) with (v * v) by ring; apply Rmult_gt_0_lt_compat; lra). lra.
Qed.

(*! C60: for every index function, length (or none), offset delta_k_L and every way of giving the triple: the returned period (metres) satisfies k_p - k_s - k_i - 2 pi / period = delta_k_L / length (in 1/m; 0 without a length), the missing wavelength is the one that conserves photon energy and is returned too, and a period is returned whenever the wavelengths and length are nonzero, the indices are defined and the mismatch is not exactly closed already. *)
Lemma C60_poling_period_l : forall (n : R -> result R) (len pump sgnl idlr : option R) (dkL P S I np ns ni : R) (w : option R),
  P <> 0 -> S <> 0 -> I <> 0 -> len <> Some 0 ->
  (pump = Some P /\ sgnl = Some S /\ idlr = Some I /\ w = None \/
   / P = / S + / I /\ (pump = None /\ sgnl = Some S /\ idlr = Some I /\ w = Some P \/ pump = Some P /\ sgnl = None /\ idlr = Some I /\ w = Some S \/ pump = Some P /\ sgnl = Some S /\ idlr = None /\ w = Some I)) ->
  n P = Ok np -> n S = Ok ns -> n I = Ok ni ->
  let k n wl := 2 * PI * n / (wl * 1e-9) in let mismatch := k np P - k ns S - k ni I in let target := match len with Some L => dkL / L | None => 0 end in
  (mismatch <> target -> exists period, poling_period n len pump sgnl idlr dkL = Ok (period, w) /\ period <> 0 /\ mismatch - 2 * PI / period = target) /\
  (mismatch = target -> poling_period n len pump sgnl idlr dkL = Raise NonFinite).
Proof.
  intros n len pump sgnl idlr dkL P S I np ns ni w HP HS HI HL Htr Hp Hs Hi k mismatch target.
  pose proof PI_RGT_0 as Hpi. unfold poling_period. rewrite (fill_ok pump sgnl idlr P S I w) by assumption. cbn [rbind]. rewrite Hp, Hs, Hi. cbn [rbind]. rewrite !fdiv_ok by assumption. cbn [rbind].
  assert (T : (match len with Some L => fdiv dkL (L * 1000000000) | None => Ok 0 end) = Ok (target * 1e-9)).
  { unfold target. destruct len as [L|]; [|f_equal; lra]. assert (L <> 0) by congruence. rewrite fdiv_ok by lra. f_equal. replace 1e-9 with (/ 1000000000) by lra. field. assumption. }
  rewrite T. cbn [rbind]. set (dk := np * 2 * PI / P - ns * 2 * PI / S - ni * 2 * PI / I - target * 1e-9).
  assert (E : dk = (mismatch - target) * 1e-9). { unfold dk, mismatch, k. replace 1e-9 with (/ 1000000000) by lra. field. auto. }
  split.
  - intros Hm. assert (Z : dk <> 0). { rewrite E. apply Rmult_integral_contrapositive_currified; lra. } rewrite fdiv_ok by exact Z. cbn [rbind]. eexists. split; [reflexivity|].
    assert (Z2 : mismatch - target <> 0) by lra. assert (Y : PI / dk * 1e-9 * 2 = 2 * PI / (mismatch - target)). { rewrite E. replace 1e-9 with (/ 1000000000) by lra. field. exact Z2. }
    rewrite Y. split; [apply Rmult_integral_contrapositive_currified; [lra|apply Rinv_neq_0_compat; exact Z2]|]. field. split; [exact Z2|lra].
  - intros Hm. assert (Z : dk = 0) by (rewrite E; lra). unfold fdiv. destruct (Req_EM_T dk 0); [reflexivity|contradiction].
Qed.

(** The refractive index of the sulfide over its transparency range, and its phase matching (C132). *)
From Coq Require Import String.
From Coq Require Import Reals List ZArith Bool Arith Lia Lra Psatz.
From Coquelicot Require Import Rcomplements.
From Verif Require Import Base CNum NumPy ModelPulse ModelCrystal CrystalProofs AgseProofs AgsePhaseProofs ModelAgGaS.
Import ListNotations.
Local Open Scope R_scope.

(** ** Any coefficients *)
Lemma sell4_pos s w r : sell4_n s w = Ok r -> 0 <= r.
Proof.
  unfold sell4_n. cbv zeta. unfold rbind. intros H.
  repeat match type of H with match ?e with _ => _ end = _ => destruct e; [|discriminate] end. apply fsqrt_inv in H as [_ ->]. apply sqrt_pos.
Qed.
Lemma gas_o_val x w r : gas_n x w "o" = Ok r -> sell4_n (gs_o x) w = Ok r /\ exists e, sell4_n (gs_e x) w = Ok e.
Proof. unfold gas_n, rbind. destruct (sell4_n (gs_o x) w) as [o|]; [|discriminate]. destruct (sell4_n (gs_e x) w) as [e|]; [|discriminate]. cbn. intros [= ->]. eauto. Qed.
Lemma gas_e_val x w r : gas_n x w "e" = Ok r -> sell4_n (gs_e x) w = Ok r /\ exists e, sell4_n (gs_o x) w = Ok e.
Proof. unfold gas_n, rbind. destruct (sell4_n (gs_o x) w) as [o|]; [|discriminate]. destruct (sell4_n (gs_e x) w) as [e|]; [|discriminate]. cbn. intros [= ->]. eauto. Qed.
Lemma gas_mix x w no ne th : sell4_n (gs_o x) w = Ok no -> sell4_n (gs_e x) w = Ok ne -> no <> 0 -> ne <> 0 ->
  exists m, gas_n (gas_set_theta th x) w "mix" = Ok m /\ 0 < m /\ m ^ 2 * (sin th ^ 2 / ne ^ 2 + cos th ^ 2 / no ^ 2) = 1.
Proof.
  intros Ho He Hno Hne. unfold gas_n, rbind. cbn [gas_set_theta gs_o gs_e gs_theta]. rewrite Ho, He. cbn [String.eqb Ascii.eqb Bool.eqb].
  rewrite !fdiv_ok by (apply pow_nonzero; assumption).
  assert (P1 : 0 < ne ^ 2) by (rewrite <- Rsqr_pow2; apply Rsqr_pos_lt; exact Hne). assert (P2 : 0 < no ^ 2) by (rewrite <- Rsqr_pow2; apply Rsqr_pos_lt; exact Hno).
  assert (Q : 0 < sin th ^ 2 / ne ^ 2 + cos th ^ 2 / no ^ 2).
  { pose proof (sin2_cos2 th) as T. rewrite !Rsqr_pow2 in T. pose proof (pow2_ge_0 (sin th)). pose proof (pow2_ge_0 (cos th)).
    assert (0 <= sin th ^ 2 / ne ^ 2) by (apply Rdiv_le_0_compat; lra). assert (0 <= cos th ^ 2 / no ^ 2) by (apply Rdiv_le_0_compat; lra).
    destruct (Req_EM_T (sin th ^ 2) 0) as [Z|Z].
    - rewrite Z in *. replace (cos th ^ 2) with 1 by lra. assert (0 < 1 / no ^ 2) by (apply Rdiv_lt_0_compat; lra). lra.
    - assert (0 < sin th ^ 2 / ne ^ 2) by (apply Rdiv_lt_0_compat; lra). lra. }
  rewrite fsqrt_ok by lra. assert (S : 0 < sqrt (sin th ^ 2 / ne ^ 2 + cos th ^ 2 / no ^ 2)) by (apply sqrt_lt_R0; exact Q). rewrite fdiv_ok by lra.
  eexists. split; [reflexivity|]. split; [apply Rdiv_lt_0_compat; lra|]. set (q := sin th ^ 2 / ne ^ 2 + cos th ^ 2 / no ^ 2) in *. pose proof (sqrt_sqrt q ltac:(lra)) as E. rewrite <- E at 2. field. lra.
Qed.
Lemma gas_match : forall (x : gas) (pump sgnl idlr : option R) (rw : bool) (P S I ne no ns ni : R) (w : option R),
  0 < P -> 0 < S -> 0 < I ->
  (pump = Some P /\ sgnl = Some S /\ idlr = Some I /\ w = None \/
   / P = / S + / I /\ (pump = None /\ sgnl = Some S /\ idlr = Some I /\ w = Some P \/ pump = Some P /\ sgnl = None /\ idlr = Some I /\ w = Some S \/ pump = Some P /\ sgnl = Some S /\ idlr = None /\ w = Some I)) ->
  gas_n x P "e" = Ok ne -> gas_n x P "o" = Ok no -> gas_n x S "o" = Ok ns -> gas_n x I "o" = Ok ni -> ne <> 0 -> no <> 0 -> ns <> 0 -> ni <> 0 -> ne <> no ->
  let matched theta := exists m, gas_n (gas_set_theta theta x) P "mix" = Ok m /\ m * (2 * PI / P) = ns * (2 * PI / S) + ni * (2 * PI / I) in
  match gas_phasematch x pump sgnl idlr rw with
  | Ok (theta, wl) => 0 <= theta <= PI / 2 /\ matched theta /\ wl = (if rw then w else None)
  | Raise e => e = AttributeError /\ forall theta, ~ matched theta
  end.
Proof.
  intros x pump sgnl idlr rw P S I ne no ns ni w HP HS HI Htr He Ho Hs Hi Zne Zno Zns Zni Hne matched.
  pose proof PI_RGT_0 as Hpi.
  assert (Pos : forall w r, gas_n x w "o" = Ok r -> r <> 0 -> 0 < r). { intros w0 r E Z. apply gas_o_val in E as [E _]. pose proof (sell4_pos _ _ _ E). lra. }
  pose proof (Pos _ _ Hs Zns) as Pns. pose proof (Pos _ _ Hi Zni) as Pni. pose proof (Pos _ _ Ho Zno) as Pno.
  assert (Pne : 0 < ne). { apply gas_e_val in He as [E _]. pose proof (sell4_pos _ _ _ E). lra. }
  set (N := (ns * 2 * PI / S + ni * 2 * PI / I) / (2 * PI / P)).
  assert (K0 : 0 < 2 * PI / P) by (apply Rdiv_lt_0_compat; lra).
  assert (PN : 0 < N). { unfold N. apply Rdiv_lt_0_compat; [|exact K0]. assert (0 < ns * 2 * PI / S) by (apply Rdiv_lt_0_compat; [|exact HS]; apply Rmult_lt_0_compat; lra). assert (0 < ni * 2 * PI / I) by (apply Rdiv_lt_0_compat; [|exact HI]; apply Rmult_lt_0_compat; lra). lra. }
  assert (MN : forall theta, matched theta <-> N ^ 2 * (sin theta ^ 2 / ne ^ 2 + cos theta ^ 2 / no ^ 2) = 1).
  { intros th. destruct (gas_mix x P no ne th) as (m & Em & Pm & Qm); [exact (proj1 (gas_o_val _ _ _ Ho))|exact (proj1 (gas_e_val _ _ _ He))|lra|lra|]. unfold matched. split.
    - intros (m' & E' & H'). rewrite Em in E'. injection E' as <-. replace N with m; [exact Qm|]. unfold N. apply (Rmult_eq_reg_r (2 * PI / P)); [|lra]. rewrite H'. field. lra.
    - intros H. exists m. split; [exact Em|]. assert (m = N). { set (q := sin th ^ 2 / ne ^ 2 + cos th ^ 2 / no ^ 2) in *. assert (Hq : q <> 0) by (intros Z; rewrite Z in H; lra). assert (E2 : m ^ 2 = N ^ 2) by (apply (Rmult_eq_reg_r q); [congruence|exact Hq]). apply Rsqr_inj; [lra|lra|]. rewrite !Rsqr_pow2. exact E2. } subst m. unfold N. field. lra. }
  assert (MC : forall theta, matched theta <-> (ne ^ 2 - no ^ 2) * cos theta ^ 2 + (no ^ 2 - ne ^ 2 * no ^ 2 / N ^ 2) = 0).
  { intros th. rewrite MN, <- match_iff by lra. pose proof (sin2_cos2 th) as T. rewrite !Rsqr_pow2 in T. replace (sin th ^ 2) with (1 - cos th ^ 2) by lra. reflexivity. }
  unfold gas_phasematch. rewrite (fill_ok pump sgnl idlr P S I w) by (lra || exact Htr). cbn [rbind]. rewrite fdiv_ok by lra. cbn [rbind]. rewrite Hs. cbn [rbind]. rewrite fdiv_ok by lra. cbn [rbind]. rewrite Hi. cbn [rbind]. rewrite fdiv_ok by lra. cbn [rbind].
  rewrite fdiv_ok by lra. cbn [rbind]. rewrite He, Ho. cbn [rbind]. fold N. rewrite fdiv_ok by (apply pow_nonzero; lra). cbn [rbind].
  set (a := ne ^ 2 - no ^ 2) in *. set (c := no ^ 2 - ne ^ 2 * no ^ 2 / N ^ 2) in *.
  assert (Ha : a <> 0). { unfold a. intros Z. apply Hne. apply Rsqr_inj; [lra|lra|]. rewrite !Rsqr_pow2. lra. }
  replace (0 ^ 2 - 4 * a * c) with (-4 * a * c) by ring. unfold fsqrt. destruct (Rlt_dec (-4 * a * c) 0) as [Neg|Neg]; cbn [rbind or_no_match].
  { split; [reflexivity|]. intros th M. apply MC in M. assert (E : c = - (a * cos th ^ 2)) by lra. rewrite E in Neg. replace (-4 * a * - (a * cos th ^ 2)) with (4 * (a * cos th) ^ 2) in Neg by ring. pose proof (pow2_ge_0 (a * cos th)). lra. }
  apply Rnot_lt_le in Neg. set (r := sqrt (-4 * a * c)). rewrite fdiv_ok by lra. cbn [rbind]. replace (- 0 + r) with r by ring. replace (- 0 - r) with (- r) by ring.
  assert (X : exists v, (if Rlt_dec (r / (2 * a)) 0 then fdiv (- r) (2 * a) else Ok (r / (2 * a))) = Ok v /\ 0 <= v /\ a * v ^ 2 + c = 0).
  { destruct (Rlt_dec (r / (2 * a)) 0) as [L|L]; [rewrite fdiv_ok by lra|]; eexists; (split; [reflexivity|]); apply quad_root; try assumption; [right; split; [reflexivity|exact L]|left; split; [reflexivity|lra]]. }
  destruct X as (v & -> & Pv & Qv). cbn [rbind]. unfold np_arccos. destruct (Rle_dec (-1) v) as [_|L]; [|lra]. destruct (Rle_dec v 1) as [L|L]; cbn [or_no_match rbind].
  - split; [|split; [|reflexivity]].
    + pose proof (acos_bound v). split; [lra|]. destruct (Rle_lt_dec (acos v) (PI / 2)) as [Q|Q]; [exact Q|]. exfalso. pose proof (cos_lt_0 (acos v) Q ltac:(lra)) as Z. rewrite cos_acos in Z by lra. lra.
    + apply MC. rewrite cos_acos by lra. exact Qv.
  - split; [reflexivity|]. intros th M. apply MC in M. assert (E : v ^ 2 = cos th ^ 2). { apply (Rmult_eq_reg_l a); [lra|exact Ha]. } pose proof (COS_bound th) as [B1 B2]. assert (cos th ^ 2 <= 1). { replace 1 with (1 ^ 2) by ring. rewrite <- !Rsqr_pow2. apply Rsqr_le_abs_1. rewrite Rabs_R1. apply Rabs_le. lra. } assert (1 < v ^ 2) by (replace 1 with (1 * 1) by ring; replace (v ^ 2) with (v * v) by ring; apply Rmult_gt_0_lt_compat; lra). lra.
Qed.

(** ** One axis *)
Definition val4 (s : sell4) (u : R) : R := fA s + fB s / (Rpower u (fa s) - fC s) + fF s / (Rpower u (fb s) - fG s) + fJ s / (Rpower u (fc s) - fK s) + fD s / (1 - fE s / Rpower u (fd s)).
Definition good4 (s : sell4) : Prop := 0 < fB s /\ 0 < fF s /\ 0 <= fJ s /\ 0 < fD s /\ 0 < fE s /\ fC s < 1 /\ fG s < 1 /\ fK s < 1 /\ 0 < fa s /\ 0 < fb s /\ 0 <= fc s /\ 0 < fd s.
Lemma good4_o : good4 gas_o. Proof. unfold good4, gas_o. cbn [fA fB fC fD fE fF fG fJ fK fa fb fc fd]. lra. Qed.
Lemma good4_e : good4 gas_e. Proof. unfold good4, gas_e. cbn [fA fB fC fD fE fF fG fJ fK fa fb fc fd]. lra. Qed.
Lemma sell4_run s wl : good4 s -> 1 <= wl * 0.001 -> Rpower (wl * 0.001) (fd s) < fE s -> 0 <= val4 s (wl * 0.001) -> sell4_n s wl = Ok (sqrt (val4 s (wl * 0.001))).
Proof.
  intros (H1 & H2 & H3 & H4 & H5 & H6 & H7 & H8 & H9 & H10 & H11 & H12) Hu Hc Hv. unfold sell4_n. cbv zeta. set (u := wl * 0.001) in *. unfold fpow. destruct (Rlt_dec 0 u); [|lra]. cbn [rbind].
  pose proof (Rpower_ge1 u (fa s) Hu ltac:(lra)) as P1. pose proof (Rpower_ge1 u (fb s) Hu ltac:(lra)) as P2. pose proof (Rpower_ge1 u (fc s) Hu ltac:(lra)) as P3. pose proof (Rpower_ge1 u (fd s) Hu ltac:(lra)) as P4.
  rewrite fdiv_ok by lra. cbn [rbind]. rewrite fdiv_ok by lra. cbn [rbind]. rewrite fdiv_ok by lra. cbn [rbind]. rewrite fdiv_ok by lra. cbn [rbind].
  assert (E1 : 1 < fE s / Rpower u (fd s)). { apply Rmult_lt_reg_r with (Rpower u (fd s)); [lra|]. unfold Rdiv. rewrite Rmult_assoc, Rinv_l by lra. lra. }
  rewrite fdiv_ok by lra. cbn [rbind]. apply fsqrt_ok, Hv.
Qed.
Lemma val4_decr s u v : good4 s -> 1 <= u < v -> Rpower v (fd s) < fE s -> val4 s v < val4 s u.
Proof.
  intros (H1 & H2 & H3 & H4 & H5 & H6 & H7 & H8 & H9 & H10 & H11 & H12) [Hu Hv] Hc. unfold val4.
  assert (I : forall a, 0 < a -> 1 <= Rpower u a < Rpower v a) by (intros a Ha; split; [apply Rpower_ge1; lra|apply Rlt_Rpower_l; lra]).
  pose proof (I _ H9) as P1. pose proof (I _ H10) as P2. pose proof (I _ H12) as P4.
  assert (T : forall B x y C, 0 < B -> C < 1 -> 1 <= x < y -> B / (y - C) < B / (x - C)). { intros B x y C HB HC Hx. apply Rmult_lt_compat_l; [exact HB|]. apply Rinv_lt_contravar; [apply Rmult_lt_0_compat; lra|lra]. }
  pose proof (T _ _ _ (fC s) H1 H6 P1) as Q1. pose proof (T _ _ _ (fG s) H2 H7 P2) as Q2.
  assert (Q3 : fJ s / (Rpower v (fc s) - fK s) <= fJ s / (Rpower u (fc s) - fK s)). { apply Rmult_le_compat_l; [exact H3|]. assert (1 <= Rpower u (fc s)) by (apply Rpower_ge1; lra). assert (Rpower u (fc s) <= Rpower v (fc s)) by (apply Rle_Rpower_l; lra). apply Rinv_le_contravar; lra. }
  rewrite !last_term by lra.
  assert (Q4 : fD s * Rpower u (fd s) / (fE s - Rpower u (fd s)) < fD s * Rpower v (fd s) / (fE s - Rpower v (fd s))).
  { set (x := Rpower u (fd s)) in *. set (y := Rpower v (fd s)) in *. apply Rmult_lt_reg_r with ((fE s - x) * (fE s - y)); [apply Rmult_lt_0_compat; lra|].
    replace (fD s * x / (fE s - x) * ((fE s - x) * (fE s - y))) with (fD s * x * (fE s - y)) by (field; lra). replace (fD s * y / (fE s - y) * ((fE s - x) * (fE s - y))) with (fD s * y * (fE s - x)) by (field; lra).
    assert (0 < fD s * fE s * (y - x)) by (apply Rmult_lt_0_compat; [apply Rmult_lt_0_compat; lra|lra]). lra. }
  lra.
Qed.

(** ** Numbers, up to 12 um *)
Lemma gpow_o u : 1 <= u <= 12 -> Rpower u 2.225043 <= 270.
Proof. intros [H1 H2]. apply Rle_trans with (Rpower 12 2.225043); [apply Rle_Rpower_l; lra|]. apply (rp_le 12 _ 9 4); num. Qed.
Lemma gpow_e u : 1 <= u <= 12 -> Rpower u 2.383834 <= 391.
Proof. intros [H1 H2]. apply Rle_trans with (Rpower 12 2.383834); [apply Rle_Rpower_l; lra|]. apply (rp_le 12 _ 12 5); num. Qed.
Ltac gterms u :=
  pose proof (term_pos 0.0867547 0.0356502 _ ltac:(lra) ltac:(lra) (Rpower_ge1 u 3.156983 ltac:(lra) ltac:(lra))) as T1; pose proof (term_pos 0.0821721 (-0.315646) _ ltac:(lra) ltac:(lra) (Rpower_ge1 u 4.430430 ltac:(lra) ltac:(lra))) as T2;
  pose proof (term_pos 0.506566 (-6.582197) _ ltac:(lra) ltac:(lra) (Rpower_ge1 u 6.604280 ltac:(lra) ltac:(lra))) as T3.
Lemma gval_low u : 1 <= u <= 12 -> 5.12 < val4 gas_o u /\ 5.12 < val4 gas_e u.
Proof.
  intros Hu. pose proof (gpow_o u Hu) as Po. pose proof (gpow_e u Hu) as Pe. unfold val4, gas_o, gas_e. cbn [fA fB fC fD fE fF fG fJ fK fa fb fc fd].
  pose proof (Rpower_ge1 u 2.225043 ltac:(lra) ltac:(lra)) as P1. pose proof (Rpower_ge1 u 2.383834 ltac:(lra) ltac:(lra)) as P2. gterms u.
  pose proof (term_pos 0.0510941 0.141109 _ ltac:(lra) ltac:(lra) (Rpower_ge1 u 2.359877 ltac:(lra) ltac:(lra))) as T4. pose proof (term_pos 0.195314 (-0.0910735) _ ltac:(lra) ltac:(lra) (Rpower_ge1 u 2.566664 ltac:(lra) ltac:(lra))) as T5.
  pose proof (term_ge 176380.0 112586195.0 (Rpower u 2.225043) 270 ltac:(lra) ltac:(lra) ltac:(lra)) as Q1. pose proof (term_ge 4253.78 4304924.0 (Rpower u 2.383834) 391 ltac:(lra) ltac:(lra) ltac:(lra)) as Q2.
  assert (N1 : 176380.0 * 270 / (112586195.0 - 270) < 0.43) by lra. assert (N2 : 4253.78 * 391 / (4304924.0 - 391) < 0.39) by lra.
  assert (Z : 0 / (Rpower u 0 - 0) = 0) by (unfold Rdiv; ring). rewrite Z. lra.
Qed.
Lemma gval_1 : val4 gas_o 1 < 6.04.
Proof. unfold val4, gas_o. cbn [fA fB fC fD fE fF fG fJ fK fa fb fc fd]. rewrite !Rpower_one. lra. Qed.
(** The last terms: D t/(E-t) of the ordinary axis exceeds that of the extraordinary one by less than 0.00058 t. *)
Lemma glast u : 1 <= u <= 12 -> - (0.0006 * Rpower u 2.225043) <= 176380.0 / (1 - 112586195.0 / Rpower u 2.225043) - 4253.78 / (1 - 4304924.0 / Rpower u 2.383834).
Proof.
  intros Hu. pose proof (gpow_o u Hu) as Po. pose proof (gpow_e u Hu) as Pe. pose proof (Rpower_ge1 u 2.225043 ltac:(lra) ltac:(lra)) as P1.
  assert (S : Rpower u 2.225043 <= Rpower u 2.383834) by (apply Rle_Rpower; lra). set (t := Rpower u 2.225043) in *. set (s := Rpower u 2.383834) in *. clearbody t s.
  pose proof (tail_le 4253.78 4304924.0 t s ltac:(lra) ltac:(lra) ltac:(lra)) as Q. apply Rle_trans with (176380.0 / (1 - 112586195.0 / t) - 4253.78 / (1 - 4304924.0 / t)); [|lra]. rewrite !last_term by lra.
  assert (A : 176380.0 * t / (112586195.0 - t) <= 0.0015667 * t). { apply Rmult_le_reg_r with (112586195.0 - t); [lra|]. unfold Rdiv. rewrite Rmult_assoc, Rinv_l by lra. nra. }
  assert (B : 0.00098 * t <= 4253.78 * t / (4304924.0 - t)). { apply Rmult_le_reg_r with (4304924.0 - t); [lra|]. unfold Rdiv. rewrite (Rmult_assoc (4253.78 * t)), Rinv_l by lra. nra. }
  lra.
Qed.
Lemma gval_oe u : 1 <= u <= 12 -> val4 gas_e u < val4 gas_o u.
Proof.
  intros Hu. pose proof (glast u Hu) as L. pose proof (gpow_o u Hu) as Po. unfold val4, gas_o, gas_e. cbn [fA fB fC fD fE fF fG fJ fK fa fb fc fd]. gterms u.
  assert (Z : 0 / (Rpower u 0 - 0) = 0) by (unfold Rdiv; ring). rewrite Z.
  destruct (Rle_dec u 2) as [U|U].
  - assert (T : Rpower u 2.225043 <= 5). { apply Rle_trans with (Rpower 2 2.225043); [apply Rle_Rpower_l; lra|]. apply (rp_le 2 _ 9 4); num. }
    pose proof (frac_le 0.0510941 0.141109 (Rpower u 2.359877) 1 ltac:(lra) ltac:(lra) (Rpower_ge1 u 2.359877 ltac:(lra) ltac:(lra))) as E1. pose proof (frac_le 0.195314 (-0.0910735) (Rpower u 2.566664) 1 ltac:(lra) ltac:(lra) (Rpower_ge1 u 2.566664 ltac:(lra) ltac:(lra))) as E2. lra.
  - assert (X : 4 <= Rpower u 2.359877). { apply Rle_trans with (Rpower 2 2.359877); [|apply Rle_Rpower_l; lra]. apply (rp_ge 2 _ 2 1); num. }
    assert (Y : 4 <= Rpower u 2.566664). { apply Rle_trans with (Rpower 2 2.566664); [|apply Rle_Rpower_l; lra]. apply (rp_ge 2 _ 2 1); num. }
    pose proof (frac_le 0.0510941 0.141109 (Rpower u 2.359877) 4 ltac:(lra) ltac:(lra) X) as E1. pose proof (frac_le 0.195314 (-0.0910735) (Rpower u 2.566664) 4 ltac:(lra) ltac:(lra) Y) as E2. lra.
Qed.

(** ** The three axes *)
Lemma gsell_o wl : 1000 <= wl <= 12000 -> sell4_n gas_o wl = Ok (sqrt (val4 gas_o (wl * 0.001))).
Proof. intros H. apply sell4_run; [exact good4_o|lra| |]. - change (fd gas_o) with 2.225043. change (fE gas_o) with 112586195.0. pose proof (gpow_o (wl * 0.001) ltac:(lra)). lra. - pose proof (gval_low (wl * 0.001) ltac:(lra)). lra. Qed.
Lemma gsell_e wl : 1000 <= wl <= 12000 -> sell4_n gas_e wl = Ok (sqrt (val4 gas_e (wl * 0.001))).
Proof. intros H. apply sell4_run; [exact good4_e|lra| |]. - change (fd gas_e) with 2.383834. change (fE gas_e) with 4304924.0. pose proof (gpow_e (wl * 0.001) ltac:(lra)). lra. - pose proof (gval_low (wl * 0.001) ltac:(lra)). lra. Qed.
Lemma gval_lt u v : 1 <= u < v -> v <= 12 -> val4 gas_o v < val4 gas_o u /\ val4 gas_e v < val4 gas_e u.
Proof.
  intros H Hv. split; apply val4_decr; try exact good4_o; try exact good4_e; try exact H.
  - change (fd gas_o) with 2.225043. change (fE gas_o) with 112586195.0. pose proof (gpow_o v ltac:(lra)). lra.
  - change (fd gas_e) with 2.383834. change (fE gas_e) with 4304924.0. pose proof (gpow_e v ltac:(lra)). lra.
Qed.
Lemma gval_up u : 1 <= u <= 12 -> val4 gas_o u < 6.04.
Proof. intros H. destruct (Rle_lt_or_eq_dec 1 u (proj1 H)) as [L|<-]; [|apply gval_1]. pose proof (gval_lt 1 u ltac:(lra) ltac:(lra)). pose proof gval_1. lra. Qed.
Definition gn_o (wl : R) : R := sqrt (val4 gas_o (wl * 0.001)).
Definition gn_e (wl : R) : R := sqrt (val4 gas_e (wl * 0.001)).
Lemma gn_range wl : 1000 <= wl <= 12000 -> 2.26 < gn_e wl /\ gn_e wl < gn_o wl /\ gn_o wl < 2.46.
Proof.
  intros H. pose proof (gval_low (wl * 0.001) ltac:(lra)) as [L1 L2]. pose proof (gval_up (wl * 0.001) ltac:(lra)) as U. pose proof (gval_oe (wl * 0.001) ltac:(lra)) as D. unfold gn_e, gn_o. repeat split.
  - rewrite <- (sqrt_pow2 2.26) by lra. apply sqrt_lt_1; lra.
  - apply sqrt_lt_1; lra.
  - rewrite <- (sqrt_pow2 2.46) by lra. apply sqrt_lt_1; lra.
Qed.
Lemma gn_decr w1 w2 : 1000 <= w1 < w2 -> w2 <= 12000 -> gn_o w2 < gn_o w1 /\ gn_e w2 < gn_e w1.
Proof.
  intros H H2. destruct (gval_lt (w1 * 0.001) (w2 * 0.001) ltac:(lra) ltac:(lra)) as [A B]. pose proof (gval_low (w1 * 0.001) ltac:(lra)). pose proof (gval_low (w2 * 0.001) ltac:(lra)). split; apply sqrt_lt_1; lra.
Qed.
Lemma gmix_val theta wl : 1000 <= wl <= 12000 -> exists m, gas_n (mkGas gas_o gas_e theta) wl "mix" = Ok m /\ 0 < m /\ m ^ 2 * (sin theta ^ 2 / gn_e wl ^ 2 + cos theta ^ 2 / gn_o wl ^ 2) = 1.
Proof.
  intros H. pose proof (gn_range wl H) as R. destruct (gas_mix (mkGas gas_o gas_e 0) wl (gn_o wl) (gn_e wl) theta (gsell_o wl H) (gsell_e wl H)) as (m & E & P); [lra|lra|]. exists m. split; [exact E|exact P].
Qed.
Lemma goe_val theta wl : 1000 <= wl <= 12000 -> gas_n (mkGas gas_o gas_e theta) wl "o" = Ok (gn_o wl) /\ gas_n (mkGas gas_o gas_e theta) wl "e" = Ok (gn_e wl).
Proof. intros H. unfold gas_n. cbn [gs_o gs_e]. rewrite (gsell_o wl H), (gsell_e wl H). split; reflexivity. Qed.


(*! C132: the constructed sulfide crystal, at every wavelength from 1 to 12 um and every angle: all three axes have an index, 2.26 < n_e < n_o < 2.46 (negative uniaxial), the index along the cut lies between them, equals n_o exactly when sin theta = 0 and n_e exactly when cos theta = 0; any other axis name raises ValueError. *)
Lemma C132_index_l : forall (theta wl : R), let a := gas_init theta in 1000 <= wl <= 12000 -> exists no ne m, gas_n a wl "o" = Ok no /\ gas_n a wl "e" = Ok ne /\ gas_n a wl "mix" = Ok m /\
  2.26 < ne /\ ne < no /\ no < 2.46 /\ ne <= m <= no /\ (m = no <-> sin theta = 0) /\ (m = ne <-> cos theta = 0) /\
  forall axis, axis <> "o"%string -> axis <> "e"%string -> axis <> "mix"%string -> gas_n a wl axis = Raise ValueError.
Proof.
  intros theta wl a H. change a with (mkGas gas_o gas_e theta). clear a.
  destruct (gmix_val theta wl H) as (m & Em & Pm & Qm). destruct (goe_val theta wl H) as [Eo Ee]. pose proof (gn_range wl H) as (R1 & R2 & R3). exists (gn_o wl), (gn_e wl), m.
  rewrite sc2 in Qm. pose proof (mix_inv m (sin theta ^ 2) (gn_e wl) (gn_o wl) Pm ltac:(lra) ltac:(lra) Qm) as V. pose proof (slope (gn_e wl) (gn_o wl) ltac:(lra)) as Sl. set (d := / gn_e wl ^ 2 - / gn_o wl ^ 2) in *.
  pose proof (sc2 theta) as SC. pose proof (pow2_ge_0 (sin theta)) as S0. pose proof (pow2_ge_0 (cos theta)) as C0.
  assert (B : 0 <= sin theta ^ 2 * d <= d) by (split; [apply Rmult_le_pos; lra|]; assert (0 <= (1 - sin theta ^ 2) * d) by (apply Rmult_le_pos; lra); lra).
  split; [exact Eo|]. split; [exact Ee|]. split; [exact Em|]. split; [exact R1|]. split; [exact R2|]. split; [exact R3|]. split; [split|split; [|split]].
  - apply Rnot_lt_le. intros L. apply inv_sq_lt in L; try lra. unfold d in *. lra.
  - apply Rnot_lt_le. intros L. apply inv_sq_lt in L; try lra.
  - rewrite inv_sq_eq by lra. rewrite V. split; intros E.
    + assert (Z : sin theta ^ 2 * d = 0) by lra. apply Rmult_integral in Z as [Z|Z]; [|lra]. destruct (Req_dec (sin theta) 0) as [|N]; [assumption|]. exfalso. apply (pow_nonzero _ 2 N Z).
    + rewrite E. ring.
  - rewrite inv_sq_eq by lra. rewrite V. split; intros E.
    + assert (Z : (1 - sin theta ^ 2) * d = 0) by (unfold d in *; lra). apply Rmult_integral in Z as [Z|Z]; [|lra]. destruct (Req_dec (cos theta) 0) as [|N]; [assumption|]. exfalso. apply (pow_nonzero _ 2 N). lra.
    + rewrite E in SC. replace (sin theta ^ 2) with 1 by lra. unfold d. ring.
  - intros axis A1 A2 A3. unfold gas_n. cbn [gs_o gs_e]. rewrite (gsell_o wl H), (gsell_e wl H). cbn [rbind]. apply String.eqb_neq in A1, A2, A3. rewrite A1, A2, A3. reflexivity.
Qed.

(*! C132: normal dispersion: between 1 and 12 um all three indices fall strictly with the wavelength, at every angle. *)
Lemma C132_dispersion_l : forall (theta wl1 wl2 n1 n2 : R) (axis : string), let a := gas_init theta in
  1000 <= wl1 < wl2 -> wl2 <= 12000 -> gas_n a wl1 axis = Ok n1 -> gas_n a wl2 axis = Ok n2 -> n2 < n1.
Proof.
  intros theta w1 w2 n1 n2 axis a H H2 E1 E2. change a with (mkGas gas_o gas_e theta) in E1, E2. clear a.
  destruct (gn_decr w1 w2 H H2) as [Do De]. destruct (goe_val theta w1 ltac:(lra)) as [Eo1 Ee1]. destruct (goe_val theta w2 ltac:(lra)) as [Eo2 Ee2].
  pose proof (gn_range w1 ltac:(lra)) as R1. pose proof (gn_range w2 ltac:(lra)) as R2.
  destruct (String.string_dec axis "o") as [->|A1]; [congruence|]. destruct (String.string_dec axis "e") as [->|A2]; [congruence|]. destruct (String.string_dec axis "mix") as [->|A3].
  - destruct (gmix_val theta w1 ltac:(lra)) as (m1 & M1 & P1 & Q1). destruct (gmix_val theta w2 ltac:(lra)) as (m2 & M2 & P2 & Q2). assert (n1 = m1) by congruence. assert (n2 = m2) by congruence. subst n1 n2.
    rewrite sc2 in Q1, Q2. apply mix_inv in Q1; try lra. apply mix_inv in Q2; try lra. apply inv_sq_lt; [lra|lra|]. rewrite Q1, Q2.
    assert (I1 : / gn_o w1 ^ 2 < / gn_o w2 ^ 2) by (apply (proj1 (inv_sq_lt (gn_o w2) (gn_o w1) ltac:(lra) ltac:(lra))); lra). assert (I2 : / gn_e w1 ^ 2 < / gn_e w2 ^ 2) by (apply (proj1 (inv_sq_lt (gn_e w2) (gn_e w1) ltac:(lra) ltac:(lra))); lra).
    pose proof (sc2 theta) as SC. pose proof (pow2_ge_0 (sin theta)) as S0. pose proof (pow2_ge_0 (cos theta)) as C0. set (s := sin theta ^ 2) in *. clearbody s.
    set (a1 := / gn_o w1 ^ 2) in *. set (a2 := / gn_o w2 ^ 2) in *. set (b1 := / gn_e w1 ^ 2) in *. set (b2 := / gn_e w2 ^ 2) in *. clearbody a1 a2 b1 b2.
    assert (0 <= s * (b2 - b1)) by (apply Rmult_le_pos; lra). assert (0 <= (1 - s) * (a2 - a1)) by (apply Rmult_le_pos; lra).
    destruct (Req_dec s 0) as [->|N]; [lra|]. assert (0 < s * (b2 - b1)) by (apply Rmult_lt_0_compat; lra). lra.
  - exfalso. unfold gas_n in E1. cbn [gs_o gs_e] in E1. rewrite (gsell_o w1), (gsell_e w1) in E1 by lra. cbn [rbind] in E1. apply String.eqb_neq in A1, A2, A3. rewrite A1, A2, A3 in E1. discriminate.
Qed.

(*! C132: turning the crystal: set_theta changes no ordinary or extraordinary index; the index along the cut falls strictly as the angle goes from 0 to 90 degrees, and is the same for theta, -theta and theta + pi. *)
Lemma C132_angle_l : forall (theta wl : R), let a := gas_init theta in 1000 <= wl <= 12000 ->
  (forall t axis, (axis = "o"%string \/ axis = "e"%string) -> gas_n (gas_set_theta t a) wl axis = gas_n a wl axis) /\
  (forall t1 t2 m1 m2, 0 <= t1 < t2 -> t2 <= PI / 2 -> gas_n (gas_set_theta t1 a) wl "mix" = Ok m1 -> gas_n (gas_set_theta t2 a) wl "mix" = Ok m2 -> m2 < m1) /\
  (forall t, gas_n (gas_set_theta (- t) a) wl "mix" = gas_n (gas_set_theta t a) wl "mix" /\ gas_n (gas_set_theta (t + PI) a) wl "mix" = gas_n (gas_set_theta t a) wl "mix").
Proof.
  intros theta wl a H. change a with (mkGas gas_o gas_e theta). clear a. split; [|split].
  - intros t axis [-> | ->]; reflexivity.
  - intros t1 t2 m1 m2 T1 T2 E1 E2. cbn [gas_set_theta gs_o gs_e] in *. destruct (gmix_val t1 wl H) as (m1' & M1 & P1 & Q1). destruct (gmix_val t2 wl H) as (m2' & M2 & P2 & Q2).
    change (gas_n (mkGas gas_o gas_e t1) wl "mix" = Ok m1) in E1. change (gas_n (mkGas gas_o gas_e t2) wl "mix" = Ok m2) in E2. assert (m1 = m1') by congruence. assert (m2 = m2') by congruence. subst m1' m2'.
    pose proof (gn_range wl H) as R. rewrite sc2 in Q1, Q2. apply mix_inv in Q1; try lra. apply mix_inv in Q2; try lra. apply inv_sq_lt; [lra|lra|]. rewrite Q1, Q2. pose proof (slope (gn_e wl) (gn_o wl) ltac:(lra)) as Sl. set (d := / gn_e wl ^ 2 - / gn_o wl ^ 2) in *.
    assert (S1 : 0 <= sin t1) by (apply sin_ge_0; pose proof PI_RGT_0; lra). assert (S2 : sin t1 < sin t2) by (apply sin_increasing_1; pose proof PI_RGT_0; lra).
    assert (S3 : sin t1 ^ 2 < sin t2 ^ 2) by nra. assert (0 < (sin t2 ^ 2 - sin t1 ^ 2) * d) by (apply Rmult_lt_0_compat; lra). lra.
  - intros t. unfold gas_n. cbn [gas_set_theta gs_o gs_e gs_theta]. rewrite sin_neg, cos_neg, neg_sin, neg_cos. replace ((- sin t) ^ 2) with (sin t ^ 2) by ring. replace ((- cos t) ^ 2) with (cos t ^ 2) by ring. split; reflexivity.
Qed.

(*! C132: the constructed sulfide crystal and every energy-conserving triple of wavelengths between 1 and 12 um, however it is given: with N the mean of the ordinary indices of signal and idler weighted with their photon energies, N is always below n_o of the pump; phasematch succeeds exactly when n_e of the pump is at most N, and then returns the only matching angle of the first quadrant, which is never 0; otherwise it raises AttributeError. *)
Lemma C132_criterion_l : forall (theta P S I : R) (pump sgnl idlr w : option R) (rw : bool), let a := gas_init theta in
  1000 <= P -> 0 < S <= 12000 -> 0 < I <= 12000 -> / P = / S + / I ->
  (pump = Some P /\ sgnl = Some S /\ idlr = Some I /\ w = None \/ pump = None /\ sgnl = Some S /\ idlr = Some I /\ w = Some P \/
   pump = Some P /\ sgnl = None /\ idlr = Some I /\ w = Some S \/ pump = Some P /\ sgnl = Some S /\ idlr = None /\ w = Some I) ->
  exists ne no ns ni, gas_n a P "e" = Ok ne /\ gas_n a P "o" = Ok no /\ gas_n a S "o" = Ok ns /\ gas_n a I "o" = Ok ni /\
  let N := P * (ns / S + ni / I) in
  let matched t := exists m, gas_n (gas_set_theta t a) P "mix" = Ok m /\ m * (2 * PI / P) = ns * (2 * PI / S) + ni * (2 * PI / I) in
  N < no /\
  (ne <= N -> exists t, gas_phasematch a pump sgnl idlr rw = Ok (t, if rw then w else None) /\ 0 < t <= PI / 2 /\ matched t /\ forall t', 0 <= t' <= PI / 2 -> matched t' -> t' = t) /\
  (N < ne -> gas_phasematch a pump sgnl idlr rw = Raise AttributeError).
Proof.
  intros theta P S I pump sgnl idlr w rw a0 HP HS HI HE Hw. change a0 with (mkGas gas_o gas_e theta). clear a0.
  assert (PS : P < S). { assert (/ S < / P) by (pose proof (Rinv_0_lt_compat I); lra). apply inv_lt_cancel; lra. } assert (PI' : P < I). { assert (/ I < / P) by (pose proof (Rinv_0_lt_compat S); lra). apply inv_lt_cancel; lra. }
  set (a := mkGas gas_o gas_e theta).
  destruct (goe_val theta P ltac:(lra)) as [Eo Ee]. destruct (goe_val theta S ltac:(lra)) as [Es _]. destruct (goe_val theta I ltac:(lra)) as [Ei _]. fold a in Eo, Ee, Es, Ei.
  exists (gn_e P), (gn_o P), (gn_o S), (gn_o I). split; [exact Ee|]. split; [exact Eo|]. split; [exact Es|]. split; [exact Ei|]. intros N matched.
  pose proof (gn_range P ltac:(lra)) as (R1 & R2 & R3). pose proof (gn_range S ltac:(lra)) as RS. pose proof (gn_range I ltac:(lra)) as RI.
  destruct (gn_decr P S ltac:(lra) ltac:(lra)) as [DS _]. destruct (gn_decr P I ltac:(lra) ltac:(lra)) as [DI _].
  assert (IS : 0 < / S) by (apply Rinv_0_lt_compat; lra). assert (II : 0 < / I) by (apply Rinv_0_lt_compat; lra).
  assert (NN : N < gn_o P).
  { unfold N. replace (gn_o P) with (P * (gn_o P * / P)) by (field; lra). apply Rmult_lt_compat_l; [lra|]. rewrite HE, Rmult_plus_distr_l. apply Rplus_lt_compat; apply Rmult_lt_compat_r; assumption. }
  assert (N0 : 0 < N). { unfold N. apply Rmult_lt_0_compat; [lra|]. apply Rplus_lt_0_compat; apply Rdiv_lt_0_compat; lra. }
  pose proof PI_RGT_0 as PIp.
  assert (ME : forall m, m * (2 * PI / P) = gn_o S * (2 * PI / S) + gn_o I * (2 * PI / I) <-> m = N).
  { intros m. unfold N. split; intros E.
    - apply (Rmult_eq_reg_r (2 * PI / P)); [|apply Rmult_integral_contrapositive_currified; [lra|apply Rinv_neq_0_compat; lra]]. rewrite E. field. lra.
    - rewrite E. field. lra. }
  assert (M : forall t, matched t <-> N ^ 2 * (sin t ^ 2 / gn_e P ^ 2 + cos t ^ 2 / gn_o P ^ 2) = 1).
  { intros t. destruct (gmix_val t P ltac:(lra)) as (m & Em & Pm & Qm). unfold matched. change (gas_set_theta t a) with (mkGas gas_o gas_e t). split.
    - intros (m' & E' & F'). apply ME in F'. assert (m = N) by congruence. subst m. exact Qm.
    - intros Q. exists m. split; [exact Em|]. apply ME. rewrite sc2 in Q, Qm. apply mix_inv in Q; try lra. apply mix_inv in Qm; try lra. apply inv_sq_eq; lra. }
  assert (C59 := gas_match a pump sgnl idlr rw P S I (gn_e P) (gn_o P) (gn_o S) (gn_o I) w ltac:(lra) ltac:(lra) ltac:(lra) ltac:(tauto) Ee Eo Es Ei ltac:(lra) ltac:(lra) ltac:(lra) ltac:(lra) ltac:(lra)). cbv zeta in C59. fold matched in C59.
  split; [exact NN|]. split.
  - intros L. destruct (angle_exists (gn_e P) (gn_o P) N ltac:(lra) ltac:(lra)) as (t0 & T0 & Q0). apply M in Q0.
    destruct (gas_phasematch a pump sgnl idlr rw) as [[t wl]|e]; [|destruct C59 as [_ C59]; exfalso; exact (C59 t0 Q0)]. destruct C59 as (B & Mt & ->). exists t. split; [reflexivity|].
    assert (U : forall t1 t2, 0 <= t1 <= PI / 2 -> 0 <= t2 <= PI / 2 -> matched t1 -> matched t2 -> ~ t1 < t2).
    { intros t1 t2 B1 B2 M1 M2 T. apply M in M1, M2. rewrite sc2 in M1, M2. apply mix_inv in M1; try lra. apply mix_inv in M2; try lra. pose proof (slope (gn_e P) (gn_o P) ltac:(lra)) as Sl. set (d := / gn_e P ^ 2 - / gn_o P ^ 2) in *.
      assert (S1 : 0 <= sin t1) by (apply sin_ge_0; lra). assert (S2 : sin t1 < sin t2) by (apply sin_increasing_1; lra). assert (S3 : sin t1 ^ 2 < sin t2 ^ 2) by nra. assert (0 < (sin t2 ^ 2 - sin t1 ^ 2) * d) by (apply Rmult_lt_0_compat; lra). lra. }
    split; [split; [|lra]|split; [exact Mt|]].
    + destruct (Req_dec t 0) as [->|Z]; [|lra]. exfalso. apply M in Mt. rewrite sc2, sin_0 in Mt. apply mix_inv in Mt; try lra. assert (E : N = gn_o P) by (apply inv_sq_eq; lra). lra.
    + intros t' B' M'. destruct (Rtotal_order t' t) as [T|[T|T]]; [exfalso; exact (U t' t B' B M' Mt T)|exact T|exfalso; exact (U t t' B B' Mt M' T)].
  - intros L. destruct (gas_phasematch a pump sgnl idlr rw) as [[t wl]|e]; [|destruct C59 as [-> _]; reflexivity]. exfalso. destruct C59 as (B & Mt & _). apply M in Mt. rewrite sc2 in Mt. apply mix_inv in Mt; try lra.
    assert (L' : / gn_e P ^ 2 < / N ^ 2) by (apply (proj1 (inv_sq_lt N (gn_e P) N0 ltac:(lra))), L). pose proof (slope (gn_e P) (gn_o P) ltac:(lra)) as Sl. pose proof (sc2 t) as SC. pose proof (pow2_ge_0 (cos t)) as C0.
    assert (0 <= (1 - sin t ^ 2) * (/ gn_e P ^ 2 - / gn_o P ^ 2)) by (apply Rmult_le_pos; lra). lra.
Qed.

(** ** Degenerate mixing *)
Ltac gunf := unfold val4, gas_o, gas_e; cbn [fA fB fC fD fE fF fG fJ fK fa fb fc fd].
Lemma go_low u t : 1 <= u <= 12 -> Rpower u 2.225043 <= t -> t < 900 -> 5.8141 + 176380.0 / (1 - 112586195.0 / t) < val4 gas_o u.
Proof.
  intros Hu Ht T. gunf. gterms u. pose proof (Rpower_ge1 u 2.225043 ltac:(lra) ltac:(lra)) as P1. pose proof (tail_le 176380.0 112586195.0 (Rpower u 2.225043) t ltac:(lra) ltac:(lra) ltac:(lra)). lra.
Qed.
Lemma ge_up u x y s : 1 <= u <= 12 -> 1 <= x -> 1 <= y -> 1 <= s -> x <= Rpower u 2.359877 -> y <= Rpower u 2.566664 -> s <= Rpower u 2.383834 -> val4 gas_e u <= 5.53005 + 0.0510941 / (x - 0.141109) + 0.195314 / (y - -0.0910735) + 4253.78 / (1 - 4304924.0 / s).
Proof.
  intros Hu Hx1 Hy1 Hs1 Hx Hy Hs. gunf. assert (Z : 0 / (Rpower u 0 - 0) = 0) by (unfold Rdiv; ring). rewrite Z.
  pose proof (frac_le 0.0510941 0.141109 (Rpower u 2.359877) x ltac:(lra) ltac:(lra) Hx). pose proof (frac_le 0.195314 (-0.0910735) (Rpower u 2.566664) y ltac:(lra) ltac:(lra) Hy). pose proof (gpow_e u Hu) as P1. pose proof (tail_le 4253.78 4304924.0 s (Rpower u 2.383834) ltac:(lra) ltac:(lra) ltac:(lra)). lra.
Qed.
Lemma go_up u x y z t : 1 <= u <= 12 -> 1 <= x -> 1 <= y -> 1 <= z -> 1 <= t -> x <= Rpower u 3.156983 -> y <= Rpower u 4.430430 -> z <= Rpower u 6.604280 -> t <= Rpower u 2.225043 ->
  val4 gas_o u <= 5.8141 + 0.0867547 / (x - 0.0356502) + 0.0821721 / (y - -0.315646) + 0.506566 / (z - -6.582197) + 176380.0 / (1 - 112586195.0 / t).
Proof.
  intros Hu Hx1 Hy1 Hz1 Ht1 Hx Hy Hz Ht. gunf. pose proof (frac_le 0.0867547 0.0356502 (Rpower u 3.156983) x ltac:(lra) ltac:(lra) Hx). pose proof (frac_le 0.0821721 (-0.315646) (Rpower u 4.430430) y ltac:(lra) ltac:(lra) Hy). pose proof (frac_le 0.506566 (-6.582197) (Rpower u 6.604280) z ltac:(lra) ltac:(lra) Hz).
  pose proof (gpow_o u Hu) as P1. pose proof (tail_le 176380.0 112586195.0 t (Rpower u 2.225043) ltac:(lra) ltac:(lra) ltac:(lra)). lra.
Qed.
Lemma ge_low u s : 1 <= u <= 12 -> Rpower u 2.383834 <= s -> s < 900 -> 5.53005 + 4253.78 / (1 - 4304924.0 / s) < val4 gas_e u.
Proof.
  intros Hu Hs S. gunf. assert (Z : 0 / (Rpower u 0 - 0) = 0) by (unfold Rdiv; ring). rewrite Z.
  pose proof (term_pos 0.0510941 0.141109 _ ltac:(lra) ltac:(lra) (Rpower_ge1 u 2.359877 ltac:(lra) ltac:(lra))) as T4. pose proof (term_pos 0.195314 (-0.0910735) _ ltac:(lra) ltac:(lra) (Rpower_ge1 u 2.566664 ltac:(lra) ltac:(lra))) as T5. pose proof (Rpower_ge1 u 2.383834 ltac:(lra) ltac:(lra)) as P1.
  pose proof (tail_le 4253.78 4304924.0 (Rpower u 2.383834) s ltac:(lra) ltac:(lra) ltac:(lra)). lra.
Qed.
Lemma golow_7 : 5.688 < val4 gas_o 7.
Proof. assert (T : Rpower 7 2.225043 <= 76.7749) by (apply (rp_le 7 _ 29 13); num). pose proof (go_low 7 76.7749 ltac:(lra) T ltac:(lra)). lra. Qed.
Lemma geup_1_2 : val4 gas_e 1.2 < 5.688.
Proof. assert (X : 1.5302 <= Rpower 1.2 2.359877) by (apply (rp_ge 1.2 _ 7 3); num). assert (Y : 1.5774 <= Rpower 1.2 2.566664) by (apply (rp_ge 1.2 _ 5 2); num). assert (S : 1.5418 <= Rpower 1.2 2.383834) by (apply (rp_ge 1.2 _ 19 8); num). pose proof (ge_up 1.2 1.5302 1.5774 1.5418 ltac:(lra) ltac:(lra) ltac:(lra) ltac:(lra) X Y S). lra. Qed.
Lemma golow_10 : 5.535 < val4 gas_o 10.
Proof. assert (T : Rpower 10 2.225043 <= 170.1255) by (apply (rp_le 10 _ 29 13); num). pose proof (go_low 10 170.1255 ltac:(lra) T ltac:(lra)). lra. Qed.
Lemma geup_3_5 : val4 gas_e 3.5 < 5.535.
Proof. assert (X : 18.5991 <= Rpower 3.5 2.359877) by (apply (rp_ge 3.5 _ 7 3); num). assert (Y : 22.9176 <= Rpower 3.5 2.566664) by (apply (rp_ge 3.5 _ 5 2); num). assert (S : 19.5957 <= Rpower 3.5 2.383834) by (apply (rp_ge 3.5 _ 19 8); num). pose proof (ge_up 3.5 18.5991 22.9176 19.5957 ltac:(lra) ltac:(lra) ltac:(lra) ltac:(lra) X Y S). lra. Qed.
Lemma goup_11_8 : val4 gas_o 11.8 < 5.45.
Proof. assert (X : 1643.032 <= Rpower 11.8 3.156983) by (apply (rp_ge 11.8 _ 3 1); num). assert (Y : 19387.7776 <= Rpower 11.8 4.430430) by (apply (rp_ge 11.8 _ 4 1); num). assert (Z : 2699554.153 <= Rpower 11.8 6.604280) by (apply (rp_ge 11.8 _ 6 1); num). assert (T : 240.9683 <= Rpower 11.8 2.225043) by (apply (rp_ge 11.8 _ 20 9); num). pose proof (go_up 11.8 1643.032 19387.7776 2699554.153 240.9683 ltac:(lra) ltac:(lra) ltac:(lra) ltac:(lra) ltac:(lra) X Y Z T). lra. Qed.
Lemma gelow_6 : 5.45 < val4 gas_e 6.
Proof. assert (S : Rpower 6 2.383834 <= 73.7163) by (apply (rp_le 6 _ 12 5); num). pose proof (ge_low 6 73.7163 ltac:(lra) S ltac:(lra)). lra. Qed.
Lemma gole u v : 1 <= u <= v -> v <= 12 -> val4 gas_o v <= val4 gas_o u.
Proof. intros H Hv. destruct (Rle_lt_or_eq_dec u v (proj2 H)) as [L|<-]; [|lra]. pose proof (gval_lt u v ltac:(lra) Hv). lra. Qed.
Lemma gele u v : 1 <= u <= v -> v <= 12 -> val4 gas_e v <= val4 gas_e u.
Proof. intros H Hv. destruct (Rle_lt_or_eq_dec u v (proj2 H)) as [L|<-]; [|lra]. pose proof (gval_lt u v ltac:(lra) Hv). lra. Qed.
Lemma gdeg_yes u : 1.2 <= u <= 5 -> val4 gas_e u < val4 gas_o (2 * u).
Proof.
  intros H. destruct (Rle_dec u 3.5) as [L|L].
  - pose proof (gele 1.2 u ltac:(lra) ltac:(lra)). pose proof (gole (2 * u) 7 ltac:(lra) ltac:(lra)). pose proof geup_1_2. pose proof golow_7. lra.
  - pose proof (gele 3.5 u ltac:(lra) ltac:(lra)). pose proof (gole (2 * u) 10 ltac:(lra) ltac:(lra)). pose proof geup_3_5. pose proof golow_10. lra.
Qed.
Lemma gdeg_no u : 5.9 <= u <= 6 -> val4 gas_o (2 * u) < val4 gas_e u.
Proof. intros H. pose proof (gele u 6 ltac:(lra) ltac:(lra)). pose proof (gole 11.8 (2 * u) ltac:(lra) ltac:(lra)). pose proof goup_11_8. pose proof gelow_6. lra. Qed.

(*! C132: frequency doubling into (or degenerate down-conversion of) the wavelength P in the constructed sulfide crystal: phasematch finds an angle for every P from 1.2 to 5.0 um, at which the two waves see the same index, and raises AttributeError for every P from 5.9 to 6.0 um. *)
Lemma C132_doubling_l : forall (theta P : R) (pump sgnl idlr w : option R) (rw : bool), let a := gas_init theta in
  (pump = Some P /\ sgnl = Some (2 * P) /\ idlr = Some (2 * P) /\ w = None \/ pump = None /\ sgnl = Some (2 * P) /\ idlr = Some (2 * P) /\ w = Some P \/
   pump = Some P /\ sgnl = None /\ idlr = Some (2 * P) /\ w = Some (2 * P) \/ pump = Some P /\ sgnl = Some (2 * P) /\ idlr = None /\ w = Some (2 * P)) ->
  (1200 <= P <= 5000 -> exists t np n2, gas_phasematch a pump sgnl idlr rw = Ok (t, if rw then w else None) /\ 0 < t <= PI / 2 /\ gas_n (gas_set_theta t a) P "mix" = Ok np /\ gas_n (gas_set_theta t a) (2 * P) "o" = Ok n2 /\ np = n2) /\
  (5900 <= P <= 6000 -> gas_phasematch a pump sgnl idlr rw = Raise AttributeError).
Proof.
  intros theta P pump sgnl idlr w rw a Hw. split.
  - intros HP. destruct (C132_criterion_l theta P (2 * P) (2 * P) pump sgnl idlr w rw ltac:(lra) ltac:(lra) ltac:(lra) ltac:(field; lra) ltac:(exact Hw)) as (ne & no & ns & ni & Ee & Eo & Es & Ei & H). cbv zeta in H. destruct H as (_ & H & _). fold a in H, Ee, Eo, Es, Ei.
    assert (ns = ni) by congruence. subst ni.
    destruct (goe_val theta P ltac:(lra)) as [Eo' Ee']. destruct (goe_val theta (2 * P) ltac:(lra)) as [Es' _]. change (mkGas gas_o gas_e theta) with a in Eo', Ee', Es'.
    assert (ne = gn_e P) by congruence. assert (ns = gn_o (2 * P)) by congruence. subst ne ns. clear Ei.
    assert (E : P * (gn_o (2 * P) / (2 * P) + gn_o (2 * P) / (2 * P)) = gn_o (2 * P)) by (field; lra). rewrite E in H.
    assert (L : gn_e P <= gn_o (2 * P)). { left. unfold gn_e, gn_o. pose proof (gval_low (P * 0.001) ltac:(lra)). pose proof (gval_low (2 * P * 0.001) ltac:(lra)). apply sqrt_lt_1; try lra. replace (2 * P * 0.001) with (2 * (P * 0.001)) by lra. apply gdeg_yes. lra. }
    destruct (H L) as (t & Et & Bt & (m & Em & Hm) & _). exists t, m, (gn_o (2 * P)). split; [exact Et|]. split; [exact Bt|]. split; [exact Em|]. split; [exact (proj1 (goe_val t (2 * P) ltac:(lra)))|].
    pose proof PI_RGT_0 as PIp. apply (Rmult_eq_reg_r (2 * PI / P)); [|apply Rmult_integral_contrapositive_currified; [lra|apply Rinv_neq_0_compat; lra]]. rewrite Hm. field. lra.
  - intros HP. destruct (C132_criterion_l theta P (2 * P) (2 * P) pump sgnl idlr w rw ltac:(lra) ltac:(lra) ltac:(lra) ltac:(field; lra) ltac:(exact Hw)) as (ne & no & ns & ni & Ee & Eo & Es & Ei & H). cbv zeta in H. destruct H as (_ & _ & H). fold a in H, Ee, Eo, Es, Ei.
    assert (ns = ni) by congruence. subst ni. apply H.
    destruct (goe_val theta P ltac:(lra)) as [Eo' Ee']. destruct (goe_val theta (2 * P) ltac:(lra)) as [Es' _]. change (mkGas gas_o gas_e theta) with a in Eo', Ee', Es'.
    assert (ne = gn_e P) by congruence. assert (ns = gn_o (2 * P)) by congruence. subst ne ns. replace (P * (gn_o (2 * P) / (2 * P) + gn_o (2 * P) / (2 * P))) with (gn_o (2 * P)) by (field; lra).
    unfold gn_e, gn_o. pose proof (gval_low (P * 0.001) ltac:(lra)). pose proof (gval_low (2 * P * 0.001) ltac:(lra)). apply sqrt_lt_1; try lra. replace (2 * P * 0.001) with (2 * (P * 0.001)) by lra. apply gdeg_no. lra.
Qed.

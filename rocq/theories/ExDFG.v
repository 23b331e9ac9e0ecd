(** Concrete cases for the difference-frequency theorems C49-C54, C69-C71: two points, 1 ps window, pump at 30 THz, signal at 20 THz, a dispersive crystal of length 3. *)
From Coq Require Import String.
From Coq Require Import Reals List ZArith Bool Arith Lia Lra.
From Coquelicot Require Import Coquelicot.
From Verif Require Import Base CNum NumPy FFTProofs ModelPulse Spec ModelDerived PulseProofs PulseHistory PulseRegridProofs ModelCrystal CrystalProofs ModelBeam BeamProofs ExOptics ModelODE ModelDFG DFGMixProofs DFGPolingProofs DFGProofs DFGInitProofs DFGOutProofs DFGSymProofs DFGTotalProofs DFGAcceptProofs.
From Verif Require Import PropsDFGMix PropsDFGPoling PropsDFGInit PropsDFGOut PropsDFGSym PropsDFGTotal PropsDFGAccept.
Import ListNotations.
Local Open Scope R_scope.
Local Open Scope py_scope.

Definition pu : pulse := mkPulse 2 30 1 (Some [RtoC 2; Ci]) None true None None None None.
Definition sg : pulse := mkPulse 2 20 1 (Some [RtoC 1; RtoC 1]) None true None None None None.
Definition xd (mode : string) : dcrystal := mkDX (mkX (Agse bx) (Some 3) false) mode 5 (fun _ => 1).
Definition idx (wl : R) : R := sqrt (16 / 3 + 11 / 3 / (wl * 0.001) ^ 2).
Lemma idx_arg wl : 0 < wl -> 0 < 16 / 3 + 11 / 3 / (wl * 0.001) ^ 2.
Proof. intros H. assert (0 < (wl * 0.001) ^ 2) by (apply pow_lt; lra). assert (0 < 11 / 3 / (wl * 0.001) ^ 2) by (apply Rdiv_lt_0_compat; lra). lra. Qed.
Lemma idx_pos wl : 0 < wl -> 0 < idx wl. Proof. intros H. apply sqrt_lt_R0, idx_arg, H. Qed.
Lemma xd_n wl : 0 < wl -> agse_n bx wl "mix" = Ok (idx wl).
Proof.
  intros H. pose proof (idx_pos wl H) as P. assert (E : sell_n so wl = Ok (idx wl)) by (apply sell_val; [exact H|lra|symmetry; apply pow2_sqrt, Rlt_le, idx_arg, H]).
  unfold agse_n. cbn [bx ag_o ag_e ag_theta]. rewrite E, bx_ne by exact H. cbn [rbind]. change (String.eqb "mix" "mix") with true. cbv iota. rewrite !fdiv_ok; [|apply pow_nonzero; lra..]. cbn [rbind]. rewrite sin_0, cos_0. replace (0 ^ 2 / 2 ^ 2 + 1 ^ 2 / idx wl ^ 2) with ((/ idx wl) ^ 2) by (field; lra). rewrite fsqrt_ok by apply pow2_ge_0. cbn [rbind].
  assert (Q : 0 < / idx wl) by (apply Rinv_0_lt_compat, P). rewrite <- Rsqr_pow2, sqrt_Rsqr by lra. rewrite fdiv_ok by lra. f_equal. field. lra.
Qed.
Lemma xd_index mode l : (forall w, In w l -> 0 < w) -> index (x_mat (dx_x (xd mode))) None l = Ok (map idx l).
Proof. cbn [xd dx_x x_mat index]. induction l as [|w l IH]; intros H; [reflexivity|]. cbn [rtraverse map]. rewrite xd_n by (apply H; left; reflexivity). cbn [rbind]. rewrite IH by (intros u Hu; apply H; right; exact Hu). reflexivity. Qed.
Lemma xd_pos mode : index_pos (xd mode).
Proof. intros l H. exists (map idx l). split; [apply xd_index, H|]. intros v Hv. apply in_map_iff in Hv as (w & <- & Hw). apply idx_pos, H, Hw. Qed.
Lemma cur_pu strf : cur_W strf pu /\ cur_wl strf pu. Proof. unfold cur_W, cur_wl. rewrite <- W_of_spec. split; reflexivity. Qed.
Lemma cur_sg strf : cur_W strf sg /\ cur_wl strf sg. Proof. unfold cur_W, cur_wl. rewrite <- W_of_spec. split; reflexivity. Qed.
Lemma om f k : (k < 2)%nat -> nth k (spec_W 2 1 f) 0 = 2 * PI * (f - 1 + INR k).
Proof. intros H. rewrite spec_W_nth by exact H. cbn [INR]. field. Qed.
Lemma k01 k : (k < 2)%nat -> 0 <= INR k <= 1.
Proof. intros H. split; [apply pos_INR|]. change 1 with (INR 1). apply le_INR. lia. Qed.
Lemma ex_ranges k : (k < 2)%nat -> 0 < omega pu k /\ 0 < omega sg k /\ 0 < nth k (spec_W 2 (p_tw pu) (p_f pu - p_f sg)) 0.
Proof. intros H. unfold omega. cbn [pu sg p_n p_tw p_f]. rewrite !om by exact H. pose proof (k01 k H). pose proof PI_RGT_0. repeat split; apply Rmult_lt_0_compat; lra. Qed.
Lemma ex_order a b : (a < 2)%nat -> (b < 2)%nat -> omega sg b <= omega pu a /\ nth b (spec_W 2 (p_tw pu) (p_f pu - p_f sg)) 0 <= omega sg a.
Proof. intros H H'. unfold omega. cbn [pu sg p_n p_tw p_f]. rewrite !om by assumption. pose proof (k01 a H). pose proof (k01 b H'). pose proof PI_RGT_0. split; apply Rmult_le_compat_l; lra. Qed.
Lemma ex_poled : exists doms, precompute_poling 3 (xd "PP") = Ok doms.
Proof. apply (C52_terminates (xd "PP") 3 1 3 eq_refl ltac:(lra)); [intros; cbn; lra|]. cbn [INR]. lra. Qed.
Lemma ex_mode mode : mode = "simple"%string \/ mode = "PP"%string -> dx_mode (xd mode) = "simple"%string \/ dx_mode (xd mode) = "PP"%string /\ exists doms, precompute_poling 3 (xd mode) = Ok doms.
Proof. intros [-> | ->]; [left; reflexivity|right; split; [reflexivity|exact ex_poled]]. Qed.

(** C71 and C54: the problem is accepted and its right-hand side is total *)
Example ex_C71 : forall strf rand gouy k0 mode, mode = "simple"%string \/ mode = "PP"%string -> exists q, dfg_init strf 3 rand pu sg (xd mode) true 1 gouy true (Some 100) k0 = (Ok (q, fftc_init 2), k0) /\ q_n q = 2%nat /\ length (q_ystart q) = 6%nat /\
  forall z y dydx s, fc_ok 2 (ds_fc s) -> length y = 6%nat -> length dydx = 6%nat -> exists d s', deriv strf q z y dydx s = (Ok d, s') /\ length d = 6%nat /\ fc_ok 2 (ds_fc s').
Proof.
  intros strf rand gouy k0 mode Hm. destruct (cur_pu strf) as [A B]. destruct (cur_sg strf) as [C D]. apply (C71_accepted strf 3 rand pu sg (xd mode) 1 gouy 100 3 k0 2 [RtoC 2; Ci] [RtoC 1; RtoC 1]); try assumption; try reflexivity; try (repeat split; reflexivity); try lia; try lra.
  - cbn. lra.
  - exact ex_ranges.
  - exact ex_order.
  - apply xd_pos.
  - apply ex_mode, Hm.
Qed.
Lemma pf_ne : p_f pu <> 0 /\ p_f sg <> 0. Proof. cbn. split; apply Rgt_not_eq; lra. Qed.
Lemma fc_ok_init n : fc_ok n (fftc_init n). Proof. unfold fc_ok, fftc_init. cbn [fc_n fc_in fc_tr fc_out]. rewrite repeat_length. repeat split; lia. Qed.
Example ex_C54 : forall strf rand k0, exists q fc k1, dfg_init strf 3 rand pu sg (xd "PP") true 1 false true (Some 100) k0 = (Ok (q, fc), k1) /\ p_f (q_idlr q) = 30 - 20 /\ omega pu 0 = omega sg 1 + omega (q_idlr q) 0 /\ 0 < omega (q_idlr q) 0 <= omega sg 1.
Proof.
  intros strf rand k0. destruct (ex_C71 strf rand false k0 "PP" (or_intror eq_refl)) as (q & E & Qn & _). exists q, (fftc_init 2), k0. split; [exact E|]. destruct pf_ne as [P1 P2]. destruct (cur_pu strf) as [A B]. destruct (cur_sg strf) as [C D].
  destruct (C54_accepted_grids _ _ _ _ _ _ _ _ _ _ _ _ _ _ _ E P1 P2) as (_ & _ & F & T & N & N' & Ni & _ & _ & En & Or). rewrite Qn in *. split; [exact F|]. split.
  - apply En; [reflexivity|exists 1%nat; reflexivity|lia..|reflexivity].
  - assert (Z : 0 < omega (q_idlr q) 0). { pose proof (proj2 (proj2 (ex_ranges 0 ltac:(lia)))) as Z. unfold omega. rewrite Ni, T, F. exact Z. }
    apply (Or ltac:(lia) B D ltac:(intros k Hk; apply (ex_ranges k Hk)) ltac:(intros k Hk; apply (ex_ranges k Hk)) 1%nat 0%nat ltac:(lia) ltac:(lia)). lra.
Qed.
(** C54: the signal in place of the pump (its grid is below), and a pump of another size *)
Example ex_C54_overlap : forall strf rand k0, fst (dfg_init strf 3 rand sg pu (xd "PP") true 1 false true (Some 100) k0) = Raise ValueError.
Proof.
  intros strf rand k0. destruct (cur_pu strf) as [A B]. destruct (cur_sg strf) as [C D]. destruct pf_ne as [P1 P2]. apply C54_rejects; try assumption; try (cbn; lia).
  - cbn. apply Rlt_not_eq. lra.
  - discriminate.
  - intros k Hk. apply (ex_ranges k Hk).
  - intros k Hk. apply (ex_ranges k Hk).
  - left. exists 0%nat, 0%nat. split; [cbn; lia|]. split; [cbn; lia|]. unfold omega. cbn [pu sg p_n p_tw p_f]. rewrite !om by lia. pose proof PI_RGT_0. cbn [INR]. apply Rmult_lt_compat_l; lra.
Qed.
Example ex_C54_sizes : forall strf rand k0 r, fst (dfg_init strf 3 rand (with_n 3 pu) sg (xd "PP") true 1 false true (Some 100) k0) <> Ok r.
Proof. intros. apply C54_sizes. cbn. lia. Qed.

(** C49: [1; 2] * [3; 4] about the centre index 1: elements 3*1 + ... ; buffers with arbitrary contents *)
Definition dirty : fftc := mkFC 2 (repeat Ci 4) (repeat Ci 4) (repeat Ci 4).
Example ex_C49_conv : exists out s', conv [RtoC 1; RtoC 2] [RtoC 3; RtoC 4] dirty = (Ok out, s') /\ nth 0 out (RtoC 0) = RtoC 10 /\ nth 1 out (RtoC 0) = RtoC 8.
Proof.
  destruct (C49_conv 2 dirty [RtoC 1; RtoC 2] [RtoC 3; RtoC 4]) as (out & s' & E & _ & _ & V); [repeat split|lia|reflexivity..|]. exists out, s'. split; [exact E|]. rewrite !V by lia. unfold csum, lsum, mk. cbn [seq map fold_right nth Nat.add Nat.div2 Nat.eqb]. split; unfold RtoC, Cplus, Cmult; cbn [fst snd]; f_equal; ring.
Qed.
Example ex_C49_corr : exists out s', corr [RtoC 1; Ci] [RtoC 3; Ci] dirty = (Ok out, s') /\ nth 0 out (RtoC 0) = (RtoC 0 - Ci)%C /\ nth 1 out (RtoC 0) = RtoC 4.
Proof.
  destruct (C49_corr 2 dirty [RtoC 1; Ci] [RtoC 3; Ci]) as (out & s' & E & _ & _ & V); [repeat split|lia|exists 1%nat; reflexivity|reflexivity..|]. exists out, s'. split; [exact E|]. rewrite !V by lia. change (2 / 2)%nat with 1%nat. unfold csum, lsum, mk. cbn [seq map fold_right nth Nat.add Nat.eqb]. split; apply injective_projections; cbn; ring.
Qed.
Example ex_C49_odd : exists out s', corr [RtoC 5] [Ci] (mkFC 1 [Ci; Ci] [Ci; Ci] [Ci; Ci]) = (Ok out, s') /\ nth 0 out (RtoC 0) = RtoC 0.
Proof.
  destruct (C49_corr_odd 1 (mkFC 1 [Ci; Ci] [Ci; Ci] [Ci; Ci]) [RtoC 5] [Ci]) as (out & s' & E & _ & _ & V); [repeat split|exists 0%nat; reflexivity|reflexivity..|]. exists out, s'. split; [exact E|]. rewrite V by lia. change (1 / 2)%nat with 0%nat. unfold csum, lsum, mk. cbn [seq map fold_right nth Nat.add Nat.eqb]. unfold RtoC, Cplus. cbn [fst snd]. f_equal; ring.
Qed.

(** C52: period 1, three periods; at 0.25 the sign is +1, at 1.75 it is -1 *)
Example ex_C52 : exists doms, precompute_poling 3 (xd "PP") = Ok doms /\ poling doms 0.25 = 1 /\ poling doms 1.75 = -1 /\ poling doms 3.2 = 1.
Proof.
  destruct ex_poled as [doms E]. exists doms. split; [exact E|]. destruct (C52_pattern (xd "PP") 3 3 doms eq_refl E ltac:(intros; cbn; lra)) as (H & Ho & _). split; [|split].
  - rewrite (H 0%nat 0.25); [|intros j Hj; replace j with 0%nat by lia; cbn; lra|cbn; lra]. cbn [period_start]. destruct (Rlt_dec _ _) as [L|]; [cbn in L; lra|reflexivity].
  - rewrite (H 1%nat 1.75); [|intros j Hj; destruct j as [|[|j]]; [cbn; lra|cbn; lra|lia]|cbn; lra]. destruct (Rlt_dec _ _) as [|L]; [reflexivity|cbn in L; lra].
  - apply Ho. intros k Hin. destruct k as [|[|[|k]]]; [cbn; lra|cbn; lra|cbn; lra|]. specialize (Hin 3%nat ltac:(lia)). cbn in Hin. lra.
Qed.
Example ex_C52_unbounded : forall fuel, precompute_poling fuel (mkDX (mkX (Agse bx) (Some 3) false) "PP" 5 (fun z => (3 - z) / 2)) = Raise NoFuel.
Proof. intros fuel. apply (C52_unbounded (Agse bx) 3 5 fuel). lra. Qed.

(** C50, C51: a field with all three parts present *)
Definition ye : list C := [RtoC 2; Ci; RtoC 1; RtoC 1; RtoC 3; Ci].
Definition s0 : dstate := mkDS shared0 dirty.
Lemma ex_problem : forall strf rand k0, exists q d s', dfg_init strf 3 rand pu sg (xd "PP") true 1 true true (Some 100) k0 = (Ok (q, fftc_init 2), k0) /\ q_n q = 2%nat /\ deriv strf q 0.7 ye (repeat (RtoC 0) 6) s0 = (Ok d, s') /\ length d = 6%nat.
Proof.
  intros strf rand k0. destruct (ex_C71 strf rand true k0 "PP" (or_intror eq_refl)) as (q & E & Qn & _ & T). destruct (T 0.7 ye (repeat (RtoC 0) 6) s0) as (d & s' & Ed & Ld & _); [repeat split|reflexivity|reflexivity|]. exists q, d, s'. auto.
Qed.
Lemma idl_ne strf fuel rand x noSPM waist gouy wg Aeff k0 q fc k1 k : dfg_init strf fuel rand pu sg x noSPM waist gouy wg Aeff k0 = (Ok (q, fc), k1) -> (k < 2)%nat -> 0 < omega (q_idlr q) k.
Proof.
  intros E Hk. destruct pf_ne as [P1 P2]. destruct (C54_accepted_grids _ _ _ _ _ _ _ _ _ _ _ _ _ _ _ E P1 P2) as (_ & _ & F & T & N & _ & Ni & _). pose proof (proj2 (proj2 (ex_ranges k Hk))) as Z. unfold omega. rewrite Ni, T, F, <- N. exact Z.
Qed.
Example ex_C50_C51 : forall strf rand k0, exists q d s' D, dfg_init strf 3 rand pu sg (xd "PP") true 1 true true (Some 100) k0 = (Ok (q, fftc_init 2), k0) /\ deriv strf q 0.7 ye (repeat (RtoC 0) 6) s0 = (Ok d, s') /\
  rsum 2 (fun m => 2 * Re (Cconj (nth m (Ap q ye) (RtoC 0)) * nth m (Ap q d) (RtoC 0))%C / omega pu m) = - D /\ rsum 2 (fun m => 2 * Re (Cconj (nth m (As q ye) (RtoC 0)) * nth m (As q d) (RtoC 0))%C / omega sg m) = D /\
  rsum 6 (fun m => 2 * Re (Cconj (nth m ye (RtoC 0)) * nth m d (RtoC 0))%C) = 0.
Proof.
  intros strf rand k0. destruct (ex_problem strf rand k0) as (q & d & s' & E & Qn & Ed & Ld). destruct pf_ne as [P1 P2]. destruct (cur_pu strf) as [A _]. destruct (cur_sg strf) as [C _]. assert (Ev : Nat.Even 2) by (exists 1%nat; reflexivity). assert (Fc : fc_ok 2 (ds_fc s0)) by (repeat split).
  assert (Nz : forall k, (k < 2)%nat -> omega pu k <> 0 /\ omega sg k <> 0 /\ omega (q_idlr q) k <> 0) by (intros k Hk; pose proof (ex_ranges k Hk); pose proof (idl_ne _ _ _ _ _ _ _ _ _ _ _ _ _ k E Hk); repeat split; apply Rgt_not_eq; lra).
  destruct (C50_manley_rowe strf 3 rand pu sg (xd "PP") true 1 true (Some 100) k0 q (fftc_init 2) k0 0.7 ye (repeat (RtoC 0) 6) s0 d s' 2 E Qn ltac:(lia) Ev P1 P2 A C Nz Fc eq_refl eq_refl Ed) as (D & D1 & D2 & _).
  exists q, d, s', D. split; [exact E|]. split; [exact Ed|]. split; [exact D1|]. split; [exact D2|]. apply (C51_power_stationary strf 3 rand pu sg (xd "PP") true 1 true (Some 100) k0 q (fftc_init 2) k0 0.7 ye (repeat (RtoC 0) 6) s0 d s' 2 E Qn ltac:(lia) Ev P1 P2 A C eq_refl Fc eq_refl eq_refl Ed).
Qed.
(** C69: pump times i, signal times 2, idler times 1 - i; and a delay with phases *)
Definition yscaled : list C := [Ci * RtoC 2; Ci * Ci; RtoC 2 * RtoC 1; RtoC 2 * RtoC 1; (1 - Ci) * RtoC 3; (1 - Ci) * Ci]%C.
Example ex_C69_scaling : forall strf rand k0, exists q d d' s' s'', dfg_init strf 3 rand pu sg (xd "PP") true 1 true true (Some 100) k0 = (Ok (q, fftc_init 2), k0) /\
  deriv strf q 0.7 ye (repeat (RtoC 0) 6) s0 = (Ok d, s') /\ deriv strf q 0.7 yscaled (repeat (RtoC 0) 6) s0 = (Ok d', s'') /\ nth 1 (Ap q d') (RtoC 0) = (RtoC 2 * (1 - Ci) * nth 1 (Ap q d) (RtoC 0))%C.
Proof.
  intros strf rand k0. destruct (ex_C71 strf rand true k0 "PP" (or_intror eq_refl)) as (q & E & Qn & _ & T). destruct (T 0.7 ye (repeat (RtoC 0) 6) s0) as (d & s' & Ed & Ld & _); [repeat split|reflexivity|reflexivity|]. destruct (T 0.7 yscaled (repeat (RtoC 0) 6) s0) as (d' & s'' & Ed' & Ld' & _); [repeat split|reflexivity|reflexivity|].
  exists q, d, d', s', s''. repeat (split; [assumption|]). assert (Ev : Nat.Even 2) by (exists 1%nat; reflexivity). assert (Fc : fc_ok 2 (ds_fc s0)) by (repeat split).
  apply (C69_scaling strf q 0.7 ye yscaled (repeat (RtoC 0) 6) (repeat (RtoC 0) 6) s0 d d' s' s'' 2 Ci (RtoC 2) (1 - Ci)%C Qn ltac:(lia) Ev Fc eq_refl eq_refl eq_refl eq_refl Ed Ed'); [|lia].
  intros m Hm. unfold Ap, As, Ai. rewrite Qn. destruct m as [|[|m]]; [repeat split..|lia].
Qed.
Definition rot2 (f : R) (m : nat) : C := cis (f + 1 * (INR m - INR 2 / 2)).
Definition yshift : list C := [rot2 2 0 * RtoC 2; rot2 2 1 * Ci; rot2 0.5 0 * RtoC 1; rot2 0.5 1 * RtoC 1; rot2 (2 - 0.5) 0 * RtoC 3; rot2 (2 - 0.5) 1 * Ci]%C.
Example ex_C69_shift : forall strf rand k0, exists q d d' s' s'', dfg_init strf 3 rand pu sg (xd "PP") true 1 true true (Some 100) k0 = (Ok (q, fftc_init 2), k0) /\
  deriv strf q 0.7 ye (repeat (RtoC 0) 6) s0 = (Ok d, s') /\ deriv strf q 0.7 yshift (repeat (RtoC 0) 6) s0 = (Ok d', s'') /\ nth 1 (Ai q d') (RtoC 0) = (rot2 (2 - 0.5) 1 * nth 1 (Ai q d) (RtoC 0))%C.
Proof.
  intros strf rand k0. destruct (ex_C71 strf rand true k0 "PP" (or_intror eq_refl)) as (q & E & Qn & _ & T). destruct (T 0.7 ye (repeat (RtoC 0) 6) s0) as (d & s' & Ed & Ld & _); [repeat split|reflexivity|reflexivity|]. destruct (T 0.7 yshift (repeat (RtoC 0) 6) s0) as (d' & s'' & Ed' & Ld' & _); [repeat split|reflexivity|reflexivity|].
  exists q, d, d', s', s''. repeat (split; [assumption|]). assert (Ev : Nat.Even 2) by (exists 1%nat; reflexivity). assert (Fc : fc_ok 2 (ds_fc s0)) by (repeat split).
  apply (C69_shift strf q 0.7 ye yshift (repeat (RtoC 0) 6) (repeat (RtoC 0) 6) s0 d d' s' s'' 2 1 2 0.5 Qn ltac:(lia) Ev Fc eq_refl eq_refl eq_refl eq_refl Ed Ed'); [|lia].
  intros m Hm. unfold Ap, As, Ai. rewrite Qn. destruct m as [|[|m]]; [repeat split..|lia].
Qed.
(** C51 (conserved): without signal and idler nothing happens, a solution of the equations *)
Definition yc : list C := [RtoC 2; Ci; RtoC 0; RtoC 0; RtoC 0; RtoC 0].
Example ex_C51_conserved : forall strf rand k0, exists q, dfg_init strf 3 rand pu sg (xd "PP") true 1 true true (Some 100) k0 = (Ok (q, fftc_init 2), k0) /\
  (forall z, deriv strf q z yc (repeat (RtoC 0) 6) s0 = (Ok (repeat (RtoC 0) 6), snd (deriv strf q z yc (repeat (RtoC 0) 6) s0))) /\
  rsum 6 (fun m => Cmod (nth m yc (RtoC 0)) ^ 2) = rsum 6 (fun m => Cmod (nth m yc (RtoC 0)) ^ 2).
Proof.
  intros strf rand k0. destruct (ex_C71 strf rand true k0 "PP" (or_intror eq_refl)) as (q & E & Qn & _ & T). exists q. split; [exact E|]. assert (Ev : Nat.Even 2) by (exists 1%nat; reflexivity). assert (Fc : fc_ok 2 (ds_fc s0)) by (repeat split). destruct pf_ne as [P1 P2]. destruct (cur_pu strf) as [A _]. destruct (cur_sg strf) as [C _].
  assert (Z : forall z, deriv strf q z yc (repeat (RtoC 0) 6) s0 = (Ok (repeat (RtoC 0) 6), snd (deriv strf q z yc (repeat (RtoC 0) 6) s0))).
  { intros z. destruct (T z yc (repeat (RtoC 0) 6) s0 Fc eq_refl eq_refl) as (d & s' & Ed & Ld & _). rewrite Ed. cbn [snd]. assert (D : d = repeat (RtoC 0) 6); [|rewrite D; reflexivity].
    pose proof (C69_scaling strf q z yc yc (repeat (RtoC 0) 6) (repeat (RtoC 0) 6) s0 d d s' s' 2 (RtoC 1) (RtoC 0) (RtoC 0) Qn ltac:(lia) Ev Fc eq_refl eq_refl eq_refl eq_refl Ed Ed) as H.
    assert (H' : forall m, (m < 2)%nat -> nth m (Ap q d) (RtoC 0) = RtoC 0 /\ nth m (As q d) (RtoC 0) = RtoC 0 /\ nth m (Ai q d) (RtoC 0) = RtoC 0).
    { intros m Hm. destruct (H) with (m := m) as (H1 & H2 & H3); [|exact Hm|].
      - intros k Hk. unfold Ap, As, Ai. rewrite Qn. destruct k as [|[|k]]; [repeat split; apply injective_projections; cbn; ring..|lia].
      - rewrite H1, H2, H3. repeat split; apply injective_projections; cbn; ring. }
    apply (nth_ext _ _ (RtoC 0) (RtoC 0)); [rewrite repeat_length; exact Ld|]. intros m Hm. rewrite Ld in Hm. rewrite nth_repeat. pose proof (field_nth q d 2 Qn Ld) as F.
    destruct (F 0%nat ltac:(lia)) as (F1 & F2 & F3). destruct (F 1%nat ltac:(lia)) as (G1 & G2 & G3). cbn [Nat.add Nat.mul] in F2, F3, G2, G3. destruct (H' 0%nat ltac:(lia)) as (K1 & K2 & K3). destruct (H' 1%nat ltac:(lia)) as (L1 & L2 & L3).
    destruct m as [|[|[|[|[|[|m]]]]]]; [congruence..|lia]. }
  split; [exact Z|]. apply (C51_power_conserved strf 3 rand pu sg (xd "PP") true 1 true (Some 100) k0 q (fftc_init 2) k0 2 (fun _ => yc) (fun _ => repeat (RtoC 0) 6) 0 3 E Qn ltac:(lia) Ev P1 P2 A C eq_refl ltac:(lra)).
  intros z _. split; [reflexivity|]. split; [exists (repeat (RtoC 0) 6), s0; eexists; split; [exact Fc|]; split; [reflexivity|apply Z]|]. intros m Hm. rewrite nth_repeat. cbn [Re Im RtoC fst snd]. split; apply (@is_derive_const R_AbsRing R_NormedModule).
Qed.
(** C70: the same problem with SPM left enabled *)
Example ex_C70 : forall strf rand k0, exists q, dfg_init strf 3 rand pu sg (xd "PP") true 1 true true (Some 100) k0 = (Ok (q, fftc_init 2), k0) /\ fst (deriv strf (with_noSPM false q) 0.7 ye (repeat (RtoC 0) 6) s0) = Raise AttributeError.
Proof.
  intros strf rand k0. destruct (ex_problem strf rand k0) as (q & d & s' & E & Qn & Ed & Ld). exists q. split; [exact E|]. apply init_inv in E as (_ & _ & _ & N & _). apply (proj2 (C70_spm_default strf q 0.7 ye (repeat (RtoC 0) 6) s0) d s'). assert (Q : with_noSPM true q = q) by (destruct q; cbn in N |- *; rewrite N; reflexivity). rewrite Q. exact Ed.
Qed.
(** C53: the constructed problem, and one saved row at a distance where the first signal element has turned by half a period *)
Lemma idx_decr u v : 0 < u -> u < v -> idx v < idx u.
Proof.
  intros H1 H2. apply sqrt_lt_1; try (apply Rlt_le, idx_arg; lra). apply Rplus_lt_compat_l. unfold Rdiv. apply Rmult_lt_compat_l; [lra|]. assert (P1 : 0 < (u * 0.001) ^ 2) by (apply pow_lt; lra). assert (P2 : 0 < (v * 0.001) ^ 2) by (apply pow_lt; lra). apply Rinv_lt_contravar; [apply Rmult_lt_0_compat; assumption|]. nra.
Qed.
Definition saved1 (z : R) : output := mkO (Some 1%nat) 6 1 false 1 0 z 0 0 [z] [ye] Complex128.
Lemma ex_dfg : forall strf rand k0, exists q nc z, dfg_init strf 3 rand pu sg (xd "PP") true 1 true true (Some 100) k0 = (Ok (q, fftc_init 2), k0) /\ sized strf q 2 /\ q_pump q = pu /\ q_sgnl q = sg /\ nth_error (q_np q) (q_centre q) = Some nc /\ nc <> 0 /\ p_f (q_idlr q) = 10 /\ dispersion q (c_mks / nc) z 2 = RtoC (-1).
Proof.
  intros strf rand k0. destruct (cur_pu strf) as [A B]. destruct (cur_sg strf) as [C D]. destruct pf_ne as [P1 P2].
  destruct (accepts strf 3 rand pu sg (xd "PP") true 1 true 100 k0 2 [RtoC 2; Ci] [RtoC 1; RtoC 1] ltac:(repeat split) ltac:(repeat split) eq_refl eq_refl ltac:(lia) ltac:(cbn; lra) A C B D ex_ranges ex_order (xd_pos "PP") eq_refl (ex_mode _ (or_intror eq_refl))) as (q & E & Qn & _ & Ln & _ & _ & Pos & Lc & En & ks & Eks & Qks).
  pose proof (init_sized _ _ _ _ _ _ _ _ _ _ _ _ _ _ _ 2 E Qn ltac:(lia) P1 P2 A C B D) as Sz. pose proof (C54_accepted_grids _ _ _ _ _ _ _ _ _ _ _ _ _ _ _ E P1 P2) as (Qp & Qs & Fi & _).
  set (wl := fun p => map (fun w => 2 * PI * c_nmps / w) (spec_W (p_n p) (p_tw p) (p_f p))). assert (Rp : forall w, In w (wl pu) -> 0 < w) by (apply wl_pos; intros k Hk; apply (ex_ranges k Hk)). assert (Rs : forall w, In w (wl sg) -> 0 < w) by (apply wl_pos; intros k Hk; apply (ex_ranges k Hk)).
  assert (Np : q_np q = map idx (wl pu)).
  { unfold n_at, reading, get_pulse_n in En. cbn [xd dx_x x_caching] in En. unfold compute_n, bind, on_pulse in En. cbn [snd fst] in En. unfold cur_wl in B. destruct (get_wl_nm strf pu) as [r p1]. cbn [fst] in B. subst r. unfold as_array, ret, lift in En. fold (wl pu) in En. pose proof (xd_index "PP" _ Rp) as X. cbn [xd dx_x] in X. cbn [x_mat] in X, En. rewrite X in En. injection En as <-. reflexivity. }
  destruct (k_at_ok strf sg (xd "PP") k0 2 (xd_pos "PP") D C eq_refl ltac:(intros k Hk; apply (ex_ranges k Hk))) as (ks' & Eks' & Lks & Vks). rewrite Eks in Eks'. injection Eks' as <-. specialize (Vks _ (xd_index "PP" _ Rs) 0%nat ltac:(lia)).
  set (nc := nth (q_centre q) (q_np q) 0). assert (Enc : nth_error (q_np q) (q_centre q) = Some nc) by (apply nth_error_nth'; lia). assert (Hnc : 0 < nc) by (apply Pos, in_or_app; left; apply nth_In; lia).
  assert (Vnc : nc = idx (2 * PI * c_nmps / omega pu (q_centre q))). { unfold nc. rewrite Np, (nth_map' idx _ _ 0) by (unfold wl; rewrite map_length, spec_W_length; exact Lc). f_equal. unfold wl. rewrite (nth_map' (fun w => 2 * PI * c_nmps / w) _ _ 0) by (rewrite spec_W_length; exact Lc). reflexivity. }
  assert (Vns : nth 0 (map idx (wl sg)) 0 = idx (2 * PI * c_nmps / omega sg 0)). { rewrite (nth_map' idx _ _ 0) by (unfold wl; rewrite map_length, spec_W_length; cbn; lia). f_equal. }
  assert (Hc : 0 < 2 * PI * c_nmps) by (pose proof PI_RGT_0; unfold c_nmps, c_mks; nra). pose proof (ex_ranges (q_centre q) Lc) as (R1 & _ & _). pose proof (ex_ranges 0 ltac:(lia)) as (_ & R2 & _).
  assert (Lt : omega sg 0 < omega pu (q_centre q)). { unfold omega. cbn [pu sg p_n p_tw p_f]. rewrite !om by (lia || exact Lc). pose proof (k01 _ Lc). pose proof PI_RGT_0. cbn [INR]. apply Rmult_lt_compat_l; lra. }
  assert (Ds : nth 0 (map idx (wl sg)) 0 < nc). { rewrite Vns, Vnc. apply idx_decr; [apply Rdiv_lt_0_compat; assumption|]. unfold Rdiv. apply Rmult_lt_compat_l; [exact Hc|]. apply Rinv_lt_contravar; [apply Rmult_lt_0_compat; assumption|exact Lt]. }
  set (ns := nth 0 (map idx (wl sg)) 0) in *. set (g := (ns - nc) * (omega sg 0 * 1000000000000) / c_mks). assert (G : g <> 0) by (unfold g; apply Rlt_not_eq; assert (X : 0 < (nc - ns) * (omega sg 0 * 1000000000000) / c_mks) by (apply Rdiv_lt_0_compat; [apply Rmult_lt_0_compat; lra|unfold c_mks; lra]); unfold Rdiv in *; lra).
  exists q, nc, (PI / g). split; [exact E|]. split; [exact Sz|]. split; [exact Qp|]. split; [exact Qs|]. split; [exact Enc|]. split; [lra|]. split; [rewrite Fi; cbn; lra|].
  unfold dispersion. rewrite Qn. cbn [Nat.ltb Nat.leb Nat.mul Nat.add Nat.sub]. unfold delay. rewrite Qks, Qs, (nth_map' (fun k => k - q_ks0 q) ks 0 0) by lia. rewrite Vks.
  match goal with |- cis ?e = _ => replace e with PI end. { unfold cis. rewrite cos_PI, sin_PI. reflexivity. }
  change (nth 0 (map idx _) 0) with ns. transitivity (PI / g * g); [field; exact G|]. unfold g at 2. field. repeat split; try exact G; try (unfold c_mks; lra); lra.
Qed.
Example ex_C53_read : forall strf rand k0, exists q f z w1 w2 w3 i p a, dfg_init strf 3 rand pu sg (xd "PP") true 1 true true (Some 100) k0 = (Ok (q, fftc_init 2), k0) /\
  process_stepper_output strf q (mkRW (saved1 z) []) = (Ok f, w1) /\ reads [(Pump, 0%nat)] f w1 = (Ok tt, w2) /\ get_sgnl f 0 w2 = (Ok i, w3) /\ nth_error (rw_pulses w3) i = Some p /\ holds p a /\ p_f p = 20 /\ nth 0 a (RtoC 0) = RtoC (-1).
Proof.
  intros strf rand k0. destruct (ex_dfg strf rand k0) as (q & nc & z & E & Sz & Qp & Qs & Enc & Hnc & Fi & Ds).
  destruct (C53_read_after_processing_partial strf q 2 nc [RtoC 2; Ci] (mkRW (saved1 z) []) 1 [(Pump, 0%nat)] Sgnl 0 Sz) as (f & w1 & w2 & w3 & i & p & a & H1 & H2 & H3 & _ & H4 & H5 & _ & H6 & _ & H7 & _).
  - repeat split; cbn; try lia; [exists 1%nat; reflexivity|]. intros k Hk. replace k with 0%nat by lia. reflexivity.
  - exact Enc.
  - exact Hnc.
  - rewrite Qp. repeat split.
  - rewrite Qp. cbn. apply Rgt_not_eq. lra.
  - rewrite Qs. cbn. apply Rgt_not_eq. lra.
  - rewrite Fi. apply Rgt_not_eq. lra.
  - intros x' k' [[= <- <-]|[]]. lia.
  - lia.
  - exists q, f, z, w1, w2, w3, i, p, a. repeat (split; [assumption|]). split; [rewrite H6; cbn [source]; rewrite Qs; reflexivity|]. rewrite (H7 0%nat) by lia. cbn [slot rw_out saved1 o_ysave o_xsave nth Nat.add]. rewrite Ds. cbn [ye nth]. apply injective_projections; cbn; ring.
Qed.
Example ex_C53_twice : forall strf rand k0, exists q f1 f2 z w1 w2, dfg_init strf 3 rand pu sg (xd "PP") true 1 true true (Some 100) k0 = (Ok (q, fftc_init 2), k0) /\
  process_stepper_output strf q (mkRW (saved1 z) []) = (Ok f1, w1) /\ process_stepper_output strf q w1 = (Ok f2, w2) /\ nth 2 (nth 0 (o_ysave (rw_out w2)) []) (RtoC 0) <> nth 2 (nth 0 (o_ysave (rw_out w1)) []) (RtoC 0).
Proof.
  intros strf rand k0. destruct (ex_dfg strf rand k0) as (q & nc & z & E & Sz & Qp & Qs & Enc & Hnc & Fi & Ds).
  destruct (C53_processing_twice_refuted strf q 2 nc [RtoC 2; Ci] (mkRW (saved1 z) []) 1 Sz) as (f1 & w1 & f2 & w2 & H1 & H2 & H3).
  - repeat split; cbn; try lia; [exists 1%nat; reflexivity|]. intros k Hk. replace k with 0%nat by lia. reflexivity.
  - exact Enc.
  - exact Hnc.
  - rewrite Qp. repeat split.
  - rewrite Qp. cbn. apply Rgt_not_eq. lra.
  - exists q, f1, f2, z, w1, w2. repeat (split; [assumption|]). apply (H3 0%nat 2%nat ltac:(lia) ltac:(lia)); cbn [rw_out saved1 o_ysave o_xsave nth ye]; [|rewrite Ds]; intros [= X]; lra.
Qed.
(** two reads share the pulse: the pump read first becomes the signal *)
Example ex_C53_share : forall strf rand k0, exists q f z w w1 w2 i p1 p2, dfg_init strf 3 rand pu sg (xd "PP") true 1 true true (Some 100) k0 = (Ok (q, fftc_init 2), k0) /\
  process_stepper_output strf q (mkRW (saved1 z) []) = (Ok f, w) /\ get_pump f 0 w = (Ok i, w1) /\ get_sgnl f 0 w1 = (Ok i, w2) /\ nth_error (rw_pulses w1) i = Some p1 /\ nth_error (rw_pulses w2) i = Some p2 /\ p_f p1 = 30 /\ p_f p2 = 20.
Proof.
  intros strf rand k0. destruct (ex_dfg strf rand k0) as (q & nc & z & E & Sz & Qp & Qs & Enc & Hnc & Fi & Ds).
  assert (Sv : saved (rw_out (mkRW (saved1 z) [])) 2 1) by (repeat split; cbn; try lia; [exists 1%nat; reflexivity|]; intros k Hk; replace k with 0%nat by lia; reflexivity).
  destruct (process_iface strf q 2 nc [RtoC 2; Ci] (mkRW (saved1 z) []) 1 Sz Sv Enc Hnc) as (f & w & p & H1 & H2 & _); [rewrite Qp; repeat split|rewrite Qp; cbn; apply Rgt_not_eq; lra|].
  destruct (C53_reads_share_refuted q 2 1 f w Pump Sgnl 0 0 H2 ltac:(lia) ltac:(lia)) as (i & w1 & w2 & p1 & p2 & a1 & a2 & G1 & G2 & N1 & _ & F1 & N2 & _ & F2 & _); [cbn [source]; rewrite Qp; cbn; apply Rgt_not_eq; lra|cbn [source]; rewrite Qs; cbn; apply Rgt_not_eq; lra|].
  exists q, f, z, w, w1, w2, i, p1, p2. repeat (split; [assumption|]). cbn [source] in F1, F2. rewrite Qp in F1. rewrite Qs in F2. split; assumption.
Qed.

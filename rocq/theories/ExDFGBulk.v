(** Concrete cases for the free-space theorems C89-C92: the pulses and the crystal of ExDFG with a waist of 20 micrometres. *)
From Coq Require Import String.
From Coq Require Import Reals List ZArith Bool Arith Lia Lra.
From Coquelicot Require Import Coquelicot.
From Verif Require Import Base CNum NumPy FFTProofs ModelPulse Spec ModelDerived PulseProofs PulseHistory PulseRegridProofs ModelCrystal CrystalProofs ModelBeam BeamProofs ExOptics ModelODE ModelDFG DFGMixProofs DFGPolingProofs DFGProofs DFGInitProofs DFGOutProofs DFGSymProofs DFGTotalProofs DFGAcceptProofs DFGBulkProofs.
From Verif Require Import DFGQpmProofs PropsDFGInit PropsDFGSym PropsDFGBulk PropsDFGQpm ExDFG.
Import ListNotations.
Local Open Scope R_scope.
Local Open Scope py_scope.

Lemma xd_axis mode ax l : ax = None \/ ax = Some "mix"%string \/ ax = Some "o"%string -> (forall w, In w l -> 0 < w) -> index (x_mat (dx_x (xd mode))) ax l = Ok (map idx l).
Proof.
  intros Ha. cbn [xd dx_x x_mat index]. induction l as [|w l IH]; intros H; [reflexivity|]. assert (Hw : 0 < w) by (apply H; left; reflexivity). assert (E : agse_n bx w (match ax with Some a => a | None => "mix"%string end) = Ok (idx w)).
  { destruct Ha as [-> |[-> | ->]]; [apply xd_n, Hw..|]. pose proof (idx_pos w Hw). unfold agse_n. cbn [bx ag_o ag_e ag_theta]. assert (E : sell_n so w = Ok (idx w)) by (apply sell_val; [exact Hw|lra|symmetry; apply pow2_sqrt, Rlt_le, idx_arg, Hw]). rewrite E. rewrite bx_ne by exact Hw. reflexivity. }
  cbn [rtraverse map]. rewrite E. cbn [rbind]. rewrite IH by (intros u Hu; apply H; right; exact Hu). reflexivity.
Qed.
Lemma xd_axis_pos mode ax : ax = None \/ ax = Some "mix"%string \/ ax = Some "o"%string -> index_pos_on (xd mode) ax.
Proof. intros Ha l H. exists (map idx l). split; [apply xd_axis; assumption|]. intros v Hv. apply in_map_iff in Hv as (w & <- & Hw). apply idx_pos, H, Hw. Qed.
Lemma ax_cases x : (ax_pump x = None \/ ax_pump x = Some "mix"%string \/ ax_pump x = Some "o"%string) /\ (ax_othr x = None \/ ax_othr x = Some "mix"%string \/ ax_othr x = Some "o"%string).
Proof. unfold ax_pump, ax_othr. destruct (is_mode x "BPM"); auto. Qed.
Definition ex_waist : R := 0.00002.
Lemma ex_bulk strf mode : mode = "simple"%string \/ mode = "BPM"%string \/ mode = "PP"%string -> bulk_inputs strf 3 pu sg (xd mode) ex_waist 2.
Proof.
  intros Hm. destruct (cur_pu strf) as [A B]. destruct (cur_sg strf) as [C D]. destruct (ax_cases (xd mode)) as [X1 X2]. split; [split; eexists; repeat split|]. split; [repeat split; lia|]. split; [cbn; lra|]. split; [auto|]. split; [exact ex_ranges|]. split; [exact ex_order|]. split; [split; apply xd_axis_pos; assumption|]. split; [reflexivity|]. split; [exists 3; reflexivity|]. split; [|unfold ex_waist; lra].
  destruct Hm as [-> |[-> | ->]]; [left; reflexivity|right; left; reflexivity|right; right; split; [reflexivity|exact ex_poled]].
Qed.
(** C89: the three modes are accepted; the pump waist at its centre frequency is the requested one *)
Example ex_C89 : forall strf rand gouy k0 mode, mode = "simple"%string \/ mode = "BPM"%string \/ mode = "PP"%string ->
  exists q bp bs bi c, dfg_init strf 3 rand pu sg (xd mode) true ex_waist gouy false None k0 = (Ok (q, fftc_init 2), k0) /\ q_beams q = Bulk bp bs bi /\ nth 1 (b_w0 bp) 0 = 0.00002 /\ calc_confocal bi (q_ni q) = Ok [c; c] /\
    exists d s', deriv strf q 0.7 ye (repeat (RtoC 0) 6) s0 = (Ok d, s') /\ length d = 6%nat.
Proof.
  intros strf rand gouy k0 mode Hm. destruct (C89_accepted strf 3 rand pu sg (xd mode) ex_waist gouy None k0 2 (ex_bulk strf mode Hm)) as (q & bp & bs & bi & c & E & Qn & _ & Qb & W & _ & _ & _ & Ci & T). exists q, bp, bs, bi, c. split; [exact E|]. split; [exact Qb|]. split; [exact W|]. split; [exact Ci|].
  destruct (T 0.7 ye (repeat (RtoC 0) 6) s0) as (d & s' & Ed & Ld & _); [repeat split|reflexivity..|]. exists d, s'. auto.
Qed.
(** C90 on a field with all three parts present *)
Example ex_C90 : forall strf rand k0, exists q b d s' D, dfg_init strf 3 rand pu sg (xd "BPM") true ex_waist true false None k0 = (Ok (q, fftc_init 2), k0) /\ deriv strf q 0.7 ye (repeat (RtoC 0) 6) s0 = (Ok d, s') /\ (forall m, (m < 2)%nat -> 0 < nth m (b_w0 b) 0) /\
  rsum 2 (fun m => 2 * Re (Cconj (nth m (Ap q ye) (RtoC 0)) * nth m (Ap q d) (RtoC 0))%C / (omega pu m * nth m (b_w0 b) 0 ^ 2)) = - D /\
  rsum 2 (fun m => 2 * Re (Cconj (nth m (As q ye) (RtoC 0)) * nth m (As q d) (RtoC 0))%C / (omega sg m * nth m (b_w0 b) 0 ^ 2)) = D.
Proof.
  intros strf rand k0. pose proof (ex_bulk strf "BPM" (or_intror (or_introl eq_refl))) as Hi. destruct (ex_C89 strf rand true k0 "BPM" (or_intror (or_introl eq_refl))) as (q & bp & bs & bi & c & E & Qb & _ & _ & d & s' & Ed & Ld).
  destruct (C90_manley_rowe_bulk strf 3 rand pu sg (xd "BPM") ex_waist true None k0 2 q (fftc_init 2) k0 Hi ltac:(exists 1%nat; reflexivity) E) as (bp' & bs' & bi' & b & _ & _ & _ & _ & P & H).
  destruct (H 0.7 ye (repeat (RtoC 0) 6) s0 d s' ltac:(repeat split) eq_refl eq_refl Ed) as (D & D1 & D2 & _). exists q, b, d, s', D. auto 10.
Qed.
(** C91: without signal and idler nothing happens, a solution of the equations *)
Example ex_C91_weighted : forall strf rand k0, exists q b, dfg_init strf 3 rand pu sg (xd "BPM") true ex_waist true false None k0 = (Ok (q, fftc_init 2), k0) /\
  (forall z, deriv strf q z yc (repeat (RtoC 0) 6) s0 = (Ok (repeat (RtoC 0) 6), snd (deriv strf q z yc (repeat (RtoC 0) 6) s0))) /\
  rsum 2 (fun m => (Cmod (nth m yc (RtoC 0)) ^ 2 + Cmod (nth (2 + m) yc (RtoC 0)) ^ 2 + Cmod (nth (2 * 2 + m) yc (RtoC 0)) ^ 2) / nth m (b_w0 b) 0 ^ 2) = rsum 2 (fun m => (Cmod (nth m yc (RtoC 0)) ^ 2 + Cmod (nth (2 + m) yc (RtoC 0)) ^ 2 + Cmod (nth (2 * 2 + m) yc (RtoC 0)) ^ 2) / nth m (b_w0 b) 0 ^ 2).
Proof.
  intros strf rand k0. pose proof (ex_bulk strf "BPM" (or_intror (or_introl eq_refl))) as Hi. destruct (C89_accepted strf 3 rand pu sg (xd "BPM") ex_waist true None k0 2 Hi) as (q & bp & bs & bi & c & E & Qn & _ & _ & _ & _ & _ & _ & _ & T). assert (Ev : Nat.Even 2) by (exists 1%nat; reflexivity). assert (Fc : fc_ok 2 (ds_fc s0)) by (repeat split).
  assert (Z : forall z, deriv strf q z yc (repeat (RtoC 0) 6) s0 = (Ok (repeat (RtoC 0) 6), snd (deriv strf q z yc (repeat (RtoC 0) 6) s0))).
  { intros z. destruct (T z yc (repeat (RtoC 0) 6) s0 Fc eq_refl eq_refl) as (d & s' & Ed & Ld & _). rewrite Ed. cbn [snd]. assert (D : d = repeat (RtoC 0) 6); [|rewrite D; reflexivity].
    pose proof (C69_scaling strf q z yc yc (repeat (RtoC 0) 6) (repeat (RtoC 0) 6) s0 d d s' s' 2 (RtoC 1) (RtoC 0) (RtoC 0) Qn ltac:(lia) Ev Fc eq_refl eq_refl eq_refl eq_refl Ed Ed) as H.
    assert (H' : forall m, (m < 2)%nat -> nth m (Ap q d) (RtoC 0) = RtoC 0 /\ nth m (As q d) (RtoC 0) = RtoC 0 /\ nth m (Ai q d) (RtoC 0) = RtoC 0).
    { intros m Hm. destruct (H) with (m := m) as (H1 & H2 & H3); [|exact Hm|].
      - intros k Hk. unfold Ap, As, Ai. rewrite Qn. destruct k as [|[|k]]; [repeat split; apply injective_projections; cbn; ring..|lia].
      - rewrite H1, H2, H3. repeat split; apply injective_projections; cbn; ring. }
    apply (nth_ext _ _ (RtoC 0) (RtoC 0)); [rewrite repeat_length; exact Ld|]. intros m Hm. rewrite Ld in Hm. rewrite nth_repeat. pose proof (field_nth q d 2 Qn Ld) as F.
    destruct (F 0%nat ltac:(lia)) as (F1 & F2 & F3). destruct (F 1%nat ltac:(lia)) as (G1 & G2 & G3). cbn [Nat.add Nat.mul] in F2, F3, G2, G3. destruct (H' 0%nat ltac:(lia)) as (K1 & K2 & K3). destruct (H' 1%nat ltac:(lia)) as (L1 & L2 & L3).
    destruct m as [|[|[|[|[|[|m]]]]]]; [congruence..|lia]. }
  destruct (C91_weighted_power_partial strf 3 rand pu sg (xd "BPM") ex_waist true None k0 2 q (fftc_init 2) k0 Hi Ev eq_refl E) as (bp' & bs' & bi' & b & _ & _ & _ & _ & H). exists q, b. split; [exact E|]. split; [exact Z|]. apply (H (fun _ => yc) (fun _ => repeat (RtoC 0) 6) 0 3 ltac:(lra)).
  intros z _. split; [reflexivity|]. split; [exists (repeat (RtoC 0) 6), s0; eexists; split; [exact Fc|]; split; [reflexivity|apply Z]|]. intros m Hm. rewrite nth_repeat. cbn [Re Im RtoC fst snd]. split; apply (@is_derive_const R_AbsRing R_NormedModule).
Qed.

(** C91 refuted: in this crystal the focal widths of all three beams vary over their grids *)
Lemma idx_mono u v : 0 < u < v -> idx v <= idx u.
Proof.
  intros H. apply sqrt_le_1_alt. assert (0 < (u * 0.001) ^ 2) by (apply pow_lt; lra). assert ((u * 0.001) ^ 2 <= (v * 0.001) ^ 2) by (apply pow_incr; lra). assert (11 / 3 / (v * 0.001) ^ 2 <= 11 / 3 / (u * 0.001) ^ 2) by (apply Rmult_le_compat_l; [lra|apply Rinv_le_contravar; assumption]). lra.
Qed.
Lemma varies strf mode p ax ns c b : p_n p = 2%nat -> p_tw p = 1 -> cur_wl strf p -> (forall k, (k < 2)%nat -> 0 < omega p k) -> 0 < c -> ax = None \/ ax = Some "mix"%string \/ ax = Some "o"%string ->
  (forall kk, n_at strf ax p (xd mode) kk = (Ok ns, kk)) -> length ns = 2%nat -> (forall v, In v ns -> 0 < v) -> beam_of p ax ns c b -> nth 0 (b_w0 b) 0 <> nth 1 (b_w0 b) 0.
Proof.
  intros Np Tp Cw P Hc Ha Rn Ln Pn B. assert (P' : forall k, (k < p_n p)%nat -> 0 < omega p k) by (rewrite Np; exact P). pose proof (wl_pos p P') as Pw. pose proof (xd_axis mode ax _ Ha Pw) as Ei.
  assert (En : ns = map idx (map (fun w => 2 * PI * c_nmps / w) (spec_W (p_n p) (p_tw p) (p_f p)))).
  { specialize (Rn shared0). unfold n_at, reading, get_pulse_n in Rn. change (x_caching (dx_x (xd mode))) with false in Rn. cbv iota in Rn. unfold compute_n, bind, on_pulse in Rn. cbn [snd fst] in Rn. unfold cur_wl in Cw. destruct (get_wl_nm strf p) as [r p1]. cbn [fst] in Cw. subst r. unfold as_array, ret, lift in Rn. rewrite Ei in Rn. congruence. }
  destruct (beam_widths p ax ns c b 2 B Np (le_n 2) Ln Hc Pn P) as [_ W]. destruct (W 0%nat ltac:(lia)) as [_ W0]. destruct (W 1%nat ltac:(lia)) as [_ W1]. intros Eq. rewrite <- Eq, W0 in W1. clear W W0 Eq. rewrite !lam_nth in W1 by lia.
  assert (O : omega p 0 < omega p 1) by (unfold omega; rewrite Np, Tp, !om by lia; pose proof PI_RGT_0; cbn [INR]; apply Rmult_lt_compat_l; lra). pose proof (P 0%nat ltac:(lia)) as P0. pose proof (P 1%nat ltac:(lia)) as P1. pose proof PI_RGT_0.
  assert (N0 : forall m, (m < 2)%nat -> nth m ns 0 = idx (2 * PI * c_nmps / omega p m)) by (intros m Hm; rewrite En; rewrite (nth_map' _ _ _ 0) by (rewrite map_length, spec_W_length; lia); rewrite (nth_map' _ _ _ 0) by (rewrite spec_W_length; lia); reflexivity).
  rewrite !N0 in W1 by lia. clear N0 En. assert (Cn : 0 < 2 * PI * c_nmps) by (apply Rmult_lt_0_compat; [lra|unfold c_nmps, c_mks; lra]). assert (Cm : 0 < 2 * PI * c_mks) by (apply Rmult_lt_0_compat; [lra|unfold c_mks; lra]).
  assert (L : 2 * PI * c_nmps / omega p 1 < 2 * PI * c_nmps / omega p 0) by (apply Rmult_lt_compat_l; [exact Cn|apply Rinv_lt_contravar; [apply Rmult_lt_0_compat; assumption|exact O]]). assert (L1 : 0 < 2 * PI * c_nmps / omega p 1) by (apply Rdiv_lt_0_compat; assumption).
  pose proof (idx_mono _ _ (conj L1 L)) as M. pose proof (idx_pos _ L1) as I1. assert (I0 : 0 < idx (2 * PI * c_nmps / omega p 0)) by (apply idx_pos; lra). set (i0 := idx (2 * PI * c_nmps / omega p 0)) in *. set (i1 := idx (2 * PI * c_nmps / omega p 1)) in *. clearbody i0 i1.
  assert (Q : i0 * omega p 0 < i1 * omega p 1) by nra. set (cm := 2 * PI * c_mks) in *. clearbody cm.
  assert (E : i0 * omega p 0 = i1 * omega p 1). { apply (f_equal (fun t => t * (2 * PI * i0 * i1 * omega p 0 * omega p 1 * 1000000000000) / (c * cm))) in W1. set (M12 := 1000000000000) in *. assert (0 < M12) by (unfold M12; lra). clearbody M12.
    transitivity (c * (cm / (omega p 1 * M12)) / (2 * PI * i1) * (2 * PI * i0 * i1 * omega p 0 * omega p 1 * M12) / (c * cm)); [field; repeat split; lra|]. rewrite <- W1. field; repeat split; lra. }
  lra.
Qed.
Example ex_C91_refuted : forall strf rand gouy k0 mode, mode = "simple"%string \/ mode = "BPM"%string \/ mode = "PP"%string -> exists q, dfg_init strf 3 rand pu sg (xd mode) true ex_waist gouy false None k0 = (Ok (q, fftc_init 2), k0) /\
  forall z, exists y d s', length y = 6%nat /\ deriv strf q z y (repeat (RtoC 0) 6) s0 = (Ok d, s') /\ rsum 6 (fun m => 2 * Re (Cconj (nth m y (RtoC 0)) * nth m d (RtoC 0))%C) <> 0.
Proof.
  intros strf rand gouy k0 mode Hm. pose proof (ex_bulk strf mode Hm) as Hi. destruct (bulk_accepts strf 3 rand pu sg (xd mode) true ex_waist gouy None k0 2 Hi) as (q & bp & bs & bi & E & _ & _ & _ & B). exists q. split; [exact E|]. intros z. destruct pf_ne as [P1 P2].
  apply (C91_power_refuted strf 3 rand pu sg (xd mode) ex_waist gouy None k0 2 q (fftc_init 2) k0 bp bs bi Hi ltac:(exists 1%nat; reflexivity) eq_refl ltac:(cbn; apply Rgt_not_eq; lra) E (bk_beams _ _ _ _ _ _ _ B)); [|repeat split|reflexivity].
  destruct (cur_pu strf) as [_ Wp]. destruct (cur_sg strf) as [_ Ws]. destruct (C54_accepted_grids _ _ _ _ _ _ _ _ _ _ _ _ _ _ _ E P1 P2) as (Qp & Qs & F & T & N1 & N2 & N3 & _ & Wi & _). apply init_inv in E as (_ & _ & Qx & _). cbn [p_n pu sg] in N1. rewrite <- N1 in N3.
  destruct (ax_cases (xd mode)) as [A1 A2]. destruct B as [_ _ Hc _ _ Om Bp Bs Bi Rp Rs Ri Lp Ls Li Pp Ps Pi]. rewrite Qx in *. rewrite Qp, Qs in *.
  intros b [<-|[<-|[<-|[]]]]; exists 0%nat; (split; [lia|]); change (2 / 2)%nat with 1%nat.
  - apply (varies strf mode pu (ax_pump (xd mode)) (q_np q) _ bp eq_refl eq_refl Wp ltac:(intros k Hk; apply (Om k Hk)) Hc A1 Rp Lp Pp Bp).
  - apply (varies strf mode sg (ax_othr (xd mode)) (q_ns q) _ bs eq_refl eq_refl Ws ltac:(intros k Hk; apply (Om k Hk)) Hc A2 Rs Ls Ps Bs).
  - apply (varies strf mode (q_idlr q) (ax_othr (xd mode)) (q_ni q) _ bi N3 T Wi ltac:(intros k Hk; apply (Om k Hk)) Hc A2 Ri Li Pi Bi).
Qed.

(** C92: period 1; 0.7 is in the second half of the first period, 1.3 in the first half of the second *)
Example ex_C92 : forall strf rand k0, exists q q' d d' e e' s1 s2 s3 s4, dfg_init strf 3 rand pu sg (xd "PP") true 1 true true (Some 100) k0 = (Ok (q, fftc_init 2), k0) /\ dfg_init strf 3 rand pu sg (xd "simple") true 1 true true (Some 100) k0 = (Ok (q', fftc_init 2), k0) /\
  deriv strf q 0.7 ye (repeat (RtoC 0) 6) s0 = (Ok d, s1) /\ deriv strf q' 0.7 ye (repeat (RtoC 0) 6) s0 = (Ok d', s2) /\ deriv strf q 1.3 ye (repeat (RtoC 0) 6) s0 = (Ok e, s3) /\ deriv strf q' 1.3 ye (repeat (RtoC 0) 6) s0 = (Ok e', s4) /\
  d = map (fun v => - v)%C d' /\ e = e'.
Proof.
  intros strf rand k0. destruct (ex_C71 strf rand true k0 "PP" (or_intror eq_refl)) as (q & E & Qn & _ & T). destruct (ex_C71 strf rand true k0 "simple" (or_introl eq_refl)) as (q' & E' & Qn' & _ & T'). assert (Fc : fc_ok 2 (ds_fc s0)) by (repeat split).
  destruct (T 0.7 ye (repeat (RtoC 0) 6) s0 Fc eq_refl eq_refl) as (d & s1 & D & _). destruct (T' 0.7 ye (repeat (RtoC 0) 6) s0 Fc eq_refl eq_refl) as (d' & s2 & D' & _). destruct (T 1.3 ye (repeat (RtoC 0) 6) s0 Fc eq_refl eq_refl) as (e & s3 & D3 & _). destruct (T' 1.3 ye (repeat (RtoC 0) 6) s0 Fc eq_refl eq_refl) as (e' & s4 & D4 & _).
  destruct (C92_poling_sign strf 3 rand pu sg (Agse bx) false 5 (fun _ => 1) 3 true 1 true true (Some 100) k0 q (fftc_init 2) k0 2 E Qn ltac:(lia) ltac:(exists 1%nat; reflexivity) ltac:(intros; lra)) as (q2 & E2 & H).
  change (mkDX (mkX (Agse bx) (Some 3) false) "simple" 5 (fun _ => 1)) with (xd "simple") in E2. rewrite E' in E2. injection E2 as <-. exists q, q', d, d', e, e', s1, s2, s3, s4. repeat (split; [assumption|]). split.
  - destruct (H 0.7 ye (repeat (RtoC 0) 6) (repeat (RtoC 0) 6) s0 d s1 d' s2 Fc eq_refl eq_refl eq_refl D D') as (G & _ & _). apply (G 0%nat); [intros j Hj; replace j with 0%nat by lia|..]; cbn [period_start]; lra.
  - destruct (H 1.3 ye (repeat (RtoC 0) 6) (repeat (RtoC 0) 6) s0 e s3 e' s4 Fc eq_refl eq_refl eq_refl D3 D4) as (_ & G & _). apply (G 1%nat); [intros j Hj; destruct j as [|[|j]]; [| |lia]|..]; cbn [period_start]; lra.
Qed.

(** Photon numbers along a waveguide run: the exact Manley-Rowe relations of the three-wave equations and how far a run of the solver departs from them (C129). *)
From Coq Require Import String.
From Coq Require Import Reals List ZArith Bool Arith Lia Lra.
From Coquelicot Require Import Coquelicot.
From Verif Require Import Base CNum NumPy FFTProofs ModelPulse Spec PulseProofs ModelCrystal CrystalProofs ModelBeam SSFMGnlseProofs ModelODE MixingProofs ModelDFG DFGMixProofs DFGProofs DFGInitProofs DFGOutProofs DFGTotalProofs DFGAcceptProofs DFGRunProofs DFGFlowProofs.
Import ListNotations.
Local Open Scope R_scope.
Local Open Scope py_scope.
Local Notation z0 := (RtoC 0).
Local Notation at0 x i := (nth i x z0).

(** the photon flux of one of the three fields stored in [y]: the powers of its grid points divided by their angular frequencies (rad/ps) *)
Definition photons (q : dfg) (x : which) (y : list C) : R :=
  rsum (q_n q) (fun m => Cmod (nth (match x with Pump => m | Sgnl => q_n q + m | Idlr => 2 * q_n q + m end)%nat y z0) ^ 2 / omega (source x q) m).
(** the sum of the photon energies' inverses, which turns an error of the powers into one of the photon flux *)
Definition per_power (q : dfg) (x : which) : R := rsum (q_n q) (fun m => / omega (source x q) m).

Lemma sq_derive (f : R -> C) l x : is_cderive f x l -> is_derive (fun t => Cmod (f t) ^ 2) x (2 * Re (Cconj (f x) * l)%C).
Proof.
  intros [D1 D2]. apply (is_derive_ext (fun t => Re (f t) ^ 2 + Im (f t) ^ 2)). { intros t. unfold Cmod. rewrite pow2_sqrt; [reflexivity|]. apply Rplus_le_le_0_compat; apply pow2_ge_0. }
  pose proof (is_derive_pow (fun t => Re (f t)) 2 x _ D1) as E1. pose proof (is_derive_pow (fun t => Im (f t)) 2 x _ D2) as E2. pose proof (is_derive_plus _ _ _ _ _ E1 E2) as E.
  eapply is_derive_ext; [|replace (2 * Re (Cconj (f x) * l)%C) with (plus (INR 2 * Re l * Re (f x) ^ Nat.pred 2) (INR 2 * Im l * Im (f x) ^ Nat.pred 2)); [exact E|]]; [intros t; reflexivity|].
  change (INR 2 * Re l * Re (f x) ^ 1 + INR 2 * Im l * Im (f x) ^ 1 = 2 * (Re (f x) * Re l - - Im (f x) * Im l)). cbn [INR pow]. ring.
Qed.
Lemma wsum_derive n (f : nat -> R -> C) (l : nat -> C) (w : nat -> R) x : (forall m, (m < n)%nat -> is_cderive (f m) x (l m)) ->
  is_derive (fun t => rsum n (fun m => Cmod (f m t) ^ 2 / w m)) x (rsum n (fun m => 2 * Re (Cconj (f m x) * l m)%C / w m)).
Proof.
  intros H. induction n as [|n IH].
  - rewrite rsum_0. apply (is_derive_ext (fun _ => 0)); [intros t; now rewrite rsum_0|]. apply is_derive_Reals, derivable_pt_lim_const.
  - rewrite rsum_S. apply (is_derive_ext (fun t => rsum n (fun m => Cmod (f m t) ^ 2 / w m) + / w n * Cmod (f n t) ^ 2)); [intros t; rewrite rsum_S; match goal with |- ?a = ?b => change (@eq R a b) end; unfold Rdiv; ring|].
    replace (2 * Re (Cconj (f n x) * l n)%C / w n) with (/ w n * (2 * Re (Cconj (f n x) * l n)%C)) by (unfold Rdiv; ring).
    apply (is_derive_plus (fun t => rsum n (fun m => Cmod (f m t) ^ 2 / w m)) (fun t => / w n * Cmod (f n t) ^ 2)); [apply IH; intros m Hm; apply H; lia|]. apply (is_derive_scal (fun t => Cmod (f n t) ^ 2)), sq_derive, H. lia.
Qed.
Lemma const_everywhere (p : R -> R) x : (forall t, is_derive p t 0) -> p x = p 0.
Proof. intros H. destruct (MVT_gen p 0 x (fun _ => 0)) as (c & _ & E); [intros t _; apply H|intros t _; apply continuity_pt_filterlim, (ex_derive_continuous p); exists 0; apply H|lra]. Qed.
Lemma sq_close (a b : C) e M : Cmod (a - b)%C <= e -> Cmod b <= M -> Rabs (Cmod a ^ 2 - Cmod b ^ 2) <= e * (2 * M + e).
Proof.
  intros He HM. pose proof (Cmod_ge_0 a) as A. pose proof (Cmod_ge_0 b) as B. pose proof (Cmod_ge_0 (a - b)%C) as D.
  assert (U : Cmod a <= Cmod b + e). { replace a with (b + (a - b))%C by ring. eapply Rle_trans; [apply Cmod_triangle|lra]. }
  assert (Lo : Cmod b <= Cmod a + e). { replace b with (a + - (a - b))%C at 1 by ring. eapply Rle_trans; [apply Cmod_triangle|]. rewrite Cmod_opp. lra. }
  apply Rabs_le. split; nra.
Qed.
Lemma wsum_close n (f g w : nat -> R) e : (forall m, (m < n)%nat -> 0 < w m) -> (forall m, (m < n)%nat -> Rabs (f m - g m) <= e) -> Rabs (rsum n (fun m => f m / w m) - rsum n (fun m => g m / w m)) <= e * rsum n (fun m => / w m).
Proof.
  intros Hw H. induction n as [|n IH]; [rewrite !rsum_0, Rminus_0_r, Rabs_R0; lra|]. rewrite !rsum_S. replace (_ + f n / w n - _) with ((rsum n (fun m => f m / w m) - rsum n (fun m => g m / w m)) + (f n - g n) * / w n) by (unfold Rdiv; ring).
  eapply Rle_trans; [apply Rabs_triang|]. rewrite Rmult_plus_distr_l. apply Rplus_le_compat; [apply IH; intros; [apply Hw|apply H]; lia|]. assert (W : 0 < / w n) by (apply Rinv_0_lt_compat, Hw; lia). rewrite Rabs_mult, (Rabs_pos_eq (/ w n)) by lra. apply Rmult_le_compat_r; [lra|apply H; lia].
Qed.

Lemma flux_laws strf fuel rand pump sgnl x waist gouy Aeff k0 n q : waveguide_inputs strf pump sgnl x Aeff n -> dfg_init strf fuel rand pump sgnl x true waist gouy true (Some Aeff) k0 = (Ok (q, fftc_init n), k0) ->
  (forall w m, (m < n)%nat -> 0 < omega (source w q) m) /\ forall u, (forall z, length (u z) = (3 * n)%nat) -> solves q (Aeff * / 10 ^ 12) (dx_deff x) (fun _ => True) u ->
  forall z, photons q Pump (u z) + photons q Sgnl (u z) = photons q Pump (u 0) + photons q Sgnl (u 0) /\ photons q Sgnl (u z) - photons q Idlr (u z) = photons q Sgnl (u 0) - photons q Idlr (u 0).
Proof.
  intros H E. pose proof H as ((ap & Hp) & (as_ & Hs) & Np & Ns & Hn & Ev & Hf & Tw & Wp & Ws & Lp & Ls & P & _).
  assert (Z1 : p_f pump <> 0) by (apply Rgt_not_eq; lra). assert (Z2 : p_f sgnl <> 0) by (apply Rgt_not_eq; lra).
  pose proof (init_inv _ _ _ _ _ _ _ _ _ _ _ _ _ _ _ E) as (_ & _ & _ & _ & _ & Ei & _). destruct (idler_spec _ _ _ _ Z1 Z2 Ei) as (Fi & Ti & Ni & _).
  destruct (wg_facts strf fuel rand pump sgnl x waist gouy Aeff k0 n H) as (q' & E' & Qn & _ & Qp & Qs & _ & _ & _ & _ & D). rewrite E in E'. assert (Q' : q = q') by congruence. subst q'. clear E'.
  assert (Oi : forall k, nth k (spec_W n (p_tw pump) (p_f pump - p_f sgnl)) 0 = omega (q_idlr q) k) by (intros k; unfold omega; rewrite Fi, Ti, Ni, Np; reflexivity).
  assert (W : forall w m, (m < n)%nat -> 0 < omega (source w q) m). { intros w m Hm. destruct (P m Hm) as (A & B & C'). rewrite Oi in C'. unfold source. destruct w; rewrite ?Qp, ?Qs; assumption. }
  split; [exact W|]. intros u Lu So.
  assert (Dv : forall w t, is_derive (fun t => photons q w (u t)) t (rsum n (fun m => 2 * Re (Cconj (nth (match w with Pump => m | Sgnl => n + m | Idlr => 2 * n + m end)%nat (u t) z0) * three_wave q (Aeff * / 10 ^ 12) (dx_deff x) t (u t) (match w with Pump => m | Sgnl => n + m | Idlr => 2 * n + m end)%nat)%C / omega (source w q) m))).
  { intros w t. unfold photons. rewrite Qn. apply (wsum_derive n (fun m t => nth (match w with Pump => m | Sgnl => n + m | Idlr => 2 * n + m end)%nat (u t) z0)). intros m Hm. apply So; [rewrite Qn; destruct w; lia|exact I]. }
  assert (Dz : forall t, exists F, is_derive (fun t => photons q Pump (u t)) t (- F) /\ is_derive (fun t => photons q Sgnl (u t)) t F /\ is_derive (fun t => photons q Idlr (u t)) t F).
  { intros t. destruct (D t (u t) (repeat z0 (3 * n)) (mkDS k0 (fftc_init n)) (fc_init_ok n) (Lu t) (repeat_length _ _)) as (d & s' & Ed & Ld & _ & V & _).
    destruct (C50_manley_rowe_l strf fuel rand pump sgnl x true waist gouy (Some Aeff) k0 q (fftc_init n) k0 t (u t) (repeat z0 (3 * n)) (mkDS k0 (fftc_init n)) d s' n E Qn Hn Ev Z1 Z2 Wp Ws) as (F & F1 & F2 & F3); [|apply fc_init_ok|apply Lu|apply repeat_length|exact Ed|].
    { intros k Hk. pose proof (W Pump k Hk) as A. pose proof (W Sgnl k Hk) as B. pose proof (W Idlr k Hk) as C'. unfold source in A, B, C'. rewrite Qp in A. rewrite Qs in B. repeat split; apply Rgt_not_eq; assumption. }
    exists F. split; [rewrite <- F1; pose proof (Dv Pump t) as G|split; [rewrite <- F2; pose proof (Dv Sgnl t) as G|rewrite <- F3; pose proof (Dv Idlr t) as G]]; cbv iota beta in G.
    - rewrite (rsum_ext n _ (fun m => 2 * Re (Cconj (nth m (u t) z0) * three_wave q (Aeff * / 10 ^ 12) (dx_deff x) t (u t) m)%C / omega (source Pump q) m)); [exact G|]. intros m Hm. unfold Ap. rewrite !seg_nth by lia. cbn [Nat.add]. rewrite V by lia. unfold source. now rewrite Qp.
    - rewrite (rsum_ext n _ (fun m => 2 * Re (Cconj (nth (n + m) (u t) z0) * three_wave q (Aeff * / 10 ^ 12) (dx_deff x) t (u t) (n + m)%nat)%C / omega (source Sgnl q) m)); [exact G|]. intros m Hm. unfold As. rewrite !seg_nth by lia. rewrite Qn, V by lia. unfold source. now rewrite Qs.
    - rewrite (rsum_ext n _ (fun m => 2 * Re (Cconj (nth (2 * n + m) (u t) z0) * three_wave q (Aeff * / 10 ^ 12) (dx_deff x) t (u t) (2 * n + m)%nat)%C / omega (source Idlr q) m)); [exact G|]. intros m Hm. unfold Ai. rewrite !seg_nth by lia. rewrite Qn, V by lia. reflexivity. }
  intros z. split.
  - apply (const_everywhere (fun t => photons q Pump (u t) + photons q Sgnl (u t)) z). intros t. destruct (Dz t) as (F & G1 & G2 & _). pose proof (is_derive_plus _ _ _ _ _ G1 G2) as G. match type of G with is_derive _ _ ?v => assert (Z : v = 0) by (change (- F + F = 0); ring); rewrite Z in G end. exact G.
  - apply (const_everywhere (fun t => photons q Sgnl (u t) - photons q Idlr (u t)) z). intros t. destruct (Dz t) as (F & _ & G2 & G3). pose proof (is_derive_minus _ _ _ _ _ G2 G3) as G. match type of G with is_derive _ _ ?v => assert (Z : v = 0) by (change (F + - F = 0); ring); rewrite Z in G end. exact G.
Qed.
Lemma photons_nonneg q w y : (forall m, (m < q_n q)%nat -> 0 < omega (source w q) m) -> 0 <= photons q w y.
Proof. intros W. apply rsum_nonneg. intros m Hm. apply Rmult_le_pos; [apply pow2_ge_0|left; apply Rinv_0_lt_compat, W, Hm]. Qed.

(*! C129: along the solution of the waveguide three-wave equations through the input pulses, the photons of the pump that disappear up to any distance are the photons that appear in the signal and those that appear in the idler; so neither can ever gain more
    photons than the pump had at the input. *)
Lemma C129_photon_balance_l : forall strf fuel rand pump sgnl x waist gouy Aeff k0 n, waveguide_inputs strf pump sgnl x Aeff n ->
  exists q u, dfg_init strf fuel rand pump sgnl x true waist gouy true (Some Aeff) k0 = (Ok (q, fftc_init n), k0) /\ u 0 = input_of Pump q ++ input_of Sgnl q ++ input_of Idlr q /\ solves q (Aeff * / 10 ^ 12) (dx_deff x) (fun _ => True) u /\
    (forall w m, (m < n)%nat -> 0 < omega (source w q) m) /\
    forall z, photons q Sgnl (u z) - photons q Sgnl (u 0) = photons q Pump (u 0) - photons q Pump (u z) /\ photons q Idlr (u z) - photons q Idlr (u 0) = photons q Pump (u 0) - photons q Pump (u z) /\
      photons q Sgnl (u z) <= photons q Sgnl (u 0) + photons q Pump (u 0) /\ photons q Idlr (u z) <= photons q Idlr (u 0) + photons q Pump (u 0).
Proof.
  intros strf fuel rand pump sgnl x waist gouy Aeff k0 n H. destruct (C124_solution_l strf fuel rand pump sgnl x waist gouy Aeff k0 n H) as (q & u & E & U0 & Lu & So & _ & _). exists q, u. split; [exact E|]. split; [exact U0|]. split; [exact So|].
  destruct (flux_laws _ _ _ _ _ _ _ _ _ _ _ q H E) as [W Fl]. split; [exact W|]. intros z. destruct (Fl u Lu So z) as [A B].
  destruct (wg_facts strf fuel rand pump sgnl x waist gouy Aeff k0 n H) as (q' & E' & Qn & _). rewrite E in E'. assert (Q' : q = q') by congruence. subst q'.
  pose proof (photons_nonneg q Pump (u z) ltac:(intros m Hm; apply W; lia)) as Pn. repeat split; lra.
Qed.

(*! C129: and a run of the solver keeps these balances: under the conditions of C124 and with its error bound E, in every stored row the gain of signal photons differs from the loss of pump photons, and from the gain of idler photons, by at most E (2 B + E) times the
    sums of the inverse frequencies, and the total power differs from the input power B^2 by at most 3 n E (2 B + E). *)
Lemma C129_run_l : forall strf fuel rand pump sgnl x waist gouy Aeff k0 n, waveguide_inputs strf pump sgnl x Aeff n ->
  exists q y0, dfg_init strf fuel rand pump sgnl x true waist gouy true (Some Aeff) k0 = (Ok (q, fftc_init n), k0) /\ y0 = input_of Pump q ++ input_of Sgnl q ++ input_of Idlr q /\
    forall zmax rho G Th, 0 < zmax -> 0 < rho -> tw_bounds q (Aeff * / 10 ^ 12) (dx_deff x) G Th -> exists K hmax, 0 <= K /\ 0 < hmax /\
      forall buf ofuel con L atol rtol h1 hmin nsaves g' h, length buf = (3 * n)%nat -> 0 < L <= zmax -> 0 <= hmin ->
        integrate (rhs_of strf q buf) ofuel (new_ode (mkDS k0 (fftc_init n)) con (q_ystart q) 0 L atol rtol h1 hmin (new_output (Some nsaves)) false Complex128) = (Ok tt, g') ->
        let m := (e_nok (g_ode g') + e_nbad (g_ode g'))%nat in let Z k := nth k (o_xsave (g_out g')) 0 in
        h <= hmax -> (forall k, (k < m)%nat -> Rabs (Z (S k) - Z k) <= h) ->
        let B := sqrt (rsum (3 * n) (fun j => Cmod (nth j y0 (RtoC 0)) ^ 2)) in
        let E := exp (52 * G * (B + rho) * L) * (L * (K * h ^ 8 + / 10 ^ 26 * (1 + G * (Th ^ 7 * (B + 7) * (B + 7))))) in E <= rho / 4 ->
        forall k, (k <= m)%nat -> let row := nth k (o_ysave (g_out g')) [] in let e := E * (2 * B + E) in
          Rabs ((photons q Sgnl row - photons q Sgnl y0) - (photons q Pump y0 - photons q Pump row)) <= e * (per_power q Pump + per_power q Sgnl) /\
          Rabs ((photons q Sgnl row - photons q Sgnl y0) - (photons q Idlr row - photons q Idlr y0)) <= e * (per_power q Sgnl + per_power q Idlr) /\
          Rabs (rsum (3 * n) (fun j => Cmod (nth j row (RtoC 0)) ^ 2) - B ^ 2) <= e * INR (3 * n).
Proof.
  intros strf fuel rand pump sgnl x waist gouy Aeff k0 n H. destruct (C124_converges_l strf fuel rand pump sgnl x waist gouy Aeff k0 n H) as (q & u & E & U0 & So & _ & R). exists q, (u 0). split; [exact E|]. split; [exact U0|].
  destruct (C124_solution_l strf fuel rand pump sgnl x waist gouy Aeff k0 n H) as (q1 & u1 & E1 & U1 & Lu1 & So1 & Po1 & Un). rewrite E in E1. assert (Q1 : q = q1) by congruence. subst q1. clear E1.
  destruct (wg_facts strf fuel rand pump sgnl x waist gouy Aeff k0 n H) as (q' & E' & Qn & _). rewrite E in E'. assert (Q' : q = q') by congruence. subst q'. clear E'.
  assert (U01 : u 0 = u1 0) by (rewrite U0, U1; reflexivity).
  assert (Eq : forall z j, (j < 3 * n)%nat -> at0 (u z) j = at0 (u1 z) j). { intros z j Hj. apply (Un u (Rabs z) U01); [intros t i Hi _; now apply So|exact Hj|lra]. }
  destruct (flux_laws _ _ _ _ _ _ _ _ _ _ _ q H E) as [W Fl]. specialize (Fl u1 Lu1 So1). rewrite <- U01 in Fl, Po1.
  intros zmax rho G Th Hz Hr Bd. destruct (R zmax rho G Th Hz Hr Bd) as (K & hmax & HK & Hh & Rn). exists K, hmax. split; [exact HK|]. split; [exact Hh|].
  intros buf ofuel con L atol rtol h1 hmin nsaves g' h Lb HL Hm Hi m Z Hhm Hst B E0 HE k Hk row e.
  pose proof (Rn buf ofuel con L atol rtol h1 hmin nsaves g' h Lb HL Hm Hi Hhm Hst HE k) as Cl. fold B E0 row in Cl.
  assert (B2 : B ^ 2 = rsum (3 * n) (fun j => Cmod (at0 (u 0) j) ^ 2)) by (unfold B; apply pow2_sqrt, rsum_nonneg; intros; apply pow2_ge_0).
  set (v := u1 (nth k (o_xsave (g_out g')) 0)).
  assert (Ub : forall j, (j < 3 * n)%nat -> Cmod (at0 v j) <= B). { intros j Hj. unfold B. rewrite <- (Po1 (nth k (o_xsave (g_out g')) 0)). apply (power_bound (3 * n) (fun j => at0 v j) j Hj). }
  assert (Sq : forall j, (j < 3 * n)%nat -> Rabs (Cmod (at0 row j) ^ 2 - Cmod (at0 v j) ^ 2) <= e). { intros j Hj. apply sq_close; [|now apply Ub]. unfold v. rewrite <- Eq by exact Hj. now apply Cl. }
  assert (Ph : forall w, Rabs (photons q w row - photons q w v) <= e * per_power q w). { intros w. unfold photons, per_power. rewrite Qn. apply wsum_close; [intros i Hi'; now apply W|]. intros i Hi'. apply Sq. destruct w; lia. }
  destruct (Fl (nth k (o_xsave (g_out g')) 0)) as [F1 F2]. fold v in F1, F2. pose proof (Ph Pump) as P1. pose proof (Ph Sgnl) as P2. pose proof (Ph Idlr) as P3. apply Rabs_le_between in P1. apply Rabs_le_between in P2. apply Rabs_le_between in P3.
  split; [apply Rabs_le; lra|]. split; [apply Rabs_le; lra|].
  rewrite B2, <- (Po1 (nth k (o_xsave (g_out g')) 0)). fold v.
  pose proof (wsum_close (3 * n) (fun j => Cmod (at0 row j) ^ 2) (fun j => Cmod (at0 v j) ^ 2) (fun _ => 1) e ltac:(intros; lra) Sq) as Q. unfold Rdiv in Q. rewrite Rinv_1 in Q. rewrite rsum_const in Q.
  rewrite (rsum_ext _ _ (fun j => Cmod (at0 row j) ^ 2)) in Q by (intros; ring). rewrite (rsum_ext _ (fun m => Cmod (at0 v m) ^ 2 * 1) (fun j => Cmod (at0 v j) ^ 2)) in Q by (intros; ring). rewrite Rmult_1_r in Q. exact Q.
Qed.

(*! C124: runs of the solver exist: if the input drives at least one element of the fields, every sufficiently short crystal, with a first step not shorter than it, is integrated in a single accepted step whatever the relative tolerance, smallest step, step
    controller and output buffer. *)
Lemma C124_short_crystals_l : forall strf fuel rand pump sgnl x waist gouy Aeff k0 n, waveguide_inputs strf pump sgnl x Aeff n ->
  exists q, dfg_init strf fuel rand pump sgnl x true waist gouy true (Some Aeff) k0 = (Ok (q, fftc_init n), k0) /\
    forall j atol, (j < 3 * n)%nat -> three_wave q (Aeff * / 10 ^ 12) (dx_deff x) 0 (input_of Pump q ++ input_of Sgnl q ++ input_of Idlr q) j <> RtoC 0 -> 0 < atol -> exists h0, 0 < h0 /\
      forall buf ofuel con L rtol h1 hmin nsaves, length buf = (3 * n)%nat -> 0 < L <= h0 -> L <= Rabs h1 -> 0 <= rtol -> 0 <= hmin ->
        exists g', integrate (rhs_of strf q buf) (S ofuel) (new_ode (mkDS k0 (fftc_init n)) con (q_ystart q) 0 L atol rtol h1 hmin (new_output (Some nsaves)) false Complex128) = (Ok tt, g') /\
          e_nok (g_ode g') = 1%nat /\ e_nbad (g_ode g') = 0%nat /\ nth 0 (o_xsave (g_out g')) 0 = 0 /\ nth 1 (o_xsave (g_out g')) 0 = L.
Proof.
  intros strf fuel rand pump sgnl x waist gouy Aeff k0 n H. destruct (wg_facts strf fuel rand pump sgnl x waist gouy Aeff k0 n H) as (q & E & Qn & Ly & _ & _ & _ & _ & Ey & _ & D). exists q. split; [exact E|]. intros j atol Hj Hne Ha. rewrite <- Ey in Hne.
  set (Ae := Aeff * / 10 ^ 12) in *. set (de := dx_deff x) in *. destruct (tw_bounds_exist q Ae de) as (G & Th & G0 & T1 & HG & HT). rewrite Qn in HG, HT.
  assert (HP : forall i b c, (i < 3 * n)%nat -> (b < n)%nat -> (c < n)%nat -> (fst (tw_left q i b c) < 3 * n)%nat /\ (fst (tw_right q i b c) < 3 * n)%nat) by (intros i b c; rewrite <- Qn; apply tw_idx).
  set (phi := fun z (y : list C) => mixing n (tw_coef q Ae de) (tw_mismatch q) (tw_left q) (tw_right q) z (fun j => at0 y j)). assert (Ph : forall z y i, three_wave q Ae de z y i = phi z y i) by (intros z y i; unfold three_wave; now rewrite Qn).
  pose proof (mix_utaylor (3 * n) n (tw_coef q Ae de) (tw_mismatch q) (tw_left q) (tw_right q) G Th HP HG G0 T1 HT (fun _ : unit => 0) (fun _ => q_ystart q) (sqrt (power (3 * n) (fun j => at0 (q_ystart q) j))) (sqrt_pos _) (fun _ i Hi => power_bound (3 * n) (fun j => at0 (q_ystart q) j) i Hi)) as Ut.
  apply (BSeriesProofs.utaylor7_at _ _ _ _ _ tt) in Ut. destruct (ODEConvergeProofs.C123_short_runs_l (3 * n) phi 0 (q_ystart q) _ j atol Ly Ut Hj ltac:(rewrite <- Ph; exact Hne) Ha) as (h0 & Hh & Ru). exists h0. split; [exact Hh|].
  intros buf ofuel con L rtol h1 hmin nsaves Lb HL HL1 Hr Hm.
  set (bad := fun z y => mk (3 * n) (phi z y)). assert (Tt : forall z y w, fc_okb n w = true -> length y = (3 * n)%nat -> exists d w', rhs_of strf q buf z y w = (Ok d, w') /\ fc_okb n w' = true).
  { intros z y w Fw Lw. apply fc_okb_iff in Fw. destruct (D z y buf w Fw Lw Lb) as (d & w' & A & _ & Fw' & _). exists d, w'. split; [exact A|]. now apply fc_okb_iff. }
  destruct (ODETotalProofs.agree_integrate (rhs_of strf q buf) (fc_okb n) (3 * n) bad Tt (S ofuel) _ (ODETotalProofs.new_J (fc_okb n) (3 * n) (mkDS k0 (fftc_init n)) con (q_ystart q) 0 L atol rtol h1 hmin (new_output (Some nsaves)) false Complex128 ltac:(apply fc_okb_iff, fc_init_ok) Ly)) as [Eq _]. rewrite Eq.
  apply (Ru dstate (ODETotalProofs.tot (rhs_of strf q buf) (fc_okb n) (3 * n) bad) ofuel (mkDS k0 (fftc_init n)) con L rtol h1 hmin nsaves Complex128); [|lra| | |exact Hr|exact Hm].
  - intros z y w Lw. unfold ODETotalProofs.tot. rewrite Lw, Nat.eqb_refl, andb_true_r. destruct (fc_okb n w) eqn:Fw; [|exists (bad z y), w; split; [reflexivity|]; intros i Hi; unfold bad; now apply mk_nth].
    apply fc_okb_iff in Fw. destruct (D z y buf w Fw Lw Lb) as (d & w' & A & _ & _ & V & _). exists d, w'. split; [exact A|]. intros i Hi. rewrite <- Ph. now apply V.
  - rewrite Rminus_0_r, Rabs_pos_eq; lra.
  - rewrite Rminus_0_r, Rabs_pos_eq; lra.
Qed.

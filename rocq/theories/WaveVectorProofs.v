(** Proofs about the wave vectors a crystal reports for a pulse (C85). *)
From Coq Require Import String.
From Coq Require Import Reals List ZArith Bool Arith Lia Lra Psatz.
From Coquelicot Require Import Coquelicot.
From Verif Require Import Base CNum NumPy FFTProofs ModelPulse Spec ModelDerived PulseProofs PulseHistory PulseRegridProofs DerivedProofs ModelCrystal CrystalProofs CrystalIndexProofs ModelBeam BeamProofs ModelODE ModelDFG DFGMixProofs DFGProofs DFGInitProofs DFGOutProofs DFGTotalProofs DFGAcceptProofs.
Import ListNotations.
Local Open Scope R_scope.
Local Open Scope py_scope.

Definition wl_grid (p : pulse) : list R := map (fun w => 2 * PI * c_nmps / w) (spec_W (p_n p) (p_tw p) (p_f p)).
Lemma wl_grid_nth p j : (j < p_n p)%nat -> nth j (wl_grid p) 0 = 2 * PI * c_nmps / omega p j.
Proof. intros H. unfold wl_grid. rewrite (nth_map' _ _ _ 0) by (rewrite spec_W_length; lia). reflexivity. Qed.
Lemma wl_grid_length p : length (wl_grid p) = p_n p.
Proof. unfold wl_grid. rewrite map_length. apply spec_W_length. Qed.

Lemma k_run strf x axis p k : cur_wl strf p -> cur_W strf p -> (forall j, (j < p_n p)%nat -> 0 < omega p j) ->
  match index (x_mat x) axis (wl_grid p) with
  | Ok ns => exists ks, fst (get_pulse_k strf x axis (k, p)) = Ok ks /\ length ks = p_n p /\ forall j, (j < p_n p)%nat -> nth j ks 0 = nth j ns 0 * (omega p j * 1e12) / c_mks
  | Raise e => fst (get_pulse_k strf x axis (k, p)) = Raise e
  end.
Proof.
  intros C C' P. unfold get_pulse_k, bind, on_pulse. cbn [snd fst]. pose proof (W_after_wl strf p) as W. unfold cur_wl in C. fold (wl_grid p) in C.
  destruct (get_wl_nm strf p) as [r p1] eqn:G. cbn [fst] in C. subst r. cbn [snd] in W. unfold as_array, ret, lift.
  destruct (index (x_mat x) axis (wl_grid p)) as [ns|e] eqn:E; [|reflexivity].
  pose proof (index_length _ _ _ _ E) as L. rewrite wl_grid_length in L.
  set (wm := map (fun x => 2 * PI * c_mks / x) (map (fun w => w * 1000000000000) (spec_W (p_n p) (p_tw p) (p_f p)))). assert (Lw : length wm = p_n p) by (unfold wm; rewrite !map_length; apply spec_W_length).
  assert (Nw : forall j, (j < p_n p)%nat -> nth j wm 0 = 2 * PI * c_mks / (omega p j * 1e12)).
  { intros j Hj. unfold wm. rewrite (nth_map' (fun x => 2 * PI * c_mks / x) _ j 0) by (rewrite map_length, spec_W_length; lia). rewrite (nth_map' (fun w => w * 1000000000000) _ j 0) by (rewrite spec_W_length; lia). unfold omega. do 2 f_equal. lra. }
  assert (Pw : forall j, (j < p_n p)%nat -> 0 < nth j wm 0). { intros j Hj. rewrite Nw by exact Hj. specialize (P j Hj). pose proof PI_RGT_0. apply Rdiv_lt_0_compat; [unfold c_mks; nra|lra]. }
  destruct (rtraverse_total (fun nw : R * R => fdiv (2 * PI * fst nw) (snd nw)) (map2 (fun n w => (n, w)) ns wm)) as (ks & Eks & Lks).
  { intros q Hq. apply (In_nth _ _ (0, 0)) in Hq as (j & Hj & <-). rewrite map2_length in Hj by lia. rewrite (map2_nth _ _ _ j 0 0 (0, 0)) by lia. cbn [fst snd]. specialize (Pw j ltac:(lia)). eexists. apply fdiv_ok. apply Rgt_not_eq. lra. }
  rewrite map2_length in Lks by lia.
  assert (Q : fst (get_wl_mks strf p1) = Ok wm). { unfold get_wl_mks, bind. unfold cur_W in C'. rewrite C' in W. destruct (get_W_mks strf p1) as [r p2]. cbn [fst] in W. subst r. reflexivity. }
  cbn [snd fst]. destruct (get_wl_mks strf p1) as [r p2]. cbn [fst] in Q. subst r. rewrite broadcast2_eq by lia.
  exists ks. split; [rewrite Eks; reflexivity|]. split; [lia|].
  intros j Hj. destruct (rtraverse_inv _ _ _ (0, 0) 0 Eks) as [_ I1]. rewrite map2_length in I1 by lia. specialize (I1 j ltac:(lia)). rewrite (map2_nth _ _ _ j 0 0 (0, 0)) in I1 by lia. cbn [fst snd] in I1.
  apply fdiv_inv in I1 as [_ ->]. rewrite Nw by exact Hj. specialize (P j Hj). pose proof PI_RGT_0. unfold c_mks. field. lra.
Qed.

(*! C85: for a pulse whose grids are up to date and lie at positive frequencies, get_pulse_k gives, at grid point j, the index of the crystal at that point's own vacuum wavelength
    times its angular frequency (rad/s) over the speed of light; it fails exactly when the index does, in the same way. *)
Lemma C85_wave_vectors_l : forall (strf : R -> string) (x : crystal) (axis : option string) (p : pulse) (k : shared),
  cur_wl strf p -> cur_W strf p -> (forall j, (j < p_n p)%nat -> 0 < omega p j) ->
  match index (x_mat x) axis (map (fun w => 299792.458 * 2 * PI / w) (spec_W (p_n p) (p_tw p) (p_f p))) with
  | Ok ns => exists ks, fst (get_pulse_k strf x axis (k, p)) = Ok ks /\ length ks = p_n p /\
      forall j, (j < p_n p)%nat -> nth j ks 0 = nth j ns 0 * (nth j (spec_W (p_n p) (p_tw p) (p_f p)) 0 * 1e12) / 299792458
  | Raise e => fst (get_pulse_k strf x axis (k, p)) = Raise e
  end.
Proof.
  intros strf x axis p k C C' P. pose proof (k_run strf x axis p k C C' P) as H. unfold wl_grid in H.
  replace (map (fun w => 299792.458 * 2 * PI / w) (spec_W (p_n p) (p_tw p) (p_f p))) with (map (fun w => 2 * PI * c_nmps / w) (spec_W (p_n p) (p_tw p) (p_f p))).
  - exact H.
  - apply map_ext. intros w. unfold Rdiv. f_equal. unfold c_nmps, c_mks. lra.
Qed.


(*! C85 (PPLN): in a PPLN crystal brought to any temperature from 20 to 250 degC, every pulse whose spectrum lies between 500 and 4500 nm gets wave vectors that
    lie between 1.8 and 2.4 times the vacuum wave vector and grow strictly, and more than proportionally, with frequency. *)
Lemma C85_ppln_wave_vectors_l : forall (strf : R -> string) (x : ppln) (T : R) (len : option R) (b : bool) (axis : option string) (p : pulse) (k : shared),
  20 <= T <= 250 -> cur_wl strf p -> cur_W strf p ->
  (forall j, (j < p_n p)%nat -> 0 < omega p j /\ 500 <= 299792.458 * 2 * PI / omega p j <= 4500) ->
  exists ks, fst (get_pulse_k strf (mkX (Ppln (set_T T x)) len b) axis (k, p)) = Ok ks /\ length ks = p_n p /\
    forall i j, (i < p_n p)%nat -> (j < p_n p)%nat ->
      1.8 * (omega p j * 1e12 / 299792458) < nth j ks 0 < 2.4 * (omega p j * 1e12 / 299792458) /\
      (omega p i < omega p j -> nth i ks 0 * (omega p j / omega p i) < nth j ks 0).
Proof.
  intros strf x T len b axis p k HT C C' P.
  assert (P0 : forall j, (j < p_n p)%nat -> 0 < omega p j) by (intros j Hj; apply (P j Hj)).
  assert (Pw : forall j, (j < p_n p)%nat -> 500 <= nth j (wl_grid p) 0 <= 4500).
  { intros j Hj. rewrite wl_grid_nth by exact Hj. replace (2 * PI * c_nmps) with (299792.458 * 2 * PI) by (unfold c_nmps, c_mks; lra). apply (P j Hj). }
  pose proof (k_run strf (mkX (Ppln (set_T T x)) len b) axis p k C C' P0) as H. cbn [x_mat index] in H.
  destruct (rtraverse_total (ppln_n (set_T T x)) (wl_grid p)) as (ns & En & Ln).
  { intros w Hw. apply (In_nth _ _ 0) in Hw as (j & Hj & <-). rewrite wl_grid_length in Hj. destruct (ppln_run x T _ HT (Pw j Hj)) as [E _]. eauto. }
  rewrite En in H. destruct H as (ks & Ek & Lk & Nk). exists ks. split; [exact Ek|]. split; [exact Lk|].
  destruct (rtraverse_inv _ _ _ 0 0 En) as [_ I1]. rewrite wl_grid_length in I1.
  intros i j Hi Hj. pose proof (P0 i Hi) as Pi. pose proof (P0 j Hj) as Pj. rewrite !Nk by assumption.
  destruct (C84_ppln_index_l x T T _ (nth i (wl_grid p) 0) HT HT (Pw j Hj) (Pw i Hi)) as (nj & nj' & ni & Ej & _ & Ei & B & _ & M).
  pose proof (I1 j Hj) as Qj. pose proof (I1 i Hi) as Qi. rewrite Ej in Qj. rewrite Ei in Qi. injection Qj as <-. injection Qi as <-. unfold c_mks.
  assert (V : 0 < omega p j * 1e12 / 299792458) by (apply Rdiv_lt_0_compat; lra).
  split.
  - replace (nj * (omega p j * 1e12) / 299792458) with (nj * (omega p j * 1e12 / 299792458)) by (field). split; apply Rmult_lt_compat_r; lra.
  - intros L. replace (ni * (omega p i * 1e12) / 299792458 * (omega p j / omega p i)) with (ni * (omega p j * 1e12 / 299792458)) by (field; lra).
    replace (nj * (omega p j * 1e12) / 299792458) with (nj * (omega p j * 1e12 / 299792458)) by field. apply Rmult_lt_compat_r; [exact V|]. apply M.
    rewrite !wl_grid_nth by assumption. pose proof PI_RGT_0. apply Rmult_lt_compat_l; [unfold c_nmps, c_mks; nra|]. apply Rinv_lt_contravar; nra.
Qed.

(** Proofs about the pulse-shape constructors (DerivedPulses.py): C23-C25. *)
From Coq Require Import String.
From Coq Require Import Reals List ZArith Bool Arith Lia Lra.
From Coquelicot Require Import Complex.
From Verif Require Import Base CNum NumPy ModelFFT FFTProofs ModelPulse Spec ModelPulseOps PulseProofs PulseHistory PulseOpsProofs PulseRegridProofs ModelDerived.
Import ListNotations.
Local Open Scope R_scope.

Definition eff_frep (frep : option R) : option R := match frep with Some f => Some f | None => Some 100 end.
Definition blank (frep : option R) (n : nat) (wl tw : R) : pulse :=
  mkPulse n (c_nmps / wl) tw None (eff_frep frep) true None None None None.

Lemma head_run frep n wl tw : 1 < wl -> 1 < tw -> shape_head frep n wl tw pulse0 = (Ok tt, blank frep n wl tw).
Proof.
  intros Hw Ht. unfold shape_head, assert_gt1. destruct (Rlt_dec 1 wl); [|lra]. destruct (Rlt_dec 1 tw); [|lra].
  destruct frep; reflexivity.
Qed.
Lemma blank_writable frep n wl tw : writable (blank frep n wl tw).
Proof. split; [reflexivity|left; reflexivity]. Qed.
Lemma get_T_blank frep n wl tw : get_T (blank frep n wl tw) = (Ok (linspace_open (- tw / 2) (tw / 2) n), blank frep n wl tw).
Proof. reflexivity. Qed.

(** sample times of a window of [tw] ps with [n] points *)
Definition time_of (tw : R) (n j : nat) : R := - (tw / 2) + INR j * (tw / INR n).
Lemma linspace_time tw n : (0 < n)%nat -> linspace_open (- tw / 2) (tw / 2) n = mk n (time_of tw n).
Proof.
  intros Hn. unfold linspace_open. apply mk_ext. intros j _. unfold time_of.
  assert (INR n <> 0) by (apply not_0_INR; lia). field. exact H.
Qed.

(** profile fields: a real function of time *)
Definition prof (g : R -> R) (tw : R) (n : nat) : list C := map (fun t => RtoC (g t)) (linspace_open (- tw / 2) (tw / 2) n).
Lemma prof_length g tw n : length (prof g tw n) = n.
Proof. unfold prof, linspace_open. now rewrite map_length, mk_length. Qed.
Lemma prof_nth g tw n j : (j < n)%nat -> nth j (prof g tw n) (RtoC 0) = RtoC (g (time_of tw n j)).
Proof.
  intros Hj. unfold prof. rewrite linspace_time by lia. rewrite map_mk, mk_nth by exact Hj. reflexivity.
Qed.
Lemma time_mid tw h : (0 < h)%nat -> time_of tw (2 * h) h = 0.
Proof.
  intros Hh. unfold time_of. rewrite mult_INR. assert (INR h <> 0) by (apply not_0_INR; lia). simpl INR. field. exact H.
Qed.

Lemma same_mags_nth a b k : same_mags a b -> (k < length a)%nat -> Cmod (nth k a (RtoC 0)) = Cmod (nth k b (RtoC 0)).
Proof.
  intros H Hk. assert (L := map_eq_length _ _ _ _ H). pose proof (f_equal (fun l => nth k l 0) H) as E. cbn in E.
  rewrite !(nth_map' _ _ _ (RtoC 0)) in E by lia. exact E.
Qed.

(** GDD = TOD = 0 is the identity *)
Lemma chirp0 p a : holds p a -> chirp_pulse_W 0 0 0 None p = (Ok tt, p).
Proof.
  intros Hh. rewrite (chirp_run 0 0 0 None p a Hh). cbv zeta.
  rewrite (map2_cis_id_l (V_of p) (chirp_phase 0 0 0)).
  - now rewrite with_AW_same by apply Hh.
  - rewrite V_of_length. symmetry. apply Hh.
  - intros x. unfold chirp_phase. field.
Qed.

(** the tail of the shape constructors, no spectral chirp *)
Lemma tail_run p a c2 c3 T0 : holds p a ->
  exists p' t, bind (chirp_pulse_W 0 0 0 None) (fun _ => chirp_pulse_T c2 c3 T0) p = (Ok tt, p') /\
    get_AT p' = (Ok t, p') /\ same_mags t (IFFT_t a) /\ fst (calc_epp p') = fst (calc_epp p) /\ p' = with_AW (p_AW p') p.
Proof.
  intros Hh. destruct (C14_temporal_chirp_l p a c2 c3 T0 Hh) as (p' & t & t' & E1 & E2 & E3 & E4 & E5 & E6).
  exists p', t'. split; [unfold bind; rewrite (chirp0 p a Hh); exact E1|]. split; [exact E3|].
  rewrite (get_AT_run p a) in E2 by apply Hh. injection E2 as <-. auto.
Qed.

(** scaling to an average power is setting the energy per pulse *)
Lemma scale_to_avg_epp power f p a e : holds p a -> calc_epp p = (Ok e, p) -> 0 < e -> 0 < f -> 0 <= power ->
  scale_to_avg power (Some f) p = set_epp (power / (f * 1000000)) p.
Proof.
  intros Hh He Hpos Hf Hpow. unfold scale_to_avg, set_epp.
  assert (Ha := get_AT_run p a (proj1 (proj2 Hh))). unfold bind. rewrite Ha, He. cbv zeta.
  assert (D : 0 < f * 1000000 * e) by (repeat apply Rmult_lt_0_compat; lra).
  unfold finite_unless, is0, neg. destruct (Req_EM_T (f * 1000000 * e) 0); [lra|].
  assert (Q : power / (f * 1000000) / e = power / (f * 1000000 * e)) by (field; lra).
  rewrite Q.
  assert (0 <= power / (f * 1000000 * e)) by (apply Rmult_le_pos; [exact Hpow|left; now apply Rinv_0_lt_compat]).
  destruct (Rlt_dec (power / (f * 1000000 * e)) 0); [lra|]. destruct (Req_EM_T e 0); [lra|]. reflexivity.
Qed.

Lemma trapz_pos y : (2 <= length y)%nat -> (forall v, In v y -> 0 < v) -> 0 < trapz y.
Proof.
  destruct y as [|a [|b y]]; cbn [length]; intros L H; try lia.
  change (trapz (a :: b :: y)) with ((a + b) / 2 + trapz (b :: y)).
  assert (0 < a) by (apply H; left; auto). assert (0 < b) by (apply H; right; left; auto).
  assert (0 <= trapz (b :: y)) by (apply trapz_nonneg; intros v Hv; left; apply H; right; exact Hv). lra.
Qed.

(** state after writing a profile *)
Definition shaped (g : R -> R) frep n wl tw : pulse := with_AW (Some (FFT_t (prof g tw n))) (blank frep n wl tw).
Lemma shaped_holds g frep n wl tw : holds (shaped g frep n wl tw) (FFT_t (prof g tw n)).
Proof. split; [reflexivity|]. split; [reflexivity|]. now rewrite FFT_t_length, prof_length. Qed.
Lemma shaped_run g frep n wl tw : set_AT (prof g tw n) (blank frep n wl tw) = (Ok tt, shaped g frep n wl tw).
Proof. apply set_AT_ok; [apply blank_writable|apply prof_length]. Qed.

Lemma shaped_epp g frep n wl tw : (2 <= n)%nat -> 0 < tw -> (forall j, (j < n)%nat -> g (time_of tw n j) <> 0) ->
  exists e, calc_epp (shaped g frep n wl tw) = (Ok e, shaped g frep n wl tw) /\ 0 < e.
Proof.
  intros Hn Ht Hg. eexists. split; [apply (calc_epp_run _ _ (shaped_holds g frep n wl tw)); change (0 < n)%nat; lia|].
  rewrite IFFT_FFT_t. change (p_n (shaped g frep n wl tw)) with n. change (p_tw (shaped g frep n wl tw)) with tw.
  assert (0 < INR n) by (apply lt_0_INR; lia).
  apply Rmult_lt_0_compat; [apply Rmult_lt_0_compat; [now apply Rdiv_lt_0_compat|lra]|].
  apply trapz_pos; [now rewrite map_length, prof_length|].
  intros v Hv. apply in_map_iff in Hv. destruct Hv as (z & <- & Hz). apply (In_nth _ _ (RtoC 0)) in Hz.
  destruct Hz as (j & Hj & <-). rewrite prof_length in Hj. rewrite prof_nth by exact Hj. rewrite Cmod_R. apply pow_lt, Rabs_pos_lt. now apply Hg.
Qed.

(** average-power branch followed by the tail *)
Lemma avg_run_gen g power f n wl tw c2 c3 T0 : 0 <= power -> 0 < f -> (2 <= n)%nat -> 0 < tw -> (forall j, (j < n)%nat -> g (time_of tw n j) <> 0) ->
  exists p t e k,
    bind (bind (set_AT (prof g tw n)) (fun _ => scale_to_avg power (Some f)))
       (fun _ => bind (chirp_pulse_W 0 0 0 None) (fun _ => chirp_pulse_T c2 c3 T0)) (blank (Some f) n wl tw) = (Ok tt, p) /\
    frame p = (n, c_nmps / wl, tw, Some f, true) /\
    get_AT p = (Ok t, p) /\ length t = n /\ calc_epp p = (Ok e, p) /\ e * (f * 1000000) = power /\
    0 <= k /\ (0 < power -> 0 < k) /\ (forall j, (j < n)%nat -> Cmod (nth j t (RtoC 0)) = k * Rabs (g (time_of tw n j))).
Proof.
  intros Hp Hf Hn Ht Hg. set (s := shaped g (Some f) n wl tw).
  destruct (shaped_epp g (Some f) n wl tw Hn Ht Hg) as (e0 & He & Hpos). fold s in He.
  assert (Hs := shaped_holds g (Some f) n wl tw). fold s in Hs.
  set (E := power / (f * 1000000)).
  assert (HE : 0 <= E) by (apply Rmult_le_pos; [lra|left; apply Rinv_0_lt_compat; lra]).
  destruct (C10_set_epp_l s (FFT_t (prof g tw n)) e0 E Hs) as (s1 & k & R1 & R2 & R3 & R4 & R5).
  { now rewrite He. } { exact Hpos. } { exact HE. }
  set (b := map (fun z => RtoC k * z)%C (FFT_t (prof g tw n))) in *.
  assert (Hb : p_AW s1 = Some b).
  { unfold get_AW, bind, get in R4. destruct (p_AW s1) as [x|]; [|discriminate]. injection R4 as ->. reflexivity. }
  assert (Hs1 : holds s1 b).
  { rewrite R5. rewrite Hb. apply (holds_with s (FFT_t (prof g tw n)) b Hs). unfold b. rewrite map_length, FFT_t_length, prof_length. reflexivity. }
  destruct (tail_run s1 b c2 c3 T0 Hs1) as (p & t & T1 & T2 & T3 & T4 & T5).
  assert (Eb : IFFT_t b = map (Cmult (RtoC k)) (prof g tw n)).
  { unfold b. change (map (fun z => RtoC k * z)%C (FFT_t (prof g tw n))) with (map (Cmult (RtoC k)) (FFT_t (prof g tw n))).
    now rewrite IFFT_t_scale, IFFT_FFT_t. }
  exists p, t, E, k. split.
  { unfold bind at 1. unfold bind at 1. rewrite shaped_run. fold s.
    rewrite (scale_to_avg_epp power f s _ e0 Hs He Hpos Hf Hp). fold E. rewrite R1. exact T1. }
  split. { rewrite T5, R5. reflexivity. }
  split; [exact T2|].
  assert (Lt : length t = n).
  { rewrite (map_eq_length _ _ _ _ T3), IFFT_t_length. unfold b. now rewrite map_length, FFT_t_length, prof_length. }
  split; [exact Lt|]. split.
  { rewrite R2 in T4. cbn [fst] in T4.
    assert (Hh : holds p (FFT_t t)).
    { assert (exists z, p_AW p = Some z) as [z Hz].
      { unfold get_AT, bind, get in T2. destruct (p_AW p); [eauto|discriminate]. }
      rewrite (get_AT_run p z Hz) in T2. injection T2 as <-. rewrite FFT_IFFT_t. split; [rewrite T5, R5; reflexivity|]. split; [exact Hz|].
      rewrite IFFT_t_length in Lt. rewrite Lt, T5, R5. reflexivity. }
    pose proof (calc_epp_run p (FFT_t t) Hh) as Hc. rewrite Hc in T4 by (rewrite T5, R5; change (0 < n)%nat; lia).
    rewrite Hc by (rewrite T5, R5; change (0 < n)%nat; lia). cbn [fst] in T4. apply Ok_inj in T4. now rewrite T4. }
  split; [unfold E; field; lra|]. split; [exact R3|]. split.
  { intros Hpp. destruct R3 as [K|K]; [exact K|]. exfalso.
    pose proof (calc_epp_run s1 b Hs1) as Hc. rewrite R2, Eb in Hc. rewrite map_map in Hc.
    rewrite (map_ext _ (fun z => Rmult 0 (Cmod z))) in Hc by (intros z; rewrite <- K, Cmod_mult, Cmod_0; ring).
    rewrite <- (map_map Cmod (Rmult 0)) in Hc. rewrite trapz_scale in Hc.
    assert (Hn0 : (0 < p_n s1)%nat) by (rewrite R5; change (0 < n)%nat; lia). specialize (Hc Hn0). apply (f_equal fst) in Hc. cbn [fst] in Hc. apply Ok_inj in Hc.
    assert (0 < E) by (apply Rdiv_lt_0_compat; lra). lra. }
  intros j Hj. rewrite (same_mags_nth t (IFFT_t b) j T3) by lia. rewrite Eb.
  rewrite (nth_map' _ _ _ (RtoC 0)) by now rewrite prof_length. rewrite prof_nth by exact Hj.
  rewrite Cmod_mult, !Cmod_R, (Rabs_pos_eq k); [reflexivity|exact R3].
Qed.

Lemma avg_run g power f n wl tw c2 c3 T0 : 0 <= power -> 0 < f -> (2 <= n)%nat -> 0 < tw -> (forall x, 0 < g x) ->
  exists p t e k,
    bind (bind (set_AT (prof g tw n)) (fun _ => scale_to_avg power (Some f)))
       (fun _ => bind (chirp_pulse_W 0 0 0 None) (fun _ => chirp_pulse_T c2 c3 T0)) (blank (Some f) n wl tw) = (Ok tt, p) /\
    frame p = (n, c_nmps / wl, tw, Some f, true) /\
    get_AT p = (Ok t, p) /\ length t = n /\ calc_epp p = (Ok e, p) /\ e * (f * 1000000) = power /\
    0 <= k /\ (forall j, (j < n)%nat -> Cmod (nth j t (RtoC 0)) = k * g (time_of tw n j)).
Proof.
  intros Hp Hf Hn Ht Hg. destruct (avg_run_gen g power f n wl tw c2 c3 T0 Hp Hf Hn Ht) as (p & t & e & k & A1 & A2 & A3 & A4 & A5 & A6 & A7 & _ & A8).
  { intros j _. specialize (Hg (time_of tw n j)). lra. }
  exists p, t, e, k. repeat split; try assumption. intros j Hj. rewrite A8 by exact Hj. rewrite Rabs_pos_eq; [reflexivity|left; apply Hg].
Qed.

(** peak-power branch followed by the tail *)
Lemma peak_run g frep n wl tw c2 c3 T0 :
  exists p t,
    bind (set_AT (prof g tw n)) (fun _ => bind (chirp_pulse_W 0 0 0 None) (fun _ => chirp_pulse_T c2 c3 T0)) (blank frep n wl tw) = (Ok tt, p) /\
    frame p = (n, c_nmps / wl, tw, eff_frep frep, true) /\
    get_AT p = (Ok t, p) /\ length t = n /\ (forall j, (j < n)%nat -> Cmod (nth j t (RtoC 0)) = Rabs (g (time_of tw n j))).
Proof.
  set (s := shaped g frep n wl tw). assert (Hs := shaped_holds g frep n wl tw). fold s in Hs.
  destruct (tail_run s _ c2 c3 T0 Hs) as (p & t & T1 & T2 & T3 & T4 & T5).
  exists p, t. split; [unfold bind at 1; rewrite shaped_run; exact T1|].
  split; [rewrite T5; reflexivity|]. split; [exact T2|].
  assert (Lt : length t = n) by (rewrite (map_eq_length _ _ _ _ T3), IFFT_t_length, FFT_t_length; apply prof_length).
  split; [exact Lt|]. intros j Hj. rewrite (same_mags_nth t _ j T3) by lia. rewrite IFFT_FFT_t, prof_nth by exact Hj. apply Cmod_R.
Qed.

Lemma sech_pos x : 0 < cosh x. Proof. unfold cosh. pose proof (exp_pos x). pose proof (exp_pos (- x)). lra. Qed.
Lemma cosh_ge1 x : 1 <= cosh x.
Proof.
  unfold cosh. assert (exp x * exp (- x) = 1) by (rewrite <- exp_plus, Rplus_opp_r; apply exp_0).
  pose proof (exp_pos x). pose proof (exp_pos (- x)).
  set (a := exp x) in *. set (b := exp (- x)) in *. pose proof (Rle_0_sqr (a - b)) as S. unfold Rsqr in S.
  destruct (Rle_lt_dec 2 (a + b)); [lra|]. assert ((a + b) * (a + b) < 2 * 2) by (apply Rmult_gt_0_lt_compat; lra). lra.
Qed.
Lemma cosh_0' : cosh 0 = 1. Proof. unfold cosh. rewrite Ropp_0, exp_0. field. Qed.

(*! C23 (sech, average power): with power_is_avg the pulse satisfies calc_epp * frep = power exactly and its magnitude is proportional to sech(t/T0),
    for every temporal chirp. *)
Lemma C23_sech_average_power_l : forall (power T0 wl tw f : R) (n : nat) (c2 c3 : R),
  0 <= power -> T0 <> 0 -> 1 < wl -> 1 < tw -> 0 < f -> (2 <= n)%nat ->
  exists p t e k, construct (sech_pulse power T0 wl tw (Some f) n 0 0 c2 c3 true) = Ok p /\
    frame p = (n, c_nmps / wl, tw, Some f, true) /\
    calc_epp p = (Ok e, p) /\ get_frep_mks p = (Ok (Some (f * 1000000)), p) /\ e * (f * 1000000) = power /\
    get_AT p = (Ok t, p) /\ length t = n /\ 0 <= k /\
    (forall j, (j < n)%nat -> Cmod (nth j t (RtoC 0)) = k / cosh (time_of tw n j / T0)).
Proof.
  intros power T0 wl tw f n c2 c3 Hp HT Hw Ht Hf Hn.
  destruct (avg_run (fun t => 1 / cosh (t / T0)) power f n wl tw c2 c3 T0 Hp Hf Hn) as (p & t & e & k & R1 & R2 & R3 & R4 & R5 & R6 & R7 & R8).
  { lra. } { intros x. apply Rdiv_lt_0_compat; [lra|apply sech_pos]. }
  exists p, t, e, k. split.
  { unfold construct, sech_pulse. unfold bind at 1. rewrite head_run by assumption.
    unfold bind at 1, finite_unless at 1, is0. destruct (Req_EM_T T0 0); [contradiction|]. unfold ret at 1.
    unfold bind at 1. rewrite get_T_blank. fold (prof (fun t => 1 / cosh (t / T0)) tw n). rewrite R1. reflexivity. }
  split; [exact R2|]. split; [exact R5|]. split.
  { unfold get_frep_mks, gets. unfold frame in R2. injection R2 as _ _ _ E _. now rewrite E. }
  split; [exact R6|]. split; [exact R3|]. split; [exact R4|]. split; [exact R7|].
  intros j Hj. rewrite R8 by exact Hj. field. apply Rgt_not_eq, sech_pos.
Qed.

(*! C23 (sech, peak power): |AT|^2 is power * sech^2(t/T0) at every sample, so it never exceeds the requested peak power and reaches it at t = 0 (even NPTS). *)
Lemma C23_sech_peak_power_l : forall (power T0 wl tw : R) (frep : option R) (n : nat) (c2 c3 : R),
  0 <= power -> T0 <> 0 -> 1 < wl -> 1 < tw ->
  exists p t, construct (sech_pulse power T0 wl tw frep n 0 0 c2 c3 false) = Ok p /\
    frame p = (n, c_nmps / wl, tw, eff_frep frep, true) /\
    get_AT p = (Ok t, p) /\ length t = n /\
    (forall j, (j < n)%nat -> Cmod (nth j t (RtoC 0)) ^ 2 = power / cosh (time_of tw n j / T0) ^ 2 /\
                              Cmod (nth j t (RtoC 0)) ^ 2 <= power) /\
    (forall h, n = (2 * h)%nat -> (0 < h)%nat -> Cmod (nth h t (RtoC 0)) ^ 2 = power).
Proof.
  intros power T0 wl tw frep n c2 c3 Hp HT Hw Ht.
  destruct (peak_run (fun t => sqrt power / cosh (t / T0)) frep n wl tw c2 c3 T0) as (p & t & R1 & R2 & R3 & R4 & R5).
  assert (V : forall j, (j < n)%nat -> Cmod (nth j t (RtoC 0)) ^ 2 = power / cosh (time_of tw n j / T0) ^ 2).
  { intros j Hj. rewrite R5 by exact Hj. rewrite RPow_abs, Rabs_pos_eq by apply pow2_ge_0.
    unfold Rdiv. rewrite Rpow_mult_distr, pow2_sqrt by exact Hp. rewrite pow_inv. reflexivity. }
  exists p, t. split.
  { unfold construct, sech_pulse. unfold bind at 1. rewrite head_run by assumption.
    unfold bind at 1, finite_unless at 1, is0. destruct (Req_EM_T T0 0); [contradiction|]. unfold ret at 1.
    unfold bind at 1. rewrite get_T_blank. fold (prof (fun t => sqrt power / cosh (t / T0)) tw n).
    unfold finite_unless, neg. destruct (Rlt_dec power 0); [lra|]. unfold bind at 2, ret at 1.
    unfold bind at 1 in R1. unfold bind at 1. rewrite shaped_run in *. rewrite R1. reflexivity. }
  split; [exact R2|]. split; [exact R3|]. split; [exact R4|]. split.
  - intros j Hj. split; [now apply V|]. rewrite V by exact Hj.
    pose proof (cosh_ge1 (time_of tw n j / T0)) as Hc. set (c := cosh (time_of tw n j / T0)) in *.
    assert (1 <= c ^ 2) by (simpl; nra). apply (Rmult_le_reg_r (c ^ 2)); [lra|]. replace (power / c ^ 2 * c ^ 2) with power by (field; apply Rgt_not_eq; lra). nra.
  - intros h -> Hh. rewrite V by lia. rewrite time_mid by exact Hh.
    unfold Rdiv at 2. rewrite Rmult_0_l, cosh_0'. field.
Qed.

Definition gauss (T0 t : R) : R := exp (- (277 / 200) * (t / T0) ^ 2).
Lemma gauss_eq T0 t : T0 <> 0 -> exp (- (277 / 100) * (1 / 2) * t ^ 2 / T0 ^ 2) = gauss T0 t.
Proof. intros H. unfold gauss. f_equal. field. exact H. Qed.

(*! C23 (Gaussian, average power): as for sech, with the Gaussian profile; the power has to be positive. *)
Lemma C23_gaussian_average_power_l : forall (power T0 wl tw f : R) (n : nat) (c2 c3 : R),
  0 < power -> T0 <> 0 -> 1 < wl -> 1 < tw -> 0 < f -> (2 <= n)%nat ->
  exists p t e k, construct (gaussian_pulse power T0 wl tw (Some f) n 0 0 c2 c3 true) = Ok p /\
    frame p = (n, c_nmps / wl, tw, Some f, true) /\
    calc_epp p = (Ok e, p) /\ get_frep_mks p = (Ok (Some (f * 1000000)), p) /\ e * (f * 1000000) = power /\
    get_AT p = (Ok t, p) /\ length t = n /\ 0 <= k /\
    (forall j, (j < n)%nat -> Cmod (nth j t (RtoC 0)) = k * gauss T0 (time_of tw n j)).
Proof.
  intros power T0 wl tw f n c2 c3 Hp HT Hw Ht Hf Hn.
  set (g := fun t => sqrt power * exp (- (277 / 100) * (1 / 2) * t ^ 2 / T0 ^ 2)).
  assert (Hs : 0 < sqrt power) by now apply sqrt_lt_R0.
  destruct (avg_run g power f n wl tw c2 c3 T0) as (p & t & e & k & R1 & R2 & R3 & R4 & R5 & R6 & R7 & R8); try assumption; try lra.
  { intros x. apply Rmult_lt_0_compat; [exact Hs|apply exp_pos]. }
  exists p, t, e, (k * sqrt power). split.
  { unfold construct, gaussian_pulse. unfold bind at 1. rewrite head_run by assumption.
    unfold bind at 1, finite_unless at 1, is0, neg. destruct (Req_EM_T T0 0); [contradiction|]. destruct (Rlt_dec power 0); [lra|].
    cbn [orb]. unfold ret at 1. unfold bind at 1. rewrite get_T_blank. change (map _ _) with (prof g tw n).
    unfold bind in R1 |- *. rewrite shaped_run in *. rewrite R1. reflexivity. }
  split; [exact R2|]. split; [exact R5|]. split.
  { unfold get_frep_mks, gets. unfold frame in R2. injection R2 as _ _ _ E _. now rewrite E. }
  split; [exact R6|]. split; [exact R3|]. split; [exact R4|]. split; [apply Rmult_le_pos; lra|].
  intros j Hj. rewrite R8 by exact Hj. unfold g. rewrite gauss_eq by exact HT. ring.
Qed.

(*! C23 (Gaussian, zero average power) refuted: asking for average power 0 divides 0 by 0; the constructor does not produce a zero field. *)
Lemma C23_gaussian_zero_average_power_refuted_l : forall (T0 wl tw f : R) (n : nat) (c2 c3 : R),
  T0 <> 0 -> 1 < wl -> 1 < tw -> 0 < f -> (2 <= n)%nat ->
  construct (gaussian_pulse 0 T0 wl tw (Some f) n 0 0 c2 c3 true) = Raise NonFinite.
Proof.
  intros T0 wl tw f n c2 c3 HT Hw Ht Hf Hn.
  set (g := fun t => sqrt 0 * exp (- (277 / 100) * (1 / 2) * t ^ 2 / T0 ^ 2)).
  unfold construct, gaussian_pulse. unfold bind at 1. rewrite head_run by assumption.
  unfold bind at 1, finite_unless at 1, is0, neg. destruct (Req_EM_T T0 0); [contradiction|]. destruct (Rlt_dec 0 0); [lra|].
  cbn [orb]. unfold ret at 1. unfold bind at 1. rewrite get_T_blank. change (map _ _) with (prof g tw n).
  unfold bind at 1. rewrite shaped_run. set (s := shaped g (Some f) n wl tw).
  assert (Hs := shaped_holds g (Some f) n wl tw). fold s in Hs.
  unfold bind at 1. unfold scale_to_avg. unfold bind at 1. rewrite (get_AT_run s _ (proj1 (proj2 Hs))).
  unfold bind at 1. rewrite (calc_epp_run s _ Hs) by (change (0 < n)%nat; lia). cbv zeta. rewrite IFFT_FFT_t.
  assert (Z : trapz (map (fun z => Cmod z ^ 2) (prof g tw n)) = 0).
  { unfold prof. rewrite map_map. set (l := linspace_open (- tw / 2) (tw / 2) n). generalize l. intros l'. clear.
    induction l' as [|x l' IH]; [reflexivity|]. destruct l' as [|y l']; [reflexivity|].
    cbn [map trapz] in *. rewrite IH. unfold g. rewrite sqrt_0, !Rmult_0_l, Cmod_0. field. }
  rewrite Z, !Rmult_0_r. unfold finite_unless, is0. destruct (Req_EM_T 0 0); [|congruence]. reflexivity.
Qed.

(*! C23 (Gaussian, peak power): |AT|^2 = power * exp(-2.77 (t/T0)^2): at most the requested peak power, equal to it at t = 0 (even NPTS). *)
Lemma C23_gaussian_peak_power_l : forall (power T0 wl tw : R) (frep : option R) (n : nat) (c2 c3 : R),
  0 <= power -> T0 <> 0 -> 1 < wl -> 1 < tw ->
  exists p t, construct (gaussian_pulse power T0 wl tw frep n 0 0 c2 c3 false) = Ok p /\
    frame p = (n, c_nmps / wl, tw, eff_frep frep, true) /\
    get_AT p = (Ok t, p) /\ length t = n /\
    (forall j, (j < n)%nat -> Cmod (nth j t (RtoC 0)) ^ 2 = power * gauss T0 (time_of tw n j) ^ 2 /\
                              Cmod (nth j t (RtoC 0)) ^ 2 <= power) /\
    (forall h, n = (2 * h)%nat -> (0 < h)%nat -> Cmod (nth h t (RtoC 0)) ^ 2 = power).
Proof.
  intros power T0 wl tw frep n c2 c3 Hp HT Hw Ht.
  set (g := fun t => sqrt power * exp (- (277 / 100) * (1 / 2) * t ^ 2 / T0 ^ 2)).
  destruct (peak_run g frep n wl tw c2 c3 T0) as (p & t & R1 & R2 & R3 & R4 & R5).
  assert (V : forall j, (j < n)%nat -> Cmod (nth j t (RtoC 0)) ^ 2 = power * gauss T0 (time_of tw n j) ^ 2).
  { intros j Hj. rewrite R5 by exact Hj. rewrite RPow_abs, Rabs_pos_eq by apply pow2_ge_0.
    unfold g. rewrite gauss_eq by exact HT. rewrite Rpow_mult_distr, pow2_sqrt by exact Hp. reflexivity. }
  exists p, t. split.
  { unfold construct, gaussian_pulse. unfold bind at 1. rewrite head_run by assumption.
    unfold bind at 1, finite_unless at 1, is0, neg. destruct (Req_EM_T T0 0); [contradiction|]. destruct (Rlt_dec power 0); [lra|].
    cbn [orb]. unfold ret at 1. unfold bind at 1. rewrite get_T_blank. change (map _ _) with (prof g tw n).
    unfold bind at 1 in R1. unfold bind at 1. rewrite shaped_run in *. unfold bind at 1, ret at 1. rewrite R1. reflexivity. }
  split; [exact R2|]. split; [exact R3|]. split; [exact R4|]. split.
  - intros j Hj. split; [now apply V|]. rewrite V by exact Hj.
    assert (gauss T0 (time_of tw n j) <= 1).
    { unfold gauss. rewrite <- exp_0. destruct (Req_dec ((time_of tw n j / T0) ^ 2) 0) as [E|E]; [rewrite E, Rmult_0_r; lra|].
      left. apply exp_increasing. pose proof (pow2_ge_0 (time_of tw n j / T0)). nra. }
    assert (0 < gauss T0 (time_of tw n j)) by apply exp_pos.
    rewrite <- (Rmult_1_r power) at 2. apply Rmult_le_compat_l; [exact Hp|]. simpl. nra.
  - intros h -> Hh. rewrite V by lia. rewrite time_mid by exact Hh. unfold gauss, Rdiv at 2. rewrite Rmult_0_l.
    replace (- (277 / 200) * 0 ^ 2) with 0 by (simpl; ring). rewrite exp_0. ring.
Qed.

(*! C23 (Gaussian, documented profile) refuted: the docstring's profile sqrt(power)*exp(-(t/T0)^2/2) is not what is built; it already differs at the first sample. *)
Lemma C23_gaussian_docstring_profile_refuted_l : forall (power T0 wl tw : R) (frep : option R) (n : nat),
  0 < power -> T0 <> 0 -> 1 < wl -> 1 < tw -> (0 < n)%nat ->
  exists p t, construct (gaussian_pulse power T0 wl tw frep n 0 0 0 0 false) = Ok p /\ get_AT p = (Ok t, p) /\
    Cmod (nth 0 t (RtoC 0)) < sqrt power * exp (- (time_of tw n 0 / T0) ^ 2 / 2).
Proof.
  intros power T0 wl tw frep n Hp HT Hw Ht Hn.
  destruct (C23_gaussian_peak_power_l power T0 wl tw frep n 0 0) as (p & t & E1 & E2 & E3 & E4 & E5 & E6); try assumption; try lra.
  exists p, t. split; [exact E1|]. split; [exact E3|]. destruct (E5 0%nat Hn) as [V _].
  assert (S0 : 0 < sqrt power) by now apply sqrt_lt_R0.
  assert (V' : Cmod (nth 0 t (RtoC 0)) = sqrt power * gauss T0 (time_of tw n 0)).
  { rewrite <- (sqrt_pow2 (Cmod (nth 0 t (RtoC 0)))) by apply Cmod_ge_0. rewrite V.
    rewrite sqrt_mult by (try lra; apply pow2_ge_0). rewrite sqrt_pow2; [reflexivity|left; apply exp_pos]. }
  rewrite V'. apply Rmult_lt_compat_l; [exact S0|]. unfold gauss. apply exp_increasing.
  assert (x0 : time_of tw n 0 / T0 <> 0).
  { unfold time_of. simpl INR. rewrite Rmult_0_l, Rplus_0_r. intros E. apply Rmult_integral in E. destruct E as [E|E]; [lra|].
    now apply Rinv_neq_0_compat in E. }
  assert (0 < (time_of tw n 0 / T0) ^ 2) by (simpl; rewrite Rmult_1_r; now apply Rsqr_pos_lt). lra.
Qed.

(** ** C24 *)
Lemma F_val p k : p_ready p = true -> (k < p_n p)%nat -> get_F_THz p = (Ok (F_of p), p) /\
  nth k (F_of p) 0 = p_f p + (INR k - INR (p_n p) / 2) / p_tw p.
Proof.
  intros Hr Hk. split; [unfold get_F_THz; mred; now rewrite Hr|]. pose proof PI_RGT_0.
  unfold F_of. rewrite (nth_map' _ _ _ 0) by now rewrite W_of_length. rewrite W_of_spec, spec_W_nth by exact Hk.
  unfold Rdiv at 1. rewrite Rmult_comm, <- Rmult_assoc, Rinv_l by lra. ring.
Qed.

Lemma FFT_t_ones n h k : n = (2 * h)%nat -> (k < n)%nat ->
  nth k (FFT_t (repeat (RtoC 1) n)) (RtoC 0) = if Nat.eqb k h then RtoC 1 else RtoC 0.
Proof.
  intros En Hk. rewrite FFT_t_nth by now rewrite repeat_length. rewrite repeat_length.
  assert (Ed : Nat.div2 n = h) by (subst n; apply Nat.div2_double). rewrite Ed.
  rewrite (csum_ext n _ (fun j => (tw n ((Z.of_nat k + Z.of_nat h) * Z.of_nat j) * tw n (Z.of_nat h * (Z.of_nat k + Z.of_nat h)))%C)).
  2:{ intros j Hj. rewrite (nth_indep _ (RtoC 0) (RtoC 1)) by now rewrite repeat_length. rewrite nth_repeat.
      rewrite <- tw_add. rewrite Cmult_1_l. f_equal. ring. }
  rewrite csum_scal_r, tw_orth by lia.
  destruct (Nat.eqb_spec k h) as [->|N].
  - replace ((Z.of_nat h + Z.of_nat h) mod Z.of_nat n =? 0)%Z with true.
    2:{ symmetry. apply Z.eqb_eq. replace (Z.of_nat h + Z.of_nat h)%Z with (1 * Z.of_nat n)%Z by lia. apply Z_mod_mult. }
    rewrite (tw_mod n _ 0) by (try lia; replace (Z.of_nat h * (Z.of_nat h + Z.of_nat h))%Z with (Z.of_nat h * Z.of_nat n)%Z by lia; now rewrite Z_mod_mult, Zmod_0_l).
    rewrite tw_0, Cmult_1_r. apply inv_INR_mult. lia.
  - destruct (Z.eqb_spec ((Z.of_nat k + Z.of_nat h) mod Z.of_nat n) 0) as [E|E]; [|ring].
    exfalso. apply Z.mod_divide in E; [|lia]. destruct E as [q Hq]. assert (q = 1)%Z by nia. subst q. lia.
Qed.

(*! C24 (no offset): on every even grid the CW pulse is a single line in bin NPTS/2, whose frequency is the requested one, with |AW|^2 equal to the requested power. *)
Lemma C24_cw_line_l : forall (power wl tw : R) (n h : nat),
  0 <= power -> 1 < wl -> 1 < tw -> n = (2 * h)%nat -> (0 < h)%nat ->
  exists p a F, construct (cw_pulse power wl tw n None) = Ok p /\ get_AW p = (Ok a, p) /\ length a = n /\
    get_F_THz p = (Ok F, p) /\ nth h F 0 = c_nmps / wl /\
    Cmod (nth h a (RtoC 0)) ^ 2 = power /\ (forall k, (k < n)%nat -> k <> h -> nth k a (RtoC 0) = RtoC 0).
Proof.
  intros power wl tw n h Hp Hw Ht En Hh.
  set (s := blank None n wl tw). set (a0 := FFT_t (repeat (RtoC 1) n)).
  assert (L0 : length a0 = n) by (unfold a0; now rewrite FFT_t_length, repeat_length).
  assert (N0 : forall k, (k < n)%nat -> nth k a0 (RtoC 0) = if Nat.eqb k h then RtoC 1 else RtoC 0) by (intros; now apply FFT_t_ones).
  assert (S0 : lrsum (map Cmod a0) = 1).
  { rewrite lrsum_nth, map_length, L0. rewrite (rsum_single n h).
    - rewrite (nth_map' _ _ _ (RtoC 0)), N0, Nat.eqb_refl by lia. apply Cmod_1.
    - lia.
    - intros j Hj Hne. rewrite (nth_map' _ _ _ (RtoC 0)), N0 by lia. destruct (Nat.eqb_spec j h); [congruence|]. apply Cmod_0. }
  set (a := map (fun z => z * RtoC (sqrt power) / RtoC 1)%C a0).
  assert (La : length a = n) by (unfold a; now rewrite map_length).
  set (p := with_AW (Some a) (with_AW (Some a0) s)).
  exists p, a, (F_of p).
  split.
  { unfold construct, cw_pulse. unfold bind at 1, pulse_init. unfold bind at 1, ret at 1. unfold set_NPTS, bind at 1, modify at 1, check_ready, modify.
    unfold assert_gt1. destruct (Rlt_dec 1 wl); [|lra]. destruct (Rlt_dec 1 tw); [|lra]. 
    unfold bind at 1, ret at 1. unfold bind at 1, ret at 1. unfold bind at 1, set_center_wavelength_nm, set_centerfrequency, bind at 1, modify at 1, check_ready, modify at 1.
    unfold bind at 1, set_time_window_ps, set_time_window, bind at 1, modify at 1, check_ready, modify at 1.
    match goal with |- context [bind (set_AT _) _ ?z] => change z with s end.
    unfold bind at 1. rewrite set_AT_ok; [|apply blank_writable|apply repeat_length].
    fold a0. unfold bind at 1. rewrite (get_AW_run _ a0) by reflexivity. cbv zeta. rewrite S0.
    unfold bind at 1, finite_unless, is0, neg. destruct (Req_EM_T 1 0); [lra|]. destruct (Rlt_dec power 0); [lra|]. cbn [orb]. unfold ret.
    fold a. rewrite set_AW_ok; [reflexivity| |exact La].
    split; [reflexivity|right; exists a0; split; [reflexivity|exact L0]]. }
  split; [reflexivity|]. split; [exact La|].
  assert (Hn : (h < p_n p)%nat) by (change (p_n p) with n; lia).
  destruct (F_val p h eq_refl Hn) as [F1 F2]. split; [exact F1|]. split.
  { rewrite F2. change (p_n p) with n. change (p_f p) with (c_nmps / wl). change (p_tw p) with tw. rewrite En, mult_INR. simpl (INR 2). field. lra. }
  split.
  - unfold a. rewrite (nth_map' _ _ _ (RtoC 0)), N0, Nat.eqb_refl by lia.
    replace (RtoC 1 * RtoC (sqrt power) / RtoC 1)%C with (RtoC (sqrt power)).
    + rewrite Cmod_R, Rabs_pos_eq by apply sqrt_pos. now apply pow2_sqrt.
    + unfold Cdiv. rewrite Cmult_1_l. apply C_eq; simpl; field.
  - intros k Hk Hne. unfold a. rewrite (nth_map' _ _ _ (RtoC 0)), N0 by lia. destruct (Nat.eqb_spec k h); [congruence|].
    unfold Cdiv. now rewrite !Cmult_0_l.
Qed.

Lemma update_zeros {A} n i (v z : A) : (i < n)%nat -> length (update i v (repeat z n)) = n /\
  (forall k, (k < n)%nat -> nth k (update i v (repeat z n)) z = if Nat.eqb k i then v else z).
Proof.
  intros Hi. assert (Lf : length (firstn i (repeat z n)) = i) by (rewrite firstn_length, repeat_length; lia).
  split.
  - unfold update. rewrite app_length. cbn [length]. rewrite Lf, skipn_length, repeat_length. lia.
  - intros k Hk. unfold update. destruct (Nat.eqb_spec k i) as [->|Hne].
    + rewrite app_nth2 by lia. rewrite Lf, Nat.sub_diag. reflexivity.
    + destruct (Nat.lt_ge_cases k i) as [L|L].
      * rewrite app_nth1 by lia. transitivity (nth k (repeat z n) z); [|apply nth_repeat]. rewrite <- (firstn_skipn i (repeat z n)) at 2.
        rewrite app_nth1 by lia. reflexivity.
      * rewrite app_nth2 by lia. rewrite Lf. replace (k - i)%nat with (S (k - S i)) by lia. cbn [nth].
        transitivity (nth k (repeat z n) z); [|apply nth_repeat]. rewrite <- (firstn_skipn (S i) (repeat z n)) at 2.
        rewrite app_nth2; rewrite firstn_length, repeat_length; [|lia]. f_equal. lia.
Qed.

Lemma cw_offset_run power wl tw n off i :
  let r := py_round (off / (1 / tw)) in
  let f0 := c_nmps / wl - IZR r * (1 / tw) in
  0 <= power -> 1 < wl -> 1 < tw -> f0 <> 0 -> (i < n)%nat -> py_index n (Z.of_nat (Nat.div2 n) + r) = Ok i ->
  exists p a, construct (cw_pulse power wl tw n (Some off)) = Ok p /\ get_AW p = (Ok a, p) /\ length a = n /\
    p_n p = n /\ p_tw p = tw /\ p_f p = f0 /\ p_ready p = true /\
    (forall k, (k < n)%nat -> nth k a (RtoC 0) = if Nat.eqb k i then RtoC (sqrt power) else RtoC 0).
Proof.
  intros r f0 Hp Hw Ht Hf Hi Hx.
  destruct (update_zeros n i (RtoC (sqrt power)) (RtoC 0) Hi) as [L U].
  set (a := update i (RtoC (sqrt power)) (repeat (RtoC 0) n)) in *.
  set (s := blank None n (c_nmps / f0) tw).
  exists (with_AW (Some a) s), a.
  split.
  { unfold construct, cw_pulse. unfold bind at 1, pulse_init. unfold bind at 1, ret at 1. unfold set_NPTS, bind at 1, modify at 1, check_ready, modify.
    unfold assert_gt1. destruct (Rlt_dec 1 wl); [|lra]. destruct (Rlt_dec 1 tw); [|lra]. 
    unfold bind at 1, ret at 1. unfold bind at 1, ret at 1. cbv zeta. fold r. fold f0.
    unfold bind at 1, finite_unless, is0, neg. destruct (Req_EM_T f0 0); [lra|]. destruct (Rlt_dec power 0); [lra|]. cbn [orb]. unfold ret at 1.
    unfold bind at 1, set_time_window_ps, set_time_window, bind at 1, modify at 1, check_ready, modify at 1.
    unfold bind at 1, set_center_wavelength_nm, set_centerfrequency, bind at 1, modify at 1, check_ready, modify at 1.
    match goal with |- context [bind (lift _) _ ?z] => change z with s end.
    unfold bind at 1, lift. rewrite Hx. fold a. rewrite set_AW_ok; [reflexivity|apply blank_writable|exact L]. }
  split; [reflexivity|]. split; [exact L|]. split; [reflexivity|]. split; [reflexivity|]. split.
  { change (c_nmps / (c_nmps / f0) = f0). pose proof c_nmps_pos. field. split; lra. }
  split; [reflexivity|exact U].
Qed.

Lemma py_index_in n i : (0 <= i < Z.of_nat n)%Z -> py_index n i = Ok (Z.to_nat i).
Proof.
  intros H. unfold py_index. destruct (Z.ltb_spec i (- Z.of_nat n)); [lia|]. destruct (Z.leb_spec (Z.of_nat n) i); [lia|].
  destruct (Z.ltb_spec i 0); [lia|reflexivity].
Qed.
Lemma py_index_neg n i : (- Z.of_nat n <= i < 0)%Z -> py_index n i = Ok (Z.to_nat (i + Z.of_nat n)).
Proof.
  intros H. unfold py_index. destruct (Z.ltb_spec i (- Z.of_nat n)); [lia|]. destruct (Z.leb_spec (Z.of_nat n) i); [lia|].
  destruct (Z.ltb_spec i 0); [reflexivity|lia].
Qed.

(*! C24 (offset, even grid): when the offset, rounded to the nearest multiple r of the bin spacing 1/time_window, falls inside the grid, the spectrum is one line whose
    frequency is exactly the requested c/wavelength and whose |AW|^2 is the requested power; the grid is centred r bins away from it. *)
Lemma C24_cw_offset_partial_l : forall (power wl tw off : R) (n h : nat) (r : Z),
  0 <= power -> 1 < wl -> 1 < tw -> n = (2 * h)%nat ->
  r = py_round (off * tw) -> (- Z.of_nat h <= r < Z.of_nat h)%Z -> c_nmps / wl <> IZR r / tw ->
  exists p a F i, construct (cw_pulse power wl tw n (Some off)) = Ok p /\ get_AW p = (Ok a, p) /\ length a = n /\
    get_F_THz p = (Ok F, p) /\ get_center_frequency_THz p = (Ok (c_nmps / wl - IZR r / tw), p) /\
    Rabs (IZR r / tw - off) <= 1 / 2 / tw /\
    (i < n)%nat /\ nth i F 0 = c_nmps / wl /\ Cmod (nth i a (RtoC 0)) ^ 2 = power /\
    (forall k, (k < n)%nat -> k <> i -> nth k a (RtoC 0) = RtoC 0).
Proof.
  intros power wl tw off n h r Hp Hw Ht En Hr Hin Hf.
  assert (Eo : off / (1 / tw) = off * tw) by (field; lra).
  assert (Ed : Nat.div2 n = h) by (subst n; apply Nat.div2_double).
  destruct (cw_offset_run power wl tw n off (Z.to_nat (Z.of_nat h + r))) as (p & a & E1 & E2 & E3 & E4 & E5 & E6 & E7 & E8); try assumption.
  - rewrite Eo, <- Hr. intros E. apply Hf. lra.
  - lia.
  - rewrite Ed, Eo, <- Hr. apply py_index_in. lia.
  - rewrite Eo, <- Hr in E6.
    set (i := Z.to_nat (Z.of_nat h + r)) in *. assert (Hi : (i < n)%nat) by (unfold i; lia).
    assert (Hi' : (i < p_n p)%nat) by now rewrite E4. destruct (F_val p i E7 Hi') as [F1 F2].
    exists p, a, (F_of p), i. repeat split; try assumption.
    + unfold get_center_frequency_THz, gets. rewrite E6. f_equal. f_equal. field. lra.
    + replace (IZR r / tw - off) with ((IZR r - off * tw) / tw) by (field; lra).
      unfold Rdiv at 1. rewrite Rabs_mult, (Rabs_pos_eq (/ tw)) by (left; apply Rinv_0_lt_compat; lra).
      apply Rmult_le_compat_r; [left; apply Rinv_0_lt_compat; lra|]. rewrite Hr. apply py_round_half.
    + rewrite F2, E4, E5, E6. unfold i. rewrite INR_IZR_INZ, Z2Nat.id by lia. rewrite plus_IZR, <- INR_IZR_INZ, En, mult_INR. simpl (INR 2). field. lra.
    + rewrite E8, Nat.eqb_refl by assumption. rewrite Cmod_R, Rabs_pos_eq by apply sqrt_pos. now apply pow2_sqrt.
    + intros k Hk Hne. rewrite E8 by assumption. destruct (Nat.eqb_spec k i); [congruence|reflexivity].
Qed.

(*! C24 (offset beyond the upper edge): the constructor raises IndexError instead of producing a pulse. *)
Lemma C24_cw_offset_above_l : forall (power wl tw off : R) (n h : nat),
  0 <= power -> 1 < wl -> 1 < tw -> n = (2 * h)%nat ->
  (Z.of_nat h <= py_round (off * tw))%Z -> c_nmps / wl <> IZR (py_round (off * tw)) / tw ->
  construct (cw_pulse power wl tw n (Some off)) = Raise IndexError.
Proof.
  intros power wl tw off n h Hp Hw Ht En Hr Hf.
  assert (Eo : off / (1 / tw) = off * tw) by (field; lra).
  assert (Ed : Nat.div2 n = h) by (subst n; apply Nat.div2_double).
  unfold construct, cw_pulse. unfold bind at 1, pulse_init. unfold bind at 1, ret at 1. unfold set_NPTS, bind at 1, modify at 1, check_ready, modify.
  unfold assert_gt1. destruct (Rlt_dec 1 wl); [|lra]. destruct (Rlt_dec 1 tw); [|lra]. 
  unfold bind at 1, ret at 1. unfold bind at 1, ret at 1. cbv zeta. rewrite Eo. set (q := py_round (off * tw)) in *.
  unfold bind at 1, finite_unless, is0, neg. destruct (Req_EM_T (c_nmps / wl - IZR q * (1 / tw)) 0) as [E|_]; [exfalso; apply Hf; lra|].
  destruct (Rlt_dec power 0); [lra|]. cbn [orb]. unfold ret at 1.
  unfold bind at 1, set_time_window_ps, set_time_window, bind at 1, modify at 1, check_ready, modify at 1.
  unfold bind at 1, set_center_wavelength_nm, set_centerfrequency, bind at 1, modify at 1, check_ready, modify at 1.
  unfold bind at 1, lift. rewrite Ed. unfold py_index.
  destruct (Z.ltb_spec (Z.of_nat h + q) (- Z.of_nat n)); [reflexivity|]. destruct (Z.leb_spec (Z.of_nat n) (Z.of_nat h + q)); [reflexivity|lia].
Qed.

(*! C24 refuted for offsets below the lower edge: Python's negative indexing wraps, and the line is silently placed one full bandwidth (n/time_window) above
    the requested frequency. *)
Lemma C24_cw_offset_below_refuted_l : forall (power wl tw off : R) (n h : nat) (r : Z),
  0 <= power -> 1 < wl -> 1 < tw -> n = (2 * h)%nat -> (0 < h)%nat ->
  r = py_round (off * tw) -> (- (3 * Z.of_nat h) <= r < - Z.of_nat h)%Z -> c_nmps / wl <> IZR r / tw ->
  exists p a F i, construct (cw_pulse power wl tw n (Some off)) = Ok p /\ get_AW p = (Ok a, p) /\ get_F_THz p = (Ok F, p) /\
    (i < n)%nat /\ Cmod (nth i a (RtoC 0)) ^ 2 = power /\ (forall k, (k < n)%nat -> k <> i -> nth k a (RtoC 0) = RtoC 0) /\
    nth i F 0 = c_nmps / wl + INR n / tw /\ nth i F 0 <> c_nmps / wl.
Proof.
  intros power wl tw off n h r Hp Hw Ht En Hh Hr Hin Hf.
  assert (Eo : off / (1 / tw) = off * tw) by (field; lra).
  assert (Ed : Nat.div2 n = h) by (subst n; apply Nat.div2_double).
  destruct (cw_offset_run power wl tw n off (Z.to_nat (Z.of_nat h + r + Z.of_nat n))) as (p & a & E1 & E2 & E3 & E4 & E5 & E6 & E7 & E8); try assumption.
  - rewrite Eo, <- Hr. intros E. apply Hf. lra.
  - lia.
  - rewrite Ed, Eo, <- Hr. apply py_index_neg. lia.
  - rewrite Eo, <- Hr in E6.
    set (i := Z.to_nat (Z.of_nat h + r + Z.of_nat n)) in *. assert (Hi : (i < n)%nat) by (unfold i; lia).
    assert (Hi' : (i < p_n p)%nat) by now rewrite E4. destruct (F_val p i E7 Hi') as [F1 F2].
    assert (V : nth i (F_of p) 0 = c_nmps / wl + INR n / tw).
    { rewrite F2, E4, E5, E6. unfold i. rewrite INR_IZR_INZ, Z2Nat.id by lia. rewrite !plus_IZR, <- !INR_IZR_INZ, En, mult_INR. simpl (INR 2). field. lra. }
    exists p, a, (F_of p), i. repeat split; try assumption.
    + rewrite E8, Nat.eqb_refl by assumption. rewrite Cmod_R, Rabs_pos_eq by apply sqrt_pos. now apply pow2_sqrt.
    + intros k Hk Hne. rewrite E8 by assumption. destruct (Nat.eqb_spec k i); [congruence|reflexivity].
    + rewrite V. assert (0 < INR n / tw); [|lra]. apply Rdiv_lt_0_compat; [apply lt_0_INR; lia|lra].
Qed.

(** ** C25 *)
Lemma abs_sin_lt x : 0 < x -> Rabs (sin x) < x.
Proof.
  intros Hx. destruct (Rlt_le_dec x PI) as [L|L].
  - rewrite Rabs_pos_eq; [now apply sin_lt_x|]. left. now apply sin_gt_0.
  - apply Rle_lt_trans with 1; [|pose proof PI2_1; lra]. apply Rabs_le. pose proof (SIN_bound x). lra.
Qed.
Lemma np_sinc_0 : np_sinc 0 = 1.
Proof. unfold np_sinc. destruct (Req_EM_T 0 0); [reflexivity|congruence]. Qed.
Lemma np_sinc_lt1 x : x <> 0 -> Rabs (np_sinc x) < 1.
Proof.
  intros Hx. unfold np_sinc. destruct (Req_EM_T x 0); [contradiction|]. pose proof PI_RGT_0.
  assert (P0 : PI * x <> 0) by (apply Rmult_integral_contrapositive; split; lra).
  assert (Pa : 0 < Rabs (PI * x)) by now apply Rabs_pos_lt.
  unfold Rdiv. rewrite Rabs_mult, Rabs_inv. apply (Rmult_lt_reg_r (Rabs (PI * x))); [exact Pa|].
  rewrite Rmult_assoc, Rinv_l by lra. rewrite Rmult_1_r, Rmult_1_l.
  destruct (Rlt_le_dec (PI * x) 0) as [L|L].
  - rewrite (Rabs_left (PI * x)) by exact L. rewrite <- Rabs_Ropp, <- sin_neg. apply abs_sin_lt. lra.
  - rewrite (Rabs_pos_eq (PI * x)) by exact L. apply abs_sin_lt. lra.
Qed.
Lemma np_sinc_le1 x : Rabs (np_sinc x) <= 1.
Proof. destruct (Req_EM_T x 0) as [->|N]; [rewrite np_sinc_0, Rabs_R1; lra|left; now apply np_sinc_lt1]. Qed.

(*! C25 (sinc, peak power): |AT|^2 = power * (sin(t/T0)/(t/T0))^2 with T0 = FWHM/3.7909885; never above the requested peak power, equal to it at t = 0 (even NPTS).
    Missing from the full claim: the average-power branch, which is refuted below. *)
Lemma C25_sinc_peak_power_partial_l : forall (power FWHM wl tw : R) (frep : option R) (n : nat) (c2 c3 : R),
  0 <= power -> FWHM <> 0 -> 1 < wl -> 1 < tw ->
  let T0 := FWHM / (37909885 / 10000000) in
  exists p t, construct (sinc_pulse power FWHM wl tw frep n 0 0 c2 c3 false) = Ok p /\
    frame p = (n, c_nmps / wl, tw, eff_frep frep, true) /\
    get_AT p = (Ok t, p) /\ length t = n /\
    (forall j, (j < n)%nat -> Cmod (nth j t (RtoC 0)) ^ 2 <= power /\
       (time_of tw n j <> 0 -> Cmod (nth j t (RtoC 0)) ^ 2 = power * (sin (time_of tw n j / T0) / (time_of tw n j / T0)) ^ 2)) /\
    (forall h, n = (2 * h)%nat -> (0 < h)%nat -> Cmod (nth h t (RtoC 0)) ^ 2 = power).
Proof.
  intros power FWHM wl tw frep n c2 c3 Hp HF Hw Ht T0.
  assert (HT : T0 <> 0) by (unfold T0; intros E; apply Rmult_integral in E; destruct E as [E|E]; [contradiction|lra]).
  pose proof PI_RGT_0 as Hpi.
  destruct (peak_run (fun t => sqrt power * np_sinc (t / (T0 * PI))) frep n wl tw c2 c3 T0) as (p & t & R1 & R2 & R3 & R4 & R5).
  assert (V : forall j, (j < n)%nat -> Cmod (nth j t (RtoC 0)) ^ 2 = power * np_sinc (time_of tw n j / (T0 * PI)) ^ 2).
  { intros j Hj. rewrite R5 by exact Hj. rewrite RPow_abs, Rabs_pos_eq by apply pow2_ge_0.
    rewrite Rpow_mult_distr, pow2_sqrt by exact Hp. reflexivity. }
  exists p, t. split.
  { unfold construct, sinc_pulse. unfold bind at 1. rewrite head_run by assumption. cbv zeta. fold T0.
    unfold bind at 1, finite_unless at 1, is0. destruct (Req_EM_T T0 0); [contradiction|]. unfold ret at 1.
    unfold bind at 1. rewrite get_T_blank. fold (prof (fun t => sqrt power * np_sinc (t / (T0 * PI))) tw n).
    unfold finite_unless, neg. destruct (Rlt_dec power 0); [lra|]. unfold bind at 2, ret at 1.
    unfold bind at 1 in R1. unfold bind at 1. rewrite shaped_run in *. rewrite R1. reflexivity. }
  split; [exact R2|]. split; [exact R3|]. split; [exact R4|]. split.
  - intros j Hj. rewrite V by exact Hj. split.
    + pose proof (np_sinc_le1 (time_of tw n j / (T0 * PI))) as B. set (s := np_sinc _) in *.
      assert (s ^ 2 <= 1) by (rewrite <- (pow2_abs s); pose proof (Rabs_pos s); simpl; nra). nra.
    + intros Hj0. unfold np_sinc. destruct (Req_EM_T (time_of tw n j / (T0 * PI)) 0) as [E|E].
      { exfalso. apply Rmult_integral in E. destruct E as [E|E]; [contradiction|]. revert E. apply Rinv_neq_0_compat. apply Rmult_integral_contrapositive; split; lra. }
      replace (PI * (time_of tw n j / (T0 * PI))) with (time_of tw n j / T0) by (field; split; lra). reflexivity.
  - intros h -> Hh. rewrite V by lia. rewrite time_mid by exact Hh. unfold Rdiv. rewrite Rmult_0_l, np_sinc_0. ring.
Qed.

Lemma has_zero_false l : (forall v, In v l -> v <> 0) -> has_zero l = false.
Proof.
  unfold has_zero. intros H. induction l as [|x l IH]; [reflexivity|]. cbn [existsb]. 
  destruct (Req_EM_T x 0) as [E|E]; [exfalso; apply (H x); [left; auto|exact E]|]. cbn [orb]. apply IH. intros v Hv. apply H. now right.
Qed.

(*! C25 refuted (sinc, average power): the profile built is the reciprocal of a sinc.  Every sample away from t = 0 is *larger* than the centre sample, by the factor
    1/|np.sinc(t/T0)|; a sinc pulse has its maximum at the centre. *)
Lemma C25_sinc_average_power_refuted_l : forall (power FWHM wl tw f : R) (n h : nat) (c2 c3 : R),
  0 < power -> FWHM <> 0 -> 1 < wl -> 1 < tw -> 0 < f -> n = (2 * h)%nat -> (0 < h)%nat ->
  let T0 := FWHM / (37909885 / 10000000) in
  (forall j, (j < n)%nat -> np_sinc (time_of tw n j / T0) <> 0) ->
  exists p t, construct (sinc_pulse power FWHM wl tw (Some f) n 0 0 c2 c3 true) = Ok p /\ get_AT p = (Ok t, p) /\ length t = n /\
    (forall j, (j < n)%nat -> Cmod (nth j t (RtoC 0)) * Rabs (np_sinc (time_of tw n j / T0)) = Cmod (nth h t (RtoC 0))) /\
    (forall j, (j < n)%nat -> j <> h -> Cmod (nth h t (RtoC 0)) < Cmod (nth j t (RtoC 0))).
Proof.
  intros power FWHM wl tw f n h c2 c3 Hp HF Hw Ht Hf En Hh T0 Hz. pose proof PI_RGT_0 as Hpi.
  assert (HT : T0 <> 0) by (unfold T0; intros E; apply Rmult_integral in E; destruct E as [E|E]; [contradiction|lra]).
  destruct (avg_run_gen (fun t => 1 / np_sinc (PI * t / (T0 * PI))) power f n wl tw c2 c3 T0) as (p & t & e & k & R1 & R2 & R3 & R4 & R5 & R6 & R7 & R8 & R9);
    try lra; try lia.
  { intros j Hj. cbv beta. replace (PI * time_of tw n j / (T0 * PI)) with (time_of tw n j / T0) by (field; split; lra).
    unfold Rdiv at 1. rewrite Rmult_1_l. apply Rinv_neq_0_compat. now apply Hz. }
  assert (V : forall j, (j < n)%nat -> Cmod (nth j t (RtoC 0)) = k / Rabs (np_sinc (time_of tw n j / T0))).
  { intros j Hj. rewrite R9 by exact Hj. replace (PI * time_of tw n j / (T0 * PI)) with (time_of tw n j / T0) by (field; split; lra).
    unfold Rdiv at 1. rewrite Rmult_1_l, Rabs_inv. reflexivity. }
  assert (V0 : Cmod (nth h t (RtoC 0)) = k).
  { rewrite V by lia. rewrite En, time_mid by exact Hh. replace (0 / T0) with 0 by (field; lra). rewrite np_sinc_0, Rabs_R1. field. }
  exists p, t. split.
  { unfold construct, sinc_pulse. unfold bind at 1. rewrite head_run by assumption. cbv zeta. fold T0.
    unfold bind at 1, finite_unless at 1, is0. destruct (Req_EM_T T0 0); [contradiction|]. unfold ret at 1.
    unfold bind at 1. rewrite get_T_blank.
    rewrite has_zero_false.
    2:{ intros v Hv. rewrite linspace_time in Hv by lia. rewrite map_mk in Hv. apply (In_nth _ _ 0) in Hv. destruct Hv as (j & Hj & <-).
        rewrite mk_length in Hj. rewrite mk_nth by exact Hj.
        replace (PI * time_of tw n j / (T0 * PI)) with (time_of tw n j / T0) by (field; split; lra). now apply Hz. }
    rewrite map_map. fold (prof (fun t => 1 / np_sinc (PI * t / (T0 * PI))) tw n).
    match type of R1 with ?l = _ => match goal with |- context [match ?z with _ => _ end] => change z with l end end. rewrite R1. reflexivity. }
  split; [exact R3|]. split; [exact R4|]. split.
  - intros j Hj. rewrite V0, V by exact Hj. field. now apply Rabs_no_R0, Hz.
  - intros j Hj Hne. rewrite V0, V by exact Hj. assert (Hk := R8 Hp).
    assert (Hs : 0 < Rabs (np_sinc (time_of tw n j / T0)) < 1).
    { split; [now apply Rabs_pos_lt, Hz|]. apply np_sinc_lt1. intros E. apply Rmult_integral in E. destruct E as [E|E]; [|now apply Rinv_neq_0_compat in E].
      apply Hne. unfold time_of in E. assert (0 < INR n) by (apply lt_0_INR; lia).
      assert (E2 : tw * (INR j - INR n / 2) = 0).
      { replace (tw * (INR j - INR n / 2)) with ((- (tw / 2) + INR j * (tw / INR n)) * INR n) by (field; lra). rewrite E. ring. }
      apply Rmult_integral in E2. destruct E2 as [E2|E2]; [lra|]. rewrite En, mult_INR in E2. simpl (INR 2) in E2. apply INR_eq. lra. }
    apply (Rmult_lt_reg_r (Rabs (np_sinc (time_of tw n j / T0)))); [lra|]. unfold Rdiv at 2. rewrite Rmult_assoc, Rinv_l by lra. nra.
Qed.

Lemma noise_run wl tw n frep rand :
  exists p a, construct (noise_pulse wl tw n frep rand) = Ok p /\ get_AW p = (Ok a, p) /\ length a = n /\
    (forall k, (k < n)%nat -> nth k a (RtoC 0) = RtoC (/ 10 ^ 30 * exp (- (2 * PI * rand k)))).
Proof.
  set (a := mk n (fun k => RtoC (/ 10 ^ 30) * cexp (Ci * RtoC (2 * PI) * Ci * RtoC (rand k)))%C).
  exists (with_AW (Some a) (blank frep n wl tw)), a.
  assert (L : length a = n) by apply mk_length.
  split.
  { unfold construct. assert (R : noise_pulse wl tw n frep rand pulse0 = set_AW a (blank frep n wl tw)) by (destruct frep; reflexivity).
    rewrite R, set_AW_ok; [reflexivity|apply blank_writable|exact L]. }
  split; [reflexivity|]. split; [exact L|]. intros k Hk. unfold a. rewrite mk_nth by exact Hk.
  replace (Ci * RtoC (2 * PI) * Ci * RtoC (rand k))%C with (RtoC (- (2 * PI * rand k))) by (apply C_eq; simpl; ring).
  unfold cexp. cbn [Re Im fst snd RtoC]. rewrite cos_0, sin_0, !Rmult_1_r, Rmult_0_r. apply C_eq; simpl; ring.
Qed.

(*! C25 (noise): whatever the random draws in [0,1), every spectral amplitude is non-zero and at most 1e-30 in magnitude.  Missing: constant magnitude and random phase, refuted below. *)
Lemma C25_noise_tiny_partial_l : forall (wl tw : R) (n : nat) (frep : option R) (rand : nat -> R),
  (forall k, 0 <= rand k < 1) ->
  exists p a, construct (noise_pulse wl tw n frep rand) = Ok p /\ get_AW p = (Ok a, p) /\ length a = n /\
    (forall k, (k < n)%nat -> / 10 ^ 30 * exp (- (2 * PI)) < Cmod (nth k a (RtoC 0)) <= / 10 ^ 30).
Proof.
  intros wl tw n frep rand Hr. destruct (noise_run wl tw n frep rand) as (p & a & E1 & E2 & E3 & E4).
  exists p, a. repeat split; try assumption; rewrite E4 by assumption; rewrite Cmod_R, Rabs_pos_eq;
    try (left; apply Rmult_lt_0_compat; [apply Rinv_0_lt_compat, pow_lt; lra|apply exp_pos]);
    pose proof PI_RGT_0; destruct (Hr k).
  - apply Rmult_lt_compat_l; [apply Rinv_0_lt_compat, pow_lt; lra|]. apply exp_increasing. nra.
  - rewrite <- (Rmult_1_r (/ 10 ^ 30)) at 2. apply Rmult_le_compat_l; [left; apply Rinv_0_lt_compat, pow_lt; lra|].
    rewrite <- exp_0. destruct (Req_EM_T (rand k) 0) as [->|N]; [right; f_equal; ring|left; apply exp_increasing; nra].
Qed.

(*! C25 refuted (noise): whatever the draws, every amplitude is a positive real number (phase 0), and two bins have equal magnitudes only if their draws were equal. *)
Lemma C25_noise_phase_refuted_l : forall (wl tw : R) (n : nat) (frep : option R) (rand : nat -> R),
  exists p a, construct (noise_pulse wl tw n frep rand) = Ok p /\ get_AW p = (Ok a, p) /\ length a = n /\
    (forall k, (k < n)%nat -> Im (nth k a (RtoC 0)) = 0 /\ 0 < Re (nth k a (RtoC 0))) /\
    (forall j k, (j < n)%nat -> (k < n)%nat -> Cmod (nth j a (RtoC 0)) = Cmod (nth k a (RtoC 0)) -> rand j = rand k).
Proof.
  intros wl tw n frep rand. destruct (noise_run wl tw n frep rand) as (p & a & E1 & E2 & E3 & E4).
  assert (P : forall x, 0 < / 10 ^ 30 * exp x) by (intros x; apply Rmult_lt_0_compat; [apply Rinv_0_lt_compat, pow_lt; lra|apply exp_pos]).
  exists p, a. split; [exact E1|]. split; [exact E2|]. split; [exact E3|]. split.
  - intros k Hk. rewrite E4 by exact Hk. cbn [Re Im fst snd RtoC]. split; [reflexivity|apply P].
  - intros j k Hj Hk. rewrite !E4 by assumption. rewrite !Cmod_R, !Rabs_pos_eq by (left; apply P). intros E.
    apply Rmult_eq_reg_l in E; [|apply Rinv_neq_0_compat, pow_nonzero; lra]. apply exp_inv in E. pose proof PI_RGT_0. nra.
Qed.

(*! C25 (FROG): whenever the constructor completes with the file present, the energy per pulse is the requested one: power itself, or power/(repetition rate) when
    power is an average power. *)
Lemma C25_frog_energy_l : forall (strf : R -> string) (tw wl power f : R) (frep : option R) (n : nat) (avg flip : bool) (wls inten phase : list R) (p : pulse),
  1 < wl -> 1 < tw -> eff_frep frep = Some f ->
  construct (frog_pulse strf tw wl power frep n avg (Some (wls, inten, phase)) flip) = Ok p ->
  calc_epp p = (Ok (if avg then power / (f * 1000000) else power), p).
Proof.
  intros strf tw wl power f frep n avg flip wls inten phase p Hw Ht Ef. unfold construct, frog_pulse.
  set (s0 := blank frep n wl tw).
  assert (Fr : p_frep s0 = Some f) by exact Ef.
  set (ph := if flip then map (fun x => -1 * x) phase else phase).
  set (E := if avg then power / (f * 1000000) else power).
  unfold assert_gt1. destruct (Rlt_dec 1 wl); [|lra]. destruct (Rlt_dec 1 tw); [|lra].
  match goal with |- context [bind get ?k] => match goal with |- context [match ?z with _ => _ end = Ok p] =>
    assert (H0 : z = k s0 s0) by (unfold s0; clear; destruct frep; reflexivity); rewrite H0; clear H0 end end.
  cbv beta. rewrite Fr.
  match goal with |- context [bind ?m ?k s0] => assert (H0 : bind m k s0 = k E s0 \/ bind m k s0 = (Raise NonFinite, s0)) end.
  { unfold E. destruct avg; [|left; reflexivity]. unfold bind at 2. unfold bind at 3. unfold finite_unless at 1. unfold finite_unless at 2. destruct (is0 (f * 1000000)); [right; reflexivity|left; reflexivity]. }
  destruct H0 as [H0|H0]; rewrite H0; clear H0; [|discriminate]. cbv beta zeta. fold ph.
  assert (Hg : exists w p1, get_wl_nm strf s0 = (Ok (Some w), p1) /\ length w = n).
  { unfold get_wl_nm. mred. unfold hash_eqb. change (p_wlh s0) with (@None string). pred. eexists _, _. split; [reflexivity|].
    rewrite map_length. now rewrite W_of_length. }
  destruct Hg as (w & p1 & Hg & Lw). destruct (get_wl_after strf s0 w p1 Hg) as (A1 & A2 & A3).
  unfold bind at 1. rewrite Hg. unfold bind at 1, as_array at 1, ret at 1. cbv zeta.
  unfold bind at 1. rewrite (get_wl_hit strf p1 w A1 A2). unfold bind at 1, as_array at 1, ret at 1.
  unfold bind at 1, lift at 1. rewrite broadcast2_eq by now rewrite !map_length.
  set (sp := map2 _ _ _).
  assert (Ls : length sp = n) by (unfold sp; rewrite map2_length; rewrite !map_length; auto).
  assert (Hn1 : p_n p1 = n) by (unfold obs in A3; injection A3; intros; assumption).
  assert (W1 : writable p1).
  { unfold obs in A3. injection A3 as B1 B2 B3 B4 B5 B6. split; [now rewrite B6|left; now rewrite B4]. }
  unfold bind at 1. rewrite set_AW_ok by (try assumption; congruence).
  set (p2 := with_AW (Some sp) p1).
  assert (Hh : holds p2 sp) by (split; [apply W1|split; [reflexivity|change (p_n p2) with (p_n p1); congruence]]).
  destruct (Nat.eq_dec n 0) as [N|N].
  { unfold bind at 1. rewrite (calc_epp_zero p2 sp Hh) by (change (p_n p2) with (p_n p1); congruence). discriminate. }
  assert (Hn2 : (0 < p_n p2)%nat) by (change (p_n p2) with (p_n p1); lia).
  assert (Hc := calc_epp_run p2 sp Hh Hn2).
  set (e := p_tw p2 / INR (p_n p2) * / 1000000000000 * trapz (map (fun z => Cmod z ^ 2) (IFFT_t sp))) in *.
  assert (Hp2 : 0 <= e).
  { unfold e. assert (Et : p_tw p2 = tw) by (unfold obs in A3; injection A3; intros; assumption). rewrite Et.
    apply Rmult_le_pos; [left; apply Rmult_lt_0_compat; [apply Rdiv_lt_0_compat; [lra|now apply lt_0_INR]|lra]|].
    apply trapz_nonneg. intros v Hv. apply in_map_iff in Hv. destruct Hv as (z & <- & _). apply pow2_ge_0. }
  unfold bind at 1. rewrite Hc. unfold bind at 1, finite_unless, is0, neg.
  destruct (Req_EM_T e 0) as [E0|E0]; [discriminate|]. destruct (Rlt_dec (E / e) 0) as [E1|E1]; [discriminate|]. cbn [orb]. unfold ret at 1.
  assert (HE : 0 <= E).
  { replace E with (E / e * e) by (field; lra). apply Rmult_le_pos; lra. }
  destruct (C10_set_epp_l p2 sp e E Hh) as (p' & c & R1 & R2 & _); [now rewrite Hc|lra|exact HE|].
  unfold set_epp, bind in R1. unfold bind. rewrite (get_AT_run p2 sp) in * by reflexivity. rewrite Hc in R1.
  destruct (Req_EM_T e 0); [contradiction|]. destruct (Rlt_dec (E / e) 0); [contradiction|]. rewrite R1. intros X. apply Ok_inj in X. subst p'. exact R2.
Qed.

(*! C25 refuted (FROG, unreadable file): the IOError is swallowed and the constructor returns a pulse that holds no field at all. *)
Lemma C25_frog_missing_file_refuted_l : forall (strf : R -> string) (tw wl power : R) (frep : option R) (n : nat) (flip : bool),
  1 < wl -> 1 < tw ->
  exists p, construct (frog_pulse strf tw wl power frep n false None flip) = Ok p /\
    fst (get_AW p) = Raise RuntimeError /\ fst (calc_epp p) <> Ok power.
Proof.
  intros strf tw wl power frep n flip Hw Ht. exists (blank frep n wl tw). split.
  - unfold construct, frog_pulse, pulse_init.
    destruct frep as [f0|]; unfold bind at 1; unfold bind at 1; [unfold set_frep_MHz, bind at 1, modify at 1|]; unfold ret at 1;
    unfold set_NPTS, bind at 1, modify at 1, check_ready, modify at 1;
    unfold assert_gt1; destruct (Rlt_dec 1 wl); try lra; destruct (Rlt_dec 1 tw); try lra; reflexivity.
  - split; [reflexivity|].
    assert (X : exists e, fst (calc_epp (blank frep n wl tw)) = Raise e); [|destruct X as [e ->]; discriminate].
    destruct n as [|n]; eexists; reflexivity.
Qed.

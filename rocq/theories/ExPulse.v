(** Concrete, reachable cases that meet the hypotheses of the Pulse theorems (C01-C22). *)
From Coq Require Import String.
From Coq Require Import Reals List ZArith Bool Arith Lia Lra.
From Coquelicot Require Import Complex.
From Verif Require Import Base CNum NumPy ModelFFT FFTProofs ModelPulse Spec ModelPulseOps PulseProofs PulseHistory PulseOpsProofs PulseRegridProofs.
From Verif Require Import PropsPulse PropsPulseHistory PropsPulseOps PropsPulseRegrid.
Import ListNotations.
Local Open Scope R_scope.

(** any str(); a pulse built by public calls: 1500 nm, 4 ps, 4 points, field 1, 2, i, 0 *)
Definition ex_str (_ : R) : string := ""%string.
Definition ex_field : list C := [RtoC 1; RtoC 2; Ci; RtoC 0].
Definition ex_setup : list pop := [OSetCenterNm 1500; OSetTwPs 4; OSetNPTS 4].
Definition ex_ops : list pop := ex_setup ++ [OSetAT ex_field].
Definition ex_blank : pulse := run_ops ex_str ex_setup (new_pulse None None).
Definition ex_p : pulse := run_ops ex_str ex_ops (new_pulse None None).

Lemma ex_blank_writable : writable ex_blank.
Proof. split; [reflexivity|left; reflexivity]. Qed.
Lemma ex_p_eq : ex_p = mkPulse 4 (c_nmps / 1500) 4 (Some (FFT_t ex_field)) (Some 100) true None None None None.
Proof.
  change ex_p with (snd (set_AT ex_field ex_blank)). rewrite set_AT_ok; [reflexivity|exact ex_blank_writable|reflexivity].
Qed.
Lemma ex_p_holds : holds ex_p (FFT_t ex_field).
Proof. rewrite ex_p_eq. split; [reflexivity|]. split; [reflexivity|]. now rewrite FFT_t_length. Qed.
Lemma ex_p_AT : get_AT ex_p = (Ok ex_field, ex_p).
Proof. rewrite (get_AT_run ex_p (FFT_t ex_field)) by apply ex_p_holds. now rewrite IFFT_FFT_t. Qed.
Lemma ex_n : p_n ex_p = 4%nat. Proof. now rewrite ex_p_eq. Qed.
Lemma ex_tw : p_tw ex_p = 4. Proof. now rewrite ex_p_eq. Qed.
Lemma ex_f : p_f ex_p = c_nmps / 1500. Proof. now rewrite ex_p_eq. Qed.
Lemma ex_f_val : 199 < p_f ex_p < 200. Proof. rewrite ex_f. unfold c_nmps, c_mks. lra. Qed.
Lemma Cmod_Ci : Cmod Ci = 1.
Proof. rewrite Cmod_Cnorm2. unfold Cnorm2, Ci. cbn. replace (0 * 0 + 1 * 1) with 1 by ring. apply sqrt_1. Qed.
Lemma ex_power : power_sum ex_field = 6.
Proof.
  unfold power_sum, ex_field. cbn [map lrsum fold_right]. rewrite !Cmod_R, Cmod_Ci, Rabs_R0, Rabs_R1, (Rabs_pos_eq 2) by lra. ring.
Qed.
Lemma ex_AW_power : power_sum (FFT_t ex_field) = 3 / 2.
Proof.
  pose proof (power_sum_AT (FFT_t ex_field)) as H. rewrite IFFT_FFT_t, ex_power, FFT_t_length in H.
  change (length ex_field) with 4%nat in H. simpl INR in H. lra.
Qed.
Lemma ex_AW_nonzero : exists k, (k < length (FFT_t ex_field))%nat /\ nth k (FFT_t ex_field) (RtoC 0) <> RtoC 0.
Proof.
  destruct (Ceq_dec (nth 0 (FFT_t ex_field) (RtoC 0)) (RtoC 0)) as [E0|E]; [|exists 0%nat; rewrite FFT_t_length; cbn [ex_field length]; split; [lia|exact E]].
  destruct (Ceq_dec (nth 1 (FFT_t ex_field) (RtoC 0)) (RtoC 0)) as [E1|E]; [|exists 1%nat; rewrite FFT_t_length; cbn [ex_field length]; split; [lia|exact E]].
  destruct (Ceq_dec (nth 2 (FFT_t ex_field) (RtoC 0)) (RtoC 0)) as [E2|E]; [|exists 2%nat; rewrite FFT_t_length; cbn [ex_field length]; split; [lia|exact E]].
  destruct (Ceq_dec (nth 3 (FFT_t ex_field) (RtoC 0)) (RtoC 0)) as [E3|E]; [|exists 3%nat; rewrite FFT_t_length; cbn [ex_field length]; split; [lia|exact E]].
  exfalso. pose proof ex_AW_power as H. rewrite power_sum_rsum, FFT_t_length in H. change (length ex_field) with 4%nat in H.
  unfold rsum, lrsum, mk in H. cbn [seq map fold_right] in H. rewrite E0, E1, E2, E3, Cnorm2_0 in H. lra.
Qed.
Lemma ex_epp : exists e, fst (calc_epp ex_p) = Ok e /\ 0 < e.
Proof.
  eexists. split; [rewrite (calc_epp_run ex_p (FFT_t ex_field)); [reflexivity|exact ex_p_holds|rewrite ex_n; lia]|].
  rewrite ex_n, ex_tw, IFFT_FFT_t. unfold ex_field. cbn [map trapz]. rewrite !Cmod_R, Cmod_Ci, Rabs_R0, Rabs_R1, (Rabs_pos_eq 2) by lra.
  simpl INR. lra.
Qed.
Lemma ex_wl : exists p1, get_wl_nm ex_str ex_p = (Ok (Some (map (fun w => 2 * PI * c_nmps / w) (spec_W 4 4 (p_f ex_p)))), p1).
Proof. eexists. rewrite ex_p_eq. unfold get_wl_nm. mred. cbn [hash_eqb p_wlh]. pred. rewrite W_of_spec. reflexivity. Qed.
Lemma ex_W : exists p1, get_W_mks ex_str ex_p = (Ok (Some (map (fun w => w * 1000000000000) (spec_W 4 4 (p_f ex_p)))), p1).
Proof. eexists. rewrite ex_p_eq. rewrite get_Wm_empty by reflexivity. unfold Wmks_now. rewrite W_of_spec. reflexivity. Qed.

Example C01_example : writable ex_blank /\ length ex_field = p_n ex_blank /\ writable ex_p /\ length ex_field = p_n ex_p /\ nth 2 ex_field (RtoC 0) = Ci.
Proof. split; [exact ex_blank_writable|]. split; [reflexivity|]. split; [apply (holds_writable _ _ ex_p_holds)|]. now rewrite ex_n. Qed.
Example C02_example : holds ex_p (FFT_t ex_field) /\ p_n ex_p = (2 * 2)%nat /\ p_tw ex_p <> 0.
Proof. split; [exact ex_p_holds|]. rewrite ex_n, ex_tw. split; [reflexivity|lra]. Qed.
Example C02_odd_example : let p := run_ops ex_str [OSetCenterNm 1500; OSetTwPs 4; OSetNPTS 5] (new_pulse None None) in
  p_ready p = true /\ p_n p = (2 * 2 + 1)%nat /\ p_tw p <> 0.
Proof. cbn zeta. split; [reflexivity|]. split; [reflexivity|]. change (4 <> 0). lra. Qed.
(** the Parseval statement on the concrete pulse: 6 = 4 * 3/2 *)
Example C03_example : power_sum ex_field = 6 /\ power_sum (FFT_t ex_field) = 3 / 2 /\ holds ex_p (FFT_t ex_field).
Proof. split; [exact ex_power|]. split; [exact ex_AW_power|exact ex_p_holds]. Qed.
Example C04_example : p_ready ex_p = true /\ (0 < p_n ex_p)%nat /\ p_tw ex_p <> 0.
Proof. rewrite ex_n, ex_tw. split; [apply ex_p_holds|]. split; [lia|lra]. Qed.
Example C06_example : (2 <= p_n ex_p)%nat /\ 0 < 40. Proof. rewrite ex_n. split; [lia|lra]. Qed.
(** a history that reads the caches, changes the grid and reads again, with every hypothesis of C07 met *)
Example C07_example : let strf := fun x : R => if Rlt_dec x 210 then "A"%string else "B"%string in
  let l := [OSetTwPs 4; OSetNPTS 4; OSetCenterNm 1500; OReadWl; OReadWmks; OSetCenterNm 1000] in
  let p0 := new_pulse None None in let p := run_ops strf l p0 in
  p_ready p = true /\
  (forall l1 o l2, l = l1 ++ o :: l2 -> is_setter o = false ->
     hash_of strf (run_ops strf l1 p0) = hash_of strf p -> grid (run_ops strf l1 p0) = grid p).
Proof.
  cbn zeta. set (strf := fun x : R => if Rlt_dec x 210 then "A"%string else "B"%string).
  set (s3 := mkPulse 4 (c_nmps / 1500) 4 None (Some 100) true None None None None).
  set (s4 := with_wlc (Some (hash_of strf s3)) (Some (wl_now s3)) s3).
  set (s5 := with_Wc (Some (hash_of strf s4)) (Some (Wmks_now s4)) s4).
  set (s6 := with_ready true (with_f (c_nmps / 1000) s5)).
  assert (E3 : run_ops strf [OSetTwPs 4; OSetNPTS 4; OSetCenterNm 1500] (new_pulse None None) = s3) by reflexivity.
  assert (E4 : snd (run_op strf OReadWl s3) = s4) by reflexivity.
  assert (E5 : snd (run_op strf OReadWmks s4) = s5) by reflexivity.
  assert (E6 : run_ops strf [OSetTwPs 4; OSetNPTS 4; OSetCenterNm 1500; OReadWl; OReadWmks; OSetCenterNm 1000] (new_pulse None None) = s6) by reflexivity.
  rewrite E6. split; [reflexivity|].
  assert (Hf : hash_of strf s3 <> hash_of strf s6).
  { unfold hash_of. change (p_f s3) with (c_nmps / 1500). change (p_f s6) with (c_nmps / 1000). unfold strf.
    destruct (Rlt_dec (c_nmps / 1500) 210) as [L1|L1]; [|exfalso; apply L1; unfold c_nmps, c_mks; lra].
    destruct (Rlt_dec (c_nmps / 1000) 210) as [L2|L2]; [exfalso; revert L2; unfold c_nmps, c_mks; lra|]. discriminate. }
  intros l1 o l2 E Ho Hh. exfalso.
  destruct l1 as [|o1 [|o2 [|o3 [|o4 [|o5 [|o6 [|? ?]]]]]]]; inversion E; subst; try discriminate Ho.
  - apply Hf. etransitivity; [|exact Hh]. reflexivity.
  - apply Hf. etransitivity; [|exact Hh]. reflexivity.
Qed.
(** a rejected call in the class covered by C08_failed_call_unchanged_partial *)
Example C08_example : exists p', run_op ex_str (OSetAW [RtoC 1; RtoC 2]) ex_p = (Raise ValueError, p') /\ p_AW ex_p <> None.
Proof.
  eexists. split; [cbn [run_op]; rewrite set_AW_run by apply ex_p_holds; rewrite (cur_field_holds _ _ ex_p_holds);
  unfold assign_all; rewrite FFT_t_length; reflexivity|]. rewrite ex_p_eq. discriminate.
Qed.
(** a history with a resize and a field write in which C09's side condition holds *)
Example C09_example : let p0 := new_pulse None None in
  (forall l1 o l2 m, ex_ops = l1 ++ o :: l2 -> resizes o = Some m ->
     p_AW (run_ops ex_str l1 p0) = None \/ m = p_n (run_ops ex_str l1 p0)) /\
  fst (get_AW (run_ops ex_str ex_ops p0)) = Ok (FFT_t ex_field).
Proof.
  cbn zeta. split.
  - intros l1 o l2 m E Ho. left. unfold ex_ops, ex_setup in E. cbn [app] in E.
    destruct l1 as [|o1 [|o2 [|o3 [|o4 [|? ?]]]]]; inversion E; subst; try discriminate Ho; reflexivity.
  - fold ex_p. now rewrite (get_AW_run ex_p (FFT_t ex_field)) by apply ex_p_holds.
Qed.
Example C10_example : exists e, holds ex_p (FFT_t ex_field) /\ fst (calc_epp ex_p) = Ok e /\ 0 < e /\ 0 <= / 1000000000.
Proof. destruct ex_epp as (e & H1 & H2). exists e. split; [exact ex_p_holds|]. split; [exact H1|]. split; [exact H2|lra]. Qed.
Example C11_example : exists p', is_phase_op (OChirpW 3 2 1 None) /\ holds ex_p (FFT_t ex_field) /\ run_op ex_str (OChirpW 3 2 1 None) ex_p = (Ok tt, p').
Proof.
  destruct (C11_phase_operations_return ex_str (OChirpW 3 2 1 None) ex_p (FFT_t ex_field)) as [p' H]; [exact I|exact ex_p_holds|exact I|].
  exists p'. split; [exact I|]. split; [exact ex_p_holds|exact H].
Qed.
Example C11_fit_example : length ((fun l : list C => map Im l) (FFT_t ex_field)) = length (FFT_t ex_field) /\ 0 <= 1 / 10 < 1 /\
  exists k, (k < length (FFT_t ex_field))%nat /\ nth k (FFT_t ex_field) (RtoC 0) <> RtoC 0.
Proof. split; [apply map_length|]. split; [lra|exact ex_AW_nonzero]. Qed.
Example C11_epp_example : writable ex_blank /\ p_n ex_blank = (2 * 2)%nat /\ 0 < p_tw ex_blank.
Proof. split; [exact ex_blank_writable|]. split; [reflexivity|]. change (0 < 4). lra. Qed.
Example C12_example : holds ex_p (FFT_t ex_field) /\ length [1; 2; 3; 4] = p_n ex_p.
Proof. split; [exact ex_p_holds|]. now rewrite ex_n. Qed.
Example C13_example : holds ex_p (FFT_t ex_field) /\ p_n ex_p = (2 * 2)%nat /\ (0 < 2)%nat /\ p_tw ex_p <> 0.
Proof. split; [exact ex_p_holds|]. rewrite ex_n, ex_tw. split; [reflexivity|]. split; [lia|lra]. Qed.
Example C15_example : holds ex_p (FFT_t ex_field) /\ Even <> BadLoc /\ (0 < p_n ex_p)%nat.
Proof. split; [exact ex_p_holds|]. rewrite ex_n. split; [discriminate|lia]. Qed.
Example C16_example : holds ex_p (FFT_t ex_field) /\ (2 <= p_n ex_p)%nat /\ 0 < p_tw ex_p.
Proof. split; [exact ex_p_holds|]. rewrite ex_n, ex_tw. split; [lia|lra]. Qed.
Example C17_example : exists p1, holds ex_p (FFT_t ex_field) /\ (2 <= p_n ex_p)%nat /\ 0 < p_tw ex_p /\
  get_W_mks ex_str ex_p = (Ok (Some (map (fun w => w * 1000000000000) (spec_W (p_n ex_p) (p_tw ex_p) (p_f ex_p)))), p1).
Proof. destruct ex_W as [p1 H]. exists p1. split; [exact ex_p_holds|]. rewrite ex_n, ex_tw. split; [lia|]. split; [lra|exact H]. Qed.
Example C18_example : exists p1 w, holds ex_p (FFT_t ex_field) /\ get_wl_nm ex_str ex_p = (Ok (Some w), p1) /\ length w = p_n ex_p.
Proof. destruct ex_wl as [p1 H]. eexists p1, _. split; [exact ex_p_holds|]. split; [exact H|]. now rewrite ex_n. Qed.
Example C19_example : holds ex_p (FFT_t ex_field) /\ p_f ex_p <> 0 /\ p_n ex_p <> 1%nat.
Proof. split; [exact ex_p_holds|]. rewrite ex_n. pose proof ex_f_val. split; [lra|lia]. Qed.
Example C20_example : exists p1, holds ex_p (FFT_t ex_field) /\ p_tw ex_p <> 0 /\
  (forall k, (k < p_n ex_p)%nat -> nth k (spec_W (p_n ex_p) (p_tw ex_p) (p_f ex_p)) 0 <> 0) /\
  get_wl_nm ex_str ex_p = (Ok (Some (map (fun w => 2 * PI * c_nmps / w) (spec_W (p_n ex_p) (p_tw ex_p) (p_f ex_p)))), p1) /\
  fits (p_n ex_p) 2 2 /\ ~ fits (p_n ex_p) 2 0.
Proof.
  destruct ex_wl as [p1 H]. exists p1. split; [exact ex_p_holds|]. rewrite ex_n, ex_tw. split; [lra|]. split; [|split; [exact H|]].
  - intros k Hk. rewrite spec_W_nth by exact Hk. pose proof PI_RGT_0. pose proof ex_f_val.
    assert (INR k < 4) by (apply (lt_INR k 4) in Hk; simpl in Hk; lra). assert (0 <= INR k) by apply pos_INR. simpl (INR 4).
    intros E. apply Rmult_integral in E. destruct E; lra.
  - unfold fits. cbn. split; [repeat split; lia|]. intros (_ & _ & K & _). lia.
Qed.
Example C21_example : exists p1 w, holds ex_p (FFT_t ex_field) /\ get_W_mks ex_str ex_p = (Ok (Some w), p1) /\ length w = p_n ex_p /\
  power_sum (FFT_t ex_field) <> 0.
Proof.
  destruct ex_W as [p1 H]. eexists p1, _. split; [exact ex_p_holds|]. split; [exact H|]. split; [now rewrite ex_n|].
  rewrite ex_AW_power. lra.
Qed.

(** C05: 1550 nm, given in nm or (as 1.55e-6) in m *)
Example C05_example : exists p1 p2, set_center_wavelength_nm 1550 ex_p = (Ok tt, p1) /\ get_center_wavelength_nm p1 = (Ok 1550, p1) /\
  set_center_wavelength_m (1550 * / 1000000000) ex_p = (Ok tt, p2) /\ get_center_wavelength_nm p2 = (Ok (1550 * / 1000000000 * 1000000000), p2).
Proof.
  destruct (C05_center_wavelength_nm ex_p 1550 ltac:(lra)) as [(p1 & A & B) _]. destruct (C05_center_wavelength_nm ex_p (1550 * / 1000000000) ltac:(lra)) as [_ (p2 & D & E)].
  exists p1, p2. auto.
Qed.
(** C14: the pulse 1, 2, i, 0 chirped in time *)
Example C14_example : exists p' t', chirp_pulse_T 3 (-1) 2 ex_p = (Ok tt, p') /\ get_AT p' = (Ok t', p') /\ same_mags t' ex_field /\ fst (calc_epp p') = fst (calc_epp ex_p).
Proof.
  destruct (C14_temporal_chirp ex_p _ 3 (-1) 2 ex_p_holds) as (p' & t & t' & A & B & D & E & F & _). rewrite ex_p_AT in B. injection B as <-.
  exists p', t'. auto.
Qed.
(** C22: the same pulse; the autocorrelation at zero delay (index 2) is 1 * 1 + 4 * 2 + 1 * 1 + 0 = 10 *)
Example C22_example : exists r, calculate_intensity_autocorrelation ex_p = (Ok r, ex_p) /\ length r = 4%nat /\ nth 2 r 0 = 10.
Proof.
  destruct (C22_autocorrelation_partial ex_p _ _ ex_p_holds eq_refl) as (r & A & B & D). rewrite ex_n in *. exists r. split; [exact A|]. split; [exact B|].
  rewrite D by lia. rewrite IFFT_FFT_t. unfold rsum, lrsum, mk, ex_field, sample. cbn [map seq fold_right Nat.div2 nth]. cbn -[Cmod sqrt pow]. rewrite !Cmod_R, Cmod_Ci, Rabs_R0, Rabs_R1, (Rabs_pos_eq 2) by lra.
  change (Pos.to_nat 1) with 1%nat; change (Pos.to_nat 2) with 2%nat; change (Pos.to_nat 3) with 3%nat; cbv iota; rewrite !sqrt_pow2 by lra; ring.
Qed.

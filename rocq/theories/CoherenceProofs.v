(** Coherence runs (SSFM.calculate_coherence) and propagate_to_gain_goal. *)
From Coq Require Import String.
From Coq Require Import Reals List ZArith Bool Arith Lia Lra.
From Coquelicot Require Import Complex.
From Verif Require Import Base CNum NumPy ModelFFT FFTProofs ModelPulse Spec PulseProofs PulseHistory PulseOpsProofs PulseRegridProofs PulseMoreProofs ModelSSFM SSFMLoopProofs SSFMProofs SSFMSymProofs SSFMPropProofs SSFMTrivProofs SSFMRamanProofs SSFMGnlseProofs ModelRun.
From Verif Require ModelCrystal BeamProofs.
Import ListNotations.
Local Open Scope R_scope.
Local Open Scope py_scope.
Local Notation z0 := (RtoC 0).

(** the documented input of one trial: amplitude k plus r_k (times the root of the photon number, for sqrt_N_freq) photon energies per bin of phase 2 pi u_k, r and u being the trial's draws *)
Definition noisy (planck : R) (kind : noise_kind) (n : nat) (tw f : R) (a : list C) (draws : (nat -> R) * (nat -> R)) : list C :=
  mk n (fun k => let nu := (f + (INR k - INR n / 2) / tw) * 10 ^ 12 in let dF := 10 ^ 12 / tw in
    let m := match kind with sqrt_N_freq => sqrt (Rmax 0 (Cmod (nth k a z0) ^ 2 / dF / (planck * nu))) | _ => 1 end in
    (nth k a z0 + RtoC (fst draws k * m * (planck * nu) * dF) * cis (2 * PI * snd draws k))%C).
Definition same_grid (p q : pulse) : Prop := p_n q = p_n p /\ p_tw q = p_tw p /\ p_f q = p_f p /\ p_frep q = p_frep p.
(** a coherence run that gets past its setup: a pulse whose grid has no bin at frequency 0, a documented noise type, a fiber that answers for every pulse on that grid *)
Definition coherence_setting (planck : R) (c : cfg) (fb : fiber) (N : nat) (kind : noise_kind) (s : ssfm) (p : pulse) (a : list C) (b : R -> list R) (g : list R) (Rw : list C) (F : R) : Prop :=
  holds p a /\ (2 <= p_n p)%nat /\ 0 < p_tw p /\ p_f p <> 0 /\ 0 < planck /\ (forall k, (k < p_n p)%nat -> p_f p + (INR k - INR (p_n p) / 2) / p_tw p <> 0) /\ kind <> other_noise /\
  (0 < N)%nat /\ 0 < fb_len fb /\ 0 < s_dz s /\ fst (calc_raman c (s_fR s) p) = Ok (Rw, F) /\ forall q a', holds q a' -> same_grid p q -> answers fb q None b g.

Lemma raman_grid c fR p q : p_n q = p_n p -> p_tw q = p_tw p -> p_ready q = p_ready p -> fst (calc_raman c fR q) = fst (calc_raman c fR p).
Proof.
  intros H1 H3 H6. unfold calc_raman, get_NPTS, get_T, get_time_window_ps, need_ready.
  assert (HT : T_of q = T_of p) by (unfold T_of; now rewrite H1, H3).
  unfold bind, gets, ret, raise, get. cbv iota beta. rewrite H1. destruct (c_noRaman c); [reflexivity|]. destruct (Req_EM_T (c_tau1 c * c_tau2 c ^ 2) 0); [reflexivity|].
  cbv iota beta. rewrite H6. destruct (p_ready p); [|reflexivity]. cbv iota beta. rewrite HT, H3.
  match goal with |- context [Req_EM_T ?x 0] => destruct (Req_EM_T x 0) end; reflexivity.
Qed.
Lemma raman_again c fR p Rw F : fst (calc_raman c fR p) = Ok (Rw, F) -> fst (calc_raman c F p) = Ok (Rw, F).
Proof.
  unfold calc_raman, get_NPTS, get_T, get_time_window_ps, need_ready. unfold bind, gets, ret, raise, get. cbv iota beta. destruct (c_noRaman c).
  - cbn [fst]. intros H. apply Ok_inj in H. pose proof (f_equal fst H) as H1. cbn [fst] in H1. now rewrite H1.
  - destruct (Req_EM_T (c_tau1 c * c_tau2 c ^ 2) 0); [discriminate|]. cbv iota beta. destruct (p_ready p); [|discriminate]. cbv iota beta.
    match goal with |- context [Req_EM_T ?x 0] => destruct (Req_EM_T x 0) end; [discriminate|]. cbn [fst]. intros H. destruct (c_simple c); [|exact H].
    apply Ok_inj in H. pose proof (f_equal snd H) as H1. cbn [snd] in H1. subst F. now rewrite H.
Qed.
Lemma cols_after c p b fb reload dz fuel : (forall z, length (b z) = p_n p) -> 0 < dz -> forall k i s l sf, wf (p_n p) s -> 0 < s_dz s ->
  cols c fuel (reloaded c fb b reload dz) dz i k s = Some (l, sf) -> 0 < s_dz sf /\ s_fR sf = s_fR s.
Proof.
  intros Hb Hdz. induction k as [|k IH]; intros i s l sf W D H; cbn [cols] in H; [injection H as _ <-; auto|].
  destruct (integrate_over_dz c fuel dz 1 (reloaded c fb b reload dz i s)) as [s2|] eqn:E; [|discriminate].
  destruct (cols c fuel _ dz (i + 1) k _) as [[l1 sf1]|] eqn:E1; [|discriminate]. injection H as _ <-.
  assert (W1 : wf (p_n p) (reloaded c fb b reload dz i s) /\ 0 < s_dz (reloaded c fb b reload dz i s) /\ s_fR (reloaded c fb b reload dz i s) = s_fR s).
  { unfold reloaded. destruct reload; [|auto]. split; [|split; [exact D|reflexivity]]. destruct W as (J1 & J2 & J3 & J4 & J5). repeat split; try assumption. cbn [with_fiber s_betas]. now rewrite cfftshift_length, map_length, Hb. }
  destruct W1 as (W1 & D1 & F1). destruct (integrate_over_len c (p_n p) fuel dz _ s2 W1 Hdz D1 E) as ((J1 & J2 & J3 & J4 & J5) & _ & D2 & F2).
  assert (W3 : wf (p_n p) (with_A (cifftshift c (cifftshift c (s_A s2))) s2)) by (repeat split; try assumption; cbn [with_A s_A]; now rewrite !cifftshift_length).
  destruct (IH _ _ _ _ W3 D2 E1) as (D3 & F3). split; [exact D3|]. rewrite F3. cbn [with_A s_fR]. congruence.
Qed.

Section Trials.
Variables (strf : R -> string) (planck : R) (c : cfg) (fb : fiber) (N : nat) (kind : noise_kind) (p : pulse) (a : list C) (b : R -> list R) (g : list R) (Rw : list C) (F : R).
Local Notation CS s := (coherence_setting planck c fb N kind s p a b g Rw F).
Local Notation inp d := (noisy planck kind (p_n p) (p_tw p) (p_f p) a d).

Lemma noisy_clone s d : CS s -> exists q0 q1, create_cloned_pulse p = (Ok q0, p) /\ add_noise strf planck (fst d) (snd d) kind q0 = (Ok tt, q1) /\ holds q1 (inp d) /\ same_grid p q1.
Proof.
  intros (Hh & Hn & Ht & Hf & Hp & Hnu & Hk & _).
  set (q0 := mkPulse (p_n p) (c_nmps / (c_nmps / p_f p)) (p_tw p) (Some a) (p_frep p) true None None None None).
  assert (H0 : holds q0 a) by (split; [reflexivity|split; [reflexivity|apply Hh]]).
  pose proof (get_Wm_empty strf q0 eq_refl eq_refl) as EW. unfold Wmks_now in EW at 1. rewrite W_of_spec in EW.
  set (q2 := with_Wc (Some (hash_of strf q0)) (Some (Wmks_now q0)) q0) in *.
  assert (Ef : p_f q0 = p_f p) by (cbn [q0 p_f]; now apply f_inv).
  destruct (noise_run strf planck (fst d) (snd d) q0 q2 a H0 Hn Ht EW Hp) with (kd := kind) as (b0 & E & Lb & V); [| exact Hk|].
  { intros k Hkn. unfold spec_F_Hz. rewrite Ef. cbn [q0 p_n p_tw] in *. apply Rmult_integral_contrapositive_currified; [apply Hnu, Hkn|lra]. }
  assert (Eb : b0 = inp d).
  { apply (nth_ext _ _ z0 z0); [unfold noisy; now rewrite mk_length|]. intros k Hkn. rewrite Lb in Hkn. rewrite V by exact Hkn. unfold noisy. rewrite mk_nth by exact Hkn. f_equal. f_equal. f_equal.
    unfold amp, photons, spec_F_Hz. rewrite Ef. cbn [q0 p_n p_tw]. replace (10 ^ 12) with 1000000000000 by ring. destruct kind; [reflexivity| |congruence]. cbv zeta. now rewrite Rmult_1_r. }
  exists q0, (with_AW (Some b0) q2). split; [exact (clone_new_run p a Hh)|]. split; [exact E|]. rewrite Eb in *. split.
  - split; [reflexivity|]. split; [reflexivity|exact Lb].
  - repeat split. exact Ef.
Qed.
Lemma trial_setting s d q1 : CS s -> holds q1 (inp d) -> same_grid p q1 -> setting c fb N None s q1 (inp d) b g Rw F.
Proof.
  intros (Hh & Hn & Ht & Hf & Hp & Hnu & Hk & HN & HL & Hd & HR & An) H1 G. pose proof G as (G1 & G2 & G3 & G4). split; [exact H1|]. split; [lia|]. split; [congruence|]. split; [exact (An _ _ H1 G)|].
  split; [|auto]. rewrite (raman_grid c (s_fR s) p q1); try assumption. destruct H1 as [-> _]. destruct Hh as [-> _]. reflexivity.
Qed.
Lemma setting_next s s' : CS s -> 0 < s_dz s' -> s_fR s' = F -> CS s'.
Proof. intros (Hh & Hn & Ht & Hf & Hp & Hnu & Hk & HN & HL & Hd & HR & An) D E. repeat (split; [assumption|]). split; [rewrite E; exact (raman_again _ _ _ _ _ HR)|exact An]. Qed.

(** one trial is one propagation from the noisy input, and leaves a solver the next trial can use *)
Lemma trial_run fuel s d : CS s -> exists q1, holds q1 (inp d) /\ same_grid p q1 /\
  ((exists r, trial strf planck c fuel fb N kind d s p = (r, p) /\ fst (run_once c fuel fb N None false s q1) = r) /\
   forall x s' , fst (run_once c fuel fb N None false s q1) = Ok (Some (x, s')) -> CS s').
Proof.
  intros Hs. destruct (noisy_clone s d Hs) as (q0 & q1 & E0 & E1 & H1 & G1). exists q1. split; [exact H1|]. split; [exact G1|]. split.
  - exists (fst (run_once c fuel fb N None false s q1)). split; [|reflexivity]. unfold trial. unfold bind at 1. rewrite E0. unfold bind at 1. rewrite E1. destruct (run_once c fuel fb N None false s q1) as [[r|e] q']; reflexivity.
  - intros x s' H. pose proof (trial_setting s d q1 Hs H1 G1) as St. unfold run_once, bind in H. destruct (propagate c fuel fb N None false s q1) as [[[r|]|e] q'] eqn:E; try discriminate.
    destruct r as [[[[z AW] AT] po] s2]. cbn [ret fst] in H. apply Ok_inj in H. pose proof (f_equal (fun o => match o with Some (_, y) => y | None => s' end) H) as Es. cbv beta iota in Es. subst s2.
    destruct (propagate_inv _ _ _ _ _ _ _ _ _ _ _ _ _ _ _ _ _ _ _ St E) as (_ & _ & _ & _ & _ & sf & EC & _ & _ & ->).
    assert (Hdz : 0 < step_of (fb_len fb) N) by (unfold step_of; apply Rdiv_lt_0_compat; [apply Hs|apply lt_0_INR; apply Hs]).
    destruct St as (S1 & S2 & S3 & S4 & S5 & S6 & S7 & S8).
    destruct (cols_after c q1 b fb false _ fuel ltac:(apply S4) Hdz N 0%nat _ AT sf (start_wf c fb q1 None b g _ Rw F s S1 S4 S5) S8 EC) as (D & E2).
    apply (setting_next s); [exact Hs|exact D|exact E2].
Qed.
Lemma trial_returns s d : CS s -> exists fuel0 s', CS s' /\ forall fuel, (fuel0 <= fuel)%nat -> exists x, trial strf planck c fuel fb N kind d s p = (Ok (Some (x, s')), p).
Proof.
  intros Hs. destruct (noisy_clone s d Hs) as (q0 & q1 & E0 & E1 & H1 & G1). pose proof (trial_setting s d q1 Hs H1 G1) as (S1 & S2 & S3 & S4 & S5 & S6 & S7 & S8).
  assert (Hdz : 0 < step_of (fb_len fb) N) by (unfold step_of; apply Rdiv_lt_0_compat; [exact S7|apply lt_0_INR; exact S6]).
  assert (W : wf (p_n q1) (start c fb q1 (b 0) g (inp d) Rw F s)) by (apply (start_wf c fb q1 None b g _ Rw F s); assumption).
  destruct (cols_returns c fb q1 b false _ ltac:(apply S4) Hdz N 0%nat _ W S8) as (fuel & [l sf] & EC). exists fuel, (with_A (cifftshift c (s_A sf)) sf). split.
  - destruct (cols_after c q1 b fb false _ fuel ltac:(apply S4) Hdz N 0%nat _ l sf W S8 EC) as (D & E2). apply (setting_next s); [exact Hs|exact D|exact E2].
  - intros fuel' Hf. pose proof (cols_mono c _ _ fuel fuel' Hf N 0%nat _ _ EC) as EC'.
    destruct (propagate_run c fuel' fb N None false s q1 _ b g Rw F S1 S2 S4 S5 S3 S6 S7 S8) as (q & _ & R). rewrite EC' in R. destruct R as (_ & _ & po & _ & _ & R).
    eexists. unfold trial. unfold bind at 1. rewrite E0. unfold bind at 1. rewrite E1. unfold run_once, bind. rewrite R. reflexivity.
Qed.
Lemma trials_returns T : forall s gen, CS s -> exists fuel0, forall fuel, (fuel0 <= fuel)%nat -> exists rs s', trials strf planck c fuel fb N kind gen T s p = (Ok (Some (rs, s')), p).
Proof.
  induction T as [|T IH]; intros s gen Hs; [exists 0%nat; intros; do 2 eexists; reflexivity|].
  destruct (trial_returns s (gen 0%nat) Hs) as (f1 & s1 & Hs1 & E1). destruct (IH s1 (fun j => gen (S j)) Hs1) as (f2 & E2). exists (Nat.max f1 f2). intros fuel Hf.
  destruct (E1 fuel ltac:(lia)) as (x & Ex). destruct (E2 fuel ltac:(lia)) as (rs & s' & Er). cbn [trials]. unfold bind. rewrite Ex, Er. do 2 eexists. reflexivity.
Qed.
Lemma trials_run fuel T : forall s gen rs s' q, CS s -> trials strf planck c fuel fb N kind gen T s p = (Ok (Some (rs, s')), q) ->
  q = p /\ length rs = T /\ exists st : nat -> ssfm, st 0%nat = s /\ st T = s' /\ forall j, (j < T)%nat -> exists qj qj' x,
    nth_error rs j = Some x /\ setting c fb N None (st j) qj (inp (gen j)) b g Rw F /\ same_grid p qj /\ run_once c fuel fb N None false (st j) qj = (Ok (Some (x, st (S j))), qj').
Proof.
  induction T as [|T IH]; intros s gen rs s' q Hs H; cbn [trials] in H.
  - unfold ret in H. injection H as <- <- <-. split; [reflexivity|]. split; [reflexivity|]. exists (fun _ => s). split; [reflexivity|]. split; [reflexivity|]. intros; lia.
  - destruct (trial_run fuel s (gen 0%nat) Hs) as (q1 & H1 & G1 & (r & E1 & E2) & Nx). unfold bind at 1 in H. rewrite E1 in H. destruct r as [[[x s1]|]|e]; try discriminate.
    specialize (Nx x s1 E2). unfold bind in H. destruct (trials strf planck c fuel fb N kind (fun j => gen (S j)) T s1 p) as [[[[xs sf]|]|e] q2] eqn:E3; try discriminate.
    destruct (IH s1 _ xs sf q2 Nx E3) as (Eq & L & st & S0 & ST & SJ). unfold ret in H. injection H as <- <- <-. split; [exact Eq|]. split; [cbn; congruence|].
    exists (fun j => match j with O => s | S j' => st j' end). split; [reflexivity|]. split; [exact ST|]. intros [|j] Hj.
    + exists q1, (snd (run_once c fuel fb N None false s q1)), x. split; [reflexivity|]. split; [exact (trial_setting s _ q1 Hs H1 G1)|]. split; [exact G1|].
      destruct (run_once c fuel fb N None false s q1) as [r' q']. cbn [fst snd] in *. rewrite E2, S0. reflexivity.
    + destruct (SJ j ltac:(lia)) as (qj & qj' & y & Y1 & Y2 & Y3 & Y4). exists qj, qj', y. auto.
Qed.
End Trials.

Lemma Rsqr_def x : x² = x * x.
Proof. reflexivity. Qed.
Lemma coh_inv E v : coherence_bin E = Ok v -> (2 <= length E)%nat /\ forall z, In z E -> z <> z0.
Proof.
  unfold coherence_bin. destruct (Nat.ltb_spec (length E) 2); [discriminate|]. destruct (existsb is_zeroC E) eqn:Ex; [discriminate|]. intros _. split; [lia|]. intros z Hin ->.
  assert (existsb is_zeroC E = true); [|congruence]. apply existsb_exists. exists z0. split; [exact Hin|]. unfold is_zeroC. destruct (Req_EM_T (Cnorm2 z0) 0) as [|n]; [reflexivity|]. exfalso. apply n. unfold Cnorm2. cbn. ring.
Qed.
Lemma coherence_inv rs n N G : coherence_of rs n N = Ok G -> length G = N /\ forall i, (i < N)%nat -> length (nth i G []) = n /\
  forall k, (k < n)%nat -> coherence_bin (map (fun r => nth k (nth i (r_AW r) []) z0) rs) = Ok (nth k (nth i G []) 0).
Proof.
  intros H. unfold coherence_of in H. apply (BeamProofs.rtraverse_inv _ _ _ 0%nat []) in H as [L V]. rewrite seq_length in L, V. split; [exact L|]. intros i Hi. specialize (V i Hi). rewrite seq_nth in V by exact Hi. cbn [Nat.add] in V.
  apply (BeamProofs.rtraverse_inv _ _ _ 0%nat 0) in V as [L1 V1]. rewrite seq_length in L1, V1. split; [exact L1|]. intros k Hk. specialize (V1 k Hk). rewrite seq_nth in V1 by exact Hk. exact V1.
Qed.
Lemma coherence_cases rs n N : (2 <= length rs)%nat -> (exists G, coherence_of rs n N = Ok G) \/ coherence_of rs n N = Raise NonFinite.
Proof.
  intros H2. assert (B : forall E, length E = length rs -> (exists v, coherence_bin E = Ok v) \/ coherence_bin E = Raise NonFinite).
  { intros E L. unfold coherence_bin. destruct (Nat.ltb_spec (length E) 2); [lia|]. destruct (existsb is_zeroC E); [now right|left; eexists; reflexivity]. }
  assert (T : forall {A B : Type} (f : A -> result B) l, (forall x, In x l -> (exists y, f x = Ok y) \/ f x = Raise NonFinite) -> (exists r, ModelCrystal.rtraverse f l = Ok r) \/ ModelCrystal.rtraverse f l = Raise NonFinite).
  { intros A B0 f. induction l as [|x l IH]; intros H; [left; eexists; reflexivity|]. cbn [ModelCrystal.rtraverse]. destruct (H x (or_introl eq_refl)) as [[y ->]| ->]; [|now right]. cbn [rbind]. destruct IH as [[r ->]| ->]; [intros; apply H; now right| |now right]. left. eexists. reflexivity. }
  unfold coherence_of. apply T. intros i _. apply T. intros k _. apply B. now rewrite map_length.
Qed.

Lemma calc_coh strf planck c fuel fb T seed kind N op reload gen s p rs s' : trials strf planck c fuel fb N kind gen T s p = (Ok (Some (rs, s')), p) -> (2 <= T)%nat ->
  calculate_coherence strf planck c fuel fb T seed kind N op reload gen s p = (match coherence_of rs (p_n p) N with Ok G => Ok (Some (G, rs, s', fun j => gen (T + j)%nat)) | Raise e => Raise e end, p).
Proof.
  intros H H2. unfold calculate_coherence. unfold bind at 1. rewrite H. unfold bind at 1, get_NPTS, gets. destruct (Nat.ltb_spec T 2); [lia|]. unfold bind, lift. destruct (coherence_of rs (p_n p) N); reflexivity.
Qed.

(*! C104: for every fiber, pulse, number of trials and documented noise type: a coherence run that returns has propagated each trial's noisy copy of the input through the same fiber, the solver's step size carried on from trial to
    trial; it returns one result per trial and one coherence column per saved step, each value lying in [0,1] and being |  |sum of unit phasors|^2 - T | / (T(T-1)) of the trials' amplitudes in that bin, none of them zero;
    the input pulse is unchanged and the generator has moved on by exactly T draws. *)
Lemma C104_coherence_run_l : forall (strf : R -> string) (planck : R) (c : cfg) (fuel : nat) (fb : fiber) (T : nat) (seed : option nat) (kind : noise_kind) (N : nat) (op : option R) (reload : bool) (gen : stream) (s : ssfm)
  (p : pulse) (a : list C) (b : R -> list R) (g : list R) (Rw : list C) (F : R) (G : list (list R)) (rs : list run) (s' : ssfm) (gen' : stream) (q : pulse),
  coherence_setting planck c fb N kind s p a b g Rw F ->
  calculate_coherence strf planck c fuel fb T seed kind N op reload gen s p = (Ok (Some (G, rs, s', gen')), q) ->
  q = p /\ (2 <= T)%nat /\ (forall j, gen' j = gen (T + j)%nat) /\ length rs = T /\
  (exists st : nat -> ssfm, st 0%nat = s /\ st T = s' /\ forall j, (j < T)%nat -> exists qj qj' x,
     nth_error rs j = Some x /\ same_grid p qj /\ setting c fb N None (st j) qj (noisy planck kind (p_n p) (p_tw p) (p_f p) a (gen j)) b g Rw F /\
     run_once c fuel fb N None false (st j) qj = (Ok (Some (x, st (S j))), qj')) /\
  length G = N /\ forall i, (i < N)%nat -> length (nth i G []) = p_n p /\ forall k, (k < p_n p)%nat ->
    let E := fun j => nth k (nth i (r_AW (nth j rs (mkRun [] [] [] p))) []) z0 in let v := nth k (nth i G []) 0 in
    (forall j, (j < T)%nat -> E j <> z0) /\ 0 <= v <= 1 /\
    v = Rabs (Cmod (csum T (fun j => E j * RtoC (/ Cmod (E j)))%C) ^ 2 - INR T) / (INR T * (INR T - 1)).
Proof.
  intros strf planck c fuel fb T seed kind N op reload gen s p a b g Rw F G rs s' gen' q Hs H. unfold calculate_coherence in H. unfold bind at 1 in H.
  destruct (trials strf planck c fuel fb N kind gen T s p) as [[[[rs1 s1]|]|e] q1] eqn:E1; try discriminate.
  destruct (trials_run strf planck c fb N kind p a b g Rw F fuel T s gen rs1 s1 q1 Hs E1) as (-> & L & st & S0 & ST & SJ). unfold bind at 1, get_NPTS, gets in H. unfold bind, lift in H.
  destruct (Nat.ltb_spec T 2); [discriminate|]. destruct (coherence_of rs1 (p_n p) N) as [G1|e] eqn:E2; [|discriminate]. unfold ret in H.
  pose proof (f_equal snd H) as Hq. cbn [snd] in Hq. subst q. apply (f_equal fst), Ok_inj in H.
  pose proof (f_equal (fun o => match o with Some (z, _, _, _) => z | None => [] end) H) as A1.
  pose proof (f_equal (fun o => match o with Some (_, z, _, _) => z | None => [] end) H) as A2.
  pose proof (f_equal (fun o => match o with Some (_, _, z, _) => z | None => s1 end) H) as A3.
  pose proof (f_equal (fun o => match o with Some (_, _, _, z) => z | None => gen end) H) as A4.
  cbv beta iota in A1, A2, A3, A4. subst G1 rs1. rewrite A3 in ST. clear H.
  split; [reflexivity|]. split; [assumption|]. split; [intros j; now rewrite <- A4|]. split; [exact L|]. split.
  - exists st. split; [exact S0|]. split; [exact ST|]. intros j Hj. destruct (SJ j Hj) as (qj & qj' & x & X1 & X2 & X3 & X4). exists qj, qj', x. auto.
  - destruct (coherence_inv _ _ _ _ E2) as (LG & V). split; [exact LG|]. intros i Hi. destruct (V i Hi) as (Li & Vk). split; [exact Li|]. intros k Hk. specialize (Vk k Hk). cbv zeta.
    set (f := fun r => nth k (nth i (r_AW r) []) z0) in *. destruct (coh_inv _ _ Vk) as (L2 & NZ).
    assert (In0 : forall j, (j < T)%nat -> In (f (nth j rs (mkRun [] [] [] p))) (map f rs)) by (intros j Hj; apply in_map, nth_In; lia).
    split; [intros j Hj; exact (NZ _ (In0 j Hj))|]. destruct (proj1 (C36_coherence_range_l _ NZ) L2) as (v & Ev & Bv). rewrite Vk in Ev. apply Ok_inj in Ev. rewrite <- Ev in Bv. split; [exact Bv|].
    rewrite (C36_coherence_value_l _ L2 NZ) in Vk. apply Ok_inj in Vk. rewrite <- Vk. rewrite map_length, L. rewrite <- Cmod_sqr, <- Rsqr_def, Rsqr_pow2. apply (f_equal (fun t => Rabs (t - INR T) / (INR T * (INR T - 1)))). apply (f_equal (fun z => Cmod z ^ 2)%R).
    rewrite (lsum_map_nth (fun z => z * RtoC (/ Cmod z))%C), map_length, L. apply csum_ext. intros j Hj. rewrite (nth_map' f rs j (mkRun [] [] [] p)) by lia. reflexivity.
Qed.

(*! C104: every coherence run over at least two trials ends (given enough loop iterations of the solver): it returns a coherence, or some trial's amplitude in some bin is exactly 0 and the division is NaN; with fewer than two
    trials it ends in a NameError, after the propagations. *)
Lemma C104_coherence_ends_l : forall (strf : R -> string) (planck : R) (c : cfg) (fb : fiber) (T : nat) (seed : option nat) (kind : noise_kind) (N : nat) (op : option R) (reload : bool) (gen : stream) (s : ssfm)
  (p : pulse) (a : list C) (b : R -> list R) (g : list R) (Rw : list C) (F : R), coherence_setting planck c fb N kind s p a b g Rw F ->
  exists fuel0, forall fuel, (fuel0 <= fuel)%nat ->
    ((2 <= T)%nat -> (exists r, calculate_coherence strf planck c fuel fb T seed kind N op reload gen s p = (Ok (Some r), p)) \/
                     calculate_coherence strf planck c fuel fb T seed kind N op reload gen s p = (Raise NonFinite, p)) /\
    ((T < 2)%nat -> calculate_coherence strf planck c fuel fb T seed kind N op reload gen s p = (Raise NameError, p)).
Proof.
  intros strf planck c fb T seed kind N op reload gen s p a b g Rw F Hs. destruct (trials_returns strf planck c fb N kind p a b g Rw F T s gen Hs) as (f0 & H). exists f0. intros fuel Hf. destruct (H fuel Hf) as (rs & s' & E).
  destruct (trials_run strf planck c fb N kind p a b g Rw F fuel T s gen rs s' p Hs E) as (_ & L & _). split; intros HT.
  - rewrite (calc_coh strf planck c fuel fb T seed kind N op reload gen s p rs s' E HT). destruct (coherence_cases rs (p_n p) N ltac:(lia)) as [[G ->]| ->]; [left; eexists; reflexivity|now right].
  - unfold calculate_coherence. unfold bind at 1. rewrite E. unfold bind at 1, get_NPTS, gets. destruct (Nat.ltb_spec T 2); [|lia]. reflexivity.
Qed.

Lemma unit_cexp z x y : z <> z0 -> ((z * cexp (x, y)) * RtoC (/ Cmod (z * cexp (x, y))) = (z * RtoC (/ Cmod z)) * cis y)%C.
Proof.
  intros Hz. assert (Nz : Cmod z <> 0) by (intros E; apply Hz, Cmod_eq_0, E).
  assert (Ec : cexp (x, y) = (RtoC (exp x) * cis y)%C) by (unfold cexp, cis; apply C_eq; cbn; ring). pose proof (exp_pos x) as Px.
  rewrite Ec, !Cmod_mult, cis_mod, Cmod_R, Rabs_pos_eq, Rmult_1_r by lra. rewrite Rinv_mult, RtoC_mult.
  transitivity (z * RtoC (/ Cmod z) * cis y * (RtoC (exp x) * RtoC (/ exp x)))%C; [ring|]. rewrite <- RtoC_mult, Rinv_r by lra. ring.
Qed.

(*! C104: a fiber without nonlinearity (RK4IP; even grid or internal shift off) adds to each trial only the phase of the distance it covered: the run over at least two trials whose noisy inputs have no zero bin returns, and the coherence in
    bin k after i+1 slices is that of the noisy inputs with the phases D_ji beta_k added, D_ji being the distance trial j covered in i+1 slices (at least (i+1) L/N).  Where beta_k = 0 the coherence is exactly that of the inputs,
    whatever the gain. *)
Lemma C104_linear_fiber_l : forall (strf : R -> string) (planck : R) (c : cfg) (fb : fiber) (T : nat) (seed : option nat) (kind : noise_kind) (N : nat) (op : option R) (reload : bool) (gen : stream) (s : ssfm)
  (p : pulse) (a : list C) (b : R -> list R) (g : list R) (Rw : list C) (F : R), coherence_setting planck c fb N kind s p a b g Rw F -> (2 <= T)%nat ->
  c_method c = METHOD_RK4IP -> (2 <= c_eta c)%nat -> (c_pre c = false \/ Nat.even (p_n p) = true) -> (forall x, fb_get_gamma fb x = 0) ->
  let e := fun j k => nth k (noisy planck kind (p_n p) (p_tw p) (p_f p) a (gen j)) z0 in let u := fun j k => (e j k * RtoC (/ Cmod (e j k)))%C in
  (forall j k, (j < T)%nat -> (k < p_n p)%nat -> e j k <> z0) ->
  exists fuel0, forall fuel, (fuel0 <= fuel)%nat -> exists G rs s' gen', calculate_coherence strf planck c fuel fb T seed kind N op reload gen s p = (Ok (Some (G, rs, s', gen')), p) /\
    exists D : nat -> nat -> R, (forall j i, (j < T)%nat -> (i < N)%nat -> INR (S i) * (fb_len fb / INR N) <= D j i) /\ forall i k, (i < N)%nat -> (k < p_n p)%nat ->
      nth k (nth i G []) 0 = Rabs (Cmod (csum T (fun j => u j k * cis (D j i * nth k (b 0) 0))%C) ^ 2 - INR T) / (INR T * (INR T - 1)) /\
      (nth k (b 0) 0 = 0 -> nth k (nth i G []) 0 = Rabs (Cmod (csum T (fun j => u j k)) ^ 2 - INR T) / (INR T * (INR T - 1))).
Proof.
  intros strf planck c fb T seed kind N op reload gen s p a b g Rw F Hs HT Hm He Hst Hg e u He0.
  destruct (trials_returns strf planck c fb N kind p a b g Rw F T s gen Hs) as (f0 & H). exists f0. intros fuel Hf. destruct (H fuel Hf) as (rs & s' & E). clear H.
  destruct (trials_run strf planck c fb N kind p a b g Rw F fuel T s gen rs s' p Hs E) as (_ & L & st & _ & _ & SJ).
  set (d0 := mkRun [] [] [] p).
  assert (X : forall j, exists w : nat -> R, (j < T)%nat -> (forall l, (l < N)%nat -> fb_len fb / INR N <= w l) /\ forall i k, (i < N)%nat -> (k < p_n p)%nat ->
     nth k (nth i (r_AW (nth j rs d0)) []) z0 = (e j k * cexp (rsum (S i) (fun l => w l * (nth k g 0 / 2)), rsum (S i) w * nth k (b 0%R) 0)%R)%C).
  { intros j. destruct (Nat.lt_ge_cases j T) as [Hj|Hj]; [|exists (fun _ => 0); lia]. destruct (SJ j Hj) as (qj & qj' & x & X1 & X2 & (G1 & G2 & G3 & G4) & X4).
    apply (nth_error_nth _ _ d0) in X1. unfold run_once, bind in X4. destruct (propagate c fuel fb N None false (st j) qj) as [[[r|]|ex] q'] eqn:Ep; try discriminate. destruct r as [[[[z AW] AT] po] s2].
    unfold ret in X4. apply (f_equal fst), Ok_inj in X4. pose proof (f_equal (fun o => match o with Some (y, _) => r_AW y | None => [] end) X4) as Ex. cbv beta iota in Ex. cbn [r_AW] in Ex.
    destruct (C75_linear_fiber_columns_l _ _ _ _ _ _ _ _ _ _ _ _ _ _ _ _ _ _ _ X2 Hm He ltac:(rewrite G1; exact Hst) Hg Ep) as (w & W1 & W2). exists w. intros _. split; [intros l Hl; apply W1, Hl|].
    intros i k Hi Hk. rewrite X1, <- Ex. rewrite (W2 i k Hi ltac:(rewrite G1; exact Hk)). f_equal. f_equal. f_equal. rewrite <- rsum_scal_r. reflexivity. }
  assert (CH : exists w : nat -> nat -> R, forall j, (j < T)%nat -> (forall l, (l < N)%nat -> fb_len fb / INR N <= w j l) /\ forall i k, (i < N)%nat -> (k < p_n p)%nat ->
     nth k (nth i (r_AW (nth j rs d0)) []) z0 = (e j k * cexp (rsum (S i) (fun l => w j l * (nth k g 0 / 2)), rsum (S i) (w j) * nth k (b 0%R) 0)%R)%C).
  { clear - X. induction T as [|T IH]; [exists (fun _ _ => 0); intros; lia|]. destruct IH as [w Hw]; [intros j; destruct (X j) as [w Hw]; exists w; intros Hj; apply Hw; lia|]. destruct (X T) as [w1 Hw1].
    exists (fun j => if Nat.eqb j T then w1 else w j). intros j Hj. destruct (Nat.eqb_spec j T) as [->|Ne]; [apply Hw1; lia|apply Hw; lia]. }
  destruct CH as [w Hw].
  set (D := fun j i => rsum (S i) (w j)).
  assert (BL : forall i k, map (fun r => nth k (nth i (r_AW r) []) z0) rs = mk T (fun j => nth k (nth i (r_AW (nth j rs d0)) []) z0)).
  { intros i k. apply (nth_ext _ _ z0 z0); [now rewrite map_length, mk_length|]. intros j Hj. rewrite map_length in Hj. rewrite (nth_map' (fun r => nth k (nth i (r_AW r) []) z0) rs j d0) by exact Hj. rewrite mk_nth by lia. reflexivity. }
  assert (V : forall i k, (i < N)%nat -> (k < p_n p)%nat -> coherence_bin (map (fun r => nth k (nth i (r_AW r) []) z0) rs) = Ok (Rabs (Cmod (csum T (fun j => u j k * cis (D j i * nth k (b 0) 0))%C) ^ 2 - INR T) / (INR T * (INR T - 1)))).
  { intros i k Hi Hk. rewrite BL. rewrite C36_coherence_value_l.
    - rewrite mk_length. f_equal. rewrite <- Cmod_sqr, <- Rsqr_def, Rsqr_pow2. apply (f_equal (fun t => Rabs (t - INR T) / (INR T * (INR T - 1)))). apply (f_equal (fun z => Cmod z ^ 2)%R). rewrite map_mk. apply csum_ext. intros j Hj. destruct (Hw j Hj) as (_ & Q). rewrite (Q i k Hi Hk). apply unit_cexp, He0; assumption.
    - now rewrite mk_length.
    - intros z Hz. destruct (In_nth _ _ z0 Hz) as (j & Hj & <-). rewrite mk_length in Hj. rewrite mk_nth by exact Hj. destruct (Hw j Hj) as (_ & Q). rewrite (Q i k Hi Hk). apply Cmult_neq_0; [apply He0; assumption|apply cexp_nonzero]. }
  set (G := mk N (fun i => mk (p_n p) (fun k => Rabs (Cmod (csum T (fun j => u j k * cis (D j i * nth k (b 0) 0))%C) ^ 2 - INR T) / (INR T * (INR T - 1))))).
  assert (EG : coherence_of rs (p_n p) N = Ok G).
  { unfold coherence_of. unfold G, mk. apply BeamProofs.rtraverse_ok. intros i Hi. apply in_seq in Hi. apply BeamProofs.rtraverse_ok. intros k Hk. apply in_seq in Hk. apply V; lia. }
  exists G, rs, s', (fun j => gen (T + j)%nat). split; [rewrite (calc_coh strf planck c fuel fb T seed kind N op reload gen s p rs s' E HT), EG; reflexivity|].
  exists D. split.
  - intros j i Hj Hi. destruct (Hw j Hj) as (Q & _). unfold D. rewrite <- rsum_const. apply rsum_le. intros l Hl. apply Q. lia.
  - intros i k Hi Hk. unfold G. rewrite mk_nth by exact Hi. rewrite mk_nth by exact Hk. split; [reflexivity|]. intros ->. f_equal. f_equal. f_equal. f_equal. f_equal. apply csum_ext. intros j Hj. rewrite Rmult_0_r, cis_0. ring.
Qed.

(** witness: two bins of amplitude 1, an empty fiber, two trials; one generator delivers no noise, the other turns the second trial by a quarter of pi *)
Definition sw_c : cfg := mkCfg 1 METHOD_RK4IP 2 true true true 1 1 true.
Definition sw_s : ssfm := mkS [] 1 0 None 1 [] [] [] 0 1 [] [] 0.
Definition sw_p : pulse := mkPulse 2 100 1 (Some [RtoC 1; RtoC 1]) (Some 1) true None None None None.
Definition sw_gen (planck : R) (on : bool) : stream :=
  fun j => match j with 1%nat => (fun k => if on then / (planck * ((100 + (INR k - 1)) * 10 ^ 12) * 10 ^ 12) else 0, fun _ => / 4) | _ => (fun _ => 0, fun _ => / 4) end.
Lemma sw_setting planck : 0 < planck -> coherence_setting planck sw_c (empty_fiber 1 2) 1 one_photon_freq sw_s sw_p [RtoC 1; RtoC 1] (fun _ => repeat 0 2) (repeat 0 2) (repeat (RtoC 1) 2) 0.
Proof.
  intros Hp. split; [repeat split|]. split; [cbn; lia|]. split; [cbn; lra|]. split; [cbn; lra|]. split; [exact Hp|]. split.
  { intros k Hk. cbn [sw_p p_n p_f p_tw] in *. destruct k as [|[|k]]; [cbn [INR]; lra|cbn [INR]; lra|lia]. }
  split; [discriminate|]. split; [lia|]. split; [cbn; lra|]. split; [cbn; lra|]. split; [reflexivity|]. intros q a' _ (G & _). cbn [sw_p p_n] in G. pose proof (empty_answers 1 q None) as A. rewrite G in A. exact A.
Qed.
Lemma sw_input planck on j k : 0 < planck -> (j < 2)%nat -> (k < 2)%nat ->
  nth k (noisy planck one_photon_freq 2 1 100 [RtoC 1; RtoC 1] (sw_gen planck on j)) z0 = if (on && Nat.eqb j 1)%bool then (1, 1)%R else RtoC 1.
Proof.
  intros Hp Hj Hk. unfold noisy. rewrite mk_nth by exact Hk. cbv zeta. replace (nth k [RtoC 1; RtoC 1] z0) with (RtoC 1) by (destruct k as [|[|k]]; [reflexivity|reflexivity|lia]).
  assert (Zr : forall x y : R, (RtoC 1 + RtoC (0 * x) * y)%C = RtoC 1) by (intros; apply C_eq; cbn; ring).
  destruct j as [|[|j]]; [| |lia]; cbn [sw_gen fst snd Nat.eqb].
  - rewrite Bool.andb_false_r. apply C_eq; cbn [Re Im fst snd Cplus Cmult RtoC]; ring.
  - rewrite Bool.andb_true_r. replace (2 * PI * / 4) with (PI / 2) by field. destruct on.
    + assert (P1 : 0 < planck * ((100 + (INR k - 1)) * 10 ^ 12) * 10 ^ 12).
      { assert (0 <= INR k) by apply pos_INR. assert (0 < 10 ^ 12) by (apply pow_lt; lra). apply Rmult_lt_0_compat; [|lra]. apply Rmult_lt_0_compat; [lra|]. apply Rmult_lt_0_compat; lra. }
      replace ((100 + (INR k - INR 2 / 2) / 1) * 10 ^ 12) with ((100 + (INR k - 1)) * 10 ^ 12) by (cbn [INR]; field). replace (10 ^ 12 / 1) with (10 ^ 12) by field.
      set (x := planck * ((100 + (INR k - 1)) * 10 ^ 12)) in *. replace (/ (x * 10 ^ 12) * 1 * x * 10 ^ 12) with 1.
      * unfold cis. rewrite cos_PI2, sin_PI2. apply C_eq; cbn; ring.
      * rewrite Rmult_1_r, Rmult_assoc, Rinv_l; [reflexivity|lra].
    + apply C_eq; cbn [Re Im fst snd Cplus Cmult RtoC]; ring.
Qed.

(*! C104 (refuted): random_seed does not make a coherence run repeatable.  Two runs on the same pulse, fiber and solver with the same seed, from different states of numpy's generator, return different coherences (1 and less than 1). *)
Lemma C104_seed_refuted_l : forall (strf : R -> string) (planck : R) (seed : option nat), 0 < planck ->
  exists (c : cfg) (fuel : nat) (fb : fiber) (T : nat) (kind : noise_kind) (N : nat) (s : ssfm) (p : pulse) (gen1 gen2 : stream) (G1 G2 : list (list R)) (rs1 rs2 : list run) (s1 s2 : ssfm) (g1 g2 : stream),
  calculate_coherence strf planck c fuel fb T seed kind N None false gen1 s p = (Ok (Some (G1, rs1, s1, g1)), p) /\
  calculate_coherence strf planck c fuel fb T seed kind N None false gen2 s p = (Ok (Some (G2, rs2, s2, g2)), p) /\
  nth 0 (nth 0 G1 []) 0 = 1 /\ nth 0 (nth 0 G2 []) 0 < 1.
Proof.
  intros strf planck seed Hp.
  assert (NZ : forall on j k, (j < 2)%nat -> (k < 2)%nat -> nth k (noisy planck one_photon_freq 2 1 100 [RtoC 1; RtoC 1] (sw_gen planck on j)) z0 <> z0).
  { intros on j k Hj Hk. rewrite (sw_input planck on j k Hp Hj Hk). intros E. apply (f_equal Re) in E. destruct (on && Nat.eqb j 1)%bool; cbn in E; lra. }
  pose proof (fun on => C104_linear_fiber_l strf planck sw_c (empty_fiber 1 2) 2 seed one_photon_freq 1 None false (sw_gen planck on) sw_s sw_p _ _ _ _ _ (sw_setting planck Hp) (le_n 2) eq_refl (le_n 2) (or_intror eq_refl) (fun _ => eq_refl) (NZ on)) as H.
  destruct (H false) as (f1 & H1). destruct (H true) as (f2 & H2). clear H. set (fuel := Nat.max f1 f2).
  destruct (H1 fuel ltac:(unfold fuel; lia)) as (G1 & rs1 & s1 & g1 & E1 & D1 & _ & V1). destruct (H2 fuel ltac:(unfold fuel; lia)) as (G2 & rs2 & s2 & g2 & E2 & D2 & _ & V2). clear H1 H2.
  exists sw_c, fuel, (empty_fiber 1 2), 2%nat, one_photon_freq, 1%nat, sw_s, sw_p, (sw_gen planck false), (sw_gen planck true), G1, G2, rs1, rs2, s1, s2, g1, g2.
  split; [exact E1|]. split; [exact E2|].
  destruct (V1 0%nat 0%nat ltac:(lia) ltac:(cbn; lia)) as (_ & W1). destruct (V2 0%nat 0%nat ltac:(lia) ltac:(cbn; lia)) as (_ & W2). specialize (W1 eq_refl). specialize (W2 eq_refl). cbn [sw_p p_n p_tw p_f] in W1, W2.
  rewrite W1, W2. clear - Hp. rewrite !csum_S. cbn [csum mk seq map lsum fold_right]. rewrite !(sw_input planck) by (assumption || lia). cbn [andb Nat.eqb].
  assert (M2 : Cmod (1, 1)%R = sqrt 2) by (unfold Cmod; cbn; f_equal; ring). rewrite M2.
  pose proof (sqrt_sqrt 2 ltac:(lra)) as S2. assert (Ps : 0 < sqrt 2) by (apply sqrt_lt_R0; lra).
  assert (Q : forall z, Cmod z ^ 2 = Cnorm2 z) by (intros z; rewrite <- Cmod_sqr; ring). rewrite !Q. assert (M1 : Cmod (RtoC 1) = 1) by (rewrite Cmod_R; apply Rabs_pos_eq; lra). rewrite M1, Rinv_1. change (INR 2) with (1 + 1). split.
  - unfold Cnorm2. cbn. match goal with |- Rabs ?x / _ = _ => replace x with 2 by ring end. rewrite Rabs_pos_eq by lra. field.
  - unfold Cnorm2. cbn. assert (E : / sqrt 2 = sqrt 2 / 2) by (apply Rmult_eq_reg_l with (sqrt 2); [rewrite Rinv_r by lra; nra|lra]). rewrite E. set (r := sqrt 2) in *. clearbody r.
    match goal with |- Rabs ?x / _ < _ => replace x with (r + r * r / 2 - 1) by field end. rewrite S2. rewrite Rabs_pos_eq by lra. assert (r < 3/2) by nra. lra.
Qed.

(*! C105 (refuted): propagate_to_gain_goal never returns a scale factor.  In every setting in which its first propagation finishes it ends in an AttributeError (it reads pulse_out.frep, which no pulse has), whatever the goal, the guess,
    the tolerance and the number of steps; the input pulse keeps its field and grid. *)
Lemma C105_gain_goal_refuted_l : forall (c : cfg) (fb : fiber) (N : nat) (goal : R) (guess : option R) (tol : R) (s : ssfm) (p : pulse) (a : list C) (b : R -> list R) (g : list R) (Rw : list C) (F : R),
  setting c fb 1 (Some (match guess with Some x => x | None => 1 end * goal)) s p a b g Rw F ->
  (exists fuel0, forall fuel, (fuel0 <= fuel)%nat -> exists q, propagate_to_gain_goal c fuel fb N goal guess tol s p = (Raise AttributeError, q) /\ like p q) /\
  (forall fuel r q, propagate_to_gain_goal c fuel fb N goal guess tol s p = (Ok (Some r), q) -> False).
Proof.
  intros c fb N goal guess tol s p a b g Rw F (S1 & S2 & S3 & S4 & S5 & S6 & S7 & S8). split.
  - assert (Hdz : 0 < step_of (fb_len fb) 1) by (unfold step_of; apply Rdiv_lt_0_compat; [exact S7|apply lt_0_INR; exact S6]).
    assert (W : wf (p_n p) (start c fb p (b 0) g a Rw F s)) by (eapply start_wf; eassumption).
    destruct (cols_returns c fb p b false _ ltac:(apply S4) Hdz 1%nat 0%nat _ W S8) as (fuel & [l sf] & EC). exists fuel. intros fuel' Hf. pose proof (cols_mono c _ _ fuel fuel' Hf 1%nat 0%nat _ _ EC) as EC'.
    destruct (propagate_run c fuel' fb 1 _ false s p _ b g Rw F S1 S2 S4 S5 S3 S6 S7 S8) as (q & Lq & R). rewrite EC' in R. destruct R as (_ & (Wl & _) & po & Op & Ea & R).
    exists q. split; [|exact Lq]. unfold propagate_to_gain_goal, run_once, bind. rewrite R. cbn [ret r_out]. destruct Op as ((Rd & _) & O1 & O2 & O3 & O4).
    rewrite (calc_epp_run po (FFT_t (cifftshift c (s_A sf)))); [reflexivity| |lia]. split; [exact Rd|]. split; [exact Ea|]. rewrite FFT_t_length, cifftshift_length. congruence.
  - intros fuel r q H. unfold propagate_to_gain_goal, bind in H. destruct (run_once c fuel fb 1 _ false s p) as [[[[x s']|]|e] q1]; try discriminate. destruct (calc_epp (r_out x)) as [[e|e] ?]; discriminate.
Qed.

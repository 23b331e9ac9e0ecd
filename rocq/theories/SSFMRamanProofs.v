(** SSFM: Raman response (C37, C29) and ensemble coherence (C36). *)
From Coq Require Import Reals List ZArith Bool Arith Lia Lra Permutation.
From Coquelicot Require Import Complex.
From Verif Require Import Base CNum NumPy ModelFFT FFTProofs ModelPulse PulseProofs PulseOpsProofs ModelSSFM SSFMLoopProofs SSFMProofs SSFMSymProofs SSFMPropProofs SSFMTrivProofs.
Import ListNotations.
Local Open Scope R_scope.
Local Open Scope py_scope.
Local Notation z0 := (RtoC 0).

(** ** The response *)
Lemma raman_inv c fR p Rw F q : calc_raman c fR p = (Ok (Rw, F), q) ->
  (c_noRaman c = true /\ Rw = repeat (RtoC 1) (p_n p) /\ F = fR) \/
  (c_noRaman c = false /\ let RT := raman_RT c (T_of p) in let area := trapz_x RT (T_of p) in area <> 0 /\ F = (if c_simple c then fR else 245 / 1000) /\
   Rw = map (fun z => RtoC (1 - F) + RtoC (p_tw p) * z)%C (FFT_t (map (fun x => RtoC (F * x)) (map (fun x => x / area) RT)))).
Proof.
  unfold calc_raman, get_NPTS, get_T, get_time_window_ps, need_ready. unfold bind, gets, ret, raise, get, fst, snd. destruct (c_noRaman c).
  - intros H. apply (f_equal fst), Ok_inj in H. pose proof (f_equal fst H) as H1. pose proof (f_equal snd H) as H2. cbn [fst snd] in H1, H2. subst. left. auto.
  - destruct (Req_EM_T (c_tau1 c * c_tau2 c ^ 2) 0); [discriminate|]. destruct (p_ready p); [|discriminate].
    match goal with |- context [Req_EM_T ?x 0] => destruct (Req_EM_T x 0) as [|Hn] end; [discriminate|]. intros H. apply (f_equal fst), Ok_inj in H. cbn [fst] in H.
    pose proof (f_equal fst H) as H1. pose proof (f_equal snd H) as H2. cbn [fst snd] in H1, H2. right. split; [reflexivity|]. split; [exact Hn|]. split; [now rewrite <- H2|]. rewrite <- H1, <- H2. reflexivity.
Qed.

(*! C29: the response that setup computes, with Raman on or off and either built-in model, is real in the time domain in the sense C29_nonlinear_moves_no_power needs, whatever the internal shift. *)
Lemma C29_setup_response_real_l : forall (c : cfg) (fR : R) (p q : pulse) (Rw : list C) (F : R),
  calc_raman c fR p = (Ok (Rw, F), q) -> real_response c (p_n p) (cfftshift c Rw).
Proof.
  intros c fR p q Rw F H. destruct (raman_inv _ _ _ _ _ _ H) as [(_ & -> & _)|(_ & Hn & _ & ->)].
  - exists 1, 0, (repeat 0 (p_n p)). split; [apply repeat_length|]. rewrite cfftshift_repeat. apply (nth_ext _ _ z0 z0).
    + rewrite repeat_length, !map_length. rewrite (len_fft_t c (p_n p)); [reflexivity|]. now rewrite map_length, repeat_length.
    + intros k Hk. rewrite repeat_length in Hk. rewrite (nth_indep _ z0 (RtoC 1)) by now rewrite repeat_length. rewrite nth_repeat.
      rewrite (nth_map' _ _ _ z0) by (rewrite (len_fft_t c (p_n p)); [exact Hk|now rewrite map_length, repeat_length]). ring.
  - set (RT := raman_RT c (T_of p)) in *. set (area := trapz_x RT (T_of p)) in *. set (r := map (fun x => x / area) RT).
    assert (Lr : length r = p_n p) by (unfold r, RT, raman_RT; now rewrite map_length, mk_length, T_of_length).
    set (r1 := map (Rmult F) r). assert (E1 : map (fun x => RtoC (F * x)) r = map RtoC r1) by (unfold r1; now rewrite map_map).
    rewrite E1. unfold real_response, cfftshift, fft_t. destruct (c_pre c).
    + exists (1 - F), (p_tw p), (fftshift r1). split; [unfold r1; now rewrite fftshift_length, map_length|].
      rewrite <- fftshift_map. f_equal. unfold FFT_t. rewrite fftshift_ifftshift. f_equal. symmetry. apply fftshift_map.
    + exists (1 - F), (p_tw p), r1. split; [unfold r1; now rewrite map_length|]. reflexivity.
Qed.

Lemma FFT_t_centre (x : list C) h : length x = (2 * h)%nat -> (0 < h)%nat -> nth h (FFT_t x) z0 = (RtoC (/ INR (2 * h)) * lsum x)%C.
Proof.
  intros L Hh. pose proof (FFT_t_nth x h ltac:(lia)) as E. cbv zeta in E. rewrite E, lsum_nth, L. rewrite Nat.div2_double. f_equal. apply csum_ext. intros j Hj.
  rewrite (tw_mod (2 * h) _ 0); [rewrite tw_0; ring|lia|]. replace ((Z.of_nat j + Z.of_nat h) * (Z.of_nat h + Z.of_nat h))%Z with ((Z.of_nat j + Z.of_nat h) * Z.of_nat (2 * h))%Z by lia.
  now rewrite Z_mod_mult, Zmod_0_l.
Qed.
Lemma trapz_x_uniform d : forall y x, length x = length y -> (forall i, (S i < length x)%nat -> nth (S i) x 0 - nth i x 0 = d) -> trapz_x y x = d * trapz y.
Proof.
  induction y as [|a y IH]; intros [|t x] L H; try discriminate; [cbn; ring|]. destruct y as [|b y], x as [|u x]; try discriminate; [cbn; ring|].
  change (trapz_x (a :: b :: y) (t :: u :: x)) with ((u - t) * (a + b) / 2 + trapz_x (b :: y) (u :: x)). change (trapz (a :: b :: y)) with ((a + b) / 2 + trapz (b :: y)).
  rewrite IH; [|cbn in *; lia|].
  - pose proof (H 0%nat ltac:(cbn; lia)) as H0. cbn in H0. rewrite H0. field.
  - intros i Hi. apply (H (S i)). cbn in *. lia.
Qed.
Lemma lrsum_scale k l : lrsum (map (Rmult k) l) = k * lrsum l.
Proof. induction l as [|a l IH]; cbn; [ring|]. unfold lrsum in IH. rewrite IH. ring. Qed.
Lemma lsum_RtoC l : lsum (map RtoC l) = RtoC (lrsum l).
Proof. induction l as [|a l IH]; cbn; [reflexivity|]. unfold lsum, lrsum in IH. rewrite IH. now rewrite RtoC_plus. Qed.
Lemma area_sum c p : (2 <= p_n p)%nat -> let RT := raman_RT c (T_of p) in
  trapz_x RT (T_of p) = p_tw p / INR (p_n p) * (lrsum RT - nth (p_n p - 1) RT 0 / 2).
Proof.
  intros Hn RT. assert (LR : length RT = p_n p) by (unfold RT, raman_RT; now rewrite mk_length, T_of_length).
  assert (HN : INR (p_n p) <> 0) by (apply not_0_INR; lia).
  rewrite (trapz_x_uniform (p_tw p / INR (p_n p))).
  - rewrite trapz_sum by lia. rewrite LR. f_equal. replace (nth 0 RT 0) with 0; [field|]. unfold RT, raman_RT. rewrite T_of_length, mk_nth by lia.
    destruct (Nat.ltb_spec 0 (Nat.div2 (p_n p))) as [|E]; [reflexivity|]. destruct (p_n p) as [|[|k]]; try lia. cbn in E. lia.
  - now rewrite T_of_length, LR.
  - intros i Hi. rewrite T_of_length in Hi. rewrite !T_of_val by lia. rewrite S_INR. field. exact HN.
Qed.

(*! C37 (partial): on every even grid the response at the zero-frequency bin is 1 plus f_R/2 times the sampling step times the last sample of the normalised response: the trapezoidal
    normalisation and the plain sum of the transform differ by half the end sample. Hence it is exactly 1 when Raman is off, when the fraction is 0, and when the sampled response
    ends at 0. Missing: equality to 1 in general, which is false. *)
Lemma C37_zero_frequency_partial_l : forall (c : cfg) (fR : R) (p q : pulse) (Rw : list C) (F : R) (h : nat),
  calc_raman c fR p = (Ok (Rw, F), q) -> p_n p = (2 * h)%nat -> (0 < h)%nat -> p_tw p <> 0 ->
  nth h (V_of p) 1 = 0 /\
  (c_noRaman c = true -> nth h Rw z0 = RtoC 1) /\
  (c_noRaman c = false -> let RT := raman_RT c (T_of p) in let area := trapz_x RT (T_of p) in let dT := p_tw p / INR (p_n p) in
     nth h Rw z0 = RtoC (1 + F * dT * (nth (p_n p - 1) RT 0 / area) / 2)) /\
  (F = 0 \/ raman_shape c (nth (p_n p - 1) (T_of p) 0) = 0 -> nth h Rw z0 = RtoC 1).
Proof.
  intros c fR p q Rw F h H Hn Hh Ht.
  assert (HN : INR (p_n p) <> 0) by (apply not_0_INR; lia).
  assert (HV : nth h (V_of p) 1 = 0).
  { rewrite V_of_val by lia. rewrite Hn, mult_INR. cbn [INR]. field. exact Ht. }
  assert (M : c_noRaman c = true -> nth h Rw z0 = RtoC 1).
  { intros Hr. destruct (raman_inv _ _ _ _ _ _ H) as [(_ & -> & _)|(Hf & _)]; [|congruence]. rewrite (nth_indep _ z0 (RtoC 1)) by (rewrite repeat_length; lia). apply nth_repeat. }
  assert (N : c_noRaman c = false -> let RT := raman_RT c (T_of p) in let area := trapz_x RT (T_of p) in let dT := p_tw p / INR (p_n p) in
     nth h Rw z0 = RtoC (1 + F * dT * (nth (p_n p - 1) RT 0 / area) / 2)).
  { intros Hr RT area dT. destruct (raman_inv _ _ _ _ _ _ H) as [(Hf & _)|(_ & Ha & _ & ->)]; [congruence|]. fold RT in Ha |- *. fold area in Ha |- *.
    assert (LR : length RT = p_n p) by (unfold RT, raman_RT; now rewrite mk_length, T_of_length).
    replace (map (fun x => RtoC (F * x)) (map (fun x => x / area) RT)) with (map RtoC (map (Rmult (F / area)) RT)) by (rewrite !map_map; apply map_ext; intros; f_equal; field; exact Ha).
    rewrite (nth_map' _ _ _ z0) by (rewrite FFT_t_length, !map_length; lia). rewrite FFT_t_centre by (rewrite ?map_length; lia). rewrite lsum_RtoC, lrsum_scale.
    assert (EA : lrsum RT = area / dT + nth (p_n p - 1) RT 0 / 2).
    { unfold area, dT. unfold RT. rewrite area_sum by lia. fold RT. field. split; [exact HN|exact Ht]. }
    rewrite EA. rewrite <- Hn. rewrite <- !RtoC_mult, <- RtoC_plus. f_equal. unfold dT. field. auto. }
  split; [exact HV|]. split; [exact M|]. split; [exact N|]. intros HF. destruct (c_noRaman c); [auto|]. cbv zeta in N. rewrite (N eq_refl).
  destruct HF as [->|HF]; [f_equal; unfold Rdiv; ring|]. assert (E : nth (p_n p - 1) (raman_RT c (T_of p)) 0 = 0).
  { unfold raman_RT. rewrite T_of_length, mk_nth by lia. destruct (Nat.ltb (p_n p - 1) (Nat.div2 (p_n p))); [reflexivity|exact HF]. }
  rewrite E. f_equal. unfold Rdiv. ring.
Qed.

(*! C37 (refuted): on every 4-point grid whose last sample of the response is not zero the zero-frequency response of the simple model is 1 + f_R, so for f_R <> 0 the steady-state nonlinearity is not gamma. *)
Lemma C37_zero_frequency_refuted_l : forall (c : cfg) (fR : R) (p : pulse),
  c_noRaman c = false -> c_simple c = true -> c_tau1 c <> 0 -> c_tau2 c <> 0 -> p_ready p = true -> p_n p = 4%nat -> p_tw p <> 0 -> sin (p_tw p / 4 / c_tau1 c) <> 0 ->
  exists Rw, calc_raman c fR p = (Ok (Rw, fR), p) /\ nth 2 (V_of p) 1 = 0 /\ nth 2 Rw z0 = RtoC (1 + fR).
Proof.
  intros c fR p Hr Hs H1 H2 Hp Hn Ht Hsin.
  set (RT := raman_RT c (T_of p)). set (area := trapz_x RT (T_of p)).
  assert (T3 : nth 3 (T_of p) 0 = p_tw p / 4) by (rewrite T_of_val by lia; rewrite Hn; cbn [INR]; field).
  assert (T2 : nth 2 (T_of p) 0 = 0) by (rewrite T_of_val by lia; rewrite Hn; cbn [INR]; field).
  assert (ERT : RT = [0; 0; 0; raman_shape c (p_tw p / 4)]).
  { unfold RT, raman_RT. rewrite T_of_length, Hn. unfold mk. cbn [seq map Nat.ltb Nat.leb Nat.div2]. rewrite T2, T3. f_equal. f_equal. f_equal. unfold raman_shape. rewrite Hs. 
    replace (0 / c_tau1 c) with 0 by (unfold Rdiv; ring). rewrite sin_0. ring. }
  assert (Hsh : raman_shape c (p_tw p / 4) <> 0).
  { unfold raman_shape. rewrite Hs. repeat apply Rmult_integral_contrapositive_currified; try exact Hsin.
    - pose proof (Rsqr_pos_lt _ H1). pose proof (Rsqr_pos_lt _ H2). unfold Rsqr in *. cbn [pow]. nra.
    - apply Rinv_neq_0_compat, Rmult_integral_contrapositive_currified; [exact H1|]. now apply pow_nonzero.
    - apply Rgt_not_eq, exp_pos. }
  assert (EA : area = p_tw p / 4 * (raman_shape c (p_tw p / 4) / 2)).
  { unfold area, RT. rewrite area_sum by lia. fold RT. rewrite ERT, Hn. cbn [Nat.sub nth lrsum fold_right INR]. field. }
  assert (Ha : area <> 0).
  { rewrite EA. apply Rmult_integral_contrapositive_currified; [|lra]. lra. }
  assert (R0 : exists Rw, calc_raman c fR p = (Ok (Rw, fR), p)).
  { unfold calc_raman, get_NPTS, get_T, get_time_window_ps, need_ready. unfold bind, gets, ret, raise, get. rewrite Hr. destruct (Req_EM_T (c_tau1 c * c_tau2 c ^ 2) 0) as [E|_].
    - exfalso. revert E. apply Rmult_integral_contrapositive_currified; [exact H1|now apply pow_nonzero].
    - rewrite Hp. fold RT. fold area. destruct (Req_EM_T area 0); [contradiction|]. rewrite Hs. eexists. reflexivity. }
  destruct R0 as (Rw & E). exists Rw. split; [exact E|].
  destruct (C37_zero_frequency_partial_l c fR p p Rw fR 2 E Hn ltac:(lia) Ht) as (V & _ & N & _). split; [exact V|]. cbv zeta in N. rewrite (N Hr). fold RT. fold area. f_equal.
  rewrite EA, ERT, Hn. cbn [Nat.sub nth INR]. field. split; [exact Hsh|exact Ht].
Qed.

(*! C37 (partial): with the simple model (and with Raman off) the fraction used is the constructor's f_R. Missing: the default two-peak model, see C37_fraction_refuted. *)
Lemma C37_fraction_partial_l : forall (c : cfg) (fR : R) (p q : pulse) (Rw : list C) (F : R),
  calc_raman c fR p = (Ok (Rw, F), q) -> c_simple c = true \/ c_noRaman c = true -> F = fR.
Proof.
  intros c fR p q Rw F H Hc. destruct (raman_inv _ _ _ _ _ _ H) as [(_ & _ & E)|(E0 & _ & E & _)]; [exact E|]. destruct Hc as [Hc|Hc]; [now rewrite Hc in E|congruence].
Qed.
(*! C37 (refuted): the two-peak model ignores the constructor's f_R: it uses 0.245 and stores that back, for every f_R. *)
Lemma C37_fraction_refuted_l : forall (c : cfg) (fR : R) (p q : pulse) (Rw : list C) (F : R),
  calc_raman c fR p = (Ok (Rw, F), q) -> c_simple c = false -> c_noRaman c = false -> F = 245 / 1000 /\ (fR <> 245 / 1000 -> F <> fR) /\
  forall fR', calc_raman c fR' p = (Ok (Rw, F), q).
Proof.
  intros c fR p q Rw F H Hs Hr. destruct (raman_inv _ _ _ _ _ _ H) as [(E & _)|(_ & _ & E & _)]; [congruence|]. rewrite Hs in E. split; [exact E|]. split; [congruence|].
  intros fR'. rewrite <- H. unfold calc_raman. rewrite Hr, Hs. reflexivity.
Qed.

(** ** Coherence *)
Definition unit_of (z : C) : C := (z * RtoC (/ Cmod z))%C.
Lemma Cmod_neq z : Cnorm2 z <> 0 -> Cmod z <> 0.
Proof. intros H E. apply H. now rewrite <- Cmod_sqr, E, Rmult_0_l. Qed.
Lemma g12_unit a b : Cnorm2 a <> 0 -> Cnorm2 b <> 0 -> g12 a b = (Cconj (unit_of a) * unit_of b)%C.
Proof.
  intros Ha Hb. unfold g12, unit_of. rewrite Cconj_mult, Cconj_R. rewrite sqrt_mult by apply Cnorm2_nonneg. rewrite <- !Cmod_Cnorm2. apply Cmod_neq in Ha, Hb.
  unfold Cdiv. rewrite <- RtoC_inv by (now apply Rmult_integral_contrapositive_currified). rewrite Rinv_mult, RtoC_mult. ring.
Qed.
Lemma unit_norm z : Cnorm2 z <> 0 -> Cnorm2 (unit_of z) = 1.
Proof. intros H. unfold unit_of. rewrite Cnorm2_mult, Cnorm2_R, <- Cmod_sqr. apply Cmod_neq in H. field. exact H. Qed.
Lemma lsum_flat_map {A} (f : A -> list C) l : lsum (flat_map f l) = lsum (map (fun a => lsum (f a)) l).
Proof. induction l as [|a l IH]; [reflexivity|]. cbn [flat_map map]. rewrite lsum_app, IH. reflexivity. Qed.
Lemma flat_map_map' {A B D} (g : B -> D) (f : A -> list B) l : map g (flat_map f l) = flat_map (fun a => map g (f a)) l.
Proof. induction l as [|a l IH]; [reflexivity|]. cbn [flat_map]. now rewrite map_app, IH. Qed.
Lemma pairs_sum (g : C -> C -> C) E : lsum (map (fun ab => g (fst ab) (snd ab)) (pairs E)) =
  csum (length E) (fun i => csum (length E) (fun j => if Nat.eqb i j then z0 else g (nth i E z0) (nth j E z0))).
Proof.
  unfold pairs. rewrite flat_map_map', lsum_flat_map. unfold csum at 1, mk. f_equal. apply map_ext_in. intros i Hi. apply in_seq in Hi.
  rewrite flat_map_map', lsum_flat_map. unfold csum, mk. f_equal. apply map_ext_in. intros j Hj. apply in_seq in Hj. destruct (Nat.eqb i j); [reflexivity|].
  rewrite !(nth_error_nth' E z0) by lia. cbn. ring.
Qed.
Lemma flat_map_length' {A B} (f : A -> list B) l k : (forall a, In a l -> length (f a) = k) -> length (flat_map f l) = (length l * k)%nat.
Proof. induction l as [|a l IH]; intros H; [reflexivity|]. cbn [flat_map length]. rewrite app_length, IH, H; [lia|now left|]. intros; apply H; now right. Qed.
Lemma row_length {A} (l : list A) i a : nth_error l i = Some a -> length (flat_map (fun j =>
    if Nat.eqb i j then [] else match nth_error l i, nth_error l j with Some a, Some b => [(a, b)] | _, _ => [] end) (seq 0 (length l))) = (length l - 1)%nat.
Proof.
  intros Hi. rewrite Hi. assert (Hl : (i < length l)%nat) by (apply nth_error_Some; congruence).
  assert (G : forall m, (m <= length l)%nat -> length (flat_map (fun j => if Nat.eqb i j then [] else match nth_error l j with Some b => [(a, b)] | None => [] end) (seq 0 m)) = (m - (if Nat.ltb i m then 1 else 0))%nat).
  { induction m as [|m IH]; intros Hm; [reflexivity|]. rewrite seq_S, flat_map_app, app_length, IH by lia. cbn [flat_map Nat.add]. rewrite app_nil_r.
    destruct (nth_error l m) as [b|] eqn:E; [|apply nth_error_None in E; lia].
    destruct (Nat.eqb_spec i m), (Nat.ltb_spec i m), (Nat.ltb_spec i (S m)); cbn [length]; lia. }
  rewrite G by lia. destruct (Nat.ltb_spec i (length l)); lia.
Qed.
Lemma pairs_length {A} (l : list A) : length (pairs l) = (length l * (length l - 1))%nat.
Proof.
  unfold pairs. rewrite (flat_map_length' _ _ (length l - 1)); [now rewrite seq_length|]. intros i Hi. apply in_seq in Hi.
  assert (Ha : exists a, nth_error l i = Some a) by (destruct (nth_error l i) as [a|] eqn:E; [now exists a|apply nth_error_None in E; lia]). destruct Ha as (a & Ha). exact (row_length l i a Ha).
Qed.
Lemma lsum_map_nth (f : C -> C) l : lsum (map f l) = csum (length l) (fun i => f (nth i l z0)).
Proof. rewrite lsum_nth, map_length. apply csum_ext. intros i Hi. now rewrite (nth_map' _ _ _ z0). Qed.

(*! C36: what calculate_coherence returns for one bin: with u_i the unit phasors of the N >= 2 trials, | |u_1+...+u_N|^2 - N | / (N(N-1)). *)
Lemma C36_coherence_value_l : forall E : list C, (2 <= length E)%nat -> (forall z, In z E -> z <> z0) ->
  coherence_bin E = Ok (Rabs (Cnorm2 (lsum (map (fun z => z * RtoC (/ Cmod z))%C E)) - INR (length E)) / (INR (length E) * (INR (length E) - 1))).
Proof.
  intros E H2 Hz. change (fun z => (z * RtoC (/ Cmod z))%C) with unit_of. unfold coherence_bin. destruct (Nat.ltb_spec (length E) 2); [lia|].
  assert (HN : forall z, In z E -> Cnorm2 z <> 0) by (intros z Hin E0; apply (Hz z Hin), Cnorm2_eq_0, E0).
  assert (Hx : existsb is_zeroC E = false).
  { apply not_true_is_false. intros Hx. apply existsb_exists in Hx. destruct Hx as (z & Hin & Hx). unfold is_zeroC in Hx. destruct (Req_EM_T (Cnorm2 z) 0) as [e|]; [|discriminate]. now apply (HN z). }
  rewrite Hx. cbv zeta. rewrite map_length, pairs_length, pairs_sum. set (N := length E) in *. set (S := lsum (map unit_of E)).
  assert (ES : S = csum N (fun i => unit_of (nth i E z0))) by (unfold S; apply lsum_map_nth).
  assert (EQ : csum N (fun i => csum N (fun j => if Nat.eqb i j then z0 else g12 (nth i E z0) (nth j E z0))) = RtoC (Cnorm2 S - INR N)).
  { transitivity (csum N (fun i => Cconj (unit_of (nth i E z0)) * S + - RtoC 1)%C).
    - apply csum_ext. intros i Hi. assert (Ni : Cnorm2 (nth i E z0) <> 0) by (apply HN, nth_In; exact Hi).
      transitivity (csum N (fun j => Cconj (unit_of (nth i E z0)) * unit_of (nth j E z0) + (if Nat.eqb j i then - RtoC 1 else z0))%C).
      + apply csum_ext. intros j Hj. assert (Nj : Cnorm2 (nth j E z0) <> 0) by (apply HN, nth_In; exact Hj). rewrite Nat.eqb_sym. destruct (Nat.eqb_spec j i) as [->|Hne].
        * rewrite Cmult_comm, Cmult_conj, unit_norm by exact Ni. ring.
        * rewrite g12_unit by assumption. ring.
      + rewrite csum_plus, csum_scal_l, <- ES. f_equal. rewrite (csum_single N i) by (try exact Hi; intros j Hj Hne; now destruct (Nat.eqb_spec j i)). now rewrite Nat.eqb_refl.
    - rewrite csum_plus, csum_scal_r, <- Cconj_csum, <- ES, csum_const. rewrite Cmult_comm, Cmult_conj. rewrite RtoC_minus. ring. }
  rewrite EQ. rewrite <- RtoC_mult, Cmod_R, Rabs_mult. f_equal. unfold Rdiv. f_equal. rewrite mult_INR, minus_INR by lia. cbn [INR].
  assert (2 <= INR N) by (change 2 with (INR 2); apply le_INR; exact H2).
  apply Rabs_pos_eq. apply Rlt_le, Rinv_0_lt_compat, Rmult_lt_0_compat; lra.
Qed.
Lemma lsum_mod_le l : Cmod (lsum l) <= lrsum (map Cmod l).
Proof. induction l as [|a l IH]; [cbn; rewrite Cmod_0; lra|]. change (lsum (a :: l)) with (a + lsum l)%C. change (lrsum (map Cmod (a :: l))) with (Cmod a + lrsum (map Cmod l)). eapply Rle_trans; [apply Cmod_triangle|]. lra. Qed.
Lemma unit_mod z : z <> z0 -> Cmod (unit_of z) = 1.
Proof. intros H. unfold unit_of. rewrite Cmod_mult, Cmod_R. assert (Cmod z <> 0) by (intros E; apply H, Cmod_eq_0, E). pose proof (Cmod_ge_0 z). rewrite Rabs_pos_eq; [field; assumption|]. apply Rlt_le, Rinv_0_lt_compat. lra. Qed.

(*! C36: the value lies in [0,1], is 1 when all trials agree up to a positive amplitude, does not depend on the order of the trials, and fewer than two trials is an error. *)
Lemma C36_coherence_range_l : forall E : list C, (forall z, In z E -> z <> z0) ->
  ((2 <= length E)%nat -> exists v, coherence_bin E = Ok v /\ 0 <= v <= 1) /\
  ((2 <= length E)%nat -> forall w, w <> z0 -> (forall z, In z E -> exists r, 0 < r /\ z = (RtoC r * w)%C) -> coherence_bin E = Ok 1) /\
  (forall E', Permutation E E' -> coherence_bin E' = coherence_bin E) /\
  ((length E < 2)%nat -> coherence_bin E = Raise NameError).
Proof.
  intros E Hz. split; [|split; [|split]].
  - intros H2. eexists. split; [now apply C36_coherence_value_l|]. change (fun z => (z * RtoC (/ Cmod z))%C) with unit_of. set (N := INR (length E)).
    assert (HN : 2 <= N) by (unfold N; change 2 with (INR 2); apply le_INR; exact H2).
    assert (D : 0 < N * (N - 1)) by (apply Rmult_lt_0_compat; lra).
    assert (B : Cmod (lsum (map unit_of E)) <= N).
    { eapply Rle_trans; [apply lsum_mod_le|]. rewrite map_map. clear - Hz. unfold N. clear N. induction E as [|a E IH]; [cbn; lra|]. change (length (a :: E)) with (S (length E)). rewrite S_INR.
      change (lrsum (map (fun x => Cmod (unit_of x)) (a :: E))) with (Cmod (unit_of a) + lrsum (map (fun x => Cmod (unit_of x)) E)).
      rewrite (unit_mod a) by (apply Hz; now left). specialize (IH ltac:(intros; apply Hz; now right)). lra. }
    rewrite <- Cmod_sqr. pose proof (Cmod_ge_0 (lsum (map unit_of E))) as B0. set (m := Cmod (lsum (map unit_of E))) in *. split.
    + apply Rmult_le_pos; [apply Rabs_pos|]. apply Rlt_le, Rinv_0_lt_compat, D.
    + apply Rmult_le_reg_r with (N * (N - 1)); [exact D|]. unfold Rdiv. rewrite Rmult_assoc, Rinv_l, Rmult_1_r, Rmult_1_l by lra. apply Rabs_le. split; nra.
  - intros H2 w Hw Hr. rewrite C36_coherence_value_l by assumption. change (fun z => (z * RtoC (/ Cmod z))%C) with unit_of. f_equal. set (N := length E) in *.
    assert (HN : 2 <= INR N) by (change 2 with (INR 2); apply le_INR; exact H2).
    assert (ES : lsum (map unit_of E) = (RtoC (INR N) * unit_of w)%C).
    { unfold N. clear - Hw Hr. induction E as [|a E IH]; [cbn; ring|]. change (lsum (map unit_of (a :: E))) with (unit_of a + lsum (map unit_of E))%C. rewrite IH by (intros; apply Hr; now right).
      change (length (a :: E)) with (S (length E)). rewrite S_INR, RtoC_plus. destruct (Hr a ltac:(now left)) as (r & Hr0 & ->).
      replace (unit_of (RtoC r * w)%C) with (unit_of w); [ring|]. unfold unit_of. rewrite Cmod_mult, Cmod_R, Rabs_pos_eq by lra. assert (Cmod w <> 0) by (intros E0; apply Hw, Cmod_eq_0, E0).
      rewrite Rinv_mult, RtoC_mult. transitivity (RtoC r * RtoC (/ r) * (w * RtoC (/ Cmod w)))%C; [|ring]. rewrite <- RtoC_mult, Rinv_r by lra. ring. }
    rewrite ES, Cnorm2_mult, Cnorm2_R. rewrite unit_norm by (intros E0; apply Hw, Cnorm2_eq_0, E0). rewrite Rabs_pos_eq by nra. field. nra.
  - intros E' HP. assert (HL : length E' = length E) by (symmetry; now apply Permutation_length). destruct (Nat.lt_ge_cases (length E) 2) as [H2|H2].
    + unfold coherence_bin. rewrite HL. destruct (Nat.ltb_spec (length E) 2); [reflexivity|lia].
    + rewrite !C36_coherence_value_l; try lia; try assumption; [|intros z Hin; apply Hz; now apply Permutation_in with E'; [apply Permutation_sym|]].
      rewrite HL. now rewrite (lsum_perm _ _ (Permutation_map _ (Permutation_sym HP))).
  - intros H2. unfold coherence_bin. destruct (Nat.ltb_spec (length E) 2); [reflexivity|lia].
Qed.

(*! C36: with exactly two trials the number returned is |cos| of their phase difference, so two trials in perfect antiphase also count as perfectly coherent. *)
Lemma C36_two_trials_l : forall (r1 r2 t1 t2 : R), 0 < r1 -> 0 < r2 ->
  coherence_bin [(RtoC r1 * cis t1)%C; (RtoC r2 * cis t2)%C] = Ok (Rabs (cos (t1 - t2))).
Proof.
  intros r1 r2 t1 t2 H1 H2.
  assert (NZ : forall r t, 0 < r -> (RtoC r * cis t)%C <> z0) by (intros r t Hr; apply Cmult_neq_0; [intros E; apply (f_equal Re) in E; cbn in E; lra|apply cis_nonzero]).
  assert (U : forall r t, 0 < r -> (RtoC r * cis t * RtoC (/ Cmod (RtoC r * cis t)))%C = cis t).
  { intros r t Hr. rewrite Cmod_mult, cis_mod, Cmod_R, Rabs_pos_eq, Rmult_1_r by lra. transitivity (RtoC r * RtoC (/ r) * cis t)%C; [ring|]. rewrite <- RtoC_mult, Rinv_r by lra. ring. }
  rewrite C36_coherence_value_l; [|cbn; lia|intros z [<-|[<-|[]]]; now apply NZ]. cbn [map length]. rewrite !U by assumption. f_equal.
  change (lsum [cis t1; cis t2]) with (cis t1 + (cis t2 + z0))%C.
  assert (E : Cnorm2 (cis t1 + (cis t2 + z0))%C = 2 + 2 * cos (t1 - t2)).
  { rewrite cos_minus. unfold Cnorm2, cis. cbn. pose proof (sin2_cos2 t1). pose proof (sin2_cos2 t2). unfold Rsqr in *. nra. }
  rewrite E. cbn [INR]. replace (2 + 2 * cos (t1 - t2) - (1 + 1)) with (2 * cos (t1 - t2)) by ring. rewrite Rabs_mult, (Rabs_pos_eq 2) by lra. field.
Qed.

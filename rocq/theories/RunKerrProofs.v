(** A fiber whose nonlinear coefficient depends on the position, from set_gamma_function to the columns of propagate (C116). *)
From Coq Require Import String.
From Coq Require Import Reals List ZArith Bool Arith Factorial Lia Lra.
From Coquelicot Require Import Complex.
From Verif Require Import Base CNum NumPy ModelFFT FFTProofs ModelPulse PulseProofs PulseRegridProofs PulseMoreProofs ModelSSFM SSFMLoopProofs SSFMProofs SSFMSymProofs SSFMPropProofs SSFMTrivProofs SSFMRamanProofs SSFMGnlseProofs ModelRun RunProofs.
From Verif Require ModelCrystal ModelFiber FiberProofs FiberLocalProofs CrystalShareProofs.
Import ListNotations.
Local Open Scope R_scope.
Local Open Scope py_scope.
Local Notation z0 := (RtoC 0).
Local Notation fibr := (ModelFiber.heap * ModelFiber.fiber)%type.

Lemma roll_repeat {A} k (x : A) n : roll k (repeat x n) = repeat x n.
Proof.
  apply (list_ext x); [now rewrite roll_length|]. rewrite roll_length, repeat_length. intros i Hi. rewrite roll_nth by (rewrite repeat_length; exact Hi). now rewrite !nth_repeat.
Qed.
Lemma cfftshift_repeat c (x : C) n : cfftshift c (repeat x n) = repeat x n.
Proof. unfold cfftshift, fftshift. destruct (c_pre c); [apply roll_repeat|reflexivity]. Qed.
Lemma map_repeat {A B} (f : A -> B) x n : map f (repeat x n) = repeat (f x) n.
Proof. induction n as [|n IH]; [reflexivity|]. cbn. now rewrite IH. Qed.

(** a fiber state without dispersion and gain *)
Definition flat_fiber (s : fibr) (len center : R) (ga : R -> R) : Prop :=
  ModelFiber.d_format (ModelFiber.self_specs s) = Some "GVD"%string /\ ModelFiber.f_center (snd s) = Some center /\ ModelFiber.f_length (snd s) = Some len /\
  (forall z, fst (ModelFiber.get_gamma z s) = Ok (Some (ga z))) /\ (forall p, fst (ModelFiber.get_gain p s) = Ok (repeat 0 (p_n p))) /\
  ModelFiber.f_dz (snd s) = None /\ exists b, ModelFiber.f_betas (snd s) = Some b /\ forall i, nth i b 0 = 0.
Lemma flat_beta m tw f c b k : (forall i, nth i b 0 = 0) -> beta_bin m tw f c b k = 0.
Proof.
  intros H. unfold beta_bin. cbv zeta. rewrite !(rsum_zero (length b)) by (intros i Hi; rewrite H; unfold Rdiv; ring). unfold Rdiv. ring.
Qed.
Lemma flat_answers polyfit spline s len center ga p m op : flat_fiber s len center ga -> p_ready p = true -> p_n p = (2 * m)%nat -> (1 < m)%nat -> p_tw p <> 0 -> center <> 0 ->
  answers (view polyfit spline s) p op (fun _ => repeat 0 (p_n p)) (repeat 0 (p_n p)).
Proof.
  intros (F1 & F2 & F3 & F5 & F6 & F7 & b & F8 & F9) Hr Hn Hm Ht Hc. split; [|split; [|split]].
  - intros z q L. exists q. split; [|exact L]. destruct (like_fields p q L) as (E1 & E2 & E3 & _ & _ & E6). cbn [view fb_betas]. rewrite <- E1 in Hn. rewrite <- E6 in Hr. rewrite <- E3 in Ht.
    destruct (FiberProofs.C55_gvd_value_l polyfit spline q z m s center b Hr Hn Hm Ht F1 F2 Hc ltac:(rewrite F7; exact F8)) as (B & s' & E & LB & V). rewrite E. cbn [fst]. f_equal. f_equal.
    apply (list_ext 0); [now rewrite repeat_length, LB|]. intros k Hk. rewrite LB in Hk. rewrite V by exact Hk. rewrite nth_repeat. exact (flat_beta m (p_tw q) (p_f q) center b k F9).
  - intros q L. exists q. split; [|exact L]. destruct (like_fields p q L) as (E1 & _). cbn [view fb_gain]. rewrite F6, E1. reflexivity.
  - intros z. apply repeat_length.
  - apply repeat_length.
Qed.
Lemma gain_same (h : ModelFiber.heap) f f' p : ModelFiber.f_specs f' = ModelFiber.f_specs f -> ModelFiber.f_gain f' = ModelFiber.f_gain f -> fst (ModelFiber.get_gain p (h, f')) = fst (ModelFiber.get_gain p (h, f)).
Proof.
  intros E1 E2. destruct f, f'. cbn [ModelFiber.f_specs ModelFiber.f_gain] in E1, E2. subst.
  unfold ModelFiber.get_gain, ModelFiber.key, ModelFiber.attr, bind, gets, ret, raise, ModelFiber.self_specs, ModelFiber.cell. cbn [fst snd ModelFiber.f_specs].
  set (x := nth _ h _). destruct (ModelFiber.d_is_gain x) as [[|]|]; try reflexivity. cbn [fst snd ModelFiber.f_specs]. fold x. destruct (ModelFiber.d_gain_x x) as [[|]|]; try reflexivity. cbn [fst snd ModelFiber.f_gain]. destruct f_gain; reflexivity.
Qed.
Definition gammas (gz : option (R -> R)) (gamma z : R) : R := match gz with Some g => g z | None => gamma end.
Lemma generated_flat (h : ModelFiber.heap) f len center betas gamma units label gz : ModelFiber.f_dz f = None -> ModelFiber.f_gz f = None -> (forall i, nth i betas 0 = 0) ->
  exists st, (ModelFiber.generate_fiber len center betas gamma 0 units label ;;; match gz with Some g => ModelFiber.set_gamma_function g | None => ret tt end) (h, f) = (Ok tt, st) /\ flat_fiber st len center (gammas gz gamma).
Proof.
  intros Zd Zg Zb. destruct (generated_taylor h f len center betas gamma 0 units label Zd Zg) as ([h' f'] & E & (T1 & T2 & T3 & T4 & T5 & T6 & T7) & _).
  assert (B0 : forall i, nth i (if String.eqb units "ps^n/km" then map (fun b => b * 1.0e-3) betas else betas) 0 = 0).
  { intros i. destruct (String.eqb units "ps^n/km"); [|apply Zb]. destruct (Nat.lt_ge_cases i (length betas)) as [Hi|Hi]; [|apply nth_overflow; rewrite map_length; exact Hi]. rewrite (nth_map' _ _ _ 0) by exact Hi. rewrite Zb. ring. }
  assert (D0 : ModelFiber.f_dz f' = None).
  { assert (Q : ModelFiber.f_dz (snd (snd (ModelFiber.generate_fiber len center betas gamma 0 units label (h, f)))) = ModelFiber.f_dz f); [|rewrite E in Q; cbn [snd] in Q; now rewrite Q].
    unfold ModelFiber.generate_fiber, ModelFiber.put_specs, ModelFiber.on_fiber, modify, bind, gets, ret. cbn [fst snd ModelFiber.cell ModelFiber.f_specs ModelFiber.set_specs ModelFiber.set_type ModelFiber.set_gain]. destruct (String.eqb units "ps^n/km"); reflexivity. }
  cbn [snd] in T2, T3, T4, T7. unfold bind. rewrite E. destruct gz as [g|].
  - eexists. split; [reflexivity|]. unfold flat_fiber, gammas. cbn [snd]. split; [exact T1|]. split; [exact T2|]. split; [exact T3|]. split; [reflexivity|].
    split; [intros p; rewrite <- (T6 p); clear; exact (gain_same h' f' (ModelFiber.set_gz g f') p eq_refl eq_refl)|]. split; [exact D0|].
    eexists. split; [|exact B0]. specialize (T7 0). rewrite D0 in T7. exact T7.
  - eexists. split; [reflexivity|]. split; [exact T1|]. split; [exact T2|]. split; [exact T3|]. split; [exact T5|]. split; [exact T6|]. split; [exact D0|]. eexists. split; [|exact B0]. specialize (T7 0). cbn [snd] in T7. rewrite D0 in T7. exact T7.
Qed.

(*! C116: a fiber without dispersion and gain whose nonlinear coefficient is a constant gamma or a function of the position (set_gamma_function), a pulse on an even grid and the split-step method without Raman response and self-steepening: propagate returns, and
    sample k of AT column i is the input sample A_k times exp(i |A_k|^2 sum_j d_j gamma(z_j)), z_j = j L/N with reloading and 0 without; d_j is L/N unless a residue below 2e-12 m was left before the last step of slice j (C28); pulse_out is the last column. *)
Lemma C116_kerr_fiber_l : forall (polyfit : list R -> list R -> nat -> result (list R)) (spline : list R -> list R -> list R -> result (list R)) (h : ModelFiber.heap) (f : ModelFiber.fiber) (len center : R) (betas : list R) (gamma : R) (gz : option (R -> R)) (units label : string)
  (c : cfg) (N : nat) (op : option R) (reload : bool) (s : ssfm) (p : pulse) (a : list C) (m : nat),
  ModelFiber.f_dz f = None -> ModelFiber.f_gz f = None -> (forall b, In b betas -> b = 0) -> center <> 0 -> 0 < len ->
  holds p a -> p_n p = (2 * m)%nat -> (1 < m)%nat -> p_tw p <> 0 -> p_f p <> 0 -> (0 < N)%nat -> 0 < s_dz s ->
  c_method c = METHOD_SSFM -> c_noSS c = true -> c_noRaman c = true -> (2 <= c_eta c)%nat -> 0 < c_err c ->
  exists st, (ModelFiber.generate_fiber len center betas gamma 0 units label ;;; match gz with Some g => ModelFiber.set_gamma_function g | None => ret tt end) (h, f) = (Ok tt, st) /\
  (exists fuel r q, propagate c fuel (view polyfit spline st) N op reload s p = (Ok (Some r), q)) /\
  forall fuel z AW AT po s' q, propagate c fuel (view polyfit spline st) N op reload s p = (Ok (Some (z, AW, AT, po, s')), q) ->
    get_AT po = (Ok (last AT []), po) /\
    exists d : nat -> R, (forall j, (j < N)%nat -> len / INR N <= d j /\ (d j = len / INR N \/ exists last, 0 < len / INR N - (d j - last) <= 2 * / 10 ^ 12)) /\
    forall i k, (i < N)%nat -> (k < p_n p)%nat -> let A := nth k (IFFT_t a) z0 in
      nth k (nth i AT []) z0 =
      (A * cis (Cmod A ^ 2 * rsum (S i) (fun j => d j * match gz with Some g => g (if reload then INR j * len / INR N else 0) | None => gamma end))%R)%C.
Proof.
  intros polyfit spline h f len center betas gamma gz units label c N op reload s p a m Zd Zg Zb Hc HL Hh Hn Hm Ht Hf HN Hd Hme HS HRn He Her.
  assert (Zb' : forall i, nth i betas 0 = 0). { intros i. destruct (Nat.lt_ge_cases i (length betas)) as [Hi|Hi]; [apply Zb, nth_In, Hi|apply nth_overflow, Hi]. }
  destruct (generated_flat h f len center betas gamma units label gz Zd Zg Zb') as (st & E & T). exists st. split; [exact E|].
  pose proof Hh as (Hr & Ha & Hl). assert (EL : fb_len (view polyfit spline st) = len) by (destruct T as (_ & _ & E3 & _); cbn [view fb_len]; now rewrite E3).
  assert (HR : fst (calc_raman c (s_fR s) p) = Ok (repeat (RtoC 1) (p_n p), s_fR s)) by (unfold calc_raman, get_NPTS, bind, gets, ret; rewrite HRn; reflexivity).
  assert (Hs : setting c (view polyfit spline st) N op s p a (fun _ => repeat 0 (p_n p)) (repeat 0 (p_n p)) (repeat (RtoC 1) (p_n p)) (s_fR s)).
  { split; [exact Hh|]. split; [lia|]. split; [exact Hf|]. split; [exact (flat_answers polyfit spline st len center _ p m op T Hr Hn Hm Ht Hc)|]. split; [exact HR|]. split; [exact HN|]. rewrite EL. split; assumption. }
  split; [destruct (C33_propagate_returns_l c _ N op reload s p _ _ _ _ _ Hs) as (fuel & z & AW & AT & po & s' & q & H); exists fuel; eexists; exists q; exact H|].
  intros fuel z AW AT po s' q H. assert (Ev : Nat.even (p_n p) = true) by (rewrite Hn, Nat.even_mul; reflexivity).
  assert (Hst : straight c (p_n p)) by (right; exact Ev).
  pose proof (C33_output_is_last_column_partial_l _ _ _ _ _ _ _ _ _ _ _ _ _ _ _ _ _ _ _ Hs Hst H) as HO.
  destruct (C33_propagate_bookkeeping_l _ _ _ _ _ _ _ _ _ _ _ _ _ _ _ _ _ _ _ Hs H) as (_ & Z & LAT & LAW & WF & _).
  destruct (chain_states _ _ _ _ _ _ _ _ _ _ _ _ _ _ _ _ _ _ _ Hs Hst H) as (w & S0 & S1). rewrite EL in Z, S1.
  split; [exact (proj2 HO)|].
  assert (Hdz : 0 < len / INR N) by (apply Rdiv_lt_0_compat; [exact HL|apply lt_0_INR; lia]).
  set (n := p_n p) in *. set (zz := fun j => if reload then nth j z 0 else 0). set (X := fun j => cifftshift c (s_A (w j))).
  assert (TT : forall j, (j < N)%nat -> exists dj, (len / INR N <= dj /\ (dj = len / INR N \/ exists last, 0 < len / INR N - (dj - last) <= 2 * / 10 ^ 12)) /\
     nth j AT [] = X (S j) /\ length (s_A (w j)) = n /\ s_A (w (S j)) = mk n (fun k => nth k (s_A (w j)) z0 * cis (dj * (gammas gz gamma (zz j) * Cnorm2 (nth k (s_A (w j)) z0)))%R)%C).
  { intros j Hj. destruct (S1 j Hj) as (u & W & Du & UA & UB & UC & UG & UR & Eu & EAW). fold (zz j) in UB, UG.
    assert (GG : s_gamma u = gammas gz gamma (zz j)). { rewrite UG. cbn [view fb_get_gamma]. destruct T as (_ & _ & _ & T5 & _). now rewrite T5. }
    rewrite map_repeat, cfftshift_repeat in UB, UC. rewrite cfftshift_repeat in UR. rewrite Ropp_0 in UC.
    unfold integrate_over_dz in Eu. destruct (integrate_trace c fuel (len / INR N) 1 u) as [r|] eqn:ER; [|discriminate]. assert (E' : with_dz (final_dz r) (l_st r) = w (S j)) by congruence.
    destruct (C73_split_step_spm_exact_l c n fuel _ 1 u r Hme HS He Her W UB UC UR Hdz Du ER) as (_ & V).
    exists (lrsum (l_steps r)). destruct (first_dz_pos (len / INR N) (s_dz u) Hdz Du) as [P1 P2]. split; [|split; [|split]].
    - destruct (loop_cov c (attempt c 1) (len / INR N) fuel _ _ r P1 P2 ER) as (C1 & C2 & C3 & C4). split; [lra|]. destruct C4 as [C4|(lst & ear & C4 & C5)]; [left; lra|right]. exists lst.
      rewrite C4. cbn [lrsum fold_right]. fold (lrsum ear). unfold dz_min in C5. replace (lst + lrsum ear - lst) with (lrsum ear) by ring. lra.
    - destruct (WF j Hj) as (_ & Q). rewrite EAW, AW_col in Q. apply (f_equal IFFT_t) in Q. rewrite !IFFT_FFT_t in Q. unfold X. now rewrite Q.
    - rewrite <- UA. apply W.
    - rewrite <- E'. cbn [with_dz s_A]. assert (Lr : length (s_A (l_st r)) = n).
      { assert (II : integrate_over_dz c fuel (len / INR N) 1 u = Some (with_dz (final_dz r) (l_st r))) by (unfold integrate_over_dz; rewrite ER; reflexivity).
        destruct (integrate_over_len c n fuel _ _ _ W Hdz Du II) as ((J & _) & _). exact J. }
      apply (vec_extn n); [exact Lr|apply mk_length|]. intros k Hk. rewrite mk_nth by exact Hk. rewrite V by exact Hk. rewrite UA, GG, Rmult_1_l. reflexivity. }
  destruct (fin_choice _ _ TT) as (d & Td). exists d. split; [intros j Hj; now apply Td|].
  assert (L0 : length (IFFT_t a) = n) by (rewrite IFFT_t_length; exact Hl).
  assert (IND : forall i, (i <= N)%nat -> s_A (w i) = cfftshift c (mk n (fun k => nth k (IFFT_t a) z0 * cis (Cmod (nth k (IFFT_t a) z0) ^ 2 * rsum i (fun j => d j * gammas gz gamma (zz j)))%R))%C).
  { assert (SH : forall (g : C -> C), cfftshift c (mk n (fun k => g (nth k (IFFT_t a) z0))) = mk n (fun k => g (nth k (cfftshift c (IFFT_t a)) z0))).
    { intros g. assert (MM : forall l : list C, length l = n -> mk n (fun k => g (nth k l z0)) = map g l). { intros l Ll. apply (vec_extn n); [apply mk_length|now rewrite map_length|]. intros i Hi. rewrite mk_nth by exact Hi. rewrite (nth_map' _ _ _ z0) by congruence. reflexivity. }
      rewrite (MM _ L0), (MM (cfftshift c (IFFT_t a))) by now rewrite cfftshift_length. unfold cfftshift. destruct (c_pre c); [symmetry; apply fftshift_map|reflexivity]. }
    assert (LW : length (cfftshift c (IFFT_t a)) = n) by now rewrite cfftshift_length.
    induction i as [|i IH]; intros Hi.
    - rewrite S0, (SH (fun x => x * cis (Cmod x ^ 2 * rsum 0 (fun j => d j * gammas gz gamma (zz j)))%R)%C). apply (vec_extn n); [exact LW|apply mk_length|]. intros k Hk. rewrite mk_nth by exact Hk. change (rsum 0 _) with 0. rewrite Rmult_0_r, cis_0. ring.
    - destruct (Td i ltac:(lia)) as (_ & _ & _ & ->). rewrite IH by lia. rewrite (SH (fun x => x * cis (Cmod x ^ 2 * rsum i (fun j => d j * gammas gz gamma (zz j)))%R)%C), (SH (fun x => x * cis (Cmod x ^ 2 * rsum (S i) (fun j => d j * gammas gz gamma (zz j)))%R)%C).
      apply mk_ext. intros k Hk. rewrite mk_nth by exact Hk. rewrite Cnorm2_mult, cis_norm2, Rmult_1_r, <- Cmult_assoc, <- cis_add. f_equal. f_equal. rewrite rsum_S. rewrite <- Cmod_sqr. ring. }
  intros i k Hi Hk. cbv zeta. destruct (Td i Hi) as (_ & -> & _ & _). unfold X. rewrite IND by lia. unfold cifftshift, cfftshift.
  assert (FF : forall x : list C, (if c_pre c then ifftshift (if c_pre c then fftshift x else x) else (if c_pre c then fftshift x else x)) = x) by (intros x; destruct (c_pre c); [apply ifftshift_fftshift|reflexivity]).
  rewrite FF, mk_nth by exact Hk. f_equal. f_equal. f_equal. apply rsum_ext. intros j Hj. f_equal. unfold gammas. destruct gz as [g|]; [|reflexivity]. f_equal. unfold zz. destruct reload; [|reflexivity]. apply Z. lia.
Qed.

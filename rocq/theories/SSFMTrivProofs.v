(** SSFM.propagate through a medium that does nothing, and the odd-grid defect (C33). *)
From Coq Require Import Reals List ZArith Bool Arith Lia Lra.
From Coquelicot Require Import Complex.
From Verif Require Import Base CNum NumPy ModelFFT FFTProofs ModelPulse PulseProofs PulseOpsProofs PulseRegridProofs ModelSSFM SSFMLoopProofs SSFMProofs SSFMSymProofs SSFMPropProofs.
Import ListNotations.
Local Open Scope R_scope.
Local Open Scope py_scope.
Local Notation z0 := (RtoC 0).

(** a fiber of length [L] without dispersion, gain or nonlinearity, answering for [n] grid points *)
Definition empty_fiber (L : R) (n : nat) : fiber := mkFiber L (fun _ => ret (repeat 0 n)) (fun _ => ret (repeat 0 n)) 0 (fun _ => 0).
Lemma empty_answers L p op : answers (empty_fiber L (p_n p)) p op (fun _ => repeat 0 (p_n p)) (repeat 0 (p_n p)).
Proof.
  split; [intros z q Hq; exists q; split; [reflexivity|exact Hq]|]. split; [intros q Hq; exists q; split; [reflexivity|exact Hq]|]. split; [intros; apply repeat_length|apply repeat_length].
Qed.
Lemma empty_setting c L N op s p a : c_noRaman c = true -> holds p a -> (0 < p_n p)%nat -> p_f p <> 0 -> (0 < N)%nat -> 0 < L -> 0 < s_dz s ->
  setting c (empty_fiber L (p_n p)) N op s p a (fun _ => repeat 0 (p_n p)) (repeat 0 (p_n p)) (repeat (RtoC 1) (p_n p)) (s_fR s).
Proof.
  intros Hr Hh Hn Hf HN HL Hd. split; [exact Hh|]. split; [exact Hn|]. split; [exact Hf|]. split; [apply empty_answers|]. split; [|auto].
  unfold calc_raman, bind, get_NPTS, gets. rewrite Hr. reflexivity.
Qed.
Lemma cfftshift_repeat c (x : C) n : cfftshift c (repeat x n) = repeat x n.
Proof.
  unfold cfftshift. destruct (c_pre c); [|reflexivity]. apply (nth_ext _ _ x x); [now rewrite fftshift_length|]. intros k Hk. rewrite fftshift_length in Hk.
  unfold fftshift. rewrite roll_nth by exact Hk. now rewrite !nth_repeat.
Qed.
Lemma map_repeat {A B} (f : A -> B) x n : map f (repeat x n) = repeat (f x) n.
Proof. induction n as [|n IH]; cbn; congruence. Qed.
Lemma cifft_cfft c x : cifftshift c (cfftshift c x) = x.
Proof. unfold cifftshift, cfftshift. destruct (c_pre c); [apply ifftshift_fftshift|reflexivity]. Qed.

Lemma empty_run c L reload op s p a : c_noRaman c = true -> (2 <= c_eta c)%nat -> 0 < c_err c -> holds p a -> (0 < p_n p)%nat -> p_f p <> 0 -> 0 < L <= 2 * s_dz s ->
  exists po s' q, propagate c 1 (empty_fiber L (p_n p)) 1 op reload s p = (Ok (Some ([0; L], [a], [IFFT_t a], po, s')), q).
Proof.
  intros Hr He Herr Hh Hn Hf HL. assert (Hd : 0 < s_dz s) by lra.
  destruct (empty_setting c L 1 op s p a Hr Hh Hn Hf ltac:(lia) ltac:(lra) Hd) as (_ & _ & _ & An & HR & _).
  destruct (propagate_run c 1 (empty_fiber L (p_n p)) 1 op reload s p a _ _ _ _ Hh Hn An HR Hf ltac:(lia) ltac:(cbn; lra) Hd) as (q & _ & R).
  cbn [fb_len empty_fiber] in R. replace (step_of L 1) with L in R by (unfold step_of; cbn [INR]; field).
  set (s1 := start c (empty_fiber L (p_n p)) p (repeat 0 (p_n p)) (repeat 0 (p_n p)) a (repeat (RtoC 1) (p_n p)) (s_fR s) s) in *.
  assert (W1 : wf (p_n p) s1) by (apply (start_wf c (empty_fiber L (p_n p)) p op (fun _ => repeat 0 (p_n p)) (repeat 0 (p_n p)) a (repeat (RtoC 1) (p_n p)) (s_fR s) s); assumption).
  assert (E0 : reloaded c (empty_fiber L (p_n p)) (fun _ => repeat 0 (p_n p)) reload L 0 s1 = s1) by (unfold reloaded; destruct reload; reflexivity).
  assert (G1 : s_gamma s1 = 0) by reflexivity.
  destruct (one_step c (p_n p) 1 L s1 He Herr W1 G1 ltac:(lra) ltac:(unfold s1; cbn [start s_dz]; lra)) as (r & E1 & E2).
  destruct (after_linear c (p_n p) 1 L 1 s1 r W1 G1 He ltac:(lra) Hd E1) as (W2 & _ & _ & _ & EA).
  assert (EA2 : s_A (with_dz (final_dz r) (l_st r)) = cfftshift c (IFFT_t a)).
  { rewrite EA. pose proof W1 as (LA1 & LB1 & LC1 & _). assert (P0 : forall d, P s1 d = P s1 0).
    { intros d. apply (nth_ext _ _ z0 z0); [now rewrite !(P_length (p_n p))|]. intros k Hk. rewrite (P_length (p_n p)) in Hk by exact W1. rewrite !(P_nth (p_n p)) by assumption. f_equal.
      unfold s1, start. cbn [s_betas s_alpha]. rewrite !map_repeat, Ropp_0, !cfftshift_repeat, !nth_repeat. unfold Cdiv. ring. }
    rewrite P0. rewrite (diag_P0 c (p_n p) s1) by (try exact W1; exact LA1). reflexivity. }
  cbn [cols] in R. rewrite E0 in R. unfold integrate_over_dz in R. rewrite E1 in R. rewrite EA2 in R. rewrite cifft_cfft in R.
  destruct R as (_ & _ & po & _ & _ & R). exists po. eexists _, q. rewrite R. cbn [map]. rewrite FFT_IFFT_t. unfold linspace. cbn [Nat.add]. unfold mk. cbn [seq map Nat.sub INR]. repeat f_equal; field.
Qed.

(*! C33 (refuted on odd grids): there is a 3-point pulse which, sent through a fiber that does nothing, comes out of propagate with pulse_out.AT different from the last AT column (and so from the input), the internal shift being on. *)
Lemma C33_odd_grid_refuted_l : exists (c : cfg) (fuel : nat) (fb : fiber) (N : nat) (op : option R) (reload : bool) (s : ssfm) (p : pulse) (x : list C) (z : list R) (AW AT : list (list C)) (po : pulse) (s' : ssfm) (q : pulse),
  (forall zz, fb_betas fb zz p = (Ok [0; 0; 0], p) /\ fb_get_gamma fb zz = 0) /\ fb_gain fb op p = (Ok [0; 0; 0], p) /\ get_AT p = (Ok x, p) /\
  propagate c fuel fb N op reload s p = (Ok (Some (z, AW, AT, po, s')), q) /\ last AT [] = x /\ ~ get_AT po = (Ok x, po).
Proof.
  set (c := mkCfg 1 METHOD_RK4IP 2 true true true 1 1 true).
  set (x := [RtoC 1; RtoC 0; RtoC 0]).
  set (p := mkPulse 3 1 1 (Some (FFT_t x)) None true None None None None).
  set (s := mkS [] 1 0 None 1 [] [] [] 0 1 [] [] 0).
  assert (Hh : holds p (FFT_t x)) by (split; [reflexivity|]; split; [reflexivity|]; now rewrite FFT_t_length).
  destruct (empty_run c 1 false None s p (FFT_t x)) as (po & s' & q & R); try reflexivity; try assumption; try (cbn; lra); try (cbn; lia).
  exists c, 1%nat, (empty_fiber 1 3), 1%nat, None, false, s, p, x, [0; 1], [FFT_t x], [IFFT_t (FFT_t x)], po, s', q.
  split; [intros zz; split; reflexivity|]. split; [reflexivity|]. split; [rewrite (get_AT_run p (FFT_t x)) by reflexivity; now rewrite IFFT_FFT_t|]. split; [exact R|]. split; [cbn [last]; apply IFFT_FFT_t|].
  pose proof (C33_odd_grid_rolls_output_l c 1 (empty_fiber 1 3) 1 None false s p (FFT_t x) _ _ _ _ _ _ _ _ _ _
    (empty_setting c 1 1 None s p (FFT_t x) eq_refl Hh ltac:(cbn; lia) ltac:(cbn; lra) ltac:(lia) ltac:(lra) ltac:(cbn; lra)) eq_refl eq_refl R) as E.
  rewrite E. cbn [last]. rewrite IFFT_FFT_t. intros H. apply (f_equal fst), Ok_inj in H. unfold x in H. vm_compute roll in H.
  apply (f_equal (fun l => Re (nth 0 l z0))) in H. cbn in H. lra.
Qed.

(** ** propagate always finishes *)
Lemma loop_mono {S} c (att : R -> S -> option R * S * S) : forall fuel fuel' dist dz ret steps s r, (fuel <= fuel')%nat ->
  loop c att fuel dist dz ret steps s = Some r -> loop c att fuel' dist dz ret steps s = Some r.
Proof.
  induction fuel as [|f IH]; intros fuel' dist dz ret steps s r Hf H.
  - cbn [loop] in H. destruct (Rlt_dec 0 dist) eqn:E; [discriminate|]. destruct fuel'; cbn [loop]; now rewrite E.
  - destruct fuel' as [|f']; [lia|]. cbn [loop] in *. destruct (Rlt_dec 0 dist); [|exact H]. destruct (att dz s) as [[d a] b]. destruct (step_ctl c dz d) as [k dz1].
    destruct k; [|apply IH; [lia|exact H]]. destruct (Rlt_dec (dist - 2 * dz) (2 * dz1)); [destruct (Rlt_dec (2 * dz_min) (dist - 2 * dz))|]; (apply IH; [lia|exact H]).
Qed.

Lemma cols_mono c load dz fuel fuel' : (fuel <= fuel')%nat -> forall k i s r, cols c fuel load dz i k s = Some r -> cols c fuel' load dz i k s = Some r.
Proof.
  intros Hf. induction k as [|k IH]; intros i s r H; [exact H|]. cbn [cols] in *. unfold integrate_over_dz, integrate_trace in *.
  destruct (loop c (attempt c 1) fuel dz _ None [] _) as [l|] eqn:E; [|discriminate]. rewrite (loop_mono c (attempt c 1) fuel fuel' _ _ _ _ _ _ Hf E).
  destruct (cols c fuel load dz (i + 1) k _) as [[x y]|] eqn:E1; [|discriminate]. rewrite (IH _ _ _ E1). exact H.
Qed.
Lemma cols_returns c fb p b reload dz : (forall z, length (b z) = p_n p) -> 0 < dz -> forall k i s, wf (p_n p) s -> 0 < s_dz s ->
  exists fuel r, cols c fuel (reloaded c fb b reload dz) dz i k s = Some r.
Proof.
  intros Hb Hdz. induction k as [|k IH]; intros i s W D; [exists 0%nat; eexists; reflexivity|].
  assert (W1 : wf (p_n p) (reloaded c fb b reload dz i s) /\ 0 < s_dz (reloaded c fb b reload dz i s)).
  { unfold reloaded. destruct reload; [|auto]. split; [|exact D]. destruct W as (J1 & J2 & J3 & J4 & J5). repeat split; try assumption. cbn [with_fiber s_betas]. now rewrite cfftshift_length, map_length, Hb. }
  destruct W1 as (W1 & D1). destruct (C28_terminates_and_covers_partial_l c dz 1 _ Hdz D1) as (f1 & r1 & E1 & _).
  assert (E2 : integrate_over_dz c f1 dz 1 (reloaded c fb b reload dz i s) = Some (with_dz (final_dz r1) (l_st r1))) by (unfold integrate_over_dz; now rewrite E1).
  destruct (integrate_over_len c (p_n p) f1 dz _ _ W1 Hdz D1 E2) as ((J1 & J2 & J3 & J4 & J5) & _ & D2 & _).
  set (s2 := with_dz (final_dz r1) (l_st r1)) in *.
  destruct (IH (i + 1)%nat (with_A (cifftshift c (cifftshift c (s_A s2))) s2)) as (f2 & [l sf] & E3).
  { repeat split; try assumption. cbn [with_A s_A]. now rewrite !cifftshift_length. }
  { exact D2. }
  exists (Nat.max f1 f2), (cifftshift c (s_A s2) :: l, sf). cbn [cols]. unfold integrate_over_dz in *. unfold integrate_trace in *. rewrite (loop_mono c (attempt c 1) f1 (Nat.max f1 f2) _ _ _ _ _ r1 ltac:(lia) E1). 
  fold s2. rewrite (cols_mono c _ dz f2 (Nat.max f1 f2) ltac:(lia) _ _ _ _ E3). reflexivity.
Qed.

(*! C33: for every medium, nonlinear or not, every grid and every number of steps, propagate finishes and returns a result (given enough loop iterations). *)
Lemma C33_propagate_returns_l : forall (c : cfg) (fb : fiber) (N : nat) (op : option R) (reload : bool) (s : ssfm) (p : pulse) (a : list C) (b : R -> list R) (g : list R) (Rw : list C) (F : R),
  setting c fb N op s p a b g Rw F -> exists fuel z AW AT po s' q, propagate c fuel fb N op reload s p = (Ok (Some (z, AW, AT, po, s')), q).
Proof.
  intros c fb N op reload s p a b g Rw F (Hh & Hn & Hf & An & HR & HN & HL & Hd).
  assert (Hdz : 0 < step_of (fb_len fb) N) by (unfold step_of; apply Rdiv_lt_0_compat; [exact HL|apply lt_0_INR; lia]).
  assert (Hb : forall z, length (b z) = p_n p) by apply An.
  destruct (cols_returns c fb p b reload _ Hb Hdz N 0%nat (start c fb p (b 0) g a Rw F s)) as (fuel & [l sf] & E).
  { apply (start_wf c fb p op b g a Rw F s); assumption. }
  { exact Hd. }
  destruct (propagate_run c fuel fb N op reload s p a b g Rw F Hh Hn An HR Hf HN HL Hd) as (q & _ & R). rewrite E in R. destruct R as (_ & _ & po & _ & _ & R).
  exists fuel. rewrite R. eexists _, _, _, _, _, _. reflexivity.
Qed.

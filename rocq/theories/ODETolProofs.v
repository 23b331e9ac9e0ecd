(** An accepted step meets the tolerances, and the step proposed next is
    the accepted one times a fixed function of its error (C77). *)
From Coq Require Import Reals List ZArith Bool Arith Lia Lra.
From Coquelicot Require Import Complex.
From Verif Require Import Base CNum NumPy ModelDopr ModelODE ODEStepProofs.
Import ListNotations.
Local Open Scope R_scope.
Local Open Scope py_scope.
Local Notation z0 := (RtoC 0).

(** the factor for an error e <= 1 without an earlier rejection *)
Definition grow (e : R) : R := if Req_EM_T e 0 then 6 else Rmin 6 (0.9 * Rpower e (- (1 / 8))).
Transparent success.
Lemma success_true err h c h' c' : success err (Some h) c = (Ok (true, h'), c') ->
  h' = Some h /\ exists e, err = Fin e /\ 0 <= e <= 1 /\ c_hnext c' = h * (if c_reject c then Rmin (grow e) 1 else grow e).
Proof.
  unfold success. destruct err as [e| |]; [|intros H; apply (f_equal fst) in H; cbn in H; congruence|intros H; apply (f_equal fst) in H; cbn in H; congruence].
  destruct (Rle_dec e 1) as [L|L]; [|intros H; apply (f_equal fst) in H; cbn in H; congruence]. destruct (Rlt_dec e 0) as [Z|Z]; [intros H; apply (f_equal fst) in H; cbn in H; congruence|].
  unfold bind, modify, ret. intros H. pose proof (f_equal fst H) as H1. pose proof (f_equal snd H) as H2. cbn [fst snd] in H1, H2. split; [congruence|]. exists e. split; [reflexivity|]. split; [lra|]. rewrite <- H2. cbn [c_hnext].
  assert (G : (if Req_EM_T e 0 then 6 else let s := 0.9 * Rpower e (- (1 / 8)) * 1 in let s0 := if Rlt_dec s 0.333 then 0.333 else s in if Rlt_dec 6 s0 then 6 else s0) = grow e).
  { clear H H1 H2. unfold grow. destruct (Req_EM_T e 0) as [|Ne]; [reflexivity|]. cbv zeta. rewrite Rmult_1_r. pose proof (pow_big e ltac:(lra)) as P. destruct (Rlt_dec _ 0.333); [lra|]. unfold Rmin. destruct (Rlt_dec 6 _); destruct (Rle_dec 6 _); try lra; reflexivity. }
  cbv zeta in G. rewrite G. destruct (c_reject c); reflexivity.
Qed.
Lemma success_false err h c h' c' : success err (Some h) c = (Ok (false, Some h'), c') -> c_reject c' = true /\ Rabs h' <= 0.9 * Rabs h.
Proof.
  unfold success. destruct err as [e| |].
  - destruct (Rle_dec e 1) as [L|L].
    + destruct (Rlt_dec e 0); intros H; apply (f_equal fst) in H; cbn in H; congruence.
    + unfold bind, modify, ret. intros H. pose proof (f_equal fst H) as H1. pose proof (f_equal snd H) as H2. cbn [fst snd] in H1, H2. split; [now rewrite <- H2|]. assert (E : h' = h * Rmax (0.9 * Rpower e (- (1 / 8))) 0.333) by congruence. rewrite E, Rabs_mult.
      assert (B : 0 <= Rmax (0.9 * Rpower e (- (1 / 8))) 0.333 <= 0.9).
      { pose proof (Rmax_r (0.9 * Rpower e (- (1 / 8))) 0.333). split; [lra|]. apply Rmax_lub; [|lra]. assert (Rpower e (- (1 / 8)) <= 1); [|lra]. rewrite Rpower_Ropp. apply Rle_trans with (/ 1); [|lra]. apply Rinv_le_contravar; [lra|]. apply Rle_trans with (Rpower e 0); [rewrite Rpower_O by lra; lra|apply Rle_Rpower; lra]. }
      rewrite (Rabs_pos_eq (Rmax _ _)) by lra. pose proof (Rabs_pos h). nra.
  - unfold bind, modify, ret. intros H. pose proof (f_equal fst H) as H1. pose proof (f_equal snd H) as H2. cbn [fst snd] in H1, H2. split; [now rewrite <- H2|]. assert (E : h' = h * 0.333) by congruence. rewrite E, Rabs_mult, (Rabs_pos_eq 0.333) by lra. pose proof (Rabs_pos h). nra.
  - intros H. apply (f_equal fst) in H. cbn in H. congruence.
Qed.
Opaque success.
Section Tol.
  Context {W : Type}.
  Variable f : R -> list C -> M W (list C).
  Lemma attempts_tol fuel : forall h (g : G W) h' g', attempts f fuel (Some h) g = (Ok h', g') ->
    same_step (g_s g) (g_s g') /\ exists e rej, error (g_s g') h' = Fin e /\ 0 <= e <= 1 /\ c_hnext (g_con g') = h' * (if rej : bool then Rmin (grow e) 1 else grow e) /\
    ((h' = h /\ rej = c_reject (g_con g)) \/ (Rabs h' <= 0.9 * Rabs h /\ rej = true)).
  Proof.
    induction fuel as [|fuel IH]; intros h g h' g' E; [discriminate|]. cbn [attempts] in E. unfold bind at 1 in E. pose proof (keeps_dy f h g) as Kd. destruct (dy f h g) as [[[]|e] g1] eqn:Ed; [|discriminate]. cbn [snd] in Kd.
    unfold bind at 1, gets at 1 in E. unfold bind at 1, oncon in E. destruct (success (error (g_s g1) h) (Some h) (g_con g1)) as [[[[|] h1]|e] c1] eqn:Es; [| |discriminate].
    - destruct (success_true _ _ _ _ _ Es) as (-> & e & Ee & He & Hn). unfold ret in E. pose proof (f_equal fst E) as E1. pose proof (f_equal snd E) as Eg. cbn [fst snd] in E1, Eg. assert (h = h') by congruence. subst h' g'. cbn [g_s g_con].
      split; [apply Kd|]. exists e, (c_reject (g_con g1)). split; [exact Ee|]. split; [exact He|]. split; [exact Hn|]. left. split; [reflexivity|]. destruct Kd as (-> & _). reflexivity.
    - destruct h1 as [h1|].
      + destruct (success_false _ _ _ _ _ Es) as (Rj & Hd). destruct (Rle_dec _ _) in E; [discriminate|]. destruct (IH _ _ _ _ E) as (S0 & e & rej & Ee & He & Hn & Hc). cbn [g_s g_con] in *. split; [eapply same_trans; [apply Kd|exact S0]|].
        exists e, rej. split; [exact Ee|]. split; [exact He|]. split; [exact Hn|]. right. pose proof (Rabs_pos h1). pose proof (Rabs_pos h). destruct Hc as [(-> & ->)|(Hc & ->)]; (split; [lra|]); [exact Rj|reflexivity].
      + destruct (attempts_none f fuel {| g_w := g_w g1; g_con := c1; g_s := g_s g1; g_out := g_out g1; g_ode := g_ode g1 |}) as (e & Ea & _). rewrite Ea in E. discriminate.
  Qed.
  (** prepare_dense leaves the estimates and the new state alone *)
  Definition kerr {A} (m : M (G W) A) : Prop := forall g, let s := g_s g in let s' := g_s (snd (m g)) in p_yout s' = p_yout s /\ p_yerr s' = p_yerr s /\ p_yerr2 s' = p_yerr2 s.
  Lemma kerr_bind {A B} (m : M (G W) A) (k : A -> M (G W) B) : kerr m -> (forall a, kerr (k a)) -> kerr (bind m k).
  Proof.
    intros Hm Hk g. unfold bind. specialize (Hm g). destruct (m g) as [[a|e] g1]; cbn [snd] in *; [|exact Hm]. specialize (Hk a g1). cbv zeta in *. intuition congruence.
  Qed.
  Lemma prepare_err h dn : kerr (prepare_dense f h dn).
  Proof.
    unfold prepare_dense. apply kerr_bind; [intros g; repeat split|]. intros s. cbv zeta. destruct (p_k s).
    do 3 (apply kerr_bind; [intros g; cbv zeta; rewrite deriv_s; repeat split|intros ?]). intros g. repeat split.
  Qed.
End Tol.

(*! C77: every returning step meets the tolerances.  With sk_i = atol + rtol*max(|y_i|, |y'_i|) (y before, y' after the step), E1 and E2 the sums of the squares of the two scaled estimates and h the step taken, no sk_i is 0, E1 + 0.01*E2 > 0, and the error |h|*E1/sqrt(n*(E1 + 0.01*E2)) is at most 1.  The next step proposed is h times min(6, 0.9*error^(-1/8)) (6 for error 0), and that factor is cut to at most 1 when an attempt was rejected just before. *)
Lemma C77_tolerance_met_l : forall (W : Type) (f : R -> list C -> M W (list C)) (fuel : nat) (htry : R) (g g' : G W),
  step f fuel htry g = (Ok tt, g') ->
  let s := g_s g in let s' := g_s g' in let n := length (p_y s) in let h := p_hdid s' in
  let sk i := p_atol s + p_rtol s * Rmax (Cmod (nth i (p_y s) z0)) (Cmod (nth i (p_y s') z0)) in
  let E1 := rsum n (fun i => (Cmod (nth i (p_yerr2 s') z0) / sk i) ^ 2) in let E2 := rsum n (fun i => (Cmod (nth i (p_yerr s') z0) / sk i) ^ 2) in
  (forall i, (i < n)%nat -> sk i <> 0) /\ 0 < INR n * (E1 + 0.01 * E2) /\
  let e := Rabs h * E1 / sqrt (INR n * (E1 + 0.01 * E2)) in
  let k := if Req_EM_T e 0 then 6 else Rmin 6 (0.9 * Rpower e (- (1 / 8))) in
  0 <= e <= 1 /\ (h = htry /\ p_hnext s' = h * (if c_reject (g_con g) then Rmin k 1 else k) \/ Rabs h <= 0.9 * Rabs htry /\ p_hnext s' = h * Rmin k 1).
Proof.
  intros W f fuel htry g g' E s s' n h sk E1 E2. Transparent step. unfold step in E. Opaque step. unfold bind at 1 in E. destruct (attempts f fuel (Some htry) g) as [[h0|e] g1] eqn:Ea; [|discriminate].
  destruct (attempts_tol f _ _ _ _ _ Ea) as (Ss & e & rej & Ee & He & Hn & Hc). unfold bind at 1, gets at 1 in E. unfold bind at 1 in E.
  pose proof (deriv_s f (length (p_y (g_s g1))) (p_x (g_s g1) + h0) (p_yout (g_s g1)) g1) as Ds. pose proof (keeps_deriv f (length (p_y (g_s g1))) (p_x (g_s g1) + h0) (p_yout (g_s g1)) g1) as Dk.
  destruct (deriv f _ _ _ g1) as [[dn|x] g2]; [|discriminate]. cbn [snd] in Ds, Dk. unfold bind at 1 in E.
  set (m := if p_dense (g_s g1) then _ else _) in E. assert (Km : keeps m) by (unfold m; destruct (p_dense (g_s g1)); [apply keeps_prepare|apply keeps_ret]). specialize (Km g2).
  assert (Pe : p_yout (g_s (snd (m g2))) = p_yout (g_s g2) /\ p_yerr (g_s (snd (m g2))) = p_yerr (g_s g2) /\ p_yerr2 (g_s (snd (m g2))) = p_yerr2 (g_s g2)) by (unfold m; destruct (p_dense (g_s g1)); [apply prepare_err|repeat split]).
  destruct (m g2) as [[u|x] g3]; [|discriminate]. cbn [snd] in Km, Pe. unfold bind, get, set_s, modify in E. apply (f_equal snd) in E. cbn [snd] in E.
  assert (F1 : p_y s' = p_yout (g_s g1)) by (unfold s'; rewrite <- E; cbn [g_s p_y]; destruct Pe as (-> & _); now rewrite Ds).
  assert (F2 : p_yerr s' = p_yerr (g_s g1)) by (unfold s'; rewrite <- E; cbn [g_s p_yerr]; destruct Pe as (_ & -> & _); now rewrite Ds).
  assert (F3 : p_yerr2 s' = p_yerr2 (g_s g1)) by (unfold s'; rewrite <- E; cbn [g_s p_yerr2]; destruct Pe as (_ & _ & ->); now rewrite Ds).
  assert (F4 : h = h0) by (unfold h, s'; rewrite <- E; reflexivity).
  assert (F5 : p_hnext s' = c_hnext (g_con g1)) by (unfold s'; rewrite <- E; cbn [g_s p_hnext]; destruct Km as (-> & _); now destruct Dk as (-> & _)).
  clearbody s'. clear E. destruct Ss as (_ & _ & Sy & _ & Sa & Sr & _). fold s in Sy, Sa, Sr.
  assert (Sk : forall i, error_scale (g_s g1) i = sk i) by (intros i; unfold error_scale, sk; rewrite Sa, Sr, Sy, F1; reflexivity).
  unfold error in Ee. cbv zeta in Ee. rewrite Sy in Ee. fold n in Ee. destruct (existsb (fun i => isz (error_scale (g_s g1) i)) (seq 0 n)) eqn:Ex; [discriminate|].
  assert (R1 : rsum n (fun i => (Cmod (nth i (p_yerr2 (g_s g1)) z0) / error_scale (g_s g1) i) ^ 2) = E1) by (unfold E1; apply rsum_ext; intros i _; now rewrite Sk, F3).
  assert (R2 : rsum n (fun i => (Cmod (nth i (p_yerr (g_s g1)) z0) / error_scale (g_s g1) i) ^ 2) = E2) by (unfold E2; apply rsum_ext; intros i _; now rewrite Sk, F2).
  rewrite R1, R2 in Ee. assert (P1 : 0 <= E1) by (unfold E1; apply rsum_nonneg; intros i _; rewrite <- Rsqr_pow2; apply Rle_0_sqr). assert (P2 : 0 <= E2) by (unfold E2; apply rsum_nonneg; intros i _; rewrite <- Rsqr_pow2; apply Rle_0_sqr).
  destruct (Rlt_dec (E1 + 0.01 * E2) 0) as [Z|_] in Ee; [lra|]. unfold isz in Ee. destruct (Req_EM_T ((E1 + 0.01 * E2) * INR n) 0) as [Z|NZ]; [discriminate|]. pose proof (pos_INR n) as Pn.
  split; [|split].
  - intros i Hi Z. rewrite <- Sk in Z. rewrite <- not_true_iff_false in Ex. apply Ex. apply existsb_exists. exists i. split; [apply in_seq; lia|]. unfold isz. destruct (Req_EM_T (error_scale (g_s g1) i) 0); [reflexivity|contradiction].
  - rewrite Rmult_comm. assert (0 <= (E1 + 0.01 * E2) * INR n) by (apply Rmult_le_pos; lra). lra.
  - assert (Q : 0 < (E1 + 0.01 * E2) * INR n) by (assert (0 <= (E1 + 0.01 * E2) * INR n) by (apply Rmult_le_pos; lra); lra).
    assert (Eq : e = Rabs h * E1 / sqrt (INR n * (E1 + 0.01 * E2))).
    { assert (Hq : Rabs (Rabs h0 * Rabs E1 * sqrt (1 / ((E1 + 0.01 * E2) * INR n))) = e) by congruence. rewrite <- Hq, F4. rewrite (Rabs_pos_eq E1) by exact P1. rewrite Rabs_pos_eq by (apply Rmult_le_pos; [apply Rmult_le_pos; [apply Rabs_pos|exact P1]|apply sqrt_pos]).
      unfold Rdiv. rewrite Rmult_1_l, (Rmult_comm (INR n)). f_equal. rewrite <- sqrt_inv. reflexivity. }
    cbv zeta. rewrite <- Eq. split; [exact He|]. rewrite F4, F5, Hn. unfold grow. destruct Hc as [(-> & ->)|(Hc & ->)]; [left|right]; split; auto.
Qed.

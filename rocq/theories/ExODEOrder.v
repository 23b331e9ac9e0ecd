(** A concrete case that meets the hypotheses of C114 and C115: the nonlinear equation y' = (y - x)^2 + 1, y(0) = 1, whose
    solution is x + 1/(1 - x). *)
From Coq Require Import Reals List ZArith Bool Arith Lia Lra.
From Coquelicot Require Import Complex Coquelicot.
From Verif Require Import Base CNum NumPy ModelDopr ModelODE SSFMGnlseProofs ODETreeProofs BSeriesProofs.
From Verif Require Import PropsODEOrder PropsODEAccept.
Import ListNotations.
Local Open Scope R_scope.
Local Open Scope py_scope.
Local Notation z0 := (RtoC 0).

Definition phq (x : R) (y : list C) (i : nat) : C := ((nth 0 y z0 - RtoC x) * (nth 0 y z0 - RtoC x) + RtoC 1)%C.
Definition fq (x : R) (y : list C) : M unit (list C) := ret [phq x y 0].
Definition Tq (l : list (nat -> C)) (i : nat) : C :=
  match l with
  | [] => RtoC 2
  | [v] => (RtoC 2 * (v 0%nat - v 1%nat))%C
  | [v; w] => (RtoC 2 * ((v 0%nat - v 1%nat) * (w 0%nat - w 1%nat)))%C
  | _ => z0
  end.
Definition solq (x : R) : list C := [RtoC (x + / (1 - x))].
Lemma two_bd (v : nat -> C) r : bd 2 v r -> Cmod (v 0%nat - v 1%nat)%C <= 2 * r /\ 0 <= r.
Proof.
  intros H. pose proof (H 0%nat ltac:(lia)) as A. pose proof (H 1%nat ltac:(lia)) as B. pose proof (Cmod_ge_0 (v 0%nat)). split; [|lra]. unfold Cminus. eapply Rle_trans; [apply Cmod_triangle|]. rewrite Cmod_opp. lra.
Qed.
Lemma Tq_bound l rs i : List.Forall2 (bd 2) l rs -> Cmod (Tq l i) <= 8 * rprod rs.
Proof.
  intros H. unfold rprod. destruct H as [|v r l rs H1 H]; [cbn [Tq fold_right]; rewrite Cmod_R, Rabs_pos_eq; lra|]. destruct (two_bd v r H1) as [A A0]. destruct H as [|w s l rs H2 H].
  - cbn [Tq fold_right]. rewrite Cmod_mult, Cmod_R, Rabs_pos_eq by lra. lra.
  - destruct (two_bd w s H2) as [B B0]. destruct H as [|u q l rs H3 H].
    + cbn [Tq fold_right]. rewrite !Cmod_mult, Cmod_R, Rabs_pos_eq by lra. pose proof (Rmult_le_compat _ _ _ _ (Cmod_ge_0 _) (Cmod_ge_0 _) A B). lra.
    + cbn [Tq]. rewrite Cmod_0. apply Rmult_le_pos; [lra|]. destruct (two_bd u q H3) as [_ Q0]. cbn [fold_right]. repeat apply Rmult_le_pos; try assumption. clear - H. induction H as [|v r l rs H1 H IH]; cbn; [lra|]. apply Rmult_le_pos; [apply (two_bd v r H1)|exact IH].
Qed.
Lemma taylor_q : taylor7 1 phq 0 [RtoC 1] Tq.
Proof.
  split.
  - intros l1 l2 u v a i _ _. destruct l1 as [|a1 [|a2 l1]]; cbn [List.app].
    + destruct l2 as [|b1 [|b2 l2]]; cbn [Tq]; ring.
    + destruct l2 as [|b1 l2]; cbn [Tq]; ring.
    + destruct l1; cbn [List.app Tq]; ring.
  - exists 8, 1. split; [lra|]. split; [lra|]. split; [intros l rs i _ _; apply Tq_bound|]. intros d xi q i Hi Hq Hx Hd.
    unfold phq, shifted. rewrite mk_nth by lia. cbn [nth]. rewrite Rplus_0_l, !csum_S, csum_0. cbn [repeat Tq]. unfold incr. cbn [Nat.ltb Nat.leb Nat.eqb].
    assert (P8 : 0 <= 8 * q ^ 8) by (apply Rmult_le_pos; [lra|]; apply pow_le; pose proof (Rabs_pos xi); lra). eapply Rle_trans; [|exact P8]. right. apply Cmod_eq_0_intro || idtac.
    match goal with |- Cmod ?X = 0 => replace X with z0; [apply Cmod_0|] end. replace (RtoC 2) with (RtoC 1 + RtoC 1)%C by (rewrite <- RtoC_plus; f_equal; lra). cbn [fact Nat.mul Nat.add INR]. rewrite Rinv_1. replace (/ (1 + 1)) with (1 / 2) by lra.
    replace (RtoC (1 / 2)) with (/ (RtoC 1 + RtoC 1))%C by (rewrite <- RtoC_plus, <- RtoC_inv by lra; f_equal; lra). field. intros H. apply (f_equal Re) in H. cbn in H. lra.
Qed.
Lemma sol_q x j : (j < 1)%nat -> Rabs (x - 0) <= 1 / 2 -> is_cderive (fun t => nth j (solq t) z0) x (phq x (solq x) j).
Proof.
  intros Hj Hx. assert (j = 0)%nat as -> by lia. rewrite Rminus_0_r in Hx. assert (N : 1 - x <> 0) by (unfold Rabs in Hx; destruct (Rcase_abs x); lra). unfold phq, solq. cbn [nth]. split; cbn.
  - apply (is_derive_ext (fun t => t + / (1 - t))); [reflexivity|]. auto_derive; [exact N|]. field. exact N.
  - replace (_ + 0) with 0 by ring. apply (is_derive_const (K := R_AbsRing) (V := R_NormedModule)).
Qed.
Definition gq : G unit := mkG tt new_ctrl (let s := new_stepper [RtoC 1] 0 (/ 10 ^ 6) (/ 10 ^ 6) true Complex128 in mkStp (p_x s) (p_xold s) (p_y s) [RtoC 2] (p_atol s) (p_rtol s) (p_dense s) (p_hdid s) (p_hnext s) (p_dtype s) (p_yout s) (p_yerr s) (p_yerr2 s) (p_k s) (p_rc s)) (new_output None) (mkOde 0 1 0 true 1 0 0 0 [RtoC 1]).
Lemma phq_0 i : phq 0 [RtoC 1] i = RtoC 2.
Proof. unfold phq. cbn [nth]. replace (RtoC 2) with (RtoC 1 + RtoC 1)%C by (rewrite <- RtoC_plus; f_equal; lra). ring. Qed.
Lemma fq_ret : forall x y w, length y = 1%nat -> exists d w', fq x y w = (Ok d, w') /\ forall i, (i < 1)%nat -> nth i d z0 = phq x y i.
Proof. intros x y w _. do 2 eexists. split; [reflexivity|]. intros i Hi. assert (i = 0)%nat as -> by lia. reflexivity. Qed.
(** some step returns, grows six times, and ends near the solution; so does its interpolant half way *)
Example ex_C114_C115 : exists K h0, 0 <= K /\ 0 < h0 /\ forall h, 0 < h <= h0 -> exists g', step fq 1 h gq = (Ok tt, g') /\ p_hdid (g_s g') = h /\ p_hnext (g_s g') = 6 * h /\
  Cmod (nth 0 (p_y (g_s g')) z0 - RtoC (h + / (1 - h)))%C <= K * h ^ 9 + / 10 ^ 26 * 8 * h /\
  Cmod (nth 0 (dense_out (g_s g') (h / 2) h) z0 - RtoC (h / 2 + / (1 - h / 2)))%C <= K * h ^ 8 + / 10 ^ 22 * 8 * h.
Proof.
  destruct (C114_order 1 phq 0 [RtoC 1] Tq 8 solq (1 / 2) eq_refl taylor_q ltac:(lra) (fun l rs i _ _ => Tq_bound l rs i) ltac:(lra) (fun _ => eq_refl) ltac:(unfold solq; f_equal; f_equal; field) sol_q) as (K & h0 & HK & H0 & Th).
  destruct (C115_small_steps 1 phq 0 [RtoC 1] Tq 0 (/ 10 ^ 6) eq_refl taylor_q ltac:(lia)) as (h2 & H2 & Ac); [rewrite phq_0; intros H; apply (f_equal Re) in H; cbn in H; lra|apply Rinv_0_lt_compat, pow_lt; lra|].
  exists K, (Rmin h0 h2). split; [exact HK|]. split; [now apply Rmin_glb_lt|]. intros h [Hp Hh]. assert (A1 : Rabs h <= h0) by (rewrite Rabs_pos_eq by lra; eapply Rle_trans; [exact Hh|apply Rmin_l]). assert (A2 : Rabs h <= h2) by (rewrite Rabs_pos_eq by lra; eapply Rle_trans; [exact Hh|apply Rmin_r]).
  assert (D : forall i, (i < 1)%nat -> nth i (p_dydx (g_s gq)) z0 = phq 0 [RtoC 1] i) by (intros i Hi; assert (i = 0)%nat as -> by lia; rewrite phq_0; reflexivity).
  destruct (Ac unit fq 0%nat h gq fq_ret eq_refl eq_refl D eq_refl) as (g' & E & E1 & E2); [left; apply Rinv_0_lt_compat, pow_lt; lra|exact A2|]. exists g'. split; [exact E|]. split; [exact E1|]. split; [exact E2|].
  specialize (Th unit fq 1%nat h gq g'). cbv zeta in Th. rewrite E1 in Th. specialize (Th ltac:(intros x y w d w' L Ef i Hi; destruct (fq_ret x y w L) as (d' & w'' & Ef' & V); assert (d' = d) by congruence; subst d'; now apply V) eq_refl eq_refl D E A1 0%nat ltac:(lia)).
  rewrite (Rabs_pos_eq h) in Th by lra. destruct Th as (B1 & _ & _ & B2). specialize (B2 eq_refl ltac:(lra) (1 / 2) ltac:(lra)). rewrite !Rplus_0_l in B1, B2. split; [exact B1|]. replace (1 / 2 * h) with (h / 2) in B2 by field. exact B2.
Qed.

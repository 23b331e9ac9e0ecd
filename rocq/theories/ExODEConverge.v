(** A concrete case that meets the hypotheses of C123: y' = (y - x)^2 + 1, whose solution through (0, 1) is x + 1/(1 - x),
    on [-1/2, 1/2]; a tube of radius 1 with Lipschitz constant 6, derivatives bounded by 13. *)
From Coq Require Import Reals List ZArith Bool Arith Lia Lra.
From Coquelicot Require Import Complex Coquelicot.
From Verif Require Import Base CNum NumPy ModelDopr ModelODE SSFMGnlseProofs ODETreeProofs BSeriesProofs ODEConvergeProofs.
From Verif Require Import PropsODEOrder PropsODEAccept ExODEOrder PropsODEConverge.
Import ListNotations.
Local Open Scope R_scope.
Local Open Scope py_scope.
Local Notation z0 := (RtoC 0).

Definition Tx (x : R) (l : list (nat -> C)) (i : nat) : C :=
  match l with
  | [] => RtoC (/ (1 - x) * / (1 - x) + 1)
  | [v] => (RtoC (2 * / (1 - x)) * (v 0%nat - v 1%nat))%C
  | [v; w] => (RtoC 2 * ((v 0%nat - v 1%nat) * (w 0%nat - w 1%nat)))%C
  | _ => z0
  end.
Lemma inv_bound x : -1/2 <= x <= 1/2 -> 0 < / (1 - x) <= 2.
Proof. intros H. split; [apply Rinv_0_lt_compat; lra|]. replace 2 with (/ (1 / 2)) by field. apply Rinv_le_contravar; lra. Qed.
Lemma Tx_bound x l rs i : -1/2 <= x <= 1/2 -> List.Forall2 (bd 2) l rs -> Cmod (Tx x l i) <= 13 * rprod rs.
Proof.
  intros Hx H. pose proof (inv_bound x Hx) as [I0 I1]. unfold rprod. destruct H as [|v r l rs H1 H].
  { cbn [Tx fold_right]. rewrite Cmod_R, Rabs_pos_eq; nra. }
  destruct (two_bd v r H1) as [A A0]. destruct H as [|w s l rs H2 H].
  - cbn [Tx fold_right]. rewrite Cmod_mult, Cmod_R, Rabs_pos_eq by lra. apply Rle_trans with (4 * (2 * r)); [apply Rmult_le_compat; [lra|apply Cmod_ge_0|lra|exact A]|lra].
  - destruct (two_bd w s H2) as [B B0]. destruct H as [|u q l rs H3 H].
    + cbn [Tx fold_right]. rewrite !Cmod_mult, Cmod_R, Rabs_pos_eq by lra. pose proof (Rmult_le_compat _ _ _ _ (Cmod_ge_0 _) (Cmod_ge_0 _) A B). pose proof (Rmult_le_pos _ _ A0 B0). lra.
    + cbn [Tx]. rewrite Cmod_0. apply Rmult_le_pos; [lra|]. destruct (two_bd u q H3) as [_ Q0]. cbn [fold_right]. repeat apply Rmult_le_pos; try assumption. clear - H. induction H as [|v r l rs H1 H IH]; cbn; [lra|]. apply Rmult_le_pos; [apply (two_bd v r H1)|exact IH].
Qed.
Lemma utaylor_x : utaylor7 (I := {x | -1/2 <= x <= 1/2}) 1 phq (fun o => proj1_sig o) (fun o => solq (proj1_sig o)) (fun o => Tx (proj1_sig o)).
Proof.
  split.
  - intros o l1 l2 u v a i _ _. destruct l1 as [|a1 [|a2 l1]]; cbn [List.app].
    + destruct l2 as [|b1 [|b2 l2]]; cbn [Tx]; ring.
    + destruct l2 as [|b1 l2]; cbn [Tx]; ring.
    + destruct l1; cbn [List.app Tx]; ring.
  - exists 13, 1. split; [lra|]. split; [lra|]. intros [x Hx]. cbn [proj1_sig]. split; [intros l rs i _ _; now apply Tx_bound|]. intros d xi q i Hi Hq Hxi Hd. pose proof (inv_bound x Hx) as [I0 I1].
    unfold phq, shifted, solq. rewrite mk_nth by lia. cbn [nth]. rewrite !csum_S, csum_0. cbn [repeat Tx]. unfold incr. cbn [Nat.ltb Nat.leb Nat.eqb].
    assert (P8 : 0 <= 13 * q ^ 8) by (apply Rmult_le_pos; [lra|]; apply pow_le; pose proof (Rabs_pos xi); lra). eapply Rle_trans; [|exact P8]. right. set (s := / (1 - x)) in *. clearbody s.
    match goal with |- Cmod ?X = 0 => replace X with z0; [apply Cmod_0|] end. rewrite !RtoC_plus, !RtoC_mult. replace (RtoC 2) with (RtoC 1 + RtoC 1)%C by (rewrite <- RtoC_plus; f_equal; lra). cbn [fact Nat.mul Nat.add INR]. rewrite Rinv_1. replace (/ (1 + 1)) with (1 / 2) by lra.
    replace (RtoC (1 / 2)) with (/ (RtoC 1 + RtoC 1))%C by (rewrite <- RtoC_plus, <- RtoC_inv by lra; f_equal; lra). field. intros H. apply (f_equal Re) in H. cbn in H. lra.
Qed.
Lemma sol_x x j : (j < 1)%nat -> -1/2 <= x <= 1/2 -> is_cderive (fun t => nth j (solq t) z0) x (phq x (solq x) j).
Proof. intros Hj Hx. apply sol_q; [exact Hj|]. unfold Rabs. destruct (Rcase_abs (x - 0)); lra. Qed.
Lemma lip_x x y z d : -1/2 <= x <= 1/2 -> length y = 1%nat -> length z = 1%nat -> near 1 y (solq x) 1 -> near 1 z (solq x) 1 -> near 1 y z d -> forall i, (i < 1)%nat -> Cmod (phq x y i - phq x z i)%C <= 6 * d.
Proof.
  intros Hx _ _ Hy Hz Hd i _. specialize (Hy 0%nat ltac:(lia)). specialize (Hz 0%nat ltac:(lia)). specialize (Hd 0%nat ltac:(lia)). unfold phq, solq in *. cbn [nth] in Hy, Hz. pose proof (inv_bound x Hx) as [I0 I1]. set (s := / (1 - x)) in *. set (u := nth 0 y z0) in *. set (v := nth 0 z z0) in *.
  replace ((u - RtoC x) * (u - RtoC x) + RtoC 1 - ((v - RtoC x) * (v - RtoC x) + RtoC 1))%C with (((u - RtoC (x + s)) + (v - RtoC (x + s)) + RtoC (2 * s)) * (u - v))%C by (rewrite RtoC_plus, RtoC_mult; replace (RtoC 2) with (RtoC 1 + RtoC 1)%C by (rewrite <- RtoC_plus; f_equal; lra); ring).
  rewrite Cmod_mult. apply Rmult_le_compat; [apply Cmod_ge_0|apply Cmod_ge_0| |exact Hd]. eapply Rle_trans; [apply Cmod_triangle|]. rewrite Cmod_R, Rabs_pos_eq by lra. pose proof (Cmod_triangle (u - RtoC (x + s)) (v - RtoC (x + s)))%C. lra.
Qed.
Lemma e0_small : exp (26 * 6 * (1 / 4)) * (/ 10 ^ 26 * 13) <= 1 / 8.
Proof.
  assert (E : exp (26 * 6 * (1 / 4)) <= 3 ^ 39). { replace (26 * 6 * (1 / 4)) with (INR 39 * 1) by (cbn [INR]; lra). assert (G : forall k, exp (INR k * 1) <= 3 ^ k); [|apply G]. induction k as [|k IH]; [cbn [INR pow]; rewrite Rmult_0_l, exp_0; lra|]. rewrite S_INR, Rmult_plus_distr_r, exp_plus, Rmult_1_l. cbn [pow]. rewrite Rmult_comm. apply Rmult_le_compat; [left; apply exp_pos|left; apply exp_pos|apply exp_le_3|exact IH]. }
  assert (P : 0 < 10 ^ 26) by (apply pow_lt; lra). apply Rle_trans with (3 ^ 39 * (/ 10 ^ 26 * 13)); [apply Rmult_le_compat_r; [|exact E]; apply Rmult_le_pos; [left; now apply Rinv_0_lt_compat|lra]|].
  apply (Rmult_le_reg_r (10 ^ 26)); [exact P|]. replace (3 ^ 39 * (/ 10 ^ 26 * 13) * 10 ^ 26) with (3 ^ 39 * 13) by (field; lra). rewrite (pow_IZR 3), (pow_IZR 10). apply (Rmult_le_reg_l 8); [lra|]. replace (8 * (1 / 8 * IZR (10 ^ Z.of_nat 26))) with (IZR (10 ^ Z.of_nat 26)) by lra.
  rewrite <- !mult_IZR. apply IZR_le. vm_compute. discriminate.
Qed.
(** there are runs, in one step, within the bound; it is far inside the tube *)
Example ex_C123 : exists K h0, 0 <= K /\ 0 < h0 /\ forall x2, 0 < x2 <= h0 -> exists g',
  integrate fq 1 (new_ode tt new_ctrl [RtoC 1] 0 x2 (/ 10 ^ 6) (/ 10 ^ 6) 1 0 (new_output (Some 10%nat)) false Complex128) = (Ok tt, g') /\ e_nok (g_ode g') = 1%nat /\
  Cmod (nth 0 (nth 1 (o_ysave (g_out g')) []) z0 - RtoC (x2 + / (1 - x2)))%C <= exp (26 * 6 * x2) * (x2 * (K * x2 ^ 8 + / 10 ^ 26 * 13)).
Proof.
  destruct (C123_convergence 1 phq (-1/2) (-1/4) (1/4) (1/2) solq Tx 13 6 1 ltac:(lra) ltac:(lra) (fun _ => eq_refl) sol_x utaylor_x ltac:(lra) (fun x l rs i Hx _ _ => Tx_bound x l rs i Hx) ltac:(lra) ltac:(lra) lip_x) as (K & h0 & HK & H0 & Th).
  destruct (C123_short_runs 1 phq 0 [RtoC 1] Tq 0 (/ 10 ^ 6) eq_refl taylor_q ltac:(lia)) as (h2 & H2 & Ru); [rewrite phq_0; intros H; apply (f_equal Re) in H; cbn in H; lra|apply Rinv_0_lt_compat, pow_lt; lra|].
  set (E4 := exp (26 * 6 * (1 / 4))). assert (PE : 0 < E4) by apply exp_pos. set (h3 := / (8 * E4 * (K + 1))). assert (H3 : 0 < h3) by (unfold h3; apply Rinv_0_lt_compat; repeat apply Rmult_lt_0_compat; lra).
  exists K, (Rmin (Rmin h0 h2) (Rmin (1 / 4) h3)). split; [exact HK|]. split; [repeat apply Rmin_glb_lt; lra|]. intros x2 [Hp Hx].
  pose proof (Rmin_l (Rmin h0 h2) (Rmin (1 / 4) h3)). pose proof (Rmin_r (Rmin h0 h2) (Rmin (1 / 4) h3)). pose proof (Rmin_l h0 h2). pose proof (Rmin_r h0 h2). pose proof (Rmin_l (1 / 4) h3). pose proof (Rmin_r (1 / 4) h3).
  assert (T6 : 0 < / 10 ^ 6) by (apply Rinv_0_lt_compat, pow_lt; lra).
  destruct (Ru unit fq 0%nat tt new_ctrl x2 (/ 10 ^ 6) 1 0 10%nat Complex128 fq_ret ltac:(lra)) as (g' & Eg & N1 & N2 & X0 & X1); [rewrite Rminus_0_r, Rabs_pos_eq; lra|rewrite Rminus_0_r, !Rabs_pos_eq; lra|lra|lra|].
  exists g'. split; [exact Eg|]. split; [exact N1|].
  pose proof (Th unit fq 1%nat tt new_ctrl [RtoC 1] 0 x2 (/ 10 ^ 6) (/ 10 ^ 6) 1 0 10%nat Complex128 g' x2 0) as B. cbv zeta in B. rewrite N1, N2, Rminus_0_r, (Rabs_pos_eq x2), Rplus_0_l in B by lra.
  specialize (B ltac:(intros x y w d w' L Ef i Hi; destruct (fq_ret x y w L) as (d' & w'' & Ef' & V); assert (d' = d) by congruence; subst d'; now apply V) ltac:(lra) ltac:(lra) ltac:(lra) ltac:(lra) eq_refl ltac:(lra)).
  destruct B as [B _].
  - intros j Hj. assert (j = 0)%nat as -> by lia. unfold solq. cbn [nth]. replace (0 + / (1 - 0)) with 1 by field. replace (RtoC 1 - RtoC 1)%C with z0 by ring. rewrite Cmod_0. lra.
  - exact Eg.
  - lra.
  - intros k Hk. assert (k = 0)%nat as -> by lia. rewrite X0, X1, Rminus_0_r, Rabs_pos_eq; lra.
  - assert (Ex : exp (26 * 6 * x2) <= E4). { unfold E4. destruct (Req_dec x2 (1 / 4)) as [->|Nx]; [lra|]. left. apply exp_increasing. lra. }
    assert (P8 : 0 <= x2 ^ 8 <= 1) by (split; [apply pow_le; lra|rewrite <- (pow1 8); apply pow_incr; lra]). assert (P26 : 0 < / 10 ^ 26) by (apply Rinv_0_lt_compat, pow_lt; lra). pose proof e0_small as S. fold E4 in S.
    assert (Kx : E4 * (x2 * (K * x2 ^ 8)) <= 1 / 8). { apply Rle_trans with (E4 * (h3 * (K + 1))); [apply Rmult_le_compat_l; [lra|]; apply Rmult_le_compat; [lra|apply Rmult_le_pos; lra|lra|]; apply Rle_trans with (K * 1); [apply Rmult_le_compat_l; lra|lra]|]. unfold h3. right. field. split; lra. }
    assert (Mx : E4 * (x2 * (/ 10 ^ 26 * 13)) <= 1 / 8). { eapply Rle_trans; [|exact S]. apply Rmult_le_compat_l; [lra|]. rewrite <- (Rmult_1_l (/ 10 ^ 26 * 13)) at 2. apply Rmult_le_compat_r; lra. }
    apply Rle_trans with (E4 * (x2 * (K * x2 ^ 8 + / 10 ^ 26 * 13))); [apply Rmult_le_compat_r; [|exact Ex]; apply Rmult_le_pos; [lra|]; pose proof (Rmult_le_pos _ _ HK (proj1 P8)); lra|]. rewrite !Rmult_plus_distr_l. lra.
  - specialize (B 1%nat ltac:(lia) 0%nat ltac:(lia)). rewrite X1 in B. unfold solq in B. cbn [nth] in B. exact B.
Qed.

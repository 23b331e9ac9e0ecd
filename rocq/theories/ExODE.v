(** Concrete cases that meet the hypotheses of the ODE solver theorems (C39-C48). *)
From Coq Require Import Reals List ZArith Bool Arith Lia Lra.
From Coquelicot Require Import Complex Hierarchy Derive.
From Verif Require Import Base CNum NumPy ModelDopr ModelODE ODEOutputProofs ODEStepProofs ODETableauProofs ODEIntProofs ODERunProofs ODEShareProofs ODEWitnessProofs ODETolProofs.
From Verif Require Import PropsODEOutput PropsODEStep PropsODETableau PropsODEInt PropsODERun PropsODEShare PropsODEWitness PropsODETol.
Import ListNotations.
Local Open Scope R_scope.
Local Open Scope py_scope.
Local Notation z0 := (RtoC 0).

(** a sample is stored, one of the wrong dtype and one of the wrong shape are refused, one value is spread over the row *)
Example ex_C39 : let o := history [Save 1 Float64 [RtoC 1; RtoC 2]; Save 2 Complex128 [Ci; Ci]; SaveDense 3 Float64 [RtoC 1; RtoC 2; RtoC 3]; SaveDense 4 Float64 [RtoC 7]] (out_init 2 0 1 Float64 (new_output (Some 5%nat))) in
  o_count o = 2%nat /\ nth 1 (o_xsave o) 0 = 4 /\ nth 1 (o_ysave o) [] = [RtoC 7; RtoC 7].
Proof.
  destruct (C39_samples_kept 2 5 0 1 Float64 [Save 1 Float64 [RtoC 1; RtoC 2]; Save 2 Complex128 [Ci; Ci]; SaveDense 3 Float64 [RtoC 1; RtoC 2; RtoC 3]; SaveDense 4 Float64 [RtoC 7]]) as (A & B & _). split; [exact A|]. destruct (B 1%nat) as [B1 B2]; [cbn; lia|]. split; [exact B1|exact B2].
Qed.
(** 600 samples, more than the initial 500 rows *)
Example ex_C39_grow : let o := history (map (fun i => Save (INR i) Float64 [RtoC (INR i)]) (seq 0 600)) (out_init 1 0 1 Float64 (new_output (Some 0%nat))) in o_count o = 600%nat /\ nth 555 (o_xsave o) 0 = INR 555.
Proof.
  destruct (C39_samples_kept 1 0 0 1 Float64 (map (fun i => Save (INR i) Float64 [RtoC (INR i)]) (seq 0 600))) as (A & B & _).
  assert (E : flat_map (accepted 1 Float64) (map (fun i => Save (INR i) Float64 [RtoC (INR i)]) (seq 0 600)) = map (fun i => (INR i, [RtoC (INR i)])) (seq 0 600)).
  { generalize (seq 0 600). induction l as [|i l IH]; [reflexivity|]. cbn [map flat_map]. rewrite IH. reflexivity. }
  cbv zeta in *. rewrite E, map_length, seq_length in *. split; [exact A|]. destruct (B 555%nat ltac:(lia)) as [-> _]. rewrite (nth_map' _ _ _ 0%nat) by (rewrite seq_length; lia). cbn [fst]. rewrite seq_nth by lia. reflexivity.
Qed.
(** after a rejection the next proposal is not longer than the step *)
Example ex_C40 : exists c' k, success (Fin 0.5) (Some 2) (con_history [(Fin 4, Some 3)]) = (Ok (true, Some 2), c') /\ c_hnext c' = k * 2 /\ 0.9 <= k <= 1.
Proof.
  destruct (C40_controller_limits [(Fin 4, Some 3)] (Fin 0.5) 2) as [A _]; [cbn; lra|discriminate|]. destruct A as (c' & k & E & Eh & Hk & Hr); [exists 0.5; split; [reflexivity|lra]|]. exists c', k. split; [exact E|]. split; [exact Eh|]. split; [lra|].
  apply (Hr [] (Fin 4) 3 eq_refl); [cbn; lra|]. unfold success. destruct (Rle_dec 4 1); [lra|]. cbn. discriminate.
Qed.
(** a step of y' = x^5 from 1/10 by 6/10, with dense output *)
Definition g5 : G unit := mkG tt new_ctrl (let s := new_stepper [RtoC 3] (1 / 10) (10 ^ 6) 0 true Float64 in mkStp (p_x s) (p_xold s) (p_y s) [RtoC ((1 / 10) ^ 5)] (p_atol s) (p_rtol s) (p_dense s) (p_hdid s) (p_hnext s) (p_dtype s) (p_yout s) (p_yerr s) (p_yerr2 s) (p_k s) (p_rc s)) (new_output None) (mkOde 0 1 0 true (6 / 10) 0 0 0 [z0]).
Lemma g5_step : exists g', step f5 1 (6 / 10) g5 = (Ok tt, g') /\ p_x (g_s g') = 7 / 10 /\ p_hdid (g_s g') = 6 / 10 /\ p_dydx (g_s g') = [RtoC ((7 / 10) ^ 5)].
Proof.
  destruct (step5 1 (6 / 10) g5) as (g' & E & C & X & D & _); [lia|repeat split|cbn; lra|lra|cbn; lra|]. exists g'. split; [exact E|]. replace (p_x (g_s g5) + 6 / 10) with (7 / 10) in X by (cbn; lra). split; [exact X|]. split; [exact D|]. destruct C as (_ & -> & _). now rewrite X.
Qed.
Example ex_C41 : (exists g', step f5 1 (6 / 10) g5 = (Ok tt, g') /\ p_x (g_s g') = 7 / 10) /\ exists fuel0, forall fuel, (fuel0 <= fuel)%nat -> fst (step f5 fuel (6 / 10) g5) <> Raise NoFuel.
Proof. split; [destruct g5_step as (g' & E & X & _); eauto|]. apply (C41_step_or_raise unit f5 (6 / 10) g5); [cbn; lra|]. intros x y w. cbn. discriminate. Qed.
Example ex_C45 : exists g', step f5 1 (6 / 10) g5 = (Ok tt, g') /\ dense_out (g_s g') (1 / 10) (6 / 10) = [RtoC 3] /\ is_derive (K := R_AbsRing) (V := R_NormedModule) (fun x : R => Re (nth 0 (dense_out (g_s g') x (6 / 10)) z0)) (7 / 10) ((7 / 10) ^ 5).
Proof.
  destruct g5_step as (g' & E & X & D & Y). exists g'. split; [exact E|]. destruct (C45_dense_hermite unit f5 1 (6 / 10) g5 g' E eq_refl ltac:(lra)) as (A & _ & B). rewrite D in A, B. split; [exact A|]. destruct (B 0%nat) as (_ & _ & B3 & _); [cbn; lia|]. rewrite X, Y in B3. exact B3.
Qed.
(** the run of y' = x^5 returns, so the conclusion of C42 about finished runs applies to it *)
Example ex_C42 : exists g, integrate f5 1 (new5 new_ctrl 0 false) = (Ok tt, g) /\ o_count (g_out g) = 4%nat /\ nth 3 (o_xsave (g_out g)) 0 = 1.
Proof.
  destruct (run5 1 new_ctrl 0 ltac:(lia)) as (g & E & B & N & _). exists g. split; [exact E|]. pose proof (C42_ends_exactly unit f5 1 tt new_ctrl [z0] 0 1 (10 ^ 6) 0 (1 / 10) 0 0 false Float64 ltac:(lra) ltac:(lra)) as P. unfold new5 in E. rewrite E in P. destruct P as (_ & P). cbv zeta in P. rewrite B, N in P. destruct P as (_ & _ & _ & _ & _ & P). destruct (P eq_refl) as (Cn & _ & _ & X & _). split; [exact Cn|exact X].
Qed.
(** integrating backwards meets the hypotheses too: x never leaves [-1, 1] *)
Example ex_C42_backwards : -1 <= p_x (g_s (snd (integrate f5 5 (new_ode tt new_ctrl [z0] 1 (-1) 1 0 3 0 (new_output (Some 4%nat)) true Float64)))) <= 1.
Proof.
  pose proof (C42_ends_exactly unit f5 5 tt new_ctrl [z0] 1 (-1) 1 0 3 0 4 true Float64 ltac:(lra) ltac:(lra)) as P. destruct (integrate f5 5 _) as [r g]. destruct P as (P & _). cbn [snd]. rewrite Rmin_right, Rmax_left in P by lra. exact P.
Qed.
Example ex_C43 : exists g, integrate (fun _ _ => ret [z0; z0]) 2 (new_ode tt new_ctrl [RtoC 1; Ci] 0 1 (1 / 1000) (1 / 1000) (1 / 10) 0 (new_output (Some 10%nat)) true Complex128) = (Raise AssertionError, g).
Proof. destruct (C43_zero_estimate_refuted unit (fun _ _ => ret [z0; z0]) 2 tt new_ctrl [RtoC 1; Ci] 0 1 (1 / 1000) (1 / 1000) (1 / 10) 0 10 true Complex128) as (g & E & _); [intros x y []; exists tt; reflexivity|lia|lia|]. eauto. Qed.
(** the first step covers the interval: the requested grid is stored *)
Example ex_C44_one_step : exists g, integrate f5 11 (new_ode tt new_ctrl [z0] 0 1 (10 ^ 6) 0 1 0 (new_output (Some 10%nat)) true Float64) = (Ok tt, g) /\
  firstn (o_count (g_out g)) (o_xsave (g_out g)) = map (fun j => 0 + INR j * ((1 - 0) / INR 10)) (seq 0 10) ++ [1].
Proof.
  destruct (integrate_start f5 11 tt new_ctrl [z0] 0 1 (10 ^ 6) 0 1 0 10 true Float64 [RtoC (0 ^ 5)] tt ltac:(lia) ltac:(lia) eq_refl) as (o & E & So). cbv iota in So.
  assert (O0 : Od 0 [] o). { exists []. subst o. split; [apply stored_init|]. split; [reflexivity|]. unfold out_init, new_output. cbn [o_kmax o_dense Nat.ltb Nat.leb o_x1 o_x2 o_dxout o_xout o_nsave]. repeat split. replace (INR 10) with 10 by (rewrite INR_IZR_INZ; reflexivity). lra. }
  assert (I10 : INR 10 = 10) by (rewrite INR_IZR_INZ; reflexivity). destruct MAXSTP_5 as (m & Em). rewrite Em in E.
  match type of E with _ = iloop _ _ _ _ ?g => assert (K : K5 true 0 1 false 0 g) end.
  { unfold K5, cond5. cbn [g_s g_con g_ode new_stepper p_y p_x p_dydx p_atol p_rtol p_dtype e_x1 e_x2 e_hmin e_dense e_h e_nok e_nbad length]. repeat (split; [solve [repeat split]|]). split; [|split; reflexivity]. unfold sgn. destruct (Rlt_dec 0 (1 - 0)) as [_|Z]; [|lra]. rewrite Rabs_pos_eq by lra. ring. }
  assert (C0 : clip 0 0 1 1 = 1) by (rewrite clip5_cut by lra; lra).
  destruct (end5 true 11 (S (S (S (S m)))) 0 0 1 false 0 _ 1 Float64 (fun l => map fst l = [] ++ mk 10 (fun j => 0 + INR j * (1 / 10))) ltac:(lia) K ltac:(lra) ltac:(rewrite C0; lra) ltac:(rewrite C0; lra) eq_refl eq_refl) as (g & l & Eg & N & B & _).
  - intros l Hl El. rewrite El in Hl. discriminate.
  - rewrite C0, Rplus_0_l. eapply rec5_weaken; [|apply (rec_while 11 0 1 o 0 [] 10 O0); [lia|lia|rewrite I10; lra|]].
    + intros o' (l & S & EL & _). exists l. split; [exact S|exact EL].
    + intros j Hj. assert (INR j <= 9) by (replace 9 with (INR 9) by (rewrite INR_IZR_INZ; reflexivity); apply le_INR; lia). lra.
  - exists g. rewrite Eg in E. split; [exact E|]. destruct (C44_stored_points_partial unit f5 11 tt new_ctrl [z0] 0 1 (10 ^ 6) 0 1 0 10 Float64 g) as (P & _); [lra|lra|lia| |exact E|].
    + rewrite I10, !Rabs_pos_eq by lra. assert (EPS <= 1 / 100000) by (unfold EPS; apply Rle_trans with (/ 2 ^ 17); [apply Rinv_le_contravar; [apply pow_lt; lra|apply Rle_pow; [lra|lia]]|cbn [pow]; lra]). lra.
    + apply P. rewrite N, B. reflexivity.
Qed.
(** y' = 1 + 2x at x = 3 *)
Example ex_C46 : let g := mkG tt new_ctrl (let s := new_stepper [RtoC 5] 3 1 0 false Float64 in mkStp (p_x s) (p_xold s) (p_y s) [RtoC 7] (p_atol s) (p_rtol s) (p_dense s) (p_hdid s) (p_hnext s) (p_dtype s) (p_yout s) (p_yerr s) (p_yerr2 s) (p_k s) (p_rc s)) (new_output None) (mkOde 0 1 0 true 1 0 0 0 [z0]) in
  exists g', dy (fun x _ => ret [(RtoC 1 + RtoC 2 * RtoC x)%C]) 2 g = (Ok tt, g') /\ Cmod (nth 0 (p_yout (g_s g')) z0 - RtoC (5 + 2 + 16))%C <= 2 * (/ 10 ^ 27 * 11).
Proof.
  intros g. destruct (C46_quadrature_order unit (fun x _ => ret [(RtoC 1 + RtoC 2 * RtoC x)%C]) (fun x => [(RtoC 1 + RtoC 2 * RtoC x)%C]) 2 0 (fun k => if Nat.eqb k 0 then RtoC 1 else RtoC 2) 2 g) as (g' & E & B & _).
  - intros x y w. exists w. reflexivity.
  - cbn. lia.
  - lia.
  - intros u. cbn [nth]. unfold csum, lsum, mk. cbn [seq map fold_right Nat.eqb pow]. rewrite Rmult_1_r. ring.
  - change (RtoC 7 = (RtoC 1 + RtoC 2 * RtoC 3)%C). rewrite <- RtoC_mult, <- RtoC_plus. replace (1 + 2 * 3) with 7 by lra. reflexivity.
  - exists g'. split; [exact E|]. unfold g in B; cbn [g_s new_stepper p_x p_y nth] in B. unfold csum, rsum, lsum, lrsum, mk in B. cbn [seq map fold_right Nat.eqb INR] in B. rewrite !Cmod_R in B. rewrite !(Rabs_pos_eq 2), (Rabs_pos_eq 3), (Rabs_pos_eq 1) in B by lra.
    match type of B with Cmod ?z <= ?b => replace (nth 0 (p_yout (g_s g')) z0 - RtoC (5 + 2 + 16))%C with z; [replace (2 * (/ 10 ^ 27 * 11)) with b; [exact B|]|] end.
    + cbn [pow]. field.
    + rewrite <- !RtoC_mult, <- !RtoC_plus. match goal with |- Cminus ?a (RtoC ?b) = Cminus _ (RtoC ?c) => replace c with b; [reflexivity|cbn [pow]; field] end.
Qed.
(** a finished run before: nothing changes for the next one *)
Example ex_C47 : exists g, integrate f5 1 (new5 new_ctrl 0 false) = (Ok tt, g) /\ fst (integrate f5 1 (new5 (g_con g) 0 false)) = Ok tt.
Proof.
  destruct (run5 1 new_ctrl 0 ltac:(lia)) as (g & E & _). exists g. split; [exact E|].
  destruct (C47_after_success_partial unit f5 1 tt [z0] 0 1 (10 ^ 6) 0 (1 / 10) 0 (Some 0%nat) false Float64) as [_ P]. destruct (P unit f5 1%nat tt new_ctrl [z0] 0 1 (10 ^ 6) 0 (1 / 10) 0 0%nat false Float64 g ltac:(lra) ltac:(lra) E) as (Q & _). unfold new5 in *. rewrite Q, E. reflexivity.
Qed.
Example ex_C48 : fst (integrate f5 1 (new_ode tt new_ctrl [z0] 0 1 1 0 (1 / 10) 0 (new_output None) false Float64)) = Raise AttributeError.
Proof. exact (C48_integrate_refuted unit f5 1 tt tt new_ctrl [z0] [RtoC (0 ^ 5)] 0 1 1 0 (1 / 10) 0 false Float64 eq_refl). Qed.
(** the same step of y' = x^5: the scales are the absolute tolerance, the error is at most 1, and the next step is at most 6 times this one *)
Example ex_C77 : exists g', step f5 1 (6 / 10) g5 = (Ok tt, g') /\ 0 < rsum 1 (fun i => (Cmod (nth i (p_yerr2 (g_s g')) z0) / 10 ^ 6) ^ 2) + 0.01 * rsum 1 (fun i => (Cmod (nth i (p_yerr (g_s g')) z0) / 10 ^ 6) ^ 2) /\ p_hnext (g_s g') <= 6 * (6 / 10).
Proof.
  destruct g5_step as (g' & E & _ & D & _). exists g'. split; [exact E|]. destruct (C77_tolerance_met unit f5 1 (6 / 10) g5 g' E) as (_ & P & _ & K). rewrite D in K. change (length (p_y (g_s g5))) with 1%nat in *.
  assert (Sk : forall z, p_atol (g_s g5) + p_rtol (g_s g5) * z = 10 ^ 6) by (intros z; change (p_atol (g_s g5)) with (10 ^ 6); change (p_rtol (g_s g5)) with 0; ring).
  split.
  - cbn [INR] in P. rewrite Rmult_1_l in P. unfold rsum, lrsum, mk in *. cbn [seq map fold_right] in *. rewrite !Sk in P. exact P.
  - clear P. match type of K with context [Rmin ?k 1] => set (q := k) in * end. assert (Q : q <= 6) by (unfold q; destruct (Req_EM_T _ 0); [lra|apply Rmin_l]). clearbody q. change (c_reject (g_con g5)) with false in K. pose proof (Rmin_l q 1). destruct K as [(_ & ->)|(_ & ->)]; lra.
Qed.
(** C43: the intermediate stages of a zero right-hand side leave a state of two points alone *)
Example ex_C43_stage : forall g0 : G unit, p_y (g_s g0) = [RtoC 1; Ci] -> p_dydx (g_s g0) = [z0; z0] ->
  exists g', dy (fun _ _ => ret [z0; z0]) (1 / 10) g0 = (Ok tt, g') /\ p_yout (g_s g') = [RtoC 1; Ci] /\ p_yerr (g_s g') = [z0; z0].
Proof.
  intros g0 Y D. destruct (C43_zero_stage_partial unit (fun _ _ => ret [z0; z0]) (1 / 10) g0) as (g' & E & A & B & _).
  - intros x y w. exists w. rewrite Y. reflexivity.
  - intros i. rewrite D. destruct i as [|[|[|i]]]; reflexivity.
  - exists g'. rewrite Y in *. split; [exact E|]. split; [exact A|exact B].
Qed.

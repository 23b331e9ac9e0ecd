(** Concrete cases for the limits of the solver (C41, C42) and the unconfigured fiber (C57). *)
From Coq Require Import String.
From Coq Require Import Reals List ZArith Bool Arith Lia Lra.
From Coquelicot Require Import Complex.
From Verif Require Import Base CNum NumPy ModelPulse ModelDopr ModelODE ODEOutputProofs ODEStepProofs ODEIntProofs ODERunProofs ODEWitnessProofs PropsLimit.
From Verif Require ModelFiber ExFiber.
Import ListNotations.
Local Open Scope R_scope.
Local Open Scope py_scope.
Local Notation z0 := (RtoC 0).

(** y' = x^5 from 0 to 1 with hmin = 10: the first step to 0.1 is taken, the next one (0.6) is below hmin *)
Example ex_C42_runtime : exists g : G unit, integrate f5 2 (new_ode tt new_ctrl [z0] 0 1 (10 ^ 6) 0 (1 / 10) 10 (new_output (Some 5%nat)) false Float64) = (Raise RuntimeError, g) /\
  ((Z.of_nat (e_nok (g_ode g)) + Z.of_nat (e_nbad (g_ode g)) = 50000)%Z \/ Rabs (p_hnext (g_s g)) <= 10) /\ e_nok (g_ode g) = 1%nat.
Proof.
  cut (exists g : G unit, integrate f5 2 (new_ode tt new_ctrl [z0] 0 1 (10 ^ 6) 0 (1 / 10) 10 (new_output (Some 5%nat)) false Float64) = (Raise RuntimeError, g) /\ e_nok (g_ode g) = 1%nat).
  { intros (g & E & N). exists g. split; [exact E|]. split; [|exact N]. apply (C42_runtime_error unit f5 2 tt new_ctrl [z0] 0 1 (10 ^ 6) 0 (1 / 10) 10 5 false Float64 g); [|exact E]. intros x y w. discriminate. }
  destruct (integrate_start f5 2 tt new_ctrl [z0] 0 1 (10 ^ 6) 0 (1 / 10) 10 5 false Float64 [RtoC (0 ^ 5)] tt ltac:(lia) ltac:(discriminate) eq_refl) as (o & E & So). cbv iota in So. rewrite E.
  match goal with |- context [iloop f5 2 MAXSTP 0 ?G] => set (g := G) end. destruct MAXSTP_S as (m & ->).
  cbn [iloop]. unfold bind at 1, get at 1.
  assert (Eh : clip (p_x (g_s g)) (e_x1 (g_ode g)) (e_x2 (g_ode g)) (e_h (g_ode g)) = 1 / 10).
  { unfold g. cbn [g_s p_x g_ode e_x1 e_x2 e_h new_stepper]. unfold sgn. destruct (Rlt_dec 0 (1 - 0)) as [_|Z]; [|lra]. rewrite Rabs_pos_eq, Rmult_1_r by lra. apply clip5_keep; lra. }
  rewrite Eh. unfold bind at 1, set_e at 1, modify at 1. unfold bind at 1. set (g1 := mkG _ _ _ _ _).
  destruct (step5 2 (1 / 10) g1 ltac:(lia)) as (g2 & E2 & C2 & X2 & D2 & N2 & R2 & O2 & Od2).
  { unfold cond5, g1, g. cbn. repeat split. }
  { unfold g1, g. cbn. lra. } { lra. } { unfold g1, g. cbn. lra. }
  rewrite E2. unfold bind at 1, gets at 1. unfold bind at 1, set_e at 1, modify at 1. cbv beta. rewrite Od2. destruct (Req_EM_T (p_hdid (g_s g2)) (1 / 10)) as [_|Z]; [|contradiction].
  assert (Px : p_x (g_s g2) = 1 / 10) by (rewrite X2; unfold g1, g; cbn; lra). assert (Nn : p_hnext (g_s g2) = 6 * (1 / 10)) by (rewrite N2; reflexivity).
  unfold g1. cbn [g_ode e_x1 e_x2 e_hmin e_dense e_h e_nok e_nbad e_nstp e_ystart]. unfold bind at 1, record at 1. unfold bind at 1, get at 1. cbn [g_ode e_dense g_s].
  replace (e_dense (g_ode g)) with false by reflexivity. unfold onout at 1. cbn [g_out]. destruct C2 as (L2 & _ & _ & _ & T2). rewrite O2, T2.
  replace (g_out g1) with o by reflexivity. destruct (save_good 1 Float64 _ o (p_x (g_s g2)) (p_y (g_s g2)) So L2) as (o7 & E7 & _). rewrite E7.
  unfold bind at 1, get at 1. cbv zeta. cbn [g_ode e_x1 e_x2 e_hmin]. replace (e_x1 (g_ode g)) with 0 by reflexivity. replace (e_x2 (g_ode g)) with 1 by reflexivity. replace (e_hmin (g_ode g)) with 10 by reflexivity.
  rewrite Px, Nn. destruct (Rle_dec 0 ((1 / 10 - 1) * (1 - 0))) as [Z|_]; [lra|]. destruct (Rle_dec (Rabs (6 * (1 / 10))) 10) as [_|Z]; [|rewrite Rabs_pos_eq in Z; lra].
  eexists. split; [reflexivity|]. reflexivity.
Qed.
(** the same step seen from C41: 0.1 was attempted and taken *)
Example ex_C41_limit : forall g : G unit, p_x (g_s g) = 3 -> match step f5 2 (1 / 10) g with (Ok _, g') => p_hdid (g_s g') = 1 / 10 \/ 3 / 2 ^ 52 < Rabs (p_hdid (g_s g')) | _ => True end.
Proof. intros g Hx. pose proof (C41_underflow_limit unit f5 2 (1 / 10) g) as H. rewrite Hx, (Rabs_pos_eq 3) in H by lra. destruct (step f5 2 (1 / 10) g) as [[u|e] g']; [exact H|exact I]. Qed.
(** two fibers, the second generated: the first still knows nothing *)
Example ex_C57_fresh : let w := ModelFiber.frun ExFiber.pf ExFiber.sp (map ModelFiber.FNew [[]; []] ++ [ModelFiber.FGenerate 1 5 1550 [2] 0.1 0.5 "ps^n/m" "a"]) ModelFiber.fworld0 in
  fst (ModelFiber.fstep ExFiber.pf ExFiber.sp w (ModelFiber.FGain 0 ExFiber.p4)) = ModelFiber.FArr (Raise KeyError) /\ fst (ModelFiber.fstep ExFiber.pf ExFiber.sp w (ModelFiber.FBetas 0 ExFiber.p4 0)) = ModelFiber.FOpt (Raise KeyError).
Proof. apply (C57_unconfigured_partial ExFiber.pf ExFiber.sp [[]; []] [ModelFiber.FGenerate 1 5 1550 [2] 0.1 0.5 "ps^n/m" "a"] 0 ExFiber.p4 0); [cbn; lia|]. intros o [<-|[]]. discriminate. Qed.

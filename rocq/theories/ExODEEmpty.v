(** A concrete case for ODEEmptyProofs.v: a right-hand side that counts its calls and answers 1 at the twelfth, 0 otherwise; one equation, from 2 to 2, first step 1. *)
From Coq Require Import Reals List ZArith QArith Qreals Bool Arith Lia Lra.
From Coquelicot Require Import Complex.
From Verif Require Import Base CNum NumPy ModelDopr ModelODE ODEOutputProofs ODEStepProofs ODEIntProofs ODEEmptyProofs PropsODEEmpty.
Import ListNotations.
Local Open Scope R_scope.
Local Open Scope py_scope.
Local Notation z0 := (RtoC 0).

Definition fz (x : R) (y : list C) : M nat (list C) := fun w => (Ok [RtoC (if Nat.eqb w 11 then 1 else 0)], S w).
Lemma er12_neg : er12 < 0.
Proof. unfold er12. replace 0 with (Q2R 0) by (unfold Q2R; cbn; lra). apply Qlt_Rlt. reflexivity. Qed.

Lemma fz_bind {A} x y (k : list C -> M (G nat) A) w con s o e : bind (deriv fz 1 x y) k (mkG w con s o e) = k [RtoC (if Nat.eqb w 11 then 1 else 0)] (mkG (S w) con s o e).
Proof. reflexivity. Qed.
Lemma fz_attempt (g : G nat) : g_w g = 1%nat -> p_y (g_s g) = [RtoC 1] -> p_dydx (g_s g) = [z0] -> p_atol (g_s g) = 1 -> p_rtol (g_s g) = 0 -> exists g', attempts fz 1 (Some 0) g = (Ok 0, g').
Proof.
  destruct g as [w con s out e]. cbn [g_w g_s]. intros -> Hy Hd Ha Hr. cbn [attempts]. unfold bind at 1. unfold dy. unfold bind at 1, gets at 1. cbv zeta. cbn [g_s]. rewrite Hy, Hd.
  cbn [length]. do 11 (rewrite fz_bind; cbn [Nat.eqb]). unfold set_s, modify. unfold bind at 1, gets at 1. unfold bind at 1. cbn [g_w g_s g_con g_out g_ode].
  match goal with |- context [error ?s 0] => set (t := s) end.
  assert (Q : error t 0 = Fin 0).
  { assert (Ht : p_y t = [RtoC 1] /\ p_atol t = 1 /\ p_rtol t = 0 /\ nth 0 (p_yerr2 t) z0 = RtoC er12).
    { unfold t. cbn [p_y p_atol p_rtol p_yerr2]. rewrite Hy. repeat split; [exact Ha|exact Hr|]. unfold lincomb. rewrite mk_nth by lia. unfold comb. cbn [fold_left fst snd nth]. ring. }
    clearbody t. destruct Ht as (Ty & Ta & Tr & T2). unfold error. rewrite Ty. cbn [length seq existsb].
    assert (Sc : error_scale t 0 = 1) by (unfold error_scale; rewrite Ta, Tr; ring). cbv zeta. rewrite Sc. unfold isz at 1. destruct (Req_EM_T 1 0); [lra|]. cbn [orb].
    rewrite !rsum_S, !rsum_0, Sc, T2. cbn [INR].
    set (u := (Cmod (nth 0 (p_yerr t) z0) / 1) ^ 2). assert (Hu : 0 <= u) by (unfold u; apply pow2_ge_0).
    set (v := (Cmod (RtoC er12) / 1) ^ 2). assert (Hv : 0 < v). { unfold v. rewrite Cmod_R. pose proof er12_neg. rewrite Rabs_left by assumption. nra. }
    destruct (Rlt_dec (0 + v + 0.01 * (0 + u)) 0); [lra|]. unfold isz. destruct (Req_EM_T _ 0); [lra|]. f_equal. rewrite Rabs_R0, !Rmult_0_l. apply Rabs_R0. }
  unfold oncon. cbn [g_w g_s g_con g_out g_ode]. rewrite Q. unfold success. destruct (Rle_dec 0 1); [|lra]. destruct (Rlt_dec 0 0); [lra|]. unfold bind, modify, ret. eexists. reflexivity.
Qed.
Example ex_C42_empty : exists g, integrate fz 1 (new_ode 0%nat new_ctrl [RtoC 1] 2 2 1 0 1 0 (new_output (Some 0%nat)) false Complex128) = (Ok tt, g) /\ p_y (g_s g) = [RtoC 1] /\ p_x (g_s g) = 2.
Proof.
  assert (E : exists g, integrate fz 1 (new_ode 0%nat new_ctrl [RtoC 1] 2 2 1 0 1 0 (new_output (Some 0%nat)) false Complex128) = (Ok tt, g)).
  2: { destruct E as (g & E). exists g. split; [exact E|]. destruct (C42_empty_interval _ _ _ _ _ _ _ _ _ _ _ _ _ _ _ E) as (A & B & _). auto. }
  rewrite integrate_unfold. unfold new_ode. cbn [g_s g_ode p_y e_x1 e_h new_stepper]. pose proof (stored_init 1 Complex128 0 2 2) as Hs. cbn [length] in *. set (o0 := out_init 1 2 2 Complex128 _) in *. clearbody o0.
  replace (Rabs 1 * sgn (2 - 2)) with 0 by (unfold sgn; replace (2 - 2) with 0 by ring; destruct (Rlt_dec 0 0); [lra|ring]).
  unfold bind at 1. unfold deriv at 1, onw, fz at 1. unfold bind at 1, ret at 1. cbn [g_w g_con g_s g_out g_ode Nat.eqb]. unfold bind at 1, set_s, modify. unfold bind at 1. cbn [g_w g_con g_s g_out g_ode].
  set (g2 := mkG 1%nat _ _ _ _). pose proof (record_spec 1 (-1) 2 [RtoC 1] 0 g2 1 Complex128 [] Hs eq_refl eq_refl eq_refl) as R.
  destruct (record 1 (-1) 2 [RtoC 1] 0 g2) as [r3 g3]. destruct R as (R1 & R2 & R3 & R4 & R5 & l' & R6 & R7 & _). destruct (R7 eq_refl) as (-> & ->). clear R7.
  unfold g2 in R1, R3, R4. cbn [g_w g_s g_ode] in R1, R3, R4. clear R2 R5 g2 Hs. change MAXSTP with (S (pred MAXSTP)). generalize (pred MAXSTP). intros left. cbn [iloop]. unfold bind at 1, get. rewrite R3, R4. cbn [p_x new_stepper e_x1 e_x2 e_h].
  replace (clip 2 2 2 0) with 0 by (unfold clip; replace (2 - 2) with 0 by ring; destruct (Req_EM_T 0 0); congruence).
  unfold bind at 1, set_e at 1, modify. unfold bind at 1. set (g4 := mkG _ _ _ _ _).
  assert (G4 : g_w g4 = 1%nat /\ g_s g4 = g_s g3 /\ g_out g4 = g_out g3 /\ g_ode g4 = mkOde 2 2 0 false 0 0 0 0 [RtoC 1]) by (unfold g4; cbn [g_w g_s g_out g_ode]; rewrite R4; auto).
  clearbody g4. destruct G4 as (Gw & Gs & Go & Ge).
  assert (St : exists g5, step fz 1 0 g4 = (Ok tt, g5)).
  { destruct (fz_attempt g4) as (g' & A); [exact Gw|rewrite Gs, R3; reflexivity..|]. unfold step. unfold bind at 1. rewrite A. pose proof (attempts_zero fz 1 g4 g' 0 A) as (_ & _ & Sm).
    unfold bind at 1, gets at 1. unfold bind at 1. unfold deriv, onw, fz, bind, ret. cbn [g_s].
    assert (D : p_dense (g_s g') = false). { destruct Sm as (_ & _ & _ & _ & _ & _ & D & _). rewrite D, Gs, R3. reflexivity. }
    rewrite D. unfold get, set_s, modify. eexists. reflexivity. }
  destruct St as (g5 & St). rewrite St. pose proof (step_spec fz 1 0 g4) as SS. rewrite St in SS. destruct SS as (So & Se & _ & _ & _ & _ & _ & Sn & Sdt & _). rewrite Gs, R3 in Sn, Sdt. cbn [p_y p_dtype new_stepper length] in Sn, Sdt.
  destruct (step_zero fz 1 g4 g5 tt St) as (Sx & _). rewrite Gs, R3 in Sx. cbn [p_x new_stepper] in Sx.
  unfold bind at 1, gets at 1. unfold bind at 1, set_e at 1, modify. unfold bind at 1. set (g6 := mkG _ _ _ _ _).
  assert (H6 : g_s g6 = g_s g5 /\ stored 1 Complex128 ([] ++ [(2, [RtoC 1])]) (g_out g6) /\ e_x1 (g_ode g6) = 2 /\ e_x2 (g_ode g6) = 2 /\ e_dense (g_ode g6) = false).
  { unfold g6. cbn [g_s g_out g_ode]. rewrite So, Go, Se, Ge. split; [reflexivity|]. split; [exact R6|]. destruct (Req_EM_T _ _); cbn; auto. }
  clearbody g6. destruct H6 as (H6 & S6 & X1 & X2 & D6).
  pose proof (record_spec 1 (Z.of_nat 0) (p_x (g_s g5)) (p_y (g_s g5)) (p_hdid (g_s g5)) g6 1 Complex128 _ S6 ltac:(congruence) Sn ltac:(congruence)) as R. destruct (record _ _ _ _ _ g6) as [r7 g7].
  destruct R as (_ & _ & _ & Q4 & _ & l7 & Q6 & Q7 & _). destruct (Q7 D6) as (-> & _). unfold bind at 1, get. cbv zeta. rewrite Q4, X1, X2, Sx.
  destruct (Rle_dec 0 ((2 - 2) * (2 - 2))) as [_|N]; [|exfalso; apply N; lra]. unfold bind at 1, set_e at 1, modify.
  destruct (match o_kmax (g_out g7) with Some km => Nat.ltb 0 km | None => false end); [destruct (Rlt_dec _ _)|]; try (eexists; reflexivity).
  unfold onout. cbn [g_out]. rewrite Sdt. destruct (save_good 1 Complex128 l7 (g_out g7) 2 (p_y (g_s g5)) Q6 Sn) as (o' & E & _). rewrite E. eexists. reflexivity.
Qed.

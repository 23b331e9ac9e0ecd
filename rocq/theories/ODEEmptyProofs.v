(** Integrating over an empty interval (C42). *)
From Coq Require Import Reals List ZArith Bool Arith Lia Lra.
From Coquelicot Require Import Complex.
From Verif Require Import Base CNum NumPy ModelDopr ModelODE ODEOutputProofs ODEStepProofs ODETableauProofs ODEIntProofs.
Import ListNotations.
Local Open Scope R_scope.
Local Open Scope py_scope.
Local Notation z0 := (RtoC 0).

Lemma ytemp_zero y l : ytemp y 0 l = y.
Proof.
  unfold ytemp. apply (nth_ext _ _ z0 z0); [apply mk_length|]. intros i Hi. rewrite mk_length in Hi. rewrite mk_nth by exact Hi. ring.
Qed.

Section Empty.
  Context {W : Type}.
  Variable f : R -> list C -> M W (list C).

  Lemma dy_zero (g g' : G W) : dy f 0 g = (Ok tt, g') -> p_yout (g_s g') = p_y (g_s g).
  Proof.
    unfold dy. unfold bind at 1, gets at 1. cbv zeta. intros E.
    pose (good := fun k : M (G W) unit => forall g1, g_s g1 = g_s g -> k g1 = (Ok tt, g') -> p_yout (g_s g') = p_y (g_s g)).
    assert (Q : forall n x y (k : list C -> M (G W) unit), (forall a, good (k a)) -> good (bind (deriv f n x y) k)).
    { intros n x y k Hk g1 Hs. unfold bind. pose proof (deriv_s f n x y g1) as Ds. destruct (deriv f n x y g1) as [[a|e] g2]; [|discriminate]. cbn [snd] in Ds. intros H. apply (Hk a g2); [congruence|exact H]. }
    refine ((_ : good _) g eq_refl E). clear E. do 11 (apply Q; intros ?).
    intros g1 Hs. unfold set_s, modify. intros H. apply (f_equal snd) in H. cbn [snd] in H. rewrite <- H. cbn [g_s p_yout]. apply ytemp_zero.
  Qed.
  Lemma nan_attempts fuel : forall (g g' : G W) h, attempts f fuel None g <> (Ok h, g').
  Proof. destruct fuel as [|k]; intros g g' h; cbn; discriminate. Qed.
  Lemma attempts_zero fuel (g g' : G W) h : attempts f fuel (Some 0) g = (Ok h, g') -> h = 0 /\ p_yout (g_s g') = p_y (g_s g) /\ same_step (g_s g) (g_s g').
  Proof.
    intros E. pose proof (attempts_spec f fuel 0 g) as A. rewrite E in A. destruct A as ((_ & _ & K) & _ & _ & _ & (t & _ & Ht) & _). split; [rewrite Ht; ring|]. split; [|exact K].
    destruct fuel as [|k]; [discriminate|]. cbn [attempts] in E. unfold bind at 1 in E. pose proof (dy_zero g) as D. destruct (dy f 0 g) as [[[]|e] g1]; [|discriminate]. specialize (D g1 eq_refl).
    unfold bind at 1, gets at 1 in E. unfold bind at 1, oncon in E. pose proof (success_spec (error (g_s g1) 0) 0 (g_con g1) (error_ok _ _)) as S.
    destruct (success (error (g_s g1) 0) (Some 0) (g_con g1)) as [[[[|] [h'|]]|e] c1]; try (exfalso; eapply nan_attempts; exact E); try discriminate.
    - unfold ret in E. apply (f_equal snd) in E. cbn [snd] in E. rewrite <- E. exact D.
    - destruct S as (_ & _ & _ & k' & _ & ->). rewrite Rmult_0_l, Rabs_R0 in E. destruct (Rle_dec 0 (Rabs (p_x (g_s g1)) * EPS)) as [|N]; [discriminate|].
      exfalso. apply N. apply Rmult_le_pos; [apply Rabs_pos|]. unfold EPS. lra.
  Qed.
  Lemma step_zero fuel (g g' : G W) u : step f fuel 0 g = (Ok u, g') -> p_x (g_s g') = p_x (g_s g) /\ p_y (g_s g') = p_y (g_s g) /\ p_hdid (g_s g') = 0 /\ g_ode g' = g_ode g.
  Proof.
    intros E. pose proof (step_spec f fuel 0 g) as S. rewrite E in S. destruct S as (_ & Se & (t & _ & Ht) & Sx & _). rewrite Rmult_0_r in Ht. split; [rewrite Sx, Ht; ring|]. split; [|auto].
    unfold step in E. unfold bind at 1 in E. pose proof (attempts_zero fuel g) as A. destruct (attempts f fuel (Some 0) g) as [[h|e] g1]; [|discriminate]. destruct (A g1 h eq_refl) as (-> & Y & _). clear A.
    unfold bind at 1, gets at 1 in E. unfold bind at 1 in E. pose proof (deriv_s f (length (p_y (g_s g1))) (p_x (g_s g1) + 0) (p_yout (g_s g1)) g1) as Ds. destruct (deriv f _ _ _ g1) as [[dn|e] g2]; [|discriminate]. cbn [snd] in Ds.
    unfold bind at 1 in E.
    assert (Kp : forall m : M (G W) unit, (forall a, p_yout (g_s (snd (m a))) = p_yout (g_s a)) -> forall g3 v, m g2 = (Ok v, g3) -> p_yout (g_s g3) = p_y (g_s g)).
    { intros m Hm g3 v H. specialize (Hm g2). rewrite H in Hm. cbn [snd] in Hm. congruence. }
    pose proof (Kp (if p_dense (g_s g1) then prepare_dense f 0 dn else ret tt)) as P.
    destruct ((if p_dense (g_s g1) then prepare_dense f 0 dn else ret tt) g2) as [[v|e] g3] eqn:E3; [|discriminate].
    assert (Y3 : p_yout (g_s g3) = p_y (g_s g)).
    { apply (P) with (v := v); [|reflexivity]. intros a. destruct (p_dense (g_s g1)); [|reflexivity]. clear. 
      unfold prepare_dense. unfold bind at 1, gets at 1. cbv zeta. destruct (p_k (g_s a)).
      pose (good := fun k : M (G W) unit => forall b, g_s b = g_s a -> p_yout (g_s (snd (k b))) = p_yout (g_s a)).
      assert (Q : forall n x y (k : list C -> M (G W) unit), (forall c, good (k c)) -> good (bind (deriv f n x y) k)).
      { intros n x y k Hk b Hs. unfold bind. pose proof (deriv_s f n x y b) as Ds. destruct (deriv f n x y b) as [[c|e] b2]; cbn [snd] in *; [apply Hk|]; congruence. }
      refine ((_ : good _) a eq_refl). do 3 (apply Q; intros ?). intros b Hs. unfold set_s, modify. cbn [snd g_s p_yout]. now rewrite Hs. }
    unfold bind, get, set_s, modify in E. apply (f_equal snd) in E. cbn [snd] in E. rewrite <- E. exact Y3.
  Qed.
  Lemma record_s fuel n x y h (g : G W) : g_s (snd (record fuel n x y h g)) = g_s g /\ g_ode (snd (record fuel n x y h g)) = g_ode g.
  Proof.
    unfold record, bind, get. destruct (e_dense (g_ode g)); unfold onout; [destruct (out_out _ _ _ _ _ _ (g_out g))|destruct (save _ _ _ (g_out g))]; split; reflexivity.
  Qed.
End Empty.

(*! C42: an integration from x to x itself (whatever the right-hand side, the first step asked for, the output object and the dense flag), if it returns, returns at x with the start values, reported as the result, after exactly one step, of length zero. *)
Lemma C42_empty_interval_l : forall (W : Type) (f : R -> list C -> M W (list C)) (fuel : nat) (w : W) (con : ctrl) (ys : list C) (x atol rtol h1 hmin : R) (out : output) (dense : bool) (dt : dtype) (g : G W),
  integrate f fuel (new_ode w con ys x x atol rtol h1 hmin out dense dt) = (Ok tt, g) ->
  p_x (g_s g) = x /\ p_y (g_s g) = ys /\ e_ystart (g_ode g) = ys /\ p_hdid (g_s g) = 0 /\ e_nok (g_ode g) = 1%nat /\ e_nbad (g_ode g) = 0%nat.
Proof.
  intros W f fuel w con ys x atol rtol h1 hmin out dense dt g. rewrite integrate_unfold. unfold new_ode. cbn [g_s g_ode p_y e_x1 e_h new_stepper]. set (g0 := mkG w _ _ _ _).
  unfold bind at 1. pose proof (keeps_deriv f (length ys) x ys g0) as K. pose proof (deriv_s f (length ys) x ys g0) as Ks. destruct (deriv f (length ys) x ys g0) as [[d|e] g1]; [|discriminate]. cbn [snd] in K, Ks. destruct K as (_ & _ & Ke & _).
  unfold bind at 1, set_s, modify. unfold bind at 1. set (g2 := mkG (g_w g1) _ _ _ _).
  assert (H2 : p_x (g_s g2) = x /\ p_y (g_s g2) = ys /\ g_ode g2 = mkOde x x hmin dense 0 0 0 0 ys).
  { unfold g2. cbn [g_s g_ode p_x p_y]. rewrite Ks, Ke. split; [reflexivity|]. split; [reflexivity|]. unfold g0. cbn [g_ode]. unfold sgn. replace (x - x) with 0 by ring. destruct (Rlt_dec 0 0); [lra|]. now rewrite Rmult_0_r. }
  clearbody g2. pose proof (record_s fuel (-1) x ys (Rabs h1 * sgn (x - x)) g2) as (R1 & R2). destruct (record fuel (-1) x ys (Rabs h1 * sgn (x - x)) g2) as [[u|e] g3]; [|discriminate]. cbn [snd] in R1, R2.
  destruct H2 as (Hx & Hy & He). rewrite <- R1 in Hx, Hy. rewrite <- R2 in He. clear - Hx Hy He.
  change MAXSTP with (S (pred MAXSTP)). generalize (pred MAXSTP). intros left. cbn [iloop]. unfold bind at 1, get. rewrite He. cbn [e_x1 e_x2 e_h].
  replace (clip (p_x (g_s g3)) x x 0) with 0 by (unfold clip; replace (x - x) with 0 by ring; destruct (Req_EM_T 0 0); congruence).
  unfold bind at 1, set_e at 1, modify. unfold bind at 1. set (g4 := mkG _ _ _ _ _). pose proof (step_zero f fuel g4) as S. destruct (step f fuel 0 g4) as [[v|e] g5]; [|discriminate].
  destruct (S g5 v eq_refl) as (Sx & Sy & Sh & Se). clear S. unfold g4 in Sx, Sy, Se. cbn [g_s g_ode] in Sx, Sy, Se. rewrite He in Se. cbn [e_x1 e_x2 e_hmin e_dense e_nok e_nbad e_ystart] in Se. rewrite Hx in Sx. rewrite Hy in Sy. clear g4.
  unfold bind at 1, gets at 1. unfold bind at 1, set_e at 1, modify. unfold bind at 1. set (g6 := mkG _ _ _ _ _).
  assert (H6 : g_s g6 = g_s g5 /\ g_ode g6 = mkOde x x hmin dense 0 1 0 0 ys).
  { unfold g6. cbn [g_s g_ode]. split; [reflexivity|]. rewrite Sh, Se. destruct (Req_EM_T 0 0); [reflexivity|congruence]. }
  clearbody g6. destruct H6 as (H6 & E6).
  pose proof (record_s fuel (Z.of_nat 0) (p_x (g_s g5)) (p_y (g_s g5)) (p_hdid (g_s g5)) g6) as (R3 & R4). destruct (record _ _ _ _ _ g6) as [[u'|e] g7]; [|discriminate]. cbn [snd] in R3, R4. rewrite E6 in R4. rewrite H6 in R3.
  unfold bind at 1, get. cbv zeta. rewrite R4. cbn [e_x1 e_x2]. rewrite Sx. replace ((x - x) * (x - x)) with 0 by ring. destruct (Rle_dec 0 0) as [_|]; [|lra].
  unfold bind at 1, set_e at 1, modify.
  assert (Fin : forall r : G W, g_s r = g_s g5 -> g_ode r = mkOde x x hmin dense 0 1 0 0 ys -> p_x (g_s r) = x /\ p_y (g_s r) = ys /\ e_ystart (g_ode r) = ys /\ p_hdid (g_s r) = 0 /\ e_nok (g_ode r) = 1%nat /\ e_nbad (g_ode r) = 0%nat).
  { intros r -> ->. cbn. auto 10. }
  rewrite R4. cbn [e_x1 e_x2 e_hmin e_dense e_h e_nok e_nbad e_nstp]. rewrite Sy. intros H.
  assert (Z : g_s g = g_s g5 /\ g_ode g = mkOde x x hmin dense 0 1 0 0 ys).
  { destruct (match o_kmax (g_out g7) with Some km => Nat.ltb 0 km | None => false end); [destruct (Rlt_dec _ _)|].
    - unfold onout in H. destruct (save _ _ _ _) as [rs o]. apply (f_equal snd) in H. cbn [snd] in H. rewrite <- H. cbn [g_s g_ode]. auto.
    - unfold ret in H. apply (f_equal snd) in H. cbn [snd] in H. rewrite <- H. cbn [g_s g_ode]. auto.
    - unfold ret in H. apply (f_equal snd) in H. cbn [snd] in H. rewrite <- H. cbn [g_s g_ode]. auto. }
  destruct Z as (Z1 & Z2). apply Fin; assumption.
Qed.

(** Runs of the adaptive solver as chains of Dormand-Prince steps between the stored samples. *)
From Coq Require Import Reals List ZArith Bool Arith Lia Lra.
From Coquelicot Require Import Complex.
From Verif Require Import Base CNum NumPy ModelDopr ModelODE ODEOutputProofs ODEStepProofs ODETableauProofs ODEIntProofs.
Import ListNotations.
Local Open Scope R_scope.
Local Open Scope py_scope.
Local Notation z0 := (RtoC 0).

Section Chain.
  Context {W : Type}.
  Variable f : R -> list C -> M W (list C).
  (** J holds of the stepper before every step, Q relates the points before and after one *)
  Variables (J : stepper -> Prop) (Q : R * list C -> R * list C -> Prop).
  Hypothesis HJ : forall fuel h g g', J (g_s g) -> step f fuel h g = (Ok tt, g') -> J (g_s g') /\ Q (p_x (g_s g), p_y (g_s g)) (p_x (g_s g'), p_y (g_s g')).
  Definition linked (l : list (R * list C)) : Prop := forall i, (S i < length l)%nat -> Q (nth i l (0, [])) (nth (S i) l (0, [])).
  Lemma linked_app l p : linked l -> l <> [] -> Q (last l (0, [])) p -> linked (l ++ [p]).
  Proof.
    intros H Hl Hp i Hi. rewrite app_length in Hi. cbn [length] in Hi. destruct (Nat.eq_dec (S i) (length l)) as [E|E].
    - rewrite (app_nth1 l) by lia. rewrite (app_nth2 l) by lia. rewrite E, Nat.sub_diag. cbn [nth]. rewrite last_nth' in Hp by exact Hl. replace (length l - 1)%nat with i in Hp by lia. exact Hp.
    - rewrite !app_nth1 by lia. apply H. lia.
  Qed.
  Definition ended (n : nat) (dt : dtype) (x1 x2 : R) (ys : list C) (g : G W) : Prop :=
    exists l, stored n dt l (g_out g) /\ (length l = e_nok (g_ode g) + e_nbad (g_ode g) + 1)%nat /\ nth 0 l (0, []) = (x1, ys) /\ last l (0, []) = (x2, e_ystart (g_ode g)) /\ mono (x2 - x1) (map fst l) /\ linked l.
  Lemma iloop_chain n dt x1 x2 hmin ys fuel : 0 <= hmin -> forall left nstp l g g', (left + nstp = MAXSTP)%nat -> inv n dt x1 x2 hmin false ys nstp l g -> J (g_s g) -> linked l ->
    iloop f fuel left nstp g = (Ok tt, g') -> ended n dt x1 x2 ys g'.
  Proof.
    intros Hm. induction left as [|left IH]; intros nstp l g g' Hl Hi HJg HQl E; [discriminate|].
    pose proof (iloop_spec f n dt x1 x2 hmin false ys fuel Hm (S left) nstp l g Hl Hi) as Po. rewrite E in Po. destruct Po as (_ & _ & PX & PY & _).
    destruct Hi as (Hs & Hdt & Hn & Hx1 & Hx2 & Hhm & Hde & Hy & Hc & A & B & (c & Hc0 & Hh) & Htr). destruct (Htr eq_refl) as (T1 & T2 & T3 & T4). assert (Ne : l <> []) by (destruct l; [discriminate|discriminate]).
    cbn [iloop] in E. unfold bind at 1, get in E. rewrite Hx1, Hx2 in E. set (h := clip (p_x (g_s g)) x1 x2 (e_h (g_ode g))) in E. unfold bind at 1, set_e, modify in E. unfold bind at 1 in E.
    match type of E with context [step f fuel h ?G] => set (g1 := G) in E end.
    pose proof (step_spec f fuel h g1) as S. destruct (step f fuel h g1) as [[[]|e] g2] eqn:Es; [|discriminate].
    destruct (HJ fuel h g1 g2 HJg Es) as [HJ2 HQ2]. unfold g1 in HQ2. cbn [g_s] in HQ2. rewrite <- T4 in HQ2.
    destruct S as (So & Se & (t & Ht & Hdid) & Sx & Sxo & (k & Hk & Hhn) & Srej & Sn & Sdt & Sde & _). unfold g1 in So, Se, Sx, Sxo, Sn, Sdt, Sde. cbn [g_out g_ode g_s] in So, Se, Sx, Sxo, Sn, Sdt, Sde.
    destruct (clip_cases (p_x (g_s g)) x1 x2 (e_h (g_ode g)) c B Hh Hc0 t Ht) as (C1 & C2 & C3 & c' & Hc' & Ecl). fold h in C1, C2, C3, Ecl. rewrite <- Hdid, <- Sx in C1, C2, C3.
    unfold bind at 1, gets in E. unfold bind at 1 in E. unfold bind at 1 in E. match type of E with context [record fuel _ _ _ _ ?G] => set (g3 := G) in E end.
    assert (G3 : g_out g3 = g_out g /\ g_s g3 = g_s g2 /\ g_con g3 = g_con g2 /\ e_x1 (g_ode g3) = x1 /\ e_x2 (g_ode g3) = x2 /\ e_hmin (g_ode g3) = hmin /\ e_dense (g_ode g3) = false /\ e_ystart (g_ode g3) = ys /\ (e_nok (g_ode g3) + e_nbad (g_ode g3) = S nstp)%nat).
    { unfold g3. cbn [g_out g_s g_con g_ode]. rewrite So, Se. destruct (Req_EM_T _ _); cbn [e_x1 e_x2 e_hmin e_dense e_ystart e_nok e_nbad]; repeat split; auto; lia. }
    clearbody g3. destruct G3 as (G3o & G3s & G3c & G3x1 & G3x2 & G3hm & G3de & G3y & G3n).
    assert (A' : 0 <= (p_x (g_s g2) - x1) * (x2 - x1)) by lra.
    pose proof (record_spec fuel (Z.of_nat nstp) (p_x (g_s g2)) (p_y (g_s g2)) (p_hdid (g_s g2)) g3 n dt l) as R. rewrite G3o, G3s in R. specialize (R Hs ltac:(congruence) ltac:(congruence) ltac:(congruence)).
    destruct (record fuel (Z.of_nat nstp) (p_x (g_s g2)) (p_y (g_s g2)) (p_hdid (g_s g2)) g3) as [r4 g4]. destruct R as (R1 & R2 & R3 & R4 & R5 & l' & R6 & R7 & R8). rewrite G3de in R7. destruct (R7 eq_refl) as [-> ->].
    unfold bind at 1 in E. cbv zeta in E. rewrite R4, G3x1, G3x2, G3hm in E.
    pose proof (linked_app l (p_x (g_s g2), p_y (g_s g2)) HQl Ne HQ2) as HL. destruct (Rle_dec 0 ((p_x (g_s g2) - x2) * (x2 - x1))) as [Q0|Q0].
    - assert (X2 : p_x (g_s g2) = x2). { destruct (Req_EM_T x2 (p_x (g_s g2))) as [E0|E0]; [now symmetry|]. specialize (C3 E0). lra. }
      unfold bind at 1 in E. match type of E with (if ?b then ?T else ?U) ?G = _ => set (g5 := G) in E; set (bb := b) in E end.
      assert (G5 : g_out g5 = g_out g4 /\ e_ystart (g_ode g5) = p_y (g_s g2) /\ e_nok (g_ode g5) = e_nok (g_ode g3) /\ e_nbad (g_ode g5) = e_nbad (g_ode g3)).
      { unfold g5. cbn [g_s g_con g_out g_ode e_ystart e_nok e_nbad]. rewrite R4. repeat split; congruence. }
      clearbody g5. destruct G5 as (G5o & G5y & G5k & G5b).
      assert (Fin : forall g6, g_out g6 = g_out g4 -> g_ode g6 = g_ode g5 -> ended n dt x1 x2 ys g6).
      { intros g6 O6 E6. exists (l ++ [(p_x (g_s g2), p_y (g_s g2))]). rewrite O6, E6, G5y, G5k, G5b. split; [exact R6|]. rewrite app_length. cbn [length]. split; [lia|].
        split; [rewrite app_nth1 by (destruct l; [contradiction|cbn; lia]); exact T2|]. split; [rewrite last_last; congruence|]. split; [|exact HL].
        rewrite map_app. cbn [map fst]. apply mono_app; [exact T3|destruct l; [contradiction|discriminate]|]. rewrite last_map' with (d := (0, [])) by exact Ne. rewrite T4. cbn [fst]. rewrite X2. exact B. }
      destruct bb.
      + destruct (Rlt_dec _ _) as [Z|Z].
        * exfalso. assert (H : last_saved (g_out g4) = x2).
          { destruct R6 as (km & _ & _ & Lx & _ & Cn & _ & _ & _ & Fx & _). unfold last_saved. rewrite Cn, app_length. cbn [length]. replace (length l + 1)%nat with (S (length l)) by lia. rewrite app_length in Fx. cbn [length] in Fx.
            rewrite <- (firstn_skipn (length l + 1) (o_xsave (g_out g4))). rewrite Fx, map_app, app_nth1 by (rewrite app_length, map_length; cbn; lia). rewrite app_nth2; rewrite map_length; [|lia]. rewrite Nat.sub_diag. exact X2. }
          rewrite H, Rminus_eq_0, Rabs_R0 in Z. pose proof (Rabs_pos x2). pose proof EPS_pos. nra.
        * unfold ret in E. injection E as <-. now apply Fin.
      + unfold ret in E. injection E as <-. now apply Fin.
    - assert (B' : 0 < (x2 - p_x (g_s g2)) * (x2 - x1)) by lra.
      destruct (Rle_dec (Rabs (p_hnext (g_s g2))) hmin) as [Z|Z]; [discriminate|].
      unfold bind at 1 in E. match type of E with iloop _ _ _ _ ?G = _ => set (g5 := G) in E end. refine (IH (S nstp) _ g5 g' ltac:(lia) _ _ HL E); [|unfold g5; cbn [g_s]; rewrite R3; exact HJ2].
      unfold inv, g5. cbn [g_out g_s g_ode e_x1 e_x2 e_hmin e_dense e_ystart e_nok e_nbad e_h]. rewrite R3, R4.
      split; [exact R6|]. split; [congruence|]. split; [congruence|]. do 6 (split; [congruence|]). split; [exact A'|]. split; [exact B'|]. split.
      + exists (k * (t * c')). split; [apply Rmult_le_pos; nra|]. rewrite Hhn, Hdid, Ecl. ring.
      + intros _. rewrite app_length. cbn [length]. split; [lia|].
        split; [rewrite app_nth1 by (destruct l; [contradiction|cbn; lia]); exact T2|]. split; [|rewrite last_last; congruence].
        rewrite map_app. cbn [map fst]. apply mono_app; [exact T3|destruct l; [contradiction|discriminate]|]. rewrite last_map' with (d := (0, [])) by exact Ne. rewrite T4. cbn [fst].
        assert (p_hnext (g_s g2) <> 0). { intros E0. apply Z. rewrite E0, Rabs_R0. exact Hm. } assert (p_hdid (g_s g2) <> 0) by (intros E0; rewrite Hhn, E0 in H; apply H; ring).
        rewrite Sx in *. replace (p_x (g_s g) + p_hdid (g_s g2) - p_x (g_s g)) with (p_hdid (g_s g2)) in * by ring. rewrite Hdid, Ecl in *. assert (x2 - x1 <> 0) by (intros E0; rewrite E0 in B; lra). nra.
  Qed.
  Lemma integrate_chain fuel w con ys x1 x2 atol rtol h1 hmin k dt g' : x1 <> x2 -> 0 <= hmin ->
    (forall g d g1, g_s g = new_stepper ys x1 atol rtol false dt -> deriv f (length ys) x1 ys g = (Ok d, g1) -> forall s, p_x s = x1 -> p_y s = ys -> p_dydx s = d -> J s) ->
    integrate f fuel (new_ode w con ys x1 x2 atol rtol h1 hmin (new_output (Some k)) false dt) = (Ok tt, g') -> ended (length ys) dt x1 x2 ys g'.
  Proof.
    intros Hx Hm J0 E. rewrite integrate_unfold in E. unfold new_ode in E. cbn [g_s g_ode p_y e_x1 e_h new_stepper] in E. match type of E with bind _ _ ?G = _ => set (g := G) in E end.
    unfold bind at 1 in E. pose proof (keeps_deriv f (length ys) x1 ys g) as K. destruct (deriv f (length ys) x1 ys g) as [[d|e] g1] eqn:Ed; [|discriminate]. cbn [fst snd] in K.
    destruct K as (K1 & K2 & K3 & K4 & K5 & K6 & K7 & K8 & K9 & K10 & K11 & K12 & K13).
    unfold bind at 1, set_s, modify in E. unfold bind at 1 in E. match type of E with context [record fuel _ _ _ _ ?G] => set (g2 := G) in E end.
    assert (Hs : stored (length ys) dt [] (g_out g2)) by (unfold g2; cbn [g_out]; rewrite K2; apply stored_init).
    assert (Hdt : p_dtype (g_s g2) = dt) by (unfold g2; cbn [g_s p_dtype]; rewrite K13; reflexivity).
    assert (Hy : p_y (g_s g2) = ys) by (unfold g2; cbn [g_s p_y]; rewrite K6; reflexivity).
    assert (Hpx : p_x (g_s g2) = x1) by (unfold g2; cbn [g_s p_x]; rewrite K4; reflexivity).
    assert (Hpd : p_dydx (g_s g2) = d) by reflexivity.
    assert (He : g_ode g2 = mkOde x1 x2 hmin false (Rabs h1 * sgn (x2 - x1)) 0 0 0 ys) by (unfold g2; cbn [g_ode]; rewrite K3; reflexivity).
    clearbody g2. pose proof (record_spec fuel (-1) x1 ys (Rabs h1 * sgn (x2 - x1)) g2 (length ys) dt [] Hs Hdt eq_refl ltac:(congruence)) as R.
    destruct (record fuel (-1) x1 ys (Rabs h1 * sgn (x2 - x1)) g2) as [r3 g3]. destruct R as (R1 & R2 & R3 & R4 & R5 & l' & R6 & R7 & R8). rewrite He in R4, R7. cbn [e_dense] in R7. destruct (R7 eq_refl) as [-> ->].
    cbn [app] in R6. apply (iloop_chain (length ys) dt x1 x2 hmin ys fuel Hm MAXSTP 0 [(x1, ys)] g3 g'); [apply Nat.add_0_r| | | |exact E].
    - unfold inv. rewrite R3, R4, Hpx, Hy. cbn [e_x1 e_x2 e_hmin e_dense e_ystart e_nok e_nbad e_h].
      split; [exact R6|]. split; [exact Hdt|]. do 7 (split; [reflexivity|]). split; [replace ((x1 - x1) * (x2 - x1)) with 0 by ring; lra|]. split; [nra|]. split; [apply sgn_mul; lra|].
      intros _. cbn [length nth map fst last]. repeat split. intros i Hi. cbn [length] in Hi. lia.
    - rewrite R3. apply (J0 g d g1 eq_refl Ed); assumption.
    - intros i Hi. cbn [length] in Hi. lia.
  Qed.
End Chain.

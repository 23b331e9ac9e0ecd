(** The Dormand-Prince step on arbitrary smooth systems: the step is of order 8, the interpolant of order 7, the two error
    estimates vanish to orders 3 and 5 (C114). *)
From Coq Require Import QArith Qreals Reals List ZArith Bool Arith Lia Lra.
From Coquelicot Require Import Complex.
From Verif Require Import Base CNum NumPy ModelDopr ModelODE ODEStepProofs ODETableauProofs SSFMGnlseProofs ODELinearProofs ODETreeProofs BSeriesProofs.
Import ListNotations.
Local Open Scope R_scope.
Local Open Scope py_scope.
Local Notation z0 := (RtoC 0).
Opaque SC.

(** ** The stages as functions of the step size *)
Section Stages.
  Variables (n : nat) (phi : R -> list C -> nat -> C) (x0 : R) (y0 : list C).
  Local Notation zf := (fun _ : nat => z0).
  Fixpoint stl (m : nat) (h : R) : list (nat -> C) :=
    match m with
    | O => []
    | S m => let st := stl m h in
      st ++ [fun i => phi (x0 + rn m * h) (shifted n y0 (fun j => RtoC h * csum 16 (fun l => RtoC (ra m l) * nth l st zf j))%C) i]
    end.
  Definition kk (m : nat) (h : R) : nat -> C := nth m (stl 16 h) zf.
  Notation dst := (dst n 16 ra rn kk).
  Lemma stl_len m h : length (stl m h) = m.
  Proof. induction m as [|m IH]; [reflexivity|]. cbn [stl]. cbv zeta. rewrite app_length, IH. cbn [length]. lia. Qed.
  Lemma stl_prefix l m h k : (l < m)%nat -> nth l (stl (m + k) h) zf = nth l (stl m h) zf.
  Proof.
    intros Hl. induction k as [|k IH]; [now rewrite Nat.add_0_r|]. rewrite Nat.add_succ_r. cbn [stl]. cbv zeta. rewrite app_nth1 by (rewrite stl_len; lia). exact IH.
  Qed.
  Lemma ra_low m l : (m <= l)%nat -> ra m l = 0.
  Proof.
    intros H. unfold ra, row. rewrite nth_overflow; [unfold Rdiv; ring|]. assert (length (nth m ZA []) <= m)%nat; [|lia]. clear. do 16 (destruct m as [|m]; [cbn; lia|]). destruct m; cbn; lia.
  Qed.
  Lemma kk_eq m h i : (m < 16)%nat -> (i < n)%nat -> kk m h i = phi (x0 + rn m * h) (shifted n y0 (dst m h)) i.
  Proof.
    intros Hm Hi. assert (P : kk m h = nth m (stl (S m) h) zf). { pose proof (stl_prefix m (S m) h (16 - S m) ltac:(lia)) as P. replace (S m + (16 - S m))%nat with 16%nat in P by lia. exact P. }
    rewrite P. cbn [stl]. cbv zeta. rewrite app_nth2 by (rewrite stl_len; lia). rewrite stl_len, Nat.sub_diag. cbn [nth]. f_equal. unfold shifted. apply mk_ext. intros j Hj.
    rewrite dst_lt by exact Hj. f_equal. f_equal. apply csum_ext. intros l Hl. destruct (lt_dec l m) as [H|H]; [|rewrite ra_low by lia; ring]. f_equal. pose proof (stl_prefix l m h (16 - m) H) as Q. replace (m + (16 - m))%nat with 16%nat in Q by lia. unfold kk. now rewrite Q.
  Qed.

  Opaque kk.
  (** ** The program's combinations of stages *)
  Hypothesis Ly : length y0 = n.
  Definition pk (h : R) (l : list (R * list C)) (q : list (Z * nat)) : Prop :=
    List.Forall2 (fun a b => is_zc (fst a) (fst b) /\ forall i, (i < n)%nat -> nth i (snd a) z0 = kk (snd b) h i) l q.
  Definition qrow (q : list (Z * nat)) (j : nat) : Z := fold_right (fun b s => ((if Nat.eqb (snd b) j then fst b else 0) + s)%Z) 0%Z q.
  Definition rowq (z : list Z) (q : list (Z * nat)) : bool := forallb (fun j => Z.eqb (qrow q j) (nth j z 0%Z)) (seq 0 16) && forallb (fun b => Nat.ltb (snd b) 16) q.
  Lemma comb_qrow h l q i : pk h l q -> forallb (fun b => Nat.ltb (snd b) 16) q = true -> (i < n)%nat -> comb l i = csum 16 (fun j => RtoC (IZR (qrow q j) / IZR SC) * kk j h i)%C.
  Proof.
    intros H F Hi. induction H as [|[a x] [b k] l q [E1 E2] H IH].
    - unfold comb. cbn [fold_left]. symmetry. apply csum_zero. intros j _. cbn [qrow fold_right]. unfold Rdiv. rewrite Rmult_0_l. ring.
    - cbn [fst snd] in *. cbn [forallb snd] in F. apply andb_prop in F as [F1 F2]. apply Nat.ltb_lt in F1. rewrite comb_cons, (E2 i Hi), (IH F2).
      rewrite (csum_ext 16 (fun j => RtoC (IZR (qrow ((b, k) :: q) j) / IZR SC) * kk j h i)%C (fun j => (if Nat.eqb k j then RtoC a * kk j h i else z0) + RtoC (IZR (qrow q j) / IZR SC) * kk j h i)%C).
      + rewrite csum_plus. f_equal. rewrite (csum_single 16 k); [now rewrite Nat.eqb_refl|exact F1|]. intros j Hj Nj. destruct (Nat.eqb_spec k j); [congruence|reflexivity].
      + intros j _. change (qrow ((b, k) :: q) j) with ((if Nat.eqb k j then b else 0) + qrow q j)%Z. rewrite plus_IZR. destruct (Nat.eqb k j).
        * rewrite E1. unfold Rdiv. rewrite Rmult_plus_distr_r, RtoC_plus. ring.
        * unfold Rdiv. rewrite Rplus_0_l. ring.
  Qed.
  Lemma comb_row h l q z i : pk h l q -> rowq z q = true -> (i < n)%nat -> comb l i = csum 16 (fun j => RtoC (row z j) * kk j h i)%C.
  Proof.
    intros H F Hi. apply andb_prop in F as [F1 F2]. rewrite (comb_qrow h l q i H F2 Hi). apply csum_ext. intros j Hj. rewrite forallb_forall in F1. specialize (F1 j ltac:(apply in_seq; lia)). apply Z.eqb_eq in F1. now rewrite F1.
  Qed.
  Lemma ytemp_dst h l q m : pk h l q -> rowq (nth m ZA []) q = true -> ytemp y0 h l = shifted n y0 (dst m h).
  Proof.
    intros H F. unfold ytemp, shifted. rewrite Ly. apply mk_ext. intros i Hi. f_equal. rewrite dst_lt by exact Hi. f_equal. apply (comb_row h l q); assumption.
  Qed.

  Context {W : Type}.
  Variable f : R -> list C -> M W (list C).
  Hypothesis Hf : forall x y w d w', length y = n -> f x y w = (Ok d, w') -> forall i, (i < n)%nat -> nth i d z0 = phi x y i.
  Lemma deriv_val x y g d g' : length y = n -> deriv f n x y g = (Ok d, g') -> g_s g' = g_s g /\ forall i, (i < n)%nat -> nth i d z0 = phi x y i.
  Proof.
    intros L E. unfold deriv, bind, onw in E. destruct (f x y (g_w g)) as [[d0|e] w'] eqn:Ef; [|discriminate]. unfold ret in E. injection E as <- <-. split; [reflexivity|]. intros i Hi. rewrite mk_nth by exact Hi. exact (Hf _ _ _ _ _ L Ef i Hi).
  Qed.
  Lemma shifted_len d : length (shifted n y0 d) = n. Proof. apply mk_length. Qed.
  Lemma stage_inv {A} h m x y (k : list C -> M (G W) A) g u g' : x = x0 + rn m * h -> y = shifted n y0 (dst m h) -> (m < 16)%nat -> bind (deriv f n x y) k g = (Ok u, g') ->
    exists d g1, k d g1 = (Ok u, g') /\ g_s g1 = g_s g /\ forall i, (i < n)%nat -> nth i d z0 = kk m h i.
  Proof.
    intros -> -> Hm E. unfold bind in E. destruct (deriv f n (x0 + rn m * h) (shifted n y0 (dst m h)) g) as [[d|e] g1] eqn:Ed; [|discriminate]. destruct (deriv_val _ _ _ _ _ (shifted_len _) Ed) as [S D]. exists d, g1. split; [exact E|]. split; [exact S|]. intros i Hi. rewrite (D i Hi). symmetry. now apply kk_eq.
  Qed.
  Definition begins (s : stepper) : Prop := p_x s = x0 /\ p_y s = y0 /\ forall i, (i < n)%nat -> nth i (p_dydx s) z0 = phi x0 y0 i.
  Lemma rn_q q m : zok q = true -> nth m ZC 0%Z = zc q -> Q2R q = rn m.
  Proof. intros H E. unfold rn, row. rewrite E. apply is_zc_q, H. Qed.
  Lemma rn_1 m : nth m ZC 0%Z = SC -> rn m = 1.
  Proof. intros E. unfold rn, row. rewrite E. symmetry. exact zc_SC. Qed.
  Lemma kk_0 h i : (i < n)%nat -> kk 0 h i = phi x0 y0 i.
  Proof.
    intros Hi. rewrite kk_eq by (try exact Hi; lia). f_equal; [unfold rn, row; change (nth 0 ZC 0%Z) with 0%Z; unfold Rdiv; ring|]. unfold shifted. transitivity (mk (length y0) (fun i => nth i y0 z0)); [|apply mk_self]. rewrite Ly. apply mk_ext. intros j Hj. rewrite dst_lt by exact Hj. rewrite csum_zero; [ring|]. intros l _. rewrite ra_low by lia. ring.
  Qed.
  (** ** One evaluation of dy *)
  Definition isk (h : R) (l : list C) (m : nat) : Prop := forall i, (i < n)%nat -> nth i l z0 = kk m h i.
  Lemma pk_nil h : pk h [] []. Proof. constructor. Qed.
  Lemma pk_cons h a b x k l q : is_zc a b -> isk h x k -> pk h l q -> pk h ((a, x) :: l) ((b, k) :: q).
  Proof. intros H1 H2 H. constructor; [split; assumption|exact H]. Qed.
  Lemma xeq h q m : zok q = true -> nth m ZC 0%Z = zc q -> x0 + Q2R q * h = x0 + rn m * h.
  Proof. intros H E. now rewrite (rn_q q m H E). Qed.
  Lemma xeq1 h m : nth m ZC 0%Z = SC -> x0 + h = x0 + rn m * h.
  Proof. intros E. rewrite (rn_1 m E). ring. Qed.
  Ltac vmr := vm_compute; reflexivity.
  Ltac pq := repeat (eapply pk_cons; [first [eapply is_zc_q; vmr | eapply is_zc_opp; vmr | exact zc_SC] | eassumption |]); apply pk_nil.
  Ltac stage h m E k g S K := eapply (stage_inv h m) in E; [|first [eapply xeq; vmr | eapply xeq1; vmr] | eapply ytemp_dst; [pq | vmr] | lia]; destruct E as (k & g & E & S & K); fold (isk h k m) in K.
  Definition dyd (h : R) (s : stepper) : Prop :=
    p_yout s = shifted n y0 (dst 12 h) /\
    (forall i, (i < n)%nat -> nth i (p_yerr s) z0 = csum 16 (fun j => RtoC (row ZE1 j) * kk j h i)%C) /\
    (forall i, (i < n)%nat -> nth i (p_yerr2 s) z0 = csum 16 (fun j => RtoC (row ZE2 j) * kk j h i)%C) /\
    isk h (sk2 (p_k s)) 10 /\ isk h (sk3 (p_k s)) 11 /\ isk h (sk6 (p_k s)) 5 /\ isk h (sk7 (p_k s)) 6 /\ isk h (sk8 (p_k s)) 7 /\ isk h (sk9 (p_k s)) 8 /\ isk h (sk10 (p_k s)) 9.
  Lemma lincomb_1 l l' i : (i < n)%nat -> comb ((1, lincomb n l) :: l') i = comb (l ++ l') i.
  Proof.
    intros Hi. rewrite comb_cons, nth_lincomb by exact Hi. induction l as [|[a x] l IH]; [rewrite Cmult_1_l; unfold comb at 1; cbn [fold_left app]; ring|].
    rewrite <- app_comm_cons, !comb_cons, <- IH. ring.
  Qed.
  Lemma dy_val h g g' : begins (g_s g) -> dy f h g = (Ok tt, g') -> dyd h (g_s g').
  Proof.
    intros (Hx & Hy & Hd) E. unfold dy in E. unfold bind at 1, gets at 1 in E. cbv zeta in E. rewrite Hx, Hy, Ly in E. set (d := p_dydx (g_s g)) in *.
    assert (K0 : isk h d 0) by (intros i Hi; rewrite kk_0 by exact Hi; apply Hd, Hi).
    stage h 1%nat E k2 g2 S2 K2. stage h 2%nat E k3 g3 S3 K3. stage h 3%nat E k4 g4 S4 K4. stage h 4%nat E k5 g5 S5 K5. stage h 5%nat E k6 g6 S6 K6. stage h 6%nat E k7 g7 S7 K7.
    stage h 7%nat E k8 g8 S8 K8. stage h 8%nat E k9 g9 S9 K9. stage h 9%nat E k10 g10 S10 K10. stage h 10%nat E k11 g11 S11 K11. stage h 11%nat E k12 g12 S12 K12.
    unfold set_s, modify in E. apply (f_equal snd) in E. cbn [snd] in E. rewrite <- E. unfold dyd. cbn [g_s p_yout p_yerr p_yerr2 p_k sk2 sk3 sk6 sk7 sk8 sk9 sk10].
    split; [|split; [|split; [|auto 10]]].
    - unfold ytemp, shifted. rewrite Ly. apply mk_ext. intros i Hi. f_equal. rewrite dst_lt by exact Hi. f_equal. rewrite lincomb_1 by exact Hi. cbn [app]. unfold ra. eapply comb_row; [pq|vmr|exact Hi].
    - intros i Hi. rewrite nth_lincomb by exact Hi. rewrite lincomb_1 by exact Hi. cbn [app]. eapply comb_row; [pq|vmr|exact Hi].
    - intros i Hi. rewrite nth_lincomb by exact Hi. eapply comb_row; [pq|vmr|exact Hi].
  Qed.
  (** ** The interpolant *)
  Definition rcd (h : R) (rc : list (list C)) : Prop :=
    (forall i, (i < n)%nat -> nth i (nth 0 rc []) z0 = nth i y0 z0) /\
    forall k i, (k < 7)%nat -> (i < n)%nat -> nth i (nth (S k) rc []) z0 = (RtoC h * csum 16 (fun j => RtoC (row (nth k ZR []) j) * kk j h i))%C.
  Lemma row_padd p q j : row (padd p q) j = row p j + row q j.
  Proof.
    unfold row. assert (E : nth j (padd p q) 0%Z = (nth j p 0 + nth j q 0)%Z). { revert q j. induction p as [|a p IH]; intros q j; [cbn [padd]; destruct j; cbn [nth]; lia|]. destruct q as [|b q]; [cbn [padd]; destruct j; cbn [nth]; lia|]. cbn [padd]. destruct j; cbn [nth]; [reflexivity|apply IH]. }
    rewrite E, plus_IZR. unfold Rdiv. ring.
  Qed.
  Lemma row_opp p j : row (pscale (-1) p) j = - row p j.
  Proof.
    unfold row, pscale. assert (E : nth j (map (fun a => (-1 * a)%Z) p) 0%Z = (- nth j p 0)%Z). { revert j. induction p as [|a p IH]; intros j; destruct j; cbn [map nth]; [reflexivity|reflexivity|lia|apply IH]. }
    rewrite E, opp_IZR. unfold Rdiv. ring.
  Qed.
  Lemma csum_padd p q h i : csum 16 (fun j => RtoC (row (padd p q) j) * kk j h i)%C = (csum 16 (fun j => RtoC (row p j) * kk j h i) + csum 16 (fun j => RtoC (row q j) * kk j h i))%C.
  Proof. rewrite <- csum_plus. apply csum_ext. intros j _. rewrite row_padd, RtoC_plus. ring. Qed.
  Lemma csum_prow p h i : csum 16 (fun j => RtoC (row (pscale (-1) p) j) * kk j h i)%C = (- csum 16 (fun j => RtoC (row p j) * kk j h i))%C.
  Proof. rewrite <- csum_opp. apply csum_ext. intros j _. rewrite row_opp, RtoC_opp. ring. Qed.
  Lemma csum_unit k h i : (k < 16)%nat -> csum 16 (fun j => RtoC (row (repeat 0%Z k ++ [SC]) j) * kk j h i)%C = kk k h i.
  Proof.
    intros Hk. rewrite (csum_single 16 k); [|exact Hk|].
    - unfold row. rewrite app_nth2 by (rewrite repeat_length; lia). rewrite repeat_length, Nat.sub_diag. cbn [nth]. rewrite <- zc_SC. ring.
    - intros j Hj Nj. unfold row. replace (nth j (repeat 0%Z k ++ [SC]) 0%Z) with 0%Z; [unfold Rdiv; rewrite Rmult_0_l; ring|]. symmetry. destruct (lt_dec j k) as [H|H]; [rewrite app_nth1 by (rewrite repeat_length; lia); apply nth_repeat|]. apply nth_overflow. rewrite app_length, repeat_length. cbn [length]. lia.
  Qed.
  Lemma prepare_val h dn g g' : begins (g_s g) -> dyd h (g_s g) -> isk h dn 12 -> prepare_dense f h dn g = (Ok tt, g') ->
    rcd h (p_rc (g_s g')) /\ p_yout (g_s g') = p_yout (g_s g) /\ p_yerr (g_s g') = p_yerr (g_s g) /\ p_yerr2 (g_s g') = p_yerr2 (g_s g).
  Proof.
    intros (Hx & Hy & Hd) (KY & _ & _ & K11 & K12 & K6 & K7 & K8 & K9 & K10) K13 E. unfold prepare_dense in E. unfold bind at 1, gets at 1 in E. cbv zeta in E. rewrite Hx, Hy, Ly in E. set (d := p_dydx (g_s g)) in *.
    assert (K0 : isk h d 0) by (intros i Hi; rewrite kk_0 by exact Hi; apply Hd, Hi). destruct (p_k (g_s g)) as [k11 k12 k6 k7 k8 k9 k10]. cbn [sk2 sk3 sk6 sk7 sk8 sk9 sk10] in *.
    stage h 13%nat E k14 g14 S14 K14. stage h 14%nat E k15 g15 S15 K15. stage h 15%nat E k16 g16 S16 K16.
    unfold set_s, modify in E. apply (f_equal snd) in E. cbn [snd] in E. rewrite <- E. cbn [g_s p_yout p_yerr p_yerr2 p_rc]. rewrite S16, S15, S14. split; [|auto].
    set (yd := lincomb n [(1, p_yout (g_s g)); (-1, y0)]) in *. set (bs := lincomb n [(h, d); (-1, yd)]) in *.
    assert (KD : forall i, (i < n)%nat -> nth i yd z0 = (RtoC h * csum 16 (fun j => RtoC (row ZB j) * kk j h i))%C).
    { intros i Hi. unfold yd. rewrite nth_lincomb by exact Hi. rewrite !comb_cons, KY. unfold shifted. rewrite mk_nth by exact Hi. rewrite dst_lt by exact Hi. unfold comb. cbn [fold_left]. rewrite C_m1. unfold ra. change (nth 12 ZA []) with ZB. ring. }
    set (r2 := padd (repeat 0%Z 0 ++ [SC]) (pscale (-1) ZB)).
    assert (KB : forall i, (i < n)%nat -> nth i bs z0 = (RtoC h * csum 16 (fun j => RtoC (row r2 j) * kk j h i))%C).
    { intros i Hi. unfold bs. rewrite nth_lincomb by exact Hi. rewrite !comb_cons, (KD i Hi), (K0 i Hi). unfold r2. rewrite csum_padd, csum_prow, csum_unit by lia. unfold comb. cbn [fold_left]. rewrite C_m1. ring. }
    assert (FIN : forall l l' q z i, pk h (l ++ l') q -> rowq z q = true -> (i < n)%nat -> nth i (mk n (fun i => RtoC h * comb ((1, lincomb n l) :: l') i)%C) z0 = (RtoC h * csum 16 (fun j => RtoC (row z j) * kk j h i))%C).
    { intros l l' q z i H1 H2 Hi. rewrite mk_nth by exact Hi. f_equal. rewrite lincomb_1 by exact Hi. exact (comb_row h _ q z i H1 H2 Hi). }
    split; [intros i Hi; reflexivity|]. intros k i Hk Hi. destruct k as [|[|[|[|[|[|[|k]]]]]]]; [| | | | | | |lia].
    - exact (KD i Hi).
    - assert (R2 : nth 1 ZR [] = r2) by vmr. rewrite R2. exact (KB i Hi).
    - assert (R3 : nth 2 ZR [] = padd (padd ZB (pscale (-1) (repeat 0%Z 12 ++ [SC]))) (pscale (-1) r2)) by vmr. rewrite R3, !csum_padd, !csum_prow, csum_unit by lia. clear FIN E. cbn [nth]. rewrite nth_lincomb by exact Hi. rewrite !comb_cons, (KD i Hi), (KB i Hi), (K13 i Hi). unfold comb. cbn [fold_left]. rewrite C_m1, RtoC_opp. ring.
    - cbn [nth]. eapply FIN; [cbn [app]; pq|vmr|exact Hi].
    - cbn [nth]. eapply FIN; [cbn [app]; pq|vmr|exact Hi].
    - cbn [nth]. eapply FIN; [cbn [app]; pq|vmr|exact Hi].
    - cbn [nth]. eapply FIN; [cbn [app]; pq|vmr|exact Hi].
  Qed.
  (** ** A whole step *)
  Lemma begins_same s s' : same_step s s' -> begins s -> begins s'.
  Proof. intros (Sx & _ & Sy & Sd & _) (H1 & H2 & H3). unfold begins. rewrite Sx, Sy, Sd. auto. Qed.
  Lemma step_val fuel htry g g' : begins (g_s g) -> step f fuel htry g = (Ok tt, g') ->
    let h := p_hdid (g_s g') in
    (forall i, (i < n)%nat -> nth i (p_y (g_s g')) z0 = (nth i y0 z0 + dst 12 h i)%C) /\
    (forall i, (i < n)%nat -> nth i (p_yerr (g_s g')) z0 = csum 16 (fun j => RtoC (row ZE1 j) * kk j h i)%C) /\
    (forall i, (i < n)%nat -> nth i (p_yerr2 (g_s g')) z0 = csum 16 (fun j => RtoC (row ZE2 j) * kk j h i)%C) /\
    (p_dense (g_s g) = true -> rcd h (p_rc (g_s g'))) /\ p_xold (g_s g') = x0 /\ length (p_y (g_s g')) = n.
  Proof.
    Transparent step. unfold step. Opaque step. intros Hst E. unfold bind at 1 in E. destruct (attempts f fuel (Some htry) g) as [[h|e] g1] eqn:Ea; [|discriminate].
    destruct (attempts_last f _ _ _ _ _ Ea) as (ga & gb & Ss & Ed & Eg). pose proof (begins_same _ _ Ss Hst) as Hsa. pose proof (dy_val h ga gb Hsa Ed) as Done. rewrite <- Eg in Done.
    assert (Sb : same_step (g_s g) (g_s g1)) by (rewrite Eg; eapply same_trans; [exact Ss|]; pose proof (keeps_dy f h ga) as K; rewrite Ed in K; apply K).
    pose proof (begins_same _ _ Sb Hst) as Hs1. unfold bind at 1, gets at 1 in E. destruct Hs1 as (X1 & Y1 & D1) eqn:EH. clear EH. rewrite Y1, X1, Ly in E. pose proof Done as (KY & KE & KE2 & _).
    eapply (stage_inv h 12) in E; [|eapply xeq1; vmr|exact KY|lia]. destruct E as (dn & g2 & E & S2 & K13).
    unfold bind at 1 in E. assert (Dd : p_dense (g_s g1) = p_dense (g_s g)) by apply Sb. rewrite Dd in E. rewrite <- S2 in X1, Y1, D1, Done.
    destruct (p_dense (g_s g)).
    - destruct (prepare_dense f h dn g2) as [[[]|e] g3] eqn:E3; [|discriminate]. destruct (prepare_val h dn g2 g3 (conj X1 (conj Y1 D1)) Done K13 E3) as (RC & Q1 & Q2 & Q3). pose proof (keeps_prepare f h dn g2) as Kp. rewrite E3 in Kp. cbn [snd] in Kp. unfold bind, get, set_s, modify in E. apply (f_equal snd) in E. cbn [snd] in E. rewrite <- E.
      cbv zeta. cbn [g_s p_hdid p_y p_yerr p_yerr2 p_rc p_xold]. rewrite Q1, Q2, Q3, S2, KY. split; [intros i Hi; unfold shifted; now rewrite mk_nth by exact Hi|]. split; [exact KE|]. split; [exact KE2|]. split; [intros _; exact RC|]. split; [|apply shifted_len]. rewrite <- X1. apply Kp.
    - unfold ret, bind, get, set_s, modify in E. apply (f_equal snd) in E. cbn [snd] in E. rewrite <- E.
      cbv zeta. cbn [g_s p_hdid p_y p_yerr p_yerr2 p_rc p_xold]. rewrite S2, KY. rewrite S2 in X1. split; [intros i Hi; unfold shifted; now rewrite mk_nth by exact Hi|]. split; [exact KE|]. split; [exact KE2|]. split; [discriminate|]. split; [exact X1|apply shifted_len].
  Qed.
  Lemma pe_sum t : forall p, pe t p = rsum (length p) (fun m => t ^ m * IZR (nth m p 0%Z)).
  Proof.
    induction p as [|a p IH]; [reflexivity|]. cbn [pe length]. rewrite rsum_first'. cbn [nth pow]. rewrite IH, <- rsum_scal_l. f_equal; [ring|]. apply rsum_ext. intros m _. ring.
  Qed.
  Lemma dense_row t j : (j < 16)%nat -> pe t (dpoly ZR j) / IZR SC = rsum 8 (fun m => t ^ m * row (nth m ZD []) j).
  Proof.
    intros Hj. rewrite pe_sum. assert (L8 : length (dpoly ZR j) = 8%nat). { assert (F : forallb (fun j => Nat.eqb (length (dpoly ZR j)) 8) (seq 0 16) = true) by vmr. rewrite forallb_forall in F. apply Nat.eqb_eq, F, in_seq. lia. }
    rewrite L8. unfold Rdiv. rewrite <- rsum_scal_r. apply rsum_ext. intros m Hm. unfold row, Rdiv. rewrite Rmult_assoc. f_equal. f_equal. f_equal.
    assert (F : forallb (fun m => forallb (fun j => Z.eqb (nth m (dpoly ZR j) 0%Z) (nth j (nth m ZD []) 0%Z)) (seq 0 16)) (seq 0 8) = true) by vmr. rewrite forallb_forall in F. specialize (F m ltac:(apply in_seq; lia)). cbv beta in F. rewrite forallb_forall in F. apply Z.eqb_eq, F, in_seq. lia.
  Qed.
  Lemma dense_val s h t i : rcd h (p_rc s) -> p_xold s = x0 -> length (p_y s) = n -> h <> 0 -> (i < n)%nat ->
    nth i (dense_out s (x0 + t * h) h) z0 = (nth i y0 z0 + RtoC h * csum 16 (fun j => RtoC (rsum 8 (fun m => t ^ m * row (nth m ZD []) j)%R) * kk j h i))%C.
  Proof.
    intros [R0 RC] Xo L Hh Hi. unfold dense_out. cbv zeta. rewrite mk_nth by (rewrite L; exact Hi). rewrite Xo. replace ((x0 + t * h - x0) / h) with t by (field; exact Hh). rewrite (R0 i Hi), !RC by (exact Hi || lia). f_equal.
    rewrite (csum_ext 16 (fun j => RtoC (rsum 8 (fun m => t ^ m * row (nth m ZD []) j)%R) * kk j h i)%C (fun j => RtoC (t * (row (nth 0 ZR []) j + (1 - t) * (row (nth 1 ZR []) j + t * (row (nth 2 ZR []) j + (1 - t) * (row (nth 3 ZR []) j + t * (row (nth 4 ZR []) j + (1 - t) * (row (nth 5 ZR []) j + t * row (nth 6 ZR []) j)))))))%R * kk j h i)%C).
    2:{ intros j Hj. rewrite <- dense_row by exact Hj. f_equal. f_equal. unfold dpoly, row. cbv zeta. repeat first [rewrite pe_pt1 | rewrite pe_pt]. cbn [pe]. unfold Rdiv. ring. }
    rewrite (csum_ext 16 (fun j => RtoC (t * (row (nth 0 ZR []) j + (1 - t) * (row (nth 1 ZR []) j + t * (row (nth 2 ZR []) j + (1 - t) * (row (nth 3 ZR []) j + t * (row (nth 4 ZR []) j + (1 - t) * (row (nth 5 ZR []) j + t * row (nth 6 ZR []) j)))))))%R * kk j h i)%C (fun j => RtoC t * (RtoC (row (nth 0 ZR []) j) * kk j h i + RtoC (1 - t) * (RtoC (row (nth 1 ZR []) j) * kk j h i + RtoC t * (RtoC (row (nth 2 ZR []) j) * kk j h i + RtoC (1 - t) * (RtoC (row (nth 3 ZR []) j) * kk j h i + RtoC t * (RtoC (row (nth 4 ZR []) j) * kk j h i + RtoC (1 - t) * (RtoC (row (nth 5 ZR []) j) * kk j h i + RtoC t * (RtoC (row (nth 6 ZR []) j) * kk j h i))))))))%C).
    2:{ intros j _. repeat first [rewrite RtoC_mult | rewrite RtoC_plus]. ring. }
    repeat first [rewrite csum_scal_l | rewrite csum_plus]. ring.
  Qed.
End Stages.

(** ** Majorants of the sums over trees *)
Definition rls {A} (L : list A) (w : A -> R) : R := fold_right (fun a s => w a + s) 0 L.
Lemma rls_app {A} (L L' : list A) w : rls (L ++ L') w = rls L w + rls L' w.
Proof. unfold rls. induction L as [|a L IH]; cbn [app fold_right]; [ring|]. rewrite IH. ring. Qed.
Lemma rls_map {A B} (g : A -> B) L w : rls (map g L) w = rls L (fun a => w (g a)).
Proof. unfold rls. induction L as [|a L IH]; cbn [map fold_right]; [reflexivity|]. now rewrite IH. Qed.
Lemma rls_ext {A} (L : list A) w w' : (forall a, In a L -> w a = w' a) -> rls L w = rls L w'.
Proof. unfold rls. induction L as [|a L IH]; intros H; cbn [fold_right]; [reflexivity|]. rewrite (H a (or_introl eq_refl)), IH; [reflexivity|]. intros b Hb. apply H. now right. Qed.
Lemma rls_le {A} (L : list A) w w' : (forall a, In a L -> w a <= w' a) -> rls L w <= rls L w'.
Proof. unfold rls. induction L as [|a L IH]; intros H; cbn [fold_right]; [lra|]. apply Rplus_le_compat; [apply H; now left|]. apply IH. intros b Hb. apply H. now right. Qed.
Lemma rls_scal {A} (L : list A) c w : rls L (fun a => c * w a) = c * rls L w.
Proof. unfold rls. induction L as [|a L IH]; cbn [fold_right]; [ring|]. rewrite IH. ring. Qed.
Lemma rls_pos {A} (L : list A) w : (forall a, In a L -> 0 <= w a) -> 0 <= rls L w.
Proof. intros H. replace 0 with (rls L (fun _ => 0)); [now apply rls_le|]. unfold rls. induction L as [|a L IH]; cbn [fold_right]; [reflexivity|]. rewrite IH; [ring|]. intros b Hb. apply H. now right. Qed.
Lemma rls_filter {A} (L : list A) p w : (forall a, 0 <= w a) -> rls (filter p L) w <= rls L w.
Proof. intros H. unfold rls. induction L as [|a L IH]; cbn [filter fold_right]; [lra|]. destruct (p a); cbn [fold_right]; specialize (H a); lra. Qed.
Lemma rls_flat {A B} (L : list A) (g : A -> list B) w : rls (flat_map g L) w = rls L (fun a => rls (g a) w).
Proof. induction L as [|a L IH]; cbn [flat_map]; [reflexivity|]. rewrite rls_app, IH. reflexivity. Qed.
Lemma Cmod_lsum {A} (L : list A) u : Cmod (lsum L u) <= rls L (fun a => Cmod (u a)).
Proof. unfold lsum, rls. induction L as [|a L IH]; cbn [fold_right]; [rewrite Cmod_0; lra|]. eapply Rle_trans; [apply Cmod_triangle|]. lra. Qed.
Lemma tup_len L m l : In l (tup L m) -> length l = m.
Proof.
  revert l. induction m as [|m IH]; intros l H; [destruct H as [<-|[]]; reflexivity|]. cbn [tup] in H. apply in_flat_map in H as (t & _ & H). apply in_map_iff in H as (l' & <- & H). cbn [length]. now rewrite (IH _ H).
Qed.
Lemma rls_tup L m w : rls (tup L m) (fun l => rprod (map w l)) = rls L w ^ m.
Proof.
  induction m as [|m IH]; [cbn; unfold rprod; cbn; ring|]. cbn [tup pow]. rewrite rls_flat, (rls_ext L _ (fun t => rls L w ^ m * w t)); [rewrite rls_scal; ring|]. intros t _. rewrite rls_map, (rls_ext _ _ (fun l => w t * rprod (map w l))) by (intros l _; reflexivity). rewrite rls_scal, IH. ring.
Qed.
Lemma rprod_nonneg {A} (w : A -> R) l : (forall a, 0 <= w a) -> 0 <= rprod (map w l).
Proof. intros H. unfold rprod. induction l as [|a l IH]; cbn; [lra|]. now apply Rmult_le_pos. Qed.
Lemma tw_nonneg t : 0 <= tw t.
Proof.
  induction t as [|l IH] using tree_ind'; cbn [tw]; [lra|]. apply Rmult_le_pos; [left; apply Rinv_0_lt_compat, INR_fact_lt_0|]. unfold rprod. induction IH as [|t l Ht _ IH]; cbn; [lra|]. now apply Rmult_le_pos.
Qed.
Lemma fw_nonneg l : 0 <= fw l.
Proof. unfold fw. apply Rmult_le_pos; [left; apply Rinv_0_lt_compat, INR_fact_lt_0|]. apply rprod_nonneg, tw_nonneg. Qed.
Lemma fsize_cons t l : fsize (t :: l) = (tsize t + fsize l)%nat. Proof. reflexivity. Qed.
Lemma fw_quarter l : fw l * (1 / 4) ^ fsize l = / INR (fact (length l)) * rprod (map (fun t => tw t * (1 / 4) ^ tsize t) l).
Proof.
  unfold fw. rewrite Rmult_assoc. f_equal. unfold rprod. induction l as [|t l IH]; [cbn; ring|]. rewrite fsize_cons, pow_add. cbn [map fold_right]. rewrite <- IH. ring.
Qed.
Lemma forest_sum L p g : rls L (fun t => tw t * (1 / 4) ^ tsize t) <= g -> 0 <= rls L (fun t => tw t * (1 / 4) ^ tsize t) ->
  rls (forests L p) (fun l => fw l * (1 / 4) ^ fsize l) <= rsum 8 (fun m => / INR (fact m) * g ^ m).
Proof.
  intros Hg H0. unfold forests. eapply Rle_trans; [apply rls_filter; intros l; apply Rmult_le_pos; [apply fw_nonneg|apply pow_le; lra]|]. rewrite rls_flat.
  assert (E : forall m, rls (tup L m) (fun l => fw l * (1 / 4) ^ fsize l) <= / INR (fact m) * g ^ m).
  { intros m. rewrite (rls_ext _ _ (fun l => / INR (fact m) * rprod (map (fun t => tw t * (1 / 4) ^ tsize t) l))) by (intros l Hl; now rewrite fw_quarter, (tup_len _ _ _ Hl)). rewrite rls_scal, rls_tup. apply Rmult_le_compat_l; [left; apply Rinv_0_lt_compat, INR_fact_lt_0|]. apply pow_incr. split; assumption. }
  eapply Rle_trans; [apply rls_le; intros m _; apply E|]. unfold rls. cbn [seq fold_right]. rewrite !rsum_S, rsum_0. lra.
Qed.
Lemma quarter_nonneg L : 0 <= rls L (fun t => tw t * (1 / 4) ^ tsize t).
Proof. apply rls_pos. intros t _. apply Rmult_le_pos; [apply tw_nonneg|apply pow_le; lra]. Qed.
Lemma exp_cut : rsum 8 (fun m => / INR (fact m) * 0.85 ^ m) <= 2.35.
Proof. rewrite !rsum_S, rsum_0, <- !zfact_fact. repeat match goal with |- context [zfact ?k] => let v := eval vm_compute in (zfact k) in change (zfact k) with v end. cbn [pow]. lra. Qed.
Lemma tree_sum p : rls (trees p) (fun t => tw t * (1 / 4) ^ tsize t) <= 0.85.
Proof.
  induction p as [|p IH]; [cbn; lra|]. cbn [trees]. unfold rls at 1. cbn [fold_right]. fold (rls (map TN (forests (trees p) p)) (fun t => tw t * (1 / 4) ^ tsize t)). rewrite rls_map.
  rewrite (rls_ext _ _ (fun l => (1 / 4) * (fw l * (1 / 4) ^ fsize l))) by (intros l _; cbn [tw tsize pow]; fold (fw l) (fsize l); ring). rewrite rls_scal. pose proof (forest_sum (trees p) p 0.85 IH (quarter_nonneg _)) as B. pose proof exp_cut. cbn [tw tsize pow]. lra.
Qed.
Lemma forests_sum p : rls (forests (trees p) p) (fun l => fw l * (1 / 4) ^ fsize l) <= 2.35.
Proof. eapply Rle_trans; [apply (forest_sum (trees p) p 0.85 (tree_sum p) (quarter_nonneg _))|apply exp_cut]. Qed.
Lemma forests_size L p l : In l (forests L p) -> (fsize l <= p)%nat.
Proof. intros H. apply filter_In in H as [_ H]. now apply Nat.leb_le. Qed.
Lemma trees_size p t : In t (trees p) -> (tsize t <= p)%nat.
Proof. destruct p as [|p]; [contradiction|]. cbn [trees]. intros [<-|H]; [cbn; lia|]. apply in_map_iff in H as (l & <- & H). apply forests_size in H. cbn [tsize]. fold (fsize l). lia. Qed.
Lemma fsize_len l : (length l <= fsize l)%nat.
Proof. induction l as [|t l IH]; [cbn; lia|]. rewrite fsize_cons. pose proof (tsize_pos t). cbn [length]. lia. Qed.

Section Bounds.
  Variables (n : nat) (T : list (nat -> C) -> nat -> C) (M : R).
  Hypothesis HM : 1 <= M.
  Hypothesis TB : forall l rs i, (i < n)%nat -> (length l <= 7)%nat -> List.Forall2 (bd (S n)) l rs -> Cmod (T l i) <= M * rprod rs.
  Notation el := (tel n T).
  Lemma rprod_M l : rprod (map (fun t => M ^ tsize t) l) = M ^ fsize l.
  Proof. unfold rprod. induction l as [|t l IH]; [reflexivity|]. rewrite fsize_cons, pow_add. cbn [map fold_right]. now rewrite IH. Qed.
  Lemma el_bound t : (tsize t <= 8)%nat -> bd (S n) (el t) (M ^ tsize t).
  Proof.
    induction t as [|l IH] using tree_ind'; intros Hs j Hj.
    - cbn [tel tsize]. rewrite pow_1. destruct (Nat.eqb j n); [rewrite Cmod_1|rewrite Cmod_0]; lra.
    - cbn [tel tsize]. fold (fsize l). destruct (Nat.ltb_spec j n) as [H|H]; [|rewrite Cmod_0; apply pow_le; lra]. cbn [pow]. cbn [tsize] in Hs. fold (fsize l) in Hs. pose proof (fsize_len l) as Ll. rewrite <- rprod_M. apply TB; [exact H|rewrite map_length; lia|].
      assert (Hl : forall t, In t l -> (tsize t <= 8)%nat). { intros t Ht. apply Nat.le_trans with (fsize l); [|lia]. clear - Ht. induction l as [|u l IHl]; [contradiction|]. rewrite fsize_cons. destruct Ht as [->|Ht]; [lia|]. specialize (IHl Ht). lia. }
      clear Hs Ll. induction IH as [|t l Ht IH IH2]; [constructor|]. cbn [map]. constructor; [apply Ht, Hl; now left|]. apply IH2. intros u Hu. apply Hl. now right.
  Qed.
  Lemma T_forest f i : (i < n)%nat -> (fsize f <= 7)%nat -> Cmod (T (map el f) i) <= M * M ^ fsize f.
  Proof.
    intros Hi Hf. pose proof (el_bound (TN f) ltac:(cbn [tsize]; fold (fsize f); lia) i ltac:(lia)) as B. cbn [tel tsize] in B. fold (fsize f) in B. apply Nat.ltb_lt in Hi. rewrite Hi in B. exact B.
  Qed.
  Lemma small_pow h k : Rabs h * M <= 1 / 4 -> Rabs h ^ k * M ^ k <= (1 / 4) ^ k.
  Proof. intros H. rewrite <- Rpow_mult_distr. apply pow_incr. split; [apply Rmult_le_pos; [apply Rabs_pos|lra]|exact H]. Qed.
  Lemma forest_term h f (e ep : R) i : (i < n)%nat -> (fsize f <= 7)%nat -> Rabs h * M <= 1 / 4 -> Rabs e <= ep -> Cmod (RtoC (h ^ fsize f * fw f * e) * T (map el f) i)%C <= ep * M * (fw f * (1 / 4) ^ fsize f).
  Proof.
    intros Hi Hf Hh He. rewrite Cmod_mult, Cmod_R, !Rabs_mult, <- RPow_abs, (Rabs_pos_eq (fw f)) by apply fw_nonneg. pose proof (T_forest f i Hi Hf) as B. pose proof (small_pow h (fsize f) Hh) as S. pose proof (fw_nonneg f) as Pf. pose proof (Rabs_pos e) as P0. assert (P1 : 0 <= Rabs h ^ fsize f) by (apply pow_le, Rabs_pos). assert (P2 : 0 <= M ^ fsize f) by (apply pow_le; lra).
    apply Rle_trans with (Rabs h ^ fsize f * fw f * ep * (M * M ^ fsize f)).
    - apply Rmult_le_compat; [apply Rmult_le_pos; [now apply Rmult_le_pos|exact P0]|apply Cmod_ge_0| |exact B]. apply Rmult_le_compat_l; [now apply Rmult_le_pos|exact He].
    - replace (Rabs h ^ fsize f * fw f * ep * (M * M ^ fsize f)) with (ep * M * fw f * (Rabs h ^ fsize f * M ^ fsize f)) by ring. replace (ep * M * (fw f * (1 / 4) ^ fsize f)) with (ep * M * fw f * (1 / 4) ^ fsize f) by ring. apply Rmult_le_compat_l; [|exact S]. apply Rmult_le_pos; [apply Rmult_le_pos; lra|exact Pf].
  Qed.
  Lemma forests_bound p h (e : list tree -> R) ep i : (i < n)%nat -> (p <= 7)%nat -> Rabs h * M <= 1 / 4 -> (forall f, (fsize f <= p)%nat -> Rabs (e f) <= ep) ->
    Cmod (lsum (forests (trees p) p) (fun f => RtoC (h ^ fsize f * fw f * e f) * T (map el f) i)%C) <= ep * M * 2.35.
  Proof.
    intros Hi Hp Hh He. assert (E0 : 0 <= ep) by (eapply Rle_trans; [apply Rabs_pos|apply (He []); cbn; lia]). eapply Rle_trans; [apply Cmod_lsum|]. eapply Rle_trans; [apply rls_le; intros f Hf; pose proof (forests_size _ _ _ Hf); apply (forest_term h f (e f) ep i Hi ltac:(lia) Hh); apply He; assumption|].
    rewrite rls_scal. apply Rmult_le_compat_l; [apply Rmult_le_pos; lra|apply forests_sum].
  Qed.
End Bounds.

(** ** The orders *)
Lemma Cmod_csum_le n u B : (forall i, (i < n)%nat -> Cmod (u i) <= B) -> Cmod (csum n u) <= INR n * B.
Proof. intros H. eapply Rle_trans; [apply Cmod_csum|]. rewrite <- rsum_const. now apply rsum_le. Qed.
Lemma Rabs_rsum n u : Rabs (rsum n u) <= rsum n (fun i => Rabs (u i)).
Proof. induction n as [|n IH]; [rewrite !rsum_0, Rabs_R0; lra|]. rewrite !rsum_S. eapply Rle_trans; [apply Rabs_triang|]. lra. Qed.
Lemma unif_t {I} n (X : nat -> hs I -> R -> R) : (forall i, (i < n)%nat -> exists K h0, 0 <= K /\ 0 < h0 /\ forall (h : hs I) t, Rabs h <= h0 -> 0 <= t <= 1 -> X i h t <= K * Rabs h ^ 8) ->
  exists K h0, 0 <= K /\ 0 < h0 /\ forall i, (i < n)%nat -> forall (h : hs I) t, Rabs h <= h0 -> 0 <= t <= 1 -> X i h t <= K * Rabs h ^ 8.
Proof.
  intros DS. induction n as [|m IH].
  - exists 0, 1. split; [lra|]. split; [lra|]. intros i Hi. lia.
  - destruct IH as (K & h0 & HK & H0 & B); [intros i Hi; apply DS; lia|]. destruct (DS m ltac:(lia)) as (K' & h1 & HK' & H1 & B'). exists (K + K'), (Rmin h0 h1). split; [lra|]. split; [now apply Rmin_glb_lt|]. intros i Hi h t Hh Ht. assert (Z1 : Rabs h <= h0) by (eapply Rle_trans; [exact Hh|apply Rmin_l]). assert (Z2 : Rabs h <= h1) by (eapply Rle_trans; [exact Hh|apply Rmin_r]).
    assert (P : 0 <= Rabs h ^ 8) by (apply pow_le, Rabs_pos). pose proof (Rmult_le_pos _ _ HK P). pose proof (Rmult_le_pos _ _ HK' P). rewrite Rmult_plus_distr_r. destruct (Nat.eq_dec i m) as [->|N]; [specialize (B' h t Z2 Ht); lra|specialize (B i ltac:(lia) h t Z1 Ht); lra].
Qed.
Opaque trees forests lsum row fphi rsum csum ZD.
Section Orders.
  Context {I : Type}.
  Variables (n : nat) (phi : R -> list C -> nat -> C) (x0 : I -> R) (y0 : I -> list C) (T : I -> list (nat -> C) -> nat -> C) (M : R).
  Hypothesis HT : utaylor7 n phi x0 y0 T.
  Hypothesis HM : 1 <= M.
  Hypothesis TB : forall o l rs i, (i < n)%nat -> (length l <= 7)%nat -> List.Forall2 (bd (S n)) l rs -> Cmod (T o l i) <= M * rprod rs.
  Variables (sol : I -> R -> list C) (h1 : R).
  Hypothesis Hh1 : 0 < h1.
  Hypothesis Hlen : forall o x, length (sol o x) = n.
  Hypothesis Hini : forall o, sol o (x0 o) = y0 o.
  Hypothesis Hder : forall o x j, (j < n)%nat -> Rabs (x - x0 o) <= h1 -> is_cderive (fun t => nth j (sol o t) z0) x (phi x (sol o x) j).
  Hypothesis Hslope : forall j, (j < n)%nat -> bo 1 (fun h => dex n x0 y0 sol h j).
  Notation el h := (tel n (T (pos h))).
  Notation F p := (forests (trees p) p).
  Definition kkh (l : nat) (h : hs I) : nat -> C := kk n phi (x0 (pos h)) (y0 (pos h)) l h.
  Notation dex := (dex n x0 y0 sol).
  Lemma kkh_eq m h i : (m < 16)%nat -> (i < n)%nat -> kkh m h i = phi (x0 (pos h) + rn m * h)%R (shifted n (y0 (pos h)) (dsth n 16 ra rn kkh m h)) i.
  Proof.
    intros Hm Hi. unfold kkh at 1. rewrite (kk_eq n phi (x0 (pos h)) (y0 (pos h)) m h i Hm Hi). assert (E : shifted n (y0 (pos h)) (dst n 16 ra rn (kk n phi (x0 (pos h)) (y0 (pos h))) m h) = shifted n (y0 (pos h)) (dsth n 16 ra rn kkh m h)); [|now rewrite E].
    unfold shifted. apply mk_ext. intros j Hj. rewrite dst_lt by exact Hj. rewrite dsth_lt by exact Hj. f_equal.
  Qed.
  Lemma wt p z i : (p <= 7)%nat -> (i < n)%nat ->
    bo (S p) (fun h => csum 16 (fun l => RtoC (row z l) * kkh l h i) - lsum (F p) (fun f => RtoC (h ^ fsize f * fw f * rsum 16 (fun l => row z l * Fphi f l)%R) * T (pos h) (map (el h) f) i))%C.
  Proof.
    intros Hp Hi. apply (weighted n phi x0 y0 T HT 16 ra rn kkh kkh_eq ra_low p (row z)); [|exact Hp|exact Hi].
    apply (levels n phi x0 y0 T HT 16 ra rn kkh kkh_eq ra_low). lia.
  Qed.
  Lemma exact_series p i : (p <= 7)%nat -> (i < n)%nat ->
    bo (S (S p)) (fun h => dex h i - RtoC h * lsum (F p) (fun f => RtoC (h ^ fsize f * fw f * / tgam (TN f)) * T (pos h) (map (el h) f) i))%C.
  Proof.
    intros Hp Hi. refine (bo_ext (S (S p)) _ _ _ (dex_levels n phi x0 y0 T HT sol h1 Hh1 Hlen Hini Hder Hslope (S p) ltac:(lia) i ltac:(lia))). intros h. f_equal. f_equal.
    rewrite (lsum_trees n (T (pos h)) p (fun t => h ^ tsize t * tw t * / tgam t) i), (el_TX n (T (pos h)) i Hi), Cmult_0_r, Cplus_0_l, <- lsum_scal. apply lsum_ext. intros f _. rewrite (el_TN n (T (pos h)) f i Hi), Cmult_assoc, <- RtoC_mult. f_equal. f_equal. cbn [tsize tw pow]. fold (fsize f) (fw f). ring.
  Qed.
  Lemma step_series i : (i < n)%nat -> bo 9 (fun h => (RtoC h * csum 16 (fun l => RtoC (row ZB l) * kkh l h i) - dex h i) -
    RtoC h * lsum (F 7) (fun f => RtoC (h ^ fsize f * fw f * (rsum 16 (fun l => row ZB l * Fphi f l)%R - / tgam (TN f))) * T (pos h) (map (el h) f) i))%C.
  Proof.
    intros Hi. pose proof (bo_mult 1 8 _ _ bo_h (wt 7 ZB i ltac:(lia) Hi)) as B1. pose proof (exact_series 7 i ltac:(lia) Hi) as B2. refine (bo_ext 9 _ _ _ (bo_minus 9 _ _ B1 B2)). intros h. cbv beta.
    rewrite (lsum_ext (F 7) (fun f => RtoC (h ^ fsize f * fw f * (rsum 16 (fun l => row ZB l * Fphi f l)%R - / tgam (TN f))) * T (pos h) (map (el h) f) i)%C (fun f => RtoC (h ^ fsize f * fw f * rsum 16 (fun l => row ZB l * Fphi f l)%R) * T (pos h) (map (el h) f) i + RtoC (-1) * (RtoC (h ^ fsize f * fw f * / tgam (TN f)) * T (pos h) (map (el h) f) i))%C).
    - rewrite lsum_plus, lsum_scal, C_m1. ring.
    - intros f _. rewrite C_m1. unfold Rminus. rewrite Rmult_plus_distr_l, RtoC_plus, Ropp_mult_distr_r_reverse, RtoC_opp. ring.
  Qed.
  (** the remainder of the interpolant at fraction t of the step, for any t *)
  Lemma dense_series i : (i < n)%nat -> exists K h0, 0 <= K /\ 0 < h0 /\ forall (h : hs I) t, Rabs h <= h0 -> 0 <= t <= 1 ->
    Cmod ((RtoC h * csum 16 (fun j => RtoC (rsum 8 (fun m => t ^ m * row (nth m ZD []) j)%R) * kkh j h i) - dex (at_ (pos h) (t * h)) i) -
      RtoC h * lsum (F 6) (fun f => RtoC (h ^ fsize f * fw f * rsum 8 (fun m => t ^ m * (rsum 16 (fun l => row (nth m ZD []) l * Fphi f l) - (if Nat.eqb m (S (fsize f)) then / tgam (TN f) else 0)))%R) * T (pos h) (map (el h) f) i))%C <= K * Rabs h ^ 8.
  Proof.
    intros Hi. set (u := fun m h => (csum 16 (fun l => RtoC (row (nth m ZD []) l) * kkh l h i) - lsum (F 6) (fun f => RtoC (h ^ fsize f * fw f * rsum 16 (fun l => row (nth m ZD []) l * Fphi f l)%R) * T (pos h) (map (el h) f) i))%C).
    destruct (bo_unif 7 8 u) as (K1 & a1 & P1 & Q1 & B1); [intros m _; apply (wt 6 (nth m ZD []) i ltac:(lia) Hi)|]. destruct (exact_series 6 i ltac:(lia) Hi) as (K2 & a2 & P2 & Q2 & B2).
    exists (8 * K1 + K2), (Rmin a1 a2). split; [lra|]. split; [apply Rmin_glb_lt; lra|]. intros h t Hh Ht. assert (H1 : Rabs h <= a1) by (eapply Rle_trans; [exact Hh|apply Rmin_l]). assert (H2 : Rabs h <= a2) by (eapply Rle_trans; [exact Hh|apply Rmin_r]).
    assert (At : Rabs (t * h) <= Rabs h) by (rewrite Rabs_mult, (Rabs_pos_eq t) by lra; rewrite <- (Rmult_1_l (Rabs h)) at 2; apply Rmult_le_compat_r; [apply Rabs_pos|lra]).
    set (v := (dex (at_ (pos h) (t * h)) i - RtoC (t * h) * lsum (F 6) (fun f => RtoC ((t * h) ^ fsize f * fw f * / tgam (TN f)) * T (pos h) (map (el h) f) i))%C).
    assert (Bv : Cmod v <= K2 * Rabs h ^ 8). { eapply Rle_trans; [apply (B2 (at_ (pos h) (t * h))); cbn [len]; lra|]. cbn [len]. apply Rmult_le_compat_l; [exact P2|]. apply pow_incr. split; [apply Rabs_pos|exact At]. }
    assert (Bu : Cmod (RtoC h * csum 8 (fun m => RtoC (t ^ m) * u m h))%C <= 8 * K1 * Rabs h ^ 8).
    { rewrite Cmod_mult, Cmod_R. apply Rle_trans with (Rabs h * (INR 8 * (K1 * Rabs h ^ 7))); [|cbn [INR pow]; lra]. apply Rmult_le_compat_l; [apply Rabs_pos|]. apply Cmod_csum_le. intros m Hm. rewrite Cmod_mult, Cmod_R. specialize (B1 h H1 m Hm). cbv beta in B1. assert (Rabs (t ^ m) <= 1). { rewrite Rabs_pos_eq by (apply pow_le; lra). rewrite <- (pow1 m). apply pow_incr. lra. }
      rewrite <- (Rmult_1_l (K1 * _)). apply Rmult_le_compat; [apply Rabs_pos|apply Cmod_ge_0|assumption|exact B1]. }
    match goal with |- Cmod ?X <= _ => assert (E : X = (RtoC h * csum 8 (fun m => RtoC (t ^ m) * u m h) - v)%C) end.
    2:{ rewrite E. unfold Cminus. eapply Rle_trans; [apply Cmod_triangle|]. rewrite Cmod_opp, Rmult_plus_distr_r. lra. }
    assert (E1 : csum 8 (fun m => RtoC (t ^ m) * u m h)%C = (csum 16 (fun j => RtoC (rsum 8 (fun m => t ^ m * row (nth m ZD []) j)%R) * kkh j h i) - lsum (F 6) (fun f => RtoC (h ^ fsize f * fw f * rsum 8 (fun m => t ^ m * rsum 16 (fun l => row (nth m ZD []) l * Fphi f l))%R) * T (pos h) (map (el h) f) i))%C).
    { unfold u. rewrite (csum_ext 8 _ (fun m => csum 16 (fun l => RtoC (t ^ m) * (RtoC (row (nth m ZD []) l) * kkh l h i)) + - lsum (F 6) (fun f => RtoC (t ^ m) * (RtoC (h ^ fsize f * fw f * rsum 16 (fun l => row (nth m ZD []) l * Fphi f l)%R) * T (pos h) (map (el h) f) i)))%C) by (intros m _; rewrite csum_scal_l, lsum_scal; ring).
      rewrite csum_plus, csum_opp, csum_swap, lsum_csum. unfold Cminus. apply (f_equal2 Cplus); [|apply (f_equal Copp)].
      - apply csum_ext. intros l _. rewrite (csum_ext 8 _ (fun m => kkh l h i * RtoC (t ^ m * row (nth m ZD []) l)%R)%C) by (intros m _; rewrite RtoC_mult; ring). rewrite csum_scal_l, csum_RtoC. ring.
      - apply lsum_ext. intros f _. rewrite (csum_ext 8 _ (fun m => (RtoC (h ^ fsize f * fw f) * T (pos h) (map (el h) f) i) * RtoC (t ^ m * rsum 16 (fun l => row (nth m ZD []) l * Fphi f l))%R)%C) by (intros m _; rewrite !RtoC_mult; ring). rewrite csum_scal_l, csum_RtoC, !RtoC_mult. ring. }
    rewrite E1. unfold v.
    assert (E2 : (RtoC (t * h) * lsum (F 6) (fun f => RtoC ((t * h) ^ fsize f * fw f * / tgam (TN f)) * T (pos h) (map (el h) f) i))%C = (RtoC h * lsum (F 6) (fun f => RtoC (h ^ fsize f * fw f * (t ^ S (fsize f) * / tgam (TN f))) * T (pos h) (map (el h) f) i))%C).
    { rewrite <- !lsum_scal. apply lsum_ext. intros f _. rewrite !Cmult_assoc, <- !RtoC_mult. f_equal. f_equal. rewrite Rpow_mult_distr. cbn [pow]. ring. }
    rewrite E2. rewrite (lsum_ext (F 6) (fun f => RtoC (h ^ fsize f * fw f * rsum 8 (fun m => t ^ m * (_ - _))%R) * T (pos h) (map (el h) f) i)%C (fun f => RtoC (h ^ fsize f * fw f * rsum 8 (fun m => t ^ m * rsum 16 (fun l => row (nth m ZD []) l * Fphi f l))%R) * T (pos h) (map (el h) f) i + RtoC (-1) * (RtoC (h ^ fsize f * fw f * (t ^ S (fsize f) * / tgam (TN f))) * T (pos h) (map (el h) f) i))%C).
    - rewrite lsum_plus, lsum_scal, C_m1. ring.
    - intros f Hf. apply forests_size in Hf. rewrite C_m1. rewrite (rsum_ext 8 _ (fun m => t ^ m * rsum 16 (fun l => row (nth m ZD []) l * Fphi f l) + (if Nat.eqb m (S (fsize f)) then - (t ^ S (fsize f) * / tgam (TN f)) else 0))).
      + rewrite rsum_plus, (rsum_single 8 (S (fsize f)) (fun m => if Nat.eqb m _ then _ else _)); [|lia|intros m Hm Nm; destruct (Nat.eqb_spec m (S (fsize f))); [congruence|reflexivity]]. rewrite Nat.eqb_refl, Rmult_plus_distr_l, RtoC_plus, Ropp_mult_distr_r_reverse, RtoC_opp. ring.
      + intros m _. destruct (Nat.eqb_spec m (S (fsize f))) as [->|]; ring.
  Qed.
  Lemma dense_coef f t : (fsize f <= 6)%nat -> 0 <= t <= 1 -> Rabs (rsum 8 (fun m => t ^ m * (rsum 16 (fun l => row (nth m ZD []) l * Fphi f l) - (if Nat.eqb m (S (fsize f)) then / tgam (TN f) else 0)))) <= 8 * / 10 ^ 24.
  Proof.
    intros Hf Ht. eapply Rle_trans; [apply Rabs_rsum|]. apply Rle_trans with (INR 8 * / 10 ^ 24); [|right; f_equal; cbn [INR]; lra]. rewrite <- rsum_const. apply rsum_le. intros m Hm. rewrite Rabs_mult. pose proof (order_d f m Hf Hm) as B. assert (Rabs (t ^ m) <= 1). { rewrite Rabs_pos_eq by (apply pow_le; lra). rewrite <- (pow1 m). apply pow_incr. lra. }
    rewrite <- (Rmult_1_l (/ 10 ^ 24)). apply Rmult_le_compat; [apply Rabs_pos|apply Rabs_pos|assumption|exact B].
  Qed.
  Lemma orders : exists K h0, 0 <= K /\ 0 < h0 /\ forall (h : hs I) i, Rabs h <= h0 -> (i < n)%nat ->
    Cmod (RtoC h * csum 16 (fun l => RtoC (row ZB l) * kkh l h i) - dex h i)%C <= K * Rabs h ^ 9 + / 10 ^ 26 * M * Rabs h /\
    Cmod (csum 16 (fun l => RtoC (row ZE1 l) * kkh l h i))%C <= K * Rabs h ^ 3 + / 10 ^ 26 * M /\
    Cmod (csum 16 (fun l => RtoC (row ZE2 l) * kkh l h i))%C <= K * Rabs h ^ 5 + / 10 ^ 26 * M /\
    forall t, 0 <= t <= 1 -> Cmod (RtoC h * csum 16 (fun j => RtoC (rsum 8 (fun m => t ^ m * row (nth m ZD []) j)%R) * kkh j h i) - dex (at_ (pos h) (t * h)) i)%C <= K * Rabs h ^ 8 + / 10 ^ 22 * M * Rabs h.
  Proof.
    destruct (bo_unif 9 n (fun i h => (RtoC h * csum 16 (fun l => RtoC (row ZB l) * kkh l h i) - dex h i) - RtoC h * lsum (F 7) (fun f => RtoC (h ^ fsize f * fw f * (rsum 16 (fun l => row ZB l * Fphi f l)%R - / tgam (TN f))) * T (pos h) (map (el h) f) i))%C step_series) as (K1 & a1 & P1 & Q1 & B1).
    destruct (bo_unif 3 n (fun i h => csum 16 (fun l => RtoC (row ZE1 l) * kkh l h i) - lsum (F 2) (fun f => RtoC (h ^ fsize f * fw f * rsum 16 (fun l => row ZE1 l * Fphi f l)%R) * T (pos h) (map (el h) f) i))%C) as (K2 & a2 & P2 & Q2 & B2); [intros i Hi; apply (wt 2 ZE1 i ltac:(lia) Hi)|].
    destruct (bo_unif 5 n (fun i h => csum 16 (fun l => RtoC (row ZE2 l) * kkh l h i) - lsum (F 4) (fun f => RtoC (h ^ fsize f * fw f * rsum 16 (fun l => row ZE2 l * Fphi f l)%R) * T (pos h) (map (el h) f) i))%C) as (K3 & a3 & P3 & Q3 & B3); [intros i Hi; apply (wt 4 ZE2 i ltac:(lia) Hi)|].
    assert (D : exists K h0, 0 <= K /\ 0 < h0 /\ forall i, (i < n)%nat -> forall (h : hs I) t, Rabs h <= h0 -> 0 <= t <= 1 ->
      Cmod ((RtoC h * csum 16 (fun j => RtoC (rsum 8 (fun m => t ^ m * row (nth m ZD []) j)%R) * kkh j h i) - dex (at_ (pos h) (t * h)) i) -
      RtoC h * lsum (F 6) (fun f => RtoC (h ^ fsize f * fw f * rsum 8 (fun m => t ^ m * (rsum 16 (fun l => row (nth m ZD []) l * Fphi f l) - (if Nat.eqb m (S (fsize f)) then / tgam (TN f) else 0)))%R) * T (pos h) (map (el h) f) i))%C <= K * Rabs h ^ 8).
    { exact (unif_t n _ dense_series). }
    destruct D as (K4 & a4 & P4 & Q4 & B4). set (a5 := / (4 * M)). assert (Q5 : 0 < a5) by (apply Rinv_0_lt_compat; lra).
    exists (K1 + K2 + K3 + K4), (Rmin (Rmin (Rmin a1 a2) (Rmin a3 a4)) a5). split; [lra|]. split; [repeat apply Rmin_glb_lt; lra|]. intros h i Hh Hi.
    pose proof (Rmin_l (Rmin (Rmin a1 a2) (Rmin a3 a4)) a5). pose proof (Rmin_r (Rmin (Rmin a1 a2) (Rmin a3 a4)) a5). pose proof (Rmin_l (Rmin a1 a2) (Rmin a3 a4)). pose proof (Rmin_r (Rmin a1 a2) (Rmin a3 a4)). pose proof (Rmin_l a1 a2). pose proof (Rmin_r a1 a2). pose proof (Rmin_l a3 a4). pose proof (Rmin_r a3 a4).
    assert (Hq : Rabs h * M <= 1 / 4). { apply Rle_trans with (a5 * M); [apply Rmult_le_compat_r; lra|]. unfold a5. right. field. lra. }
    assert (GP : forall k Ki, 0 <= Ki -> Ki <= K1 + K2 + K3 + K4 -> Ki * Rabs h ^ k <= (K1 + K2 + K3 + K4) * Rabs h ^ k) by (intros k Ki _ HKi; apply Rmult_le_compat_r; [apply pow_le, Rabs_pos|exact HKi]).
    assert (C26 : / 10 ^ 27 * 2.35 <= / 10 ^ 26). { replace (10 ^ 27) with (10 * 10 ^ 26) by (cbn [pow]; ring). assert (0 < / 10 ^ 26) by (apply Rinv_0_lt_compat, pow_lt; lra). rewrite Rinv_mult. lra. }
    assert (C22 : 8 * / 10 ^ 24 * 2.35 <= / 10 ^ 22). { replace (10 ^ 24) with (100 * 10 ^ 22) by (cbn [pow]; ring). assert (0 < / 10 ^ 22) by (apply Rinv_0_lt_compat, pow_lt; lra). rewrite Rinv_mult. lra. }
    assert (TRI : forall (x y : C) (a b : R), Cmod (x - y)%C <= a -> Cmod y <= b -> Cmod x <= a + b). { intros x y a b H8 H9. replace x with ((x - y) + y)%C by ring. eapply Rle_trans; [apply Cmod_triangle|]. lra. }
    assert (CM : forall c, c * 2.35 <= / 10 ^ 26 -> c * M * 2.35 <= / 10 ^ 26 * M) by (intros c Hc; replace (c * M * 2.35) with (c * 2.35 * M) by ring; apply Rmult_le_compat_r; lra).
    split; [|split; [|split]].
    - apply Rle_trans with (K1 * Rabs h ^ 9 + / 10 ^ 27 * M * 2.35 * Rabs h).
      + eapply TRI; [apply (B1 h ltac:(lra) i Hi)|]. rewrite Cmod_mult, Cmod_R, Rmult_comm. apply Rmult_le_compat_r; [apply Rabs_pos|]. apply (forests_bound n (T (pos h)) M HM (TB (pos h)) 7 h (fun f => rsum 16 (fun l => row ZB l * Fphi f l) - / tgam (TN f)) (/ 10 ^ 27) i Hi ltac:(lia) Hq). intros f Hf. exact (order_b f Hf).
      + apply Rplus_le_compat; [apply GP; lra|]. apply Rmult_le_compat_r; [apply Rabs_pos|]. now apply CM.
    - apply Rle_trans with (K2 * Rabs h ^ 3 + / 10 ^ 27 * M * 2.35).
      + eapply TRI; [apply (B2 h ltac:(lra) i Hi)|]. apply (forests_bound n (T (pos h)) M HM (TB (pos h)) 2 h (fun f => rsum 16 (fun l => row ZE1 l * Fphi f l)) (/ 10 ^ 27) i Hi ltac:(lia) Hq). intros f Hf. exact (order_e1 f Hf).
      + apply Rplus_le_compat; [apply GP; lra|]. now apply CM.
    - apply Rle_trans with (K3 * Rabs h ^ 5 + / 10 ^ 27 * M * 2.35).
      + eapply TRI; [apply (B3 h ltac:(lra) i Hi)|]. apply (forests_bound n (T (pos h)) M HM (TB (pos h)) 4 h (fun f => rsum 16 (fun l => row ZE2 l * Fphi f l)) (/ 10 ^ 27) i Hi ltac:(lia) Hq). intros f Hf. exact (order_e2 f Hf).
      + apply Rplus_le_compat; [apply GP; lra|]. now apply CM.
    - intros t Ht. apply Rle_trans with (K4 * Rabs h ^ 8 + 8 * / 10 ^ 24 * M * 2.35 * Rabs h).
      + eapply TRI; [apply (B4 i Hi h t ltac:(lra) Ht)|]. rewrite Cmod_mult, Cmod_R, Rmult_comm. apply Rmult_le_compat_r; [apply Rabs_pos|].
        apply (forests_bound n (T (pos h)) M HM (TB (pos h)) 6 h (fun f => rsum 8 (fun m => t ^ m * (rsum 16 (fun l => row (nth m ZD []) l * Fphi f l) - (if Nat.eqb m (S (fsize f)) then / tgam (TN f) else 0)))) (8 * / 10 ^ 24) i Hi ltac:(lia) Hq). intros f Hf. now apply dense_coef.
      + apply Rplus_le_compat; [apply GP; lra|]. apply Rmult_le_compat_r; [apply Rabs_pos|]. replace (8 * / 10 ^ 24 * M * 2.35) with (8 * / 10 ^ 24 * 2.35 * M) by ring. apply Rmult_le_compat_r; lra.
  Qed.
End Orders.
Transparent trees forests lsum row fphi rsum csum ZD.

(*! C114: for every smooth right-hand side (seventh-order Taylor expansion at the start, derivatives bounded by M) with a solution through the start there are K and h0, independent of the program, such that every returned step with |h| <= h0 ends within K |h|^9 + 1e-26 M |h| of the solution, its interpolant stays within K |h|^8 + 1e-22 M |h| of the solution over the whole step, and the two error estimates are at most K |h|^3 + 1e-26 M and K |h|^5 + 1e-26 M. *)
Lemma C114_order_l : forall (n : nat) (phi : R -> list C -> nat -> C) (x0 : R) (y0 : list C) (T : list (nat -> C) -> nat -> C) (M : R) (sol : R -> list C) (h1 : R),
  length y0 = n -> taylor7 n phi x0 y0 T ->
  1 <= M -> (forall l rs i, (i < n)%nat -> (length l <= 7)%nat -> List.Forall2 (bd (S n)) l rs -> Cmod (T l i) <= M * rprod rs) ->
  0 < h1 -> (forall x, length (sol x) = n) -> sol x0 = y0 ->
  (forall x j, (j < n)%nat -> Rabs (x - x0) <= h1 -> is_cderive (fun t => nth j (sol t) z0) x (phi x (sol x) j)) ->
  exists K h0, 0 <= K /\ 0 < h0 /\
  forall (W : Type) (f : R -> list C -> Base.M W (list C)) (fuel : nat) (htry : R) (g g' : G W),
  (forall x y w d w', length y = n -> f x y w = (Ok d, w') -> forall i, (i < n)%nat -> nth i d z0 = phi x y i) ->
  p_x (g_s g) = x0 -> p_y (g_s g) = y0 -> (forall i, (i < n)%nat -> nth i (p_dydx (g_s g)) z0 = phi x0 y0 i) ->
  step f fuel htry g = (Ok tt, g') ->
  let s' := g_s g' in let h := p_hdid s' in Rabs h <= h0 -> forall i, (i < n)%nat ->
  Cmod (nth i (p_y s') z0 - nth i (sol (x0 + h)%R) z0)%C <= K * Rabs h ^ 9 + / 10 ^ 26 * M * Rabs h /\
  Cmod (nth i (p_yerr s') z0) <= K * Rabs h ^ 3 + / 10 ^ 26 * M /\
  Cmod (nth i (p_yerr2 s') z0) <= K * Rabs h ^ 5 + / 10 ^ 26 * M /\
  (p_dense (g_s g) = true -> h <> 0 -> forall t, 0 <= t <= 1 ->
    Cmod (nth i (dense_out s' (x0 + t * h)%R h) z0 - nth i (sol (x0 + t * h)%R) z0)%C <= K * Rabs h ^ 8 + / 10 ^ 22 * M * Rabs h).
Proof.
  intros n phi x0 y0 T M sol h1 Ly HT HM TB Hh1 Hlen Hini Hder. destruct (orders (I := unit) n phi (fun _ => x0) (fun _ => y0) (fun _ => T) M (taylor7_unit _ _ _ _ _ HT) HM (fun _ => TB) (fun _ => sol) h1 Hh1 (fun _ => Hlen) (fun _ => Hini) (fun _ => Hder)) as (K & h0 & HK & H0 & B).
  { intros j Hj. refine (bo_ext 1 _ _ _ (slope_bo _ _ (dex_der n phi (fun _ : unit => x0) (fun _ => y0) (fun _ => sol) h1 (fun _ => Hder) tt 0 j Hj ltac:(rewrite Rabs_R0; lra)))). intros [[] h]. rewrite dex_lt by exact Hj. cbn [pos len]. rewrite Rplus_0_r, Hini. ring. }
  exists K, h0. split; [exact HK|]. split; [exact H0|].
  intros W f fuel htry g g' Hf Hx Hy Hd E s' h Hh i Hi. destruct (B (at_ tt h) i Hh Hi) as (C1 & C2 & C3 & C4). clear B.
  destruct (step_val n phi x0 y0 Ly f Hf fuel htry g g' (conj Hx (conj Hy Hd)) E) as (V1 & V2 & V3 & V4 & V5 & V6). fold s' in V1, V2, V3, V4, V5, V6. fold h in V1, V2, V3, V4.
  split; [|split; [|split]].
  - rewrite (V1 i Hi), dst_lt by exact Hi. rewrite (dex_lt n _ _ _ (at_ tt h) i Hi) in C1. unfold kkh in C1. cbn [pos len] in C1. unfold ra. change (nth 12 ZA []) with ZB. match goal with |- Cmod ?X <= _ => match type of C1 with Cmod ?Y <= _ => replace X with Y by ring end end. exact C1.
  - rewrite (V2 i Hi). unfold kkh in C2. cbn [pos len] in C2. exact C2.
  - rewrite (V3 i Hi). unfold kkh in C3. cbn [pos len] in C3. exact C3.
  - intros Hde Hn t Ht. rewrite (dense_val n phi x0 y0 Ly s' h t i (V4 Hde) V5 V6 Hn Hi). specialize (C4 t Ht). rewrite (dex_lt n _ _ _ (at_ tt (t * h)) i Hi) in C4. unfold kkh in C4. cbn [pos len] in C4. match goal with |- Cmod ?X <= _ => match type of C4 with Cmod ?Y <= _ => replace X with Y by ring end end. exact C4.
Qed.

(** Convergence of the adaptive Dormand-Prince integration to the solution, for every smooth system (C123). *)
From Coq Require Import Reals List ZArith Bool Arith Lia Lra.
From Coquelicot Require Import Complex.
From Verif Require Import Base CNum NumPy ModelDopr ModelODE ODEOutputProofs ODEStepProofs ODETableauProofs ODEIntProofs ODERunProofs ODEChainProofs SSFMGnlseProofs ODELinearProofs ODETreeProofs BSeriesProofs ODEOrderProofs ODEAcceptProofs.
Import ListNotations.
Local Open Scope R_scope.
Local Open Scope py_scope.
Local Notation z0 := (RtoC 0).
Opaque SC.

Definition near (n : nat) (y z : list C) (d : R) : Prop := forall j, (j < n)%nat -> Cmod (nth j y z0 - nth j z z0)%C <= d.

(** ** The tableau *)
Lemma row_abs z l : Rabs (row z l) = row (map Z.abs z) l.
Proof.
  unfold row. replace (nth l (map Z.abs z) 0%Z) with (Z.abs (nth l z 0%Z)) by (symmetry; exact (map_nth Z.abs z 0%Z l)). unfold Rdiv. pose proof SC_pos as P. rewrite Rabs_mult, (Rabs_pos_eq (/ _)) by (left; now apply Rinv_0_lt_compat). f_equal. now rewrite <- abs_IZR.
Qed.
Lemma row_sum z m : rsum m (fun l => row z l) = IZR (fold_right Z.add 0%Z (map (fun l => nth l z 0%Z) (seq 0 m))) / IZR SC.
Proof.
  induction m as [|m IH]; [rewrite rsum_0; cbn; unfold Rdiv; ring|]. rewrite rsum_S, IH, seq_S, map_app, fold_right_app. cbn [map fold_right Nat.add]. rewrite Z.add_0_r. unfold row.
  assert (F : forall l a, fold_right Z.add a l = (fold_right Z.add 0 l + a)%Z) by (induction l as [|b l IHl]; intros a; cbn [fold_right]; [lia|rewrite IHl; lia]). rewrite (F _ (nth m z 0%Z)), plus_IZR. unfold Rdiv. ring.
Qed.
Lemma zb_abs : rsum 16 (fun l => Rabs (row ZB l)) <= 13.
Proof.
  rewrite (rsum_ext 16 _ (fun l => row (map Z.abs ZB) l)) by (intros l _; apply row_abs). rewrite row_sum. pose proof SC_pos as P. apply (Rmult_le_reg_r (IZR SC)); [exact P|]. unfold Rdiv. rewrite Rmult_assoc, Rinv_l, Rmult_1_r by lra. rewrite <- mult_IZR. apply IZR_le. apply Z.leb_le. vm_cast_no_check (eq_refl true).
Qed.
Lemma rn_bound m : (m < 16)%nat -> Rabs (rn m) <= 1.
Proof.
  intros Hm. unfold rn. rewrite row_abs. unfold row. pose proof SC_pos as P. apply (Rmult_le_reg_r (IZR SC)); [exact P|]. unfold Rdiv. rewrite Rmult_assoc, Rinv_l, Rmult_1_r, Rmult_1_l by lra. apply IZR_le. apply Z.leb_le.
  assert (F : forallb (fun m => Z.leb (nth m (map Z.abs ZC) 0%Z) SC) (seq 0 16) = true) by vm_cast_no_check (eq_refl true). rewrite forallb_forall in F. apply F, in_seq. lia.
Qed.
Lemma utaylor7_pull {I J} (q : J -> I) n phi (x0 : I -> R) y0 T : utaylor7 n phi x0 y0 T -> utaylor7 n phi (fun o => x0 (q o)) (fun o => y0 (q o)) (fun o => T (q o)).
Proof. intros (H & M & r & HM & Hr & B). split; [intros o; apply H|]. exists M, r. split; [exact HM|]. split; [exact Hr|]. intros o. apply B. Qed.
(** the bound on uniform families of pairs *)
Lemma bo_unif2 {I} p N n (u : nat -> nat -> hs I -> C) : (forall m j, (m < N)%nat -> (j < n)%nat -> bo p (u m j)) ->
  exists K h0, 0 <= K /\ 0 < h0 /\ forall h : hs I, Rabs h <= h0 -> forall m j, (m < N)%nat -> (j < n)%nat -> Cmod (u m j h) <= K * Rabs h ^ p.
Proof.
  intros H. destruct (Nat.eq_dec n 0) as [->|Nn]; [exists 0, 1; split; [lra|]; split; [lra|]; intros h _ m j _ Hj; lia|].
  destruct (bo_unif p (N * n) (fun q => u (q / n)%nat (q mod n)%nat)) as (K & h0 & HK & [H0 _] & B).
  - intros q Hq. apply H; [apply Nat.div_lt_upper_bound; lia|apply Nat.mod_upper_bound; lia].
  - exists K, h0. split; [exact HK|]. split; [exact H0|]. intros h Hh m j Hm Hj. specialize (B h Hh (m * n + j)%nat ltac:(nia)). cbv beta in B.
    rewrite Nat.div_add_l, (Nat.div_small j n), Nat.add_0_r in B by lia. rewrite Nat.add_comm, Nat.mod_add, Nat.mod_small in B by lia. exact B.
Qed.

(** ** One step from a point near the solution *)
Definition rk (n : nat) (phi : R -> list C -> nat -> C) (x : R) (y : list C) (h : R) : list C := shifted n y (dst n 16 ra rn (kk n phi x y) 12 h).
Opaque trees forests lsum row fphi rsum csum ZD ZB.
Section Conv.
  Variables (n : nat) (phi : R -> list C -> nat -> C) (a b : R) (sol : R -> list C) (T : R -> list (nat -> C) -> nat -> C) (M La rho : R).
  Hypothesis Hlen : forall x, length (sol x) = n.
  Hypothesis Hder : forall x j, (j < n)%nat -> a <= x <= b -> is_cderive (fun t => nth j (sol t) z0) x (phi x (sol x) j).
  Hypothesis HT : utaylor7 (I := {x | a <= x <= b}) n phi (fun o => proj1_sig o) (fun o => sol (proj1_sig o)) (fun o => T (proj1_sig o)).
  Hypothesis HM : 1 <= M.
  Hypothesis TB : forall x l rs i, a <= x <= b -> (i < n)%nat -> (length l <= 7)%nat -> List.Forall2 (bd (S n)) l rs -> Cmod (T x l i) <= M * rprod rs.
  Hypothesis HLa : 0 <= La.
  Hypothesis Hrho : 0 < rho.
  Hypothesis Hlip : forall x y z d, a <= x <= b -> length y = n -> length z = n -> near n y (sol x) rho -> near n z (sol x) rho -> near n y z d -> forall i, (i < n)%nat -> Cmod (phi x y i - phi x z i)%C <= La * d.
  Variables (a' b' : R).
  Hypothesis Ha : a < a'.
  Hypothesis Hb : b' < b.
  Definition eta : R := Rmin (a' - a) (b - b').
  Lemma eta_pos : 0 < eta. Proof. apply Rmin_glb_lt; lra. Qed.
  Lemma eta_in x t : a' <= x <= b' -> Rabs t <= eta -> a <= x + t <= b.
  Proof. intros Hx Ht. pose proof (Rmin_l (a' - a) (b - b')). pose proof (Rmin_r (a' - a) (b - b')). unfold eta in Ht. unfold Rabs in Ht. destruct (Rcase_abs t); lra. Qed.
  Notation I := {x | a' <= x <= b'}.
  Lemma in_big (o : I) : a <= proj1_sig o <= b. Proof. destruct o as [x Hx]. cbn. lra. Qed.
  Notation X0 := (fun o : I => proj1_sig o).
  Notation Y0 := (fun o : I => sol (proj1_sig o)).
  Notation T0 := (fun o : I => T (proj1_sig o)).
  Lemma HTI : utaylor7 (I := I) n phi X0 Y0 T0.
  Proof. exact (utaylor7_pull (fun o : I => exist (fun x => a <= x <= b) (proj1_sig o) (in_big o)) n phi _ _ _ HT). Qed.
  Lemma phi_bound x j : a <= x <= b -> (j < n)%nat -> Cmod (phi x (sol x) j) <= M.
  Proof.
    intros Hx Hj. pose proof (utaylor7_at n phi _ _ _ (exist (fun x => a <= x <= b) x Hx) HT) as H. cbn [proj1_sig] in H. rewrite <- (T_nil n phi x (sol x) (T x) j (Hlen x) H Hj).
    eapply Rle_trans; [apply (TB x [] []); [exact Hx|exact Hj|cbn; lia|constructor]|]. cbn. lra.
  Qed.
  Lemma DerI : forall (o : I) x j, (j < n)%nat -> Rabs (x - proj1_sig o) <= eta -> is_cderive (fun t => nth j (sol t) z0) x (phi x (sol x) j).
  Proof. intros [x0 H0] x j Hj Hx. cbn [proj1_sig] in Hx. apply Hder; [exact Hj|]. replace x with (x0 + (x - x0)) by ring. now apply eta_in. Qed.
  Lemma sol_slope x t j : a' <= x <= b' -> Rabs t <= eta -> (j < n)%nat -> Cmod (nth j (sol (x + t)) z0 - nth j (sol x) z0)%C <= 2 * (M * Rabs t).
  Proof.
    intros Hx Ht Hj. pose proof (cmvt2 (fun t => nth j (sol (x + t)%R) z0) (fun t => phi (x + t) (sol (x + t)%R) j) t M) as H. cbv beta in H. rewrite Rplus_0_r in H. apply H.
    - intros u Hu. apply (BSeriesProofs.cderive_shift (fun t => nth j (sol t) z0)). apply Hder; [exact Hj|]. apply eta_in; [exact Hx|lra].
    - intros u Hu. apply phi_bound; [|exact Hj]. apply eta_in; [exact Hx|lra].
  Qed.
  Lemma SlopeI : forall j, (j < n)%nat -> bo (I := I) 1 (fun h => dex n X0 Y0 (fun _ => sol) h j).
  Proof.
    intros j Hj. apply (bo_intro 1 _ (2 * M) eta); [lra|apply eta_pos|]. intros [[x Hx] h] Hh. rewrite dex_lt by exact Hj. cbn [pos len proj1_sig] in *. rewrite pow_1, Rmult_assoc. now apply sol_slope.
  Qed.
  Lemma OrdersI : exists K h0, 0 <= K /\ 0 < h0 /\ forall x h i, a' <= x <= b' -> Rabs h <= h0 -> (i < n)%nat ->
    Cmod (nth i (rk n phi x (sol x) h) z0 - nth i (sol (x + h)) z0)%C <= K * Rabs h ^ 9 + / 10 ^ 26 * M * Rabs h.
  Proof.
    destruct (orders (I := I) n phi X0 Y0 T0 M HTI HM (fun o l rs i => TB (proj1_sig o) l rs i (in_big o)) (fun _ => sol) eta eta_pos (fun _ => Hlen) (fun _ => eq_refl) DerI SlopeI) as (K & h0 & HK & H0 & B).
    exists K, h0. split; [exact HK|]. split; [exact H0|]. intros x h i Hx Hh Hi. destruct (B (at_ (exist _ x Hx) h) i Hh Hi) as (C1 & _). rewrite dex_lt in C1 by exact Hi. unfold kkh in C1. cbn [pos len proj1_sig] in C1.
    unfold rk, shifted. rewrite mk_nth by exact Hi. rewrite dst_lt by exact Hi. unfold ra. change (nth 12 ZA []) with ZB. match goal with |- Cmod ?X <= _ => match type of C1 with Cmod ?Y <= _ => replace X with Y by ring end end. exact C1.
  Qed.
  Lemma stage_base : exists K h0, 0 <= K /\ 0 < h0 <= eta /\ forall x h m, a' <= x <= b' -> Rabs h <= h0 -> (m < 16)%nat -> near n (shifted n (sol x) (dst n 16 ra rn (kk n phi x (sol x)) m h)) (sol (x + rn m * h)) (K * Rabs h).
  Proof.
    destruct (bo_unif2 (I := I) 1 16 n (fun m j h => dsth n 16 ra rn (kkh n phi X0 Y0) m h j)) as (K & h0 & HK & H0 & B).
    { intros m j _ Hj. apply (dst_bo n phi X0 Y0 T0 HTI 16 ra rn (kkh n phi X0 Y0) (kkh_eq n phi X0 Y0) ra_low m j). lia. }
    exists (K + 2 * M), (Rmin h0 eta). split; [lra|]. split; [split; [apply Rmin_glb_lt; [exact H0|apply eta_pos]|apply Rmin_r]|]. intros x h m Hx Hh Hm j Hj.
    pose proof (Rmin_l h0 eta). pose proof (Rmin_r h0 eta). specialize (B (at_ (exist _ x Hx) h) ltac:(cbn [len]; lra) m j Hm Hj). rewrite dsth_lt in B by exact Hj. unfold kkh in B. cbn [pos len proj1_sig] in B. rewrite pow_1 in B.
    unfold shifted. rewrite mk_nth by exact Hj. rewrite dst_lt by exact Hj. set (d := (RtoC h * csum 16 _)%C) in *.
    assert (Ht : Rabs (rn m * h) <= Rabs h). { rewrite Rabs_mult. pose proof (rn_bound m Hm). rewrite <- (Rmult_1_l (Rabs h)) at 2. apply Rmult_le_compat_r; [apply Rabs_pos|assumption]. }
    pose proof (sol_slope x (rn m * h) j Hx ltac:(lra) Hj) as S. replace (nth j (sol x) z0 + d - nth j (sol (x + rn m * h)) z0)%C with (d + - (nth j (sol (x + rn m * h)) z0 - nth j (sol x) z0))%C by ring.
    eapply Rle_trans; [apply Cmod_triangle|]. rewrite Cmod_opp. assert (M * Rabs (rn m * h) <= M * Rabs h) by (apply Rmult_le_compat_l; lra). lra.
  Qed.
  Definition Asum : R := rsum 16 (fun m => rsum 16 (fun l => Rabs (ra m l))).
  Lemma Asum_row m : (m < 16)%nat -> 0 <= rsum 16 (fun l => Rabs (ra m l)) <= Asum.
  Proof.
    intros Hm. split; [apply rsum_nonneg; intros; apply Rabs_pos|]. unfold Asum. apply (rsum_pick 16 m (fun m => rsum 16 (fun l => Rabs (ra m l))) Hm). intros j. apply rsum_nonneg. intros. apply Rabs_pos.
  Qed.
  Lemma stage_lip : exists h0, 0 < h0 <= eta /\ forall x y h d, a' <= x <= b' -> length y = n -> Rabs h <= h0 -> 0 <= d <= rho / 4 -> near n y (sol x) d ->
    forall m, (m < 16)%nat -> forall i, (i < n)%nat -> Cmod (kk n phi x y m h i - kk n phi x (sol x) m h i)%C <= 2 * La * d.
  Proof.
    destruct stage_base as (K & h0 & HK & [H0 He] & SB). set (q := 2 * La * Asum + 1). set (p := 2 * K + 1).
    assert (A0 : 0 <= Asum) by (destruct (Asum_row 0 ltac:(lia)); lra). assert (Q1 : 1 <= q) by (unfold q; assert (0 <= 2 * La * Asum) by (repeat apply Rmult_le_pos; lra); lra). assert (P1 : 1 <= p) by (unfold p; lra).
    exists (Rmin (Rmin h0 (/ q)) (rho / p)). assert (Rp : 0 < rho / p) by (apply Rdiv_lt_0_compat; lra). assert (Rq : 0 < / q) by (apply Rinv_0_lt_compat; lra).
    pose proof (Rmin_l (Rmin h0 (/ q)) (rho / p)) as M1. pose proof (Rmin_r (Rmin h0 (/ q)) (rho / p)) as M2. pose proof (Rmin_l h0 (/ q)) as M3. pose proof (Rmin_r h0 (/ q)) as M4.
    split; [split; [repeat apply Rmin_glb_lt; assumption|lra]|]. intros x y h d Hx Ly Hh [Hd0 Hd] Hy. pose proof (Rabs_pos h) as Ph.
    assert (Hq : Rabs h * (2 * La * Asum) <= 1). { apply Rle_trans with (Rabs h * q); [apply Rmult_le_compat_l; [exact Ph|unfold q; lra]|]. apply Rle_trans with (/ q * q); [apply Rmult_le_compat_r; lra|]. right. field. lra. }
    assert (Hp : K * Rabs h <= rho / 2). { apply Rle_trans with (p / 2 * (rho / p)); [apply Rmult_le_compat; try lra; unfold p; lra|]. right. field. lra. }
    induction m as [m IH] using lt_wf_ind. intros Hm i Hi. rewrite !kk_eq by assumption.
    set (ay := shifted n y _). set (as_ := shifted n (sol x) _).
    assert (Ht : Rabs (rn m * h) <= Rabs h). { rewrite Rabs_mult. pose proof (rn_bound m Hm). rewrite <- (Rmult_1_l (Rabs h)) at 2. apply Rmult_le_compat_r; [apply Rabs_pos|assumption]. }
    assert (N1 : near n ay as_ (2 * d)).
    { intros j Hj. unfold ay, as_, shifted. rewrite !(mk_nth n) by exact Hj. rewrite !dst_lt by exact Hj.
      replace (nth j y z0 + RtoC h * csum 16 (fun l => RtoC (ra m l) * kk n phi x y l h j) - (nth j (sol x) z0 + RtoC h * csum 16 (fun l => RtoC (ra m l) * kk n phi x (sol x) l h j)))%C with ((nth j y z0 - nth j (sol x) z0) + RtoC h * csum 16 (fun l => RtoC (ra m l) * (kk n phi x y l h j - kk n phi x (sol x) l h j)))%C.
      2:{ rewrite (csum_ext 16 (fun l => RtoC (ra m l) * (_ - _))%C (fun l => RtoC (ra m l) * kk n phi x y l h j + - (RtoC (ra m l) * kk n phi x (sol x) l h j))%C) by (intros l _; ring). rewrite csum_plus, csum_opp. ring. }
      eapply Rle_trans; [apply Cmod_triangle|]. specialize (Hy j Hj). rewrite Cmod_mult, Cmod_R.
      assert (S : Cmod (csum 16 (fun l => RtoC (ra m l) * (kk n phi x y l h j - kk n phi x (sol x) l h j))%C) <= Asum * (2 * La * d)).
      { eapply Rle_trans; [apply Cmod_csum|]. apply Rle_trans with (rsum 16 (fun l => Rabs (ra m l) * (2 * La * d))).
        - apply rsum_le. intros l Hl. rewrite Cmod_mult, Cmod_R. destruct (lt_dec l m) as [L|L]; [apply Rmult_le_compat_l; [apply Rabs_pos|]; apply IH; [exact L|lia|exact Hj]|]. rewrite ra_low by lia. rewrite Rabs_R0. lra.
        - rewrite rsum_scal_r. apply Rmult_le_compat_r; [repeat apply Rmult_le_pos; lra|]. apply (Asum_row m Hm). }
      assert (Rabs h * (Asum * (2 * La * d)) <= 1 * d). { replace (Rabs h * (Asum * (2 * La * d))) with (Rabs h * (2 * La * Asum) * d) by ring. now apply Rmult_le_compat_r. }
      pose proof (Rmult_le_compat_l _ _ _ Ph S). lra. }
    assert (N2 : near n as_ (sol (x + rn m * h)) (rho / 2)) by (intros j Hj; eapply Rle_trans; [apply (SB x h m Hx ltac:(lra) Hm j Hj)|exact Hp]).
    assert (N3 : near n ay (sol (x + rn m * h)) rho). { intros j Hj. specialize (N1 j Hj). specialize (N2 j Hj). replace (nth j ay z0 - nth j (sol (x + rn m * h)) z0)%C with ((nth j ay z0 - nth j as_ z0) + (nth j as_ z0 - nth j (sol (x + rn m * h)) z0))%C by ring. eapply Rle_trans; [apply Cmod_triangle|]. lra. }
    eapply Rle_trans; [apply (Hlip (x + rn m * h) ay as_ (2 * d)); [apply eta_in; [exact Hx|lra]|apply mk_length|apply mk_length|exact N3| |exact N1|exact Hi]|right; ring].
    intros j Hj. specialize (N2 j Hj). lra.
  Qed.
  Lemma step_err : exists K h0, 0 <= K /\ 0 < h0 /\ forall x y h d, a' <= x <= b' -> length y = n -> Rabs h <= h0 -> 0 <= d <= rho / 4 -> near n y (sol x) d ->
    near n (rk n phi x y h) (sol (x + h)) ((1 + 26 * La * Rabs h) * d + (K * Rabs h ^ 9 + / 10 ^ 26 * M * Rabs h)).
  Proof.
    destruct OrdersI as (K & h1 & HK & H1 & O). destruct stage_lip as (h2 & [H2 _] & L). exists K, (Rmin h1 h2). split; [exact HK|]. split; [now apply Rmin_glb_lt|]. intros x y h d Hx Ly Hh Hd Hy j Hj. pose proof (Rmin_l h1 h2). pose proof (Rmin_r h1 h2).
    specialize (O x h j Hx ltac:(lra) Hj). specialize (L x y h d Hx Ly ltac:(lra) Hd Hy). pose proof (Hy j Hj) as Yj. set (E := K * Rabs h ^ 9 + / 10 ^ 26 * M * Rabs h) in *. clearbody E.
    assert (S : Cmod (csum 16 (fun l => RtoC (ra 12 l) * (kk n phi x y l h j - kk n phi x (sol x) l h j))%C) <= 13 * (2 * La * d)).
    { eapply Rle_trans; [apply Cmod_csum|]. apply Rle_trans with (rsum 16 (fun l => Rabs (row ZB l) * (2 * La * d))).
      - apply rsum_le. intros l Hl. rewrite Cmod_mult, Cmod_R. unfold ra. change (nth 12 ZA []) with ZB. apply Rmult_le_compat_l; [apply Rabs_pos|]. now apply L.
      - rewrite rsum_scal_r. apply Rmult_le_compat_r; [repeat apply Rmult_le_pos; lra|]. apply zb_abs. }
    assert (D : (nth j (rk n phi x y h) z0 - nth j (sol (x + h)) z0 = (nth j y z0 - nth j (sol x) z0) + RtoC h * csum 16 (fun l => RtoC (ra 12 l) * (kk n phi x y l h j - kk n phi x (sol x) l h j)) + (nth j (rk n phi x (sol x) h) z0 - nth j (sol (x + h)) z0))%C).
    { unfold rk, shifted. rewrite !(mk_nth n) by exact Hj. rewrite !dst_lt by exact Hj.
      rewrite (csum_ext 16 (fun l => RtoC (ra 12 l) * (_ - _))%C (fun l => RtoC (ra 12 l) * kk n phi x y l h j + - (RtoC (ra 12 l) * kk n phi x (sol x) l h j))%C) by (intros l _; ring). rewrite csum_plus, csum_opp. ring. }
    rewrite D. eapply Rle_trans; [apply Cmod_triangle|]. apply Rplus_le_compat; [|exact O]. eapply Rle_trans; [apply Cmod_triangle|]. rewrite Cmod_mult, Cmod_R. pose proof (Rmult_le_compat_l _ _ _ (Rabs_pos h) S). replace ((1 + 26 * La * Rabs h) * d) with (d + Rabs h * (13 * (2 * La * d))) by ring. lra.
  Qed.
End Conv.
Transparent trees forests lsum row fphi rsum csum ZD ZB.

(** ** Accumulation over the steps of a run *)
Lemma exp_ge_1p x : 0 <= x -> 1 + x <= exp x.
Proof. intros _. apply exp_ineq1_le. Qed.
Lemma grow q S t e0 c : 0 <= q -> 0 <= S -> 0 <= t -> 0 <= e0 -> 0 <= c -> (1 + q * t) * (exp (q * S) * (e0 + S * c)) + t * c <= exp (q * (S + t)) * (e0 + (S + t) * c).
Proof.
  intros Hq HS Ht He Hc. rewrite (Rmult_plus_distr_l q), exp_plus. pose proof (exp_ge_1p (q * t) ltac:(now apply Rmult_le_pos)) as E1. pose proof (exp_ge_1p (q * S) ltac:(now apply Rmult_le_pos)) as E2.
  assert (P1 : 0 <= q * t) by now apply Rmult_le_pos. assert (P2 : 0 <= q * S) by now apply Rmult_le_pos. assert (P3 : 0 <= t * c) by now apply Rmult_le_pos. assert (P4 : 0 <= e0 + S * c) by (pose proof (Rmult_le_pos _ _ HS Hc); lra).
  set (x := exp (q * S)) in *. set (y := exp (q * t)) in *. replace (x * y * (e0 + (S + t) * c)) with (y * (x * (e0 + S * c)) + x * y * (t * c)) by ring.
  apply Rplus_le_compat; [apply Rmult_le_compat_r; [apply Rmult_le_pos; lra|exact E1]|]. rewrite <- (Rmult_1_l (t * c)) at 1. apply Rmult_le_compat_r; [exact P3|]. rewrite <- (Rmult_1_l 1). apply Rmult_le_compat; lra.
Qed.
Lemma mono_le D l i j : ODEIntProofs.mono D l -> (i <= j)%nat -> (j < length l)%nat -> 0 <= (nth j l 0 - nth i l 0) * D.
Proof.
  intros H Hij Hj. induction j as [|j IH]; [assert (i = 0)%nat as -> by lia; rewrite Rminus_eq_0; lra|]. destruct (Nat.eq_dec i (S j)) as [->|Nij]; [rewrite Rminus_eq_0; lra|]. specialize (IH ltac:(lia) ltac:(lia)). specialize (H j Hj).
  replace ((nth (S j) l 0 - nth i l 0) * D) with ((nth (S j) l 0 - nth j l 0) * D + (nth j l 0 - nth i l 0) * D) by ring. lra.
Qed.
Lemma abs_split u v D : D <> 0 -> 0 <= u * D -> 0 <= v * D -> Rabs (u + v) = Rabs u + Rabs v.
Proof.
  intros HD Hu Hv. destruct (Rle_dec 0 D) as [P|P].
  - assert (0 < D) by lra. assert (0 <= u) by (apply (Rmult_le_reg_r D); lra). assert (0 <= v) by (apply (Rmult_le_reg_r D); lra). rewrite !Rabs_pos_eq; lra.
  - assert (0 < - D) by lra. assert (u <= 0) by (apply (Rmult_le_reg_r (- D)); lra). assert (v <= 0) by (apply (Rmult_le_reg_r (- D)); lra). rewrite !Rabs_left1; lra.
Qed.
Definition rk_link (n : nat) (phi : R -> list C -> nat -> C) (p p' : R * list C) : Prop :=
  length (snd p) = n /\ length (snd p') = n /\ forall i, (i < n)%nat -> nth i (snd p') z0 = nth i (rk n phi (fst p) (snd p) (fst p' - fst p)) z0.
Definition slopes (n : nat) (phi : R -> list C -> nat -> C) (s : stepper) : Prop := length (p_y s) = n /\ forall i, (i < n)%nat -> nth i (p_dydx s) z0 = phi (p_x s) (p_y s) i.
Lemma step_link {W} n phi (f : R -> list C -> Base.M W (list C)) : (forall x y w d w', length y = n -> f x y w = (Ok d, w') -> forall i, (i < n)%nat -> nth i d z0 = phi x y i) ->
  forall fuel h g g', slopes n phi (g_s g) -> step f fuel h g = (Ok tt, g') -> slopes n phi (g_s g') /\ rk_link n phi (p_x (g_s g), p_y (g_s g)) (p_x (g_s g'), p_y (g_s g')).
Proof.
  intros Hf fuel h g g' [Ly Hd] E. pose proof (step_spec f fuel h g) as S. rewrite E in S. destruct S as (_ & _ & _ & Sx & _ & _ & _ & Sn & _ & _ & _ & _ & (w & d & w' & Ef & Ed) & _).
  destruct (step_val n phi (p_x (g_s g)) (p_y (g_s g)) Ly f Hf fuel h g g' (conj eq_refl (conj eq_refl Hd)) E) as (V1 & _ & _ & _ & _ & V6). split.
  - split; [exact V6|]. intros i Hi. rewrite Ed, Ly, mk_nth by exact Hi. exact (Hf _ _ _ _ _ V6 Ef i Hi).
  - split; [exact Ly|]. split; [exact V6|]. cbn [fst snd]. intros i Hi. rewrite Sx. replace (p_x (g_s g) + p_hdid (g_s g') - p_x (g_s g)) with (p_hdid (g_s g')) by ring. unfold rk, shifted. rewrite mk_nth by exact Hi. exact (V1 i Hi).
Qed.

(*! C123: the global error of whole integrations, for every smooth system with a solution on [a, b] and a Lipschitz constant La in the tube of radius rho around it: there are K and h0, independent of the program, of the interval from x1 to x2 (in either direction, within [a', b'] inside [a, b]), of the tolerances, the first step and the starting error e0, such that every run that returns, stores its steps (dense = False) and takes no step longer than h <= h0 has, at every stored abscissa and in the ystart it leaves, an error of at most exp(26 La |x2-x1|) (e0 + |x2-x1| (K h^8 + 1e-26 M)), as long as that bound is within a quarter of the tube.  1e-26 M is the rounding of the tabulated coefficients (M bounds the derivatives along the solution). *)
Lemma C123_convergence_l : forall (n : nat) (phi : R -> list C -> nat -> C) (a a' b' b : R) (sol : R -> list C) (T : R -> list (nat -> C) -> nat -> C) (M La rho : R),
  a < a' -> b' < b -> (forall x, length (sol x) = n) ->
  (forall x j, (j < n)%nat -> a <= x <= b -> is_cderive (fun t => nth j (sol t) z0) x (phi x (sol x) j)) ->
  utaylor7 (I := {x | a <= x <= b}) n phi (fun o => proj1_sig o) (fun o => sol (proj1_sig o)) (fun o => T (proj1_sig o)) ->
  1 <= M -> (forall x l rs i, a <= x <= b -> (i < n)%nat -> (length l <= 7)%nat -> List.Forall2 (bd (S n)) l rs -> Cmod (T x l i) <= M * rprod rs) ->
  0 <= La -> 0 < rho ->
  (forall x y z d, a <= x <= b -> length y = n -> length z = n -> near n y (sol x) rho -> near n z (sol x) rho -> near n y z d -> forall i, (i < n)%nat -> Cmod (phi x y i - phi x z i)%C <= La * d) ->
  exists K h0, 0 <= K /\ 0 < h0 /\
  forall (W : Type) (f : R -> list C -> Base.M W (list C)) (fuel : nat) (w : W) (con : ctrl) (ystart : list C) (x1 x2 atol rtol h1 hmin : R) (nsaves : nat) (dt : dtype) (g' : G W) (h e0 : R),
  (forall x y w d w', length y = n -> f x y w = (Ok d, w') -> forall i, (i < n)%nat -> nth i d z0 = phi x y i) ->
  x1 <> x2 -> a' <= x1 <= b' -> a' <= x2 <= b' -> 0 <= hmin -> length ystart = n -> 0 <= e0 -> near n ystart (sol x1) e0 ->
  integrate f fuel (new_ode w con ystart x1 x2 atol rtol h1 hmin (new_output (Some nsaves)) false dt) = (Ok tt, g') ->
  let m := (e_nok (g_ode g') + e_nbad (g_ode g'))%nat in let X k := nth k (o_xsave (g_out g')) 0 in
  h <= h0 -> (forall k, (k < m)%nat -> Rabs (X (S k) - X k) <= h) ->
  let E := exp (26 * La * Rabs (x2 - x1)) * (e0 + Rabs (x2 - x1) * (K * h ^ 8 + / 10 ^ 26 * M)) in E <= rho / 4 ->
  (forall k, (k <= m)%nat -> near n (nth k (o_ysave (g_out g')) []) (sol (X k)) E) /\ near n (e_ystart (g_ode g')) (sol x2) E.
Proof.
  intros n phi a a' b' b sol T M La rho Ha Hb Hlen Hder HT HM TB HLa Hrho Hlip. destruct (step_err n phi a b sol T M La rho Hlen Hder HT HM TB HLa Hrho Hlip a' b' Ha Hb) as (K & h0 & HK & H0 & SE). exists K, h0. split; [exact HK|]. split; [exact H0|].
  intros W f fuel w con ys x1 x2 atol rtol h1 hmin k dt g' h e0 Hf Hx Hx1 Hx2 Hm Ly He0 Hy0 E m X Hh Hst B HB.
  destruct (integrate_chain f (slopes n phi) (rk_link n phi) (step_link n phi f Hf) fuel w con ys x1 x2 atol rtol h1 hmin k dt g' Hx Hm) as (l & St & Ll & L0 & La' & Mo & Li); [|exact E|].
  { intros g d g1 Sg Ed s Sx Sy Sd. unfold slopes. rewrite Sx, Sy, Sd. split; [exact Ly|]. rewrite Ly in Ed. destruct (deriv_val n phi f Hf x1 ys g d g1 Ly Ed) as [_ V]. exact V. }
  fold m in Ll. destruct (stored_nth _ _ _ _ St) as [Cn Nt]. set (D := x2 - x1) in *. assert (HD : D <> 0) by (unfold D; lra).
  assert (XK : forall i, (i <= m)%nat -> X i = fst (nth i l (0, []))) by (intros i Hi; unfold X; apply (Nt i); lia).
  assert (YK : forall i, (i <= m)%nat -> nth i (o_ysave (g_out g')) [] = snd (nth i l (0, []))) by (intros i Hi; apply (Nt i); lia).
  assert (Xm : nth m l (0, []) = (x2, e_ystart (g_ode g'))). { rewrite <- La'. rewrite last_nth' by (destruct l; [cbn in Ll; lia|discriminate]). f_equal. lia. }
  assert (NM : forall i, (i <= m)%nat -> nth i (map fst l) 0 = X i) by (intros i Hi; rewrite (nth_map' fst l i (0, []) 0) by lia; symmetry; now apply XK).
  assert (X0 : X 0%nat = x1) by (rewrite XK by lia; now rewrite L0). assert (XM : X m = x2) by (rewrite XK by lia; now rewrite Xm).
  assert (ML : forall i j, (i <= j)%nat -> (j <= m)%nat -> 0 <= (X j - X i) * D). { intros i j Hij Hj. rewrite <- (NM i), <- (NM j) by lia. apply mono_le; [exact Mo|exact Hij|rewrite map_length; lia]. }
  assert (XI : forall i, (i <= m)%nat -> a' <= X i <= b').
  { intros i Hi. pose proof (ML 0%nat i ltac:(lia) Hi) as A1. pose proof (ML i m Hi ltac:(lia)) as A2. rewrite X0 in A1. rewrite XM in A2. unfold D in A1, A2. destruct (Rlt_dec x1 x2) as [P|P].
    - assert (0 <= X i - x1) by (apply (Rmult_le_reg_r (x2 - x1)); lra). assert (0 <= x2 - X i) by (apply (Rmult_le_reg_r (x2 - x1)); lra). lra.
    - assert (0 <= x1 - X i) by (apply (Rmult_le_reg_r (x1 - x2)); lra). assert (0 <= X i - x2) by (apply (Rmult_le_reg_r (x1 - x2)); lra). lra. }
  assert (SS : forall i, (S i <= m)%nat -> Rabs (X (S i) - x1) = Rabs (X i - x1) + Rabs (X (S i) - X i)).
  { intros i Hi. replace (X (S i) - x1) with ((X i - x1) + (X (S i) - X i)) by ring. apply (abs_split _ _ D HD); [rewrite <- X0; apply ML; lia|apply ML; lia]. }
  assert (SL : forall i, (i <= m)%nat -> Rabs (X i - x1) <= Rabs D).
  { intros i Hi. unfold D. replace (x2 - x1) with ((X i - x1) + (X m - X i)) by (rewrite XM; ring). rewrite (abs_split _ _ D HD); [pose proof (Rabs_pos (X m - X i)); lra|rewrite <- X0; apply ML; lia|apply ML; lia]. }
  set (c := K * h ^ 8 + / 10 ^ 26 * M) in *. assert (Pe : 0 <= / 10 ^ 26 * M) by (apply Rmult_le_pos; [left; apply Rinv_0_lt_compat, pow_lt; lra|lra]).
  assert (P8 : 0 <= h ^ 8). { replace 8%nat with (2 * 4)%nat by reflexivity. rewrite pow_mult. apply pow_le, pow2_ge_0. }
  assert (Hc : 0 <= c) by (unfold c; pose proof (Rmult_le_pos _ _ HK P8); lra). set (q := 26 * La) in *. assert (Hq : 0 <= q) by (unfold q; lra).
  assert (ME : forall S, 0 <= S <= Rabs D -> 0 <= exp (q * S) * (e0 + S * c) <= B).
  { intros S HS. assert (0 <= S * c) by (apply Rmult_le_pos; lra). split; [apply Rmult_le_pos; [left; apply exp_pos|lra]|]. unfold B. apply Rmult_le_compat; [left; apply exp_pos|lra| |].
    - destruct (Rle_lt_or_eq_dec _ _ (proj2 HS)) as [P|P]; [|rewrite P; lra]. destruct (Rle_lt_or_eq_dec _ _ Hq) as [P'|P']; [left; apply exp_increasing; now apply Rmult_lt_compat_l|rewrite <- P', !Rmult_0_l; lra].
    - apply Rplus_le_compat_l, Rmult_le_compat_r; lra. }
  assert (Main : forall i, (i <= m)%nat -> near n (snd (nth i l (0, []))) (sol (X i)) (exp (q * Rabs (X i - x1)) * (e0 + Rabs (X i - x1) * c))).
  { induction i as [|i IH]; intros Hi.
    - rewrite X0, L0. cbn [snd]. rewrite Rminus_eq_0, Rabs_R0, Rmult_0_r, exp_0, Rmult_0_l, Rplus_0_r, Rmult_1_l. exact Hy0.
    - specialize (IH ltac:(lia)). specialize (ME (Rabs (X i - x1)) (conj (Rabs_pos _) (SL i ltac:(lia)))). set (d := exp (q * Rabs (X i - x1)) * (e0 + Rabs (X i - x1) * c)) in *.
      destruct (Li i ltac:(lia)) as (Q1 & Q2 & Q3). rewrite <- (XK i), <- (XK (S i)) in Q3 by lia. set (t := X (S i) - X i) in *.
      assert (Ht : Rabs t <= h) by (apply Hst; lia). intros j Hj. rewrite (Q3 j Hj).
      pose proof (SE (X i) (snd (nth i l (0, []))) t d (XI i ltac:(lia)) Q1 ltac:(lra) ltac:(lra) IH j Hj) as R. replace (X i + t) with (X (S i)) in R by (unfold t; ring).
      eapply Rle_trans; [exact R|]. rewrite (SS i Hi). fold t. eapply Rle_trans; [|apply (grow q (Rabs (X i - x1)) (Rabs t) e0 c Hq (Rabs_pos _) (Rabs_pos _) He0 Hc)]. fold d. apply Rplus_le_compat_l.
      unfold c. rewrite Rmult_plus_distr_l. apply Rplus_le_compat; [|right; ring]. replace (K * Rabs t ^ 9) with (Rabs t * (K * Rabs t ^ 8)) by (cbn [pow]; ring). apply Rmult_le_compat_l; [apply Rabs_pos|]. apply Rmult_le_compat_l; [exact HK|]. apply pow_incr. split; [apply Rabs_pos|exact Ht]. }
  split.
  - intros i Hi j Hj. rewrite (YK i Hi). eapply Rle_trans; [apply (Main i Hi j Hj)|]. apply ME. split; [apply Rabs_pos|now apply SL].
  - intros j Hj. pose proof (Main m ltac:(lia) j Hj) as R. rewrite Xm, XM in R. cbn [snd] in R. eapply Rle_trans; [exact R|]. apply ME. split; [apply Rabs_pos|unfold D; lra].
Qed.

(*! C123: runs within reach of the bound exist: wherever a smooth right-hand side that always answers is not zero at the start and atol is positive, every integration over a short enough interval, in either direction, with a first step of at least that length, returns after one accepted step and stores exactly x1 and x2, whatever the controller went through before. *)
Lemma C123_short_runs_l : forall (n : nat) (phi : R -> list C -> nat -> C) (x1 : R) (ystart : list C) (T : list (nat -> C) -> nat -> C) (k : nat) (atol : R),
  length ystart = n -> taylor7 n phi x1 ystart T -> (k < n)%nat -> phi x1 ystart k <> z0 -> 0 < atol ->
  exists h0, 0 < h0 /\
  forall (W : Type) (f : R -> list C -> Base.M W (list C)) (fuel : nat) (w : W) (con : ctrl) (x2 rtol h1 hmin : R) (nsaves : nat) (dt : dtype),
  (forall x y w, length y = n -> exists d w', f x y w = (Ok d, w') /\ forall i, (i < n)%nat -> nth i d z0 = phi x y i) ->
  x1 <> x2 -> Rabs (x2 - x1) <= h0 -> Rabs (x2 - x1) <= Rabs h1 -> 0 <= rtol -> 0 <= hmin ->
  exists g', integrate f (S fuel) (new_ode w con ystart x1 x2 atol rtol h1 hmin (new_output (Some nsaves)) false dt) = (Ok tt, g') /\
    e_nok (g_ode g') = 1%nat /\ e_nbad (g_ode g') = 0%nat /\ nth 0 (o_xsave (g_out g')) 0 = x1 /\ nth 1 (o_xsave (g_out g')) 0 = x2.
Proof.
  intros n phi x1 ys T k atol Ly HT Hk Nk Ha. destruct (C115_small_steps_l n phi x1 ys T k atol Ly HT Hk Nk Ha) as (h0 & H0 & Ac). exists h0. split; [exact H0|]. intros W f fuel w con x2 rtol h1 hmin ns dt Hf Hx Hh Hh1 Hr Hm.
  destruct (Hf x1 ys w Ly) as (d & w' & Ef & Hd). destruct (integrate_start f (S fuel) w con ys x1 x2 atol rtol h1 hmin ns false dt d w' ltac:(lia) ltac:(discriminate) Ef) as (o' & E & St). cbv zeta in E.
  pose proof (C42_ends_exactly_l W f (S fuel) w con ys x1 x2 atol rtol h1 hmin ns false dt Hx Hm) as C42. rewrite E in *. clear E.
  destruct MAXSTP_S as (m & EM). rewrite EM in *. match goal with |- exists g', iloop _ _ _ _ ?G = _ /\ _ => set (g := G) in * end.
  assert (Cl : clip x1 x1 x2 (Rabs h1 * sgn (x2 - x1)) = x2 - x1).
  { unfold clip. destruct (Req_EM_T (x2 - x1) 0) as [Z|Z]; [lra|]. destruct (Rlt_dec _ _) as [P|P]; [reflexivity|]. exfalso. apply P. clear P. assert (Pd : 0 < Rabs (x2 - x1)) by now apply Rabs_pos_lt.
    assert (Es : x2 - x1 = Rabs (x2 - x1) * sgn (x2 - x1)). { unfold sgn. destruct (Rlt_dec 0 (x2 - x1)) as [P|P]; [rewrite Rabs_pos_eq; lra|]. destruct (Rlt_dec (x2 - x1) 0) as [Q|Q]; [rewrite Rabs_left; lra|lra]. }
    assert (Ns : sgn (x2 - x1) <> 0) by (intros Z0; rewrite Z0 in Es; lra).
    replace ((x1 + Rabs h1 * sgn (x2 - x1) * 1.0001 - x2) / (x2 - x1)) with ((Rabs h1 * 1.0001 - Rabs (x2 - x1)) / Rabs (x2 - x1)). { apply Rdiv_lt_0_compat; lra. }
    replace (x1 + Rabs h1 * sgn (x2 - x1) * 1.0001 - x2) with ((Rabs h1 * 1.0001 - Rabs (x2 - x1)) * sgn (x2 - x1)) by lra. set (r := Rabs h1 * 1.0001 - Rabs (x2 - x1)). transitivity (r * sgn (x2 - x1) / (Rabs (x2 - x1) * sgn (x2 - x1))); [field; split; [exact Ns|lra]|now rewrite <- Es]. }
  assert (It : exists g', iloop f (S fuel) (S m) 0 g = (Ok tt, g') /\ e_nok (g_ode g') = 1%nat /\ e_nbad (g_ode g') = 0%nat).
  { clear C42. cbn [iloop]. unfold bind at 1, get. change (clip (p_x (g_s g)) (e_x1 (g_ode g)) (e_x2 (g_ode g)) (e_h (g_ode g))) with (clip x1 x1 x2 (Rabs h1 * sgn (x2 - x1))). rewrite Cl. unfold bind at 1, set_e, modify. unfold bind at 1. match goal with |- context [step f (S fuel) (x2 - x1) ?G] => set (g1 := G) end.
    destruct (Ac W f fuel (x2 - x1) g1 Hf eq_refl eq_refl) as (g2 & E2 & D2 & _).
    - intros i Hi. unfold g1, g. cbn [g_s p_dydx]. rewrite mk_nth by lia. now apply Hd.
    - reflexivity.
    - exact Hr.
    - exact Hh.
    - pose proof (step_spec f (S fuel) (x2 - x1) g1) as S. rewrite E2 in S |- *. destruct S as (So & Se & _ & Sx & _ & _ & _ & Sn & Sdt & _).
      unfold bind at 1, gets. unfold bind at 1. unfold bind at 1. set (g3 := mkG _ _ _ _ _).
      assert (G3 : g_out g3 = o' /\ g_s g3 = g_s g2 /\ e_x1 (g_ode g3) = x1 /\ e_x2 (g_ode g3) = x2 /\ e_dense (g_ode g3) = false /\ e_nok (g_ode g3) = 1%nat /\ e_nbad (g_ode g3) = 0%nat).
      { unfold g3. cbn [g_out g_s g_con g_ode]. rewrite So, Se. destruct (Req_EM_T _ _) as [_|Z]; [|contradiction]. repeat split. }
      clearbody g3. destruct G3 as (G3o & G3s & G3x1 & G3x2 & G3de & G3n & G3b).
      assert (Px : p_x (g_s g2) = x2) by (rewrite Sx, D2; unfold g1, g; cbn [g_s p_x new_stepper]; ring).
      assert (Ln : length (p_y (g_s g2)) = length ys) by (rewrite Sn; reflexivity). assert (Dt : p_dtype (g_s g2) = dt) by (rewrite Sdt; reflexivity).
      pose proof (record_spec (S fuel) (Z.of_nat 0) (p_x (g_s g2)) (p_y (g_s g2)) (p_hdid (g_s g2)) g3 (length ys) dt [(x1, ys)]) as R. rewrite G3o, G3s in R. specialize (R St Dt Ln Ln).
      destruct (record (S fuel) (Z.of_nat 0) (p_x (g_s g2)) (p_y (g_s g2)) (p_hdid (g_s g2)) g3) as [r4 g4]. destruct R as (R1 & R2 & R3 & R4 & R5 & l' & R6 & R7 & R8). rewrite G3de in R7. destruct (R7 eq_refl) as [-> ->].
      unfold bind at 1. cbv zeta. rewrite R4, G3x1, G3x2, Px. destruct (Rle_dec 0 ((x2 - x2) * (x2 - x1))) as [Q0|Q0]; [|exfalso; apply Q0; rewrite Rminus_eq_0, Rmult_0_l; lra].
      unfold bind at 1. match goal with |- context [(if ?b then ?T else ?U) ?G] => set (g5 := G); set (bb := b) end. assert (G5 : g_out g5 = g_out g4 /\ e_nok (g_ode g5) = 1%nat /\ e_nbad (g_ode g5) = 0%nat) by (unfold g5; cbn [g_out g_ode e_nok e_nbad]; rewrite R4; auto). clearbody g5. destruct G5 as (G5o & G5n & G5b).
      destruct bb; [destruct (Rlt_dec _ _)|].
      + unfold onout. rewrite G5o, Dt. destruct (save_good (length ys) dt _ (g_out g4) x2 (p_y (g_s g2)) R6 Ln) as (o7 & E7 & _). rewrite E7. eexists. split; [reflexivity|]. cbn [g_ode]. auto.
      + eexists. split; [reflexivity|]. auto.
      + eexists. split; [reflexivity|]. auto. }
  destruct It as (g' & Eg & N1 & N2). exists g'. split; [exact Eg|]. split; [exact N1|]. split; [exact N2|]. rewrite Eg in C42. destruct C42 as (_ & C). cbv zeta in C. rewrite N1, N2 in C. destruct C as (_ & _ & _ & _ & _ & C). destruct (C eq_refl) as (_ & A1 & _ & A2 & _). split; assumption.
Qed.

(** Small steps are accepted: wherever a smooth right-hand side does not vanish at the start and atol is positive, every small
    enough step returns at once and is proposed to grow sixfold (C115). *)
From Coq Require Import QArith Qreals Reals List ZArith Bool Arith Lia Lra.
From Coquelicot Require Import Complex.
From Verif Require Import Base CNum NumPy ModelDopr ModelODE ODEStepProofs ODETableauProofs SSFMGnlseProofs ODEWitnessProofs ODELinearProofs ODETreeProofs BSeriesProofs ODEOrderProofs.
Import ListNotations.
Local Open Scope R_scope.
Local Open Scope py_scope.
Local Notation z0 := (RtoC 0).
Opaque SC.

Lemma T_zero n phi x0 y0 T l i : taylor7 n phi x0 y0 T -> (i < n)%nat -> (length l < 7)%nat -> T ((fun _ => z0) :: l) i = z0.
Proof.
  intros HT Hi Hl. pose proof (proj1 HT [] l (fun _ => z0) (fun _ => z0) 1 i Hi Hl) as E. cbn [List.app] in E. assert (E0 : (fun j : nat => RtoC 1 * z0 + z0)%C = (fun _ => z0)) by (apply FunctionalExtensionality.functional_extensionality; intros j; ring). rewrite E0 in E.
  set (x := T ((fun _ => z0) :: l) i) in *. assert (D : (RtoC 1 * x + x - x = x - x)%C) by now rewrite <- E. replace (RtoC 1 * x + x - x)%C with x in D by ring. rewrite D. ring.
Qed.
Lemma T_nil n phi x0 y0 T i : length y0 = n -> taylor7 n phi x0 y0 T -> (i < n)%nat -> T [] i = phi x0 y0 i.
Proof.
  intros L HT Hi. pose proof HT as (_ & M & r & HM & Hr & _ & Rm). specialize (Rm (fun _ => z0) 0 0 i Hi ltac:(lra) ltac:(rewrite Rabs_R0; lra) ltac:(intros j _; rewrite Cmod_0; lra)).
  assert (E0 : shifted n y0 (fun _ => z0) = y0) by (unfold shifted; transitivity (mk (length y0) (fun i => nth i y0 z0)); [rewrite L; apply mk_ext; intros j _; ring|apply mk_self]).
  assert (E1 : incr n (fun _ => z0) 0 = (fun _ => z0)) by (apply FunctionalExtensionality.functional_extensionality; intros j; unfold incr; destruct (Nat.ltb j n), (Nat.eqb j n); reflexivity).
  rewrite E0, E1, Rplus_0_r in Rm. rewrite (csum_first 7), (csum_zero 7) in Rm; [|intros m Hm; cbn [repeat]; rewrite (T_zero n phi x0 y0 T); [ring|exact HT|exact Hi|rewrite repeat_length; lia]].
  cbn [repeat fact INR] in Rm. rewrite pow_i in Rm by lia. rewrite Rmult_0_r, Rinv_1 in Rm. pose proof (Cmod_ge_0 (phi x0 y0 i - (1 * T [] i + z0))%C) as P. assert (Q : Cmod (phi x0 y0 i - (1 * T [] i + z0))%C = 0) by lra. apply Cmod_eq_0 in Q.
  assert (phi x0 y0 i = (phi x0 y0 i - (1 * T [] i + z0)) + T [] i)%C as -> by ring. rewrite Q. ring.
Qed.
Lemma forests0 : forests (trees 0) 0 = [[]]. Proof. reflexivity. Qed.

Section Accept.
  Variables (n : nat) (phi : R -> list C -> nat -> C) (x0 : R) (y0 : list C) (T : list (nat -> C) -> nat -> C).
  Hypothesis Ly : length y0 = n.
  Hypothesis HT : taylor7 n phi x0 y0 T.
  Notation kk := (kk n phi x0 y0).
  Definition s2 : R := rsum 16 (fun l => row ZE2 l).
  Lemma s2_val : s2 = IZR (-460000) / IZR SC.
  Proof.
    assert (E : forall z m, rsum m (fun l => row z l) = IZR (fold_right Z.add 0%Z (map (fun l => nth l z 0%Z) (seq 0 m))) / IZR SC).
    { intros z m. induction m as [|m IH]; [rewrite rsum_0; cbn; unfold Rdiv; ring|]. rewrite rsum_S, IH, seq_S, map_app, fold_right_app. cbn [map fold_right Nat.add]. rewrite Z.add_0_r. unfold row.
      assert (F : forall l a, fold_right Z.add a l = (fold_right Z.add 0 l + a)%Z) by (induction l as [|b l IHl]; intros a; cbn [fold_right]; [lia|rewrite IHl; lia]). rewrite (F _ (nth m z 0%Z)), plus_IZR. unfold Rdiv. ring. }
    unfold s2. rewrite E. f_equal.
  Qed.
  Lemma s2_neg : s2 < 0.
  Proof. rewrite s2_val. pose proof SC_pos as P. unfold Rdiv. assert (0 < / IZR SC) by now apply Rinv_0_lt_compat. assert (IZR (-460000) < 0) by lra. nra. Qed.
  Lemma yerr2_near i : (i < n)%nat -> bo (I := unit) 1 (fun h => csum 16 (fun l => RtoC (row ZE2 l) * kk l h i) - RtoC s2 * phi x0 y0 i)%C.
  Proof.
    intros Hi. refine (bo_ext 1 _ _ _ (wt (I := unit) n phi (fun _ => x0) (fun _ => y0) (fun _ => T) (taylor7_unit _ _ _ _ _ HT) 0 ZE2 i ltac:(lia) Hi)). intros h. f_equal. f_equal. rewrite forests0. rewrite lsum_cons. change (lsum [] _) with z0. rewrite Cplus_0_r. cbn [map]. rewrite (T_nil n phi x0 y0 T i Ly HT Hi). f_equal. f_equal. transitivity (1 * (/ 1 * 1) * rsum 16 (fun l => row ZE2 l * fphi 16 ra rn [] l)); [reflexivity|]. rewrite Rinv_1, !Rmult_1_l. unfold s2. apply rsum_ext. intros l _. change (fphi 16 ra rn [] l) with 1. ring.
  Qed.
  Context {W : Type}.
  Variable f : R -> list C -> M W (list C).
  Hypothesis Hf : forall x y w, length y = n -> exists d w', f x y w = (Ok d, w') /\ forall i, (i < n)%nat -> nth i d z0 = phi x y i.
  Lemma deriv_ret x y g : length y = n -> exists d g', deriv f n x y g = (Ok d, g') /\ g_s g' = g_s g /\ g_con g' = g_con g.
  Proof. intros L. unfold deriv, bind, onw. destruct (Hf x y (g_w g) L) as (d & w' & E & _). rewrite E. unfold ret. do 2 eexists. split; [reflexivity|]. split; reflexivity. Qed.
  Lemma ytemp_len y h l : length (ytemp y h l) = length y. Proof. apply mk_length. Qed.
  Ltac dret := unfold bind at 1; match goal with |- context [deriv f n ?x ?y ?g] => let d := fresh "d" in let g' := fresh "g" in let E := fresh "E" in destruct (deriv_ret x y g ltac:(rewrite ?ytemp_len; assumption)) as (d & g' & E & ? & ?); rewrite E; clear E end.
  Lemma dy_ret h g : length (p_y (g_s g)) = n -> exists g', dy f h g = (Ok tt, g') /\ g_con g' = g_con g.
  Proof.
    intros L. unfold dy. unfold bind at 1, gets at 1. cbv zeta. rewrite L. do 11 dret. unfold set_s, modify. eexists. split; [reflexivity|]. cbn [g_con]. congruence.
  Qed.
  Lemma prepare_ret h dn g : length (p_y (g_s g)) = n -> exists g', prepare_dense f h dn g = (Ok tt, g') /\ g_con g' = g_con g.
  Proof.
    intros L. unfold prepare_dense. unfold bind at 1, gets at 1. cbv zeta. rewrite L. destruct (p_k (g_s g)). do 3 dret. unfold set_s, modify. eexists. split; [reflexivity|]. cbn [g_con]. congruence.
  Qed.
  Lemma Hf' : forall x y w d w', length y = n -> f x y w = (Ok d, w') -> forall i, (i < n)%nat -> nth i d z0 = phi x y i.
  Proof. intros x y w d w' L E i Hi. destruct (Hf x y w L) as (d' & w'' & E' & V). assert (d' = d) by congruence. subst d'. now apply V. Qed.
  Lemma step_ret fuel h g : length (p_y (g_s g)) = n -> p_x (g_s g) = x0 -> p_y (g_s g) = y0 -> (forall i, (i < n)%nat -> nth i (p_dydx (g_s g)) z0 = phi x0 y0 i) ->
    (forall s, same_step (g_s g) s -> dyd n phi x0 y0 h s -> exists e, error s h = Fin e /\ 0 <= e <= / 10 ^ 7) ->
    exists g', step f (S fuel) h g = (Ok tt, g') /\ p_hdid (g_s g') = h /\ p_hnext (g_s g') = (if c_reject (g_con g) then h else 6 * h).
  Proof.
    intros L Hx Hy Hd HE. Transparent step. unfold step. Opaque step. cbn [attempts]. destruct (dy_ret h g L) as (g1 & E & Con). pose proof (keeps_dy f h g) as K. rewrite E in K. cbn [snd] in K. pose proof (dy_val n phi x0 y0 Ly f Hf' h g g1 (conj Hx (conj Hy Hd)) E) as V.
    assert (Ss : same_step (g_s g) (g_s g1)) by apply K. destruct (HE _ Ss V) as (e & Ee & He).
    assert (Su : exists c, success (Fin e) (Some h) (g_con g1) = (Ok (true, Some h), c) /\ c_hnext c = if c_reject (g_con g) then h else 6 * h).
    { unfold success. assert (T7 : / 10 ^ 7 < 1) by (cbn [pow]; lra). destruct (Rle_dec e 1) as [_|Z]; [|lra]. destruct (Rlt_dec e 0) as [Z|_]; [lra|]. rewrite Con. destruct (Req_EM_T e 0) as [Z|Z].
      - unfold bind, modify, ret. eexists. split; [reflexivity|]. cbn [c_hnext]. destruct (c_reject (g_con g)); [rewrite Rmin_right by lra; ring|ring].
      - pose proof (pow8_big e ltac:(lra)) as Pb. rewrite Rmult_1_r. destruct (Rlt_dec (0.9 * Rpower e (- (1 / 8))) 0.333) as [Z'|_]; [lra|]. destruct (Rlt_dec 6 (0.9 * Rpower e (- (1 / 8)))) as [_|Z']; [|lra]. unfold bind, modify, ret. eexists. split; [reflexivity|]. cbn [c_hnext]. destruct (c_reject (g_con g)); [rewrite Rmin_right by lra; ring|ring]. }
    destruct Su as (c & Es & Hn). unfold bind at 1. unfold bind at 1. rewrite E. unfold bind at 1, gets at 1. unfold bind at 1, oncon at 1. rewrite Ee, Es. unfold ret at 1. unfold bind at 1, gets at 1. cbn [g_s].
    assert (L1 : length (p_y (g_s g1)) = n) by (destruct Ss as (_ & _ & -> & _); exact L). rewrite L1. assert (Lo : length (p_yout (g_s g1)) = n) by (rewrite (proj1 V); apply shifted_len).
    set (g1' := mkG (g_w g1) c (g_s g1) (g_out g1) (g_ode g1)). unfold bind at 1. destruct (deriv_ret (p_x (g_s g1) + h) (p_yout (g_s g1)) g1' Lo) as (dn & g2 & E2 & S2 & C2). rewrite E2. unfold bind at 1. destruct (p_dense (g_s g1)).
    - destruct (prepare_ret h dn g2) as (g3 & E3 & C3); [rewrite S2; exact L1|]. rewrite E3. unfold bind, get, set_s, modify. eexists. split; [reflexivity|]. cbn [g_s p_hdid p_hnext]. split; [reflexivity|]. rewrite C3, C2. exact Hn.
    - unfold ret, bind, get, set_s, modify. eexists. split; [reflexivity|]. cbn [g_s p_hdid p_hnext]. split; [reflexivity|]. rewrite C2. exact Hn.
  Qed.
End Accept.

Lemma rsum_pick n k (q : nat -> R) : (k < n)%nat -> (forall i, 0 <= q i) -> q k <= rsum n q.
Proof.
  intros Hk H. induction n as [|n IH]; [lia|]. rewrite rsum_S. destruct (Nat.eq_dec k n) as [->|N].
  - assert (0 <= rsum n q) by (apply rsum_nonneg; intros i _; apply H). lra.
  - specialize (IH ltac:(lia)). specialize (H n). lra.
Qed.
Lemma error_small s h n (k : nat) B : length (p_y s) = n -> 0 < p_atol s -> 0 <= p_rtol s -> (k < n)%nat -> nth k (p_yerr2 s) z0 <> z0 ->
  0 <= B -> (forall i, (i < n)%nat -> Cmod (nth i (p_yerr2 s) z0) <= B) -> Rabs h * B * INR n <= p_atol s * / 10 ^ 7 ->
  exists e, error s h = Fin e /\ 0 <= e <= / 10 ^ 7.
Proof.
  intros L Ha Hr Hk Nz HB Bd Hh. assert (Sk : forall i, p_atol s <= error_scale s i).
  { intros i. unfold error_scale. assert (0 <= p_rtol s * Rmax (Cmod (nth i (p_y s) z0)) (Cmod (nth i (p_yout s) z0))); [|lra]. apply Rmult_le_pos; [exact Hr|]. eapply Rle_trans; [apply Cmod_ge_0|apply Rmax_l]. }
  assert (Sp : forall i, 0 < error_scale s i) by (intros i; specialize (Sk i); lra).
  unfold error. cbv zeta. rewrite L. replace (existsb (fun i => isz (error_scale s i)) (seq 0 n)) with false.
  2:{ symmetry. apply not_true_is_false. intros H. apply existsb_exists in H as (i & _ & H). unfold isz in H. destruct (Req_EM_T (error_scale s i) 0) as [Z|]; [specialize (Sp i); lra|discriminate]. }
  set (q := fun i => (Cmod (nth i (p_yerr2 s) z0) / error_scale s i) ^ 2). set (e2 := rsum n (fun i => (Cmod (nth i (p_yerr s) z0) / error_scale s i) ^ 2)).
  assert (Q0 : forall i, 0 <= q i) by (intros i; unfold q; apply pow2_ge_0). assert (E2 : 0 <= e2) by (apply rsum_nonneg; intros i _; apply pow2_ge_0).
  assert (Pn : 1 <= INR n) by (apply (le_INR 1); lia).
  assert (E1 : 0 < rsum n q). { apply Rlt_le_trans with (q k); [|]. - unfold q. apply pow_lt. apply Rdiv_lt_0_compat; [now apply Cmod_gt_0|apply Sp]. - now apply rsum_pick. }
  set (e1 := rsum n q) in *. destruct (Rlt_dec (e1 + 0.01 * e2) 0) as [Z|_]; [lra|]. assert (Pd : 0 < (e1 + 0.01 * e2) * INR n) by (apply Rmult_lt_0_compat; lra).
  unfold isz. destruct (Req_EM_T ((e1 + 0.01 * e2) * INR n) 0) as [Z|_]; [lra|]. eexists. split; [reflexivity|]. split; [apply Rabs_pos|].
  assert (Qr : 0 <= sqrt (1 / ((e1 + 0.01 * e2) * INR n)) <= / sqrt e1).
  { split; [apply sqrt_pos|]. rewrite <- sqrt_inv. apply sqrt_le_1_alt. unfold Rdiv. rewrite Rmult_1_l. apply Rinv_le_contravar; [exact E1|]. nra. }
  set (w := sqrt (1 / _)) in *. rewrite (Rabs_pos_eq e1), (Rabs_pos_eq (Rabs h * e1 * w)) by (try (apply Rmult_le_pos; [apply Rmult_le_pos; [apply Rabs_pos|]|]); lra).
  assert (Se : 0 < sqrt e1) by now apply sqrt_lt_R0. apply Rle_trans with (Rabs h * sqrt e1).
  { replace (Rabs h * sqrt e1) with (Rabs h * e1 * / sqrt e1). - apply Rmult_le_compat_l; [apply Rmult_le_pos; [apply Rabs_pos|lra]|apply Qr]. - rewrite <- (sqrt_sqrt e1) at 1 by lra. field. lra. }
  assert (Ub : sqrt e1 <= INR n * (B / p_atol s)).
  { assert (Z : 0 <= INR n * (B / p_atol s)) by (apply Rmult_le_pos; [lra|]; apply Rmult_le_pos; [exact HB|left; now apply Rinv_0_lt_compat]). rewrite <- (sqrt_pow2 _ Z). apply sqrt_le_1_alt. unfold e1. apply Rle_trans with (INR n * (B / p_atol s) ^ 2).
    - rewrite <- rsum_const. apply rsum_le. intros i Hi. unfold q. apply pow_incr. split; [apply Rmult_le_pos; [apply Cmod_ge_0|left; now apply Rinv_0_lt_compat]|]. apply Rmult_le_compat; [apply Cmod_ge_0|left; now apply Rinv_0_lt_compat|now apply Bd|]. apply Rinv_le_contravar; [exact Ha|apply Sk].
    - rewrite Rpow_mult_distr. apply Rmult_le_compat_r; [apply pow2_ge_0|]. nra. }
  apply Rle_trans with (Rabs h * (INR n * (B / p_atol s))); [apply Rmult_le_compat_l; [apply Rabs_pos|exact Ub]|]. apply (Rmult_le_reg_l (p_atol s)); [exact Ha|]. replace (p_atol s * (Rabs h * (INR n * (B / p_atol s)))) with (Rabs h * B * INR n) by (field; lra). exact Hh.
Qed.

(*! C115: wherever a smooth right-hand side that always answers is not zero at the start (in some component) and atol is positive, every small enough step is accepted at the first attempt, whatever the controller went through before, and the next step is proposed six times as long (as long, if the attempt before was rejected). *)
Lemma C115_small_steps_l : forall (n : nat) (phi : R -> list C -> nat -> C) (x0 : R) (y0 : list C) (T : list (nat -> C) -> nat -> C) (k : nat) (atol : R),
  length y0 = n -> taylor7 n phi x0 y0 T -> (k < n)%nat -> phi x0 y0 k <> z0 -> 0 < atol ->
  exists h0, 0 < h0 /\
  forall (W : Type) (f : R -> list C -> M W (list C)) (fuel : nat) (h : R) (g : G W),
  (forall x y w, length y = n -> exists d w', f x y w = (Ok d, w') /\ forall i, (i < n)%nat -> nth i d z0 = phi x y i) ->
  p_x (g_s g) = x0 -> p_y (g_s g) = y0 -> (forall i, (i < n)%nat -> nth i (p_dydx (g_s g)) z0 = phi x0 y0 i) ->
  p_atol (g_s g) = atol -> 0 <= p_rtol (g_s g) -> Rabs h <= h0 ->
  exists g', step f (S fuel) h g = (Ok tt, g') /\ p_hdid (g_s g') = h /\ p_hnext (g_s g') = (if c_reject (g_con g) then h else 6 * h).
Proof.
  intros n phi x0 y0 T k atol Ly HT Hk Nk Ha.
  destruct (bo_unif (I := unit) 1 n (fun i h => csum 16 (fun l => RtoC (row ZE2 l) * kk n phi x0 y0 l h i) - RtoC s2 * phi x0 y0 i)%C (yerr2_near n phi x0 y0 T Ly HT)) as (K & h1 & HK & H1 & B).
  set (P := rsum n (fun i => Cmod (phi x0 y0 i))). set (c := Cmod (phi x0 y0 k)). assert (Pc : 0 < c) by now apply Cmod_gt_0. pose proof (s2_neg n y0 Ly) as Ns. set (B0 := K + Rabs s2 * P + 1).
  assert (PP : forall i, (i < n)%nat -> Cmod (phi x0 y0 i) <= P). { intros i Hi. unfold P. apply (rsum_pick n i (fun i => Cmod (phi x0 y0 i)) Hi). intros j. apply Cmod_ge_0. }
  assert (P0 : 0 <= P) by (apply rsum_nonneg; intros i _; apply Cmod_ge_0). assert (B0p : 1 <= B0) by (unfold B0; pose proof (Rmult_le_pos _ _ (Rabs_pos s2) P0); lra). assert (Pn : 1 <= INR n) by (apply (le_INR 1); lia).
  set (a2 := atol * / 10 ^ 7 / (B0 * INR n)). set (a3 := Rabs s2 * c / (2 * (K + 1))). assert (Pt : 0 < / 10 ^ 7) by (apply Rinv_0_lt_compat, pow_lt; lra).
  assert (A2 : 0 < a2) by (unfold a2; apply Rdiv_lt_0_compat; [now apply Rmult_lt_0_compat|apply Rmult_lt_0_compat; lra]). assert (As : 0 < Rabs s2) by (apply Rabs_pos_lt; lra). assert (A3 : 0 < a3) by (unfold a3; apply Rdiv_lt_0_compat; [now apply Rmult_lt_0_compat|lra]).
  exists (Rmin (Rmin h1 a2) a3). split; [apply Rmin_glb_lt; [apply Rmin_glb_lt; lra|exact A3]|]. intros W f fuel h g Hf Hx Hy Hd Hat Hrt Hh.
  pose proof (Rmin_l (Rmin h1 a2) a3). pose proof (Rmin_r (Rmin h1 a2) a3). pose proof (Rmin_l h1 a2). pose proof (Rmin_r h1 a2).
  apply (step_ret n phi x0 y0 Ly f Hf fuel h g); [now rewrite Hy|exact Hx|exact Hy|exact Hd|]. intros s (Sx & _ & Sy & _ & Sa & Sr & _) (_ & _ & V & _).
  assert (V' : forall i, (i < n)%nat -> Cmod (nth i (p_yerr2 s) z0 - RtoC s2 * phi x0 y0 i)%C <= K * Rabs h). { intros i Hi. rewrite (V i Hi). specialize (B (at_ tt h) ltac:(cbn [len]; lra) i Hi). cbv beta in B. cbn [len] in B. rewrite pow_1 in B. exact B. }
  apply (error_small s h n k B0).
  - now rewrite Sy, Hy.
  - rewrite Sa, Hat. exact Ha.
  - rewrite Sr. exact Hrt.
  - exact Hk.
  - intros Z. specialize (V' k Hk). rewrite Z in V'. assert (E : Cmod (z0 - RtoC s2 * phi x0 y0 k)%C = Rabs s2 * c) by (replace (z0 - RtoC s2 * phi x0 y0 k)%C with (- (RtoC s2 * phi x0 y0 k))%C by ring; rewrite Cmod_opp, Cmod_mult, Cmod_R; reflexivity). rewrite E in V'.
    assert (Q : K * Rabs h <= Rabs s2 * c / 2). { apply Rle_trans with ((K + 1) * a3); [apply Rmult_le_compat; [exact HK|apply Rabs_pos|lra|lra]|]. unfold a3. right. field. lra. }
    assert (0 < Rabs s2 * c) by now apply Rmult_lt_0_compat. lra.
  - lra.
  - intros i Hi. specialize (V' i Hi). replace (nth i (p_yerr2 s) z0) with ((nth i (p_yerr2 s) z0 - RtoC s2 * phi x0 y0 i) + RtoC s2 * phi x0 y0 i)%C by ring. eapply Rle_trans; [apply Cmod_triangle|]. rewrite Cmod_mult, Cmod_R. assert (K * Rabs h <= K * 1) by (apply Rmult_le_compat_l; lra). assert (Rabs s2 * Cmod (phi x0 y0 i) <= Rabs s2 * P) by (apply Rmult_le_compat_l; [apply Rabs_pos|now apply PP]). unfold B0. lra.
  - rewrite Sa, Hat. rewrite Rmult_assoc. apply Rle_trans with (a2 * (B0 * INR n)); [apply Rmult_le_compat_r; [apply Rmult_le_pos; lra|lra]|]. unfold a2. right. field. repeat split; try lra; apply pow_nonzero; lra.
Qed.

(** A concrete run, y' = x^5 on [0, 1] with first step 1/10: witnesses against C44 and C47. *)
From Coq Require Import Reals List ZArith QArith Qreals Bool Arith Lia Lra.
From Coquelicot Require Import Complex.
From Verif Require Import Base CNum NumPy ModelDopr ModelODE ODEOutputProofs ODEStepProofs ODETableauProofs ODEIntProofs ODERunProofs ODEShareProofs.
Import ListNotations.
Local Open Scope R_scope.
Local Open Scope py_scope.
Local Notation z0 := (RtoC 0).

Definition f5 (x : R) (y : list C) : M unit (list C) := ret [RtoC (x ^ 5)].
Lemma f5_quad : quad f5 (fun x => [RtoC (x ^ 5)]). Proof. intros x y w. exists w. reflexivity. Qed.
Lemma mom5 : - 0.00046 <= mom (toR wer) 5 <= - 0.00045.
Proof.
  assert (E : Rabs (mom (toR wer) 5 - Q2R (-455 # 1000000)) <= Q2R (5 # 1000000)). { rewrite <- Q2R_qmom. apply qclose_R. vm_compute. reflexivity. }
  unfold Q2R in E. cbn [Qnum Qden] in E. revert E. unfold Rabs. destruct (Rcase_abs _); intros E; split; lra.
Qed.
Lemma tiny_small : tiny <= / 10 ^ 12.
Proof. unfold tiny. apply Rinv_le_contravar; [apply pow_lt; lra|]. apply Rle_pow; [lra|lia]. Qed.
Lemma est5 x h : 0 <= x -> 1 / 10 <= h -> x + h <= 1 -> 0 < Rabs (wsum (toR wer) x h 5 0) <= 0.001.
Proof.
  intros Hx Hh Hs. rewrite !wsum_S, !wsum_0. pose proof (wer_mom 0 ltac:(lia)) as M0. pose proof (wer_mom 1 ltac:(lia)) as M1. pose proof (wer_mom 2 ltac:(lia)) as M2. pose proof (wer_mom 3 ltac:(lia)) as M3. pose proof (wer_mom 4 ltac:(lia)) as M4. pose proof mom5 as M5.
  set (m0 := mom _ 0) in *. set (m1 := mom _ 1) in *. set (m2 := mom _ 2) in *. set (m3 := mom _ 3) in *. set (m4 := mom _ 4) in *. set (m5 := mom _ 5) in *. clearbody m0 m1 m2 m3 m4 m5.
  match goal with |- 0 < Rabs ?e <= _ => set (S := e) end.
  set (r := x * x ^ 4 * m0 + 5 * (x ^ 4 * h) * m1 + 10 * (x ^ 3 * h ^ 2) * m2 + 10 * (x ^ 2 * h ^ 3) * m3 + 5 * (x * h ^ 4) * m4).
  assert (ES : S = r + h ^ 5 * m5) by (unfold S, r; ring).
  pose proof tiny_small as Ts. pose proof tiny_pos as Tp.
  assert (B : forall u m, 0 <= u <= 1 -> Rabs (m - 0) <= tiny -> - tiny <= u * m <= tiny).
  { intros u m Hu Hm. rewrite Rminus_0_r in Hm. unfold Rabs in Hm. destruct (Rcase_abs m); nra. }
  assert (P : forall a b, 0 <= x ^ a * h ^ b <= 1).
  { intros a b. assert (0 <= x ^ a <= 1) by (split; [apply pow_le; lra|rewrite <- (pow1 a); apply pow_incr; lra]). assert (0 <= h ^ b <= 1) by (split; [apply pow_le; lra|rewrite <- (pow1 b); apply pow_incr; lra]). nra. }
  pose proof (B _ _ (P 5%nat 0%nat) M0) as B0. pose proof (B _ _ (P 4%nat 1%nat) M1) as B1. pose proof (B _ _ (P 3%nat 2%nat) M2) as B2. pose proof (B _ _ (P 2%nat 3%nat) M3) as B3. pose proof (B _ _ (P 1%nat 4%nat) M4) as B4.
  assert (Er : r = x ^ 5 * h ^ 0 * m0 + 5 * (x ^ 4 * h ^ 1 * m1) + 10 * (x ^ 3 * h ^ 2 * m2) + 10 * (x ^ 2 * h ^ 3 * m3) + 5 * (x ^ 1 * h ^ 4 * m4)) by (unfold r; ring).
  assert (Hr : - (31 * tiny) <= r <= 31 * tiny) by lra. clearbody r.
  assert (H5 : / 100000 <= h ^ 5 <= 1). { split; [replace (/ 100000) with ((1 / 10) ^ 5) by field; apply pow_incr; lra|rewrite <- (pow1 5); apply pow_incr; lra]. }
  assert (Hm : - 0.00046 <= h ^ 5 * m5 <= - (/ 100000 * 0.00045)) by (split; nra). rewrite ES. clear ES S.
  assert (T12 : / 10 ^ 12 = 0.000000000001) by (replace (10 ^ 12) with 1000000000000 by (cbn [pow]; lra); lra). rewrite T12 in Ts. unfold Rabs. destruct (Rcase_abs _); lra.
Qed.

(** the error estimate of one step and the controller's answer *)
Lemma pow8_big e : 0 < e <= / 10 ^ 7 -> 6 < 0.9 * Rpower e (- (1 / 8)).
Proof.
  intros He. set (r := Rpower e (- (1 / 8))). assert (Hr : 0 < r) by apply exp_pos.
  assert (E : r ^ 8 = / e). { rewrite <- Rpower_pow by exact Hr. unfold r. rewrite Rpower_mult. replace (- (1 / 8) * INR 8) with (- (1)) by (cbn [INR]; field). rewrite Rpower_Ropp, Rpower_1 by lra. reflexivity. }
  assert (B : 10 ^ 7 <= r ^ 8). { rewrite E. rewrite <- (Rinv_involutive (10 ^ 7)) by (apply pow_nonzero; lra). apply Rinv_le_contravar; lra. }
  destruct (Rlt_dec 6 (0.9 * r)) as [L|L]; [exact L|exfalso]. assert (r <= 6.7) by lra. assert (r ^ 8 <= 6.7 ^ 8) by (apply pow_incr; lra). assert (6.7 ^ 8 < 10 ^ 7) by (cbn [pow]; lra). lra.
Qed.
Definition cond5 (s : stepper) : Prop := length (p_y s) = 1%nat /\ p_dydx s = [RtoC (p_x s ^ 5)] /\ p_atol s = 10 ^ 6 /\ p_rtol s = 0 /\ p_dtype s = Float64.
Lemma attempts5 fuel h (g : G unit) : (1 <= fuel)%nat -> cond5 (g_s g) -> 0 <= p_x (g_s g) -> 1 / 10 <= h -> p_x (g_s g) + h <= 1 ->
  exists g', attempts f5 fuel (Some h) g = (Ok h, g') /\ c_hnext (g_con g') = (if c_reject (g_con g) then h else 6 * h) /\ c_reject (g_con g') = false.
Proof.
  intros Hf (L & Ed & Ea & Er & Edt) Hx Hh Hs. destruct fuel as [|fuel]; [lia|]. cbn [attempts]. destruct (dy_quad f5 _ h g f5_quad) as (g1 & E & _ & _ & R2). cbv zeta in R2. pose proof (keeps_dy f5 h g) as K. rewrite E in K. cbn [snd] in K. destruct K as (K1 & _ & _ & K4 & _ & K6 & _ & K8 & K9 & _).
  unfold bind at 1. rewrite E. unfold bind at 1, gets at 1. unfold bind at 1, oncon at 1.
  assert (Y : nth 0 (p_yerr2 (g_s g1)) z0 = RtoC (wsum (toR wer) (p_x (g_s g)) h 5 0)).
  { rewrite R2, L, nth_lincomb by lia. rewrite (comb_poly 6 (fun k => if Nat.eqb k 5 then RtoC 1 else z0) (p_x (g_s g)) h 0 _ (toR wer)).
    - unfold csum, lsum, mk. cbn [fold_right seq map Nat.eqb]. ring.
    - assert (Pv : forall x, polyv 6 (fun k => if Nat.eqb k 5 then RtoC 1 else z0) x = RtoC (x ^ 5)) by (intros x; unfold polyv, csum, lsum, mk; cbn [fold_right seq map Nat.eqb]; ring).
      unfold toR, wer. cbn [map fst snd]. rewrite Ed. repeat constructor; cbn [fst snd]; rewrite ?Pv; cbn [nth fill]; try reflexivity; unfold fill; rewrite ?mk_nth by lia; cbn [nth]; do 2 f_equal; rewrite ?RMicromega.Q2R_0, ?RMicromega.Q2R_1; ring. }
  pose proof (est5 (p_x (g_s g)) h Hx Hh Hs) as B. set (S5 := wsum _ _ _ _ _) in *. clearbody S5.
  assert (Ee : exists e, error (g_s g1) h = Fin e /\ 0 < e <= / 10 ^ 7).
  { unfold error. cbv zeta. rewrite K6, L. cbn [seq existsb]. assert (Es : error_scale (g_s g1) 0 = 10 ^ 6) by (unfold error_scale; rewrite K8, K9, Ea, Er; ring). rewrite Es. unfold isz at 1. destruct (Req_EM_T (10 ^ 6) 0) as [Z|_]; [exfalso; cbn in Z; lra|]. cbn [orb].
    unfold rsum, lrsum, mk. cbn [seq map fold_right]. rewrite Es, Y, Cmod_R. set (e2 := Cmod _). set (t := Rabs S5 / 10 ^ 6). assert (T6 : 10 ^ 6 = 1000000) by (cbn [pow]; lra). assert (Ht : 0 < t <= / 10 ^ 7).
    { unfold t. rewrite T6. split; [apply Rdiv_lt_0_compat; lra|]. apply Rmult_le_reg_r with 1000000; [lra|]. replace (Rabs S5 / 1000000 * 1000000) with (Rabs S5) by field. cbn [pow]. lra. }
    set (u := (e2 / 10 ^ 6) ^ 2). assert (Hu : 0 <= u) by (unfold u; rewrite <- Rsqr_pow2; apply Rle_0_sqr). rewrite !Rplus_0_r. assert (Ht2 : 0 < t ^ 2) by (apply pow_lt; lra). destruct (Rlt_dec (t ^ 2 + 0.01 * u) 0) as [Z|_]; [lra|]. cbn [INR]. rewrite Rmult_1_r.
    unfold isz. destruct (Req_EM_T (t ^ 2 + 0.01 * u) 0) as [Z|_]; [lra|]. eexists. split; [reflexivity|]. assert (Q : 0 < sqrt (1 / (t ^ 2 + 0.01 * u)) <= / t).
    { split; [apply sqrt_lt_R0; apply Rdiv_lt_0_compat; lra|]. rewrite <- (sqrt_pow2 (/ t)) by (left; apply Rinv_0_lt_compat; lra). apply sqrt_le_1_alt. rewrite pow_inv by lra. unfold Rdiv. rewrite Rmult_1_l. apply Rinv_le_contravar; lra. }
    set (q := sqrt _) in *. rewrite (Rabs_pos_eq h), (Rabs_pos_eq (t ^ 2)) by lra. assert (P : 0 < h * t ^ 2 * q) by (apply Rmult_lt_0_compat; [apply Rmult_lt_0_compat; lra|lra]). rewrite Rabs_pos_eq by lra. split; [exact P|].
    apply Rle_trans with (h * t); [|nra]. replace (h * t) with (h * t ^ 2 * / t) by (field; lra). apply Rmult_le_compat_l; [|lra]. apply Rmult_le_pos; lra. }
  destruct Ee as (e & -> & He). pose proof (pow8_big e He) as Pb. unfold success. assert (T7 : / 10 ^ 7 < 1) by (cbn [pow]; lra). destruct (Rle_dec e 1) as [_|Z]; [|lra]. destruct (Rlt_dec e 0) as [Z|_]; [lra|]. destruct (Req_EM_T e 0) as [Z|_]; [lra|]. rewrite Rmult_1_r.
  destruct (Rlt_dec (0.9 * Rpower e (- (1 / 8))) 0.333) as [Z|_]; [lra|]. destruct (Rlt_dec 6 (0.9 * Rpower e (- (1 / 8)))) as [_|Z]; [|lra]. unfold bind, modify, ret. cbn [fst snd]. eexists. split; [reflexivity|]. cbn [g_con c_hnext c_reject]. rewrite K1. split; [|reflexivity].
  destruct (c_reject (g_con g)); [rewrite Rmin_right by lra; ring|ring].
Qed.
Lemma step5 fuel h (g : G unit) : (1 <= fuel)%nat -> cond5 (g_s g) -> 0 <= p_x (g_s g) -> 1 / 10 <= h -> p_x (g_s g) + h <= 1 ->
  exists g', step f5 fuel h g = (Ok tt, g') /\ cond5 (g_s g') /\ p_x (g_s g') = p_x (g_s g) + h /\ p_hdid (g_s g') = h /\ p_hnext (g_s g') = (if c_reject (g_con g) then h else 6 * h) /\ c_reject (g_con g') = false /\ g_out g' = g_out g /\ g_ode g' = g_ode g.
Proof.
  intros Hf Hc Hx Hh Hs. destruct (attempts5 fuel h g Hf Hc Hx Hh Hs) as (g1 & E & En & Ej). pose proof (step_spec f5 fuel h g) as S. pose proof Hc as (L & Ed & Ea & Er & Edt).
  destruct (step f5 fuel h g) as [[[]|e] g'] eqn:Es.
  - exists g'. split; [reflexivity|]. destruct S as (S1 & S2 & _ & S4 & _ & _ & S7 & S8 & S9 & _ & S11 & S12 & (w & d & w' & S13 & S14) & _).
    assert (Q : p_hdid (g_s g') = h /\ p_hnext (g_s g') = c_hnext (g_con g1)).
    { revert Es. unfold step. unfold bind at 1. rewrite E. unfold bind at 1, gets at 1. unfold bind at 1. destruct (deriv_quad f5 _ (length (p_y (g_s g1))) (p_x (g_s g1) + h) (p_yout (g_s g1)) g1 f5_quad) as (g2 & E2 & E2s). pose proof (keeps_deriv f5 (length (p_y (g_s g1))) (p_x (g_s g1) + h) (p_yout (g_s g1)) g1) as K2. rewrite E2 in *. cbn [snd] in K2.
      unfold bind at 1. set (m := if p_dense (g_s g1) then _ else _). assert (Km : keeps m) by (unfold m; destruct (p_dense (g_s g1)); [apply keeps_prepare|apply keeps_ret]). specialize (Km g2). destruct (m g2) as [[u|e] g3]; [|discriminate]. cbn [snd] in Km.
      unfold bind, get, set_s, modify. intros Q. apply (f_equal snd) in Q. cbn [snd] in Q. subst g'. cbn [g_s p_hdid p_hnext]. split; [reflexivity|]. destruct Km as (-> & _). now destruct K2 as (-> & _). }
    destruct Q as [Q1 Q2]. rewrite Q1 in S4. unfold cond5. split; [|split; [exact S4|]; split; [exact Q1|]; split; [congruence|]; auto].
    split; [congruence|]. split; [|split; [congruence|]; split; congruence]. rewrite S14, L. unfold f5, ret in S13. apply (f_equal fst) in S13. cbn [fst] in S13. injection S13 as <-. unfold mk. cbn [seq map nth]. reflexivity.
  - exfalso. revert Es. unfold step. unfold bind at 1. rewrite E. unfold bind at 1, gets at 1. unfold bind at 1. destruct (deriv_quad f5 _ (length (p_y (g_s g1))) (p_x (g_s g1) + h) (p_yout (g_s g1)) g1 f5_quad) as (g2 & E2 & E2s). rewrite E2.
    unfold bind at 1. destruct (p_dense (g_s g1)).
    + unfold prepare_dense. unfold bind at 1, gets at 1. cbv zeta. destruct (p_k (g_s g2)). do 3 (unfold bind at 1, deriv at 1, bind at 1, onw at 1, f5 at 1, ret at 1, ret at 1). cbn. discriminate.
    + cbn. discriminate.
Qed.

(** ** One turn of the loop of integrate *)
Definition K5 (dn : bool) (x h : R) (rej : bool) (nok : nat) (g : G unit) : Prop :=
  cond5 (g_s g) /\ p_x (g_s g) = x /\ c_reject (g_con g) = rej /\ e_x1 (g_ode g) = 0 /\ e_x2 (g_ode g) = 1 /\ e_hmin (g_ode g) = 0 /\ e_dense (g_ode g) = dn /\ e_h (g_ode g) = h /\ e_nok (g_ode g) = nok /\ e_nbad (g_ode g) = 0%nat.
(** storing one step succeeds and leaves an output with property P *)
Definition rec5 (dn : bool) (fuel nstp : nat) (x : R) (o : output) (P : output -> Prop) : Prop :=
  forall s y hd, length y = 1%nat -> length (p_y s) = 1%nat -> exists o',
    (if dn then out_out fuel (Z.of_nat nstp) x Float64 y (fun xo => dense_out s xo hd) else save x Float64 y) o = (Ok tt, o') /\ P o'.
Lemma clip5 x h : clip x 0 1 h = if Rlt_dec 0 (x + h * 1.0001 - 1) then 1 - x else h.
Proof. unfold clip. destruct (Req_EM_T (1 - 0) 0) as [Z|_]; [lra|]. replace ((x + h * 1.0001 - 1) / (1 - 0)) with (x + h * 1.0001 - 1) by field. reflexivity. Qed.
Lemma turn5 dn fuel left nstp x h rej nok g P (hc := clip x 0 1 h) (x' := x + hc) : (1 <= fuel)%nat -> K5 dn x h rej nok g -> 0 <= x -> 1 / 10 <= hc -> x' <= 1 -> rec5 dn fuel nstp x' (g_out g) P ->
  exists g' y, K5 dn x' hc false (S nok) g' /\ P (g_out g') /\ length y = 1%nat /\
    iloop f5 fuel (S left) nstp g =
      (if Rle_dec 0 ((x' - 1) * (1 - 0)) then
         (if match o_kmax (g_out g') with Some km => Nat.ltb 0 km | None => false end then
            if Rlt_dec (100 * Rabs 1 * EPS) (Rabs (last_saved (g_out g') - 1)) then onout (save x' Float64 y) else ret tt
          else ret tt) (mkG (g_w g') (g_con g') (g_s g') (g_out g') (let e := g_ode g' in mkOde (e_x1 e) (e_x2 e) (e_hmin e) (e_dense e) (e_h e) (e_nok e) (e_nbad e) (e_nstp e) y))
       else iloop f5 fuel left (S nstp) (mkG (g_w g') (g_con g') (g_s g') (g_out g') (let e := g_ode g' in mkOde (e_x1 e) (e_x2 e) (e_hmin e) (e_dense e) (if rej then hc else 6 * hc) (e_nok e) (e_nbad e) (e_nstp e) (e_ystart e)))).
Proof.
  intros Hf (Kc & Kx & Kr & Kx1 & Kx2 & Khm & Kd & Kh & Kn & Kb) Hx Hc Hx' HP. cbn [iloop]. unfold bind at 1, get at 1. rewrite Kx, Kx1, Kx2, Kh. fold hc. unfold bind at 1, set_e at 1, modify at 1. set (g1 := mkG _ _ _ _ _).
  destruct (step5 fuel hc g1 Hf) as (g2 & E2 & C2 & X2 & D2 & N2 & R2 & O2 & Od2); [exact Kc|cbn [g1 g_s]; rewrite Kx; exact Hx|exact Hc|cbn [g1 g_s]; rewrite Kx; exact Hx'|].
  cbn [g1 g_s g_con g_out g_ode] in X2, N2, O2, Od2. rewrite Kx in X2. rewrite Kr in N2. fold x' in X2. unfold bind at 1. rewrite E2. unfold bind at 1, gets at 1. unfold bind at 1, set_e at 1, modify at 1. cbv beta. rewrite Od2. destruct (Req_EM_T (p_hdid (g_s g2)) hc) as [_|Z]; [|contradiction].
  cbn [e_x1 e_x2 e_hmin e_dense e_h e_nok e_nbad e_nstp e_ystart]. unfold bind at 1, record at 1. unfold bind at 1, get at 1. cbn [g_ode e_dense g_s]. pose proof C2 as (L2 & _ & _ & _ & T2). rewrite T2, X2, D2.
  destruct (HP (g_s g2) (p_y (g_s g2)) hc L2 L2) as (o' & Eo & Po).
  assert (Er : (if e_dense (g_ode g) then onout (W := unit) (out_out fuel (Z.of_nat nstp) x' Float64 (p_y (g_s g2)) (fun xo => dense_out (g_s g2) xo hc)) else onout (save x' Float64 (p_y (g_s g2))))
     (mkG (g_w g2) (g_con g2) (g_s g2) (g_out g2) (mkOde (e_x1 (g_ode g)) (e_x2 (g_ode g)) (e_hmin (g_ode g)) (e_dense (g_ode g)) hc (S (e_nok (g_ode g))) (e_nbad (g_ode g)) nstp (e_ystart (g_ode g))))
     = (Ok tt, mkG (g_w g2) (g_con g2) (g_s g2) o' (mkOde (e_x1 (g_ode g)) (e_x2 (g_ode g)) (e_hmin (g_ode g)) (e_dense (g_ode g)) hc (S (e_nok (g_ode g))) (e_nbad (g_ode g)) nstp (e_ystart (g_ode g))))).
  { rewrite Kd in *. unfold onout. destruct dn; cbn [g_out]; rewrite O2, Eo; reflexivity. }
  rewrite Er. unfold bind at 1, get at 1. cbv zeta. cbn [g_ode e_x1 e_x2 e_hmin g_out]. rewrite Kx1, Kx2, Khm, N2.
  exists (mkG (g_w g2) (g_con g2) (g_s g2) o' (mkOde 0 1 0 (e_dense (g_ode g)) hc (S (e_nok (g_ode g))) (e_nbad (g_ode g)) nstp (e_ystart (g_ode g)))), (p_y (g_s g2)).
  cbn [g_w g_con g_s g_out g_ode e_x1 e_x2 e_hmin e_dense e_h e_nok e_nbad e_nstp e_ystart]. split; [unfold K5; cbn [g_s g_con g_ode e_x1 e_x2 e_hmin e_dense e_h e_nok e_nbad]; repeat (split; [solve [assumption | reflexivity | congruence]|]); solve [assumption | reflexivity | congruence]|]. split; [exact Po|]. split; [exact L2|].
  destruct (Rle_dec 0 ((x' - 1) * (1 - 0))) as [_|Z].
  - unfold bind, set_e, modify. cbn [g_w g_con g_s g_out g_ode e_x1 e_x2 e_hmin e_dense e_h e_nok e_nbad e_nstp e_ystart]. reflexivity.
  - destruct (Rle_dec (Rabs (if rej then hc else 6 * hc)) 0) as [A|_]; [exfalso; destruct rej; rewrite Rabs_pos_eq in A; lra|]. unfold bind, set_e, modify. cbn [g_w g_con g_s g_out g_ode e_x1 e_x2 e_hmin e_dense e_h e_nok e_nbad e_nstp e_ystart]. reflexivity.
Qed.
Lemma cont5 dn fuel left nstp x h rej nok g P (hc := clip x 0 1 h) (x' := x + hc) : (1 <= fuel)%nat -> K5 dn x h rej nok g -> 0 <= x -> 1 / 10 <= hc -> x' < 1 -> rec5 dn fuel nstp x' (g_out g) P ->
  exists g', K5 dn x' (if rej then hc else 6 * hc) false (S nok) g' /\ P (g_out g') /\ iloop f5 fuel (S left) nstp g = iloop f5 fuel left (S nstp) g'.
Proof.
  intros Hf K Hx Hc Hx' HP. destruct (turn5 dn fuel left nstp x h rej nok g P Hf K Hx Hc ltac:(fold hc; fold x'; lra) HP) as (g' & y & K' & P' & _ & E). fold hc x' in E, K'. rewrite E. destruct (Rle_dec 0 ((x' - 1) * (1 - 0))) as [Z|_]; [lra|].
  eexists. split; [|split; [|reflexivity]]; [|exact P']. destruct K' as (A1 & A2 & A3 & A4 & A5 & A6 & A7 & A8 & A9 & A10). unfold K5. cbn [g_s g_con g_ode e_x1 e_x2 e_hmin e_dense e_h e_nok e_nbad]. repeat (split; [solve [assumption | reflexivity | congruence]|]). solve [assumption | reflexivity | congruence].
Qed.
Lemma end5 dn fuel left nstp x h rej nok g n dt (Q : list (R * list C) -> Prop) (hc := clip x 0 1 h) (x' := x + hc) : (1 <= fuel)%nat -> K5 dn x h rej nok g -> 0 <= x -> 1 / 10 <= hc -> x' = 1 -> n = 1%nat -> dt = Float64 -> (forall l, Q l -> l <> []) ->
  rec5 dn fuel nstp x' (g_out g) (fun o => exists l, stored n dt l o /\ Q l) ->
  exists g' l, iloop f5 fuel (S left) nstp g = (Ok tt, g') /\ e_nok (g_ode g') = S nok /\ e_nbad (g_ode g') = 0%nat /\ Q l /\ firstn (o_count (g_out g')) (o_xsave (g_out g')) = ends 1 (map fst l).
Proof.
  intros Hf K Hx Hc Hx' -> -> Hne HP. destruct (turn5 dn fuel left nstp x h rej nok g _ Hf K Hx Hc ltac:(fold hc; fold x'; lra) HP) as (g' & y & K' & (l & S & Ql) & Ly & E). fold hc x' in E, K'. rewrite E. destruct (Rle_dec 0 ((x' - 1) * (1 - 0))) as [_|Z]; [|lra].
  pose proof (last_saved_last _ _ _ _ S (Hne l Ql)) as La. pose proof S as (km & Km1 & Km2 & _). rewrite Km1. apply Nat.ltb_lt in Km2. rewrite Km2, La. destruct K' as (A1 & A2 & A3 & A4 & A5 & A6 & A7 & A8 & A9 & A10). unfold ends.
  destruct (Rlt_dec (100 * Rabs 1 * EPS) (Rabs (last (map fst l) 0 - 1))) as [Z|Z].
  - unfold onout. cbn [g_out]. destruct (save_good 1 Float64 l (g_out g') x' y S Ly) as (o7 & E7 & S7 & _). rewrite E7. eexists. exists l. split; [reflexivity|]. cbn [g_ode e_nok e_nbad g_out]. split; [exact A9|]. split; [exact A10|]. split; [exact Ql|]. rewrite (stored_xs _ _ _ _ S7), map_app, Hx'. match goal with |- _ = (if ?d then _ else _) => destruct d end; [reflexivity|contradiction].
  - unfold ret. eexists. exists l. split; [reflexivity|]. cbn [g_ode e_nok e_nbad g_out]. split; [exact A9|]. split; [exact A10|]. split; [exact Ql|]. rewrite (stored_xs _ _ _ _ S). match goal with |- _ = (if ?d then _ else _) => destruct d end; [contradiction|reflexivity].
Qed.

(** ** The two runs without dense output *)
Definition new5 (con : ctrl) (nsaves : nat) (dn : bool) : G unit := new_ode tt con [z0] 0 1 (10 ^ 6) 0 (1 / 10) 0 (new_output (Some nsaves)) dn Float64.
Definition start5 (con : ctrl) (dn : bool) (o : output) : G unit :=
  mkG tt con (let s := new_stepper [z0] 0 (10 ^ 6) 0 dn Float64 in mkStp (p_x s) (p_xold s) (p_y s) (mk 1 (fun i => nth i [RtoC (0 ^ 5)] z0)) (p_atol s) (p_rtol s) (p_dense s) (p_hdid s) (p_hnext s) (p_dtype s) (p_yout s) (p_yerr s) (p_yerr2 s) (p_k s) (p_rc s)) o
    (mkOde 0 1 0 dn (Rabs (1 / 10) * sgn (1 - 0)) 0 0 0 [z0]).
Lemma start5_K con dn o : K5 dn 0 (1 / 10) (c_reject con) 0 (start5 con dn o).
Proof.
  unfold K5, start5, cond5. cbn [g_s g_con g_ode new_stepper p_y p_x p_dydx p_atol p_rtol p_dtype e_x1 e_x2 e_hmin e_dense e_h e_nok e_nbad length]. repeat (split; [solve [repeat split]|]). split; [|split; reflexivity].
  unfold sgn. destruct (Rlt_dec 0 (1 - 0)) as [_|Z]; [|lra]. rewrite Rabs_pos_eq by lra. ring.
Qed.
Lemma rec_save fuel nstp x o l (L : list R) : stored 1 Float64 l o -> map fst l = L -> rec5 false fuel nstp x o (fun o' => exists l', stored 1 Float64 l' o' /\ map fst l' = L ++ [x]).
Proof. intros S E s y hd Ly Ls. destruct (save_good 1 Float64 l o x y S Ly) as (o' & E' & S' & _). exists o'. split; [exact E'|]. exists (l ++ [(x, y)]). split; [exact S'|]. rewrite map_app, E. reflexivity. Qed.
Lemma clip5_keep x h : x + h * 1.0001 - 1 <= 0 -> clip x 0 1 h = h.
Proof. intros H. rewrite clip5. destruct (Rlt_dec _ _); [lra|reflexivity]. Qed.
Lemma clip5_cut x h : 0 < x + h * 1.0001 - 1 -> clip x 0 1 h = 1 - x.
Proof. intros H. rewrite clip5. destruct (Rlt_dec _ _); [reflexivity|lra]. Qed.
Lemma ends_at l : ends 1 (l ++ [1]) = l ++ [1].
Proof. unfold ends. rewrite last_last, Rminus_eq_0, Rabs_R0. destruct (Rlt_dec _ _) as [Z|Z]; [|reflexivity]. exfalso. pose proof (Rabs_pos 1). pose proof EPS_pos. nra. Qed.
Lemma MAXSTP_5 : exists m, MAXSTP = S (S (S (S (S m)))).
Proof. destruct MAXSTP as [|[|[|[|[|m]]]]] eqn:E; try (unfold MAXSTP in E; lia). eauto. Qed.
Lemma run5 fuel con nsaves : (1 <= fuel)%nat -> exists g', integrate f5 fuel (new5 con nsaves false) = (Ok tt, g') /\ e_nbad (g_ode g') = 0%nat /\
  if c_reject con then e_nok (g_ode g') = 4%nat /\ firstn (o_count (g_out g')) (o_xsave (g_out g')) = [0; 1 / 10; 2 / 10; 8 / 10; 1]
  else e_nok (g_ode g') = 3%nat /\ firstn (o_count (g_out g')) (o_xsave (g_out g')) = [0; 1 / 10; 7 / 10; 1].
Proof.
  intros Hf. destruct (integrate_start f5 fuel tt con [z0] 0 1 (10 ^ 6) 0 (1 / 10) 0 nsaves false Float64 [RtoC (0 ^ 5)] tt Hf ltac:(discriminate) eq_refl) as (o & E & So). cbv iota in So. unfold new5. change (integrate f5 fuel (new5 con nsaves false) = iloop f5 fuel MAXSTP 0 (start5 con false o)) in E. unfold new5 in E. rewrite E. clear E.
  pose proof (start5_K con false o) as K. destruct MAXSTP_5 as (m & ->).
  assert (C0 : clip 0 0 1 (1 / 10) = 1 / 10) by (apply clip5_keep; lra).
  destruct (cont5 false fuel (S (S (S (S m)))) 0 0 (1 / 10) (c_reject con) 0 _ _ Hf K ltac:(lra) ltac:(rewrite C0; lra) ltac:(rewrite C0; lra) (rec_save fuel 0 _ _ [(0, [z0])] [0] So eq_refl)) as (g1 & K1 & (l1 & S1 & L1) & ->).
  rewrite C0 in K1, L1. replace (0 + 1 / 10) with (1 / 10) in K1, L1 by lra. destruct (c_reject con).
  - assert (C1 : clip (1 / 10) 0 1 (1 / 10) = 1 / 10) by (apply clip5_keep; lra).
    destruct (cont5 false fuel (S (S (S m))) 1 (1 / 10) (1 / 10) false 1 _ _ Hf K1 ltac:(lra) ltac:(rewrite C1; lra) ltac:(rewrite C1; lra) (rec_save fuel 1 _ _ l1 _ S1 L1)) as (g2 & K2 & (l2 & S2 & L2) & ->).
    rewrite C1 in K2, L2. replace (1 / 10 + 1 / 10) with (2 / 10) in K2, L2 by lra. replace (6 * (1 / 10)) with (6 / 10) in K2 by lra.
    assert (C2 : clip (2 / 10) 0 1 (6 / 10) = 6 / 10) by (apply clip5_keep; lra).
    destruct (cont5 false fuel (S (S m)) 2 (2 / 10) (6 / 10) false 2 _ _ Hf K2 ltac:(lra) ltac:(rewrite C2; lra) ltac:(rewrite C2; lra) (rec_save fuel 2 _ _ l2 _ S2 L2)) as (g3 & K3 & (l3 & S3 & L3) & ->).
    rewrite C2 in K3, L3. replace (2 / 10 + 6 / 10) with (8 / 10) in K3, L3 by lra. replace (6 * (6 / 10)) with (36 / 10) in K3 by lra.
    assert (C3 : clip (8 / 10) 0 1 (36 / 10) = 2 / 10) by (rewrite clip5_cut by lra; lra).
    destruct (end5 false fuel (S m) 3 (8 / 10) (36 / 10) false 3 g3 1 Float64 (fun l => map fst l = (((([0] ++ [1 / 10]) ++ [2 / 10]) ++ [8 / 10]) ++ [1])) Hf K3 ltac:(lra) ltac:(rewrite C3; lra) ltac:(rewrite C3; lra) eq_refl eq_refl) as (g4 & l4 & -> & N4 & B4 & L4 & X4).
    + intros l Hl ->. discriminate.
    + rewrite C3. replace (8 / 10 + 2 / 10) with 1 by lra. exact (rec_save fuel 3 1 _ l3 _ S3 L3).
    + exists g4. split; [reflexivity|]. split; [exact B4|]. split; [exact N4|]. rewrite X4, L4, ends_at. reflexivity.
  - replace (6 * (1 / 10)) with (6 / 10) in K1 by lra. assert (C1 : clip (1 / 10) 0 1 (6 / 10) = 6 / 10) by (apply clip5_keep; lra).
    destruct (cont5 false fuel (S (S (S m))) 1 (1 / 10) (6 / 10) false 1 _ _ Hf K1 ltac:(lra) ltac:(rewrite C1; lra) ltac:(rewrite C1; lra) (rec_save fuel 1 _ _ l1 _ S1 L1)) as (g2 & K2 & (l2 & S2 & L2) & ->).
    rewrite C1 in K2, L2. replace (1 / 10 + 6 / 10) with (7 / 10) in K2, L2 by lra. replace (6 * (6 / 10)) with (36 / 10) in K2 by lra.
    assert (C2 : clip (7 / 10) 0 1 (36 / 10) = 3 / 10) by (rewrite clip5_cut by lra; lra).
    destruct (end5 false fuel (S (S m)) 2 (7 / 10) (36 / 10) false 2 g2 1 Float64 (fun l => map fst l = ((([0] ++ [1 / 10]) ++ [7 / 10]) ++ [1])) Hf K2 ltac:(lra) ltac:(rewrite C2; lra) ltac:(rewrite C2; lra) eq_refl eq_refl) as (g4 & l4 & -> & N4 & B4 & L4 & X4).
    + intros l Hl ->. discriminate.
    + rewrite C2. replace (7 / 10 + 3 / 10) with 1 by lra. exact (rec_save fuel 2 1 _ l2 _ S2 L2).
    + exists g4. split; [reflexivity|]. split; [exact B4|]. split; [exact N4|]. rewrite X4, L4, ends_at. reflexivity.
Qed.

(*! C47: refuted: after a solver for y' = 0 has raised (C43), its rejection is still recorded in the controller shared by all solvers, and a later, unrelated integration of y' = x^5 from 0 to 1 takes four steps ending at 0.1, 0.2, 0.8, 1 instead of the three (0.1, 0.7, 1) it takes in a fresh process. *)
Lemma C47_after_failure_refuted_l : exists (fA fB : R -> list C -> M unit (list C)) (fuel : nat) (gA gB gB' : G unit),
  let newA := new_ode tt new_ctrl [RtoC 1] 0 1 1 0 (1 / 10) 0 (new_output (Some 0%nat)) false Float64 in
  let newB con := new_ode tt con [RtoC 0] 0 1 (10 ^ 6) 0 (1 / 10) 0 (new_output (Some 0%nat)) false Float64 in
  (forall x y, fA x y tt = (Ok [RtoC 0], tt)) /\ (forall x y, fB x y tt = (Ok [RtoC (x ^ 5)], tt)) /\
  integrate fA fuel newA = (Raise AssertionError, gA) /\
  integrate fB fuel (newB new_ctrl) = (Ok tt, gB) /\ e_nok (g_ode gB) = 3%nat /\ firstn (o_count (g_out gB)) (o_xsave (g_out gB)) = [0; 1 / 10; 7 / 10; 1] /\
  integrate fB fuel (newB (g_con gA)) = (Ok tt, gB') /\ e_nok (g_ode gB') = 4%nat /\ firstn (o_count (g_out gB')) (o_xsave (g_out gB')) = [0; 1 / 10; 2 / 10; 8 / 10; 1].
Proof.
  destruct (C43_zero_estimate_refuted_l unit (fun _ _ => ret [RtoC 0]) 2 tt new_ctrl [RtoC 1] 0 1 1 0 (1 / 10) 0 0 false Float64) as (gA & EA & RA & _); [intros x y []; exists tt; reflexivity|lia|discriminate|].
  destruct (run5 2 new_ctrl 0 ltac:(lia)) as (gB & EB & _ & NB & XB). destruct (run5 2 (g_con gA) 0 ltac:(lia)) as (gB' & EB' & _ & Q). rewrite RA in Q. destruct Q as [NB' XB'].
  exists (fun _ _ => ret [RtoC 0]), f5, 2%nat, gA, gB, gB'. cbv zeta. split; [reflexivity|]. split; [reflexivity|]. split; [exact EA|]. split; [exact EB|]. split; [exact NB|]. split; [exact XB|]. split; [exact EB'|]. split; [exact NB'|exact XB'].
Qed.

(** ** The same run with dense output on ten intervals *)
Lemma out_while_ok n dt x D (HD : forall u, length (D u) = n) : forall m fuel l o, stored n dt l o -> (x - (o_xout o + INR m * o_dxout o)) * (o_x2 o - o_x1 o) <= 0 -> (m < fuel)%nat -> exists o', out_while fuel x dt D o = (Ok tt, o').
Proof.
  induction m as [|m IH]; intros [|fuel] l o S Hm Hf; try lia; cbn [out_while]; unfold bind at 1, get; destruct (Rlt_dec 0 ((x - o_xout o) * (o_x2 o - o_x1 o))) as [Q|Q]; try (eexists; reflexivity).
  - cbn [INR] in Hm. rewrite Rmult_0_l, Rplus_0_r in Hm. lra.
  - destruct (save_dense_good n dt l o (o_xout o) (D (o_xout o)) S (HD _)) as (o1 & E1 & S1 & F1a & F1b & F1c & F1d & F1e & F1f). unfold bind at 1. rewrite E1. unfold bind at 1, modify. eapply IH; [apply stored_xout; exact S1| |lia].
    cbn [o_xout o_dxout o_x1 o_x2 with_xout]. rewrite F1c, F1d, F1e, F1f. rewrite S_INR in Hm. replace (o_xout o + o_dxout o + INR m * o_dxout o) with (o_xout o + (INR m + 1) * o_dxout o) by ring. exact Hm.
Qed.
Definition Od (xo : R) (L : list R) (o : output) : Prop := exists l, stored 1 Float64 l o /\ map fst l = L /\ o_dense o = true /\ o_x1 o = 0 /\ o_x2 o = 1 /\ o_dxout o = 1 / 10 /\ o_xout o = xo.
Lemma rec_while fuel nstp x o xo L m : Od xo L o -> nstp <> 1%nat -> (m < fuel)%nat -> x - (xo + INR m * (1 / 10)) <= 0 -> (forall j, (j < m)%nat -> 0 < x - (xo + INR j * (1 / 10))) ->
  rec5 true fuel nstp x o (Od (xo + INR m * (1 / 10)) (L ++ mk m (fun j => xo + INR j * (1 / 10)))).
Proof.
  intros (l & S & E & A1 & A2 & A3 & A4 & A5) Hn Hf Hm Hj s y hd Ly Ls. unfold out_out, bind at 1, get. rewrite A1. cbn [negb]. replace (Z.of_nat nstp =? 1)%Z with false by (symmetry; apply Z.eqb_neq; lia).
  pose (D := fun xo => dense_out s xo hd). assert (HD : forall u, length (D u) = 1%nat) by (intros u; unfold D, dense_out; rewrite mk_length; exact Ls).
  destruct (out_while_ok 1 Float64 x D HD m fuel l o S) as (o' & E'); [rewrite A2, A3, A4, A5; lra|exact Hf|]. exists o'. split; [exact E'|].
  pose proof (out_while_spec 1 Float64 x D HD fuel l o S) as P. rewrite E', A2, A3, A4, A5 in P. destruct P as (m' & P1 & (P2a & P2b & P2c & P2d & P2e) & P3 & P4 & P5).
  assert (m' = m). { destruct (Nat.lt_trichotomy m' m) as [L1|[L1|L1]]; [specialize (Hj m' L1); lra|exact L1|specialize (P4 m L1); lra]. } subst m'.
  exists (l ++ grid m xo (1 / 10) D). split; [exact P1|]. split; [rewrite map_app, E; f_equal; unfold grid; rewrite map_mk; reflexivity|]. repeat split; congruence.
Qed.
Lemma rec_second fuel x o xo L : Od xo L o -> rec5 true fuel 1 x o (Od (xo + 1 / 10) (L ++ [x])).
Proof.
  intros (l & S & E & A1 & A2 & A3 & A4 & A5) s y hd Ly Ls. unfold out_out, bind at 1, get. rewrite A1. cbn [negb]. change (Z.of_nat 1 =? 1)%Z with true. cbv iota. destruct (save_good 1 Float64 l o x y S Ly) as (o1 & E1 & S1 & F1a & F1b & F1c & F1d & F1e & F1f).
  unfold bind. rewrite E1. unfold modify. eexists. split; [reflexivity|]. exists (l ++ [(x, y)]). split; [now apply stored_xout|]. split; [rewrite map_app, E; reflexivity|]. cbn [o_dense o_x1 o_x2 o_dxout o_xout with_xout]. repeat split; congruence.
Qed.
Lemma rec5_weaken dn fuel nstp x o (P Q : output -> Prop) : (forall o, P o -> Q o) -> rec5 dn fuel nstp x o P -> rec5 dn fuel nstp x o Q.
Proof. intros H R s y hd Ly Ls. destruct (R s y hd Ly Ls) as (o' & E & Po). eauto. Qed.

(*! C44: refuted: y' = x^5 from 0 to 1 with first step 0.1 and Output(10) returns after three steps (0.1, 0.7, 1) with the samples stored at 0, 0.7, 0.2, 0.3, ..., 0.9, 1: the grid point 0.1 is missing, 0.7 occurs twice, and the abscissae are not in order. *)
Lemma C44_grid_refuted_l : forall fuel : nat, (9 <= fuel)%nat -> exists g : G unit,
  integrate (fun x y => ret [RtoC (x ^ 5)]) fuel (new_ode tt new_ctrl [RtoC 0] 0 1 (10 ^ 6) 0 (1 / 10) 0 (new_output (Some 10%nat)) true Float64) = (Ok tt, g) /\
  e_nok (g_ode g) = 3%nat /\ firstn (o_count (g_out g)) (o_xsave (g_out g)) = [0; 7 / 10; 2 / 10; 3 / 10; 4 / 10; 5 / 10; 6 / 10; 7 / 10; 8 / 10; 9 / 10; 1].
Proof.
  intros fuel Hf. destruct (integrate_start f5 fuel tt new_ctrl [z0] 0 1 (10 ^ 6) 0 (1 / 10) 0 10 true Float64 [RtoC (0 ^ 5)] tt ltac:(lia) ltac:(lia) eq_refl) as (o & E & So). cbv iota in So.
  change (integrate f5 fuel (new5 new_ctrl 10 true) = iloop f5 fuel MAXSTP 0 (start5 new_ctrl true o)) in E. change (fun x y => ret [RtoC (x ^ 5)]) with f5. unfold new5 in E. rewrite E. clear E.
  assert (O0 : Od 0 [] o). { exists []. subst o. split; [apply stored_init|]. split; [reflexivity|]. unfold out_init, new_output. cbn [o_kmax o_dense Nat.ltb Nat.leb o_x1 o_x2 o_dxout o_xout o_nsave]. repeat split. replace (INR 10) with 10 by (rewrite INR_IZR_INZ; reflexivity). lra. }
  pose proof (start5_K new_ctrl true o) as K. cbn [new_ctrl c_reject] in K. destruct MAXSTP_5 as (m & ->).
  assert (C0 : clip 0 0 1 (1 / 10) = 1 / 10) by (apply clip5_keep; lra).
  destruct (cont5 true fuel (S (S (S (S m)))) 0 0 (1 / 10) false 0 (start5 new_ctrl true o) _ ltac:(lia) K ltac:(lra) ltac:(rewrite C0; lra) ltac:(rewrite C0; lra) (rec_while fuel 0 (0 + clip 0 0 1 (1 / 10)) o 0 [] 1 O0 ltac:(lia) ltac:(lia) ltac:(rewrite C0; cbn [INR]; lra) ltac:(intros [|j] Hj; [rewrite C0; cbn [INR]; lra|lia]))) as (g1 & K1 & O1 & ->).
  rewrite C0 in K1. replace (0 + 1 / 10) with (1 / 10) in K1 by lra. replace (6 * (1 / 10)) with (6 / 10) in K1 by lra. replace (0 + INR 1 * (1 / 10)) with (1 / 10) in O1 by (cbn [INR]; lra).
  assert (C1 : clip (1 / 10) 0 1 (6 / 10) = 6 / 10) by (apply clip5_keep; lra).
  destruct (cont5 true fuel (S (S (S m))) 1 (1 / 10) (6 / 10) false 1 g1 _ ltac:(lia) K1 ltac:(lra) ltac:(rewrite C1; lra) ltac:(rewrite C1; lra) (rec_second fuel _ _ _ _ O1)) as (g2 & K2 & O2 & ->).
  rewrite C1 in K2, O2. replace (1 / 10 + 6 / 10) with (7 / 10) in K2, O2 by lra. replace (6 * (6 / 10)) with (36 / 10) in K2 by lra. replace (1 / 10 + 1 / 10) with (2 / 10) in O2 by lra.
  assert (C2 : clip (7 / 10) 0 1 (36 / 10) = 3 / 10) by (rewrite clip5_cut by lra; lra).
  pose (L3 := (([] ++ mk 1 (fun j => 0 + INR j * (1 / 10))) ++ [7 / 10]) ++ mk 8 (fun j => 2 / 10 + INR j * (1 / 10))).
  assert (I8 : INR 8 = 8) by (rewrite INR_IZR_INZ; reflexivity).
  destruct (end5 true fuel (S (S m)) 2 (7 / 10) (36 / 10) false 2 g2 1 Float64 (fun l => map fst l = L3) ltac:(lia) K2 ltac:(lra) ltac:(rewrite C2; lra) ltac:(rewrite C2; lra) eq_refl eq_refl) as (g4 & l4 & -> & N4 & B4 & L4 & X4).
  - intros l Hl ->. discriminate.
  - rewrite C2. replace (7 / 10 + 3 / 10) with 1 by lra. eapply rec5_weaken; [|apply (rec_while fuel 2 1 (g_out g2) (2 / 10) _ 8 O2); [lia|lia|rewrite I8; lra|]].
    + intros o' (l & S & EL & _). exists l. split; [exact S|exact EL].
    + intros j Hj. assert (INR j <= 7) by (replace 7 with (INR 7) by (rewrite INR_IZR_INZ; reflexivity); apply le_INR; lia). lra.
  - exists g4. split; [reflexivity|]. split; [exact N4|]. rewrite X4, L4.
    assert (EL : L3 = [0; 7 / 10; 2 / 10; 3 / 10; 4 / 10; 5 / 10; 6 / 10; 7 / 10; 8 / 10; 9 / 10]) by (unfold L3, mk; cbn [seq map app INR]; repeat (apply (f_equal2 cons); [lra|]); reflexivity). rewrite EL. unfold ends. cbn [last]. destruct (Rlt_dec _ _) as [Z|Z]; [reflexivity|]. exfalso. apply Z. rewrite (Rabs_pos_eq 1) by lra. rewrite (Rabs_left (9 / 10 - 1)) by lra.
    assert (EPS <= 1 / 100000) by (unfold EPS; apply Rle_trans with (/ 2 ^ 17); [apply Rinv_le_contravar; [apply pow_lt; lra|apply Rle_pow; [lra|lia]]|cbn [pow]; lra]). lra.
Qed.

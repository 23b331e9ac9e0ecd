(** The Dormand-Prince tableau: nodes, quadrature order and the two error estimators (C46). *)
From Coq Require Import QArith Qreals Qabs Reals List ZArith Bool Arith Lia Lra.
From Coquelicot Require Import Complex.
From Verif Require Import Base CNum NumPy ModelDopr ModelODE ODEStepProofs.
Import ListNotations.
Local Open Scope R_scope.
Local Open Scope py_scope.
Local Notation z0 := (RtoC 0).

(** ** Rational arithmetic on the tabulated coefficients *)
Definition qsum (l : list Q) : Q := fold_right Qplus 0%Q l.
Fixpoint qpow (q : Q) (n : nat) : Q := match n with O => 1%Q | S n => Qred (q * qpow q n) end.
(** sum of w * c^m over weight/node pairs *)
Definition qmom (l : list (Q * Q)) (m : nat) : Q := qsum (map (fun p => (fst p * qpow (snd p) m)%Q) l).
Lemma Q2R_qpow q n : Q2R (qpow q n) = Q2R q ^ n.
Proof. induction n as [|n IH]; cbn [qpow pow]; [apply RMicromega.Q2R_1|]. rewrite (Qeq_eqR _ _ (Qred_correct _)), Q2R_mult, IH. reflexivity. Qed.
Lemma Q2R_qsum l : Q2R (qsum l) = lrsum (map Q2R l).
Proof. induction l as [|a l IH]; cbn [qsum fold_right map lrsum]; [apply RMicromega.Q2R_0|]. rewrite Q2R_plus. fold (qsum l). rewrite IH. reflexivity. Qed.
Definition mom (l : list (R * R)) (m : nat) : R := lrsum (map (fun p => fst p * snd p ^ m) l).
Definition toR (l : list (Q * Q)) : list (R * R) := map (fun p => (Q2R (fst p), Q2R (snd p))) l.
Lemma Q2R_qmom l m : Q2R (qmom l m) = mom (toR l) m.
Proof. unfold qmom, mom, toR. rewrite Q2R_qsum, !map_map. f_equal. apply map_ext. intros [w c]. cbn [fst snd]. now rewrite Q2R_mult, Q2R_qpow. Qed.
Definition qclose (e : Q) (a b : Q) : bool := Qle_bool (Qabs (a - b)) e.
Lemma qclose_R e a b : qclose e a b = true -> Rabs (Q2R a - Q2R b) <= Q2R e.
Proof.
  unfold qclose. intros H. apply Qle_bool_iff, Qle_Rle in H. rewrite <- Q2R_minus. eapply Rle_trans; [|exact H]. apply Rabs_le. 
  pose proof (Qle_Rle _ _ (Qle_Qabs (a - b))) as H1. pose proof (Qle_Rle _ _ (Qle_Qabs (- (a - b)))) as H2. rewrite Qabs_opp, Q2R_opp in H2. lra.
Qed.
Definition tiny : R := / 10 ^ 27.
Lemma tiny_Q : Q2R (1 # 10 ^ 27) = tiny.
Proof. unfold tiny, Q2R. cbn [Qnum Qden]. rewrite Rmult_1_l. f_equal. rewrite pow_IZR. reflexivity. Qed.
Lemma tiny_pos : 0 < tiny. Proof. unfold tiny. apply Rinv_0_lt_compat, pow_lt. lra. Qed.
(** target values 1/(m+1) for an integral, 0 for an error estimator *)
Definition tau (m : nat) : R := / (INR m + 1).
Definition qtau (m : nat) : Q := 1 # Pos.of_succ_nat m.
Lemma Q2R_qtau m : Q2R (qtau m) = tau m.
Proof.
  unfold qtau, tau, Q2R. cbn [Qnum Qden]. rewrite Rmult_1_l. f_equal. rewrite <- S_INR, INR_IZR_INZ. f_equal. 
Qed.

(** the weights of yout (line 121-123), yerr (125) and yerr2 (126) with the nodes of their stages *)
Definition wb : list (Q * Q) := [(q_b1, 0%Q); (q_b6, q_c6); (q_b7, q_c7); (q_b8, q_c8); (q_b9, q_c9); (q_b10, q_c10); (q_b11, q_c11); (q_b12, 1%Q)].
Definition werr : list (Q * Q) := wb ++ [((- q_bhh1)%Q, 0%Q); ((- q_bhh2)%Q, q_c9); ((- q_bhh3)%Q, 1%Q)].
Definition wer : list (Q * Q) := [(q_er1, 0%Q); (q_er6, q_c6); (q_er7, q_c7); (q_er8, q_c8); (q_er9, q_c9); (q_er10, q_c10); (q_er11, q_c11); (q_er12, 1%Q)].
Lemma mom_close (l : list (Q * Q)) (t : nat -> Q) N : forallb (fun m => qclose (1 # 10 ^ 27) (qmom l m) (t m)) (seq 0 N) = true ->
  forall m, (m < N)%nat -> Rabs (mom (toR l) m - Q2R (t m)) <= tiny.
Proof.
  intros H m Hm. rewrite forallb_forall in H. specialize (H m). rewrite <- Q2R_qmom, <- tiny_Q. apply qclose_R, H. apply in_seq. lia.
Qed.
Lemma wb_mom m : (m < 8)%nat -> Rabs (mom (toR wb) m - tau m) <= tiny.
Proof. rewrite <- Q2R_qtau. apply mom_close. vm_compute. reflexivity. Qed.
Lemma Q2R_0' : Q2R 0 = 0. Proof. apply RMicromega.Q2R_0. Qed.
Lemma werr_mom m : (m < 3)%nat -> Rabs (mom (toR werr) m - 0) <= tiny.
Proof. rewrite <- Q2R_0'. apply (mom_close _ (fun _ => 0%Q)). vm_compute. reflexivity. Qed.
Lemma wer_mom m : (m < 5)%nat -> Rabs (mom (toR wer) m - 0) <= tiny.
Proof. rewrite <- Q2R_0'. apply (mom_close _ (fun _ => 0%Q)). vm_compute. reflexivity. Qed.

(** ** Weighted sums of monomials *)
(** sum of w * c^l * (x + c h)^k *)
Definition wsum (l : list (R * R)) (x h : R) (k m : nat) : R := lrsum (map (fun p => fst p * snd p ^ m * (x + snd p * h) ^ k) l).
Fixpoint target (t : nat -> R) (x h : R) (k m : nat) : R := match k with O => t m | S k => x * target t x h k m + h * target t x h k (S m) end.
Lemma lrsum_lin {A} (u v : A -> R) a b l : lrsum (map (fun p => a * u p + b * v p) l) = a * lrsum (map u l) + b * lrsum (map v l).
Proof. induction l as [|p l IH]; cbn [map lrsum fold_right]; [ring|]. unfold lrsum in *. cbn [fold_right]. rewrite IH. ring. Qed.
Lemma wsum_0 l x h m : wsum l x h 0 m = mom l m.
Proof. unfold wsum, mom. f_equal. apply map_ext. intros p. cbn. ring. Qed.
Lemma wsum_S l x h k m : wsum l x h (S k) m = x * wsum l x h k m + h * wsum l x h k (S m).
Proof. unfold wsum. rewrite <- lrsum_lin. f_equal. apply map_ext. intros p. cbn [pow]. ring. Qed.
Lemma wsum_close l t N x h : (forall m, (m < N)%nat -> Rabs (mom l m - t m) <= tiny) ->
  forall k m, (k + m < N)%nat -> Rabs (wsum l x h k m - target t x h k m) <= tiny * (Rabs x + Rabs h) ^ k.
Proof.
  intros H. induction k as [|k IH]; intros m Hm; cbn [target]; [rewrite wsum_0; cbn [pow]; rewrite Rmult_1_r; apply H; lia|].
  rewrite wsum_S. pose proof (IH m ltac:(lia)) as I1. pose proof (IH (S m) ltac:(lia)) as I2.
  replace (_ - _) with (x * (wsum l x h k m - target t x h k m) + h * (wsum l x h k (S m) - target t x h k (S m))) by ring.
  eapply Rle_trans; [apply Rabs_triang|]. rewrite !Rabs_mult. pose proof (Rabs_pos x). pose proof (Rabs_pos h). cbn [pow].
  set (B := (Rabs x + Rabs h) ^ k) in *. set (u := Rabs (wsum l x h k m - _)) in *. set (v := Rabs (wsum l x h k (S m) - _)) in *.
  apply (Rle_trans _ (Rabs x * (tiny * B) + Rabs h * (tiny * B))); [|right; ring]. apply Rplus_le_compat; apply Rmult_le_compat_l; assumption.
Qed.
(** the integral of u^k from x to x+h *)
Lemma target_tau x h k : (k < 8)%nat -> h * target tau x h k 0 = ((x + h) ^ S k - x ^ S k) / INR (S k).
Proof.
  intros Hk. do 8 (destruct k as [|k]; [cbn [target]; unfold tau; cbn [INR]; field|]). lia.
Qed.
Lemma target_zero x h k : forall m, target (fun _ => 0) x h k m = 0.
Proof. induction k as [|k IH]; intros m; cbn [target]; [reflexivity|]. rewrite !IH. ring. Qed.

(** ** dy for a right-hand side that depends on x only *)
Definition quad {W} (f : R -> list C -> M W (list C)) (p : R -> list C) : Prop := forall x y w, exists w', f x y w = (Ok (p x), w').
Definition fill (n : nat) (v : list C) : list C := mk n (fun i => nth i v z0).
Lemma deriv_quad {W} (f : R -> list C -> M W (list C)) p n x y g : quad f p -> exists g', deriv f n x y g = (Ok (fill n (p x)), g') /\ g_s g' = g_s g.
Proof.
  intros H. destruct (H x y (g_w g)) as (w' & E). eexists. unfold deriv, bind, onw. rewrite E. split; [reflexivity|]. reflexivity.
Qed.
Lemma dy_quad {W} (f : R -> list C -> M W (list C)) p h g : quad f p -> exists g', dy f h g = (Ok tt, g') /\
  let s := g_s g in let n := length (p_y s) in let at_ c := fill n (p (p_x s + c * h)) in let k12 := fill n (p (p_x s + h)) in
  let k4 := lincomb n [(b1, p_dydx s); (b6, at_ c6); (b7, at_ c7); (b8, at_ c8); (b9, at_ c9); (b10, at_ c10); (b11, at_ c11); (b12, k12)] in
  p_yout (g_s g') = ytemp (p_y s) h [(1, k4)] /\
  p_yerr (g_s g') = lincomb n [(1, k4); (- bhh1, p_dydx s); (- bhh2, at_ c9); (- bhh3, k12)] /\
  p_yerr2 (g_s g') = lincomb n [(er1, p_dydx s); (er6, at_ c6); (er7, at_ c7); (er8, at_ c8); (er9, at_ c9); (er10, at_ c10); (er11, at_ c11); (er12, k12)].
Proof.
  intros H. unfold dy. unfold bind at 1, gets at 1. cbv zeta. set (s := g_s g). set (n := length (p_y s)).
  assert (Es : g_s g = s) by reflexivity. clearbody s.
  assert (Q : forall n x y (k : list C -> M (G W) unit) (P : G W -> Prop), (forall g1, g_s g1 = s -> exists g', k (fill n (p x)) g1 = (Ok tt, g') /\ P g') ->
    forall g1, g_s g1 = s -> exists g', bind (deriv f n x y) k g1 = (Ok tt, g') /\ P g').
  { intros n0 x y k P Hk g1 H1. destruct (deriv_quad f p n0 x y g1 H) as (g2 & E & E2). unfold bind. rewrite E. apply Hk. congruence. }
  revert g Es. do 11 (eapply Q). intros g1 E1. eexists. split; [reflexivity|]. cbn [g_s p_yout p_yerr p_yerr2]. auto.
Qed.

(** weighted sums of polynomial values *)
Definition polyv (N : nat) (a : nat -> C) (x : R) : C := csum N (fun k => a k * RtoC (x ^ k))%C.
Lemma comb_cons w v l i : comb ((w, v) :: l) i = (RtoC w * nth i v z0 + comb l i)%C.
Proof.
  unfold comb. cbn [fold_left fst snd]. assert (H : forall l (a : C), fold_left (fun s p => s + RtoC (fst p) * nth i (snd p) z0)%C l a = (a + fold_left (fun s p => s + RtoC (fst p) * nth i (snd p) z0)%C l z0)%C).
  { intros l0. induction l0 as [|[w0 v0] l0 IH]; intros a; cbn [fold_left fst snd]; [ring|]. rewrite IH, (IH (z0 + _)%C). ring. }
  rewrite H. ring.
Qed.
Lemma comb_poly N a x h i : forall l ws, Forall2 (fun (p : R * list C) (q : R * R) => fst p = fst q /\ nth i (snd p) z0 = polyv N a (x + snd q * h)) l ws ->
  comb l i = csum N (fun k => a k * RtoC (wsum ws x h k 0))%C.
Proof.
  intros l ws H. induction H as [|[w v] [w' c] l ws [E1 E2] H IH].
  - unfold comb, wsum. cbn. rewrite csum_zero; [reflexivity|]. intros k _. cbn. ring.
  - rewrite comb_cons, IH. cbn [fst snd] in *. rewrite E1, E2. unfold polyv. rewrite <- csum_scal_l, <- csum_plus. apply csum_ext. intros k _. unfold wsum. cbn [map lrsum fst snd]. cbn [fold_right lrsum]. unfold lrsum. cbn [fold_right pow].
    rewrite RtoC_plus, !RtoC_mult. ring.
Qed.
Lemma Cmod_csum n u : Cmod (csum n u) <= rsum n (fun i => Cmod (u i)).
Proof. induction n as [|n IH]; [rewrite csum_0, rsum_0, Cmod_0; lra|]. rewrite csum_S, rsum_S. eapply Rle_trans; [apply Cmod_triangle|]. lra. Qed.
Lemma poly_dev N a x h l (t : nat -> R) : (forall m, (m < N)%nat -> Rabs (mom l m - t m) <= tiny) ->
  Cmod (csum N (fun k => a k * RtoC (wsum l x h k 0))%C - csum N (fun k => a k * RtoC (target t x h k 0))%C)%C <= tiny * rsum N (fun k => Cmod (a k) * (Rabs x + Rabs h) ^ k).
Proof.
  intros H. unfold Cminus. rewrite <- csum_opp, <- csum_plus. eapply Rle_trans; [apply Cmod_csum|]. rewrite <- rsum_scal_l. apply rsum_le. intros k Hk.
  replace (a k * RtoC (wsum l x h k 0) + - (a k * RtoC (target t x h k 0)))%C with (a k * RtoC (wsum l x h k 0 - target t x h k 0))%C by (rewrite RtoC_minus; ring).
  rewrite Cmod_mult, Cmod_R. pose proof (wsum_close l t N x h H k 0 ltac:(lia)) as W. pose proof (Cmod_ge_0 (a k)).
  apply (Rle_trans _ (Cmod (a k) * (tiny * (Rabs x + Rabs h) ^ k))); [now apply Rmult_le_compat_l|right; ring].
Qed.

(*! C46 (order): for y' = p(x) with p any complex polynomial of degree at most 7 per component, one dy over (x, h) returns y plus the exact integral of p up to 1e-27 relative to |h| * sum |a_k| (|x|+|h|)^k; for degree at most 4 the estimate yerr2 and for degree at most 2 the estimate yerr is zero up to the same relative rounding. *)
Lemma C46_quadrature_order_l : forall (W : Type) (f : R -> list C -> M W (list C)) (p : R -> list C) (N i : nat) (a : nat -> C) (h : R) (g : G W),
  (forall x y w, exists w', f x y w = (Ok (p x), w')) ->
  let s := g_s g in let x := p_x s in let n := length (p_y s) in
  (i < n)%nat -> (N <= 8)%nat -> (forall u, nth i (p u) z0 = csum N (fun k => a k * RtoC (u ^ k))%C) -> nth i (p_dydx s) z0 = nth i (p x) z0 ->
  let B := / 10 ^ 27 * rsum N (fun k => Cmod (a k) * (Rabs x + Rabs h) ^ k) in
  exists g', dy f h g = (Ok tt, g') /\
    Cmod (nth i (p_yout (g_s g')) z0 - (nth i (p_y s) z0 + csum N (fun k => a k * RtoC (((x + h) ^ S k - x ^ S k) / INR (S k)))%C))%C <= Rabs h * B /\
    ((N <= 5)%nat -> Cmod (nth i (p_yerr2 (g_s g')) z0) <= B) /\ ((N <= 3)%nat -> Cmod (nth i (p_yerr (g_s g')) z0) <= B).
Proof.
  intros W f p N i a h g H s x n Hi HN Hp Hd B. destruct (dy_quad f p h g H) as (g' & E & Y & R1 & R2). exists g'. split; [exact E|]. fold s in Y, R1, R2. fold n x in Y, R1, R2. fold (polyv N a) in Hp. cbv zeta in Y, R1, R2.
  assert (Fi : forall c, nth i (fill n (p (x + c * h))) z0 = polyv N a (x + c * h)) by (intros c; unfold fill; rewrite mk_nth by exact Hi; apply Hp).
  assert (F1 : nth i (fill n (p (x + h))) z0 = polyv N a (x + Q2R 1 * h)) by (unfold fill; rewrite mk_nth by exact Hi; rewrite Hp, RMicromega.Q2R_1, Rmult_1_l; reflexivity).
  assert (F0 : nth i (p_dydx s) z0 = polyv N a (x + Q2R 0 * h)) by (rewrite Hd, Hp, RMicromega.Q2R_0, Rmult_0_l, Rplus_0_r; reflexivity).
  set (kb := lincomb n _) in Y. assert (K4 : nth i kb z0 = csum N (fun k => a k * RtoC (wsum (toR wb) x h k 0))%C).
  { unfold kb. rewrite nth_lincomb by exact Hi. apply comb_poly. unfold toR, wb. cbn [map fst snd]. repeat constructor; cbn [fst snd]; auto. }
  split; [|split].
  - rewrite Y. unfold ytemp. rewrite mk_nth by exact Hi. unfold comb. cbn [fold_left fst snd]. rewrite K4.
    replace (csum N (fun k => a k * RtoC (((x + h) ^ S k - x ^ S k) / INR (S k)))%C) with (RtoC h * csum N (fun k => a k * RtoC (target tau x h k 0))%C)%C.
    2: { rewrite <- csum_scal_l. apply csum_ext. intros k Hk. rewrite <- (target_tau x h k) by lia. rewrite RtoC_mult. ring. }
    match goal with |- Cmod ?z <= _ => replace z with (RtoC h * (csum N (fun k => a k * RtoC (wsum (toR wb) x h k 0)) - csum N (fun k => a k * RtoC (target tau x h k 0))))%C by ring end.
    rewrite Cmod_mult, Cmod_R. apply Rmult_le_compat_l; [apply Rabs_pos|]. apply poly_dev. intros m Hm. apply wb_mom. lia.
  - intros H5. rewrite R2, nth_lincomb by exact Hi. rewrite (comb_poly N a x h i _ (toR wer)).
    + pose proof (poly_dev N a x h (toR wer) (fun _ => 0) (fun m Hm => wer_mom m ltac:(lia))) as D. rewrite (csum_zero N (fun k => a k * RtoC (target _ _ _ _ _))%C) in D by (intros k _; rewrite target_zero; ring).
      unfold Cminus in D. rewrite Copp_0, Cplus_0_r in D. exact D.
    + unfold toR, wer. cbn [map fst snd]. repeat constructor; cbn [fst snd]; auto.
  - intros H3. rewrite R1, nth_lincomb by exact Hi. fold kb. rewrite comb_cons, K4. rewrite (comb_poly N a x h i _ (toR [((- q_bhh1)%Q, 0%Q); ((- q_bhh2)%Q, q_c9); ((- q_bhh3)%Q, 1%Q)])).
    + pose proof (poly_dev N a x h (toR werr) (fun _ => 0) (fun m Hm => werr_mom m ltac:(lia))) as D. rewrite (csum_zero N (fun k => a k * RtoC (target _ _ _ _ _))%C) in D by (intros k _; rewrite target_zero; ring).
      unfold Cminus in D. rewrite Copp_0, Cplus_0_r in D. match goal with |- Cmod ?z <= _ => replace z with (csum N (fun k => a k * RtoC (wsum (toR werr) x h k 0))%C); [exact D|] end.
      rewrite Cmult_1_l, <- csum_plus. apply csum_ext. intros k _. unfold wsum, toR, werr. rewrite !map_app, lrsum_app, RtoC_plus. ring.
    + unfold toR. cbn [map fst snd]. rewrite !Q2R_opp. repeat constructor; cbn [fst snd]; auto.
Qed.

(*! C46 (nodes): every node of the tableau, including the three of the dense output, is the sum of its row up to 1e-27. *)
Lemma C46_nodes_are_row_sums_l : forall c row, In (c, row)
  [(c2, [a21]); (c3, [a31; a32]); (c4, [a41; a43]); (c5, [a51; a53; a54]); (c6, [a61; a64; a65]); (c7, [a71; a74; a75; a76]); (c8, [a81; a84; a85; a86; a87]);
   (c9, [a91; a94; a95; a96; a97; a98]); (c10, [a101; a104; a105; a106; a107; a108; a109]); (c11, [a111; a114; a115; a116; a117; a118; a119; a1110]);
   (1, [a121; a124; a125; a126; a127; a128; a129; a1210; a1211]);
   (c14, [a141; a147; a148; a149; a1410; a1411; a1412; a1413]); (c15, [a151; a156; a157; a158; a1511; a1512; a1513; a1514]); (c16, [a161; a166; a167; a168; a169; a1613; a1614; a1615])] ->
  Rabs (lrsum row - c) <= / 10 ^ 27.
Proof.
  pose (rows := [(q_c2, [q_a21]); (q_c3, [q_a31; q_a32]); (q_c4, [q_a41; q_a43]); (q_c5, [q_a51; q_a53; q_a54]); (q_c6, [q_a61; q_a64; q_a65]); (q_c7, [q_a71; q_a74; q_a75; q_a76]); (q_c8, [q_a81; q_a84; q_a85; q_a86; q_a87]);
   (q_c9, [q_a91; q_a94; q_a95; q_a96; q_a97; q_a98]); (q_c10, [q_a101; q_a104; q_a105; q_a106; q_a107; q_a108; q_a109]); (q_c11, [q_a111; q_a114; q_a115; q_a116; q_a117; q_a118; q_a119; q_a1110]);
   (1%Q, [q_a121; q_a124; q_a125; q_a126; q_a127; q_a128; q_a129; q_a1210; q_a1211]);
   (q_c14, [q_a141; q_a147; q_a148; q_a149; q_a1410; q_a1411; q_a1412; q_a1413]); (q_c15, [q_a151; q_a156; q_a157; q_a158; q_a1511; q_a1512; q_a1513; q_a1514]); (q_c16, [q_a161; q_a166; q_a167; q_a168; q_a169; q_a1613; q_a1614; q_a1615])]).
  assert (H : forall q l, In (q, l) rows -> Rabs (lrsum (map Q2R l) - Q2R q) <= tiny).
  { intros q l Hin. rewrite <- Q2R_qsum, <- tiny_Q. apply qclose_R. assert (F : forallb (fun p => qclose (1 # 10 ^ 27) (qsum (snd p)) (fst p)) rows = true) by (vm_compute; reflexivity).
    rewrite forallb_forall in F. exact (F (q, l) Hin). }
  intros c row Hin. fold tiny. rewrite <- RMicromega.Q2R_1 in Hin. change (In (c, row) (map (fun p => (Q2R (fst p), map Q2R (snd p))) rows)) in Hin.
  apply in_map_iff in Hin. destruct Hin as ([q l] & E & Hin). cbn [fst snd] in E. apply (f_equal fst) in E as E1; apply (f_equal snd) in E as E2; cbn [fst snd] in E1, E2. rewrite <- E1, <- E2. now apply H.
Qed.

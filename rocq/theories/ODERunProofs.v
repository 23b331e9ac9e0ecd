(** Vanishing error estimates, dense output grids and interference between solvers (C43, C44, C47). *)
From Coq Require Import Reals List ZArith Bool Arith Lia Lra.
From Coquelicot Require Import Complex.
From Verif Require Import Base CNum NumPy ModelDopr ModelODE ODEOutputProofs ODEStepProofs ODETableauProofs ODEIntProofs.
Import ListNotations.
Local Open Scope R_scope.
Local Open Scope py_scope.
Local Notation z0 := (RtoC 0).

Lemma MAXSTP_S : exists m, MAXSTP = S m.
Proof. destruct MAXSTP eqn:E; [unfold MAXSTP in E; lia|eauto]. Qed.

(** ** C43: y' = 0 *)
Lemma comb_zero l i : Forall (fun p : R * list C => nth i (snd p) z0 = z0) l -> comb l i = z0.
Proof.
  induction l as [|[a v] l IH]; intros H; [reflexivity|]. rewrite comb_cons. inversion H as [|? ? H1 H2]; subst. cbn [snd] in H1. rewrite H1, IH by exact H2. ring.
Qed.
Lemma error_nan s h : (forall i, (i < length (p_y s))%nat -> nth i (p_yerr s) z0 = z0 /\ nth i (p_yerr2 s) z0 = z0) -> error s h = NaN.
Proof.
  intros H. unfold error. cbv zeta. destruct (existsb _ _); [reflexivity|].
  assert (E1 : rsum (length (p_y s)) (fun i => (Cmod (nth i (p_yerr s) z0) / error_scale s i) ^ 2) = 0).
  { apply rsum_zero. intros i Hi. destruct (H i Hi) as [-> _]. rewrite Cmod_0. unfold Rdiv. rewrite Rmult_0_l. ring. }
  assert (E2 : rsum (length (p_y s)) (fun i => (Cmod (nth i (p_yerr2 s) z0) / error_scale s i) ^ 2) = 0).
  { apply rsum_zero. intros i Hi. destruct (H i Hi) as [_ ->]. rewrite Cmod_0. unfold Rdiv. rewrite Rmult_0_l. ring. }
  rewrite E1, E2. destruct (Rlt_dec (0 + 0.01 * 0) 0) as [Q|Q]; [lra|]. unfold isz. replace ((0 + 0.01 * 0) * INR (length (p_y s))) with 0 by ring. destruct (Req_EM_T 0 0); [reflexivity|lra].
Qed.
Lemma nth_repeat0 n i : nth i (repeat z0 n) z0 = z0.
Proof. revert i. induction n as [|n IH]; intros [|i]; cbn [repeat nth]; auto. Qed.
Lemma dy_zero {W} (f : R -> list C -> M W (list C)) m h g : quad f (fun _ => repeat z0 m) -> (forall i, nth i (p_dydx (g_s g)) z0 = z0) ->
  exists g', dy f h g = (Ok tt, g') /\ p_yout (g_s g') = p_y (g_s g) /\ p_yerr (g_s g') = repeat z0 (length (p_y (g_s g))) /\ p_yerr2 (g_s g') = repeat z0 (length (p_y (g_s g))).
Proof.
  intros H Hd. destruct (dy_quad f _ h g H) as (g' & E & Y & R1 & R2). exists g'. split; [exact E|]. cbv zeta in Y, R1, R2. set (n := length (p_y (g_s g))) in *.
  assert (Fi : forall i, nth i (fill n (repeat z0 m)) z0 = z0). { intros i. unfold fill. destruct (Nat.lt_ge_cases i n) as [L|L]; [rewrite mk_nth by exact L; apply nth_repeat0|apply nth_overflow; now rewrite mk_length]. }
  set (k4 := lincomb n [(b1, _); _; _; _; _; _; _; _]) in Y, R1. assert (K4 : forall i, nth i k4 z0 = z0).
  { intros i. destruct (Nat.lt_ge_cases i n) as [L|L]; [|apply nth_overflow; unfold k4, lincomb; now rewrite mk_length]. unfold k4. rewrite nth_lincomb by exact L. apply comb_zero. repeat constructor; cbn [snd]; auto. }
  clearbody k4. split; [|split].
  - rewrite Y. unfold ytemp. fold n. apply (nth_ext _ _ z0 z0); [now rewrite mk_length|]. rewrite mk_length. intros i Hi. rewrite mk_nth by exact Hi. rewrite comb_zero by (repeat constructor; cbn [snd]; auto). ring.
  - rewrite R1. apply (nth_ext _ _ z0 z0); [unfold lincomb; now rewrite mk_length, repeat_length|]. unfold lincomb at 1. rewrite mk_length. intros i Hi. rewrite nth_lincomb by exact Hi. rewrite nth_repeat0. apply comb_zero. repeat constructor; cbn [snd]; auto.
  - rewrite R2. apply (nth_ext _ _ z0 z0); [unfold lincomb; now rewrite mk_length, repeat_length|]. unfold lincomb at 1. rewrite mk_length. intros i Hi. rewrite nth_lincomb by exact Hi. rewrite nth_repeat0. apply comb_zero. repeat constructor; cbn [snd]; auto.
Qed.
Transparent step attempts success.
Lemma attempts_zero {W} (f : R -> list C -> M W (list C)) m h fuel g : quad f (fun _ => repeat z0 m) -> (forall i, nth i (p_dydx (g_s g)) z0 = z0) -> (2 <= fuel)%nat ->
  exists g', attempts f fuel (Some h) g = (Raise AssertionError, g') /\ c_reject (g_con g') = true /\ g_ode g' = g_ode g.
Proof.
  intros H Hd Hf. destruct fuel as [|[|fuel]]; [lia|lia|]. cbn [attempts]. destruct (dy_zero f m h g H Hd) as (g1 & E & Y & R1 & R2). unfold bind at 1. pose proof (keeps_dy f h g) as K. rewrite E in *. cbn [snd] in K. destruct K as (_ & _ & K3 & _ & _ & K6 & _).
  unfold bind at 1, gets at 1. unfold bind at 1, oncon at 1. rewrite error_nan.
  2: { intros i Hi. rewrite R1, R2, !nth_repeat0. auto. }
  unfold success at 1, bind at 1, modify, ret at 1. unfold bind at 1, ret at 1. unfold bind at 1, gets at 1. unfold bind at 1, oncon, success, raise. eexists. split; [reflexivity|]. cbn [g_con c_reject g_ode]. auto.
Qed.
Lemma step_zero {W} (f : R -> list C -> M W (list C)) m h fuel g : quad f (fun _ => repeat z0 m) -> (forall i, nth i (p_dydx (g_s g)) z0 = z0) -> (2 <= fuel)%nat ->
  exists g', step f fuel h g = (Raise AssertionError, g') /\ c_reject (g_con g') = true /\ g_ode g' = g_ode g.
Proof. intros H Hd Hf. destruct (attempts_zero f m h fuel g H Hd Hf) as (g' & E & Q). exists g'. split; [|exact Q]. unfold step. unfold bind at 1. now rewrite E. Qed.
(** the first call of record *)
Lemma record_first {W} fuel x y h (g : G W) n dt : stored n dt [] (g_out g) -> p_dtype (g_s g) = dt -> length y = n -> length (p_y (g_s g)) = n -> (1 <= fuel)%nat ->
  (e_dense (g_ode g) = true -> o_dense (g_out g) = true /\ o_xout (g_out g) = x) ->
  exists o', record fuel (-1) x y h g = (Ok tt, mkG (g_w g) (g_con g) (g_s g) o' (g_ode g)) /\ (e_dense (g_ode g) = true -> o' = g_out g).
Proof.
  intros S Hd Ly Lp Hf Hx. unfold record. unfold bind at 1, get. destruct (e_dense (g_ode g)) eqn:De.
  - destruct (Hx eq_refl) as [Od Ox]. exists (g_out g). split; [|reflexivity]. unfold onout, out_out. unfold bind at 1, get. rewrite Od. cbn [negb Z.eqb]. destruct fuel as [|fuel]; [lia|]. cbn [out_while]. unfold bind at 1, get. rewrite Ox.
    destruct (Rlt_dec 0 ((x - x) * _)) as [Q|Q]; [rewrite Rminus_eq_0, Rmult_0_l in Q; lra|reflexivity].
  - unfold onout. rewrite Hd. destruct (save_good n dt [] (g_out g) x y S Ly) as (o' & E & _). rewrite E. exists o'. split; [reflexivity|discriminate].
Qed.
(** integrate up to the start of its loop, for a right-hand side that does not raise at the start *)
Lemma integrate_start {W} (f : R -> list C -> M W (list C)) fuel w con ys x1 x2 atol rtol h1 hmin k dense dt d w' : (1 <= fuel)%nat -> (dense = true -> (0 < k)%nat) -> f x1 ys w = (Ok d, w') ->
  exists o', integrate f fuel (new_ode w con ys x1 x2 atol rtol h1 hmin (new_output (Some k)) dense dt) =
    iloop f fuel MAXSTP 0 (mkG w' con (let s := new_stepper ys x1 atol rtol dense dt in mkStp (p_x s) (p_xold s) (p_y s) (mk (length ys) (fun i => nth i d z0)) (p_atol s) (p_rtol s) (p_dense s) (p_hdid s) (p_hnext s) (p_dtype s) (p_yout s) (p_yerr s) (p_yerr2 s) (p_k s) (p_rc s)) o'
      (mkOde x1 x2 hmin dense (Rabs h1 * sgn (x2 - x1)) 0 0 0 ys)) /\
    (if dense then o' = out_init (length ys) x1 x2 dt (new_output (Some k)) else stored (length ys) dt [(x1, ys)] o').
Proof.
  intros Hf Hk Ef. rewrite integrate_unfold. unfold new_ode. cbn [g_s g_ode p_y e_x1 e_h new_stepper]. set (g := mkG w _ _ _ _).
  unfold bind at 1, deriv, bind at 1, onw. cbn [g g_w]. rewrite Ef. unfold ret at 1. unfold bind at 1, set_s, modify. cbn [g_w g_con g_s g_out g_ode]. set (g2 := mkG w' _ _ _ _).
  destruct (record_first fuel x1 ys (Rabs h1 * sgn (x2 - x1)) g2 (length ys) dt) as (o' & E & Eo).
  - apply stored_init.
  - reflexivity.
  - reflexivity.
  - reflexivity.
  - exact Hf.
  - cbn [g2 g g_ode e_dense g_out]. intros Ed. unfold out_init, new_output. cbn [o_kmax o_dense]. destruct (Nat.ltb_spec 0 k) as [L|L]; [split; reflexivity|specialize (Hk Ed); lia].
  - pose proof (record_spec fuel (-1) x1 ys (Rabs h1 * sgn (x2 - x1)) g2 (length ys) dt [] (stored_init _ _ k x1 x2) eq_refl eq_refl eq_refl) as R.
    unfold bind at 1. rewrite E in *. exists o'. split; [reflexivity|]. destruct dense; [now apply Eo|]. destruct R as (_ & _ & _ & _ & _ & l' & S & L & _). destruct (L eq_refl) as [_ ->]. exact S.
Qed.

(*! C43: refuted, for every start: with y' = 0 the error estimate is exactly zero, Dopr853's error() computes 0 * sqrt(1/0) = NaN and integrate raises AssertionError; for every initial state (any length), interval, tolerances, first step, dense output on or off. The solution is not returned (ystart and x are as before), and the controller shared by all solvers is left with its rejected flag set. *)
Lemma C43_zero_estimate_refuted_l : forall (W : Type) (f : R -> list C -> M W (list C)) (fuel : nat) (w : W) (con : ctrl) (ystart : list C) (x1 x2 atol rtol h1 hmin : R) (nsaves : nat) (dense : bool) (dt : dtype),
  (forall x y w, exists w', f x y w = (Ok (repeat z0 (length ystart)), w')) -> (2 <= fuel)%nat -> (dense = true -> (0 < nsaves)%nat) ->
  exists g, integrate f fuel (new_ode w con ystart x1 x2 atol rtol h1 hmin (new_output (Some nsaves)) dense dt) = (Raise AssertionError, g) /\
    c_reject (g_con g) = true /\ e_nok (g_ode g) = 0%nat /\ e_nbad (g_ode g) = 0%nat /\ e_ystart (g_ode g) = ystart.
Proof.
  intros W f fuel w con ys x1 x2 atol rtol h1 hmin k dense dt H Hf Hk. destruct (H x1 ys w) as (w' & Ew). destruct (integrate_start f fuel w con ys x1 x2 atol rtol h1 hmin k dense dt _ w' ltac:(lia) Hk Ew) as (o' & E & _).
  rewrite E. destruct MAXSTP_S as (m & ->). cbn [iloop]. unfold bind at 1, get. unfold bind at 1, set_e, modify. unfold bind at 1.
  match goal with |- context [step f fuel ?h ?g] => destruct (step_zero f (length ys) h fuel g H) as (g2 & E2 & Rj & Eo) end.
  - intros i. cbn [g_s p_dydx]. destruct (Nat.lt_ge_cases i (length ys)) as [L|L]; [rewrite mk_nth by exact L; apply nth_repeat0|apply nth_overflow; now rewrite mk_length].
  - exact Hf.
  - rewrite E2. exists g2. split; [reflexivity|]. rewrite Eo. cbn [g_ode e_nok e_nbad e_ystart]. auto.
Qed.
(*! C43: what does hold: one evaluation of the stages for y' = 0 returns exactly the unchanged state with both error estimates exactly zero. *)
Lemma C43_zero_stage_partial_l : forall (W : Type) (f : R -> list C -> M W (list C)) (h : R) (g : G W),
  (forall x y w, exists w', f x y w = (Ok (repeat z0 (length (p_y (g_s g)))), w')) -> (forall i, nth i (p_dydx (g_s g)) z0 = z0) ->
  exists g', dy f h g = (Ok tt, g') /\ p_yout (g_s g') = p_y (g_s g) /\ p_yerr (g_s g') = repeat z0 (length (p_y (g_s g))) /\ p_yerr2 (g_s g') = repeat z0 (length (p_y (g_s g))).
Proof. intros W f h g H Hd. exact (dy_zero f _ h g H Hd). Qed.

(** ** C44: the abscissae dense output stores *)
Definition gpt (x1 x2 : R) (N : nat) (j : nat) : R := x1 + INR j * ((x2 - x1) / INR N).
(** grid points a, a+1, ..., a+m-1 *)
Definition gpts (x1 x2 : R) (N a m : nat) : list R := mk m (fun j => gpt x1 x2 N (a + j)).
Lemma gpts_app x1 x2 N a m m' : gpts x1 x2 N a m ++ gpts x1 x2 N (a + m) m' = gpts x1 x2 N a (m + m').
Proof.
  apply (nth_ext _ _ 0 0); unfold gpts; [now rewrite app_length, !mk_length|]. rewrite app_length, !mk_length. intros i Hi. rewrite (mk_nth (m + m')) by exact Hi. destruct (Nat.lt_ge_cases i m) as [L|L].
  - rewrite app_nth1 by (now rewrite mk_length). now rewrite mk_nth.
  - rewrite app_nth2 by (now rewrite mk_length). rewrite mk_length, mk_nth by lia. f_equal. lia.
Qed.
Lemma gpt_before x1 x2 N j : (0 < N)%nat -> x1 <> x2 -> (0 < (x2 - gpt x1 x2 N j) * (x2 - x1) <-> (j < N)%nat).
Proof.
  intros HN Hx. unfold gpt. assert (HNr : 0 < INR N) by (apply lt_0_INR; lia). assert (D2 : 0 < (x2 - x1) * (x2 - x1)) by nra.
  replace ((x2 - (x1 + INR j * ((x2 - x1) / INR N))) * (x2 - x1)) with ((INR N - INR j) * ((x2 - x1) * (x2 - x1) / INR N)) by (field; lra).
  assert (P : 0 < (x2 - x1) * (x2 - x1) / INR N) by (now apply Rdiv_lt_0_compat). split.
  - intros H. apply INR_lt. destruct (Rlt_dec (INR j) (INR N)) as [L|L]; [exact L|]. exfalso. assert (INR N - INR j <= 0) by lra. nra.
  - intros H. apply lt_INR in H. apply Rmult_lt_0_compat; lra.
Qed.
Lemma map_fst_grid m x1 x2 N a D : map fst (grid m (gpt x1 x2 N a) ((x2 - x1) / INR N) D) = gpts x1 x2 N a m.
Proof. unfold grid, gpts. rewrite map_mk. unfold mk. apply map_ext. intros j. cbn [fst]. unfold gpt. rewrite plus_INR. ring. Qed.
(** steppers.py:233-236: the final sample is added unless the last one already lies at x2 *)
Definition ends (x2 : R) (l : list R) : list R := if Rlt_dec (100 * Rabs x2 * EPS) (Rabs (last l 0 - x2)) then l ++ [x2] else l.
Lemma stored_xs n dt l o : stored n dt l o -> firstn (o_count o) (o_xsave o) = map fst l.
Proof. intros (km & _ & _ & _ & _ & -> & _ & _ & _ & F & _). exact F. Qed.
Lemma last_saved_last n dt l o : stored n dt l o -> l <> [] -> last_saved o = last (map fst l) 0.
Proof.
  intros H Hl. destruct (stored_nth _ _ _ _ H) as [Cn Nt]. unfold last_saved. rewrite (last_map' fst (0, []) 0 l Hl), last_nth' by exact Hl. rewrite Cn. destruct l as [|a l]; [contradiction|]. cbn [length].
  destruct (Nt (length l)) as [-> _]; [cbn; lia|]. f_equal. f_equal. lia.
Qed.

Section DenseRun.
  Context {W : Type}.
  Variable f : R -> list C -> M W (list C).
  Variables (x1 x2 hmin : R) (N n : nat) (dt : dtype).
  Hypothesis Hx : x1 <> x2.
  Hypothesis HN : (0 < N)%nat.
  Hypothesis Hm : 0 <= hmin.
  Let G := gpt x1 x2 N.
  Let D := x2 - x1.
  Definition shape (nstp : nat) (xs : list R) (x xout : R) : Prop :=
    match nstp with
    | O => xs = [] /\ x = x1 /\ xout = G 0
    | 1%nat => exists k0, (1 <= k0 <= N)%nat /\ xs = gpts x1 x2 N 0 k0 /\ xout = G k0
    | _ => exists k0 X m, (1 <= k0 <= N)%nat /\ xs = gpts x1 x2 N 0 k0 ++ X :: gpts x1 x2 N (k0 + 1) m /\ xout = G (k0 + 1 + m) /\ (m = 0 \/ k0 + 1 + m <= N)%nat /\ 0 < (X - x1) * D /\ 0 < (x2 - X) * D
    end.
  Definition final (steps : nat) (xs : list R) : Prop :=
    match steps with
    | O => False
    | 1%nat => xs = ends x2 (gpts x1 x2 N 0 N)
    | 2%nat => exists k0, (1 <= k0 <= N)%nat /\ xs = gpts x1 x2 N 0 k0 ++ [x2]
    | _ => exists k0 X, (1 <= k0 <= N)%nat /\ xs = ends x2 (gpts x1 x2 N 0 k0 ++ X :: gpts x1 x2 N (k0 + 1) (N - (k0 + 1))) /\ 0 < (X - x1) * D /\ 0 < (x2 - X) * D
    end.
  Definition dinv (nstp : nat) (l : list (R * list C)) (g : ModelODE.G W) : Prop :=
    stored n dt l (g_out g) /\ p_dtype (g_s g) = dt /\ length (p_y (g_s g)) = n /\ e_x1 (g_ode g) = x1 /\ e_x2 (g_ode g) = x2 /\ e_hmin (g_ode g) = hmin /\ e_dense (g_ode g) = true /\ (e_nok (g_ode g) + e_nbad (g_ode g) = nstp)%nat /\
    0 <= (p_x (g_s g) - x1) * D /\ 0 < (x2 - p_x (g_s g)) * D /\ (exists c, 0 <= c /\ e_h (g_ode g) = c * D) /\
    o_dense (g_out g) = true /\ o_x1 (g_out g) = x1 /\ o_x2 (g_out g) = x2 /\ o_dxout (g_out g) = D / INR N /\
    shape nstp (map fst l) (p_x (g_s g)) (o_xout (g_out g)).

  (** one call of out after an accepted step *)
  Lemma out_step fuel nstp x x' y Df l o o' : stored n dt l o -> length y = n -> (forall u, length (Df u) = n) -> o_dense o = true -> o_x1 o = x1 -> o_x2 o = x2 -> o_dxout o = D / INR N ->
    0 <= (x' - x) * D -> 0 <= (x2 - x') * D -> 0 <= (x - x1) * D -> 0 < (x2 - x) * D -> shape nstp (map fst l) x (o_xout o) -> out_out fuel (Z.of_nat nstp) x' dt y Df o = (Ok tt, o') ->
    exists l', stored n dt l' o' /\ o_dense o' = true /\ o_x1 o' = x1 /\ o_x2 o' = x2 /\ o_dxout o' = D / INR N /\ (x' = x2 -> l' <> []) /\
      (x' = x2 -> match nstp with
         | O => map fst l' = gpts x1 x2 N 0 N /\ l' = grid N x1 (D / INR N) Df
         | 1%nat => exists k0, (1 <= k0 <= N)%nat /\ map fst l' = gpts x1 x2 N 0 k0 ++ [x2]
         | _ => exists k0 X, (1 <= k0 <= N)%nat /\ map fst l' = gpts x1 x2 N 0 k0 ++ X :: gpts x1 x2 N (k0 + 1) (N - (k0 + 1)) /\ 0 < (X - x1) * D /\ 0 < (x2 - X) * D
         end) /\
      (x' <> x2 -> x' <> x -> shape (S nstp) (map fst l') x' (o_xout o')).
  Proof.
    intros S Ly LD Od Ox1 Ox2 Odx Hxx Hx2 Hx1 Hb Sh. unfold out_out. unfold bind at 1, get. rewrite Od. cbn [negb]. assert (HD : D <> 0) by (unfold D; lra).
    assert (St : x' <> x2 -> 0 < (x2 - x') * D) by (intros; assert (x2 - x' <> 0) by lra; assert ((x2 - x') * D <> 0) by (apply Rmult_integral_contrapositive_currified; assumption); lra).
    assert (Bef : forall j u, 0 <= (x2 - u) * D -> 0 < (u - G j) * D -> (j < N)%nat) by (intros j u A B; apply (gpt_before x1 x2 N j HN Hx); fold G; unfold D in *; lra).
    assert (Aft : forall j, (x2 - G j) * D <= 0 -> (N <= j)%nat) by (intros j A; destruct (Nat.lt_ge_cases j N) as [L|L]; [apply (gpt_before x1 x2 N j HN Hx) in L; fold G in L; unfold D in *; lra|exact L]).
    assert (G0 : G 0 = x1) by (unfold G, gpt; cbn [INR]; ring).
    assert (Wh : forall a, o_xout o = G a -> out_while fuel x' dt Df o = (Ok tt, o') -> exists m, stored n dt (l ++ grid m (G a) (D / INR N) Df) o' /\ frame' o o' /\ o_xout o' = G (a + m) /\
       (m = 0 \/ (a + m <= N))%nat /\ (x' = x2 -> (N <= a + m)%nat) /\ (m = 0%nat -> (x' - G a) * D <= 0)).
    { intros a Ea E. pose proof (out_while_spec n dt x' Df LD fuel l o S) as Q. rewrite E, Ea, Odx, Ox1, Ox2 in Q. fold D in Q. destruct Q as (m & Q1 & Q2 & Q3 & Q4 & Q5). exists m.
      assert (GG : forall j, G a + INR j * (D / INR N) = G (a + j)) by (intros j; unfold G, gpt; fold D; rewrite plus_INR; ring). rewrite GG in Q3, Q5. split; [exact Q1|]. split; [exact Q2|]. split; [exact Q3|]. split; [|split].
      - destruct m as [|m]; [now left|right]. specialize (Q4 m ltac:(lia)). rewrite GG in Q4. apply Bef in Q4; [lia|exact Hx2].
      - intros ->. now apply Aft.
      - intros ->. rewrite Nat.add_0_r in Q5. exact Q5. }
    destruct nstp as [|[|nstp]]; cbn [shape] in Sh.
    - destruct Sh as (El & Ex & Exo). change (Z.of_nat 0 =? 1)%Z with false. cbv iota. intros E. destruct (Wh 0%nat Exo E) as (m & Q1 & (Q2a & Q2b & Q2c & Q2d & Q2e) & Q3 & Q4 & Q5 & Q6). apply map_eq_nil in El. subst l. cbn [app Nat.add] in *.
      exists (grid m (G 0) (D / INR N) Df). split; [exact Q1|]. do 4 (split; [congruence|]). assert (Mg : map fst (grid m (G 0) (D / INR N) Df) = gpts x1 x2 N 0 m) by apply map_fst_grid.
      assert (Hm1 : x' <> x -> (1 <= m)%nat). { intros Hne. destruct m as [|m]; [|lia]. specialize (Q6 eq_refl). rewrite G0 in Q6. subst x. assert (x' - x1 <> 0) by lra. assert ((x' - x1) * D <> 0) by (apply Rmult_integral_contrapositive_currified; assumption). lra. }
      split; [|split].
      + intros Z Em. specialize (Q5 Z). apply (f_equal (@length _)) in Em. unfold grid in Em. rewrite mk_length in Em. cbn in Em. lia.
      + intros Z. specialize (Q5 Z). assert (m = N) by lia. subst m. split; [exact Mg|]. now rewrite G0.
      + intros Z Hne. cbn [shape]. exists m. specialize (Hm1 Hne). split; [lia|]. split; [exact Mg|exact Q3].
    - destruct Sh as (k0 & Hk & El & Exo). change (Z.of_nat 1 =? 1)%Z with true. cbv iota. destruct (save_good n dt l o x' y S Ly) as (o1 & E1 & S1 & F1). unfold bind. rewrite E1. unfold modify. intros E. apply (f_equal snd) in E. cbn [snd] in E. subst o'.
      destruct F1 as (F1a & F1b & F1c & F1d & F1e & F1f). exists (l ++ [(x', y)]). split; [now apply stored_xout|]. cbn [o_dense o_x1 o_x2 o_dxout o_xout with_xout]. do 4 (split; [congruence|]). split; [intros _; destruct l; discriminate|].
      rewrite map_app, El. cbn [map fst]. split.
      + intros ->. exists k0. auto.
      + intros Z Hne. cbn [shape]. exists k0, x', 0%nat. split; [exact Hk|]. split; [reflexivity|]. split; [rewrite F1e, F1f, Exo, Odx; unfold G, gpt; fold D; rewrite !plus_INR; cbn [INR]; ring|]. split; [now left|]. split; [|now apply St].
        assert (x' - x <> 0) by lra. assert ((x' - x) * D <> 0) by (apply Rmult_integral_contrapositive_currified; assumption). lra.
    - destruct Sh as (k0 & X & m & Hk & El & Exo & Hmn & HX1 & HX2). replace (Z.of_nat (Datatypes.S (Datatypes.S nstp)) =? 1)%Z with false by (symmetry; apply Z.eqb_neq; lia). cbv iota. intros E.
      destruct (Wh _ Exo E) as (m' & Q1 & (Q2a & Q2b & Q2c & Q2d & Q2e) & Q3 & Q4 & Q5 & Q6). eexists. split; [exact Q1|]. do 4 (split; [congruence|]). assert (Mg : map fst (grid m' (G (k0 + 1 + m)) (D / INR N) Df) = gpts x1 x2 N (k0 + 1 + m) m') by apply map_fst_grid. rewrite map_app, El, Mg.
      assert (Em : (gpts x1 x2 N 0 k0 ++ X :: gpts x1 x2 N (k0 + 1) m) ++ gpts x1 x2 N (k0 + 1 + m) m' = gpts x1 x2 N 0 k0 ++ X :: gpts x1 x2 N (k0 + 1) (m + m')).
      { rewrite <- app_assoc. cbn [app]. now rewrite gpts_app. }
      rewrite Em. split; [intros _ Z; apply (f_equal (@length _)) in El; rewrite map_length, app_length in El; cbn [length] in El; destruct l; [cbn in El; lia|discriminate]|]. split.
      + intros Z. specialize (Q5 Z). exists k0, X. split; [exact Hk|]. split; [|auto]. replace (N - (k0 + 1))%nat with (m + m')%nat by lia. reflexivity.
      + intros Z Hne. cbn [shape]. exists k0, X, (m + m')%nat. split; [exact Hk|]. split; [reflexivity|]. split; [rewrite Q3; f_equal; lia|]. split; [lia|auto].
  Qed.

  Lemma dense_loop fuel : forall left nstp l g g', dinv nstp l g -> iloop f fuel left nstp g = (Ok tt, g') ->
    final (e_nok (g_ode g') + e_nbad (g_ode g')) (firstn (o_count (g_out g')) (o_xsave (g_out g'))) /\
    (nstp = 0%nat -> (e_nok (g_ode g') + e_nbad (g_ode g') = 1)%nat -> forall j, (j < N)%nat -> nth j (o_ysave (g_out g')) [] = dense_out (g_s g') (G j) (p_hdid (g_s g'))) /\ e_ystart (g_ode g') = p_y (g_s g') /\ (nstp < e_nok (g_ode g') + e_nbad (g_ode g'))%nat.
  Proof.
    induction left as [|left IH]; intros nstp l g g' Hi; [discriminate|].
    destruct Hi as (Hs & Hdt & Hn & Hx1 & Hx2 & Hhm & Hde & Hc & A & B & (c & Hc0 & Hh) & Od & Ox1 & Ox2 & Odx & Sh). assert (HD : D <> 0) by (unfold D; lra).
    cbn [iloop]. unfold bind at 1, get. rewrite Hx1, Hx2. set (h := clip (p_x (g_s g)) x1 x2 (e_h (g_ode g))). unfold bind at 1, set_e, modify. unfold bind at 1. set (g1 := mkG _ _ _ _ _).
    pose proof (step_spec f fuel h g1) as S. destruct (step f fuel h g1) as [[u|e] g2]; [|discriminate].
    destruct S as (So & Se & (t & Ht & Hdid) & Sx & Sxo & (k & Hk & Hhn) & Srej & Sn & Sdt & Sde & _). unfold g1 in So, Se, Sx, Sxo, Sn, Sdt, Sde. cbn [g_out g_ode g_s] in So, Se, Sx, Sxo, Sn, Sdt, Sde.
    destruct (clip_cases (p_x (g_s g)) x1 x2 (e_h (g_ode g)) c B Hh Hc0 t Ht) as (C1 & C2 & C3 & c' & Hc' & Ecl). fold h D in C1, C2, C3, Ecl. rewrite <- Hdid, <- Sx in C1, C2, C3.
    unfold bind at 1, gets. unfold bind at 1. unfold bind at 1. set (g3 := mkG _ _ _ _ _).
    assert (G3 : g_out g3 = g_out g /\ g_s g3 = g_s g2 /\ e_x1 (g_ode g3) = x1 /\ e_x2 (g_ode g3) = x2 /\ e_hmin (g_ode g3) = hmin /\ e_dense (g_ode g3) = true /\ (e_nok (g_ode g3) + e_nbad (g_ode g3) = Datatypes.S nstp)%nat).
    { unfold g3. cbn [g_out g_s g_ode]. rewrite So, Se. destruct (Req_EM_T _ _); cbn [e_x1 e_x2 e_hmin e_dense e_nok e_nbad]; repeat split; auto; lia. }
    clearbody g3. destruct G3 as (G3o & G3s & G3x1 & G3x2 & G3hm & G3de & G3n).
    assert (A' : 0 <= (p_x (g_s g2) - x1) * D) by lra.
    unfold record. unfold bind at 1, get. rewrite G3de. unfold onout at 1. rewrite G3s, G3o, Sdt, Hdt.
    destruct (out_out fuel (Z.of_nat nstp) (p_x (g_s g2)) dt (p_y (g_s g2)) _ (g_out g)) as [[[]|e] o4] eqn:E4; [|discriminate].
    destruct (out_step fuel nstp (p_x (g_s g)) (p_x (g_s g2)) (p_y (g_s g2)) (fun xo => dense_out (g_s g2) xo (p_hdid (g_s g2))) l (g_out g) o4 Hs (eq_trans Sn Hn) (fun u => eq_trans (mk_length _ _) (eq_trans Sn Hn)) Od Ox1 Ox2 Odx C1 C2 A B Sh E4)
      as (l' & S4 & Od4 & Ox14 & Ox24 & Odx4 & Ne4 & Fin4 & Sh4).
    unfold bind at 1. cbn [g_w g_con g_s g_out g_ode]. rewrite G3x1, G3x2, G3hm. fold D. destruct (Rle_dec 0 ((p_x (g_s g2) - x2) * D)) as [Q|Q].
    - assert (X2 : p_x (g_s g2) = x2). { destruct (Req_EM_T x2 (p_x (g_s g2))) as [E|E]; [now symmetry|]. specialize (C3 E). lra. }
      specialize (Fin4 X2). specialize (Ne4 X2). unfold bind at 1. cbn [g_w g_con g_s g_out g_ode].
      assert (Km : exists km, o_kmax o4 = Some km /\ (0 < km)%nat) by (destruct S4 as (km & K1 & K2 & _); eauto). destruct Km as (km & -> & Hkm). apply Nat.ltb_lt in Hkm. rewrite Hkm.
      rewrite (last_saved_last _ _ _ _ S4 Ne4). intros E.
      assert (R : exists l6, stored n dt l6 (g_out g') /\ map fst l6 = ends x2 (map fst l') /\ (forall j, (j < length l')%nat -> nth j l6 (0, []) = nth j l' (0, [])) /\ g_s g' = g_s g2 /\ (e_nok (g_ode g') + e_nbad (g_ode g') = Datatypes.S nstp)%nat /\ e_ystart (g_ode g') = p_y (g_s g2)).
      { unfold ends. destruct (Rlt_dec _ _) as [Z|Z].
        - unfold onout in E. cbn [g_w g_con g_s g_out g_ode] in E. destruct (save_good n dt l' o4 (p_x (g_s g2)) (p_y (g_s g2)) S4 ltac:(congruence)) as (o7 & E7 & S7 & F7). rewrite E7 in E. apply (f_equal snd) in E. cbn [snd] in E. subst g'.
          exists (l' ++ [(p_x (g_s g2), p_y (g_s g2))]). cbn [g_out g_s g_ode e_nok e_nbad e_ystart]. split; [exact S7|]. rewrite map_app. cbn [map fst]. rewrite X2. split; [reflexivity|]. split; [intros j Hj; now rewrite app_nth1|]. split; [congruence|]. split; [exact G3n|reflexivity].
        - unfold ret in E. apply (f_equal snd) in E. cbn [snd] in E. subst g'. exists l'. cbn [g_out g_s g_ode e_nok e_nbad e_ystart]. split; [exact S4|]. split; [reflexivity|]. split; [reflexivity|]. split; [congruence|]. split; [exact G3n|reflexivity]. }
      destruct R as (l6 & S6 & M6 & N6 & Gs6 & C6 & Y6). rewrite (stored_xs _ _ _ _ S6), M6, C6. split; [|split].
      + destruct nstp as [|[|nstp]]; cbn [final].
        * destruct Fin4 as [F _]. now rewrite F.
        * destruct Fin4 as (k0 & Hk0 & F). exists k0. split; [exact Hk0|]. rewrite F. unfold ends. rewrite last_last, Rminus_eq_0, Rabs_R0. destruct (Rlt_dec _ 0) as [Z|Z]; [|reflexivity]. exfalso. pose proof (Rabs_pos x2). pose proof EPS_pos. nra.
        * destruct Fin4 as (k0 & X & Hk0 & F & HX). exists k0, X. split; [exact Hk0|]. split; [now rewrite F|exact HX].
      + intros -> _ j Hj. destruct Fin4 as [_ F]. assert (Lg : length l' = N) by (rewrite F; apply mk_length). destruct (stored_nth _ _ _ _ S6) as [_ Nt]. destruct (Nt j) as [_ ->].
        { rewrite <- (map_length fst), M6. unfold ends. destruct (Rlt_dec _ _); rewrite ?app_length, map_length; lia. }
        rewrite N6 by lia. rewrite F. unfold grid. rewrite mk_nth by exact Hj. cbn [snd]. rewrite Gs6. f_equal.
      + split; [congruence|lia].
    - assert (B' : 0 < (x2 - p_x (g_s g2)) * D) by lra. destruct (Rle_dec (Rabs (p_hnext (g_s g2))) hmin) as [Z|Z]; [discriminate|].
      assert (Ne : p_x (g_s g2) <> p_x (g_s g)). { intros E0. apply Z. rewrite Hhn. replace (p_hdid (g_s g2)) with 0 by lra. rewrite Rmult_0_r, Rabs_R0. exact Hm. }
      assert (Ne2 : p_x (g_s g2) <> x2) by (intros E0; rewrite E0, Rminus_eq_0 in B'; lra).
      unfold bind at 1. cbn [g_w g_con g_s g_out g_ode]. intros E. match type of E with iloop _ _ _ _ ?g5 = _ => assert (Hd : dinv (Datatypes.S nstp) l' g5) end.
      { unfold dinv. cbn [g_out g_s g_ode e_x1 e_x2 e_hmin e_dense e_nok e_nbad e_h]. rewrite ?G3s. split; [exact S4|]. split; [congruence|]. split; [congruence|]. do 5 (split; [assumption|]). split; [exact A'|]. split; [exact B'|]. split.
        - exists (k * (t * c')). split; [apply Rmult_le_pos; nra|]. rewrite Hhn, Hdid, Ecl. ring.
        - do 4 (split; [assumption|]). now apply Sh4. }
      destruct (IH _ _ _ _ Hd E) as (H1 & H2 & H3 & H4). split; [exact H1|]. split; [intros -> C1'; lia|]. split; [exact H3|lia].
  Qed.
End DenseRun.
Lemma gpts_seq x1 x2 N a m : gpts x1 x2 N a m = map (fun j => x1 + INR j * ((x2 - x1) / INR N)) (seq a m).
Proof. unfold gpts, mk, gpt. rewrite <- (map_map (fun j => (a + j)%nat) (fun j => x1 + INR j * ((x2 - x1) / INR N))). f_equal. clear. revert a. induction m as [|m IH]; intros a; [reflexivity|]. cbn [seq map]. rewrite Nat.add_0_r. f_equal. rewrite <- (IH (S a)). rewrite <- seq_shift, map_map. apply map_ext. intros j. lia. Qed.
Lemma dense_run {W} (f : R -> list C -> M W (list C)) fuel w con ys x1 x2 atol rtol h1 hmin N dt g' : x1 <> x2 -> 0 <= hmin -> (0 < N)%nat ->
  integrate f fuel (new_ode w con ys x1 x2 atol rtol h1 hmin (new_output (Some N)) true dt) = (Ok tt, g') ->
  final x1 x2 N (e_nok (g_ode g') + e_nbad (g_ode g')) (firstn (o_count (g_out g')) (o_xsave (g_out g'))) /\
  ((e_nok (g_ode g') + e_nbad (g_ode g') = 1)%nat -> forall j, (j < N)%nat -> nth j (o_ysave (g_out g')) [] = dense_out (g_s g') (gpt x1 x2 N j) (p_hdid (g_s g'))).
Proof.
  intros Hx Hm HN E. destruct fuel as [|fuel].
  - exfalso. revert E. rewrite integrate_unfold. set (g0 := new_ode _ _ _ _ _ _ _ _ _ _ _ _). unfold bind at 1. pose proof (keeps_deriv f (length (p_y (g_s g0))) (e_x1 (g_ode g0)) (p_y (g_s g0)) g0) as K.
    destruct (deriv f _ _ _ g0) as [[d|e] g1]; [|discriminate]. cbn [snd] in K. destruct K as (_ & K2 & K3 & _).
    unfold bind at 1, set_s, modify. unfold bind at 1, record. unfold bind at 1, get. cbn [g_ode]. rewrite K3. cbn [g0 new_ode g_ode e_dense]. unfold onout, out_out. unfold bind at 1, get. cbn [g_out]. rewrite K2. cbn [g0 new_ode g_out]. unfold out_init, new_output. cbn [o_kmax o_dense]. destruct (Nat.ltb_spec 0 N); [|lia]. cbn. discriminate.
  - destruct (f x1 ys w) as [[d|e] w'] eqn:Ef.
    2: { exfalso. revert E. rewrite integrate_unfold. unfold bind at 1, deriv at 1, bind at 1, onw. cbn [new_ode g_s g_ode g_w p_y e_x1 new_stepper]. rewrite Ef. discriminate. }
    destruct (integrate_start f (S fuel) w con ys x1 x2 atol rtol h1 hmin N true dt d w' ltac:(lia) ltac:(auto) Ef) as (o' & E' & Eo). cbv iota in Eo. rewrite E' in E.
    assert (Oi : o_dense o' = true /\ o_x1 o' = x1 /\ o_x2 o' = x2 /\ o_xout o' = x1 /\ o_dxout o' = (x2 - x1) / INR N) by (subst o'; unfold out_init, new_output; cbn [o_kmax o_dense]; destruct (Nat.ltb_spec 0 N); [repeat split|lia]).
    destruct Oi as (O1 & O2 & O3 & O4 & O5).
    match type of E with iloop _ _ _ _ ?g5 = _ => assert (Hd : dinv x1 x2 hmin N (length ys) dt 0 [] g5) end.
    2: { destruct (dense_loop f x1 x2 hmin N (length ys) dt Hx HN Hm (S fuel) MAXSTP 0 [] _ g' Hd E) as (Q1 & Q2 & _). split; [exact Q1|now apply Q2]. }
    unfold dinv. cbn [g_out g_s g_ode new_stepper p_x p_y p_dtype e_x1 e_x2 e_hmin e_dense e_nok e_nbad e_h]. split; [subst o'; apply stored_init|]. do 7 (split; [reflexivity|]). split; [rewrite Rminus_eq_0; lra|]. split; [nra|]. split; [apply sgn_mul; lra|].
    do 4 (split; [assumption|]). cbn [shape map]. split; [reflexivity|]. split; [reflexivity|]. rewrite O4. unfold gpt. cbn [INR]. ring.
Qed.

(*! C44: what dense output with Output(N) stores, for every run that returns (grid point j = x1 + j (x2-x1)/N; the spacing is assumed to be above the 100 eps tolerance of the final test). A run of one step stores exactly x1, x1+dx, ..., x1+(N-1)dx, x2, and the first N samples are the interpolant of the step; a run of two steps stores the first k0 grid points and then x2; a longer run stores the first k0 grid points, then the end X of the second step, then the grid points from k0+1 on, and x2 last. So from two steps on grid point k0 is replaced by the end of the second step. *)
Lemma C44_stored_points_partial_l : forall (W : Type) (f : R -> list C -> M W (list C)) (fuel : nat) (w : W) (con : ctrl) (ystart : list C) (x1 x2 atol rtol h1 hmin : R) (N : nat) (dt : dtype) (g' : G W),
  x1 <> x2 -> 0 <= hmin -> (0 < N)%nat -> 100 * Rabs x2 * EPS < Rabs ((x2 - x1) / INR N) ->
  integrate f fuel (new_ode w con ystart x1 x2 atol rtol h1 hmin (new_output (Some N)) true dt) = (Ok tt, g') ->
  let m := (e_nok (g_ode g') + e_nbad (g_ode g'))%nat in let P j := x1 + INR j * ((x2 - x1) / INR N) in let xs := firstn (o_count (g_out g')) (o_xsave (g_out g')) in
  (m = 1%nat -> xs = map P (seq 0 N) ++ [x2] /\ forall j, (j < N)%nat -> nth j (o_ysave (g_out g')) [] = dense_out (g_s g') (P j) (p_hdid (g_s g'))) /\
  (m = 2%nat -> exists k0, (1 <= k0 <= N)%nat /\ xs = map P (seq 0 k0) ++ [x2]) /\
  ((3 <= m)%nat -> exists k0 X rest, (1 <= k0 <= N)%nat /\ Rmin x1 x2 < X < Rmax x1 x2 /\ xs = map P (seq 0 k0) ++ X :: map P (seq (k0 + 1) (N - (k0 + 1))) ++ rest /\ (rest = [x2] \/ (rest = [] /\ (N <= k0 + 1)%nat))).
Proof.
  intros W f fuel w con ys x1 x2 atol rtol h1 hmin N dt g' Hx Hm HN Hd E m P xs. destruct (dense_run f fuel w con ys x1 x2 atol rtol h1 hmin N dt g' Hx Hm HN E) as [F Y]. fold m in F, Y. fold xs in F. assert (HNr : 0 < INR N) by (apply lt_0_INR; lia).
  assert (Gl : forall a k, (0 < k)%nat -> (a + k = N)%nat -> last (gpts x1 x2 N a k) 0 - x2 = - ((x2 - x1) / INR N)).
  { intros a k Hk Ea. rewrite last_nth' by (intros Z; apply (f_equal (@length _)) in Z; unfold gpts in Z; rewrite mk_length in Z; cbn in Z; lia). unfold gpts. rewrite mk_length, mk_nth by lia. unfold gpt. replace (INR (a + (k - 1))) with (INR N - 1); [field; lra|]. replace N with (S (a + (k - 1))) by lia. rewrite S_INR. ring. }
  split; [|split].
  - intros E1. split; [|intros j Hj; apply (Y E1 j Hj)]. rewrite E1 in F. cbn [final] in F. rewrite F. unfold ends. rewrite Gl by lia. rewrite Rabs_Ropp. destruct (Rlt_dec _ _); [|contradiction]. now rewrite gpts_seq.
  - intros E1. rewrite E1 in F. cbn [final] in F. destruct F as (k0 & Hk & F). exists k0. split; [exact Hk|]. rewrite F. now rewrite gpts_seq.
  - intros Hm3. destruct m as [|[|[|m']]]; try lia. cbn [final] in F. destruct F as (k0 & X & Hk & F & HX1 & HX2).
    assert (HX : Rmin x1 x2 < X < Rmax x1 x2) by (unfold Rmin, Rmax; destruct (Rle_dec x1 x2); nra). rewrite !gpts_seq in F. fold P in F. unfold ends in F. destruct (Rlt_dec _ _) as [Z|Z].
    + exists k0, X, [x2]. split; [exact Hk|]. split; [exact HX|]. split; [rewrite F, <- app_assoc; reflexivity|now left].
    + exists k0, X, []. split; [exact Hk|]. split; [exact HX|]. split; [rewrite F, app_nil_r; reflexivity|]. right. split; [reflexivity|]. destruct (Nat.lt_ge_cases (k0 + 1) N) as [L|L]; [|exact L]. exfalso. apply Z.
      assert (La : last (map P (seq 0 k0) ++ X :: map P (seq (k0 + 1) (N - (k0 + 1)))) 0 = last (map P (seq (k0 + 1) (N - (k0 + 1)))) 0).
      { destruct (map P (seq (k0 + 1) (N - (k0 + 1)))) as [|a l] eqn:El; [apply map_eq_nil in El; apply (f_equal (@length _)) in El; rewrite seq_length in El; cbn in El; lia|].
        rewrite last_nth' by (destruct (map P (seq 0 k0)); discriminate). rewrite (last_nth' 0 (a :: l)) by discriminate. rewrite app_length. cbn [length]. rewrite app_nth2 by lia. replace (length (map P (seq 0 k0)) + S (S (length l)) - 1 - length (map P (seq 0 k0)))%nat with (S (length l)) by lia. replace (S (length l) - 1)%nat with (length l) by lia. reflexivity. }
      rewrite La. pose proof (Gl (k0 + 1)%nat (N - (k0 + 1))%nat ltac:(lia) ltac:(lia)) as Gx. rewrite gpts_seq in Gx. fold P in Gx. rewrite Gx, Rabs_Ropp. exact Hd.
Qed.

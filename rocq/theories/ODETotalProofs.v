(** Integrations whose right-hand side never raises (C112): which exceptions are left, and the first and last samples
    with dense output. *)
From Coq Require Import Reals List ZArith Bool Arith Lia Lra.
From Coquelicot Require Import Complex.
From Verif Require Import Base CNum NumPy ModelDopr ModelODE ODEOutputProofs ODEStepProofs ODETableauProofs ODEIntProofs ODERunProofs.
Import ListNotations.
Local Open Scope R_scope.
Local Open Scope py_scope.
Local Notation z0 := (RtoC 0).

(** ** A right-hand side that is total on the states and sizes a run can reach *)
Section Agree.
  Context {W : Type}.
  Variable f : R -> list C -> M W (list C).
  Variable P : W -> bool.
  Variable N : nat.
  (** what the made-total function below returns outside those states and sizes *)
  Variable bad : R -> list C -> list C.
  Hypothesis total : forall x y w, P w = true -> length y = N -> exists d w', f x y w = (Ok d, w') /\ P w' = true.
  (** the same function, made total everywhere *)
  Definition tot : R -> list C -> M W (list C) := fun x y w => if (P w && Nat.eqb (length y) N)%bool then f x y w else (Ok (bad x y), w).
  Lemma tot_never e : ~ rhs_raises tot e.
  Proof.
    intros (x & y & w & H). unfold tot in H. destruct (P w) eqn:Pw; cbn [andb] in H; [|discriminate]. destruct (Nat.eqb_spec (length y) N) as [L|L]; [|discriminate]. destruct (total x y w Pw L) as (d & w' & E & _). rewrite E in H. discriminate.
  Qed.
  Definition J (g : G W) : Prop := P (g_w g) = true /\ length (p_y (g_s g)) = N /\ length (p_yout (g_s g)) = N.
  Definition agree {A} (m m' : M (G W) A) : Prop := forall g, J g -> m g = m' g /\ J (snd (m g)).
  Lemma agree_bind {A B} (m m' : M (G W) A) (k k' : A -> M (G W) B) : agree m m' -> (forall a, agree (k a) (k' a)) -> agree (bind m k) (bind m' k').
  Proof. intros H Hk g Hg. destruct (H g Hg) as [E J1]. unfold bind. rewrite <- E. destruct (m g) as [[a|e] g1]; cbn [snd] in *; [apply Hk, J1|auto]. Qed.
  Lemma agree_get {B} (k k' : G W -> M (G W) B) : (forall g, J g -> agree (k g) (k' g)) -> agree (bind get k) (bind get k').
  Proof. intros H g Hg. unfold bind, get. apply H; exact Hg. Qed.
  Lemma agree_gets {B} (k k' : stepper -> M (G W) B) : (forall s, length (p_y s) = N -> length (p_yout s) = N -> agree (k s) (k' s)) -> agree (bind (gets g_s) k) (bind (gets g_s) k').
  Proof. intros H g Hg. unfold bind, gets. apply H; [apply Hg|apply Hg|exact Hg]. Qed.
  Lemma agree_same {A} (m : M (G W) A) : (forall g, J g -> J (snd (m g))) -> agree m m.
  Proof. intros H g Hg. split; [reflexivity|apply H, Hg]. Qed.
  Lemma agree_ret {A} (a : A) : agree (ret a) (ret a). Proof. apply agree_same. intros g Hg. exact Hg. Qed.
  Lemma agree_raise {A} e : agree (@raise _ A e) (raise e). Proof. apply agree_same. intros g Hg. exact Hg. Qed.
  Lemma agree_set_e u : agree (set_e u) (set_e u). Proof. apply agree_same. intros g Hg. exact Hg. Qed.
  Lemma agree_oncon {A} (m : M ctrl A) : agree (oncon m) (oncon m).
  Proof. apply agree_same. intros g Hg. unfold oncon. destruct (m (g_con g)). exact Hg. Qed.
  Lemma agree_onout {A} (m : M output A) : agree (onout m) (onout m).
  Proof. apply agree_same. intros g Hg. unfold onout. destruct (m (g_out g)). exact Hg. Qed.
  Lemma agree_deriv n x y : length y = N -> agree (ModelODE.deriv f n x y) (ModelODE.deriv tot n x y).
  Proof.
    intros L. apply agree_bind; [|intros a; apply agree_ret]. intros g (H1 & H2 & H3). unfold onw, tot. rewrite H1, L, Nat.eqb_refl. cbn [andb]. destruct (total x y (g_w g) H1 L) as (d & w' & -> & Pw). split; [reflexivity|]. repeat split; assumption.
  Qed.
  Lemma agree_set_s u : (forall s, length (p_y s) = N -> length (p_yout s) = N -> length (p_y (u s)) = N /\ length (p_yout (u s)) = N) -> agree (set_s u) (set_s u).
  Proof. intros H. apply agree_same. intros g (H1 & H2 & H3). destruct (H _ H2 H3). repeat split; assumption. Qed.
  Lemma ytemp_length y h l : length (ytemp y h l) = length y. Proof. apply mk_length. Qed.
  Lemma agree_dy h : agree (dy f h) (dy tot h).
  Proof.
    unfold dy. apply agree_gets. intros s L1 L2. cbv zeta. repeat (apply agree_bind; [apply agree_deriv; rewrite ytemp_length; exact L1|intros ?]).
    apply agree_set_s. intros s' A B. cbn [p_y p_yout]. rewrite ytemp_length. auto.
  Qed.
  Lemma agree_prepare h dn : agree (prepare_dense f h dn) (prepare_dense tot h dn).
  Proof.
    unfold prepare_dense. apply agree_gets. intros s L1 L2. cbv zeta. destruct (p_k s). repeat (apply agree_bind; [apply agree_deriv; rewrite ytemp_length; exact L1|intros ?]).
    apply agree_set_s. intros s' A B. cbn [p_y p_yout]. auto.
  Qed.
  Transparent attempts step.
  Lemma agree_attempts fuel : forall h, agree (attempts f fuel h) (attempts tot fuel h).
  Proof.
    induction fuel as [|fuel IH]; intros h; cbn [attempts]; [apply agree_raise|]. apply agree_bind; [destruct h; [apply agree_dy|apply agree_ret]|]. intros _. apply agree_gets. intros s L1 L2.
    apply agree_bind; [apply agree_oncon|]. intros [[|] [h'|]]; [apply agree_ret|apply IH| |apply IH]. destruct (Rle_dec _ _); [apply agree_raise|apply IH].
  Qed.
  Lemma agree_step fuel h : agree (step f fuel h) (step tot fuel h).
  Proof.
    unfold step. apply agree_bind; [apply agree_attempts|]. intros h'. apply agree_gets. intros s L1 L2. apply agree_bind; [apply agree_deriv; exact L2|]. intros dn. apply agree_bind; [destruct (p_dense s); [apply agree_prepare|apply agree_ret]|]. intros _.
    apply agree_get. intros g Hg. apply agree_set_s. intros s' A B. cbn [p_y p_yout]. auto.
  Qed.
  Opaque attempts step.
  Lemma agree_record fuel nstp x y h : agree (@record W fuel nstp x y h) (record fuel nstp x y h).
  Proof. unfold record. apply agree_get. intros g _. destruct (e_dense (g_ode g)); apply agree_onout. Qed.
  Lemma agree_iloop fuel : forall left nstp, agree (iloop f fuel left nstp) (iloop tot fuel left nstp).
  Proof.
    induction left as [|left IH]; intros nstp; cbn [iloop]; [apply agree_raise|]. apply agree_get. intros g _. apply agree_bind; [apply agree_set_e|]. intros _. apply agree_bind; [apply agree_step|]. intros _. apply agree_gets. intros s L1 L2.
    apply agree_bind; [apply agree_set_e|]. intros _. apply agree_bind; [apply agree_record|]. intros _. apply agree_get. intros g' _. destruct (Rle_dec _ _).
    - apply agree_bind; [apply agree_set_e|]. intros _. destruct (match o_kmax (g_out g') with Some km => Nat.ltb 0 km | None => false end); [|apply agree_ret]. destruct (Rlt_dec _ _); [apply agree_onout|apply agree_ret].
    - destruct (Rle_dec _ _); [apply agree_raise|]. apply agree_bind; [apply agree_set_e|]. intros _. apply IH.
  Qed.
  Lemma agree_integrate fuel : agree (integrate f fuel) (integrate tot fuel).
  Proof.
    unfold integrate. apply agree_get. intros g (_ & L & _). apply agree_bind; [apply agree_deriv; exact L|]. intros d. apply agree_bind; [apply agree_set_s; intros s A B; cbn [p_y p_yout]; auto|]. intros _. apply agree_bind; [apply agree_record|]. intros _. apply agree_iloop.
  Qed.
  Lemma new_J w con ys x1 x2 atol rtol h1 hmin out dense dt : P w = true -> length ys = N -> J (new_ode w con ys x1 x2 atol rtol h1 hmin out dense dt).
  Proof. intros Pw L. unfold J, new_ode, new_stepper. cbn [g_w g_s p_y p_yout]. rewrite repeat_length. auto. Qed.
End Agree.

(** the only exceptions a total right-hand side leaves *)
Definition solver_exn (e : exn) : Prop := e = OverflowError \/ e = AssertionError \/ e = RuntimeError \/ e = NoFuel.

(** ** First and last samples of a dense run *)
Lemma record_dense {W} fuel nstp x y h (g g' : G W) n dt l : stored n dt l (g_out g) -> p_dtype (g_s g) = dt -> length y = n -> length (p_y (g_s g)) = n -> e_dense (g_ode g) = true -> o_dense (g_out g) = true ->
  record fuel nstp x y h g = (Ok tt, g') ->
  g_s g' = g_s g /\ g_ode g' = g_ode g /\ frame' (g_out g) (g_out g') /\ exists l', stored n dt (l ++ l') (g_out g') /\
    ((nstp =? 1)%Z = true -> l' = [(x, y)]) /\
    ((nstp =? 1)%Z = false -> 0 < (x - o_xout (g_out g)) * (o_x2 (g_out g) - o_x1 (g_out g)) -> exists l'', l' = (o_xout (g_out g), dense_out (g_s g) (o_xout (g_out g)) h) :: l'').
Proof.
  intros H Hdt Ly Lp De Od. unfold record. unfold bind at 1, get. rewrite De. unfold onout, out_out. unfold bind at 1, get. rewrite Od. cbn [negb]. rewrite Hdt. destruct (Z.eqb nstp 1) eqn:E1.
  - destruct (save_good n dt l (g_out g) x y H Ly) as (o1 & E & S1 & F1). unfold bind. rewrite E. unfold modify. intros Q. apply (f_equal snd) in Q. cbn [snd] in Q. subst g'. cbn [g_s g_ode g_out]. split; [reflexivity|]. split; [reflexivity|]. split; [apply frame_frame' in F1; exact F1|].
    exists [(x, y)]. split; [now apply stored_xout|]. split; [reflexivity|discriminate].
  - pose proof (out_while_spec n dt x (fun xo => dense_out (g_s g) xo h) (fun u => eq_trans (mk_length _ _) Lp) fuel l (g_out g) H) as S. destruct (out_while fuel x dt _ (g_out g)) as [[u|e] o']; [|discriminate]. intros Q. apply (f_equal snd) in Q. cbn [snd] in Q. subst g'. cbn [g_s g_ode g_out].
    destruct S as (m & S & F & _ & _ & B). split; [reflexivity|]. split; [reflexivity|]. split; [exact F|]. eexists. split; [exact S|]. split; [discriminate|]. intros _ Hp. destruct m as [|m].
    + cbn [INR] in B. rewrite Rmult_0_l, Rplus_0_r in B. lra.
    + rewrite grid_S. eexists. reflexivity.
Qed.
Lemma dense_out_start s h y n : nth 0 (p_rc s) [] = y -> length y = n -> length (p_y s) = n -> dense_out s (p_xold s) h = y.
Proof.
  intros H Ly Lp. unfold dense_out. rewrite Lp. apply (nth_ext _ _ z0 z0); [rewrite mk_length; auto|]. rewrite mk_length. intros i Hi. rewrite mk_nth by exact Hi. rewrite H. replace ((p_xold s - p_xold s) / h) with 0 by (unfold Rdiv; ring). ring.
Qed.

Section DenseEnds.
  Context {W : Type}.
  Variable f : R -> list C -> M W (list C).
  Variables (x1 x2 hmin : R) (n : nat) (dt : dtype) (ys : list C).
  Hypothesis Hx : x1 <> x2.
  Hypothesis Hm : 0 <= hmin.
  Definition einv (nstp : nat) (l : list (R * list C)) (g : G W) : Prop :=
    stored n dt l (g_out g) /\ p_dtype (g_s g) = dt /\ length (p_y (g_s g)) = n /\ p_dense (g_s g) = true /\ e_x1 (g_ode g) = x1 /\ e_x2 (g_ode g) = x2 /\ e_hmin (g_ode g) = hmin /\ e_dense (g_ode g) = true /\
    0 <= (p_x (g_s g) - x1) * (x2 - x1) /\ 0 < (x2 - p_x (g_s g)) * (x2 - x1) /\ (exists c, 0 <= c /\ e_h (g_ode g) = c * (x2 - x1)) /\
    o_dense (g_out g) = true /\ o_x1 (g_out g) = x1 /\ o_x2 (g_out g) = x2 /\
    (nstp = 0%nat -> l = [] /\ p_x (g_s g) = x1 /\ p_y (g_s g) = ys /\ o_xout (g_out g) = x1) /\ (nstp <> 0%nat -> exists l', l = (x1, ys) :: l').
  Lemma ends_loop fuel : forall left nstp l g g', einv nstp l g -> iloop f fuel left nstp g = (Ok tt, g') ->
    exists l', stored n dt ((x1, ys) :: l') (g_out g') /\ Rabs (last (map fst ((x1, ys) :: l')) 0 - x2) <= 100 * Rabs x2 * EPS.
  Proof.
    induction left as [|left IH]; intros nstp l g g' Hi; [discriminate|].
    destruct Hi as (Hs & Hdt & Hn & Hpd & Hx1 & Hx2 & Hhm & Hde & A & B & (c & Hc0 & Hh) & Od & Ox1 & Ox2 & Z0 & Zs). assert (HD : x2 - x1 <> 0) by lra.
    cbn [iloop]. unfold bind at 1, get. rewrite Hx1, Hx2. set (h := clip (p_x (g_s g)) x1 x2 (e_h (g_ode g))). unfold bind at 1, set_e, modify. unfold bind at 1. set (g1 := mkG _ _ _ _ _).
    pose proof (step_spec f fuel h g1) as S. destruct (step f fuel h g1) as [[u|e] g2]; [|discriminate].
    destruct S as (So & Se & (t & Ht & Hdid) & Sx & Sxo & (k & Hk & Hhn) & Srej & Sn & Sdt & Sde & _ & _ & _ & Src). unfold g1 in So, Se, Sx, Sxo, Sn, Sdt, Sde, Src. cbn [g_out g_ode g_s] in So, Se, Sx, Sxo, Sn, Sdt, Sde, Src. rewrite Hpd in Src. cbv zeta in Src.
    destruct (clip_cases (p_x (g_s g)) x1 x2 (e_h (g_ode g)) c B Hh Hc0 t Ht) as (C1 & C2 & C3 & c' & Hc' & Ecl). fold h in C1, C2, C3, Ecl. rewrite <- Hdid, <- Sx in C1, C2, C3.
    unfold bind at 1, gets. unfold bind at 1. unfold bind at 1. set (g3 := mkG _ _ _ _ _).
    assert (G3 : g_out g3 = g_out g /\ g_s g3 = g_s g2 /\ e_x1 (g_ode g3) = x1 /\ e_x2 (g_ode g3) = x2 /\ e_hmin (g_ode g3) = hmin /\ e_dense (g_ode g3) = true).
    { unfold g3. cbn [g_out g_s g_ode]. rewrite So, Se. destruct (Req_EM_T _ _); cbn [e_x1 e_x2 e_hmin e_dense]; repeat split; auto. }
    clearbody g3. destruct G3 as (G3o & G3s & G3x1 & G3x2 & G3hm & G3de).
    assert (A' : 0 <= (p_x (g_s g2) - x1) * (x2 - x1)) by lra.
    destruct (record fuel (Z.of_nat nstp) (p_x (g_s g2)) (p_y (g_s g2)) (p_hdid (g_s g2)) g3) as [[[]|e] g4] eqn:E4; [|discriminate].
    pose proof (record_dense fuel (Z.of_nat nstp) (p_x (g_s g2)) (p_y (g_s g2)) (p_hdid (g_s g2)) g3 g4 n dt l) as R. rewrite G3o, G3s in R. specialize (R Hs ltac:(congruence) ltac:(congruence) ltac:(congruence) G3de Od E4).
    destruct R as (R3 & R4 & (F1 & F2 & F3 & F4 & F5) & l' & R6 & R7 & R8). rewrite Ox1, Ox2 in R8.
    unfold bind at 1. cbv zeta. rewrite R4, G3x1, G3x2, G3hm.
    assert (First : p_x (g_s g2) <> p_x (g_s g) -> exists l'', l ++ l' = (x1, ys) :: l'').
    { intros Hne. destruct nstp as [|nstp].
      - destruct (Z0 eq_refl) as (-> & Ex & Ey & Exo). rewrite Exo in R8. destruct (R8 eq_refl) as (l'' & ->).
        + rewrite Ex in *. assert (p_x (g_s g2) - x1 <> 0) by lra. assert ((p_x (g_s g2) - x1) * (x2 - x1) <> 0) by (apply Rmult_integral_contrapositive_currified; assumption). lra.
        + exists l''. cbn [app]. do 2 f_equal. destruct Src as (r4 & r5 & r6 & r7 & Src). rewrite Ey in Src. rewrite <- Ex, <- Sxo. apply (dense_out_start (g_s g2) _ ys n); [rewrite Src; reflexivity|congruence|congruence].
      - destruct (Zs ltac:(lia)) as (l0 & ->). exists (l0 ++ l'). reflexivity. }
    destruct (Rle_dec 0 ((p_x (g_s g2) - x2) * (x2 - x1))) as [Q|Q].
    - assert (X2 : p_x (g_s g2) = x2). { destruct (Req_EM_T x2 (p_x (g_s g2))) as [E|E]; [now symmetry|]. specialize (C3 E). lra. }
      destruct First as (l'' & El). { intros E0. rewrite X2 in E0. rewrite <- E0, Rminus_eq_0 in B. lra. } rewrite El in R6.
      unfold bind at 1. cbn [g_w g_con g_s g_out g_ode].
      assert (Km : exists km, o_kmax (g_out g4) = Some km /\ (0 < km)%nat) by (destruct R6 as (km & K1 & K2 & _); eauto). destruct Km as (km & -> & Hkm). apply Nat.ltb_lt in Hkm. rewrite Hkm.
      rewrite (last_saved_last _ _ _ _ R6 ltac:(discriminate)). destruct (Rlt_dec _ _) as [Z|Z].
      + unfold onout. cbn [g_out]. destruct (save_good n dt _ (g_out g4) (p_x (g_s g2)) (p_y (g_s g2)) R6 ltac:(congruence)) as (o7 & E7 & S7 & F7). rewrite Sdt, Hdt, E7. intros E. apply (f_equal snd) in E. cbn [snd] in E. subst g'. cbn [g_out].
        exists (l'' ++ [(p_x (g_s g2), p_y (g_s g2))]). split; [exact S7|]. rewrite app_comm_cons, map_app. cbn [map fst]. rewrite last_last, X2, Rminus_eq_0, Rabs_R0. pose proof (Rabs_pos x2). pose proof EPS_pos. apply Rmult_le_pos; [lra|lra].
      + unfold ret. intros E. apply (f_equal snd) in E. cbn [snd] in E. subst g'. cbn [g_out]. exists l''. split; [exact R6|]. lra.
    - assert (B' : 0 < (x2 - p_x (g_s g2)) * (x2 - x1)) by lra. destruct (Rle_dec (Rabs (p_hnext (g_s g2))) hmin) as [Z|Z]; [discriminate|].
      assert (Ne : p_x (g_s g2) <> p_x (g_s g)). { intros E0. apply Z. rewrite Hhn. replace (p_hdid (g_s g2)) with 0 by lra. rewrite Rmult_0_r, Rabs_R0. exact Hm. }
      destruct (First Ne) as (l'' & El). rewrite El in R6.
      unfold bind at 1. cbn [g_w g_con g_s g_out g_ode]. intros E. match type of E with iloop _ _ _ _ ?g5 = _ => assert (Hd : einv (Datatypes.S nstp) ((x1, ys) :: l'') g5) end.
      { unfold einv. cbn [g_out g_s g_ode e_x1 e_x2 e_hmin e_dense e_h]. rewrite ?R3, ?R4, ?G3s. split; [exact R6|]. split; [congruence|]. split; [congruence|]. split; [congruence|]. do 4 (split; [assumption|]). split; [exact A'|]. split; [exact B'|]. split.
        - exists (k * (t * c')). split; [apply Rmult_le_pos; nra|]. rewrite Hhn, Hdid, Ecl. ring.
        - split; [congruence|]. split; [congruence|]. split; [congruence|]. split; [intros; discriminate|]. intros _. exists l''. reflexivity. }
      exact (IH _ _ _ _ Hd E).
  Qed.
End DenseEnds.
Lemma dense_ends {W} (f : R -> list C -> M W (list C)) fuel w con ys x1 x2 atol rtol h1 hmin N dt g' : x1 <> x2 -> 0 <= hmin -> (0 < N)%nat ->
  integrate f fuel (new_ode w con ys x1 x2 atol rtol h1 hmin (new_output (Some N)) true dt) = (Ok tt, g') ->
  exists l', stored (length ys) dt ((x1, ys) :: l') (g_out g') /\ Rabs (last (map fst ((x1, ys) :: l')) 0 - x2) <= 100 * Rabs x2 * EPS.
Proof.
  intros Hx Hm HN E. destruct fuel as [|fuel].
  - exfalso. revert E. rewrite integrate_unfold. set (g0 := new_ode _ _ _ _ _ _ _ _ _ _ _ _). unfold bind at 1. pose proof (keeps_deriv f (length (p_y (g_s g0))) (e_x1 (g_ode g0)) (p_y (g_s g0)) g0) as K.
    destruct (deriv f _ _ _ g0) as [[d|e] g1]; [|discriminate]. cbn [snd] in K. destruct K as (_ & K2 & K3 & _).
    unfold bind at 1, set_s, modify. unfold bind at 1, record. unfold bind at 1, get. cbn [g_ode]. rewrite K3. cbn [g0 new_ode g_ode e_dense]. unfold onout, out_out. unfold bind at 1, get. cbn [g_out]. rewrite K2. cbn [g0 new_ode g_out]. unfold out_init, new_output. cbn [o_kmax o_dense]. destruct (Nat.ltb_spec 0 N); [|lia]. cbn. discriminate.
  - destruct (f x1 ys w) as [[d|e] w'] eqn:Ef.
    2: { exfalso. revert E. rewrite integrate_unfold. unfold bind at 1, deriv at 1, bind at 1, onw. cbn [new_ode g_s g_ode g_w p_y e_x1 new_stepper]. rewrite Ef. discriminate. }
    destruct (integrate_start f (S fuel) w con ys x1 x2 atol rtol h1 hmin N true dt d w' ltac:(lia) ltac:(auto) Ef) as (o' & E' & Eo). cbv iota in Eo. rewrite E' in E.
    assert (Oi : o_dense o' = true /\ o_x1 o' = x1 /\ o_x2 o' = x2 /\ o_xout o' = x1) by (subst o'; unfold out_init, new_output; cbn [o_kmax o_dense]; destruct (Nat.ltb_spec 0 N); [repeat split|lia]).
    destruct Oi as (O1 & O2 & O3 & O4).
    match type of E with iloop _ _ _ _ ?g5 = _ => assert (Hd : einv x1 x2 hmin (length ys) dt ys 0 [] g5) end.
    2: { exact (ends_loop f x1 x2 hmin (length ys) dt ys Hx Hm (S fuel) MAXSTP 0 [] _ g' Hd E). }
    unfold einv. cbn [g_out g_s g_ode new_stepper p_x p_y p_dtype p_dense e_x1 e_x2 e_hmin e_dense e_h]. split; [subst o'; apply stored_init|]. do 7 (split; [reflexivity|]). split; [rewrite Rminus_eq_0; lra|]. split; [nra|]. split; [apply sgn_mul; lra|].
    do 3 (split; [assumption|]). split; [auto|]. intros Z. now destruct Z.
Qed.

(** ** AttributeError comes only from an Output that cannot store, or from dense output of an Output without a grid *)
(** the rows keep their width *)
Definition rows_ok (o : output) : Prop := List.Forall (fun r => length r = o_nvar o) (o_ysave o).
Definition KO (d : bool) (o : output) : Prop := (exists km, o_kmax o = Some km) /\ o_dense o = d /\ rows_ok o.
Definition osafe {A} (m : M output A) : Prop := forall d o, KO d o -> KO d (snd (m o)) /\ fst (m o) <> Raise AttributeError.
Lemma osafe_bind {A B} (m : M output A) (k : A -> M output B) : osafe m -> (forall a, osafe (k a)) -> osafe (bind m k).
Proof. intros H Hk d o Ho. destruct (H d o Ho) as [K1 K2]. unfold bind. destruct (m o) as [[a|e] o1]; cbn [fst snd] in *; [apply Hk, K1|]. split; [exact K1|congruence]. Qed.
Lemma osafe_get {B} (k : output -> M output B) : (forall d o, KO d o -> KO d (snd (k o o)) /\ fst (k o o) <> Raise AttributeError) -> osafe (bind get k).
Proof. intros H d o Ho. exact (H d o Ho). Qed.
Lemma osafe_raise {A} e : e <> AttributeError -> osafe (@raise _ A e). Proof. intros H d o Ho. split; [exact Ho|]. cbn. congruence. Qed.
Lemma osafe_ret {A} (a : A) : osafe (ret a). Proof. intros d o Ho. split; [exact Ho|discriminate]. Qed.
Lemma osafe_modify u : (forall o, (forall km, o_kmax o = Some km -> exists km', o_kmax (u o) = Some km') /\ o_dense (u o) = o_dense o /\ (rows_ok o -> rows_ok (u o))) -> osafe (modify u).
Proof. intros H d o ([km Hk] & Hd & Hr). destruct (H o) as (H1 & H2 & H3). split; [|discriminate]. split; [eauto|]. cbn [modify snd]. split; [congruence|auto]. Qed.
Lemma osafe_resize : osafe (modify resize).
Proof.
  apply osafe_modify. intros o. unfold resize. destruct (o_kmax o) as [km|] eqn:E; [split; [intros; eexists; reflexivity|split; [reflexivity|]]|].
  - unfold rows_ok. cbn [o_ysave o_nvar]. intros H. apply Forall_app. split; [exact H|]. apply Forall_forall. intros r Hr. apply repeat_spec in Hr. subst r. apply repeat_length.
  - split; [intros km H; discriminate|]. split; [reflexivity|auto].
Qed.
Lemma row_len n y r : row n y = Some r -> length r = n.
Proof. unfold row. destruct (Nat.eqb_spec (length y) n) as [E|E]; [intros [= <-]; exact E|]. destruct (Nat.eqb _ _); [|discriminate]. intros [= <-]. apply repeat_length. Qed.
Lemma Forall_setnth {A} (Q : A -> Prop) i v l : List.Forall Q l -> Q v -> List.Forall Q (setnth i v l).
Proof.
  intros H Hv. unfold setnth. apply Forall_app. rewrite Forall_forall in H. split; [apply Forall_forall; intros x Hx; apply H; rewrite <- (firstn_skipn i l); apply in_or_app; left; exact Hx|]. constructor; [exact Hv|]. apply Forall_forall. intros x Hx. apply H. rewrite <- (firstn_skipn (S i) l). apply in_or_app. right. exact Hx.
Qed.
Lemma osafe_store x y : osafe (store x y).
Proof. intros d o Ho. unfold store, bind, get. destruct (Nat.ltb _ _); [|split; [exact Ho|discriminate]]. destruct (row (o_nvar o) y) as [r|] eqn:Er; [|split; [exact Ho|discriminate]]. split; [|discriminate]. destruct Ho as (Hk & Hd & Hr). split; [exact Hk|]. split; [exact Hd|]. unfold rows_ok. cbn [put snd o_ysave o_nvar]. apply Forall_setnth; [exact Hr|]. apply (row_len _ _ _ Er). Qed.
Lemma osafe_save x dt y : osafe (save x dt y).
Proof.
  unfold save. apply osafe_get. intros d o Ho. pose proof Ho as ([km Hk] & Hd & _). rewrite Hk.
  assert (Q : osafe (if negb (dt_eqb (o_dtype o) dt) then raise TypeError else if Nat.leb km 0 then ret tt else (if full o then modify resize else ret tt) ;;; store x y)).
  { destruct (negb _); [apply osafe_raise; discriminate|]. destruct (Nat.leb _ _); [apply osafe_ret|]. apply osafe_bind; [destruct (full o); [apply osafe_resize|apply osafe_ret]|intros _; apply osafe_store]. }
  exact (Q d o Ho).
Qed.
Lemma osafe_save_dense x dt y : osafe (save_dense x dt y).
Proof.
  unfold save_dense. apply osafe_get. intros d o Ho. pose proof Ho as ([km Hk] & Hd & _). rewrite Hk.
  assert (Q : osafe ((if full o then modify resize else ret tt) ;;; (if dt_eqb (o_dtype o) dt then store x y else raise TypeError))).
  { apply osafe_bind; [destruct (full o); [apply osafe_resize|apply osafe_ret]|]. intros _. destruct (dt_eqb _ _); [apply osafe_store|]. apply osafe_raise. discriminate. }
  exact (Q d o Ho).
Qed.
Lemma osafe_while x dt D : forall fuel, osafe (out_while fuel x dt D).
Proof.
  induction fuel as [|fuel IH]; cbn [out_while]; [apply osafe_raise; discriminate|]. apply osafe_get. intros d o Ho.
  assert (Q : osafe (if Rlt_dec 0 ((x - o_xout o) * (o_x2 o - o_x1 o)) then save_dense (o_xout o) dt (D (o_xout o)) ;;; modify (fun o => with_xout (o_xout o + o_dxout o) o) ;;; out_while fuel x dt D else ret tt)).
  { destruct (Rlt_dec _ _); [|apply osafe_ret]. apply osafe_bind; [apply osafe_save_dense|]. intros _. apply osafe_bind; [|intros _; exact IH]. apply osafe_modify. intros o'. split; [eauto|split; [reflexivity|auto]]. }
  exact (Q d o Ho).
Qed.
Lemma osafe_out fuel nstp x dt y D o : KO true o -> KO true (snd (out_out fuel nstp x dt y D o)) /\ fst (out_out fuel nstp x dt y D o) <> Raise AttributeError.
Proof.
  intros Ho. pose proof Ho as (_ & Hd & _).
  assert (Q : osafe (if Z.eqb nstp 1 then save x dt y ;;; modify (fun o => with_xout (o_xout o + o_dxout o) o) else out_while fuel x dt D)).
  { destruct (Z.eqb nstp 1); [|apply osafe_while]. apply osafe_bind; [apply osafe_save|]. intros _. apply osafe_modify. intros o'. split; [eauto|split; [reflexivity|auto]]. }
  assert (E : out_out fuel nstp x dt y D o = (if Z.eqb nstp 1 then save x dt y ;;; modify (fun o => with_xout (o_xout o + o_dxout o) o) else out_while fuel x dt D) o) by (unfold out_out, get; unfold bind at 1; rewrite Hd; reflexivity).
  rewrite E. exact (Q true o Ho).
Qed.
Section NoAttr.
  Context {W : Type}.
  Variable f : R -> list C -> M W (list C).
  Hypothesis never : ~ rhs_raises f AttributeError.
  Definition K (d d' : bool) (g : G W) : Prop := e_dense (g_ode g) = d /\ KO d' (g_out g).
  Lemma record_safe fuel nstp x y h g d d' : K d d' g -> (d = true -> d' = true) -> K d d' (snd (record fuel nstp x y h g)) /\ fst (record fuel nstp x y h g) <> Raise AttributeError.
  Proof.
    intros [He Ho] Hd. assert (E : record fuel nstp x y h g = if d then onout (out_out fuel nstp x (p_dtype (g_s g)) y (fun xo => dense_out (g_s g) xo h)) g else onout (save x (p_dtype (g_s g)) y) g) by (unfold record, get; unfold bind at 1; rewrite He; destruct d; reflexivity).
    rewrite E. destruct d.
    - rewrite (Hd eq_refl) in *. unfold onout. destruct (osafe_out fuel nstp x (p_dtype (g_s g)) y (fun xo => dense_out (g_s g) xo h) (g_out g) Ho) as [Q1 Q2]. destruct (out_out _ _ _ _ _ _ _) as [r o]. cbn [fst snd] in *. split; [split; [exact He|exact Q1]|exact Q2].
    - unfold onout. destruct (osafe_save x (p_dtype (g_s g)) y d' (g_out g) Ho) as [Q1 Q2]. destruct (save _ _ _ _) as [r o]. cbn [fst snd] in *. split; [split; [exact He|exact Q1]|exact Q2].
  Qed.
  Lemma not_solver : ~ solver_raises f AttributeError.
  Proof. intros [E|[E|[E|E]]]; try discriminate. exact (never E). Qed.
  Definition Kres (d d' : bool) (r : result unit * G W) : Prop := match r with (Ok _, g) => K d d' g | (Raise e, _) => e <> AttributeError end.
  Lemma iloop_safe fuel d d' : (d = true -> d' = true) -> forall left nstp g, K d d' g -> Kres d d' (iloop f fuel left nstp g).
  Proof.
    intros Hd. induction left as [|left IH]; intros nstp g Hg; cbn [iloop]; [discriminate|]. unfold bind at 1, get. unfold bind at 1, set_e, modify. unfold bind at 1. set (h := clip _ _ _ _). set (g1 := mkG _ _ _ _ _). assert (K1 : K d d' g1) by exact Hg. clearbody g1.
    pose proof (step_spec f fuel h g1) as S. destruct (step f fuel h g1) as [[u|e] g2].
    2: { destruct S as [_ S]. cbn [Kres]. intros ->. exact (not_solver S). }
    destruct S as (So & Se & _). assert (K2 : K d d' g2) by (unfold K; rewrite So, Se; exact K1). unfold bind at 1, gets. unfold bind at 1. unfold bind at 1. set (g3 := mkG _ _ _ _ _).
    assert (K3 : K d d' g3). { unfold g3, K. cbn [g_ode g_out]. destruct K2 as [A B]. split; [|exact B]. destruct (Req_EM_T _ _); exact A. } clearbody g3.
    destruct (record_safe fuel (Z.of_nat nstp) (p_x (g_s g2)) (p_y (g_s g2)) (p_hdid (g_s g2)) g3 d d' K3 Hd) as [K4 Q4]. destruct (record _ _ _ _ _ g3) as [[u4|e4] g4]; cbn [fst snd] in *; [|cbn [Kres]; congruence].
    unfold bind at 1. cbv zeta. destruct (Rle_dec _ _).
    - unfold bind at 1. destruct (match o_kmax (g_out g4) with Some km => Nat.ltb 0 km | None => false end); [|exact K4]. destruct (Rlt_dec _ _); [|exact K4].
      unfold onout. cbn [g_out]. destruct (osafe_save (p_x (g_s g2)) (p_dtype (g_s g2)) (p_y (g_s g2)) d' (g_out g4) (proj2 K4)) as [Q1 Q]. destruct (save _ _ _ _) as [[u5|e5] o5]; cbn [fst snd] in *; [|cbn [Kres]; congruence]. split; [exact (proj1 K4)|exact Q1].
    - destruct (Rle_dec _ _); [discriminate|]. unfold bind at 1. apply IH. exact K4.
  Qed.
  Lemma integrate_safe fuel w con ys x1 x2 atol rtol h1 hmin k dense dt : (dense = true -> (0 < k)%nat) ->
    Kres dense (Nat.ltb 0 k) (integrate f fuel (new_ode w con ys x1 x2 atol rtol h1 hmin (new_output (Some k)) dense dt)).
  Proof.
    intros Hk. rewrite integrate_unfold. set (g := new_ode _ _ _ _ _ _ _ _ _ _ _ _). assert (K0 : K dense (Nat.ltb 0 k) g).
    { unfold K, KO, rows_ok, g, new_ode, out_init, new_output. cbn [g_ode g_out e_dense o_kmax o_dense]. split; [reflexivity|].
      destruct (Nat.ltb 0 k); (split; [eexists; reflexivity|]); (split; [reflexivity|]); cbn [o_ysave o_nvar]; apply Forall_forall; intros r Hr; apply repeat_spec in Hr; subst r; apply repeat_length. }
    clearbody g. unfold bind at 1. pose proof (keeps_deriv f (length (p_y (g_s g))) (e_x1 (g_ode g)) (p_y (g_s g)) g) as Kd. pose proof (only_deriv f (length (p_y (g_s g))) (e_x1 (g_ode g)) (p_y (g_s g)) g) as O.
    destruct (deriv f _ _ _ g) as [[d|e] g1]; cbn [fst snd] in *. 2: { cbn [Kres]. intros ->. exact (never (O _ eq_refl)). }
    destruct Kd as (_ & K2 & K3 & _). unfold bind at 1, set_s, modify. unfold bind at 1. set (g2 := mkG (g_w g1) _ _ _ _). assert (K4 : K dense (Nat.ltb 0 k) g2) by (unfold K, g2; cbn [g_ode g_out]; rewrite K2, K3; exact K0). clearbody g2.
    assert (Hd : dense = true -> Nat.ltb 0 k = true) by (intros E; apply Nat.ltb_lt, Hk, E).
    match goal with |- context [record ?a ?b ?c ?d' ?e g2] => destruct (record_safe a b c d' e g2 _ _ K4 Hd) as [K5 Q5]; destruct (record a b c d' e g2) as [[u|e'] g5] end; cbn [fst snd] in *; [|cbn [Kres]; congruence].
    apply (iloop_safe fuel _ _ Hd). exact K5.
  Qed.
End NoAttr.

(** ** Both kinds of output *)
Lemma total_run {W} (f : R -> list C -> M W (list C)) (P : W -> bool) N fuel w con ys x1 x2 atol rtol h1 hmin k dense dt :
  (forall x y w, P w = true -> length y = N -> exists d w', f x y w = (Ok d, w') /\ P w' = true) -> P w = true -> length ys = N -> x1 <> x2 -> 0 <= hmin -> (dense = true -> (0 < k)%nat) ->
  match integrate f fuel (new_ode w con ys x1 x2 atol rtol h1 hmin (new_output (Some k)) dense dt) with
  | (Raise e, g) => solver_exn e
  | (Ok _, g) => P (g_w g) = true /\ rows_ok (g_out g) /\ exists l, stored N dt ((x1, ys) :: l) (g_out g) /\
      (dense = false -> length l = (e_nok (g_ode g) + e_nbad (g_ode g))%nat /\ mono (x2 - x1) (map fst ((x1, ys) :: l)) /\ last ((x1, ys) :: l) (0, []) = (x2, e_ystart (g_ode g))) /\
      (dense = true -> Rabs (last (map fst ((x1, ys) :: l)) 0 - x2) <= 100 * Rabs x2 * EPS)
  end.
Proof.
  intros T Pw L Hx Hm Hk. destruct (agree_integrate f P N (fun _ _ => []) T fuel _ (new_J P N w con ys x1 x2 atol rtol h1 hmin (new_output (Some k)) dense dt Pw L)) as [E HJ].
  rewrite E in *. pose proof (integrate_post (tot f P N (fun _ _ => [])) fuel w con ys x1 x2 atol rtol h1 hmin k dense dt Hx Hm) as Q.
  assert (At : dense = true -> forall g, integrate (tot f P N (fun _ _ => [])) fuel (new_ode w con ys x1 x2 atol rtol h1 hmin (new_output (Some k)) dense dt) = (Ok tt, g) -> exists l', stored (length ys) dt ((x1, ys) :: l') (g_out g) /\ Rabs (last (map fst ((x1, ys) :: l')) 0 - x2) <= 100 * Rabs x2 * EPS).
  { intros -> g. apply (dense_ends _ fuel w con ys x1 x2 atol rtol h1 hmin k dt g Hx Hm (Hk eq_refl)). }
  pose proof (integrate_safe (tot f P N (fun _ _ => [])) (tot_never f P N (fun _ _ => []) T AttributeError) fuel w con ys x1 x2 atol rtol h1 hmin k dense dt Hk) as Sf.
  destruct (integrate (tot f P N (fun _ _ => [])) fuel _) as [[[]|e] g] eqn:R; cbn [snd Kres] in *.
  - split; [apply HJ|]. split; [apply Sf|]. destruct dense.
    + destruct (At eq_refl g eq_refl) as (l' & S & B). exists l'. rewrite <- L. split; [exact S|]. split; [discriminate|auto].
    + destruct Q as (_ & _ & _ & Y & _ & _ & _ & D). destruct (D eq_refl) as (l & S & Ll & F & Mo & La). destruct l as [|a l]; [cbn in Ll; lia|]. cbn [nth] in F. subst a. exists l. rewrite <- L. split; [exact S|]. split; [|discriminate]. intros _. cbn [length] in Ll. split; [lia|]. split; [exact Mo|]. rewrite Y. exact La.
  - destruct Q as (_ & _ & _ & [S|[-> | ->]]); [|unfold solver_exn; auto|].
    + destruct S as [-> | [-> | [-> | S]]]; [unfold solver_exn; auto..|]. exfalso. exact (tot_never f P N (fun _ _ => []) T e S).
    + exfalso. apply Sf. reflexivity.
Qed.

(** Proofs about the step-size controller, one step and the dense interpolant of the ODE solver (C40, C41, C45). *)
From Coq Require Import Reals List ZArith Bool Arith Lia Lra.
From Coquelicot Require Import Complex Coquelicot.
From Verif Require Import Base CNum NumPy ModelDopr ModelODE.
Import ListNotations.
Local Open Scope R_scope.
Local Open Scope py_scope.
Local Notation z0 := (RtoC 0).

(** ** Controller *)
Lemma pow_big e : 0 < e <= 1 -> 1 <= Rpower e (- (1 / 8)).
Proof.
  intros H. unfold Rpower. rewrite <- exp_0 at 1. assert (L : ln e <= 0) by (rewrite <- ln_1; apply Rcomplements.ln_le; lra).
  destruct (Rle_lt_or_eq_dec 0 (- (1 / 8) * ln e)) as [Q|Q]; [nra| |rewrite <- Q; lra]. left. now apply exp_increasing.
Qed.
Lemma pow_small e : 1 < e -> 0 < Rpower e (- (1 / 8)) < 1.
Proof.
  intros H. split; [apply exp_pos|]. unfold Rpower. rewrite <- exp_0 at 2. apply exp_increasing. assert (0 < ln e) by (rewrite <- ln_1; apply ln_increasing; lra). nra.
Qed.
(** the outcome of a call with a NaN or infinite or nonnegative estimate *)
Definition estimate_ok (err : efl) : Prop := match err with Fin e => 0 <= e | _ => True end.
Lemma success_spec err h c : estimate_ok err ->
  match success err (Some h) c with
  | (Ok (true, h'), c') => h' = Some h /\ c_reject c' = false /\ (exists e, err = Fin e /\ e <= 1) /\ exists k, 0.9 <= k <= 6 /\ (c_reject c = true -> k <= 1) /\ c_hnext c' = h * k
  | (Ok (false, Some h'), c') => c_reject c' = true /\ c_hnext c' = c_hnext c /\ err <> NaN /\ exists k, 0.333 <= k <= 0.9 /\ h' = h * k
  | (Ok (false, None), c') => c_reject c' = true /\ c_hnext c' = c_hnext c /\ err = NaN
  | (Raise _, _) => False
  end.
Proof.
  intros He. unfold success. destruct err as [e| |]; cbn in He.
  - destruct (Rle_dec e 1) as [L|L].
    + destruct (Rlt_dec e 0) as [Q|Q]; [lra|]. unfold bind, modify, ret. cbn [fst snd c_reject c_hnext]. split; [reflexivity|]. split; [reflexivity|]. split; [eauto|].
      set (sc := if Req_EM_T e 0 then 6 else _). assert (B : 0.9 <= sc <= 6).
      { unfold sc. destruct (Req_EM_T e 0) as [Z|Z]; [lra|]. pose proof (pow_big e ltac:(lra)). cbv zeta. rewrite Rmult_1_r. destruct (Rlt_dec (0.9 * Rpower e (- (1 / 8))) 0.333) as [L1|L1]; [lra|]. destruct (Rlt_dec 6 (0.9 * Rpower e (- (1 / 8)))) as [L2|L2]; lra. }
      destruct (c_reject c).
      * exists (Rmin sc 1). split; [|split; [intros _; apply Rmin_r|reflexivity]]. split; [apply Rmin_glb; lra|]. eapply Rle_trans; [apply Rmin_r|lra].
      * exists sc. split; [exact B|]. split; [discriminate|reflexivity].
    + cbn. split; [reflexivity|]. split; [reflexivity|]. split; [discriminate|]. exists (Rmax (0.9 * Rpower e (- (1 / 8))) 0.333). pose proof (pow_small e ltac:(lra)). split; [|reflexivity]. split; [apply Rmax_r|apply Rmax_lub; lra].
  - cbn. split; [reflexivity|]. split; [reflexivity|]. split; [discriminate|]. exists 0.333. split; [lra|reflexivity].
  - cbn. auto.
Qed.
Opaque success.

(** a controller after a history of calls *)
Definition con_history (calls : list (efl * option R)) : ctrl := fold_left (fun c p => snd (success (fst p) (snd p) c)) calls new_ctrl.

(*! C40: whatever the controller went through before, a call with a nonnegative estimate err and step h either accepts (exactly when err <= 1), keeps h and proposes between 0.9 and 6 times h, and at most h when the call before was a rejection; or it rejects a finite or infinite err > 1 with a new step between 0.333 and 0.9 times h, so with the same sign and strictly shorter when h is nonzero. *)
Lemma C40_controller_limits_l : forall (calls : list (efl * option R)) (err : efl) (h : R),
  estimate_ok err -> err <> NaN ->
  let c := con_history calls in
  ((exists e, err = Fin e /\ e <= 1) -> exists c' k, success err (Some h) c = (Ok (true, Some h), c') /\ c_hnext c' = k * h /\ 0.9 <= k <= 6 /\
     (forall l e0 h0, calls = l ++ [(e0, Some h0)] -> estimate_ok e0 -> fst (success e0 (Some h0) (con_history l)) <> Ok (true, Some h0) -> k <= 1)) /\
  ((forall e, err = Fin e -> 1 < e) -> exists c' k, success err (Some h) c = (Ok (false, Some (k * h)), c') /\ 0.333 <= k <= 0.9).
Proof.
  intros calls err h He Hn c. pose proof (success_spec err h c He) as S. destruct (success err (Some h) c) as [[[[|] h']|x] c'] eqn:E.
  - destruct S as (-> & R & (e & -> & L) & k & Hk & Hr & Hh). split.
    + intros _. exists c', k. split; [reflexivity|]. split; [lra|]. split; [exact Hk|]. intros l e0 h0 Ec He0 Hf. apply Hr. unfold c. rewrite Ec. unfold con_history. rewrite fold_left_app. cbn [fold_left fst snd].
      pose proof (success_spec e0 h0 (con_history l) He0) as S0. unfold con_history in S0, Hf. destruct (success e0 (Some h0) _) as [[[[|] h1]|x1] c1] eqn:E1; cbn [fst snd] in *; [|destruct h1; apply S0|contradiction].
      exfalso. apply Hf. now destruct S0 as (-> & _).
    + intros H. specialize (H e eq_refl). lra.
  - destruct h' as [h'|].
    + destruct S as (R & Hh & _ & k & Hk & ->). split.
      * intros (e & -> & L). exfalso. revert E. unfold estimate_ok in He. Transparent success. unfold success. destruct (Rle_dec e 1); [|lra]. destruct (Rlt_dec e 0); [lra|]. cbn. discriminate.
      * intros _. exists c', k. split; [|exact Hk]. now rewrite Rmult_comm.
    + destruct S as (_ & _ & ->). contradiction.
  - contradiction.
Qed.
Opaque success.

(** ** What the methods of the stepper leave alone *)
Definition same_step (s s' : stepper) : Prop :=
  p_x s' = p_x s /\ p_xold s' = p_xold s /\ p_y s' = p_y s /\ p_dydx s' = p_dydx s /\ p_atol s' = p_atol s /\ p_rtol s' = p_rtol s /\
  p_dense s' = p_dense s /\ p_hdid s' = p_hdid s /\ p_hnext s' = p_hnext s /\ p_dtype s' = p_dtype s.
Lemma same_refl s : same_step s s. Proof. repeat split. Qed.
Lemma same_trans a b c : same_step a b -> same_step b c -> same_step a c.
Proof. unfold same_step. intuition congruence. Qed.
Section Keep.
  Context {W : Type}.
  Variable f : R -> list C -> M W (list C).
  (** only the right-hand side's state and the work arrays of the stepper change *)
  Definition keep (g g' : G W) : Prop := g_con g' = g_con g /\ g_out g' = g_out g /\ g_ode g' = g_ode g /\ same_step (g_s g) (g_s g').
  (** the controller may change too *)
  Definition keepc (g g' : G W) : Prop := g_out g' = g_out g /\ g_ode g' = g_ode g /\ same_step (g_s g) (g_s g').
  Definition keeps {A} (m : M (G W) A) : Prop := forall g, keep g (snd (m g)).
  Lemma keep_refl g : keep g g. Proof. repeat split. Qed.
  Lemma keep_trans a b c : keep a b -> keep b c -> keep a c.
  Proof. intros (A & B & D & E) (A' & B' & D' & E'). unfold keep. repeat split; try congruence; eapply same_trans; eassumption. Qed.
  Lemma keepc_trans a b c : keepc a b -> keepc b c -> keepc a c.
  Proof. intros (B & D & E) (B' & D' & E'). unfold keepc. split; [congruence|]. split; [congruence|]. eapply same_trans; eassumption. Qed.
  Lemma keep_keepc a b : keep a b -> keepc a b. Proof. intros (_ & B & D & E). repeat split; auto; apply E. Qed.
  Lemma keeps_ret {A} (a : A) : keeps (ret a). Proof. intros g. apply keep_refl. Qed.
  Lemma keeps_raise {A} e : keeps (@raise _ A e). Proof. intros g. apply keep_refl. Qed.
  Lemma keeps_gets {A} (u : G W -> A) : keeps (gets u). Proof. intros g. apply keep_refl. Qed.
  Lemma keeps_bind {A B} (m : M (G W) A) (k : A -> M (G W) B) : keeps m -> (forall a, keeps (k a)) -> keeps (bind m k).
  Proof.
    intros Hm Hk g. unfold bind. specialize (Hm g). destruct (m g) as [[a|e] g1]; cbn [snd] in *; [|exact Hm]. eapply keep_trans; [exact Hm|apply Hk].
  Qed.
  Lemma keeps_deriv n x y : keeps (deriv f n x y).
  Proof.
    apply keeps_bind; [|intros a; apply keeps_ret]. intros g. unfold onw. destruct (f x y (g_w g)) as [r w]. repeat split.
  Qed.
  (** deriv leaves the stepper entirely alone *)
  Lemma deriv_s n x y g : g_s (snd (deriv f n x y g)) = g_s g.
  Proof. unfold deriv, bind, onw. destruct (f x y (g_w g)) as [[r|e] w]; reflexivity. Qed.
  Lemma keeps_dy h : keeps (dy f h).
  Proof.
    unfold dy. apply keeps_bind; [apply keeps_gets|]. intros s. cbv zeta. repeat (apply keeps_bind; [apply keeps_deriv|intros ?]). intros g. repeat split.
  Qed.
  Lemma keeps_prepare h dn : keeps (prepare_dense f h dn).
  Proof.
    unfold prepare_dense. apply keeps_bind; [apply keeps_gets|]. intros s. cbv zeta. destruct (p_k s). repeat (apply keeps_bind; [apply keeps_deriv|intros ?]). intros g. repeat split.
  Qed.
  Lemma error_ok s h : estimate_ok (error s h).
  Proof.
    unfold error. cbv zeta. destruct (existsb _ _); [exact I|]. destruct (isz _); [exact I|]. cbn. apply Rabs_pos.
  Qed.

  (** RHS-raised exceptions *)
  Definition rhs_raises (e : exn) : Prop := exists x y w, fst (f x y w) = Raise e.
  Definition only {A} (m : M (G W) A) : Prop := forall g e, fst (m g) = Raise e -> rhs_raises e.
  Lemma only_ret {A} (a : A) : only (ret a). Proof. intros g e. discriminate. Qed.
  Lemma only_gets {A} (u : G W -> A) : only (gets u). Proof. intros g e. discriminate. Qed.
  Lemma only_bind {A B} (m : M (G W) A) (k : A -> M (G W) B) : only m -> (forall a, only (k a)) -> only (bind m k).
  Proof. intros Hm Hk g e. unfold bind. specialize (Hm g e). destruct (m g) as [[a|e'] g1]; cbn [fst] in *; [apply Hk|intros E; apply Hm; congruence]. Qed.
  Lemma only_deriv n x y : only (deriv f n x y).
  Proof.
    intros g e. unfold deriv, bind, onw. destruct (f x y (g_w g)) as [[r|e'] w] eqn:E; cbn; [discriminate|]. intros H. exists x, y, (g_w g). rewrite E. cbn. congruence.
  Qed.
  Lemma only_dy h : only (dy f h).
  Proof. unfold dy. apply only_bind; [apply only_gets|]. intros s. cbv zeta. repeat (apply only_bind; [apply only_deriv|intros ?]). intros g e. discriminate. Qed.
  Lemma only_prepare h dn : only (prepare_dense f h dn).
  Proof. unfold prepare_dense. apply only_bind; [apply only_gets|]. intros s. cbv zeta. destruct (p_k s). repeat (apply only_bind; [apply only_deriv|intros ?]). intros g e. discriminate. Qed.

  (** length and origin of yout after dy *)
  Lemma dy_yout h g g' : dy f h g = (Ok tt, g') -> length (p_yout (g_s g')) = length (p_y (g_s g)) /\ p_rc (g_s g') = p_rc (g_s g).
  Proof.
    unfold dy. unfold bind at 1, gets at 1. cbv zeta. intros E.
    set (P := length (p_yout (g_s g')) = length (p_y (g_s g)) /\ p_rc (g_s g') = p_rc (g_s g)).
    pose (good := fun k : M (G W) unit => forall g1, g_s g1 = g_s g -> k g1 = (Ok tt, g') -> P).
    assert (Q : forall n x y (k : list C -> M (G W) unit), (forall a, good (k a)) -> good (bind (deriv f n x y) k)).
    { intros n x y k Hk g1 Hs. unfold bind. pose proof (deriv_s n x y g1) as Ds. destruct (deriv f n x y g1) as [[a|e] g2]; [|discriminate]. cbn [snd] in Ds. intros H. apply (Hk a g2); [congruence|exact H]. }
    refine ((_ : good _) g eq_refl E). clear E. do 11 (apply Q; intros ?).
    intros g1 Hs. unfold set_s, modify. intros H. apply (f_equal snd) in H. cbn [snd] in H. unfold P. rewrite <- H. cbn [g_s p_yout p_rc]. unfold ytemp. rewrite mk_length, Hs. auto.
  Qed.

  (** ** The retry loop *)
  Definition solver_raises (e : exn) : Prop := e = OverflowError \/ e = AssertionError \/ e = NoFuel \/ rhs_raises e.
  Lemma attempts_none fuel g : exists e, attempts f fuel None g = (Raise e, g) /\ (e = AssertionError \/ e = NoFuel).
  Proof. destruct fuel as [|k]; [exists NoFuel; split; [reflexivity|auto]|]. exists AssertionError. split; [|auto]. cbn. unfold bind, ret, gets, oncon. cbn. destruct g; reflexivity. Qed.
  Lemma attempts_spec fuel : forall h g,
    match attempts f fuel (Some h) g with
    | (Ok h', g') => keepc g g' /\ length (p_yout (g_s g')) = length (p_y (g_s g)) /\ p_rc (g_s g') = p_rc (g_s g) /\ c_reject (g_con g') = false /\
                     (exists t, 0 < t <= 1 /\ h' = t * h) /\ exists k, 0.9 <= k <= 6 /\ c_hnext (g_con g') = k * h'
    | (Raise e, g') => keepc g g' /\ solver_raises e
    end.
  Proof.
    induction fuel as [|fuel IH]; intros h g; [cbn; split; [apply keep_keepc, keep_refl|unfold solver_raises; auto]|].
    cbn [attempts]. unfold bind at 1. pose proof (keeps_dy h g) as Kd. pose proof (only_dy h g) as Od. pose proof (dy_yout h g) as Yd. destruct (dy f h g) as [[[]|e] g1]; cbn [fst snd] in *.
    2: { split; [now apply keep_keepc|]. unfold solver_raises. specialize (Od e eq_refl). auto. }
    specialize (Yd g1 eq_refl). unfold bind at 1, gets at 1. unfold bind at 1, oncon. pose proof (success_spec (error (g_s g1) h) h (g_con g1) (error_ok _ _)) as S.
    destruct (success (error (g_s g1) h) (Some h) (g_con g1)) as [[[[|] h']|e] c1].
    - destruct S as (-> & R & _ & k & Hk & _ & Hh). cbn [ret g_con g_s]. split; [apply keep_keepc in Kd; exact Kd|]. split; [apply Yd|]. split; [apply Yd|]. split; [exact R|].
      split; [exists 1; lra|]. exists k. split; [exact Hk|lra].
    - destruct h' as [h'|].
      + destruct S as (_ & _ & _ & k & Hk & ->). set (g2 := mkG _ _ _ _ _). assert (K2 : keepc g g2) by (apply keep_keepc in Kd; exact Kd). destruct (Rle_dec _ _); [split; [exact K2|unfold solver_raises; auto]|].
        specialize (IH (h * k) g2). destruct (attempts f fuel (Some (h * k)) g2) as [[h''|e] g3].
        * destruct IH as (K3 & L & Rc & Rj & (t & Ht & ->) & k' & Hk' & Hh'). split; [eapply keepc_trans; eassumption|]. destruct K2 as (_ & _ & _ & _ & Ey & _). split; [congruence|]. split; [rewrite Rc; apply Yd|]. split; [exact Rj|].
          split; [exists (t * k); split; [nra|ring]|]. exists k'. auto.
        * destruct IH as [K3 Q]. split; [eapply keepc_trans; eassumption|exact Q].
      + destruct (attempts_none fuel {| g_w := g_w g1; g_con := c1; g_s := g_s g1; g_out := g_out g1; g_ode := g_ode g1 |}) as (e & -> & He). split; [apply keep_keepc in Kd; exact Kd|]. unfold solver_raises. tauto.
    - contradiction.
  Qed.

  Lemma prepare_rc h dn g g' : prepare_dense f h dn g = (Ok tt, g') -> p_yout (g_s g') = p_yout (g_s g) /\
    let n := length (p_y (g_s g)) in let ydiff := lincomb n [(1, p_yout (g_s g)); (-1, p_y (g_s g))] in let bspl := lincomb n [(h, p_dydx (g_s g)); (-1, ydiff)] in
    exists r4 r5 r6 r7, p_rc (g_s g') = [p_y (g_s g); ydiff; bspl; lincomb n [(1, ydiff); (- h, dn); (-1, bspl)]; r4; r5; r6; r7].
  Proof.
    unfold prepare_dense. unfold bind at 1, gets at 1. cbv zeta. destruct (p_k (g_s g)) as [k2 k3 k6 k7 k8 k9 k10]. intros E.
    set (P := p_yout (g_s g') = p_yout (g_s g) /\ _).
    pose (good := fun k : M (G W) unit => forall g1, g_s g1 = g_s g -> k g1 = (Ok tt, g') -> P).
    assert (Q : forall n x y (k : list C -> M (G W) unit), (forall a, good (k a)) -> good (bind (deriv f n x y) k)).
    { intros n x y k Hk g1 Hs. unfold bind. pose proof (deriv_s n x y g1) as Ds. destruct (deriv f n x y g1) as [[a|e] g2]; [|discriminate]. cbn [snd] in Ds. intros H. apply (Hk a g2); [congruence|exact H]. }
    refine ((_ : good _) g eq_refl E). clear E. do 3 (apply Q; intros ?).
    intros g1 Hs. unfold set_s, modify. intros H. apply (f_equal snd) in H. cbn [snd] in H. unfold P. rewrite <- H. cbn [g_s p_yout p_rc]. rewrite Hs. split; [reflexivity|]. do 4 eexists. reflexivity.
  Qed.

  (** everything one step does to the objects *)
  Definition stepped (htry : R) (g g' : G W) : Prop :=
    g_out g' = g_out g /\ g_ode g' = g_ode g /\
    (exists t, 0 < t <= 1 /\ p_hdid (g_s g') = t * htry) /\ p_x (g_s g') = p_x (g_s g) + p_hdid (g_s g') /\ p_xold (g_s g') = p_x (g_s g) /\
    (exists k, 0.9 <= k <= 6 /\ p_hnext (g_s g') = k * p_hdid (g_s g')) /\ c_reject (g_con g') = false /\
    length (p_y (g_s g')) = length (p_y (g_s g)) /\ p_dtype (g_s g') = p_dtype (g_s g) /\ p_dense (g_s g') = p_dense (g_s g) /\ p_atol (g_s g') = p_atol (g_s g) /\ p_rtol (g_s g') = p_rtol (g_s g) /\
    (exists w d w', f (p_x (g_s g')) (p_y (g_s g')) w = (Ok d, w') /\ p_dydx (g_s g') = mk (length (p_y (g_s g))) (fun i => nth i d z0)) /\
    (if p_dense (g_s g) then
       let n := length (p_y (g_s g)) in let h := p_hdid (g_s g') in let ydiff := lincomb n [(1, p_y (g_s g')); (-1, p_y (g_s g))] in let bspl := lincomb n [(h, p_dydx (g_s g)); (-1, ydiff)] in
       exists r4 r5 r6 r7, p_rc (g_s g') = [p_y (g_s g); ydiff; bspl; lincomb n [(1, ydiff); (- h, p_dydx (g_s g')); (-1, bspl)]; r4; r5; r6; r7]
     else p_rc (g_s g') = p_rc (g_s g)).
  Lemma step_spec fuel htry g :
    match step f fuel htry g with
    | (Ok _, g') => stepped htry g g'
    | (Raise e, g') => keepc g g' /\ solver_raises e
    end.
  Proof.
    unfold step. unfold bind at 1. pose proof (attempts_spec fuel htry g) as A. destruct (attempts f fuel (Some htry) g) as [[h|e] g1]; [|exact A].
    destruct A as (K & L & Rc & Rj & T & k & Hk & Hh). pose proof K as (Ko & Ke & Kx & Kxo & Ky & Kd & Ka & Kr & Kde & Khd & Khn & Kdt).
    unfold bind at 1, gets at 1. unfold bind at 1. pose proof (deriv_s (length (p_y (g_s g1))) (p_x (g_s g1) + h) (p_yout (g_s g1)) g1) as Ds.
    pose proof (keeps_deriv (length (p_y (g_s g1))) (p_x (g_s g1) + h) (p_yout (g_s g1)) g1) as Dk. pose proof (only_deriv (length (p_y (g_s g1))) (p_x (g_s g1) + h) (p_yout (g_s g1)) g1) as Do.
    assert (Dw : forall a g2, deriv f (length (p_y (g_s g1))) (p_x (g_s g1) + h) (p_yout (g_s g1)) g1 = (Ok a, g2) -> exists w d w', f (p_x (g_s g1) + h) (p_yout (g_s g1)) w = (Ok d, w') /\ a = mk (length (p_y (g_s g1))) (fun i => nth i d z0)).
    { intros a g2. unfold deriv, bind, onw. destruct (f (p_x (g_s g1) + h) (p_yout (g_s g1)) (g_w g1)) as [[d|e] w] eqn:E; [|discriminate]. intros H. exists (g_w g1), d, w. split; [exact E|]. unfold ret in H. injection H. auto. }
    destruct (deriv f _ _ _ g1) as [[dn|e] g2]; cbn [fst snd] in *.
    2: { split; [eapply keepc_trans; [exact K|now apply keep_keepc]|]. unfold solver_raises. specialize (Do e eq_refl). auto. }
    destruct (Dw dn g2 eq_refl) as (w & d & w' & Ef & Edn). clear Dw Do. unfold bind at 1.
    assert (Q : match (if p_dense (g_s g1) then prepare_dense f h dn else ret tt) g2 with
      | (Ok _, g3) => keep g2 g3 /\ p_yout (g_s g3) = p_yout (g_s g2) /\ (if p_dense (g_s g1) then
           let n := length (p_y (g_s g2)) in let ydiff := lincomb n [(1, p_yout (g_s g2)); (-1, p_y (g_s g2))] in let bspl := lincomb n [(h, p_dydx (g_s g2)); (-1, ydiff)] in
           exists r4 r5 r6 r7, p_rc (g_s g3) = [p_y (g_s g2); ydiff; bspl; lincomb n [(1, ydiff); (- h, dn); (-1, bspl)]; r4; r5; r6; r7] else p_rc (g_s g3) = p_rc (g_s g2))
      | (Raise e, g3) => keep g2 g3 /\ rhs_raises e end).
    { destruct (p_dense (g_s g1)).
      - pose proof (keeps_prepare h dn g2) as Kp. pose proof (only_prepare h dn g2) as Op. pose proof (prepare_rc h dn g2) as Rp. destruct (prepare_dense f h dn g2) as [[[]|e] g3]; cbn [fst snd] in *.
        + specialize (Rp g3 eq_refl). split; [exact Kp|]. destruct Rp as [R1 R2]. split; [exact R1|exact R2].
        + split; [exact Kp|]. now apply Op.
      - cbn. split; [apply keep_refl|auto]. }
    destruct ((if p_dense (g_s g1) then prepare_dense f h dn else ret tt) g2) as [[u|e] g3].
    2: { destruct Q as [Q1 Q2]. split; [|unfold solver_raises; auto]. eapply keepc_trans; [exact K|]. apply keep_keepc. eapply keep_trans; eassumption. }
    destruct Q as (K3 & Y3 & R3). pose proof K3 as (K3c & K3o & K3e & K3x & K3xo & K3y & K3d & K3a & K3r & K3de & K3hd & K3hn & K3dt). pose proof Dk as (Dkc & Dko & Dke & _).
    unfold bind, get, set_s, modify. unfold stepped. cbn [g_out g_ode g_s g_con p_hdid p_x p_xold p_hnext p_y p_dtype p_dense p_atol p_rtol p_dydx p_rc]. rewrite Ds in *.
    split; [congruence|]. split; [congruence|]. split; [exact T|]. split; [congruence|]. split; [congruence|]. split; [exists k; split; [exact Hk|congruence]|]. split; [congruence|].
    split; [congruence|]. split; [congruence|]. split; [congruence|]. split; [congruence|]. split; [congruence|]. split.
    - exists w, d, w'. split; [rewrite K3x, Y3; exact Ef|]. congruence.
    - rewrite Kde, Ky, Kd in R3. destruct (p_dense (g_s g)).
      + cbv zeta in *. rewrite Y3. exact R3.
      + congruence.
  Qed.
End Keep.
Opaque step attempts.

(** ** Termination of the retry loop *)
Transparent attempts.
Lemma attempts_ends {W} (f : R -> list C -> M W (list C)) (Hf : forall x y w, fst (f x y w) <> Raise NoFuel) : forall N h g fuel,
  (N + 2 <= fuel)%nat -> Rabs h * 0.9 ^ N <= Rabs (p_x (g_s g)) * EPS -> fst (attempts f fuel (Some h) g) <> Raise NoFuel.
Proof.
  induction N as [|N IH]; intros h g fuel Hl Hh; (destruct fuel as [|fuel]; [lia|]); cbn [attempts]; unfold bind at 1;
    pose proof (keeps_dy f h g) as Kd; pose proof (only_dy f h g) as Od; destruct (dy f h g) as [[[]|e] g1]; cbn [fst snd] in *;
    try (intros E; injection E as ->; destruct (Od NoFuel eq_refl) as (x & y & w & Ew); exact (Hf _ _ _ Ew));
    unfold bind at 1, gets at 1; unfold bind at 1, oncon; pose proof (success_spec (error (g_s g1) h) h (g_con g1) (error_ok _ _)) as S;
    destruct (success (error (g_s g1) h) (Some h) (g_con g1)) as [[[[|] [h'|]]|e] c1]; try contradiction; try discriminate; try (destruct S as [S _]; discriminate S).
  all: destruct Kd as (_ & _ & _ & Kx & _); try rewrite Kx.
  2, 4: (destruct fuel as [|fuel]; [lia|]; cbn; discriminate).
  all: destruct S as (_ & _ & _ & k & Hk & ->); destruct (Rle_dec _ _) as [Q|Q]; [discriminate|].
  - exfalso. apply Q. rewrite pow_O, Rmult_1_r in Hh. rewrite Rabs_mult, (Rabs_pos_eq k) by lra. pose proof (Rabs_pos h). nra.
  - apply IH; [lia|]. cbn [g_s]. rewrite Kx. rewrite Rabs_mult, (Rabs_pos_eq k) by lra. rewrite <- tech_pow_Rmult in Hh. pose proof (Rabs_pos h). assert (0 < 0.9 ^ N) by (apply pow_lt; lra).
    eapply Rle_trans; [|exact Hh]. rewrite Rmult_assoc. apply Rmult_le_compat_l; [lra|]. apply Rmult_le_compat_r; lra.
Qed.
Opaque attempts.
Lemma EPS_pos : 0 < EPS. Proof. unfold EPS. apply Rinv_0_lt_compat, pow_lt. lra. Qed.
Lemma shrink_exists h x : x <> 0 -> exists N, Rabs h * 0.9 ^ N <= Rabs x * EPS.
Proof.
  intros Hx. pose proof (Rabs_pos_lt x Hx) as P. pose proof EPS_pos as E. pose proof (Rabs_pos h) as Ph.
  destruct (pow_lt_1_zero 0.9 ltac:(rewrite Rabs_pos_eq; lra) (Rabs x * EPS / (Rabs h + 1))) as [N HN]; [apply Rdiv_lt_0_compat; nra|]. exists N. specialize (HN N (le_n N)).
  rewrite Rabs_pos_eq in HN by (apply pow_le; lra). apply Rlt_le in HN. assert (0 < 0.9 ^ N) by (apply pow_lt; lra).
  apply (Rmult_le_compat_r (Rabs h + 1)) in HN; [|lra]. unfold Rdiv in HN. rewrite Rmult_assoc, Rinv_l, Rmult_1_r in HN by lra. nra.
Qed.
Transparent step.
Lemma step_ends {W} (f : R -> list C -> M W (list C)) (Hf : forall x y w, fst (f x y w) <> Raise NoFuel) fuel htry g :
  fst (attempts f fuel (Some htry) g) <> Raise NoFuel -> fst (step f fuel htry g) <> Raise NoFuel.
Proof.
  intros H. assert (On : forall A (m : M (G W) A), only f m -> forall g, fst (m g) <> Raise NoFuel).
  { intros A m Hm g0 E. destruct (Hm g0 NoFuel E) as (x & y & w & Ew). exact (Hf _ _ _ Ew). }
  unfold step. unfold bind at 1. destruct (attempts f fuel (Some htry) g) as [[h|e] g1]; [|cbn [fst] in *; congruence]. cbn [fst] in *.
  apply (On unit). apply only_bind; [apply only_gets|]. intros s. apply only_bind; [apply only_deriv|]. intros dn. apply only_bind; [destruct (p_dense s); [apply only_prepare|apply only_ret]|]. intros u.
  apply only_bind; [intros g0 e; discriminate|]. intros g2 g0 e. discriminate.
Qed.
Opaque step.

(*! C41: whatever the right-hand side answers, a step that returns advanced x by exactly hdid, hdid is a positive fraction (at most all) of the attempted step, y keeps its length, the new derivative is the right-hand side's answer at the new x and y, and the proposed next step is 0.9 to 6 times hdid; a step that raises leaves x, y, dydx, hdid and hnext as they were, and the exception is the underflow error, the NaN assertion or one raised by the right-hand side itself. From x <> 0 the retry loop ends: with enough fuel, the fuel is never used up. *)
Lemma C41_step_or_raise_l : forall (W : Type) (f : R -> list C -> M W (list C)) (htry : R) (g : G W),
  (forall fuel, match step f fuel htry g with
    | (Ok _, g') => (exists t, 0 < t <= 1 /\ p_hdid (g_s g') = t * htry) /\ p_x (g_s g') = p_x (g_s g) + p_hdid (g_s g') /\ length (p_y (g_s g')) = length (p_y (g_s g)) /\
        (exists w d w', f (p_x (g_s g')) (p_y (g_s g')) w = (Ok d, w') /\ p_dydx (g_s g') = mk (length (p_y (g_s g))) (fun i => nth i d z0)) /\
        (exists k, 0.9 <= k <= 6 /\ p_hnext (g_s g') = k * p_hdid (g_s g'))
    | (Raise e, g') => p_x (g_s g') = p_x (g_s g) /\ p_y (g_s g') = p_y (g_s g) /\ p_dydx (g_s g') = p_dydx (g_s g) /\ p_hdid (g_s g') = p_hdid (g_s g) /\ p_hnext (g_s g') = p_hnext (g_s g) /\
        (e = OverflowError \/ e = AssertionError \/ e = NoFuel \/ exists x y w, fst (f x y w) = Raise e)
    end) /\
  (p_x (g_s g) <> 0 -> (forall x y w, fst (f x y w) <> Raise NoFuel) -> exists fuel0, forall fuel, (fuel0 <= fuel)%nat -> fst (step f fuel htry g) <> Raise NoFuel).
Proof.
  intros W f htry g. split.
  - intros fuel. pose proof (step_spec f fuel htry g) as S. destruct (step f fuel htry g) as [[u|e] g'].
    + destruct S as (_ & _ & T & X & _ & K & _ & L & _ & _ & _ & _ & F & _). auto.
    + destruct S as ((_ & _ & X & _ & Y & D & _ & _ & _ & H & N & _) & E). auto 10.
  - intros Hx Hf. destruct (shrink_exists htry _ Hx) as [N HN]. exists (N + 2)%nat. intros fuel Hfu. apply step_ends; [exact Hf|]. now apply (attempts_ends f Hf N).
Qed.

(** ** Dense output *)
Lemma C_ext' (a b : C) : Re a = Re b -> Im a = Im b -> a = b.
Proof. destruct a, b. cbn. congruence. Qed.
Lemma is_derive_val (u v : R -> R) (x a b : R) : (forall x, u x = v x) -> is_derive v x a -> a = b -> is_derive u x b.
Proof. intros E H <-. apply (is_derive_ext v); [intros y; symmetry; apply E|exact H]. Qed.
(** the interpolation polynomial of dense_out over the reals *)
Definition interp (r0 r1 r2 r3 r4 r5 r6 r7 t : R) : R :=
  r0 + t * (r1 + (1 - t) * (r2 + t * (r3 + (1 - t) * (r4 + t * (r5 + (1 - t) * (r6 + t * r7)))))).
Lemma interp_slope r0 r1 r2 r3 r4 r5 r6 r7 x0 h : h <> 0 ->
  is_derive (fun x => interp r0 r1 r2 r3 r4 r5 r6 r7 ((x - x0) / h)) x0 ((r1 + r2) / h) /\
  is_derive (fun x => interp r0 r1 r2 r3 r4 r5 r6 r7 ((x - x0) / h)) (x0 + h) ((r1 - r2 - r3) / h).
Proof. intros Hh. unfold interp. split; (auto_derive; [exact I|]); field; exact Hh. Qed.
Lemma Re_scale t z : Re (RtoC t * z)%C = t * Re z. Proof. destruct z. cbn. ring. Qed.
Lemma Im_scale t z : Im (RtoC t * z)%C = t * Im z. Proof. destruct z. cbn. ring. Qed.
Lemma Re_add a b : Re (a + b)%C = Re a + Re b. Proof. reflexivity. Qed.
Lemma Im_add a b : Im (a + b)%C = Im a + Im b. Proof. reflexivity. Qed.
Lemma Re_sub a b : Re (a - b)%C = Re a - Re b. Proof. reflexivity. Qed.
Lemma Im_sub a b : Im (a - b)%C = Im a - Im b. Proof. reflexivity. Qed.
Lemma dense_out_parts s x h i : (i < length (p_y s))%nat -> let r k := nth i (nth k (p_rc s) []) z0 in
  Re (nth i (dense_out s x h) z0) = interp (Re (r 0%nat)) (Re (r 1%nat)) (Re (r 2%nat)) (Re (r 3%nat)) (Re (r 4%nat)) (Re (r 5%nat)) (Re (r 6%nat)) (Re (r 7%nat)) ((x - p_xold s) / h) /\
  Im (nth i (dense_out s x h) z0) = interp (Im (r 0%nat)) (Im (r 1%nat)) (Im (r 2%nat)) (Im (r 3%nat)) (Im (r 4%nat)) (Im (r 5%nat)) (Im (r 6%nat)) (Im (r 7%nat)) ((x - p_xold s) / h).
Proof.
  intros Hi r. unfold dense_out. cbv zeta. rewrite mk_nth by exact Hi. unfold interp.
  split; do 8 (rewrite ?Re_add, ?Im_add, ?Re_scale, ?Im_scale); reflexivity.
Qed.
Lemma nth_lincomb n l i : (i < n)%nat -> nth i (lincomb n l) z0 = comb l i. Proof. intros H. unfold lincomb. now rewrite mk_nth. Qed.

(*! C45: after a step with dense output from x to x' (attempted step nonzero), the interpolant takes the old state at x and the new state at x', and its slope (of the real and of the imaginary part of every component) is the derivative used at x and the derivative the right-hand side returned at x'. As the new state and derivative are those the next step starts from, consecutive steps join with a continuous derivative. *)
Lemma C45_dense_hermite_l : forall (W : Type) (f : R -> list C -> M W (list C)) (fuel : nat) (htry : R) (g g' : G W),
  step f fuel htry g = (Ok tt, g') -> p_dense (g_s g) = true -> htry <> 0 ->
  let s := g_s g in let s' := g_s g' in let D x := dense_out s' x (p_hdid s') in
  D (p_x s) = p_y s /\ D (p_x s') = p_y s' /\
  forall i, (i < length (p_y s))%nat ->
    is_derive (fun x => Re (nth i (D x) z0)) (p_x s) (Re (nth i (p_dydx s) z0)) /\ is_derive (fun x => Im (nth i (D x) z0)) (p_x s) (Im (nth i (p_dydx s) z0)) /\
    is_derive (fun x => Re (nth i (D x) z0)) (p_x s') (Re (nth i (p_dydx s') z0)) /\ is_derive (fun x => Im (nth i (D x) z0)) (p_x s') (Im (nth i (p_dydx s') z0)).
Proof.
  intros W f fuel htry g g' E Hd Hh s s' D. pose proof (step_spec f fuel htry g) as S. rewrite E in S. destruct S as (_ & _ & (t & Ht & Hdid) & X & Xo & _ & _ & L & _ & _ & _ & _ & _ & Rc). rewrite Hd in Rc. cbv zeta in Rc. destruct Rc as (r4 & r5 & r6 & r7 & Rc).
  fold s s' in Hdid, X, Xo, L, Rc. assert (Hne : p_hdid s' <> 0) by (rewrite Hdid; apply Rmult_integral_contrapositive; split; lra).
  assert (Cf : forall i, (i < length (p_y s))%nat -> let y := nth i (p_y s) z0 in let yo := nth i (p_y s') z0 in let d := nth i (p_dydx s) z0 in let dn := nth i (p_dydx s') z0 in let r k := nth i (nth k (p_rc s') []) z0 in
    r 0%nat = y /\ r 1%nat = (yo - y)%C /\ r 2%nat = (RtoC (p_hdid s') * d - (yo - y))%C /\ r 3%nat = ((yo - y) - RtoC (p_hdid s') * dn - (RtoC (p_hdid s') * d - (yo - y)))%C).
  { intros i Hi. cbv zeta. rewrite Rc. cbn [nth]. rewrite !nth_lincomb by exact Hi. unfold comb. cbn [fold_left fst snd]. rewrite !nth_lincomb by exact Hi. unfold comb. cbn [fold_left fst snd]. rewrite !nth_lincomb by exact Hi. unfold comb. cbn [fold_left fst snd].
    split; [reflexivity|]. split; [|split]; apply C_ext'; unfold Cminus, Copp, Cplus, Cmult, RtoC, Re, Im; cbn [fst snd]; ring. }
  assert (P : forall i, (i < length (p_y s))%nat -> let y := nth i (p_y s) z0 in let yo := nth i (p_y s') z0 in let d := nth i (p_dydx s) z0 in let dn := nth i (p_dydx s') z0 in
    exists a b, (forall x, Re (nth i (D x) z0) = interp (Re y) (Re yo - Re y) (p_hdid s' * Re d - (Re yo - Re y)) ((Re yo - Re y) - p_hdid s' * Re dn - (p_hdid s' * Re d - (Re yo - Re y))) (fst (fst a)) (snd (fst a)) (fst (snd a)) (snd (snd a)) ((x - p_x s) / p_hdid s')) /\
      (forall x, Im (nth i (D x) z0) = interp (Im y) (Im yo - Im y) (p_hdid s' * Im d - (Im yo - Im y)) ((Im yo - Im y) - p_hdid s' * Im dn - (p_hdid s' * Im d - (Im yo - Im y))) (fst (fst b)) (snd (fst b)) (fst (snd b)) (snd (snd b)) ((x - p_x s) / p_hdid s'))).
  { intros i Hi. cbv zeta. destruct (Cf i Hi) as (R0 & R1 & R2 & R3). pose (r k := nth i (nth k (p_rc s') []) z0).
    exists ((Re (r 4%nat), Re (r 5%nat)), (Re (r 6%nat), Re (r 7%nat))), ((Im (r 4%nat), Im (r 5%nat)), (Im (r 6%nat), Im (r 7%nat))). cbn [fst snd].
    split; intros x'; unfold D; rewrite <- L in Hi; destruct (dense_out_parts s' x' (p_hdid s') i Hi) as [Q1 Q2]; [rewrite Q1|rewrite Q2]; rewrite R0, R1, R2, R3, Xo; unfold r; do 3 (rewrite ?Re_sub, ?Im_sub, ?Re_scale, ?Im_scale); reflexivity. }
  assert (Ev : forall i, (i < length (p_y s))%nat -> nth i (D (p_x s)) z0 = nth i (p_y s) z0 /\ nth i (D (p_x s')) z0 = nth i (p_y s') z0).
  { intros i Hi. destruct (P i Hi) as (a & b & Q1 & Q2). split; apply C_ext'.
    - rewrite Q1. unfold interp. replace ((p_x s - p_x s) / p_hdid s') with 0 by (field; exact Hne). ring.
    - rewrite Q2. unfold interp. replace ((p_x s - p_x s) / p_hdid s') with 0 by (field; exact Hne). ring.
    - rewrite Q1. unfold interp. replace ((p_x s' - p_x s) / p_hdid s') with 1 by (rewrite X; field; exact Hne). ring.
    - rewrite Q2. unfold interp. replace ((p_x s' - p_x s) / p_hdid s') with 1 by (rewrite X; field; exact Hne). ring. }
  assert (LD : forall x, length (D x) = length (p_y s)) by (intros x; unfold D, dense_out; cbv zeta; now rewrite mk_length).
  split; [apply (nth_ext _ _ z0 z0); [apply LD|]; rewrite LD; intros i Hi; apply (Ev i Hi)|]. split; [apply (nth_ext _ _ z0 z0); [rewrite LD; congruence|]; rewrite LD; intros i Hi; apply (Ev i Hi)|].
  intros i Hi. destruct (P i Hi) as (a & b & Q1 & Q2).
  set (y := nth i (p_y s) z0) in *. set (yo := nth i (p_y s') z0) in *. set (d := nth i (p_dydx s) z0) in *. set (dn := nth i (p_dydx s') z0) in *. set (h := p_hdid s') in *.
  destruct (interp_slope (Re y) (Re yo - Re y) (h * Re d - (Re yo - Re y)) ((Re yo - Re y) - h * Re dn - (h * Re d - (Re yo - Re y))) (fst (fst a)) (snd (fst a)) (fst (snd a)) (snd (snd a)) (p_x s) h Hne) as [S1 S2].
  destruct (interp_slope (Im y) (Im yo - Im y) (h * Im d - (Im yo - Im y)) ((Im yo - Im y) - h * Im dn - (h * Im d - (Im yo - Im y))) (fst (fst b)) (snd (fst b)) (fst (snd b)) (snd (snd b)) (p_x s) h Hne) as [S3 S4].
  rewrite X. fold h. split; [|split; [|split]].
  - apply (is_derive_val _ _ _ _ _ Q1 S1). field. exact Hne.
  - apply (is_derive_val _ _ _ _ _ Q2 S3). field. exact Hne.
  - apply (is_derive_val _ _ _ _ _ Q1 S2). field. exact Hne.
  - apply (is_derive_val _ _ _ _ _ Q2 S4). field. exact Hne.
Qed.

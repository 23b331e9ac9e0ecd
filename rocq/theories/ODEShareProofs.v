(** The controller shared by all solvers (C47), and a concrete run (C44, C47). *)
From Coq Require Import Reals List ZArith QArith Qreals Bool Arith Lia Lra.
From Coquelicot Require Import Complex.
From Verif Require Import Base CNum NumPy ModelDopr ModelODE ODEOutputProofs ODEStepProofs ODETableauProofs ODEIntProofs ODERunProofs.
Import ListNotations.
Local Open Scope R_scope.
Local Open Scope py_scope.
Local Notation z0 := (RtoC 0).

(** ** What a run can see of the controller's past *)
Section Sim.
  Context {W : Type}.
  Variable f : R -> list C -> M W (list C).
  Definition sim (P : ctrl -> ctrl -> Prop) (a b : G W) : Prop := g_w a = g_w b /\ g_s a = g_s b /\ g_out a = g_out b /\ g_ode a = g_ode b /\ P (g_con a) (g_con b).
  Definition simm {A} (P : ctrl -> ctrl -> Prop) (m m' : M (G W) A) : Prop := forall a b, sim P a b -> fst (m a) = fst (m' b) /\ sim P (snd (m a)) (snd (m' b)).
  Lemma sim_bind {A B} P (m m' : M (G W) A) (k k' : A -> M (G W) B) : simm P m m' -> (forall x, simm P (k x) (k' x)) -> simm P (bind m k) (bind m' k').
  Proof. intros H Hk a b S. destruct (H a b S) as [E S']. unfold bind. destruct (m a) as [[x|e] a'], (m' b) as [[y|e'] b']; cbn [fst snd] in *; try discriminate; [injection E as ->; apply Hk, S'|injection E as ->; auto]. Qed.
  Lemma sim_ret {A} P (x : A) : simm P (ret x) (ret x). Proof. intros a b S. auto. Qed.
  Lemma sim_raise {A} P e : simm P (@raise _ A e) (raise e). Proof. intros a b S. auto. Qed.
  Lemma sim_gets {B} P (m m' : stepper -> M (G W) B) : (forall s, simm P (m s) (m' s)) -> simm P (bind (gets g_s) m) (bind (gets g_s) m').
  Proof. intros H a b S. unfold bind, gets. destruct S as (? & E & S). rewrite E. apply H. repeat split; auto; apply S. Qed.
  Lemma sim_get {B} P (k k' : G W -> M (G W) B) : (forall a b, sim P a b -> fst (k a a) = fst (k' b b) /\ sim P (snd (k a a)) (snd (k' b b))) -> simm P (bind get k) (bind get k').
  Proof. intros H a b S. unfold bind, get. now apply H. Qed.
  Lemma sim_deriv P n x y : simm P (deriv f n x y) (deriv f n x y).
  Proof. intros a b (E1 & E2 & E3 & E4 & E5). unfold deriv, bind, onw. rewrite E1. destruct (f x y (g_w b)) as [[d|e] w]; cbn; (split; [reflexivity|]); repeat split; assumption. Qed.
  Lemma sim_set_s P u : simm P (set_s u) (set_s u).
  Proof. intros a b (E1 & E2 & E3 & E4 & E5). unfold set_s, modify. cbn. split; [reflexivity|]. unfold sim. cbn. now rewrite E2. Qed.
  Lemma sim_set_e P u : simm P (set_e u) (set_e u).
  Proof. intros a b (E1 & E2 & E3 & E4 & E5). unfold set_e, modify. cbn. split; [reflexivity|]. unfold sim. cbn. now rewrite E4. Qed.
  Lemma sim_onout {A} P (m : M output A) : simm P (onout m) (onout m).
  Proof. intros a b (E1 & E2 & E3 & E4 & E5). unfold onout. rewrite E3. destruct (m (g_out b)) as [r o]. cbn. split; [reflexivity|]. unfold sim. cbn. auto. Qed.
  Lemma sim_dy P h : simm P (dy f h) (dy f h).
  Proof. unfold dy. apply sim_gets. intros s. cbv zeta. do 11 (apply sim_bind; [apply sim_deriv|intros ?]). apply sim_set_s. Qed.
  Lemma sim_prepare P h dn : simm P (prepare_dense f h dn) (prepare_dense f h dn).
  Proof. unfold prepare_dense. apply sim_gets. intros s. cbv zeta. destruct (p_k s). do 3 (apply sim_bind; [apply sim_deriv|intros ?]). apply sim_set_s. Qed.
  Lemma sim_record P fuel nstp x y h : simm P (record fuel nstp x y h) (record fuel nstp x y h).
  Proof. unfold record. apply sim_get. intros a b S. pose proof S as (E1 & E2 & E3 & E4 & E5). rewrite E2, E4. destruct (e_dense (g_ode b)); now apply sim_onout. Qed.
  Definition same_rej (c c' : ctrl) : Prop := c_reject c = c_reject c'.
  Definition same_next (c c' : ctrl) : Prop := c_reject c = c_reject c' /\ c_hnext c = c_hnext c'.
  Lemma success_sim err h c c' : same_rej c c' -> fst (success err h c) = fst (success err h c') /\ same_rej (snd (success err h c)) (snd (success err h c')) /\
    (forall o, fst (success err h c) = Ok (true, o) -> same_next (snd (success err h c)) (snd (success err h c'))).
  Proof.
    unfold same_rej, same_next, success. intros H. destruct h as [h|]; [|cbn; repeat split; auto; discriminate].
    destruct err as [e| |]; [|cbn; repeat split; auto; discriminate|cbn; repeat split; auto; discriminate].
    destruct (Rle_dec e 1); [|cbn; repeat split; auto; discriminate]. destruct (Rlt_dec e 0); [cbn; repeat split; auto; discriminate|]. unfold bind, modify, ret. cbn [fst snd c_reject c_hnext]. rewrite H. auto.
  Qed.
  Definition att {A} (m : M (G W) A) : Prop := forall a b, sim same_rej a b -> fst (m a) = fst (m b) /\ sim same_rej (snd (m a)) (snd (m b)) /\ (forall x, fst (m a) = Ok x -> sim same_next (snd (m a)) (snd (m b))).
  Lemma att_bind {A B} (m : M (G W) A) (k : A -> M (G W) B) : simm same_rej m m -> (forall x, att (k x)) -> att (bind m k).
  Proof. intros H Hk a b S. destruct (H a b S) as [E S']. unfold bind. destruct (m a) as [[x|e] a'], (m b) as [[y|e'] b']; cbn [fst snd] in *; try discriminate; [injection E as ->; apply Hk, S'|injection E as ->; split; [reflexivity|]; split; [exact S'|discriminate]]. Qed.
  Lemma att_gets {B} (m : stepper -> M (G W) B) : (forall s, att (m s)) -> att (bind (gets g_s) m).
  Proof. intros H a b S. unfold bind, gets. pose proof S as (? & E & _). rewrite E. now apply H. Qed.
  Lemma att_raise {A} e : att (@raise _ A e). Proof. intros a b S. split; [reflexivity|]. split; [exact S|discriminate]. Qed.
  Lemma sim_attempts : forall fuel h, att (attempts f fuel h).
  Proof.
    induction fuel as [|fuel IH]; intros h; [apply att_raise|]. cbn [attempts]. apply att_bind; [destruct h; [apply sim_dy|apply sim_ret]|intros _]. apply att_gets. intros s.
    set (er := match h with Some h => error s h | None => NaN end). intros a b S. pose proof S as (E1 & E2 & E3 & E4 & E5). unfold bind, oncon.
    pose proof (success_sim er h (g_con a) (g_con b) E5) as (F1 & F2 & F3). destruct (success er h (g_con a)) as [[[o h']|e] c1], (success er h (g_con b)) as [[[o2 h2]|e2] c2]; cbn [fst snd] in F1, F2, F3; try discriminate.
    2: { injection F1 as ->. cbn [fst snd]. split; [reflexivity|]. split; [|discriminate]. repeat split; assumption. }
    injection F1 as <- <-. set (a2 := mkG _ c1 _ _ _). set (b2 := mkG _ c2 _ _ _). assert (S2 : sim same_rej a2 b2) by (repeat split; assumption).
    destruct h' as [h'|]; destruct o.
    - cbn [ret fst snd]. split; [reflexivity|]. split; [exact S2|]. intros x _. specialize (F3 _ eq_refl). repeat split; try assumption; apply F3.
    - destruct (Rle_dec _ _); [now apply att_raise|]. apply IH, S2.
    - apply IH, S2.
    - apply IH, S2.
  Qed.
  Lemma sim_step fuel h : simm same_rej (step f fuel h) (step f fuel h).
  Proof.
    intros a b S. unfold step. destruct (sim_attempts fuel (Some h) a b S) as (E & S1 & S2). match goal with |- fst (bind ?m ?k a) = _ /\ _ => set (K := k) end. unfold bind.
    destruct (attempts f fuel (Some h) a) as [[x|e] a1], (attempts f fuel (Some h) b) as [[x'|e'] b1]; cbn [fst snd] in E, S1, S2; try discriminate; [|injection E as ->; auto]. injection E as <-. specialize (S2 x eq_refl).
    assert (Q : simm same_next (K x) (K x)).
    { unfold K. apply sim_gets. intros s. apply sim_bind; [apply sim_deriv|intros dn]. apply sim_bind; [destruct (p_dense s); [apply sim_prepare|apply sim_ret]|intros _]. apply sim_get. intros a0 b0 S0. pose proof S0 as (_ & _ & _ & _ & _ & ->). now apply sim_set_s. }
    destruct (Q _ _ S2) as (Q1 & Q2 & Q3 & Q4 & Q5 & Q6). split; [exact Q1|]. repeat split; try assumption. apply Q6.
  Qed.
  Lemma sim_iloop fuel : forall left nstp, simm same_rej (iloop f fuel left nstp) (iloop f fuel left nstp).
  Proof.
    induction left as [|left IH]; intros nstp; [apply sim_raise|]. cbn [iloop]. apply sim_get. intros a b S. pose proof S as (_ & E2 & _ & E4 & _). rewrite E2, E4. cbv zeta. revert a b S E2 E4. intros a b S E2 E4.
    match goal with |- fst (?m a) = _ /\ _ => assert (Q : simm same_rej m m); [|now apply Q] end.
    apply sim_bind; [apply sim_set_e|intros _]. apply sim_bind; [apply sim_step|intros _]. apply sim_gets. intros s. apply sim_bind; [apply sim_set_e|intros _]. apply sim_bind; [apply sim_record|intros _].
    apply sim_get. intros a1 b1 S1. pose proof S1 as (_ & _ & F3 & F4 & _). rewrite F3, F4. destruct (Rle_dec 0 _).
    - match goal with |- fst (?m a1) = _ /\ _ => assert (Q : simm same_rej m m); [|now apply Q] end. apply sim_bind; [apply sim_set_e|intros _]. destruct (match o_kmax (g_out b1) with Some _ => _ | None => _ end); [|apply sim_ret]. destruct (Rlt_dec _ _); [apply sim_onout|apply sim_ret].
    - destruct (Rle_dec _ _); [now apply sim_raise|]. match goal with |- fst (?m a1) = _ /\ _ => assert (Q : simm same_rej m m); [|now apply Q] end. apply sim_bind; [apply sim_set_e|intros _; apply IH].
  Qed.
  Lemma sim_integrate fuel : simm same_rej (integrate f fuel) (integrate f fuel).
  Proof.
    unfold integrate. apply sim_get. intros a b S. pose proof S as (_ & E2 & _ & E4 & _). rewrite E2, E4. match goal with |- fst (?m a) = _ /\ _ => assert (Q : simm same_rej m m); [|now apply Q] end.
    apply sim_bind; [apply sim_deriv|intros d]. apply sim_bind; [apply sim_set_s|intros _]. apply sim_bind; [apply sim_record|intros _; apply sim_iloop].
  Qed.
End Sim.

(*! C47: what does hold: the only thing a run can see of what happened before in the process is the controller's rejected flag: from any two controller states with the same flag it returns or raises the same, with the same samples, state, counters and right-hand side effects. An integration that returned has cleared the flag, so a later solver behaves as in a fresh process, whatever it solves. *)
Lemma C47_after_success_partial_l : forall (W : Type) (f : R -> list C -> M W (list C)) (fuel : nat) (w : W) (ystart : list C) (x1 x2 atol rtol h1 hmin : R) (nsaves : option nat) (dense : bool) (dt : dtype),
  let run con := integrate f fuel (new_ode w con ystart x1 x2 atol rtol h1 hmin (new_output nsaves) dense dt) in
  let same (a b : result unit * G W) := fst a = fst b /\ g_w (snd a) = g_w (snd b) /\ g_s (snd a) = g_s (snd b) /\ g_out (snd a) = g_out (snd b) /\ g_ode (snd a) = g_ode (snd b) in
  (forall con con', c_reject con = c_reject con' -> same (run con) (run con')) /\
  (forall (V : Type) (fA : R -> list C -> M V (list C)) (fuelA : nat) (v : V) (con : ctrl) (yA : list C) (a1 a2 atolA rtolA hA hminA : R) (k : nat) (denseA : bool) (dtA : dtype) (g : G V), a1 <> a2 -> 0 <= hminA ->
     integrate fA fuelA (new_ode v con yA a1 a2 atolA rtolA hA hminA (new_output (Some k)) denseA dtA) = (Ok tt, g) -> same (run (g_con g)) (run new_ctrl)).
Proof.
  intros W f fuel w ys x1 x2 atol rtol h1 hmin ns dense dt run same.
  assert (A : forall con con', c_reject con = c_reject con' -> same (run con) (run con')).
  { intros con con' H. destruct (sim_integrate f fuel (new_ode w con ys x1 x2 atol rtol h1 hmin (new_output ns) dense dt) (new_ode w con' ys x1 x2 atol rtol h1 hmin (new_output ns) dense dt)) as (E & S1 & S2 & S3 & S4 & _); [repeat split; exact H|]. unfold same, run. auto. }
  split; [exact A|]. intros V fA fuelA v con yA a1 a2 atolA rtolA hA hminA k denseA dtA g Ha Hh E. apply A. pose proof (integrate_post fA fuelA v con yA a1 a2 atolA rtolA hA hminA k denseA dtA Ha Hh) as P. rewrite E in P. destruct P as (_ & _ & _ & _ & _ & _ & R & _). exact R.
Qed.

(** Proofs about group velocity, delay, dispersion and phase-matching bandwidth of a crystal: C94, C95, C96, C97. *)
From Coq Require Import String.
From Coq Require Import Reals List ZArith Bool Arith Lra Lia Psatz Factorial.
From Coquelicot Require Import Coquelicot.
From Verif Require Import Base CNum NumPy ModelPulse ModelCrystal ModelBeam ModelDFG ModelCrystalMore.
Import ListNotations.
Local Open Scope R_scope.
Local Open Scope py_scope.

(** [F 0], [F 1], ... are successive derivatives within [r] of [x] *)
Definition derivatives (F : nat -> R -> R) (K : nat) (x r : R) : Prop :=
  forall k t, (k < K)%nat -> Rabs (t - x) < r -> is_derive (F k) t (F (S k) t).

Lemma derivatives_n F K x r : derivatives F K x r -> forall k t, (k <= K)%nat -> Rabs (t - x) < r -> ex_derive_n (F 0%nat) k t /\ Derive_n (F 0%nat) k t = F k t.
Proof.
  intros H. induction k as [|k IH]; intros t Hk Ht.
  - split; cbn; [exact Logic.I | reflexivity].
  - assert (L : locally t (fun u => Derive_n (F 0%nat) k u = F k u)).
    { assert (P : 0 < r - Rabs (t - x)) by lra. exists (mkposreal _ P). intros u Hu.
      apply (IH u); [lia|]. unfold ball in Hu; cbn in Hu; unfold AbsRing_ball, abs, minus, plus, opp in Hu; cbn in Hu.
      replace (u - x) with ((u + - t) + (t - x)) by ring. eapply Rle_lt_trans; [apply Rabs_triang|]. lra. }
    assert (D : is_derive (fun u => Derive_n (F 0%nat) k u) t (F (S k) t)).
    { eapply is_derive_ext_loc; [|apply (H k t); [lia | exact Ht]].
      eapply filter_imp; [|exact L]. intros u Hu. symmetry. exact Hu. }
    split; [exists (F (S k) t); exact D | exact (is_derive_unique _ _ _ D)].
Qed.

(** Taylor's formula to degree n with the remainder, on the right *)
Lemma taylor_right n F x r h M : derivatives F (S n) x r -> 0 < h < r -> (forall t, Rabs (t - x) <= h -> Rabs (F (S n) t) <= M) ->
  exists rem, Rabs rem <= h ^ (S n) / INR (fact (S n)) * M /\
    F 0%nat (x + h) = sum_f_R0 (fun m => h ^ m / INR (fact m) * F m x) n + rem.
Proof.
  intros H Hh B.
  assert (A : forall t, x <= t <= x + h -> Rabs (t - x) < r) by (intros t Ht; rewrite Rabs_pos_eq; lra).
  destruct (Taylor_Lagrange (F 0%nat) n x (x + h)) as (zeta & Hz & E).
  - lra.
  - intros t Ht k Hk. apply (derivatives_n F (S n) x r H k t Hk). apply A, Ht.
  - exists (h ^ (S n) / INR (fact (S n)) * F (S n) zeta). split.
    + rewrite Rabs_mult. assert (P : 0 <= h ^ (S n) / INR (fact (S n))).
      { apply Rmult_le_pos; [apply pow_le; lra|]. left. apply Rinv_0_lt_compat, INR_fact_lt_0. }
      rewrite (Rabs_pos_eq _ P). apply Rmult_le_compat_l; [exact P|]. apply B. rewrite Rabs_pos_eq; lra.
    + rewrite E. replace (x + h - x) with h by ring.
      rewrite (proj2 (derivatives_n F (S n) x r H (S n) zeta (le_n _) ltac:(apply A; lra))).
      f_equal. apply sum_eq. intros m Hm. rewrite (proj2 (derivatives_n F (S n) x r H m x ltac:(lia) ltac:(apply A; lra))). reflexivity.
Qed.

Lemma derivatives_mirror F K x r : derivatives F K x r -> derivatives (fun k t => (-1) ^ k * F k (2 * x - t)) K x r.
Proof.
  intros H k t Hk Ht.
  assert (D : is_derive (F k) (2 * x - t) (F (S k) (2 * x - t))).
  { apply H; [exact Hk|]. replace (2 * x - t - x) with (- (t - x)) by ring. rewrite Rabs_Ropp. exact Ht. }
  assert (G : is_derive (fun t => 2 * x - t) t (-1)) by (auto_derive; [exact Logic.I | ring]).
  pose proof (is_derive_comp (F k) (fun t => 2 * x - t) t _ _ D G) as C.
  pose proof (is_derive_scal _ t ((-1) ^ k) _ C) as S.
  eapply is_derive_ext; [|replace ((-1) ^ Datatypes.S k * F (Datatypes.S k) (2 * x - t)) with ((-1) ^ k * scal (-1) (F (Datatypes.S k) (2 * x - t))); [exact S|]].
  - intros u. reflexivity.
  - unfold scal; cbn. unfold mult; cbn. ring.
Qed.

Lemma taylor_left n F x r h M : derivatives F (S n) x r -> 0 < h < r -> (forall t, Rabs (t - x) <= h -> Rabs (F (S n) t) <= M) ->
  exists rem, Rabs rem <= h ^ (S n) / INR (fact (S n)) * M /\
    F 0%nat (x - h) = sum_f_R0 (fun m => h ^ m / INR (fact m) * ((-1) ^ m * F m x)) n + rem.
Proof.
  intros H Hh B.
  destruct (taylor_right n _ x r h M (derivatives_mirror F (S n) x r H) Hh) as (rem & P & E).
  - intros t Ht. cbv beta. rewrite Rabs_mult. replace (Rabs ((-1) ^ (S n))) with 1 by (rewrite pow_1_abs; reflexivity). rewrite Rmult_1_l. apply B.
    replace (2 * x - t - x) with (- (t - x)) by ring. rewrite Rabs_Ropp. exact Ht.
  - exists rem. split; [exact P|]. cbv beta in E. replace (2 * x - (x + h)) with (x - h) in E by ring. rewrite pow_O, Rmult_1_l in E. rewrite E.
    f_equal. apply sum_eq. intros m _. replace (2 * x - x) with x by ring. reflexivity.
Qed.

Lemma rtraverse_map {A B} (f : A -> result B) (g : A -> B) l : (forall a, In a l -> f a = Ok (g a)) -> rtraverse f l = Ok (map g l).
Proof.
  induction l as [|a l IH]; intros H; [reflexivity|].
  cbn. rewrite (H a (or_introl eq_refl)). cbn. rewrite IH by (intros b Hb; apply H; right; exact Hb). reflexivity.
Qed.

(** the eleven function values *)
Lemma derivative_value f g x n w : (forall t, Rabs (t - x) <= 1 / 2 -> f t = Ok (g t)) ->
  derivative f x 0.1 n w = Ok (lrsum (map2 Rmult w [g (x - 0.5); g (x - 0.4); g (x - 0.3); g (x - 0.2); g (x - 0.1); g x; g (x + 0.1); g (x + 0.2); g (x + 0.3); g (x + 0.4); g (x + 0.5)]) / 0.1 ^ n).
Proof.
  intros H. unfold derivative.
  rewrite (rtraverse_map _ (fun k => g (x + (INR k - 5) * 0.1))).
  2:{ intros k Hk. apply in_seq in Hk. apply H. replace (x + (INR k - 5) * 0.1 - x) with ((INR k - 5) * 0.1) by ring.
      assert (0 <= INR k) by apply pos_INR. assert (INR k <= 10) by (replace 10 with (INR 10) by (cbn; ring); apply le_INR; lia).
      apply Rabs_le; lra. }
  cbn [rbind]. unfold fdiv. destruct (Req_EM_T (0.1 ^ n) 0) as [Z|_]; [exfalso; apply (pow_nonzero 0.1 n) in Z; [exact Z|lra]|].
  do 2 f_equal. f_equal. cbn [map seq]. f_equal.
  repeat (apply f_equal2; [f_equal; cbn [INR]; lra|]). reflexivity.
Qed.

(** Taylor values at the stencil points with explicit coefficients *)
Definition t10 (a : nat -> R) (h : R) : R :=
  a 0%nat + h * a 1%nat + h ^ 2 / 2 * a 2%nat + h ^ 3 / 6 * a 3%nat + h ^ 4 / 24 * a 4%nat + h ^ 5 / 120 * a 5%nat + h ^ 6 / 720 * a 6%nat +
  h ^ 7 / 5040 * a 7%nat + h ^ 8 / 40320 * a 8%nat + h ^ 9 / 362880 * a 9%nat + h ^ 10 / 3628800 * a 10%nat.
Lemma INR_fact_S n : INR (fact (S n)) = INR (S n) * INR (fact n).
Proof. rewrite fact_simpl. apply mult_INR. Qed.
Lemma fact_11 : INR (fact 11) = 39916800.
Proof. rewrite !INR_fact_S. cbn [fact INR]. ring. Qed.
Lemma t10_sum a h : sum_f_R0 (fun m => h ^ m / INR (fact m) * a m) 10 = t10 a h.
Proof.
  unfold t10. cbn [sum_f_R0]. rewrite !INR_fact_S. change (INR (fact 0)) with 1.
  cbn [INR]. field.
Qed.
Lemma stencil F x r M h : derivatives F 11 x r -> 0 < h <= 1 / 2 -> 1 / 2 < r -> (forall t, Rabs (t - x) <= 1 / 2 -> Rabs (F 11%nat t) <= M) ->
  exists r1 r2, F 0%nat (x + h) = t10 (fun m => F m x) h + r1 /\ F 0%nat (x - h) = t10 (fun m => F m x) (- h) + r2 /\
    Rabs r1 <= h ^ 11 / 39916800 * M /\ Rabs r2 <= h ^ 11 / 39916800 * M.
Proof.
  intros H Hh Hr B.
  assert (B' : forall t, Rabs (t - x) <= h -> Rabs (F 11%nat t) <= M) by (intros t Ht; apply B; lra).
  destruct (taylor_right 10 F x r h M H ltac:(lra) B') as (r1 & P1 & E1). destruct (taylor_left 10 F x r h M H ltac:(lra) B') as (r2 & P2 & E2).
  rewrite fact_11 in P1, P2. exists r1, r2. repeat split; try assumption.
  - rewrite E1, <- t10_sum. reflexivity.
  - rewrite E2, <- t10_sum. f_equal. apply sum_eq. intros m _. replace (- h) with (-1 * h) by ring. rewrite Rpow_mult_distr. unfold Rdiv. ring.
Qed.

Lemma Rabs_def2' a b : Rabs a <= b -> - b <= a <= b.
Proof. intros H. unfold Rabs in H. destruct (Rcase_abs a); lra. Qed.

(** how far the eleven-point formulas are from the derivative, for any function with eleven derivatives around the point *)
Section Accuracy.
Context (f : R -> result R) (F : nat -> R -> R) (x r M : R).
Hypothesis (H : derivatives F 11 x r) (Hr : 1 / 2 < r) (Hv : forall t, Rabs (t - x) <= 1 / 2 -> f t = Ok (F 0%nat t)).
Hypothesis (B : forall t, Rabs (t - x) <= 1 / 2 -> Rabs (F 11%nat t) <= M).
Lemma derivative1_accurate : exists d, derivative f x 0.1 1 weights1 = Ok d /\ Rabs (d - F 1%nat x) <= 5e-13 * M.
Proof.
  eexists. split; [apply (derivative_value f (F 0%nat)); exact Hv|].
  destruct (stencil F x r M 0.1 H ltac:(lra) Hr B) as (r1 & l1 & E1 & G1 & P1 & Q1).
  destruct (stencil F x r M 0.2 H ltac:(lra) Hr B) as (r2 & l2 & E2 & G2 & P2 & Q2).
  destruct (stencil F x r M 0.3 H ltac:(lra) Hr B) as (r3 & l3 & E3 & G3 & P3 & Q3).
  destruct (stencil F x r M 0.4 H ltac:(lra) Hr B) as (r4 & l4 & E4 & G4 & P4 & Q4).
  destruct (stencil F x r M 0.5 H ltac:(lra) Hr B) as (r5 & l5 & E5 & G5 & P5 & Q5).
  rewrite E1, E2, E3, E4, E5, G1, G2, G3, G4, G5.
  apply Rabs_def2' in P1, P2, P3, P4, P5, Q1, Q2, Q3, Q4, Q5.
  apply Rabs_le. unfold t10, weights1. cbn [map2 lrsum fold_right pow] in *. lra.
Qed.
Lemma derivative2_accurate : exists d, derivative f x 0.1 2 weights2 = Ok d /\ Rabs (d - F 2%nat x) <= 2.2e-12 * M.
Proof.
  eexists. split; [apply (derivative_value f (F 0%nat)); exact Hv|].
  destruct (stencil F x r M 0.1 H ltac:(lra) Hr B) as (r1 & l1 & E1 & G1 & P1 & Q1).
  destruct (stencil F x r M 0.2 H ltac:(lra) Hr B) as (r2 & l2 & E2 & G2 & P2 & Q2).
  destruct (stencil F x r M 0.3 H ltac:(lra) Hr B) as (r3 & l3 & E3 & G3 & P3 & Q3).
  destruct (stencil F x r M 0.4 H ltac:(lra) Hr B) as (r4 & l4 & E4 & G4 & P4 & Q4).
  destruct (stencil F x r M 0.5 H ltac:(lra) Hr B) as (r5 & l5 & E5 & G5 & P5 & Q5).
  rewrite E1, E2, E3, E4, E5, G1, G2, G3, G4, G5.
  apply Rabs_def2' in P1, P2, P3, P4, P5, Q1, Q2, Q3, Q4, Q5.
  apply Rabs_le. unfold t10, weights2. cbn [map2 lrsum fold_right pow] in *. lra.
Qed.
End Accuracy.

(** ** Functions with [n] derivatives on an open interval *)
Section Smooth.
Context (a b : R).
Fixpoint Ck (n : nat) (f : R -> R) : Prop :=
  match n with 0%nat => True | S m => exists g, (forall t, a < t < b -> is_derive f t (g t)) /\ Ck m g end.
Lemma in_locally t (P : R -> Prop) : a < t < b -> (forall u, a < u < b -> P u) -> locally t P.
Proof.
  intros Ht H. assert (D : 0 < Rmin (t - a) (b - t)) by (apply Rmin_glb_lt; lra). exists (mkposreal _ D). intros u Hu.
  unfold ball in Hu; cbn in Hu; unfold AbsRing_ball, abs, minus, plus, opp in Hu; cbn in Hu.
  pose proof (Rmin_l (t - a) (b - t)). pose proof (Rmin_r (t - a) (b - t)). apply H.
  unfold Rabs in Hu. destruct (Rcase_abs (u + - t)); lra.
Qed.
Lemma Ck_ext n f g : (forall t, a < t < b -> f t = g t) -> Ck n f -> Ck n g.
Proof.
  destruct n as [|n]; [trivial|]. intros E (f' & D & C). exists f'. split; [|exact C]. intros t Ht.
  apply is_derive_ext_loc with f; [|apply D, Ht]. apply in_locally; [exact Ht|exact E].
Qed.
Lemma Ck_pred n : forall f, Ck (S n) f -> Ck n f.
Proof. induction n as [|n IH]; intros f (g & D & C); [exact Logic.I|]. exists g. split; [exact D|]. apply IH, C. Qed.
Lemma Ck_const n : forall c, Ck n (fun _ => c).
Proof. induction n as [|n IH]; intros c; [exact Logic.I|]. exists (fun _ => 0). split; [intros t _; apply @is_derive_const|apply IH]. Qed.
Lemma Ck_id n : Ck n (fun t => t).
Proof. destruct n as [|n]; [exact Logic.I|]. exists (fun _ => 1). split; [intros t _; apply @is_derive_id|apply Ck_const]. Qed.
Lemma Ck_plus n : forall f g, Ck n f -> Ck n g -> Ck n (fun t => f t + g t).
Proof.
  induction n as [|n IH]; intros f g; [trivial|]. intros (f' & Df & Cf) (g' & Dg & Cg). exists (fun t => f' t + g' t).
  split; [|apply IH; assumption]. intros t Ht. apply @is_derive_plus; [apply Df|apply Dg]; exact Ht.
Qed.
Lemma Ck_mult n : forall f g, Ck n f -> Ck n g -> Ck n (fun t => f t * g t).
Proof.
  induction n as [|n IH]; intros f g; [trivial|]. intros Hf Hg. pose proof (Ck_pred n f Hf) as Pf. pose proof (Ck_pred n g Hg) as Pg.
  destruct Hf as (f' & Df & Cf). destruct Hg as (g' & Dg & Cg).
  exists (fun t => f' t * g t + f t * g' t). split; [|apply Ck_plus; apply IH; assumption]. intros t Ht.
  apply @is_derive_mult; [apply Df, Ht|apply Dg, Ht|intros; apply Rmult_comm].
Qed.
Lemma Ck_inv n : forall f, (forall t, a < t < b -> f t <> 0) -> Ck n f -> Ck n (fun t => / f t).
Proof.
  induction n as [|n IH]; intros f Z; [trivial|]. intros Hf. pose proof (Ck_pred n f Hf) as Pf. destruct Hf as (f' & Df & Cf).
  exists (fun t => -1 * f' t * (/ f t * / f t)). split.
  - intros t Ht. replace (-1 * f' t * (/ f t * / f t)) with (- f' t / f t ^ 2) by (field; apply Z, Ht). apply is_derive_inv; [apply Df, Ht|apply Z, Ht].
  - repeat apply Ck_mult; try apply Ck_const; try assumption; apply IH; assumption.
Qed.
Lemma Ck_div n f g : (forall t, a < t < b -> g t <> 0) -> Ck n f -> Ck n g -> Ck n (fun t => f t / g t).
Proof. intros Z Hf Hg. apply (Ck_mult n f (fun t => / g t) Hf). apply Ck_inv; assumption. Qed.
Lemma Ck_sqrt n : forall f, (forall t, a < t < b -> 0 < f t) -> Ck n f -> Ck n (fun t => sqrt (f t)).
Proof.
  induction n as [|n IH]; intros f Z; [trivial|]. intros Hf. pose proof (Ck_pred n f Hf) as Pf. destruct Hf as (f' & Df & Cf).
  exists (fun t => f' t * / (2 * sqrt (f t))). split.
  - intros t Ht. apply is_derive_sqrt; [apply Df, Ht|apply Z, Ht].
  - apply Ck_mult; [exact Cf|]. apply Ck_inv; [|apply Ck_mult; [apply Ck_const|apply IH; assumption]].
    intros t Ht. pose proof (sqrt_lt_R0 _ (Z t Ht)). apply Rgt_not_eq. lra.
Qed.
Lemma Ck_ln n f : (forall t, a < t < b -> 0 < f t) -> Ck n f -> Ck n (fun t => ln (f t)).
Proof.
  destruct n as [|n]; [trivial|]. intros Z Hf. pose proof (Ck_pred n f Hf) as Pf. destruct Hf as (f' & Df & Cf).
  exists (fun t => f' t * / f t). split.
  - intros t Ht. apply (is_derive_comp ln f t (/ f t) (f' t)); [apply is_derive_ln, Z, Ht|apply Df, Ht].
  - apply Ck_mult; [exact Cf|]. apply Ck_inv; [|exact Pf]. intros t Ht. apply Rgt_not_eq, Z, Ht.
Qed.
Lemma Ck_exp n : forall f, Ck n f -> Ck n (fun t => exp (f t)).
Proof.
  induction n as [|n IH]; intros f; [trivial|]. intros Hf. pose proof (Ck_pred n f Hf) as Pf. destruct Hf as (f' & Df & Cf).
  exists (fun t => f' t * exp (f t)). split.
  - intros t Ht. apply (is_derive_comp exp f t (exp (f t)) (f' t)); [apply is_derive_exp|apply Df, Ht].
  - apply Ck_mult; [exact Cf|]. apply IH, Pf.
Qed.
Lemma Ck_pow n f k : Ck n f -> Ck n (fun t => f t ^ k).
Proof. intros H. induction k as [|k IH]; [exact (Ck_const n 1)|]. apply (Ck_mult n f (fun t => f t ^ k) H IH). Qed.
Lemma Ck_family n : forall f, Ck n f -> exists F : nat -> R -> R, F 0%nat = f /\ forall k t, (k < n)%nat -> a < t < b -> is_derive (F k) t (F (S k) t).
Proof.
  induction n as [|n IH]; intros f.
  - intros _. exists (fun _ => f). split; [reflexivity|]. intros k t Hk. lia.
  - intros (g & D & C). destruct (IH g C) as (G & <- & HG). exists (fun k => match k with 0%nat => f | S j => G j end). split; [reflexivity|].
    intros [|k] t Hk Ht; [apply D, Ht|]. apply HG; [lia|exact Ht].
Qed.
End Smooth.

(** ** The index of refraction has all derivatives wherever it is a positive number *)
Definition index (m : material) (axis : option string) (t : R) : R := match n_on_axis m axis t with Ok v => v | Raise _ => 0 end.

Section IndexSmooth.
Context (a b : R) (n : nat).
(** [r] is a call whose value, when it has one, is smooth in the wavelength *)
Lemma fdiv_ok x y v : fdiv x y = Ok v -> y <> 0 /\ v = x / y.
Proof. unfold fdiv. destruct (Req_EM_T y 0); [discriminate|]. intros H; injection H as <-. split; [assumption|reflexivity]. Qed.
Lemma fsqrt_ok x v : fsqrt x = Ok v -> 0 <= x /\ v = sqrt x.
Proof. unfold fsqrt. destruct (Rlt_dec x 0); [discriminate|]. intros H; injection H as <-. split; [lra|reflexivity]. Qed.
Lemma fpow_ok x y v : fpow x y = Ok v -> 0 < x /\ v = Rpower x y.
Proof. unfold fpow. destruct (Rlt_dec 0 x); [|discriminate]. intros H; injection H as <-. split; [assumption|reflexivity]. Qed.
Lemma rbind_ok {A B} (m : result A) (k : A -> result B) v : (x <-r m ;; k x) = Ok v -> exists x, m = Ok x /\ k x = Ok v.
Proof. destruct m as [x|e]; cbn; [|discriminate]. intros H. exists x. split; [reflexivity|exact H]. Qed.

Definition smooth_call (r : R -> result R) := exists f, Ck a b n f /\ forall t, a < t < b -> r t = Ok (f t).


Definition defined_on (r : R -> result R) (Q : R -> Prop) := forall t, a < t < b -> exists v, r t = Ok v /\ Q v.
Lemma sc_bind q (k : R -> R -> result R) Q : defined_on (fun t => x <-r q t ;; k t x) Q -> (defined_on q (fun _ => True) -> smooth_call q) ->
  (forall f, Ck a b n f -> defined_on (fun t => k t (f t)) Q -> smooth_call (fun t => k t (f t))) -> smooth_call (fun t => x <-r q t ;; k t x).
Proof.
  intros D Hq Hk.
  destruct Hq as (f & Cf & Ef).
  { intros t Ht. destruct (D t Ht) as (v & E & _). apply rbind_ok in E as (x & E & _). exists x. split; [exact E|exact Logic.I]. }
  destruct (Hk f Cf) as (g & Cg & Eg).
  { intros t Ht. destruct (D t Ht) as (v & E & P). rewrite (Ef t Ht) in E. exists v. split; [exact E|exact P]. }
  exists g. split; [exact Cg|]. intros t Ht. rewrite (Ef t Ht). apply Eg, Ht.
Qed.
Lemma sc_div f g Q : Ck a b n f -> Ck a b n g -> defined_on (fun t => fdiv (f t) (g t)) Q -> smooth_call (fun t => fdiv (f t) (g t)).
Proof.
  intros Cf Cg D. assert (Z : forall t, a < t < b -> g t <> 0) by (intros t Ht; destruct (D t Ht) as (v & E & _); apply fdiv_ok in E; apply E).
  exists (fun t => f t / g t). split; [apply Ck_div; assumption|]. intros t Ht. unfold fdiv. destruct (Req_EM_T (g t) 0) as [E|_]; [destruct (Z t Ht E)|reflexivity].
Qed.
Lemma sc_sqrt f : Ck a b n f -> defined_on (fun t => fsqrt (f t)) (fun v => 0 < v) -> smooth_call (fun t => fsqrt (f t)).
Proof.
  intros Cf D. assert (Z : forall t, a < t < b -> 0 < f t).
  { intros t Ht; destruct (D t Ht) as (v & E & P). apply fsqrt_ok in E as (P0 & ->). destruct P0 as [P0|P0]; [exact P0|]. rewrite <- P0, sqrt_0 in P. lra. }
  exists (fun t => sqrt (f t)). split; [apply Ck_sqrt; assumption|]. intros t Ht. specialize (Z t Ht). unfold fsqrt. destruct (Rlt_dec (f t) 0); [lra|reflexivity].
Qed.
Lemma sc_pow f c Q : Ck a b n f -> defined_on (fun t => fpow (f t) c) Q -> smooth_call (fun t => fpow (f t) c).
Proof.
  intros Cf D. assert (Z : forall t, a < t < b -> 0 < f t) by (intros t Ht; destruct (D t Ht) as (v & E & _); apply fpow_ok in E; apply E).
  exists (fun t => Rpower (f t) c). split.
  - apply (Ck_exp a b n (fun t => c * ln (f t))). apply Ck_mult; [apply Ck_const|]. apply Ck_ln; assumption.
  - intros t Ht. unfold fpow. destruct (Rlt_dec 0 (f t)) as [_|N]; [reflexivity|destruct (N (Z t Ht))].
Qed.
Lemma Ck_minus f g : Ck a b n f -> Ck a b n g -> Ck a b n (fun t => f t - g t).
Proof.
  intros Cf Cg. apply (Ck_plus a b n f (fun t => - g t) Cf). apply Ck_ext with (fun t => -1 * g t); [intros; ring|]. apply Ck_mult; [apply Ck_const|exact Cg].
Qed.
End IndexSmooth.

Ltac smooth := repeat first [assumption | apply Ck_const | apply Ck_id | apply Ck_pow | apply Ck_minus | apply Ck_plus | apply Ck_mult].
Ltac sc_step := let f := fresh "f" in let C := fresh "C" in let D := fresh "D" in
  eapply sc_bind; [eassumption| |intros f C D; cbv beta in D |- *].
Ltac sc_leaf := intros D'; first [eapply sc_div; [| |exact D'] | eapply sc_pow; [|exact D']]; smooth.

Lemma deng_smooth a b n T : defined_on a b (deng_n T) (fun v => 0 < v) -> smooth_call a b n (deng_n T).
Proof.
  intros D. unfold deng_n in *. cbv zeta in *. sc_step; [sc_leaf|]. sc_step; [sc_leaf|]. apply sc_sqrt; [smooth|assumption].
Qed.
Lemma gayer_smooth a b n T : defined_on a b (gayer_n T) (fun v => 0 < v) -> smooth_call a b n (gayer_n T).
Proof.
  intros D. unfold gayer_n in *. cbv zeta in *. sc_step; [sc_leaf|]. sc_step; [sc_leaf|]. apply sc_sqrt; [smooth|assumption].
Qed.
Lemma sell_smooth a b n s : defined_on a b (sell_n s) (fun v => 0 < v) -> smooth_call a b n (sell_n s).
Proof.
  intros D. unfold sell_n in *. cbv zeta in *. do 7 (sc_step; [sc_leaf|]). apply sc_sqrt; [smooth|assumption].
Qed.
Lemma defined_weaken a b r (P Q : R -> Prop) : (forall v, P v -> Q v) -> defined_on a b r P -> defined_on a b r Q.
Proof. intros H D t Ht. destruct (D t Ht) as (v & E & Pv). exists v. split; [exact E|apply H, Pv]. Qed.
Lemma fsqrt_nonneg x v : fsqrt x = Ok v -> 0 <= v.
Proof. intros H. apply fsqrt_ok in H as [_ ->]. apply sqrt_pos. Qed.
Lemma sell_nonneg s t v : sell_n s t = Ok v -> 0 <= v.
Proof. intros H. unfold sell_n in H. cbv zeta in H. do 7 (apply rbind_ok in H as (? & _ & H)). eapply fsqrt_nonneg, H. Qed.
Lemma index_smooth a b n m axis : defined_on a b (n_on_axis m axis) (fun v => 0 < v) -> smooth_call a b n (n_on_axis m axis).
Proof.
  destruct m as [x|x]; unfold n_on_axis.
  - unfold ppln_n. destruct (pp_src x); [apply deng_smooth|apply gayer_smooth].
  - intros D. unfold agse_n in *. set (ax := str_axis axis) in *. clearbody ax.
    destruct (String.eqb ax "mix") eqn:E1; [|destruct (String.eqb ax "o") eqn:E2; [|destruct (String.eqb ax "e") eqn:E3]].
    + assert (Do : defined_on a b (sell_n (ag_o x)) (fun v => 0 < v)).
      { intros t Ht. destruct (D t Ht) as (v & E & P). apply rbind_ok in E as (no & Eo & E). apply rbind_ok in E as (ne & Ee & E).
        apply rbind_ok in E as (q1 & _ & E). apply rbind_ok in E as (q2 & Q2 & E). apply fdiv_ok in Q2 as [Z _].
        exists no. split; [exact Eo|]. destruct (sell_nonneg _ _ _ Eo) as [L|L]; [exact L|]. subst no. exfalso. apply Z. ring. }
      assert (De : defined_on a b (sell_n (ag_e x)) (fun v => 0 < v)).
      { intros t Ht. destruct (D t Ht) as (v & E & P). apply rbind_ok in E as (no & Eo & E). apply rbind_ok in E as (ne & Ee & E).
        apply rbind_ok in E as (q1 & Q1 & E). apply fdiv_ok in Q1 as [Z _].
        exists ne. split; [exact Ee|]. destruct (sell_nonneg _ _ _ Ee) as [L|L]; [exact L|]. subst ne. exfalso. apply Z. ring. }
      sc_step; [intros _; apply sell_smooth, Do|]. sc_step; [intros _; apply sell_smooth, De|].
      sc_step; [intros D'; eapply sc_div; [| |exact D']; smooth|]. sc_step; [intros D'; eapply sc_div; [| |exact D']; smooth|].
      sc_step.
      * intros _. apply sc_sqrt; [smooth|]. intros t Ht. destruct (D3 t Ht) as (v & E & P). apply rbind_ok in E as (r & Er & E).
        exists r. split; [exact Er|]. destruct (fsqrt_nonneg _ _ Er) as [L|L]; [exact L|]. subst r. apply fdiv_ok in E as [Z _]. destruct (Z eq_refl).
      * eapply sc_div; [| |exact D4]; smooth.
    + assert (Do : defined_on a b (sell_n (ag_o x)) (fun v => 0 < v)).
      { intros t Ht. destruct (D t Ht) as (v & E & P). apply rbind_ok in E as (no & Eo & E). apply rbind_ok in E as (ne & Ee & E). injection E as <-. exists no. split; assumption. }
      destruct (sell_smooth a b n _ Do) as (f & C & Ef). exists f. split; [exact C|]. intros t Ht. rewrite (Ef t Ht). cbn [rbind].
      destruct (D t Ht) as (v & E & P). apply rbind_ok in E as (no & Eo & E). apply rbind_ok in E as (ne & Ee & E). rewrite Ee. reflexivity.
    + assert (De : defined_on a b (sell_n (ag_e x)) (fun v => 0 < v)).
      { intros t Ht. destruct (D t Ht) as (v & E & P). apply rbind_ok in E as (no & Eo & E). apply rbind_ok in E as (ne & Ee & E). injection E as <-. exists ne. split; assumption. }
      destruct (sell_smooth a b n _ De) as (f & C & Ef). exists f. split; [exact C|]. intros t Ht. rewrite (Ef t Ht).
      destruct (D t Ht) as (v & E & P). apply rbind_ok in E as (no & Eo & E). rewrite Eo. reflexivity.
    + exists (fun _ => 0). split; [apply Ck_const|]. intros t Ht. destruct (D t Ht) as (v & E & P).
      apply rbind_ok in E as (no & Eo & E). apply rbind_ok in E as (ne & Ee & E). discriminate.
Qed.

(** the derivatives of the index as a family *)
Lemma index_family m axis wl r : defined_on (wl - r) (wl + r) (n_on_axis m axis) (fun v => 0 < v) -> forall K, exists F : nat -> R -> R,
  derivatives F K wl r /\ (forall t, Rabs (t - wl) < r -> n_on_axis m axis t = Ok (F 0%nat t)) /\
  forall k t, (k <= K)%nat -> Rabs (t - wl) < r -> Derive_n (index m axis) k t = F k t.
Proof.
  intros D K. destruct (index_smooth (wl - r) (wl + r) K m axis D) as (f & C & E).
  destruct (Ck_family (wl - r) (wl + r) K f C) as (F & <- & HF).
  assert (A : forall t, Rabs (t - wl) < r -> wl - r < t < wl + r) by (intros t Ht; unfold Rabs in Ht; destruct (Rcase_abs (t - wl)); lra).
  assert (DF : derivatives F K wl r) by (intros k t Hk Ht; apply HF; [exact Hk|apply A, Ht]).
  exists F. split; [exact DF|]. split; [intros t Ht; apply E, A, Ht|]. intros k t Hk Ht.
  rewrite <- (proj2 (derivatives_n F K wl r DF k t Hk Ht)). apply Derive_n_ext_loc. apply in_locally with (wl - r) (wl + r); [apply A, Ht|].
  intros u Hu. unfold index. rewrite (E u Hu). reflexivity.
Qed.

(** ** Group velocity *)
(** k(w) = w n / c in rad/nm for the angular frequency w in rad/ps, and 1/v_g = dk/dw as a function of the wavelength *)
Definition wavevector (N : R -> R) (w : R) : R := w * N (2 * PI * c_nmps / w) / c_nmps.
Definition inv_vg (N : R -> R) (wl : R) : R := Derive (wavevector N) (2 * PI * c_nmps / wl).
Lemma c_pos : 0 < c_nmps.
Proof. unfold c_nmps, c_mks. lra. Qed.

Lemma wavevector_derive N wl d : 0 < wl -> is_derive N wl d -> is_derive (wavevector N) (2 * PI * c_nmps / wl) ((N wl - wl * d) / c_nmps).
Proof.
  intros Hw D. pose proof c_pos as Hc. pose proof PI_RGT_0 as Hpi. unfold wavevector. set (w := 2 * PI * c_nmps / wl).
  assert (Hw0 : 0 < w) by (unfold w, Rdiv; apply Rmult_lt_0_compat; [|apply Rinv_0_lt_compat, Hw]; apply Rmult_lt_0_compat; lra).
  assert (E : 2 * PI * c_nmps / w = wl) by (unfold w; field; split; [|split]; apply Rgt_not_eq; assumption).
  assert (G : is_derive (fun w => 2 * PI * c_nmps / w) w (- wl / w)).
  { clearbody w. auto_derive; [apply Rgt_not_eq, Hw0|]. match goal with |- @eq _ ?u ?v => change (@eq R u v) end. rewrite <- E. field. apply Rgt_not_eq, Hw0. }
  rewrite <- E in D. pose proof (is_derive_comp N (fun w => 2 * PI * c_nmps / w) w _ _ D G) as C.
  pose proof (is_derive_mult (fun w => w) (fun w => N (2 * PI * c_nmps / w)) w _ _ (is_derive_id w) C Rmult_comm) as P.
  pose proof (is_derive_scal _ w (/ c_nmps) _ P) as S.
  eapply is_derive_ext; [|replace ((N wl - wl * d) / c_nmps) with (/ c_nmps * plus (mult one (N (2 * PI * c_nmps / w))) (mult w (scal (- wl / w) d))); [exact S|]].
  - intros t. unfold mult; cbn. field. apply Rgt_not_eq, Hc.
  - unfold plus, mult, scal, one; cbn. unfold mult; cbn. rewrite E. field. split; apply Rgt_not_eq; assumption.
Qed.
Lemma inv_vg_value N wl d : 0 < wl -> is_derive N wl d -> inv_vg N wl = (N wl - wl * d) / c_nmps.
Proof. intros Hw D. apply is_derive_unique, wavevector_derive; assumption. Qed.

(*! C94: at every wavelength around which the index of a crystal is a positive number, the inverse of the group velocity returned is dk/dw of that crystal up to
    5e-13 wl/c times a bound of the eleventh derivative of the index; the call fails only when the inverse computed is zero. *)
Lemma C94_group_velocity_l : forall (x : crystal) (axis : option string) (wl M : R),
  0 < wl -> (forall t, wl - 1 < t < wl + 1 -> exists n, n_on_axis (x_mat x) axis t = Ok n /\ 0 < n) ->
  (forall t, Rabs (t - wl) <= 1 / 2 -> Rabs (Derive_n (index (x_mat x) axis) 11 t) <= M) ->
  ex_derive (wavevector (index (x_mat x) axis)) (2 * PI * c_nmps / wl) /\
  exists q, Rabs (q - inv_vg (index (x_mat x) axis) wl) <= wl / c_nmps * 5e-13 * M /\
    group_velocity_nm_ps x axis wl = if Req_EM_T q 0 then Raise NonFinite else Ok (1 / q).
Proof.
  intros x axis wl M Hw D B. destruct (index_family (x_mat x) axis wl 1 D 11) as (F & DF & EF & NF).
  assert (L : forall t, Rabs (t - wl) <= 1 / 2 -> Rabs (t - wl) < 1) by (intros; lra).
  assert (Z : Rabs (wl - wl) < 1) by (rewrite Rminus_eq_0, Rabs_R0; lra).
  destruct (derivative1_accurate (n_on_axis (x_mat x) axis) F wl 1 M DF ltac:(lra)) as (d & Ed & Bd).
  { intros t Ht. apply EF, L, Ht. }
  { intros t Ht. rewrite <- NF by (try lia; apply L, Ht). apply B, Ht. }
  assert (DN : is_derive (index (x_mat x) axis) wl (F 1%nat wl)).
  { eapply is_derive_ext_loc; [|apply (DF 0%nat wl ltac:(lia) Z)]. apply (in_locally (wl - 1) (wl + 1)); [lra|]. intros u Hu.
    unfold index. rewrite EF; [reflexivity|]. unfold Rabs. destruct (Rcase_abs (u - wl)); lra. }
  pose proof c_pos as Hc. split; [exists ((index (x_mat x) axis wl - wl * F 1%nat wl) / c_nmps); apply wavevector_derive; assumption|].
  exists (1 / c_nmps * (F 0%nat wl - wl * d)). rewrite (inv_vg_value _ _ _ Hw DN).
  assert (IN : index (x_mat x) axis wl = F 0%nat wl) by (unfold index; rewrite (EF wl Z); reflexivity). rewrite IN. split.
  - replace (1 / c_nmps * (F 0%nat wl - wl * d) - (F 0%nat wl - wl * F 1%nat wl) / c_nmps) with (- (wl / c_nmps) * (d - F 1%nat wl)) by (field; apply Rgt_not_eq, Hc).
    rewrite Rabs_mult, Rabs_Ropp, (Rabs_pos_eq (wl / c_nmps)). { rewrite Rmult_assoc. apply Rmult_le_compat_l; [|exact Bd]. apply Rlt_le, Rdiv_lt_0_compat; assumption. }
    apply Rlt_le, Rdiv_lt_0_compat; assumption.
  - unfold group_velocity_nm_ps. cbv zeta. rewrite Ed. cbn [rbind]. rewrite (EF wl Z). cbn [rbind]. reflexivity.
Qed.

(** the true dispersion is the derivative of the inverse group velocity by the wavelength *)
Lemma inv_vg_derive N wl r F : 0 < wl -> 0 < r -> derivatives F 2 wl r -> (forall t, Rabs (t - wl) < r -> N t = F 0%nat t) ->
  is_derive (inv_vg N) wl (- wl / c_nmps * F 2%nat wl).
Proof.
  intros Hw Hr DF E. pose proof c_pos as Hc.
  assert (Z : Rabs (wl - wl) < r) by (rewrite Rminus_eq_0, Rabs_R0; lra).
  pose proof (Rmin_l r wl) as R1. pose proof (Rmin_r r wl) as R2. assert (R3 : 0 < Rmin r wl) by (apply Rmin_glb_lt; assumption).
  assert (A : forall u, wl - Rmin r wl < u < wl + Rmin r wl -> 0 < u /\ Rabs (u - wl) < r) by (intros u Hu; split; [lra|unfold Rabs; destruct (Rcase_abs (u - wl)); lra]).
  assert (DN : forall t, wl - Rmin r wl < t < wl + Rmin r wl -> is_derive N t (F 1%nat t)).
  { intros t Ht. eapply is_derive_ext_loc; [|apply (DF 0%nat t ltac:(lia)); apply A, Ht].
    apply (in_locally (wl - Rmin r wl) (wl + Rmin r wl)); [exact Ht|]. intros u Hu. symmetry. apply E, A, Hu. }
  apply is_derive_ext_loc with (fun t => / c_nmps * (F 0%nat t - t * F 1%nat t)).
  - apply (in_locally (wl - Rmin r wl) (wl + Rmin r wl)); [lra|]. intros u Hu. destruct (A u Hu) as [P Q].
    rewrite (inv_vg_value N u _ P (DN u Hu)), (E u Q). match goal with |- @eq _ ?u ?v => change (@eq R u v) end. field. apply Rgt_not_eq, Hc.
  - pose proof (DF 0%nat wl ltac:(lia) Z) as D0. pose proof (DF 1%nat wl ltac:(lia) Z) as D1.
    pose proof (is_derive_mult (fun t => t) (F 1%nat) wl _ _ (is_derive_id wl) D1 Rmult_comm) as P.
    pose proof (is_derive_minus _ _ _ _ _ D0 P) as Q. pose proof (is_derive_scal _ _ (/ c_nmps) _ Q) as S.
    eapply is_derive_ext; [|replace (- wl / c_nmps * F 2%nat wl) with (/ c_nmps * minus (F 1%nat wl) (plus (mult one (F 1%nat wl)) (mult wl (F 2%nat wl)))); [exact S|]].
    + intros t. reflexivity.
    + unfold minus, plus, opp, mult, one; cbn. field. apply Rgt_not_eq, Hc.
Qed.

(*! C95 (partial: with the sign reversed): what calculate_D_ps_nm_km returns is MINUS the derivative of the inverse group velocity by the wavelength, in ps/(nm km), up to
    2.2 wl/c times a bound of the eleventh derivative of the index; calculate_D_fs_um_mm returns the same number. *)
Lemma C95_dispersion_partial_l : forall (x : crystal) (axis : option string) (wl M : R),
  0 < wl -> (forall t, wl - 1 < t < wl + 1 -> exists n, n_on_axis (x_mat x) axis t = Ok n /\ 0 < n) ->
  (forall t, Rabs (t - wl) <= 1 / 2 -> Rabs (Derive_n (index (x_mat x) axis) 11 t) <= M) ->
  ex_derive (inv_vg (index (x_mat x) axis)) wl /\
  exists D, D_ps_nm_km x axis wl = Ok D /\ D_fs_um_mm x axis wl = Ok D /\
    Rabs (D - - (1e12 * Derive (inv_vg (index (x_mat x) axis)) wl)) <= 2.2 * wl / c_nmps * M.
Proof.
  intros x axis wl M Hw D B. destruct (index_family (x_mat x) axis wl 1 D 11) as (F & DF & EF & NF).
  assert (L : forall t, Rabs (t - wl) <= 1 / 2 -> Rabs (t - wl) < 1) by (intros; lra).
  assert (Z : Rabs (wl - wl) < 1) by (rewrite Rminus_eq_0, Rabs_R0; lra).
  destruct (derivative2_accurate (n_on_axis (x_mat x) axis) F wl 1 M DF ltac:(lra)) as (d & Ed & Bd).
  { intros t Ht. apply EF, L, Ht. }
  { intros t Ht. rewrite <- NF by (try lia; apply L, Ht). apply B, Ht. }
  assert (DI : is_derive (inv_vg (index (x_mat x) axis)) wl (- wl / c_nmps * F 2%nat wl)).
  { apply (inv_vg_derive _ _ 1); [exact Hw|lra| |]. { intros k t Hk Ht. apply DF; [lia|exact Ht]. }
    intros t Ht. unfold index. rewrite (EF t Ht). reflexivity. }
  pose proof c_pos as Hc. split; [eexists; exact DI|]. rewrite (is_derive_unique _ _ _ DI).
  exists (wl / c_nmps * d * 1.0e12). unfold D_fs_um_mm, D_ps_nm_km. rewrite Ed. cbn [rbind].
  split; [reflexivity|]. split; [f_equal; lra|].
  set (k := wl / c_nmps). assert (Hk : 0 < k) by (apply Rdiv_lt_0_compat; assumption).
  replace (- wl / c_nmps * F 2%nat wl) with (- k * F 2%nat wl) by (unfold k, Rdiv; ring). replace (2.2 * wl / c_nmps * M) with (k * (2.2 * M)) by (unfold k, Rdiv; ring).
  replace (k * d * 1.0e12 - - (1e12 * (- k * F 2%nat wl))) with (k * (1e12 * (d - F 2%nat wl))) by lra.
  rewrite Rabs_mult, (Rabs_pos_eq k) by lra. apply Rmult_le_compat_l; [lra|]. rewrite Rabs_mult, (Rabs_pos_eq 1e12) by lra. lra.
Qed.

(*! C94 (default axis, refuted): on an AgGaSe2 crystal none of these methods returns with its default axis: axis = None is handed on to n, which refuses it. *)
Lemma C94_default_axis_refuted_l : forall (x : crystal) (a : agse) (wl wl2 : R) (len : option R), x_mat x = Agse a ->
  (forall v, group_velocity_nm_ps x None wl <> Ok v) /\ (forall v, D_ps_nm_km x None wl <> Ok v) /\
  (forall v, pulse_delay_ps x wl wl2 len None <> Ok v) /\ (forall v, mix_phasematching_bw x wl wl2 None <> Ok v) /\
  (forall n, agse_n a (wl - 0.5) "o" = Ok n -> group_velocity_nm_ps x None wl = Raise ValueError /\ D_ps_nm_km x None wl = Raise ValueError).
Proof.
  intros x a wl wl2 len E.
  assert (N : forall t v, n_on_axis (x_mat x) None t <> Ok v).
  { intros t v H. rewrite E in H. cbn [n_on_axis str_axis] in H. unfold agse_n in H. apply rbind_ok in H as (? & _ & H). apply rbind_ok in H as (? & _ & H). discriminate. }
  assert (Dn : forall n w v, derivative (n_on_axis (x_mat x) None) wl 0.1 n w <> Ok v).
  { intros n w v H. unfold derivative in H. apply rbind_ok in H as (l & H & _). cbn [seq rtraverse] in H. apply rbind_ok in H as (y & H & _). exact (N _ _ H). }
  assert (G : forall v, group_velocity_nm_ps x None wl <> Ok v).
  { intros v H. unfold group_velocity_nm_ps in H. cbv zeta in H. apply rbind_ok in H as (d & H & _). exact (Dn _ _ _ H). }
  split; [exact G|]. split; [intros v H; unfold D_ps_nm_km in H; apply rbind_ok in H as (d & H & _); exact (Dn _ _ _ H)|].
  split. { intros v H. unfold pulse_delay_ps in H. apply rbind_ok in H as (l & _ & H). apply rbind_ok in H as (g & H & _). exact (G _ H). }
  split. { intros v H. unfold mix_phasematching_bw in H. do 5 (apply rbind_ok in H as (? & _ & H)). apply rbind_ok in H as (g & H & _). exact (G _ H). }
  intros n Hn.
  assert (R : forall k w, derivative (n_on_axis (x_mat x) None) wl 0.1 k w = Raise ValueError).
  { intros k w. unfold derivative. cbn [seq rtraverse]. replace (wl + (INR 0 - 5) * 0.1) with (wl - 0.5) by (cbn [INR]; lra).
    rewrite E. cbn [n_on_axis str_axis]. unfold agse_n in *. apply rbind_ok in Hn as (no & -> & Hn). apply rbind_ok in Hn as (ne & -> & Hn). reflexivity. }
  split; [unfold group_velocity_nm_ps; cbv zeta|unfold D_ps_nm_km]; rewrite R; reflexivity.
Qed.

(** ** Delay *)
Lemma delay_value x axis wl1 wl2 L d : pulse_delay_ps x wl1 wl2 (Some L) axis = Ok d ->
  exists q1 q2, group_velocity_nm_ps x axis wl1 = Ok (1 / q1) /\ group_velocity_nm_ps x axis wl2 = Ok (1 / q2) /\ q1 <> 0 /\ q2 <> 0 /\ d = 1e9 * L * (q1 - q2).
Proof.
  intros H. unfold pulse_delay_ps in H. cbn [rbind] in H. apply rbind_ok in H as (v1 & E1 & H). apply rbind_ok in H as (v2 & E2 & H).
  apply rbind_ok in H as (a & Ea & H). apply rbind_ok in H as (b & Eb & H). injection H as <-. apply fdiv_ok in Ea as [Z1 ->]. apply fdiv_ok in Eb as [Z2 ->].
  exists (/ v1), (/ v2). rewrite E1, E2. split; [f_equal; field; exact Z1|]. split; [f_equal; field; exact Z2|].
  split; [apply Rinv_neq_0_compat, Z1|]. split; [apply Rinv_neq_0_compat, Z2|]. unfold Rdiv. lra.
Qed.

(*! C96: the delay returned for two wavelengths is the length times the difference of dk/dw at the two, up to the accuracy of the two group velocities (C94). *)
Lemma C96_delay_l : forall (x : crystal) (axis : option string) (wl1 wl2 M1 M2 L d : R),
  0 < wl1 -> (forall t, wl1 - 1 < t < wl1 + 1 -> exists n, n_on_axis (x_mat x) axis t = Ok n /\ 0 < n) ->
  (forall t, Rabs (t - wl1) <= 1 / 2 -> Rabs (Derive_n (index (x_mat x) axis) 11 t) <= M1) ->
  0 < wl2 -> (forall t, wl2 - 1 < t < wl2 + 1 -> exists n, n_on_axis (x_mat x) axis t = Ok n /\ 0 < n) ->
  (forall t, Rabs (t - wl2) <= 1 / 2 -> Rabs (Derive_n (index (x_mat x) axis) 11 t) <= M2) ->
  pulse_delay_ps x wl1 wl2 (Some L) axis = Ok d ->
  Rabs (d - 1e9 * L * (inv_vg (index (x_mat x) axis) wl1 - inv_vg (index (x_mat x) axis) wl2)) <= 1e9 * Rabs L * (wl1 * M1 + wl2 * M2) / c_nmps * 5e-13.
Proof.
  intros x axis wl1 wl2 M1 M2 L d W1 D1 B1 W2 D2 B2 E. apply delay_value in E as (q1 & q2 & E1 & E2 & Z1 & Z2 & ->).
  destruct (C94_group_velocity_l x axis wl1 M1 W1 D1 B1) as (_ & p1 & P1 & G1). destruct (C94_group_velocity_l x axis wl2 M2 W2 D2 B2) as (_ & p2 & P2 & G2).
  rewrite E1 in G1. rewrite E2 in G2. destruct (Req_EM_T p1 0); [discriminate|]. destruct (Req_EM_T p2 0); [discriminate|].
  injection G1 as G1. injection G2 as G2.
  assert (Q1 : q1 = p1) by (rewrite <- (Rinv_inv q1), <- (Rinv_inv p1); f_equal; unfold Rdiv in G1; lra).
  assert (Q2 : q2 = p2) by (rewrite <- (Rinv_inv q2), <- (Rinv_inv p2); f_equal; unfold Rdiv in G2; lra). subst q1 q2.
  set (i1 := inv_vg _ wl1) in *. set (i2 := inv_vg _ wl2) in *.
  replace (1e9 * L * (p1 - p2) - 1e9 * L * (i1 - i2)) with (1e9 * L * ((p1 - i1) - (p2 - i2))) by ring.
  replace (1e9 * Rabs L * (wl1 * M1 + wl2 * M2) / c_nmps * 5e-13) with (1e9 * Rabs L * (wl1 / c_nmps * 5e-13 * M1 + wl2 / c_nmps * 5e-13 * M2)) by (unfold Rdiv; ring).
  rewrite (Rabs_mult (1e9 * L)), (Rabs_mult 1e9 L), (Rabs_pos_eq 1e9) by lra. apply Rmult_le_compat_l; [apply Rmult_le_pos; [lra|apply Rabs_pos]|].
  unfold Rminus at 1. eapply Rle_trans; [apply Rabs_triang|]. rewrite Rabs_Ropp. lra.
Qed.
(*! C96 (default length): without a length argument the crystal's own length is used; a crystal without one raises TypeError. *)
Lemma C96_default_length_l : forall (x : crystal) (axis : option string) (wl1 wl2 : R),
  pulse_delay_ps x wl1 wl2 None axis = match x_len x with None => Raise TypeError | Some L => pulse_delay_ps x wl1 wl2 (Some L) axis end.
Proof. intros x axis wl1 wl2. unfold pulse_delay_ps, length_nm. destruct (x_len x) as [L|]; [|reflexivity]. cbn [rbind]. rewrite (Rmult_comm L 1.0e9). reflexivity. Qed.

(** ** Phase-matching bandwidth *)
Lemma pyinv_ok a v : pyinv a = Ok v -> a <> 0 /\ v = 1 / a.
Proof. unfold pyinv. destruct (Req_EM_T a 0); [discriminate|]. intros H; injection H as <-. split; [assumption|reflexivity]. Qed.
(** everything a returned bandwidth says *)
Lemma bw_value x axis p s w : mix_phasematching_bw x p s axis = Ok w ->
  exists gs gi gp, p <> 0 /\ s <> 0 /\ 1 / p - 1 / s <> 0 /\ group_velocity_nm_ps x axis s = Ok gs /\ group_velocity_nm_ps x axis (1 / (1 / p - 1 / s)) = Ok gi /\
    group_velocity_nm_ps x axis p = Ok gp /\ gs <> 0 /\ gi <> 0 /\ gp <> 0 /\
    0 < Rmax (Rabs (1 / gs - 1 / gp)) (Rabs (1 / gi - 1 / gp)) /\ w = 0.886 * PI / (c_mks * (Rmax (Rabs (1 / gs - 1 / gp)) (Rabs (1 / gi - 1 / gp)) / 1e3)).
Proof.
  intros H. unfold mix_phasematching_bw in H. apply rbind_ok in H as (a & Ea & H). apply rbind_ok in H as (b & Eb & H). apply rbind_ok in H as (i & Ei & H).
  apply pyinv_ok in Ea as [Zp ->]. apply pyinv_ok in Eb as [Zs ->]. apply pyinv_ok in Ei as [Zi ->].
  apply rbind_ok in H as (gs & Gs & H). apply rbind_ok in H as (gi & Gi & H). apply rbind_ok in H as (gp & Gp & H). cbv zeta in H.
  apply rbind_ok in H as (is_ & Es & H). apply rbind_ok in H as (ip & Ep & H). apply rbind_ok in H as (ii & Eii & H).
  apply fdiv_ok in Es as [Z1 ->]. apply fdiv_ok in Ep as [Z2 ->]. apply fdiv_ok in Eii as [Z3 ->]. apply rbind_ok in H as (v & Hv & H). injection H as <-.
  exists gs, gi, gp. assert (Y1 : gs <> 0) by (intros ->; apply Z1; ring). assert (Y2 : gp <> 0) by (intros ->; apply Z2; ring). assert (Y3 : gi <> 0) by (intros ->; apply Z3; ring).
  do 9 (split; [assumption|]).
  pose proof PI_RGT_0 as Hpi. assert (Hc : 0 < c_mks) by (unfold c_mks; lra). assert (H3 : 0 < 1e3) by lra.
  replace (1 / (gs * 1e3) - 1 / (gp * 1e3)) with ((1 / gs - 1 / gp) / 1e3) in Hv by (set (k := 1e3) in *; clearbody k; field; repeat split; try assumption; apply Rgt_not_eq, H3).
  replace (1 / (gi * 1e3) - 1 / (gp * 1e3)) with ((1 / gi - 1 / gp) / 1e3) in Hv by (set (k := 1e3) in *; clearbody k; field; repeat split; try assumption; apply Rgt_not_eq, H3).
  set (u := 1 / gs - 1 / gp) in *. set (y := 1 / gi - 1 / gp) in *. clearbody u y. set (k := 1e3) in *. clearbody k. set (c := c_mks) in *. clearbody c.
  assert (U : forall z, z <> 0 -> Rabs (0.886 * PI / (z / k)) = 0.886 * PI * k / Rabs z).
  { intros z Hz. replace (0.886 * PI / (z / k)) with ((0.886 * PI * k) * / z) by (set (e := 0.886 * PI); clearbody e; field; split; [apply Rgt_not_eq, H3|exact Hz]).
    rewrite Rabs_mult, Rabs_inv, Rabs_pos_eq; [reflexivity|]. apply Rmult_le_pos; [|lra]. apply Rmult_le_pos; lra. }
  assert (Q : forall z, np_quot (0.886 * PI) (z / k) = if Req_EM_T z 0 then None else Some (0.886 * PI * k / Rabs z)).
  { intros z. unfold np_quot. destruct (Req_EM_T z 0) as [->|Nz]; destruct (Req_EM_T (_ / k) 0) as [E|E].
    - reflexivity.
    - exfalso. apply E. unfold Rdiv. ring.
    - exfalso. apply Nz. apply (Rmult_eq_reg_r (/ k)); [unfold Rdiv in E; rewrite E; ring|apply Rinv_neq_0_compat, Rgt_not_eq, H3].
    - rewrite U by exact Nz. reflexivity. }
  rewrite !Q in Hv. set (e := 0.886 * PI) in *. assert (He : 0 < e) by (unfold e; lra). clearbody e. clear Q U.
  destruct (Req_EM_T u 0) as [->|Nu]; destruct (Req_EM_T y 0) as [->|Ny]; try discriminate; injection Hv as <-.
  - rewrite Rabs_R0. pose proof (Rabs_pos_lt y Ny). rewrite Rmax_right by lra. split; [assumption|]. replace (e * k / Rabs y * 1.0) with (e * k / Rabs y) by lra. field. repeat split; apply Rgt_not_eq; assumption.
  - rewrite Rabs_R0. pose proof (Rabs_pos_lt u Nu). rewrite Rmax_left by lra. split; [assumption|]. replace (e * k / Rabs u * 1.0) with (e * k / Rabs u) by lra. field. repeat split; apply Rgt_not_eq; assumption.
  - pose proof (Rabs_pos_lt u Nu) as Pu. pose proof (Rabs_pos_lt y Ny) as Py. set (U := Rabs u) in *. set (Y := Rabs y) in *. clearbody U Y.
    assert (Hek : 0 < e * k) by (apply Rmult_lt_0_compat; assumption).
    destruct (Rle_dec U Y) as [L|L].
    + rewrite Rmax_right by exact L. split; [assumption|].
      assert (V : e * k / Y <= e * k / U) by (apply Rmult_le_compat_l; [lra|apply Rinv_le_contravar; assumption]).
      rewrite Rmin_right by exact V. replace (e * k / Y * 1.0) with (e * k / Y) by lra. field. repeat split; apply Rgt_not_eq; assumption.
    + rewrite Rmax_left by lra. split; [assumption|].
      assert (V : e * k / U <= e * k / Y) by (apply Rmult_le_compat_l; [lra|apply Rinv_le_contravar; lra]).
      rewrite Rmin_left by exact V. replace (e * k / U * 1.0) with (e * k / U) by lra. field. repeat split; apply Rgt_not_eq; assumption.
Qed.

(*! C97: a returned phase-matching bandwidth is positive and is 0.886 pi over c times the larger of the two group-velocity mismatches, signal against pump and
    idler against pump (in s/m, the idler at 1/(1/pump - 1/signal)). *)
Lemma C97_bandwidth_l : forall (x : crystal) (axis : option string) (p s w : R), mix_phasematching_bw x p s axis = Ok w ->
  exists gs gi gp, group_velocity_nm_ps x axis s = Ok gs /\ group_velocity_nm_ps x axis (1 / (1 / p - 1 / s)) = Ok gi /\ group_velocity_nm_ps x axis p = Ok gp /\
    0 < w /\ w = 0.886 * PI / (c_mks * (Rmax (Rabs (1 / gs - 1 / gp)) (Rabs (1 / gi - 1 / gp)) / 1e3)).
Proof.
  intros x axis p s w H. apply bw_value in H as (gs & gi & gp & _ & _ & _ & Gs & Gi & Gp & _ & _ & _ & P & E).
  exists gs, gi, gp. repeat (split; [assumption|]). split; [|exact E]. rewrite E. pose proof PI_RGT_0. apply Rdiv_lt_0_compat; [lra|].
  apply Rmult_lt_0_compat; [unfold c_mks; lra|]. apply Rdiv_lt_0_compat; [exact P|lra].
Qed.
(*! C97 (exchange): giving the idler's wavelength instead of the signal's returns the same number. *)
Lemma C97_exchange_l : forall (x : crystal) (axis : option string) (p s w : R), mix_phasematching_bw x p s axis = Ok w ->
  mix_phasematching_bw x p (1 / (1 / p - 1 / s)) axis = Ok w.
Proof.
  intros x axis p s w H. pose proof H as H'. apply bw_value in H as (gs & gi & gp & Zp & Zs & Zi & Gs & Gi & Gp & Y1 & Y2 & Y3 & P & E).
  set (i := 1 / (1 / p - 1 / s)) in *.
  assert (Ni : i <> 0) by (unfold i, Rdiv; rewrite Rmult_1_l; apply Rinv_neq_0_compat, Zi).
  assert (I1 : 1 / p - 1 / i = 1 / s) by (unfold i; field; repeat split; try assumption; intros F; apply Zi; replace (1 / p - 1 / s) with ((s - p) / (p * s)) by (field; split; assumption); rewrite F; unfold Rdiv; ring).
  assert (I2 : 1 / (1 / p - 1 / i) = s) by (rewrite I1; field; exact Zs).
  unfold mix_phasematching_bw, pyinv in H' |- *.
  destruct (Req_EM_T p 0) as [|_]; [contradiction|]. destruct (Req_EM_T s 0) as [|_]; [contradiction|]. destruct (Req_EM_T i 0) as [|_]; [contradiction|]. cbn [rbind] in H' |- *.
  destruct (Req_EM_T (1 / p - 1 / s) 0) as [|_]; [contradiction|]. fold i in H'.
  destruct (Req_EM_T (1 / p - 1 / i) 0) as [F|_]. { exfalso. rewrite I1 in F. apply (Rinv_neq_0_compat s Zs). rewrite <- F. field. exact Zs. }
  cbn [rbind] in H' |- *. rewrite I2, Gs, Gi, Gp in *. cbn [rbind] in H' |- *. cbv zeta in H' |- *.
  apply rbind_ok in H' as (v1 & -> & H'). apply rbind_ok in H' as (v2 & -> & H'). apply rbind_ok in H' as (v3 & E3 & H'). rewrite E3. cbn [rbind].
  destruct (np_quot (0.886 * PI) (v1 - v2)), (np_quot (0.886 * PI) (v3 - v2)); cbn [rbind] in H' |- *; try assumption; try discriminate. rewrite Rmin_comm. exact H'.
Qed.
(*! C97 (degenerate): a signal at the pump wavelength is a division by zero. *)
Lemma C97_degenerate_l : forall (x : crystal) (axis : option string) (p : R), mix_phasematching_bw x p p axis = Raise ZeroDivisionError.
Proof.
  intros x axis p. unfold mix_phasematching_bw, pyinv. destruct (Req_EM_T p 0); [reflexivity|]. cbn [rbind]. destruct (Req_EM_T (1 / p - 1 / p) 0) as [_|N]; [reflexivity|].
  exfalso. apply N. ring.
Qed.

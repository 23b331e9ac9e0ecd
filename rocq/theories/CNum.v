(** Finite sums, complex exponentials and roots of unity: mathematics only,
    nothing from /repo is modelled here. *)
From Coq Require Import Reals List Lia Lra ZArith Permutation.
From Coquelicot Require Import Complex.
Import ListNotations.
Local Open Scope R_scope.
Local Open Scope C_scope.

(** ** Lists built from index functions *)
Definition mk {A} (n : nat) (f : nat -> A) : list A := map f (seq 0 n).

Lemma mk_length {A} n (f : nat -> A) : length (mk n f) = n.
Proof. unfold mk. now rewrite map_length, seq_length. Qed.

Lemma mk_nth {A} n (f : nat -> A) i d : (i < n)%nat -> nth i (mk n f) d = f i.
Proof.
  intros H. unfold mk. rewrite nth_indep with (d' := f O) by (rewrite map_length, seq_length; lia).
  rewrite map_nth. now rewrite seq_nth by lia.
Qed.

Lemma mk_ext {A} n (f g : nat -> A) :
  (forall i, (i < n)%nat -> f i = g i) -> mk n f = mk n g.
Proof.
  intros H. apply map_ext_in. intros i Hi. apply in_seq in Hi. apply H. lia.
Qed.

Lemma list_ext {A} (d : A) (a b : list A) :
  length a = length b ->
  (forall i, (i < length a)%nat -> nth i a d = nth i b d) -> a = b.
Proof. intros Hl H. apply (nth_ext a b d d Hl H). Qed.

Lemma mk_self {A} (d : A) (l : list A) : mk (length l) (fun i => nth i l d) = l.
Proof.
  apply (list_ext d); rewrite mk_length; auto.
  intros i Hi. now rewrite mk_nth.
Qed.

Lemma map_mk {A B} (g : A -> B) n f : map g (mk n f) = mk n (fun i => g (f i)).
Proof. unfold mk. now rewrite map_map. Qed.

Lemma nth_map' {A B} (f : A -> B) l i d d' :
  (i < length l)%nat -> nth i (map f l) d' = f (nth i l d).
Proof.
  intros H. rewrite nth_indep with (d' := f d) by now rewrite map_length.
  apply map_nth.
Qed.

Lemma mk_S {A} n (f : nat -> A) : mk (S n) f = mk n f ++ [f n].
Proof. unfold mk. now rewrite seq_S, map_app. Qed.

(** ** Sums *)
Definition lsum (l : list C) : C := fold_right Cplus (RtoC 0) l.
Definition lrsum (l : list R) : R := fold_right Rplus 0%R l.
Definition csum (n : nat) (f : nat -> C) : C := lsum (mk n f).
Definition rsum (n : nat) (f : nat -> R) : R := lrsum (mk n f).

Lemma lsum_app a b : lsum (a ++ b) = lsum a + lsum b.
Proof. induction a as [|x a IH]; simpl; [ring|]. rewrite IH; ring. Qed.
Lemma lrsum_app a b : lrsum (a ++ b) = (lrsum a + lrsum b)%R.
Proof. induction a as [|x a IH]; simpl; [ring|]. rewrite IH; ring. Qed.

Lemma lsum_perm a b : Permutation a b -> lsum a = lsum b.
Proof.
  induction 1; simpl; auto.
  - now rewrite IHPermutation.
  - ring.
  - congruence.
Qed.
Lemma lrsum_perm a b : Permutation a b -> lrsum a = lrsum b.
Proof.
  induction 1; simpl; auto.
  - now rewrite IHPermutation.
  - ring.
  - congruence.
Qed.

Lemma csum_0 f : csum 0 f = 0.
Proof. reflexivity. Qed.
Lemma csum_S n f : csum (S n) f = csum n f + f n.
Proof. unfold csum. rewrite mk_S, lsum_app. simpl. ring. Qed.
Lemma rsum_0 f : rsum 0 f = 0%R.
Proof. reflexivity. Qed.
Lemma rsum_S n f : rsum (S n) f = (rsum n f + f n)%R.
Proof. unfold rsum. rewrite mk_S, lrsum_app. simpl. ring. Qed.

Lemma csum_ext n f g : (forall i, (i < n)%nat -> f i = g i) -> csum n f = csum n g.
Proof. intros H. unfold csum. now rewrite (mk_ext n f g H). Qed.
Lemma rsum_ext n f g : (forall i, (i < n)%nat -> f i = g i) -> rsum n f = rsum n g.
Proof. intros H. unfold rsum. now rewrite (mk_ext n f g H). Qed.

Lemma lsum_nth l : lsum l = csum (length l) (fun i => nth i l (RtoC 0)).
Proof. unfold csum. now rewrite mk_self. Qed.
Lemma lrsum_nth l : lrsum l = rsum (length l) (fun i => nth i l 0%R).
Proof. unfold rsum. now rewrite mk_self. Qed.

Lemma csum_plus n f g : csum n (fun i => f i + g i) = csum n f + csum n g.
Proof. induction n as [|n IH]; [rewrite !csum_0; ring|]. rewrite !csum_S, IH. ring. Qed.
Lemma csum_scal_l n a f : csum n (fun i => a * f i) = a * csum n f.
Proof. induction n as [|n IH]; [rewrite !csum_0; ring|]. rewrite !csum_S, IH. ring. Qed.
Lemma csum_scal_r n a f : csum n (fun i => f i * a) = csum n f * a.
Proof. induction n as [|n IH]; [rewrite !csum_0; ring|]. rewrite !csum_S, IH. ring. Qed.
Lemma csum_opp n f : csum n (fun i => - f i) = - csum n f.
Proof. induction n as [|n IH]; [rewrite !csum_0; ring|]. rewrite !csum_S, IH. ring. Qed.
Lemma csum_zero n (f : nat -> C) : (forall i, (i < n)%nat -> f i = 0) -> csum n f = 0.
Proof.
  induction n as [|n IH]; intros H; [reflexivity|].
  rewrite csum_S, IH by (intros; apply H; lia). rewrite H by lia. ring.
Qed.
Lemma csum_const n (a : C) : csum n (fun _ => a) = RtoC (INR n) * a.
Proof.
  induction n as [|n IH]; [rewrite csum_0; simpl; ring|].
  rewrite csum_S, IH, S_INR, RtoC_plus. ring.
Qed.
Lemma csum_swap n m (f : nat -> nat -> C) :
  csum n (fun i => csum m (fun j => f i j)) = csum m (fun j => csum n (fun i => f i j)).
Proof.
  induction n as [|n IH].
  - rewrite csum_0. symmetry. apply csum_zero. intros; reflexivity.
  - rewrite csum_S, IH, <- csum_plus. apply csum_ext. intros. now rewrite csum_S.
Qed.
Lemma csum_single n k (f : nat -> C) :
  (k < n)%nat -> (forall i, (i < n)%nat -> i <> k -> f i = 0) -> csum n f = f k.
Proof.
  induction n as [|n IH]; intros Hk H; [lia|].
  rewrite csum_S. destruct (Nat.eq_dec k n) as [->|Hne].
  - rewrite csum_zero; [ring|]. intros; apply H; lia.
  - rewrite IH by (lia || (intros; apply H; lia)). rewrite (H n) by lia. ring.
Qed.
Lemma csum_add n m f : csum (n + m) f = csum n f + csum m (fun i => f (n + i)%nat).
Proof.
  induction m as [|m IH].
  - rewrite Nat.add_0_r, csum_0. ring.
  - rewrite Nat.add_succ_r, !csum_S, IH. ring.
Qed.

Lemma rsum_plus n f g : rsum n (fun i => f i + g i)%R = (rsum n f + rsum n g)%R.
Proof. induction n as [|n IH]; [rewrite !rsum_0; ring|]. rewrite !rsum_S, IH. ring. Qed.
Lemma rsum_scal_l n a f : rsum n (fun i => a * f i)%R = (a * rsum n f)%R.
Proof. induction n as [|n IH]; [rewrite !rsum_0; ring|]. rewrite !rsum_S, IH. ring. Qed.
Lemma rsum_scal_r n a f : rsum n (fun i => f i * a)%R = (rsum n f * a)%R.
Proof. induction n as [|n IH]; [rewrite !rsum_0; ring|]. rewrite !rsum_S, IH. ring. Qed.
Lemma rsum_opp n f : rsum n (fun i => - f i)%R = (- rsum n f)%R.
Proof. induction n as [|n IH]; [rewrite !rsum_0; ring|]. rewrite !rsum_S, IH. ring. Qed.
Lemma rsum_zero n (f : nat -> R) : (forall i, (i < n)%nat -> f i = 0%R) -> rsum n f = 0%R.
Proof.
  induction n as [|n IH]; intros H; [reflexivity|].
  rewrite rsum_S, IH by (intros; apply H; lia). rewrite H by lia. ring.
Qed.
Lemma rsum_const n a : rsum n (fun _ => a) = (INR n * a)%R.
Proof.
  induction n as [|n IH]; [rewrite rsum_0; simpl; ring|].
  rewrite rsum_S, IH, S_INR. ring.
Qed.
Lemma rsum_swap n m (f : nat -> nat -> R) :
  rsum n (fun i => rsum m (fun j => f i j)) = rsum m (fun j => rsum n (fun i => f i j)).
Proof.
  induction n as [|n IH].
  - rewrite rsum_0. symmetry. apply rsum_zero. intros; reflexivity.
  - rewrite rsum_S, IH, <- rsum_plus. apply rsum_ext. intros. now rewrite rsum_S.
Qed.
Lemma rsum_single n k (f : nat -> R) :
  (k < n)%nat -> (forall i, (i < n)%nat -> i <> k -> f i = 0%R) -> rsum n f = f k.
Proof.
  induction n as [|n IH]; intros Hk H; [lia|].
  rewrite rsum_S. destruct (Nat.eq_dec k n) as [->|Hne].
  - rewrite rsum_zero; [ring|]. intros; apply H; lia.
  - rewrite IH by (lia || (intros; apply H; lia)). rewrite (H n) by lia. ring.
Qed.
Lemma rsum_add n m f : rsum (n + m) f = (rsum n f + rsum m (fun i => f (n + i)%nat))%R.
Proof.
  induction m as [|m IH].
  - rewrite Nat.add_0_r, rsum_0. ring.
  - rewrite Nat.add_succ_r, !rsum_S, IH. ring.
Qed.
Lemma rsum_nonneg n f : (forall i, (i < n)%nat -> (0 <= f i)%R) -> (0 <= rsum n f)%R.
Proof.
  induction n as [|n IH]; intros H; [rewrite rsum_0; lra|].
  rewrite rsum_S. assert (0 <= rsum n f)%R by (apply IH; intros; apply H; lia).
  assert (0 <= f n)%R by (apply H; lia). lra.
Qed.
Lemma rsum_le n f g : (forall i, (i < n)%nat -> (f i <= g i)%R) -> (rsum n f <= rsum n g)%R.
Proof.
  induction n as [|n IH]; intros H; [rewrite !rsum_0; lra|].
  rewrite !rsum_S. assert (rsum n f <= rsum n g)%R by (apply IH; intros; apply H; lia).
  assert (f n <= g n)%R by (apply H; lia). lra.
Qed.
Lemma rsum_term_le n f k :
  (forall i, (i < n)%nat -> (0 <= f i)%R) -> (k < n)%nat -> (f k <= rsum n f)%R.
Proof.
  induction n as [|n IH]; intros H Hk; [lia|].
  rewrite rsum_S. assert (0 <= f n)%R by (apply H; lia).
  assert (0 <= rsum n f)%R by (apply rsum_nonneg; intros; apply H; lia).
  destruct (Nat.eq_dec k n) as [->|Hne]; [lra|].
  assert (f k <= rsum n f)%R by (apply IH; [intros; apply H; lia|lia]). lra.
Qed.
Lemma rsum_eq_0 n f k :
  (forall i, (i < n)%nat -> (0 <= f i)%R) -> rsum n f = 0%R -> (k < n)%nat -> f k = 0%R.
Proof.
  intros H H0 Hk. pose proof (rsum_term_le n f k H Hk). pose proof (H k Hk). lra.
Qed.

Lemma csum_RtoC n (f : nat -> R) : csum n (fun i => RtoC (f i)) = RtoC (rsum n f).
Proof. induction n as [|n IH]; [reflexivity|]. rewrite csum_S, rsum_S, IH, RtoC_plus. reflexivity. Qed.
Lemma Re_csum n f : Re (csum n f) = rsum n (fun i => Re (f i)).
Proof. induction n as [|n IH]; [reflexivity|]. rewrite csum_S, rsum_S, <- IH. reflexivity. Qed.
Lemma Im_csum n f : Im (csum n f) = rsum n (fun i => Im (f i)).
Proof. induction n as [|n IH]; [reflexivity|]. rewrite csum_S, rsum_S, <- IH. reflexivity. Qed.

(** ** Conjugation *)
Lemma Cconj_plus a b : Cconj (a + b) = Cconj a + Cconj b.
Proof. unfold Cconj, Cplus; simpl. f_equal; ring. Qed.
Lemma Cconj_mult a b : Cconj (a * b) = Cconj a * Cconj b.
Proof. unfold Cconj, Cmult; simpl. f_equal; ring. Qed.
Lemma Cconj_opp a : Cconj (- a) = - Cconj a.
Proof. unfold Cconj, Copp; simpl. f_equal; ring. Qed.
Lemma Cconj_conj a : Cconj (Cconj a) = a.
Proof. destruct a. unfold Cconj; simpl. f_equal; ring. Qed.
Lemma Cconj_R (x : R) : Cconj (RtoC x) = RtoC x.
Proof. unfold Cconj, RtoC; simpl. f_equal; ring. Qed.
Lemma Cconj_csum n f : Cconj (csum n f) = csum n (fun i => Cconj (f i)).
Proof.
  induction n as [|n IH].
  - rewrite !csum_0. apply Cconj_R.
  - now rewrite !csum_S, Cconj_plus, IH.
Qed.

(** Squared modulus. *)
Definition Cnorm2 (z : C) : R := (Re z * Re z + Im z * Im z)%R.
Lemma Cnorm2_nonneg z : (0 <= Cnorm2 z)%R.
Proof. unfold Cnorm2. nra. Qed.
Lemma Cnorm2_mult a b : Cnorm2 (a * b) = (Cnorm2 a * Cnorm2 b)%R.
Proof. unfold Cnorm2, Cmult, Re, Im; simpl. ring. Qed.
Lemma Cnorm2_0 : Cnorm2 (RtoC 0) = 0%R.
Proof. unfold Cnorm2; simpl; ring. Qed.
Lemma Cnorm2_R (x : R) : Cnorm2 (RtoC x) = (x * x)%R.
Proof. unfold Cnorm2; simpl; ring. Qed.
Lemma Cnorm2_conj z : Cnorm2 (Cconj z) = Cnorm2 z.
Proof. unfold Cnorm2, Cconj, Re, Im; simpl; ring. Qed.
Lemma Cmult_conj z : z * Cconj z = RtoC (Cnorm2 z).
Proof. unfold Cnorm2, Cconj, Cmult, RtoC, Re, Im; simpl. f_equal; ring. Qed.
Lemma Cmod_sqr z : (Cmod z * Cmod z)%R = Cnorm2 z.
Proof.
  unfold Cmod, Cnorm2, Re, Im. rewrite sqrt_sqrt; [ring|].
  assert (0 <= fst z ^ 2)%R by apply pow2_ge_0.
  assert (0 <= snd z ^ 2)%R by apply pow2_ge_0. lra.
Qed.
Lemma Cmod_Cnorm2 z : Cmod z = sqrt (Cnorm2 z).
Proof. unfold Cmod, Cnorm2, Re, Im. f_equal. ring. Qed.
Lemma Cnorm2_eq_0 z : Cnorm2 z = 0%R -> z = RtoC 0.
Proof.
  destruct z as [a b]. unfold Cnorm2, Re, Im; simpl. intros H.
  assert (a = 0)%R by nra. assert (b = 0)%R by nra. subst. reflexivity.
Qed.
Lemma C_eq (a b : C) : Re a = Re b -> Im a = Im b -> a = b.
Proof. destruct a, b; unfold Re, Im; simpl. congruence. Qed.

(** ** Complex exponential *)
Definition cis (t : R) : C := (cos t, sin t).
Definition cexp (z : C) : C := (exp (Re z) * cos (Im z), exp (Re z) * sin (Im z))%R.

Lemma cis_0 : cis 0 = 1.
Proof. unfold cis. now rewrite cos_0, sin_0. Qed.
Lemma cis_add a b : cis (a + b) = cis a * cis b.
Proof. unfold cis, Cmult; simpl. rewrite cos_plus, sin_plus. f_equal; ring. Qed.
Lemma cis_conj t : Cconj (cis t) = cis (- t).
Proof. unfold cis, Cconj; simpl. now rewrite cos_neg, sin_neg. Qed.
Lemma cis_norm2 t : Cnorm2 (cis t) = 1%R.
Proof. unfold Cnorm2, cis, Re, Im; simpl. pose proof (sin2_cos2 t) as H. unfold Rsqr in H. lra. Qed.
Lemma cis_neg_mult t : cis (- t) * cis t = 1.
Proof. rewrite <- cis_add. replace (- t + t)%R with 0%R by ring. apply cis_0. Qed.
Lemma cis_nonzero t : cis t <> 0.
Proof. intros H. pose proof (cis_norm2 t) as H1. rewrite H, Cnorm2_0 in H1. lra. Qed.
Lemma cis_mod t : Cmod (cis t) = 1%R.
Proof. rewrite Cmod_Cnorm2, cis_norm2. apply sqrt_1. Qed.

Lemma cexp_add a b : cexp (a + b) = cexp a * cexp b.
Proof.
  unfold cexp, Cmult, Cplus, Re, Im; simpl.
  rewrite exp_plus, cos_plus, sin_plus. f_equal; ring.
Qed.
Lemma cexp_0 : cexp 0 = 1.
Proof. unfold cexp; simpl. rewrite exp_0, cos_0, sin_0. unfold RtoC. f_equal; ring. Qed.
Lemma cexp_imag t : cexp (0, t)%R = cis t.
Proof. unfold cexp, cis; simpl. rewrite exp_0. f_equal; ring. Qed.
Lemma cexp_norm2 z : Cnorm2 (cexp z) = exp (2 * Re z).
Proof.
  destruct z as [a b]. unfold Cnorm2, cexp, Re, Im; cbn [fst snd].
  pose proof (sin2_cos2 b) as H. unfold Rsqr in H.
  replace (2 * a)%R with (a + a)%R by ring. rewrite exp_plus.
  transitivity (exp a * exp a * (sin b * sin b + cos b * cos b))%R; [ring|].
  rewrite H. ring.
Qed.
Lemma cexp_nonzero z : cexp z <> 0.
Proof.
  intros H. pose proof (cexp_norm2 z) as H1. rewrite H, Cnorm2_0 in H1.
  pose proof (exp_pos (2 * Re z)). lra.
Qed.
Lemma cexp_opp z : cexp (- z) * cexp z = 1.
Proof. rewrite <- cexp_add. replace (- z + z) with (RtoC 0) by ring. apply cexp_0. Qed.

Lemma cis_2PI_nat k : cis (2 * PI * INR k) = 1.
Proof.
  induction k as [|k IH].
  - simpl. rewrite Rmult_0_r. apply cis_0.
  - rewrite S_INR. replace (2 * PI * (INR k + 1))%R with (2 * PI * INR k + 2 * PI)%R by ring.
    rewrite cis_add, IH, Cmult_1_l. unfold cis. now rewrite cos_2PI, sin_2PI.
Qed.
Lemma cis_2PI_Z k : cis (2 * PI * IZR k) = 1.
Proof.
  destruct (Z_le_gt_dec 0 k) as [H|H].
  - replace (IZR k) with (INR (Z.to_nat k)) by (rewrite INR_IZR_INZ, Z2Nat.id; auto with zarith).
    apply cis_2PI_nat.
  - assert (E : cis (2 * PI * IZR (- k)) = 1).
    { replace (IZR (- k)) with (INR (Z.to_nat (- k))) by (rewrite INR_IZR_INZ, Z2Nat.id; auto with zarith).
      apply cis_2PI_nat. }
    pose proof (cis_neg_mult (2 * PI * IZR (- k))) as H1. rewrite E in H1.
    rewrite opp_IZR in H1. replace (- (2 * PI * - IZR k))%R with (2 * PI * IZR k)%R in H1 by ring.
    rewrite Cmult_1_r in H1. exact H1.
Qed.

Lemma cis_eq_1 t : cis t = 1 -> exists k : Z, t = (2 * PI * IZR k)%R.
Proof.
  intros H. assert (Hc : cos t = 1%R) by (injection H; auto).
  replace t with (2 * (t / 2))%R in Hc by field.
  rewrite cos_2a_sin in Hc.
  assert (sin (t / 2) = 0)%R by nra.
  destruct (sin_eq_0_0 _ H0) as [k Hk]. exists k. lra.
Qed.

Definition cpow (z : C) (n : nat) : C := fold_right (fun _ acc => z * acc) 1 (repeat tt n).
Fixpoint cpw (z : C) (n : nat) : C := match n with O => 1 | S k => z * cpw z k end.

Lemma cpw_cis t n : cpw (cis t) n = cis (INR n * t).
Proof.
  induction n as [|n IH].
  - simpl. rewrite Rmult_0_l. symmetry; apply cis_0.
  - simpl cpw. rewrite IH, <- cis_add. f_equal. rewrite S_INR. ring.
Qed.
Lemma geom_sum z n : (z - 1) * csum n (fun j => cpw z j) = cpw z n - 1.
Proof.
  induction n as [|n IH].
  - rewrite csum_0. simpl. ring.
  - rewrite csum_S. simpl cpw. replace ((z - 1) * (csum n (fun j => cpw z j) + cpw z n))
      with ((z - 1) * csum n (fun j => cpw z j) + (z - 1) * cpw z n) by ring.
    rewrite IH. ring.
Qed.

(** Orthogonality of the n-th roots of unity. *)
Lemma roots_orth n (m : Z) : (0 < n)%nat ->
  csum n (fun j => cis (2 * PI * IZR m * INR j / INR n)) =
  if (m mod Z.of_nat n =? 0)%Z then RtoC (INR n) else 0.
Proof.
  intros Hn. assert (Hn' : INR n <> 0%R) by (apply not_0_INR; lia).
  set (z := cis (2 * PI * IZR m / INR n)).
  assert (E : forall j, cis (2 * PI * IZR m * INR j / INR n) = cpw z j).
  { intros j. unfold z. rewrite cpw_cis. f_equal. field. exact Hn'. }
  rewrite (csum_ext n _ (fun j => cpw z j)) by (intros; apply E).
  destruct (m mod Z.of_nat n =? 0)%Z eqn:Em.
  - apply Z.eqb_eq in Em. apply Z_div_exact_full_2 in Em; [|lia].
    assert (z = 1).
    { unfold z. replace (2 * PI * IZR m / INR n)%R with (2 * PI * IZR (m / Z.of_nat n))%R.
      - apply cis_2PI_Z.
      - rewrite Em at 2. rewrite mult_IZR, <- INR_IZR_INZ. field. exact Hn'. }
    rewrite H. transitivity (csum n (fun _ => 1)).
    + apply csum_ext. intros j _. clear. induction j; simpl; [reflexivity|]. rewrite IHj. ring.
    + rewrite csum_const. ring.
  - apply Z.eqb_neq in Em.
    assert (Hz : z <> 1).
    { intros H. apply cis_eq_1 in H. destruct H as [k Hk]. apply Em.
      assert (IZR m = IZR k * INR n)%R.
      { pose proof PI_RGT_0. apply (Rmult_eq_reg_l (2 * PI)); [|lra].
        apply (Rmult_eq_reg_r (/ INR n)); [|apply Rinv_neq_0_compat; exact Hn'].
        transitivity (2 * PI * IZR m / INR n)%R; [reflexivity|]. rewrite Hk. field. exact Hn'. }
      rewrite INR_IZR_INZ, <- mult_IZR in H. apply eq_IZR in H. rewrite H. apply Z_mod_mult. }
    pose proof (geom_sum z n) as G.
    assert (Hp : cpw z n = 1).
    { unfold z. rewrite cpw_cis. replace (INR n * (2 * PI * IZR m / INR n))%R with (2 * PI * IZR m)%R
        by (field; exact Hn'). apply cis_2PI_Z. }
    rewrite Hp in G. replace (1 - 1) with (RtoC 0) in G by ring.
    destruct (Ceq_dec (csum n (fun j => cpw z j)) 0) as [H0|H0]; [exact H0|].
    exfalso. apply (Cmult_neq_0 (z - 1) (csum n (fun j => cpw z j))); auto.
    intros Hm. apply Hz. replace z with ((z - 1) + 1) by ring. rewrite Hm. ring.
Qed.

Lemma cis_mod_period n (a b : Z) : (0 < n)%nat -> (a mod Z.of_nat n = b mod Z.of_nat n)%Z ->
  cis (2 * PI * IZR a / INR n) = cis (2 * PI * IZR b / INR n).
Proof.
  intros Hn H. assert (Hn' : INR n <> 0%R) by (apply not_0_INR; lia).
  assert (Hd : exists k, (a = b + k * Z.of_nat n)%Z).
  { exists (a / Z.of_nat n - b / Z.of_nat n)%Z.
    rewrite (Z.div_mod a (Z.of_nat n)) at 1 by lia.
    rewrite (Z.div_mod b (Z.of_nat n)) at 1 by lia. rewrite H. ring. }
  destruct Hd as [k ->]. rewrite plus_IZR, mult_IZR, <- INR_IZR_INZ.
  replace (2 * PI * (IZR b + IZR k * INR n) / INR n)%R with (2 * PI * IZR b / INR n + 2 * PI * IZR k)%R
    by (field; exact Hn').
  rewrite cis_add, cis_2PI_Z. ring.
Qed.

(** Finite-difference stencils: the error of a weighted sum of samples as an estimate of a derivative; the weights of Savitzky and Golay and
    those of Lagrange interpolation. *)
From Coq Require Import Reals List ZArith Bool Arith Lia Lra Psatz Factorial.
From Coquelicot Require Import Coquelicot.
From Verif Require Import Base CNum NumPy ModelPulse ModelCrystal ModelGrating ModelGratingHigh CrystalMoreProofs.
Import ListNotations.
Local Open Scope R_scope.

(** ** Taylor's formula on both sides *)
Lemma sum_rsum f n : sum_f_R0 f n = rsum (S n) f.
Proof. induction n as [|n IH]; [rewrite rsum_S, rsum_0; cbn; ring|]. cbn [sum_f_R0]. rewrite IH, (rsum_S (S n)). reflexivity. Qed.
Lemma taylor_signed n F x r y M : derivatives F (S n) x r -> Rabs y < r -> (forall t, Rabs (t - x) <= Rabs y -> Rabs (F (S n) t) <= M) ->
  exists rem, Rabs rem <= Rabs y ^ (S n) / INR (fact (S n)) * M /\ F 0%nat (x + y) = rsum (S n) (fun m => y ^ m / INR (fact m) * F m x) + rem.
Proof.
  intros H Hy B. destruct (Rtotal_order y 0) as [L|[E|L]].
  - rewrite (Rabs_left y L) in *. destruct (taylor_left n F x r (- y) M H ltac:(lra) B) as (rem & P & Q). exists rem. split; [exact P|].
    replace (x - - y) with (x + y) in Q by ring. rewrite Q, sum_rsum. f_equal. apply rsum_ext. intros m _.
    replace ((- y) ^ m) with ((-1) ^ m * y ^ m) by (rewrite <- Rpow_mult_distr; f_equal; ring).
    transitivity (((-1) * (-1)) ^ m * (y ^ m / INR (fact m) * F m x)); [rewrite Rpow_mult_distr; unfold Rdiv; ring|]. replace (-1 * -1) with 1 by ring. rewrite pow1. ring.
  - subst y. exists 0. rewrite Rabs_R0. split.
    + rewrite pow_i by lia. unfold Rdiv. rewrite !Rmult_0_l. lra.
    + rewrite Rplus_0_r, (rsum_single (S n) 0) by (try lia; intros i _ Hi; rewrite pow_i by lia; unfold Rdiv; ring). cbn. lra.
  - rewrite (Rabs_pos_eq y) in * by lra. destruct (taylor_right n F x r y M H ltac:(lra) B) as (rem & P & Q). exists rem. split; [exact P|]. rewrite Q, sum_rsum. reflexivity.
Qed.

Lemma rsum_abs N f : Rabs (rsum N f) <= rsum N (fun i => Rabs (f i)).
Proof. induction N as [|N IH]; [rewrite !rsum_0, Rabs_R0; lra|]. rewrite !rsum_S. eapply Rle_trans; [apply Rabs_triang|]. lra. Qed.

Lemma collect (N : nat) (P : nat -> R -> Prop) : (forall i, (i < N)%nat -> exists y, P i y) -> exists f, forall i, (i < N)%nat -> P i (f i).
Proof.
  induction N as [|N IH]; intros H; [exists (fun _ => 0); lia|]. destruct IH as [f Hf]; [intros i Hi; apply H; lia|]. destruct (H N ltac:(lia)) as [y Hy].
  exists (fun i => if (i =? N)%nat then y else f i). intros i Hi. destruct (i =? N)%nat eqn:E; [apply Nat.eqb_eq in E; subst; exact Hy|]. apply Nat.eqb_neq in E. apply Hf. lia.
Qed.

(** weights that are exact on the powers up to m estimate the n-th derivative with an error of order m + 1 *)
Lemma stencil (N : nat) (w x : nat -> R) (m n : nat) F x0 r h X M :
  (forall k, (k <= m)%nat -> rsum N (fun i => w i * x i ^ k) = if (k =? n)%nat then INR (fact n) else 0) -> (n <= m)%nat ->
  derivatives F (S m) x0 r -> 0 <= h -> (forall i, (i < N)%nat -> Rabs (x i) <= X) -> h * X < r -> (forall t, Rabs (t - x0) <= h * X -> Rabs (F (S m) t) <= M) ->
  Rabs (rsum N (fun i => w i * F 0%nat (x0 + x i * h)) - h ^ n * F n x0) <= rsum N (fun i => Rabs (w i) * Rabs (x i) ^ S m) / INR (fact (S m)) * h ^ S m * M.
Proof.
  intros Hw Hn HF Hh HX Hr HM.
  assert (T : forall i, (i < N)%nat -> exists rem, Rabs rem <= Rabs (x i * h) ^ (S m) / INR (fact (S m)) * M /\ F 0%nat (x0 + x i * h) = rsum (S m) (fun k => (x i * h) ^ k / INR (fact k) * F k x0) + rem).
  { intros i Hi. assert (A : Rabs (x i * h) <= h * X). { rewrite Rabs_mult, (Rabs_pos_eq h Hh), (Rmult_comm _ h). apply Rmult_le_compat_l; [exact Hh|apply HX, Hi]. }
    apply taylor_signed with r; [exact HF|lra|]. intros t Ht. apply HM. lra. }
  destruct (collect N _ T) as [rem Hrem]. clear T.
  assert (E : rsum N (fun i => w i * F 0%nat (x0 + x i * h)) - h ^ n * F n x0 = rsum N (fun i => w i * rem i)).
  { rewrite (rsum_ext N _ (fun i => rsum (S m) (fun k => w i * ((x i * h) ^ k / INR (fact k) * F k x0)) + w i * rem i)) by (intros i Hi; rewrite (proj2 (Hrem i Hi)), rsum_scal_l; ring).
    rewrite rsum_plus, rsum_swap, (rsum_single (S m) n); [|lia|].
    - rewrite (rsum_ext N _ (fun i => (w i * x i ^ n) * (h ^ n / INR (fact n) * F n x0))) by (intros i _; rewrite Rpow_mult_distr; unfold Rdiv; ring).
      rewrite rsum_scal_r, Hw, Nat.eqb_refl by exact Hn. field. apply INR_fact_neq_0.
    - intros k Hk Hkn. rewrite (rsum_ext N _ (fun i => (w i * x i ^ k) * (h ^ k / INR (fact k) * F k x0))) by (intros i _; rewrite Rpow_mult_distr; unfold Rdiv; ring).
      rewrite rsum_scal_r, Hw by lia. apply Nat.eqb_neq in Hkn. rewrite Hkn. ring. }
  rewrite E. eapply Rle_trans; [apply rsum_abs|].
  replace (rsum N (fun i => Rabs (w i) * Rabs (x i) ^ S m) / INR (fact (S m)) * h ^ S m * M) with (rsum N (fun i => Rabs (w i) * Rabs (x i) ^ S m) * (h ^ S m / INR (fact (S m)) * M)) by (unfold Rdiv; ring).
  rewrite <- rsum_scal_r. apply rsum_le. intros i Hi. rewrite Rabs_mult. destruct (Hrem i Hi) as [P _]. rewrite Rabs_mult, (Rabs_pos_eq h Hh), Rpow_mult_distr in P.
  replace (Rabs (w i) * Rabs (x i) ^ S m * (h ^ S m / INR (fact (S m)) * M)) with (Rabs (w i) * (Rabs (x i) ^ S m * h ^ S m / INR (fact (S m)) * M)) by (unfold Rdiv; ring).
  apply Rmult_le_compat_l; [apply Rabs_pos|exact P].
Qed.

(** ** Savitzky-Golay: eleven samples, degree seven *)
Fixpoint zs (n : nat) (f : nat -> Z) : Z := match n with O => 0%Z | S n => (zs n f + f n)%Z end.
Lemma zs_rsum n f : rsum n (fun i => IZR (f i)) = IZR (zs n f).
Proof. induction n as [|n IH]; [apply rsum_0|]. rewrite rsum_S, IH. cbn [zs]. now rewrite plus_IZR. Qed.
Definition sg_moment (d : Z) (k : nat) : Z := zs 11 (fun i => nth i (snd (savgol_table d)) 0 * (Z.of_nat i - 5) ^ Z.of_nat k)%Z.
Definition sg_ok (d k : nat) : bool := (sg_moment (Z.of_nat d) k =? (if (k =? d)%nat then Z.of_nat (fact d) * fst (savgol_table (Z.of_nat d)) else 0))%Z.
Lemma sg_all : forallb (fun d => forallb (sg_ok d) (seq 0 8)) (seq 0 8) = true.
Proof. reflexivity. Qed.
Definition sgd (d : nat) : R := IZR (fst (savgol_table (Z.of_nat d))).
Lemma sgd_pos d : 0 < sgd d.
Proof. unfold sgd. apply IZR_lt. generalize (Z.of_nat d). intros z. unfold savgol_table. destruct z as [|p|p]; try reflexivity. repeat (destruct p as [p|p|]; try reflexivity). Qed.
Lemma sg_nth d i : (i < 11)%nat -> nth i (savgol_coeffs (Z.of_nat d)) 0 = IZR (nth i (snd (savgol_table (Z.of_nat d))) 0%Z) / sgd d.
Proof.
  intros Hi. unfold savgol_coeffs, sgd. set (tb := savgol_table _). rewrite <- (map_nth (fun a => IZR a / IZR (fst tb))). apply nth_indep. rewrite map_length. subst tb.
  assert (L : length (snd (savgol_table (Z.of_nat d))) = 11%nat); [|lia]. unfold savgol_table. destruct (Z.of_nat d) as [|p|p]; try reflexivity. repeat (destruct p as [p|p|]; try reflexivity).
Qed.
Lemma sg_moments d k : (d <= 7)%nat -> (k <= 7)%nat -> rsum 11 (fun i => nth i (savgol_coeffs (Z.of_nat d)) 0 * (INR i - 5) ^ k) = if (k =? d)%nat then INR (fact d) else 0.
Proof.
  intros Hd Hk. pose proof sg_all as A. rewrite forallb_forall in A. specialize (A d ltac:(apply in_seq; lia)). rewrite forallb_forall in A. specialize (A k ltac:(apply in_seq; lia)).
  unfold sg_ok in A. apply Z.eqb_eq in A. pose proof (sgd_pos d) as P.
  rewrite (rsum_ext 11 _ (fun i => IZR (nth i (snd (savgol_table (Z.of_nat d))) 0%Z * (Z.of_nat i - 5) ^ Z.of_nat k)%Z * / sgd d)).
  - rewrite rsum_scal_r, zs_rsum. fold (sg_moment (Z.of_nat d) k). rewrite A. destruct (k =? d)%nat; [|rewrite Rmult_0_l; reflexivity]. rewrite mult_IZR, <- INR_IZR_INZ. fold (sgd d). field. lra.
  - intros i Hi. rewrite sg_nth by exact Hi. rewrite mult_IZR, <- pow_IZR, minus_IZR, <- INR_IZR_INZ. unfold Rdiv. ring.
Qed.
(** each weight is a polynomial of degree seven of its place *)
Definition sg_poly (d : nat) : Z * list Z :=
  match d with
  | 0%nat => (437580, [208260; 0; -73157; 0; 6160; 0; -143; 0])
  | 1%nat => (3430627200, [0; 1911587932; 0; -516084415; 0; 38256218; 0; -827255])
  | 2%nat => (262548000, [-87788400; 0; 54625762; 0; -5395445; 0; 134563; 0])
  | 3%nat => (38188800, [0; -34469460; 0; 10887041; 0; -865150; 0; 19409])
  | 4%nat => (1591200, [537600; 0; -392396; 0; 41635; 0; -1079; 0])
  | 5%nat => (514080, [0; 687924; 0; -232925; 0; 19201; 0; -440])
  | 6%nat => (20400, [-4800; 0; 3764; 0; -415; 0; 11; 0])
  | _ => (171360, [0; -208260; 0; 73157; 0; -6160; 0; 143])
  end%Z.
Definition sg_poly_ok (d i : nat) : bool := (nth i (snd (savgol_table (Z.of_nat d))) 0 * fst (sg_poly d) =? fst (savgol_table (Z.of_nat d)) * zs 8 (fun m => nth m (snd (sg_poly d)) 0 * (Z.of_nat i - 5) ^ Z.of_nat m))%Z.
Lemma sg_poly_all : forallb (fun d => forallb (sg_poly_ok d) (seq 0 11)) (seq 0 8) = true.
Proof. reflexivity. Qed.
Lemma sg_weight d i : (d <= 7)%nat -> (i < 11)%nat -> nth i (savgol_coeffs (Z.of_nat d)) 0 = rsum 8 (fun m => (IZR (nth m (snd (sg_poly d)) 0%Z) / IZR (fst (sg_poly d))) * (INR i - 5) ^ m).
Proof.
  intros Hd Hi. pose proof sg_poly_all as A. rewrite forallb_forall in A. specialize (A d ltac:(apply in_seq; lia)). rewrite forallb_forall in A. specialize (A i ltac:(apply in_seq; lia)).
  unfold sg_poly_ok in A. apply Z.eqb_eq, (f_equal IZR) in A. rewrite !mult_IZR, <- zs_rsum in A. fold (sgd d) in A. pose proof (sgd_pos d) as P. rewrite sg_nth by exact Hi.
  assert (Q : 0 < IZR (fst (sg_poly d))) by (do 8 (destruct d as [|d]; [cbn; lra|]); lia).
  rewrite (rsum_ext 8 _ (fun m => / IZR (fst (sg_poly d)) * IZR (nth m (snd (sg_poly d)) 0%Z * (Z.of_nat i - 5) ^ Z.of_nat m)%Z)) by (intros m _; rewrite mult_IZR, <- pow_IZR, minus_IZR, <- INR_IZR_INZ; unfold Rdiv; ring).
  rewrite rsum_scal_l. apply (Rmult_eq_reg_l (sgd d * IZR (fst (sg_poly d)))); [|apply Rgt_not_eq, Rmult_lt_0_compat; assumption].
  set (p := IZR (fst (sg_poly d))) in *. set (q := IZR (nth i _ _)) in *. set (sm := rsum 8 _) in *. replace (sgd d * p * (q / sgd d)) with (q * p) by (field; lra). rewrite A. field. lra.
Qed.
(** the normal equations of a least-squares fit *)
Lemma least_squares N m (y x : nat -> R) (c : nat -> R) :
  (forall c', rsum N (fun k => (y k - rsum m (fun j => c j * x k ^ j)) ^ 2) <= rsum N (fun k => (y k - rsum m (fun j => c' j * x k ^ j)) ^ 2)) ->
  forall j, (j < m)%nat -> rsum N (fun k => x k ^ j * (y k - rsum m (fun j => c j * x k ^ j))) = 0.
Proof.
  intros H j Hj. set (res := fun k => y k - rsum m (fun j => c j * x k ^ j)). set (A := rsum N (fun k => x k ^ j * res k)). set (B := rsum N (fun k => (x k ^ j) ^ 2)).
  assert (PB : 0 <= B) by (apply rsum_nonneg; intros; nra).
  assert (Q : forall e, 0 <= - 2 * e * A + e ^ 2 * B).
  { intros e. specialize (H (fun i => c i + if (i =? j)%nat then e else 0)). cbv beta in H.
    rewrite (rsum_ext N (fun k => (y k - rsum m (fun i => (c i + (if (i =? j)%nat then e else 0)) * x k ^ i)) ^ 2) (fun k => (res k ^ 2 + (- 2 * e * (x k ^ j * res k))) + e ^ 2 * (x k ^ j) ^ 2)) in H.
    - rewrite !rsum_plus, !rsum_scal_l in H. fold A B in H. change (rsum N (fun k => (y k - rsum m (fun j => c j * x k ^ j)) ^ 2)) with (rsum N (fun k => res k ^ 2)) in H. lra.
    - intros k _. rewrite (rsum_ext m _ (fun i => c i * x k ^ i + (if (i =? j)%nat then e else 0) * x k ^ i)) by (intros; ring). rewrite rsum_plus.
      rewrite (rsum_single m j (fun i => (if (i =? j)%nat then e else 0) * x k ^ i)) by (try exact Hj; intros i _ Hi; apply Nat.eqb_neq in Hi; rewrite Hi; ring). rewrite Nat.eqb_refl. unfold res. ring. }
  fold A. specialize (Q (A / (B + 1))). assert (E : (- 2 * (A / (B + 1)) * A + (A / (B + 1)) ^ 2 * B) * (B + 1) ^ 2 = - (A ^ 2 * (B + 2))) by (field; lra).
  assert (G : 0 <= - (A ^ 2 * (B + 2))) by (rewrite <- E; apply Rmult_le_pos; [exact Q|nra]).
  destruct (Req_dec A 0) as [Z|Z]; [exact Z|]. assert (0 < A ^ 2) by (rewrite <- Rsqr_pow2; apply Rsqr_pos_lt, Z). nra.
Qed.

(*! C118: the Savitzky-Golay filter, at an index with five samples on each side, gives the derivative at the middle of the polynomial of degree seven that is closest in least squares to those eleven samples. *)
Lemma C118_least_squares_l : forall (y : list R) (deriv i : nat) (c : nat -> R), (deriv <= 7)%nat ->
  (forall c', rsum 11 (fun k => (nth (i - 5 + k) y 0 - rsum 8 (fun j => c j * (INR k - 5) ^ j)) ^ 2) <= rsum 11 (fun k => (nth (i - 5 + k) y 0 - rsum 8 (fun j => c' j * (INR k - 5) ^ j)) ^ 2)) ->
  savgol_filter_at y (Z.of_nat deriv) i = INR (fact deriv) * c deriv.
Proof.
  intros y d i c Hd H. pose proof (least_squares 11 8 (fun k => nth (i - 5 + k) y 0) (fun k => INR k - 5) c H) as NE. cbv beta in NE.
  unfold savgol_filter_at. set (w := fun k => nth k (savgol_coeffs (Z.of_nat d)) 0). set (p := fun k => rsum 8 (fun j => c j * (INR k - 5) ^ j)).
  assert (E0 : rsum 11 (fun k => w k * (nth (i - 5 + k) y 0 - p k)) = 0).
  { rewrite (rsum_ext 11 _ (fun k => rsum 8 (fun m => (IZR (nth m (snd (sg_poly d)) 0%Z) / IZR (fst (sg_poly d))) * ((INR k - 5) ^ m * (nth (i - 5 + k) y 0 - p k))))).
    - rewrite rsum_swap. apply rsum_zero. intros m Hm. rewrite rsum_scal_l. unfold p. rewrite NE by exact Hm. ring.
    - intros k Hk. unfold w. rewrite sg_weight by assumption. rewrite <- rsum_scal_r. apply rsum_ext. intros m _. ring. }
  rewrite (rsum_ext 11 _ (fun k => w k * (nth (i - 5 + k) y 0 - p k) + w k * p k)) by (intros; unfold w; ring). rewrite rsum_plus, E0, Rplus_0_l. unfold p.
  rewrite (rsum_ext 11 _ (fun k => rsum 8 (fun j => c j * (w k * (INR k - 5) ^ j)))) by (intros; rewrite <- rsum_scal_l; apply rsum_ext; intros; ring).
  rewrite rsum_swap, (rsum_single 8 d); [|lia|].
  - rewrite rsum_scal_l. unfold w. rewrite sg_moments, Nat.eqb_refl by lia. ring.
  - intros j Hj Hne. rewrite rsum_scal_l. unfold w. rewrite sg_moments by lia. apply Nat.eqb_neq in Hne. rewrite Hne. ring.
Qed.

(** ** Lagrange interpolation *)
Fixpoint peval (p : list R) (x : R) : R := match p with [] => 0 | a :: p => a + x * peval p x end.
Lemma peval_add p q x : peval (padd p q) x = peval p x + peval q x.
Proof. revert q. induction p as [|a p IH]; intros [|b q]; cbn [padd peval]; try ring. rewrite IH. ring. Qed.
Lemma peval_scal c p x : peval (map (fun a => c * a) p) x = c * peval p x.
Proof. induction p as [|a p IH]; cbn [map peval]; [ring|]. rewrite IH. ring. Qed.
Lemma peval_root r d p x : d <> 0 -> peval (times_root r d p) x = (x - r) / d * peval p x.
Proof.
  intros Hd. unfold times_root. rewrite peval_add, peval_scal. cbn [peval]. rewrite (map_ext (fun a => a / d) (fun a => / d * a)) by (intros; unfold Rdiv; ring). rewrite peval_scal. field. exact Hd.
Qed.
Lemma padd_length p q : length (padd p q) = Nat.max (length p) (length q).
Proof. revert q. induction p as [|a p IH]; intros [|b q]; cbn [padd length]; try lia. rewrite IH. lia. Qed.
Lemma root_length r d p : length (times_root r d p) = S (length p).
Proof. unfold times_root. rewrite padd_length. cbn [length]. rewrite !map_length. lia. Qed.
Lemma peval_nth p x n : (length p <= n)%nat -> peval p x = rsum n (fun i => nth i p 0 * x ^ i).
Proof.
  revert n. induction p as [|a p IH]; intros n Hn; cbn [peval].
  - symmetry. apply rsum_zero. intros i _. destruct i; cbn; ring.
  - destruct n as [|n]; [cbn in Hn; lia|]. cbn [length] in Hn. rewrite (IH n) by lia. replace (S n) with (1 + n)%nat by lia. rewrite rsum_add, (rsum_S 0), rsum_0. cbn [nth pow]. rewrite <- rsum_scal_l. rewrite Rplus_0_l, Rmult_1_r. f_equal. apply rsum_ext. intros i _. change (1 + i)%nat with (S i). cbn [nth pow]. ring.
Qed.
Fixpoint quot (r : R) (p : list R) : list R := match p with [] => [] | a :: p' => match p' with [] => [] | _ => peval p' r :: quot r p' end end.
Lemma quot_eval r p x : peval p x - peval p r = (x - r) * peval (quot r p) x.
Proof. induction p as [|a [|b p] IH]; [cbn; ring|cbn; ring|]. change (quot r (a :: b :: p)) with (peval (b :: p) r :: quot r (b :: p)). set (q := b :: p) in *. cbn [peval]. transitivity (x * (peval q x - peval q r) + (x - r) * peval q r); [ring|]. rewrite IH. ring. Qed.
Lemma quot_length r p : length (quot r p) = pred (length p).
Proof. induction p as [|a [|b p] IH]; [reflexivity|reflexivity|]. change (quot r (a :: b :: p)) with (peval (b :: p) r :: quot r (b :: p)). cbn [length]. rewrite IH. reflexivity. Qed.
Lemma quot_zero r p : peval p r = 0 -> List.Forall (fun a => a = 0) (quot r p) -> List.Forall (fun a => a = 0) p.
Proof.
  induction p as [|a [|b p] IH]; intros H Q; [constructor| |].
  - constructor; [cbn in H; lra|constructor].
  - change (quot r (a :: b :: p)) with (peval (b :: p) r :: quot r (b :: p)) in Q. pose proof (Forall_inv Q) as Q1. pose proof (Forall_inv_tail Q) as Q2. set (q := b :: p) in *. clearbody q. cbn [peval] in H. rewrite Q1 in H. constructor; [lra|]. apply IH; assumption.
Qed.
Lemma roots_zero rs : NoDup rs -> forall p, (length p <= length rs)%nat -> (forall r, In r rs -> peval p r = 0) -> List.Forall (fun a => a = 0) p.
Proof.
  induction 1 as [|r rs Hr _ IH]; intros p Hp Hz; [destruct p; [constructor|cbn in Hp; lia]|].
  apply (quot_zero r); [apply Hz; left; reflexivity|]. apply IH; [rewrite quot_length; cbn [length] in Hp; lia|].
  intros x Hx. pose proof (quot_eval r p x) as E. rewrite (Hz r), (Hz x) in E by (cbn; auto). assert (x <> r) by (intros ->; contradiction).
  symmetry in E. replace (0 - 0) with 0 in E by ring. apply Rmult_integral in E as [E|E]; [lra|exact E].
Qed.
Lemma lagrange_at xs xk : peval (lagrange xs xk) xk = 1.
Proof. induction xs as [|x xs IH]; cbn [lagrange fold_right]; [cbn; ring|]. fold (lagrange xs xk). destruct (Req_EM_T x xk); [exact IH|]. rewrite peval_root, IH by lra. field. lra. Qed.
Lemma lagrange_off xs xk x : In x xs -> x <> xk -> peval (lagrange xs xk) x = 0.
Proof.
  induction xs as [|y xs IH]; intros H Hx; [destruct H|]. cbn [lagrange fold_right]. fold (lagrange xs xk). destruct (Req_EM_T y xk) as [E|E].
  - apply IH; [destruct H as [H|H]; [congruence|exact H]|exact Hx].
  - rewrite peval_root by lra. destruct (Req_EM_T y x) as [->|N]; [unfold Rdiv; rewrite Rminus_diag_eq by reflexivity; ring|]. rewrite IH; [ring| |exact Hx]. destruct H as [H|H]; [congruence|exact H].
Qed.
Lemma lagrange_length xs xk : (length (lagrange xs xk) <= S (length xs))%nat /\ (In xk xs -> (length (lagrange xs xk) <= length xs)%nat).
Proof.
  induction xs as [|y xs [A B]]; cbn [lagrange fold_right]; [cbn; split; [lia|tauto]|]. fold (lagrange xs xk). destruct (Req_EM_T y xk) as [E|E]; cbn [length].
  - split; [lia|intros _; exact A].
  - rewrite root_length. split; [lia|]. intros [H|H]; [congruence|]. specialize (B H). lia.
Qed.
Lemma nth_Forall0 p i : List.Forall (fun a => a = 0) p -> nth i p 0 = 0.
Proof. intros H. revert i. induction H as [|a p Ha _ IH]; intros [|i]; cbn; auto. Qed.
(** the coefficients of the Lagrange polynomials reproduce the powers *)
Lemma lagrange_moments xs n j : NoDup xs -> (n < length xs)%nat -> (j < length xs)%nat ->
  rsum (length xs) (fun k => nth n (lagrange xs (nth k xs 0)) 0 * nth k xs 0 ^ j) = if (j =? n)%nat then 1 else 0.
Proof.
  intros Hd Hn Hj. set (N := length xs) in *. set (x := fun k => nth k xs 0).
  set (P := mk N (fun i => rsum N (fun k => nth i (lagrange xs (x k)) 0 * x k ^ j) - if (j =? i)%nat then 1 else 0)).
  assert (Z : List.Forall (fun a => a = 0) P).
  { apply (roots_zero xs Hd); [unfold P; rewrite mk_length; apply le_n|]. intros r Hr. destruct (In_nth xs r 0 Hr) as (q & Hq & <-). fold (x q). fold N in Hq.
    rewrite (peval_nth P _ N) by (unfold P; rewrite mk_length; apply le_n).
    rewrite (rsum_ext N _ (fun i => rsum N (fun k => nth i (lagrange xs (x k)) 0 * x k ^ j * x q ^ i) + (- (if (j =? i)%nat then 1 else 0)) * x q ^ i)) by (intros i Hi; unfold P; rewrite mk_nth by exact Hi; rewrite rsum_scal_r; ring).
    rewrite rsum_plus, rsum_swap.
    rewrite (rsum_ext N (fun k => rsum N (fun i => nth i (lagrange xs (x k)) 0 * x k ^ j * x q ^ i)) (fun k => x k ^ j * peval (lagrange xs (x k)) (x q))).
    - rewrite (rsum_single N q), (rsum_single N j); try assumption.
      + rewrite lagrange_at, Nat.eqb_refl. ring.
      + intros i _ Hi. replace (j =? i)%nat with false by (symmetry; apply Nat.eqb_neq; congruence). ring.
      + intros k Hk Hkq. rewrite lagrange_off; [ring|apply nth_In; exact Hq|]. intros E. apply Hkq. symmetry. apply (proj1 (NoDup_nth xs 0) Hd); assumption.
    - intros k Hk. rewrite (peval_nth _ _ N) by (apply lagrange_length; apply nth_In; exact Hk). rewrite <- rsum_scal_l. apply rsum_ext. intros. ring. }
  pose proof (nth_Forall0 P n Z) as E. unfold P in E. rewrite mk_nth in E by exact Hn. change (nth ?k xs 0) with (x k). lra.
Qed.
(** a bound of the coefficients when the points are integers *)
Definition psize (p : list R) : R := lrsum (map Rabs p).
Lemma psize_cons a p : psize (a :: p) = Rabs a + psize p.
Proof. reflexivity. Qed.
Lemma psize_pos p : 0 <= psize p.
Proof. induction p as [|a p IH]; [apply Rle_refl|]. rewrite psize_cons. pose proof (Rabs_pos a). lra. Qed.
Lemma psize_nth p i : Rabs (nth i p 0) <= psize p.
Proof.
  revert i. induction p as [|a p IH]; intros [|i]; cbn [nth]; try (rewrite Rabs_R0; apply psize_pos); rewrite psize_cons; pose proof (psize_pos p); pose proof (Rabs_pos a); [lra|]. specialize (IH i). lra.
Qed.
Lemma psize_add p q : psize (padd p q) <= psize p + psize q.
Proof.
  revert q. induction p as [|a p IH]; intros [|b q]; cbn [padd]; [change (psize []) with 0; lra|change (psize []) with 0; lra|change (psize []) with 0; lra|].
  rewrite !psize_cons. specialize (IH q). pose proof (Rabs_triang a b). lra.
Qed.
Lemma psize_scal c p : psize (map (fun a => c * a) p) = Rabs c * psize p.
Proof. induction p as [|a p IH]; [change (psize (map (fun a => c * a) [])) with 0; change (psize []) with 0; ring|]. cbn [map]. rewrite !psize_cons, IH, Rabs_mult. ring. Qed.
Lemma psize_root r d p : 1 <= Rabs d -> psize (times_root r d p) <= (1 + Rabs r) * psize p.
Proof.
  intros Hd. unfold times_root. eapply Rle_trans; [apply psize_add|]. rewrite psize_scal. rewrite (map_ext (fun a => a / d) (fun a => / d * a)) by (intros; unfold Rdiv; ring).
  rewrite psize_cons, psize_scal, Rabs_R0.
  assert (Nd : d <> 0) by (intros ->; rewrite Rabs_R0 in Hd; lra). unfold Rdiv. rewrite Rabs_mult, Rabs_Ropp, Rabs_Rinv by exact Nd.
  assert (I : / Rabs d <= 1) by (rewrite <- Rinv_1; apply Rinv_le_contravar; lra). assert (I0 : 0 < / Rabs d) by (apply Rinv_0_lt_compat; lra). pose proof (psize_pos p). pose proof (Rabs_pos r).
  assert (Rabs r * / Rabs d * psize p <= Rabs r * psize p). { apply Rmult_le_compat_r; [assumption|]. rewrite <- (Rmult_1_r (Rabs r)) at 2. apply Rmult_le_compat_l; assumption. }
  assert (/ Rabs d * psize p <= 1 * psize p) by (apply Rmult_le_compat_r; assumption). lra.
Qed.

Lemma lagrange_size xs xk : (forall x, In x xs -> x <> xk -> 1 <= Rabs (xk - x)) -> psize (lagrange xs xk) <= fold_right (fun x b => (1 + Rabs x) * b) 1 xs.
Proof.
  induction xs as [|y xs IH]; intros H; cbn [lagrange fold_right]; [rewrite psize_cons; change (psize []) with 0; rewrite Rabs_R1; lra|]. fold (lagrange xs xk).
  specialize (IH ltac:(intros x Hx; apply H; right; exact Hx)). pose proof (Rabs_pos y). pose proof (psize_pos (lagrange xs xk)). destruct (Req_EM_T y xk) as [E|E].
  - nra.
  - eapply Rle_trans; [apply psize_root, H; [left; reflexivity|exact E]|]. nra.
Qed.

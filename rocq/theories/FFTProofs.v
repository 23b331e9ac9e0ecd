(** Facts about the DFT and about FFT_t / IFFT_t, for every length. *)
From Coq Require Import Reals List Lia Lra ZArith Permutation Bool.
From Coquelicot Require Import Complex.
From Verif Require Import Base CNum NumPy ModelFFT.
Import ListNotations.
Local Open Scope R_scope.
Local Open Scope C_scope.

Notation at0 x i := (nth i x (RtoC 0)).

Lemma IZR_of_nat_neq0 n : (0 < n)%nat -> RtoC (INR n) <> 0.
Proof. intros H E. apply RtoC_inj in E. revert E. apply not_0_INR. lia. Qed.

Lemma fft_nth x k : (k < length x)%nat ->
  at0 (fft x) k = csum (length x) (fun j => at0 x j * tw (length x) (- (Z.of_nat j * Z.of_nat k))).
Proof. intros H. unfold fft. now rewrite mk_nth. Qed.
Lemma ifft_nth x k : (k < length x)%nat ->
  at0 (ifft x) k = RtoC (/ INR (length x)) *
    csum (length x) (fun j => at0 x j * tw (length x) (Z.of_nat j * Z.of_nat k)).
Proof. intros H. unfold ifft. now rewrite mk_nth. Qed.

Lemma inv_INR_mult n : (0 < n)%nat -> RtoC (/ INR n) * RtoC (INR n) = 1.
Proof.
  intros H. rewrite <- RtoC_mult. f_equal. apply Rinv_l. apply not_0_INR. lia.
Qed.

(** The kernel identity behind every inversion formula. *)
Lemma dft_inv n (x : nat -> C) k : (k < n)%nat ->
  csum n (fun j => csum n (fun i => x i * tw n (Z.of_nat i * Z.of_nat j)) * tw n (- (Z.of_nat j * Z.of_nat k)))
  = RtoC (INR n) * x k.
Proof.
  intros Hk.
  transitivity (csum n (fun i => x i * csum n (fun j => tw n ((Z.of_nat i - Z.of_nat k) * Z.of_nat j)))).
  - rewrite (csum_ext n _ (fun j => csum n (fun i => x i * tw n ((Z.of_nat i - Z.of_nat k) * Z.of_nat j)))).
    + rewrite csum_swap. apply csum_ext. intros i _. now rewrite csum_scal_l.
    + intros j _. rewrite <- csum_scal_r. apply csum_ext. intros i _.
      rewrite <- Cmult_assoc, <- tw_add. do 2 f_equal. ring.
  - rewrite (csum_single n k (fun i => x i * csum n (fun j => tw n ((Z.of_nat i - Z.of_nat k) * Z.of_nat j))));
      [| exact Hk |].
    2:{ intros i Hi Hne. rewrite tw_orth by lia. rewrite orth_diff by lia.
        destruct (Nat.eqb_spec i k); [congruence|ring]. }
    rewrite tw_orth by lia. rewrite orth_diff by lia. rewrite Nat.eqb_refl. ring.
Qed.
Lemma dft_inv' n (x : nat -> C) k : (k < n)%nat ->
  csum n (fun j => csum n (fun i => x i * tw n (- (Z.of_nat i * Z.of_nat j))) * tw n (Z.of_nat j * Z.of_nat k))
  = RtoC (INR n) * x k.
Proof.
  intros Hk. rewrite <- (Cconj_conj (csum n _)), <- (Cconj_conj (_ * _)). f_equal.
  rewrite Cconj_csum, Cconj_mult, Cconj_R. rewrite <- (dft_inv n (fun i => Cconj (x i)) k Hk).
  apply csum_ext. intros j _. rewrite Cconj_mult, Cconj_csum, tw_conj. f_equal.
  apply csum_ext. intros i _. rewrite Cconj_mult, tw_conj, Z.opp_involutive. reflexivity.
Qed.

Lemma fft_ifft x : fft (ifft x) = x.
Proof.
  apply (list_ext (RtoC 0)); rewrite fft_length, ifft_length; [reflexivity|].
  intros k Hk. rewrite fft_nth by now rewrite ifft_length. rewrite ifft_length.
  set (n := length x) in *.
  rewrite (csum_ext n _ (fun j => RtoC (/ INR n) *
     (csum n (fun i => at0 x i * tw n (Z.of_nat i * Z.of_nat j)) * tw n (- (Z.of_nat j * Z.of_nat k))))).
  - rewrite csum_scal_l, (dft_inv n (fun i => at0 x i)) by exact Hk.
    rewrite Cmult_assoc, inv_INR_mult by lia. ring.
  - intros j Hj. rewrite ifft_nth by exact Hj. fold n. ring.
Qed.
Lemma ifft_fft x : ifft (fft x) = x.
Proof.
  apply (list_ext (RtoC 0)); rewrite ifft_length, fft_length; [reflexivity|].
  intros k Hk. rewrite ifft_nth by now rewrite fft_length. rewrite fft_length.
  set (n := length x) in *.
  rewrite (csum_ext n _ (fun j =>
     (csum n (fun i => at0 x i * tw n (- (Z.of_nat i * Z.of_nat j))) * tw n (Z.of_nat j * Z.of_nat k)))).
  - rewrite (dft_inv' n (fun i => at0 x i)) by exact Hk.
    rewrite Cmult_assoc, inv_INR_mult by lia. ring.
  - intros j Hj. rewrite fft_nth by exact Hj. reflexivity.
Qed.

Lemma FFT_t_length x : length (FFT_t x) = length x.
Proof. unfold FFT_t. now rewrite ifftshift_length, ifft_length, fftshift_length. Qed.
Lemma IFFT_t_length x : length (IFFT_t x) = length x.
Proof. unfold IFFT_t. now rewrite ifftshift_length, fft_length, fftshift_length. Qed.

Lemma IFFT_FFT_t x : IFFT_t (FFT_t x) = x.
Proof. unfold IFFT_t, FFT_t. now rewrite fftshift_ifftshift, fft_ifft, ifftshift_fftshift. Qed.
Lemma FFT_IFFT_t x : FFT_t (IFFT_t x) = x.
Proof. unfold IFFT_t, FFT_t. now rewrite fftshift_ifftshift, ifft_fft, ifftshift_fftshift. Qed.

(** Closed forms with both shifts absorbed; h = n//2. *)
Lemma fftshift_nth {A} (x : list A) i d : (i < length x)%nat ->
  nth i (fftshift x) d = nth (zmodn (length x) (Z.of_nat i - Z.of_nat (Nat.div2 (length x)))) x d.
Proof. intros. unfold fftshift. now rewrite roll_nth. Qed.
Lemma ifftshift_nth {A} (x : list A) i d : (i < length x)%nat ->
  nth i (ifftshift x) d = nth (zmodn (length x) (Z.of_nat i + Z.of_nat (Nat.div2 (length x)))) x d.
Proof. intros. unfold ifftshift. rewrite roll_nth by assumption. do 2 f_equal. ring. Qed.

Lemma shift_csum n (x : list C) (g : Z -> C) h : length x = n -> (0 < n)%nat ->
  (forall a b, (a mod Z.of_nat n = b mod Z.of_nat n)%Z -> g a = g b) ->
  csum n (fun j => at0 x (zmodn n (Z.of_nat j - h)) * g (Z.of_nat j)) =
  csum n (fun j => at0 x j * g (Z.of_nat j + h)%Z).
Proof.
  intros Hl Hn Hg.
  rewrite <- (csum_shift n (fun j => at0 x j * g (Z.of_nat j + h)%Z) (- h)).
  apply csum_ext. intros j Hj. f_equal. apply Hg.
  rewrite zmodn_of by lia. rewrite Zplus_mod_idemp_l. f_equal. ring.
Qed.

Lemma FFT_t_nth x k : (k < length x)%nat ->
  let n := length x in let h := Z.of_nat (Nat.div2 n) in
  at0 (FFT_t x) k = RtoC (/ INR n) *
    csum n (fun j => at0 x j * tw n ((Z.of_nat j + h) * (Z.of_nat k + h))).
Proof.
  intros Hk n h. unfold FFT_t.
  rewrite ifftshift_nth by (now rewrite ifft_length, fftshift_length).
  rewrite ifft_length, fftshift_length. fold n. fold h.
  rewrite ifft_nth by (rewrite fftshift_length; apply zmodn_lt; unfold n; lia).
  rewrite fftshift_length. fold n. f_equal.
  rewrite <- (shift_csum n x (fun j => tw n (j * (Z.of_nat k + h)))); auto; [|unfold n; lia|].
  - apply csum_ext. intros j Hj. rewrite fftshift_nth by exact Hj. fold n; fold h. f_equal.
    apply tw_mod; [unfold n; lia|]. rewrite zmodn_of by (unfold n; lia).
    now rewrite Zmult_mod_idemp_r.
  - intros a b E. apply tw_mod; [unfold n; lia|].
    rewrite Z.mul_mod, E, <- Z.mul_mod by (unfold n; lia). reflexivity.
Qed.

Lemma IFFT_t_nth x k : (k < length x)%nat ->
  let n := length x in let h := Z.of_nat (Nat.div2 n) in
  at0 (IFFT_t x) k =
    csum n (fun j => at0 x j * tw n (- ((Z.of_nat j + h) * (Z.of_nat k + h)))).
Proof.
  intros Hk n h. unfold IFFT_t.
  rewrite ifftshift_nth by (now rewrite fft_length, fftshift_length).
  rewrite fft_length, fftshift_length. fold n. fold h.
  rewrite fft_nth by (rewrite fftshift_length; apply zmodn_lt; unfold n; lia).
  rewrite fftshift_length. fold n.
  rewrite <- (shift_csum n x (fun j => tw n (- (j * (Z.of_nat k + h))))); auto; [|unfold n; lia|].
  - apply csum_ext. intros j Hj. rewrite fftshift_nth by exact Hj. fold n; fold h. f_equal.
    apply tw_mod; [unfold n; lia|]. rewrite zmodn_of by (unfold n; lia).
    rewrite <- !Z.mul_opp_l. now rewrite Zmult_mod_idemp_r.
  - intros a b E. apply tw_mod; [unfold n; lia|].
    rewrite <- !Z.mul_opp_r.
    rewrite Z.mul_mod, E, <- Z.mul_mod by (unfold n; lia). reflexivity.
Qed.

(** Parseval. *)
Lemma parseval_fft x :
  rsum (length x) (fun k => Cnorm2 (at0 (fft x) k)) =
  (INR (length x) * rsum (length x) (fun j => Cnorm2 (at0 x j)))%R.
Proof.
  set (n := length x). apply RtoC_inj. rewrite <- csum_RtoC, RtoC_mult, <- csum_RtoC.
  destruct (Nat.eq_dec n 0) as [E|E]; [rewrite E, !csum_0; simpl; ring|].
  rewrite (csum_ext n _ (fun k => csum n (fun j => at0 x j * tw n (- (Z.of_nat j * Z.of_nat k))
      * Cconj (at0 (fft x) k)))).
  2:{ intros k Hk. rewrite <- Cmult_conj. rewrite (fft_nth x k) at 1 by exact Hk. fold n.
      rewrite <- csum_scal_r. reflexivity. }
  rewrite csum_swap, <- csum_scal_l. apply csum_ext. intros j Hj.
  rewrite (csum_ext n _ (fun k => at0 x j * Cconj (at0 (fft x) k * tw n (Z.of_nat k * Z.of_nat j)))).
  2:{ intros k Hk. rewrite Cconj_mult, tw_conj. rewrite (Z.mul_comm (Z.of_nat k)). ring. }
  rewrite csum_scal_l, <- Cconj_csum.
  assert (E2 : csum n (fun k => at0 (fft x) k * tw n (Z.of_nat k * Z.of_nat j)) = RtoC (INR n) * at0 x j).
  { rewrite <- (dft_inv' n (fun i => at0 x i) j Hj). apply csum_ext. intros k Hk.
    now rewrite fft_nth. }
  rewrite E2, Cconj_mult, Cconj_R, <- Cmult_conj. ring.
Qed.

Lemma rsum_roll s (f : C -> R) (x : list C) :
  rsum (length x) (fun i => f (at0 (roll s x) i)) = rsum (length x) (fun i => f (at0 x i)).
Proof.
  rewrite <- (rsum_shift (length x) (fun i => f (at0 x i)) (- s)).
  apply rsum_ext. intros i Hi. now rewrite roll_nth.
Qed.

Lemma parseval_IFFT_t x :
  rsum (length x) (fun k => Cnorm2 (at0 (IFFT_t x) k)) =
  (INR (length x) * rsum (length x) (fun j => Cnorm2 (at0 x j)))%R.
Proof.
  unfold IFFT_t, ifftshift. set (y := fft (fftshift x)).
  assert (Ly : length y = length x) by (unfold y; now rewrite fft_length, fftshift_length).
  rewrite <- Ly at 1. rewrite rsum_roll. unfold y.
  rewrite fft_length. rewrite parseval_fft. rewrite fftshift_length. f_equal.
  unfold fftshift. apply (rsum_roll _ Cnorm2).
Qed.

(** The equation behind NonlinearOperator with self-steepening and a delayed response, bin by bin, and the photon number it keeps (C113). *)
From Coq Require Import Reals List ZArith Bool Arith Lia Lra.
From Coquelicot Require Import Coquelicot.
From Verif Require Import Base CNum NumPy ModelFFT FFTProofs ModelPulse PulseProofs PulseOpsProofs ModelSSFM SSFMLoopProofs SSFMProofs SSFMSymProofs SSFMPropProofs SSFMRamanProofs SSFMGnlseProofs ODETableauProofs.
Import ListNotations.
Local Open Scope R_scope.
Local Notation z0 := (RtoC 0).

(** The signed number of a transform bin: 0, 1, ..., -2, -1. *)
Definition sbin (n m : nat) : Z := if (2 * Z.of_nat m <? Z.of_nat n)%Z then Z.of_nat m else (Z.of_nat m - Z.of_nat n)%Z.
(** A field whose spectrum is zero in every bin numbered beyond [B]. *)
Definition band (n : nat) (B : Z) (x : list C) : Prop := forall m, (m < n)%nat -> (B < Z.abs (sbin n m))%Z -> nth m (ifft x) z0 = z0.

Lemma sbin_range n m : (m < n)%nat -> (- Z.of_nat n <= 2 * sbin n m < Z.of_nat n)%Z.
Proof. intros H. unfold sbin. destruct (Z.ltb_spec (2 * Z.of_nat m) (Z.of_nat n)); lia. Qed.
Lemma sbin_mod n m : (m < n)%nat -> exists q : Z, sbin n m = (Z.of_nat m + q * Z.of_nat n)%Z.
Proof. intros H. unfold sbin. destruct (Z.ltb_spec (2 * Z.of_nat m) (Z.of_nat n)); [exists 0%Z; lia|exists (-1)%Z; lia]. Qed.
Lemma sbin_unique n m z q : (m < n)%nat -> (- Z.of_nat n <= 2 * z < Z.of_nat n)%Z -> z = (Z.of_nat m + q * Z.of_nat n)%Z -> sbin n m = z.
Proof.
  intros H R E. destruct (sbin_mod n m H) as (p & P). pose proof (sbin_range n m H).
  assert (p = q) by nia. subst. exact P.
Qed.
Lemma zmodn_cong n a : (0 < n)%nat -> exists q : Z, Z.of_nat (zmodn n a) = (a + q * Z.of_nat n)%Z.
Proof. intros H. rewrite zmodn_of by exact H. exists (- (a / Z.of_nat n))%Z. pose proof (Z.div_mod a (Z.of_nat n) ltac:(lia)). lia. Qed.
Lemma sbin_sum n j m : (j < n)%nat -> (m < n)%nat -> (2 * (Z.abs (sbin n j) + Z.abs (sbin n (zmodn n (Z.of_nat m - Z.of_nat j)))) < Z.of_nat n)%Z ->
  sbin n m = (sbin n j + sbin n (zmodn n (Z.of_nat m - Z.of_nat j)))%Z.
Proof.
  intros Hj Hm H. set (i := zmodn n (Z.of_nat m - Z.of_nat j)) in *. assert (Hi : (i < n)%nat) by (apply zmodn_lt; lia).
  destruct (zmodn_cong n (Z.of_nat m - Z.of_nat j) ltac:(lia)) as (q & Q). fold i in Q. destruct (sbin_mod n j Hj) as (a & A). destruct (sbin_mod n i Hi) as (b & B).
  apply (sbin_unique n m _ (a + b + q)); [exact Hm|lia|]. rewrite A, B, Q. ring.
Qed.
Lemma sbin_neg n m : (m < n)%nat -> Z.abs (sbin n (zmodn n (- Z.of_nat m))) = Z.abs (sbin n m).
Proof.
  intros Hm. set (i := zmodn n (- Z.of_nat m)). assert (Hi : (i < n)%nat) by (apply zmodn_lt; lia).
  destruct (zmodn_cong n (- Z.of_nat m) ltac:(lia)) as (q & Q). fold i in Q. destruct (sbin_mod n m Hm) as (a & A). pose proof (sbin_range n m Hm) as R.
  destruct (Z.eq_dec (2 * sbin n m) (- Z.of_nat n)) as [E|E].
  - rewrite (sbin_unique n i (sbin n m) (- a - q - 1)%Z); [reflexivity|exact Hi|exact R|]. lia.
  - rewrite (sbin_unique n i (- sbin n m) (- a - q)%Z); [lia|exact Hi|lia|]. rewrite A. lia.
Qed.

(** the spectrum of a product is the cyclic convolution of the spectra *)
Lemma ifft_vmul n x y m : length x = n -> length y = n -> (m < n)%nat ->
  nth m (ifft (vmul x y)) z0 = csum n (fun j => nth j (ifft x) z0 * nth (zmodn n (Z.of_nat m - Z.of_nat j)) (ifft y) z0)%C.
Proof.
  intros Lx Ly Hm. assert (Lv : length (vmul x y) = n) by (rewrite vmul_length; congruence). rewrite ifft_nth by congruence. rewrite Lv.
  rewrite (csum_ext n _ (fun k => csum n (fun j => nth j (ifft x) z0 * (nth k y z0 * tw n (Z.of_nat k * (Z.of_nat m - Z.of_nat j)))))%C).
  - rewrite csum_swap, <- csum_scal_l. apply csum_ext. intros j Hj. rewrite csum_scal_l. rewrite (ifft_nth y) by (rewrite Ly; apply zmodn_lt; lia). rewrite Ly.
    rewrite (csum_ext n (fun i => nth i y z0 * tw n (Z.of_nat i * Z.of_nat (zmodn n (Z.of_nat m - Z.of_nat j))))%C (fun i => nth i y z0 * tw n (Z.of_nat i * (Z.of_nat m - Z.of_nat j)))%C); [ring|].
    intros i Hi. rewrite tw_zmodn by lia. reflexivity.
  - intros k Hk. rewrite vmul_nth by congruence. rewrite <- (fft_ifft x) at 1. rewrite fft_nth by (rewrite ifft_length; congruence). rewrite ifft_length, Lx, <- !csum_scal_r.
    apply csum_ext. intros j Hj. replace (Z.of_nat k * (Z.of_nat m - Z.of_nat j))%Z with (- (Z.of_nat j * Z.of_nat k) + Z.of_nat k * Z.of_nat m)%Z by ring. rewrite tw_add. ring.
Qed.
Lemma band_vmul n a b x y : length x = n -> length y = n -> (0 <= a)%Z -> (0 <= b)%Z -> (2 * (a + b) < Z.of_nat n)%Z -> band n a x -> band n b y -> band n (a + b) (vmul x y).
Proof.
  intros Lx Ly Ha Hb H Bx By m Hm Hs. rewrite (ifft_vmul n) by assumption. apply csum_zero. intros j Hj. set (i := zmodn n (Z.of_nat m - Z.of_nat j)).
  destruct (Z_lt_le_dec a (Z.abs (sbin n j))) as [F|F]; [rewrite Bx by assumption; ring|].
  destruct (Z_lt_le_dec b (Z.abs (sbin n i))) as [G|G]; [rewrite By by (try assumption; apply zmodn_lt; lia); ring|].
  exfalso. pose proof (sbin_sum n j m Hj Hm) as E. fold i in E. lia.
Qed.
Lemma band_conj n a x : length x = n -> band n a x -> band n a (cconj x).
Proof.
  intros Lx Bx m Hm Hs. assert (Hi : (zmodn n (- Z.of_nat m) < n)%nat) by (apply zmodn_lt; lia).
  pose proof (conj_ifft (cconj x)) as E. assert (cconj (cconj x) = x) as E2.
  { apply (vec_extn n); rewrite ?cconj_length; auto. intros i _. now rewrite !cconj_nth, Cconj_conj. }
  rewrite E2 in E. apply (f_equal (fun l => nth m l z0)) in E. rewrite cconj_nth, crev_nth in E by (rewrite ifft_length; congruence). rewrite ifft_length, Lx in E.
  rewrite (Bx _ Hi) in E by now rewrite sbin_neg. apply (f_equal Cconj) in E. rewrite Cconj_conj in E. rewrite E. now rewrite Cconj_R.
Qed.
Lemma band_int n a x : length x = n -> (0 <= a)%Z -> (4 * a < Z.of_nat n)%Z -> band n a x -> band n (a + a) (map (fun z => RtoC (Cnorm2 z)) x).
Proof.
  intros Lx Ha H Bx. replace (map (fun z => RtoC (Cnorm2 z)) x) with (vmul x (cconj x)).
  - apply band_vmul; auto; [now rewrite cconj_length|lia|now apply band_conj].
  - apply (vec_extn n); [rewrite vmul_length; [exact Lx|now rewrite cconj_length]|now rewrite map_length|]. intros i Hi. rewrite vmul_nth by now rewrite cconj_length. rewrite cconj_nth, Cmult_conj.
    now rewrite (nth_map' _ _ _ z0) by congruence.
Qed.
Lemma band_filter n a r x : length r = n -> length x = n -> band n a x -> band n a (fft (vmul r (ifft x))).
Proof. intros Lr Lx Bx m Hm Hs. rewrite ifft_fft, vmul_nth by (rewrite ifft_length; congruence). rewrite Bx by assumption. ring. Qed.

(** the derivative the code takes *)
Definition dfreq (dw : R) (n m : nat) : R := dw * IZR (sbin n m).
Definition dlist (n : nat) (dw : R) (x : list C) : list C := fft (vmul (mk n (fun m => - Ci * RtoC (dfreq dw n m))%C) (ifft x)).
Lemma dlist_len n dw x : length x = n -> length (dlist n dw x) = n.
Proof. intros L. unfold dlist. rewrite fft_length, vmul_length; rewrite mk_length; [reflexivity|now rewrite ifft_length]. Qed.
Lemma ifft_dlist n dw x m : length x = n -> (m < n)%nat -> nth m (ifft (dlist n dw x)) z0 = (- Ci * RtoC (dfreq dw n m) * nth m (ifft x) z0)%C.
Proof. intros L Hm. unfold dlist. rewrite ifft_fft, vmul_nth by (rewrite mk_length, ifft_length; congruence). now rewrite mk_nth by exact Hm. Qed.
(** the product rule, free of aliasing *)
Lemma dlist_product n dw a b x y : length x = n -> length y = n -> (2 * (a + b) < Z.of_nat n)%Z -> band n a x -> band n b y ->
  forall m, (m < n)%nat -> (nth m (ifft (vmul (dlist n dw x) y)) z0 + nth m (ifft (vmul x (dlist n dw y))) z0 = - Ci * RtoC (dfreq dw n m) * nth m (ifft (vmul x y)) z0)%C.
Proof.
  intros Lx Ly H Bx By m Hm. rewrite !(ifft_vmul n) by (try assumption; now apply dlist_len). rewrite <- csum_plus, <- csum_scal_l. apply csum_ext. intros j Hj.
  set (i := zmodn n (Z.of_nat m - Z.of_nat j)). assert (Hi : (i < n)%nat) by (apply zmodn_lt; lia). rewrite !ifft_dlist by assumption.
  destruct (Z_lt_le_dec a (Z.abs (sbin n j))) as [F|F]; [rewrite (Bx j) by assumption; ring|].
  destruct (Z_lt_le_dec b (Z.abs (sbin n i))) as [G|G]; [rewrite (By i) by assumption; ring|].
  pose proof (sbin_sum n j m Hj Hm) as E. fold i in E. specialize (E ltac:(lia)). unfold dfreq. rewrite E, plus_IZR, Rmult_plus_distr_l, RtoC_plus. ring.
Qed.

(** Parseval between two fields *)
Lemma parseval2 n x y : length x = n -> length y = n -> (0 < n)%nat ->
  csum n (fun m => Cconj (nth m (ifft x) z0) * nth m (ifft y) z0)%C = (RtoC (/ INR n) * csum n (fun k => Cconj (nth k x z0) * nth k y z0))%C.
Proof.
  intros Lx Ly Hn.
  rewrite (csum_ext n _ (fun m => RtoC (/ INR n) * csum n (fun k => nth k y z0 * Cconj (nth m (ifft x) z0 * tw n (- (Z.of_nat m * Z.of_nat k)))))%C).
  - rewrite csum_scal_l, csum_swap. f_equal. apply csum_ext. intros k Hk. rewrite csum_scal_l, <- Cconj_csum. assert (E : nth k x z0 = nth k (fft (ifft x)) z0) by now rewrite fft_ifft. rewrite E, fft_nth by (rewrite ifft_length; congruence).
    rewrite ifft_length, Lx. ring.
  - intros m Hm. rewrite (ifft_nth y) by congruence. rewrite Ly. rewrite Cmult_assoc, (Cmult_comm (Cconj _)), <- Cmult_assoc. f_equal. rewrite <- csum_scal_l. apply csum_ext. intros k Hk.
    rewrite Cconj_mult, tw_conj, Z.opp_involutive, (Z.mul_comm (Z.of_nat k)). ring.
Qed.
(** the delayed intensity is real *)
Lemma resp_real c n s A : c_pre c = true -> length (s_R s) = n -> length A = n -> real_response c n (s_R s) ->
  real_list (fft (vmul (s_R s) (ifft (map (fun z => RtoC (Cnorm2 z)) A)))).
Proof.
  intros Hp LR LA (q & k' & r & Lr & ER). set (A2 := map (fun z => RtoC (Cnorm2 z)) A). assert (L2 : length A2 = n) by (unfold A2; now rewrite map_length).
  assert (RA : real_list A2) by (unfold A2; rewrite <- map_map; apply real_map).
  assert (E : fft (vmul (s_R s) (ifft A2)) = diag c (s_R s) A2) by (unfold diag, ifft_t, fft_t; now rewrite Hp). rewrite E, ER.
  rewrite diag_affine by (rewrite fft_t_length, map_length; congruence). apply real_vadd.
  - rewrite !vscale_length, diag_length; rewrite ?fft_t_length, ?map_length; congruence.
  - now apply real_vscale.
  - apply real_vscale. apply real_diag; [rewrite map_length; congruence|apply real_map|exact RA].
Qed.

Lemma Cmod_cj z : Cmod (Cconj z) = Cmod z.
Proof. unfold Cmod, Cconj. cbn [fst snd]. f_equal. ring. Qed.
Lemma cderive_unique f t l m : is_cderive f t l -> is_cderive f t m -> l = m.
Proof.
  intros (H1 & H2) (H3 & H4). apply is_derive_unique in H1. apply is_derive_unique in H2. apply is_derive_unique in H3. apply is_derive_unique in H4. apply C_eq; congruence.
Qed.
Lemma sbin_bins n dw : (0 < n)%nat -> dw <> 0 -> bins n (dfreq dw n) (2 * PI / (INR n * dw)).
Proof.
  intros Hn Hd m Hm. destruct (sbin_mod n m Hm) as (q & E). exists q. unfold dfreq. rewrite E, plus_IZR, mult_IZR, <- !INR_IZR_INZ. field. split; [apply not_0_INR; lia|exact Hd].
Qed.
Lemma dlist_cderive n dw x k : dw <> 0 -> length x = n -> (k < n)%nat -> is_cderive (trig n (dfreq dw n) x) (INR k * (2 * PI / (INR n * dw))) (nth k (dlist n dw x) z0).
Proof.
  intros Hd L Hk. pose proof (deriv_nth (mkCfg 0 METHOD_RK4IP 0 false false false 0 0 true) n (dfreq dw n) _ x k eq_refl (sbin_bins n dw ltac:(lia) Hd) L Hk) as H.
  unfold deriv, ifft_t, fft_t in H. cbn [c_pre] in H. unfold dlist. rewrite map_mk in H. exact H.
Qed.
(** what the regularised denominator leaves behind at one sample *)
Definition leftover (n : nat) (A : list C) (dA : nat -> C) (I : list C) : list C := mk n (fun k => dA k * nth k I z0 * (RtoC (/ 10 ^ 20) / (RtoC (/ 10 ^ 20) + nth k A z0)))%C.
Definition slack (A : list C) (dA : nat -> C) (I : list C) (k : nat) : R := Cmod (dA k) * Cmod (nth k I z0) * (/ 10 ^ 20 / (Cmod (nth k A z0) - / 10 ^ 20)).
Lemma eps_lt : 0 < / 10 ^ 20 < / 10 ^ 15.
Proof. split; [apply Rinv_0_lt_compat; lra|]. apply Rinv_lt_contravar; lra. Qed.
Lemma eps_denominator a : / 10 ^ 15 < Cmod a -> 0 < Cmod a - / 10 ^ 20 <= Cmod (RtoC (/ 10 ^ 20) + a)%C.
Proof.
  intros H. pose proof eps_lt. split; [lra|]. pose proof (Cmod_triangle (RtoC (/ 10 ^ 20) + a)%C (- RtoC (/ 10 ^ 20))%C) as T. rewrite Cmod_opp, Cmod_R, Rabs_pos_eq in T by lra.
  replace (RtoC (/ 10 ^ 20) + a + - RtoC (/ 10 ^ 20))%C with a in T by ring. lra.
Qed.
Lemma leftover_le n A dA I k : (k < n)%nat -> / 10 ^ 15 < Cmod (nth k A z0) -> Cmod (nth k (leftover n A dA I) z0) <= slack A dA I k.
Proof.
  intros Hk H. unfold leftover, slack. rewrite mk_nth by exact Hk. destruct (eps_denominator _ H) as (P & Q). pose proof eps_lt.
  assert (N : (RtoC (/ 10 ^ 20) + nth k A z0)%C <> z0) by (intros E; rewrite E, Cmod_0 in Q; lra).
  rewrite !Cmod_mult. rewrite Cmod_div by exact N. rewrite Cmod_R, Rabs_pos_eq by lra. apply Rmult_le_compat_l; [apply Rmult_le_pos; apply Cmod_ge_0|].
  unfold Rdiv. apply Rmult_le_compat_l; [lra|]. apply Rinv_le_contravar; assumption.
Qed.
Lemma ifft_bound n x m (b : nat -> R) : length x = n -> (m < n)%nat -> (forall k, (k < n)%nat -> Cmod (nth k x z0) <= b k) -> Cmod (nth m (ifft x) z0) <= / INR n * rsum n b.
Proof.
  intros L Hm H. assert (0 < INR n) by (apply lt_0_INR; lia). rewrite ifft_nth by congruence. rewrite L, Cmod_mult, Cmod_R, Rabs_pos_eq by (left; now apply Rinv_0_lt_compat).
  apply Rmult_le_compat_l; [left; now apply Rinv_0_lt_compat|]. eapply Rle_trans; [apply Cmod_csum|]. apply rsum_le. intros k Hk. rewrite Cmod_mult. unfold tw. rewrite cis_mod, Rmult_1_r. now apply H.
Qed.
(** the right-hand side N(A)*A bin by bin *)
Lemma rhs_spectrum c n s A B dw m (dA : nat -> C) :
  c_pre c = true -> c_noSS c = false -> wf n s -> length A = n -> (m < n)%nat -> dw <> 0 -> s_w0 s <> 0 ->
  s_omegas s = mk n (fun j => RtoC (dfreq dw n j)) -> (0 <= B)%Z -> (6 * B < Z.of_nat n)%Z -> band n B A ->
  (forall k, (k < n)%nat -> / 10 ^ 15 < Cmod (nth k A z0)) ->
  (forall k, (k < n)%nat -> is_cderive (trig n (dfreq dw n) A) (INR k * (2 * PI / (INR n * dw))) (dA k)) ->
  let I := fft (vmul (s_R s) (ifft (map (fun z => RtoC (Cnorm2 z)) A))) in
  nth m (ifft (vmul (nonlinear c s A) A)) z0 =
    (Ci * RtoC (s_gamma s * ((s_w0 s + dfreq dw n m) / s_w0 s)) * nth m (ifft (vmul A I)) z0 + RtoC (s_gamma s / s_w0 s) * nth m (ifft (leftover n A dA I)) z0)%C.
Proof.
  intros Hp Hs W LA Hm Hd Hw Ho HB H6 HA Hbig HdA I. pose proof W as (_ & _ & _ & LR & LO). set (v := dfreq dw n) in *. set (dt := 2 * PI / (INR n * dw)) in *.
  assert (Hn : (0 < n)%nat) by lia. assert (Hb : bins n v dt) by now apply sbin_bins.
  set (A2 := map (fun z => RtoC (Cnorm2 z)) A). assert (L2 : length A2 = n) by (unfold A2; now rewrite map_length).
  assert (LI : length I = n) by (unfold I; rewrite fft_length, vmul_length; [exact LR|rewrite ifft_length; unfold A2 in L2; congruence]).
  assert (BI : band n (B + B) I) by (unfold I; apply band_filter; [exact LR|exact L2|apply band_int; auto; lia]).
  assert (LN : length (nonlinear c s A) = n) by now apply nonlinear_length.
  set (q := s_gamma s / s_w0 s). set (g := s_gamma s).
  assert (EN : forall k, (k < n)%nat -> (nth k (nonlinear c s A) z0 * nth k A z0 =
     Ci * RtoC g * (nth k A z0 * nth k I z0) - RtoC q * (nth k (dlist n dw A) z0 * nth k I z0 + nth k A z0 * nth k (dlist n dw I) z0) + RtoC q * nth k (leftover n A dA I) z0)%C).
  { intros k Hk. destruct (C74_self_steepening_l c n s A v dt k Hp Hs W LA Hk Ho Hb) as (_ & _ & a & i & Da & Di & E). fold I in E, Di.
    assert (Ea : a = nth k (dlist n dw A) z0) by (apply (cderive_unique _ _ _ _ Da); now apply dlist_cderive).
    assert (Ei : i = nth k (dlist n dw I) z0) by (apply (cderive_unique _ _ _ _ Di); now apply dlist_cderive).
    assert (Ed : dA k = a) by (apply (cderive_unique _ _ _ _ (HdA k Hk)); exact Da).
    destruct (Rlt_dec (/ 10 ^ 15) (Cmod (nth k A z0))) as [_|X]; [|exfalso; now apply X, Hbig]. rewrite E. unfold leftover. rewrite mk_nth by exact Hk. rewrite <- Ei, <- Ea, Ed. fold q. fold g.
    destruct (eps_denominator _ (Hbig k Hk)) as (P & Q).
    assert (N : (RtoC (/ 10 ^ 20) + nth k A z0)%C <> z0) by (intros Z; rewrite Z, Cmod_0 in Q; lra).
    set (e := RtoC (/ 10 ^ 20)) in *. clearbody e. field. exact N. }
  assert (LdA : length (dlist n dw A) = n) by now apply dlist_len. assert (LdI : length (dlist n dw I) = n) by now apply dlist_len.
  assert (Ll : length (leftover n A dA I) = n) by apply mk_length.
  pose proof (dlist_product n dw B (B + B) A I LA LI ltac:(lia) HA BI m Hm) as PR. fold v in PR.
  assert (E1 : nth m (ifft (vmul (nonlinear c s A) A)) z0 =
     (Ci * RtoC g * nth m (ifft (vmul A I)) z0 - RtoC q * (nth m (ifft (vmul (dlist n dw A) I)) z0 + nth m (ifft (vmul A (dlist n dw I))) z0) + RtoC q * nth m (ifft (leftover n A dA I)) z0)%C).
  { rewrite !ifft_nth by (rewrite ?vmul_length by congruence; congruence). rewrite !vmul_length by congruence. rewrite LN, LA, LdA, Ll.
    set (u := RtoC (/ INR n)). transitivity (u * (Ci * RtoC g * csum n (fun j => nth j (vmul A I) z0 * tw n (Z.of_nat j * Z.of_nat m)) - RtoC q * (csum n (fun j => nth j (vmul (dlist n dw A) I) z0 * tw n (Z.of_nat j * Z.of_nat m)) + csum n (fun j => nth j (vmul A (dlist n dw I)) z0 * tw n (Z.of_nat j * Z.of_nat m))) + RtoC q * csum n (fun j => nth j (leftover n A dA I) z0 * tw n (Z.of_nat j * Z.of_nat m))))%C; [|ring].
    apply (f_equal (fun t => (u * t)%C)). rewrite <- !csum_scal_l, <- csum_plus, <- csum_scal_l. unfold Cminus. rewrite <- csum_opp, <- !csum_plus. apply csum_ext. intros k Hk.
    rewrite !vmul_nth by congruence. rewrite EN by exact Hk. ring. }
  rewrite E1, PR. replace (g * ((s_w0 s + v m) / s_w0 s)) with (g + q * v m) by (unfold q, g; field; exact Hw). rewrite RtoC_plus, RtoC_mult. ring.
Qed.

(*! C113 (the equation): on a band-limited field (spectrum zero beyond bin B, 6*B < n) whose samples are all above the 1e-15 threshold, the spectrum of N(A)*A is i*gamma*(1 + Omega/w0) times the spectrum of A*I in every bin - the
    generalised nonlinear Schroedinger equation with its shock term, no aliasing - up to |gamma/w0| times the mean of |dA/dt|*|I|*1e-20/(|A| - 1e-20), what the regularised denominator leaves. *)
Lemma C113_shock_equation_l : forall (c : cfg) (n : nat) (s : ssfm) (A : list C) (B : Z) (dw : R) (m : nat) (dA : nat -> C),
  c_pre c = true -> c_noSS c = false -> wf n s -> length A = n -> (m < n)%nat -> dw <> 0 -> s_w0 s <> 0 ->
  s_omegas s = mk n (fun j => RtoC (dfreq dw n j)) -> (0 <= B)%Z -> (6 * B < Z.of_nat n)%Z -> band n B A ->
  (forall k, (k < n)%nat -> / 10 ^ 15 < Cmod (nth k A z0)) ->
  (forall k, (k < n)%nat -> is_cderive (trig n (dfreq dw n) A) (INR k * (2 * PI / (INR n * dw))) (dA k)) ->
  let I := fft (vmul (s_R s) (ifft (map (fun z => RtoC (Cnorm2 z)) A))) in
  Cmod (nth m (ifft (vmul (nonlinear c s A) A)) z0 - Ci * RtoC (s_gamma s * ((s_w0 s + dfreq dw n m) / s_w0 s)) * nth m (ifft (vmul A I)) z0)%C
    <= Rabs (s_gamma s / s_w0 s) * (/ INR n * rsum n (fun k => Cmod (dA k) * Cmod (nth k I z0) * (/ 10 ^ 20 / (Cmod (nth k A z0) - / 10 ^ 20)))).
Proof.
  intros c n s A B dw m dA Hp Hs W LA Hm Hd Hw Ho HB H6 HA Hbig HdA I. pose proof (rhs_spectrum c n s A B dw m dA Hp Hs W LA Hm Hd Hw Ho HB H6 HA Hbig HdA) as E. cbv zeta in E. fold I in E. rewrite E.
  match goal with |- Cmod (?a + ?b - ?a)%C <= _ => replace (a + b - a)%C with b by ring end. rewrite Cmod_mult, Cmod_R. apply Rmult_le_compat_l; [apply Rabs_pos|].
  apply ifft_bound; [apply mk_length|exact Hm|]. intros k Hk. apply leftover_le; [exact Hk|now apply Hbig].
Qed.

(** the photon number of a field: the energy of every bin over its absolute frequency *)
Definition photons (n : nat) (w0 dw : R) (x : list C) : R := rsum n (fun m => Cnorm2 (nth m (ifft x) z0) / (w0 + dfreq dw n m)).
(** the whole right-hand side: i*beta - alpha/2 in every bin and N(A)*A *)
Definition gnlse (c : cfg) (s : ssfm) (A : list C) : list C :=
  vadd (fft (vmul (map2 (fun b a => Ci * b - a / RtoC 2)%C (s_betas s) (s_alpha s)) (ifft A))) (vmul (nonlinear c s A) A).

Lemma ifft_line_at n A G t m : length A = n -> length G = n -> (m < n)%nat -> nth m (ifft (vadd A (vscale (RtoC t) G))) z0 = (nth m (ifft A) z0 + RtoC t * nth m (ifft G) z0)%C.
Proof.
  intros LA LG Hm. assert (Lv : length (vadd A (vscale (RtoC t) G)) = n) by (rewrite vadd_length; rewrite ?vscale_length; congruence). rewrite !ifft_nth by congruence. rewrite Lv, LA, LG.
  rewrite (csum_ext n (fun j => nth j (vadd A (vscale (RtoC t) G)) z0 * tw n (Z.of_nat j * Z.of_nat m))%C (fun j => nth j A z0 * tw n (Z.of_nat j * Z.of_nat m) + RtoC t * (nth j G z0 * tw n (Z.of_nat j * Z.of_nat m)))%C).
  - rewrite csum_plus, csum_scal_l. ring.
  - intros j Hj. rewrite vadd_nth by (rewrite vscale_length; congruence). rewrite vscale_nth. ring.
Qed.
Lemma derive_rsum n (f : nat -> R -> R) t (l : nat -> R) : (forall m, (m < n)%nat -> is_derive (f m) t (l m)) -> is_derive (fun x => rsum n (fun m => f m x)) t (rsum n l).
Proof.
  induction n as [|n IH]; intros H.
  - apply (is_derive_ext (fun _ => 0)); [intros; now rewrite rsum_0|]. rewrite rsum_0. apply (is_derive_const 0).
  - apply (is_derive_ext (fun x => rsum n (fun m => f m x) + f n x)); [intros; now rewrite rsum_S|]. rewrite rsum_S.
    apply (is_derive_plus (fun x => rsum n (fun m => f m x)) (f n)); [apply IH; intros; apply H; lia|apply H; lia].
Qed.
Lemma photons_rate n w0 dw A G : length A = n -> length G = n ->
  is_derive (fun t => photons n w0 dw (vadd A (vscale (RtoC t) G))) 0 (rsum n (fun m => 2 * Re (Cconj (nth m (ifft A) z0) * nth m (ifft G) z0)%C / (w0 + dfreq dw n m))).
Proof.
  intros LA LG. unfold photons. apply derive_rsum. intros m Hm.
  apply (is_derive_ext (fun t => Cnorm2 (nth m (ifft A) z0 + RtoC t * nth m (ifft G) z0)%C / (w0 + dfreq dw n m))); [intros; now rewrite (ifft_line_at n)|].
  set (x := nth m (ifft A) z0). set (y := nth m (ifft G) z0). destruct x as [a b], y as [u w]. unfold Cnorm2. cbn [Re Im Cplus Cmult Cconj RtoC fst snd].
  set (d := w0 + dfreq dw n m). unfold Rdiv. set (e := / d). clearbody e. auto_derive; [exact Logic.I|]. ring.
Qed.

(*! C113 (photon number): with shock term, any response that is real in time, any real propagation constants and losses, the photon number sum |A(w)|^2/w of a band-limited field changes along the whole right-hand side exactly
    at the rate -sum alpha*|A(w)|^2/w of the losses, up to what the 1e-20 in the denominator leaves; without loss it is conserved to that accuracy. *)
Lemma C113_photon_number_l : forall (c : cfg) (n : nat) (s : ssfm) (A : list C) (B : Z) (dw : R) (dA : nat -> C) (be al : nat -> R),
  c_pre c = true -> c_noSS c = false -> wf n s -> length A = n -> dw <> 0 -> s_w0 s <> 0 ->
  s_omegas s = mk n (fun j => RtoC (dfreq dw n j)) -> s_betas s = mk n (fun j => RtoC (be j)) -> s_alpha s = mk n (fun j => RtoC (al j)) ->
  real_response c n (s_R s) -> (forall m, (m < n)%nat -> 0 < s_w0 s + dfreq dw n m) ->
  (0 <= B)%Z -> (6 * B < Z.of_nat n)%Z -> band n B A ->
  (forall k, (k < n)%nat -> / 10 ^ 15 < Cmod (nth k A z0)) ->
  (forall k, (k < n)%nat -> is_cderive (trig n (dfreq dw n) A) (INR k * (2 * PI / (INR n * dw))) (dA k)) ->
  let I := fft (vmul (s_R s) (ifft (map (fun z => RtoC (Cnorm2 z)) A))) in
  exists r, is_derive (fun t => photons n (s_w0 s) dw (vadd A (vscale (RtoC t) (gnlse c s A)))) 0 r /\
    Rabs (r - - rsum n (fun m => al m * Cnorm2 (nth m (ifft A) z0) / (s_w0 s + dfreq dw n m))) <=
      2 * (Rabs (s_gamma s / s_w0 s) * (/ INR n * rsum n (fun k => Cmod (dA k) * Cmod (nth k I z0) * (/ 10 ^ 20 / (Cmod (nth k A z0) - / 10 ^ 20))))) *
      rsum n (fun m => Cmod (nth m (ifft A) z0) / (s_w0 s + dfreq dw n m)).
Proof.
  intros c n s A B dw dA be al Hp Hs W LA Hd Hw Ho Eb Ea HR Hpos HB H6 HA Hbig HdA I. pose proof W as (_ & _ & _ & LR & LO).
  assert (Hn : (0 < n)%nat) by lia. set (v := dfreq dw n) in *.
  assert (LN : length (nonlinear c s A) = n) by now apply nonlinear_length.
  set (Lin := map2 (fun b a => Ci * b - a / RtoC 2)%C (s_betas s) (s_alpha s)).
  assert (LL : length Lin = n) by (unfold Lin; rewrite Eb, Ea; apply len_map2; apply mk_length).
  assert (LF : length (fft (vmul Lin (ifft A))) = n) by (rewrite fft_length, vmul_length; [exact LL|rewrite ifft_length; congruence]).
  assert (LV : length (vmul (nonlinear c s A) A) = n) by (rewrite vmul_length; congruence).
  assert (LG : length (gnlse c s A) = n) by (unfold gnlse; fold Lin; rewrite vadd_length; congruence).
  eexists. split; [exact (photons_rate n (s_w0 s) dw A (gnlse c s A) LA LG)|]. fold v.
  assert (LI : length I = n) by (unfold I; rewrite fft_length, vmul_length; [exact LR|rewrite ifft_length, map_length; congruence]).
  assert (RI : real_list I) by (now apply (resp_real c n s A)).
  set (g := s_gamma s). set (w0 := s_w0 s) in *. set (X := fun m => nth m (ifft A) z0). set (Y := fun m => nth m (ifft (vmul A I)) z0). set (E := fun m => nth m (ifft (leftover n A dA I)) z0).
  assert (EG : forall m, (m < n)%nat -> nth m (ifft (gnlse c s A)) z0 = ((Ci * RtoC (be m) - RtoC (al m) / RtoC 2) * X m + (Ci * RtoC (g * ((w0 + v m) / w0)) * Y m + RtoC (g / w0) * E m))%C).
  { intros m Hm. unfold gnlse. fold Lin. transitivity (nth m (ifft (vadd (fft (vmul Lin (ifft A))) (vscale (RtoC 1) (vmul (nonlinear c s A) A)))) z0).
    - apply (f_equal (fun l => nth m (ifft l) z0)). apply (f_equal (vadd _)). apply (vec_extn n); [exact LV|now rewrite vscale_length|]. intros i Hi. rewrite vscale_nth. ring.
    - rewrite (ifft_line_at n) by assumption. pose proof (rhs_spectrum c n s A B dw m dA Hp Hs W LA Hm Hd Hw Ho HB H6 HA Hbig HdA) as R. cbv zeta in R. fold I in R. rewrite R. fold g w0 v. fold (Y m) (E m).
      rewrite ifft_fft, vmul_nth by (rewrite ifft_length; congruence). fold (X m). unfold Lin. rewrite Eb, Ea. rewrite (map2_nth _ _ _ _ z0 z0) by (rewrite ?mk_length; auto). rewrite !mk_nth by exact Hm. ring. }
  assert (RY : Im (csum n (fun m => Cconj (X m) * Y m)%C) = 0).
  { unfold X, Y. rewrite (parseval2 n A (vmul A I)) by (try assumption; rewrite vmul_length; congruence). rewrite <- csum_scal_l, Im_csum. apply rsum_zero. intros k Hk. rewrite vmul_nth by congruence.
    destruct (real_nth I k RI) as (y & Ey). rewrite Ey. destruct (nth k A z0) as [a b]. cbn. ring. }
  set (e := Rabs (g / w0) * (/ INR n * rsum n (fun k => Cmod (dA k) * Cmod (nth k I z0) * (/ 10 ^ 20 / (Cmod (nth k A z0) - / 10 ^ 20))))).
  assert (EB : forall m, (m < n)%nat -> Cmod (RtoC (g / w0) * E m)%C <= e).
  { intros m Hm. rewrite Cmod_mult, Cmod_R. apply Rmult_le_compat_l; [apply Rabs_pos|]. apply ifft_bound; [apply mk_length|exact Hm|]. intros k Hk. apply leftover_le; [exact Hk|now apply Hbig]. }
  match goal with |- Rabs ?t <= _ => replace t with (rsum n (fun m => 2 * Re (Cconj (X m) * (RtoC (g / w0) * E m))%C / (w0 + v m))) end.
  - rewrite Rmult_assoc, <- (rsum_scal_l n e), <- rsum_scal_l. clear - EB Hpos. 
    assert (TR : forall (f b : nat -> R) N, (forall m, (m < N)%nat -> Rabs (f m) <= b m) -> Rabs (rsum N f) <= rsum N b).
    { intros f b N. induction N as [|N IH]; intros H; [rewrite !rsum_0, Rabs_R0; lra|]. rewrite !rsum_S. eapply Rle_trans; [apply Rabs_triang|]. specialize (IH ltac:(intros; apply H; lia)). specialize (H N ltac:(lia)). lra. }
    apply TR. intros m Hm. specialize (EB m Hm). specialize (Hpos m Hm). fold (X m). unfold Rdiv. rewrite !Rabs_mult, (Rabs_pos_eq 2), (Rabs_pos_eq (/ _)) by (try lra; left; now apply Rinv_0_lt_compat).
    rewrite <- !Rmult_assoc. apply Rmult_le_compat_r; [left; now apply Rinv_0_lt_compat|]. rewrite Rmult_assoc. apply Rmult_le_compat_l; [lra|]. rewrite (Rmult_comm e).
    eapply Rle_trans; [eapply Rle_trans; [apply Rmax_l|apply Rmax_Cmod]|]. rewrite Cmod_mult, Cmod_cj. apply Rmult_le_compat_l; [apply Cmod_ge_0|exact EB].
  - unfold Rminus. rewrite Ropp_involutive, <- rsum_plus.
    rewrite (rsum_ext n (fun i => 2 * Re (Cconj (nth i (ifft A) z0) * nth i (ifft (gnlse c s A)) z0)%C / (w0 + v i) + al i * Cnorm2 (nth i (ifft A) z0) / (w0 + v i))
      (fun i => 2 * Re (Cconj (X i) * (RtoC (g / w0) * E i))%C / (w0 + v i) + - (2 * (g / w0)) * Im (Cconj (X i) * Y i)%C)).
    + rewrite rsum_plus, rsum_scal_l, <- Im_csum, RY. ring.
    + intros m Hm. rewrite EG by exact Hm. fold (X m). specialize (Hpos m Hm). assert (w0 + v m <> 0) by lra.
      destruct (X m) as [a b], (Y m) as [p q], (E m) as [y z]. unfold Cnorm2. cbn [Re Im Cplus Cminus Copp Cmult Cdiv Cinv Cconj RtoC Ci fst snd]. field. auto.
Qed.

Lemma fftshift_V p h j : p_n p = (2 * h)%nat -> p_tw p <> 0 -> (j < p_n p)%nat -> nth j (fftshift (map RtoC (V_of p))) z0 = RtoC (dfreq (2 * PI / p_tw p) (p_n p) j).
Proof.
  intros En Ht Hj. assert (LV : length (map RtoC (V_of p)) = p_n p) by (now rewrite map_length, V_of_length). rewrite fftshift_nth by congruence. rewrite LV.
  set (i := zmodn (p_n p) (Z.of_nat j - Z.of_nat (Nat.div2 (p_n p)))). assert (Hi : (i < p_n p)%nat) by (apply zmodn_lt; lia).
  rewrite (nth_map' _ _ _ 0) by now rewrite V_of_length. rewrite V_of_val by exact Hi. apply f_equal. unfold dfreq.
  assert (E : IZR (sbin (p_n p) j) = INR i - INR (p_n p) / 2).
  { destruct (zmodn_cong (p_n p) (Z.of_nat j - Z.of_nat (Nat.div2 (p_n p))) ltac:(lia)) as (q & Q). fold i in Q.
    assert (D : Nat.div2 (p_n p) = h) by (rewrite En; apply Nat.div2_double). rewrite D in Q.
    rewrite (sbin_unique (p_n p) j (Z.of_nat i - Z.of_nat h) (q - 1)%Z); [|exact Hj|lia|rewrite Q, En; lia].
    rewrite minus_IZR, <- !INR_IZR_INZ, En, mult_INR. cbn [INR]. field. }
  rewrite E. field. exact Ht.
Qed.
(*! C113 (reachability): the solver that setup_fftw and load_fiber_parameters leave for a pulse on an even grid and a fiber with real betas and gain is one C113 speaks about: offset frequencies 2*pi/window times the signed bin number,
    centre 2*pi*f0, real propagation constants, loss = -gain, a response real in time. *)
Lemma C113_setup_l : forall (c : cfg) (fb : fiber) (p q : pulse) (op : option R) (b : R -> list R) (g : list R) (a Rw : list C) (F : R) (s : ssfm) (h : nat),
  c_pre c = true -> p_n p = (2 * h)%nat -> (0 < h)%nat -> p_tw p <> 0 ->
  holds p a -> answers fb p op b g -> fst (calc_raman c (s_fR s) p) = Ok (Rw, F) -> like p q ->
  exists s0 s1 q1 q2 be al, setup_fftw c fb op s q = (Ok s0, q1) /\ load_fiber_parameters c fb 0 s0 q1 = (Ok s1, q2) /\ wf (p_n p) s1 /\
    s_omegas s1 = mk (p_n p) (fun j => RtoC (dfreq (2 * PI / p_tw p) (p_n p) j)) /\ s_w0 s1 = 2 * PI * p_f p /\
    s_betas s1 = mk (p_n p) (fun j => RtoC (be j)) /\ s_alpha s1 = mk (p_n p) (fun j => RtoC (al j)) /\ real_response c (p_n p) (s_R s1) /\
    (forall j, (j < p_n p)%nat -> be j = nth (zmodn (p_n p) (Z.of_nat j - Z.of_nat h)) (b 0) 0 /\ al j = - nth (zmodn (p_n p) (Z.of_nat j - Z.of_nat h)) g 0).
Proof.
  intros c fb p q op b g a Rw F s h Hp En Hh Ht HA An HR Lq. destruct (setup_run c fb p q op b g a Rw F s HA ltac:(lia) An HR Lq) as (q1 & q2 & s0 & E1 & _ & E2 & _).
  set (n := p_n p) in *. set (i := fun j => zmodn n (Z.of_nat j - Z.of_nat h)).
  exists s0, (start c fb p (b 0) g a Rw F s), q1, q2, (fun j => nth (i j) (b 0) 0), (fun j => - nth (i j) g 0). destruct An as (_ & _ & A3 & A4). destruct HA as (_ & _ & LA). fold n in A3, A4.
  assert (LR : length Rw = n) by (apply (raman_length c (s_fR s) p Rw F p); rewrite (raman_like c (s_fR s) p p (like_refl p)); now rewrite HR).
  assert (D : Nat.div2 n = h) by (rewrite En; apply Nat.div2_double).
  assert (Hi : forall j, (i j < n)%nat) by (intros; apply zmodn_lt; lia).
  split; [exact E1|]. split; [exact E2|]. unfold start, wf. cbn [s_A s_betas s_alpha s_omegas s_R s_w0].
  split. { rewrite !cfftshift_length, !map_length, IFFT_t_length, V_of_length, A3. auto. }
  split. { unfold cfftshift. rewrite Hp. apply (vec_extn n); [now rewrite fftshift_length, map_length, V_of_length|apply mk_length|]. intros j Hj. rewrite (fftshift_V p h) by assumption. now rewrite mk_nth. }
  split; [ring|].
  split. { unfold cfftshift. rewrite Hp. apply (vec_extn n); [now rewrite fftshift_length, map_length|apply mk_length|]. intros j Hj. rewrite fftshift_nth by now rewrite map_length, A3. rewrite map_length, A3, D, mk_nth by exact Hj.
    rewrite (nth_map' _ _ _ 0) by (rewrite A3; apply Hi). reflexivity. }
  split. { unfold cfftshift. rewrite Hp. apply (vec_extn n); [now rewrite fftshift_length, map_length|apply mk_length|]. intros j Hj. rewrite fftshift_nth by now rewrite map_length, A4. rewrite map_length, A4, D, mk_nth by exact Hj.
    rewrite (nth_map' _ _ _ 0) by (rewrite A4; apply Hi). reflexivity. }
  split; [|intros; split; reflexivity].
  apply (C29_setup_response_real_l c (s_fR s) p p Rw F). rewrite (raman_like c (s_fR s) p p (like_refl p)). now rewrite HR.
Qed.

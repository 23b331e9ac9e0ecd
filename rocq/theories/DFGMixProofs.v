(** Proofs about fftcomputer: C49. *)
From Coq Require Import String.
From Coq Require Import Reals List ZArith Bool Arith Lia Lra.
From Coquelicot Require Import Complex.
From Verif Require Import Base CNum NumPy FFTProofs ModelPulse ModelDerived ModelCrystal ModelBeam ModelODE ModelDFG.
Import ListNotations.
Local Open Scope R_scope.
Local Open Scope py_scope.
Local Notation z0 := (RtoC 0).
Local Notation at0 x i := (nth i x z0).

(** buffers of the right size, whatever they contain *)
Definition fc_ok (n : nat) (s : fftc) : Prop := fc_n s = n /\ length (fc_in s) = (2 * n)%nat /\ length (fc_tr s) = (2 * n)%nat /\ length (fc_out s) = (2 * n)%nat.

Lemma map_zero {A} (l : list A) : map (fun _ => z0) l = repeat z0 (length l).
Proof. induction l; cbn; [reflexivity|]. now rewrite IHl. Qed.
Lemma firstn_repeat' {A} (x : A) n m : firstn n (repeat x m) = repeat x (Nat.min n m).
Proof. revert m. induction n as [|n IH]; intros [|m]; cbn; try reflexivity. now rewrite IH. Qed.
Lemma skipn_repeat {A} (x : A) n m : skipn n (repeat x m) = repeat x (m - n).
Proof. revert m. induction n as [|n IH]; intros [|m]; cbn; try reflexivity. apply IH. Qed.
Lemma seg_length {A} lo hi (x : list A) : length (seg lo hi x) = Nat.min (hi - lo) (length x - lo).
Proof. unfold seg. rewrite firstn_length, skipn_length. reflexivity. Qed.
Lemma seg_nth {A} lo hi (x : list A) i d : (lo + i < hi)%nat -> nth i (seg lo hi x) d = nth (lo + i) x d.
Proof.
  intros H. unfold seg. assert (G : forall k (l : list A), (i < k)%nat -> nth i (firstn k l) d = nth i l d).
  { clear. induction i as [|i IH]; intros [|k] [|y l] H; cbn; try reflexivity; try lia. apply IH. lia. }
  rewrite G by lia. clear. revert x. induction lo as [|lo IH]; intros [|y x]; cbn [skipn Nat.add]; try reflexivity.
  - destruct i; reflexivity.
  - cbn [nth]. apply IH.
Qed.
Lemma set_seg_low n (d : list C) : length d = n -> set_seg 0 n d (repeat z0 (2 * n)) = Ok (d ++ repeat z0 n).
Proof.
  intros H. unfold set_seg, seg. rewrite Nat.sub_0_r. cbn [skipn firstn app]. rewrite firstn_repeat', Nat.min_l by lia. rewrite assign_all_eq by (rewrite repeat_length; lia). rewrite Nat.max_r, skipn_repeat by lia. do 3 f_equal. lia.
Qed.
Lemma set_seg_high n (d : list C) : length d = n -> set_seg n (n * 2) d (repeat z0 (2 * n)) = Ok (repeat z0 n ++ d).
Proof.
  intros H. unfold set_seg, seg. rewrite skipn_repeat, firstn_repeat'. rewrite assign_all_eq by (rewrite repeat_length; lia). rewrite firstn_repeat', Nat.min_l by lia. rewrite Nat.max_r, skipn_repeat by lia. replace (2 * n - n * 2)%nat with 0%nat by lia. cbn [repeat]. now rewrite app_nil_r.
Qed.

Lemma fc_mk n a b c : length a = (2 * n)%nat -> length b = (2 * n)%nat -> length c = (2 * n)%nat -> fc_ok n (mkFC n a b c).
Proof. intros H1 H2 H3. repeat split; assumption. Qed.

(** ** The products *)
Lemma mix_sum N (l : Z) n m (f g : nat -> C) (u v : nat -> Z) : (0 < N)%nat ->
  (RtoC (/ INR N) * csum N (fun k => csum n (fun a => f a * tw N (- (u a * Z.of_nat k))) * csum m (fun b => g b * tw N (- (v b * Z.of_nat k))) * tw N (Z.of_nat k * l)) =
   csum n (fun a => csum m (fun b => if ((l - u a - v b) mod Z.of_nat N =? 0)%Z then f a * g b else z0)))%C.
Proof.
  intros HN.
  rewrite (csum_ext N _ (fun k => csum n (fun a => csum m (fun b => (f a * g b) * tw N ((l - u a - v b) * Z.of_nat k))))%C).
  2:{ intros k _. rewrite <- csum_scal_r. rewrite <- csum_scal_r. apply csum_ext. intros a _. rewrite <- csum_scal_l, <- csum_scal_r. apply csum_ext. intros b _.
      replace ((l - u a - v b) * Z.of_nat k)%Z with (- (u a * Z.of_nat k) + - (v b * Z.of_nat k) + Z.of_nat k * l)%Z by ring. rewrite !tw_add. ring. }
  rewrite csum_swap. rewrite <- csum_scal_l. apply csum_ext. intros a _. rewrite csum_swap, <- csum_scal_l. apply csum_ext. intros b _. rewrite csum_scal_l, tw_orth by exact HN.
  destruct (_ =? _)%Z; [|ring]. replace (RtoC (/ INR N) * (f a * g b * RtoC (INR N)))%C with (RtoC (/ INR N) * RtoC (INR N) * (f a * g b))%C by ring. rewrite inv_INR_mult by exact HN. ring.
Qed.

Lemma fft_low n d k : length d = n -> (k < 2 * n)%nat -> at0 (fft (d ++ repeat z0 n)) k = csum n (fun a => (at0 d a * tw (2 * n) (- (Z.of_nat a * Z.of_nat k)))%C).
Proof.
  intros H Hk. assert (L : length (d ++ repeat z0 n) = (n + n)%nat) by (rewrite app_length, repeat_length; lia). rewrite fft_nth by lia. rewrite L, csum_add. replace (2 * n)%nat with (n + n)%nat by lia.
  rewrite (csum_zero n (fun i => at0 (d ++ repeat z0 n) (n + i) * _)%C).
  - rewrite (csum_ext n _ (fun a => (at0 d a * tw (n + n) (- (Z.of_nat a * Z.of_nat k)))%C)) by (intros i Hi; rewrite app_nth1 by lia; reflexivity). ring.
  - intros i Hi. rewrite app_nth2 by lia. rewrite nth_repeat. ring.
Qed.
Lemma fft_high n d k : length d = n -> (k < 2 * n)%nat -> at0 (fft (repeat z0 n ++ d)) k = csum n (fun a => (at0 d a * tw (2 * n) (- ((Z.of_nat a + Z.of_nat n) * Z.of_nat k)))%C).
Proof.
  intros H Hk. assert (L : length (repeat z0 n ++ d) = (n + n)%nat) by (rewrite app_length, repeat_length; lia). rewrite fft_nth by lia. rewrite L, csum_add. replace (2 * n)%nat with (n + n)%nat by lia.
  rewrite (csum_zero n (fun j => at0 (repeat z0 n ++ d) j * _)%C).
  - rewrite (csum_ext n _ (fun a => (at0 d a * tw (n + n) (- ((Z.of_nat a + Z.of_nat n) * Z.of_nat k)))%C)); [ring|]. intros i Hi. rewrite app_nth2 by (rewrite repeat_length; lia). rewrite repeat_length. replace (n + i - n)%nat with i by lia. do 3 f_equal. lia.
  - intros i Hi. rewrite app_nth1 by (rewrite repeat_length; lia). rewrite nth_repeat. ring.
Qed.

(** the tail shared by corr and conv: transform back, shift, cut *)
Lemma result_nth n t m : (0 < n)%nat -> length t = (2 * n)%nat -> (m < n)%nat ->
  at0 (seg (Nat.div2 n) (n + Nat.div2 n) (ifftshift (ifft t))) m =
  (RtoC (/ INR (2 * n)) * csum (2 * n) (fun k => at0 t k * tw (2 * n) (Z.of_nat k * (Z.of_nat m + Z.of_nat (Nat.div2 n) - Z.of_nat n))))%C.
Proof.
  intros Hn L Hm. pose proof (Nat.div2_decr n n) as D. assert (D2 : (Nat.div2 n <= n)%nat) by (destruct n; [lia|]; apply Nat.lt_le_incl, Nat.lt_div2; lia). assert (D3 : (2 * Nat.div2 n <= n)%nat) by (pose proof (Nat.div2_odd n) as Q; lia).
  rewrite seg_nth by lia. rewrite ifftshift_nth by (rewrite ifft_length; lia). rewrite ifft_length, L, Nat.div2_double.
  assert (Z1 : (zmodn (2 * n) (Z.of_nat (Nat.div2 n + m) + Z.of_nat n) < 2 * n)%nat) by (apply zmodn_lt; lia).
  rewrite ifft_nth by lia. rewrite L. f_equal. apply csum_ext. intros k _. f_equal. apply tw_mod; [lia|]. rewrite zmodn_of by lia. rewrite Z.mul_mod_idemp_r by lia.
  replace (Z.of_nat k * (Z.of_nat (Nat.div2 n + m) + Z.of_nat n))%Z with (Z.of_nat k * (Z.of_nat m + Z.of_nat (Nat.div2 n) - Z.of_nat n) + Z.of_nat k * Z.of_nat (2 * n))%Z by lia. apply Z_mod_plus_full.
Qed.
Lemma result_length n (t : list C) : length t = (2 * n)%nat -> length (seg (Nat.div2 n) (n + Nat.div2 n) (ifftshift (ifft t))) = n.
Proof. intros L. rewrite seg_length, ifftshift_length, ifft_length, L. pose proof (Nat.div2_odd n) as Q. lia. Qed.

(** running the two methods *)
Lemma fc_load_run lo hi d w n s : fc_ok n s -> set_seg lo hi d (repeat z0 (2 * n)) = Ok w -> fc_load lo hi d s = (Ok tt, mkFC n w (fc_tr s) (fc_out s)).
Proof. intros (N & L & _) H. unfold fc_load, bind, modify, get, lift, put. cbn [fc_in fc_n fc_tr fc_out]. rewrite map_zero, L, H, N. reflexivity. Qed.
Lemma fc_fft_run n s : fc_ok n s -> fc_fft s = (Ok (fft (fc_in s)), mkFC n (fc_in s) (fft (fc_in s)) (fc_out s)).
Proof. intros (N & L & T & _). unfold fc_fft, bind, get, lift, put, ret. rewrite assign_all_eq by (rewrite fft_length; lia). rewrite N. reflexivity. Qed.
Lemma fc_times_run n s temp : fc_ok n s -> length temp = (2 * n)%nat -> fc_times temp s = (Ok tt, mkFC n (fc_in s) (map2 Cmult (fc_tr s) temp) (fc_out s)).
Proof. intros (N & L & T & _) H. unfold fc_times, bind, get, lift, put. rewrite broadcast2_eq by lia. rewrite assign_all_eq by (rewrite map2_length; lia). rewrite N. reflexivity. Qed.
Lemma fc_result_run n s : fc_ok n s -> fc_result s = (Ok (seg (Nat.div2 n) (n + Nat.div2 n) (ifftshift (ifft (fc_tr s)))), mkFC n (fc_in s) (fc_tr s) (ifft (fc_tr s))).
Proof. intros (N & L & T & O). unfold fc_result, fc_ifft, bind, get, lift, put, ret. rewrite assign_all_eq by (rewrite ifft_length; lia). rewrite N. reflexivity. Qed.

Definition corr_tr n d1 d2 : list C := map2 Cmult (fft (d1 ++ repeat z0 n)) (map Cconj (fft (d2 ++ repeat z0 n))).
Definition conv_tr n r g : list C := map2 Cmult (fft (g ++ repeat z0 n)) (fft (repeat z0 n ++ r)).
Lemma corr_run n s d1 d2 : fc_ok n s -> length d1 = n -> length d2 = n ->
  corr d1 d2 s = (Ok (seg (Nat.div2 n) (n + Nat.div2 n) (ifftshift (ifft (corr_tr n d1 d2)))), mkFC n (d1 ++ repeat z0 n) (corr_tr n d1 d2) (ifft (corr_tr n d1 d2))).
Proof.
  intros W L1 L2. destruct W as (N & Li & Lt & Lo). assert (W : fc_ok n s) by (repeat split; assumption). assert (P : forall d, length d = n -> length (d ++ repeat z0 n) = (2 * n)%nat) by (intros d Hd; rewrite app_length, repeat_length; lia).
  assert (P1 := P d1 L1). assert (P2 := P d2 L2).
  unfold corr. unfold bind at 1, get at 1. rewrite N. unfold bind at 1. rewrite (fc_load_run 0 n d2 _ n s W (set_seg_low n d2 L2)).
  unfold bind at 1. rewrite (fc_fft_run n) by (apply fc_mk; assumption). cbn [fc_in fc_out].
  unfold bind at 1. rewrite (fc_load_run 0 n d1 (d1 ++ repeat z0 n) n); [|apply fc_mk; rewrite ?fft_length; assumption|exact (set_seg_low n d1 L1)]. cbn [fc_tr fc_out].
  unfold bind at 1. rewrite (fc_fft_run n) by (apply fc_mk; rewrite ?fft_length; assumption). cbn [fc_in fc_out].
  unfold bind at 1. rewrite (fc_times_run n); [|apply fc_mk; rewrite ?fft_length; assumption|rewrite map_length, fft_length; assumption]. cbn [fc_in fc_tr fc_out].
  rewrite (fc_result_run n); [reflexivity|]. apply fc_mk; rewrite ?map2_length; rewrite ?map_length, ?fft_length; lia.
Qed.
Lemma conv_run n s r g : fc_ok n s -> length r = n -> length g = n ->
  conv r g s = (Ok (seg (Nat.div2 n) (n + Nat.div2 n) (ifftshift (ifft (conv_tr n r g)))), mkFC n (g ++ repeat z0 n) (conv_tr n r g) (ifft (conv_tr n r g))).
Proof.
  intros W L1 L2. destruct W as (N & Li & Lt & Lo). assert (W : fc_ok n s) by (repeat split; assumption). assert (P2 : length (g ++ repeat z0 n) = (2 * n)%nat) by (rewrite app_length, repeat_length; lia).
  assert (P1 : length (repeat z0 n ++ r) = (2 * n)%nat) by (rewrite app_length, repeat_length; lia).
  unfold conv. unfold bind at 1, get at 1. rewrite N. unfold bind at 1. rewrite (fc_load_run n (n * 2) r _ n s W (set_seg_high n r L1)).
  unfold bind at 1. rewrite (fc_fft_run n) by (apply fc_mk; assumption). cbn [fc_in fc_out].
  unfold bind at 1. rewrite (fc_load_run 0 n g (g ++ repeat z0 n) n); [|apply fc_mk; rewrite ?fft_length; assumption|exact (set_seg_low n g L2)]. cbn [fc_tr fc_out].
  unfold bind at 1. rewrite (fc_fft_run n) by (apply fc_mk; rewrite ?fft_length; assumption). cbn [fc_in fc_out].
  unfold bind at 1. rewrite (fc_times_run n); [|apply fc_mk; rewrite ?fft_length; assumption|rewrite fft_length; assumption]. cbn [fc_in fc_tr fc_out].
  rewrite (fc_result_run n); [reflexivity|]. apply fc_mk; rewrite ?map2_length; rewrite ?map_length, ?fft_length; lia.
Qed.

Lemma mod_window N a : (0 < N)%Z -> (- N < a < N)%Z -> (a mod N =? 0)%Z = (a =? 0)%Z.
Proof.
  intros HN H. destruct (Z.eqb_spec a 0) as [->|E]; [rewrite Zmod_0_l; reflexivity|]. apply Z.eqb_neq. intros Q. apply Z.mod_divide in Q; [|lia]. destruct Q as [k Q]. assert (k = 0)%Z by nia. subst. lia.
Qed.

(** any size: the correlation index a - b = m + n/2 - n, never wrapped *)
Lemma corr_any n s d1 d2 : fc_ok n s -> (0 < n)%nat -> length d1 = n -> length d2 = n ->
  exists out s', corr d1 d2 s = (Ok out, s') /\ fc_ok n s' /\ length out = n /\
    forall m, (m < n)%nat -> at0 out m = csum n (fun a => csum n (fun b => if Nat.eqb (a + n) (b + m + Nat.div2 n) then (at0 d1 a * Cconj (at0 d2 b))%C else z0)).
Proof.
  intros W Hn L1 L2. assert (P : forall d : list C, length d = n -> length (d ++ repeat z0 n) = (2 * n)%nat) by (intros d Hd; rewrite app_length, repeat_length; lia). assert (P1 := P d1 L1). assert (P2 := P d2 L2).
  assert (LT : length (corr_tr n d1 d2) = (2 * n)%nat) by (unfold corr_tr; rewrite map2_length; rewrite ?map_length, !fft_length; lia).
  eexists _, _. split; [apply (corr_run n s d1 d2 W L1 L2)|]. split; [apply fc_mk; rewrite ?ifft_length; assumption|]. split; [apply result_length; exact LT|].
  intros m Hm. rewrite result_nth by assumption.
  transitivity (csum n (fun a => csum n (fun b => if ((Z.of_nat m + Z.of_nat (Nat.div2 n) - Z.of_nat n - Z.of_nat a - - Z.of_nat b) mod Z.of_nat (2 * n) =? 0)%Z then (at0 d1 a * Cconj (at0 d2 b))%C else z0))).
  - rewrite <- (mix_sum (2 * n) _ n n (fun a => at0 d1 a) (fun b => Cconj (at0 d2 b)) (fun a => Z.of_nat a) (fun b => (- Z.of_nat b)%Z)) by lia. f_equal. apply csum_ext. intros k Hk. f_equal. unfold corr_tr.
    rewrite (map2_nth Cmult _ _ k z0 z0 z0) by (rewrite ?map_length, !fft_length; lia). rewrite (nth_map' Cconj _ k z0 z0) by (rewrite fft_length; lia). rewrite !fft_low by assumption. f_equal. rewrite Cconj_csum. apply csum_ext. intros b _. rewrite Cconj_mult, tw_conj. f_equal. f_equal. ring.
  - apply csum_ext. intros a Ha. apply csum_ext. intros b Hb. assert (D : (2 * Nat.div2 n <= n)%nat) by (pose proof (Nat.div2_odd n) as Q; lia). assert (D1 : (n <= 2 * Nat.div2 n + 1)%nat) by (pose proof (Nat.div2_odd n) as Q; destruct (Nat.odd n); cbn in Q; lia). rewrite mod_window by lia.
    destruct (Z.eqb_spec (Z.of_nat m + Z.of_nat (Nat.div2 n) - Z.of_nat n - Z.of_nat a - - Z.of_nat b) 0); destruct (Nat.eqb_spec (a + n) (b + m + Nat.div2 n)); try lia; reflexivity.
Qed.

(*! C49: the convolution is the finite sum over index pairs that add up to the output index about the grid centre, for every size and whatever the buffers held *)
Lemma C49_conv_l : forall n s r g, fc_ok n s -> (0 < n)%nat -> length r = n -> length g = n ->
  exists out s', conv r g s = (Ok out, s') /\ fc_ok n s' /\ length out = n /\
    forall m, (m < n)%nat -> nth m out (RtoC 0) = csum n (fun a => csum n (fun b => if Nat.eqb (a + b) (m + Nat.div2 n) then (nth a r (RtoC 0) * nth b g (RtoC 0))%C else RtoC 0)).
Proof.
  intros n s r g W Hn L1 L2. assert (P2 : length (g ++ repeat z0 n) = (2 * n)%nat) by (rewrite app_length, repeat_length; lia). assert (P1 : length (repeat z0 n ++ r) = (2 * n)%nat) by (rewrite app_length, repeat_length; lia).
  assert (LT : length (conv_tr n r g) = (2 * n)%nat) by (unfold conv_tr; rewrite map2_length; rewrite !fft_length; lia).
  eexists _, _. split; [apply (conv_run n s r g W L1 L2)|]. split; [apply fc_mk; rewrite ?ifft_length; assumption|]. split; [apply result_length; exact LT|].
  intros m Hm. rewrite result_nth by assumption. rewrite csum_swap.
  transitivity (csum n (fun b => csum n (fun a => if ((Z.of_nat m + Z.of_nat (Nat.div2 n) - Z.of_nat n - Z.of_nat b - (Z.of_nat a + Z.of_nat n)) mod Z.of_nat (2 * n) =? 0)%Z then (at0 g b * at0 r a)%C else z0))).
  - rewrite <- (mix_sum (2 * n) _ n n (fun a => at0 g a) (fun b => at0 r b) (fun a => Z.of_nat a) (fun b => (Z.of_nat b + Z.of_nat n)%Z)) by lia. f_equal. apply csum_ext. intros k Hk. f_equal. unfold conv_tr.
    rewrite (map2_nth Cmult _ _ k z0 z0 z0) by (rewrite !fft_length; lia). rewrite fft_low, fft_high by assumption. reflexivity.
  - apply csum_ext. intros b Hb. apply csum_ext. intros a Ha. assert (D : (2 * Nat.div2 n <= n)%nat) by (pose proof (Nat.div2_odd n) as Q; lia).
    replace (Z.of_nat m + Z.of_nat (Nat.div2 n) - Z.of_nat n - Z.of_nat b - (Z.of_nat a + Z.of_nat n))%Z with (Z.of_nat m + Z.of_nat (Nat.div2 n) - Z.of_nat b - Z.of_nat a + (-1) * Z.of_nat (2 * n))%Z by lia. rewrite Z_mod_plus_full, mod_window by lia.
    destruct (Z.eqb_spec (Z.of_nat m + Z.of_nat (Nat.div2 n) - Z.of_nat b - Z.of_nat a) 0); destruct (Nat.eqb_spec (a + b) (m + Nat.div2 n)); try lia; [ring|reflexivity].
Qed.

(*! C49: on an even grid the correlation is the finite sum over index pairs whose difference is the output index, both counted from the grid centre *)
Lemma C49_corr_l : forall n s d1 d2, fc_ok n s -> (0 < n)%nat -> Nat.Even n -> length d1 = n -> length d2 = n ->
  exists out s', corr d1 d2 s = (Ok out, s') /\ fc_ok n s' /\ length out = n /\
    forall m, (m < n)%nat -> nth m out (RtoC 0) = csum n (fun a => csum n (fun b => if Nat.eqb (a + n / 2) (b + m) then (nth a d1 (RtoC 0) * Cconj (nth b d2 (RtoC 0)))%C else RtoC 0)).
Proof.
  intros n s d1 d2 W Hn [h E] L1 L2. destruct (corr_any n s d1 d2 W Hn L1 L2) as (out & s' & R & W' & L & N). exists out, s'. repeat (split; [assumption|]). intros m Hm. rewrite (N m Hm). apply csum_ext. intros a _. apply csum_ext. intros b _.
  assert (D : Nat.div2 n = h) by (rewrite E; apply Nat.div2_double). rewrite D. replace (n / 2)%nat with h by (rewrite E, Nat.mul_comm, Nat.div_mul; lia).
  destruct (Nat.eqb_spec (a + n) (b + m + h)); destruct (Nat.eqb_spec (a + h) (b + m)); try lia; reflexivity.
Qed.

(*! C49: on an odd grid the correlation lands one point too high *)
Lemma C49_corr_odd_l : forall n s d1 d2, fc_ok n s -> Nat.Odd n -> length d1 = n -> length d2 = n ->
  exists out s', corr d1 d2 s = (Ok out, s') /\ fc_ok n s' /\ length out = n /\
    forall m, (m < n)%nat -> nth m out (RtoC 0) = csum n (fun a => csum n (fun b => if Nat.eqb (a + n / 2 + 1) (b + m) then (nth a d1 (RtoC 0) * Cconj (nth b d2 (RtoC 0)))%C else RtoC 0)).
Proof.
  intros n s d1 d2 W [h E] L1 L2. destruct (corr_any n s d1 d2 W ltac:(lia) L1 L2) as (out & s' & R & W' & L & N). exists out, s'. repeat (split; [assumption|]). intros m Hm. rewrite (N m Hm). apply csum_ext. intros a _. apply csum_ext. intros b _.
  assert (D : Nat.div2 n = h) by (rewrite E, Nat.add_1_r; apply Nat.div2_succ_double). rewrite D. replace (n / 2)%nat with h by (apply (Nat.div_unique n 2 h 1); lia).
  destruct (Nat.eqb_spec (a + n) (b + m + h)); destruct (Nat.eqb_spec (a + h + 1) (b + m)); try lia; reflexivity.
Qed.

(** Proofs about the Pulse model, part 1: field access, grids, setters. *)
From Coq Require Import String.
From Coq Require Import Reals List ZArith Bool Arith Lia Lra.
From Coquelicot Require Import Complex.
From Verif Require Import Base CNum NumPy ModelFFT FFTProofs ModelPulse.
Import ListNotations.
Local Open Scope R_scope.

Ltac mred := cbv beta iota zeta delta
  [bind ret raise get put modify gets lift need_ready check_ready fst snd
   get_AW get_AT get_dT get_V get_W get_T get_NPTS get_time_window_ps get_dT_ps].
Ltac pred := cbn [p_n p_f p_tw p_AW p_frep p_ready p_wlh p_wlv p_Wh p_Wv
   with_n with_f with_tw with_AW with_frep with_ready with_wlc with_Wc].

(** A pulse that holds a field of the right length. *)
Definition holds (p : pulse) (a : list C) : Prop :=
  p_ready p = true /\ p_AW p = Some a /\ length a = p_n p.
(** A pulse into which a field of length NPTS can be written. *)
Definition writable (p : pulse) : Prop :=
  p_ready p = true /\ (p_AW p = None \/ exists a, p_AW p = Some a /\ length a = p_n p).

Definition cur_field (p : pulse) : list C :=
  match p_AW p with Some a => a | None => repeat (RtoC 0) (p_n p) end.

Lemma holds_writable p a : holds p a -> writable p.
Proof. intros (Hr & Ha & Hl). split; [auto|]. right. eauto. Qed.

Lemma set_AW_run v p : p_ready p = true ->
  set_AW v p = match assign_all (cur_field p) v with
               | Ok a => (Ok tt, with_AW (Some a) p)
               | Raise e => (Raise e, with_AW (Some (cur_field p)) p)
               end.
Proof.
  intros Hr. unfold set_AW. mred. rewrite Hr. fold (cur_field p).
  destruct (assign_all (cur_field p) v); reflexivity.
Qed.

Lemma cur_field_length p : writable p -> length (cur_field p) = p_n p.
Proof.
  intros [_ [H|(a & H & Hl)]]; unfold cur_field; rewrite H; [apply repeat_length|exact Hl].
Qed.

Lemma set_AW_ok v p : writable p -> length v = p_n p ->
  set_AW v p = (Ok tt, with_AW (Some v) p).
Proof.
  intros Hw Hl. rewrite set_AW_run by apply Hw.
  rewrite assign_all_eq; [reflexivity|]. rewrite cur_field_length; auto.
Qed.
Lemma set_AT_ok v p : writable p -> length v = p_n p ->
  set_AT v p = (Ok tt, with_AW (Some (FFT_t v)) p).
Proof. intros. unfold set_AT. apply set_AW_ok; auto. now rewrite FFT_t_length. Qed.

Lemma get_AW_run p a : p_AW p = Some a -> get_AW p = (Ok a, p).
Proof. intros H. mred. now rewrite H. Qed.
Lemma get_AT_run p a : p_AW p = Some a -> get_AT p = (Ok (IFFT_t a), p).
Proof. intros H. mred. now rewrite H. Qed.

(*! C01: after set_AT x, AT is x (and AW is the transform); nothing else in the pulse changes. *)
Lemma C01_set_AT_round_trip_l : forall (p : pulse) (x : list C),
  writable p -> length x = p_n p ->
  exists p', set_AT x p = (Ok tt, p') /\
             get_AT p' = (Ok x, p') /\
             get_AW p' = (Ok (FFT_t x), p') /\
             p' = with_AW (p_AW p') p.
Proof.
  intros p x Hw Hl. eexists. split; [now apply set_AT_ok|].
  split; [|split]; [| |reflexivity].
  - erewrite get_AT_run by reflexivity. now rewrite IFFT_FFT_t.
  - now erewrite get_AW_run by reflexivity.
Qed.

(*! C01: after set_AW x, AW is x, AT is its inverse transform and transforming AT gives x back. *)
Lemma C01_set_AW_round_trip_l : forall (p : pulse) (x : list C),
  writable p -> length x = p_n p ->
  exists p' t, set_AW x p = (Ok tt, p') /\
             get_AW p' = (Ok x, p') /\
             get_AT p' = (Ok t, p') /\ FFT_t t = x /\ length t = p_n p' /\
             p' = with_AW (p_AW p') p.
Proof.
  intros p x Hw Hl. eexists. exists (IFFT_t x). split; [now apply set_AW_ok|].
  repeat split.
  - apply FFT_IFFT_t.
  - rewrite IFFT_t_length. exact Hl.
Qed.

(*! C01: the two transforms are mutually inverse on arrays of every length. *)
Lemma C01_transforms_inverse_l : forall x : list C,
  IFFT_t (FFT_t x) = x /\ FFT_t (IFFT_t x) = x.
Proof. intros. split; [apply IFFT_FFT_t|apply FFT_IFFT_t]. Qed.

(** ** Grids *)
Lemma V_of_nth p k d : (k < p_n p)%nat ->
  nth k (V_of p) d = 2 * PI * (- (INR (p_n p) / 2) + INR k) / (INR (p_n p) * (p_tw p / INR (p_n p))).
Proof.
  intros H. unfold V_of, arange_sym. rewrite map_mk, mk_nth by exact H. reflexivity.
Qed.
Lemma V_of_length p : length (V_of p) = p_n p.
Proof. unfold V_of, arange_sym. now rewrite map_length, mk_length. Qed.
Lemma W_of_length p : length (W_of p) = p_n p.
Proof. unfold W_of. now rewrite map_length, V_of_length. Qed.
Lemma T_of_length p : length (T_of p) = p_n p.
Proof. unfold T_of, linspace_open. apply mk_length. Qed.
Lemma V_of_val p k d : (k < p_n p)%nat ->
  nth k (V_of p) d = 2 * PI * (INR k - INR (p_n p) / 2) / p_tw p.
Proof.
  intros H. rewrite V_of_nth by exact H.
  assert (INR (p_n p) <> 0) by (apply not_0_INR; lia).
  replace (INR (p_n p) * (p_tw p / INR (p_n p))) with (p_tw p) by (field; auto).
  unfold Rdiv. ring.
Qed.
Lemma W_of_val p k d : (k < p_n p)%nat ->
  nth k (W_of p) d = 2 * PI * (INR k - INR (p_n p) / 2) / p_tw p + 2 * PI * p_f p.
Proof.
  intros H. unfold W_of. rewrite (nth_map' _ _ _ 0) by now rewrite V_of_length.
  now rewrite V_of_val.
Qed.
Lemma T_of_val p j d : (j < p_n p)%nat ->
  nth j (T_of p) d = - p_tw p / 2 + INR j * (p_tw p / INR (p_n p)).
Proof.
  intros H. unfold T_of, linspace_open. rewrite mk_nth by exact H.
  assert (INR (p_n p) <> 0) by (apply not_0_INR; lia). field. auto.
Qed.

(** V_k T_j in terms of centred indices *)
Lemma VT p k j : (k < p_n p)%nat -> (j < p_n p)%nat -> p_tw p <> 0 ->
  nth k (V_of p) 0 * nth j (T_of p) 0 =
  2 * PI * ((INR k - INR (p_n p) / 2) * (INR j - INR (p_n p) / 2)) / INR (p_n p).
Proof.
  intros Hk Hj Ht. rewrite V_of_val, T_of_val by assumption.
  assert (INR (p_n p) <> 0) by (apply not_0_INR; lia). field. auto.
Qed.

Lemma tw_centred n h (k j : nat) : (n = 2 * h)%nat -> (0 < h)%nat ->
  tw n ((Z.of_nat j + Z.of_nat h) * (Z.of_nat k + Z.of_nat h)) =
  cis (2 * PI * ((INR k - INR n / 2) * (INR j - INR n / 2)) / INR n).
Proof.
  intros Hn Hh.
  rewrite (tw_mod n _ ((Z.of_nat k - Z.of_nat h) * (Z.of_nat j - Z.of_nat h))).
  - unfold tw. f_equal. f_equal. f_equal. rewrite mult_IZR, !minus_IZR, <- !INR_IZR_INZ.
    assert (INR n / 2 = INR h) by (rewrite Hn, mult_INR; simpl; field). rewrite H. ring.
  - lia.
  - replace ((Z.of_nat j + Z.of_nat h) * (Z.of_nat k + Z.of_nat h))%Z
      with ((Z.of_nat k - Z.of_nat h) * (Z.of_nat j - Z.of_nat h) + (Z.of_nat k + Z.of_nat j) * Z.of_nat n)%Z.
    + apply Z_mod_plus_full.
    + rewrite Hn. lia.
Qed.

Lemma tw_neg n a : tw n (- a) = Cconj (tw n a).
Proof. now rewrite tw_conj. Qed.

(*! C02: on even grids AW and AT are the Fourier sums of each other on the published V and T grids. *)
Lemma C02_fourier_series_on_published_grids_l : forall (p : pulse) (a : list C) (h : nat),
  holds p a -> (p_n p = 2 * h)%nat -> (0 < h)%nat -> p_tw p <> 0 ->
  exists V T t,
    get_V p = (Ok V, p) /\ get_T p = (Ok T, p) /\ get_AW p = (Ok a, p) /\ get_AT p = (Ok t, p) /\
    length V = p_n p /\ length T = p_n p /\ length t = p_n p /\
    (forall k, (k < p_n p)%nat ->
       nth k a (RtoC 0) = (RtoC (/ INR (p_n p)) *
         csum (p_n p) (fun j => nth j t (RtoC 0) * cexp (Ci * RtoC (nth k V 0%R * nth j T 0%R))))%C) /\
    (forall j, (j < p_n p)%nat ->
       nth j t (RtoC 0) =
         csum (p_n p) (fun k => nth k a (RtoC 0) * cexp (- (Ci * RtoC (nth k V 0%R * nth j T 0%R))))%C).
Proof.
  intros p a h (Hr & Ha & Hl) Hn Hh Ht.
  assert (Ed : Nat.div2 (p_n p) = h) by (rewrite Hn; apply Nat.div2_double).
  assert (Eci : forall x, (Ci * RtoC x)%C = (0, x)%R).
  { intros x. unfold Ci, RtoC, Cmult; simpl. f_equal; ring. }
  assert (Eci' : forall x, (- (Ci * RtoC x))%C = (0, - x)%R).
  { intros x. rewrite Eci. unfold Copp; simpl. f_equal; ring. }
  exists (V_of p), (T_of p), (IFFT_t a).
  split; [mred; now rewrite Hr|]. split; [mred; now rewrite Hr|].
  split; [now apply get_AW_run|]. split; [now apply get_AT_run|].
  split; [apply V_of_length|]. split; [apply T_of_length|].
  split; [rewrite IFFT_t_length; exact Hl|]. split.
  - intros k Hk. rewrite <- (FFT_IFFT_t a) at 1.
    rewrite FFT_t_nth by (rewrite IFFT_t_length, Hl; exact Hk).
    rewrite IFFT_t_length, Hl, Ed. f_equal. apply csum_ext. intros j Hj. f_equal.
    rewrite Eci, cexp_imag, VT by assumption. now apply tw_centred.
  - intros j Hj. rewrite IFFT_t_nth by (rewrite Hl; exact Hj). rewrite Hl, Ed.
    apply csum_ext. intros k Hk. f_equal.
    rewrite Eci', cexp_imag, VT by assumption. rewrite tw_neg, (tw_centred _ h) by assumption.
    rewrite cis_conj. f_equal. f_equal. f_equal. f_equal. ring.
Qed.

(*! C02 (odd grids): for every odd NPTS and every window some field violates the relation. *)
Lemma C02_odd_grid_refuted_l : forall (p : pulse) (h : nat),
  p_ready p = true -> (p_n p = 2 * h + 1)%nat -> p_tw p <> 0 ->
  exists t a, length t = p_n p /\ a = FFT_t t /\
    nth 0 a (RtoC 0) <> (RtoC (/ INR (p_n p)) *
         csum (p_n p) (fun j => nth j t (RtoC 0) * cexp (Ci * RtoC (nth 0 (V_of p) 0%R * nth j (T_of p) 0%R))))%C.
Proof.
  intros p h Hr Hn Ht.
  assert (Ed : Nat.div2 (p_n p) = h).
  { rewrite Hn. replace (2 * h + 1)%nat with (S (2 * h)) by lia. apply Nat.div2_succ_double. }
  set (t := RtoC 1 :: repeat (RtoC 0) (2 * h)).
  assert (Lt : length t = p_n p) by (unfold t; simpl length; rewrite repeat_length; lia).
  exists t, (FFT_t t). split; [exact Lt|]. split; [reflexivity|].
  rewrite FFT_t_nth by lia. rewrite Lt, Ed. intros E.
  assert (Hn0 : INR (p_n p) <> 0) by (apply not_0_INR; lia).
  assert (Z0 : forall j, (0 < j)%nat -> nth j t (RtoC 0) = RtoC 0).
  { intros [|j] Hj; [lia|]. unfold t. simpl. apply nth_repeat. }
  assert (E2 : tw (p_n p) ((Z.of_nat 0 + Z.of_nat h) * (Z.of_nat 0 + Z.of_nat h)) =
               cexp (Ci * RtoC (nth 0 (V_of p) 0%R * nth 0 (T_of p) 0%R))%C).
  { assert (Ei : (RtoC (/ INR (p_n p)) <> RtoC 0)%C).
    { intros Q. apply RtoC_inj in Q. revert Q. now apply Rinv_neq_0_compat. }
    rewrite !(csum_single (p_n p) 0) in E by
      (try lia; intros i Hi Hne; rewrite Z0 by lia; ring).
    change (nth 0 t (RtoC 0)) with (RtoC 1) in E. rewrite !Cmult_1_l in E.
    apply (f_equal (fun z => (RtoC (INR (p_n p)) * z)%C)) in E.
    rewrite !Cmult_assoc, (Cmult_comm (RtoC (INR (p_n p)))), inv_INR_mult, !Cmult_1_l in E by lia. exact E. }
  clear E. assert (Eci : forall x, (Ci * RtoC x)%C = (0, x)%R).
  { intros x. unfold Ci, RtoC, Cmult; simpl. f_equal; ring. }
  rewrite Eci, cexp_imag, VT in E2 by (auto; lia).
  unfold tw in E2. simpl (Z.of_nat 0) in E2. rewrite !Z.add_0_l in E2.
  rewrite mult_IZR, <- !INR_IZR_INZ in E2. simpl (INR 0) in E2.
  set (u := 2 * PI * (INR h * INR h) / INR (p_n p)) in E2.
  set (v := 2 * PI * ((0 - INR (p_n p) / 2) * (0 - INR (p_n p) / 2)) / INR (p_n p)) in E2.
  assert (E3 : cis (u - v) = RtoC 1).
  { unfold Rminus. rewrite cis_add, E2, Cmult_comm. apply cis_neg_mult. }
  apply cis_eq_1 in E3. destruct E3 as [k Hk].
  assert (Hh : INR h = (INR (p_n p) - 1) / 2) by (rewrite Hn, plus_INR, mult_INR; simpl; field).
  assert (E4 : u - v = - (2 * PI) * (1 / 2 - 1 / (4 * INR (p_n p)))).
  { unfold u, v. rewrite Hh. field. exact Hn0. }
  assert (Hk2 : IZR k = - (1 / 2 - 1 / (4 * INR (p_n p)))).
  { pose proof PI_RGT_0. apply (Rmult_eq_reg_l (2 * PI)); [|lra]. rewrite <- Hk, E4. ring. }
  assert (H1 : 1 <= INR (p_n p)) by (rewrite Hn; rewrite plus_INR; simpl; pose proof (pos_INR (h + (h + 0))); lra).
  assert (0 < 1 / (4 * INR (p_n p)) <= 1 / 4).
  { split; [apply Rdiv_lt_0_compat; lra|]. apply (Rmult_le_reg_r (4 * INR (p_n p))); [lra|].
    unfold Rdiv at 1. rewrite Rmult_assoc, Rinv_l by lra. lra. }
  assert (-1 < IZR k < 0) by lra. destruct H0 as [Ha Hb].
  apply (lt_IZR (-1)) in Ha. apply (lt_IZR k 0) in Hb. lia.
Qed.

(*! C03: energy is the same in both domains, for every length. *)
Lemma C03_parseval_l : forall (p : pulse) (a : list C), holds p a ->
  exists t, get_AT p = (Ok t, p) /\ length t = p_n p /\
    lrsum (map (fun z => Cmod z ^ 2) t) = INR (p_n p) * lrsum (map (fun z => Cmod z ^ 2) a).
Proof.
  intros p a (Hr & Ha & Hl). exists (IFFT_t a). split; [now apply get_AT_run|].
  split; [rewrite IFFT_t_length; exact Hl|].
  assert (E : forall l, lrsum (map (fun z => Cmod z ^ 2) l) = rsum (length l) (fun i => Cnorm2 (nth i l (RtoC 0)))).
  { intros l. rewrite lrsum_nth, map_length. apply rsum_ext. intros i Hi.
    rewrite (nth_map' _ _ _ (RtoC 0)) by exact Hi. rewrite <- Cmod_sqr. simpl. ring. }
  rewrite !E, IFFT_t_length. rewrite parseval_IFFT_t. now rewrite Hl.
Qed.

Lemma FFT_t_linear x y (s : C) : length x = length y ->
  FFT_t (map2 (fun a b => a + s * b)%C x y) = map2 (fun a b => a + s * b)%C (FFT_t x) (FFT_t y).
Proof.
  intros Hl. apply (list_ext (RtoC 0)).
  - rewrite FFT_t_length, !map2_length; rewrite ?FFT_t_length; auto.
  - rewrite FFT_t_length, map2_length by auto. intros i Hi.
    rewrite FFT_t_nth by (rewrite map2_length; auto). rewrite map2_length by auto.
    rewrite (map2_nth _ (FFT_t x) (FFT_t y) i (RtoC 0) (RtoC 0)) by (rewrite !FFT_t_length; auto).
    rewrite !FFT_t_nth by lia. rewrite <- Hl.
    set (n := length x) in *.
    rewrite (csum_ext n _ (fun j => nth j x (RtoC 0) * tw n ((Z.of_nat j + Z.of_nat (Nat.div2 n)) * (Z.of_nat i + Z.of_nat (Nat.div2 n)))
      + s * (nth j y (RtoC 0) * tw n ((Z.of_nat j + Z.of_nat (Nat.div2 n)) * (Z.of_nat i + Z.of_nat (Nat.div2 n)))))%C).
    + rewrite csum_plus, csum_scal_l. ring.
    + intros j Hj. rewrite (map2_nth _ x y j (RtoC 0) (RtoC 0)) by auto. ring.
Qed.
Lemma IFFT_t_linear x y (s : C) : length x = length y ->
  IFFT_t (map2 (fun a b => a + s * b)%C x y) = map2 (fun a b => a + s * b)%C (IFFT_t x) (IFFT_t y).
Proof.
  intros Hl. rewrite <- (FFT_IFFT_t x) at 1. rewrite <- (FFT_IFFT_t y) at 1.
  rewrite <- FFT_t_linear by (rewrite !IFFT_t_length; auto). apply IFFT_FFT_t.
Qed.
(*! C03: both transforms are linear. *)
Lemma C03_linear_l : forall (x y : list C) (s : C), length x = length y ->
  FFT_t (map2 (fun a b => a + s * b)%C x y) = map2 (fun a b => a + s * b)%C (FFT_t x) (FFT_t y) /\
  IFFT_t (map2 (fun a b => a + s * b)%C x y) = map2 (fun a b => a + s * b)%C (IFFT_t x) (IFFT_t y).
Proof. intros. split; [now apply FFT_t_linear|now apply IFFT_t_linear]. Qed.

(*! C04: every published grid of a ready pulse with at least one point, in closed form. *)
Lemma C04_grids_l : forall p : pulse, p_ready p = true -> (0 < p_n p)%nat -> p_tw p <> 0 ->
  exists dT T V W F,
    get_dT_ps p = (Ok dT, p) /\ get_T p = (Ok T, p) /\ get_V p = (Ok V, p) /\
    get_W p = (Ok W, p) /\ get_F_THz p = (Ok F, p) /\
    dT * INR (p_n p) = p_tw p /\
    length T = p_n p /\ length V = p_n p /\ length W = p_n p /\ length F = p_n p /\
    (forall j, (j < p_n p)%nat -> nth j T 0 = - (p_tw p / 2) + INR j * dT) /\
    (forall k, (k < p_n p)%nat ->
        nth k V 0 = (INR k - INR (p_n p) / 2) * (2 * PI / p_tw p) /\
        nth k W 0 = nth k V 0 + 2 * PI * p_f p /\
        nth k F 0 * (2 * PI) = nth k W 0) /\
    (forall h, (p_n p = 2 * h)%nat -> nth h F 0 = p_f p /\ nth h V 0 = 0 /\ nth h T 0 = 0).
Proof.
  intros p Hr Hn Ht. pose proof PI_RGT_0.
  assert (Hn0 : INR (p_n p) <> 0) by (apply not_0_INR; lia).
  exists (p_tw p / INR (p_n p)), (T_of p), (V_of p), (W_of p), (F_of p).
  split; [mred; rewrite Hr; destruct (Nat.eqb_spec (p_n p) 0); [lia|reflexivity]|].
  split; [mred; now rewrite Hr|]. split; [mred; now rewrite Hr|]. split; [mred; now rewrite Hr|].
  split; [unfold get_F_THz; mred; now rewrite Hr|].
  split; [field; auto|].
  split; [apply T_of_length|]. split; [apply V_of_length|]. split; [apply W_of_length|].
  split; [unfold F_of; now rewrite map_length, W_of_length|].
  assert (HF : forall k, (k < p_n p)%nat -> nth k (F_of p) 0 = nth k (W_of p) 0 / (2 * PI)).
  { intros k Hk. unfold F_of. now rewrite (nth_map' _ _ _ 0) by now rewrite W_of_length. }
  split; [|split].
  - intros j Hj. rewrite T_of_val by exact Hj. field. auto.
  - intros k Hk. rewrite HF, V_of_val, W_of_val by exact Hk.
    split; [field; auto|]. split; [reflexivity|]. field. lra.
  - intros h Hh. assert (Hk : (h < p_n p)%nat) by lia.
    assert (Hi : INR h = INR (p_n p) / 2) by (rewrite Hh, mult_INR; simpl; field).
    rewrite HF, V_of_val, W_of_val, T_of_val by exact Hk. rewrite Hi.
    split; [|split]; field; lra || auto.
Qed.

(*! C04: SI and THz/ps variants differ by the fixed unit factor; the frequency step is 1/window. *)
Lemma C04_units_l : forall p : pulse, p_ready p = true -> (0 < p_n p)%nat -> p_tw p <> 0 ->
  (exists dT, get_dT_ps p = (Ok dT, p) /\ get_dT_mks p = (Ok (dT / 1000000000000), p)) /\
  (exists T, get_T p = (Ok T, p) /\ get_T_mks p = (Ok (map (fun x => x / 1000000000000) T), p)) /\
  (exists V, get_V p = (Ok V, p) /\ get_V_mks p = (Ok (map (fun x => 1000000000000 * x) V), p)) /\
  get_time_window_mks p = (Ok (p_tw p / 1000000000000), p) /\
  get_center_frequency_THz p = (Ok (p_f p), p) /\
  get_center_frequency_mks p = (Ok (1000000000000 * p_f p), p) /\
  ((2 <= p_n p)%nat -> get_dF_THz p = (Ok (/ Rabs (p_tw p)), p)).
Proof.
  intros p Hr Hn Ht. pose proof PI_RGT_0.
  split.
  { exists (p_tw p / INR (p_n p)). unfold get_dT_mks. mred. rewrite Hr.
    destruct (Nat.eqb_spec (p_n p) 0); [lia|]. split; reflexivity. }
  split. { exists (T_of p). unfold get_T_mks. mred. rewrite Hr. split; reflexivity. }
  split. { exists (V_of p). unfold get_V_mks. mred. rewrite Hr. split; [reflexivity|].
    do 2 f_equal. apply map_ext. intros; ring. }
  split; [reflexivity|]. split; [reflexivity|].
  split. { unfold get_center_frequency_mks. mred. f_equal. f_equal. ring. }
  intros H2. unfold get_dF_THz. mred. rewrite Hr. f_equal.
  assert (E : forall w, (2 <= length w)%nat -> first_spacing w = Ok (Rabs (nth 1 w 0 - nth 0 w 0) / (2 * PI))).
  { intros [|a [|b w]] Hw; simpl in Hw; try lia. reflexivity. }
  rewrite E by (rewrite W_of_length; lia). f_equal.
  rewrite !W_of_val by lia. simpl (INR 1). simpl (INR 0).
  replace (2 * PI * (1 - INR (p_n p) / 2) / p_tw p + 2 * PI * p_f p -
     (2 * PI * (0 - INR (p_n p) / 2) / p_tw p + 2 * PI * p_f p)) with (2 * PI * / p_tw p) by (field; auto).
  rewrite Rabs_mult, Rabs_inv. rewrite (Rabs_pos_eq (2 * PI)) by lra. field. split; [|lra].
  now apply Rabs_no_R0.
Qed.

(** ** Setters *)
Lemma c_nmps_pos : 0 < c_nmps.
Proof. unfold c_nmps, c_mks. lra. Qed.

(*! C05 (nm): writing the centre wavelength in nm or m and reading it in nm returns it. *)
Lemma C05_center_wavelength_nm_l : forall (p : pulse) (w : R), w <> 0 ->
  (exists p', set_center_wavelength_nm w p = (Ok tt, p') /\ get_center_wavelength_nm p' = (Ok w, p')) /\
  (exists p', set_center_wavelength_m w p = (Ok tt, p') /\
              get_center_wavelength_nm p' = (Ok (w * 1000000000), p')).
Proof.
  intros p w Hw. pose proof c_nmps_pos. split; eexists; (split; [reflexivity|]);
    unfold get_center_wavelength_nm; mred; pred; do 2 f_equal; field; lra.
Qed.

(*! C05 (mks) refuted: for every nonzero wavelength center_wavelength_mks differs from the wavelength
    in metres; it is too large by the factor 1e18. *)
Lemma C05_center_wavelength_mks_refuted_l : forall (p : pulse) (w : R), w <> 0 ->
  exists p' v, set_center_wavelength_m w p = (Ok tt, p') /\
    get_center_wavelength_mks p' = (Ok v, p') /\ v <> w /\ v = w * 1000000000000000000.
Proof.
  intros p w Hw. pose proof c_nmps_pos. do 2 eexists. split; [reflexivity|]. split; [reflexivity|]. pred.
  assert (E : c_nmps / (c_nmps / (w * 1000000000)) * 1000000000 = w * 1000000000000000000) by (field; lra).
  rewrite E. split; lra.
Qed.

(*! C06: unit variants of the setters lead to identical states. *)
Lemma C06_unit_setters_l : forall (p : pulse) (x : R), x <> 0 ->
  set_time_window_s (x / 1000000000000) p = set_time_window_ps x p /\
  set_center_wavelength_m (x / 1000000000) p = set_center_wavelength_nm x p /\
  set_frequency_window_mks (x * 1000000000000) p = set_frequency_window_THz x p.
Proof.
  intros p x Hx. split; [|split].
  - unfold set_time_window_s, set_time_window_ps. f_equal. field.
  - unfold set_center_wavelength_m, set_center_wavelength_nm. do 2 f_equal. field.
  - unfold set_frequency_window_mks, set_frequency_window_THz. mred. f_equal. field. exact Hx.
Qed.

(*! C06: after set_frequency_window_THz D the bins are D/NPTS wide and the whole grid spans D. *)
Lemma C06_frequency_window_l : forall (p : pulse) (D : R), 0 < D -> (2 <= p_n p)%nat ->
  exists p' F, set_frequency_window_THz D p = (Ok tt, p') /\ get_F_THz p' = (Ok F, p') /\
    length F = p_n p /\
    get_dF_THz p' = (Ok (D / INR (p_n p)), p') /\
    (forall k, (k < p_n p)%nat -> nth k F 0 = p_f p + (INR k - INR (p_n p) / 2) * (D / INR (p_n p))) /\
    p' = with_ready true (with_tw (p_tw p') p).
Proof.
  intros p D HD Hn. pose proof PI_RGT_0.
  assert (Hn0 : 0 < INR (p_n p)) by (apply lt_0_INR; lia).
  eexists. exists (F_of (with_ready true (with_tw (INR (p_n p) / D) p))).
  split; [reflexivity|]. split; [reflexivity|].
  split; [unfold F_of; now rewrite map_length, W_of_length|].
  set (q := with_ready true (with_tw (INR (p_n p) / D) p)).
  assert (Hq : p_tw q <> 0).
  { unfold q; pred. apply Rgt_not_eq, Rdiv_lt_0_compat; lra. }
  split; [|split].
  - destruct (C04_units_l q) as (_ & _ & _ & _ & _ & _ & H0); [reflexivity|unfold q; pred; lia|exact Hq|].
    rewrite H0 by (unfold q; pred; lia). do 2 f_equal. unfold q; pred.
    rewrite Rabs_pos_eq by (left; apply Rdiv_lt_0_compat; lra). field. lra.
  - intros k Hk. unfold F_of. rewrite (nth_map' _ _ _ 0) by (rewrite W_of_length; exact Hk).
    rewrite W_of_val by exact Hk. unfold q; pred. field. lra.
  - reflexivity.
Qed.

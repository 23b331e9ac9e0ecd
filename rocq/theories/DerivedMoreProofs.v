(** Proofs about the derived pulses, part 2: chirp parameters, argument checks, the FROG spectrum (C81-C83). *)
From Coq Require Import String.
From Coq Require Import Reals List ZArith Bool Arith Lia Lra.
From Coquelicot Require Import Complex.
From Verif Require Import Base CNum NumPy ModelFFT FFTProofs ModelPulse Spec ModelPulseOps PulseProofs PulseHistory PulseOpsProofs PulseRegridProofs ModelDerived DerivedProofs.
Import ListNotations.
Local Open Scope R_scope.

(** ** C81: the chirp parameters of a constructor *)
(** the pulse after a spectral and then a temporal chirp *)
Definition then_chirp (GDD TOD chirp2 chirp3 T0 : R) (p : pulse) : result pulse :=
  match chirp_pulse_W GDD TOD 0 None p with
  | (Raise e, _) => Raise e
  | (Ok _, p1) => match chirp_pulse_T chirp2 chirp3 T0 p1 with (Ok _, p2) => Ok p2 | (Raise e, _) => Raise e end
  end.

Definition wr_inv {A} (m : M pulse A) : Prop := forall s x s', writable s -> m s = (Ok x, s') -> writable s'.
Definition fills {A} (m : M pulse A) : Prop := forall s x s', writable s -> m s = (Ok x, s') -> exists a, holds s' a.
Lemma fills_wr {A} (m : M pulse A) : fills m -> wr_inv m.
Proof. intros H s x s' Hw E. destruct (H s x s' Hw E) as [a Ha]. now apply (holds_writable s' a). Qed.
Lemma fills_bind {A B} (m : M pulse A) (f : A -> M pulse B) : wr_inv m -> (forall x, fills (f x)) -> fills (bind m f).
Proof.
  intros H1 H2 s x s' Hw. unfold bind. destruct (m s) as [[y|e] s1] eqn:E; [|discriminate].
  intros K. exact (H2 y s1 x s' (H1 s y s1 Hw E) K).
Qed.
Lemma wr_bind {A B} (m : M pulse A) (f : A -> M pulse B) : wr_inv m -> (forall x, wr_inv (f x)) -> wr_inv (bind m f).
Proof.
  intros H1 H2 s x s' Hw. unfold bind. destruct (m s) as [[y|e] s1] eqn:E; [|discriminate].
  intros K. exact (H2 y s1 x s' (H1 s y s1 Hw E) K).
Qed.
Lemma wr_pure {A} (m : M pulse A) : (forall s, snd (m s) = s) -> wr_inv m.
Proof. intros H s x s' Hw E. specialize (H s). rewrite E in H. cbn in H. now subst. Qed.
Lemma fills_setAW v : fills (set_AW v).
Proof.
  intros s x s' Hw. rewrite set_AW_run by apply Hw. destruct (assign_all (cur_field s) v) as [a|] eqn:E; [|discriminate].
  intros K. injection K as _ <-. exists a. split; [apply Hw|]. split; [reflexivity|]. pred.
  rewrite (assign_all_length _ _ _ E). now apply cur_field_length.
Qed.
Lemma fills_setAT v : fills (set_AT v). Proof. apply fills_setAW. Qed.
Lemma wr_finite b : wr_inv (finite_unless b).
Proof. apply wr_pure. intros s. unfold finite_unless. destruct b; reflexivity. Qed.
Lemma wr_getT : wr_inv get_T.
Proof. apply wr_pure. intros s. mred. destruct (p_ready s); reflexivity. Qed.
Lemma wr_getAT : wr_inv get_AT.
Proof. apply wr_pure. intros s. mred. destruct (p_AW s); reflexivity. Qed.
Lemma wr_calc : wr_inv calc_epp.
Proof.
  apply wr_pure. intros s. unfold calc_epp, get_dT_mks. mred. destruct (p_ready s); [|reflexivity].
  destruct (p_n s =? 0)%nat; [reflexivity|]. destruct (p_AW s); reflexivity.
Qed.
Lemma fills_scale power frep : fills (scale_to_avg power frep).
Proof.
  unfold scale_to_avg. apply fills_bind; [apply wr_getAT|]. intros a. destruct frep; [|intros s x s' _ E; discriminate].
  apply fills_bind; [apply wr_calc|]. intros e. cbv zeta. apply fills_bind; [apply wr_finite|]. intros _. apply fills_setAT.
Qed.

(** no chirp is no change *)
Lemma chirpT0 p a T0 : holds p a -> chirp_pulse_T 0 0 T0 p = (Ok tt, p).
Proof.
  intros Hh. pose proof Hh as (Hr & Ha & Hl). unfold chirp_pulse_T. unfold bind at 1. rewrite (get_AT_run p a Ha).
  unfold bind at 1. assert (ET : get_T p = (Ok (T_of p), p)) by (mred; now rewrite Hr). rewrite ET.
  assert (LT : length (T_of p) = p_n p) by (unfold T_of, linspace_open; apply mk_length).
  unfold bind, lift. rewrite broadcast2_eq by (rewrite map_length, IFFT_t_length; congruence).
  assert (E : map2 Cmult (IFFT_t a) (map (fun x => cis (- (0 / 2 * (x / T0) ^ 2) - 0 / 3 * (x / T0) ^ 3)) (T_of p)) = IFFT_t a).
  { apply (list_ext (RtoC 0)); rewrite map2_length by (rewrite map_length, IFFT_t_length; congruence); [reflexivity|].
    intros k Hk. rewrite (map2_nth _ _ _ _ (RtoC 0) (RtoC 0)) by (rewrite ?map_length, ?IFFT_t_length in *; congruence).
    rewrite (nth_map' _ _ _ 0) by (rewrite IFFT_t_length in Hk; congruence).
    replace (- (0 / 2 * (nth k (T_of p) 0 / T0) ^ 2) - 0 / 3 * (nth k (T_of p) 0 / T0) ^ 3) with 0 by (unfold Rdiv; ring).
    rewrite cis_0. apply Cmult_1_r. }
  rewrite E. rewrite set_AT_ok; [|now apply (holds_writable p a)|rewrite IFFT_t_length; congruence].
  rewrite FFT_IFFT_t. now rewrite with_AW_same.
Qed.

Lemma chirp_tail_gen (head : M pulse unit) (body : M pulse unit) (s0 : pulse) (T0 g t c2 c3 : R) :
  head pulse0 = (Ok tt, s0) -> writable s0 -> fills body ->
  construct (bind head (fun _ => bind body (fun _ => bind (chirp_pulse_W g t 0 None) (fun _ => chirp_pulse_T c2 c3 T0)))) =
  match construct (bind head (fun _ => bind body (fun _ => bind (chirp_pulse_W 0 0 0 None) (fun _ => chirp_pulse_T 0 0 T0)))) with
  | Ok p => then_chirp g t c2 c3 T0 p
  | Raise e => Raise e
  end /\
  (forall p, construct (bind head (fun _ => bind body (fun _ => bind (chirp_pulse_W 0 0 0 None) (fun _ => chirp_pulse_T 0 0 T0)))) = Ok p ->
     exists a, holds p a).
Proof.
  intros Hs Hw Hf. unfold construct, bind. rewrite Hs. destruct (body s0) as [[u|e] s1] eqn:E; [|split; [reflexivity|discriminate]].
  destruct (Hf s0 u s1 Hw E) as [a Ha].
  rewrite (chirp0 s1 a Ha), (chirpT0 s1 a T0 Ha). split.
  - unfold then_chirp. destruct (chirp_pulse_W g t 0 None s1) as [[|] s2]; [|reflexivity]. destruct (chirp_pulse_T c2 c3 T0 s2) as [[|] s3]; reflexivity.
  - intros p K. injection K as <-. eauto.
Qed.
Lemma chirp_tail_fail (head : M pulse unit) (e : exn) (k k' : unit -> M pulse unit) f :
  fst (head pulse0) = Raise e -> construct (bind head k) = match construct (bind head k') with Ok p => f p | Raise e => Raise e end.
Proof. unfold construct, bind. destruct (head pulse0) as [[|] s]; cbn; [discriminate|reflexivity]. Qed.

Lemma bind_assoc {S A B D} (m : M S A) (f : A -> M S B) (g : B -> M S D) s :
  bind m (fun x => bind (f x) g) s = bind (bind m f) g s.
Proof. unfold bind. destruct (m s) as [[|] s1]; reflexivity. Qed.

Lemma head_cases frep n wl tw : (exists s0, shape_head frep n wl tw pulse0 = (Ok tt, s0) /\ writable s0) \/ exists e, fst (shape_head frep n wl tw pulse0) = Raise e.
Proof.
  destruct (Rlt_dec 1 wl) as [H1|H1]; [destruct (Rlt_dec 1 tw) as [H2|H2]|].
  - left. exists (blank frep n wl tw). split; [now apply head_run|apply blank_writable].
  - right. exists AssertionError. unfold shape_head, assert_gt1. destruct (Rlt_dec 1 wl); [|contradiction]. destruct (Rlt_dec 1 tw); [contradiction|].
    destruct frep; reflexivity.
  - right. exists AssertionError. unfold shape_head, assert_gt1. destruct (Rlt_dec 1 wl); [contradiction|]. destruct frep; reflexivity.
Qed.

Lemma construct_ext m m' : m pulse0 = m' pulse0 -> construct m = construct m'.
Proof. unfold construct. now intros ->. Qed.

Lemma shape_tail (frep : option R) n wl tw (body : M pulse unit) (prog : R -> R -> R -> R -> M pulse unit) T0 :
  fills body ->
  (forall g t c2 c3, prog g t c2 c3 pulse0 =
     bind (shape_head frep n wl tw) (fun _ => bind body (fun _ => bind (chirp_pulse_W g t 0 None) (fun _ => chirp_pulse_T c2 c3 T0))) pulse0) ->
  forall g t c2 c3,
  construct (prog g t c2 c3) = match construct (prog 0 0 0 0) with Ok p => then_chirp g t c2 c3 T0 p | Raise e => Raise e end /\
  (forall p, construct (prog 0 0 0 0) = Ok p -> exists p', then_chirp g t c2 c3 T0 p = Ok p').
Proof.
  intros Hf Hp g t c2 c3. rewrite (construct_ext _ _ (Hp g t c2 c3)), (construct_ext _ _ (Hp 0 0 0 0)).
  destruct (head_cases frep n wl tw) as [(s0 & Hs & Hw)|(e & He)].
  - destruct (chirp_tail_gen (shape_head frep n wl tw) body s0 T0 g t c2 c3 Hs Hw Hf) as [A B]. split; [exact A|].
    intros p K. destruct (B p K) as [a Ha]. unfold then_chirp. rewrite (chirp_run g t 0 None p a Ha). cbv zeta.
    set (b := map2 _ _ _). assert (Hb : holds (with_AW (Some b) p) b).
    { destruct Ha as (H1 & H2 & H3). split; [exact H1|]. split; [reflexivity|]. unfold b. rewrite map2_length; rewrite map_length, V_of_length; pred; congruence. }
    destruct (C14_temporal_chirp_l _ _ c2 c3 T0 Hb) as (p' & _ & _ & E1 & _). rewrite E1. eauto.
  - split; [now apply (chirp_tail_fail _ e)|]. intros p. unfold construct, bind. destruct (shape_head frep n wl tw pulse0) as [[|] s]; cbn in He; discriminate.
Qed.

(*! C81 (sech): constructing with GDD, TOD, chirp2, chirp3 is constructing without them and then calling chirp_pulse_W(GDD, TOD) and
    chirp_pulse_T(chirp2, chirp3, T0), which never fail; both sides raise the same exception when the arguments are bad. *)
Lemma C81_sech_chirp_parameters_l : forall (power T0 wl tw : R) (frep : option R) (n : nat) (avg : bool) (g t c2 c3 : R),
  construct (sech_pulse power T0 wl tw frep n g t c2 c3 avg) =
    match construct (sech_pulse power T0 wl tw frep n 0 0 0 0 avg) with
    | Ok p => then_chirp g t c2 c3 T0 p
    | Raise e => Raise e
    end /\
  (forall p, construct (sech_pulse power T0 wl tw frep n 0 0 0 0 avg) = Ok p -> exists p', then_chirp g t c2 c3 T0 p = Ok p').
Proof.
  intros power T0 wl tw frep n avg g t c2 c3.
  apply (shape_tail frep n wl tw (bind (finite_unless (is0 T0)) (fun _ => bind get_T (fun T =>
    if avg then bind (set_AT (map (fun t => RtoC (1 / cosh (t / T0))) T)) (fun _ => scale_to_avg power frep)
    else bind (finite_unless (neg power)) (fun _ => set_AT (map (fun t => RtoC (sqrt power / cosh (t / T0))) T)))))
    (fun g t c2 c3 => sech_pulse power T0 wl tw frep n g t c2 c3 avg) T0).
  - apply fills_bind; [apply wr_finite|]. intros _. apply fills_bind; [apply wr_getT|]. intros T. destruct avg.
    + apply fills_bind; [apply fills_wr, fills_setAT|]. intros _. apply fills_scale.
    + apply fills_bind; [apply wr_finite|]. intros _. apply fills_setAT.
  - intros g' t' c2' c3'. unfold sech_pulse, bind. destruct (shape_head frep n wl tw pulse0) as [[|] s]; [|reflexivity].
    destruct (finite_unless (is0 T0) s) as [[|] s1]; [|reflexivity]. destruct (get_T s1) as [[|] s2]; reflexivity.
Qed.

(*! C81 (Gaussian): the same. *)
Lemma C81_gaussian_chirp_parameters_l : forall (power T0 wl tw : R) (frep : option R) (n : nat) (avg : bool) (g t c2 c3 : R),
  construct (gaussian_pulse power T0 wl tw frep n g t c2 c3 avg) =
    match construct (gaussian_pulse power T0 wl tw frep n 0 0 0 0 avg) with
    | Ok p => then_chirp g t c2 c3 T0 p
    | Raise e => Raise e
    end /\
  (forall p, construct (gaussian_pulse power T0 wl tw frep n 0 0 0 0 avg) = Ok p -> exists p', then_chirp g t c2 c3 T0 p = Ok p').
Proof.
  intros power T0 wl tw frep n avg g t c2 c3.
  apply (shape_tail frep n wl tw (bind (finite_unless (is0 T0 || neg power)) (fun _ => bind get_T (fun T =>
    bind (set_AT (map (fun t => RtoC (sqrt power * exp (- (277 / 100) * (1 / 2) * t ^ 2 / T0 ^ 2))) T))
      (fun _ => if avg then scale_to_avg power frep else ret tt))))
    (fun g t c2 c3 => gaussian_pulse power T0 wl tw frep n g t c2 c3 avg) T0).
  - apply fills_bind; [apply wr_finite|]. intros _. apply fills_bind; [apply wr_getT|]. intros T. destruct avg.
    + apply fills_bind; [apply fills_wr, fills_setAT|]. intros _. apply fills_scale.
    + intros s x s' Hw. unfold bind. destruct (set_AT _ s) as [[|] s1] eqn:E; [|discriminate]. intros K. injection K as _ <-.
      exact (fills_setAT _ _ _ _ Hw E).
  - intros g' t' c2' c3'. unfold gaussian_pulse, bind. destruct (shape_head frep n wl tw pulse0) as [[|] s]; [|reflexivity].
    destruct (finite_unless (is0 T0 || neg power) s) as [[|] s1]; [|reflexivity]. destruct (get_T s1) as [[|] s2]; [|reflexivity].
    destruct (set_AT _ s2) as [[|] s3]; reflexivity.
Qed.

(*! C81 (sinc): the same, the temporal chirp being scaled by the zero-crossing time FWHM/3.7909885. *)
Lemma C81_sinc_chirp_parameters_l : forall (power FWHM wl tw : R) (frep : option R) (n : nat) (avg : bool) (g t c2 c3 : R),
  let T0 := FWHM / (37909885 / 10000000) in
  construct (sinc_pulse power FWHM wl tw frep n g t c2 c3 avg) =
    match construct (sinc_pulse power FWHM wl tw frep n 0 0 0 0 avg) with
    | Ok p => then_chirp g t c2 c3 T0 p
    | Raise e => Raise e
    end /\
  (forall p, construct (sinc_pulse power FWHM wl tw frep n 0 0 0 0 avg) = Ok p -> exists p', then_chirp g t c2 c3 T0 p = Ok p').
Proof.
  intros power FWHM wl tw frep n avg g t c2 c3 T0.
  apply (shape_tail frep n wl tw (bind (finite_unless (is0 T0)) (fun _ => bind get_T (fun T =>
    if avg then bind (finite_unless (has_zero (map (fun t => np_sinc (PI * t / (T0 * PI))) T))) (fun _ =>
       bind (set_AT (map (fun x => RtoC (1 / x)) (map (fun t => np_sinc (PI * t / (T0 * PI))) T))) (fun _ => scale_to_avg power frep))
    else bind (finite_unless (neg power)) (fun _ => set_AT (map (fun t => RtoC (sqrt power * np_sinc (t / (T0 * PI)))) T)))))
    (fun g t c2 c3 => sinc_pulse power FWHM wl tw frep n g t c2 c3 avg) T0).
  - apply fills_bind; [apply wr_finite|]. intros _. apply fills_bind; [apply wr_getT|]. intros T. destruct avg.
    + apply fills_bind; [apply wr_finite|]. intros _. apply fills_bind; [apply fills_wr, fills_setAT|]. intros _. apply fills_scale.
    + apply fills_bind; [apply wr_finite|]. intros _. apply fills_setAT.
  - intros g' t' c2' c3'. unfold sinc_pulse, bind. fold T0. destruct (shape_head frep n wl tw pulse0) as [[|] s]; [|reflexivity].
    destruct (finite_unless (is0 T0) s) as [[|] s1]; [|reflexivity]. destruct (get_T s1) as [[|] s2]; reflexivity.
Qed.

(** ** C82: mks units are refused *)
(*! C82: the sech, Gaussian, sinc, FROG and CW constructors all raise AssertionError when the centre wavelength (nm) or the time window (ps) is
    not above one, which is what catches values given in metres or seconds. *)
Lemma C82_constructors_reject_mks_units_l : forall (strf : R -> string) (power T0 wl tw : R) (frep : option R) (n : nat) (g t c2 c3 : R) (avg flip : bool)
    (file : option (list R * list R * list R)) (off : option R),
  wl <= 1 \/ tw <= 1 ->
  construct (sech_pulse power T0 wl tw frep n g t c2 c3 avg) = Raise AssertionError /\
  construct (gaussian_pulse power T0 wl tw frep n g t c2 c3 avg) = Raise AssertionError /\
  construct (sinc_pulse power T0 wl tw frep n g t c2 c3 avg) = Raise AssertionError /\
  construct (frog_pulse strf tw wl power frep n avg file flip) = Raise AssertionError /\
  construct (cw_pulse power wl tw n off) = Raise AssertionError.
Proof.
  intros strf power T0 wl tw frep n g t c2 c3 avg flip file off H.
  assert (A : forall k, construct (bind (shape_head frep n wl tw) k) = Raise AssertionError).
  { intros k. unfold construct, bind at 1, shape_head, assert_gt1.
    destruct (Rlt_dec 1 wl) as [H1|H1]; [destruct (Rlt_dec 1 tw) as [H2|H2]; [lra|]|]; destruct frep; reflexivity. }
  split; [apply A|]. split; [apply A|]. split; [apply A|].
  unfold construct, frog_pulse, cw_pulse, assert_gt1.
  destruct (Rlt_dec 1 wl) as [H1|H1]; [destruct (Rlt_dec 1 tw) as [H2|H2]; [lra|]|]; destruct frep; split; reflexivity.
Qed.

(** ** C83: the FROG spectrum *)
(** [piecewise xs ys x v]: v is the piecewise-linear interpolation of the table at x, zero outside the table *)
Definition piecewise (xs ys : list R) (x v : R) : Prop :=
  (exists j, (S j < length xs)%nat /\ nth j xs 0 <= x <= nth (S j) xs 0 /\
     v = nth j ys 0 + (x - nth j xs 0) / (nth (S j) xs 0 - nth j xs 0) * (nth (S j) ys 0 - nth j ys 0)) \/
  ((x < nth 0 xs 0 \/ nth (length xs - 1) xs 0 < x) /\ v = 0).
Definition increasing (xs : list R) : Prop := forall i j, (i < j < length xs)%nat -> nth i xs 0 < nth j xs 0.

Lemma find_cell xs x : nth 0 xs 0 <= x -> forall m, x <= nth m xs 0 -> (0 < m)%nat -> exists j, (S j <= m)%nat /\ nth j xs 0 <= x <= nth (S j) xs 0.
Proof.
  intros H0. induction m as [|m IH]; intros Hm Hp; [lia|].
  destruct (Rle_dec (nth m xs 0) x) as [L|L]; [exists m; split; [lia|lra]|].
  destruct m as [|m]; [exfalso; lra|]. destruct IH as (j & Hj & K); [lra|lia|]. exists j. split; [lia|exact K].
Qed.
Lemma nth_RtoC ys i : nth i (map RtoC ys) (RtoC 0) = RtoC (nth i ys 0).
Proof. rewrite <- (map_nth RtoC). reflexivity. Qed.
Lemma interp_piecewise xs ys x : (2 <= length xs)%nat -> increasing xs -> piecewise xs ys x (interp_real xs ys x).
Proof.
  intros Hl Hi. unfold interp_real.
  assert (Ex : xs = mk (length xs) (fun i => nth i xs 0)).
  { apply (list_ext 0); [now rewrite mk_length|]. intros i H. now rewrite mk_nth. }
  destruct (Rlt_dec x (nth 0 xs 0)) as [A|A].
  { right. split; [auto|]. rewrite Ex at 1. rewrite interp1_outside; [reflexivity|lia|auto]. }
  destruct (Rlt_dec (nth (length xs - 1) xs 0) x) as [B|B].
  { right. split; [auto|]. rewrite Ex at 1. rewrite interp1_outside; [reflexivity|lia|auto]. }
  left. destruct (find_cell xs x ltac:(lra) (length xs - 1) ltac:(lra) ltac:(lia)) as (j & Hj & K).
  exists j. split; [lia|]. split; [exact K|]. rewrite Ex at 1.
  rewrite (interp1_chord _ _ _ x j); [|intros i k Hk; apply Hi; lia|lia|exact K].
  rewrite !nth_RtoC. cbn. ring.
Qed.
Lemma interp_neg xs ys x : interp_real xs (map (fun y => -1 * y) ys) x = - interp_real xs ys x.
Proof.
  unfold interp_real.
  assert (N : forall i, nth i (map RtoC (map (fun y => -1 * y) ys)) (RtoC 0) = (- nth i (map RtoC ys) (RtoC 0))%C).
  { intros i. rewrite !nth_RtoC.
    replace (nth i (map (fun y => -1 * y) ys) 0) with (-1 * nth i ys 0).
    - apply C_eq; cbn; ring.
    - rewrite <- (map_nth (fun y => -1 * y)). f_equal. ring. }
  unfold interp1. destruct (Rlt_dec x (nth 0 xs 0)); [cbn; ring|]. destruct (Rlt_dec (nth (length xs - 1) xs 0) x); [cbn; ring|].
  cbv zeta. rewrite !N. set (a := nth _ (map RtoC ys) _). set (b := nth _ (map RtoC ys) _).
  match goal with |- Re ?u = - Re ?v => assert (E : u = (- v)%C) by (unfold Cdiv, Cminus; ring); rewrite E; reflexivity end.
Qed.

Lemma frog_run strf tw wl power f frep n avg flip wls inten phase p :
  1 < wl -> 1 < tw -> eff_frep frep = Some f ->
  construct (frog_pulse strf tw wl power frep n avg (Some (wls, inten, phase)) flip) = Ok p ->
  let E := if avg then power / (f * 1000000) else power in
  let w := map (fun x => 2 * PI * c_nmps / x) (spec_W n tw (c_nmps / wl)) in
  let ph := if flip then map (fun x => -1 * x) phase else phase in
  exists e, 0 < e /\ 0 <= E /\
    get_AW p = (Ok (map (Cmult (RtoC (sqrt (E / e)))) (map2 (fun i t => RtoC i * cis t)%C (map (interp_real wls inten) w) (map (interp_real wls ph) w))), p).
Proof.
  intros Hw Ht Ef. unfold construct, frog_pulse.
  set (s0 := blank frep n wl tw).
  assert (Fr : p_frep s0 = Some f) by exact Ef.
  set (ph := if flip then map (fun x => -1 * x) phase else phase).
  set (E := if avg then power / (f * 1000000) else power).
  unfold assert_gt1. destruct (Rlt_dec 1 wl); [|lra]. destruct (Rlt_dec 1 tw); [|lra].
  match goal with |- context [bind get ?k] => match goal with |- context [match ?z with _ => _ end = Ok p] =>
    assert (H0 : z = k s0 s0) by (unfold s0; clear; destruct frep; reflexivity); rewrite H0; clear H0 end end.
  cbv beta. rewrite Fr.
  match goal with |- context [bind ?m ?k s0] => assert (H0 : bind m k s0 = k E s0 \/ bind m k s0 = (Raise NonFinite, s0)) end.
  { unfold E. destruct avg; [|left; reflexivity]. unfold bind at 2. unfold bind at 3. unfold finite_unless at 1. unfold finite_unless at 2. destruct (is0 (f * 1000000)); [right; reflexivity|left; reflexivity]. }
  destruct H0 as [H0|H0]; rewrite H0; clear H0; [|discriminate]. cbv beta zeta. fold ph.
  set (w := map (fun x => 2 * PI * c_nmps / x) (spec_W n tw (c_nmps / wl))).
  assert (Lw : length w = n) by (unfold w, spec_W; now rewrite map_length, mk_length).
  assert (Hg : exists p1, get_wl_nm strf s0 = (Ok (Some w), p1)).
  { unfold get_wl_nm. mred. unfold hash_eqb. change (p_wlh s0) with (@None string). pred. eexists.
    unfold w. change (spec_W n tw (c_nmps / wl)) with (spec_W (p_n s0) (p_tw s0) (p_f s0)). rewrite <- W_of_spec. reflexivity. }
  destruct Hg as (p1 & Hg). destruct (get_wl_after strf s0 w p1 Hg) as (A1 & A2 & A3).
  unfold bind at 1. rewrite Hg. unfold bind at 1, as_array at 1, ret at 1. cbv zeta.
  unfold bind at 1. rewrite (get_wl_hit strf p1 w A1 A2). unfold bind at 1, as_array at 1, ret at 1.
  unfold bind at 1, lift at 1. rewrite broadcast2_eq by now rewrite !map_length.
  set (sp := map2 _ _ _).
  assert (Ls : length sp = n) by (unfold sp; rewrite map2_length; rewrite !map_length; auto).
  assert (Hn1 : p_n p1 = n) by (unfold obs in A3; injection A3; intros; assumption).
  assert (W1 : writable p1).
  { unfold obs in A3. injection A3 as B1 B2 B3 B4 B5 B6. split; [now rewrite B6|left; now rewrite B4]. }
  unfold bind at 1. rewrite set_AW_ok by (try assumption; congruence).
  set (p2 := with_AW (Some sp) p1).
  assert (Hh : holds p2 sp) by (split; [apply W1|split; [reflexivity|change (p_n p2) with (p_n p1); congruence]]).
  destruct (Nat.eq_dec n 0) as [N|N].
  { unfold bind at 1. rewrite (calc_epp_zero p2 sp Hh) by (change (p_n p2) with (p_n p1); congruence). discriminate. }
  assert (Hn2 : (0 < p_n p2)%nat) by (change (p_n p2) with (p_n p1); lia).
  assert (Hc := calc_epp_run p2 sp Hh Hn2).
  set (e := p_tw p2 / INR (p_n p2) * / 1000000000000 * trapz (map (fun z => Cmod z ^ 2) (IFFT_t sp))) in *.
  assert (Hp2 : 0 <= e).
  { unfold e. assert (Et : p_tw p2 = tw) by (unfold obs in A3; injection A3; intros; assumption). rewrite Et.
    apply Rmult_le_pos; [left; apply Rmult_lt_0_compat; [apply Rdiv_lt_0_compat; [lra|now apply lt_0_INR]|lra]|].
    apply trapz_nonneg. intros v Hv. apply in_map_iff in Hv. destruct Hv as (z & <- & _). apply pow2_ge_0. }
  unfold bind at 1. rewrite Hc. unfold bind at 1, finite_unless, is0, neg.
  destruct (Req_EM_T e 0) as [E0|E0]; [discriminate|]. destruct (Rlt_dec (E / e) 0) as [E1|E1]; [discriminate|]. cbn [orb]. unfold ret at 1.
  assert (HE : 0 <= E).
  { replace E with (E / e * e) by (field; lra). apply Rmult_le_pos; lra. }
  unfold bind. rewrite (get_AT_run p2 sp) by reflexivity.
  rewrite set_AT_ok; [|now apply (holds_writable p2 sp)|rewrite map_length, IFFT_t_length; change (p_n p2) with (p_n p1); congruence].
  intros X. apply Ok_inj in X. exists e. split; [lra|]. split; [exact HE|].
  rewrite <- X.
  replace (map (fun z => (z * RtoC (sqrt (E / e)))%C) (IFFT_t sp)) with (map (Cmult (RtoC (sqrt (E / e)))) (IFFT_t sp))
    by (apply map_ext; intros; ring).
  rewrite FFT_t_scale, FFT_IFFT_t. reflexivity.
Qed.

(*! C83 (partial): when the file is present and sorted by wavelength, the field at every bin is c*I*exp(i s P), I and P being the second and third
    column interpolated linearly at the bin's wavelength (zero outside the file), s = -1 with flip_phase and 1 without, and c one nonnegative
    constant, positive for a positive energy. *)
Lemma C83_frog_spectrum_partial_l : forall (strf : R -> string) (tw wl power f : R) (frep : option R) (n : nat) (avg flip : bool) (wls inten phase : list R) (p : pulse),
  1 < wl -> 1 < tw -> eff_frep frep = Some f -> (2 <= length wls)%nat -> increasing wls ->
  construct (frog_pulse strf tw wl power frep n avg (Some (wls, inten, phase)) flip) = Ok p ->
  exists a c, get_AW p = (Ok a, p) /\ length a = n /\ 0 <= c /\ (0 < (if avg then power / (f * 1000000) else power) -> 0 < c) /\
    forall k, (k < n)%nat -> let lam := 2 * PI * c_nmps / nth k (spec_W n tw (c_nmps / wl)) 0 in
      exists I P, piecewise wls inten lam I /\ piecewise wls phase lam P /\
        nth k a (RtoC 0) = (RtoC (c * I) * cis (if flip then - P else P))%C.
Proof.
  intros strf tw wl power f frep n avg flip wls inten phase p Hw Ht Hf Hl Hi Hc.
  destruct (frog_run strf tw wl power f frep n avg flip wls inten phase p Hw Ht Hf Hc) as (e & He & HE & Ha).
  set (E := if avg then power / (f * 1000000) else power) in *.
  set (w := map (fun x => 2 * PI * c_nmps / x) (spec_W n tw (c_nmps / wl))) in *.
  assert (Lw : length w = n) by (unfold w, spec_W; now rewrite map_length, mk_length).
  eexists _, (sqrt (E / e)). split; [exact Ha|]. split; [rewrite map_length, map2_length; now rewrite !map_length|].
  split; [apply sqrt_pos|]. split.
  { intros Hp. now apply sqrt_lt_R0, Rdiv_lt_0_compat. }
  intros k Hk lam.
  assert (Ek : nth k w 0 = lam) by (unfold w; rewrite (nth_map' _ _ _ 0) by (unfold spec_W; now rewrite mk_length); reflexivity).
  exists (interp_real wls inten lam), (interp_real wls phase lam).
  split; [now apply interp_piecewise|]. split; [now apply interp_piecewise|].
  rewrite (nth_map' _ _ _ (RtoC 0)) by (rewrite map2_length; rewrite !map_length; [congruence|reflexivity]).
  rewrite (map2_nth _ _ _ _ 0 0) by (rewrite !map_length; congruence).
  rewrite !(nth_map' _ w k 0), Ek by congruence.
  rewrite RtoC_mult. rewrite <- Cmult_assoc. f_equal. f_equal. f_equal. destruct flip; [apply interp_neg|reflexivity].
Qed.

Lemma piecewise_fun xs ys x u v : increasing xs -> piecewise xs ys x u -> piecewise xs ys x v -> u = v.
Proof.
  intros Hi.
  assert (Le : forall i j, (i <= j < length xs)%nat -> nth i xs 0 <= nth j xs 0).
  { intros i j H. destruct (Nat.eq_dec i j) as [->|N]; [lra|]. left. apply Hi. lia. }
  assert (Q : forall i j, (S i < length xs)%nat -> (S j < length xs)%nat -> (i < j)%nat -> nth i xs 0 <= x <= nth (S i) xs 0 -> nth j xs 0 <= x <= nth (S j) xs 0 ->
     nth i ys 0 + (x - nth i xs 0) / (nth (S i) xs 0 - nth i xs 0) * (nth (S i) ys 0 - nth i ys 0) =
     nth j ys 0 + (x - nth j xs 0) / (nth (S j) xs 0 - nth j xs 0) * (nth (S j) ys 0 - nth j ys 0)).
  { intros i j H1 H2 H A B. assert (L := Le (S i) j ltac:(lia)). assert (j = S i).
    { destruct (Nat.eq_dec j (S i)) as [|N]; [assumption|]. assert (nth (S i) xs 0 < nth j xs 0) by (apply Hi; lia). lra. }
    subst j. assert (E : x = nth (S i) xs 0) by lra. rewrite E.
    assert (nth i xs 0 < nth (S i) xs 0) by (apply Hi; lia). assert (nth (S i) xs 0 < nth (S (S i)) xs 0) by (apply Hi; lia).
    field. split; apply Rgt_not_eq; lra. }
  assert (O : forall j, (S j < length xs)%nat -> nth j xs 0 <= x <= nth (S j) xs 0 -> ~ (x < nth 0 xs 0 \/ nth (length xs - 1) xs 0 < x)).
  { intros j Hj K. assert (A := Le 0%nat j ltac:(lia)). assert (B := Le (S j) (length xs - 1)%nat ltac:(lia)). lra. }
  intros [(i & Hi1 & Hi2 & ->)|[H1 ->]] [(j & Hj1 & Hj2 & ->)|[H2 ->]].
  - destruct (lt_eq_lt_dec i j) as [[L| ->]|L]; [now apply Q|reflexivity|symmetry; now apply Q].
  - destruct (O i); assumption.
  - destruct (O j); assumption.
  - reflexivity.
Qed.

(*! C83 refuted: the file's intensity column is used as the field amplitude, so the power spectrum of the pulse goes as the square of the measured intensity: at
    two bins where the measured intensities are positive and differ, the power spectrum is not in their ratio. *)
Lemma C83_frog_power_spectrum_refuted_l : forall (strf : R -> string) (tw wl power f : R) (frep : option R) (n : nat) (avg flip : bool) (wls inten phase : list R) (p : pulse) (j k : nat) (Ij Ik : R),
  1 < wl -> 1 < tw -> eff_frep frep = Some f -> (2 <= length wls)%nat -> increasing wls ->
  construct (frog_pulse strf tw wl power frep n avg (Some (wls, inten, phase)) flip) = Ok p ->
  0 < (if avg then power / (f * 1000000) else power) -> (j < n)%nat -> (k < n)%nat ->
  piecewise wls inten (2 * PI * c_nmps / nth j (spec_W n tw (c_nmps / wl)) 0) Ij ->
  piecewise wls inten (2 * PI * c_nmps / nth k (spec_W n tw (c_nmps / wl)) 0) Ik ->
  0 < Ij -> 0 < Ik -> Ij <> Ik ->
  exists a, get_AW p = (Ok a, p) /\
    Cmod (nth j a (RtoC 0)) ^ 2 * Ik ^ 2 = Cmod (nth k a (RtoC 0)) ^ 2 * Ij ^ 2 /\
    Cmod (nth j a (RtoC 0)) ^ 2 * Ik <> Cmod (nth k a (RtoC 0)) ^ 2 * Ij.
Proof.
  intros strf tw wl power f frep n avg flip wls inten phase p j k Ij Ik Hw Ht Hf Hl Hi Hc HE Hj Hk Pj Pk H1 H2 Hne.
  destruct (C83_frog_spectrum_partial_l strf tw wl power f frep n avg flip wls inten phase p Hw Ht Hf Hl Hi Hc) as (a & c & Ha & _ & Hc0 & Hc1 & Hn).
  specialize (Hc1 HE). exists a. split; [exact Ha|].
  destruct (Hn j Hj) as (I1 & Q1 & A1 & _ & ->). destruct (Hn k Hk) as (I2 & Q2 & A2 & _ & ->).
  rewrite (piecewise_fun _ _ _ _ _ Hi A1 Pj), (piecewise_fun _ _ _ _ _ Hi A2 Pk).
  rewrite !Cmod_mult, !cis_mod, !Cmod_R, !Rmult_1_r, !pow2_abs. split; [ring|].
  intros K. apply Hne. assert (Hc2 : 0 < c ^ 2) by (apply pow_lt; exact Hc1).
  assert (Z : c ^ 2 * (Ij * Ik * (Ij - Ik)) = 0) by nra.
  apply Rmult_integral in Z. destruct Z as [Z|Z]; [lra|]. apply Rmult_integral in Z. destruct Z as [Z|Z]; [nra|lra].
Qed.

Lemma trapz_zero y : (2 <= length y)%nat -> (forall v, In v y -> 0 <= v) -> trapz y = 0 -> forall v, In v y -> v = 0.
Proof.
  induction y as [|a y IH]; intros L H E v Hv; [destruct Hv|]. destruct y as [|b y]; [cbn in L; lia|].
  change (trapz (a :: b :: y)) with ((a + b) / 2 + trapz (b :: y)) in E.
  assert (0 <= a) by (apply H; left; auto). assert (0 <= b) by (apply H; right; left; auto).
  assert (0 <= trapz (b :: y)) by (apply trapz_nonneg; intros u Hu; apply H; right; exact Hu).
  destruct Hv as [<-|Hv]; [lra|]. destruct y as [|c y].
  - destruct Hv as [<-|[]]. lra.
  - apply IH; [cbn; lia|intros; apply H; now right|lra|exact Hv].
Qed.

(*! C83 (accepted files): with two or more points, a readable file whose interpolated intensity is nonzero at some bin, and a nonnegative energy, the constructor returns. *)
Lemma C83_frog_accepts_l : forall (strf : R -> string) (tw wl power f : R) (frep : option R) (n : nat) (avg flip : bool) (wls inten phase : list R) (k : nat) (Ik : R),
  1 < wl -> 1 < tw -> eff_frep frep = Some f -> f <> 0 -> (2 <= length wls)%nat -> increasing wls -> (2 <= n)%nat ->
  0 <= (if avg then power / (f * 1000000) else power) -> (k < n)%nat ->
  piecewise wls inten (2 * PI * c_nmps / nth k (spec_W n tw (c_nmps / wl)) 0) Ik -> Ik <> 0 ->
  exists p, construct (frog_pulse strf tw wl power frep n avg (Some (wls, inten, phase)) flip) = Ok p.
Proof.
  intros strf tw wl power f frep n avg flip wls inten phase k Ik Hw Ht Ef Hf0 Hl Hi Hn HE Hk Hp HI.
  apply (piecewise_fun wls inten _ _ _ Hi (interp_piecewise wls inten _ Hl Hi)) in Hp.
  unfold construct, frog_pulse.
  set (s0 := blank frep n wl tw).
  assert (Fr : p_frep s0 = Some f) by exact Ef.
  set (ph := if flip then map (fun x => -1 * x) phase else phase).
  set (E := if avg then power / (f * 1000000) else power) in *.
  unfold assert_gt1. destruct (Rlt_dec 1 wl); [|lra]. destruct (Rlt_dec 1 tw); [|lra].
  match goal with |- context [bind get ?k] => match goal with |- context [match ?z with _ => _ end = Ok _] =>
    assert (H0 : z = k s0 s0) by (unfold s0; clear; destruct frep; reflexivity); rewrite H0; clear H0 end end.
  cbv beta. rewrite Fr.
  match goal with |- context [bind ?m ?k s0] => assert (H0 : bind m k s0 = k E s0) end.
  { unfold E. destruct avg; [|reflexivity]. unfold bind at 2. unfold finite_unless at 1, is0. destruct (Req_EM_T (f * 1000000) 0); [exfalso; apply Hf0; lra|reflexivity]. }
  rewrite H0; clear H0. cbv beta zeta. fold ph.
  set (w := map (fun x => 2 * PI * c_nmps / x) (spec_W n tw (c_nmps / wl))).
  assert (Lw : length w = n) by (unfold w, spec_W; now rewrite map_length, mk_length).
  assert (Hg : exists p1, get_wl_nm strf s0 = (Ok (Some w), p1)).
  { unfold get_wl_nm. mred. unfold hash_eqb. change (p_wlh s0) with (@None string). pred. eexists.
    unfold w. change (spec_W n tw (c_nmps / wl)) with (spec_W (p_n s0) (p_tw s0) (p_f s0)). rewrite <- W_of_spec. reflexivity. }
  destruct Hg as (p1 & Hg). destruct (get_wl_after strf s0 w p1 Hg) as (A1 & A2 & A3).
  unfold bind at 1. rewrite Hg. unfold bind at 1, as_array at 1, ret at 1. cbv zeta.
  unfold bind at 1. rewrite (get_wl_hit strf p1 w A1 A2). unfold bind at 1, as_array at 1, ret at 1.
  unfold bind at 1, lift at 1. rewrite broadcast2_eq by now rewrite !map_length.
  set (sp := map2 _ _ _).
  assert (Ls : length sp = n) by (unfold sp; rewrite map2_length; rewrite !map_length; auto).
  assert (Hn1 : p_n p1 = n) by (unfold obs in A3; injection A3; intros; assumption).
  assert (W1 : writable p1).
  { unfold obs in A3. injection A3 as B1 B2 B3 B4 B5 B6. split; [now rewrite B6|left; now rewrite B4]. }
  assert (Hnz : nth k sp (RtoC 0) <> RtoC 0).
  { unfold sp. rewrite (map2_nth _ _ _ _ 0 0) by (rewrite !map_length; congruence).
    rewrite !(nth_map' _ w k 0) by congruence.
    assert (Ek : nth k w 0 = 2 * PI * c_nmps / nth k (spec_W n tw (c_nmps / wl)) 0) by (unfold w; rewrite (nth_map' _ _ _ 0) by (unfold spec_W; now rewrite mk_length); reflexivity).
    rewrite Ek, Hp. apply Cmult_neq_0; [|apply cis_nonzero]. intros Z. apply RtoC_inj in Z. contradiction. }
  unfold bind at 1. rewrite set_AW_ok by (try assumption; congruence).
  set (p2 := with_AW (Some sp) p1).
  assert (Hh : holds p2 sp) by (split; [apply W1|split; [reflexivity|change (p_n p2) with (p_n p1); congruence]]).
  assert (Hn2 : (0 < p_n p2)%nat) by (change (p_n p2) with (p_n p1); lia).
  assert (Hc := calc_epp_run p2 sp Hh Hn2).
  set (e := p_tw p2 / INR (p_n p2) * / 1000000000000 * trapz (map (fun z => Cmod z ^ 2) (IFFT_t sp))) in *.
  assert (Hp2 : 0 < e).
  { unfold e. assert (Et : p_tw p2 = tw) by (unfold obs in A3; injection A3; intros; assumption). rewrite Et.
    apply Rmult_lt_0_compat; [apply Rmult_lt_0_compat; [apply Rdiv_lt_0_compat; [lra|now apply lt_0_INR]|lra]|].
    assert (NN : forall v, In v (map (fun z => Cmod z ^ 2) (IFFT_t sp)) -> 0 <= v).
    { intros v Hv. apply in_map_iff in Hv. destruct Hv as (z & <- & _). apply pow2_ge_0. }
    destruct (Rle_lt_or_eq_dec _ _ (trapz_nonneg _ NN)) as [L|Z]; [exact L|exfalso]. symmetry in Z.
    assert (LL : (2 <= length (map (fun z => (Cmod z ^ 2)%R) (IFFT_t sp)))%nat) by (rewrite map_length, IFFT_t_length; lia).
    assert (Y : IFFT_t sp = map (Cmult (RtoC 0)) (IFFT_t sp)).
    { apply (list_ext (RtoC 0)); [now rewrite map_length|]. intros i Hi'. rewrite (nth_map' _ _ _ (RtoC 0)) by exact Hi'. rewrite Cmult_0_l.
      assert (V := trapz_zero _ LL NN Z (Cmod (nth i (IFFT_t sp) (RtoC 0)) ^ 2) (in_map (fun z => Cmod z ^ 2) _ _ (nth_In _ _ Hi'))).
      apply Cmod_eq_0. pose proof (Cmod_ge_0 (nth i (IFFT_t sp) (RtoC 0))). nra. }
    apply Hnz. rewrite <- (FFT_IFFT_t sp), Y, FFT_t_scale. rewrite (nth_map' _ _ _ (RtoC 0)) by (rewrite FFT_t_length, IFFT_t_length; lia). apply Cmult_0_l. }
  unfold bind at 1. rewrite Hc. unfold bind at 1, finite_unless, is0, neg.
  destruct (Req_EM_T e 0) as [E0|E0]; [lra|].
  assert (0 <= E / e) by (apply Rmult_le_pos; [exact HE|left; now apply Rinv_0_lt_compat]).
  destruct (Rlt_dec (E / e) 0) as [E1|E1]; [lra|]. cbn [orb]. unfold ret at 1.
  unfold bind. rewrite (get_AT_run p2 sp) by reflexivity.
  rewrite set_AT_ok; [|now apply (holds_writable p2 sp)|rewrite map_length, IFFT_t_length; change (p_n p2) with (p_n p1); congruence].
  eexists. reflexivity.
Qed.

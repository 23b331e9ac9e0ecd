(** Property theorems proved in PulseOpsProofs.v (generated by tools/gen_props.py). *)
From Coq Require Import String.
From Coq Require Import Reals List ZArith Bool Arith Lia Lra.
From Coquelicot Require Import Complex.
From Verif Require Import Base CNum NumPy ModelFFT FFTProofs ModelPulse Spec ModelPulseOps PulseProofs PulseHistory PulseOpsProofs.
Import ListNotations.
Local Open Scope R_scope.

(** C10: set_epp E makes calc_epp return E; the new field is a nonnegative multiple of the old one and nothing else changes. *)
Theorem C10_set_epp : forall (p : pulse) (a : list C) (e E : R),
  holds p a -> fst (calc_epp p) = Ok e -> 0 < e -> 0 <= E ->
  exists p' c, set_epp E p = (Ok tt, p') /\ calc_epp p' = (Ok E, p') /\
    0 <= c /\ get_AW p' = (Ok (map (fun z => RtoC c * z)%C a), p') /\
    p' = with_AW (p_AW p') p.
Proof. exact C10_set_epp_l. Qed.
Print Assumptions C10_set_epp.

(** C11 (partial): a spectral-phase operation that returns leaves every |AW| bin, sum |AW|^2 and sum |AT|^2 unchanged, and nothing but the field of the pulse. Missing: the energy reported by calc_epp may change, see the refutation. *)
Theorem C11_spectrum_unchanged_partial : forall (strf : R -> string) (o : pop) (p p' : pulse) (a : list C),
  is_phase_op o -> holds p a -> run_op strf o p = (Ok tt, p') ->
  exists b t t', get_AW p' = (Ok b, p') /\ same_mags b a /\ power_sum b = power_sum a /\
    get_AT p = (Ok t, p) /\ get_AT p' = (Ok t', p') /\ power_sum t' = power_sum t /\
    p' = with_AW (p_AW p') p.
Proof. exact C11_spectrum_unchanged_partial_l. Qed.
Print Assumptions C11_spectrum_unchanged_partial.

(** C11: none of the phase operations is ever rejected on a pulse that holds a field (apply_phase_W: for a phase array of length NPTS; the two fits: for a nonzero field, a threshold below one and an unwrapping that keeps the length). *)
Theorem C11_phase_operations_return : forall (strf : R -> string) (o : pop) (p : pulse) (a : list C),
  is_phase_op o -> holds p a ->
  match o with
  | OApplyPhase ph => length ph = p_n p
  | ORemoveFit ph _ _ thr => length (ph a) = length a /\ 0 <= thr < 1 /\ (exists k, (k < length a)%nat /\ nth k a (RtoC 0) <> RtoC 0)
  | _ => True
  end ->
  exists p', run_op strf o p = (Ok tt, p').
Proof. exact C11_phase_operations_return_l. Qed.
Print Assumptions C11_phase_operations_return.

(** C11 refuted for calc_epp: on every even grid with at least four points there is a field and a spectral phase that halves the energy calc_epp reports (the trapezoidal rule weighs the window edges by one half). *)
Theorem C11_calc_epp_refuted : forall (p : pulse) (h : nat),
  writable p -> (p_n p = 2 * h)%nat -> (2 <= h)%nat -> 0 < p_tw p ->
  exists (x : list C) (ph : list R) (p1 p2 : pulse) (e : R),
    set_AT x p = (Ok tt, p1) /\ length x = p_n p /\ length ph = p_n p /\
    apply_phase_W ph p1 = (Ok tt, p2) /\
    calc_epp p1 = (Ok e, p1) /\ calc_epp p2 = (Ok (e / 2), p2) /\ 0 < e.
Proof. exact C11_calc_epp_refuted_l. Qed.
Print Assumptions C11_calc_epp_refuted.

(** C12: two chirps in a row (any common reference frequency) are the chirp with summed coefficients; the negated coefficients restore the pulse exactly. *)
Theorem C12_chirps_compose_invert : forall (p : pulse) (a : list C) (g t f g' t' f' : R) (w0 : option R),
  holds p a ->
  bind (chirp_pulse_W g t f w0) (fun _ => chirp_pulse_W g' t' f' w0) p = chirp_pulse_W (g + g') (t + t') (f + f') w0 p /\
  bind (chirp_pulse_W g t f w0) (fun _ => chirp_pulse_W (- g) (- t) (- f) w0) p = (Ok tt, p).
Proof. exact C12_chirps_compose_invert_l. Qed.
Print Assumptions C12_chirps_compose_invert.

(** C12: apply_phase_W composes by adding the phase arrays and is undone by the negated array. *)
Theorem C12_phases_compose_invert : forall (p : pulse) (a : list C) (ph ph' : list R),
  holds p a -> length ph = p_n p -> length ph' = p_n p ->
  bind (apply_phase_W ph) (fun _ => apply_phase_W ph') p = apply_phase_W (map2 Rplus ph ph') p /\
  bind (apply_phase_W ph) (fun _ => apply_phase_W (map Ropp ph)) p = (Ok tt, p).
Proof. exact C12_phases_compose_invert_l. Qed.
Print Assumptions C12_phases_compose_invert.

(** C12: time offsets add up and are undone by the negative offset. *)
Theorem C12_offsets_compose_invert : forall (p : pulse) (a : list C) (d d' : R),
  holds p a ->
  bind (add_time_offset d) (fun _ => add_time_offset d') p = add_time_offset (d + d') p /\
  bind (add_time_offset d) (fun _ => add_time_offset (- d)) p = (Ok tt, p).
Proof. exact C12_offsets_compose_invert_l. Qed.
Print Assumptions C12_offsets_compose_invert.

(** C13: an offset of m grid steps on an even grid moves sample j+m (mod NPTS) to sample j, times one common carrier phase. *)
Theorem C13_offset_circular_shift : forall (p : pulse) (a : list C) (h : nat) (m : Z),
  holds p a -> (p_n p = 2 * h)%nat -> (0 < h)%nat -> p_tw p <> 0 ->
  let off := IZR m * (p_tw p / INR (p_n p)) in
  exists p' t t', add_time_offset off p = (Ok tt, p') /\ get_AT p = (Ok t, p) /\ get_AT p' = (Ok t', p') /\
    length t' = p_n p /\
    (forall j, (j < p_n p)%nat ->
      nth j t' (RtoC 0) = (cexp (- (Ci * RtoC (2 * PI * p_f p * off))) *
                           nth (Z.to_nat ((Z.of_nat j + m) mod Z.of_nat (p_n p))) t (RtoC 0))%C) /\
    (forall j, (j < p_n p)%nat ->
      Cmod (nth j t' (RtoC 0)) = Cmod (nth (Z.to_nat ((Z.of_nat j + m) mod Z.of_nat (p_n p))) t (RtoC 0))).
Proof. exact C13_offset_circular_shift_l. Qed.
Print Assumptions C13_offset_circular_shift.

(** C14: a temporal chirp leaves |AT| sample by sample and calc_epp unchanged, and changes nothing but the field. *)
Theorem C14_temporal_chirp : forall (p : pulse) (a : list C) (c2 c3 T0 : R),
  holds p a ->
  exists p' t t', chirp_pulse_T c2 c3 T0 p = (Ok tt, p') /\ get_AT p = (Ok t, p) /\ get_AT p' = (Ok t', p') /\
    same_mags t' t /\ fst (calc_epp p') = fst (calc_epp p) /\ p' = with_AW (p_AW p') p.
Proof. exact C14_temporal_chirp_l. Qed.
Print Assumptions C14_temporal_chirp.

(** C15: expand_time_window(k, placement) multiplies NPTS and the window by 2^k, keeps dT, and AT becomes the old samples with zeros before / after / split evenly; the sampled energy is unchanged. *)
Theorem C15_expand : forall (p : pulse) (a : list C) (k : nat) (l : loc),
  holds p a -> l <> BadLoc -> (0 < p_n p)%nat ->
  exists p' t t' nb na, expand_time_window k l p = (Ok tt, p') /\ get_AT p = (Ok t, p) /\ get_AT p' = (Ok t', p') /\
    p_n p' = (p_n p * 2 ^ k)%nat /\ p_tw p' = p_tw p * 2 ^ k /\ p_f p' = p_f p /\ p_frep p' = p_frep p /\
    fst (get_dT_ps p') = fst (get_dT_ps p) /\
    t' = repeat (RtoC 0) nb ++ t ++ repeat (RtoC 0) na /\
    length t' = p_n p' /\
    (nb + na = p_n p * (2 ^ k - 1))%nat /\
    (l = Before -> na = 0%nat) /\ (l = After -> nb = 0%nat) /\ (l = Even -> (nb <= na <= nb + 1)%nat) /\
    power_sum t' = power_sum t.
Proof. exact C15_expand_l. Qed.
Print Assumptions C15_expand.

(** C16: the spectrum is moved rigidly by the integer number of bins nearest to the requested frequency shift; energy is preserved, nothing but the field changes and rolling back by the same number restores the field. *)
Theorem C16_rotate : forall (p : pulse) (a : list C) (wl : R),
  holds p a -> (2 <= p_n p)%nat -> 0 < p_tw p ->
  exists p' b (r : Z), rotate_spectrum_to_new_center_wl wl p = (Ok tt, p') /\ get_AW p' = (Ok b, p') /\
    get_dF_THz p = (Ok (/ p_tw p), p) /\
    Rabs (IZR r - (c_nmps / wl - p_f p) / (/ p_tw p)) <= 1 / 2 /\
    length b = p_n p /\
    (forall k, (k < p_n p)%nat -> nth (Z.to_nat ((Z.of_nat k + r) mod Z.of_nat (p_n p))) b (RtoC 0) = nth k a (RtoC 0)) /\
    power_sum b = power_sum a /\ roll (- r) b = a /\ p' = with_AW (p_AW p') p.
Proof. exact C16_rotate_l. Qed.
Print Assumptions C16_rotate.

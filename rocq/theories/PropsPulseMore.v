(** Property theorems proved in PulseMoreProofs.v (generated by tools/gen_props.py). *)
From Coq Require Import String.
From Coq Require Import Reals List ZArith Bool Arith Lia Lra.
From Coquelicot Require Import Complex Derive Hierarchy AutoDerive.
From Verif Require Import Base CNum NumPy ModelFFT FFTProofs ModelPulse Spec ModelPulseOps PulseProofs PulseHistory PulseOpsProofs PulseRegridProofs PulseMoreProofs.
Import ListNotations.
Local Open Scope R_scope.

(** C78: chirp_pulse_W multiplies every bin by the phase factor whose Taylor coefficients at the expansion frequency (the carrier unless given) are exactly GDD, TOD and FOD, with no constant, linear or higher term. *)
Theorem C78_chirp_applies_stated_dispersion : forall (g t f : R) (w0 : option R) (p : pulse) (a : list C),
  holds p a ->
  let c := match w0 with Some x => x | None => 2 * PI * p_f p end in
  exists (phi : R -> R) (b : list C),
    taylor4 c g t f phi /\ length b = p_n p /\
    chirp_pulse_W g t f w0 p = (Ok tt, with_AW (Some b) p) /\
    (forall k, (k < p_n p)%nat ->
       nth k b (RtoC 0) = (cis (phi (nth k (spec_W (p_n p) (p_tw p) (p_f p)) 0)) * nth k a (RtoC 0))%C).
Proof. exact C78_chirp_applies_stated_dispersion_l. Qed.
Print Assumptions C78_chirp_applies_stated_dispersion.

(** C79: dechirp_pulse subtracts, from the phase of every bin, the quadratic fitted to the bins above the threshold, and nothing else; when those bins do have a quadratic phase, they come out with zero phase. *)
Theorem C79_dechirp_removes_quadratic_phase : forall (ph : list C -> list R) (fit : nat -> list R -> list R -> R -> R)
    (thr : R) (p : pulse) (a : list C) (M : R),
  holds p a -> length (ph a) = p_n p -> peak_power a M -> bright a thr M <> [] ->
  (forall k, (k < p_n p)%nat -> nth k a (RtoC 0) = (RtoC (Cmod (nth k a (RtoC 0))) * cis (nth k (ph a) 0))%C) ->
  let W := spec_W (p_n p) (p_tw p) (p_f p) in
  let xs := map (fun k => nth k W 0) (bright a thr M) in
  let ys := map (fun k => nth k (ph a) 0) (bright a thr M) in
  exists b, dechirp_pulse ph fit thr p = (Ok tt, with_AW (Some b) p) /\ length b = p_n p /\
    (forall k, (k < p_n p)%nat -> nth k b (RtoC 0) = (nth k a (RtoC 0) * cis (- fit 2%nat xs ys (nth k W 0)))%C) /\
    (forall c0 c1 c2, least_squares 2 (fit 2%nat xs ys) xs ys ->
       (forall k, In k (bright a thr M) -> nth k (ph a) 0 = c0 + c1 * nth k W 0 + c2 * nth k W 0 ^ 2) ->
       forall k, In k (bright a thr M) -> nth k b (RtoC 0) = RtoC (Cmod (nth k a (RtoC 0)))).
Proof. exact C79_dechirp_removes_quadratic_phase_l. Qed.
Print Assumptions C79_dechirp_removes_quadratic_phase.

(** C79: remove_time_delay does the same with a straight line, so that a pulse whose bright bins have a linear phase (a pure delay) comes out with zero phase there. *)
Theorem C79_remove_time_delay_removes_linear_phase : forall (ph : list C -> list R) (fit : nat -> list R -> list R -> R -> R)
    (thr : R) (p : pulse) (a : list C) (M : R),
  holds p a -> length (ph a) = p_n p -> peak_power a M -> bright a thr M <> [] ->
  (forall k, (k < p_n p)%nat -> nth k a (RtoC 0) = (RtoC (Cmod (nth k a (RtoC 0))) * cis (nth k (ph a) 0))%C) ->
  let W := spec_W (p_n p) (p_tw p) (p_f p) in
  let xs := map (fun k => nth k W 0) (bright a thr M) in
  let ys := map (fun k => nth k (ph a) 0) (bright a thr M) in
  exists b, remove_time_delay ph fit thr p = (Ok tt, with_AW (Some b) p) /\ length b = p_n p /\
    (forall k, (k < p_n p)%nat -> nth k b (RtoC 0) = (nth k a (RtoC 0) * cis (- fit 1%nat xs ys (nth k W 0)))%C) /\
    (forall c0 c1, least_squares 1 (fit 1%nat xs ys) xs ys ->
       (forall k, In k (bright a thr M) -> nth k (ph a) 0 = c0 + c1 * nth k W 0) ->
       forall k, In k (bright a thr M) -> nth k b (RtoC 0) = RtoC (Cmod (nth k a (RtoC 0)))).
Proof. exact C79_remove_time_delay_removes_linear_phase_l. Qed.
Print Assumptions C79_remove_time_delay_removes_linear_phase.

(** C80: what add_noise adds. With the frequency bins nu_k (Hz) of width dF and N_k the photon number |AW_k|^2/dF/(h nu_k), bin k gains r_k sqrt(N_k) h nu_k dF exp(2 pi i u_k) (sqrt_N_freq) or r_k h nu_k dF exp(2 pi i u_k) (one_photon_freq), r and u being the random draws; any other noise type raises ValueError; nothing but the field changes. *)
Theorem C80_noise_amplitudes_partial : forall (strf : R -> string) (planck : R) (ri rp : nat -> R) (p p1 : pulse) (a : list C),
  holds p a -> (2 <= p_n p)%nat -> 0 < p_tw p -> 0 < planck ->
  get_W_mks strf p = (Ok (Some (map (fun w => w * 1000000000000) (spec_W (p_n p) (p_tw p) (p_f p)))), p1) ->
  let nu := spec_F_Hz (p_n p) (p_tw p) (p_f p) in
  let dF := 1000000000000 / p_tw p in
  (forall k, (k < p_n p)%nat -> nu k <> 0) ->
  fst (add_noise strf planck ri rp other_noise p) = Raise ValueError /\
  (exists b, add_noise strf planck ri rp one_photon_freq p = (Ok tt, with_AW (Some b) p1) /\ obs p1 = obs p /\ length b = p_n p /\
    forall k, (k < p_n p)%nat ->
      nth k b (RtoC 0) = (nth k a (RtoC 0) + RtoC (ri k * (planck * nu k) * dF) * cis (2 * PI * rp k))%C) /\
  (exists b, add_noise strf planck ri rp sqrt_N_freq p = (Ok tt, with_AW (Some b) p1) /\ obs p1 = obs p /\ length b = p_n p /\
    forall k, (k < p_n p)%nat -> let N := Cmod (nth k a (RtoC 0)) ^ 2 / dF / (planck * nu k) in
      nth k b (RtoC 0) = (nth k a (RtoC 0) + RtoC (ri k * sqrt (Rmax 0 N) * (planck * nu k) * dF) * cis (2 * PI * rp k))%C).
Proof. exact C80_noise_amplitudes_partial_l. Qed.
Print Assumptions C80_noise_amplitudes_partial.

(** C80 refuted: the documentation says one_photon_freq adds one photon of noise to each bin. On an empty bin the noise is, counted the way the method itself counts photons, r_k^2 times h nu_k dF photons, so it is r_k^2 photons only where h nu_k dF = 1. *)
Theorem C80_one_photon_per_bin_refuted : forall (strf : R -> string) (planck : R) (ri rp : nat -> R) (p p1 : pulse) (a : list C) (k : nat),
  holds p a -> (2 <= p_n p)%nat -> 0 < p_tw p -> 0 < planck ->
  get_W_mks strf p = (Ok (Some (map (fun w => w * 1000000000000) (spec_W (p_n p) (p_tw p) (p_f p)))), p1) ->
  let nu := spec_F_Hz (p_n p) (p_tw p) (p_f p) in
  let dF := 1000000000000 / p_tw p in
  (forall k, (k < p_n p)%nat -> nu k <> 0) ->
  (k < p_n p)%nat -> nth k a (RtoC 0) = RtoC 0 -> ri k <> 0 -> planck * nu k * dF <> 1 ->
  exists b, add_noise strf planck ri rp one_photon_freq p = (Ok tt, with_AW (Some b) p1) /\
    Cmod (nth k b (RtoC 0)) ^ 2 / dF / (planck * nu k) = ri k ^ 2 * (planck * nu k * dF) /\
    Cmod (nth k b (RtoC 0)) ^ 2 / dF / (planck * nu k) <> ri k ^ 2.
Proof. exact C80_one_photon_per_bin_refuted_l. Qed.
Print Assumptions C80_one_photon_per_bin_refuted.

(** Property theorems proved in SpectrogramProofs.v (generated by tools/gen_props.py). *)
From Coq Require Import String.
From Coq Require Import Reals List ZArith Bool Arith Lia Lra Psatz.
From Coquelicot Require Import Complex.
From Verif Require Import Base CNum NumPy ModelFFT FFTProofs ModelPulse ModelPulseOps PulseProofs PulseOpsProofs ODETableauProofs ModelCrystal ModelSpectrogram SpectrogramProofs.
Import ListNotations.
Local Open Scope R_scope.
Local Open Scope py_scope.

(** C108: the xfrog spectrogram of every pulse that holds a field, for every gate width and every number of at least two delay steps: the call succeeds and changes nothing; the delays run evenly from the first to the last time of the grid, the rows are the frequencies k/T_window for k < n/2, the extent is their range, and the entry at frequency nu and delay d is the magnitude of the sum of A(t) exp(-(t-d)^2/2 sigma^2) exp(2 pi i f0 t) exp(-2 pi i nu t) over the time grid. *)
Theorem C108_value : forall (mapc : list R -> R -> R) (p : pulse) (a : list C) (sigma : R) (steps : nat), holds p a -> (2 <= p_n p)%nat -> 0 < p_tw p -> sigma <> 0 -> (2 <= steps)%nat ->
  exists S, spectrogram mapc "xfrog" sigma steps p = (Ok (repeat (mk steps (delay_at p steps)) (p_n p / 2), mk (p_n p / 2) (fun k => repeat (INR k / p_tw p) steps),
    (- p_tw p / 2, p_tw p / 2 - p_tw p / INR (p_n p), 0, INR (p_n p / 2 - 1) / p_tw p), S), p) /\
  length S = (p_n p / 2)%nat /\ (forall k, (k < p_n p / 2)%nat -> length (nth k S []) = steps) /\
  forall k j, (k < p_n p / 2)%nat -> (j < steps)%nat -> nth j (nth k S []) 0 = Cmod (gated_sum p sigma (delay_at p steps j) (INR k / p_tw p)).
Proof. exact C108_value_l. Qed.
Print Assumptions C108_value.

(** C108: multiplying the field by a complex number multiplies every entry of the spectrogram by its modulus and changes neither the axes nor the extent; in particular a constant phase of the field does not show. *)
Theorem C108_scaling : forall (mapc : list R -> R -> R) (p q : pulse) (a : list C) (c : C) (sigma : R) (steps : nat), holds p a -> holds q (map (Cmult c) a) -> p_n q = p_n p -> p_tw q = p_tw p -> p_f q = p_f p -> (2 <= p_n p)%nat -> 0 < p_tw p -> sigma <> 0 -> (2 <= steps)%nat ->
  exists D F E S S', spectrogram mapc "xfrog" sigma steps p = (Ok (D, F, E, S), p) /\ spectrogram mapc "xfrog" sigma steps q = (Ok (D, F, E, S'), q) /\
  length S' = length S /\ (forall k, (k < p_n p / 2)%nat -> length (nth k S' []) = length (nth k S [])) /\
  forall k j, (k < p_n p / 2)%nat -> (j < steps)%nat -> nth j (nth k S' []) 0 = Cmod c * nth j (nth k S []) 0.
Proof. exact C108_scaling_l. Qed.
Print Assumptions C108_scaling.

(** C108: in every column the squares of the entries add up to at most n times the gated energy, the sum of |A(t)|^2 exp(-(t-d)^2/sigma^2) over the time grid. *)
Theorem C108_energy_bound : forall (mapc : list R -> R -> R) (p : pulse) (a : list C) (sigma : R) (steps : nat), holds p a -> (2 <= p_n p)%nat -> 0 < p_tw p -> sigma <> 0 -> (2 <= steps)%nat ->
  exists D F E S, spectrogram mapc "xfrog" sigma steps p = (Ok (D, F, E, S), p) /\
  forall j, (j < steps)%nat -> rsum (p_n p / 2) (fun k => nth j (nth k S []) 0 ^ 2) <= INR (p_n p) * rsum (p_n p) (fun i => Cmod (nth i (IFFT_t a) (RtoC 0)) ^ 2 * exp (- (time_at p i - delay_at p steps j) ^ 2 / sigma ^ 2)).
Proof. exact C108_energy_bound_l. Qed.
Print Assumptions C108_energy_bound.

(** C108: the centre frequency is only seen modulo the sampling rate n/T_window of the grid: raising it by any whole multiple of that rate leaves the axes, the extent and every entry of the spectrogram as they were, although every frequency of the pulse has moved. *)
Theorem C108_carrier_aliased_refuted : forall (mapc : list R -> R -> R) (p q : pulse) (a : list C) (m : Z) (sigma : R) (steps : nat), holds p a -> holds q a -> p_n q = p_n p -> p_tw q = p_tw p -> p_f q = p_f p + IZR m * (INR (p_n p) / p_tw p) -> (2 <= p_n p)%nat -> 0 < p_tw p -> sigma <> 0 -> (2 <= steps)%nat ->
  exists D F E S S', spectrogram mapc "xfrog" sigma steps p = (Ok (D, F, E, S), p) /\ spectrogram mapc "xfrog" sigma steps q = (Ok (D, F, E, S'), q) /\
  forall k j, (k < p_n p / 2)%nat -> (j < steps)%nat -> nth j (nth k S' []) 0 = nth j (nth k S []) 0.
Proof. exact C108_carrier_aliased_refuted_l. Qed.
Print Assumptions C108_carrier_aliased_refuted.

(** C108: the frequency axis of the spectrogram is mirrored about the centre frequency. The pulse holds one spectral line at index s of an even grid, whose frequency by F_THz is exactly the frequency of row k; the row k' at the mirror image of that frequency about the centre frequency is at least as high as every other row and strictly higher than row k, at every delay. *)
Theorem C108_frequency_axis_refuted : forall (mapc : list R -> R -> R) (p : pulse) (h M s k k' : nat) (c : C) (sigma : R) (steps : nat),
  holds p (mk (p_n p) (fun j => if (j =? s)%nat then c else RtoC 0)) -> c <> RtoC 0 -> p_n p = (2 * h)%nat -> (0 < h)%nat -> 0 < p_tw p -> p_f p = INR M / p_tw p -> (s < p_n p)%nat -> s <> h -> (k + h = M + s)%nat -> (k' + s = M + h)%nat -> (k < h)%nat -> (k' < h)%nat -> sigma <> 0 -> (2 <= steps)%nat ->
  exists D F E S, spectrogram mapc "xfrog" sigma steps p = (Ok (D, F, E, S), p) /\ nth s (F_of p) 0 = INR k / p_tw p /\
  (forall j, (j < steps)%nat -> nth j (nth k F []) 0 = INR k / p_tw p /\ nth j (nth k' F []) 0 = INR k' / p_tw p /\ INR k' / p_tw p = 2 * p_f p - INR k / p_tw p) /\
  forall j, (j < steps)%nat -> nth j (nth k S []) 0 < nth j (nth k' S []) 0 /\ forall l, (l < h)%nat -> nth j (nth l S []) 0 <= nth j (nth k' S []) 0.
Proof. exact C108_frequency_axis_refuted_l. Qed.
Print Assumptions C108_frequency_axis_refuted.

(** C108: an unknown gate type raises ValueError and a pulse without a field RuntimeError; neither call changes the pulse. *)
Theorem C108_errors : forall (mapc : list R -> R -> R) (p : pulse) (g : string) (sigma : R) (steps : nat),
  (forall a, holds p a -> (1 <= p_n p)%nat -> 0 < p_tw p -> g <> "xfrog"%string -> g <> "frog"%string -> spectrogram mapc g sigma steps p = (Raise ValueError, p)) /\
  (p_ready p = false -> spectrogram mapc g sigma steps p = (Raise RuntimeError, p)) /\
  (p_ready p = true -> (1 <= p_n p)%nat -> p_AW p = None -> spectrogram mapc g sigma steps p = (Raise RuntimeError, p)).
Proof. exact C108_errors_l. Qed.
Print Assumptions C108_errors.

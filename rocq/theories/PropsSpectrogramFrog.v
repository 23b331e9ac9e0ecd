(** Property theorems proved in SpectrogramFrogProofs.v (generated by tools/gen_props.py). *)
From Coq Require Import String.
From Coq Require Import Reals List ZArith Bool Arith Lia Lra Psatz.
From Coquelicot Require Import Complex.
From Verif Require Import Base CNum NumPy ModelFFT FFTProofs ModelPulse ModelPulseOps PulseProofs PulseOpsProofs ODETableauProofs ModelCrystal ModelSpectrogram SpectrogramProofs SpectrogramFrogProofs.
Import ListNotations.
Local Open Scope R_scope.
Local Open Scope py_scope.
Local Notation z0 := (RtoC 0).

(** C108: the frog spectrogram of every pulse that holds a field, for every number of at least two delay steps: the call succeeds and changes nothing, with the axes and the extent of the xfrog case; the gate width is not used; the entry at frequency nu and delay d is the magnitude of the sum over the time grid of A(t) A(t - d) exp(2 pi i (f0 - nu) t), where A(t - d) is what map_coordinates delivers, for real and imaginary part, at the fractional index (t - d - t_0)/dt. *)
Theorem C108_frog_value : forall (mapc : list R -> R -> R) (p : pulse) (a : list C) (sigma : R) (steps : nat), holds p a -> (2 <= p_n p)%nat -> 0 < p_tw p -> (2 <= steps)%nat ->
  let dt := p_tw p / INR (p_n p) in let t := fun i => - p_tw p / 2 + INR i * dt in let d := fun j => - p_tw p / 2 + INR j * ((p_tw p - dt) / INR (steps - 1)) in let A := IFFT_t a in
  exists S, spectrogram mapc "frog" sigma steps p = (Ok (repeat (mk steps d) (p_n p / 2), mk (p_n p / 2) (fun k => repeat (INR k / p_tw p) steps),
    (- p_tw p / 2, p_tw p / 2 - dt, 0, INR (p_n p / 2 - 1) / p_tw p), S), p) /\
  length S = (p_n p / 2)%nat /\ (forall k, (k < p_n p / 2)%nat -> length (nth k S []) = steps) /\
  forall k j, (k < p_n p / 2)%nat -> (j < steps)%nat -> nth j (nth k S []) 0 =
    Cmod (csum (p_n p) (fun i => nth i A z0 * (mapc (map Re A) ((t i - d j - t 0%nat) / dt)%R, mapc (map Im A) ((t i - d j - t 0%nat) / dt)%R) * cis (2 * PI * (p_f p - INR k / p_tw p) * t i)%R)%C).
Proof. exact C108_frog_value_l. Qed.
Print Assumptions C108_frog_value.

(** C117: as many delay steps as time samples on an even grid: the delays are the times themselves, and the entry of row k in the column of delay t_j is |sum_i A_i A_(i-j+n/2) exp(2 pi i (f0 - k/T) t_i)|, samples outside the grid counting as zero: the field times a copy of itself delayed by t_j, with the carrier f0 (and not 2 f0). *)
Theorem C117_trace : forall (mapc : list R -> R -> R) (p : pulse) (a : list C) (sigma : R) (h : nat), interpolates mapc -> holds p a -> p_n p = (2 * h)%nat -> (0 < h)%nat -> 0 < p_tw p ->
  let n := p_n p in let A := IFFT_t a in let t := fun i => - p_tw p / 2 + INR i * (p_tw p / INR n) in
  exists D F E S, spectrogram mapc "frog" sigma n p = (Ok (D, F, E, S), p) /\ length S = h /\
  (forall k, (k < h)%nat -> nth k D [] = mk n t /\ nth k F [] = repeat (INR k / p_tw p) n /\ length (nth k S []) = n) /\
  forall k j, (k < h)%nat -> (j < n)%nat -> nth j (nth k S []) 0 =
    Cmod (csum n (fun i => nth i A z0 * sample A (Z.of_nat i - Z.of_nat j + Z.of_nat h) * cis (2 * PI * (p_f p - INR k / p_tw p) * t i)%R)%C).
Proof. exact C117_trace_l. Qed.
Print Assumptions C117_trace.

(** C117: a frog trace is symmetric in the delay, whatever the pulse: on the same grid the columns of the delays d and -d are equal in every row. *)
Theorem C117_symmetric : forall (mapc : list R -> R -> R) (p : pulse) (a : list C) (sigma : R) (h : nat), interpolates mapc -> holds p a -> p_n p = (2 * h)%nat -> (0 < h)%nat -> 0 < p_tw p ->
  exists D F E S, spectrogram mapc "frog" sigma (p_n p) p = (Ok (D, F, E, S), p) /\
  forall k j, (k < h)%nat -> (0 < j < p_n p)%nat -> nth (p_n p - j) (nth k D []) 0 = - nth j (nth k D []) 0 /\ nth (p_n p - j) (nth k S []) 0 = nth j (nth k S []) 0.
Proof. exact C117_symmetric_l. Qed.
Print Assumptions C117_symmetric.

(** C117: multiplying the field by a complex number multiplies the frog trace by the square of its modulus. *)
Theorem C117_scaling : forall (mapc : list R -> R -> R) (p q : pulse) (a : list C) (c : C) (sigma : R) (h : nat), interpolates mapc -> holds p a -> holds q (map (Cmult c) a) -> p_n q = p_n p -> p_tw q = p_tw p -> p_f q = p_f p ->
  p_n p = (2 * h)%nat -> (0 < h)%nat -> 0 < p_tw p ->
  exists D F E S D' F' E' S', spectrogram mapc "frog" sigma (p_n p) p = (Ok (D, F, E, S), p) /\ spectrogram mapc "frog" sigma (p_n p) q = (Ok (D', F', E', S'), q) /\
  forall k j, (k < h)%nat -> (j < p_n p)%nat -> nth j (nth k S' []) 0 = Cmod c ^ 2 * nth j (nth k S []) 0.
Proof. exact C117_scaling_l. Qed.
Print Assumptions C117_scaling.

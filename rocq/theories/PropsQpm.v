(** Property theorems proved in QpmProofs.v (generated by tools/gen_props.py). *)
From Coq Require Import String.
From Coq Require Import Reals List ZArith Bool Arith Lra Lia Psatz.
From Coquelicot Require Import Coquelicot.
From Verif Require Import Base CNum NumPy ModelPulse ModelCrystal ModelBeam BeamProofs CrystalProofs CrystalIndexProofs ModelDFG DFGPolingProofs ModelCrystalMore QpmProofs.
Import ListNotations.
Local Open Scope R_scope.
Local Open Scope py_scope.

(** C98: let a crystal's index at pump, signal and idler give a positive mismatch kp - ks - ki. The period that poling_period returns for them (delta_k_L = 0), handed to set_pp as a tuple, makes dfg_problem's precomputation end on every crystal length, and the pattern cancels the mismatch: over any whole number n of periods inside the crystal the integral of the sign times exp(i (kp - ks - ki) z) is i 2/pi n Lambda, growing with the length (first-order quasi-phase matching), whereas without poling it is 0. *)
Theorem C98_qpm_grows : forall (n : R -> result R) (y : dcrystal) (len P S I np ns ni : R),
  P <> 0 -> S <> 0 -> I <> 0 -> n P = Ok np -> n S = Ok ns -> n I = Ok ni ->
  let k n wl := 2 * PI * n / (wl * 1e-9) in let dk := k np P - k ns S - k ni I in
  0 < dk -> x_len (dx_x y) = Some len ->
  exists Lam, poling_period n None (Some P) (Some S) (Some I) 0 = Ok (Lam, None) /\ 0 < Lam /\
    forall fuel, len / Lam <= INR fuel -> exists doms, precompute_poling fuel (set_pp (PTuple Lam) y) = Ok doms /\
      forall j, INR j * Lam <= len ->
        is_RInt (fun z => poling doms z * cos (dk * z)) 0 (INR j * Lam) 0 /\ is_RInt (fun z => poling doms z * sin (dk * z)) 0 (INR j * Lam) (2 / PI * (INR j * Lam)) /\
        is_RInt (fun z => cos (dk * z)) 0 (INR j * Lam) 0 /\ is_RInt (fun z => sin (dk * z)) 0 (INR j * Lam) 0.
Proof. exact C98_qpm_grows_l. Qed.
Print Assumptions C98_qpm_grows.

(** C98 (negative mismatch): for a negative mismatch the period returned is negative, and with it the precomputation of the domains never ends. *)
Theorem C98_negative_mismatch : forall (n : R -> result R) (y : dcrystal) (len P S I np ns ni : R),
  P <> 0 -> S <> 0 -> I <> 0 -> n P = Ok np -> n S = Ok ns -> n I = Ok ni ->
  let k n wl := 2 * PI * n / (wl * 1e-9) in k np P - k ns S - k ni I < 0 -> x_len (dx_x y) = Some len -> 0 < len ->
  exists Lam, poling_period n None (Some P) (Some S) (Some I) 0 = Ok (Lam, None) /\ Lam < 0 /\ forall fuel, precompute_poling fuel (set_pp (PTuple Lam) y) = Raise NoFuel.
Proof. exact C98_negative_mismatch_l. Qed.
Print Assumptions C98_negative_mismatch.

(** C99: for beams with positive wave vectors (different at every wavelength) and positive Rayleigh ranges, the function that calc_optimal_beam_overlap_in_crystal minimises is minus the sum over the wavelengths of the overlap that calc_overlap_integral reports, integrated over distances 0 to L from the common focus. *)
Theorem C99_objective : forall (L zr1 : R) (k1 k2 zr2 : list R), length k2 = length k1 -> length zr2 = length k1 -> 0 < zr1 ->
  (forall i, (i < length k1)%nat -> 0 < nth i k1 0 /\ 0 < nth i k2 0 /\ nth i k1 0 <> nth i k2 0 /\ 0 < nth i zr2 0) ->
  exists t, overlap_objective L k1 k2 zr2 zr1 = Ok (- lrsum t) /\ length t = length k1 /\
    forall i, (i < length k1)%nat -> exists g, (forall z, overlap1 z (nth i k1 0) (nth i k2 0) zr1 (nth i zr2 0) = Ok (g z)) /\ is_RInt g 0 L (nth i t 0).
Proof. exact C99_objective_l. Qed.
Print Assumptions C99_objective.

(** C99 (equal wave vectors): with equal wave vectors at some wavelength, for instance a beam compared with itself, the function is 0/0 at every argument. *)
Theorem C99_equal_k : forall (L zr1 : R) (k1 k2 zr2 : list R) (i : nat), length k2 = length k1 -> length zr2 = length k1 -> (i < length k1)%nat -> nth i k1 0 = nth i k2 0 ->
  overlap_objective L k1 k2 zr2 zr1 = Raise NonFinite.
Proof. exact C99_equal_k_l. Qed.
Print Assumptions C99_equal_k.

(** C98 (PPLN): in PPLN at any temperature from 20 to 250 degC, with either data, the mismatch of every down-conversion with wavelengths from 500 to 4500 nm is positive, so that C98 applies to it. *)
Theorem C98_ppln_mismatch : forall (x : ppln) (T P S I : R), 20 <= T <= 250 -> 500 <= P -> S <= 4500 -> I <= 4500 -> 0 < S -> 0 < I -> / P = / S + / I ->
  exists np ns ni, ppln_n (set_T T x) P = Ok np /\ ppln_n (set_T T x) S = Ok ns /\ ppln_n (set_T T x) I = Ok ni /\
    let k n wl := 2 * PI * n / (wl * 1e-9) in 0 < k np P - k ns S - k ni I.
Proof. exact C98_ppln_mismatch_l. Qed.
Print Assumptions C98_ppln_mismatch.

(** Property theorems proved in CrystalProofs.v (generated by tools/gen_props.py). *)
From Coq Require Import String.
From Coq Require Import Reals List ZArith Bool Arith Lia Lra.
From Coquelicot Require Import Rcomplements Complex.
From Verif Require Import Base CNum NumPy ModelPulse ModelCrystal CrystalProofs.
Import ListNotations.
Local Open Scope R_scope.
Local Open Scope py_scope.

(** C59: for every crystal (all Sellmeier coefficients), every way of giving the triple of positive wavelengths and all nonzero indices with n_e <> n_o at the pump: a returned angle lies in [0, pi/2] and rotating the crystal to it makes n_mix(pump) k_pump = k_signal + k_idler exactly; the missing wavelength is reported when asked for; otherwise AttributeError is raised and no angle phase-matches. *)
Theorem C59_phasematch : forall (x : agse) (pump sgnl idlr : option R) (rw : bool) (P S I ne no ns ni : R) (w : option R),
  0 < P -> 0 < S -> 0 < I ->
  (pump = Some P /\ sgnl = Some S /\ idlr = Some I /\ w = None \/
   / P = / S + / I /\ (pump = None /\ sgnl = Some S /\ idlr = Some I /\ w = Some P \/ pump = Some P /\ sgnl = None /\ idlr = Some I /\ w = Some S \/ pump = Some P /\ sgnl = Some S /\ idlr = None /\ w = Some I)) ->
  agse_n x P "e" = Ok ne -> agse_n x P "o" = Ok no -> agse_n x S "o" = Ok ns -> agse_n x I "o" = Ok ni -> ne <> 0 -> no <> 0 -> ns <> 0 -> ni <> 0 -> ne <> no ->
  let matched theta := exists m, agse_n (set_theta theta x) P "mix" = Ok m /\ m * (2 * PI / P) = ns * (2 * PI / S) + ni * (2 * PI / I) in
  match phasematch x pump sgnl idlr rw with
  | Ok (theta, wl) => 0 <= theta <= PI / 2 /\ matched theta /\ wl = (if rw then w else None)
  | Raise e => e = AttributeError /\ forall theta, ~ matched theta
  end.
Proof. exact C59_phasematch_l. Qed.
Print Assumptions C59_phasematch.

(** C60: for every index function, length (or none), offset delta_k_L and every way of giving the triple: the returned period (metres) satisfies k_p - k_s - k_i - 2 pi / period = delta_k_L / length (in 1/m; 0 without a length), the missing wavelength is the one that conserves photon energy and is returned too, and a period is returned whenever the wavelengths and length are nonzero, the indices are defined and the mismatch is not exactly closed already. *)
Theorem C60_poling_period : forall (n : R -> result R) (len pump sgnl idlr : option R) (dkL P S I np ns ni : R) (w : option R),
  P <> 0 -> S <> 0 -> I <> 0 -> len <> Some 0 ->
  (pump = Some P /\ sgnl = Some S /\ idlr = Some I /\ w = None \/
   / P = / S + / I /\ (pump = None /\ sgnl = Some S /\ idlr = Some I /\ w = Some P \/ pump = Some P /\ sgnl = None /\ idlr = Some I /\ w = Some S \/ pump = Some P /\ sgnl = Some S /\ idlr = None /\ w = Some I)) ->
  n P = Ok np -> n S = Ok ns -> n I = Ok ni ->
  let k n wl := 2 * PI * n / (wl * 1e-9) in let mismatch := k np P - k ns S - k ni I in let target := match len with Some L => dkL / L | None => 0 end in
  (mismatch <> target -> exists period, poling_period n len pump sgnl idlr dkL = Ok (period, w) /\ period <> 0 /\ mismatch - 2 * PI / period = target) /\
  (mismatch = target -> poling_period n len pump sgnl idlr dkL = Raise NonFinite).
Proof. exact C60_poling_period_l. Qed.
Print Assumptions C60_poling_period.

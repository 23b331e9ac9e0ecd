(** Property theorems proved in AgsePhaseProofs.v (generated by tools/gen_props.py). *)
From Coq Require Import String.
From Coq Require Import Reals List ZArith Bool Arith Lia Lra Psatz.
From Verif Require Import Base CNum NumPy ModelPulse ModelCrystal CrystalProofs AgseProofs AgsePhaseProofs.
Import ListNotations.
Local Open Scope R_scope.

(** C107: the constructed crystal and every energy-conserving triple of wavelengths between 1 and 18 um, however it is given: with N the mean of the ordinary indices of signal and idler weighted with their photon energies, N is always below n_o of the pump; phasematch succeeds exactly when n_e of the pump is at most N, and then returns the only matching angle of the first quadrant, which is never 0; otherwise it raises AttributeError. *)
Theorem C107_criterion : forall (theta : R) (len : option R) (caching : bool) (k : shared) (x : crystal) (a : agse) (P S I : R) (pump sgnl idlr w : option R) (rw : bool),
  agse_init theta len caching k = (Ok x, k) -> x_mat x = Agse a -> 1000 <= P -> 0 < S <= 18000 -> 0 < I <= 18000 -> / P = / S + / I ->
  (pump = Some P /\ sgnl = Some S /\ idlr = Some I /\ w = None \/ pump = None /\ sgnl = Some S /\ idlr = Some I /\ w = Some P \/
   pump = Some P /\ sgnl = None /\ idlr = Some I /\ w = Some S \/ pump = Some P /\ sgnl = Some S /\ idlr = None /\ w = Some I) ->
  exists ne no ns ni, agse_n a P "e" = Ok ne /\ agse_n a P "o" = Ok no /\ agse_n a S "o" = Ok ns /\ agse_n a I "o" = Ok ni /\
  let N := P * (ns / S + ni / I) in
  let matched t := exists m, agse_n (set_theta t a) P "mix" = Ok m /\ m * (2 * PI / P) = ns * (2 * PI / S) + ni * (2 * PI / I) in
  N < no /\
  (ne <= N -> exists t, phasematch a pump sgnl idlr rw = Ok (t, if rw then w else None) /\ 0 < t <= PI / 2 /\ matched t /\ forall t', 0 <= t' <= PI / 2 -> matched t' -> t' = t) /\
  (N < ne -> phasematch a pump sgnl idlr rw = Raise AttributeError).
Proof. exact C107_criterion_l. Qed.
Print Assumptions C107_criterion.

(** C107: frequency doubling into (or degenerate down-conversion of) the wavelength P in the constructed crystal: phasematch finds an angle for every P from 2.0 to 6.0 um, and raises AttributeError for every P from 1.0 to 1.5 um and from 7.0 to 9.0 um. *)
Theorem C107_doubling : forall (theta : R) (len : option R) (caching : bool) (k : shared) (x : crystal) (a : agse) (P : R) (pump sgnl idlr w : option R) (rw : bool),
  agse_init theta len caching k = (Ok x, k) -> x_mat x = Agse a ->
  (pump = Some P /\ sgnl = Some (2 * P) /\ idlr = Some (2 * P) /\ w = None \/ pump = None /\ sgnl = Some (2 * P) /\ idlr = Some (2 * P) /\ w = Some P \/
   pump = Some P /\ sgnl = None /\ idlr = Some (2 * P) /\ w = Some (2 * P) \/ pump = Some P /\ sgnl = Some (2 * P) /\ idlr = None /\ w = Some (2 * P)) ->
  (2000 <= P <= 6000 -> exists t np n2, phasematch a pump sgnl idlr rw = Ok (t, if rw then w else None) /\ 0 < t <= PI / 2 /\ agse_n (set_theta t a) P "mix" = Ok np /\ agse_n (set_theta t a) (2 * P) "o" = Ok n2 /\ np = n2) /\
  (1000 <= P <= 1500 \/ 7000 <= P <= 9000 -> phasematch a pump sgnl idlr rw = Raise AttributeError).
Proof. exact C107_doubling_l. Qed.
Print Assumptions C107_doubling.

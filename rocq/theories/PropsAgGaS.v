(** Property theorems proved in AgGaSProofs.v (generated by tools/gen_props.py). *)
From Coq Require Import String.
From Coq Require Import Reals List ZArith Bool Arith Lia Lra Psatz.
From Coquelicot Require Import Rcomplements.
From Verif Require Import Base CNum NumPy ModelPulse ModelCrystal CrystalProofs AgseProofs AgsePhaseProofs ModelAgGaS AgGaSProofs.
Import ListNotations.
Local Open Scope R_scope.

(** C132: the constructed sulfide crystal, at every wavelength from 1 to 12 um and every angle: all three axes have an index, 2.26 < n_e < n_o < 2.46 (negative uniaxial), the index along the cut lies between them, equals n_o exactly when sin theta = 0 and n_e exactly when cos theta = 0; any other axis name raises ValueError. *)
Theorem C132_index : forall (theta wl : R), let a := gas_init theta in 1000 <= wl <= 12000 -> exists no ne m, gas_n a wl "o" = Ok no /\ gas_n a wl "e" = Ok ne /\ gas_n a wl "mix" = Ok m /\
  2.26 < ne /\ ne < no /\ no < 2.46 /\ ne <= m <= no /\ (m = no <-> sin theta = 0) /\ (m = ne <-> cos theta = 0) /\
  forall axis, axis <> "o"%string -> axis <> "e"%string -> axis <> "mix"%string -> gas_n a wl axis = Raise ValueError.
Proof. exact C132_index_l. Qed.
Print Assumptions C132_index.

(** C132: normal dispersion: between 1 and 12 um all three indices fall strictly with the wavelength, at every angle. *)
Theorem C132_dispersion : forall (theta wl1 wl2 n1 n2 : R) (axis : string), let a := gas_init theta in
  1000 <= wl1 < wl2 -> wl2 <= 12000 -> gas_n a wl1 axis = Ok n1 -> gas_n a wl2 axis = Ok n2 -> n2 < n1.
Proof. exact C132_dispersion_l. Qed.
Print Assumptions C132_dispersion.

(** C132: turning the crystal: set_theta changes no ordinary or extraordinary index; the index along the cut falls strictly as the angle goes from 0 to 90 degrees, and is the same for theta, -theta and theta + pi. *)
Theorem C132_angle : forall (theta wl : R), let a := gas_init theta in 1000 <= wl <= 12000 ->
  (forall t axis, (axis = "o"%string \/ axis = "e"%string) -> gas_n (gas_set_theta t a) wl axis = gas_n a wl axis) /\
  (forall t1 t2 m1 m2, 0 <= t1 < t2 -> t2 <= PI / 2 -> gas_n (gas_set_theta t1 a) wl "mix" = Ok m1 -> gas_n (gas_set_theta t2 a) wl "mix" = Ok m2 -> m2 < m1) /\
  (forall t, gas_n (gas_set_theta (- t) a) wl "mix" = gas_n (gas_set_theta t a) wl "mix" /\ gas_n (gas_set_theta (t + PI) a) wl "mix" = gas_n (gas_set_theta t a) wl "mix").
Proof. exact C132_angle_l. Qed.
Print Assumptions C132_angle.

(** C132: the constructed sulfide crystal and every energy-conserving triple of wavelengths between 1 and 12 um, however it is given: with N the mean of the ordinary indices of signal and idler weighted with their photon energies, N is always below n_o of the pump; phasematch succeeds exactly when n_e of the pump is at most N, and then returns the only matching angle of the first quadrant, which is never 0; otherwise it raises AttributeError. *)
Theorem C132_criterion : forall (theta P S I : R) (pump sgnl idlr w : option R) (rw : bool), let a := gas_init theta in
  1000 <= P -> 0 < S <= 12000 -> 0 < I <= 12000 -> / P = / S + / I ->
  (pump = Some P /\ sgnl = Some S /\ idlr = Some I /\ w = None \/ pump = None /\ sgnl = Some S /\ idlr = Some I /\ w = Some P \/
   pump = Some P /\ sgnl = None /\ idlr = Some I /\ w = Some S \/ pump = Some P /\ sgnl = Some S /\ idlr = None /\ w = Some I) ->
  exists ne no ns ni, gas_n a P "e" = Ok ne /\ gas_n a P "o" = Ok no /\ gas_n a S "o" = Ok ns /\ gas_n a I "o" = Ok ni /\
  let N := P * (ns / S + ni / I) in
  let matched t := exists m, gas_n (gas_set_theta t a) P "mix" = Ok m /\ m * (2 * PI / P) = ns * (2 * PI / S) + ni * (2 * PI / I) in
  N < no /\
  (ne <= N -> exists t, gas_phasematch a pump sgnl idlr rw = Ok (t, if rw then w else None) /\ 0 < t <= PI / 2 /\ matched t /\ forall t', 0 <= t' <= PI / 2 -> matched t' -> t' = t) /\
  (N < ne -> gas_phasematch a pump sgnl idlr rw = Raise AttributeError).
Proof. exact C132_criterion_l. Qed.
Print Assumptions C132_criterion.

(** C132: frequency doubling into (or degenerate down-conversion of) the wavelength P in the constructed sulfide crystal: phasematch finds an angle for every P from 1.2 to 5.0 um, at which the two waves see the same index, and raises AttributeError for every P from 5.9 to 6.0 um. *)
Theorem C132_doubling : forall (theta P : R) (pump sgnl idlr w : option R) (rw : bool), let a := gas_init theta in
  (pump = Some P /\ sgnl = Some (2 * P) /\ idlr = Some (2 * P) /\ w = None \/ pump = None /\ sgnl = Some (2 * P) /\ idlr = Some (2 * P) /\ w = Some P \/
   pump = Some P /\ sgnl = None /\ idlr = Some (2 * P) /\ w = Some (2 * P) \/ pump = Some P /\ sgnl = Some (2 * P) /\ idlr = None /\ w = Some (2 * P)) ->
  (1200 <= P <= 5000 -> exists t np n2, gas_phasematch a pump sgnl idlr rw = Ok (t, if rw then w else None) /\ 0 < t <= PI / 2 /\ gas_n (gas_set_theta t a) P "mix" = Ok np /\ gas_n (gas_set_theta t a) (2 * P) "o" = Ok n2 /\ np = n2) /\
  (5900 <= P <= 6000 -> gas_phasematch a pump sgnl idlr rw = Raise AttributeError).
Proof. exact C132_doubling_l. Qed.
Print Assumptions C132_doubling.

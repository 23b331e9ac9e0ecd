(** Property theorems proved in BeamMoreProofs.v (generated by tools/gen_props.py). *)
From Coq Require Import String.
From Coq Require Import Reals List ZArith Bool Arith Lia Lra.
From Coquelicot Require Import Rcomplements Complex.
From Verif Require Import Base CNum NumPy ModelPulse ModelCrystal CrystalProofs ModelBeam BeamProofs BeamMoreProofs.
Import ListNotations.
Local Open Scope R_scope.
Local Open Scope py_scope.

(** C65: the Gouy factor points along z_R + i z in every quadrant: for every beam, every index list and every z for which it is computed - Rayleigh ranges of either sign, and zero ones - sqrt(z^2 + z_R^2) times the factor is z_R + i z, and the factor has modulus one. *)
Theorem C65_gouy_direction : forall (b : beam) (n : list R) (z : R) (zR : list R) (ph : list C),
  calculate_zR b n = Ok zR -> calculate_gouy_phase b z n = Ok ph ->
  length ph = length zR /\ forall i, (i < length zR)%nat ->
    (RtoC (sqrt (z ^ 2 + nth i zR 0 ^ 2)) * nth i ph (RtoC 0))%C = (RtoC (nth i zR 0) + Ci * RtoC z)%C /\ Cmod (nth i ph (RtoC 0)) = 1.
Proof. exact C65_gouy_direction_l. Qed.
Print Assumptions C65_gouy_direction.

(** C63: a waveguide mode overlaps with another exactly as two Gaussian beams of the same wavevector and Rayleigh range do, at every distance from the focus: no power is lost, at any wavelength. *)
Theorem C63_waveguide_matches_beam : forall (strf : R -> string) (self ob : beam) (z : R) (this othr : pulse) (x : crystal) (k s1 s2 s3 s4 : shared) (n1 n2 zr kk : list R) (g : waveguide),
  get_n_in_crystal strf self this x k = (Ok n1, s1) -> get_n_in_crystal strf ob othr x s1 = (Ok n2, s2) -> calculate_zR self n1 = Ok zr -> calculate_zR ob n2 = Ok zr ->
  get_k_in_crystal strf self this x s2 = (Ok kk, s3) -> get_k_in_crystal strf ob othr x s3 = (Ok kk, s4) -> length zr = length kk ->
  (forall v, In v zr \/ In v kk -> 0 < v) ->
  exists r, calc_overlap_integral strf self z this othr ob x k = (Ok r, s4) /\ length r = length kk /\ forall i, (i < length kk)%nat -> nth i r 0 = wg_overlap g.
Proof. exact C63_waveguide_matches_beam_l. Qed.
Print Assumptions C63_waveguide_matches_beam.

(** C59: a call that leaves two or all three wavelengths open is rejected with TypeError, before the crystal is looked at (the wavelengths given being nonzero). *)
Theorem C59_too_few_wavelengths : forall (x : agse) (pump sgnl idlr : option R) (rw : bool),
  (forall v, pump = Some v \/ sgnl = Some v \/ idlr = Some v -> v <> 0) ->
  (pump = None /\ sgnl = None \/ pump = None /\ idlr = None \/ sgnl = None /\ idlr = None) -> phasematch x pump sgnl idlr rw = Raise TypeError.
Proof. exact C59_too_few_wavelengths_l. Qed.
Print Assumptions C59_too_few_wavelengths.

(** C60: the same holds for the poling period, for every index function and crystal length. *)
Theorem C60_too_few_wavelengths : forall (n : R -> result R) (len : option R) (pump sgnl idlr : option R) (dkL : R),
  (forall v, pump = Some v \/ sgnl = Some v \/ idlr = Some v -> v <> 0) ->
  (pump = None /\ sgnl = None \/ pump = None /\ idlr = None \/ sgnl = None /\ idlr = None) -> poling_period n len pump sgnl idlr dkL = Raise TypeError.
Proof. exact C60_too_few_wavelengths_l. Qed.
Print Assumptions C60_too_few_wavelengths.

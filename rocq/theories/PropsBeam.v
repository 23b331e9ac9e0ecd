(** Property theorems proved in BeamProofs.v (generated by tools/gen_props.py). *)
From Coq Require Import String.
From Coq Require Import Reals List ZArith Bool Arith Lia Lra.
From Coquelicot Require Import Rcomplements Complex.
From Verif Require Import Base CNum NumPy ModelPulse ModelCrystal CrystalProofs ModelBeam BeamProofs.
Import ListNotations.
Local Open Scope R_scope.
Local Open Scope py_scope.

(** C62: for every crystal (with or without caching), pulses, beams and positive indices and wavelengths: set_waist_to_match_confocal succeeds, changes nothing but the waist, and afterwards the beam's confocal parameter equals the other beam's at every wavelength. *)
Theorem C62_match_confocal : forall (strf : R -> string) (self ob : beam) (this othr : pulse) (x : crystal) (k k1 k2 : shared) (n1 n2 c2 : list R),
  get_n_in_crystal strf self this x k = (Ok n1, k1) -> get_n_in_crystal strf ob othr x k1 = (Ok n2, k2) -> calc_confocal ob n2 = Ok c2 ->
  (0 < length n1)%nat -> length (b_lam self) = length n1 -> length c2 = length n1 ->
  (forall v, In v n1 -> 0 < v) -> (forall v, In v n2 -> 0 < v) -> (forall v, In v (b_lam self) -> 0 < v) -> (forall v, In v (b_lam ob) -> 0 < v) ->
  exists self', set_waist_to_match_confocal strf self this othr ob x k = (Ok self', k2) /\ calc_confocal self' n1 = Ok c2 /\ b_lam self' = b_lam self /\ b_axis self' = b_axis self.
Proof. exact C62_match_confocal_l. Qed.
Print Assumptions C62_match_confocal.

(** C62: set_waist_to_match_central_waist succeeds, makes the confocal parameter the same at every wavelength and gives the central wavelength the requested waist. *)
Theorem C62_match_central : forall (strf : R -> string) (self : beam) (this : pulse) (w0c : R) (x : crystal) (k k1 : shared) (n1 : list R),
  get_n_in_crystal strf self this x k = (Ok n1, k1) -> (0 < length n1)%nat -> length (b_lam self) = length n1 -> (forall v, In v n1 -> 0 < v) -> (forall v, In v (b_lam self) -> 0 < v) -> 0 < w0c ->
  let m := Nat.div2 (length n1) in
  exists self', set_waist_to_match_central_waist strf self this w0c x k = (Ok self', k1) /\ nth m (b_w0 self') 0 = w0c /\ length (b_w0 self') = length n1 /\
    exists c, calc_confocal self' n1 = Ok (repeat c (length n1)) /\ c = 2 * PI * w0c ^ 2 * nth m n1 0 / nth m (b_lam self) 0.
Proof. exact C62_match_central_l. Qed.
Print Assumptions C62_match_central.

(** C62: the beam is narrowest at its focus, where it has its waist, is strictly wider at a strictly larger distance from the focus on either side, and has twice the focal area at the Rayleigh range, at every wavelength. *)
Theorem C62_waist_growth : forall (b : beam) (n : list R) (z z' : R) (w w' : list R) (i : nat),
  calculate_waist b z n = Ok w -> calculate_waist b z' n = Ok w' -> (i < length w)%nat -> (forall v, In v (b_w0 b) -> 0 < v) ->
  let w0 := nth (if Nat.eqb (length (b_w0 b)) 1 then 0 else i) (b_w0 b) 0 in
  (i < length w')%nat /\ (z = 0 -> nth i w 0 = w0) /\ (Rabs z < Rabs z' -> nth i w 0 < nth i w' 0) /\
  (forall zR, calculate_zR b n = Ok zR -> Rabs z = Rabs (nth i zR 0) -> (nth i w 0) ^ 2 = 2 * w0 ^ 2).
Proof. exact C62_waist_growth_l. Qed.
Print Assumptions C62_waist_growth.

(** C65: waist, curvature and Gouy phase belong to one Gaussian beam: with q = z + i z_R (z_R the Rayleigh range), 1/q = 1/R(z) - i lambda/(pi n w(z)^2), and the Gouy factor is (z_R + i z)/|q|, at every wavelength and every z <> 0. *)
Theorem C65_beam_parameter : forall (b : beam) (n : list R) (z : R) (w zR Rz : list R) (ph : list C) (i : nat),
  calculate_waist b z n = Ok w -> calculate_zR b n = Ok zR -> calculate_R b z n = Ok Rz -> calculate_gouy_phase b z n = Ok ph -> (i < length w)%nat ->
  length n = length (b_lam b) -> (forall v, In v n -> 0 < v) -> (forall v, In v (b_lam b) -> 0 < v) -> (forall v, In v (b_w0 b) -> 0 < v) -> length n = length w ->
  let q := (RtoC z + Ci * RtoC (nth i zR 0))%C in
  (/ q = RtoC (/ nth i Rz 0) - Ci * RtoC (nth i (b_lam b) 0 / (PI * nth i n 0 * nth i w 0 ^ 2)))%C /\
  nth i ph (RtoC 0) = (RtoC (/ sqrt (z ^ 2 + nth i zR 0 ^ 2)) * (RtoC (nth i zR 0) + Ci * RtoC z))%C.
Proof. exact C65_beam_parameter_l. Qed.
Print Assumptions C65_beam_parameter.

(** C63: for every pair of pulses and beams in every crystal, every z and all positive wavevectors and Rayleigh ranges: the overlap integral is computed, lies in (0,1] at every wavelength, is the power overlap 4 Re a1 Re a2 / |a1 + conj a2|^2 of the Gaussian fields exp(-a r^2), a = i k / (2 (z + i z_R)), and is 1 wherever the two beams have the same wavevector and Rayleigh range. *)
Theorem C63_overlap_fraction : forall (strf : R -> string) (self ob : beam) (z : R) (this othr : pulse) (x : crystal) (k s1 s2 s3 s4 : shared) (n1 n2 zr1 zr2 k1 k2 : list R) (N : nat),
  get_n_in_crystal strf self this x k = (Ok n1, s1) -> get_n_in_crystal strf ob othr x s1 = (Ok n2, s2) -> calculate_zR self n1 = Ok zr1 -> calculate_zR ob n2 = Ok zr2 ->
  get_k_in_crystal strf self this x s2 = (Ok k1, s3) -> get_k_in_crystal strf ob othr x s3 = (Ok k2, s4) -> length zr1 = N -> length zr2 = N -> length k1 = N -> length k2 = N ->
  (forall v, In v zr1 \/ In v zr2 \/ In v k1 \/ In v k2 -> 0 < v) ->
  exists r, calc_overlap_integral strf self z this othr ob x k = (Ok r, s4) /\ length r = N /\ forall i, (i < N)%nat ->
    0 < nth i r 0 <= 1 /\ (nth i k1 0 = nth i k2 0 -> nth i zr1 0 = nth i zr2 0 -> nth i r 0 = 1) /\
    let a k r := (RtoC k * Ci / (2 * (RtoC z + Ci * RtoC r)))%C in let a1 := a (nth i k1 0) (nth i zr1 0) in let a2 := a (nth i k2 0) (nth i zr2 0) in
    nth i r 0 = 4 * Re a1 * Re a2 / Cmod (a1 + Cconj a2)%C ^ 2.
Proof. exact C63_overlap_fraction_l. Qed.
Print Assumptions C63_overlap_fraction.

(** C63: the overlap integral is symmetric in the two beams (crystal without caching). *)
Theorem C63_overlap_symmetric : forall (strf : R -> string) (self ob : beam) (z : R) (this othr : pulse) (x : crystal) (k : shared) (r : list R),
  x_caching x = false -> calc_overlap_integral strf self z this othr ob x k = (Ok r, k) -> calc_overlap_integral strf ob z othr this self x k = (Ok r, k).
Proof. exact C63_overlap_symmetric_l. Qed.
Print Assumptions C63_overlap_symmetric.

(** Property theorems proved in DFGBulkProofs.v (generated by tools/gen_props.py). *)
From Coq Require Import String.
From Coq Require Import Reals List ZArith Bool Arith Lia Lra.
From Coquelicot Require Import Coquelicot.
From Verif Require Import Base CNum NumPy FFTProofs ModelPulse Spec ModelDerived PulseProofs PulseHistory PulseRegridProofs DerivedProofs ModelCrystal CrystalProofs ModelBeam BeamProofs ModelODE ModelDFG DFGMixProofs DFGProofs DFGInitProofs DFGOutProofs DFGTotalProofs DFGAcceptProofs DFGBulkProofs.
Import ListNotations.
Local Open Scope R_scope.
Local Open Scope py_scope.
Local Notation z0 := (RtoC 0).
Local Notation at0 x i := (nth i x z0).

(** C89: a free-space problem (birefringent, poled or plain) with such inputs is accepted by the constructor for any idler noise. All three beams then have one confocal parameter, the same at every wavelength of the three grids, and the pump has the requested waist at its centre frequency. From then on the right-hand side returns a derivative of the same size at every distance and for every field. *)
Theorem C89_accepted : forall strf fuel rand pump sgnl x waist gouy Aeff k0 n, bulk_inputs strf fuel pump sgnl x waist n ->
  exists q bp bs bi c, dfg_init strf fuel rand pump sgnl x true waist gouy false Aeff k0 = (Ok (q, fftc_init n), k0) /\ q_n q = n /\ length (q_ystart q) = (3 * n)%nat /\ q_beams q = Bulk bp bs bi /\
    nth (n / 2) (b_w0 bp) 0 = waist /\ 0 < c /\ calc_confocal bp (q_np q) = Ok (repeat c n) /\ calc_confocal bs (q_ns q) = Ok (repeat c n) /\ calc_confocal bi (q_ni q) = Ok (repeat c n) /\
    forall z y dydx s, fc_ok n (ds_fc s) -> length y = (3 * n)%nat -> length dydx = (3 * n)%nat ->
      exists d s', deriv strf q z y dydx s = (Ok d, s') /\ length d = (3 * n)%nat /\ fc_ok n (ds_fc s').
Proof. exact C89_accepted_l. Qed.
Print Assumptions C89_accepted.

(** C90: in free space the right-hand side changes the photon fluxes weighted with the inverse squared focal width of one beam - at each grid point the width of the beam that is narrowest on average - by -D, +D and +D for pump, signal and idler. *)
Theorem C90_manley_rowe_bulk : forall strf fuel rand pump sgnl x waist gouy Aeff k0 n q fc0 k1, bulk_inputs strf fuel pump sgnl x waist n -> Nat.Even n ->
  dfg_init strf fuel rand pump sgnl x true waist gouy false Aeff k0 = (Ok (q, fc0), k1) ->
  exists bp bs bi b, q_beams q = Bulk bp bs bi /\ In b [bp; bs; bi] /\ (forall b', In b' [bp; bs; bi] -> lrsum (b_w0 b) <= lrsum (b_w0 b')) /\ length (b_w0 b) = n /\ (forall m, (m < n)%nat -> 0 < nth m (b_w0 b) 0) /\
    forall z y dydx s d s', fc_ok n (ds_fc s) -> length y = (3 * n)%nat -> length dydx = (3 * n)%nat -> deriv strf q z y dydx s = (Ok d, s') ->
    exists D,
      rsum n (fun m => 2 * Re (Cconj (nth m (Ap q y) (RtoC 0)) * nth m (Ap q d) (RtoC 0))%C / (omega pump m * nth m (b_w0 b) 0 ^ 2)) = - D /\
      rsum n (fun m => 2 * Re (Cconj (nth m (As q y) (RtoC 0)) * nth m (As q d) (RtoC 0))%C / (omega sgnl m * nth m (b_w0 b) 0 ^ 2)) = D /\
      rsum n (fun m => 2 * Re (Cconj (nth m (Ai q y) (RtoC 0)) * nth m (Ai q d) (RtoC 0))%C / (omega (q_idlr q) m * nth m (b_w0 b) 0 ^ 2)) = D.
Proof. exact C90_manley_rowe_bulk_l. Qed.
Print Assumptions C90_manley_rowe_bulk.

(** C91 (partial: the weighted power only): in free space with equal time windows, every trajectory that solves the equations keeps the sum over the three fields of |A|^2 / w^2, w the focal width - at the same grid index - of the beam that is narrowest on average. The power itself is not conserved, see C91_power_refuted. *)
Theorem C91_weighted_power_partial : forall strf fuel rand pump sgnl x waist gouy Aeff k0 n q fc0 k1, bulk_inputs strf fuel pump sgnl x waist n -> Nat.Even n -> p_tw sgnl = p_tw pump ->
  dfg_init strf fuel rand pump sgnl x true waist gouy false Aeff k0 = (Ok (q, fc0), k1) ->
  exists bp bs bi b, q_beams q = Bulk bp bs bi /\ In b [bp; bs; bi] /\ (forall b', In b' [bp; bs; bi] -> lrsum (b_w0 b) <= lrsum (b_w0 b')) /\ (forall m, (m < n)%nat -> 0 < nth m (b_w0 b) 0) /\
    forall (y dy : R -> list C) z1 z2, z1 < z2 ->
    (forall z, z1 <= z <= z2 -> length (y z) = (3 * n)%nat /\
      (exists dydx s s', fc_ok n (ds_fc s) /\ length dydx = (3 * n)%nat /\ deriv strf q z (y z) dydx s = (Ok (dy z), s')) /\
      forall m, (m < 3 * n)%nat -> is_derive (fun t => Re (nth m (y t) (RtoC 0))) z (Re (nth m (dy z) (RtoC 0))) /\ is_derive (fun t => Im (nth m (y t) (RtoC 0))) z (Im (nth m (dy z) (RtoC 0)))) ->
    let Q z := rsum n (fun m => (Cmod (nth m (y z) (RtoC 0)) ^ 2 + Cmod (nth (n + m) (y z) (RtoC 0)) ^ 2 + Cmod (nth (2 * n + m) (y z) (RtoC 0)) ^ 2) / nth m (b_w0 b) 0 ^ 2) in
    Q z1 = Q z2.
Proof. exact C91_weighted_power_partial_l. Qed.
Print Assumptions C91_weighted_power_partial.

(** C91 (refuted): in free space with equal time windows and a nonzero coefficient the total power is not conserved: unless some beam has the same focal width at all its wavelengths, at every distance there is a field - one pump, one signal and one idler point - whose total power the right-hand side changes. *)
Theorem C91_power_refuted : forall strf fuel rand pump sgnl x waist gouy Aeff k0 n q fc0 k1 bp bs bi, bulk_inputs strf fuel pump sgnl x waist n -> Nat.Even n -> p_tw sgnl = p_tw pump -> dx_deff x <> 0 ->
  dfg_init strf fuel rand pump sgnl x true waist gouy false Aeff k0 = (Ok (q, fc0), k1) -> q_beams q = Bulk bp bs bi ->
  (forall b, In b [bp; bs; bi] -> exists m, (m < n)%nat /\ nth m (b_w0 b) 0 <> nth (n / 2) (b_w0 b) 0) ->
  forall z dydx s, fc_ok n (ds_fc s) -> length dydx = (3 * n)%nat ->
  exists y d s', length y = (3 * n)%nat /\ deriv strf q z y dydx s = (Ok d, s') /\ rsum (3 * n) (fun m => 2 * Re (Cconj (nth m y (RtoC 0)) * nth m d (RtoC 0))%C) <> 0.
Proof. exact C91_power_refuted_l. Qed.
Print Assumptions C91_power_refuted.

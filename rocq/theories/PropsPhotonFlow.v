(** Property theorems proved in PhotonFlowProofs.v (generated by tools/gen_props.py). *)
From Coq Require Import String.
From Coq Require Import Reals List ZArith Bool Arith Lia Lra.
From Coquelicot Require Import Coquelicot.
From Verif Require Import Base CNum NumPy FFTProofs ModelPulse Spec PulseProofs ModelCrystal CrystalProofs ModelBeam SSFMGnlseProofs ModelODE MixingProofs ModelDFG DFGMixProofs DFGProofs DFGInitProofs DFGOutProofs DFGTotalProofs DFGAcceptProofs DFGRunProofs DFGFlowProofs PhotonFlowProofs.
Import ListNotations.
Local Open Scope R_scope.
Local Open Scope py_scope.
Local Notation z0 := (RtoC 0).
Local Notation at0 x i := (nth i x z0).

(** C129: along the solution of the waveguide three-wave equations through the input pulses, the photons of the pump that disappear up to any distance are the photons that appear in the signal and those that appear in the idler; so neither can ever gain more photons than the pump had at the input. *)
Theorem C129_photon_balance : forall strf fuel rand pump sgnl x waist gouy Aeff k0 n, waveguide_inputs strf pump sgnl x Aeff n ->
  exists q u, dfg_init strf fuel rand pump sgnl x true waist gouy true (Some Aeff) k0 = (Ok (q, fftc_init n), k0) /\ u 0 = input_of Pump q ++ input_of Sgnl q ++ input_of Idlr q /\ solves q (Aeff * / 10 ^ 12) (dx_deff x) (fun _ => True) u /\
    (forall w m, (m < n)%nat -> 0 < omega (source w q) m) /\
    forall z, photons q Sgnl (u z) - photons q Sgnl (u 0) = photons q Pump (u 0) - photons q Pump (u z) /\ photons q Idlr (u z) - photons q Idlr (u 0) = photons q Pump (u 0) - photons q Pump (u z) /\
      photons q Sgnl (u z) <= photons q Sgnl (u 0) + photons q Pump (u 0) /\ photons q Idlr (u z) <= photons q Idlr (u 0) + photons q Pump (u 0).
Proof. exact C129_photon_balance_l. Qed.
Print Assumptions C129_photon_balance.

(** C129: and a run of the solver keeps these balances: under the conditions of C124 and with its error bound E, in every stored row the gain of signal photons differs from the loss of pump photons, and from the gain of idler photons, by at most E (2 B + E) times the sums of the inverse frequencies, and the total power differs from the input power B^2 by at most 3 n E (2 B + E). *)
Theorem C129_run : forall strf fuel rand pump sgnl x waist gouy Aeff k0 n, waveguide_inputs strf pump sgnl x Aeff n ->
  exists q y0, dfg_init strf fuel rand pump sgnl x true waist gouy true (Some Aeff) k0 = (Ok (q, fftc_init n), k0) /\ y0 = input_of Pump q ++ input_of Sgnl q ++ input_of Idlr q /\
    forall zmax rho G Th, 0 < zmax -> 0 < rho -> tw_bounds q (Aeff * / 10 ^ 12) (dx_deff x) G Th -> exists K hmax, 0 <= K /\ 0 < hmax /\
      forall buf ofuel con L atol rtol h1 hmin nsaves g' h, length buf = (3 * n)%nat -> 0 < L <= zmax -> 0 <= hmin ->
        integrate (rhs_of strf q buf) ofuel (new_ode (mkDS k0 (fftc_init n)) con (q_ystart q) 0 L atol rtol h1 hmin (new_output (Some nsaves)) false Complex128) = (Ok tt, g') ->
        let m := (e_nok (g_ode g') + e_nbad (g_ode g'))%nat in let Z k := nth k (o_xsave (g_out g')) 0 in
        h <= hmax -> (forall k, (k < m)%nat -> Rabs (Z (S k) - Z k) <= h) ->
        let B := sqrt (rsum (3 * n) (fun j => Cmod (nth j y0 (RtoC 0)) ^ 2)) in
        let E := exp (52 * G * (B + rho) * L) * (L * (K * h ^ 8 + / 10 ^ 26 * (1 + G * (Th ^ 7 * (B + 7) * (B + 7))))) in E <= rho / 4 ->
        forall k, (k <= m)%nat -> let row := nth k (o_ysave (g_out g')) [] in let e := E * (2 * B + E) in
          Rabs ((photons q Sgnl row - photons q Sgnl y0) - (photons q Pump y0 - photons q Pump row)) <= e * (per_power q Pump + per_power q Sgnl) /\
          Rabs ((photons q Sgnl row - photons q Sgnl y0) - (photons q Idlr row - photons q Idlr y0)) <= e * (per_power q Sgnl + per_power q Idlr) /\
          Rabs (rsum (3 * n) (fun j => Cmod (nth j row (RtoC 0)) ^ 2) - B ^ 2) <= e * INR (3 * n).
Proof. exact C129_run_l. Qed.
Print Assumptions C129_run.

(** C124: runs of the solver exist: if the input drives at least one element of the fields, every sufficiently short crystal, with a first step not shorter than it, is integrated in a single accepted step whatever the relative tolerance, smallest step, step controller and output buffer. *)
Theorem C124_short_crystals : forall strf fuel rand pump sgnl x waist gouy Aeff k0 n, waveguide_inputs strf pump sgnl x Aeff n ->
  exists q, dfg_init strf fuel rand pump sgnl x true waist gouy true (Some Aeff) k0 = (Ok (q, fftc_init n), k0) /\
    forall j atol, (j < 3 * n)%nat -> three_wave q (Aeff * / 10 ^ 12) (dx_deff x) 0 (input_of Pump q ++ input_of Sgnl q ++ input_of Idlr q) j <> RtoC 0 -> 0 < atol -> exists h0, 0 < h0 /\
      forall buf ofuel con L rtol h1 hmin nsaves, length buf = (3 * n)%nat -> 0 < L <= h0 -> L <= Rabs h1 -> 0 <= rtol -> 0 <= hmin ->
        exists g', integrate (rhs_of strf q buf) (S ofuel) (new_ode (mkDS k0 (fftc_init n)) con (q_ystart q) 0 L atol rtol h1 hmin (new_output (Some nsaves)) false Complex128) = (Ok tt, g') /\
          e_nok (g_ode g') = 1%nat /\ e_nbad (g_ode g') = 0%nat /\ nth 0 (o_xsave (g_out g')) 0 = 0 /\ nth 1 (o_xsave (g_out g')) 0 = L.
Proof. exact C124_short_crystals_l. Qed.
Print Assumptions C124_short_crystals.

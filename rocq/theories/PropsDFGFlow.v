(** Property theorems proved in DFGFlowProofs.v (generated by tools/gen_props.py). *)
From Coq Require Import String.
From Coq Require Import Reals List ZArith Bool Arith Lia Lra.
From Coquelicot Require Import Coquelicot.
From Verif Require Import Base CNum NumPy FFTProofs ModelPulse Spec PulseProofs PulseHistory ModelCrystal CrystalProofs ModelBeam BeamProofs SSFMGnlseProofs ModelODE ODETreeProofs BSeriesProofs ODETotalProofs ODEConvergeProofs SmoothProofs MixingProofs ModelDFG DFGMixProofs DFGProofs DFGInitProofs DFGOutProofs DFGTotalProofs DFGAcceptProofs DFGRunProofs DFGFlowProofs.
Import ListNotations.
Local Open Scope R_scope.
Local Open Scope py_scope.
Local Notation z0 := (RtoC 0).
Local Notation at0 x i := (nth i x z0).

(** C124: the right-hand side given to the solver by a waveguide problem is, at every distance and for every field and whatever the output buffer held, the system of three-wave mixing equations: each element of the pump, signal or idler is driven by exactly the pairs of elements of the other two fields whose frequencies match it, through the crystal's nonlinear coefficient, its index at the wavelengths involved and the mode area, with a phase turning at the wave-vector mismatch. *)
Theorem C124_equations : forall strf fuel rand pump sgnl x waist gouy Aeff k0 n, waveguide_inputs strf pump sgnl x Aeff n ->
  exists q, dfg_init strf fuel rand pump sgnl x true waist gouy true (Some Aeff) k0 = (Ok (q, fftc_init n), k0) /\ q_n q = n /\ q_pump q = pump /\ q_sgnl q = sgnl /\ p_f (q_idlr q) = p_f pump - p_f sgnl /\ p_tw (q_idlr q) = p_tw pump /\ tables_ok q x n /\
    forall z y dydx s, fc_ok n (ds_fc s) -> length y = (3 * n)%nat -> length dydx = (3 * n)%nat ->
      exists d s', deriv strf q z y dydx s = (Ok d, s') /\ length d = (3 * n)%nat /\ fc_ok n (ds_fc s') /\ forall i, (i < 3 * n)%nat -> nth i d (RtoC 0) = three_wave q (Aeff * / 10 ^ 12) (dx_deff x) z y i.
Proof. exact C124_equations_l. Qed.
Print Assumptions C124_equations.

(** C124: these equations have, through the input pulses and the seeded idler, one and only one solution over all distances, and the total power in the three fields is the same at every distance. *)
Theorem C124_solution : forall strf fuel rand pump sgnl x waist gouy Aeff k0 n, waveguide_inputs strf pump sgnl x Aeff n ->
  exists q u, dfg_init strf fuel rand pump sgnl x true waist gouy true (Some Aeff) k0 = (Ok (q, fftc_init n), k0) /\ u 0 = input_of Pump q ++ input_of Sgnl q ++ input_of Idlr q /\ (forall z, length (u z) = (3 * n)%nat) /\
    solves q (Aeff * / 10 ^ 12) (dx_deff x) (fun _ => True) u /\ (forall z, rsum (3 * n) (fun j => Cmod (nth j (u z) (RtoC 0)) ^ 2) = rsum (3 * n) (fun j => Cmod (nth j (u 0) (RtoC 0)) ^ 2)) /\
    forall v L, v 0 = u 0 -> solves q (Aeff * / 10 ^ 12) (dx_deff x) (fun z => Rabs z <= L) v -> forall z j, (j < 3 * n)%nat -> Rabs z <= L -> nth j (v z) (RtoC 0) = nth j (u z) (RtoC 0).
Proof. exact C124_solution_l. Qed.
Print Assumptions C124_solution.

(** C124: and the solver follows that solution. For every length and every bound of the coefficients there are a constant and a step size such that every run that returns, from the constructed problem over at most that length and with no step longer than h below that size, has all its stored rows within exp(52 G (B + rho) L) L (K h^8 + 1e-26 M) of the solution, B^2 being the total input power - whatever the tolerances, first step, step controller, output buffer and fuel. *)
Theorem C124_converges : forall strf fuel rand pump sgnl x waist gouy Aeff k0 n, waveguide_inputs strf pump sgnl x Aeff n ->
  exists q u, dfg_init strf fuel rand pump sgnl x true waist gouy true (Some Aeff) k0 = (Ok (q, fftc_init n), k0) /\ u 0 = input_of Pump q ++ input_of Sgnl q ++ input_of Idlr q /\ solves q (Aeff * / 10 ^ 12) (dx_deff x) (fun _ => True) u /\
    (exists G Th, tw_bounds q (Aeff * / 10 ^ 12) (dx_deff x) G Th) /\
    forall zmax rho G Th, 0 < zmax -> 0 < rho -> tw_bounds q (Aeff * / 10 ^ 12) (dx_deff x) G Th -> exists K hmax, 0 <= K /\ 0 < hmax /\
      forall buf ofuel con L atol rtol h1 hmin nsaves g' h, length buf = (3 * n)%nat -> 0 < L <= zmax -> 0 <= hmin ->
        integrate (rhs_of strf q buf) ofuel (new_ode (mkDS k0 (fftc_init n)) con (q_ystart q) 0 L atol rtol h1 hmin (new_output (Some nsaves)) false Complex128) = (Ok tt, g') ->
        let m := (e_nok (g_ode g') + e_nbad (g_ode g'))%nat in let Z k := nth k (o_xsave (g_out g')) 0 in
        h <= hmax -> (forall k, (k < m)%nat -> Rabs (Z (S k) - Z k) <= h) ->
        let B := sqrt (rsum (3 * n) (fun j => Cmod (nth j (u 0) (RtoC 0)) ^ 2)) in
        let E := exp (52 * G * (B + rho) * L) * (L * (K * h ^ 8 + / 10 ^ 26 * (1 + G * (Th ^ 7 * (B + 7) * (B + 7))))) in E <= rho / 4 ->
        forall k j, (k <= m)%nat -> (j < 3 * n)%nat -> Cmod (nth j (nth k (o_ysave (g_out g')) []) (RtoC 0) - nth j (u (Z k)) (RtoC 0))%C <= E.
Proof. exact C124_converges_l. Qed.
Print Assumptions C124_converges.

(** Property theorems proved in DFGRunProofs.v (generated by tools/gen_props.py). *)
From Coq Require Import String.
From Coq Require Import Reals List ZArith Bool Arith Lia Lra.
From Coquelicot Require Import Coquelicot.
From Verif Require Import Base CNum NumPy FFTProofs ModelPulse Spec ModelDerived PulseProofs PulseHistory PulseOpsProofs PulseRegridProofs ModelCrystal CrystalProofs ModelBeam BeamProofs ModelODE ODEOutputProofs ODEIntProofs ODETotalProofs ModelDFG DFGMixProofs DFGProofs DFGInitProofs DFGOutProofs DFGTotalProofs DFGAcceptProofs DFGBulkProofs DFGRunProofs.
Import ListNotations.
Local Open Scope R_scope.
Local Open Scope py_scope.
Local Notation z0 := (RtoC 0).
Local Notation at0 x i := (nth i x z0).

(** C112 (buffer): the right-hand side does not depend on what the work array it fills contained. *)
Theorem C112_buffer : forall strf q z y d1 d2 s, length d1 = (3 * q_n q)%nat -> length d2 = (3 * q_n q)%nat -> deriv strf q z y d1 s = deriv strf q z y d2 s.
Proof. exact C112_buffer_l. Qed.
Print Assumptions C112_buffer.

(** C112: a waveguide problem as in C71, solved from 0 to any L > 0 with or without dense output, whatever the state of the controller, the idler noise, the tolerances and the first step. The solver stops with an overflow, its assertion or its step-size error (or needs more fuel), or it returns, and then everything can be read: at least one save, exactly 1 + nok + nbad without dense output; distances that start at 0 and reach L (exactly, and strictly increasing, without dense output; up to rounding of the last grid point with it); at every save pump, signal and idler come back as pulses with their own centre frequency, the pump's window, the size of the grid, and the spectral amplitudes the solver stored; at save 0 these are the fields the problem was given; saves past the last raise IndexError. *)
Theorem C112_waveguide : forall strf fuel rand pump sgnl x waist gouy Aeff len k0 n ap as_ L buf ofuel con atol rtol h1 hmin nsaves dense,
  holds pump ap -> holds sgnl as_ -> p_n pump = n -> p_n sgnl = n -> (2 <= n)%nat -> 0 < p_f sgnl < p_f pump ->
  cur_W strf pump -> cur_W strf sgnl -> cur_wl strf pump -> cur_wl strf sgnl ->
  (forall k, (k < n)%nat -> 0 < omega pump k /\ 0 < omega sgnl k /\ 0 < nth k (spec_W n (p_tw pump) (p_f pump - p_f sgnl)) 0) ->
  (forall a b, (a < n)%nat -> (b < n)%nat -> omega sgnl b <= omega pump a /\ nth b (spec_W n (p_tw pump) (p_f pump - p_f sgnl)) 0 <= omega sgnl a) ->
  index_pos x -> x_caching (dx_x x) = false -> x_len (dx_x x) = Some len -> 0 < Aeff ->
  (dx_mode x = "simple"%string \/ dx_mode x = "PP"%string /\ exists doms, precompute_poling fuel x = Ok doms) ->
  length buf = (3 * n)%nat -> 0 < L -> 0 <= hmin -> (dense = true -> (0 < nsaves)%nat) ->
  exists q fc, dfg_init strf fuel rand pump sgnl x true waist gouy true (Some Aeff) k0 = (Ok (q, fc), k0) /\ q_pump q = pump /\ q_sgnl q = sgnl /\ p_f (q_idlr q) = p_f pump - p_f sgnl /\
    exists r g, integrate (rhs_of strf q buf) ofuel (new_ode (mkDS k0 fc) con (q_ystart q) 0 L atol rtol h1 hmin (new_output (Some nsaves)) dense Complex128) = (r, g) /\ run_reads strf q n L dense r g.
Proof. exact C112_waveguide_l. Qed.
Print Assumptions C112_waveguide.

(** C112: the same for a free-space problem (birefringent, poled or plain) as in C89. *)
Theorem C112_free_space : forall strf fuel rand pump sgnl x waist gouy Aeff k0 n L buf ofuel con atol rtol h1 hmin nsaves dense, bulk_inputs strf fuel pump sgnl x waist n ->
  length buf = (3 * n)%nat -> 0 < L -> 0 <= hmin -> (dense = true -> (0 < nsaves)%nat) ->
  exists q fc, dfg_init strf fuel rand pump sgnl x true waist gouy false Aeff k0 = (Ok (q, fc), k0) /\ q_pump q = pump /\ q_sgnl q = sgnl /\ p_f (q_idlr q) = p_f pump - p_f sgnl /\
    exists r g, integrate (rhs_of strf q buf) ofuel (new_ode (mkDS k0 fc) con (q_ystart q) 0 L atol rtol h1 hmin (new_output (Some nsaves)) dense Complex128) = (r, g) /\ run_reads strf q n L dense r g.
Proof. exact C112_free_space_l. Qed.
Print Assumptions C112_free_space.

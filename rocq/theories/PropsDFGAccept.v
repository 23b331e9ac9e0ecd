(** Property theorems proved in DFGAcceptProofs.v (generated by tools/gen_props.py). *)
From Coq Require Import String.
From Coq Require Import Reals List ZArith Bool Arith Lia Lra.
From Coquelicot Require Import Coquelicot.
From Verif Require Import Base CNum NumPy FFTProofs ModelPulse Spec ModelDerived PulseProofs PulseHistory PulseRegridProofs DerivedProofs ModelCrystal CrystalProofs ModelBeam BeamProofs ModelODE ModelDFG DFGMixProofs DFGProofs DFGInitProofs DFGOutProofs DFGTotalProofs DFGAcceptProofs.
Import ListNotations.
Local Open Scope R_scope.
Local Open Scope py_scope.

(** C71: a waveguide problem with separated positive grids of one size, fields, a crystal with positive index, known length and positive effective area is accepted by the constructor (for any random idler noise), and from then on the right-hand side returns a derivative of the same size at every distance and for every field. *)
Theorem C71_accepted : forall strf fuel rand pump sgnl x waist gouy Aeff len k0 n ap as_,
  holds pump ap -> holds sgnl as_ -> p_n pump = n -> p_n sgnl = n -> (2 <= n)%nat -> 0 < p_f sgnl < p_f pump ->
  cur_W strf pump -> cur_W strf sgnl -> cur_wl strf pump -> cur_wl strf sgnl ->
  (forall k, (k < n)%nat -> 0 < omega pump k /\ 0 < omega sgnl k /\ 0 < nth k (spec_W n (p_tw pump) (p_f pump - p_f sgnl)) 0) ->
  (forall a b, (a < n)%nat -> (b < n)%nat -> omega sgnl b <= omega pump a /\ nth b (spec_W n (p_tw pump) (p_f pump - p_f sgnl)) 0 <= omega sgnl a) ->
  index_pos x -> x_caching (dx_x x) = false -> x_len (dx_x x) = Some len -> 0 < Aeff ->
  (dx_mode x = "simple"%string \/ dx_mode x = "PP"%string /\ exists doms, precompute_poling fuel x = Ok doms) ->
  exists q, dfg_init strf fuel rand pump sgnl x true waist gouy true (Some Aeff) k0 = (Ok (q, fftc_init n), k0) /\ q_n q = n /\ length (q_ystart q) = (3 * n)%nat /\
    forall z y dydx s, fc_ok n (ds_fc s) -> length y = (3 * n)%nat -> length dydx = (3 * n)%nat ->
      exists d s', deriv strf q z y dydx s = (Ok d, s') /\ length d = (3 * n)%nat /\ fc_ok n (ds_fc s').
Proof. exact C71_accepted_l. Qed.
Print Assumptions C71_accepted.

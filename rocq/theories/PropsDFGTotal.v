(** Property theorems proved in DFGTotalProofs.v (generated by tools/gen_props.py). *)
From Coq Require Import String.
From Coq Require Import Reals List ZArith Bool Arith Lia Lra.
From Coquelicot Require Import Coquelicot.
From Verif Require Import Base CNum NumPy FFTProofs ModelPulse Spec PulseProofs PulseHistory ModelCrystal CrystalProofs ModelBeam BeamProofs ModelODE ModelDFG DFGMixProofs DFGProofs DFGInitProofs DFGOutProofs DFGTotalProofs.
Import ListNotations.
Local Open Scope R_scope.
Local Open Scope py_scope.
Local Notation z0 := (RtoC 0).
Local Notation at0 x i := (nth i x z0).

(** C71: once the constructor has accepted a waveguide problem (SPM disabled, a poling mode the class knows, a crystal length, positive effective area, indices found for the whole grid and positive), the right-hand side returns a derivative of the same size at every distance, for every field and from every state of the FFT buffers; it also leaves the buffers usable for the next call. *)
Theorem C71_total : forall strf fuel rand pump sgnl x waist gouy Aeff len k0 q fc0 k1 n z y dydx s,
  dfg_init strf fuel rand pump sgnl x true waist gouy true (Some Aeff) k0 = (Ok (q, fc0), k1) -> q_n q = n -> (2 <= n)%nat ->
  p_f pump <> 0 -> p_f sgnl <> 0 -> cur_W strf pump -> cur_W strf sgnl -> cur_wl strf pump -> cur_wl strf sgnl ->
  0 < Aeff -> x_len (dx_x x) = Some len -> (dx_mode x = "PP" \/ dx_mode x = "simple")%string ->
  length (q_np q) = n -> length (q_ns q) = n -> length (q_ni q) = n -> (forall v, In v (q_np q ++ q_ns q ++ q_ni q) -> 0 < v) ->
  fc_ok n (ds_fc s) -> length y = (3 * n)%nat -> length dydx = (3 * n)%nat ->
  exists d s', deriv strf q z y dydx s = (Ok d, s') /\ length d = (3 * n)%nat /\ fc_ok n (ds_fc s').
Proof. exact C71_total_l. Qed.
Print Assumptions C71_total.

(** Property theorems proved in DFGInitProofs.v (generated by tools/gen_props.py). *)
From Coq Require Import String.
From Coq Require Import Reals List ZArith Bool Arith Lia Lra.
From Coquelicot Require Import Coquelicot.
From Verif Require Import Base CNum NumPy FFTProofs ModelPulse Spec ModelDerived PulseProofs PulseHistory PulseRegridProofs DerivedProofs ModelCrystal CrystalProofs ModelBeam BeamProofs ModelODE ModelDFG DFGMixProofs DFGProofs DFGInitProofs.
Import ListNotations.
Local Open Scope R_scope.
Local Open Scope py_scope.
Local Notation z0 := (RtoC 0).
Local Notation at0 x i := (nth i x z0).

(** C54: when dfg_problem accepts its inputs, the idler grid is centred on the difference of the pump's and the signal's centre frequencies, has the pump's window and size (so the pump's spacing); all three grids have the same size; grid points paired by the mixing (a + n/2 = b + c) conserve energy when the windows agree; and for current positive grids every signal frequency is at most every pump frequency and every (non-zero) idler frequency is positive and at most every signal frequency. *)
Theorem C54_accepted_grids : forall strf fuel rand pump sgnl x noSPM waist gouy wg Aeff k0 q fc k1,
  dfg_init strf fuel rand pump sgnl x noSPM waist gouy wg Aeff k0 = (Ok (q, fc), k1) -> p_f pump <> 0 -> p_f sgnl <> 0 ->
  let idlr := q_idlr q in let n := q_n q in
  q_pump q = pump /\ q_sgnl q = sgnl /\
  p_f idlr = p_f pump - p_f sgnl /\ p_tw idlr = p_tw pump /\ p_n pump = n /\ p_n sgnl = n /\ p_n idlr = n /\ cur_W strf idlr /\ cur_wl strf idlr /\
  (p_tw sgnl = p_tw pump -> Nat.Even n -> forall a b c, (a < n)%nat -> (b < n)%nat -> (c < n)%nat -> (a + n / 2 = b + c)%nat -> omega pump a = omega sgnl b + omega idlr c) /\
  ((0 < n)%nat -> cur_wl strf pump -> cur_wl strf sgnl -> (forall k, (k < n)%nat -> 0 < omega pump k) -> (forall k, (k < n)%nat -> 0 < omega sgnl k) ->
   forall a b, (a < n)%nat -> (b < n)%nat -> omega sgnl b <= omega pump a /\ (omega idlr b <> 0 -> 0 < omega idlr b <= omega sgnl a)).
Proof. exact C54_accepted_grids_l. Qed.
Print Assumptions C54_accepted_grids.

(** C54: inputs with overlapping grids (some signal frequency above some pump frequency) or of different sizes are rejected with ValueError, whatever the mode. (Different sizes in the periodically poled mode: the poling loop runs first, so the statement asks for a mode other than PP there.) *)
Theorem C54_rejects : forall strf fuel rand pump sgnl x noSPM waist gouy wg Aeff k0,
  cur_wl strf pump -> cur_wl strf sgnl -> (0 < p_n pump)%nat -> (0 < p_n sgnl)%nat -> p_f pump <> 0 -> p_f sgnl <> 0 -> p_f pump <> p_f sgnl -> (wg = true -> Aeff <> None) ->
  (forall k, (k < p_n pump)%nat -> 0 < omega pump k) -> (forall k, (k < p_n sgnl)%nat -> 0 < omega sgnl k) ->
  ((exists a b, (a < p_n pump)%nat /\ (b < p_n sgnl)%nat /\ omega pump a < omega sgnl b) \/ (p_n pump <> p_n sgnl /\ dx_mode x <> "PP"%string)) ->
  fst (dfg_init strf fuel rand pump sgnl x noSPM waist gouy wg Aeff k0) = Raise ValueError.
Proof. exact C54_rejects_l. Qed.
Print Assumptions C54_rejects.

(** C54: whatever the inputs, pulses of different sizes are never accepted. *)
Theorem C54_sizes : forall strf fuel rand pump sgnl x noSPM waist gouy wg Aeff k0 r, p_n pump <> p_n sgnl -> fst (dfg_init strf fuel rand pump sgnl x noSPM waist gouy wg Aeff k0) <> Ok r.
Proof. exact C54_sizes_l. Qed.
Print Assumptions C54_sizes.

(** C50: in waveguide mode (any crystal, poling, phase mismatch, distance, field and state of the FFT buffers), the right-hand side changes the photon fluxes - the powers of the grid points divided by their angular frequencies - of pump, signal and idler by -D, +D and +D with one number D. *)
Theorem C50_manley_rowe : forall strf fuel rand pump sgnl x noSPM waist gouy Aeff k0 q fc0 k1 z y dydx s d s' n,
  dfg_init strf fuel rand pump sgnl x noSPM waist gouy true Aeff k0 = (Ok (q, fc0), k1) -> q_n q = n -> (2 <= n)%nat -> Nat.Even n ->
  p_f pump <> 0 -> p_f sgnl <> 0 -> cur_W strf pump -> cur_W strf sgnl ->
  (forall k, (k < n)%nat -> omega pump k <> 0 /\ omega sgnl k <> 0 /\ omega (q_idlr q) k <> 0) ->
  fc_ok n (ds_fc s) -> length y = (3 * n)%nat -> length dydx = (3 * n)%nat ->
  deriv strf q z y dydx s = (Ok d, s') ->
  exists D,
    rsum n (fun m => 2 * Re (Cconj (nth m (Ap q y) (RtoC 0)) * nth m (Ap q d) (RtoC 0))%C / omega pump m) = - D /\
    rsum n (fun m => 2 * Re (Cconj (nth m (As q y) (RtoC 0)) * nth m (As q d) (RtoC 0))%C / omega sgnl m) = D /\
    rsum n (fun m => 2 * Re (Cconj (nth m (Ai q y) (RtoC 0)) * nth m (Ai q d) (RtoC 0))%C / omega (q_idlr q) m) = D.
Proof. exact C50_manley_rowe_l. Qed.
Print Assumptions C50_manley_rowe.

(** C51: in waveguide mode with equal time windows the right-hand side leaves the total power - the sum of |y|^2 over the three fields - stationary, for every field, phase, poling sign and distance. *)
Theorem C51_power_stationary : forall strf fuel rand pump sgnl x noSPM waist gouy Aeff k0 q fc0 k1 z y dydx s d s' n,
  dfg_init strf fuel rand pump sgnl x noSPM waist gouy true Aeff k0 = (Ok (q, fc0), k1) -> q_n q = n -> (2 <= n)%nat -> Nat.Even n ->
  p_f pump <> 0 -> p_f sgnl <> 0 -> cur_W strf pump -> cur_W strf sgnl -> p_tw sgnl = p_tw pump ->
  fc_ok n (ds_fc s) -> length y = (3 * n)%nat -> length dydx = (3 * n)%nat ->
  deriv strf q z y dydx s = (Ok d, s') ->
  rsum (3 * n) (fun m => 2 * Re (Cconj (nth m y (RtoC 0)) * nth m d (RtoC 0))%C) = 0.
Proof. exact C51_power_stationary_l. Qed.
Print Assumptions C51_power_stationary.

(** C51: every trajectory that solves the equations (its Re and Im parts are differentiable with the right-hand side as derivative, whatever buffers the right-hand side was called with) has the same total power at any two distances. *)
Theorem C51_power_conserved : forall strf fuel rand pump sgnl x noSPM waist gouy Aeff k0 q fc0 k1 n (y dy : R -> list C) z1 z2,
  dfg_init strf fuel rand pump sgnl x noSPM waist gouy true Aeff k0 = (Ok (q, fc0), k1) -> q_n q = n -> (2 <= n)%nat -> Nat.Even n ->
  p_f pump <> 0 -> p_f sgnl <> 0 -> cur_W strf pump -> cur_W strf sgnl -> p_tw sgnl = p_tw pump -> z1 < z2 ->
  (forall z, z1 <= z <= z2 -> length (y z) = (3 * n)%nat /\
     (exists dydx s s', fc_ok n (ds_fc s) /\ length dydx = (3 * n)%nat /\ deriv strf q z (y z) dydx s = (Ok (dy z), s')) /\
     forall m, (m < 3 * n)%nat -> is_derive (fun t => Re (nth m (y t) (RtoC 0))) z (Re (nth m (dy z) (RtoC 0))) /\ is_derive (fun t => Im (nth m (y t) (RtoC 0))) z (Im (nth m (dy z) (RtoC 0)))) ->
  rsum (3 * n) (fun m => Cmod (nth m (y z1) (RtoC 0)) ^ 2) = rsum (3 * n) (fun m => Cmod (nth m (y z2) (RtoC 0)) ^ 2).
Proof. exact C51_power_conserved_l. Qed.
Print Assumptions C51_power_conserved.

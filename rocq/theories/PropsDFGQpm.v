(** Property theorems proved in DFGQpmProofs.v (generated by tools/gen_props.py). *)
From Coq Require Import String.
From Coq Require Import Reals List ZArith Bool Arith Lia Lra.
From Coquelicot Require Import Coquelicot.
From Verif Require Import Base CNum NumPy FFTProofs ModelPulse Spec ModelDerived PulseProofs PulseHistory PulseRegridProofs ModelCrystal CrystalProofs ModelBeam BeamProofs ModelODE ModelDFG DFGMixProofs DFGPolingProofs DFGProofs DFGInitProofs DFGSymProofs DFGTotalProofs DFGQpmProofs.
Import ListNotations.
Local Open Scope R_scope.
Local Open Scope py_scope.

(** C92: poling a crystal changes the equations by a sign only. If a problem with a poled crystal is accepted, so is the same problem with the crystal unpoled; at every distance and for every field the derivative of the poled problem is the derivative of the unpoled one, times -1 in the second half of each poling period that begins inside the crystal and times 1 elsewhere. *)
Theorem C92_poling_sign : forall strf fuel rand pump sgnl mat caching deff pp len noSPM waist gouy wg Aeff k0 q fc k1 n,
  let x mode := mkDX (mkX mat (Some len) caching) mode deff pp in
  dfg_init strf fuel rand pump sgnl (x "PP"%string) noSPM waist gouy wg Aeff k0 = (Ok (q, fc), k1) -> q_n q = n -> (2 <= n)%nat -> Nat.Even n -> (forall z, 0 <= z < len -> 0 < pp z) ->
  exists q', dfg_init strf fuel rand pump sgnl (x "simple"%string) noSPM waist gouy wg Aeff k0 = (Ok (q', fc), k1) /\
    forall z y dydx dydx' s d s1 d' s1', fc_ok n (ds_fc s) -> length y = (3 * n)%nat -> length dydx = (3 * n)%nat -> length dydx' = (3 * n)%nat ->
      deriv strf q z y dydx s = (Ok d, s1) -> deriv strf q' z y dydx' s = (Ok d', s1') ->
      let start := period_start pp 0 in let inside := fun k => forall j, (j <= k)%nat -> start j < len in
      (forall k, inside k -> start k <= z < start (S k) -> start k + pp (start k) / 2 < z -> d = map (fun v => - v)%C d') /\
      (forall k, inside k -> start k <= z < start (S k) -> z <= start k + pp (start k) / 2 -> d = d') /\
      ((forall k, inside k -> ~ (start k <= z < start (S k))) -> d = d').
Proof. exact C92_poling_sign_l. Qed.
Print Assumptions C92_poling_sign.

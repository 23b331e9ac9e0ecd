(** Property theorems proved in DFGPolingProofs.v (generated by tools/gen_props.py). *)
From Coq Require Import String.
From Coq Require Import Reals List ZArith Bool Arith Lia Lra.
From Coquelicot Require Import Complex.
From Verif Require Import Base CNum NumPy ModelPulse ModelDerived ModelCrystal ModelBeam ModelODE ModelDFG DFGPolingProofs.
Import ListNotations.
Local Open Scope R_scope.
Local Open Scope py_scope.

(** C52: precompute_poling ends whenever the period stays above some positive number inside the crystal *)
Theorem C52_terminates : forall x len delta fuel, x_len (dx_x x) = Some len -> 0 < delta -> (forall z, 0 <= z < len -> delta <= dx_pp x z) -> len / delta <= INR fuel ->
  exists doms, precompute_poling fuel x = Ok doms.
Proof. exact C52_terminates_l. Qed.
Print Assumptions C52_terminates.

(** C52: the sign is -1 exactly on the open second half of each period that begins inside the crystal, +1 everywhere else, and every point of the crystal is in exactly one period *)
Theorem C52_pattern : forall x len fuel doms, x_len (dx_x x) = Some len -> precompute_poling fuel x = Ok doms -> (forall z, 0 <= z < len -> 0 < dx_pp x z) ->
  let start := period_start (dx_pp x) 0 in let inside := fun k => forall j, (j <= k)%nat -> start j < len in
  (forall k z, inside k -> start k <= z < start (S k) -> poling doms z = if Rlt_dec (start k + dx_pp x (start k) / 2) z then -1 else 1) /\
  (forall z, (forall k, inside k -> ~ (start k <= z < start (S k))) -> poling doms z = 1) /\
  (forall z, 0 <= z < len -> exists k, inside k /\ start k <= z < start (S k) /\ forall k', inside k' -> start k' <= z < start (S k') -> k' = k).
Proof. exact C52_pattern_l. Qed.
Print Assumptions C52_pattern.

(** C52: without a positive lower bound the loop need not end: a period that is always half of what is left *)
Theorem C52_unbounded : forall xt len deff fuel, 0 < len ->
  let x := mkDX (mkX xt (Some len) false) "PP" deff (fun z => (len - z) / 2) in
  (forall z, 0 <= z < len -> 0 < dx_pp x z) /\ precompute_poling fuel x = Raise NoFuel.
Proof. exact C52_unbounded_l. Qed.
Print Assumptions C52_unbounded.

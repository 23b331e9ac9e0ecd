(** Property theorems proved in CrystalPolingProofs.v (generated by tools/gen_props.py). *)
From Coq Require Import String.
From Coq Require Import Reals List ZArith Bool Arith Lia Lra.
From Coquelicot Require Import Complex.
From Verif Require Import Base CNum NumPy ModelPulse ModelDerived ModelCrystal ModelCrystalMore ModelBeam ModelODE ModelDFG DFGInitProofs DFGPolingProofs CrystalPolingProofs.
Import ListNotations.
Local Open Scope R_scope.
Local Open Scope py_scope.

(** C52: a PPLN crystal as it is loaded, alone or with a constant period a > 0 given to set_pp as (a,): in every accepted problem the nonlinear coefficient is +14.9 pm/V on the first half of each period of length P (30.49 um, or a) that begins inside the crystal and -14.9 pm/V on its second half. *)
Theorem C52_ppln_loaded : forall strf fuel rand pump sgnl (xt : crystal) (period : option R) noSPM waist gouy wg Aeff k0 q fc k1 len,
  x_len xt = Some len -> (forall a, period = Some a -> 0 < a) ->
  dfg_init strf fuel rand pump sgnl (match period with None => ppln_load xt | Some a => set_pp (PTuple a) (ppln_load xt) end) noSPM waist gouy wg Aeff k0 = (Ok (q, fc), k1) ->
  let P := match period with None => 3049 / 10 ^ 8 | Some a => a end in
  forall k z, INR k * P < len -> INR k * P <= z < (INR k + 1) * P -> deff_at q z = Ok (if Rlt_dec (INR k * P + P / 2) z then - (149 / 10 ^ 13) else 149 / 10 ^ 13).
Proof. exact C52_ppln_loaded_l. Qed.
Print Assumptions C52_ppln_loaded.

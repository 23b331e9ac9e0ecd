(** Property theorems proved in CrystalIndexProofs.v (generated by tools/gen_props.py). *)
From Coq Require Import String.
From Coq Require Import Reals List ZArith Bool Arith Lia Lra Psatz.
From Coquelicot Require Import Complex.
From Verif Require Import Base CNum NumPy ModelPulse Spec ModelPulseOps PulseProofs PulseHistory PulseOpsProofs PulseRegridProofs ModelCrystal CrystalIndexProofs.
Import ListNotations.
Local Open Scope R_scope.

(** C84: a PPLN crystal, whichever Sellmeier data it uses, brought to any temperature from 20 to 250 degC has a refractive index between 1.8 and 2.4 at every wavelength from 500 to 4500 nm; it falls strictly with wavelength (normal dispersion) and rises strictly with temperature. *)
Theorem C84_ppln_index : forall (x : ppln) (T T' wl wl' : R),
  20 <= T <= 250 -> 20 <= T' <= 250 -> 500 <= wl <= 4500 -> 500 <= wl' <= 4500 ->
  exists n nT nw, ppln_n (set_T T x) wl = Ok n /\ ppln_n (set_T T' x) wl = Ok nT /\ ppln_n (set_T T x) wl' = Ok nw /\
    1.8 < n < 2.4 /\ (T < T' -> n < nT) /\ (wl < wl' -> nw < n).
Proof. exact C84_ppln_index_l. Qed.
Print Assumptions C84_ppln_index.

(** C84 (reference values): at 24.5 degC and 1064 nm the index is 2.164 with the Deng data and 2.148 with the Gayer data, to three decimals. *)
Theorem C84_ppln_reference_values : forall T1 T2 T3 : R,
  exists nd ng, ppln_n (set_T 24.5 (mkPpln T1 T2 T3 Deng)) 1064 = Ok nd /\ ppln_n (set_T 24.5 (mkPpln T1 T2 T3 Gayer)) 1064 = Ok ng /\
    2.1635 < nd < 2.1645 /\ 2.1475 < ng < 2.1485.
Proof. exact C84_ppln_reference_values_l. Qed.
Print Assumptions C84_ppln_reference_values.

(** C84: a change of temperature reaches only the Sellmeier data in use: the reported temperature is the new one, the index in use depends on nothing but the new temperature, and the other data set keeps the temperature it had. *)
Theorem C84_temperature_change : forall (x : ppln) (T : R), pp_T (set_T T x) = T /\ pp_src (set_T T x) = pp_src x /\
  (forall y wl, pp_src y = pp_src x -> ppln_n (set_T T x) wl = ppln_n (set_T T y) wl) /\
  match pp_src x with Deng => pp_gayer (set_T T x) = pp_gayer x | Gayer => pp_deng (set_T T x) = pp_deng x end.
Proof. exact C84_temperature_change_l. Qed.
Print Assumptions C84_temperature_change.

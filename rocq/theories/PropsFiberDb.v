(** Property theorems proved in FiberDbProofs.v (generated by tools/gen_props.py). *)
From Coq Require Import String.
From Coq Require Import Reals List ZArith Bool Arith Lia Lra.
From Verif Require Import Base CNum NumPy ModelPulse PulseProofs ModelFiber FiberProofs FiberDbProofs.
Import ListNotations.
Local Open Scope R_scope.
Local Open Scope py_scope.

(** C67: a Taylor-format entry in any other unit than ps^n/km is loaded without complaint, but its coefficients are dropped: betas is [0] whatever the fiber held before. *)
Theorem C67_other_units_refuted : forall (h : heap) (f : fiber) (len : R) (name u : string) (order l : nat) (g c : R) (b : list R),
  find_db name (f_db f) = Some l -> let e := nth l h empty_specs in
  d_format e = Some "GVD"%string -> d_units e = Some u -> u <> "ps^n/km"%string -> d_center e = Some c -> d_data e = Some b -> d_gamma e = Some g ->
  exists f', load_from_db len name order (h, f) = (Ok tt, (h, f')) /\ f_length f' = Some len /\ f_center f' = Some c /\ f_gamma f' = Some g /\ f_betas f' = Some [0].
Proof. exact C67_other_units_refuted_l. Qed.
Print Assumptions C67_other_units_refuted.

(** C67: an entry in tabulated format (D over wavelength) gives the fiber the entry's two columns, and no Taylor coefficient of an earlier fiber survives. *)
Theorem C67_tabulated : forall (h : heap) (f : fiber) (len : R) (name xu yu : string) (order l : nat) (g : R) (x y : list R),
  find_db name (f_db f) = Some l -> let e := nth l h empty_specs in
  d_format e = Some "D"%string -> d_xunits e = Some xu -> d_yunits e = Some yu -> d_x e = Some x -> d_y e = Some y -> d_gamma e = Some g ->
  exists f', load_from_db len name order (h, f) = (Ok tt, (h, f')) /\ f_length f' = Some len /\ f_gamma f' = Some g /\ f_x f' = Some x /\ f_y f' = Some y /\ f_poly f' = Some order /\ f_type f' = Some name /\ f_betas f' = Some [0].
Proof. exact C67_tabulated_l. Qed.
Print Assumptions C67_tabulated.

(** C67: a fiber loaded from an entry with a gain spectrum can never report its gain: get_gain raises AttributeError for every pulse. *)
Theorem C67_gain_spectrum_refuted : forall (h h' : heap) (f f' : fiber) (len : R) (name : string) (order l : nat) (gx : list R),
  find_db name (f_db f) = Some l -> d_is_gain (nth l h empty_specs) = Some true -> d_gain_x (nth l h empty_specs) = Some (Some gx) ->
  load_from_db len name order (h, f) = (Ok tt, (h', f')) -> forall p, get_gain p (h', f') = (Raise AttributeError, (h', f')).
Proof. exact C67_gain_spectrum_refuted_l. Qed.
Print Assumptions C67_gain_spectrum_refuted.

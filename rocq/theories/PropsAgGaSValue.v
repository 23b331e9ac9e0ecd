(** Property theorems proved in AgGaSValueProofs.v (generated by tools/gen_props.py). *)
From Coq Require Import String.
From Coq Require Import Reals List ZArith Bool Arith Lia Lra Psatz.
From Verif Require Import Base CNum NumPy ModelPulse ModelCrystal CrystalProofs AgseProofs AgsePhaseProofs ModelAgGaS AgGaSProofs AgGaSValueProofs.
Import ListNotations.
Local Open Scope R_scope.

(** C132: the two indices at 2, 5 and 10 um, to a thousandth. *)
Theorem C132_values : forall theta : R, let a := gas_init theta in exists o2 o5 o10 e2 e5 e10,
  gas_n a 2000 "o" = Ok o2 /\ gas_n a 5000 "o" = Ok o5 /\ gas_n a 10000 "o" = Ok o10 /\ gas_n a 2000 "e" = Ok e2 /\ gas_n a 5000 "e" = Ok e5 /\ gas_n a 10000 "e" = Ok e10 /\
  2.413 < o2 < 2.415 /\ 2.399 < o5 < 2.401 /\ 2.355 < o10 < 2.357 /\ 2.359 < e2 < 2.361 /\ 2.342 < e5 < 2.344 /\ 2.3 < e10 < 2.302.
Proof. exact C132_values_l. Qed.
Print Assumptions C132_values.

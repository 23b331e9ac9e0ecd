(** Property theorems proved in AgseProofs.v (generated by tools/gen_props.py). *)
From Coq Require Import String.
From Coq Require Import Reals List ZArith Bool Arith Lia Lra Psatz.
From Verif Require Import Base CNum NumPy ModelPulse ModelCrystal CrystalProofs AgseProofs.
Import ListNotations.
Local Open Scope R_scope.

(** C106: the constructed crystal, at every wavelength from 1 to 18 um and every angle: all three axes have an index, 2.46 < n_e < n_o < 2.74 (negative uniaxial), the index along the cut lies between them, equals n_o exactly when sin theta = 0 and n_e exactly when cos theta = 0; any other axis name raises ValueError. *)
Theorem C106_index : forall (theta : R) (len : option R) (caching : bool) (k : shared), exists (x : crystal) (a : agse), agse_init theta len caching k = (Ok x, k) /\ x_mat x = Agse a /\
  forall wl, 1000 <= wl <= 18000 -> exists no ne m, agse_n a wl "o" = Ok no /\ agse_n a wl "e" = Ok ne /\ agse_n a wl "mix" = Ok m /\
  2.46 < ne /\ ne < no /\ no < 2.74 /\ ne <= m <= no /\ (m = no <-> sin theta = 0) /\ (m = ne <-> cos theta = 0) /\
  forall axis, axis <> "o"%string -> axis <> "e"%string -> axis <> "mix"%string -> agse_n a wl axis = Raise ValueError.
Proof. exact C106_index_l. Qed.
Print Assumptions C106_index.

(** C106: normal dispersion: between 1 and 18 um all three indices fall strictly with the wavelength, at every angle. *)
Theorem C106_dispersion : forall (theta : R) (len : option R) (caching : bool) (k : shared) (x : crystal) (a : agse) (wl1 wl2 n1 n2 : R) (axis : string), agse_init theta len caching k = (Ok x, k) -> x_mat x = Agse a ->
  1000 <= wl1 < wl2 -> wl2 <= 18000 -> agse_n a wl1 axis = Ok n1 -> agse_n a wl2 axis = Ok n2 -> n2 < n1.
Proof. exact C106_dispersion_l. Qed.
Print Assumptions C106_dispersion.

(** C106: turning the crystal: set_theta changes no ordinary or extraordinary index; the index along the cut falls strictly as the angle goes from 0 to 90 degrees, and is the same for theta, -theta and theta + pi. *)
Theorem C106_angle : forall (theta : R) (len : option R) (caching : bool) (k : shared) (x : crystal) (a : agse) (wl : R), agse_init theta len caching k = (Ok x, k) -> x_mat x = Agse a -> 1000 <= wl <= 18000 ->
  (forall t axis, (axis = "o"%string \/ axis = "e"%string) -> agse_n (set_theta t a) wl axis = agse_n a wl axis) /\
  (forall t1 t2 m1 m2, 0 <= t1 < t2 -> t2 <= PI / 2 -> agse_n (set_theta t1 a) wl "mix" = Ok m1 -> agse_n (set_theta t2 a) wl "mix" = Ok m2 -> m2 < m1) /\
  (forall t, agse_n (set_theta (- t) a) wl "mix" = agse_n (set_theta t a) wl "mix" /\ agse_n (set_theta (t + PI) a) wl "mix" = agse_n (set_theta t a) wl "mix").
Proof. exact C106_angle_l. Qed.
Print Assumptions C106_angle.

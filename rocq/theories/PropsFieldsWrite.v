(** Property theorems proved in FieldsWriteProofs.v (generated by tools/gen_props.py). *)
From Coq Require Import Reals List ZArith Bool Arith Lia Lra.
From Coquelicot Require Import Complex.
From Verif Require Import Base CNum NumPy ModelFields FieldsProofs FieldsWriteProofs.
Import ListNotations.
Local Open Scope R_scope.

(** C130: the pump is the first, the signal the second and the idler the third row: after set_pump, set_sgnl and set_idlr, in any order, the fields of the object are these three in this order. *)
Theorem C130_order : forall (h : heap) (o : nat) (p s i : list C), reach h -> (o < length (h_objs h))%nat -> length p = t_npts (obj h o) -> length s = t_npts (obj h o) -> length i = t_npts (obj h o) ->
  forall ops, In ops [[set_pump o p; set_sgnl o s; set_idlr o i]; [set_pump o p; set_idlr o i; set_sgnl o s]; [set_sgnl o s; set_pump o p; set_idlr o i]; [set_sgnl o s; set_idlr o i; set_pump o p]; [set_idlr o i; set_pump o p; set_sgnl o s]; [set_idlr o i; set_sgnl o s; set_pump o p]] ->
  t_fields (obj (fold_left (fun h (f : M heap unit) => snd (f h)) ops h) o) = [p; s; i].
Proof. exact C130_order_l. Qed.
Print Assumptions C130_order.

(** C130: set_all with an array of one or three rows, of the grid's length or of length one, stores it (a single row three times, a single column in every point), and changes nothing else; an array of any other shape raises ValueError and changes nothing. *)
Theorem C130_all : forall (h : heap) (o L : nat) (m : list (list C)), reach h -> (o < length (h_objs h))%nat -> m <> [] -> (forall r, In r m -> length r = L) ->
  let n := t_npts (obj h o) in
  ((length m = 3%nat \/ length m = 1%nat) -> (L = n \/ L = 1%nat) -> exists h', set_all o m h = (Ok tt, h') /\
    (forall r k, (r < 3)%nat -> (k < n)%nat -> nth k (read_row r o h') (RtoC 0) = nth (if Nat.eqb L n then k else 0) (nth (if Nat.eqb (length m) 3 then r else 0) m []) (RtoC 0)) /\
    (forall o', o' <> o -> obj h' o' = obj h o') /\ t_npts (obj h' o) = n /\ t_derivs (obj h' o) = t_derivs (obj h o) /\ t_ks (obj h' o) = t_ks (obj h o) /\ h_k0s h' = h_k0s h) /\
  (~ ((length m = 3%nat \/ length m = 1%nat) /\ (L = n \/ L = 1%nat)) -> set_all o m h = (Raise ValueError, h)).
Proof. exact C130_all_l. Qed.
Print Assumptions C130_all.

(** C130: an element of a row that an accessor returned (counted from the end when negative) written with a value is read back from the object, all its other elements, rows, arrays and all other objects being unchanged; an index outside raises IndexError and changes nothing. *)
Theorem C130_view : forall (h : heap) (o r : nat) (k : Z) (v : C), reach h -> (o < length (h_objs h))%nat -> (r < 3)%nat ->
  let n := Z.of_nat (t_npts (obj h o)) in
  ((- n <= k < n)%Z -> exists h', write_field o r k v h = (Ok tt, h') /\
    (forall j, (j < t_npts (obj h o))%nat -> nth j (read_row r o h') (RtoC 0) = if (Z.of_nat j =? k mod n)%Z then v else nth j (read_row r o h) (RtoC 0)) /\
    (forall r' o', (r' <> r \/ o' <> o) -> read_row r' o' h' = read_row r' o' h) /\
    (forall o', t_npts (obj h' o') = t_npts (obj h o') /\ t_derivs (obj h' o') = t_derivs (obj h o') /\ t_ks (obj h' o') = t_ks (obj h o')) /\ h_k0s h' = h_k0s h) /\
  (~ (- n <= k < n)%Z -> write_field o r k v h = (Raise IndexError, h)).
Proof. exact C130_view_l. Qed.
Print Assumptions C130_view.

(** C130: likewise for an element of field_derivs and of ks: it is stored in its row of its array, everything else being unchanged; an index outside raises IndexError and changes nothing. *)
Theorem C130_arrays : forall (h : heap) (o r : nat) (k : Z) (v : C) (q : R), reach h -> (o < length (h_objs h))%nat -> (r < 3)%nat ->
  let n := Z.of_nat (t_npts (obj h o)) in
  ((- n <= k < n)%Z -> exists h1 h2, write_deriv o r k v h = (Ok tt, h1) /\ write_k o r k q h = (Ok tt, h2) /\
    (forall j, (j < t_npts (obj h o))%nat -> nth j (nth r (t_derivs (obj h1 o)) []) (RtoC 0) = if (Z.of_nat j =? k mod n)%Z then v else nth j (nth r (t_derivs (obj h o)) []) (RtoC 0)) /\
    (forall j, (j < t_npts (obj h o))%nat -> nth j (nth r (t_ks (obj h2 o)) []) 0 = if (Z.of_nat j =? k mod n)%Z then q else nth j (nth r (t_ks (obj h o)) []) 0) /\
    (forall r', r' <> r -> nth r' (t_derivs (obj h1 o)) [] = nth r' (t_derivs (obj h o)) [] /\ nth r' (t_ks (obj h2 o)) [] = nth r' (t_ks (obj h o)) []) /\
    t_fields (obj h1 o) = t_fields (obj h o) /\ t_ks (obj h1 o) = t_ks (obj h o) /\ t_fields (obj h2 o) = t_fields (obj h o) /\ t_derivs (obj h2 o) = t_derivs (obj h o) /\
    forall o', o' <> o -> obj h1 o' = obj h o' /\ obj h2 o' = obj h o') /\
  (~ (- n <= k < n)%Z -> write_deriv o r k v h = (Raise IndexError, h) /\ write_k o r k q h = (Raise IndexError, h)).
Proof. exact C130_arrays_l. Qed.
Print Assumptions C130_arrays.

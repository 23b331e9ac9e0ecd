(** Property theorems proved in FieldsProofs.v (generated by tools/gen_props.py). *)
From Coq Require Import Reals List ZArith Bool Arith Lia Lra.
From Coquelicot Require Import Complex.
From Verif Require Import Base CNum NumPy ModelFields FieldsProofs.
Import ListNotations.
Local Open Scope R_scope.

(** C130: for every program, writing a field of the grid's length (or a single value, which is repeated) into one of the three fields stores it there and changes no other field, no other array and no other object; any other length raises ValueError and changes nothing. *)
Theorem C130_set_get : forall (h : heap) (o r : nat) (f : list C), reach h -> (o < length (h_objs h))%nat -> (r < 3)%nat ->
  ((length f = t_npts (obj h o) \/ length f = 1%nat) -> exists h', set_row r o f h = (Ok tt, h') /\
    length (read_row r o h') = t_npts (obj h o) /\ (forall k, (k < t_npts (obj h o))%nat -> nth k (read_row r o h') (RtoC 0) = nth (if Nat.eqb (length f) (t_npts (obj h o)) then k else 0) f (RtoC 0)) /\
    (forall r' o', (r' <> r \/ o' <> o) -> read_row r' o' h' = read_row r' o' h) /\
    (forall o', t_npts (obj h' o') = t_npts (obj h o') /\ t_derivs (obj h' o') = t_derivs (obj h o') /\ t_ks (obj h' o') = t_ks (obj h o')) /\ h_k0s h' = h_k0s h) /\
  (length f <> t_npts (obj h o) -> length f <> 1%nat -> set_row r o f h = (Raise ValueError, h)).
Proof. exact C130_set_get_l. Qed.
Print Assumptions C130_set_get.

(** C130: create_copy returns a new object with the same number of points and the same three fields, its two other arrays being zero, and changes no object that exists. From then on whatever a program does with other objects, among them the original, leaves the arrays of the copy alone, and whatever it does with the copy leaves those of the original alone, even through the arrays that the accessors return. *)
Theorem C130_copy : forall (h : heap) (o : nat), reach h -> (o < length (h_objs h))%nat -> exists c h1, create_copy o h = (Ok c, h1) /\
  (length (h_objs h) <= c)%nat /\ t_npts (obj h1 c) = t_npts (obj h o) /\ (forall r, read_row r c h1 = read_row r o h) /\
  (forall r k, (r < 3)%nat -> (k < t_npts (obj h o))%nat -> nth k (nth r (t_derivs (obj h1 c)) []) (RtoC 0) = RtoC 0 /\ nth k (nth r (t_ks (obj h1 c)) []) 0 = 0) /\
  (forall o', (o' < length (h_objs h))%nat -> obj h1 o' = obj h o') /\
  (forall xs h2, leads h1 xs h2 -> (forall x, In x xs -> target x <> Some c) -> obj h2 c = obj h1 c) /\
  (forall xs h2, leads h1 xs h2 -> (forall x, In x xs -> target x <> Some o) -> obj h2 o = obj h o).
Proof. exact C130_copy_l. Qed.
Print Assumptions C130_copy.

(** C130 refuted: a copy is not equal to the original when that has a wave vector other than zero. *)
Theorem C130_copy_equal_refuted : forall (h : heap) (o r k : nat), reach h -> (o < length (h_objs h))%nat -> (r < 3)%nat -> (k < t_npts (obj h o))%nat -> nth k (nth r (t_ks (obj h o)) []) 0 <> 0 ->
  exists c h1, create_copy o h = (Ok c, h1) /\ nth k (nth r (t_ks (obj h1 c)) []) 0 = 0 /\ t_ks (obj h1 c) <> t_ks (obj h1 o).
Proof. exact C130_copy_equal_refuted_l. Qed.
Print Assumptions C130_copy_equal_refuted.

(** C130 refuted: the central wave vectors k0s are one list for all objects: a value written through one object is read through every other, also one created later. *)
Theorem C130_shared_k0s_refuted : forall (h : heap) (a b k n : nat) (v : R), reach h -> (a < length (h_objs h))%nat -> (b < length (h_objs h))%nat -> (k < 3)%nat ->
  exists h1, write_k0 a (Z.of_nat k) v h = (Ok tt, h1) /\ h_objs h1 = h_objs h /\ read_k0 b k h1 = v /\
  exists c h2, new_fields n h1 = (Ok c, h2) /\ read_k0 c k h2 = v.
Proof. exact C130_shared_k0s_refuted_l. Qed.
Print Assumptions C130_shared_k0s_refuted.

(** C131: calculate_overlap of two ints 0, 1, 2 is the mean of the two waists, symmetric in its arguments, and the waist itself for equal ones; arguments of another type raise TypeError, ints outside 0..3 ValueError. *)
Theorem C131_overlap_partial : forall (pump sgnl idlr : R) (a b : Z),
  let w := waists pump sgnl idlr in let waist z := if (z =? 0)%Z then pump else if (z =? 1)%Z then sgnl else idlr in
  ((0 <= a <= 2)%Z -> (0 <= b <= 2)%Z -> calculate_overlap w (AInt a) (AInt b) = Ok ((waist a + waist b) / 2)) /\
  calculate_overlap w (AInt a) (AInt b) = calculate_overlap w (AInt b) (AInt a) /\
  ((0 <= a <= 2)%Z -> calculate_overlap w (AInt a) (AInt a) = Ok (waist a)) /\
  (forall x, calculate_overlap w x AOther = Raise TypeError /\ calculate_overlap w AOther x = Raise TypeError) /\
  ((a < 0 \/ 3 < a \/ b < 0 \/ 3 < b)%Z -> calculate_overlap w (AInt a) (AInt b) = Raise ValueError).
Proof. exact C131_overlap_partial_l. Qed.
Print Assumptions C131_overlap_partial.

(** C131 refuted: the code 3, which the docstring gives for the idler and the range check accepts, raises IndexError whatever the waists and the other field. *)
Theorem C131_idler_code_refuted : forall (pump sgnl idlr : R) (a : Z), (0 <= a <= 3)%Z ->
  calculate_overlap (waists pump sgnl idlr) (AInt 3) (AInt a) = Raise IndexError /\ calculate_overlap (waists pump sgnl idlr) (AInt a) (AInt 3) = Raise IndexError.
Proof. exact C131_idler_code_refuted_l. Qed.
Print Assumptions C131_idler_code_refuted.

(** src/pynlo/interactions/ThreeWaveMixing/field_classes.py.

    Simplifications: Python 2, whose module `exceptions` the file imports; complex128 is [C]; the objects of one program are kept in a list and named by their
    position, so that the arrays which the accessors return without copying can be written to.  Arguments of set_pump, set_sgnl and set_idlr are one-dimensional
    and those of set_all two-dimensional arrays. *)
From Coq Require Import Reals List ZArith Bool Arith.
From Coquelicot Require Import Complex.
From Verif Require Import Base CNum NumPy.
Import ListNotations.
Local Open Scope R_scope.
Local Open Scope py_scope.

(** ** ThreeFields *)
(** field_classes.py:61-76  fields, field_derivs, ks and NPTS of one object *)
Record three := mkT { t_npts : nat; t_fields : list (list C); t_derivs : list (list C); t_ks : list (list R) }.
(** the objects, and the class attribute k0s (67), a list that no instance replaces *)
Record heap := mkH { h_objs : list three; h_k0s : list R }.
(** a program that has just imported the module: 67 *)
Definition heap0 : heap := mkH [] [0; 0; 0].
Definition obj (h : heap) (o : nat) : three := nth o (h_objs h) (mkT 0 [] [] []).
Definition with_obj (o : nat) (t : three) (h : heap) : heap := mkH (update o t (h_objs h)) (h_k0s h).
(** 72-76  create_fields *)
Definition blank (n : nat) : three := mkT n (repeat (repeat (RtoC 0) n) 3) (repeat (repeat (RtoC 0) n) 3) (repeat (repeat 0 n) 3).
(** 69-71 *)
Definition new_fields (n : nat) : M heap nat := fun h => (Ok (length (h_objs h)), mkH (h_objs h ++ [blank n]) (h_k0s h)).
(** numpy's broadcasting of one axis in an assignment *)
Definition fit {A} (d : A) (n : nat) (l : list A) : result (list A) :=
  if Nat.eqb (length l) n then Ok l else if Nat.eqb (length l) 1 then Ok (repeat (nth 0 l d) n) else Raise ValueError.
(** 30-32  PUMP, SGNL and IDLR *)
Definition PUMP : nat := 0.
Definition SGNL : nat := 1.
Definition IDLR : nat := 2.
(** self.fields[r,:] = field *)
Definition set_row (r o : nat) (f : list C) : M heap unit :=
  t <- gets (fun h => obj h o) ;;
  row <- lift (fit (RtoC 0) (t_npts t) f) ;;
  modify (with_obj o (mkT (t_npts t) (update r row (t_fields t)) (t_derivs t) (t_ks t))).
(** 78-83 *)
Definition set_pump := set_row PUMP.
Definition set_sgnl := set_row SGNL.
Definition set_idlr := set_row IDLR.
(** 85-90  the values of the view that get_pump, get_sgnl and get_idlr return *)
Definition read_row (r o : nat) (h : heap) : list C := nth r (t_fields (obj h o)) [].
(** 92-93  self.fields[:] = fields, an array given by its rows, all of the same length *)
Definition set_all (o : nat) (m : list (list C)) : M heap unit :=
  t <- gets (fun h => obj h o) ;;
  rows <- lift (fit [] 3 m) ;;
  (if forallb (fun r => Nat.eqb (length r) (t_npts t) || Nat.eqb (length r) 1)%bool rows then ret tt else raise ValueError) ;;;
  modify (with_obj o (mkT (t_npts t) (map (fun r => if Nat.eqb (length r) (t_npts t) then r else repeat (nth 0 r (RtoC 0)) (t_npts t)) rows) (t_derivs t) (t_ks t))).
(** 97-100 *)
Definition create_copy (o : nat) : M heap nat :=
  t <- gets (fun h => obj h o) ;;
  c <- new_fields (t_npts t) ;;
  set_all c (t_fields t) ;;;
  ret c.
(** an assignment to one element of an array: fields through a view (85-95), field_derivs, ks, and of the list k0s *)
Definition write_el {A} (k : Z) (v : A) (l : list A) : result (list A) := i <-r py_index (length l) k ;; Ok (update i v l).
Definition write_field (o r : nat) (k : Z) (v : C) : M heap unit :=
  t <- gets (fun h => obj h o) ;;
  row <- lift (write_el k v (nth r (t_fields t) [])) ;;
  modify (with_obj o (mkT (t_npts t) (update r row (t_fields t)) (t_derivs t) (t_ks t))).
Definition write_deriv (o r : nat) (k : Z) (v : C) : M heap unit :=
  t <- gets (fun h => obj h o) ;;
  row <- lift (write_el k v (nth r (t_derivs t) [])) ;;
  modify (with_obj o (mkT (t_npts t) (t_fields t) (update r row (t_derivs t)) (t_ks t))).
Definition write_k (o r : nat) (k : Z) (v : R) : M heap unit :=
  t <- gets (fun h => obj h o) ;;
  row <- lift (write_el k v (nth r (t_ks t) [])) ;;
  modify (with_obj o (mkT (t_npts t) (t_fields t) (t_derivs t) (update r row (t_ks t)))).
(** obj.k0s[k] = v and obj.k0s[k]: the attribute is found in the class *)
Definition write_k0 (o : nat) (k : Z) (v : R) : M heap unit :=
  h <- get ;; l' <- lift (write_el k v (h_k0s h)) ;; modify (fun h => mkH (h_objs h) l').
Definition read_k0 (o k : nat) (h : heap) : R := nth k (h_k0s h) 0.

(** everything a program can do with the objects *)
Inductive fop : Type :=
| FNew (n : nat) | FCopy (o : nat) | FRow (r o : nat) (f : list C) | FAll (o : nat) (m : list (list C))
| FField (o r : nat) (k : Z) (v : C) | FDeriv (o r : nat) (k : Z) (v : C) | FK (o r : nat) (k : Z) (v : R) | FK0 (o : nat) (k : Z) (v : R).
(** an operation on objects that exist (and, for the rows, one of the three) *)
Definition fop_ok (h : heap) (x : fop) : Prop :=
  match x with
  | FNew _ => True
  | FCopy o | FAll o _ | FK0 o _ _ => (o < length (h_objs h))%nat
  | FRow r o _ | FField o r _ _ | FDeriv o r _ _ | FK o r _ _ => (o < length (h_objs h))%nat /\ (r < 3)%nat
  end.
Definition run_fop (x : fop) (h : heap) : heap :=
  match x with
  | FNew n => snd (new_fields n h) | FCopy o => snd (create_copy o h) | FRow r o f => snd (set_row r o f h) | FAll o m => snd (set_all o m h)
  | FField o r k v => snd (write_field o r k v h) | FDeriv o r k v => snd (write_deriv o r k v h) | FK o r k v => snd (write_k o r k v h) | FK0 o k v => snd (write_k0 o k v h)
  end.
(** the object an operation is called on (the new object of a copy has no name yet) *)
Definition target (x : fop) : option nat :=
  match x with FNew _ | FCopy _ => None | FRow _ o _ | FAll o _ | FField o _ _ _ | FDeriv o _ _ _ | FK o _ _ _ | FK0 o _ _ => Some o end.

(** ** beam_parameters *)
(** 42-46  waists *)
Definition waists (pump sgnl idlr : R) : list R := [pump; sgnl; idlr].
(** an argument: an int, or an object of any other type *)
Inductive parg : Type := AInt (z : Z) | AOther.
(** 48-57  calculate_overlap *)
Definition calculate_overlap (w : list R) (A B : parg) : result R :=
  match A, B with
  | AInt a, AInt b =>
      if ((a <? 0) || (3 <? a) || (b <? 0) || (3 <? b))%bool%Z then Raise ValueError
      else i <-r py_index (length w) a ;; j <-r py_index (length w) b ;; Ok ((nth i w 0 + nth j w 0) / 2)
  | _, _ => Raise TypeError
  end.

(** Property theorems proved in ODEOutputProofs.v (generated by tools/gen_props.py). *)
From Coq Require Import Reals List ZArith Bool Arith Lia Lra.
From Coquelicot Require Import Complex.
From Verif Require Import Base CNum NumPy ModelDopr ModelODE ODEOutputProofs.
Import ListNotations.
Local Open Scope R_scope.
Local Open Scope py_scope.
Local Notation z0 := (RtoC 0).

(** C39: an Output made by Output(nsaves) and init holds, after any history of save and save_dense calls (of any length, including calls that raised and were caught), exactly the samples with matching dtype and shape, in call order; a further call raises TypeError exactly for a wrong dtype, ValueError exactly for a wrong shape, and a call that raises leaves the number of samples and every stored sample as they were. *)
Theorem C39_samples_kept : forall (n k : nat) (x1 x2 : R) (dt : dtype) (ops : list sample_op),
  let o := history ops (out_init n x1 x2 dt (new_output (Some k))) in
  let good := flat_map (accepted n dt) ops in
  o_count o = length good /\
  (forall i, (i < length good)%nat -> nth i (o_xsave o) 0 = fst (nth i good (0, [])) /\ nth i (o_ysave o) [] = snd (nth i good (0, []))) /\
  (forall p, exists o', run_op p o = (match p with Save _ d y | SaveDense _ d y =>
       if dt_eqb dt d then (if (Nat.eqb (length y) n || Nat.eqb (length y) 1)%bool then Ok tt else Raise ValueError) else Raise TypeError end, o') /\
     (fst (run_op p o) <> Ok tt -> o_count o' = o_count o /\ forall i, (i < o_count o)%nat -> nth i (o_xsave o') 0 = nth i (o_xsave o) 0 /\ nth i (o_ysave o') [] = nth i (o_ysave o) [])).
Proof. exact C39_samples_kept_l. Qed.
Print Assumptions C39_samples_kept.

(** C48 refuted: with Output(None), whatever init was called with, save and save_dense raise AttributeError instead of discarding the sample. *)
Theorem C48_storage_off_refuted : forall (n : nat) (x1 x2 : R) (dt : dtype) (x : R) (d : dtype) (y : list C),
  let o := out_init n x1 x2 dt (new_output None) in
  run_op (Save x d y) o = (Raise AttributeError, o) /\ run_op (SaveDense x d y) o = (Raise AttributeError, o).
Proof. exact C48_storage_off_refuted_l. Qed.
Print Assumptions C48_storage_off_refuted.

(** C48 refuted (whole run): an integration with Output(None) raises AttributeError before the first step whenever the right-hand side answers at x1, with or without dense output. *)
Theorem C48_integrate_refuted : forall (W : Type) (f : R -> list C -> M W (list C)) (fuel : nat) (w w' : W) (con : ctrl) (ystart d : list C) (x1 x2 atol rtol h1 hmin : R) (dense : bool) (dt : dtype),
  f x1 ystart w = (Ok d, w') ->
  fst (integrate f fuel (new_ode w con ystart x1 x2 atol rtol h1 hmin (new_output None) dense dt)) = Raise AttributeError.
Proof. exact C48_integrate_refuted_l. Qed.
Print Assumptions C48_integrate_refuted.

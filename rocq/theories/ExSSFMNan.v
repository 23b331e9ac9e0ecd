(** A concrete case for SSFMNanProofs.v: RK4IP, first step 1/100, distance 2. *)
From Coq Require Import Reals List ZArith Bool Arith Lia Lra.
From Coquelicot Require Import Complex.
From Verif Require Import Base CNum NumPy ModelSSFM PropsSSFMLoop SSFMNanProofs PropsSSFMNan ExSSFM.
Import ListNotations.
Local Open Scope R_scope.

Example ex_C28_nan : exists fuel r later, loop xc (fun (_ : R) (k : nat) => (None, S k, S k)) fuel 2 (first_dz 2 (1 / 100)) None [] 0%nat = Some r /\ l_steps r = later ++ [2 * (1 / 100 * Rpower 2 (1 / INR 5)); 2 * (1 / 100)] /\ l_st r = length (l_steps r).
Proof.
  destruct (C28_any_errors_partial xc (fun _ => None) 2 (1 / 100) ltac:(lra) ltac:(lra)) as (fuel & r & E & _). exists fuel, r.
  destruct (C28_nan_grows xc fuel 2 (1 / 100) r) as (N & later & S & _); [cbn; lia|lra| |exact E|exists later; auto].
  cbn [xc c_eta]. assert (Rpower 2 (1 / INR 5) <= 2). { rewrite <- (Rpower_1 2) at 2 by lra. apply Rle_Rpower; [lra|]. cbn [INR]. lra. } lra.
Qed.

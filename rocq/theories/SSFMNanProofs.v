(** The step controller of the split-step solver when the error estimate is NaN (C28). *)
From Coq Require Import Reals List ZArith Bool Arith Lia Lra.
From Coquelicot Require Import Complex.
From Verif Require Import Base CNum NumPy ModelSSFM.
Import ListNotations.
Local Open Scope R_scope.

Definition nan_errors (_ : R) (k : nat) : option R * nat * nat := (None, S k, S k).
Lemma nan_suffix c fuel : forall dist dz ret steps k r, loop c nan_errors fuel dist dz ret steps k = Some r -> exists front, l_steps r = front ++ steps /\ (l_st r + length steps = length (l_steps r) + k)%nat.
Proof.
  induction fuel as [|fuel IH]; intros dist dz ret steps k r; cbn [loop]; destruct (Rlt_dec 0 dist) as [D|D]; try discriminate; try (intros [= <-]; exists []; split; [reflexivity|cbn [l_st l_steps]; lia]).
  cbn [nan_errors step_ctl].
  assert (G : forall dist1 dz1 ret1, loop c nan_errors fuel dist1 dz1 ret1 (2 * dz :: steps) (S k) = Some r -> exists front, l_steps r = front ++ steps /\ (l_st r + length steps = length (l_steps r) + k)%nat).
  { intros d1 z1 r1 E. apply IH in E as (front & E & N). exists (front ++ [2 * dz]). split; [rewrite <- app_assoc; exact E|]. cbn [length] in N. lia. }
  destruct (Rlt_dec _ _); [destruct (Rlt_dec _ _)|]; apply G.
Qed.
Lemma dz_factor_gt1 c : (0 < c_eta c)%nat -> 1 < dz_factor c.
Proof. intros H. unfold dz_factor. assert (P : 0 < 1 / INR (c_eta c)) by (apply Rdiv_lt_0_compat; [lra|apply lt_0_INR, H]). pose proof (Rpower_lt 2 0 (1 / INR (c_eta c)) ltac:(lra) P) as Q. rewrite Rpower_O in Q by lra. exact Q. Qed.
(*! C28: when the error estimate is NaN every comparison of the step controller is false: every attempted step is kept, and the second is 2^(1/eta) times as long as the first (if the distance leaves room for both), though nothing is known about the error. *)
Lemma C28_nan_grows_l : forall (c : cfg) (fuel : nat) (delta_z dz0 : R) (r : lres nat), (0 < c_eta c)%nat -> 0 < dz0 ->
  let f := Rpower 2 (1 / INR (c_eta c)) in 2 * dz0 + 2 * (dz0 * f) <= delta_z ->
  loop c (fun (_ : R) (k : nat) => (None, S k, S k)) fuel delta_z (first_dz delta_z dz0) None [] 0%nat = Some r ->
  l_st r = length (l_steps r) /\ exists later, l_steps r = later ++ [2 * (dz0 * f); 2 * dz0] /\ 2 * dz0 < 2 * (dz0 * f).
Proof.
  intros c fuel delta_z dz0 r He Hz f Hd E. change (loop c nan_errors fuel delta_z (first_dz delta_z dz0) None [] 0%nat = Some r) in E.
  pose proof (dz_factor_gt1 c He) as F. fold f in F. change (dz_factor c) with f in F. assert (G : dz0 < dz0 * f) by (rewrite <- (Rmult_1_r dz0) at 1; apply Rmult_lt_compat_l; lra).
  split; [destruct (nan_suffix _ _ _ _ _ _ _ _ E) as (_ & _ & N); cbn [length] in N; lia|].
  unfold first_dz in E. destruct (Rlt_dec delta_z (2 * dz0)); [lra|].
  destruct fuel as [|fuel]; cbn [loop] in E; (destruct (Rlt_dec 0 delta_z); [|lra]); [discriminate|]. cbn [nan_errors step_ctl] in E. change (dz_factor c) with f in E.
  destruct (Rlt_dec (delta_z - 2 * dz0) (2 * (dz0 * f))); [lra|].
  destruct fuel as [|fuel]; cbn [loop] in E; (destruct (Rlt_dec 0 (delta_z - 2 * dz0)); [|lra]); [discriminate|]. cbn [nan_errors step_ctl] in E. change (dz_factor c) with f in E.
  assert (X : forall dist1 dz1 ret1, loop c nan_errors fuel dist1 dz1 ret1 [2 * (dz0 * f); 2 * dz0] 2%nat = Some r -> exists later, l_steps r = later ++ [2 * (dz0 * f); 2 * dz0] /\ 2 * dz0 < 2 * (dz0 * f)).
  { intros d1 z1 q1 E1. apply nan_suffix in E1 as (front & E1 & _). exists front. split; [exact E1|lra]. }
  destruct (Rlt_dec _ _) in E; [destruct (Rlt_dec _ _) in E|]; apply X in E; exact E.
Qed.

(** Concrete cases for SSFMRaiseProofs.v: the four-point pulse and the position-dependent fiber of ExSSFM.v. *)
From Coq Require Import Reals List ZArith Bool Arith Lia Lra.
From Coquelicot Require Import Complex.
From Verif Require Import Base CNum NumPy ModelPulse ModelSSFM SSFMPropProofs PropsSSFMRaise ExSSFM.
Import ListNotations.
Local Open Scope R_scope.

Example ex_C133_no_sections : propagate (rc true) 9 xf 0 None true x0 xp = (Raise IndexError, xp) /\ fst (propagate (rc true) 9 xf 2 None true x0 xp) <> Raise IndexError.
Proof.
  destruct (xp_setting true) as (Rw & Hh & Hn & Hf & An & HR & _ & HL & Hd).
  destruct (C133_no_sections (rc true) 9 xf 2 None true x0 xp _ _ _ _ _ Hh Hn Hf An HR HL Hd) as (E & E0). split; [exact E0|]. rewrite E. discriminate.
Qed.
Definition rc_zero (off : bool) : cfg := mkCfg (1 / 1000) METHOD_RK4IP 5 off false true 1 0 true.
Example ex_C133_zero : (exists q, propagate (rc_zero false) 9 xf 2 None true x0 xp = (Raise ZeroDivisionError, q)) /\ exists r q, propagate (rc_zero true) 9 xf 2 None true x0 xp = (Ok r, q).
Proof.
  destruct (xp_setting true) as (Rw & Hh & Hn & Hf & An & _ & HN & HL & Hd). split.
  - destruct (C133_zero_times (rc_zero false) 9 xf 2 None true x0 xp _ _ _ Hh Hn An HN ltac:(right; reflexivity)) as (E & _). destruct E as (q & E & _); [reflexivity|eauto].
  - destruct (C133_zero_times (rc_zero true) 9 xf 2 None true x0 xp _ _ _ Hh Hn An HN ltac:(right; reflexivity)) as (_ & E). apply E; auto.
Qed.

(** Concrete cases that meet the hypotheses of C132. *)
From Coq Require Import String.
From Coq Require Import Reals List ZArith Bool Arith Lia Lra.
From Verif Require Import Base CNum NumPy ModelPulse ModelCrystal ModelAgGaS AgGaSProofs PropsAgGaS PropsAgGaSValue.
Import ListNotations.
Local Open Scope R_scope.

Example ex_C132 : exists m1 m2, gas_n (gas_init 0.9) 1550 "mix" = Ok m1 /\ gas_n (gas_init 0.9) 10600 "mix" = Ok m2 /\ 2.26 < m2 /\ m2 < m1 /\ m1 < 2.46.
Proof.
  destruct (C132_index 0.9 1550 ltac:(lra)) as (o1 & e1 & m1 & _ & _ & E1 & A1 & _ & B1 & C1 & _). destruct (C132_index 0.9 10600 ltac:(lra)) as (o2 & e2 & m2 & _ & _ & E2 & A2 & _ & B2 & C2 & _).
  exists m1, m2. split; [exact E1|]. split; [exact E2|]. pose proof (C132_dispersion 0.9 1550 10600 m1 m2 "mix" ltac:(lra) ltac:(lra) E1 E2). lra.
Qed.
Example ex_C132_angle : exists m1 m2, gas_n (gas_set_theta 0.5 (gas_init 0)) 2000 "mix" = Ok m1 /\ gas_n (gas_set_theta 1 (gas_init 0)) 2000 "mix" = Ok m2 /\ m2 < m1.
Proof.
  destruct (C132_index 0.5 2000 ltac:(lra)) as (_ & _ & m1 & _ & _ & E1 & _). destruct (C132_index 1 2000 ltac:(lra)) as (_ & _ & m2 & _ & _ & E2 & _). exists m1, m2. split; [exact E1|]. split; [exact E2|].
  destruct (C132_angle 0 2000 ltac:(lra)) as (_ & H & _). apply (H 0.5 1 m1 m2); [lra| |exact E1|exact E2]. pose proof PI2_1. lra.
Qed.
(** doubling a CO2 laser (its 9.6 um line; P = 5.3 um is outside the proved window), and 11.9 um, which cannot be doubled *)
Example ex_C132_co2 : exists t, gas_phasematch (gas_init 0) (Some 4800) (Some 9600) None true = Ok (t, Some 9600) /\ 0 < t <= PI / 2.
Proof.
  destruct (C132_doubling 0 4800 (Some 4800) (Some (2 * 4800)) None (Some (2 * 4800)) true ltac:(tauto)) as [H _]. destruct (H ltac:(lra)) as (t & _ & _ & E & B & _). exists t. replace 9600 with (2 * 4800) by lra. split; [exact E|exact B].
Qed.
Example ex_C132_long : gas_phasematch (gas_init 0) (Some 5950) (Some 11900) None true = Raise AttributeError.
Proof.
  destruct (C132_doubling 0 5950 (Some 5950) (Some (2 * 5950)) None (Some (2 * 5950)) true ltac:(tauto)) as [_ H]. replace 11900 with (2 * 5950) by lra. apply H. lra.
Qed.
(** mixing 3 um with 6 um *)
Example ex_C132_mixing : exists ne no ns ni, gas_n (gas_init 0) 2000 "e" = Ok ne /\ gas_n (gas_init 0) 2000 "o" = Ok no /\ gas_n (gas_init 0) 3000 "o" = Ok ns /\ gas_n (gas_init 0) 6000 "o" = Ok ni /\ 2000 * (ns / 3000 + ni / 6000) < no.
Proof.
  destruct (C132_criterion 0 2000 3000 6000 (Some 2000) (Some 3000) (Some 6000) None false ltac:(lra) ltac:(lra) ltac:(lra) ltac:(field) ltac:(tauto)) as (ne & no & ns & ni & A & B & D & E & F & _). exists ne, no, ns, ni. auto.
Qed.
(** the sulfide at 5 um *)
Example ex_C132_values : exists o5 e5, gas_n (gas_init 0.3) 5000 "o" = Ok o5 /\ gas_n (gas_init 0.3) 5000 "e" = Ok e5 /\ 0.055 < o5 - e5 < 0.06.
Proof. destruct (C132_values 0.3) as (o2 & o5 & o10 & e2 & e5 & e10 & _ & A & _ & _ & B & _ & _ & O & _ & _ & E & _). exists o5, e5. split; [exact A|]. split; [exact B|]. lra. Qed.

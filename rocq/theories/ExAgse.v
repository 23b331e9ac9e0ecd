(** Concrete cases that meet the hypotheses of C106, C107 and the additions to C67 and C84. *)
From Coq Require Import String.
From Coq Require Import Reals List ZArith Bool Arith Lia Lra.
From Verif Require Import Base CNum NumPy ModelPulse ModelCrystal CrystalProofs AgseProofs AgsePhaseProofs PropsAgse PropsAgsePhase PropsCrystalIndex.
Require Verif.ModelFiber Verif.PropsFiberDb.
Import ListNotations.
Local Open Scope R_scope.

Definition ag : crystal := mkX (Agse (mkAgse agse_o agse_e 0.9)) (Some 0.03) false.
Definition ag_m : agse := mkAgse agse_o agse_e 0.9.
Lemma ag_made : agse_init 0.9 (Some 0.03) false shared0 = (Ok ag, shared0).
Proof. reflexivity. Qed.

(** ** C106 *)
Example ex_C106 : exists m1 m2, agse_n ag_m 1550 "mix" = Ok m1 /\ agse_n ag_m 10600 "mix" = Ok m2 /\ m2 < m1.
Proof.
  destruct (C106_index 0.9 (Some 0.03) false shared0) as (x & a & E & Ea & H). assert (x = ag) by (apply (f_equal fst) in E; cbn [fst] in E; injection E as <-; reflexivity). subst x. injection Ea as <-.
  destruct (H 1550 ltac:(lra)) as (_ & _ & m1 & _ & _ & E1 & _). destruct (H 10600 ltac:(lra)) as (_ & _ & m2 & _ & _ & E2 & _). exists m1, m2. split; [exact E1|]. split; [exact E2|].
  exact (C106_dispersion 0.9 (Some 0.03) false shared0 ag ag_m 1550 10600 m1 m2 "mix" ag_made eq_refl ltac:(lra) ltac:(lra) E1 E2).
Qed.
Example ex_C106_angle : exists m1 m2, agse_n (set_theta 0.5 ag_m) 2000 "mix" = Ok m1 /\ agse_n (set_theta 1 ag_m) 2000 "mix" = Ok m2 /\ m2 < m1.
Proof.
  destruct (mix_val 0.5 2000 ltac:(lra)) as (m1 & E1 & _). destruct (mix_val 1 2000 ltac:(lra)) as (m2 & E2 & _). exists m1, m2. split; [exact E1|]. split; [exact E2|].
  destruct (C106_angle 0.9 (Some 0.03) false shared0 ag ag_m 2000 ag_made eq_refl ltac:(lra)) as (_ & H & _). apply (H 0.5 1 m1 m2); [lra| |exact E1|exact E2]. pose proof PI2_1. lra.
Qed.

(** ** C107: doubling a CO2 laser works, doubling 2.4 um does not; so does mixing 3 um with 6 um satisfy the hypotheses *)
Example ex_C107_co2 : exists t, phasematch ag_m (Some 5300) (Some 10600) None true = Ok (t, Some 10600) /\ 0 < t <= PI / 2.
Proof.
  destruct (C107_doubling 0.9 (Some 0.03) false shared0 ag ag_m 5300 (Some 5300) (Some (2 * 5300)) None (Some (2 * 5300)) true ag_made eq_refl) as [H _]; [tauto|].
  destruct (H ltac:(lra)) as (t & _ & _ & E & B & _). exists t. replace 10600 with (2 * 5300) by lra. split; [exact E|exact B].
Qed.
Example ex_C107_short : phasematch ag_m (Some 1200) (Some 2400) None true = Raise AttributeError.
Proof.
  destruct (C107_doubling 0.9 (Some 0.03) false shared0 ag ag_m 1200 (Some 1200) (Some (2 * 1200)) None (Some (2 * 1200)) true ag_made eq_refl) as [_ H]; [tauto|]. replace 2400 with (2 * 1200) by lra. apply H. lra.
Qed.
Example ex_C107_mixing : exists ne no ns ni, agse_n ag_m 2000 "e" = Ok ne /\ agse_n ag_m 2000 "o" = Ok no /\ agse_n ag_m 3000 "o" = Ok ns /\ agse_n ag_m 6000 "o" = Ok ni /\ 2000 * (ns / 3000 + ni / 6000) < no.
Proof.
  destruct (C107_criterion 0.9 (Some 0.03) false shared0 ag ag_m 2000 3000 6000 (Some 2000) (Some 3000) (Some 6000) None false ag_made eq_refl ltac:(lra) ltac:(lra) ltac:(lra) ltac:(field) ltac:(tauto)) as (ne & no & ns & ni & A & B & D & E & F & _). exists ne, no, ns, ni. auto.
Qed.

(** ** C84 *)
Example ex_C84_change : pp_gayer (set_T 100 (mkPpln 25 25 25 Deng)) = 25 /\ pp_T (set_T 100 (mkPpln 25 25 25 Deng)) = 100.
Proof. destruct (C84_temperature_change (mkPpln 25 25 25 Deng) 100) as (A & _ & _ & B). split; [exact B|exact A]. Qed.

(** ** C67: a data base with a fiber in ps^n/m and an amplifying one *)
Definition e_m : ModelFiber.specs := ModelFiber.mkSpecs (Some "GVD"%string) None None None None (Some "ps^n/m"%string) (Some 1550) (Some [-0.02]) (Some 0.001) (Some false) None.
Definition e_g : ModelFiber.specs := ModelFiber.mkSpecs (Some "D"%string) (Some "nm"%string) (Some "ps/nm/km"%string) (Some [1500; 1600]) (Some [17; 20]) None None None (Some 0.002) (Some true) (Some (Some [1530; 1560])).
Definition hf := ModelFiber.fiber_init [("m"%string, e_m); ("g"%string, e_g)] [ModelFiber.empty_specs].
Example ex_C67_units : exists f', ModelFiber.load_from_db 2 "m" 2 hf = (Ok tt, (fst hf, f')) /\ ModelFiber.f_betas f' = Some [0].
Proof.
  destruct (PropsFiberDb.C67_other_units_refuted (fst hf) (snd hf) 2 "m" "ps^n/m" 2 1 0.001 1550 [-0.02]) as (f' & E & _ & _ & _ & B); try reflexivity; [discriminate|]. exists f'. split; [exact E|exact B].
Qed.
Example ex_C67_gain : exists f', ModelFiber.load_from_db 2 "g" 2 hf = (Ok tt, (fst hf, f')) /\ ModelFiber.f_x f' = Some [1500; 1600] /\ forall p, fst (ModelFiber.get_gain p (fst hf, f')) = Raise AttributeError.
Proof.
  destruct (PropsFiberDb.C67_tabulated (fst hf) (snd hf) 2 "g" "nm" "ps/nm/km" 2 2 0.002 [1500; 1600] [17; 20]) as (f' & E & _ & _ & X & _); try reflexivity. exists f'. split; [exact E|]. split; [exact X|].
  intros p. rewrite (PropsFiberDb.C67_gain_spectrum_refuted (fst hf) (fst hf) (snd hf) f' 2 "g" 2 2 [1530; 1560]); try reflexivity. exact E.
Qed.

(** Concrete cases that meet the hypotheses of C108: an eight-point pulse, 2 THz, 1 ps window, with one line at index 5 (3 THz). *)
From Coq Require Import String.
From Coq Require Import Reals List ZArith Bool Arith Lia Lra.
From Coquelicot Require Import Complex.
From Verif Require Import Base CNum NumPy ModelPulse PulseProofs ModelSpectrogram SpectrogramProofs PropsSpectrogram.
Import ListNotations.
Local Open Scope R_scope.
Local Open Scope py_scope.

Definition line8 (c : C) : list C := mk 8 (fun j => if (j =? 5)%nat then c else RtoC 0).
Definition g8 (f : R) (a : list C) : pulse := mkPulse 8 f 1 (Some a) None true None None None None.
Lemma RtoC1_neq : RtoC 1 <> RtoC 0.
Proof. intros H. apply RtoC_inj in H. lra. Qed.
Definition mapc0 (_ : list R) (_ : R) : R := 0.
Lemma g8_holds f c : holds (g8 f (line8 c)) (line8 c).
Proof. repeat split. Qed.
Example ex_C108_value : exists S, spectrogram mapc0 "xfrog" (1 / 10) 3 (g8 2 (line8 (RtoC 1))) =
  (Ok (repeat (mk 3 (delay_at (g8 2 (line8 (RtoC 1))) 3)) 4, mk 4 (fun k => repeat (INR k / 1) 3), (- (1) / 2, 1 / 2 - 1 / INR 8, 0, INR 3 / 1), S), g8 2 (line8 (RtoC 1))).
Proof. destruct (C108_value mapc0 (g8 2 (line8 (RtoC 1))) (line8 (RtoC 1)) (1 / 10) 3 (g8_holds 2 (RtoC 1)) ltac:(cbn; lia) ltac:(cbn; lra) ltac:(lra) ltac:(lia)) as (S & E & _). exists S. exact E. Qed.
(** the delays are not all the same *)
Example ex_C108_delays : delay_at (g8 2 (line8 (RtoC 1))) 3 0 = - (1 / 2) /\ delay_at (g8 2 (line8 (RtoC 1))) 3 2 = 3 / 8.
Proof. unfold delay_at. cbn. lra. Qed.
Lemma g8_scaled c : holds (g8 2 (map (Cmult c) (line8 (RtoC 1)))) (map (Cmult c) (line8 (RtoC 1))).
Proof. repeat split. Qed.
Example ex_C108_scaling : exists D F E S S', spectrogram mapc0 "xfrog" (1 / 10) 3 (g8 2 (line8 (RtoC 1))) = (Ok (D, F, E, S), g8 2 (line8 (RtoC 1))) /\
  spectrogram mapc0 "xfrog" (1 / 10) 3 (g8 2 (map (Cmult (0, 2)) (line8 (RtoC 1)))) = (Ok (D, F, E, S'), g8 2 (map (Cmult (0, 2)) (line8 (RtoC 1)))) /\ nth 1 (nth 3 S' []) 0 = Cmod (0, 2) * nth 1 (nth 3 S []) 0.
Proof.
  destruct (C108_scaling mapc0 (g8 2 (line8 (RtoC 1))) (g8 2 (map (Cmult (0, 2)) (line8 (RtoC 1)))) (line8 (RtoC 1)) (0, 2) (1 / 10) 3 (g8_holds 2 (RtoC 1)) (g8_scaled (0, 2)) eq_refl eq_refl eq_refl ltac:(cbn; lia) ltac:(cbn; lra) ltac:(lra) ltac:(lia)) as (D & F & E & S & S' & H1 & H2 & _ & _ & H).
  exists D, F, E, S, S'. split; [exact H1|]. split; [exact H2|]. apply H; [cbn; lia|lia].
Qed.
Example ex_C108_energy : exists D F E S, spectrogram mapc0 "xfrog" (1 / 10) 3 (g8 2 (line8 (RtoC 1))) = (Ok (D, F, E, S), g8 2 (line8 (RtoC 1))).
Proof. destruct (C108_energy_bound mapc0 (g8 2 (line8 (RtoC 1))) (line8 (RtoC 1)) (1 / 10) 3 (g8_holds 2 (RtoC 1)) ltac:(cbn; lia) ltac:(cbn; lra) ltac:(lra) ltac:(lia)) as (D & F & E & S & H & _). exists D, F, E, S. exact H. Qed.
(** 2 THz and 10 THz *)
Example ex_C108_aliased : exists D F E S S', spectrogram mapc0 "xfrog" (1 / 10) 3 (g8 2 (line8 (RtoC 1))) = (Ok (D, F, E, S), g8 2 (line8 (RtoC 1))) /\ spectrogram mapc0 "xfrog" (1 / 10) 3 (g8 10 (line8 (RtoC 1))) = (Ok (D, F, E, S'), g8 10 (line8 (RtoC 1))).
Proof.
  destruct (C108_carrier_aliased_refuted mapc0 (g8 2 (line8 (RtoC 1))) (g8 10 (line8 (RtoC 1))) (line8 (RtoC 1)) 1 (1 / 10) 3 (g8_holds 2 (RtoC 1)) (g8_holds 10 (RtoC 1)) eq_refl eq_refl ltac:(cbn; lra) ltac:(cbn; lia) ltac:(cbn; lra) ltac:(lra) ltac:(lia)) as (D & F & E & S & S' & H1 & H2 & _). exists D, F, E, S, S'. auto.
Qed.
(** the line is at 3 THz, the spectrogram has its maximum at 1 THz *)
Example ex_C108_mirror : exists D F E S, spectrogram mapc0 "xfrog" (1 / 10) 3 (g8 2 (line8 (RtoC 1))) = (Ok (D, F, E, S), g8 2 (line8 (RtoC 1))) /\ nth 5 (F_of (g8 2 (line8 (RtoC 1)))) 0 = INR 3 / 1 /\ nth 1 (nth 3 S []) 0 < nth 1 (nth 1 S []) 0.
Proof.
  destruct (C108_frequency_axis_refuted mapc0 (g8 2 (line8 (RtoC 1))) 4 2 5 3 1 (RtoC 1) (1 / 10) 3 (g8_holds 2 (RtoC 1)) RtoC1_neq eq_refl ltac:(lia) ltac:(cbn; lra) ltac:(cbn; lra) ltac:(cbn; lia) ltac:(lia) ltac:(lia) ltac:(lia) ltac:(lia) ltac:(lia) ltac:(lra) ltac:(lia)) as (D & F & E & S & H1 & H2 & _ & H3).
  exists D, F, E, S. split; [exact H1|]. split; [exact H2|]. apply H3. lia.
Qed.
Example ex_C108_errors : spectrogram mapc0 "pg" (1 / 10) 3 (g8 2 (line8 (RtoC 1))) = (Raise ValueError, g8 2 (line8 (RtoC 1))).
Proof. apply (proj1 (C108_errors mapc0 (g8 2 (line8 (RtoC 1))) "pg" (1 / 10) 3) (line8 (RtoC 1)) (g8_holds 2 (RtoC 1))); [cbn; lia|cbn; lra|discriminate|discriminate]. Qed.

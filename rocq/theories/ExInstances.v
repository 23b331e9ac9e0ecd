(** Concrete cases for theorems of several files. *)
From Coq Require Import String.
From Coq Require Import Reals List ZArith Bool Arith Lia Lra.
From Coquelicot Require Import Complex.
From Verif Require Import Base CNum NumPy ModelFFT FFTProofs ModelPulse ModelPulseOps PulseProofs PulseOpsProofs PulseRegridProofs ModelDopr ModelODE ODETableauProofs ModelSpectrogram SpectrogramProofs SpectrogramFrogProofs.
From Verif Require Import PropsPulseRegrid PropsODETableau PropsSpectrogramFrog ExSpectrogram ExSpectrogramFrog ExTight.
Import ListNotations.
Local Open Scope R_scope.

(** a pulse of four points loaded into one of two points *)
Example ex_C19_other_length : exists d, get_pulse_dict tie_p = (Ok d, tie_p) /\ fst (load_pulse_dict d (mkPulse 2 200 10 (Some [RtoC 1; RtoC 0]) None true None None None None)) = Raise ValueError.
Proof.
  destruct (C19_load_other_length_fails tie_p (mkPulse 2 200 10 (Some [RtoC 1; RtoC 0]) None true None None None None) _ [RtoC 1; RtoC 0] tie_holds) as (d & E & F & _); [cbn; lia|reflexivity|cbn; lia|]. exists d. auto.
Qed.
(** the fifth row of the tableau *)
Example ex_C46_row : Rabs (lrsum [a51; a53; a54] - c5) <= / 10 ^ 27.
Proof. apply C46_nodes_are_row_sums. do 3 right. left. reflexivity. Qed.
(** the trace of a single spectral line on eight points has four rows *)
Example ex_C117_trace : exists D F E S, spectrogram floorc "frog" 0 8 l8 = (Ok (D, F, E, S), l8) /\ length S = 4%nat /\ nth 3 F [] = repeat (INR 3 / 1) 8.
Proof.
  destruct (C117_trace floorc l8 (line8 (RtoC 1)) 0 4 floorc_ok (g8_holds 2 (RtoC 1)) eq_refl ltac:(lia) ltac:(cbn; lra)) as (D & F & E & S & H1 & H2 & H3 & _). exists D, F, E, S. split; [exact H1|]. split; [exact H2|]. apply (H3 3%nat). lia.
Qed.

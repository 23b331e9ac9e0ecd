(** Concrete cases for the frog spectrogram (C108, C117): an eight-point pulse, 2 THz, 1 ps window; map_coordinates taken as the value at the index below. *)
From Coq Require Import String.
From Coq Require Import Reals List ZArith Bool Arith Lia Lra.
From Coquelicot Require Import Complex.
From Verif Require Import Base CNum NumPy ModelPulse PulseProofs ModelSpectrogram SpectrogramProofs SpectrogramFrogProofs PropsSpectrogramFrog ExSpectrogram.
Import ListNotations.
Local Open Scope R_scope.
Local Open Scope py_scope.

Definition floorc (l : list R) (x : R) : R := if Rle_dec x (-1) then 0 else if Rle_dec (INR (length l)) x then 0 else nth (Z.to_nat (Int_part x)) l 0.
Lemma floorc_ok : interpolates floorc.
Proof.
  split.
  - intros l i Hi. unfold floorc. destruct (Rle_dec (INR i) (-1)) as [H|_]; [pose proof (pos_INR i); lra|]. destruct (Rle_dec (INR (length l)) (INR i)) as [H|_]; [apply INR_le in H; lia|]. f_equal.
    rewrite INR_IZR_INZ. unfold Int_part. rewrite <- (up_tech (IZR (Z.of_nat i)) (Z.of_nat i)) by (try rewrite plus_IZR; lra). lia.
  - intros l x H. unfold floorc. destruct (Rle_dec x (-1)); [reflexivity|]. destruct (Rle_dec (INR (length l)) x); [reflexivity|]. lra.
Qed.
Definition l8 := g8 2 (line8 (RtoC 1)).
Example ex_C108_frog_value : exists D F E S, spectrogram floorc "frog" 0 3 l8 = (Ok (D, F, E, S), l8).
Proof. destruct (C108_frog_value floorc l8 (line8 (RtoC 1)) 0 3 (g8_holds 2 (RtoC 1)) ltac:(cbn; lia) ltac:(cbn; lra) ltac:(lia)) as (S & E & _). do 4 eexists. exact E. Qed.
Example ex_C117_symmetric : exists D F E S, spectrogram floorc "frog" 0 8 l8 = (Ok (D, F, E, S), l8) /\ nth 6 (nth 1 S []) 0 = nth 2 (nth 1 S []) 0.
Proof.
  destruct (C117_symmetric floorc l8 (line8 (RtoC 1)) 0 4 floorc_ok (g8_holds 2 (RtoC 1)) eq_refl ltac:(lia) ltac:(cbn; lra)) as (D & F & E & S & H1 & H2). exists D, F, E, S. split; [exact H1|]. apply (H2 1%nat 2%nat); cbn; lia.
Qed.
Example ex_C117_scaling : exists D F E S D' F' E' S', spectrogram floorc "frog" 0 8 l8 = (Ok (D, F, E, S), l8) /\ spectrogram floorc "frog" 0 8 (g8 2 (map (Cmult (0, 2)) (line8 (RtoC 1)))) = (Ok (D', F', E', S'), g8 2 (map (Cmult (0, 2)) (line8 (RtoC 1)))) /\
  nth 3 (nth 1 S' []) 0 = Cmod (0, 2) ^ 2 * nth 3 (nth 1 S []) 0.
Proof.
  destruct (C117_scaling floorc l8 (g8 2 (map (Cmult (0, 2)) (line8 (RtoC 1)))) (line8 (RtoC 1)) (0, 2) 0 4 floorc_ok (g8_holds 2 (RtoC 1)) (g8_scaled (0, 2)) eq_refl eq_refl eq_refl eq_refl ltac:(lia) ltac:(cbn; lra)) as (D & F & E & S & D' & F' & E' & S' & H1 & H2 & H3).
  do 8 eexists. split; [exact H1|]. split; [exact H2|]. apply H3; cbn; lia.
Qed.

(** Further cases of C16, found by testing the theorems against wrong programs. *)
From Coq Require Import String.
From Coq Require Import Reals List ZArith Bool Arith Lia Lra Psatz.
From Coquelicot Require Import Complex.
From Verif Require Import Base CNum NumPy ModelFFT FFTProofs ModelPulse ModelPulseOps PulseProofs PulseOpsProofs.
Import ListNotations.
Local Open Scope R_scope.

Lemma py_round_tie z : py_round (IZR z + 1 / 2) = if Z.even z then z else (z + 1)%Z.
Proof.
  assert (E : Int_part (IZR z + 1 / 2) = z). { destruct (base_Int_part (IZR z + 1 / 2)) as (A & B). set (k := Int_part _) in *. assert (k < z + 1)%Z by (apply lt_IZR; rewrite plus_IZR; lra). assert (z < k + 1)%Z by (apply lt_IZR; rewrite plus_IZR; lra). lia. }
  unfold py_round. rewrite E. replace (IZR z + 1 / 2 - IZR z) with (1 / 2) by ring. destruct (Rlt_dec (1 / 2) (1 / 2)); [lra|]. reflexivity.
Qed.
(*! C16: a requested shift of a whole number of bins and a half moves the spectrum by the even one of the two neighbouring whole numbers. *)
Lemma C16_tie_l : forall (p : pulse) (a : list C) (wl : R) (z : Z), holds p a -> (2 <= p_n p)%nat -> 0 < p_tw p -> (c_nmps / wl - p_f p) * p_tw p = IZR z + 1 / 2 ->
  exists p' b (r : Z), rotate_spectrum_to_new_center_wl wl p = (Ok tt, p') /\ get_AW p' = (Ok b, p') /\ Z.even r = true /\ (r = z \/ r = (z + 1)%Z) /\
  forall k, (k < p_n p)%nat -> nth (Z.to_nat ((Z.of_nat k + r) mod Z.of_nat (p_n p))) b (RtoC 0) = nth k a (RtoC 0).
Proof.
  intros p a wl z Hh Hn Ht Hz. pose proof Hh as (Hr & Ha & Hl).
  assert (Ed : get_dF_THz p = (Ok (/ p_tw p), p)).
  { destruct (C04_units_l p) as (_ & _ & _ & _ & _ & _ & H); [exact Hr|lia|lra|]. rewrite H by exact Hn. now rewrite Rabs_pos_eq by lra. }
  assert (Er : py_round ((p_f p - c_nmps / wl) / / p_tw p) = if Z.even (- z - 1) then (- z - 1)%Z else (- z - 1 + 1)%Z).
  { rewrite <- py_round_tie. f_equal. rewrite minus_IZR, opp_IZR. unfold Rdiv at 1. rewrite Rinv_inv. lra. }
  set (r := (- 1 * py_round ((p_f p - c_nmps / wl) / / p_tw p))%Z).
  exists (with_AW (Some (roll r a)) p), (roll r a), r. split.
  { unfold rotate_spectrum_to_new_center_wl, get_center_frequency_THz. unfold bind at 1, gets at 1. unfold bind at 1. rewrite Ed. unfold bind at 1. rewrite (get_AW_run p a Ha). fold r.
    apply set_AW_ok; [now apply (holds_writable p a)|now rewrite roll_length]. }
  split; [reflexivity|]. split.
  { unfold r. rewrite Er. replace (- z - 1)%Z with (- (z + 1))%Z by ring. destruct (Z.even (- (z + 1))) eqn:Q; rewrite Z.even_opp, Z.even_add in Q.
    - replace (-1 * - (z + 1))%Z with (z + 1)%Z by ring. rewrite Z.even_add. exact Q.
    - replace (-1 * (- (z + 1) + 1))%Z with z by ring. destruct (Z.even z); [reflexivity|discriminate]. }
  split.
  { unfold r. rewrite Er. destruct (Z.even (- z - 1)); [right|left]; ring. }
  intros k Hk. rewrite roll_nth by (rewrite Hl; apply zmodn_lt; lia). rewrite Hl. f_equal.
  fold (zmodn (p_n p) (Z.of_nat k + r)). transitivity (zmodn (p_n p) (Z.of_nat k)); [|now apply zmodn_id].
  apply zmodn_eq. rewrite zmodn_of by lia. rewrite Zminus_mod_idemp_l. f_equal. ring.
Qed.

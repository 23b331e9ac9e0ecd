(** Concrete cases for C98 and C99. *)
From Coq Require Import String.
From Coq Require Import Reals List ZArith Bool Arith Lra Lia Psatz.
From Coquelicot Require Import Coquelicot.
From Verif Require Import Base CNum NumPy ModelPulse ModelCrystal ModelBeam CrystalProofs CrystalIndexProofs ModelDFG DFGPolingProofs ModelCrystalMore PropsQpm.
Import ListNotations.
Local Open Scope R_scope.
Local Open Scope py_scope.

Definition pp : ppln := mkPpln 24.5 24.5 24.5 Gayer.
(** a 1 cm PPLN crystal at 30 degC, poled for 1000 nm -> 1500 nm + 3000 nm *)
Definition dy : dcrystal := mkDX (mkX (Ppln (set_T 30 pp)) (Some 0.01) false) "PP" 14.9e-12 (fun _ => 3e-5).
Example ex_C98 : exists Lam, poling_period (ppln_n (set_T 30 pp)) None (Some 1000) (Some 1500) (Some 3000) 0 = Ok (Lam, None) /\ 0 < Lam /\
  exists fuel doms, precompute_poling fuel (set_pp (PTuple Lam) dy) = Ok doms.
Proof.
  destruct (C98_ppln_mismatch pp 30 1000 1500 3000 ltac:(lra) ltac:(lra) ltac:(lra) ltac:(lra) ltac:(lra) ltac:(lra) ltac:(field)) as (np & ns & ni & Ep & Es & Ei & Hd).
  destruct (C98_qpm_grows (ppln_n (set_T 30 pp)) dy 0.01 1000 1500 3000 np ns ni ltac:(lra) ltac:(lra) ltac:(lra) Ep Es Ei Hd eq_refl) as (Lam & E & P & H).
  exists Lam. split; [exact E|]. split; [exact P|]. destruct (nfloor_ex (0.01 / Lam)) as [f Hf]. { apply Rlt_le, Rdiv_lt_0_compat; lra. }
  destruct (H (Datatypes.S f)) as (doms & Ed & _); [rewrite S_INR; lra|]. exists (Datatypes.S f), doms. exact Ed.
Qed.
(** an index that grows with the wavelength gives a negative mismatch *)
Example ex_C98_negative : exists Lam, poling_period (fun wl => Ok (1 + wl / 10000)) None (Some 1000) (Some 1500) (Some 3000) 0 = Ok (Lam, None) /\ Lam < 0.
Proof.
  destruct (C98_negative_mismatch (fun wl => Ok (1 + wl / 10000)) dy 0.01 1000 1500 3000 (1 + 1000 / 10000) (1 + 1500 / 10000) (1 + 3000 / 10000) ltac:(lra) ltac:(lra) ltac:(lra) eq_refl eq_refl eq_refl) as (Lam & E & P & _); [|reflexivity|lra|exists Lam; split; assumption].
  pose proof PI_RGT_0. match goal with |- ?t < 0 => replace t with (2 * PI * (-100000)) by (set (p := PI); clearbody p; lra) end. lra.
Qed.
Example ex_C99 : exists t, overlap_objective 0.01 [1.2e7; 1.3e7] [8e6; 9e6] [0.02; 0.03] 0.01 = Ok (- lrsum t) /\ length t = 2%nat.
Proof.
  destruct (C99_objective 0.01 0.01 [1.2e7; 1.3e7] [8e6; 9e6] [0.02; 0.03] eq_refl eq_refl ltac:(lra)) as (t & E & Lt & _); [|exists t; split; assumption].
  intros [|[|i]] Hi; cbn [nth]; [| |cbn in Hi; lia]; repeat split; try lra; apply Rgt_not_eq; lra.
Qed.
Example ex_C99_equal : overlap_objective 0.01 [1.2e7; 1.3e7] [8e6; 1.3e7] [0.02; 0.03] 0.01 = Raise NonFinite.
Proof. apply (C99_equal_k 0.01 0.01 [1.2e7; 1.3e7] [8e6; 1.3e7] [0.02; 0.03] 1 eq_refl eq_refl ltac:(cbn; lia) eq_refl). Qed.

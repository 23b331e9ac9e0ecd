(** A concrete case for C52 on a loaded PPLN crystal: 100 um (four periods begin inside), pump at 30 THz, signal at 20 THz. *)
From Coq Require Import String.
From Coq Require Import Reals List ZArith Bool Arith Lia Lra.
From Coquelicot Require Import Complex.
From Verif Require Import Base CNum NumPy ModelPulse ModelCrystal ModelCrystalMore ModelBeam ModelDFG DFGMixProofs DFGPolingProofs DFGInitProofs DFGTotalProofs DFGAcceptProofs CrystalPolingProofs PropsDFGPoling PropsDFGAccept PropsCrystalPoling ExOptics ExDFG.
Import ListNotations.
Local Open Scope R_scope.
Local Open Scope py_scope.

Definition xp_crystal : crystal := mkX (Agse bx) (Some (1 / 10000)) false.
Definition xpp : dcrystal := ppln_load xp_crystal.
Lemma xpp_poled : exists doms, precompute_poling 4 xpp = Ok doms.
Proof. apply (C52_terminates xpp (1 / 10000) (3049 / 10 ^ 8) 4 eq_refl ltac:(lra)); [intros; cbn [xpp ppln_load dx_pp]; lra|]. cbn [INR]. lra. Qed.
Example ex_C52_ppln : forall strf rand k0, exists q, dfg_init strf 4 rand pu sg xpp true 1 true true (Some 100) k0 = (Ok (q, fftc_init 2), k0) /\
  deff_at q (40 / 10 ^ 6) = Ok (149 / 10 ^ 13) /\ deff_at q (50 / 10 ^ 6) = Ok (- (149 / 10 ^ 13)).
Proof.
  intros strf rand k0. destruct (cur_pu strf) as [A B]. destruct (cur_sg strf) as [C D].
  assert (E : exists q, dfg_init strf 4 rand pu sg xpp true 1 true true (Some 100) k0 = (Ok (q, fftc_init 2), k0)).
  { destruct (C71_accepted strf 4 rand pu sg xpp 1 true 100 (1 / 10000) k0 2 [RtoC 2; Ci] [RtoC 1; RtoC 1]) as (q & E & _); try assumption; try reflexivity; try (repeat split; reflexivity); try lia; try lra.
    - cbn. lra.
    - exact ex_ranges.
    - exact ex_order.
    - exact (xd_pos "PP").
    - right. split; [reflexivity|exact xpp_poled].
    - exists q. exact E. }
  destruct E as (q & E). exists q. split; [exact E|].
  pose proof (C52_ppln_loaded strf 4 rand pu sg xp_crystal None true 1 true true (Some 100) k0 q _ _ (1 / 10000) eq_refl ltac:(discriminate) E 1%nat) as Q. cbv zeta in Q. change (INR 1) with 1 in Q. split.
  - rewrite Q by lra. destruct (Rlt_dec _ _); [lra|reflexivity].
  - rewrite Q by lra. destruct (Rlt_dec _ _); [reflexivity|lra].
Qed.

(** SSFM.propagate: the two calls refused before the first section (C133). *)
From Coq Require Import Reals List ZArith Bool Arith Lia Lra.
From Coquelicot Require Import Complex.
From Verif Require Import Base CNum NumPy ModelFFT FFTProofs ModelPulse PulseProofs PulseOpsProofs PulseRegridProofs ModelSSFM SSFMLoopProofs SSFMProofs SSFMSymProofs SSFMPropProofs.
Import ListNotations.
Local Open Scope R_scope.
Local Open Scope py_scope.

(*! C133: for a live pulse and a fiber that answers, asking for no sections is an IndexError that leaves the pulse as it was, and no other number of sections is refused that way. *)
Lemma C133_no_sections_l : forall (c : cfg) (fuel : nat) (fb : fiber) (N : nat) (op : option R) (reload : bool) (s : ssfm) (p : pulse) (a : list C) (b : R -> list R) (g : list R) (Rw : list C) (F : R),
  holds p a -> (0 < p_n p)%nat -> p_f p <> 0 -> answers fb p op b g -> fst (calc_raman c (s_fR s) p) = Ok (Rw, F) -> 0 < fb_len fb -> 0 < s_dz s ->
  (fst (propagate c fuel fb N op reload s p) = Raise IndexError <-> N = 0%nat) /\ propagate c fuel fb 0 op reload s p = (Raise IndexError, p).
Proof.
  intros c fuel fb N op reload s p a b g Rw F Hh Hn Hf An HR HL Hd. split; [|reflexivity]. split; [|intros ->; reflexivity].
  intros E. destruct N as [|N]; [reflexivity|exfalso].
  destruct (propagate_run c fuel fb (S N) op reload s p a b g Rw F Hh Hn An HR Hf ltac:(lia) HL Hd) as (q & _ & R).
  destruct (cols _ _ _ _ _ _ _) as [[l sf]|]; [destruct R as (_ & _ & po & _ & _ & R)|]; rewrite R in E; discriminate.
Qed.

(*! C133: with the Raman response on, a Raman time of zero stops propagate with a ZeroDivisionError, whichever of the two built-in models is selected and however many sections were asked for; the pulse keeps its field and grid. With the response off the times are not looked at. *)
Lemma C133_zero_times_l : forall (c : cfg) (fuel : nat) (fb : fiber) (N : nat) (op : option R) (reload : bool) (s : ssfm) (p : pulse) (a : list C) (b : R -> list R) (g : list R),
  holds p a -> (0 < p_n p)%nat -> answers fb p op b g -> (0 < N)%nat -> c_tau1 c = 0 \/ c_tau2 c = 0 ->
  (c_noRaman c = false -> exists q, propagate c fuel fb N op reload s p = (Raise ZeroDivisionError, q) /\ like p q /\ get_AW q = (Ok a, q)) /\
  (c_noRaman c = true -> p_f p <> 0 -> 0 < fb_len fb -> 0 < s_dz s -> exists r q, propagate c fuel fb N op reload s p = (Ok r, q)).
Proof.
  intros c fuel fb N op reload s p a b g Hh Hn An HN Ht. split.
  - intros Hc. pose proof Hh as (Hr & Ha & Hl). destruct An as (_ & An2 & _ & An4). destruct (An2 p (like_refl p)) as (q1 & G1 & L1).
    exists q1. split; [|split; [exact L1|destruct (like_fields _ _ L1) as (_ & _ & _ & E4 & _ & _); apply get_AW_run; congruence]].
    assert (HR : fst (calc_raman c (s_fR s) p) = Raise ZeroDivisionError).
    { unfold calc_raman, bind, get_NPTS, gets. cbv iota beta. rewrite Hc. destruct (Req_EM_T (c_tau1 c * c_tau2 c ^ 2) 0) as [|Hx]; [reflexivity|]. exfalso. apply Hx. destruct Ht as [-> | ->]; ring. }
    unfold propagate. cbv zeta. destruct (Nat.eqb_spec N 0); [lia|]. unfold bind at 1, ret at 1. cbv iota beta. unfold bind at 1.
    rewrite (calc_epp_run p a Hh Hn). unfold bind at 1, get at 1. cbv iota beta.
    pose proof (clone_new_run p a Hh) as C. unfold create_cloned_pulse, bind, get, with_new in C. destruct (clone_pulse p (new_pulse None None)) as [[[]|e] w]; [clear C|discriminate].
    unfold bind at 1. unfold setup_fftw. unfold bind at 1. unfold get_NPTS at 1, gets at 1. cbv iota beta. unfold bind at 1. unfold get_V, need_ready, bind at 1 2, get at 1. rewrite Hr. unfold ret at 1, gets at 1. cbv iota beta.
    unfold bind at 1. rewrite G1. unfold bind at 1, lift at 1. rewrite assign_all_eq by (rewrite repeat_length, map_length; lia).
    unfold bind at 1, get_center_frequency_THz at 1, gets at 1. cbv iota beta. unfold bind at 1. rewrite (raman_like c (s_fR s) p q1 L1), HR. reflexivity.
  - intros Hc Hf HL Hd.
    assert (HR : fst (calc_raman c (s_fR s) p) = Ok (repeat (RtoC 1) (p_n p), s_fR s)) by (unfold calc_raman, bind, get_NPTS, gets; rewrite Hc; reflexivity).
    destruct (propagate_run c fuel fb N op reload s p a b g _ _ Hh Hn An HR Hf HN HL Hd) as (q & _ & R).
    destruct (cols _ _ _ _ _ _ _) as [[l sf]|]; [destruct R as (_ & _ & po & _ & _ & R)|]; rewrite R; eauto.
Qed.

(** Symmetries of the right-hand side of the DFG equations (C69) and the default SPM setting (C70). *)
From Coq Require Import String.
From Coq Require Import Reals List ZArith Bool Arith Lia Lra.
From Coquelicot Require Import Coquelicot.
From Verif Require Import Base CNum NumPy FFTProofs ModelPulse ModelCrystal ModelBeam ModelODE ModelDFG DFGMixProofs DFGProofs.
Import ListNotations.
Local Open Scope R_scope.
Local Open Scope py_scope.
Local Notation z0 := (RtoC 0).
Local Notation at0 x i := (nth i x z0).

Lemma scaled_mult (c mix : C) phi w deff n pa : scaled (c * mix)%C phi w deff n pa = (c * scaled mix phi w deff n pa)%C.
Proof. unfold scaled, Cdiv. ring. Qed.
Lemma csum2_scale n (b : nat -> nat -> bool) F G (v : C) : (forall i j, (i < n)%nat -> (j < n)%nat -> b i j = true -> F i j = (v * G i j)%C) ->
  csum n (fun i => csum n (fun j => if b i j then F i j else z0)) = (v * csum n (fun i => csum n (fun j => if b i j then G i j else z0)))%C.
Proof.
  intros H. rewrite <- csum_scal_l. apply csum_ext. intros i Hi. rewrite <- csum_scal_l. apply csum_ext. intros j Hj. destruct (b i j) eqn:E; [apply H; assumption|ring].
Qed.

Lemma covariance strf q z y y' dydx dydx' s d d' s1 s2 n (up us ui vp vs vi : nat -> C) :
  q_n q = n -> (2 <= n)%nat -> Nat.Even n -> fc_ok n (ds_fc s) -> length y = (3 * n)%nat -> length y' = (3 * n)%nat -> length dydx = (3 * n)%nat -> length dydx' = (3 * n)%nat ->
  deriv strf q z y dydx s = (Ok d, s1) -> deriv strf q z y' dydx' s = (Ok d', s2) ->
  (forall m, (m < n)%nat -> at0 (Ap q y') m = (up m * at0 (Ap q y) m)%C /\ at0 (As q y') m = (us m * at0 (As q y) m)%C /\ at0 (Ai q y') m = (ui m * at0 (Ai q y) m)%C) ->
  (forall a b c, (a < n)%nat -> (b < n)%nat -> (c < n)%nat -> (a + n / 2 = b + c)%nat -> (us b * ui c = vp a)%C /\ (up a * Cconj (ui c) = vs b)%C /\ (up a * Cconj (us b) = vi c)%C) ->
  forall m, (m < n)%nat -> at0 (Ap q d') m = (vp m * at0 (Ap q d) m)%C /\ at0 (As q d') m = (vs m * at0 (As q d) m)%C /\ at0 (Ai q d') m = (vi m * at0 (Ai q d) m)%C.
Proof.
  intros Qn Hn Ev Fc Ly Ly' Ld Ld' H H' Hy Hv m Hm.
  assert (Fr := H). unfold deriv in Fr. apply bind_ok in Fr as (fr & s3 & Fr & _). destruct fr as [[deff [[pp ps] pi]] [[ap as_] ai]].
  destruct (frame_phi strf q z s deff pp ps pi _ s3 Fr) as (_ & [Lp _] & [Ls _] & [Li _] & _). rewrite Qn in Lp, Ls, Li.
  destruct (deriv_core strf q z y dydx s d s1 n deff pp ps pi ap as_ ai s3 Qn Hn Ev Fc Ly Ld Fr Lp Ls Li H) as (_ & _ & wp & ws & wi & Ewp & Ews & Ewi & Np & Ns & Ni).
  destruct (deriv_core strf q z y' dydx' s d' s2 n deff pp ps pi ap as_ ai s3 Qn Hn Ev Fc Ly' Ld' Fr Lp Ls Li H') as (_ & _ & wp' & ws' & wi' & Ewp' & Ews' & Ewi' & Np' & Ns' & Ni').
  rewrite Ewp in Ewp'. rewrite Ews in Ews'. rewrite Ewi in Ewi'. injection Ewp' as <-. injection Ews' as <-. injection Ewi' as <-.
  destruct (Np m Hm) as (_ & _ & ->). destruct (Ns m Hm) as (_ & _ & ->). destruct (Ni m Hm) as (_ & _ & ->). destruct (Np' m Hm) as (_ & _ & ->). destruct (Ns' m Hm) as (_ & _ & ->). destruct (Ni' m Hm) as (_ & _ & ->).
  assert (Gp : forall a, (a < n)%nat -> gp ap pp y' q a = (up a * gp ap pp y q a)%C) by (intros a Ha; unfold gp; destruct (Hy a Ha) as (-> & _ & _); ring).
  assert (Gs : forall a, (a < n)%nat -> gs as_ ps y' q a = (us a * gs as_ ps y q a)%C) by (intros a Ha; unfold gs; destruct (Hy a Ha) as (_ & -> & _); ring).
  assert (Gi : forall a, (a < n)%nat -> gi ai pi y' q a = (ui a * gi ai pi y q a)%C) by (intros a Ha; unfold gi; destruct (Hy a Ha) as (_ & _ & ->); ring).
  rewrite <- !scaled_mult. split; [|split]; apply (f_equal (fun x => scaled x _ _ _ _ _)).
  - apply csum2_scale. intros b c Hb Hc E. apply Nat.eqb_eq in E. destruct (Hv m b c Hm Hb Hc (eq_sym E)) as (X & _ & _). rewrite Gs, Gi by assumption. rewrite <- X. ring.
  - apply csum2_scale. intros a c Ha Hc E. apply Nat.eqb_eq in E. destruct (Hv a m c Ha Hm Hc ltac:(lia)) as (_ & X & _). rewrite Gp, Gi by assumption. rewrite <- X, Cconj_mult. ring.
  - apply csum2_scale. intros a b Ha Hb E. apply Nat.eqb_eq in E. destruct (Hv a b m Ha Hb Hm E) as (_ & _ & X). rewrite Gp, Gs by assumption. rewrite <- X, Cconj_mult. ring.
Qed.

(*! C69: in every mode (bulk or waveguide, any crystal, poling and Gouy setting), scaling the pump, signal and idler by complex numbers alpha, beta, gamma scales the three derivatives by beta*gamma, alpha*conj(gamma)
    and alpha*conj(beta).  So common phases that satisfy the energy-conserving phase relation carry over, the right-hand side is homogeneous of degree two, and with two of the fields zero nothing happens. *)
Lemma C69_scaling_l : forall strf q z y y' dydx dydx' s d d' s1 s2 n (al be ga : C),
  q_n q = n -> (2 <= n)%nat -> Nat.Even n -> fc_ok n (ds_fc s) -> length y = (3 * n)%nat -> length y' = (3 * n)%nat -> length dydx = (3 * n)%nat -> length dydx' = (3 * n)%nat ->
  deriv strf q z y dydx s = (Ok d, s1) -> deriv strf q z y' dydx' s = (Ok d', s2) ->
  (forall m, (m < n)%nat -> nth m (Ap q y') (RtoC 0) = (al * nth m (Ap q y) (RtoC 0))%C /\ nth m (As q y') (RtoC 0) = (be * nth m (As q y) (RtoC 0))%C /\ nth m (Ai q y') (RtoC 0) = (ga * nth m (Ai q y) (RtoC 0))%C) ->
  forall m, (m < n)%nat -> nth m (Ap q d') (RtoC 0) = (be * ga * nth m (Ap q d) (RtoC 0))%C /\ nth m (As q d') (RtoC 0) = (al * Cconj ga * nth m (As q d) (RtoC 0))%C /\ nth m (Ai q d') (RtoC 0) = (al * Cconj be * nth m (Ai q d) (RtoC 0))%C.
Proof.
  intros strf q z y y' dydx dydx' s d d' s1 s2 n al be ga Qn Hn Ev Fc Ly Ly' Ld Ld' H H' Hy.
  apply (covariance strf q z y y' dydx dydx' s d d' s1 s2 n (fun _ => al) (fun _ => be) (fun _ => ga) (fun _ => be * ga)%C (fun _ => al * Cconj ga)%C (fun _ => al * Cconj be)%C Qn Hn Ev Fc Ly Ly' Ld Ld' H H' Hy). intros. auto.
Qed.

(*! C69: delaying the three pulses by the same time (a phase tau per grid point about the centre) and rotating pump and signal phases by phi_p and phi_s and the idler's by phi_p - phi_s delays and rotates the derivatives in the same way. *)
Lemma C69_shift_l : forall strf q z y y' dydx dydx' s d d' s1 s2 n (tau fp fs : R),
  q_n q = n -> (2 <= n)%nat -> Nat.Even n -> fc_ok n (ds_fc s) -> length y = (3 * n)%nat -> length y' = (3 * n)%nat -> length dydx = (3 * n)%nat -> length dydx' = (3 * n)%nat ->
  deriv strf q z y dydx s = (Ok d, s1) -> deriv strf q z y' dydx' s = (Ok d', s2) ->
  let rot := fun (f : R) (m : nat) => cis (f + tau * (INR m - INR n / 2)) in
  (forall m, (m < n)%nat -> nth m (Ap q y') (RtoC 0) = (rot fp m * nth m (Ap q y) (RtoC 0))%C /\ nth m (As q y') (RtoC 0) = (rot fs m * nth m (As q y) (RtoC 0))%C /\ nth m (Ai q y') (RtoC 0) = (rot (fp - fs)%R m * nth m (Ai q y) (RtoC 0))%C) ->
  forall m, (m < n)%nat -> nth m (Ap q d') (RtoC 0) = (rot fp m * nth m (Ap q d) (RtoC 0))%C /\ nth m (As q d') (RtoC 0) = (rot fs m * nth m (As q d) (RtoC 0))%C /\ nth m (Ai q d') (RtoC 0) = (rot (fp - fs)%R m * nth m (Ai q d) (RtoC 0))%C.
Proof.
  intros strf q z y y' dydx dydx' s d d' s1 s2 n tau fp fs Qn Hn Ev Fc Ly Ly' Ld Ld' H H' rot Hy.
  apply (covariance strf q z y y' dydx dydx' s d d' s1 s2 n (rot fp) (rot fs) (rot (fp - fs)) (rot fp) (rot fs) (rot (fp - fs)) Qn Hn Ev Fc Ly Ly' Ld Ld' H H' Hy). intros a b c _ _ _ E.
  destruct Ev as [h Eh]. assert (Hh : (n / 2)%nat = h) by (rewrite Eh, Nat.mul_comm; apply Nat.div_mul; lia). rewrite Hh in E. apply (f_equal INR) in E. rewrite !plus_INR in E. assert (En : INR n / 2 = INR h) by (rewrite Eh, mult_INR; cbn [INR]; field).
  unfold rot. rewrite En, !cis_conj, <- !cis_add. repeat split; f_equal; replace (INR a) with (INR b + INR c - INR h) by lra; ring.
Qed.

(** the same problem with another disable_SPM setting *)
Definition with_noSPM (b : bool) (q : dfg) : dfg :=
  mkDfg (q_pump q) (q_sgnl q) (q_idlr q) (q_xtal q) (q_doms q) (q_gouy q) b (q_n q) (q_beams q) (q_ystart q) (q_kp q) (q_ks q) (q_ki q) (q_kp0 q) (q_ks0 q) (q_ki0 q) (q_np q) (q_ns q) (q_ni q) (q_centre q) (q_speed q).

(*! C70: with SPM enabled - the constructor's default - the right-hand side never returns; wherever it would have returned a derivative with SPM disabled it raises AttributeError (Pulse has no attribute w_hz). *)
Lemma C70_spm_default_l : forall strf q z y dydx s,
  (forall d, fst (deriv strf (with_noSPM false q) z y dydx s) <> Ok d) /\
  (forall d s', deriv strf (with_noSPM true q) z y dydx s = (Ok d, s') -> fst (deriv strf (with_noSPM false q) z y dydx s) = Raise AttributeError).
Proof.
  intros strf q z y dydx s. split.
  - intros d H. destruct (deriv strf (with_noSPM false q) z y dydx s) as [r s1] eqn:E. cbn [fst] in H. subst r. unfold deriv in E. apply bind_ok in E as (fr & s2 & Fr & _). destruct fr as [[deff [[pp ps] pi]] pa]. destruct (frame_phi strf _ z s deff pp ps pi pa s2 Fr) as (_ & _ & _ & _ & N & _). discriminate.
  - intros d s' H. unfold deriv in H. apply bind_ok in H as (fr & s2 & Fr & _). unfold frame in Fr.
    apply bind_ok in Fr as (de & s3 & E & Fr). apply lift_ok in E as [Ed ->].
    apply bind_ok in Fr as (t & s3 & E & Fr). apply lift_ok in E as [Et ->].
    apply bind_ok in Fr as (p & s3 & E & Fr). apply lift_ok in E as [Ep ->]. apply bind_ok in Fr as (p0 & s3 & E & Fr). apply lift_ok in E as [Ep0 ->].
    apply bind_ok in Fr as (sg & s3 & E & Fr). apply lift_ok in E as [Es ->]. apply bind_ok in Fr as (sg0 & s3 & E & Fr). apply lift_ok in E as [Es0 ->].
    apply bind_ok in Fr as (i & s3 & E & Fr). apply lift_ok in E as [Ei ->]. apply bind_ok in Fr as (i0 & s3 & E & Fr). apply lift_ok in E as [Ei0 ->].
    apply bind_ok in Fr as (len & s3 & E & Fr). apply lift_ok in E as [El ->]. cbv zeta in Fr. apply bind_ok in Fr as (ph & s3 & E & Fr). apply lift_ok in E as [Eg ->].
    change (deff_at (with_noSPM true q) z) with (deff_at (with_noSPM false q) z) in Ed. change (q_speed (with_noSPM true q)) with (q_speed (with_noSPM false q)) in Et.
    change (phasor strf (q_kp (with_noSPM true q)) (q_kp0 (with_noSPM true q)) z t (q_pump (with_noSPM true q))) with (phasor strf (q_kp (with_noSPM false q)) (q_kp0 (with_noSPM false q)) z t (q_pump (with_noSPM false q))) in Ep.
    change (phasor strf (q_ks (with_noSPM true q)) (q_ks0 (with_noSPM true q)) z t (q_sgnl (with_noSPM true q))) with (phasor strf (q_ks (with_noSPM false q)) (q_ks0 (with_noSPM false q)) z t (q_sgnl (with_noSPM false q))) in Es.
    change (phasor strf (q_ki (with_noSPM true q)) (q_ki0 (with_noSPM true q)) z t (q_idlr (with_noSPM true q))) with (phasor strf (q_ki (with_noSPM false q)) (q_ki0 (with_noSPM false q)) z t (q_idlr (with_noSPM false q))) in Ei.
    change (q_n (with_noSPM true q)) with (q_n (with_noSPM false q)) in Ep0, Es0, Ei0. change (q_xtal (with_noSPM true q)) with (q_xtal (with_noSPM false q)) in El. change (add_gouy (with_noSPM true q)) with (add_gouy (with_noSPM false q)) in Eg.
    unfold deriv, frame. unfold bind at 1 2, lift at 1. rewrite Ed. unfold bind at 1, lift at 1. rewrite Et. unfold bind at 1, lift at 1. rewrite Ep. unfold bind at 1, lift at 1. rewrite Ep0. unfold bind at 1, lift at 1. rewrite Es. unfold bind at 1, lift at 1. rewrite Es0. unfold bind at 1, lift at 1. rewrite Ei. unfold bind at 1, lift at 1. rewrite Ei0. unfold bind at 1, lift at 1. rewrite El. unfold bind at 1, lift at 1. cbv zeta. rewrite Eg. reflexivity.
Qed.

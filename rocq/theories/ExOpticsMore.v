(** Concrete cases that meet the hypotheses of C84-C87. *)
From Coq Require Import String.
From Coq Require Import Reals List ZArith Bool Arith Lia Lra.
From Coquelicot Require Import Coquelicot.
From Verif Require Import Base CNum NumPy ModelFFT ModelPulse Spec PulseProofs PulseHistory ModelCrystal CrystalProofs CrystalShareProofs ModelBeam BeamProofs ModelGrating GratingProofs ModelODE ModelDFG DFGInitProofs DFGAcceptProofs OpticsMoreProofs.
From Verif Require Import PropsCrystalIndex PropsWaveVector PropsOpticsMore.
Import ListNotations.
Local Open Scope R_scope.
Local Open Scope py_scope.

(** ** C84: a crystal made at 25 degC and heated from 30 to 180 degC *)
Definition ln : ppln := mkPpln 25 25 25 Gayer.
Example ex_C84 : exists n nT nw, ppln_n (set_T 30 ln) 1064 = Ok n /\ ppln_n (set_T 180 ln) 1064 = Ok nT /\ ppln_n (set_T 30 ln) 1550 = Ok nw /\ nw < n < nT.
Proof. destruct (C84_ppln_index ln 30 180 1064 1550) as (n & nT & nw & A & B & D & _ & T & W); try lra. exists n, nT, nw. repeat split; try assumption; [apply W|apply T]; lra. Qed.

(** ** C85: a two-point pulse at 2000 and 1000 nm *)
Lemma nm2000 : 299792.458 * 2 * PI / (PI * 299.792458) = 2000.
Proof. pose proof PI_RGT_0. replace 299792.458 with (299.792458 * 1000) by lra. assert (U : 0 < 299.792458) by lra. set (u := 299.792458) in *. clearbody u. field. lra. Qed.
Lemma nm1000 : 299792.458 * 2 * PI / (2 * PI * 299.792458) = 1000.
Proof. pose proof PI_RGT_0. replace 299792.458 with (299.792458 * 1000) by lra. assert (U : 0 < 299.792458) by lra. set (u := 299.792458) in *. clearbody u. field. lra. Qed.
Lemma p12_cur strf : cur_wl strf p12 /\ cur_W strf p12 /\ omega p12 0 = PI * 299.792458 /\ omega p12 1 = 2 * PI * 299.792458.
Proof.
  assert (A : omega p12 0 = PI * 299.792458 /\ omega p12 1 = 2 * PI * 299.792458).
  { unfold omega, spec_W, mk. cbn [p12 p_n p_tw p_f seq map INR nth]. split; lra. }
  destruct A as [A0 A1]. split; [|split; [|split; assumption]].
  - unfold cur_wl. rewrite p12_wl'. cbn [fst]. do 2 f_equal. unfold omega in A0, A1. change (p_n p12) with 2%nat in *. unfold spec_W, mk in *. cbn [seq map nth] in *. rewrite A0, A1. replace (2 * PI * c_nmps) with (299792.458 * 2 * PI) by (unfold c_nmps, c_mks; lra). rewrite nm2000, nm1000. reflexivity.
  - unfold cur_W. rewrite W_mks_fst. cbn [p12 p_Wh hash_eqb p_ready]. rewrite W_of_spec. reflexivity.
Qed.
Example ex_C85 : forall (strf : R -> string) (k : shared), exists k1 k2, fst (get_pulse_k strf (mkX (Ppln (set_T 30 ln)) None false) None (k, p12)) = Ok [k1; k2] /\ 0 < k1 /\ 2 * k1 < k2.
Proof.
  intros strf k. destruct (p12_cur strf) as (C1 & C2 & O0 & O1). pose proof PI_RGT_0.
  destruct (C85_ppln_wave_vectors strf ln 30 None false None p12 k ltac:(lra) C1 C2) as (ks & E & L & N).
  { intros j Hj. change (p_n p12) with 2%nat in Hj. destruct j as [|[|j]]; [| |lia]; rewrite ?O0, ?O1.
    - rewrite nm2000. lra.
    - rewrite nm1000. lra. }
  change (p_n p12) with 2%nat in *. destruct ks as [|k1 [|k2 [|? ?]]]; try discriminate L. exists k1, k2. split; [exact E|].
  destruct (N 0%nat 0%nat ltac:(lia) ltac:(lia)) as [[B _] _]. destruct (N 0%nat 1%nat ltac:(lia) ltac:(lia)) as [_ M]. rewrite O0, O1 in *. cbn [nth] in *. split; [lra|].
  specialize (M ltac:(lra)). replace (2 * PI * 299.792458 / (PI * 299.792458)) with 2 in M; [lra|]. assert (U : 0 < 299.792458) by lra. set (u := 299.792458) in *. clearbody u. field. lra.
Qed.

(** ** C86: waists of 20 and 40 microns *)
Example ex_C86 : exists a1 a2, rtP_to_a (mkBeam [20e-6; 40e-6] [2e-6; 1e-6] None) [2.1; 2.2] 0 = Ok [a1; a2] /\ 0 < a1.
Proof.
  destruct (C86_one_watt (mkBeam [20e-6; 40e-6] [2e-6; 1e-6] None) [2.1; 2.2] 0) as (a & E & L & N); [reflexivity|cbn; intros w [<-|[<-|[]]]; lra|cbn; intros w [<-|[<-|[]]]; lra|].
  destruct a as [|a1 [|a2 [|? ?]]]; try discriminate L. exists a1, a2. split; [exact E|]. apply (N 0%nat). cbn. lia.
Qed.
Example ex_C86_waveguide : exists a, wg_rtP_to_a (wg_init (PI * 5 ^ 2) None) [2.1; 2.2] = Ok a /\ rtP_to_a (mkBeam [5 * 1e-6; 5 * 1e-6] [2e-6; 1e-6] None) [2.1; 2.2] 0 = Ok a.
Proof. apply (C86_waveguide_matches_beam 5 [2e-6; 1e-6] [2.1; 2.2] None None 0); [lra|cbn; intros w [<-|[<-|[]]]; lra]. Qed.

(** ** C87: an exact quadrature and a fit that is exact on three points exist *)
Definition quadI (f : R -> result R) (a b : R) : result R := Ok (RInt (fun x => match f x with Ok v => v | Raise _ => 0 end) a b).
Lemma quadI_exact : quad_exact quadI.
Proof. intros f F a b H. unfold quadI. f_equal. apply RInt_ext. intros x Hx. destruct (H x ltac:(lra)) as [-> _]. reflexivity. Qed.
Definition fit3 (xs ys : list R) : R * R * R :=
  match xs, ys with
  | [x0; x1; x2], [y0; y1; y2] =>
      let d0 := y0 / ((x0 - x1) * (x0 - x2)) in let d1 := y1 / ((x1 - x0) * (x1 - x2)) in let d2 := y2 / ((x2 - x0) * (x2 - x1)) in
      (d0 + d1 + d2, - (d0 * (x1 + x2) + d1 * (x0 + x2) + d2 * (x0 + x1)), d0 * x1 * x2 + d1 * x0 * x2 + d2 * x0 * x1)
  | _, _ => (0, 0, 0)
  end.
Lemma fit3_interp : interp3 fit3.
Proof. intros x0 x1 x2 y0 y1 y2 H. eexists _, _, _. split; [reflexivity|]. split; [|split]; field; repeat split; lra. Qed.
Example ex_C87_ruling : exists t theta, treacy_init 1000 0 = Ok t /\ calc_theta t 500 = Ok theta /\ sin (- theta) = 1 / 2.
Proof.
  destruct (C87_ruling 1000 0) as [_ A]. destruct (A ltac:(lra)) as (t & E & H). assert (Et : t = mkTreacy (1e-3 / 1000) (0 * 2 * PI / 360)) by (unfold treacy_init in E; destruct (Req_EM_T 1000 0); [lra|injection E as <-; reflexivity]).
  destruct (C64_grating_equation_l t 500) as [_ [_ X]]. destruct X as [theta Eth]. { rewrite Et. cbn [t_d t_g]. split; [lra|]. exists (PI / 6). rewrite sin_PI6. replace (0 * 2 * PI / 360) with 0 by lra. rewrite sin_0. lra. }
  exists t, theta. split; [exact E|]. split; [exact Eth|]. specialize (H 500 theta Eth). replace (PI * (0 / 180)) with 0 in H by lra. rewrite sin_0 in H. replace (- theta) with (0 - theta) by ring. lra.
Qed.
Example ex_C87 : forall strf, exists p' b, apply_phase_to_pulse strf quadI fit3 gr1000 1e-6 p500 = (Ok tt, p') /\ p_AW p' = Some b /\ length b = 3%nat.
Proof.
  intros strf. pose proof PI_RGT_0. destruct (C87_written_phase_partial strf quadI fit3 gr1000 1e-6 p500 [RtoC 1; RtoC 1; RtoC 1] (delay_of gr1000 1e-6)) as (p' & b & E & Eb & L & _).
  - apply quadI_exact.
  - cbn. lra.
  - repeat split.
  - unfold cur_W. rewrite W_mks_fst. cbn [p500 p_Wh hash_eqb p_ready]. rewrite W_of_spec. reflexivity.
  - assert (D0 : t_d gr1000 <> 0) by (cbn; lra). intros x j Hj Hx. assert (B : 2 * PI * 5e14 < x < 2 * PI * 7e14).
    { change (p_n p500) with 3%nat in *. unfold spec_W, mk in Hx. destruct j as [|[|[|j]]]; [| | |lia]; cbn [p500 p_n p_tw p_f seq map INR nth] in Hx.
      - rewrite Rmin_right, Rmax_left in Hx by lra. lra.
      - rewrite Rmin_right, Rmax_left in Hx by lra. lra.
      - rewrite Rmin_left, Rmax_right in Hx by lra. lra. }
    destruct (gr_diff x B) as [Hd _]. split; [exact Hd|]. apply delay_ok; assumption.
  - exists p', b. auto.
Qed.
Example ex_C87_refuted : forall strf, exists (p p' : pulse), p_n p = 3%nat /\ exists t G, apply_phase_to_pulse strf quadI fit3 t G p = (Ok tt, p').
Proof. intros strf. destruct (C87_group_delay_refuted strf quadI fit3 quadI_exact fit3_interp) as (t & G & p & p' & a & b & tau & c2 & c1 & c0 & _ & _ & _ & Hn & _ & _ & _ & E & _). exists p, p'. split; [exact Hn|]. exists t, G. exact E. Qed.

(** Concrete cases for PropsBeamMore. *)
From Coq Require Import String.
From Coq Require Import Reals List ZArith Bool Arith Lia Lra.
From Coquelicot Require Import Rcomplements Complex.
From Verif Require Import Base CNum NumPy ModelPulse ModelCrystal CrystalProofs CrystalShareProofs ModelBeam BeamProofs ExOptics PropsBeamMore.
Import ListNotations.
Local Open Scope R_scope.
Local Open Scope py_scope.

(** a negative-index medium and one of index zero: 10 um waist, 1 um wavelength *)
Example ex_C65_direction : exists zR ph, calculate_zR (mkBeam [1e-5] [1e-6; 1e-6] None) [-2; 0] = Ok zR /\ calculate_gouy_phase (mkBeam [1e-5] [1e-6; 1e-6] None) 1e-3 [-2; 0] = Ok ph /\
  nth 0 zR 0 < 0 /\ nth 1 zR 0 = 0 /\ nth 1 ph (RtoC 0) = Ci.
Proof.
  assert (E : exists zR, calculate_zR (mkBeam [1e-5] [1e-6; 1e-6] None) [-2; 0] = Ok zR /\ nth 0 zR 0 < 0 /\ nth 1 zR 0 = 0 /\ length zR = 2%nat).
  { unfold calculate_zR, calc_confocal, bcast. cbn [b_lam b_w0 broadcast2 rbind length Nat.eqb map2 map]. 
    cbn [rtraverse fst snd rbind]. rewrite !fdiv_ok by lra. cbn -[Rmult Rdiv pow PI]. eexists. split; [reflexivity|]. pose proof PI_RGT_0. cbn [nth length]. split; [|split; [|reflexivity]].
    - assert (0 < 2 * PI * 1e-5 ^ 2) by (apply Rmult_lt_0_compat; [lra|apply pow_lt; lra]). set (u := 2 * PI * 1e-5 ^ 2) in *. unfold Rdiv. lra.
    - unfold Rdiv. ring. }
  destruct E as (zR & E & N0 & N1 & L). eexists. eexists. split; [exact E|]. split; [unfold calculate_gouy_phase; rewrite E; reflexivity|]. split; [exact N0|]. split; [exact N1|].
  destruct (C65_gouy_direction _ _ 1e-3 _ _ E ltac:(unfold calculate_gouy_phase; rewrite E; reflexivity)) as [_ N]. destruct (N 1%nat ltac:(lia)) as [D _]. rewrite N1 in D.
  replace (1e-3 ^ 2 + 0 ^ 2) with (Rsqr 1e-3) in D by (unfold Rsqr; ring). rewrite sqrt_Rsqr in D by lra.
  apply (f_equal (Cmult (RtoC 1000))) in D. set (v := nth 1 _ _) in *. apply (f_equal (fun z => z)) in D. rewrite Cmult_assoc, <- RtoC_mult in D. replace (1000 * 1e-3) with 1 in D by lra. rewrite Cmult_1_l in D. rewrite D. apply injective_projections; cbn; lra.
Qed.
Example ex_C63_waveguide : forall strf k g, exists r, calc_overlap_integral strf b1 5e-3 p12 p12 b1 xc k = (Ok r, k) /\ length r = 2%nat /\ nth 0 r 0 = wg_overlap g /\ nth 1 r 0 = wg_overlap g.
Proof.
  intros strf k g. destruct (xc_k strf b1 k (or_introl eq_refl)) as (k1 & k2 & P1 & P2 & E1). pose proof PI_RGT_0.
  assert (Z : forall w ax, calculate_zR (mkBeam [w] [2e-6; 1e-6] ax) [2; 2] = Ok [2 * PI * w ^ 2 * (2 / 2e-6) / 2; 2 * PI * w ^ 2 * (2 / 1e-6) / 2]) by (intros; unfold calculate_zR; rewrite b_conf; reflexivity).
  assert (Pz : forall w l, 0 < w -> 0 < l -> 0 < 2 * PI * w ^ 2 * (2 / l) / 2). { intros w l Hw Hl. assert (0 < w ^ 2) by (apply pow_lt; exact Hw). assert (0 < 2 / l) by (apply Rdiv_lt_0_compat; lra). assert (0 < 2 * PI * w ^ 2) by (apply Rmult_lt_0_compat; lra). apply Rdiv_lt_0_compat; [apply Rmult_lt_0_compat; assumption|lra]. }
  destruct (C63_waveguide_matches_beam strf b1 b1 5e-3 p12 p12 xc k k k k k [2; 2] [2; 2] _ [k1; k2] g (xc_n strf b1 k (or_introl eq_refl)) (xc_n strf b1 k (or_introl eq_refl)) (Z _ _) (Z _ _) E1 E1) as (r & E & L & N); [reflexivity| |].
  { intros v [[<-|[<-|[]]]|[<-|[<-|[]]]]; try assumption; apply Pz; lra. }
  exists r. split; [exact E|]. split; [exact L|]. split; apply N; cbn; lia.
Qed.
Example ex_C59_missing : forall x, phasematch x (Some 1000) None None true = Raise TypeError.
Proof. intros x. apply C59_too_few_wavelengths; [|right; right; auto]. intros v [[= <-]|[H|H]]; [lra|discriminate..]. Qed.
Example ex_C60_missing : poling_period (fun wl => Ok (1 + 1000 / wl)) None None (Some 2000) None 0 = Raise TypeError.
Proof. apply C60_too_few_wavelengths; [|right; left; auto]. intros v [H|[[= <-]|H]]; [discriminate|lra|discriminate]. Qed.

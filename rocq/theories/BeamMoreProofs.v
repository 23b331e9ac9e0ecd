(** More about beams, waveguide modes and crystals: the Gouy factor for every Rayleigh range (C65), the overlap of equal Gaussian beams against a waveguide mode's (C63), calls with too few wavelengths (C59, C60). *)
From Coq Require Import String.
From Coq Require Import Reals List ZArith Bool Arith Lia Lra.
From Coquelicot Require Import Rcomplements Complex.
From Verif Require Import Base CNum NumPy ModelPulse ModelCrystal CrystalProofs ModelBeam BeamProofs.
Import ListNotations.
Local Open Scope R_scope.
Local Open Scope py_scope.

Lemma hyp_factor z r : r <> 0 -> sqrt (z ^ 2 + r ^ 2) = Rabs r * sqrt (1 + (z / r)²).
Proof.
  intros Hr. rewrite <- (sqrt_Rsqr_abs r). rewrite <- sqrt_mult_alt by apply Rle_0_sqr. f_equal. unfold Rsqr. field. exact Hr.
Qed.
Lemma cis_arctan2 z r : (RtoC (sqrt (z ^ 2 + r ^ 2)) * cis (arctan2 z r))%C = (RtoC r + Ci * RtoC z)%C.
Proof.
  assert (G : r <> 0 -> 0 < sqrt (1 + (z / r)²)) by (intros _; apply sqrt_lt_R0; pose proof (Rle_0_sqr (z / r)); lra).
  unfold arctan2. destruct (Rlt_dec 0 r) as [P|P].
  { rewrite hyp_factor by lra. specialize (G ltac:(lra)). rewrite (Rabs_right r) by lra. unfold cis. rewrite cos_atan, sin_atan. apply injective_projections; cbn; field; lra. }
  destruct (Rlt_dec r 0) as [Q|Q].
  { rewrite hyp_factor by lra. specialize (G ltac:(lra)). rewrite (Rabs_left r) by lra.
    assert (K : forall s, cos s = - cos (atan (z / r)) -> sin s = - sin (atan (z / r)) -> (RtoC (- r * sqrt (1 + (z / r)²)) * cis s)%C = (RtoC r + Ci * RtoC z)%C).
    { intros s Ec Es. unfold cis. rewrite Ec, Es, cos_atan, sin_atan. apply injective_projections; cbn; field; lra. }
    destruct (Rle_dec 0 z); apply K.
    - apply neg_cos.
    - apply neg_sin.
    - replace (atan (z / r) - PI) with (- (PI - atan (z / r))) by ring. rewrite cos_neg. apply Rtrigo_facts.cos_pi_minus.
    - replace (atan (z / r) - PI) with (- (PI - atan (z / r))) by ring. rewrite sin_neg, sin_PI_x. reflexivity. }
  assert (r = 0) as -> by lra. replace (z ^ 2 + 0 ^ 2) with (Rsqr z) by (unfold Rsqr; ring). rewrite sqrt_Rsqr_abs. unfold cis.
  destruct (Rlt_dec 0 z) as [A|A]; [|destruct (Rlt_dec z 0) as [B|B]].
  - rewrite Rabs_right by lra. rewrite cos_PI2, sin_PI2. apply injective_projections; cbn; ring.
  - rewrite Rabs_left by lra. replace (- PI / 2) with (- (PI / 2)) by (unfold Rdiv; ring). rewrite cos_neg, sin_neg, cos_PI2, sin_PI2. apply injective_projections; cbn; ring.
  - replace z with 0 by lra. rewrite Rabs_R0. apply injective_projections; cbn; ring.
Qed.

(*! C65: the Gouy factor points along z_R + i z in every quadrant: for every beam, every index list and every z for which it is computed - Rayleigh ranges of either sign, and zero ones - sqrt(z^2 + z_R^2) times the factor is z_R + i z, and the factor has modulus one. *)
Lemma C65_gouy_direction_l : forall (b : beam) (n : list R) (z : R) (zR : list R) (ph : list C),
  calculate_zR b n = Ok zR -> calculate_gouy_phase b z n = Ok ph ->
  length ph = length zR /\ forall i, (i < length zR)%nat ->
    (RtoC (sqrt (z ^ 2 + nth i zR 0 ^ 2)) * nth i ph (RtoC 0))%C = (RtoC (nth i zR 0) + Ci * RtoC z)%C /\ Cmod (nth i ph (RtoC 0)) = 1.
Proof.
  intros b n z zR ph Ez Eg. unfold calculate_gouy_phase in Eg. rewrite Ez in Eg. cbn [rbind] in Eg. injection Eg as <-. split; [apply map_length|]. intros i Hi.
  rewrite (nth_map' _ _ _ 0) by exact Hi. split; [apply cis_arctan2|]. apply cis_mod.
Qed.

(*! C63: a waveguide mode overlaps with another exactly as two Gaussian beams of the same wavevector and Rayleigh range do, at every distance from the focus: no power is lost, at any wavelength. *)
Lemma C63_waveguide_matches_beam_l : forall (strf : R -> string) (self ob : beam) (z : R) (this othr : pulse) (x : crystal) (k s1 s2 s3 s4 : shared) (n1 n2 zr kk : list R) (g : waveguide),
  get_n_in_crystal strf self this x k = (Ok n1, s1) -> get_n_in_crystal strf ob othr x s1 = (Ok n2, s2) -> calculate_zR self n1 = Ok zr -> calculate_zR ob n2 = Ok zr ->
  get_k_in_crystal strf self this x s2 = (Ok kk, s3) -> get_k_in_crystal strf ob othr x s3 = (Ok kk, s4) -> length zr = length kk ->
  (forall v, In v zr \/ In v kk -> 0 < v) ->
  exists r, calc_overlap_integral strf self z this othr ob x k = (Ok r, s4) /\ length r = length kk /\ forall i, (i < length kk)%nat -> nth i r 0 = wg_overlap g.
Proof.
  intros strf self ob z this othr x k s1 s2 s3 s4 n1 n2 zr kk g E1 E2 Z1 Z2 K1 K2 L P.
  destruct (C63_overlap_fraction_l strf self ob z this othr x k s1 s2 s3 s4 n1 n2 zr zr kk kk (length kk) E1 E2 Z1 Z2 K1 K2 L L eq_refl eq_refl) as (r & E & Lr & N).
  { intros v [H|[H|[H|H]]]; apply P; auto. }
  exists r. split; [exact E|]. split; [exact Lr|]. intros i Hi. destruct (N i Hi) as (_ & Q & _). rewrite (Q eq_refl eq_refl). reflexivity.
Qed.

Lemma fill_missing pump sgnl idlr : (forall v, pump = Some v \/ sgnl = Some v \/ idlr = Some v -> v <> 0) ->
  (pump = None /\ sgnl = None \/ pump = None /\ idlr = None \/ sgnl = None /\ idlr = None) -> fill pump sgnl idlr = Raise TypeError.
Proof.
  intros P [[-> ->]|[[-> ->]|[-> ->]]]; unfold fill, inv1.
  - destruct idlr as [v|]; [|reflexivity]. rewrite fdiv_ok by (apply P; auto). reflexivity.
  - reflexivity.
  - destruct pump as [v|]; [|reflexivity]. cbn [rbind]. rewrite fdiv_ok by (apply P; auto). reflexivity.
Qed.

(*! C59: a call that leaves two or all three wavelengths open is rejected with TypeError, before the crystal is looked at (the wavelengths given being nonzero). *)
Lemma C59_too_few_wavelengths_l : forall (x : agse) (pump sgnl idlr : option R) (rw : bool),
  (forall v, pump = Some v \/ sgnl = Some v \/ idlr = Some v -> v <> 0) ->
  (pump = None /\ sgnl = None \/ pump = None /\ idlr = None \/ sgnl = None /\ idlr = None) -> phasematch x pump sgnl idlr rw = Raise TypeError.
Proof. intros x pump sgnl idlr rw P H. unfold phasematch. rewrite (fill_missing _ _ _ P H). reflexivity. Qed.

(*! C60: the same holds for the poling period, for every index function and crystal length. *)
Lemma C60_too_few_wavelengths_l : forall (n : R -> result R) (len : option R) (pump sgnl idlr : option R) (dkL : R),
  (forall v, pump = Some v \/ sgnl = Some v \/ idlr = Some v -> v <> 0) ->
  (pump = None /\ sgnl = None \/ pump = None /\ idlr = None \/ sgnl = None /\ idlr = None) -> poling_period n len pump sgnl idlr dkL = Raise TypeError.
Proof. intros n len pump sgnl idlr dkL P H. unfold poling_period. rewrite (fill_missing _ _ _ P H). reflexivity. Qed.

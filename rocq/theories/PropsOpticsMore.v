(** Property theorems proved in OpticsMoreProofs.v (generated by tools/gen_props.py). *)
From Coq Require Import String.
From Coq Require Import Reals List ZArith Bool Arith Lia Lra Psatz.
From Coquelicot Require Import Coquelicot.
From Verif Require Import Base CNum NumPy ModelFFT FFTProofs ModelPulse ModelPulseOps Spec PulseProofs PulseHistory PulseOpsProofs PulseRegridProofs DerivedProofs ModelCrystal CrystalProofs ModelBeam BeamProofs ModelGrating GratingProofs ModelODE ModelDFG DFGMixProofs DFGProofs DFGInitProofs DFGOutProofs DFGTotalProofs DFGAcceptProofs OpticsMoreProofs.
Import ListNotations.
Local Open Scope R_scope.
Local Open Scope py_scope.

(** C86: for a beam with positive waists in a medium with positive indices, rtP_to_a gives at every wavelength the amplitude a whose Gaussian beam, of intensity 2 n eps0 c a^2 exp(-2 r^2/w^2), carries one watt through the whole transverse plane; the waist used is the focal one, whatever z is given. *)
Theorem C86_one_watt : forall (b : beam) (ns : list R) (z : R),
  length (b_w0 b) = length ns -> (forall w, In w (b_w0 b) -> 0 < w) -> (forall n, In n ns -> 0 < n) ->
  exists a, rtP_to_a b ns z = Ok a /\ length a = length ns /\ forall i, (i < length ns)%nat -> 0 < nth i a 0 /\
    is_lim (fun radius => RInt (fun r => 2 * nth i ns 0 * eps0 * 299792458 * nth i a 0 ^ 2 * exp (- 2 * r ^ 2 / nth i (b_w0 b) 0 ^ 2) * (2 * PI * r)) 0 radius) p_infty 1.
Proof. exact C86_one_watt_l. Qed.
Print Assumptions C86_one_watt.

(** C86 (waveguide): a waveguide mode whose effective area (in square microns) is pi times the square of a beam's waist (in microns) has the same amplitude per root watt as that beam, in every medium. *)
Theorem C86_waveguide_matches_beam : forall (w_um : R) (lam ns : list R) (axis axis' : option string) (z : R), 0 < w_um -> (forall n, In n ns -> 0 < n) ->
  exists a, wg_rtP_to_a (wg_init (PI * w_um ^ 2) axis) ns = Ok a /\ rtP_to_a (mkBeam (repeat (w_um * 1e-6) (length ns)) lam axis') ns z = Ok a.
Proof. exact C86_waveguide_matches_beam_l. Qed.
Print Assumptions C86_waveguide_matches_beam.

(** C87 (units): a grating made with its ruling in lines per millimetre and its angle of incidence in degrees diffracts according to sin(diffraction angle) + sin(angle of incidence) = (wavelength in mm) x (lines per mm); making it fails only for a ruling of zero lines. *)
Theorem C87_ruling : forall lines degrees : R,
  (lines = 0 -> treacy_init lines degrees = Raise ZeroDivisionError) /\
  (lines <> 0 -> exists t, treacy_init lines degrees = Ok t /\
     forall wl_nm theta, calc_theta t wl_nm = Ok theta -> sin (PI * (degrees / 180) - theta) + sin (PI * (degrees / 180)) = wl_nm * 1e-6 * lines).
Proof. exact C87_ruling_l. Qed.
Print Assumptions C87_ruling.

(** C87 (partial: the linear term is not the group delay, see the refutation): with an exact quadrature, a compressor whose grating diffracts every frequency between the centre and the ends of the pulse's grid multiplies the bin at each frequency W by exp(i phase), the phase being twice the integral of the single-pass group delay from the centre frequency to W, plus a term linear in W - w0 whose factor is the second derivative of the quadratic fitted to that phase. *)
Theorem C87_written_phase_partial : forall (strf : R -> string) (quad : (R -> result R) -> R -> R -> result R) (polyfit2 : list R -> list R -> R * R * R) (t : treacy) (G : R) (p : pulse) (a : list C) (tau : R -> R),
  quad_exact quad -> t_d t <> 0 -> holds p a -> cur_W strf p ->
  let w0 := 2 * PI * p_f p * 1e12 in let W := map (fun w => w * 1e12) (spec_W (p_n p) (p_tw p) (p_f p)) in
  (forall x j, (j < p_n p)%nat -> Rmin w0 (nth j W 0) <= x <= Rmax w0 (nth j W 0) -> diffracted t x /\ calc_dphi_domega t x G = Ok (tau x)) ->
  let phi := map (fun w => 2 * RInt tau w0 w) W in
  exists p' b, apply_phase_to_pulse strf quad polyfit2 t G p = (Ok tt, p') /\ p_AW p' = Some b /\ length b = p_n p /\
    forall j c2 c1 c0, (j < p_n p)%nat -> polyfit2 W phi = (c2, c1, c0) ->
      nth j b (RtoC 0) = (nth j a (RtoC 0) * cis (2 * RInt tau w0 (nth j W 0) + 2 * c2 * (nth j W 0 - w0)))%C.
Proof. exact C87_written_phase_partial_l. Qed.
Print Assumptions C87_written_phase_partial.

(** C87 (refutation): the linear term does not remove the group delay, which is what the code computes it for. For every exact quadrature and every quadratic fit that is exact on three points there are a grating of 1000 lines/mm, a separation and a three-point pulse for which the field written differs from the one whose phase has the fitted group delay at the centre frequency taken out. *)
Theorem C87_group_delay_refuted : forall (strf : R -> string) (quad : (R -> result R) -> R -> R -> result R) (polyfit2 : list R -> list R -> R * R * R),
  quad_exact quad -> interp3 polyfit2 ->
  exists (t : treacy) (G : R) (p p' : pulse) (a b : list C) (tau : R -> R) (c2 c1 c0 : R),
    let w0 := 2 * PI * p_f p * 1e12 in let W := map (fun w => w * 1e12) (spec_W (p_n p) (p_tw p) (p_f p)) in
    treacy_init 1000 0 = Ok t /\ 0 < G /\ holds p a /\ p_n p = 3%nat /\ cur_W strf p /\
    (forall x j, (j < p_n p)%nat -> Rmin w0 (nth j W 0) <= x <= Rmax w0 (nth j W 0) -> diffracted t x /\ calc_dphi_domega t x G = Ok (tau x)) /\
    polyfit2 W (map (fun w => 2 * RInt tau w0 w) W) = (c2, c1, c0) /\
    apply_phase_to_pulse strf quad polyfit2 t G p = (Ok tt, p') /\ p_AW p' = Some b /\
    nth 2 b (RtoC 0) <> (nth 2 a (RtoC 0) * cis (2 * RInt tau w0 (nth 2 W 0) - (2 * c2 * w0 + c1) * (nth 2 W 0 - w0)))%C.
Proof. exact C87_group_delay_refuted_l. Qed.
Print Assumptions C87_group_delay_refuted.

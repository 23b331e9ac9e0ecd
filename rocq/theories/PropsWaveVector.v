(** Property theorems proved in WaveVectorProofs.v (generated by tools/gen_props.py). *)
From Coq Require Import String.
From Coq Require Import Reals List ZArith Bool Arith Lia Lra Psatz.
From Coquelicot Require Import Coquelicot.
From Verif Require Import Base CNum NumPy FFTProofs ModelPulse Spec ModelDerived PulseProofs PulseHistory PulseRegridProofs DerivedProofs ModelCrystal CrystalProofs CrystalIndexProofs ModelBeam BeamProofs ModelODE ModelDFG DFGMixProofs DFGProofs DFGInitProofs DFGOutProofs DFGTotalProofs DFGAcceptProofs WaveVectorProofs.
Import ListNotations.
Local Open Scope R_scope.
Local Open Scope py_scope.

(** C85: for a pulse whose grids are up to date and lie at positive frequencies, get_pulse_k gives, at grid point j, the index of the crystal at that point's own vacuum wavelength times its angular frequency (rad/s) over the speed of light; it fails exactly when the index does, in the same way. *)
Theorem C85_wave_vectors : forall (strf : R -> string) (x : crystal) (axis : option string) (p : pulse) (k : shared),
  cur_wl strf p -> cur_W strf p -> (forall j, (j < p_n p)%nat -> 0 < omega p j) ->
  match index (x_mat x) axis (map (fun w => 299792.458 * 2 * PI / w) (spec_W (p_n p) (p_tw p) (p_f p))) with
  | Ok ns => exists ks, fst (get_pulse_k strf x axis (k, p)) = Ok ks /\ length ks = p_n p /\
      forall j, (j < p_n p)%nat -> nth j ks 0 = nth j ns 0 * (nth j (spec_W (p_n p) (p_tw p) (p_f p)) 0 * 1e12) / 299792458
  | Raise e => fst (get_pulse_k strf x axis (k, p)) = Raise e
  end.
Proof. exact C85_wave_vectors_l. Qed.
Print Assumptions C85_wave_vectors.

(** C85 (PPLN): in a PPLN crystal brought to any temperature from 20 to 250 degC, every pulse whose spectrum lies between 500 and 4500 nm gets wave vectors that lie between 1.8 and 2.4 times the vacuum wave vector and grow strictly, and more than proportionally, with frequency. *)
Theorem C85_ppln_wave_vectors : forall (strf : R -> string) (x : ppln) (T : R) (len : option R) (b : bool) (axis : option string) (p : pulse) (k : shared),
  20 <= T <= 250 -> cur_wl strf p -> cur_W strf p ->
  (forall j, (j < p_n p)%nat -> 0 < omega p j /\ 500 <= 299792.458 * 2 * PI / omega p j <= 4500) ->
  exists ks, fst (get_pulse_k strf (mkX (Ppln (set_T T x)) len b) axis (k, p)) = Ok ks /\ length ks = p_n p /\
    forall i j, (i < p_n p)%nat -> (j < p_n p)%nat ->
      1.8 * (omega p j * 1e12 / 299792458) < nth j ks 0 < 2.4 * (omega p j * 1e12 / 299792458) /\
      (omega p i < omega p j -> nth i ks 0 * (omega p j / omega p i) < nth j ks 0).
Proof. exact C85_ppln_wave_vectors_l. Qed.
Print Assumptions C85_ppln_wave_vectors.

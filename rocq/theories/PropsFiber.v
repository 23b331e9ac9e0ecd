(** Property theorems proved in FiberProofs.v (generated by tools/gen_props.py). *)
From Coq Require Import String.
From Coq Require Import Reals List ZArith Bool Arith Factorial Lia Lra.
From Coquelicot Require Import Rcomplements.
From Verif Require Import Base CNum NumPy ModelPulse PulseProofs PulseRegridProofs ModelCrystal CrystalProofs ModelBeam BeamProofs ODEIntProofs ModelFiber FiberProofs.
Import ListNotations.
Local Open Scope R_scope.
Local Open Scope py_scope.

(** C55: in the Taylor (GVD) and index formats, whatever the fiber, z, and the polynomial fit and spline routines: on every even grid of nonzero time window, a result of get_betas has NPTS entries, is zero at the grid centre, and its numerical gradient is zero there. *)
Theorem C55_referenced_partial : forall (polyfit : list R -> list R -> nat -> result (list R)) (spline : list R -> list R -> list R -> result (list R)) (p : pulse) (z : R) (m : nat) (s s' : heap * fiber) (B : list R),
  p_n p = (2 * m)%nat -> (0 < m)%nat -> p_tw p <> 0 -> (d_format (self_specs s) = Some "GVD"%string \/ d_format (self_specs s) = Some "n"%string) ->
  get_betas polyfit spline p z s = (Ok (Some B), s') ->
  length B = p_n p /\ nth m B 0 = 0 /\ exists g, gradient B = Ok g /\ nth m g 0 = 0.
Proof. exact C55_referenced_partial_l. Qed.
Print Assumptions C55_referenced_partial.

(** C55: in the GVD format get_betas always succeeds on an even grid when the fiber has a nonzero centre wavelength, and its entry at frequency omega_k is P(omega_k) - P(omega_m) - s (omega_k - omega_m), with P the Taylor polynomial sum b_i/(i+2)! (omega - 2 pi c/lambda)^(i+2) of the fiber (of its coefficients at z if they depend on z), m the grid centre and s the central difference quotient of P there. *)
Theorem C55_gvd_value : forall (polyfit : list R -> list R -> nat -> result (list R)) (spline : list R -> list R -> list R -> result (list R)) (p : pulse) (z : R) (m : nat) (s : heap * fiber) (c : R) (b : list R),
  p_ready p = true -> p_n p = (2 * m)%nat -> (1 < m)%nat -> p_tw p <> 0 -> d_format (self_specs s) = Some "GVD"%string -> f_center (snd s) = Some c -> c <> 0 ->
  match f_dz (snd s) with None => f_betas (snd s) = Some b | Some (DBetas g) => g z = b | Some (DXY _) => False end ->
  let d := 2 * PI / p_tw p in let w k := 2 * PI * p_f p + (INR k - INR m) * d in
  let P v := rsum (length b) (fun i => nth i b 0 / INR (fact (i + 2)) * (v - 2 * PI * c_nmps / c) ^ (i + 2)) in
  exists B s', get_betas polyfit spline p z s = (Ok (Some B), s') /\ length B = p_n p /\
    forall k, (k < p_n p)%nat -> nth k B 0 = P (w k) - P (w m) - (P (w (m + 1)%nat) - P (w (m - 1)%nat)) / (2 * d) * (w k - w m).
Proof. exact C55_gvd_value_l. Qed.
Print Assumptions C55_gvd_value.

(** C55: in the tabulated-D format every result of get_betas has NPTS entries and vanishes, with its analytic slope, at the grid centre: it is a sum of powers V^(i+2), i >= 0, of the frequency relative to the centre. *)
Theorem C55_tabulated : forall (polyfit : list R -> list R -> nat -> result (list R)) (spline : list R -> list R -> list R -> result (list R)) (p : pulse) (z : R) (s s' : heap * fiber) (B : list R),
  d_format (self_specs s) = Some "D"%string -> get_betas polyfit spline p z s = (Ok (Some B), s') ->
  exists b, length B = p_n p /\ forall k, (k < p_n p)%nat -> nth k B 0 = rsum (length b) (fun i => nth i b 0 / INR (fact (i + 2)) * (2 * PI * (INR k - INR (p_n p) / 2) / p_tw p) ^ (i + 2)).
Proof. exact C55_tabulated_l. Qed.
Print Assumptions C55_tabulated.

(** C55: what get_betas returns (or raises) does not depend on earlier calls of get_betas on the same fiber, however many, for whatever pulses and positions, in every format. *)
Theorem C55_repeatable : forall (polyfit : list R -> list R -> nat -> result (list R)) (spline : list R -> list R -> list R -> result (list R)) (p : pulse) (z : R) (s : heap * fiber) (calls : list (pulse * R)),
  fst (get_betas polyfit spline p z (fold_left (fun s c => snd (get_betas polyfit spline (fst c) (snd c) s)) calls s)) = fst (get_betas polyfit spline p z s).
Proof. exact C55_repeatable_l. Qed.
Print Assumptions C55_repeatable.

(** C55: on an odd grid the reference is not removed at a grid point: a ready pulse of 3 points and a one-coefficient fiber centred on it give a nonzero value at the point where |V| is smallest. *)
Theorem C55_odd_refuted : exists (p : pulse) (s : heap * fiber) (ci : nat), p_ready p = true /\ p_n p = 3%nat /\ 0 < p_tw p /\ argmin (map Rabs (V_of p)) = Ok ci /\
  forall (polyfit : list R -> list R -> nat -> result (list R)) (spline : list R -> list R -> list R -> result (list R)), exists B s', get_betas polyfit spline p 0 s = (Ok (Some B), s') /\ nth ci B 0 <> 0.
Proof. exact C55_odd_refuted_l. Qed.
Print Assumptions C55_odd_refuted.

(** C56: generate_fiber succeeds on every fiber object; then the length is the given one, get_gamma is the given gamma at every z (if no gamma function was installed) and get_gain is the given gain on every point of every pulse's grid. *)
Theorem C56_parameters : forall (h : heap) (f : fiber) (len center : R) (betas : list R) (gamma gain : R) (units label : string),
  exists h' f', generate_fiber len center betas gamma gain units label (h, f) = (Ok tt, (h', f')) /\
    f_length f' = Some len /\ f_center f' = Some center /\ d_format (self_specs (h', f')) = Some "GVD"%string /\
    (f_gz f = None -> forall z, get_gamma z (h', f') = (Ok (Some gamma), (h', f'))) /\
    (forall p, get_gain p (h', f') = (Ok (repeat gain (p_n p)), (h', f'))).
Proof. exact C56_parameters_l. Qed.
Print Assumptions C56_parameters.

(** C56: betas in ps^n/km are 1e-3 times those in ps^n/m: generating a fiber from betas in ps^n/km is the same as generating it from 1e-3*betas in ps^n/m, and on every grid, fit and spline its get_betas is 1e-3 times the one of the fiber generated from the same numbers read as ps^n/m. *)
Theorem C56_units : forall (polyfit : list R -> list R -> nat -> result (list R)) (spline : list R -> list R -> list R -> result (list R)) (s : heap * fiber) (len center : R) (betas : list R) (gamma gain : R) (label : string),
  generate_fiber len center betas gamma gain "ps^n/km" label s = generate_fiber len center (map (fun b => b * 1.0e-3) betas) gamma gain "ps^n/m" label s /\
  (f_dz (snd s) = None -> forall (p : pulse) (z : R) (B1 B2 : list R) s1 s2,
    get_betas polyfit spline p z (snd (generate_fiber len center betas gamma gain "ps^n/m" label s)) = (Ok (Some B1), s1) ->
    get_betas polyfit spline p z (snd (generate_fiber len center betas gamma gain "ps^n/km" label s)) = (Ok (Some B2), s2) ->
    B2 = map (fun b => b * 1.0e-3) B1).
Proof. exact C56_units_l. Qed.
Print Assumptions C56_units.

(** C58: a call of DTabulationToBetas multiplies the second column of the caller's array by 1e-12*1e9*1e-3, whatever happens later in the call; with a fit that is linear in the ordinates (as least squares is) the second call on the same array returns the first answer times that factor. *)
Theorem C58_second_call_partial : forall (polyfit : list R -> list R -> nat -> result (list R)) (lambda0 : R) (order : nat) (tab : list (R * R)),
  let q := 1e-12 * 1e9 * 1e-3 in
  snd (DTabulationToBetas polyfit lambda0 order tab) = map (fun r => (fst r, snd r * q)) tab /\
  ((forall x y c, polyfit x y order = Ok c -> polyfit x (map (fun v => v * q) y) order = Ok (map (fun v => v * q) c)) ->
   forall b, fst (DTabulationToBetas polyfit lambda0 order tab) = Ok b ->
   fst (DTabulationToBetas polyfit lambda0 order (snd (DTabulationToBetas polyfit lambda0 order tab))) = Ok (map (fun v => v * q) b)).
Proof. exact C58_second_call_partial_l. Qed.
Print Assumptions C58_second_call_partial.

(** C58: the two answers differ: a one-point tabulation, fitted exactly by a constant, gives another value on the second call. *)
Theorem C58_twice_refuted : exists (polyfit : list R -> list R -> nat -> result (list R)) (lambda0 : R) (order : nat) (tab : list (R * R)) (b1 b2 : list R),
  (forall x y, polyfit [x] [y] 0%nat = Ok [y]) /\ fst (DTabulationToBetas polyfit lambda0 order tab) = Ok b1 /\
  fst (DTabulationToBetas polyfit lambda0 order (snd (DTabulationToBetas polyfit lambda0 order tab))) = Ok b2 /\ b1 <> b2.
Proof. exact C58_twice_refuted_l. Qed.
Print Assumptions C58_twice_refuted.

(** C66: a fiber given by beta2 and at most beta3 reports through Beta2, at every interior point of every even grid, exactly beta2 + beta3*(omega - omega_fiber) -- the second derivative of its propagation constant -- whatever the pulse's centre frequency; the two edge points repeat their neighbours. *)
Theorem C66_beta2_exact : forall (polyfit : list R -> list R -> nat -> result (list R)) (spline : list R -> list R -> list R -> result (list R)) (p : pulse) (m : nat) (s : heap * fiber) (c b2 b3 : R),
  p_ready p = true -> p_n p = (2 * m)%nat -> (1 < m)%nat -> p_tw p <> 0 -> d_format (self_specs s) = Some "GVD"%string -> f_dz (snd s) = None -> f_center (snd s) = Some c -> c <> 0 ->
  (f_betas (snd s) = Some [b2; b3] \/ (f_betas (snd s) = Some [b2] /\ b3 = 0)) ->
  exists out s', Beta2 polyfit spline p s = (Ok out, s') /\ length out = p_n p /\
    (forall k, (1 <= k <= p_n p - 2)%nat -> nth k out 0 = b2 + b3 * (2 * PI * p_f p + (INR k - INR m) * (2 * PI / p_tw p) - 2 * PI * c_nmps / c)) /\
    nth 0 out 0 = nth 1 out 0 /\ nth (p_n p - 1) out 0 = nth (p_n p - 2) out 0.
Proof. exact C66_beta2_exact_l. Qed.
Print Assumptions C66_beta2_exact.

(** C68: D and beta2 are consistent both ways: when Beta2 succeeds with b and the wavelength grid w has the same number of points, all nonzero, Beta2_to_D gives -2 pi c/w^2 b in ps/nm/km, and a tabulation (w, D) made of it is turned back by DTabulationToBetas into exactly the ordinates b for its fit, over the angular frequencies 2 pi c/w - 2 pi c/lambda0 in THz. *)
Theorem C68_D_round_trip : forall (strf : R -> string) (polyfit : list R -> list R -> nat -> result (list R)) (spline : list R -> list R -> list R -> result (list R)) (p p1 : pulse) (s s' : heap * fiber) (w b : list R) (lambda0 : R) (order : nat),
  get_wl_nm strf p = (Ok (Some w), p1) -> Beta2 polyfit spline p s = (Ok b, s') -> length w = length b -> (forall v, In v w -> v <> 0) -> lambda0 <> 0 ->
  exists D, Beta2_to_D strf polyfit spline p s = (Ok D, s') /\ length D = length b /\ (forall k, (k < length b)%nat -> nth k D 0 = - (2 * PI * c_nmps / (nth k w 0) ^ 2) * nth k b 0 * 1000) /\
    exists om, length om = length b /\ (forall k, (k < length b)%nat -> nth k om 0 = 2 * PI * c_nmps / nth k w 0 - 2 * PI * c_nmps / lambda0) /\
      fst (DTabulationToBetas polyfit lambda0 order (combine w D)) = (co <-r polyfit om b order ;; Ok (mk (length co) (fun i => nth i (rev co) 0 * INR (fact i)))).
Proof. exact C68_D_round_trip_l. Qed.
Print Assumptions C68_D_round_trip.

(** C67: load_from_db of a Taylor-format entry in ps^n/km that is intact in the fiber's own copy of the data base succeeds from every state of the object, and gives the entry's length, gamma, centre wavelength and betas in ps^n/m. *)
Theorem C67_load_partial : forall (h : heap) (f : fiber) (len : R) (name : string) (order l : nat) (g c : R) (b : list R),
  find_db name (f_db f) = Some l -> let e := nth l h empty_specs in
  d_format e = Some "GVD"%string -> d_units e = Some "ps^n/km"%string -> d_center e = Some c -> d_data e = Some b -> d_gamma e = Some g ->
  exists f', load_from_db len name order (h, f) = (Ok tt, (h, f')) /\ f_length f' = Some len /\ f_betas f' = Some (map (fun x => x / 1000) b) /\ f_center f' = Some c /\ f_type f' = Some name /\
    (f_gz f = None -> forall z, get_gamma z (h, f') = (Ok (Some g), (h, f'))) /\ (d_is_gain e = Some false -> forall p, get_gain p (h, f') = (Ok (repeat 0 (p_n p)), (h, f'))).
Proof. exact C67_load_partial_l. Qed.
Print Assumptions C67_load_partial.

(** C67: the copy is damaged by set_dispersion_function: loading an entry, giving the fiber a tabulated z-dependent dispersion and loading the same entry again raises KeyError, although the first load succeeded. *)
Theorem C67_reload_refuted : forall (polyfit : list R -> list R -> nat -> result (list R)) (spline : list R -> list R -> list R -> result (list R)) (d : dfun) (len : R) (order : nat),
  let w1 := frun polyfit spline [FNew [("dudley"%string, dudley)]] fworld0 in let ld := FLoadDb 0 len "dudley" order in
  fst (fstep polyfit spline w1 ld) = FNone (Ok tt) /\
  fst (fstep polyfit spline (frun polyfit spline [ld; FSetDisp 0 d "D"] w1) ld) = FNone (Raise KeyError).
Proof. exact C67_reload_refuted_l. Qed.
Print Assumptions C67_reload_refuted.

(** src/pynlo/media/crystals/CrystalContainer.py 78-148 (group velocity, delay, dispersion, phase-matching bandwidth), XTAL_PPLN.py 85-115 (poling
    function and constants) and src/pynlo/light/beam.py 143-165 (the objective of the beam optimisation).

    Simplifications, valid for the whole file: as in ModelCrystal.v and ModelBeam.v; wavelengths are floats (arrays are treated element by element).
    scipy.misc.derivative is written out for its only two uses here, order = 11 and n = 1 or 2: scipy computes the 11 weights by inverting a Vandermonde
    matrix, and the model has the exact solution.  Not modelled: the result of scipy.optimize.minimize in
    calc_optimal_beam_overlap_in_crystal (its objective is), invert_dfg_qpm_to_signal_wl (150-174). *)
From Coq Require Import String.
From Coq Require Import Reals List ZArith Bool Arith.
From Verif Require Import Base CNum NumPy ModelPulse ModelCrystal ModelBeam ModelDFG.
Import ListNotations.
Local Open Scope R_scope.
Local Open Scope py_scope.

(** ** scipy.misc.derivative(f, x0, dx, n, order = 11) *)
(** central_diff_weights(11, 1) and central_diff_weights(11, 2) *)
Definition weights1 : list R := [-1/1260; 5/504; -5/84; 5/21; -5/6; 0; 5/6; -5/21; 5/84; -5/504; 1/1260].
Definition weights2 : list R := [1/3150; -5/1008; 5/126; -5/21; 5/3; -5269/1800; 5/3; -5/21; 5/126; -5/1008; 1/3150].
(** the sum runs over k = 0 .. 10 at the points x0 + (k - 5) dx *)
Definition derivative (f : R -> result R) (x0 dx : R) (n : nat) (weights : list R) : result R :=
  v <-r rtraverse (fun k => f (x0 + (INR k - 5) * dx)) (seq 0 11) ;;
  fdiv (lrsum (map2 Rmult weights v)) (dx ^ n).

(** ** Crystal *)
(** self.n(wl, axis) with the axis always passed on: PPLN ignores it; AgGaSe2 refuses None like any other value that is not an axis *)
Definition n_on_axis (m : material) (axis : option string) (wl : R) : result R :=
  match m with Ppln x => ppln_n x wl | Agse x => agse_n x wl (str_axis axis) end.
(** CrystalContainer.py:78-85 *)
Definition group_velocity_nm_ps (x : crystal) (axis : option string) (wl : R) : result R :=
  let fn := n_on_axis (x_mat x) axis in
  dn_dl <-r derivative fn wl 0.1 1 weights1 ;;
  n <-r fn wl ;;
  let vg_inverse := 1 / c_nmps * (n - wl * dn_dl) in
  fdiv 1 vg_inverse.
(** CrystalContainer.py:189-190; None * 1.0e9 is a TypeError *)
Definition length_nm (x : crystal) : result R := match x_len x with Some l => Ok (l * 1.0e9) | None => Raise TypeError end.
(** CrystalContainer.py:86-96 *)
Definition pulse_delay_ps (x : crystal) (wl1 wl2 : R) (crystal_length_mks : option R) (axis : option string) : result R :=
  l <-r (match crystal_length_mks with None => length_nm x | Some l => Ok (1.0e9 * l) end) ;;
  vg1 <-r group_velocity_nm_ps x axis wl1 ;; vg2 <-r group_velocity_nm_ps x axis wl2 ;;
  a <-r fdiv l vg1 ;; b <-r fdiv l vg2 ;; Ok (a - b).
(** CrystalContainer.py:98-105 *)
Definition D_ps_nm_km (x : crystal) (axis : option string) (wl : R) : result R :=
  d2n_dl2 <-r derivative (n_on_axis (x_mat x) axis) wl 0.1 2 weights2 ;;
  let D1 := wl / c_nmps * d2n_dl2 in Ok (D1 * 1.0e12).
(** CrystalContainer.py:106-111 *)
Definition D_fs_um_mm (x : crystal) (axis : option string) (wl : R) : result R := D <-r D_ps_nm_km x axis wl ;; Ok (D * 1.0).
(** CrystalContainer.py:112-148 for floats (len(vg_s) raises TypeError, which is caught).  The group velocities are numpy floats: a quotient by zero is inf,
    written None here, which np.minimum passes over unless both are. *)
Definition np_quot (a b : R) : option R := if Req_EM_T b 0 then None else Some (Rabs (a / b)).
Definition mix_phasematching_bw (x : crystal) (pump signal : R) (axis : option string) : result R :=
  a <-r pyinv pump ;; b <-r pyinv signal ;; idler <-r pyinv (a - b) ;;
  gs <-r group_velocity_nm_ps x axis signal ;; gi <-r group_velocity_nm_ps x axis idler ;; gp <-r group_velocity_nm_ps x axis pump ;;
  let vg_s := gs * 1e3 in let vg_i := gi * 1e3 in let vg_p := gp * 1e3 in
  is_ <-r fdiv 1 vg_s ;; ip <-r fdiv 1 vg_p ;; ii <-r fdiv 1 vg_i ;;
  w <-r (match np_quot (0.886 * PI) (is_ - ip), np_quot (0.886 * PI) (ii - ip) with
         | Some q1, Some q2 => Ok (Rmin q1 q2) | Some q, None => Ok q | None, Some q => Ok q | None, None => Raise NonFinite end) ;;
  Ok (w * 1.0 / c_mks).

(** ** PPLN *)
(** XTAL_PPLN.py:93-107  what load leaves for dfg_problem: mode, deff and the default poling function *)
Definition ppln_load (x : crystal) : dcrystal := mkDX x "PP" 14.9e-12 (fun _ => 30.49e-6).
(** XTAL_PPLN.py:111-115  a tuple's first entry is a constant period (IndexError, for an empty tuple, only when it is used), anything else is called *)
Inductive pp_arg := PTuple (first : R) | PFun (p : R -> R).
Definition set_pp (p : pp_arg) (x : dcrystal) : dcrystal :=
  match p with PTuple a => mkDX (dx_x x) (dx_mode x) (dx_deff x) (fun _ => a) | PFun f => mkDX (dx_x x) (dx_mode x) (dx_deff x) f end.

(** ** The objective of OneDBeam.calc_optimal_beam_overlap_in_crystal *)
(** beam.py:158-160, one summand; an overflow or 0/0 is NonFinite *)
Definition overlap_term (L k1 k2 zr1 zr2 : R) : result R :=
  let s := k2 * zr1 + k1 * Rabs zr2 in
  q <-r fdiv ((k1 - k2) * L) s ;;
  fdiv (4 * k1 * k2 * zr1 * Rabs zr2 * atan q) ((k1 - k2) * s).
(** beam.py:158-160 for one value of zr1 *)
Definition overlap_objective (L : R) (k1 k2 zr2 : list R) (zr1 : R) : result R :=
  kk <-r broadcast2 pair k1 k2 ;;
  t <-r bcast (fun k z2 => overlap_term L (fst k) (snd k) zr1 z2) kk zr2 ;;
  Ok (-1.0 * lrsum t).

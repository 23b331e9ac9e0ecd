(** src/pynlo/devices/grating_compressor.py: class TreacyCompressor.

    Simplifications, valid for the whole file: float64 is [R]; inf and nan are the pseudo-exception [NonFinite]; the printed
    warnings are dropped.  scipy.integrate.quad and numpy.polyfit are parameters.  calc_compressor_HOD (125-138)
    and calc_compressor_dnphi_domega_n (141-154) are in ModelGratingHigh.v. *)
From Coq Require Import String.
From Coq Require Import Reals List ZArith Bool Arith.
From Coquelicot Require Import Complex.
From Verif Require Import Base CNum NumPy ModelPulse ModelCrystal.
Import ListNotations.
Local Open Scope R_scope.
Local Open Scope py_scope.

(** grating_compressor.py:66-67  d (grating period, m), g (angle of incidence, rad). *)
Record treacy := mkTreacy { t_d : R; t_g : R }.
(** grating_compressor.py:69-73 *)
Definition treacy_init (lines_per_mm degrees : R) : result treacy :=
  if Req_EM_T lines_per_mm 0 then Raise ZeroDivisionError else Ok (mkTreacy (1e-3 / lines_per_mm) (degrees * 2 * PI / 360)).

Definition np_arcsin (x : R) : result R := if Rle_dec (-1) x then if Rle_dec x 1 then Ok (asin x) else Raise NonFinite else Raise NonFinite.
(** grating_compressor.py:75-92 for one wavelength: a float that is not diffracted gives nan *)
Definition calc_theta (t : treacy) (wavelength_nm : R) : result R :=
  let l := wavelength_nm * 1e-9 in
  q <-r fdiv l (t_d t) ;;
  alpha <-r np_arcsin (q - sin (t_g t)) ;; Ok (t_g t - alpha).
(** grating_compressor.py:75-92 for an array: values outside [-1, 1] are coerced *)
Definition coerce (v : R) : R := if Rlt_dec 1 v then 1 else if Rlt_dec v (-1) then -1 else v.
Definition calc_theta_array (t : treacy) (wavelength_nm : list R) : result (list R) :=
  rtraverse (fun wl => q <-r fdiv (wl * 1e-9) (t_d t) ;; alpha <-r np_arcsin (coerce (q - sin (t_g t))) ;; Ok (t_g t - alpha)) wavelength_nm.

(** grating_compressor.py:93-105 *)
Definition calc_dt_dw_singlepass (t : treacy) (wavelength_nm G : R) : result R :=
  let l := wavelength_nm * 1e-9 in
  w <-r fdiv (2 * PI * c_mks) l ;;
  theta <-r calc_theta t wavelength_nm ;;
  b <-r fdiv G (cos (t_g t - theta)) ;;
  q <-r fdiv (2 * PI * c_mks) (w * t_d t) ;;
  fdiv (-4 * PI ^ 2 * c_mks * b) (w ^ 3 * t_d t ^ 2 * (1 - (q - sin (t_g t)) ^ 2)).
(** grating_compressor.py:107-117 *)
Definition calc_dphi_domega (t : treacy) (omega G : R) : result R :=
  wavelength_nm <-r fdiv (1e9 * 2 * PI * c_mks) omega ;;
  theta <-r calc_theta t wavelength_nm ;;
  b <-r fdiv G (cos (t_g t - theta)) ;;
  let p := b * (1 + cos theta) in fdiv p c_mks.
(** grating_compressor.py:119-122 *)
Definition calc_compressor_gdd (t : treacy) (wavelength_nm G : R) : result R :=
  x <-r calc_dt_dw_singlepass t wavelength_nm G ;; Ok (2 * x).

Section Apply.
Variable strf : R -> string.
(** scipy.integrate.quad(f, a, b)[0]; an integrand that is nan somewhere may give nan *)
Variable quad : (R -> result R) -> R -> R -> result R.
(** the coefficients (highest power first) of numpy.polyfit(x, y, 2) *)
Variable polyfit2 : list R -> list R -> R * R * R.
(** numpy.polyder of a quadratic, element [0]: twice its leading coefficient *)
Definition polyder_0 (p : R * R * R) : R := 2 * fst (fst p).
(** grating_compressor.py:157-167 *)
Definition apply_phase_to_pulse (t : treacy) (G : R) : M pulse unit :=
  f <- get_center_frequency_THz ;;
  let w0 := f * 2 * PI * 1e12 in
  let integrand x := y <-r calc_dphi_domega t x G ;; Ok (2 * y) in
  o <- get_W_mks strf ;; w <- as_array o ;;
  phase <- lift (rtraverse (fun x => quad integrand w0 x) w) ;;
  o2 <- get_W_mks strf ;; w2 <- as_array o2 ;;
  let groupdelay := polyder_0 (polyfit2 w2 phase) in
  v <- get_V_mks ;;
  s <- lift (broadcast2 (fun p v => p + v * groupdelay) phase v) ;;
  apply_phase_W s.
End Apply.

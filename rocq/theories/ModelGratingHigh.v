(** src/pynlo/devices/grating_compressor.py: TreacyCompressor.calc_compressor_HOD and calc_compressor_dnphi_domega_n.

    Simplifications: float64 is [R]; inf and nan are the pseudo-exception [NonFinite].  In float64 the divisor dw**n of
    calc_compressor_dnphi_domega_n underflows to zero from n = 5 on (dw = 2e11 * 10^(-15 (1 + n))), so for n >= 5 the program returns inf
    or nan; the properties about it are for n <= 4.  In float64 the inverse of the 101 x 101 Vandermonde matrix of
    scipy.misc.central_diff_weights carries rounding errors that the exact inverse used here does not have. *)
From Coq Require Import Reals List ZArith Bool Arith Factorial.
From Coquelicot Require Import Complex.
From Verif Require Import Base CNum NumPy ModelPulse ModelCrystal ModelGrating.
Import ListNotations.
Local Open Scope R_scope.
Local Open Scope py_scope.

(** grating_compressor.py:107-117 with an array of frequencies: calc_theta coerces the colours that are not diffracted *)
Definition calc_dphi_domega_array (t : treacy) (omega : list R) (G : R) : result (list R) :=
  wavelength_nm <-r rtraverse (fun w => fdiv (1e9 * 2 * PI * c_mks) w) omega ;;
  theta <-r calc_theta_array t wavelength_nm ;;
  rtraverse (fun th => b <-r fdiv G (cos (t_g t - th)) ;; fdiv (b * (1 + cos th)) c_mks) theta.

(** scipy.signal.savgol_coeffs(11, 7, deriv): the weights, times the given denominator, of the eleven samples at distance -5 .. 5; all zero for
    a derivative higher than the degree 7 *)
Definition savgol_table (deriv : Z) : Z * list Z :=
  match deriv with
  | 0 => (2431, [-28; 161; -308; 28; 784; 1157; 784; 28; -308; 161; -28])
  | 1 => (2042040, [18588; -141411; 424084; -483816; -852936; 0; 852936; 483816; -424084; 141411; -18588])
  | 2 => (2187900, [68745; -365334; 540907; 441663; -320196; -731570; -320196; 441663; 540907; -365334; 68745])
  | 3 => (53040, [-1760; 12533; -31608; 9782; 33928; 0; -33928; -9782; 31608; -12533; 1760])
  | 4 => (13260, [-915; 4152; -3401; -3624; 1548; 4480; 1548; -3624; -3401; 4152; -915])
  | 5 => (204, [19; -118; 207; -28; -188; 0; 188; 28; -207; 118; -19])
  | 6 => (170, [15; -48; 29; 36; -12; -40; -12; 36; 29; -48; 15])
  | 7 => (34, [-5; 23; -33; 2; 28; 0; -28; -2; 33; -23; 5])
  | _ => (1, [0; 0; 0; 0; 0; 0; 0; 0; 0; 0; 0])
  end%Z.
Definition savgol_coeffs (deriv : Z) : list R := map (fun a => IZR a / IZR (fst (savgol_table deriv))) (snd (savgol_table deriv)).
(** scipy.signal.savgol_filter(x, 11, 7, deriv)[i] for an index that is five or more from both ends *)
Definition savgol_filter_at (x : list R) (deriv : Z) (i : nat) : R :=
  rsum 11 (fun k => nth k (savgol_coeffs deriv) 0 * nth (i - 5 + k) x 0).

(** grating_compressor.py:141-154 *)
Definition calc_compressor_dnphi_domega_n (t : treacy) (wavelength_nm G : R) (dispersion_order : Z) : result R :=
  if (dispersion_order <? 1)%Z then Raise ValueError else
  w0 <-r fdiv (2 * PI * c_mks) (wavelength_nm * 1e-9) ;;
  let ws := linspace (w0 - 10e12) (w0 + 10e12) 101 in
  dphidw <-r calc_dphi_domega_array t ws G ;;
  let y50 := savgol_filter_at dphidw dispersion_order 50 in
  let dw := (nth 1 ws 0 - nth 0 ws 0) * powerRZ 10 (-15 * (1 + dispersion_order)) in
  fdiv y50 (dw ^ Z.to_nat dispersion_order).

(** Polynomials are lists of coefficients, lowest first. *)
Fixpoint padd (p q : list R) : list R :=
  match p, q with
  | [], _ => q
  | _, [] => p
  | a :: p, b :: q => (a + b) :: padd p q
  end.
(** p(x) (x - r) / d *)
Definition times_root (r d : R) (p : list R) : list R := padd (map (fun a => - r / d * a) p) (0 :: map (fun a => a / d) p).
(** the polynomial that is one at xk and zero at the other points of xs *)
Definition lagrange (xs : list R) (xk : R) : list R :=
  fold_right (fun xj p => if Req_EM_T xj xk then p else times_root xj (xk - xj) p) [1] xs.
(** scipy.misc.central_diff_weights(Np, ndiv): ndiv! times row ndiv of the inverse of the Vandermonde matrix of the points -ho .. ho; column k of
    that inverse holds the coefficients of the polynomial that is one at the k-th point and zero at the others *)
Definition central_diff_points (Np : nat) : list R := mk Np (fun k => INR k - INR (Nat.div2 Np)).
Definition central_diff_weights (Np ndiv : nat) : list R :=
  map (fun xk => INR (fact ndiv) * nth ndiv (lagrange (central_diff_points Np) xk) 0) (central_diff_points Np).
(** scipy.misc.derivative(func, x0, dx, n, order) for an order above nine, where the weights are those of central_diff_weights *)
Definition derivative (func : R -> result R) (x0 dx : R) (n order : nat) : result R :=
  if (order <? n + 1)%nat then Raise ValueError else
  if Nat.even order then Raise ValueError else
  vals <-r rtraverse (fun k => func (x0 + (INR k - INR (Nat.div2 order)) * dx)) (seq 0 order) ;;
  fdiv (rsum order (fun k => nth k (central_diff_weights order n) 0 * nth k vals 0)) (dx ^ n).
(** grating_compressor.py:125-138 *)
Definition calc_compressor_HOD (t : treacy) (wavelength_nm G : R) (dispersion_order : Z) : result R :=
  if (dispersion_order <? 3)%Z then Raise ValueError else
  w0 <-r fdiv (2 * PI * c_mks) (wavelength_nm * 1e-9) ;;
  derivative (fun x => l <-r fdiv (1e9 * 2 * PI * c_mks) x ;; calc_compressor_gdd t l G) w0 (2 * PI * 100e6) (Z.to_nat (dispersion_order - 2)) 101.

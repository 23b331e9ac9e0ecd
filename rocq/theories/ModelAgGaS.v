(** src/pynlo/media/crystals/XTAL_AgGaS.py: the sulfide.  (Its class is also called AgGaSe2, and the module imports the Python 2
    module [exceptions]; the package does not import it.  Modelled as under Python 2.)

    Simplifications: those of ModelCrystal.v (float64 is [R]; inf and nan are [NonFinite]; printed messages are dropped).
    Crystal.__init__ (33) sets the length and the caching flag, which neither n nor phasematch read; n2 and deff (68-69) are left out. *)
From Coq Require Import String.
From Coq Require Import Reals List ZArith Bool Arith.
From Verif Require Import Base CNum NumPy ModelPulse ModelCrystal.
Import ListNotations.
Local Open Scope R_scope.
Local Open Scope py_scope.

(** XTAL_AgGaS.py:36-64  one axis' coefficients A-K and exponents a-d, instance attributes. *)
Record sell4 := mkS4 { fA : R; fB : R; fC : R; fD : R; fE : R; fF : R; fG : R; fJ : R; fK : R; fa : R; fb : R; fc : R; fd : R }.
Definition gas_o : sell4 := mkS4 5.814100 0.0867547 0.0356502 176380.0 112586195.0 0.0821721 (-0.315646) 0.506566 (-6.582197) 3.156983 4.430430 6.604280 2.225043.
Definition gas_e : sell4 := mkS4 5.530050 0.0510941 0.141109 4253.78 4304924.0 0.195314 (-0.0910735) 0 0 2.359877 2.566664 0 2.383834.

(** XTAL_AgGaS.py:79-90  one of the two indices. *)
Definition sell4_n (s : sell4) (wl_nm : R) : result R :=
  let wl_um := wl_nm * 0.001 in
  pa <-r fpow wl_um (fa s) ;; pb <-r fpow wl_um (fb s) ;; pc <-r fpow wl_um (fc s) ;; pd <-r fpow wl_um (fd s) ;;
  q1 <-r fdiv (fB s) (pa - fC s) ;; q2 <-r fdiv (fF s) (pb - fG s) ;; q3 <-r fdiv (fJ s) (pc - fK s) ;;
  q4 <-r fdiv (fE s) pd ;; q5 <-r fdiv (fD s) (1 - q4) ;;
  fsqrt (fA s + q1 + q2 + q3 + q5).

(** the instance attributes read by n and phasematch *)
Record gas := mkGas { gs_o : sell4; gs_e : sell4; gs_theta : R }.
(** XTAL_AgGaS.py:31-69 *)
Definition gas_init (theta : R) : gas := mkGas gas_o gas_e theta.
(** XTAL_AgGaS.py:70-71 *)
Definition gas_set_theta (angle : R) (x : gas) : gas := mkGas (gs_o x) (gs_e x) angle.

(** XTAL_AgGaS.py:72-99  both indices are computed before the axis is looked at. *)
Definition gas_n (x : gas) (wl_nm : R) (axis : string) : result R :=
  no <-r sell4_n (gs_o x) wl_nm ;; ne <-r sell4_n (gs_e x) wl_nm ;;
  if String.eqb axis "mix" then
    q1 <-r fdiv (sin (gs_theta x) ^ 2) (ne ^ 2) ;; q2 <-r fdiv (cos (gs_theta x) ^ 2) (no ^ 2) ;;
    r <-r fsqrt (q1 + q2) ;; fdiv 1 r
  else if String.eqb axis "o" then Ok no
  else if String.eqb axis "e" then Ok ne
  else Raise ValueError.

(** XTAL_AgGaS.py:100-142  the head (105-119) is [fill]; a nan reaches np.isnan(np.arccos(x)) (135) and raises AttributeError.
    The result is (theta, None) or the tuple (theta, Some new_wl). *)
Definition gas_phasematch (x : gas) (pump sgnl idlr : option R) (return_wavelength : bool) : result (R * option R) :=
  psi <-r fill pump sgnl idlr ;;
  let '(p, s, i, new_wl) := psi in
  kp0 <-r fdiv (2 * PI) p ;;
  theta <-r or_no_match (
    ns <-r gas_n x s "o" ;; ks <-r fdiv (ns * 2 * PI) s ;;
    ni <-r gas_n x i "o" ;; ki <-r fdiv (ni * 2 * PI) i ;;
    n_soln <-r fdiv (ks + ki) kp0 ;;
    n_e <-r gas_n x p "e" ;; n_o <-r gas_n x p "o" ;;
    let a := n_e ^ 2 - n_o ^ 2 in
    q <-r fdiv (n_e ^ 2 * n_o ^ 2) (n_soln ^ 2) ;;
    let c := n_o ^ 2 - q in
    r <-r fsqrt (0 ^ 2 - 4 * a * c) ;;
    u <-r fdiv (- 0 + r) (2 * a) ;;
    v <-r (if Rlt_dec u 0 then fdiv (- 0 - r) (2 * a) else Ok u) ;;
    np_arccos v) ;;
  Ok (theta, if return_wavelength then new_wl else None).

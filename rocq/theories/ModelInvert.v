(** src/pynlo/media/crystals/CrystalContainer.py 150-174: invert_dfg_qpm_to_signal_wl.  The scipy minimiser is a parameter; its objective and its bounds are the code's. *)
From Coq Require Import Reals List String.
From Verif Require Import Base ModelCrystal.
Local Open Scope R_scope.
Local Open Scope py_scope.

(** CrystalContainer.py:169-170  err_fn: the idler is left to calculate_poling_period, so its result is a tuple and [0] the period; delta_k_L has its default 3.2 (XTAL_PPLN.py:121) *)
Definition inv_objective (n : R -> result R) (len : option R) (pump period wl_s : R) : result R :=
  r <-r poling_period n len (Some pump) (Some wl_s) None 3.2 ;; Ok ((fst r - period) ^ 2).
(** CrystalContainer.py:172-174 with scipy.optimize.minimize_scalar(method = 'bounded') as [minimize f lower upper]; scipy raises ValueError when the bounds are in the wrong order *)
Definition invert_dfg (minimize : (R -> result R) -> R -> R -> R) (n : R -> result R) (len : option R) (pump period max_signal : R) : result R :=
  if Rlt_dec max_signal (pump * 1.001) then Raise ValueError else Ok (minimize (inv_objective n len pump period) (pump * 1.001) max_signal).

(** src/pynlo/light/DerivedPulses.py:219-277  CWPulse.gen_OSA.

    The statements after the first one that raises are not reached and not written out: no class of the package defines an attribute `c`, so evaluating
    `self.c` in 2 * pi * self.c / self.center_wl raises AttributeError, which the handler for IOError does not catch.  The attributes fileloc and center_wl
    that are set before are read by no other method. *)
From Coq Require Import Reals List.
From Verif Require Import Base CNum NumPy ModelPulse.
Local Open Scope R_scope.
Local Open Scope py_scope.

Definition gen_OSA (time_window_ps center_wavelength_nm power : R) (power_is_epp log : bool) (rows : nat) : M pulse unit :=
  set_time_window_ps time_window_ps ;;;
  raise AttributeError.

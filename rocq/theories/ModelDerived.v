(** src/pynlo/light/DerivedPulses.py: constructors of the pulse shapes.

    Each constructor is a method run on a blank object [pulse0]; it either raises or leaves the new pulse.
    Where numpy would go on with inf or nan (square root of a negative power, zero width, zero energy) the model
    stops with [NonFinite]. *)
From Coq Require Import String.
From Coq Require Import Reals List ZArith Bool Arith.
From Coquelicot Require Import Complex.
From Verif Require Import Base CNum NumPy ModelFFT ModelPulse.
Import ListNotations.
Local Open Scope R_scope.
Local Open Scope py_scope.

(** `assert (x > 1.0)` *)
Definition assert_gt1 (x : R) : M pulse unit := if Rlt_dec 1 x then ret tt else raise AssertionError.
Definition finite_unless (b : bool) : M pulse unit := if b then raise NonFinite else ret tt.
Definition is0 (x : R) : bool := if Req_EM_T x 0 then true else false.
Definition neg (x : R) : bool := if Rlt_dec x 0 then true else false.

(** the common head: DerivedPulses.py:44-49, 76-81, 104-109 *)
Definition shape_head (frep : option R) (n : nat) (wl tw : R) : M pulse unit :=
  pulse_init frep (Some n) ;;;
  assert_gt1 wl ;;; assert_gt1 tw ;;;
  set_center_wavelength_nm wl ;;;
  set_time_window_ps tw.

(** DerivedPulses.py:57, 89, 118: self.set_AT(self.AT * np.sqrt(power / (frep_MHz*1.0e6 * self.calc_epp()))) *)
Definition scale_to_avg (power : R) (frep : option R) : M pulse unit :=
  a <- get_AT ;;
  match frep with
  | None => raise TypeError
  | Some f =>
      e <- calc_epp ;;
      let d := f * 1000000 * e in
      finite_unless (is0 d || neg (power / d)) ;;;
      set_AT (map (fun z => z * RtoC (sqrt (power / d)))%C a)
  end.

(** DerivedPulses.py:29-60  SechPulse.__init__ *)
Definition sech_pulse (power T0 wl tw : R) (frep : option R) (n : nat) (GDD TOD chirp2 chirp3 : R) (avg : bool) : M pulse unit :=
  shape_head frep n wl tw ;;;
  finite_unless (is0 T0) ;;;
  T <- get_T ;;
  (if avg then
     set_AT (map (fun t => RtoC (1 / cosh (t / T0))) T) ;;;
     scale_to_avg power frep
   else
     finite_unless (neg power) ;;;
     set_AT (map (fun t => RtoC (sqrt power / cosh (t / T0))) T)) ;;;
  chirp_pulse_W GDD TOD 0 None ;;;
  chirp_pulse_T chirp2 chirp3 T0.

(** DerivedPulses.py:62-91  GaussianPulse.__init__ *)
Definition gaussian_pulse (power T0 wl tw : R) (frep : option R) (n : nat) (GDD TOD chirp2 chirp3 : R) (avg : bool) : M pulse unit :=
  shape_head frep n wl tw ;;;
  finite_unless (is0 T0 || neg power) ;;;
  T <- get_T ;;
  set_AT (map (fun t => RtoC (sqrt power * exp (- (277 / 100) * (1 / 2) * t ^ 2 / T0 ^ 2))) T) ;;;
  (if avg then scale_to_avg power frep else ret tt) ;;;
  chirp_pulse_W GDD TOD 0 None ;;;
  chirp_pulse_T chirp2 chirp3 T0.

(** np.sinc(x) = sin(pi x)/(pi x), 1 at 0 *)
Definition np_sinc (x : R) : R := if Req_EM_T x 0 then 1 else sin (PI * x) / (PI * x).

(** DerivedPulses.py:93-121  SincPulse.__init__.  The power_is_avg branch takes the reciprocal of
    np.sinc(np.pi*T/(T0*np.pi)); where np.sinc vanishes numpy produces inf. *)
Definition sinc_pulse (power FWHM wl tw : R) (frep : option R) (n : nat) (GDD TOD chirp2 chirp3 : R) (avg : bool) : M pulse unit :=
  shape_head frep n wl tw ;;;
  let T0 := FWHM / (37909885 / 10000000) in
  finite_unless (is0 T0) ;;;
  T <- get_T ;;
  (if avg then
     let s := map (fun t => np_sinc (PI * t / (T0 * PI))) T in
     finite_unless (has_zero s) ;;;
     set_AT (map (fun x => RtoC (1 / x)) s) ;;;
     scale_to_avg power frep
   else
     finite_unless (neg power) ;;;
     set_AT (map (fun t => RtoC (sqrt power * np_sinc (t / (T0 * PI)))) T)) ;;;
  chirp_pulse_W GDD TOD 0 None ;;;
  chirp_pulse_T chirp2 chirp3 T0.

Section Str.
Variable strf : R -> string.

(** interp1d(kind='linear', bounds_error=False, fill_value=0) on a real table sorted by abscissa *)
Definition interp_real (x y : list R) (v : R) : R := Re (interp1 x (map RtoC y) v).

(** DerivedPulses.py:123-176  FROGPulse.__init__.  [file] is the content np.genfromtxt returns (three columns,
    at least two rows), None when the file cannot be opened: IOError is caught and printed. *)
Definition frog_pulse (tw wl power : R) (frep : option R) (n : nat) (avg : bool) (file : option (list R * list R * list R)) (flip : bool) : M pulse unit :=
  pulse_init frep (Some n) ;;;
  assert_gt1 wl ;;; assert_gt1 tw ;;;
  set_time_window_ps tw ;;;
  set_center_wavelength_nm wl ;;;
  p <- get ;;
  E <- (if avg then
          match p_frep p with
          | Some f => finite_unless (is0 (f * 1000000)) ;;; ret (power / (f * 1000000))
          | None => raise TypeError
          end
        else ret power) ;;
  match file with
  | None => ret tt
  | Some (wls, inten, phase) =>
      let phase' := if flip then map (fun x => -1 * x) phase else phase in
      o1 <- get_wl_nm strf ;; g1 <- as_array o1 ;;
      let gi := map (interp_real wls inten) g1 in
      o2 <- get_wl_nm strf ;; g2 <- as_array o2 ;;
      let gp := map (interp_real wls phase') g2 in
      s <- lift (broadcast2 (fun i t => RtoC i * cis t)%C gi gp) ;;
      set_AW s ;;;
      e <- calc_epp ;;
      finite_unless (is0 e || neg (E / e)) ;;;
      a <- get_AT ;;
      set_AT (map (fun z => z * RtoC (sqrt (E / e)))%C a)
  end.
End Str.

(** DerivedPulses.py:178-186  NoisePulse.__init__; [rand] are the uniform draws.  The exponent is
    1j*2*pi*1j*rand, i.e. the real number -2*pi*rand. *)
Definition noise_pulse (wl tw : R) (n : nat) (frep : option R) (rand : nat -> R) : M pulse unit :=
  pulse_init frep (Some n) ;;;
  set_center_wavelength_nm wl ;;;
  set_time_window_ps tw ;;;
  set_AW (mk n (fun k => RtoC (/ 10 ^ 30) * cexp (Ci * RtoC (2 * PI) * Ci * RtoC (rand k)))%C).

(** DerivedPulses.py:188-217  CWPulse.__init__.  np.round is round-half-to-even like Python's round. *)
Definition cw_pulse (power wl tw : R) (n : nat) (offset : option R) : M pulse unit :=
  pulse_init None (Some n) ;;;
  assert_gt1 wl ;;; assert_gt1 tw ;;;
  match offset with
  | None =>
      set_center_wavelength_nm wl ;;;
      set_time_window_ps tw ;;;
      set_AT (repeat (RtoC 1) n) ;;;
      a <- get_AW ;;
      let s := lrsum (map Cmod a) in
      finite_unless (is0 s || neg power) ;;;
      set_AW (map (fun z => z * RtoC (sqrt power) / RtoC s)%C a)
  | Some off =>
      let dF := 1 / tw in
      let r := py_round (off / dF) in
      let cthz := c_nmps / wl - IZR r * dF in
      finite_unless (is0 cthz || neg power) ;;;
      set_time_window_ps tw ;;;
      set_center_wavelength_nm (c_nmps / cthz) ;;;
      i <- lift (py_index n (Z.of_nat (Nat.div2 n) + r)) ;;
      set_AW (update i (RtoC (sqrt power)) (repeat (RtoC 0) n))
  end.

(** A constructor call: the new object or the exception. *)
Definition construct (m : M pulse unit) : result pulse :=
  match m pulse0 with (Ok _, p) => Ok p | (Raise e, _) => Raise e end.

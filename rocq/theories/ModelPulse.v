(** src/pynlo/light/PulseBase.py: class Pulse.

    Simplifications, valid for the whole file: float64 is modelled by [R],
    complex128 by [C]; NPTS is a natural number; the plotting helper
    spectrogram (900-1012) is not modelled; scalars assigned to a
    field are modelled as length-1 arrays.  The routines scipy/numpy provide for
    phase unwrapping and polynomial fitting and the random draws are parameters. *)
From Coq Require Import String DecimalString.
From Coq Require Import Reals List ZArith Bool Arith.
From Coquelicot Require Import Complex.
From Verif Require Import Base CNum NumPy ModelFFT.
Import ListNotations.
Local Open Scope R_scope.
Local Open Scope py_scope.

(** PulseBase.py:44-45  scipy's speed of light; nm/ps and m/s. *)
Definition c_mks : R := 299792458.
Definition c_nmps : R := c_mks * 1000000000 / 1000000000000.

(** PulseBase.py:49-71  the private variables (class attributes are the initial values).
    [p_wlh]/[p_wlv] are _cache_wl_nm_hash/_cache_wl_nm, [p_Wh]/[p_Wv] are
    _cache_W_Hz_hash/_cache_W_Hz.  _n, _centerfrequency, _time_window are never None
    in the modelled methods. *)
Record pulse : Type := mkPulse {
  p_n : nat;
  p_f : R;
  p_tw : R;
  p_AW : option (list C);
  p_frep : option R;
  p_ready : bool;
  p_wlh : option string;
  p_wlv : option (list R);
  p_Wh : option string;
  p_Wv : option (list R)
}.

Definition with_n (x : nat) (p : pulse) := mkPulse x (p_f p) (p_tw p) (p_AW p) (p_frep p) (p_ready p) (p_wlh p) (p_wlv p) (p_Wh p) (p_Wv p).
Definition with_f (x : R) (p : pulse) := mkPulse (p_n p) x (p_tw p) (p_AW p) (p_frep p) (p_ready p) (p_wlh p) (p_wlv p) (p_Wh p) (p_Wv p).
Definition with_tw (x : R) (p : pulse) := mkPulse (p_n p) (p_f p) x (p_AW p) (p_frep p) (p_ready p) (p_wlh p) (p_wlv p) (p_Wh p) (p_Wv p).
Definition with_AW (x : option (list C)) (p : pulse) := mkPulse (p_n p) (p_f p) (p_tw p) x (p_frep p) (p_ready p) (p_wlh p) (p_wlv p) (p_Wh p) (p_Wv p).
Definition with_frep (x : option R) (p : pulse) := mkPulse (p_n p) (p_f p) (p_tw p) (p_AW p) x (p_ready p) (p_wlh p) (p_wlv p) (p_Wh p) (p_Wv p).
Definition with_ready (x : bool) (p : pulse) := mkPulse (p_n p) (p_f p) (p_tw p) (p_AW p) (p_frep p) x (p_wlh p) (p_wlv p) (p_Wh p) (p_Wv p).
Definition with_wlc (h : option string) (v : option (list R)) (p : pulse) := mkPulse (p_n p) (p_f p) (p_tw p) (p_AW p) (p_frep p) (p_ready p) h v (p_Wh p) (p_Wv p).
Definition with_Wc (h : option string) (v : option (list R)) (p : pulse) := mkPulse (p_n p) (p_f p) (p_tw p) (p_AW p) (p_frep p) (p_ready p) (p_wlh p) (p_wlv p) h v.

(** PulseBase.py:49-71  class-level defaults. *)
Definition pulse0 : pulse := mkPulse 0 1 1 None (Some 100) false None None None None.

(** ** Setters *)

(** PulseBase.py:469-472  _check_ready: all three are not None, so always True here. *)
Definition check_ready : M pulse unit := modify (with_ready true).

(** PulseBase.py:462-464 *)
Definition set_centerfrequency (f : R) : M pulse unit := modify (with_f f) ;;; check_ready.
(** PulseBase.py:465-467 *)
Definition set_time_window (t : R) : M pulse unit := modify (with_tw t) ;;; check_ready.
(** PulseBase.py:485-494 *)
Definition set_center_wavelength_nm (wl : R) : M pulse unit := set_centerfrequency (c_nmps / wl).
(** PulseBase.py:495-504 *)
Definition set_center_wavelength_m (wl : R) : M pulse unit := set_centerfrequency (c_nmps / (wl * 1000000000)).
(** PulseBase.py:506-519 *)
Definition set_NPTS (n : nat) : M pulse unit := modify (with_n n) ;;; check_ready.
(** PulseBase.py:520-532 *)
Definition set_frep_MHz (fr : option R) : M pulse unit := modify (with_frep fr).
(** PulseBase.py:533-549 *)
Definition set_time_window_ps (t : R) : M pulse unit := set_time_window t.
(** PulseBase.py:550-563 *)
Definition set_time_window_s (t : R) : M pulse unit := set_time_window (t * 1000000000000).
(** PulseBase.py:565-581 *)
Definition set_frequency_window_THz (DF : R) : M pulse unit :=
  p <- get ;; set_time_window (INR (p_n p) / DF).
(** PulseBase.py:582-599 *)
Definition set_frequency_window_mks (DF : R) : M pulse unit :=
  p <- get ;; set_time_window (INR (p_n p) / DF * 1000000000000).

(** PulseBase.py:35-45  __init__(frep_MHz=None, n=None). *)
Definition pulse_init (frep : option R) (n : option nat) : M pulse unit :=
  (match frep with Some f => modify (with_frep (Some f)) | None => ret tt end) ;;;
  (match n with Some k => set_NPTS k | None => ret tt end).
Definition new_pulse (frep : option R) (n : option nat) : pulse := snd (pulse_init frep n pulse0).

(** ** Grids *)

(** PulseBase.py:78-82 *)
Definition w0_of (p : pulse) : R := 2 * PI * p_f p.

(** guard used by every private grid getter (PulseBase.py:85,91,100,107) *)
Definition need_ready : M pulse unit :=
  p <- get ;; if p_ready p then ret tt else raise RuntimeError.

(** PulseBase.py:98-103  dT; for NPTS = 0 numpy returns inf. *)
Definition get_dT : M pulse R :=
  need_ready ;;; p <- get ;;
  if Nat.eqb (p_n p) 0 then raise NonFinite else ret (p_tw p / INR (p_n p)).

(** PulseBase.py:105-112 *)
Definition V_of (p : pulse) : list R :=
  map (fun a => 2 * PI * a / (INR (p_n p) * (p_tw p / INR (p_n p)))) (arange_sym (p_n p)).
Definition get_V : M pulse (list R) := need_ready ;;; gets V_of.

(** PulseBase.py:83-88 *)
Definition W_of (p : pulse) : list R := map (fun v => v + w0_of p) (V_of p).
Definition get_W : M pulse (list R) := need_ready ;;; gets W_of.

(** PulseBase.py:89-97 *)
Definition T_of (p : pulse) : list R := linspace_open (- p_tw p / 2) (p_tw p / 2) (p_n p).
Definition get_T : M pulse (list R) := need_ready ;;; gets T_of.

(** PulseBase.py:167-181, 137-147 the public unit variants. *)
Definition F_of (p : pulse) : list R := map (fun w => w / (2 * PI)) (W_of p).
Definition get_F_THz : M pulse (list R) := need_ready ;;; gets F_of.
Definition get_dT_ps : M pulse R := get_dT.
Definition get_dT_mks : M pulse R := d <- get_dT ;; ret (d * / 1000000000000).
Definition get_T_mks : M pulse (list R) := t <- get_T ;; ret (map (fun x => x * / 1000000000000) t).
Definition get_V_mks : M pulse (list R) := v <- get_V ;; ret (map (fun x => x * 1000000000000) v).
Definition get_time_window_ps : M pulse R := gets p_tw.
Definition get_time_window_mks : M pulse R := gets (fun p => p_tw p * / 1000000000000).
Definition get_center_wavelength_nm : M pulse R := gets (fun p => c_nmps / p_f p).
(** PulseBase.py:139-140: multiplies by 1.0e9. *)
Definition get_center_wavelength_mks : M pulse R := gets (fun p => c_nmps / p_f p * 1000000000).
Definition get_center_frequency_THz : M pulse R := gets p_f.
Definition get_center_frequency_mks : M pulse R := gets (fun p => p_f p * 1000000000000).
Definition get_NPTS : M pulse nat := gets p_n.
(** PulseBase.py:186-192 *)
Definition get_frep_MHz : M pulse (option R) := gets p_frep.
Definition get_frep_mks : M pulse (option R) := gets (fun p => option_map (fun f => f * 1000000) (p_frep p)).

(** abs(W[1]-W[0])/(2 pi) on an array, IndexError when shorter than two *)
Definition first_spacing (w : list R) : result R :=
  match w with
  | a :: b :: _ => Ok (Rabs (b - a) / (2 * PI))
  | _ => Raise IndexError
  end.
(** PulseBase.py:182-183 *)
Definition get_dF_THz : M pulse R := w <- get_W ;; lift (first_spacing w).

(** ** Cached grids *)

(** an expression that may have evaluated to Python's None is used as an array: TypeError *)
Definition as_array {S} (o : option (list R)) : M S (list R) :=
  match o with Some l => ret l | None => raise TypeError end.

Section Str.
(** Python's str(float). *)
Variable strf : R -> string.

(** PulseBase.py:148-149  str(centerfrequency)+str(NPTS). *)
Definition hash_of (p : pulse) : string :=
  (strf (p_f p) ++ NilEmpty.string_of_uint (Nat.to_uint (p_n p)))%string.

Definition hash_eqb (h : option string) (s : string) : bool :=
  match h with Some x => String.eqb x s | None => false end.

(** PulseBase.py:127-133.  The hash is stored before the grid is computed, so a
    failing computation leaves the new hash with the old value. *)
Definition get_wl_nm : M pulse (option (list R)) :=
  p <- get ;;
  if hash_eqb (p_wlh p) (hash_of p) then ret (p_wlv p)
  else
    modify (with_wlc (Some (hash_of p)) (p_wlv p)) ;;;
    w <- get_W ;;
    let v := map (fun x => 2 * PI * c_nmps / x) w in
    modify (with_wlc (Some (hash_of p)) (Some v)) ;;;
    ret (Some v).

(** PulseBase.py:150-156 *)
Definition get_W_mks : M pulse (option (list R)) :=
  p <- get ;;
  if hash_eqb (p_Wh p) (hash_of p) then ret (p_Wv p)
  else
    modify (with_Wc (Some (hash_of p)) (p_Wv p)) ;;;
    w <- get_W ;;
    let v := map (fun x => x * 1000000000000) w in
    modify (with_Wc (Some (hash_of p)) (Some v)) ;;;
    ret (Some v).

(** PulseBase.py:157-158 *)
Definition get_F_mks : M pulse (list R) :=
  o <- get_W_mks ;; w <- as_array o ;; ret (map (fun x => x / (2 * PI)) w).
(** PulseBase.py:184-185 *)
Definition get_dF_mks : M pulse R :=
  o <- get_W_mks ;; w <- as_array o ;; lift (first_spacing w).
(** PulseBase.py:135-136 *)
Definition get_wl_mks : M pulse (list R) :=
  o <- get_W_mks ;; w <- as_array o ;; ret (map (fun x => 2 * PI * c_mks / x) w).

(** ** Field access *)

(** PulseBase.py:193-197 *)
Definition get_AW : M pulse (list C) :=
  p <- get ;; match p_AW p with Some a => ret a | None => raise RuntimeError end.
(** PulseBase.py:198-202 *)
Definition get_AT : M pulse (list C) :=
  p <- get ;; match p_AW p with Some a => ret (IFFT_t a) | None => raise RuntimeError end.

(** PulseBase.py:203-216.  The zero array is allocated (and kept) before the
    assignment that may raise. *)
Definition set_AW (v : list C) : M pulse unit :=
  need_ready ;;;
  p <- get ;;
  let cur := match p_AW p with Some a => a | None => repeat (RtoC 0) (p_n p) end in
  modify (with_AW (Some cur)) ;;;
  a <- lift (assign_all cur v) ;;
  modify (with_AW (Some a)).
(** PulseBase.py:218-227 *)
Definition set_AT (v : list C) : M pulse unit := set_AW (FFT_t v).

(** ** Energy *)

(** PulseBase.py:603-612 *)
Definition calc_epp : M pulse R :=
  d <- get_dT_mks ;; a <- get_AT ;;
  ret (d * trapz (map (fun z => Cmod z ^ 2) a)).

(** PulseBase.py:614-626.  A zero energy or a negative ratio gives inf/nan in numpy. *)
Definition set_epp (E : R) : M pulse unit :=
  a <- get_AT ;; e <- calc_epp ;;
  if Req_EM_T e 0 then raise NonFinite
  else if Rlt_dec (E / e) 0 then raise NonFinite
  else set_AT (map (fun z => z * RtoC (sqrt (E / e)))%C a).

(** ** Noise *)
(** PulseBase.py:629-675.  [planck] is scipy's constants.Planck, [rint]/[rphase] are the two
    arrays of random draws (normal, uniform on [0,1)).  A zero photon energy or bin width
    would give inf/nan. *)
Inductive noise_kind := sqrt_N_freq | one_photon_freq | other_noise.
Definition has_zero (l : list R) : bool := existsb (fun x => if Req_EM_T x 0 then true else false) l.
Definition add_noise (planck : R) (rint rphase : nat -> R) (k : noise_kind) : M pulse unit :=
  bin <- get_dF_mks ;;
  a <- get_AW ;;
  fm <- get_F_mks ;;
  let pe := map (fun f => planck * f) fm in
  if Req_EM_T bin 0 then raise NonFinite else
  if has_zero pe then raise NonFinite else
  ph <- lift (broadcast2 (fun z e => Cmod z ^ 2 / bin / e) a pe) ;;
  let ph' := map (fun x => if Rlt_dec x 0 then 0 else x) ph in
  let size := length a in
  let ri := mk size rint in
  let rp := mk size (fun i => rphase i * 2 * PI) in
  match k with
  | sqrt_N_freq =>
      x1 <- lift (broadcast2 (fun r q => r * sqrt q) ri ph') ;;
      x2 <- lift (broadcast2 (fun x e => x * e * bin) x1 pe) ;;
      nz <- lift (broadcast2 (fun x t => RtoC x * cis t)%C x2 rp) ;;
      s <- lift (broadcast2 Cplus a nz) ;; set_AW s
  | one_photon_freq =>
      x2 <- lift (broadcast2 (fun r e => r * e * bin) ri pe) ;;
      nz <- lift (broadcast2 (fun x t => RtoC x * cis t)%C x2 rp) ;;
      s <- lift (broadcast2 Cplus a nz) ;; set_AW s
  | other_noise => raise ValueError
  end.

(** ** Phase operations *)
(** PulseBase.py:707-716  the dispersion phase. *)
Definition chirp_phase (GDD TOD FOD v : R) : R :=
  GDD / 2 * v ^ 2 + TOD / 6 * v ^ 3 + FOD / 24 * v ^ 4.
(** PulseBase.py:679-716 *)
Definition chirp_pulse_W (GDD TOD FOD : R) (w0 : option R) : M pulse unit :=
  v <- (match w0 with
        | None => get_V
        | Some x => w <- get_W ;; ret (map (fun y => y - x) w)
        end) ;;
  a <- get_AW ;;
  s <- lift (broadcast2 Cmult (map (fun x => cis (chirp_phase GDD TOD FOD x)) v) a) ;;
  set_AW s.
(** PulseBase.py:717-718 *)
Definition apply_phase_W (phase : list R) : M pulse unit :=
  a <- get_AW ;; s <- lift (broadcast2 Cmult a (map cis phase)) ;; set_AW s.
(** PulseBase.py:719-721 *)
Definition chirp_pulse_T (chirp2 chirp3 T0 : R) : M pulse unit :=
  a <- get_AT ;; t <- get_T ;;
  s <- lift (broadcast2 Cmult a
         (map (fun x => cis (- (chirp2 / 2 * (x / T0) ^ 2) - chirp3 / 3 * (x / T0) ^ 3)) t)) ;;
  set_AT s.

(** np.max of an array of magnitudes; ValueError when empty *)
Definition max_list (l : list R) : result R :=
  match l with [] => Raise ValueError | x :: l' => Ok (fold_left Rmax l' x) end.
(** x[mask], mask computed from another array; IndexError for a mask of another length *)
Definition mask_select (x : list R) (key : list R) (mask : R -> bool) : result (list R) :=
  if Nat.eqb (length x) (length key)
  then Ok (map fst (filter (fun p => mask (snd p)) (combine x key)))
  else Raise IndexError.

(** PulseBase.py:723-738  dechirp_pulse (deg = 2) and remove_time_delay (deg = 1): identical but for
    the degree.  [phase_of] is np.unwrap(np.angle(.)), [fit] is np.polyfit followed by
    np.poly1d; an empty fit range raises TypeError. *)
Definition remove_fit (phase_of : list C -> list R) (fit : nat -> list R -> list R -> R -> R)
           (deg : nat) (threshold : R) : M pulse unit :=
  a <- get_AW ;;
  let phase := phase_of a in
  let ampl := map Cmod a in
  mx <- lift (max_list ampl) ;;
  let mask := fun x => if Rlt_dec (threshold * mx ^ 2) (x ^ 2) then true else false in
  w <- get_W ;;
  wm <- lift (mask_select w ampl mask) ;;
  pm <- lift (mask_select phase ampl mask) ;;
  (match wm with [] => raise TypeError | _ => ret tt end) ;;;
  rest <- lift (broadcast2 (fun ph x => ph - fit deg wm pm x) phase w) ;;
  s <- lift (broadcast2 (fun m t => RtoC m * cis t)%C ampl rest) ;;
  set_AW s.
Definition dechirp_pulse ph fit thr := remove_fit ph fit 2 thr.
Definition remove_time_delay ph fit thr := remove_fit ph fit 1 thr.

(** PulseBase.py:739-743 *)
Definition add_time_offset (offset : R) : M pulse unit :=
  w <- get_W ;; a <- get_AW ;;
  s <- lift (broadcast2 Cmult a (map (fun x => cis (- (x * offset))) w)) ;;
  set_AW s.

(** ** Regridding *)
Inductive loc := Before | After | Even | BadLoc.
(** PulseBase.py:744-771  (factor_log2 a natural number). *)
Definition expand_time_window (k : nat) (l : loc) : M pulse unit :=
  n <- get_NPTS ;;
  let new_pts := (n * (2 ^ k - 1))%nat in
  a <- get_AT ;;
  set_NPTS (n * 2 ^ k) ;;;
  t <- get_time_window_ps ;;
  set_time_window_ps (t * 2 ^ k) ;;;
  modify (with_AW None) ;;;
  match l with
  | Before => set_AT (repeat (RtoC 0) new_pts ++ a)
  | After => set_AT (a ++ repeat (RtoC 0) new_pts)
  | Even =>
      let b := Nat.div2 new_pts in
      set_AT (repeat (RtoC 0) b ++ a ++ repeat (RtoC 0) (new_pts - b))
  | BadLoc => raise ValueError
  end.

(** Python 3's round(): nearest integer, ties to even. *)
Definition py_round (x : R) : Z :=
  let k := Int_part x in
  let fr := x - IZR k in
  if Rlt_dec fr (1 / 2) then k
  else if Rlt_dec (1 / 2) fr then (k + 1)%Z
  else if Z.even k then k else (k + 1)%Z.

(** PulseBase.py:772-779 *)
Definition rotate_spectrum_to_new_center_wl (wl : R) : M pulse unit :=
  let fnew := c_nmps / wl in
  f <- get_center_frequency_THz ;;
  d <- get_dF_THz ;;
  a <- get_AW ;;
  set_AW (roll (- 1 * py_round ((f - fnew) / d)) a).

(** scipy.interpolate.interp1d(x, y, bounds_error=False, fill_value=0.0), linear, for ascending x
    (scipy sorts x; the grids used here are ascending for a positive time window). *)
Definition count_below (x : list R) (v : R) : nat :=
  length (filter (fun a => if Rlt_dec a v then true else false) x).
Definition interp1 (x : list R) (y : list C) (v : R) : C :=
  let n := length x in
  if Rlt_dec v (nth 0 x 0) then RtoC 0
  else if Rlt_dec (nth (n - 1) x 0) v then RtoC 0
  else
    let hi := Nat.min (Nat.max (count_below x v) 1) (n - 1) in
    let lo := (hi - 1)%nat in
    let slope := ((nth hi y (RtoC 0) - nth lo y (RtoC 0)) / RtoC (nth hi x 0 - nth lo x 0))%C in
    (slope * RtoC (v - nth lo x 0) + nth lo y (RtoC 0))%C.
Definition interp1d (x : list R) (y : list C) (v : list R) : result (list C) :=
  if negb (Nat.eqb (length x) (length y)) then Raise ValueError
  else Ok (map (interp1 x y) v).

(** PulseBase.py:807-813.  [q] is the other pulse; its getters do not change it. *)
Definition clone_pulse (q : pulse) : M pulse unit :=
  set_NPTS (p_n q) ;;;
  set_time_window_ps (p_tw q) ;;;
  set_center_wavelength_nm (c_nmps / p_f q) ;;;
  set_frep_MHz (p_frep q) ;;;
  a <- lift (fst (get_AT q)) ;;
  set_AT a.

(** Running a method on a freshly created object inside another method. *)
Definition with_new {A} (init : pulse) (m : M pulse A) : M pulse (A * pulse) :=
  fun s => match m init with
           | (Ok a, p) => (Ok (a, p), s)
           | (Raise e, _) => (Raise e, s)
           end.

(** PulseBase.py:828-832 *)
Definition create_cloned_pulse : M pulse pulse :=
  self <- get ;;
  r <- with_new (new_pulse None None) (clone_pulse self) ;;
  ret (snd r).

(** PulseBase.py:780-800.  The W_mks getters of both pulses fill their caches. *)
Definition interpolate_to_new_center_wl (wl : R) : M pulse pulse :=
  wp <- create_cloned_pulse ;;
  r1 <- with_new wp (set_center_wavelength_nm wl) ;;
  o <- get_W_mks ;; x <- as_array o ;;
  a <- get_AW ;;
  r2 <- with_new (snd r1)
     (o2 <- get_W_mks ;; v <- as_array o2 ;;
      y <- lift (interp1d x a v) ;; set_AW y) ;;
  ret (snd r2).

(** PulseBase.py:802-806 *)
Definition filter_by_wavelength_nm (lo hi : R) : M pulse unit :=
  a <- get_AW ;;
  o1 <- get_wl_nm ;; w1 <- as_array o1 ;;
  a1 <- lift (mask_assign a w1 (fun x => if Rlt_dec x lo then true else false) (RtoC 0)) ;;
  o2 <- get_wl_nm ;; w2 <- as_array o2 ;;
  a2 <- lift (mask_assign a1 w2 (fun x => if Rlt_dec hi x then true else false) (RtoC 0)) ;;
  set_AW a2.

(** PulseBase.py:814-821 *)
Record pulse_dict := mkDict {
  d_NPTS : nat; d_tw : R; d_wl : R; d_frep : option R; d_re : list R; d_im : list R }.
Definition get_pulse_dict : M pulse pulse_dict :=
  p <- get ;;
  a <- get_AT ;;
  ret (mkDict (p_n p) (p_tw p) (c_nmps / p_f p) (p_frep p) (map Re a) (map Im a)).
(** PulseBase.py:822-827 *)
Definition load_pulse_dict (d : pulse_dict) : M pulse unit :=
  set_NPTS (d_NPTS d) ;;;
  set_time_window_ps (d_tw d) ;;;
  set_center_wavelength_nm (d_wl d) ;;;
  set_frep_MHz (d_frep d) ;;;
  s <- lift (broadcast2 (fun a b => RtoC a + Ci * RtoC b)%C (d_re d) (d_im d)) ;;
  set_AT s.

(** PulseBase.py:833-854 *)
Definition create_subset_pulse (wl : R) (m : nat) : M pulse pulse :=
  n <- get_NPTS ;;
  if Nat.leb n m then raise ValueError else
  o <- get_wl_nm ;; w <- as_array o ;;
  ci <- lift (argmin (map (fun x => Rabs (x - wl)) w)) ;;
  self <- get ;;
  o' <- get_wl_nm ;; w' <- as_array o' ;;
  let wlc := nth ci w' 0 in
  let i1 := (Z.of_nat ci - Z.of_nat (Nat.div2 m))%Z in
  let i2 := (Z.of_nat ci + Z.of_nat (Nat.div2 m))%Z in
  a <- get_AW ;;
  r <- with_new (with_frep (p_frep self) (new_pulse None None))
        (set_center_wavelength_nm wlc ;;;
         set_time_window_ps (p_tw self) ;;;
         set_NPTS m ;;;
         set_AW (slice i1 i2 a)) ;;
  ret (snd r).

(** ** Averages *)
(** PulseBase.py:856-860.  A field without power gives nan. *)
Definition calculate_weighted_avg_frequency_mks : M pulse R :=
  a <- get_AW ;;
  o <- get_W_mks ;; w <- as_array o ;;
  s <- lift (broadcast2 (fun z x => Cmod z ^ 2 * x) a w) ;;
  let weights := lrsum (map (fun z => Cmod z ^ 2) a) in
  if Req_EM_T weights 0 then raise NonFinite
  else ret (lrsum s / (weights * 2 * PI)).
(** PulseBase.py:862-863 *)
Definition calculate_weighted_avg_wavelength_nm : M pulse R :=
  f <- calculate_weighted_avg_frequency_mks ;;
  if Req_EM_T f 0 then raise NonFinite else ret (1000000000 * c_mks / f).
(** PulseBase.py:865-876 *)
Definition calculate_intensity_autocorrelation : M pulse (list R) :=
  a <- get_AT ;;
  ret (correlate_same (map (fun z => Cmod z ^ 2) a) (map Cmod a)).

(** PulseBase.py:878-898: calls self.get_AW(), which does not exist. *)
Definition write_frog : M pulse unit := raise AttributeError.

End Str.

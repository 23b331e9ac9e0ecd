(** src/pynlo/interactions/ThreeWaveMixing/DFG_integrand.py: class fftcomputer, class dfg_problem, class dfg_results_interface.

    Simplifications, valid for the whole file: float64 is [R], complex128 is [C]; inf and nan are the pseudo-exception [NonFinite] (so
    the assertion that z is not nan, 301, always holds); NPTS is a natural number; centre wavelengths are Python floats (1.0/0.0 raises ZeroDivisionError);
    deepcopy returns an equal value, and the caches a pulse refreshes while its grid is read belong to it and are not carried along
    (a refresh never changes what a later read returns); while loops take fuel and end in [NoFuel].
    The preallocated work arrays phi_*, AsAi, ApAs, ApAi (154-165) are overwritten from end to end before each use and are not part of the state; the
    buffers of fftcomputer are.  Dropped because only plots and prints see them: R_p, R_s, R_i (330-332), the overlap_* attributes (355-371), the
    plots (280-281, 373-386, 494-503), the printed messages, self.frep.  Not modelled: gen_jl beyond its first read (199-241; it raises, see [deriv])
    and hence the chi-3 terms (424-438); the pump_max_field etc. statistics of dfg_results_interface (548-555). *)
From Coq Require Import String.
From Coq Require Import Reals List ZArith Bool Arith.
From Coquelicot Require Import Complex.
From Verif Require Import Base CNum NumPy ModelPulse ModelDerived ModelCrystal ModelBeam ModelODE.
Import ListNotations.
Local Open Scope R_scope.
Local Open Scope py_scope.
Local Notation z0 := (RtoC 0).

(** x[lo:hi] for 0 <= lo <= hi *)
Definition seg {A} (lo hi : nat) (x : list A) : list A := firstn (hi - lo) (skipn lo x).
(** x[lo:hi] = v: equal lengths, or one value spread over the slice, or ValueError *)
Definition set_seg {A} (lo hi : nat) (v x : list A) : result (list A) :=
  match assign_all (seg lo hi x) v with
  | Ok w => Ok (firstn lo x ++ w ++ skipn (Nat.max lo hi) x)
  | Raise e => Raise e
  end.

(** ** fftcomputer *)
(** DFG_integrand.py:579-600  gridsize and the buffers corrin, corrtransfer, backout.  Both back ends (pyfftw, numpy) transform between these buffers. *)
Record fftc := mkFC { fc_n : nat; fc_in : list C; fc_tr : list C; fc_out : list C }.
(** 589-592; pyfftw.empty_aligned leaves arbitrary contents instead of zeros *)
Definition fftc_init (n : nat) : fftc := mkFC n (repeat z0 (n * 2)) (repeat z0 (n * 2)) (repeat z0 (n * 2)).
(** 593-598  self.fft() and self.ifft(); the returned array is the buffer itself *)
Definition fc_fft : M fftc (list C) :=
  s <- get ;; t <- lift (assign_all (fc_tr s) (fft (fc_in s))) ;; put (mkFC (fc_n s) (fc_in s) t (fc_out s)) ;;; ret t.
Definition fc_ifft : M fftc (list C) :=
  s <- get ;; b <- lift (assign_all (fc_out s) (ifft (fc_tr s))) ;; put (mkFC (fc_n s) (fc_in s) (fc_tr s) b) ;;; ret b.
(** self.corrin[:] = 0; self.corrin[lo:hi] = data *)
Definition fc_load (lo hi : nat) (data : list C) : M fftc unit :=
  modify (fun s => mkFC (fc_n s) (map (fun _ => z0) (fc_in s)) (fc_tr s) (fc_out s)) ;;;
  s <- get ;; w <- lift (set_seg lo hi data (fc_in s)) ;; put (mkFC (fc_n s) w (fc_tr s) (fc_out s)).
(** ans[:] = ans*temp, where ans is the buffer corrtransfer *)
Definition fc_times (temp : list C) : M fftc unit :=
  s <- get ;; p <- lift (broadcast2 Cmult (fc_tr s) temp) ;; t <- lift (assign_all (fc_tr s) p) ;; put (mkFC (fc_n s) (fc_in s) t (fc_out s)).
(** 612 and 625 *)
Definition fc_result : M fftc (list C) :=
  s <- get ;; b <- fc_ifft ;; let h := Nat.div2 (fc_n s) in ret (seg h (fc_n s + h) (ifftshift b)).
(** 601-612 *)
Definition corr (data1 data2 : list C) : M fftc (list C) :=
  s <- get ;; let n := fc_n s in
  fc_load 0 n data2 ;;; f <- fc_fft ;; let temp := map Cconj f in
  fc_load 0 n data1 ;;; fc_fft ;;; fc_times temp ;;; fc_result.
(** 614-625 *)
Definition conv (resp sig : list C) : M fftc (list C) :=
  s <- get ;; let n := fc_n s in
  fc_load n (n * 2) resp ;;; temp <- fc_fft ;;
  fc_load 0 n sig ;;; fc_fft ;;; fc_times temp ;;; fc_result.

(** ** Poling *)
(** the attributes of a crystal that only dfg_problem reads: mode, deff and pp *)
Record dcrystal := mkDX { dx_x : crystal; dx_mode : string; dx_deff : R; dx_pp : R -> R }.

(** 271-277  the while loop; returns the pairs (domain_lb, domain_ub) *)
Fixpoint poling_loop (fuel : nat) (len : R) (pp : R -> R) (z : R) : result (list (R * R)) :=
  if Rlt_dec z len then
    match fuel with
    | O => Raise NoFuel
    | S k => r <-r poling_loop k len pp (z + pp z) ;; Ok ((z + pp z * (1 / 2), z + pp z * 1) :: r)
    end
  else Ok [].
(** 267-279 *)
Definition precompute_poling (fuel : nat) (x : dcrystal) : result (list (R * R)) :=
  match x_len (dx_x x) with None => Raise TypeError | Some len => poling_loop fuel len (dx_pp x) 0 end.
(** 262-265 *)
Definition poling (doms : list (R * R)) (x : R) : R :=
  if existsb (fun d => (if Rlt_dec (fst d) x then true else false) && (if Rlt_dec x (snd d) then true else false)) doms then -1 else 1.

(** ** dfg_problem *)
Inductive beams := Bulk (p s i : beam) | Guided (p s i : waveguide).
Record dfg := mkDfg {
  q_pump : pulse; q_sgnl : pulse; q_idlr : pulse; q_xtal : dcrystal; q_doms : list (R * R);
  q_gouy : bool; q_noSPM : bool; q_n : nat; q_beams : beams; q_ystart : list C;
  q_kp : list R; q_ks : list R; q_ki : list R; q_kp0 : R; q_ks0 : R; q_ki0 : R;
  q_np : list R; q_ns : list R; q_ni : list R; q_centre : nat; q_speed : R }.

(** Python's 1.0/x for a float *)
Definition pyinv (x : R) : result R := if Req_EM_T x 0 then Raise ZeroDivisionError else Ok (1 / x).
Definition is_mode (x : dcrystal) (s : string) : bool := String.eqb (dx_mode x) s.
(** Python's min() and max() of an array *)
Definition min_list (l : list R) : result R := match l with [] => Raise ValueError | x :: l' => Ok (fold_left Rmin l' x) end.
(** np.argmax(abs(a)): the first position of the largest magnitude *)
Definition argmax_abs (a : list C) : result nat := argmin (map (fun z => - Cmod z) a).
(** np.mean *)
Definition mean (l : list R) : result R := fdiv (lrsum l) (INR (length l)).

Section Str.
Variable strf : R -> string.

(** reading a getter of a pulse *)
Definition rd {S A} (m : M pulse A) (p : pulse) : M S A := lift (fst (m p)).
Definition wl_of (p : pulse) : result (list R) := fst ((o <- get_wl_nm strf ;; as_array o) p).
Definition Wmks_of (p : pulse) : result (list R) := fst ((o <- get_W_mks strf ;; as_array o) p).

(** 83-94  the idler.  A zero or negative difference of the inverse wavelengths is not rejected here. *)
Definition make_idler (rand : nat -> R) (pump sgnl : pulse) : result pulse :=
  a <-r pyinv (c_nmps / p_f pump) ;; b <-r pyinv (c_nmps / p_f sgnl) ;;
  cwl <-r pyinv (a - b) ;;
  match noise_pulse cwl (p_tw pump) (p_n pump) (p_frep pump) rand pulse0 with
  | (Ok _, p) => Ok p | (Raise e, _) => Raise e
  end.
(** 98-105 *)
Definition check_below (short long : pulse) : result unit :=
  a <-r wl_of short ;; m <-r max_list a ;; b <-r wl_of long ;; m' <-r min_list b ;;
  if Rlt_dec m' m then Raise ValueError else Ok tt.

Definition k_at (axis : option string) (p : pulse) (x : dcrystal) : M shared (list R) := reading (get_pulse_k strf (dx_x x) axis) p.
Definition n_at (axis : option string) (p : pulse) (x : dcrystal) : M shared (list R) := reading (get_pulse_n strf (dx_x x) axis) p.

(** 125-146 *)
Definition make_beams (wg : bool) (waist Aeff : R) (pump sgnl idlr : pulse) (x : dcrystal) : M shared beams :=
  if wg then
    if is_mode x "BPM" then raise AssertionError
    else rd (get_wl_mks strf) pump ;;; rd (get_wl_mks strf) sgnl ;;; rd (get_wl_mks strf) idlr ;;;
         ret (Guided (wg_init Aeff None) (wg_init Aeff None) (wg_init Aeff None))
  else
    let axp := if is_mode x "BPM" then Some "mix"%string else None in
    let axo := if is_mode x "BPM" then Some "o"%string else None in
    bp0 <- rd (beam_init strf [waist] axp) pump ;;
    bp <- set_waist_to_match_central_waist strf bp0 pump waist (dx_x x) ;;
    bs0 <- rd (beam_init strf [waist] axo) sgnl ;;
    bs <- set_waist_to_match_confocal strf bs0 sgnl pump bp (dx_x x) ;;
    bi0 <- rd (beam_init strf [waist] axo) idlr ;;
    bi <- set_waist_to_match_confocal strf bi0 idlr pump bp (dx_x x) ;;
    ret (Bulk bp bs bi).
Definition axes (b : beams) : option string * option string * option string :=
  match b with Bulk p s i => (b_axis p, b_axis s, b_axis i) | Guided p s i => (g_axis p, g_axis s, g_axis i) end.

(** 58-189.  [waist] is pump_waist; [Aeff] is Aeff_squm, None when not given.  The fftcomputer (148) is returned beside the problem. *)
Definition dfg_init (fuel : nat) (rand : nat -> R) (pump sgnl : pulse) (x : dcrystal) (noSPM : bool) (waist : R) (gouy wg : bool) (Aeff : option R)
  : M shared (dfg * fftc) :=
  (if wg then match Aeff with None => raise AssertionError | Some _ => ret tt end else ret tt) ;;;
  idlr <- lift (make_idler rand pump sgnl) ;;
  lift (check_below pump sgnl) ;;; lift (check_below sgnl idlr) ;;;
  doms <- lift (if is_mode x "PP" then precompute_poling fuel x else Ok []) ;;
  let n := p_n sgnl in
  (if (Nat.eqb (p_n pump) n && Nat.eqb n (p_n idlr))%bool then ret tt else raise ValueError) ;;;
  bs <- make_beams wg waist (match Aeff with Some a => a | None => 0 end) pump sgnl idlr x ;;
  ap <- rd get_AW pump ;; as_ <- rd get_AW sgnl ;; ai <- rd get_AW idlr ;;
  let '(xp, xs, xi) := axes bs in
  kp <- k_at xp pump x ;; ks <- k_at xs sgnl x ;; ki <- k_at xi idlr x ;;
  kp0 <- lift (middle kp) ;; ks0 <- lift (middle ks) ;; ki0 <- lift (middle ki) ;;
  np <- n_at xp pump x ;; ns <- n_at xs sgnl x ;; ni <- n_at xi idlr x ;;
  ci <- lift (argmax_abs ap) ;;
  vp <- lift (rtraverse (fdiv c_mks) np) ;; mp <- lift (max_list vp) ;;
  vs <- lift (rtraverse (fdiv c_mks) ns) ;; ms <- lift (max_list vs) ;;
  vi <- lift (rtraverse (fdiv c_mks) ni) ;; mi <- lift (max_list vi) ;;
  speed <- lift (max_list [mp; ms; mi]) ;;
  ret (mkDfg pump sgnl idlr x doms gouy noSPM n bs (ap ++ as_ ++ ai)
         (map (fun k => k - kp0) kp) (map (fun k => k - ks0) ks) (map (fun k => k - ki0) ki) kp0 ks0 ki0 np ns ni ci speed,
       fftc_init n).

(** 285-290 *)
Definition Ap (q : dfg) (y : list C) : list C := seg 0 (q_n q) y.
Definition As (q : dfg) (y : list C) : list C := seg (q_n q) (2 * q_n q) y.
Definition Ai (q : dfg) (y : list C) : list C := seg (2 * q_n q) (3 * q_n q) y.

(** the class attributes of Crystal (refractive index cache) and the fftcomputer *)
Record dstate := mkDS { ds_k : shared; ds_fc : fftc }.
Definition on_k {A} (m : M shared A) : M dstate A := fun s => match m (ds_k s) with (r, k) => (r, mkDS k (ds_fc s)) end.
Definition on_fc {A} (m : M fftc A) : M dstate A := fun s => match m (ds_fc s) with (r, f) => (r, mkDS (ds_k s) f) end.

(** exp(1j ((k + k0) z - t W_mks)), 311-313 and 482-484 *)
Definition phasor (k : list R) (k0 : R) (z t : R) (p : pulse) : result (list C) :=
  w <-r Wmks_of p ;; broadcast2 (fun k w => cis ((k + k0) * z - t * w)) k w.
(** 302-307 *)
Definition deff_at (q : dfg) (z : R) : result R :=
  if is_mode (q_xtal q) "PP" then Ok (poling (q_doms q) z * dx_deff (q_xtal q))
  else if (is_mode (q_xtal q) "BPM" || is_mode (q_xtal q) "simple")%bool then Ok (dx_deff (q_xtal q))
  else Raise AttributeError.
(** 316-320, in place on phi *)
Definition add_gouy (q : dfg) (zf : R) (ph : list C * list C * list C) : result (list C * list C * list C) :=
  if q_gouy q then
    let '(pp, ps, pi) := ph in
    match q_beams q with
    | Guided bp bs bi => Ok (map (fun z => z * wg_gouy bp zf (q_np q))%C pp, map (fun z => z * wg_gouy bs zf (q_ns q))%C ps, map (fun z => z * wg_gouy bi zf (q_ni q))%C pi)
    | Bulk bp bs bi =>
      gp <-r calculate_gouy_phase bp zf (q_np q) ;; xp <-r broadcast2 Cmult pp gp ;; xp' <-r assign_all pp xp ;;
      gs <-r calculate_gouy_phase bs zf (q_ns q) ;; xs <-r broadcast2 Cmult ps gs ;; xs' <-r assign_all ps xs ;;
      gi <-r calculate_gouy_phase bi zf (q_ni q) ;; xi <-r broadcast2 Cmult pi gi ;; xi' <-r assign_all pi xi ;;
      Ok (xp', xs', xi')
    end
  else Ok ph.
(** rtP_to_a_2 of a beam, beam.py:101-105 *)
Definition rtP_to_a_2 (b : beam) (p : pulse) (x : crystal) (z : R) (waist : option (list R)) : M shared (list R) :=
  n <- get_n_in_crystal strf b p x ;; lift (rtP_to_a_ b n z waist).
(** 326-391  pump_P_to_a, sgnl_P_to_a, idlr_P_to_a *)
Definition P_to_a (q : dfg) (zf : R) : M shared (list R * list R * list R) :=
  match q_beams q with
  | Bulk bp bs bi =>
    wp <- lift (calculate_waist bp zf (q_np q)) ;; ws <- lift (calculate_waist bs zf (q_ns q)) ;; wi <- lift (calculate_waist bi zf (q_ni q)) ;;
    mp <- lift (mean wp) ;; ms <- lift (mean ws) ;; mi <- lift (mean wi) ;;
    let x := dx_x (q_xtal q) in
    if Rle_dec mp ms then
      if Rle_dec mp mi then
        a <- rtP_to_a_2 bp (q_pump q) x zf None ;; b <- rtP_to_a_2 bs (q_sgnl q) x zf (Some wp) ;; c <- rtP_to_a_2 bi (q_idlr q) x zf (Some wp) ;; ret (a, b, c)
      else if Rle_dec ms mi then
        b <- rtP_to_a_2 bs (q_sgnl q) x zf None ;; a <- rtP_to_a_2 bp (q_pump q) x zf (Some ws) ;; c <- rtP_to_a_2 bi (q_idlr q) x zf (Some ws) ;; ret (a, b, c)
      else
        c <- rtP_to_a_2 bi (q_idlr q) x zf (Some wi) ;; b <- rtP_to_a_2 bs (q_sgnl q) x zf (Some wi) ;; a <- rtP_to_a_2 bp (q_pump q) x zf (Some wi) ;; ret (a, b, c)
    else if Rle_dec ms mi then
      b <- rtP_to_a_2 bs (q_sgnl q) x zf None ;; a <- rtP_to_a_2 bp (q_pump q) x zf (Some ws) ;; c <- rtP_to_a_2 bi (q_idlr q) x zf (Some ws) ;; ret (a, b, c)
    else
      c <- rtP_to_a_2 bi (q_idlr q) x zf (Some wi) ;; b <- rtP_to_a_2 bs (q_sgnl q) x zf (Some wi) ;; a <- rtP_to_a_2 bp (q_pump q) x zf (Some wi) ;; ret (a, b, c)
  | Guided bp bs bi =>
    a <- lift (wg_rtP_to_a bp (q_np q)) ;; b <- lift (wg_rtP_to_a bs (q_ns q)) ;; c <- lift (wg_rtP_to_a bi (q_ni q)) ;; ret (a, b, c)
  end.

(** P_to_a * A * phi, the arguments of conv and corr (394-403) *)
Definition drive (pa : list R) (a phi : list C) : result (list C) :=
  x <-r broadcast2 (fun r z => RtoC r * z)%C pa a ;; broadcast2 Cmult x phi.
(** np.power(phi, -1.0) * mix, written into a work array of NPTS elements (393, 397, 401) *)
Definition unphase (n : nat) (phi mix : list C) : result (list C) :=
  x <-r broadcast2 (fun p m => / p * m)%C phi mix ;; assign_all (repeat z0 n) x.
(** 1j * 2 * mix * W_mks * deff / (c * n) / P_to_a (442-449) *)
Definition rhs (mix : list C) (w : list R) (deff : R) (n pa : list R) : result (list C) :=
  a <-r broadcast2 (fun m w => Ci * RtoC 2 * m * RtoC w * RtoC deff)%C mix w ;;
  b <-r bcast (fun a n => if Req_EM_T (c_mks * n) 0 then Raise NonFinite else Ok (a / RtoC (c_mks * n))%C) a n ;;
  bcast (fun b p => if Req_EM_T p 0 then Raise NonFinite else Ok (b / RtoC p)%C) b pa.

(** 300-391  everything that does not depend on the fields: deff, the phasors phi_p, phi_s, phi_i (written into work arrays of NPTS elements) and the
    conversion factors P_to_a.  With SPM enabled gen_jl is called (322-323), whose first action besides reading indices is self.pump.w_hz (215):
    no Pulse has that attribute. *)
Definition frame (q : dfg) (z : R) : M dstate (R * (list C * list C * list C) * (list R * list R * list R)) :=
  deff <- lift (deff_at q z) ;;
  t <- lift (fdiv z (q_speed q)) ;;
  p <- lift (phasor (q_kp q) (q_kp0 q) z t (q_pump q)) ;; p0 <- lift (assign_all (repeat z0 (q_n q)) p) ;;
  s <- lift (phasor (q_ks q) (q_ks0 q) z t (q_sgnl q)) ;; s0 <- lift (assign_all (repeat z0 (q_n q)) s) ;;
  i <- lift (phasor (q_ki q) (q_ki0 q) z t (q_idlr q)) ;; i0 <- lift (assign_all (repeat z0 (q_n q)) i) ;;
  len <- lift (match x_len (dx_x (q_xtal q)) with Some l => Ok l | None => Raise TypeError end) ;;
  let zf := z - len / 2 in
  ph <- lift (add_gouy q zf (p0, s0, i0)) ;;
  (if q_noSPM q then ret tt else raise AttributeError) ;;;
  pa <- on_k (P_to_a q zf) ;;
  ret (deff, ph, pa).
(** 393-406, 439-449  the array dydx is filled in place; it is returned. *)
Definition deriv (q : dfg) (z : R) (y dydx : list C) : M dstate (list C) :=
  fr <- frame q z ;;
  let '(deff, (pp, ps, pi), (ap, as_, ai)) := fr in
  dp <- lift (drive ap (Ap q y) pp) ;; ds <- lift (drive as_ (As q y) ps) ;; di <- lift (drive ai (Ai q y) pi) ;;
  c1 <- on_fc (conv ds di) ;; AsAi <- lift (unphase (q_n q) pp c1) ;;
  c2 <- on_fc (corr dp ds) ;; ApAs <- lift (unphase (q_n q) pi c2) ;;
  c3 <- on_fc (corr dp di) ;; ApAi <- lift (unphase (q_n q) ps c3) ;;
  let L := q_n q in
  wp <- lift (Wmks_of (q_pump q)) ;; r1 <- lift (rhs AsAi wp deff (q_np q) ap) ;; d1 <- lift (set_seg 0 L r1 dydx) ;;
  ws <- lift (Wmks_of (q_sgnl q)) ;; r2 <- lift (rhs ApAi ws deff (q_ns q) as_) ;; d2 <- lift (set_seg L (2 * L) r2 d1) ;;
  wi <- lift (Wmks_of (q_idlr q)) ;; r3 <- lift (rhs ApAs wi deff (q_ni q) ai) ;; lift (set_seg (2 * L) (3 * L) r3 d2).

(** ** Post-processing *)
(** The solver's saved data, and the pulse objects that exist (the interface keeps one of them). *)
Record rworld := mkRW { rw_out : output; rw_pulses : list pulse }.
(** 537-546  the pulse is named by its position in rw_pulses; the fields are views of the solver's arrays: rows 0..i_saves-1 *)
Record iface := mkI { i_pulse : nat; i_wlp : R; i_wls : R; i_wli : R; i_n : nat; i_saves : nat }.

Definition set_ysave (ys : list (list C)) (o : output) : output :=
  mkO (o_kmax o) (o_nvar o) (o_nsave o) (o_dense o) (o_count o) (o_x1 o) (o_x2 o) (o_xout o) (o_dxout o) (o_xsave o) ys (o_dtype o).

(** 482-489 on one saved row: the three views are multiplied in place *)
Definition phase_row (q : dfg) (speed z : R) (r : list C) : result (list C) :=
  t <-r fdiv z speed ;;
  pp <-r phasor (q_kp q) (q_kp0 q) z t (q_pump q) ;; ps <-r phasor (q_ks q) (q_ks0 q) z t (q_sgnl q) ;; pi <-r phasor (q_ki q) (q_ki0 q) z t (q_idlr q) ;;
  let L := q_n q in
  a <-r broadcast2 Cmult (seg 0 L r) pp ;; r1 <-r set_seg 0 L a r ;;
  b <-r broadcast2 Cmult (seg L (2 * L) r1) ps ;; r2 <-r set_seg L (2 * L) b r1 ;;
  c <-r broadcast2 Cmult (seg (2 * L) (3 * L) r2) pi ;; set_seg (2 * L) (3 * L) c r2.
(** 478-489  rows i, i+1, ... of the saved data; an exception leaves the earlier rows changed *)
Fixpoint phase_rows (q : dfg) (speed : R) (todo i : nat) : M output unit :=
  match todo with
  | O => ret tt
  | S k =>
    o <- get ;;
    match nth_error (o_xsave o) i, nth_error (o_ysave o) i with
    | Some z, Some r => r' <- lift (phase_row q speed z r) ;; put (set_ysave (setnth i r' (o_ysave o)) o) ;;; phase_rows q speed k (S i)
    | _, _ => raise IndexError
    end
  end.
Definition on_out {A} (m : M output A) : M rworld A := fun w => match m (rw_out w) with (r, o) => (r, mkRW o (rw_pulses w)) end.
(** 450-492, 537-559.  Without saved arrays (Output(None)) None is subscripted; real saved data cannot hold the complex products. *)
Definition process_stepper_output (q : dfg) : M rworld iface :=
  w <- get ;;
  (match o_kmax (rw_out w) with None => raise TypeError | Some _ => ret tt end) ;;;
  nc <- lift (match nth_error (q_np q) (q_centre q) with Some v => Ok v | None => Raise IndexError end) ;;
  speed <- lift (fdiv c_mks nc) ;;
  let count := o_count (rw_out w) in
  (match o_dtype (rw_out w) with Float64 => if Nat.eqb count 0 then ret tt else raise TypeError | Complex128 => ret tt end) ;;;
  on_out (phase_rows q speed count 0) ;;;
  p <- rd create_cloned_pulse (q_pump q) ;;
  (if (Nat.eqb count 0 || Nat.eqb (q_n q) 0)%bool then raise ValueError else ret tt) ;;;
  w <- get ;;
  put (mkRW (rw_out w) (rw_pulses w ++ [p])) ;;;
  ret (mkI (length (rw_pulses w)) (c_nmps / p_f (q_pump q)) (c_nmps / p_f (q_sgnl q)) (c_nmps / p_f (q_idlr q)) (q_n q) count).

(** 564-577; n a natural number.  The pulse is changed and its name returned. *)
Definition get_field (lo hi : nat) (wl : R) (f : iface) (n : nat) : M rworld nat :=
  w <- get ;;
  if Nat.ltb n (i_saves f) then
    match nth_error (o_ysave (rw_out w)) n, nth_error (rw_pulses w) (i_pulse f) with
    | Some r, Some p =>
      match (set_AW (seg lo hi r) ;;; set_center_wavelength_nm wl) p with
      | (res, p') => put (mkRW (rw_out w) (upd (i_pulse f) (fun _ => p') (rw_pulses w))) ;;; lift res ;;; ret (i_pulse f)
      end
    | _, _ => raise IndexError
    end
  else raise IndexError.
Definition get_pump (f : iface) (n : nat) : M rworld nat := get_field 0 (i_n f) (i_wlp f) f n.
Definition get_sgnl (f : iface) (n : nat) : M rworld nat := get_field (i_n f) (2 * i_n f) (i_wls f) f n.
Definition get_idlr (f : iface) (n : nat) : M rworld nat := get_field (2 * i_n f) (3 * i_n f) (i_wli f) f n.
(** 561-562 *)
Definition get_z (f : iface) (n : nat) : M rworld R :=
  w <- get ;; if Nat.ltb n (i_saves f) then lift (match nth_error (o_xsave (rw_out w)) n with Some z => Ok z | None => Raise IndexError end) else raise IndexError.
End Str.

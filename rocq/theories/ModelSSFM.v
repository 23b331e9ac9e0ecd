(** src/pynlo/interactions/FourWaveMixing/SSFM.py: split-step / RK4IP propagation.

    Modelled: the scipy branch (PYFFTW_AVAILABLE = False; with pyfftw the same transforms are computed in
    preallocated buffers).  complex64 storage of the returned columns is taken as exact.  The while loop of
    integrate_over_dz is a function of a fuel argument that returns None when the fuel runs out; a call
    "terminates" when some fuel suffices.  Printing, plotting and gc are left out. *)
From Coq Require Import Reals List ZArith Bool Arith.
From Coquelicot Require Import Complex.
From Verif Require Import Base CNum NumPy ModelFFT ModelPulse.
Import ListNotations.
Local Open Scope R_scope.
Local Open Scope py_scope.

(** elementwise numpy operations on equally long arrays *)
Definition vadd (a b : list C) : list C := map2 Cplus a b.
Definition vsub (a b : list C) : list C := map2 Cminus a b.
Definition vmul (a b : list C) : list C := map2 Cmult a b.
Definition vscale (k : C) (a : list C) : list C := map (Cmult k) a.
(** np.linalg.norm *)
Definition norm2 (a : list C) : R := sqrt (lrsum (map Cnorm2 a)).

Inductive method := METHOD_SSFM | METHOD_RK4IP.

(** SSFM.py:43-70: the attributes that no method of the integrator changes; c_pre is
    global_variables.PRE_FFTSHIFT (global_variables.py:35, True as shipped). *)
Record cfg := mkCfg {
  c_err : R; c_method : method; c_eta : nat; c_noRaman : bool; c_noSS : bool; c_simple : bool;
  c_tau1 : R; c_tau2 : R; c_pre : bool }.
(** SSFM.py:69 *)
Definition dz_min : R := / 10 ^ 12.

(** The attributes that change.  Work arrays whose old contents are never read (Ac, Af, k1-k4, A2, ...)
    are local values in the model. *)
Record ssfm := mkS {
  s_A : list C; s_dz : R; s_iter : nat;
  s_lasth : option R; s_lastdir : R; s_expD : list C;
  s_betas : list C; s_alpha : list C; s_gamma : R; s_w0 : R; s_omegas : list C; s_R : list C; s_fR : R }.
Definition with_A (a : list C) (s : ssfm) := mkS a (s_dz s) (s_iter s) (s_lasth s) (s_lastdir s) (s_expD s) (s_betas s) (s_alpha s) (s_gamma s) (s_w0 s) (s_omegas s) (s_R s) (s_fR s).
Definition with_dz (d : R) (s : ssfm) := mkS (s_A s) d (s_iter s) (s_lasth s) (s_lastdir s) (s_expD s) (s_betas s) (s_alpha s) (s_gamma s) (s_w0 s) (s_omegas s) (s_R s) (s_fR s).
Definition with_iter (i : nat) (s : ssfm) := mkS (s_A s) (s_dz s) i (s_lasth s) (s_lastdir s) (s_expD s) (s_betas s) (s_alpha s) (s_gamma s) (s_w0 s) (s_omegas s) (s_R s) (s_fR s).
Definition with_lasth (h : option R) (s : ssfm) := mkS (s_A s) (s_dz s) (s_iter s) h (s_lastdir s) (s_expD s) (s_betas s) (s_alpha s) (s_gamma s) (s_w0 s) (s_omegas s) (s_R s) (s_fR s).
Definition with_cache (h : option R) (d : R) (e : list C) (s : ssfm) := mkS (s_A s) (s_dz s) (s_iter s) h d e (s_betas s) (s_alpha s) (s_gamma s) (s_w0 s) (s_omegas s) (s_R s) (s_fR s).
Definition with_fiber (b : list C) (g : R) (s : ssfm) := mkS (s_A s) (s_dz s) (s_iter s) (s_lasth s) (s_lastdir s) (s_expD s) b (s_alpha s) g (s_w0 s) (s_omegas s) (s_R s) (s_fR s).

(** SSFM.py:43-70  __init__: a solver before the first setup_fftw *)
Definition new_ssfm (dz f_R : R) : ssfm := mkS [] dz 0 (Some (-1)) 0 [] [] [] 0 0 [] [] f_R.

(** SSFM.py:669-745 (FFT_t = FFT_t_2, IFFT_t = IFFT_t_2 = IFFT_t_3 in the scipy branch) *)
Definition fft_t (c : cfg) (a : list C) : list C := if c_pre c then ifft a else ifftshift (ifft (fftshift a)).
Definition ifft_t (c : cfg) (a : list C) : list C := if c_pre c then fft a else ifftshift (fft (fftshift a)).
(** SSFM.py:693-698 *)
Definition fft_t_shift (a : list C) : list C := ifftshift (ifft (fftshift a)).
(** SSFM.py:759-770: they also write the argument; the callers below do that explicitly *)
Definition cifftshift (c : cfg) (a : list C) : list C := if c_pre c then ifftshift a else a.
Definition cfftshift (c : cfg) (a : list C) : list C := if c_pre c then fftshift a else a.

(** SSFM.py:453-454  Calculate_expD *)
Definition calc_expD (h dir : R) (betas alpha : list C) : list C :=
  map2 (fun b a => cexp (RtoC (dir * h * (1 / 2)) * (Ci * b - a / RtoC 2)))%C betas alpha.

(** SSFM.py:390-396  LinearStep *)
Definition cache_hit (h dir : R) (s : ssfm) : bool :=
  match s_lasth s with
  | None => false
  | Some lh => if Req_EM_T h lh then if Req_EM_T dir (s_lastdir s) then true else false else false
  end.
Definition linear_step (c : cfg) (A : list C) (h dir : R) (s : ssfm) : list C * ssfm :=
  let s1 := if cache_hit h dir s then s
            else with_cache (Some h) dir (calc_expD h dir (s_betas s) (s_alpha s)) s in
  (ifft_t c (vmul (s_expD s1) (fft_t c A)), s1).

(** SSFM.py:398-402  Deriv *)
Definition deriv (c : cfg) (omegas Aw : list C) : list C :=
  ifft_t c (vmul (map (fun w => - Ci * w)%C omegas) Aw).

(** SSFM.py:404-433  NonlinearOperator *)
Definition nonlinear (c : cfg) (s : ssfm) (A : list C) : list C :=
  let A2 := map (fun z => RtoC (Cnorm2 z)) A in
  let A2w := fft_t c A2 in
  let R_A2 := ifft_t c (vmul (s_R s) A2w) in
  if c_noSS c then vscale (Ci * RtoC (s_gamma s))%C R_A2
  else
    let Aw := fft_t c A in
    let dA := deriv c (s_omegas s) Aw in
    let dA2 := deriv c (s_omegas s) A2w in
    let dR_A2 := ifft_t c (vmul (s_R s) (fft_t c dA2)) in
    let w := map2 (fun a x => if Rlt_dec (/ 10 ^ 15) (Cmod a) then (x / (RtoC (/ 10 ^ 20) + a))%C else RtoC 0) A (vmul dA R_A2) in
    vsub (vscale (Ci * RtoC (s_gamma s))%C R_A2) (vscale (RtoC (s_gamma s / s_w0 s)) (vadd dR_A2 w)).

(** SSFM.py:436-451  RK4IP *)
Definition rk4ip (c : cfg) (A : list C) (h dir : R) (s : ssfm) : list C * ssfm :=
  let '(A_I, s1) := linear_step c A h dir s in
  let prop x := ifft_t c (vmul (s_expD s1) (fft_t c x)) in
  let nl x := vmul (vscale (RtoC (h * dir)) (nonlinear c s1 x)) x in
  let k1 := prop (nl A) in
  let k2 := nl (vadd A_I (vscale (/ RtoC 2)%C k1)) in
  let k3 := nl (vadd A_I (vscale (/ RtoC 2)%C k2)) in
  let temp := prop (vadd A_I k3) in
  let k4 := nl temp in
  (vadd (prop (vadd (vadd (vadd A_I (vscale (/ RtoC 6)%C k1)) (vscale (/ RtoC 3)%C k2)) (vscale (/ RtoC 3)%C k3)))
        (vscale (/ RtoC 6)%C k4), s1).

(** SSFM.py:379-388  Advance *)
Definition kerr (c : cfg) (s : ssfm) (A : list C) (h dir : R) : list C :=
  vmul (map (fun z => cexp (RtoC (h * dir) * z)%C) (nonlinear c s A)) A.
Definition advance (c : cfg) (A : list C) (h dir : R) (s : ssfm) : list C * ssfm :=
  match c_method c with
  | METHOD_SSFM =>
      if Req_EM_T dir 1 then
        let '(a, s1) := linear_step c A h dir s in (kerr c s1 a h dir, s1)
      else linear_step c (kerr c s A h dir) h dir s
  | METHOD_RK4IP => rk4ip c A h dir s
  end.

(** SSFM.py:753-758  CalculateLocalError *)
Definition local_err (Af Ac : list C) : R :=
  if Req_EM_T (norm2 Af) 0 then norm2 (vsub Af Ac) else norm2 (vsub Af Ac) / norm2 Af.

(** SSFM.py:353-358  Richardson extrapolation *)
Definition richardson (c : cfg) (Af Ac : list C) : list C :=
  if Nat.eqb (c_eta c) 3 then vsub (vscale (RtoC (4 / 3)) Af) (vscale (RtoC (1 / 3)) Ac)
  else if Nat.eqb (c_eta c) 5 then vsub (vscale (RtoC (16 / 15)) Af) (vscale (RtoC (1 / 15)) Ac)
  else let p := Rpower 2 (INR (c_eta c) - 1) in
       vsub (vscale (RtoC (p / (p - 1))) Af) (vscale (RtoC (1 / (p - 1))) Ac).

(** SSFM.py:330-351  the step-size decision: is the step kept, and the next step size.  [None] stands for a
    NaN error, for which every comparison is false. *)
Definition dz_factor (c : cfg) : R := Rpower 2 (1 / INR (c_eta c)).
Definition step_ctl (c : cfg) (dz : R) (delta : option R) : bool * R :=
  match delta with
  | None => (true, dz * dz_factor c)
  | Some d =>
      if Rlt_dec (2 * c_err c) d then
        if Rle_dec dz_min (dz / 2) then (false, dz / 2) else (true, dz)
      else if Rle_dec (c_err c) d then     (* d <= 2*local_error holds here *)
        (true, if Rle_dec dz_min (dz / dz_factor c) then dz / dz_factor c else dz)
      else if Rle_dec (1 / 2 * c_err c) d then (true, dz)
      else (true, dz * dz_factor c)
  end.

(** SSFM.py:316-373  the loop.  [attempt dz s] is the body up to the error estimate: the error, the state if
    the step is discarded, and the state if it is kept.  The loop returns the final values of the local variables
    dist, dz, return_dz (None while force_last_dz is False) and the step lengths it kept, latest first. *)
Record lres (S : Type) := mkL { l_dist : R; l_dz : R; l_ret : option R; l_steps : list R; l_st : S }.
Arguments mkL {S}. Arguments l_dist {S}. Arguments l_dz {S}. Arguments l_ret {S}. Arguments l_steps {S}. Arguments l_st {S}.
Section Loop.
Context {S : Type}.
Variable c : cfg.
Variable attempt : R -> S -> option R * S * S.
Fixpoint loop (fuel : nat) (dist dz : R) (ret : option R) (steps : list R) (s : S) : option (lres S) :=
  if Rlt_dec 0 dist then
    match fuel with
    | O => None
    | Datatypes.S f =>
        let '(delta, s_rej, s_acc) := attempt dz s in
        let '(keep, dz1) := step_ctl c dz delta in
        if keep then
          let dist1 := dist - 2 * dz in
          if Rlt_dec dist1 (2 * dz1) then
            if Rlt_dec (2 * dz_min) dist1 then loop f dist1 (dist1 / 2) (Some dz1) (2 * dz :: steps) s_acc
            else loop f dist1 dz1 ret (2 * dz :: steps) s_acc
          else loop f dist1 dz1 ret (2 * dz :: steps) s_acc
        else loop f dist dz1 ret steps s_rej
    end
  else Some (mkL dist dz ret steps s).
End Loop.

(** SSFM.py:317-325, 353-361: the body *)
Definition attempt (c : cfg) (dir : R) (dz : R) (s : ssfm) : option R * ssfm * ssfm :=
  let '(Ac, s1) := advance c (s_A s) (2 * dz) dir s in
  let '(A1, s2) := advance c (s_A s) dz dir s1 in
  let '(Af, s3) := advance c A1 dz dir s2 in
  (Some (local_err Af Ac), s3, with_iter (s_iter s3 + 1) (with_A (richardson c Af Ac) s3)).

(** SSFM.py:305-377  integrate_over_dz *)
Definition first_dz (delta_z dz : R) : R := if Rlt_dec delta_z (2 * dz) then delta_z / 2 else dz.
Definition integrate_trace (c : cfg) (fuel : nat) (delta_z dir : R) (s : ssfm) : option (lres ssfm) :=
  loop c (attempt c dir) fuel delta_z (first_dz delta_z (s_dz s)) None [] (with_lasth (Some (-1)) s).
Definition final_dz {S} (r : lres S) : R := match l_ret r with Some d => d | None => l_dz r end.
Definition integrate_over_dz (c : cfg) (fuel : nat) (delta_z dir : R) (s : ssfm) : option ssfm :=
  match integrate_trace c fuel delta_z dir s with
  | None => None
  | Some r => Some (with_dz (final_dz r) (l_st r))
  end.

(** A fiber as propagate uses it: length, get_betas(pulse, z), get_gain(pulse, output_power), gamma, get_gamma(z). *)
Record fiber := mkFiber {
  fb_len : R; fb_betas : R -> M pulse (list R); fb_gain : option R -> M pulse (list R);
  fb_gamma : R; fb_get_gamma : R -> R }.

(** SSFM.py:243-296  CalculateRamanResponseFT (USE_FREQUENCY_DOMAIN_RAMAN is False, so R0 is not used; its
    evaluation divides by TAU1*TAU2**2).  Returns R and the Raman fraction self.f_R. *)
Definition raman_shape (c : cfg) (t : R) : R :=
  let t1 := c_tau1 c in let t2 := c_tau2 c in
  if c_simple c then (t1 ^ 2 + t2 ^ 2) / (t1 * t2 ^ 2) * exp (- t / t2) * sin (t / t1)
  else
    let tb := 96 / 1000 in
    (75 / 100 + 4 / 100) * (t1 / (t1 ^ 2 + t2 ^ 2) * exp (- t / t2) * sin (t / t1))
    + 21 / 100 * ((2 * tb - t) / tb ^ 2 * exp (- t / tb)).
Definition raman_RT (c : cfg) (T : list R) : list R :=
  let n := length T in mk n (fun i => if Nat.ltb i (Nat.div2 n) then 0 else raman_shape c (nth i T 0)).
Definition calc_raman (c : cfg) (f_R : R) : M pulse (list C * R) :=
  n <- get_NPTS ;;
  if c_noRaman c then ret (repeat (RtoC 1) n, f_R)
  else if Req_EM_T (c_tau1 c * c_tau2 c ^ 2) 0 then raise ZeroDivisionError
  else
    T <- get_T ;;
    tw <- get_time_window_ps ;;
    let RT := raman_RT c T in
    let area := trapz_x RT T in
    if Req_EM_T area 0 then raise NonFinite
    else
      let F_R := if c_simple c then f_R else 245 / 1000 in
      let RTn := map (fun x => x / area) RT in
      ret (map (fun z => RtoC (1 - F_R) + RtoC tw * z)%C (fft_t_shift (map (fun x => RtoC (F_R * x)) RTn)), F_R).

(** SSFM.py:73-82  load_fiber_parameters: betas[:] = ... accepts n values or one *)
Definition load_fiber_parameters (c : cfg) (fb : fiber) (z : R) (s : ssfm) : M pulse ssfm :=
  b <- fb_betas fb z ;;
  bs <- lift (assign_all (s_betas s) (map RtoC b)) ;;
  ret (with_fiber (cfftshift c bs) (fb_get_gamma fb z) s).

(** SSFM.py:86-237  setup_fftw *)
Definition setup_fftw (c : cfg) (fb : fiber) (output_power : option R) (s : ssfm) : M pulse ssfm :=
  n <- get_NPTS ;;
  V <- get_V ;;
  g <- fb_gain fb output_power ;;
  al <- lift (assign_all (repeat (RtoC 0) n) (map (fun x => RtoC (- x)) g)) ;;
  f0 <- get_center_frequency_THz ;;
  rr <- calc_raman c (s_fR s) ;;
  a <- get_AT ;;
  om <- lift (assign_all (repeat (RtoC 0) n) (map RtoC V)) ;;
  aa <- lift (assign_all (repeat (RtoC 0) n) (cfftshift c a)) ;;
  ret (mkS aa (s_dz s) (s_iter s) None (s_lastdir s) (repeat (RtoC 0) n)
           (repeat (RtoC 0) n) (cfftshift c al) (fb_gamma fb) (f0 * 2 * PI) (cfftshift c om)
           (cfftshift c (fst rr)) (snd rr)).

(** SSFM.py:519-531  one turn of the loop of propagate: columns of AW and AT, new solver, new pulse_out *)
Record pout := mkOut { o_AW : list (list C); o_AT : list (list C); o_pulse : pulse; o_s : ssfm }.
Definition prop_step (c : cfg) (fuel : nat) (fb : fiber) (delta_z : R) (reload : bool) (i : nat) (o : pout) : M pulse (option pout) :=
  s1 <- (if reload then load_fiber_parameters c fb (INR i * delta_z) (o_s o) else ret (o_s o)) ;;
  match integrate_over_dz c fuel delta_z 1 s1 with
  | None => ret None
  | Some s2 =>
      let aw := cifftshift c (fft_t c (s_A s2)) in
      let s3 := with_A (cifftshift c (s_A s2)) s2 in
      let at_ := s_A s3 in
      let s4 := with_A (cifftshift c (s_A s3)) s3 in
      match set_AT (s_A s4) (o_pulse o) with
      | (Raise e, _) => raise e
      | (Ok _, po) =>
          match calc_epp po with
          | (Raise e, _) => raise e
          | (Ok _, po') => ret (Some (mkOut (o_AW o ++ [aw]) (o_AT o ++ [at_]) po' s4))
          end
      end
  end.
Fixpoint prop_loop (c : cfg) (fuel : nat) (fb : fiber) (delta_z : R) (reload : bool) (i k : nat) (o : pout) : M pulse (option pout) :=
  match k with
  | O => ret (Some o)
  | S k' =>
      r <- prop_step c fuel fb delta_z reload i o ;;
      match r with
      | None => ret None
      | Some o' => prop_loop c fuel fb delta_z reload (i + 1) k' o'
      end
  end.

(** SSFM.py:456-544  propagate: (z_positions, AW columns, AT columns, pulse_out, solver) *)
Definition propagate (c : cfg) (fuel : nat) (fb : fiber) (n_steps : nat) (output_power : option R) (reload : bool) (s : ssfm)
  : M pulse (option (list R * list (list C) * list (list C) * pulse * ssfm)) :=
  let z := linspace 0 (fb_len fb) (n_steps + 1) in
  (if Nat.eqb n_steps 0 then raise IndexError else ret tt) ;;;
  let delta_z := if Nat.eqb n_steps 1 then fb_len fb else nth 1 z 0 - nth 0 z 0 in
  e <- calc_epp ;;
  pin <- get ;;
  match clone_pulse pin (new_pulse None None) with
  | (Raise x, _) => raise x
  | (Ok _, po) =>
      s0 <- setup_fftw c fb output_power s ;;
      s1 <- load_fiber_parameters c fb 0 s0 ;;
      r <- prop_loop c fuel fb delta_z reload 0 n_steps (mkOut [] [] po s1) ;;
      match r with
      | None => ret None
      | Some o =>
          let s2 := with_A (cifftshift c (s_A (o_s o))) (o_s o) in
          match set_AT (s_A s2) (o_pulse o) with
          | (Raise x, _) => raise x
          | (Ok _, po1) =>
              match calc_epp po1 with
              | (Raise x, _) => raise x
              | (Ok _, po2) => ret (Some (z, o_AW o, o_AT o, po2, s2))
              end
          end
      end
  end.

(** SSFM.py:588-606  the ensemble part of calculate_coherence, for one bin: [E] are the trial amplitudes.
    Every ordered pair of different trials contributes; the mean over the stack is taken and its modulus
    returned.  With fewer than two trials g12_stack is never bound. *)
Definition g12 (a b : C) : C := (Cconj a * b / RtoC (sqrt (Cnorm2 a * Cnorm2 b)))%C.
Definition pairs {A} (l : list A) : list (A * A) :=
  flat_map (fun i => flat_map (fun j =>
    if Nat.eqb i j then [] else
    match nth_error l i, nth_error l j with Some a, Some b => [(a, b)] | _, _ => [] end) (seq 0 (length l))) (seq 0 (length l)).
Definition is_zeroC (z : C) : bool := if Req_EM_T (Cnorm2 z) 0 then true else false.
Definition coherence_bin (E : list C) : result R :=
  if Nat.ltb (length E) 2 then Raise NameError
  else if existsb is_zeroC E then Raise NonFinite
  else
    let g := map (fun ab => g12 (fst ab) (snd ab)) (pairs E) in
    Ok (Cmod (lsum g * RtoC (/ INR (length g)))%C).

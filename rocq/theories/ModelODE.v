(** src/pynlo/util/ode_solve/: the adaptive ODE solver (steppers.py, dopr853.py, dopr853_controller.py).

    The right-hand side (RHS_class.deriv) is an arbitrary method with its own state of type [W]: it reads x and y and
    either fills the whole derivative array or raises; it is assumed not to write to the y array it is given and not to
    raise when it is called with NaN (dy is called once with a NaN step before the controller raises).
    x, h and y are real/complex numbers; NaN and inf are tracked exactly where the code can create them from finite
    data (the error estimate, the step size).  dtypes are float64 and complex128.
    While loops take fuel and end in the pseudo-exception [NoFuel] when it is used up; the for loop of integrate is exact. *)
From Coq Require Import Reals List ZArith Bool Arith.
From Coquelicot Require Import Complex.
From Verif Require Import Base CNum NumPy ModelDopr.
Import ListNotations.
Local Open Scope R_scope.
Local Open Scope py_scope.
Local Notation z0 := (RtoC 0).

Inductive dtype := Float64 | Complex128.
Definition dt_eqb (a b : dtype) : bool := match a, b with Float64, Float64 | Complex128, Complex128 => true | _, _ => false end.

(** floating point values that may leave the reals *)
Inductive efl := Fin (r : R) | PInf | NaN.

(** np.finfo(np.double).eps *)
Definition EPS : R := / 2 ^ 52.

(** ** steppers.py:15-119  Output *)
(** o_kmax = None stands for kmax = -1 (Output(None)), where xsave and ysave stay None. *)
Record output := mkO {
  o_kmax : option nat; o_nvar : nat; o_nsave : nat; o_dense : bool; o_count : nat;
  o_x1 : R; o_x2 : R; o_xout : R; o_dxout : R;
  o_xsave : list R; o_ysave : list (list C); o_dtype : dtype }.

(** steppers.py:37-47  __init__(nsaves) *)
Definition new_output (nsaves : option nat) : output :=
  match nsaves with
  | None => mkO None 0 0 false 0 0 0 0 0 [] [] Float64
  | Some k => mkO (Some 500%nat) 0 k (Nat.ltb 0 k) 0 0 0 0 0 [] [] Float64
  end.

(** steppers.py:48-74  init(neqn, xlo, xhi, dtype) *)
Definition out_init (neqn : nat) (xlo xhi : R) (dt : dtype) (o : output) : output :=
  match o_kmax o with
  | None => mkO None neqn (o_nsave o) (o_dense o) (o_count o) (o_x1 o) (o_x2 o) (o_xout o) (o_dxout o) (o_xsave o) (o_ysave o) dt
  | Some km =>
    let xs := repeat 0 km in let ys := repeat (repeat z0 neqn) km in
    if o_dense o then mkO (Some km) neqn (o_nsave o) true (o_count o) xlo xhi xlo ((xhi - xlo) / INR (o_nsave o)) xs ys dt
    else mkO (Some km) neqn (o_nsave o) false (o_count o) (o_x1 o) (o_x2 o) (o_xout o) (o_dxout o) xs ys dt
  end.

(** steppers.py:75-85  resize: zeros of twice the size, old contents copied to the front *)
Definition resize (o : output) : output :=
  match o_kmax o with
  | None => o
  | Some km =>
    mkO (Some (2 * km)%nat) (o_nvar o) (o_nsave o) (o_dense o) (o_count o) (o_x1 o) (o_x2 o) (o_xout o) (o_dxout o)
      (o_xsave o ++ repeat 0 (2 * km - km)) (o_ysave o ++ repeat (repeat z0 (o_nvar o)) (2 * km - km)) (o_dtype o)
  end.

(** a[i] = v *)
Definition setnth {A} (i : nat) (v : A) (l : list A) : list A := firstn i l ++ v :: skipn (S i) l.
(** a[i, :] = y for a row of nvar entries: equal lengths, or one value spread over the row, or ValueError *)
Definition row (nvar : nat) (y : list C) : option (list C) :=
  if Nat.eqb (length y) nvar then Some y else if Nat.eqb (length y) 1 then Some (repeat (nth 0 y z0) nvar) else None.
(** the assignments steppers.py:93-95 and 104-106; the index is out of range when count >= kmax *)
Definition store (x : R) (y : list C) : M output unit :=
  o <- get ;;
  if Nat.ltb (o_count o) (length (o_ysave o)) then
    match row (o_nvar o) y with
    | None => raise ValueError
    | Some r => put (mkO (o_kmax o) (o_nvar o) (o_nsave o) (o_dense o) (S (o_count o)) (o_x1 o) (o_x2 o) (o_xout o) (o_dxout o)
                       (setnth (o_count o) x (o_xsave o)) (setnth (o_count o) r (o_ysave o)) (o_dtype o))
    end
  else raise IndexError.
Definition full (o : output) : bool := match o_kmax o with Some km => Nat.eqb (o_count o) km | None => false end.

(** steppers.py:86-95  save_dense, with y the value of s.dense_out(xout, h) and dt its dtype.  When kmax = -1 the
    attribute ysave is None and the dtype test raises AttributeError. *)
Definition save_dense (xout : R) (dt : dtype) (y : list C) : M output unit :=
  o <- get ;;
  (if full o then modify resize else ret tt) ;;;
  match o_kmax o with
  | None => raise AttributeError
  | Some _ => if dt_eqb (o_dtype o) dt then store xout y else raise TypeError
  end.
(** steppers.py:96-106  save: the dtype test comes before the test of kmax *)
Definition save (x : R) (dt : dtype) (y : list C) : M output unit :=
  o <- get ;;
  match o_kmax o with
  | None => raise AttributeError
  | Some km =>
    if negb (dt_eqb (o_dtype o) dt) then raise TypeError
    else if Nat.leb km 0 then ret tt
    else (if full o then modify resize else ret tt) ;;; store x y
  end.
Definition with_xout (x : R) (o : output) : output :=
  mkO (o_kmax o) (o_nvar o) (o_nsave o) (o_dense o) (o_count o) (o_x1 o) (o_x2 o) x (o_dxout o) (o_xsave o) (o_ysave o) (o_dtype o).

(** steppers.py:116-119: the while loop of out *)
Fixpoint out_while (fuel : nat) (x : R) (dt : dtype) (dense : R -> list C) : M output unit :=
  match fuel with
  | O => raise NoFuel
  | S k =>
    o <- get ;;
    if Rlt_dec 0 ((x - o_xout o) * (o_x2 o - o_x1 o)) then
      save_dense (o_xout o) dt (dense (o_xout o)) ;;;
      modify (fun o => with_xout (o_xout o + o_dxout o) o) ;;;
      out_while k x dt dense
    else ret tt
  end.
(** steppers.py:107-119  out(nstp, x, y, s, h), with dense the function xout -> s.dense_out(xout, h) *)
Definition out_out (fuel : nat) (nstp : Z) (x : R) (dt : dtype) (y : list C) (dense : R -> list C) : M output unit :=
  o <- get ;;
  if negb (o_dense o) then raise AttributeError
  else if Z.eqb nstp 1 then save x dt y ;;; modify (fun o => with_xout (o_xout o + o_dxout o) o)
  else out_while fuel x dt dense.

(** ** dopr853_controller.py:28-68  Controller *)
Record ctrl := mkCon { c_hnext : R; c_errold : R; c_reject : bool }.
(** dopr853_controller.py:32-35; dopr853.py:36 creates one controller for all steppers *)
Definition new_ctrl : ctrl := mkCon 0 (1 / 10000) false.

(** dopr853_controller.py:36-68  success(err, h): h = None is NaN.  A negative err (the estimate is an absolute value)
    gives a NaN scale, marked NonFinite. *)
Definition success (err : efl) (h : option R) : M ctrl (bool * option R) :=
  match h with
  | None => raise AssertionError
  | Some h =>
    match err with
    | NaN => modify (fun c => mkCon (c_hnext c) (c_errold c) true) ;;; ret (false, None)
    | PInf => modify (fun c => mkCon (c_hnext c) (c_errold c) true) ;;; ret (false, Some (h * 0.333))
    | Fin e =>
      if Rle_dec e 1 then
        if Rlt_dec e 0 then raise NonFinite
        else
          let scale :=
            if Req_EM_T e 0 then 6
            else let s := 0.9 * Rpower e (- (1 / 8)) * 1 in
                 let s := if Rlt_dec s 0.333 then 0.333 else s in
                 if Rlt_dec 6 s then 6 else s in
          modify (fun c => mkCon (if c_reject c then h * Rmin scale 1 else h * scale) (Rmax e (1 / 10000)) false) ;;;
          ret (true, Some h)
      else
        modify (fun c => mkCon (c_hnext c) (c_errold c) true) ;;;
        ret (false, Some (h * Rmax (0.9 * Rpower e (- (1 / 8))) 0.333))
    end
  end.

(** ** steppers.py:123-152 and dopr853.py:29-175  the stepper *)
(** the stage derivatives left in k2, k3, k6 ... k10 by dy *)
Record stages := mkK { sk2 : list C; sk3 : list C; sk6 : list C; sk7 : list C; sk8 : list C; sk9 : list C; sk10 : list C }.
Record stepper := mkStp {
  p_x : R; p_xold : R; p_y : list C; p_dydx : list C; p_atol : R; p_rtol : R; p_dense : bool;
  p_hdid : R; p_hnext : R; p_dtype : dtype; p_yout : list C; p_yerr : list C; p_yerr2 : list C; p_k : stages; p_rc : list (list C) }.

(** ** steppers.py:154-176  ODEint *)
Record ode := mkOde {
  e_x1 : R; e_x2 : R; e_hmin : R; e_dense : bool; e_h : R; e_nok : nat; e_nbad : nat; e_nstp : nat; e_ystart : list C }.
(** steppers.py:155 *)
Definition MAXSTP : nat := N.to_nat 50000.

(** everything integrate can touch: the right-hand side's own state, the shared controller, the stepper, the output
    and the integrator *)
Record G (W : Type) := mkG { g_w : W; g_con : ctrl; g_s : stepper; g_out : output; g_ode : ode }.
Arguments mkG {W}. Arguments g_w {W}. Arguments g_con {W}. Arguments g_s {W}. Arguments g_out {W}. Arguments g_ode {W}.

(** sum of coefficient * array, entry i *)
Definition comb (l : list (R * list C)) (i : nat) : C := fold_left (fun s p => s + RtoC (fst p) * nth i (snd p) z0)%C l z0.
(** y + h * (sum of coefficient * array) *)
Definition ytemp (y : list C) (h : R) (l : list (R * list C)) : list C := mk (length y) (fun i => nth i y z0 + RtoC h * comb l i)%C.
Definition lincomb (n : nat) (l : list (R * list C)) : list C := mk n (comb l).

(** dopr853.py:164-175  error.  A zero scale sk gives inf/inf or 0/0, a vanishing estimate 0*sqrt(1/0): NaN either way. *)
Definition error_scale (s : stepper) (i : nat) : R :=
  p_atol s + p_rtol s * Rmax (Cmod (nth i (p_y s) z0)) (Cmod (nth i (p_yout s) z0)).
Definition isz (x : R) : bool := if Req_EM_T x 0 then true else false.
Definition error (s : stepper) (h : R) : efl :=
  let n := length (p_y s) in
  if existsb (fun i => isz (error_scale s i)) (seq 0 n) then NaN
  else
    let err2 := rsum n (fun i => (Cmod (nth i (p_yerr s) z0) / error_scale s i) ^ 2) in
    let err1 := rsum n (fun i => (Cmod (nth i (p_yerr2 s) z0) / error_scale s i) ^ 2) in
    let deno := err1 + 0.01 * err2 in
    let deno := if Rlt_dec deno 0 then 1 else deno in
    if isz (deno * INR n) then NaN
    else Fin (Rabs (Rabs h * Rabs err1 * sqrt (1 / (deno * INR n)))).

(** dopr853.py:159-163  dense_out(x, h) *)
Definition dense_out (s : stepper) (x h : R) : list C :=
  let t := (x - p_xold s) / h in
  let t1 := 1 - t in
  let r k i := nth i (nth k (p_rc s) []) z0 in
  mk (length (p_y s)) (fun i =>
    r 0%nat i + RtoC t * (r 1%nat i + RtoC t1 * (r 2%nat i + RtoC t * (r 3%nat i + RtoC t1 * (r 4%nat i +
      RtoC t * (r 5%nat i + RtoC t1 * (r 6%nat i + RtoC t * r 7%nat i)))))))%C.

Section Solver.
  Context {W : Type}.
  (** RHS_class.deriv: x, y -> the values written into dydx *)
  Variable f : R -> list C -> M W (list C).

  Definition onw {A} (m : M W A) : M (G W) A :=
    fun g => match m (g_w g) with (r, w) => (r, mkG w (g_con g) (g_s g) (g_out g) (g_ode g)) end.
  Definition oncon {A} (m : M ctrl A) : M (G W) A :=
    fun g => match m (g_con g) with (r, c) => (r, mkG (g_w g) c (g_s g) (g_out g) (g_ode g)) end.
  Definition onout {A} (m : M output A) : M (G W) A :=
    fun g => match m (g_out g) with (r, o) => (r, mkG (g_w g) (g_con g) (g_s g) o (g_ode g)) end.
  Definition set_s (u : stepper -> stepper) : M (G W) unit := modify (fun g => mkG (g_w g) (g_con g) (u (g_s g)) (g_out g) (g_ode g)).
  Definition set_e (u : ode -> ode) : M (G W) unit := modify (fun g => mkG (g_w g) (g_con g) (g_s g) (g_out g) (u (g_ode g))).
  (** deriv(x, y, k): k is a work array with n entries *)
  Definition deriv (n : nat) (x : R) (y : list C) : M (G W) (list C) :=
    d <- onw (f x y) ;; ret (mk n (fun i => nth i d z0)).

  (** dopr853.py:78-126  dy.  The work arrays become visible when all twelve stages are done. *)
  Definition dy (h : R) : M (G W) unit :=
    s <- gets g_s ;;
    let y := p_y s in let d := p_dydx s in let x := p_x s in let n := length y in
    k2 <- deriv n (x + c2 * h) (ytemp y h [(a21, d)]) ;;
    k3 <- deriv n (x + c3 * h) (ytemp y h [(a31, d); (a32, k2)]) ;;
    k4 <- deriv n (x + c4 * h) (ytemp y h [(a41, d); (a43, k3)]) ;;
    k5 <- deriv n (x + c5 * h) (ytemp y h [(a51, d); (a53, k3); (a54, k4)]) ;;
    k6 <- deriv n (x + c6 * h) (ytemp y h [(a61, d); (a64, k4); (a65, k5)]) ;;
    k7 <- deriv n (x + c7 * h) (ytemp y h [(a71, d); (a74, k4); (a75, k5); (a76, k6)]) ;;
    k8 <- deriv n (x + c8 * h) (ytemp y h [(a81, d); (a84, k4); (a85, k5); (a86, k6); (a87, k7)]) ;;
    k9 <- deriv n (x + c9 * h) (ytemp y h [(a91, d); (a94, k4); (a95, k5); (a96, k6); (a97, k7); (a98, k8)]) ;;
    k10 <- deriv n (x + c10 * h) (ytemp y h [(a101, d); (a104, k4); (a105, k5); (a106, k6); (a107, k7); (a108, k8); (a109, k9)]) ;;
    k2 <- deriv n (x + c11 * h) (ytemp y h [(a111, d); (a114, k4); (a115, k5); (a116, k6); (a117, k7); (a118, k8); (a119, k9); (a1110, k10)]) ;;
    k3 <- deriv n (x + h) (ytemp y h [(a121, d); (a124, k4); (a125, k5); (a126, k6); (a127, k7); (a128, k8); (a129, k9); (a1210, k10); (a1211, k2)]) ;;
    let k4 := lincomb n [(b1, d); (b6, k6); (b7, k7); (b8, k8); (b9, k9); (b10, k10); (b11, k2); (b12, k3)] in
    set_s (fun s => mkStp (p_x s) (p_xold s) (p_y s) (p_dydx s) (p_atol s) (p_rtol s) (p_dense s) (p_hdid s) (p_hnext s) (p_dtype s)
      (ytemp y h [(1, k4)])
      (lincomb n [(1, k4); (- bhh1, d); (- bhh2, k9); (- bhh3, k3)])
      (lincomb n [(er1, d); (er6, k6); (er7, k7); (er8, k8); (er9, k9); (er10, k10); (er11, k2); (er12, k3)])
      (mkK k2 k3 k6 k7 k8 k9 k10) (p_rc s)).

  (** dopr853.py:127-158  prepare_dense: the rcont arrays, written when all is computed *)
  Definition prepare_dense (h : R) (dn : list C) : M (G W) unit :=
    s <- gets g_s ;;
    let y := p_y s in let d := p_dydx s in let x := p_x s in let n := length y in
    let '(mkK k2 k3 k6 k7 k8 k9 k10) := p_k s in
    let yo := p_yout s in
    let ydiff := lincomb n [(1, yo); (-1, y)] in
    let bspl := lincomb n [(h, d); (-1, ydiff)] in
    let rc4 := lincomb n [(1, ydiff); (- h, dn); (-1, bspl)] in
    let rc5 := lincomb n [(d41, d); (d46, k6); (d47, k7); (d48, k8); (d49, k9); (d410, k10); (d411, k2); (d412, k3)] in
    let rc6 := lincomb n [(d51, d); (d56, k6); (d57, k7); (d58, k8); (d59, k9); (d510, k10); (d511, k2); (d512, k3)] in
    let rc7 := lincomb n [(d61, d); (d66, k6); (d67, k7); (d68, k8); (d69, k9); (d610, k10); (d611, k2); (d612, k3)] in
    let rc8 := lincomb n [(d71, d); (d76, k6); (d77, k7); (d78, k8); (d79, k9); (d710, k10); (d711, k2); (d712, k3)] in
    k14 <- deriv n (x + c14 * h) (ytemp y h [(a141, d); (a147, k7); (a148, k8); (a149, k9); (a1410, k10); (a1411, k2); (a1412, k3); (a1413, dn)]) ;;
    k15 <- deriv n (x + c15 * h) (ytemp y h [(a151, d); (a156, k6); (a157, k7); (a158, k8); (a1511, k2); (a1512, k3); (a1513, dn); (a1514, k14)]) ;;
    k16 <- deriv n (x + c16 * h) (ytemp y h [(a161, d); (a166, k6); (a167, k7); (a168, k8); (a169, k9); (a1613, dn); (a1614, k14); (a1615, k15)]) ;;
    let fin rc e13 e14 e15 e16 := mk n (fun i => RtoC h * comb [(1, rc); (e13, dn); (e14, k14); (e15, k15); (e16, k16)] i)%C in
    set_s (fun s => mkStp (p_x s) (p_xold s) (p_y s) (p_dydx s) (p_atol s) (p_rtol s) (p_dense s) (p_hdid s) (p_hnext s) (p_dtype s)
      (p_yout s) (p_yerr s) (p_yerr2 s) (mkK k15 k16 k6 k7 k8 k9 k14)
      [y; ydiff; bspl; rc4; fin rc5 d413 d414 d415 d416; fin rc6 d513 d514 d515 d516; fin rc7 d613 d614 d615 d616; fin rc8 d713 d714 d715 d716]).

  (** dopr853.py:60-68: the loop of step; a NaN step reaches the controller, which raises *)
  Fixpoint attempts (fuel : nat) (h : option R) : M (G W) R :=
    match fuel with
    | O => raise NoFuel
    | S k =>
      (match h with Some h => dy h | None => ret tt end) ;;;
      s <- gets g_s ;;
      r <- oncon (success (match h with Some h => error s h | None => NaN end) h) ;;
      match r with
      | (true, Some h') => ret h'
      | (_, None) => attempts k None
      | (false, Some h') => if Rle_dec (Rabs h') (Rabs (p_x s) * EPS) then raise OverflowError else attempts k (Some h')
      end
    end.
  (** dopr853.py:57-77  step(htry, RHS_class) *)
  Definition step (fuel : nat) (htry : R) : M (G W) unit :=
    h <- attempts fuel (Some htry) ;;
    s <- gets g_s ;;
    dn <- deriv (length (p_y s)) (p_x s + h) (p_yout s) ;;
    (if p_dense s then prepare_dense h dn else ret tt) ;;;
    g <- get ;;
    set_s (fun s => mkStp (p_x s + h) (p_x s) (p_yout s) dn (p_atol s) (p_rtol s) (p_dense s) h (c_hnext (g_con g)) (p_dtype s)
      (p_yout s) (p_yerr s) (p_yerr2 s) (p_k s) (p_rc s)).

  (** steppers.py:207-210, 219-222: one sample, or the dense samples of the last step *)
  Definition record (fuel : nat) (nstp : Z) (x : R) (y : list C) (h : R) : M (G W) unit :=
    g <- get ;;
    if e_dense (g_ode g) then onout (out_out fuel nstp x (p_dtype (g_s g)) y (fun xo => dense_out (g_s g) xo h))
    else onout (save x (p_dtype (g_s g)) y).
  (** steppers.py:212-213: reduce the step if it would (almost) reach or pass x2; for x1 = x2 the quotient is NaN *)
  Definition clip (x x1 x2 h : R) : R :=
    if Req_EM_T (x2 - x1) 0 then h else if Rlt_dec 0 ((x + h * 1.0001 - x2) / (x2 - x1)) then x2 - x else h.
  (** out.xsave[out.count - 1]; count = 0 wraps to the last entry *)
  Definition last_saved (o : output) : R := nth (match o_count o with O => length (o_xsave o) - 1 | S c => c end)%nat (o_xsave o) 0.

  (** steppers.py:211-238: the for loop of integrate; [left] iterations remain, [nstp] is the loop variable *)
  Fixpoint iloop (fuel left nstp : nat) : M (G W) unit :=
    match left with
    | O => raise RuntimeError
    | S left' =>
      g <- get ;;
      let h := clip (p_x (g_s g)) (e_x1 (g_ode g)) (e_x2 (g_ode g)) (e_h (g_ode g)) in
      set_e (fun e => mkOde (e_x1 e) (e_x2 e) (e_hmin e) (e_dense e) h (e_nok e) (e_nbad e) nstp (e_ystart e)) ;;;
      step fuel h ;;;
      s <- gets g_s ;;
      set_e (fun e => if Req_EM_T (p_hdid s) h
                      then mkOde (e_x1 e) (e_x2 e) (e_hmin e) (e_dense e) (e_h e) (S (e_nok e)) (e_nbad e) nstp (e_ystart e)
                      else mkOde (e_x1 e) (e_x2 e) (e_hmin e) (e_dense e) (e_h e) (e_nok e) (S (e_nbad e)) nstp (e_ystart e)) ;;;
      record fuel (Z.of_nat nstp) (p_x s) (p_y s) (p_hdid s) ;;;
      g <- get ;;
      let e := g_ode g in
      if Rle_dec 0 ((p_x s - e_x2 e) * (e_x2 e - e_x1 e)) then
        set_e (fun e => mkOde (e_x1 e) (e_x2 e) (e_hmin e) (e_dense e) (e_h e) (e_nok e) (e_nbad e) (e_nstp e) (p_y s)) ;;;
        if match o_kmax (g_out g) with Some km => Nat.ltb 0 km | None => false end then
          if Rlt_dec (100 * Rabs (e_x2 e) * EPS) (Rabs (last_saved (g_out g) - e_x2 e)) then onout (save (p_x s) (p_dtype s) (p_y s)) else ret tt
        else ret tt
      else if Rle_dec (Rabs (p_hnext s)) (e_hmin e) then raise RuntimeError
      else
        set_e (fun e => mkOde (e_x1 e) (e_x2 e) (e_hmin e) (e_dense e) (p_hnext s) (e_nok e) (e_nbad e) (e_nstp e) (e_ystart e)) ;;;
        iloop fuel left' (S nstp)
    end.
  (** steppers.py:205-238  integrate *)
  Definition integrate (fuel : nat) : M (G W) unit :=
    g <- get ;;
    d <- deriv (length (p_y (g_s g))) (e_x1 (g_ode g)) (p_y (g_s g)) ;;
    set_s (fun s => mkStp (p_x s) (p_xold s) (p_y s) d (p_atol s) (p_rtol s) (p_dense s) (p_hdid s) (p_hnext s) (p_dtype s) (p_yout s) (p_yerr s) (p_yerr2 s) (p_k s) (p_rc s)) ;;;
    record fuel (-1) (e_x1 (g_ode g)) (p_y (g_s g)) (e_h (g_ode g)) ;;;
    iloop fuel MAXSTP 0.
End Solver.

(** steppers.py:136-152, dopr853.py:37-56: a new stepper; work arrays of zeros *)
Definition new_stepper (y : list C) (x atol rtol : R) (dense : bool) (dt : dtype) : stepper :=
  let z := repeat z0 (length y) in
  mkStp x 0 y z atol rtol dense 0 0 dt z z z (mkK z z z z z z z) (repeat z 8).
(** np.sign *)
Definition sgn (x : R) : R := if Rlt_dec 0 x then 1 else if Rlt_dec x 0 then -1 else 0.
(** steppers.py:177-204  ODEint(ystart, x1, x2, atol, rtol, h1, hmin, out, StepperDopr853, RHS, dense, dtype) *)
Definition new_ode {W} (w : W) (con : ctrl) (ystart : list C) (x1 x2 atol rtol h1 hmin : R) (out : output) (dense : bool) (dt : dtype) : G W :=
  mkG w con (new_stepper ystart x1 atol rtol dense dt) (out_init (length ystart) x1 x2 dt out)
    (mkOde x1 x2 hmin dense (Rabs h1 * sgn (x2 - x1)) 0 0 0 ystart).

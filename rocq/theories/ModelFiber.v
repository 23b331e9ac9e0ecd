(** src/pynlo/media/fibers: fiber.py, JSONFiberLoader.py, calculators.py.

    Simplifications, valid for the whole file: float64 is [R]; a division by zero is the pseudo-exception [NonFinite]; printed messages
    are dropped.  Python dictionaries are numbered cells of a heap, because several objects can hold the same one.  numpy.polyfit and
    scipy's InterpolatedUnivariateSpline are parameters; a file read by load_from_file is given as its two columns.  is_simple_fiber is
    False in every instance (fiber.py:64; nothing in the package sets it).  Arrays stored in a fiber are never written to element by element
    (fiber.py:266 assigns betas[i] = betas[i]), so they are plain values. *)
From Coq Require Import String.
From Coq Require Import Reals List ZArith Bool Arith Factorial.
From Verif Require Import Base CNum NumPy ModelPulse ModelCrystal ModelBeam.
Import ListNotations.
Local Open Scope R_scope.
Local Open Scope py_scope.

(** ** calculators.py *)
Section Fit.
(** numpy.polyfit(x, y, order): the coefficients, highest power first; it may raise *)
Variable polyfit : list R -> list R -> nat -> result (list R).
(** calculators.py:31-86 with DDataIsFile False.  The state is the caller's array of rows (lambda, D): DData[:] is a view of it, and line 45 scales its
    second column in place. *)
Definition DTabulationToBetas (lambda0 : R) (polyOrder : nat) : M (list (R * R)) (list R) :=
  modify (map (fun r => (fst r, snd r * 1e-12 * 1e9 * 1e-3))) ;;;
  DTab <- get ;;
  om <- lift (rtraverse (fun r => a <-r fdiv (2 * PI * c_mks) (fst r * 1e-9) ;; b <-r fdiv (2 * PI * c_mks) (lambda0 * 1e-9) ;; Ok ((a - b) * 1e-12)) DTab) ;;
  let betaTwo := map (fun r => (- snd r * (fst r * 1e-9) ^ 2 / (2 * PI * c_mks)) * 1e24) DTab in
  co <- lift (polyfit om betaTwo polyOrder) ;;
  let Betas := rev co in
  ret (mk (length Betas) (fun i => nth i Betas 0 * INR (fact i))).
End Fit.

(** ** Dictionaries *)
(** the keys of a fiberspecs dictionary that the code reads; None is an absent key.  gain_x_data may hold Python's None (Some None). *)
Record specs := mkSpecs { d_format : option string; d_xunits : option string; d_yunits : option string; d_x : option (list R); d_y : option (list R);
  d_units : option string; d_center : option R; d_data : option (list R); d_gamma : option R; d_is_gain : option bool; d_gain_x : option (option (list R)) }.
(** fiber.py:56  fiberspecs = {} in the class body *)
Definition empty_specs : specs := mkSpecs None None None None None None None None None None None.
Definition with_format (v : string) (d : specs) := mkSpecs (Some v) (d_xunits d) (d_yunits d) (d_x d) (d_y d) (d_units d) (d_center d) (d_data d) (d_gamma d) (d_is_gain d) (d_gain_x d).
Definition with_is_gain (v : bool) (d : specs) := mkSpecs (d_format d) (d_xunits d) (d_yunits d) (d_x d) (d_y d) (d_units d) (d_center d) (d_data d) (d_gamma d) (Some v) (d_gain_x d).
Definition with_gain_x (v : option (list R)) (d : specs) := mkSpecs (d_format d) (d_xunits d) (d_yunits d) (d_x d) (d_y d) (d_units d) (d_center d) (d_data d) (d_gamma d) (d_is_gain d) (Some v).

(** a user's dispersion_function: two arrays (formats "D" and "n") or the Taylor coefficients (format "GVD") *)
Inductive dfun := DXY (f : R -> list R * list R) | DBetas (f : R -> list R).

(** ** FiberInstance *)
(** f_specs: None as long as the instance attribute fiberspecs is not assigned, so that the class's dictionary (cell 0) is seen.
    f_db: the dictionaries decoded by the instance's own JSONFiberLoader.  f_gain, f_x, f_y, f_center: None while the attribute does not exist.
    f_dz, f_gz: the z-dependence flags together with the functions. *)
Record fiber := mkFiber { f_specs : option nat; f_db : list (string * nat); f_type : option string; f_length : option R; f_betas : option (list R); f_gamma : option R; f_poly : option nat;
  f_gain : option R; f_x : option (list R); f_y : option (list R); f_center : option R; f_dz : option dfun; f_gz : option (R -> R) }.
Definition set_specs v f := mkFiber v (f_db f) (f_type f) (f_length f) (f_betas f) (f_gamma f) (f_poly f) (f_gain f) (f_x f) (f_y f) (f_center f) (f_dz f) (f_gz f).
Definition set_type v f := mkFiber (f_specs f) (f_db f) (Some v) (f_length f) (f_betas f) (f_gamma f) (f_poly f) (f_gain f) (f_x f) (f_y f) (f_center f) (f_dz f) (f_gz f).
Definition set_length v f := mkFiber (f_specs f) (f_db f) (f_type f) (Some v) (f_betas f) (f_gamma f) (f_poly f) (f_gain f) (f_x f) (f_y f) (f_center f) (f_dz f) (f_gz f).
Definition set_betas v f := mkFiber (f_specs f) (f_db f) (f_type f) (f_length f) (Some v) (f_gamma f) (f_poly f) (f_gain f) (f_x f) (f_y f) (f_center f) (f_dz f) (f_gz f).
Definition set_gamma v f := mkFiber (f_specs f) (f_db f) (f_type f) (f_length f) (f_betas f) (Some v) (f_poly f) (f_gain f) (f_x f) (f_y f) (f_center f) (f_dz f) (f_gz f).
Definition set_poly v f := mkFiber (f_specs f) (f_db f) (f_type f) (f_length f) (f_betas f) (f_gamma f) (Some v) (f_gain f) (f_x f) (f_y f) (f_center f) (f_dz f) (f_gz f).
Definition set_gain v f := mkFiber (f_specs f) (f_db f) (f_type f) (f_length f) (f_betas f) (f_gamma f) (f_poly f) (Some v) (f_x f) (f_y f) (f_center f) (f_dz f) (f_gz f).
Definition set_xy x y f := mkFiber (f_specs f) (f_db f) (f_type f) (f_length f) (f_betas f) (f_gamma f) (f_poly f) (f_gain f) (Some x) (Some y) (f_center f) (f_dz f) (f_gz f).
Definition set_center v f := mkFiber (f_specs f) (f_db f) (f_type f) (f_length f) (f_betas f) (f_gamma f) (f_poly f) (f_gain f) (f_x f) (f_y f) (Some v) (f_dz f) (f_gz f).
Definition set_dz v f := mkFiber (f_specs f) (f_db f) (f_type f) (f_length f) (f_betas f) (f_gamma f) (f_poly f) (f_gain f) (f_x f) (f_y f) (f_center f) (Some v) (f_gz f).
Definition set_gz v f := mkFiber (f_specs f) (f_db f) (f_type f) (f_length f) (f_betas f) (f_gamma f) (f_poly f) (f_gain f) (f_x f) (f_y f) (f_center f) (f_dz f) (Some v).

Definition heap := list specs.
Definition FM (A : Type) := M (heap * fiber) A.
Definition on_fiber (g : fiber -> fiber) : FM unit := modify (fun s => (fst s, g (snd s))).
(** the cell self.fiberspecs refers to *)
Definition cell (f : fiber) : nat := match f_specs f with Some l => l | None => 0%nat end.
Definition self_specs (s : heap * fiber) : specs := nth (cell (snd s)) (fst s) empty_specs.
(** self.fiberspecs[key] = v *)
Definition put_specs (g : specs -> specs) : FM unit := modify (fun s => (upd (cell (snd s)) g (fst s), snd s)).
Definition key {A} (sel : specs -> option A) : FM A := o <- gets (fun s => sel (self_specs s)) ;; match o with Some v => ret v | None => raise KeyError end.
Definition attr {A} (sel : fiber -> option A) (e : exn) : FM A := o <- gets (fun s => sel (snd s)) ;; match o with Some v => ret v | None => raise e end.

(** fiber.py:59-67 and JSONFiberLoader.py:30-43: the data base file, decoded afresh for every instance, is put at the end of the heap. *)
Definition fiber_init (db : list (string * specs)) (h : heap) : heap * fiber :=
  (h ++ map snd db, mkFiber None (combine (map fst db) (seq (length h) (length db))) None None None None None None None None None None None).

Fixpoint find_db (name : string) (l : list (string * nat)) : option nat :=
  match l with [] => None | (k, v) :: l' => if String.eqb k name then Some v else find_db name l' end.

(** fiber.py:109-129 *)
Definition load_dispersion : FM unit :=
  fmt <- key d_format ;;
  if String.eqb fmt "D" then
    key d_xunits ;;; key d_yunits ;;; x <- key d_x ;; y <- key d_y ;; on_fiber (set_xy x y)
  else if String.eqb fmt "GVD" then
    u <- key d_units ;; c <- key d_center ;; on_fiber (set_center c) ;;;
    if String.eqb u "ps^n/km" then b <- key d_data ;; on_fiber (set_betas (map (fun x => x / 1000) b)) else ret tt
  else ret tt.
(** fiber.py:70-78, JSONFiberLoader.py:50-53 *)
Definition load_from_db (length : R) (fibertype : string) (poly_order : nat) : FM unit :=
  on_fiber (set_type fibertype) ;;;
  f <- gets snd ;;
  match find_db fibertype (f_db f) with
  | None => raise KeyError
  | Some l =>
    on_fiber (set_specs (Some l)) ;;; on_fiber (set_length length) ;;; on_fiber (set_betas [0]) ;;;
    g <- key d_gamma ;; on_fiber (set_gamma g) ;;; on_fiber (set_poly poly_order) ;;; load_dispersion
  end.
(** fiber.py:80-107  (the columns x, y are what np.loadtxt returns) *)
Definition is_zero (x : R) : bool := if Req_EM_T x 0 then true else false.
Definition load_from_file (x y : list R) (length : R) (name : string) (gamma_W_m gain : R) (poly_order : nat) : FM unit :=
  on_fiber (set_type name) ;;; put_specs (with_format "D") ;;; on_fiber (set_poly poly_order) ;;; on_fiber (set_gain gain) ;;;
  on_fiber (set_length length) ;;; on_fiber (set_gamma gamma_W_m) ;;;
  put_specs (with_is_gain (negb (is_zero gain))) ;;; put_specs (with_gain_x None) ;;; on_fiber (set_xy x y).
(** fiber.py:130-174 *)
Definition set_dispersion_function (d : dfun) (format : string) : FM unit :=
  put_specs (with_format format) ;;; on_fiber (set_dz d).
(** fiber.py:176-189 *)
Definition set_gamma_function (g : R -> R) : FM unit := on_fiber (set_gz g).
(** fiber.py:191-210  None is Python's None *)
Definition get_gamma (z : R) : FM (option R) :=
  f <- gets snd ;; match f_gz f with Some g => ret (Some (g z)) | None => ret (f_gamma f) end.
(** fiber.py:361-382  a new dictionary is created and assigned to the instance *)
Definition generate_fiber (length center_wl_nm : R) (betas : list R) (gamma_W_m gain : R) (gvd_units label : string) : FM unit :=
  on_fiber (set_length length) ;;;
  h <- gets fst ;;
  modify (fun s => (fst s ++ [empty_specs], set_specs (Some (List.length h)) (snd s))) ;;;
  put_specs (with_format "GVD") ;;; on_fiber (set_type label) ;;;
  put_specs (with_is_gain (negb (is_zero gain))) ;;; on_fiber (set_gain gain) ;;; put_specs (with_gain_x None) ;;;
  on_fiber (set_center center_wl_nm) ;;; on_fiber (set_betas betas) ;;; on_fiber (set_gamma gamma_W_m) ;;;
  if String.eqb gvd_units "ps^n/km" then on_fiber (set_betas (map (fun b => b * 1.0e-3) betas)) else ret tt.

(** fiber.py:306-345.  The spectral branch evaluates pulse.frep_Hz, which no pulse has (an exception of interp1d before it is not told apart). *)
Definition get_gain (p : pulse) : FM (list R) :=
  b <- key d_is_gain ;;
  if b : bool then
    x <- key d_gain_x ;;
    match x with
    | Some _ => raise AttributeError
    | None => g <- attr f_gain AttributeError ;; ret (repeat g (p_n p))
    end
  else ret (repeat 0 (p_n p)).

Section Betas.
Variable polyfit : list R -> list R -> nat -> result (list R).
(** InterpolatedUnivariateSpline(x, y)(v); it raises unless x increases *)
Variable spline : list R -> list R -> list R -> result (list R).
(** sum_i b_i/(i+2)! v^(i+2), added up from left to right *)
Definition taylor (b : list R) (v : R) : R := rsum (length b) (fun i => nth i b 0 / INR (fact (i + 2)) * v ^ (i + 2)).
(** pulse.V_THz, pulse.W_THz *)
Definition pV (p : pulse) : FM (list R) := if p_ready p then ret (V_of p) else raise RuntimeError.
Definition pW (p : pulse) : FM (list R) := if p_ready p then ret (W_of p) else raise RuntimeError.
(** fiber.py:290-295  value and slope at the pulse's centre are removed; only the centre's entry of slope is used *)
Definition recentre (p : pulse) (B : list R) : FM (list R) :=
  v <- pV p ;; ci <- lift (argmin (map Rabs v)) ;;
  gB <- lift (gradient B) ;; w <- pW p ;; gW <- lift (gradient w) ;;
  (if Nat.eqb (length gB) (length gW) then ret tt else raise ValueError) ;;;
  s <- lift (fdiv (nth ci gB 0) (nth ci gW 0)) ;;
  lift (broadcast2 (fun b v => b - s * v - nth ci B 0) B v).
(** fiber.py:240-246.  A function of the wrong kind for the format is outside the model (TypeError). *)
Definition refresh (z : R) : FM unit :=
  f <- gets snd ;;
  match f_dz f with
  | None => ret tt
  | Some d =>
    fmt <- key d_format ;;
    if String.eqb fmt "D" || String.eqb fmt "n" then
      match d with DXY g => on_fiber (set_xy (fst (g z)) (snd (g z))) | DBetas _ => raise TypeError end
    else if String.eqb fmt "GVD" then
      match d with DBetas g => on_fiber (set_betas (g z)) | DXY _ => raise TypeError end
    else ret tt
  end.
(** fiber.py:214-303.  The result None is the integer -1 of line 303. *)
Definition get_betas (p : pulse) (z : R) : FM (option (list R)) :=
  refresh z ;;;
  fmt <- key d_format ;;
  if String.eqb fmt "D" then
    x <- attr f_x AttributeError ;; y <- attr f_y AttributeError ;;
    (if Nat.eqb (length x) (length y) then ret tt else raise ValueError) ;;;
    o <- attr f_poly TypeError ;;
    b <- lift (fst (DTabulationToBetas polyfit (c_nmps / p_f p) o (combine x y))) ;;
    on_fiber (set_betas b) ;;;
    (if Nat.eqb (length b) 0 then ret (Some (repeat 0 (p_n p)))
     else v <- pV p ;; ret (Some (map (taylor b) v)))
  else if String.eqb fmt "GVD" then
    c <- attr f_center AttributeError ;; w0 <- lift (fdiv (2 * PI * c_nmps) c) ;;
    b <- attr f_betas TypeError ;;
    B <- (if Nat.eqb (length b) 0 then ret (repeat 0 (p_n p))
          else w <- pW p ;; ret (map (fun w => taylor b (w - w0)) w)) ;;
    r <- recentre p B ;; ret (Some r)
  else if String.eqb fmt "n" then
    x <- attr f_x AttributeError ;; y <- attr f_y AttributeError ;;
    sW <- lift (rtraverse (fun x => fdiv (2 * PI * 1e-12 * 3e8) (x * 1e-9)) x) ;;
    sB <- lift (bcast (fun y x => fdiv (y * 2 * PI) (x * 1e-9)) y x) ;;
    w <- pW p ;; B <- lift (spline (rev sW) (rev sB) w) ;;
    r <- recentre p B ;; ret (Some r)
  else ret None.

(** np.diff(B, 2) *)
Definition diff1 (l : list R) : list R := mk (length l - 1) (fun i => nth (i + 1) l 0 - nth i l 0).
(** fiber.py:351-357  (np.diff of the integer -1 raises ValueError) *)
Definition Beta2 (p : pulse) : FM (list R) :=
  v <- pV p ;;
  dw <- (match v with a :: b :: _ => ret (b - a) | _ => raise IndexError end) ;;
  o <- get_betas p 0 ;;
  match o with
  | None => raise ValueError
  | Some B =>
    out <- lift (rtraverse (fun d => fdiv d (dw ^ 2)) (diff1 (diff1 B))) ;;
    match out with
    | [] => raise IndexError
    | a :: _ => let o1 := a :: out in ret (o1 ++ [last o1 0])
    end
  end.
End Betas.

(** fiber.py:347-349.  That reading pulse.wl_nm fills the pulse's cache is not kept. *)
Definition Beta2_to_D (strf : R -> string) polyfit spline (p : pulse) : FM (list R) :=
  w <- lift (fst ((o <- get_wl_nm strf ;; as_array o) p)) ;;
  q <- lift (rtraverse (fun l => fdiv (-2 * PI * c_nmps) (l ^ 2)) w) ;;
  b <- Beta2 polyfit spline p ;;
  r <- lift (broadcast2 Rmult q b) ;; ret (map (fun d => d * 1000) r).

(** ** Programs over several fibers *)
Inductive fop :=
| FNew (db : list (string * specs))
| FGenerate (i : nat) (length center_wl_nm : R) (betas : list R) (gamma_W_m gain : R) (gvd_units label : string)
| FLoadDb (i : nat) (length : R) (fibertype : string) (poly_order : nat)
| FLoadFile (i : nat) (x y : list R) (length : R) (name : string) (gamma_W_m gain : R) (poly_order : nat)
| FSetDisp (i : nat) (d : dfun) (format : string)
| FSetGamma (i : nat) (g : R -> R)
| FGain (i : nat) (p : pulse) | FBetas (i : nat) (p : pulse) (z : R) | FGamma (i : nat) (z : R) | FBeta2 (i : nat) (p : pulse).
(** what a call gives back *)
Inductive fout := FNone (r : result unit) | FArr (r : result (list R)) | FOpt (r : result (option (list R))) | FNum (r : result (option R)).
Record fworld := mkFW { fw_heap : heap; fw_fs : list fiber }.
(** the class's dictionary is cell 0 *)
Definition fworld0 : fworld := mkFW [empty_specs] [].
Section Run.
Variable polyfit : list R -> list R -> nat -> result (list R).
Variable spline : list R -> list R -> list R -> result (list R).
Definition call {A} (i : nat) (m : FM A) (wrap : result A -> fout) (w : fworld) : fout * fworld :=
  match nth_error (fw_fs w) i with
  | None => (FNone (Raise NameError), w)
  | Some f => match m (fw_heap w, f) with (r, s) => (wrap r, mkFW (fst s) (upd i (fun _ => snd s) (fw_fs w))) end
  end.
Definition fstep (w : fworld) (o : fop) : fout * fworld :=
  match o with
  | FNew db => let s := fiber_init db (fw_heap w) in (FNone (Ok tt), mkFW (fst s) (fw_fs w ++ [snd s]))
  | FGenerate i l c b g a u n => call i (generate_fiber l c b g a u n) FNone w
  | FLoadDb i l t n => call i (load_from_db l t n) FNone w
  | FLoadFile i x y l n g a k => call i (load_from_file x y l n g a k) FNone w
  | FSetDisp i d f => call i (set_dispersion_function d f) FNone w
  | FSetGamma i g => call i (set_gamma_function g) FNone w
  | FGain i p => call i (get_gain p) FArr w
  | FBetas i p z => call i (get_betas polyfit spline p z) FOpt w
  | FGamma i z => call i (get_gamma z) FNum w
  | FBeta2 i p => call i (Beta2 polyfit spline p) FArr w
  end.
Definition frun (ops : list fop) (w : fworld) : fworld := fold_left (fun w o => snd (fstep w o)) ops w.
End Run.

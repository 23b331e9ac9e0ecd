(** src/pynlo/media/crystals: CrystalContainer.py, XTAL_PPLN.py, XTAL_AgGaSe2.py.

    Simplifications, valid for the whole file: float64 is [R]; a value that numpy
    would turn into inf or nan (division by zero, root of a negative number, power of a
    number that is not positive) is the pseudo-exception [NonFinite]; printed messages are
    dropped.  The derivative-based methods of Crystal (78-148) and
    the poling functions are in ModelCrystalMore.v.  invert_dfg_qpm_to_signal_wl is in ModelInvert.v.  Not modelled: set_pp_chirp (50-51, reads the undefined self.length) and Boyd.py (not imported by the package).  XTAL_AgGaS.py is in ModelAgGaS.v. *)
From Coq Require Import String.
From Coq Require Import Reals List ZArith Bool Arith.
From Verif Require Import Base CNum NumPy ModelPulse.
Import ListNotations.
Local Open Scope R_scope.
Local Open Scope py_scope.

(** numpy's a/b, sqrt and power on float64 scalars *)
Definition fdiv (a b : R) : result R := if Req_EM_T b 0 then Raise NonFinite else Ok (a / b).
Definition fsqrt (x : R) : result R := if Rlt_dec x 0 then Raise NonFinite else Ok (sqrt x).
Definition fpow (x a : R) : result R := if Rlt_dec 0 x then Ok (Rpower x a) else Raise NonFinite.
(** the same element by element on an array *)
Fixpoint rtraverse {A B} (f : A -> result B) (l : list A) : result (list B) :=
  match l with [] => Ok [] | x :: l' => y <-r f x ;; r <-r rtraverse f l' ;; Ok (y :: r) end.

(** ** Refractive indices *)

(** XTAL_PPLN.py:29-54  DengSellmeier.n at temperature T (degC). *)
Definition deng_n (T wl_nm : R) : result R :=
  let wl_um := wl_nm * 0.001 in
  let f := (T - 24.5) * (T + 570.82) in
  q1 <-r fdiv (0.100473 + 3.862e-8 * f) (wl_um ^ 2 - (0.20692 + (- 0.89e-8) * f) ^ 2) ;;
  q2 <-r fdiv (100.0 + 2.657e-5 * f) (wl_um ^ 2 - 11.34927 ^ 2) ;;
  fsqrt (5.39121 + 4.96827e-7 * f + q1 + q2 - (1.544e-2 + 9.62119e-10 * f) * wl_um ^ 2).

(** XTAL_PPLN.py:55-79  Gayer5PctSellmeier.n. *)
Definition gayer_n (T wl_nm : R) : result R :=
  let wl_um := wl_nm * 0.001 in
  let f := (T - 24.5) * (T + 570.82) in
  q1 <-r fdiv (0.0983 + 4.700e-8 * f) (wl_um ^ 2 - (0.2020 + 6.113e-8 * f) ^ 2) ;;
  q2 <-r fdiv (189.32 + 1.516e-4 * f) (wl_um ^ 2 - 12.52 ^ 2) ;;
  fsqrt (5.756 + 2.860e-6 * f + q1 + q2 - 1.32e-2 * wl_um ^ 2).

(** XTAL_AgGaSe2.py:36-58  one axis' coefficients A-G and exponents a-c, instance attributes. *)
Record sellmeier := mkSell { sA : R; sB : R; sC : R; sD : R; sE : R; sF : R; sG : R; sa : R; sb : R; sc : R }.
Definition agse_o : sellmeier := mkSell 6.849065 0.417863 0.178080 1.209374 915.345 0.000442 0.889242 1.970203 0.340086 1.921292.
Definition agse_e : sellmeier := mkSell 6.675232 0.436579 0.229775 3.252722 3129.32 0.012063 0.213957 1.893694 4.269152 2.047204.

(** XTAL_AgGaSe2.py:73-82  one of the two indices. *)
Definition sell_n (s : sellmeier) (wl_nm : R) : result R :=
  let wl_um := wl_nm * 0.001 in
  pa <-r fpow wl_um (sa s) ;; pb <-r fpow wl_um (sb s) ;; pc <-r fpow wl_um (sc s) ;;
  q1 <-r fdiv (sB s) (pa - sC s) ;; q2 <-r fdiv (sF s) (pb - sG s) ;;
  q3 <-r fdiv (sE s) pc ;; q4 <-r fdiv (sD s) (1 - q3) ;;
  fsqrt (sA s + q1 + q2 + q4).

(** the instance attributes used by AgGaSe2 *)
Record agse := mkAgse { ag_o : sellmeier; ag_e : sellmeier; ag_theta : R }.
(** XTAL_AgGaSe2.py:64-65 *)
Definition set_theta (angle : R) (x : agse) : agse := mkAgse (ag_o x) (ag_e x) angle.

(** XTAL_AgGaSe2.py:66-91  both indices are computed before the axis is looked at. *)
Definition agse_n (x : agse) (wl_nm : R) (axis : string) : result R :=
  no <-r sell_n (ag_o x) wl_nm ;; ne <-r sell_n (ag_e x) wl_nm ;;
  if String.eqb axis "mix" then
    q1 <-r fdiv (sin (ag_theta x) ^ 2) (ne ^ 2) ;; q2 <-r fdiv (cos (ag_theta x) ^ 2) (no ^ 2) ;;
    r <-r fsqrt (q1 + q2) ;; fdiv 1 r
  else if String.eqb axis "o" then Ok no
  else if String.eqb axis "e" then Ok ne
  else Raise ValueError.

(** the head shared by AgGaSe2.phasematch (95-112) and PPLN.calculate_poling_period (125-145): at most one of the three
    wavelengths may be None; it is computed from the other two, and reported.  Two Nones end in 1.0/None. *)
Definition inv1 (x : option R) : result R :=
  match x with None => Raise TypeError | Some v => fdiv 1 v end.
Definition fill (pump sgnl idlr : option R) : result (R * R * R * option R) :=
  pn <-r (match pump with
          | None => a <-r inv1 idlr ;; b <-r inv1 sgnl ;; p <-r fdiv 1 (a + b) ;; Ok (p, Some p)
          | Some p => Ok (p, None) end) ;;
  let (p, n0) := pn : R * option R in
  sn <-r (match sgnl with
          | None => a <-r inv1 (Some p) ;; b <-r inv1 idlr ;; s <-r fdiv 1 (a - b) ;; Ok (s, Some s)
          | Some s => Ok (s, n0) end) ;;
  let (s, n1) := sn : R * option R in
  ii <-r (match idlr with
          | None => a <-r inv1 (Some p) ;; b <-r inv1 (Some s) ;; i <-r fdiv 1 (a - b) ;; Ok (i, Some i)
          | Some i => Ok (i, n1) end) ;;
  let (i, n2) := ii : R * option R in
  Ok (p, s, i, n2).

(** XTAL_AgGaSe2.py:92-134.  The result is (theta, None) or the tuple (theta, Some new_wl).  A nan in any
    intermediate value reaches np.isnan(np.arccos(x)) and raises AttributeError: nan indices (113-119), the root of a negative
    number (125), nan = 0/0 for n_e = n_o (125), arccos outside [-1,1] (128).  An index that is +inf also ends there. *)
Definition or_no_match {A} (r : result A) : result A :=
  match r with Raise NonFinite => Raise AttributeError | _ => r end.
Definition np_arccos (x : R) : result R := if Rle_dec (-1) x then if Rle_dec x 1 then Ok (acos x) else Raise NonFinite else Raise NonFinite.
Definition phasematch (x : agse) (pump sgnl idlr : option R) (return_wavelength : bool) : result (R * option R) :=
  psi <-r fill pump sgnl idlr ;;
  let '(p, s, i, new_wl) := psi in
  kp0 <-r fdiv (2 * PI) p ;;
  theta <-r or_no_match (
    ns <-r agse_n x s "o" ;; ks <-r fdiv (ns * 2 * PI) s ;;
    ni <-r agse_n x i "o" ;; ki <-r fdiv (ni * 2 * PI) i ;;
    n_soln <-r fdiv (ks + ki) kp0 ;;
    n_e <-r agse_n x p "e" ;; n_o <-r agse_n x p "o" ;;
    let a := n_e ^ 2 - n_o ^ 2 in
    q <-r fdiv (n_e ^ 2 * n_o ^ 2) (n_soln ^ 2) ;;
    let c := n_o ^ 2 - q in
    r <-r fsqrt (0 ^ 2 - 4 * a * c) ;;
    u <-r fdiv (- 0 + r) (2 * a) ;;
    v <-r (if Rlt_dec u 0 then fdiv (- 0 - r) (2 * a) else Ok u) ;;
    np_arccos v) ;;
  Ok (theta, if return_wavelength then new_wl else None).

(** XTAL_PPLN.py:120-160  for the index function [n] = self.n and self._length = [len] (meters, possibly None). *)
Definition poling_period (n : R -> result R) (len : option R) (pump sgnl idlr : option R) (delta_k_L : R) : result (R * option R) :=
  psi <-r fill pump sgnl idlr ;;
  let '(p, s, i, new_wl) := psi in
  np <-r n p ;; kp <-r fdiv (np * 2 * PI) p ;;
  ns <-r n s ;; ks <-r fdiv (ns * 2 * PI) s ;;
  ni <-r n i ;; ki <-r fdiv (ni * 2 * PI) i ;;
  set_pt <-r (match len with Some L => fdiv delta_k_L (L * 1000000000) | None => Ok 0 end) ;;
  let deltak := kp - ks - ki - set_pt in
  q <-r fdiv PI deltak ;;
  let period_meter := q * 1e-9 in
  Ok (period_meter * 2, new_wl).

(** ** Crystals as objects *)

Inductive source := Deng | Gayer.
(** XTAL_PPLN.py:95-103  self.T, the two calculators' own T, and which calculator self.n is bound to. *)
Record ppln := mkPpln { pp_T : R; pp_deng : R; pp_gayer : R; pp_src : source }.
Definition ppln_n (x : ppln) (wl_nm : R) : result R :=
  match pp_src x with Deng => deng_n (pp_deng x) wl_nm | Gayer => gayer_n (pp_gayer x) wl_nm end.
(** XTAL_PPLN.py:116-118  only the bound calculator is told. *)
Definition set_T (T : R) (x : ppln) : ppln :=
  match pp_src x with Deng => mkPpln T T (pp_gayer x) Deng | Gayer => mkPpln T (pp_deng x) T Gayer end.

Inductive material := Ppln (x : ppln) | Agse (x : agse).
(** CrystalContainer.py:40-48  instance attributes set by __init__. *)
Record crystal := mkX { x_mat : material; x_len : option R; x_caching : bool }.

(** CrystalContainer.py:34-38  class attributes, shared by every crystal of every class:
    _cached_ns and _crystal_properties['damage_threshold_GW_per_sqcm'].
    (_wavelength_axes is never used; _enable_caching is always shadowed by the instance.) *)
Record shared := mkShared { k_ns : list (string * list R); k_damage : R }.
Definition shared0 : shared := mkShared [] 1.0.

(** XTAL_PPLN.py:82-84, 85-110  PPLN(T, length=.., enable_caching=..), followed by load(T, "Deng") for the other data source: writes the shared property dict. *)
Definition ppln_init (T : R) (src : source) (len : option R) (caching : bool) : M shared crystal :=
  modify (fun k => mkShared (k_ns k) 4.0) ;;;
  ret (mkX (Ppln (mkPpln T T T src)) len caching).
(** XTAL_AgGaSe2.py:31-63 *)
Definition agse_init (theta : R) (len : option R) (caching : bool) : M shared crystal :=
  ret (mkX (Agse (mkAgse agse_o agse_e theta)) len caching).

(** CrystalContainer.py:192-194 *)
Definition damage_threshold_mks : M shared R := gets (fun k => k_damage k * 1.0e13).

(** self.n(wl_nm) / self.n(wl_nm, axis) on an array; PPLN ignores the axis (XTAL_PPLN.py:48, 73), AgGaSe2 defaults to 'mix'. *)
Definition index (m : material) (axis : option string) (wl : list R) : result (list R) :=
  match m with
  | Ppln x => rtraverse (ppln_n x) wl
  | Agse x => rtraverse (fun w => agse_n x w (match axis with Some a => a | None => "mix" end)) wl
  end.
(** str(axis) *)
Definition str_axis (axis : option string) : string := match axis with Some a => a | None => "None" end.

Fixpoint assoc (key : string) (l : list (string * list R)) : option (list R) :=
  match l with [] => None | (k, v) :: l' => if String.eqb k key then Some v else assoc key l' end.

Section Str.
(** Python's str(float). *)
Variable strf : R -> string.

(** CrystalContainer.py:60-77.  The state is the class attributes and the pulse (whose wl_nm getter may refresh its cache). *)
Definition on_pulse {A} (m : M pulse A) : M (shared * pulse) A :=
  fun s => match m (snd s) with (r, p) => (r, (fst s, p)) end.
Definition compute_n (x : crystal) (axis : option string) : M (shared * pulse) (list R) :=
  o <- on_pulse (get_wl_nm strf) ;; wl <- as_array o ;; lift (index (x_mat x) axis wl).
Definition get_pulse_n (x : crystal) (axis : option string) : M (shared * pulse) (list R) :=
  if x_caching x then
    s <- get ;;
    let key := (hash_of strf (snd s) ++ str_axis axis)%string in
    match assoc key (k_ns (fst s)) with
    | Some v => ret v
    | None => ns <- compute_n x axis ;;
              modify (fun s => (mkShared ((key, ns) :: k_ns (fst s)) (k_damage (fst s)), snd s)) ;;;
              ret ns
    end
  else compute_n x axis.
(** CrystalContainer.py:52-59 *)
Definition get_pulse_k (x : crystal) (axis : option string) : M (shared * pulse) (list R) :=
  o <- on_pulse (get_wl_nm strf) ;; wl <- as_array o ;; ns <- lift (index (x_mat x) axis wl) ;;
  wm <- on_pulse (get_wl_mks strf) ;;
  kk <- lift (broadcast2 (fun n w => (n, w)) ns wm) ;;
  lift (rtraverse (fun nw => fdiv (2 * PI * fst nw) (snd nw)) kk).
End Str.
(** CrystalContainer.py:176-185 (cache_enable a bool) *)
Definition set_caching (b : bool) (x : crystal) : crystal := mkX (x_mat x) (x_len x) b.

(** ** Programs over several crystals *)
Inductive xop :=
| XNewPpln (T : R) (src : source) (len : option R) (caching : bool)
| XNewAgse (theta : R) (len : option R) (caching : bool)
| XSetT (i : nat) (T : R) | XSetTheta (i : nat) (angle : R) | XSetCaching (i : nat) (b : bool)
| XReadN (i : nat) (p : pulse) (axis : option string)
| XReadDamage (i : nat).
(** the class attributes and the crystals created so far *)
Record xworld := mkXW { xw_k : shared; xw_xs : list crystal }.
Definition xworld0 : xworld := mkXW shared0 [].
Inductive xout := ONothing | OIndex (r : result (list R)) | ODamage (r : result R).

Definition upd {A} (i : nat) (f : A -> A) (l : list A) : list A :=
  map (fun p => if Nat.eqb (fst p) i then f (snd p) else snd p) (combine (seq 0 (length l)) l).
Definition on_ppln (f : ppln -> ppln) (x : crystal) : crystal := match x_mat x with Ppln p => mkX (Ppln (f p)) (x_len x) (x_caching x) | Agse _ => x end.
Definition on_agse (f : agse -> agse) (x : crystal) : crystal := match x_mat x with Agse p => mkX (Agse (f p)) (x_len x) (x_caching x) | Ppln _ => x end.

(** one call; the caches of the pulses handed in belong to the caller and are not carried along *)
Definition xstep (strf : R -> string) (w : xworld) (o : xop) : xout * xworld :=
  match o with
  | XNewPpln T src len b => match ppln_init T src len b (xw_k w) with (Ok x, k) => (ONothing, mkXW k (xw_xs w ++ [x])) | (Raise _, k) => (ONothing, mkXW k (xw_xs w)) end
  | XNewAgse th len b => match agse_init th len b (xw_k w) with (Ok x, k) => (ONothing, mkXW k (xw_xs w ++ [x])) | (Raise _, k) => (ONothing, mkXW k (xw_xs w)) end
  | XSetT i T => (ONothing, mkXW (xw_k w) (upd i (on_ppln (set_T T)) (xw_xs w)))
  | XSetTheta i a => (ONothing, mkXW (xw_k w) (upd i (on_agse (set_theta a)) (xw_xs w)))
  | XSetCaching i b => (ONothing, mkXW (xw_k w) (upd i (set_caching b) (xw_xs w)))
  | XReadN i p axis => match nth_error (xw_xs w) i with
                       | None => (ONothing, w)
                       | Some x => match get_pulse_n strf x axis (xw_k w, p) with (r, s) => (OIndex r, mkXW (fst s) (xw_xs w)) end
                       end
  | XReadDamage i => match nth_error (xw_xs w) i with None => (ONothing, w) | Some _ => (ODamage (fst (damage_threshold_mks (xw_k w))), w) end
  end.
Definition xrun (strf : R -> string) (ops : list xop) (w : xworld) : xworld := fold_left (fun w o => snd (xstep strf w o)) ops w.

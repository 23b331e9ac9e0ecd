(** src/pynlo/light/beam.py: class OneDBeam, and src/pynlo/light/high_V_waveguide.py.

    Simplifications, valid for the whole file: float64 is [R]; inf and nan are the pseudo-exception [NonFinite];
    a scalar waist is an array of one element (which numpy broadcasts in the same way); the caches a pulse refreshes while its grid is
    read belong to the caller and are not carried along.  The objective of calc_optimal_beam_overlap_in_crystal (143-165) is in ModelCrystalMore.v; its
    scipy minimisation is not modelled. *)
From Coq Require Import String.
From Coq Require Import Reals List ZArith Bool Arith.
From Coquelicot Require Import Complex.
From Verif Require Import Base CNum NumPy ModelPulse ModelCrystal.
Import ListNotations.
Local Open Scope R_scope.
Local Open Scope py_scope.

(** scipy.constants.epsilon_0 (its digits differ between scipy versions; no theorem uses more than its sign) *)
Definition eps0 : R := 8.8541878128e-12.

(** elementwise operation with broadcasting whose result may be inf or nan *)
Definition bcast {A B D} (f : A -> B -> result D) (a : list A) (b : list B) : result (list D) :=
  l <-r broadcast2 pair a b ;; rtraverse (fun ab => f (fst ab) (snd ab)) l.
(** np.arctan2(y, x) *)
Definition arctan2 (y x : R) : R :=
  if Rlt_dec 0 x then atan (y / x)
  else if Rlt_dec x 0 then (if Rle_dec 0 y then atan (y / x) + PI else atan (y / x) - PI)
  else if Rlt_dec 0 y then PI / 2 else if Rlt_dec y 0 then - PI / 2 else 0.

(** beam.py:38-41  _w0, _lambda0, axis. *)
Record beam := mkBeam { b_w0 : list R; b_lam : list R; b_axis : option string }.

(** beam.py:55-61 *)
Definition set_w0 (w0 : list R) (b : beam) : beam := mkBeam w0 (b_lam b) (b_axis b).
(** beam.py:52-53 *)
Definition calc_confocal (b : beam) (n_s : list R) : result (list R) :=
  q <-r bcast fdiv n_s (b_lam b) ;;
  broadcast2 Rmult (map (fun w => 2 * PI * w ^ 2) (b_w0 b)) q.
(** beam.py:63-68 *)
Definition calculate_waist (b : beam) (z : R) (n_s : list R) : result (list R) :=
  c <-r calc_confocal b n_s ;;
  bcast (fun w c => q <-r fdiv (2 * z) c ;; Ok (w * sqrt (1 + q ^ 2))) (b_w0 b) c.
(** beam.py:70-72 *)
Definition calculate_zR (b : beam) (n_s : list R) : result (list R) :=
  c <-r calc_confocal b n_s ;; Ok (map (fun x => x / 2) c).
(** beam.py:74-78 *)
Definition calculate_R (b : beam) (z : R) (n_s : list R) : result (list R) :=
  zr <-r calculate_zR b n_s ;; rtraverse (fun r => q <-r fdiv r z ;; Ok (z * (1 + q ^ 2))) zr.
(** beam.py:80-86 *)
Definition calculate_gouy_phase (b : beam) (z : R) (n_s : list R) : result (list C) :=
  zr <-r calculate_zR b n_s ;; Ok (map (fun r => cis (arctan2 z r)) zr).
(** beam.py:88-94  _rtP_to_a; waist = None means the waist at z. *)
Definition rtP_to_a_ (b : beam) (n_s : list R) (z : R) (waist : option (list R)) : result (list R) :=
  w <-r (match waist with Some w => Ok w | None => calculate_waist b z n_s end) ;;
  bcast (fun w n => r <-r fsqrt (PI * w ^ 2 * n * eps0 * c_mks) ;; fdiv 1 r) w n_s.
(** beam.py:96-99  rtP_to_a: z is accepted and not used. *)
Definition rtP_to_a (b : beam) (n_s : list R) (z : R) : result (list R) := rtP_to_a_ b n_s z (Some (b_w0 b)).

Section Str.
Variable strf : R -> string.
(** beam.py:43-50  the wavelengths are read once, when the beam is made. *)
Definition beam_init (waist : list R) (axis : option string) : M pulse beam :=
  l <- get_wl_mks strf ;; ret (set_w0 waist (mkBeam [] l axis)).

Definition reading {A} (m : M (shared * pulse) A) (p : pulse) : M shared A :=
  fun k => match m (k, p) with (r, s) => (r, fst s) end.
(** beam.py:167-171 *)
Definition get_n_in_crystal (b : beam) (p : pulse) (x : crystal) : M shared (list R) := reading (get_pulse_n strf x (b_axis b)) p.
Definition get_k_in_crystal (b : beam) (p : pulse) (x : crystal) : M shared (list R) := reading (get_pulse_k strf x (b_axis b)) p.

(** beam.py:122 *)
Definition overlap1 (z k1 k2 zr1 zr2 : R) : result R :=
  fdiv (4 * k1 * k2 * zr1 * zr2) (k2 ^ 2 * (z ^ 2 + zr1 ^ 2) - 2 * k1 * k2 * (z ^ 2 - zr1 * zr2) + k1 ^ 2 * (z ^ 2 + zr2 ^ 2)).
(** beam.py:107-122 (reverse_order is accepted and not used). *)
Definition calc_overlap_integral (self : beam) (z : R) (this othr : pulse) (othr_beam : beam) (x : crystal) : M shared (list R) :=
  n1 <- get_n_in_crystal self this x ;; n2 <- get_n_in_crystal othr_beam othr x ;;
  zr1 <- lift (calculate_zR self n1) ;; zr2 <- lift (calculate_zR othr_beam n2) ;;
  k1 <- get_k_in_crystal self this x ;; k2 <- get_k_in_crystal othr_beam othr x ;;
  kk <- lift (broadcast2 pair k1 k2) ;; zz <- lift (broadcast2 pair zr1 zr2) ;;
  lift (bcast (fun k r => overlap1 z (fst k) (snd k) (fst r) (snd r)) kk zz).
(** w0 = sqrt(2 zr lambda0 / (2 pi n1)), beam.py:131 and :140 *)
Definition waist_of (zr lam n : list R) : result (list R) :=
  a <-r broadcast2 (fun r l => 2 * r * l) zr lam ;;
  bcast (fun a n => q <-r fdiv a (2 * PI * n) ;; fsqrt q) a n.
(** beam.py:124-132 *)
Definition set_waist_to_match_confocal (self : beam) (this othr : pulse) (othr_beam : beam) (x : crystal) : M shared beam :=
  n1 <- get_n_in_crystal self this x ;; n2 <- get_n_in_crystal othr_beam othr x ;;
  zr <- lift (calculate_zR othr_beam n2) ;;
  w0 <- lift (waist_of zr (b_lam self) n1) ;; ret (set_w0 w0 self).
(** l[len(l) >> 1] *)
Definition middle (l : list R) : result R := match nth_error l (Nat.div2 (length l)) with Some v => Ok v | None => Raise IndexError end.
(** beam.py:134-141 *)
Definition set_waist_to_match_central_waist (self : beam) (this : pulse) (w0_center : R) (x : crystal) : M shared beam :=
  n1 <- get_n_in_crystal self this x ;;
  nc <- lift (middle n1) ;; lc <- lift (middle (b_lam self)) ;; q <- lift (fdiv nc lc) ;;
  w0 <- lift (waist_of [PI * w0_center ^ 2 * q] (b_lam self) n1) ;; ret (set_w0 w0 self).
End Str.

(** ** high_V_waveguide.py *)
(** high_V_waveguide.py:28-53  the mode area (m^2) is the only property used. *)
Record waveguide := mkWG { g_Aeff : R; g_axis : option string }.
(** high_V_waveguide.py:38-45 *)
Definition wg_init (Aeff_squm : R) (axis : option string) : waveguide := mkWG (Aeff_squm * 1e-12) axis.
(** high_V_waveguide.py:55-57, 76-81 *)
Definition wg_gouy (g : waveguide) (z : R) (n_s : list R) : C := RtoC 1.
Definition wg_overlap (g : waveguide) : R := 1.
(** high_V_waveguide.py:59-68 *)
Definition wg_rtP_to_a (g : waveguide) (n_s : list R) : result (list R) :=
  rtraverse (fun n => r <-r fsqrt (g_Aeff g * n * eps0 * c_mks) ;; fdiv 1 r) n_s.

(** src/pynlo/light/PulseBase.py:900-1012  Pulse.spectrogram.

    Simplifications: float64 is [R]; a 2-d array is a list of rows; a division by zero is [NonFinite].  scipy.ndimage's map_coordinates (gate_type 'frog') is a
    parameter, called on an array all of whose columns are the same and with column coordinate 0.  time_steps is not negative. *)
From Coq Require Import String.
From Coq Require Import Reals List ZArith Bool Arith.
From Coquelicot Require Import Complex.
From Verif Require Import Base CNum NumPy ModelPulse ModelCrystal.
Import ListNotations.
Local Open Scope R_scope.
Local Open Scope py_scope.

(** np.angle: the argument in (-pi, pi], 0 for 0. *)
Definition angle (z : C) : R := if Req_EM_T (Cmod z) 0 then 0 else if Rlt_dec (Im z) 0 then - acos (Re z / Cmod z) else acos (Re z / Cmod z).
(** np.mod(x, m) *)
Definition rmod (x m : R) : R := x - m * IZR (Int_part (x / m)).
(** np.unwrap of one row: jumps of at least pi are replaced by their representative in [-pi, pi] (pi itself for upward jumps). *)
Definition unwrap_corr (d : R) : R :=
  if Rlt_dec (Rabs d) PI then 0
  else let m := rmod (d + PI) (2 * PI) - PI in (if Req_EM_T m (- PI) then if Rlt_dec 0 d then PI else m else m) - d.
Definition unwrap (p : list R) : list R := mk (length p) (fun i => nth i p 0 + rsum i (fun k => unwrap_corr (nth (k + 1) p 0 - nth k p 0))).
(** np.fft.fftfreq(n, d) *)
Definition fftfreq (n : nat) (d : R) : list R :=
  mk n (fun i => (if (i <=? (n - 1) / 2)%nat then INR i else INR i - INR n) / (INR n * d)).
(** np.min *)
Definition amin (l : list R) : result R := match l with [] => Raise ValueError | x :: l' => Ok (fold_left Rmin l' x) end.

Section Spectrogram.
(** map_coordinates(array, (r, 0)) for the array whose columns all are the given list *)
Variable mapc : list R -> R -> R.
(** 967-968 *)
Definition gauss (x mu sigma : R) : R := exp (- (x - mu) ^ 2 / (2 * sigma ^ 2)).
(** 980-996  the gate as a function of the delay d and the time t *)
Definition gate (gate_type : string) (sigma : R) (t delay : list R) (lo : R) (AT : list C) : result (R -> R -> C) :=
  if String.eqb gate_type "xfrog" then
    if Req_EM_T sigma 0 then Raise NonFinite else Ok (fun d t => RtoC (gauss t d sigma))
  else if String.eqb gate_type "frog" then
    match delay, t with
    | _ :: _ :: _, t0 :: t1 :: _ =>
      if Req_EM_T (t1 - t0) 0 then Raise NonFinite
      else Ok (fun d t => (mapc (map Re AT) ((t - d - lo) / (t1 - t0)), mapc (map Im AT) ((t - d - lo) / (t1 - t0))))
    | _, _ => Raise IndexError
    end
  else Raise ValueError.
(** 970-1012.  The result: DELAYS, FREQS, extent, |spectrogram|. *)
Definition spectrogram (gate_type : string) (sigma : R) (steps : nat) : M pulse (list (list R) * list (list R) * (R * R * R * R) * list (list R)) :=
  t <- get_T ;;
  lo <- lift (amin t) ;; hi <- lift (max_list t) ;;
  let delay := linspace lo hi steps in
  AT <- get_AT ;;
  g <- lift (gate gate_type sigma t delay lo AT) ;;
  f0 <- get_center_frequency_THz ;;
  shape <- lift (broadcast2 (fun _ _ => tt) AT t) ;;
  cols <- lift (rtraverse (fun j => broadcast2 (fun a t =>
      (RtoC (Cmod a) * g (nth j delay 0)%R t * cis (2 * PI * t * f0 + nth j (unwrap (repeat (angle a) steps)) 0))%C) AT t) (seq 0 steps)) ;;
  let h := length shape in
  dt <- (match t with t0 :: t1 :: _ => ret (t1 - t0) | _ => raise IndexError end) ;;
  (if Req_EM_T dt 0 then raise NonFinite else ret tt) ;;;
  let freqs := fftfreq h dt in
  let S := mk (h / 2) (fun k => map (fun c => Cmod (nth k (fft c) (RtoC 0))) cols) in
  let DELAYS := repeat delay (h / 2) in
  let FREQS := mk (h / 2) (fun k => repeat (nth k freqs 0) steps) in
  dmin <- lift (amin (concat DELAYS)) ;; dmax <- lift (max_list (concat DELAYS)) ;;
  fmin <- lift (amin (concat FREQS)) ;; fmax <- lift (max_list (concat FREQS)) ;;
  ret (DELAYS, FREQS, (dmin, dmax, fmin, fmax), S).
End Spectrogram.

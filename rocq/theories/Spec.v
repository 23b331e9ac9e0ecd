(** Specification vocabulary: what a reader of the documentation means, written without
    reference to the model of the code. *)
From Coq Require Import Reals List ZArith.
From Coquelicot Require Import Complex.
From Verif Require Import CNum.
Import ListNotations.
Local Open Scope R_scope.

(** The absolute angular frequency grid (rad/ps) of a pulse with [n] points, a window of [t] ps and a
    centre at [f] THz: n bins of width 1/t with the centre frequency in the middle. *)
Definition spec_W (n : nat) (t f : R) : list R :=
  mk n (fun k => 2 * PI * (f + (INR k - INR n / 2) / t)).

(** total energy of a sampled field, up to the sampling step *)
Definition power_sum (a : list C) : R := lrsum (map (fun z => Cmod z ^ 2) a).

(** bin-by-bin equality of magnitudes *)
Definition same_mags (a b : list C) : Prop := map Cmod a = map Cmod b.

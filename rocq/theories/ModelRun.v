(** Calls of the split-step solver on whole objects: SSFM.py with fiber.py, and the two drivers of propagate
    (calculate_coherence, propagate_to_gain_goal).

    Simplifications: as in ModelSSFM.v, ModelFiber.v and ModelPulse.v.  What get_betas leaves behind in the fiber (the coefficients of the position
    asked last) is dropped, because it does not change any later answer (C55_repeatable). *)
From Coq Require Import String.
From Coq Require Import Reals List ZArith Bool Arith.
From Coquelicot Require Import Complex.
From Verif Require Import Base CNum NumPy ModelPulse ModelSSFM.
From Verif Require ModelFiber ModelCrystal.
Import ListNotations.
Local Open Scope R_scope.
Local Open Scope py_scope.

Section View.
Variable polyfit : list R -> list R -> nat -> result (list R).
Variable spline : list R -> list R -> list R -> result (list R).
(** A FiberInstance in state [s] as SSFM.py uses it: fiber.length (503), fiber.get_betas(pulse_in, z) (76), fiber.get_gain (117), fiber.gamma (119),
    fiber.get_gamma(z) (81).  The integer -1 that get_betas returns for an unknown format fills the array.  Fibers whose length or gamma was never set are
    outside the model (the numbers 0 below stand for Python's None). *)
Definition view (s : ModelFiber.heap * ModelFiber.fiber) : ModelSSFM.fiber :=
  ModelSSFM.mkFiber (match ModelFiber.f_length (snd s) with Some L => L | None => 0 end)
    (fun z p => (match fst (ModelFiber.get_betas polyfit spline p z s) with Ok (Some B) => Ok B | Ok None => Ok [-1] | Raise e => Raise e end, p))
    (fun _ p => (fst (ModelFiber.get_gain p s), p))
    (match ModelFiber.f_gamma (snd s) with Some g => g | None => 0 end)
    (fun z => match fst (ModelFiber.get_gamma z s) with Ok (Some g) => g | _ => 0 end).
End View.

(** what propagate returns: z_positions, AW, AT, pulse_out *)
Record run := mkRun { r_z : list R; r_AW : list (list C); r_AT : list (list C); r_out : pulse }.
Definition run_once (c : cfg) (fuel : nat) (fb : fiber) (n_steps : nat) (output_power : option R) (reload : bool) (s : ssfm) : M pulse (option (run * ssfm)) :=
  r <- propagate c fuel fb n_steps output_power reload s ;;
  ret (match r with None => None | Some (z, AW, AT, po, s') => Some (mkRun z AW AT po, s') end).

(** SSFM.py:614-659  propagate_to_gain_goal.  Line 631 reads pulse_out.frep, an attribute no pulse has, so the rest of the body is never reached.
    None is a propagation that ran out of fuel. *)
Definition propagate_to_gain_goal (c : cfg) (fuel : nat) (fb : fiber) (n_steps : nat) (power_goal : R) (scalefactor_guess : option R) (powertol : R) (s : ssfm) : M pulse (option unit) :=
  let scalefactor := match scalefactor_guess with Some x => x | None => 1 end in
  r <- run_once c fuel fb 1 (Some (scalefactor * power_goal)) false s ;;
  match r with
  | None => ret None
  | Some (r, _) => match calc_epp (r_out r) with (Raise e, _) => raise e | (Ok _, _) => raise AttributeError end
  end.

(** ** calculate_coherence *)
Section Coherence.
Variable strf : R -> string.
Variable planck : R.
(** The global numpy generator as the sequence of what it will deliver: entry j holds the normal and the uniform draws of the j-th next call of add_noise. *)
Definition stream := nat -> (nat -> R) * (nat -> R).
(** SSFM.py:584-589  one trial: a noisy clone of pulse_in is propagated.  output_power and reload_fiber_each_step are not passed on (589). *)
Definition trial (c : cfg) (fuel : nat) (fb : fiber) (n_steps : nat) (kind : noise_kind) (draws : (nat -> R) * (nat -> R)) (s : ssfm) : M pulse (option (run * ssfm)) :=
  q <- create_cloned_pulse ;;
  match (add_noise strf planck (fst draws) (snd draws) kind ;;; run_once c fuel fb n_steps None false s) q with
  | (Ok r, _) => ret r
  | (Raise e, _) => raise e
  end.
(** SSFM.py:583-591 *)
Fixpoint trials (c : cfg) (fuel : nat) (fb : fiber) (n_steps : nat) (kind : noise_kind) (g : stream) (num : nat) (s : ssfm) : M pulse (option (list run * ssfm)) :=
  match num with
  | O => ret (Some ([], s))
  | S num' =>
      r <- trial c fuel fb n_steps kind (g 0%nat) s ;;
      match r with
      | None => ret None
      | Some (x, s') =>
          l <- trials c fuel fb n_steps kind (fun j => g (S j)) num' s' ;;
          ret (match l with None => None | Some (xs, sf) => Some (x :: xs, sf) end)
      end
  end.
(** SSFM.py:594-610  g12W, given by its columns (one per saved step), each with one entry per frequency bin.  np.dstack needs equally shaped AW arrays, which all trials have. *)
Definition coherence_of (rs : list run) (nbins n_steps : nat) : result (list (list R)) :=
  ModelCrystal.rtraverse (fun i => ModelCrystal.rtraverse (fun k => coherence_bin (map (fun r => nth k (nth i (r_AW r) []) (RtoC 0)) rs)) (seq 0 nbins)) (seq 0 n_steps).
(** SSFM.py:546-612.  [random_seed], [output_power] and [reload] are accepted and not used.  Returns g12W, the results, the solver and the generator. *)
Definition calculate_coherence (c : cfg) (fuel : nat) (fb : fiber) (num_trials : nat) (random_seed : option nat) (kind : noise_kind) (n_steps : nat)
  (output_power : option R) (reload : bool) (g : stream) (s : ssfm) : M pulse (option (list (list R) * list run * ssfm * stream)) :=
  r <- trials c fuel fb n_steps kind g num_trials s ;;
  match r with
  | None => ret None
  | Some (rs, s') =>
      n <- get_NPTS ;;
      G <- lift (if Nat.ltb num_trials 2 then Raise NameError else coherence_of rs n n_steps) ;;
      ret (Some (G, rs, s', fun j => g (num_trials + j)%nat))
  end.
End Coherence.

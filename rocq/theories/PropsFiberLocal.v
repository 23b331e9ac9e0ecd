(** Property theorems proved in FiberLocalProofs.v (generated by tools/gen_props.py). *)
From Coq Require Import String.
From Coq Require Import Reals List ZArith Bool Arith Lia Lra.
From Verif Require Import Base NumPy FFTProofs ModelPulse ModelDerived PulseProofs ModelODE ModelCrystal CrystalShareProofs ModelFiber FiberProofs FiberLocalProofs.
Import ListNotations.
Local Open Scope R_scope.
Local Open Scope py_scope.

(** C93: a fiber given by Taylor coefficients df and a nonlinearity gf that depend on the position answers, at position z and after any queries at other positions and for other pulses, what the uniform fiber generated from the values at z answers at any position: propagation constants, nonlinearity and gain. *)
Theorem C93_local_fiber : forall (polyfit : list R -> list R -> nat -> result (list R)) (spline : list R -> list R -> list R -> result (list R)) (s : heap * fiber) (len center : R) (b0 : list R) (g0 gain : R) (label : string) (df : R -> list R) (gf : R -> R),
  f_dz (snd s) = None -> f_gz (snd s) = None ->
  exists sv, (generate_fiber len center b0 g0 gain "ps^n/m" label ;;; set_dispersion_function (DBetas df) "GVD" ;;; set_gamma_function gf) s = (Ok tt, sv) /\
    forall (calls : list (pulse * R)) (z : R), let st := fold_left (fun s c => snd (get_betas polyfit spline (fst c) (snd c) s)) calls sv in
    exists su, generate_fiber len center (df z) (gf z) gain "ps^n/m" label s = (Ok tt, su) /\
      forall (p : pulse) (z' : R),
        fst (get_betas polyfit spline p z st) = fst (get_betas polyfit spline p z' su) /\
        get_gamma z st = (Ok (Some (gf z)), st) /\ fst (get_gamma z' su) = Ok (Some (gf z)) /\
        fst (get_gain p st) = fst (get_gain p su).
Proof. exact C93_local_fiber_l. Qed.
Print Assumptions C93_local_fiber.

(** C93: the same for a tabulated dispersion: the fiber read from a file and given a position-dependent tabulation answers at z as the fiber whose file holds the tabulation at z. *)
Theorem C93_local_table : forall (polyfit : list R -> list R -> nat -> result (list R)) (spline : list R -> list R -> list R -> result (list R)) (s : heap * fiber) (x0 y0 : list R) (len : R) (name : string) (g0 gain : R) (order : nat) (df : R -> list R * list R),
  f_dz (snd s) = None -> (cell (snd s) < length (fst s))%nat ->
  exists sv, (load_from_file x0 y0 len name g0 gain order ;;; set_dispersion_function (DXY df) "D") s = (Ok tt, sv) /\
    forall (calls : list (pulse * R)) (z : R), let st := fold_left (fun s c => snd (get_betas polyfit spline (fst c) (snd c) s)) calls sv in
    exists su, load_from_file (fst (df z)) (snd (df z)) len name g0 gain order s = (Ok tt, su) /\
      forall (p : pulse) (z' : R), fst (get_betas polyfit spline p z st) = fst (get_betas polyfit spline p z' su).
Proof. exact C93_local_table_l. Qed.
Print Assumptions C93_local_table.

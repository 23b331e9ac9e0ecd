(** Property theorems proved in LimitProofs.v (generated by tools/gen_props.py). *)
From Coq Require Import Reals List ZArith Bool Arith Lia Lra.
From Coquelicot Require Import Complex.
From Verif Require Import Base CNum NumPy ModelPulse ModelDopr ModelODE ODEOutputProofs ODEStepProofs ODETableauProofs ODEIntProofs LimitProofs.
From Verif Require ModelFiber FiberShareProofs.
Import ListNotations.
Local Open Scope R_scope.
Local Open Scope py_scope.
Local Notation z0 := (RtoC 0).

(** C41: the underflow limit in numbers: a step that returns used either the attempted step itself or a shortened one that is larger than |x| / 2^52, and the underflow error is raised only after the controller asked for a step of at most |x| / 2^52 (unless the right-hand side raises it). *)
Theorem C41_underflow_limit : forall (W : Type) (f : R -> list C -> M W (list C)) (fuel : nat) (htry : R) (g : G W),
  match step f fuel htry g with
  | (Ok _, g') => p_hdid (g_s g') = htry \/ Rabs (p_x (g_s g)) / 2 ^ 52 < Rabs (p_hdid (g_s g'))
  | (Raise e, _) => e = OverflowError -> (exists t, 0 < t <= 0.9 /\ Rabs (t * htry) <= Rabs (p_x (g_s g)) / 2 ^ 52) \/ exists x y w, fst (f x y w) = Raise e
  end.
Proof. exact C41_underflow_limit_l. Qed.
Print Assumptions C41_underflow_limit.

(** C42: the run-time error of integrate means what it says: if the right-hand side does not itself raise it, either exactly 50000 steps were taken or the next proposed step is at most hmin. *)
Theorem C42_runtime_error : forall (W : Type) (f : R -> list C -> M W (list C)) (fuel : nat) (w : W) (con : ctrl) (ystart : list C) (x1 x2 atol rtol h1 hmin : R) (nsaves : nat) (dense : bool) (dt : dtype) (g : G W),
  (forall x y w, fst (f x y w) <> Raise RuntimeError) ->
  integrate f fuel (new_ode w con ystart x1 x2 atol rtol h1 hmin (new_output (Some nsaves)) dense dt) = (Raise RuntimeError, g) ->
  (Z.of_nat (e_nok (g_ode g)) + Z.of_nat (e_nbad (g_ode g)) = 50000)%Z \/ Rabs (p_hnext (g_s g)) <= hmin.
Proof. exact C42_runtime_error_l. Qed.
Print Assumptions C42_runtime_error.

(** C57: a fiber that was only constructed knows nothing: in a fresh process, as long as the other fibers are configured through their own dictionaries (generate_fiber, load_from_db), its get_gain and get_betas raise KeyError. *)
Theorem C57_unconfigured_partial : forall (polyfit : list R -> list R -> nat -> result (list R)) (spline : list R -> list R -> list R -> result (list R)) (dbs : list (list (String.string * ModelFiber.specs))) (others : list ModelFiber.fop) (i : nat) (p : pulse) (z : R),
  (i < length dbs)%nat ->
  (forall o, In o others -> match o with ModelFiber.FNew _ => True
    | ModelFiber.FGenerate j _ _ _ _ _ _ _ | ModelFiber.FLoadDb j _ _ _ | ModelFiber.FSetGamma j _ | ModelFiber.FGain j _ | ModelFiber.FBetas j _ _ | ModelFiber.FGamma j _ | ModelFiber.FBeta2 j _ => j <> i
    | ModelFiber.FLoadFile _ _ _ _ _ _ _ _ | ModelFiber.FSetDisp _ _ _ => False end) ->
  let w := ModelFiber.frun polyfit spline (map ModelFiber.FNew dbs ++ others) ModelFiber.fworld0 in
  fst (ModelFiber.fstep polyfit spline w (ModelFiber.FGain i p)) = ModelFiber.FArr (Raise KeyError) /\
  fst (ModelFiber.fstep polyfit spline w (ModelFiber.FBetas i p z)) = ModelFiber.FOpt (Raise KeyError).
Proof. exact C57_unconfigured_partial_l. Qed.
Print Assumptions C57_unconfigured_partial.

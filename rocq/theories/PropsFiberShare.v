(** Property theorems proved in FiberShareProofs.v (generated by tools/gen_props.py). *)
From Coq Require Import String.
From Coq Require Import Reals List ZArith Bool Arith Factorial Lia Lra.
From Verif Require Import Base CNum NumPy ModelPulse ModelCrystal ModelBeam ModelFiber FiberProofs FiberShareProofs.
Import ListNotations.
Local Open Scope R_scope.
Local Open Scope py_scope.

(** C57: once a fiber has been configured by generate_fiber or by a successful load_from_db -- whatever was done before, and whatever is done to it or to others afterwards -- no later sequence of operations on other fibers (loading files, installing dispersion functions, generating, ...) and no creation of fibers changes what it reports: gain, betas, gamma and Beta2, for every pulse and position. *)
Theorem C57_own_dictionary_partial : forall (polyfit : list R -> list R -> nat -> result (list R)) (spline : list R -> list R -> list R -> result (list R)) (before : list fop) (conf : fop) (middle others : list fop) (i : nat) (r : fop),
  match conf with FGenerate j _ _ _ _ _ _ _ | FLoadDb j _ _ _ => j = i | _ => False end ->
  fst (fstep polyfit spline (frun polyfit spline before fworld0) conf) = FNone (Ok tt) ->
  (forall o, In o others -> match o with FNew _ => True | FGenerate j _ _ _ _ _ _ _ | FLoadDb j _ _ _ | FLoadFile j _ _ _ _ _ _ _ | FSetDisp j _ _ | FSetGamma j _ | FGain j _ | FBetas j _ _ | FGamma j _ | FBeta2 j _ => j <> i end) ->
  match r with FGain j _ | FBetas j _ _ | FGamma j _ | FBeta2 j _ => j = i | _ => False end ->
  let w := frun polyfit spline (before ++ conf :: middle) fworld0 in
  fst (fstep polyfit spline (frun polyfit spline others w) r) = fst (fstep polyfit spline w r).
Proof. exact C57_own_dictionary_partial_l. Qed.
Print Assumptions C57_own_dictionary_partial.

(** C57: for every history and every fiber, however configured: operations on other fibers other than load_from_file and set_dispersion_function do not change what it reports. *)
Theorem C57_other_operations_partial : forall (polyfit : list R -> list R -> nat -> result (list R)) (spline : list R -> list R -> list R -> result (list R)) (before others : list fop) (i : nat) (r : fop),
  let w := frun polyfit spline before fworld0 in (i < length (fw_fs w))%nat ->
  (forall o, In o others -> match o with FNew _ => True | FGenerate j _ _ _ _ _ _ _ | FLoadDb j _ _ _ | FSetGamma j _ | FGain j _ | FBetas j _ _ | FGamma j _ | FBeta2 j _ => j <> i | FLoadFile _ _ _ _ _ _ _ _ | FSetDisp _ _ _ => False end) ->
  match r with FGain j _ | FBetas j _ _ | FGamma j _ | FBeta2 j _ => j = i | _ => False end ->
  fst (fstep polyfit spline (frun polyfit spline others w) r) = fst (fstep polyfit spline w r).
Proof. exact C57_other_operations_partial_l. Qed.
Print Assumptions C57_other_operations_partial.

(** C57: two fibers read from files share the class's dictionary: the first, loaded with gain 1, reports gain 1 until the second is loaded with gain 0, and then gain 0. *)
Theorem C57_files_refuted : forall (polyfit : list R -> list R -> nat -> result (list R)) (spline : list R -> list R -> list R -> result (list R)) (x y x' y' : list R) (p : pulse) (g g' len len' : R) (o o' : nat), p_n p <> 0%nat ->
  let w := frun polyfit spline [FNew []; FNew []; FLoadFile 0 x y len "a" g 1 o] fworld0 in
  fst (fstep polyfit spline w (FGain 0 p)) = FArr (Ok (repeat 1 (p_n p))) /\
  fst (fstep polyfit spline (frun polyfit spline [FLoadFile 1 x' y' len' "b" g' 0 o'] w) (FGain 0 p)) = FArr (Ok (repeat 0 (p_n p))) /\ repeat 1 (p_n p) <> repeat 0 (p_n p).
Proof. exact C57_files_refuted_l. Qed.
Print Assumptions C57_files_refuted.

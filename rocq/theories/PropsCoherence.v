(** Property theorems proved in CoherenceProofs.v (generated by tools/gen_props.py). *)
From Coq Require Import String.
From Coq Require Import Reals List ZArith Bool Arith Lia Lra.
From Coquelicot Require Import Complex.
From Verif Require Import Base CNum NumPy ModelFFT FFTProofs ModelPulse Spec PulseProofs PulseHistory PulseOpsProofs PulseRegridProofs PulseMoreProofs ModelSSFM SSFMLoopProofs SSFMProofs SSFMSymProofs SSFMPropProofs SSFMTrivProofs SSFMRamanProofs SSFMGnlseProofs ModelRun CoherenceProofs.
From Verif Require ModelCrystal BeamProofs.
Import ListNotations.
Local Open Scope R_scope.
Local Open Scope py_scope.
Local Notation z0 := (RtoC 0).

(** C104: for every fiber, pulse, number of trials and documented noise type: a coherence run that returns has propagated each trial's noisy copy of the input through the same fiber, the solver's step size carried on from trial to trial; it returns one result per trial and one coherence column per saved step, each value lying in [0,1] and being | |sum of unit phasors|^2 - T | / (T(T-1)) of the trials' amplitudes in that bin, none of them zero; the input pulse is unchanged and the generator has moved on by exactly T draws. *)
Theorem C104_coherence_run : forall (strf : R -> string) (planck : R) (c : cfg) (fuel : nat) (fb : fiber) (T : nat) (seed : option nat) (kind : noise_kind) (N : nat) (op : option R) (reload : bool) (gen : stream) (s : ssfm)
  (p : pulse) (a : list C) (b : R -> list R) (g : list R) (Rw : list C) (F : R) (G : list (list R)) (rs : list run) (s' : ssfm) (gen' : stream) (q : pulse),
  coherence_setting planck c fb N kind s p a b g Rw F ->
  calculate_coherence strf planck c fuel fb T seed kind N op reload gen s p = (Ok (Some (G, rs, s', gen')), q) ->
  q = p /\ (2 <= T)%nat /\ (forall j, gen' j = gen (T + j)%nat) /\ length rs = T /\
  (exists st : nat -> ssfm, st 0%nat = s /\ st T = s' /\ forall j, (j < T)%nat -> exists qj qj' x,
     nth_error rs j = Some x /\ same_grid p qj /\ setting c fb N None (st j) qj (noisy planck kind (p_n p) (p_tw p) (p_f p) a (gen j)) b g Rw F /\
     run_once c fuel fb N None false (st j) qj = (Ok (Some (x, st (S j))), qj')) /\
  length G = N /\ forall i, (i < N)%nat -> length (nth i G []) = p_n p /\ forall k, (k < p_n p)%nat ->
    let E := fun j => nth k (nth i (r_AW (nth j rs (mkRun [] [] [] p))) []) z0 in let v := nth k (nth i G []) 0 in
    (forall j, (j < T)%nat -> E j <> z0) /\ 0 <= v <= 1 /\
    v = Rabs (Cmod (csum T (fun j => E j * RtoC (/ Cmod (E j)))%C) ^ 2 - INR T) / (INR T * (INR T - 1)).
Proof. exact C104_coherence_run_l. Qed.
Print Assumptions C104_coherence_run.

(** C104: every coherence run over at least two trials ends (given enough loop iterations of the solver): it returns a coherence, or some trial's amplitude in some bin is exactly 0 and the division is NaN; with fewer than two trials it ends in a NameError, after the propagations. *)
Theorem C104_coherence_ends : forall (strf : R -> string) (planck : R) (c : cfg) (fb : fiber) (T : nat) (seed : option nat) (kind : noise_kind) (N : nat) (op : option R) (reload : bool) (gen : stream) (s : ssfm)
  (p : pulse) (a : list C) (b : R -> list R) (g : list R) (Rw : list C) (F : R), coherence_setting planck c fb N kind s p a b g Rw F ->
  exists fuel0, forall fuel, (fuel0 <= fuel)%nat ->
    ((2 <= T)%nat -> (exists r, calculate_coherence strf planck c fuel fb T seed kind N op reload gen s p = (Ok (Some r), p)) \/
                     calculate_coherence strf planck c fuel fb T seed kind N op reload gen s p = (Raise NonFinite, p)) /\
    ((T < 2)%nat -> calculate_coherence strf planck c fuel fb T seed kind N op reload gen s p = (Raise NameError, p)).
Proof. exact C104_coherence_ends_l. Qed.
Print Assumptions C104_coherence_ends.

(** C104: a fiber without nonlinearity (RK4IP; even grid or internal shift off) adds to each trial only the phase of the distance it covered: the run over at least two trials whose noisy inputs have no zero bin returns, and the coherence in bin k after i+1 slices is that of the noisy inputs with the phases D_ji beta_k added, D_ji being the distance trial j covered in i+1 slices (at least (i+1) L/N). Where beta_k = 0 the coherence is exactly that of the inputs, whatever the gain. *)
Theorem C104_linear_fiber : forall (strf : R -> string) (planck : R) (c : cfg) (fb : fiber) (T : nat) (seed : option nat) (kind : noise_kind) (N : nat) (op : option R) (reload : bool) (gen : stream) (s : ssfm)
  (p : pulse) (a : list C) (b : R -> list R) (g : list R) (Rw : list C) (F : R), coherence_setting planck c fb N kind s p a b g Rw F -> (2 <= T)%nat ->
  c_method c = METHOD_RK4IP -> (2 <= c_eta c)%nat -> (c_pre c = false \/ Nat.even (p_n p) = true) -> (forall x, fb_get_gamma fb x = 0) ->
  let e := fun j k => nth k (noisy planck kind (p_n p) (p_tw p) (p_f p) a (gen j)) z0 in let u := fun j k => (e j k * RtoC (/ Cmod (e j k)))%C in
  (forall j k, (j < T)%nat -> (k < p_n p)%nat -> e j k <> z0) ->
  exists fuel0, forall fuel, (fuel0 <= fuel)%nat -> exists G rs s' gen', calculate_coherence strf planck c fuel fb T seed kind N op reload gen s p = (Ok (Some (G, rs, s', gen')), p) /\
    exists D : nat -> nat -> R, (forall j i, (j < T)%nat -> (i < N)%nat -> INR (S i) * (fb_len fb / INR N) <= D j i) /\ forall i k, (i < N)%nat -> (k < p_n p)%nat ->
      nth k (nth i G []) 0 = Rabs (Cmod (csum T (fun j => u j k * cis (D j i * nth k (b 0) 0))%C) ^ 2 - INR T) / (INR T * (INR T - 1)) /\
      (nth k (b 0) 0 = 0 -> nth k (nth i G []) 0 = Rabs (Cmod (csum T (fun j => u j k)) ^ 2 - INR T) / (INR T * (INR T - 1))).
Proof. exact C104_linear_fiber_l. Qed.
Print Assumptions C104_linear_fiber.

(** C104 (refuted): random_seed does not make a coherence run repeatable. Two runs on the same pulse, fiber and solver with the same seed, from different states of numpy's generator, return different coherences (1 and less than 1). *)
Theorem C104_seed_refuted : forall (strf : R -> string) (planck : R) (seed : option nat), 0 < planck ->
  exists (c : cfg) (fuel : nat) (fb : fiber) (T : nat) (kind : noise_kind) (N : nat) (s : ssfm) (p : pulse) (gen1 gen2 : stream) (G1 G2 : list (list R)) (rs1 rs2 : list run) (s1 s2 : ssfm) (g1 g2 : stream),
  calculate_coherence strf planck c fuel fb T seed kind N None false gen1 s p = (Ok (Some (G1, rs1, s1, g1)), p) /\
  calculate_coherence strf planck c fuel fb T seed kind N None false gen2 s p = (Ok (Some (G2, rs2, s2, g2)), p) /\
  nth 0 (nth 0 G1 []) 0 = 1 /\ nth 0 (nth 0 G2 []) 0 < 1.
Proof. exact C104_seed_refuted_l. Qed.
Print Assumptions C104_seed_refuted.

(** C105 (refuted): propagate_to_gain_goal never returns a scale factor. In every setting in which its first propagation finishes it ends in an AttributeError (it reads pulse_out.frep, which no pulse has), whatever the goal, the guess, the tolerance and the number of steps; the input pulse keeps its field and grid. *)
Theorem C105_gain_goal_refuted : forall (c : cfg) (fb : fiber) (N : nat) (goal : R) (guess : option R) (tol : R) (s : ssfm) (p : pulse) (a : list C) (b : R -> list R) (g : list R) (Rw : list C) (F : R),
  setting c fb 1 (Some (match guess with Some x => x | None => 1 end * goal)) s p a b g Rw F ->
  (exists fuel0, forall fuel, (fuel0 <= fuel)%nat -> exists q, propagate_to_gain_goal c fuel fb N goal guess tol s p = (Raise AttributeError, q) /\ like p q) /\
  (forall fuel r q, propagate_to_gain_goal c fuel fb N goal guess tol s p = (Ok (Some r), q) -> False).
Proof. exact C105_gain_goal_refuted_l. Qed.
Print Assumptions C105_gain_goal_refuted.

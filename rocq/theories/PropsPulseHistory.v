(** Property theorems proved in PulseHistory.v (generated by tools/gen_props.py). *)
From Coq Require Import String.
From Coq Require Import Reals List ZArith Bool Arith Lia Lra.
From Coquelicot Require Import Complex.
From Verif Require Import Base CNum NumPy ModelFFT FFTProofs ModelPulse Spec ModelPulseOps PulseProofs PulseHistory.
Import ListNotations.
Local Open Scope R_scope.

(** C07 (partial): after any history from a new pulse in which no earlier read of a cached grid happened in a state with the same cache key but another grid, all cached grids are fresh. Missing for the full property: the key omits the time window and is a plain concatenation, see the refutations. *)
Theorem C07_caches_fresh_partial : forall (strf : R -> string) (l : list pop) (frep : option R) (n : option nat),
  let p0 := new_pulse frep n in
  let p := run_ops strf l p0 in
  p_ready p = true ->
  (forall l1 o l2, l = l1 ++ o :: l2 -> is_setter o = false ->
     hash_of strf (run_ops strf l1 p0) = hash_of strf p ->
     grid (run_ops strf l1 p0) = grid p) ->
  let W := spec_W (p_n p) (p_tw p) (p_f p) in
  fst (get_wl_nm strf p) = Ok (Some (map (fun w => 2 * PI * c_nmps / w) W)) /\
  fst (get_W_mks strf p) = Ok (Some (map (fun w => w * 1000000000000) W)) /\
  fst (get_F_mks strf p) = Ok (map (fun w => w * 1000000000000 / (2 * PI)) W) /\
  fst (get_wl_mks strf p) = Ok (map (fun w => 2 * PI * c_mks / (w * 1000000000000)) W) /\
  ((2 <= p_n p)%nat -> p_tw p <> 0 -> fst (get_dF_mks strf p) = Ok (1000000000000 / Rabs (p_tw p))).
Proof. exact C07_caches_fresh_partial_l. Qed.
Print Assumptions C07_caches_fresh_partial.

(** C07 refuted: whatever str() does, read the wavelength grid, change the time window, read again: the second read returns the old grid, which is wrong. *)
Theorem C07_stale_after_time_window_refuted : forall strf : R -> string,
  exists l : list pop,
    let p := run_ops strf l (new_pulse None None) in
    p_ready p = true /\
    (exists v, fst (get_wl_nm strf p) = Ok (Some v) /\
               v <> map (fun w => 2 * PI * c_nmps / w) (spec_W (p_n p) (p_tw p) (p_f p))) /\
    (exists v, fst (get_W_mks strf p) = Ok (Some v) /\
               v <> map (fun w => w * 1000000000000) (spec_W (p_n p) (p_tw p) (p_f p))).
Proof. exact C07_stale_after_time_window_refuted_l. Qed.
Print Assumptions C07_stale_after_time_window_refuted.

(** C07 refuted, second way: two different (centre, NPTS) pairs share a cache key because the two strings are concatenated without separator; e.g. 1.5 THz with 12 points and 1.51 THz with 2 points. *)
Theorem C07_key_collision_refuted : forall strf : R -> string,
  strf (3 / 2) = "1.5"%string -> strf (151 / 100) = "1.51"%string ->
  exists l : list pop,
    let p := run_ops strf l (new_pulse None None) in
    p_ready p = true /\ p_n p = 2%nat /\
    exists v, fst (get_wl_nm strf p) = Ok (Some v) /\ length v = 12%nat.
Proof. exact C07_key_collision_refuted_l. Qed.
Print Assumptions C07_key_collision_refuted.

(** C07 refuted, third way: a wavelength read that fails because the pulse is not ready poisons the cache; once the pulse is ready the read returns Python's None instead of a grid. *)
Theorem C07_failed_read_poisons_refuted : forall strf : R -> string,
  exists l : list pop,
    let p := run_ops strf l (new_pulse None None) in
    p_ready p = true /\ fst (get_wl_nm strf p) = Ok None.
Proof. exact C07_failed_read_poisons_refuted_l. Qed.
Print Assumptions C07_failed_read_poisons_refuted.

(** C08 (partial): a call that raises leaves NPTS, window, centre, repetition rate and field as they were. Missing: expand_time_window with an unknown placement, clone/load, and the direct field write of a wrong length on a pulse that holds no field yet (see the refutations). *)
Theorem C08_failed_call_unchanged_partial : forall (strf : R -> string) (o : pop) (p p' : pulse) (e : exn),
  run_op strf o p = (Raise e, p') ->
  match o with
  | OExpand _ _ => p_AW p = None
  | OClone _ | OLoad _ => False
  | OSetAW _ | OSetAT _ => p_AW p <> None \/ p_ready p = false
  | _ => True
  end ->
  obs_of p' = obs_of p.
Proof. exact C08_failed_call_unchanged_partial_l. Qed.
Print Assumptions C08_failed_call_unchanged_partial.

(** C08 refuted: expand_time_window with an unknown placement raises ValueError after it has already changed NPTS and the window and thrown the field away, for every pulse that holds a field. *)
Theorem C08_expand_bad_location_refuted : forall (p : pulse) (a : list C) (k : nat),
  holds p a ->
  exists p', expand_time_window k BadLoc p = (Raise ValueError, p') /\
    p_AW p' = None /\ p_n p' = (p_n p * 2 ^ k)%nat /\ p_tw p' = p_tw p * 2 ^ k /\
    fst (get_AT p') = Raise RuntimeError.
Proof. exact C08_expand_bad_location_refuted_l. Qed.
Print Assumptions C08_expand_bad_location_refuted.

(** C08 refuted: a rejected first field write turns "no field" into an all-zero field. *)
Theorem C08_rejected_first_write_refuted : forall (p : pulse) (v : list C),
  p_ready p = true -> p_AW p = None -> length v <> p_n p -> length v <> 1%nat ->
  fst (get_AW p) = Raise RuntimeError /\
  exists p', set_AW v p = (Raise ValueError, p') /\ fst (get_AW p') = Ok (repeat (RtoC 0) (p_n p)).
Proof. exact C08_rejected_first_write_refuted_l. Qed.
Print Assumptions C08_rejected_first_write_refuted.

(** C08 refuted: cloning from a pulse that holds no field raises after NPTS, window, centre and rate were overwritten. *)
Theorem C08_clone_empty_source_refuted : forall (p q : pulse), p_AW q = None ->
  exists p', clone_pulse q p = (Raise RuntimeError, p') /\
    p_n p' = p_n q /\ p_tw p' = p_tw q /\ p_frep p' = p_frep q /\ p_AW p' = p_AW p.
Proof. exact C08_clone_empty_source_refuted_l. Qed.
Print Assumptions C08_clone_empty_source_refuted.

(** C09 (partial): over every history of calls (successful or not) from a new pulse in which the grid size is only changed while no field is stored, the stored field, AT, the frequency grid and the time grid all have NPTS entries. Missing: set_NPTS, clone or load while a field of another size is stored, see the refutations. *)
Theorem C09_field_length_partial : forall (strf : R -> string) (l : list pop) (frep : option R) (n : option nat),
  let p0 := new_pulse frep n in
  let p := run_ops strf l p0 in
  (forall l1 o l2 m, l = l1 ++ o :: l2 -> resizes o = Some m ->
     p_AW (run_ops strf l1 p0) = None \/ m = p_n (run_ops strf l1 p0)) ->
  forall a t w ts, fst (get_AW p) = Ok a -> fst (get_AT p) = Ok t -> fst (get_W p) = Ok w -> fst (get_T p) = Ok ts ->
  length a = p_n p /\ length t = p_n p /\ length w = p_n p /\ length ts = p_n p.
Proof. exact C09_field_length_partial_l. Qed.
Print Assumptions C09_field_length_partial.

(** C09 refuted: set_NPTS on a pulse that holds a field succeeds and leaves a field of the old length behind. *)
Theorem C09_set_NPTS_refuted : forall (p : pulse) (a : list C) (m : nat), holds p a -> m <> p_n p ->
  exists p' w, set_NPTS m p = (Ok tt, p') /\ get_AW p' = (Ok a, p') /\ get_W p' = (Ok w, p') /\
    length a <> length w /\
    (m <> 1%nat -> length a <> 1%nat -> forall off, fst (add_time_offset off p') = Raise ValueError).
Proof. exact C09_set_NPTS_refuted_l. Qed.
Print Assumptions C09_set_NPTS_refuted.

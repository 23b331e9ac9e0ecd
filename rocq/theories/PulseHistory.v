(** History properties of Pulse: caches (C07), failed calls (C08), array lengths (C09). *)
From Coq Require Import String.
From Coq Require Import Reals List ZArith Bool Arith Lia Lra.
From Coquelicot Require Import Complex.
From Verif Require Import Base CNum NumPy ModelFFT FFTProofs ModelPulse Spec ModelPulseOps PulseProofs.
Import ListNotations.
Local Open Scope R_scope.

(** Relations between the state before and after a method, whatever it returns. *)
Definition pres {A} (Rel : pulse -> pulse -> Prop) (m : M pulse A) : Prop :=
  forall s, Rel s (snd (m s)).

Section Pres.
Variable Rel : pulse -> pulse -> Prop.
Hypothesis Rrefl : forall s, Rel s s.
Hypothesis Rtrans : forall a b c, Rel a b -> Rel b c -> Rel a c.

Lemma pres_ret {A} (a : A) : pres Rel (ret a).
Proof. intros s. apply Rrefl. Qed.
Lemma pres_raise {A} e : @pres A Rel (raise e).
Proof. intros s. apply Rrefl. Qed.
Lemma pres_lift {A} (r : result A) : pres Rel (lift r).
Proof. intros s. apply Rrefl. Qed.
Lemma pres_get : pres Rel get.
Proof. intros s. apply Rrefl. Qed.
Lemma pres_gets {A} (f : pulse -> A) : pres Rel (gets f).
Proof. intros s. apply Rrefl. Qed.
Lemma pres_bind {A B} (m : M pulse A) (f : A -> M pulse B) :
  pres Rel m -> (forall a, pres Rel (f a)) -> pres Rel (bind m f).
Proof.
  intros Hm Hf s. unfold bind. specialize (Hm s). destruct (m s) as [[a|e] s']; cbn in *.
  - eapply Rtrans; [exact Hm|apply Hf].
  - exact Hm.
Qed.
Lemma pres_modify f : (forall s, Rel s (f s)) -> pres Rel (modify f).
Proof. intros H s. apply H. Qed.
Lemma pres_with_new {A} i (m : M pulse A) : pres Rel (with_new i m).
Proof. intros s. unfold with_new. destruct (m i) as [[?|?] ?]; apply Rrefl. Qed.
Lemma pres_as_array o : pres Rel (as_array o).
Proof. destruct o; [apply pres_ret|apply pres_raise]. Qed.
End Pres.

Ltac psolve rr rt := repeat first
  [ apply pres_bind; [exact rt| |intros ?]
  | apply pres_ret; exact rr | apply pres_raise; exact rr | apply pres_lift; exact rr
  | apply pres_get; exact rr | apply pres_gets; exact rr | apply pres_with_new; exact rr
  | apply pres_as_array; exact rr | assumption
  | match goal with |- pres _ (if ?b then _ else _) => destruct b end
  | match goal with |- pres _ (match ?b with _ => _ end) => destruct b end ].

(** ** Observable state: everything except the caches. *)
Definition obs (p : pulse) := (p_n p, p_f p, p_tw p, p_AW p, p_frep p, p_ready p).
Definition same_obs (s s' : pulse) : Prop := obs s' = obs s.
Definition grid (p : pulse) := (p_n p, p_f p, p_tw p, p_ready p).

(** ** C07: caches *)
Section Cache.
Variable strf : R -> string.

Definition wl_now (p : pulse) : list R := map (fun x => 2 * PI * c_nmps / x) (W_of p).
Definition Wmks_now (p : pulse) : list R := map (fun x => x * 1000000000000) (W_of p).

(** caches after a call that read them in state [s] (or did not read them) *)
Definition wl_from (s s' : pulse) : Prop :=
  (p_wlh s' = p_wlh s /\ p_wlv s' = p_wlv s) \/
  (p_wlh s' = Some (hash_of strf s) /\ (p_ready s = true -> p_wlv s' = Some (wl_now s) \/
       (p_wlh s = p_wlh s' /\ p_wlv s' = p_wlv s))).
Definition W_from (s s' : pulse) : Prop :=
  (p_Wh s' = p_Wh s /\ p_Wv s' = p_Wv s) \/
  (p_Wh s' = Some (hash_of strf s) /\ (p_ready s = true -> p_Wv s' = Some (Wmks_now s) \/
       (p_Wh s = p_Wh s' /\ p_Wv s' = p_Wv s))).
Definition reads (s s' : pulse) : Prop := grid s' = grid s /\ wl_from s s' /\ W_from s s'.
Definition untouched (s s' : pulse) : Prop :=
  p_wlh s' = p_wlh s /\ p_wlv s' = p_wlv s /\ p_Wh s' = p_Wh s /\ p_Wv s' = p_Wv s.

Lemma grid_eq s s' : grid s' = grid s ->
  p_n s' = p_n s /\ p_f s' = p_f s /\ p_tw s' = p_tw s /\ p_ready s' = p_ready s.
Proof. unfold grid. intros H. injection H; auto. Qed.
Lemma grid_hash s s' : grid s' = grid s -> hash_of strf s' = hash_of strf s.
Proof. intros H. apply grid_eq in H. destruct H as (A & B & _). unfold hash_of. now rewrite A, B. Qed.
Lemma grid_W s s' : grid s' = grid s -> W_of s' = W_of s.
Proof.
  intros H. apply grid_eq in H. destruct H as (A & B & D & _).
  unfold W_of, V_of, w0_of. now rewrite A, B, D.
Qed.

Lemma reads_refl s : reads s s.
Proof. split; [reflexivity|]. split; left; auto. Qed.
Lemma reads_trans a b c : reads a b -> reads b c -> reads a c.
Proof.
  intros (G1 & W1 & V1) (G2 & W2 & V2). split; [congruence|].
  pose proof (grid_hash _ _ G1) as H1. pose proof (grid_W _ _ G1) as H2.
  assert (Hr : p_ready b = p_ready a) by (apply grid_eq in G1; tauto).
  split.
  - destruct W2 as [[E1 E2]|[E1 E2]].
    + unfold wl_from in *. rewrite E1, E2. exact W1.
    + right. rewrite E1, H1. split; [reflexivity|]. intros R. rewrite Hr in E2.
      destruct (E2 R) as [E|[E E3]]; [left; rewrite E; unfold wl_now; now rewrite H2|].
      destruct W1 as [[F1 F2]|[F1 F2]].
      * right. split; [congruence|congruence].
      * destruct (F2 R) as [F|[F F3]]; [left; congruence|right; split; congruence].
  - destruct V2 as [[E1 E2]|[E1 E2]].
    + unfold W_from in *. rewrite E1, E2. exact V1.
    + right. rewrite E1, H1. split; [reflexivity|]. intros R. rewrite Hr in E2.
      destruct (E2 R) as [E|[E E3]]; [left; rewrite E; unfold Wmks_now; now rewrite H2|].
      destruct V1 as [[F1 F2]|[F1 F2]].
      * right. split; [congruence|congruence].
      * destruct (F2 R) as [F|[F F3]]; [left; congruence|right; split; congruence].
Qed.

Lemma need_ready_pres (Rel : pulse -> pulse -> Prop) : (forall s, Rel s s) -> pres Rel need_ready.
Proof. intros H s. unfold need_ready. mred. destruct (p_ready s); apply H. Qed.

Lemma reads_get_wl : pres reads (get_wl_nm strf).
Proof.
  intros s. unfold get_wl_nm. mred. unfold hash_eqb.
  destruct (match p_wlh s with Some x => String.eqb x (hash_of strf s) | None => false end) eqn:E.
  - apply reads_refl.
  - pred. destruct (p_ready s) eqn:Hr; pred.
    + split; [reflexivity|]. split; [|left; auto]. right. split; [reflexivity|]. intros _. left. reflexivity.
    + split; [reflexivity|]. split; [|left; auto]. right. split; [reflexivity|]. congruence.
Qed.
Lemma reads_get_W : pres reads (get_W_mks strf).
Proof.
  intros s. unfold get_W_mks. mred. unfold hash_eqb.
  destruct (match p_Wh s with Some x => String.eqb x (hash_of strf s) | None => false end) eqn:E.
  - apply reads_refl.
  - pred. destruct (p_ready s) eqn:Hr; pred.
    + split; [reflexivity|]. split; [left; auto|]. right. split; [reflexivity|]. intros _. left. reflexivity.
    + split; [reflexivity|]. split; [left; auto|]. right. split; [reflexivity|]. congruence.
Qed.
Lemma reads_with_AW x s : reads s (with_AW x s).
Proof. split; [reflexivity|]. split; left; auto. Qed.
Lemma reads_set_AW v : pres reads (set_AW v).
Proof.
  intros s. unfold set_AW. mred. destruct (p_ready s) eqn:Hr; [|apply reads_refl].
  destruct (assign_all _ v); pred; split; try reflexivity; split; left; auto.
Qed.
Lemma reads_get_AW : pres reads get_AW.
Proof. intros s. mred. destruct (p_AW s); apply reads_refl. Qed.
Lemma reads_get_AT : pres reads get_AT.
Proof. intros s. mred. destruct (p_AW s); apply reads_refl. Qed.
Lemma reads_need_ready : pres reads need_ready.
Proof. apply need_ready_pres. apply reads_refl. Qed.

Ltac rd := first [apply reads_get_wl|apply reads_get_W|apply reads_set_AW|apply reads_get_AW|apply reads_get_AT|apply reads_need_ready].
Ltac rsolve := repeat first
  [ solve [rd] | apply pres_bind; [exact reads_trans| |intros ?]
  | apply pres_ret; exact reads_refl | apply pres_raise; exact reads_refl | apply pres_lift; exact reads_refl
  | apply pres_get; exact reads_refl | apply pres_gets; exact reads_refl | apply pres_with_new; exact reads_refl
  | apply pres_as_array; exact reads_refl
  | solve [rd]
  | match goal with |- pres _ (if ?b then _ else _) => destruct b end
  | match goal with |- pres _ (match ?b with _ => _ end) => destruct b end ].

Definition is_setter (o : pop) : bool :=
  match o with
  | OSetCenterNm _ | OSetCenterM _ | OSetNPTS _ | OSetTwPs _ | OSetTwS _ | OSetFwTHz _ | OSetFwMks _
  | OExpand _ _ | OClone _ | OLoad _ => true
  | _ => false
  end.

Lemma reads_op o : is_setter o = false -> pres reads (run_op strf o).
Proof.
  destruct o; cbn [is_setter run_op]; try discriminate; intros _.
  - (* frep *) intros s. split; [reflexivity|]. split; left; auto.
  - rd.
  - unfold set_AT. rd.
  - unfold set_epp, calc_epp, get_dT_mks, get_dT, set_AT. rsolve.
  - unfold add_noise, get_dF_mks, get_F_mks. rsolve.
  - unfold chirp_pulse_W, get_V, get_W. rsolve.
  - unfold apply_phase_W. rsolve.
  - unfold chirp_pulse_T, get_T, set_AT. rsolve.
  - unfold remove_fit, get_W. rsolve.
  - unfold add_time_offset, get_W. rsolve.
  - unfold rotate_spectrum_to_new_center_wl, get_center_frequency_THz, get_dF_THz, get_W. rsolve.
  - unfold filter_by_wavelength_nm. rsolve.
  - unfold drop. rsolve.
  - unfold drop. rsolve.
  - unfold drop, get_F_mks. rsolve.
  - unfold drop, get_dF_mks. rsolve.
  - unfold drop, get_wl_mks. rsolve.
  - unfold drop, create_subset_pulse, get_NPTS. rsolve.
  - unfold drop, interpolate_to_new_center_wl, create_cloned_pulse. rsolve.
  - unfold drop, calculate_weighted_avg_frequency_mks. rsolve.
  - unfold drop, calc_epp, get_dT_mks, get_dT. rsolve.
  - unfold drop, create_cloned_pulse. rsolve.
  - unfold drop, calculate_intensity_autocorrelation. rsolve.
Qed.

Lemma untouched_refl s : untouched s s.
Proof. repeat split. Qed.
Lemma untouched_trans a b c : untouched a b -> untouched b c -> untouched a c.
Proof. unfold untouched. intuition congruence. Qed.
Lemma untouched_set_AW v : pres untouched (set_AW v).
Proof.
  intros s. unfold set_AW. mred. destruct (p_ready s) eqn:Hr; [|apply untouched_refl].
  destruct (assign_all _ v); pred; repeat split.
Qed.
Lemma untouched_get_AT : pres untouched get_AT.
Proof. intros s. mred. destruct (p_AW s); apply untouched_refl. Qed.
Lemma untouched_setf x : pres untouched (set_centerfrequency x).
Proof. intros s. repeat split. Qed.
Lemma untouched_sett x : pres untouched (set_time_window x).
Proof. intros s. repeat split. Qed.
Lemma untouched_setn x : pres untouched (set_NPTS x).
Proof. intros s. repeat split. Qed.
Lemma untouched_frep x : pres untouched (set_frep_MHz x).
Proof. intros s. repeat split. Qed.
Lemma untouched_wAW x : pres untouched (modify (with_AW x)).
Proof. intros s. repeat split. Qed.
Ltac ud := first [apply untouched_set_AW|apply untouched_get_AT|apply untouched_setf|apply untouched_sett|apply untouched_setn|apply untouched_frep|apply untouched_wAW].
Ltac usolve := repeat first
  [ solve [ud] | apply pres_bind; [exact untouched_trans| |intros ?]
  | apply pres_ret; exact untouched_refl | apply pres_raise; exact untouched_refl | apply pres_lift; exact untouched_refl
  | apply pres_get; exact untouched_refl | apply pres_gets; exact untouched_refl
  | solve [ud]
  | match goal with |- pres _ (if ?b then _ else _) => destruct b end
  | match goal with |- pres _ (match ?b with _ => _ end) => destruct b end ].
Lemma untouched_op o : is_setter o = true -> pres untouched (run_op strf o).
Proof.
  destruct o; cbn [is_setter run_op]; try discriminate; intros _;
    unfold set_center_wavelength_nm, set_center_wavelength_m, set_time_window_ps, set_time_window_s,
      set_frequency_window_THz, set_frequency_window_mks, expand_time_window, get_NPTS, get_time_window_ps,
      set_AT, clone_pulse, load_pulse_dict, set_time_window_ps, set_center_wavelength_nm; usolve.
  all: try (unfold set_AT; ud).
Qed.

Lemma run_ops_app l1 l2 p : run_ops strf (l1 ++ l2) p = run_ops strf l2 (run_ops strf l1 p).
Proof. unfold run_ops. apply fold_left_app. Qed.

Definition no_cache (p : pulse) : Prop := p_wlh p = None /\ p_Wh p = None.

(** A history in which [l] was executed reads caches consistently if no earlier cache read happened in a
    state with the same hash but another grid. *)
Definition consistent (p0 : pulse) (l : list pop) : Prop :=
  forall l1 o l2, l = l1 ++ o :: l2 -> is_setter o = false ->
    hash_of strf (run_ops strf l1 p0) = hash_of strf (run_ops strf l p0) ->
    grid (run_ops strf l1 p0) = grid (run_ops strf l p0).


(** Generalised origin: some earlier cache read in a state with the cached hash produced the cached
    value, unless that state was not ready. *)
Definition wl_src (p0 : pulse) (l : list pop) (p : pulse) : Prop :=
  match p_wlh p with
  | None => True
  | Some h => exists l1 o l2, l = l1 ++ o :: l2 /\ is_setter o = false /\
      h = hash_of strf (run_ops strf l1 p0) /\
      (p_ready (run_ops strf l1 p0) = true -> p_wlv p = Some (wl_now (run_ops strf l1 p0)))
  end.
Definition W_src (p0 : pulse) (l : list pop) (p : pulse) : Prop :=
  match p_Wh p with
  | None => True
  | Some h => exists l1 o l2, l = l1 ++ o :: l2 /\ is_setter o = false /\
      h = hash_of strf (run_ops strf l1 p0) /\
      (p_ready (run_ops strf l1 p0) = true -> p_Wv p = Some (Wmks_now (run_ops strf l1 p0)))
  end.

Lemma src_inv p0 l : no_cache p0 ->
  wl_src p0 l (run_ops strf l p0) /\ W_src p0 l (run_ops strf l p0).
Proof.
  intros [N1 N2]. induction l as [|o l IH] using rev_ind.
  - cbn. unfold wl_src, W_src. now rewrite N1, N2.
  - rewrite run_ops_app. cbn [run_ops fold_left]. set (s := run_ops strf l p0) in *.
    destruct IH as [I1 I2].
    assert (K1 : forall q, p_wlh q = p_wlh s -> p_wlv q = p_wlv s -> wl_src p0 (l ++ [o]) q).
    { intros q E1 E2. unfold wl_src in *. rewrite E1, E2. destruct (p_wlh s); auto.
      destruct I1 as (l1 & o1 & l2 & -> & R). exists l1, o1, (l2 ++ [o]).
      split; [rewrite <- app_assoc; reflexivity|exact R]. }
    assert (K2 : forall q, p_Wh q = p_Wh s -> p_Wv q = p_Wv s -> W_src p0 (l ++ [o]) q).
    { intros q E1 E2. unfold W_src in *. rewrite E1, E2. destruct (p_Wh s); auto.
      destruct I2 as (l1 & o1 & l2 & -> & R). exists l1, o1, (l2 ++ [o]).
      split; [rewrite <- app_assoc; reflexivity|exact R]. }
    destruct (is_setter o) eqn:Ho.
    + destruct (untouched_op o Ho s) as (A & B & D & E). split; [apply K1; auto|apply K2; auto].
    + destruct (reads_op o Ho s) as (_ & A & B). set (q := snd (run_op strf o s)) in *. split.
      * destruct A as [[E1 E2]|[E1 E2]]; [apply K1; auto|].
        destruct (p_ready s) eqn:Hr.
        -- destruct (E2 eq_refl) as [E3|[E3 E4]]; [|apply K1; auto].
           unfold wl_src. rewrite E1. exists l, o, []. repeat split; auto.
        -- unfold wl_src. rewrite E1. exists l, o, []. repeat split; auto.
           fold s. congruence.
      * destruct B as [[E1 E2]|[E1 E2]]; [apply K2; auto|].
        destruct (p_ready s) eqn:Hr.
        -- destruct (E2 eq_refl) as [E3|[E3 E4]]; [|apply K2; auto].
           unfold W_src. rewrite E1. exists l, o, []. repeat split; auto.
        -- unfold W_src. rewrite E1. exists l, o, []. repeat split; auto.
           fold s. congruence.
Qed.

Lemma get_wl_fresh p : p_ready p = true ->
  (forall h, p_wlh p = Some h -> h = hash_of strf p -> p_wlv p = Some (wl_now p)) ->
  fst (get_wl_nm strf p) = Ok (Some (wl_now p)).
Proof.
  intros Hr H. unfold get_wl_nm. mred. unfold hash_eqb.
  destruct (p_wlh p) as [h|] eqn:Eh.
  - destruct (String.eqb_spec h (hash_of strf p)) as [E|E].
    + cbn. now rewrite (H h).
    + pred. now rewrite Hr.
  - pred. now rewrite Hr.
Qed.
Lemma get_W_fresh p : p_ready p = true ->
  (forall h, p_Wh p = Some h -> h = hash_of strf p -> p_Wv p = Some (Wmks_now p)) ->
  fst (get_W_mks strf p) = Ok (Some (Wmks_now p)).
Proof.
  intros Hr H. unfold get_W_mks. mred. unfold hash_eqb.
  destruct (p_Wh p) as [h|] eqn:Eh.
  - destruct (String.eqb_spec h (hash_of strf p)) as [E|E].
    + cbn. now rewrite (H h).
    + pred. now rewrite Hr.
  - pred. now rewrite Hr.
Qed.
End Cache.

Lemma fresh_history strf l p0 : no_cache p0 ->
  p_ready (run_ops strf l p0) = true -> consistent strf p0 l ->
  fst (get_wl_nm strf (run_ops strf l p0)) = Ok (Some (wl_now (run_ops strf l p0))) /\
  fst (get_W_mks strf (run_ops strf l p0)) = Ok (Some (Wmks_now (run_ops strf l p0))).
Proof.
  intros N Hr Hc. destruct (src_inv strf p0 l N) as [I1 I2].
  set (p := run_ops strf l p0) in *. split.
  - apply get_wl_fresh; [exact Hr|]. intros h E1 E2. unfold wl_src in I1. rewrite E1 in I1.
    destruct I1 as (l1 & o & l2 & El & Ho & Eh & Hv).
    assert (G : grid (run_ops strf l1 p0) = grid p).
    { apply (Hc l1 o l2 El Ho). fold p. congruence. }
    pose proof (grid_W _ _ G) as EW. apply grid_eq in G. destruct G as (_ & _ & _ & Gr).
    rewrite Hv by congruence. unfold wl_now. now rewrite EW.
  - apply get_W_fresh; [exact Hr|]. intros h E1 E2. unfold W_src in I2. rewrite E1 in I2.
    destruct I2 as (l1 & o & l2 & El & Ho & Eh & Hv).
    assert (G : grid (run_ops strf l1 p0) = grid p).
    { apply (Hc l1 o l2 El Ho). fold p. congruence. }
    pose proof (grid_W _ _ G) as EW. apply grid_eq in G. destruct G as (_ & _ & _ & Gr).
    rewrite Hv by congruence. unfold Wmks_now. now rewrite EW.
Qed.

Lemma bind_ok {S A B} (m : M S A) (f : A -> M S B) s a : fst (m s) = Ok a ->
  bind m f s = f a (snd (m s)).
Proof. unfold bind. destruct (m s) as [r s']. cbn. now intros ->. Qed.

Lemma W_of_spec p : W_of p = spec_W (p_n p) (p_tw p) (p_f p).
Proof.
  apply (list_ext 0).
  - unfold spec_W. now rewrite W_of_length, mk_length.
  - rewrite W_of_length. intros k Hk. rewrite W_of_val by exact Hk. unfold spec_W. rewrite mk_nth by exact Hk.
    unfold Rdiv. ring.
Qed.

(*! C07 (partial): after any history from a new pulse in which no earlier read of a cached grid happened in a
    state with the same cache key but another grid, all cached grids are fresh.  Missing for the full
    property: the key omits the time window and is a plain concatenation, see the refutations. *)
Lemma C07_caches_fresh_partial_l : forall (strf : R -> string) (l : list pop) (frep : option R) (n : option nat),
  let p0 := new_pulse frep n in
  let p := run_ops strf l p0 in
  p_ready p = true ->
  (forall l1 o l2, l = l1 ++ o :: l2 -> is_setter o = false ->
     hash_of strf (run_ops strf l1 p0) = hash_of strf p ->
     grid (run_ops strf l1 p0) = grid p) ->
  let W := spec_W (p_n p) (p_tw p) (p_f p) in
  fst (get_wl_nm strf p) = Ok (Some (map (fun w => 2 * PI * c_nmps / w) W)) /\
  fst (get_W_mks strf p) = Ok (Some (map (fun w => w * 1000000000000) W)) /\
  fst (get_F_mks strf p) = Ok (map (fun w => w * 1000000000000 / (2 * PI)) W) /\
  fst (get_wl_mks strf p) = Ok (map (fun w => 2 * PI * c_mks / (w * 1000000000000)) W) /\
  ((2 <= p_n p)%nat -> p_tw p <> 0 -> fst (get_dF_mks strf p) = Ok (1000000000000 / Rabs (p_tw p))).
Proof.
  intros strf l frep n p0 p Hr Hc W.
  assert (EW : W = W_of p) by (symmetry; apply W_of_spec). clearbody W. subst W. set (W := W_of p).
  assert (N : no_cache p0) by (unfold p0, new_pulse, pulse_init; destruct frep, n; split; reflexivity).
  destruct (fresh_history strf l p0 N Hr Hc) as [F1 F2]. fold p in F1, F2.
  split; [exact F1|]. split; [exact F2|].
  unfold get_F_mks, get_wl_mks, get_dF_mks.
  rewrite !(bind_ok _ _ _ _ F2). unfold as_array. mred. unfold Wmks_now. rewrite !map_map.
  split; [reflexivity|]. split; [reflexivity|].
  intros Hn Ht. fold W.
  assert (E : first_spacing (map (fun x => x * 1000000000000) W) =
     Ok (Rabs (nth 1 W 0 * 1000000000000 - nth 0 W 0 * 1000000000000) / (2 * PI))).
  { assert (HL : (2 <= length W)%nat) by (unfold W; rewrite W_of_length; lia).
    destruct W as [|a [|b w]]; simpl in HL; try lia. reflexivity. }
  rewrite E. f_equal. unfold W. rewrite !W_of_val by lia. pose proof PI_RGT_0.
  replace (_ - _) with (2 * PI * 1000000000000 * / p_tw p) by (simpl; field; auto).
  rewrite Rabs_mult, Rabs_inv. rewrite (Rabs_pos_eq (2 * PI * 1000000000000)) by lra.
  field. split; [|lra]. now apply Rabs_no_R0.
Qed.

(*! C07 refuted: whatever str() does, read the wavelength grid, change the time window, read again: the second
    read returns the old grid, which is wrong. *)
Lemma C07_stale_after_time_window_refuted_l : forall strf : R -> string,
  exists l : list pop,
    let p := run_ops strf l (new_pulse None None) in
    p_ready p = true /\
    (exists v, fst (get_wl_nm strf p) = Ok (Some v) /\
               v <> map (fun w => 2 * PI * c_nmps / w) (spec_W (p_n p) (p_tw p) (p_f p))) /\
    (exists v, fst (get_W_mks strf p) = Ok (Some v) /\
               v <> map (fun w => w * 1000000000000) (spec_W (p_n p) (p_tw p) (p_f p))).
Proof.
  intros strf.
  exists [OSetNPTS 2; OSetCenterNm (c_nmps / 10); OSetTwPs 1; OReadWl; OReadWmks; OSetTwPs 2].
  set (q := mkPulse 2 (c_nmps / (c_nmps / 10)) 1 None (Some 100) true None None None None).
  set (p := mkPulse 2 (c_nmps / (c_nmps / 10)) 2 None (Some 100) true (Some (hash_of strf q)) (Some (wl_now q))
                  (Some (hash_of strf q)) (Some (Wmks_now q))).
  assert (E : run_ops strf [OSetNPTS 2; OSetCenterNm (c_nmps / 10); OSetTwPs 1; OReadWl; OReadWmks; OSetTwPs 2]
                 (new_pulse None None) = p) by reflexivity.
  rewrite E. cbv zeta. rewrite <- (W_of_spec p). pose proof PI_RGT_0. pose proof c_nmps_pos.
  assert (Ef : c_nmps / (c_nmps / 10) = 10) by (field; lra).
  assert (E0 : nth 0 (W_of q) 0 = 18 * PI).
  { rewrite W_of_val by (cbn; lia). cbn [p_n p_tw p_f q]. rewrite Ef. simpl. field. }
  assert (E1 : nth 0 (W_of p) 0 = 19 * PI).
  { rewrite W_of_val by (cbn; lia). cbn [p_n p_tw p_f p]. rewrite Ef. simpl. field. }
  split; [reflexivity|]. split.
  - exists (wl_now q). split.
    + unfold get_wl_nm. mred. unfold hash_eqb. cbn [p_wlh p].
      change (hash_of strf p) with (hash_of strf q). now rewrite String.eqb_refl.
    + intros C. apply (f_equal (fun l => nth 0 l 0)) in C. unfold wl_now in C.
      rewrite !(nth_map' _ _ _ 0) in C by (rewrite W_of_length; cbn; lia).
      rewrite E0, E1 in C.
      assert (Hq : 2 * PI * c_nmps / (18 * PI) = c_nmps / 9) by (field; lra).
      assert (Hp : 2 * PI * c_nmps / (19 * PI) = c_nmps * 2 / 19) by (field; lra).
      rewrite Hq, Hp in C. lra.
  - exists (Wmks_now q). split.
    + unfold get_W_mks. mred. unfold hash_eqb. cbn [p_Wh p].
      change (hash_of strf p) with (hash_of strf q). now rewrite String.eqb_refl.
    + intros C. apply (f_equal (fun l => nth 0 l 0)) in C. unfold Wmks_now in C.
      rewrite !(nth_map' _ _ _ 0) in C by (rewrite W_of_length; cbn; lia).
      rewrite E0, E1 in C. lra.
Qed.

(*! C07 refuted, second way: two different (centre, NPTS) pairs share a cache key because the two strings are
    concatenated without separator; e.g. 1.5 THz with 12 points and 1.51 THz with 2 points. *)
Lemma C07_key_collision_refuted_l : forall strf : R -> string,
  strf (3 / 2) = "1.5"%string -> strf (151 / 100) = "1.51"%string ->
  exists l : list pop,
    let p := run_ops strf l (new_pulse None None) in
    p_ready p = true /\ p_n p = 2%nat /\
    exists v, fst (get_wl_nm strf p) = Ok (Some v) /\ length v = 12%nat.
Proof.
  intros strf H1 H2.
  exists [OSetNPTS 12; OSetCenterNm (c_nmps / (3 / 2)); OReadWl; OSetNPTS 2; OSetCenterNm (c_nmps / (151 / 100))].
  set (q := mkPulse 12 (c_nmps / (c_nmps / (3 / 2))) 1 None (Some 100) true None None None None).
  set (p := mkPulse 2 (c_nmps / (c_nmps / (151 / 100))) 1 None (Some 100) true (Some (hash_of strf q)) (Some (wl_now q)) None None).
  assert (E : run_ops strf [OSetNPTS 12; OSetCenterNm (c_nmps / (3 / 2)); OReadWl; OSetNPTS 2; OSetCenterNm (c_nmps / (151 / 100))]
                 (new_pulse None None) = p) by reflexivity.
  rewrite E. cbv zeta. split; [reflexivity|]. split; [reflexivity|]. pose proof c_nmps_pos.
  exists (wl_now q). split; [|unfold wl_now; rewrite map_length; apply W_of_length].
  unfold get_wl_nm. mred. unfold hash_eqb. cbn [p_wlh p].
  assert (Eh : hash_of strf q = hash_of strf p).
  { unfold hash_of. cbn [p_f p_n q p].
    replace (c_nmps / (c_nmps / (3 / 2))) with (3 / 2) by (field; lra).
    replace (c_nmps / (c_nmps / (151 / 100))) with (151 / 100) by (field; lra).
    rewrite H1, H2. reflexivity. }
  rewrite Eh, String.eqb_refl. reflexivity.
Qed.

(*! C07 refuted, third way: a wavelength read that fails because the pulse is not ready poisons the cache; once the
    pulse is ready the read returns Python's None instead of a grid. *)
Lemma C07_failed_read_poisons_refuted_l : forall strf : R -> string,
  exists l : list pop,
    let p := run_ops strf l (new_pulse None None) in
    p_ready p = true /\ fst (get_wl_nm strf p) = Ok None.
Proof.
  intros strf. exists [OReadWl; OSetTwPs 2]. split; [reflexivity|].
  cbn. unfold get_wl_nm. mred. unfold hash_eqb. pred. 
  change (hash_of strf _) with (hash_of strf pulse0). rewrite String.eqb_refl. reflexivity.
Qed.

(** ** C08: failed calls *)
(** [good m]: when [m] raises, the observable state is as before. *)
Definition good_at {A} (m : M pulse A) (s : pulse) : Prop :=
  match fst (m s) with Raise _ => obs (snd (m s)) = obs s | Ok _ => True end.
Definition readonly {A} (m : M pulse A) : Prop := forall s, obs (snd (m s)) = obs s.

Lemma ro_good {A} (m : M pulse A) s : readonly m -> good_at m s.
Proof. intros H. unfold good_at. destruct (fst (m s)); auto. Qed.
Lemma bind_good {A B} (m : M pulse A) (f : A -> M pulse B) s : readonly m ->
  (forall a s', obs s' = obs s -> good_at (f a) s') -> good_at (bind m f) s.
Proof.
  intros Hm Hf. unfold good_at, bind. specialize (Hm s). destruct (m s) as [[a|e] s']; cbn [fst snd] in *; [|exact Hm].
  specialize (Hf a s' Hm). unfold good_at in Hf. destruct (f a s') as [[b|e] s'']; cbn [fst snd] in *; congruence.
Qed.
Lemma obs_AW s s' : obs s' = obs s -> p_AW s' = p_AW s.
Proof. unfold obs. congruence. Qed.
Lemma getAW_good {B} (f : list C -> M pulse B) s :
  (forall a, p_AW s <> None -> good_at (f a) s) -> good_at (bind get_AW f) s.
Proof.
  intros H. unfold good_at, bind. mred. destruct (p_AW s) eqn:E; [|reflexivity].
  cbn [fst snd]. apply (H l). congruence.
Qed.
Lemma getAT_good {B} (f : list C -> M pulse B) s :
  (forall a, p_AW s <> None -> good_at (f a) s) -> good_at (bind get_AT f) s.
Proof.
  intros H. unfold good_at, bind. mred. destruct (p_AW s) eqn:E; [|reflexivity].
  cbn [fst snd]. apply (H (IFFT_t l)). congruence.
Qed.
Lemma setAW_good v s : p_AW s <> None -> good_at (set_AW v) s.
Proof.
  intros H. unfold good_at, set_AW. mred. destruct (p_ready s) eqn:Hr; [|reflexivity].
  destruct (p_AW s) as [a|] eqn:E; [|congruence].
  destruct (assign_all a v); [exact I|]. unfold obs; pred. now rewrite E.
Qed.
Lemma ret_ro {A} (a : A) : readonly (ret a). Proof. intros s; reflexivity. Qed.
Lemma raise_ro {A} e : readonly (raise e : M pulse A). Proof. intros s; reflexivity. Qed.
Lemma lift_ro {A} (r : result A) : readonly (lift r). Proof. intros s; reflexivity. Qed.
Lemma get_ro : readonly get. Proof. intros s; reflexivity. Qed.
Lemma gets_ro {A} (f : pulse -> A) : readonly (gets f). Proof. intros s; reflexivity. Qed.
Lemma bind_ro {A B} (m : M pulse A) (f : A -> M pulse B) :
  readonly m -> (forall a, readonly (f a)) -> readonly (bind m f).
Proof.
  intros Hm Hf s. unfold bind. specialize (Hm s). destruct (m s) as [[a|e] s']; cbn [fst snd] in *; [|exact Hm].
  rewrite (Hf a s'). exact Hm.
Qed.
Lemma with_new_ro {A} i (m : M pulse A) : readonly (with_new i m).
Proof. intros s. unfold with_new. destruct (m i) as [[?|?] ?]; reflexivity. Qed.
Lemma as_array_ro o : readonly (as_array o).
Proof. destruct o; intros s; reflexivity. Qed.
Lemma need_ready_ro : readonly need_ready.
Proof. intros s. mred. destruct (p_ready s); reflexivity. Qed.
Lemma get_AW_ro : readonly get_AW.
Proof. intros s. mred. destruct (p_AW s); reflexivity. Qed.
Lemma get_AT_ro : readonly get_AT.
Proof. intros s. mred. destruct (p_AW s); reflexivity. Qed.
Lemma get_wl_ro strf : readonly (get_wl_nm strf).
Proof.
  intros s. unfold get_wl_nm. mred. destruct (hash_eqb _ _); [reflexivity|]. pred.
  destruct (p_ready s); reflexivity.
Qed.
Lemma get_Wm_ro strf : readonly (get_W_mks strf).
Proof.
  intros s. unfold get_W_mks. mred. destruct (hash_eqb _ _); [reflexivity|]. pred.
  destruct (p_ready s); reflexivity.
Qed.
Ltac ro := repeat first
  [ apply get_wl_ro | apply get_Wm_ro | apply get_AW_ro | apply get_AT_ro | apply need_ready_ro
  | apply as_array_ro | apply with_new_ro | apply gets_ro | apply get_ro | apply lift_ro | apply ret_ro | apply raise_ro
  | apply bind_ro; [|intros ?]
  | match goal with |- readonly (if ?b then _ else _) => destruct b end
  | match goal with |- readonly (match ?b with _ => _ end) => destruct b end ].
Ltac gd := repeat first
  [ match goal with H : obs ?s' = obs ?s, N : p_AW ?s <> None |- _ =>
      lazymatch goal with K : p_AW s' <> None |- _ => fail | _ => assert (p_AW s' <> None) by (rewrite (obs_AW _ _ H); exact N) end end
  | solve [apply setAW_good; (assumption || (erewrite obs_AW by eassumption; assumption) || congruence)]
  | apply getAW_good; intros ? ?
  | apply getAT_good; intros ? ?
  | solve [apply ro_good; ro]
  | apply bind_good; [ro|intros ? ?s ?]
  | match goal with |- good_at (if ?b then _ else _) _ => destruct b end
  | match goal with |- good_at (match ?b with _ => _ end) _ => destruct b end ].

Lemma set_AW_not_ready v p : p_ready p = false -> set_AW v p = (Raise RuntimeError, p).
Proof. intros H. unfold set_AW. mred. now rewrite H. Qed.

Definition obs_of (p : pulse) : nat * R * R * option (list C) * option R * bool :=
  (p_n p, p_f p, p_tw p, p_AW p, p_frep p, p_ready p).

Local Opaque set_AW.
(*! C08 (partial): a call that raises leaves NPTS, window, centre, repetition rate and field as they were.  Missing:
    expand_time_window with an unknown placement, clone/load, and the direct field write of a wrong length on a pulse that
    holds no field yet (see the refutations). *)
Lemma C08_failed_call_unchanged_partial_l : forall (strf : R -> string) (o : pop) (p p' : pulse) (e : exn),
  run_op strf o p = (Raise e, p') ->
  match o with
  | OExpand _ _ => p_AW p = None
  | OClone _ | OLoad _ => False
  | OSetAW _ | OSetAT _ => p_AW p <> None \/ p_ready p = false
  | _ => True
  end ->
  obs_of p' = obs_of p.
Proof.
  intros strf o p p' e E Hs.
  enough (G : good_at (run_op strf o) p) by (unfold good_at in G; rewrite E in G; exact G).
  clear E p' e. destruct o; cbn [run_op]; try exact I.
  - destruct Hs as [H|H]; [now apply setAW_good|]. unfold good_at. now rewrite set_AW_not_ready.
  - destruct Hs as [H|H]; [now apply setAW_good|]. unfold good_at, set_AT. now rewrite set_AW_not_ready.
  - unfold set_epp, calc_epp, get_dT_mks, get_dT, set_AT. gd.
  - unfold add_noise, get_dF_mks, get_F_mks. gd.
  - unfold chirp_pulse_W, get_V, get_W. gd.
  - unfold apply_phase_W. gd.
  - unfold chirp_pulse_T, get_T, set_AT. gd.
  - unfold remove_fit, get_W. gd.
  - unfold add_time_offset, get_W. gd.
  - cbn in Hs. unfold good_at, expand_time_window. mred. rewrite !Hs. reflexivity.
  - unfold rotate_spectrum_to_new_center_wl, get_center_frequency_THz, get_dF_THz, get_W. gd.
  - unfold filter_by_wavelength_nm. gd.
  - contradiction.
  - contradiction.
  - unfold drop. gd.
  - unfold drop. gd.
  - unfold drop, get_F_mks. gd.
  - unfold drop, get_dF_mks. gd.
  - unfold drop, get_wl_mks. gd.
  - unfold drop, create_subset_pulse, get_NPTS. gd.
  - unfold drop, interpolate_to_new_center_wl, create_cloned_pulse. gd.
  - unfold drop, calculate_weighted_avg_frequency_mks. gd.
  - unfold drop, calc_epp, get_dT_mks, get_dT. gd.
  - unfold drop, create_cloned_pulse. gd.
  - unfold drop, calculate_intensity_autocorrelation. gd.
Qed.

Local Transparent set_AW.
(*! C08 refuted: expand_time_window with an unknown placement raises ValueError after it has already changed NPTS and the
    window and thrown the field away, for every pulse that holds a field. *)
Lemma C08_expand_bad_location_refuted_l : forall (p : pulse) (a : list C) (k : nat),
  holds p a ->
  exists p', expand_time_window k BadLoc p = (Raise ValueError, p') /\
    p_AW p' = None /\ p_n p' = (p_n p * 2 ^ k)%nat /\ p_tw p' = p_tw p * 2 ^ k /\
    fst (get_AT p') = Raise RuntimeError.
Proof.
  intros p a k (Hr & Ha & Hl). unfold expand_time_window. mred. rewrite Ha.
  eexists. split; [reflexivity|]. repeat split; try reflexivity.
Qed.

(*! C08 refuted: a rejected first field write turns "no field" into an all-zero field. *)
Lemma C08_rejected_first_write_refuted_l : forall (p : pulse) (v : list C),
  p_ready p = true -> p_AW p = None -> length v <> p_n p -> length v <> 1%nat ->
  fst (get_AW p) = Raise RuntimeError /\
  exists p', set_AW v p = (Raise ValueError, p') /\ fst (get_AW p') = Ok (repeat (RtoC 0) (p_n p)).
Proof.
  intros p v Hr Ha H1 H2. split; [mred; now rewrite Ha|].
  eexists. unfold set_AW. mred. rewrite Hr, Ha. unfold assign_all. rewrite repeat_length.
  destruct (Nat.eqb_spec (p_n p) (length v)) as [E|E]; [congruence|].
  destruct v as [|y [|z v]]; try (simpl in H2; congruence); split; reflexivity.
Qed.

(*! C08 refuted: cloning from a pulse that holds no field raises after NPTS, window, centre and rate were overwritten. *)
Lemma C08_clone_empty_source_refuted_l : forall (p q : pulse), p_AW q = None ->
  exists p', clone_pulse q p = (Raise RuntimeError, p') /\
    p_n p' = p_n q /\ p_tw p' = p_tw q /\ p_frep p' = p_frep q /\ p_AW p' = p_AW p.
Proof.
  intros p q Hq. unfold clone_pulse. mred. rewrite Hq. eexists. split; [reflexivity|]. repeat split.
Qed.

(** ** C09: lengths *)
Definition len_ok (p : pulse) : Prop := forall a, p_AW p = Some a -> length a = p_n p.
Definition len_step (s s' : pulse) : Prop := p_n s' = p_n s /\ (len_ok s -> len_ok s').
Lemma len_refl s : len_step s s. Proof. split; auto. Qed.
Lemma len_trans a b c : len_step a b -> len_step b c -> len_step a c.
Proof. intros [A B] [D E]. split; [congruence|auto]. Qed.
Lemma len_obs s s' : obs s' = obs s -> len_step s s'.
Proof.
  unfold obs, len_step, len_ok. intros H. injection H as E1 E2 E3 E4 E5 E6. split; [exact E1|].
  rewrite E1, E4. auto.
Qed.
Lemma len_ro {A} (m : M pulse A) : readonly m -> pres len_step m.
Proof. intros H s. apply len_obs, H. Qed.
Lemma len_set_AW v : pres len_step (set_AW v).
Proof.
  intros s. unfold set_AW. mred. destruct (p_ready s) eqn:Hr; [|apply len_refl].
  set (cur := match p_AW s with Some a => a | None => repeat (RtoC 0) (p_n s) end).
  assert (Hc : len_ok s -> length cur = p_n s).
  { intros H. unfold cur. destruct (p_AW s) eqn:E; [now apply H|apply repeat_length]. }
  destruct (assign_all cur v) as [a|e] eqn:E; (split; [reflexivity|]); intros H b; pred; intros Eb;
    injection Eb as <-; [rewrite (assign_all_length _ _ _ E)|]; auto.
Qed.
Ltac ln := repeat first
  [ apply len_set_AW | solve [apply len_ro; ro]
  | apply pres_bind; [exact len_trans| |intros ?]
  | match goal with |- pres _ (if ?b then _ else _) => destruct b end
  | match goal with |- pres _ (match ?b with _ => _ end) => destruct b end ].
Lemma len_field m : (forall s, p_n (m s) = p_n s /\ p_AW (m s) = p_AW s) -> pres len_step (modify m).
Proof.
  intros H s. destruct (H s) as [A B]. unfold modify, len_step, len_ok; cbn [snd]. rewrite A, B. auto.
Qed.

Local Opaque set_AW.
(** the grid size a call imposes, if it imposes one *)
Definition resizes (o : pop) : option nat :=
  match o with OSetNPTS n => Some n | OClone q => Some (p_n q) | OLoad d => Some (d_NPTS d) | _ => None end.

Lemma len_op strf o s :
  (forall m, resizes o = Some m -> p_AW s = None \/ m = p_n s) ->
  len_ok s -> len_ok (snd (run_op strf o s)).
Proof.
  intros Hz Hl.
  assert (K : forall m : M pulse unit, pres len_step m -> len_ok (snd (m s))) by (intros m H; apply (H s), Hl).
  destruct o; cbn [run_op resizes] in *.
  - exact Hl.
  - exact Hl.
  - (* set_NPTS *) destruct (Hz n eq_refl) as [E|E]; unfold len_ok; cbn; [rewrite E; discriminate|].
    rewrite E. apply Hl.
  - exact Hl.
  - exact Hl.
  - exact Hl.
  - exact Hl.
  - exact Hl.
  - apply K, len_set_AW.
  - apply K, len_set_AW.
  - apply K. unfold set_epp, calc_epp, get_dT_mks, get_dT, set_AT. ln.
  - apply K. unfold add_noise, get_dF_mks, get_F_mks. ln.
  - apply K. unfold chirp_pulse_W, get_V, get_W. ln.
  - apply K. unfold apply_phase_W. ln.
  - apply K. unfold chirp_pulse_T, get_T, set_AT. ln.
  - apply K. unfold remove_fit, get_W. ln.
  - apply K. unfold add_time_offset, get_W. ln.
  - (* expand *) unfold expand_time_window. mred. destruct (p_AW s) eqn:E; [|exact Hl]. 
    cbn. set (q := with_AW None _).
    assert (Q : len_ok q) by (unfold q, len_ok; pred; discriminate).
    destruct l; try (apply (len_set_AW _ q); exact Q). exact Q.
  - apply K. unfold rotate_spectrum_to_new_center_wl, get_center_frequency_THz, get_dF_THz, get_W. ln.
  - apply K. unfold filter_by_wavelength_nm. ln.
  - (* clone *)
    set (s1 := with_frep (p_frep q) (with_ready true (with_f (c_nmps / (c_nmps / p_f q)) (with_tw (p_tw q)
                 (with_n (p_n q) s))))).
    assert (Q : len_ok s1).
    { unfold s1, len_ok; pred. destruct (Hz _ eq_refl) as [E|E]; [rewrite E; discriminate|rewrite E; exact Hl]. }
    change (len_ok (snd (bind (lift (fst (get_AT q))) set_AT s1))).
    unfold bind, lift. destruct (fst (get_AT q)); [|exact Q]. apply (len_set_AW _ s1); exact Q.
  - (* load *)
    set (s1 := with_frep (d_frep d) (with_ready true (with_f (c_nmps / d_wl d) (with_tw (d_tw d)
                 (with_n (d_NPTS d) s))))).
    assert (Q : len_ok s1).
    { unfold s1, len_ok; pred. destruct (Hz _ eq_refl) as [E|E]; [rewrite E; discriminate|rewrite E; exact Hl]. }
    change (len_ok (snd (bind (lift (broadcast2 (fun a b => RtoC a + Ci * RtoC b)%C (d_re d) (d_im d))) set_AT s1))).
    unfold bind, lift. destruct (broadcast2 _ _ _); [|exact Q]. apply (len_set_AW _ s1); exact Q.
  - apply K. unfold drop. ln.
  - apply K. unfold drop. ln.
  - apply K. unfold drop, get_F_mks. ln.
  - apply K. unfold drop, get_dF_mks. ln.
  - apply K. unfold drop, get_wl_mks. ln.
  - apply K. unfold drop, create_subset_pulse, get_NPTS. ln.
  - apply K. unfold drop, interpolate_to_new_center_wl, create_cloned_pulse. ln.
  - apply K. unfold drop, calculate_weighted_avg_frequency_mks. ln.
  - apply K. unfold drop, calc_epp, get_dT_mks, get_dT. ln.
  - apply K. unfold drop, create_cloned_pulse. ln.
  - apply K. unfold drop, calculate_intensity_autocorrelation. ln.
Qed.

Local Transparent set_AW.
(*! C09 (partial): over every history of calls (successful or not) from a new pulse in which the grid size is only changed while
    no field is stored, the stored field, AT, the frequency grid and the time grid all have NPTS entries.  Missing: set_NPTS,
    clone or load while a field of another size is stored, see the refutations. *)
Lemma C09_field_length_partial_l : forall (strf : R -> string) (l : list pop) (frep : option R) (n : option nat),
  let p0 := new_pulse frep n in
  let p := run_ops strf l p0 in
  (forall l1 o l2 m, l = l1 ++ o :: l2 -> resizes o = Some m ->
     p_AW (run_ops strf l1 p0) = None \/ m = p_n (run_ops strf l1 p0)) ->
  forall a t w ts, fst (get_AW p) = Ok a -> fst (get_AT p) = Ok t -> fst (get_W p) = Ok w -> fst (get_T p) = Ok ts ->
  length a = p_n p /\ length t = p_n p /\ length w = p_n p /\ length ts = p_n p.
Proof.
  intros strf l frep n p0 p Hz.
  assert (L : len_ok p).
  { unfold p. induction l as [|o l IH] using rev_ind.
    - unfold p0, new_pulse, pulse_init, len_ok. destruct frep, n; cbn; discriminate.
    - rewrite run_ops_app. cbn [run_ops fold_left]. apply len_op.
      + intros m Hm. apply (Hz l o [] m eq_refl Hm).
      + apply IH. intros l1 o1 l2 m E Hm. apply (Hz l1 o1 (l2 ++ [o]) m); [|exact Hm].
        rewrite E, <- app_assoc. reflexivity. }
  intros a t w ts. mred. destruct (p_AW p) eqn:E; [|discriminate]. intros E1 E2.
  injection E1 as <-. injection E2 as <-.
  destruct (p_ready p); [|discriminate]. cbn. intros E3 E4. injection E3 as <-. injection E4 as <-.
  rewrite IFFT_t_length, W_of_length, T_of_length. rewrite (L _ E). auto.
Qed.

(*! C09 refuted: set_NPTS on a pulse that holds a field succeeds and leaves a field of the old length behind. *)
Lemma C09_set_NPTS_refuted_l : forall (p : pulse) (a : list C) (m : nat), holds p a -> m <> p_n p ->
  exists p' w, set_NPTS m p = (Ok tt, p') /\ get_AW p' = (Ok a, p') /\ get_W p' = (Ok w, p') /\
    length a <> length w /\
    (m <> 1%nat -> length a <> 1%nat -> forall off, fst (add_time_offset off p') = Raise ValueError).
Proof.
  intros p a m (Hr & Ha & Hl) Hm. do 2 eexists. split; [reflexivity|]. mred. pred.
  rewrite Ha. split; [reflexivity|]. split; [reflexivity|]. split.
  - rewrite W_of_length. pred. congruence.
  - intros H1 H2 off. unfold add_time_offset. mred. pred. rewrite Ha.
    unfold broadcast2. rewrite map_length, W_of_length. pred.
    destruct (Nat.eqb_spec (length a) m) as [E|E]; [congruence|].
    destruct a as [|x [|y a]]; simpl in *; try congruence.
    + destruct (map _ _) as [|u [|v z]] eqn:Eq; try reflexivity.
      apply (f_equal (@length C)) in Eq. rewrite map_length, W_of_length in Eq. pred. simpl in Eq. congruence.
    + destruct (map _ _) as [|u [|v z]] eqn:Eq; try reflexivity.
      apply (f_equal (@length C)) in Eq. rewrite map_length, W_of_length in Eq. pred. simpl in Eq. congruence.
Qed.

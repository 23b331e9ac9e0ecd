(** Proofs about the sample store of the ODE solver (C39, C48). *)
From Coq Require Import Reals List ZArith Bool Arith Lia Lra.
From Coquelicot Require Import Complex.
From Verif Require Import Base CNum NumPy ModelDopr ModelODE.
Import ListNotations.
Local Open Scope R_scope.
Local Open Scope py_scope.
Local Notation z0 := (RtoC 0).

(** one call of the two storing methods *)
Inductive sample_op := Save (x : R) (dt : dtype) (y : list C) | SaveDense (x : R) (dt : dtype) (y : list C).
Definition run_op (p : sample_op) : M output unit :=
  match p with Save x dt y => save x dt y | SaveDense x dt y => save_dense x dt y end.
(** a history of calls whose exceptions are caught by the caller *)
Definition history (ops : list sample_op) (o : output) : output := fold_left (fun o p => snd (run_op p o)) ops o.
(** the sample a call should add to a store of rows of n entries with the given dtype: matching dtype, and either n values or one value for the whole row *)
Definition accepted (n : nat) (dt : dtype) (p : sample_op) : list (R * list C) :=
  let '(x, d, y) := match p with Save x d y | SaveDense x d y => (x, d, y) end in
  if dt_eqb dt d then (if Nat.eqb (length y) n then [(x, y)] else if Nat.eqb (length y) 1 then [(x, repeat (nth 0 y z0) n)] else []) else [].

Lemma firstn_setnth {A} (i : nat) (v : A) l : (i < length l)%nat -> firstn (S i) (setnth i v l) = firstn i l ++ [v].
Proof.
  intros H. unfold setnth. rewrite firstn_app, firstn_firstn, firstn_length. rewrite Nat.min_r by lia. replace (S i - Nat.min i (length l))%nat with 1%nat by lia. reflexivity.
Qed.
Lemma setnth_length {A} (i : nat) (v : A) l : (i < length l)%nat -> length (setnth i v l) = length l.
Proof. intros H. unfold setnth. rewrite app_length, firstn_length. cbn [length]. rewrite skipn_length. lia. Qed.
Lemma nth_setnth {A} (i j : nat) (v d : A) l : (i < length l)%nat -> nth j (setnth i v l) d = if Nat.eqb j i then v else nth j l d.
Proof.
  intros H. destruct (Nat.eqb_spec j i) as [->|N].
  - unfold setnth. rewrite app_nth2; rewrite firstn_length; [|lia]. replace (i - Nat.min i (length l))%nat with 0%nat by lia. reflexivity.
  - unfold setnth. destruct (Nat.lt_ge_cases j i) as [L|L].
    + rewrite app_nth1 by (rewrite firstn_length; lia). rewrite <- (firstn_skipn i l) at 2. now rewrite app_nth1 by (rewrite firstn_length; lia).
    + rewrite app_nth2 by (rewrite firstn_length; lia). rewrite firstn_length, Nat.min_l by lia. rewrite <- (firstn_skipn (S i) l) at 2.
      rewrite (app_nth2 (firstn (S i) l)) by (rewrite firstn_length; lia). rewrite firstn_length, Nat.min_l by lia. replace (j - i)%nat with (S (j - S i)) by lia. reflexivity.
Qed.

(** the store o holds exactly the samples l *)
Definition stored (n : nat) (dt : dtype) (l : list (R * list C)) (o : output) : Prop :=
  exists km, o_kmax o = Some km /\ (0 < km)%nat /\ length (o_xsave o) = km /\ length (o_ysave o) = km /\ o_count o = length l /\ (length l <= km)%nat /\
    o_dtype o = dt /\ o_nvar o = n /\ firstn (length l) (o_xsave o) = map fst l /\ firstn (length l) (o_ysave o) = map snd l.

Lemma stored_init n dt k x1 x2 : stored n dt [] (out_init n x1 x2 dt (new_output (Some k))).
Proof.
  exists 500%nat. unfold out_init, new_output. cbn [o_kmax o_dense]. destruct (Nat.ltb 0 k); cbn -[repeat]; rewrite !repeat_length; repeat split; auto; lia.
Qed.
Lemma stored_resize n dt l o : stored n dt l o -> stored n dt l (resize o) /\ (length l < 2 * match o_kmax o with Some k => k | None => 0 end)%nat.
Proof.
  intros (km & E & P & Lx & Ly & Cn & Le & Dt & Nv & Fx & Fy). rewrite E. split; [|lia]. unfold resize. rewrite E. exists (2 * km)%nat. cbn [o_kmax o_xsave o_ysave o_count o_dtype o_nvar].
  rewrite !app_length, !repeat_length, Lx, Ly, !firstn_app, Lx, Ly, Fx, Fy. replace (length l - km)%nat with 0%nat by lia. cbn [firstn]. rewrite !app_nil_r. repeat split; auto; lia.
Qed.
(** other attributes are kept by the storing methods *)
Definition frame (o o' : output) : Prop :=
  o_nsave o' = o_nsave o /\ o_dense o' = o_dense o /\ o_x1 o' = o_x1 o /\ o_x2 o' = o_x2 o /\ o_xout o' = o_xout o /\ o_dxout o' = o_dxout o.
Lemma frame_refl o : frame o o. Proof. repeat split. Qed.
Lemma frame_resize o : frame o (resize o). Proof. unfold resize. destruct (o_kmax o); repeat split. Qed.
Lemma store_ok n dt l o x y : stored n dt l o -> full o = false ->
  (forall r, row n y = Some r -> exists o', store x y o = (Ok tt, o') /\ stored n dt (l ++ [(x, r)]) o' /\ frame o o') /\ (row n y = None -> store x y o = (Raise ValueError, o)).
Proof.
  intros (km & E & P & Lx & Ly & Cn & Le & Dt & Nv & Fx & Fy) F. unfold full in F. rewrite E in F. apply Nat.eqb_neq in F. unfold store, bind, get. cbn [fst snd].
  assert (T : Nat.ltb (o_count o) (length (o_ysave o)) = true) by (apply Nat.ltb_lt; lia). rewrite T, Nv. split.
  - intros r ->. eexists. split; [reflexivity|]. split; [|repeat split]. exists km. cbn [o_kmax o_xsave o_ysave o_count o_dtype o_nvar put snd]. rewrite !setnth_length by lia. rewrite app_length, !map_app, Cn. cbn [length map fst snd].
    rewrite Nat.add_1_r. rewrite !firstn_setnth by lia. rewrite Fx, Fy. repeat split; auto; lia.
  - intros ->. reflexivity.
Qed.
Lemma full_resize n dt l o : stored n dt l o -> full o = true -> full (resize o) = false.
Proof.
  intros (km & E & P & _ & _ & Cn & Le & _) F. unfold full in *. rewrite E in F. apply Nat.eqb_eq in F. unfold resize. rewrite E. cbn [o_kmax o_count]. apply Nat.eqb_neq. lia.
Qed.
Lemma grow_ok n dt l o : stored n dt l o -> exists o', (if full o then modify resize else ret tt) o = (Ok tt, o') /\ stored n dt l o' /\ full o' = false /\ frame o o'.
Proof.
  intros H. destruct (full o) eqn:F.
  - exists (resize o). split; [reflexivity|]. split; [now apply stored_resize|]. split; [now apply (full_resize _ _ _ _ H)|apply frame_resize].
  - exists o. split; [reflexivity|]. split; [exact H|]. split; [exact F|apply frame_refl].
Qed.
Lemma dt_eqb_spec a b : dt_eqb a b = true <-> a = b.
Proof. destruct a, b; cbn; split; congruence. Qed.
Lemma run_op_ok n dt l o p : stored n dt l o ->
  exists o', run_op p o = (match accepted n dt p with [] => Raise (if dt_eqb dt (match p with Save _ d _ | SaveDense _ d _ => d end) then ValueError else TypeError) | _ => Ok tt end, o')
    /\ stored n dt (l ++ accepted n dt p) o' /\ frame o o'.
Proof.
  intros H. pose proof H as (km & E & P & _ & _ & _ & _ & Dt & Nv & _). destruct (grow_ok _ _ _ _ H) as (o1 & G1 & H1 & F1 & R1).
  assert (St : forall x y, exists o', store x y o1 = (match row n y with None => Raise ValueError | Some _ => Ok tt end, o') /\ stored n dt (l ++ match row n y with Some r => [(x, r)] | None => [] end) o' /\ frame o o').
  { intros x y. destruct (store_ok n dt l o1 x y H1 F1) as [S1 S2]. destruct (row n y) as [r|].
    - destruct (S1 r eq_refl) as (o' & A & B & D). exists o'. split; [exact A|]. split; [exact B|]. unfold frame in *. intuition congruence.
    - exists o1. rewrite app_nil_r. split; [now apply S2|]. split; [exact H1|exact R1]. }
  assert (Ac : forall (x : R) (y : list C), match row n y with Some r => [(x, r)] | None => [] end = (if Nat.eqb (length y) n then [(x, y)] else if Nat.eqb (length y) 1 then [(x, repeat (nth 0 y z0) n)] else [])).
  { intros x y. unfold row. destruct (Nat.eqb (length y) n), (Nat.eqb (length y) 1); reflexivity. }
  destruct p as [x d y|x d y]; unfold run_op, accepted; [unfold save|unfold save_dense]; unfold bind at 1; cbn [get]; rewrite ?E, Dt.
  - assert (Z : Nat.leb km 0 = false) by (apply Nat.leb_gt; lia). rewrite Z. destruct (dt_eqb dt d).
    + unfold negb. unfold bind. rewrite G1. destruct (St x y) as (o' & A & B & D). exists o'. rewrite A, <- Ac. split; [|split; [exact B|exact D]]. now destruct (row n y).
    + exists o. rewrite app_nil_r. cbn. split; [reflexivity|]. split; [exact H|apply frame_refl].
  - unfold bind. rewrite G1. destruct (dt_eqb dt d).
    + destruct (St x y) as (o' & A & B & D). exists o'. rewrite A, <- Ac. split; [|split; [exact B|exact D]]. now destruct (row n y).
    + exists o1. rewrite app_nil_r. cbn. split; [reflexivity|]. split; [exact H1|exact R1].
Qed.
Lemma history_ok n dt ops : forall l o, stored n dt l o -> stored n dt (l ++ flat_map (accepted n dt) ops) (history ops o).
Proof.
  induction ops as [|p ops IH]; intros l o H; cbn [flat_map history fold_left].
  - now rewrite app_nil_r.
  - destruct (run_op_ok n dt l o p H) as (o' & A & B & _). rewrite A. cbn [snd]. rewrite app_assoc. apply IH, B.
Qed.

(*! C39: an Output made by Output(nsaves) and init holds, after any history of save and save_dense calls (of any length, including calls that raised and were caught), exactly the samples with matching dtype and shape, in call order; a further call raises TypeError exactly for a wrong dtype, ValueError exactly for a wrong shape, and a call that raises leaves the number of samples and every stored sample as they were. *)
Lemma C39_samples_kept_l : forall (n k : nat) (x1 x2 : R) (dt : dtype) (ops : list sample_op),
  let o := history ops (out_init n x1 x2 dt (new_output (Some k))) in
  let good := flat_map (accepted n dt) ops in
  o_count o = length good /\
  (forall i, (i < length good)%nat -> nth i (o_xsave o) 0 = fst (nth i good (0, [])) /\ nth i (o_ysave o) [] = snd (nth i good (0, []))) /\
  (forall p, exists o', run_op p o = (match p with Save _ d y | SaveDense _ d y =>
       if dt_eqb dt d then (if (Nat.eqb (length y) n || Nat.eqb (length y) 1)%bool then Ok tt else Raise ValueError) else Raise TypeError end, o') /\
     (fst (run_op p o) <> Ok tt -> o_count o' = o_count o /\ forall i, (i < o_count o)%nat -> nth i (o_xsave o') 0 = nth i (o_xsave o) 0 /\ nth i (o_ysave o') [] = nth i (o_ysave o) [])).
Proof.
  intros n k x1 x2 dt ops o good.
  assert (Nth : forall l o, stored n dt l o -> o_count o = length l /\ forall i, (i < length l)%nat -> nth i (o_xsave o) 0 = fst (nth i l (0, [])) /\ nth i (o_ysave o) [] = snd (nth i l (0, []))).
  { intros l o' (km & _ & _ & Lx & Ly & Cn & Le & _ & _ & Fx & Fy). split; [exact Cn|]. intros i Hi. split.
    - rewrite <- (firstn_skipn (length l) (o_xsave o')), app_nth1 by (rewrite firstn_length; lia). rewrite Fx. change 0 with (fst (0, @nil C)). apply map_nth.
    - rewrite <- (firstn_skipn (length l) (o_ysave o')), app_nth1 by (rewrite firstn_length; lia). rewrite Fy. change (@nil C) with (snd (0, @nil C)) at 1. apply map_nth. }
  pose proof (history_ok n dt ops [] _ (stored_init n dt k x1 x2)) as H. cbn [app] in H. change (stored n dt good o) in H. destruct (Nth _ _ H) as [A B]. split; [exact A|]. split; [exact B|].
  intros p. destruct (run_op_ok n dt good o p H) as (o' & E & S & _). exists o'.
  assert (R : run_op p o = (match p with Save _ d y | SaveDense _ d y =>
       if dt_eqb dt d then (if (Nat.eqb (length y) n || Nat.eqb (length y) 1)%bool then Ok tt else Raise ValueError) else Raise TypeError end, o')).
  { rewrite E. unfold accepted. destruct p as [x d y|x d y]; destruct (dt_eqb dt d), (Nat.eqb (length y) n), (Nat.eqb (length y) 1); reflexivity. }
  split; [exact R|]. rewrite E. cbn [fst]. intros Hne. destruct (accepted n dt p) as [|a l] eqn:Ea; [|contradiction]. rewrite app_nil_r in S. destruct (Nth _ _ S) as [A' B'].
  split; [congruence|]. intros i Hi. rewrite A in Hi. destruct (B i Hi) as [-> ->]. apply B', Hi.
Qed.

(*! C48 refuted: with Output(None), whatever init was called with, save and save_dense raise AttributeError instead of discarding the sample. *)
Lemma C48_storage_off_refuted_l : forall (n : nat) (x1 x2 : R) (dt : dtype) (x : R) (d : dtype) (y : list C),
  let o := out_init n x1 x2 dt (new_output None) in
  run_op (Save x d y) o = (Raise AttributeError, o) /\ run_op (SaveDense x d y) o = (Raise AttributeError, o).
Proof. intros. split; reflexivity. Qed.

(*! C48 refuted (whole run): an integration with Output(None) raises AttributeError before the first step whenever the right-hand side answers at x1, with or without dense output. *)
Lemma C48_integrate_refuted_l : forall (W : Type) (f : R -> list C -> M W (list C)) (fuel : nat) (w w' : W) (con : ctrl) (ystart d : list C) (x1 x2 atol rtol h1 hmin : R) (dense : bool) (dt : dtype),
  f x1 ystart w = (Ok d, w') ->
  fst (integrate f fuel (new_ode w con ystart x1 x2 atol rtol h1 hmin (new_output None) dense dt)) = Raise AttributeError.
Proof.
  intros W f fuel w w' con ystart d x1 x2 atol rtol h1 hmin dense dt E. unfold integrate, deriv, onw, new_ode, bind, get, ret. cbn [g_s g_ode g_w new_stepper p_y e_x1 g_con g_out]. rewrite E. cbn.
  destruct dense; reflexivity.
Qed.

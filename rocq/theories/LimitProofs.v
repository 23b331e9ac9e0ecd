(** The numeric limits of the ODE solver and the state of a fiber nobody configured (C41, C42, C57). *)
From Coq Require Import Reals List ZArith Bool Arith Lia Lra.
From Coquelicot Require Import Complex.
From Verif Require Import Base CNum NumPy ModelPulse ModelDopr ModelODE ODEOutputProofs ODEStepProofs ODETableauProofs ODEIntProofs.
From Verif Require ModelFiber FiberShareProofs.
Import ListNotations.
Local Open Scope R_scope.
Local Open Scope py_scope.
Local Notation z0 := (RtoC 0).

Transparent attempts.
Lemma attempts_limit {W} (f : R -> list C -> M W (list C)) fuel : forall h g,
  match attempts f fuel (Some h) g with
  | (Ok h', _) => h' = h \/ Rabs (p_x (g_s g)) * EPS < Rabs h'
  | (Raise e, _) => e = OverflowError -> (exists t, 0 < t <= 0.9 /\ Rabs (t * h) <= Rabs (p_x (g_s g)) * EPS) \/ exists x y w, fst (f x y w) = Raise e
  end.
Proof.
  induction fuel as [|fuel IH]; intros h g; [cbn; discriminate|].
  cbn [attempts]. unfold bind at 1. pose proof (keeps_dy f h g) as Kd. pose proof (only_dy f h g) as Od. destruct (dy f h g) as [[[]|e] g1]; cbn [fst snd] in *.
  2: { intros _. right. exact (Od e eq_refl). }
  destruct Kd as (_ & _ & _ & Kx & _).
  unfold bind at 1, gets at 1. unfold bind at 1, oncon. pose proof (success_spec (error (g_s g1) h) h (g_con g1) (error_ok _ _)) as S.
  destruct (success (error (g_s g1) h) (Some h) (g_con g1)) as [[[[|] h']|e] c1]; [| |contradiction].
  - destruct S as (-> & _). cbn. now left.
  - destruct h' as [h'|].
    + destruct S as (_ & _ & _ & k & Hk & ->). set (g2 := mkG _ _ _ _ _). destruct (Rle_dec _ _) as [Q|Q].
      * cbn. intros _. left. exists k. split; [lra|]. rewrite Rmult_comm, <- Kx. exact Q.
      * specialize (IH (h * k) g2). change (p_x (g_s g2)) with (p_x (g_s g1)) in IH. rewrite Kx in *. destruct (attempts f fuel (Some (h * k)) g2) as [[h''|e] g3].
        -- right. destruct IH as [->|IH]; lra.
        -- intros E. destruct (IH E) as [(t & Ht & Hl)|R]; [|now right]. left. exists (t * k). split; [nra|]. replace (t * k * h) with (t * (h * k)) by ring. exact Hl.
    + destruct (attempts_none f fuel {| g_w := g_w g1; g_con := c1; g_s := g_s g1; g_out := g_out g1; g_ode := g_ode g1 |}) as (e & -> & He). intros ->. destruct He; discriminate.
Qed.
Opaque attempts.
Lemma EPS_val a : a * EPS = a / 2 ^ 52. Proof. reflexivity. Qed.

(*! C41: the underflow limit in numbers: a step that returns used either the attempted step itself or a shortened one that is larger than |x| / 2^52, and the underflow error is raised only after the controller asked for a step of at most |x| / 2^52 (unless the right-hand side raises it). *)
Lemma C41_underflow_limit_l : forall (W : Type) (f : R -> list C -> M W (list C)) (fuel : nat) (htry : R) (g : G W),
  match step f fuel htry g with
  | (Ok _, g') => p_hdid (g_s g') = htry \/ Rabs (p_x (g_s g)) / 2 ^ 52 < Rabs (p_hdid (g_s g'))
  | (Raise e, _) => e = OverflowError -> (exists t, 0 < t <= 0.9 /\ Rabs (t * htry) <= Rabs (p_x (g_s g)) / 2 ^ 52) \/ exists x y w, fst (f x y w) = Raise e
  end.
Proof.
  Transparent step.
  intros W f fuel htry g. unfold step. unfold bind at 1. pose proof (attempts_limit f fuel htry g) as A. rewrite !EPS_val in A.
  destruct (attempts f fuel (Some htry) g) as [[h|e] g1]; [|exact A].
  unfold bind at 1, gets at 1. unfold bind at 1. pose proof (only_deriv f (length (p_y (g_s g1))) (p_x (g_s g1) + h) (p_yout (g_s g1)) g1) as Od.
  destruct (deriv f _ _ _ g1) as [[dn|e] g2]; [|intros _; right; exact (Od e eq_refl)]. unfold bind at 1.
  destruct (p_dense (g_s g1)).
  - pose proof (only_prepare f h dn g2) as Op. destruct (prepare_dense f h dn g2) as [[[]|e] g3]; [|intros _; right; exact (Op e eq_refl)].
    unfold bind, get, set_s, modify. cbn [g_s p_hdid]. exact A.
  - unfold bind, ret, get, set_s, modify. cbn [g_s p_hdid]. exact A.
Qed.
Opaque step.

Lemma iloop_runtime {W} (f : R -> list C -> M W (list C)) (Hf : forall x y w, fst (f x y w) <> Raise RuntimeError) n dt hmin fuel : forall left nstp l g g',
  (left + nstp = MAXSTP)%nat -> stored n dt l (g_out g) -> p_dtype (g_s g) = dt -> length (p_y (g_s g)) = n -> e_hmin (g_ode g) = hmin -> (e_nok (g_ode g) + e_nbad (g_ode g) = nstp)%nat ->
  iloop f fuel left nstp g = (Raise RuntimeError, g') -> (e_nok (g_ode g') + e_nbad (g_ode g') = MAXSTP)%nat \/ Rabs (p_hnext (g_s g')) <= hmin.
Proof.
  induction left as [|left IH]; intros nstp l g g' Hl Hs Hdt Hn Hm Hc E.
  - cbn in E. injection E as <-. left. lia.
  - cbn [iloop] in E. unfold bind at 1, get in E. set (h := clip _ _ _ _) in E. unfold bind at 1, set_e, modify in E. unfold bind at 1 in E. set (g1 := mkG _ _ _ _ _) in E.
    pose proof (step_spec f fuel h g1) as S. destruct (step f fuel h g1) as [[u|e] g2].
    2: { exfalso. injection E as -> _. destruct S as (_ & [S|[S|[S|(x & y & w & S)]]]); try discriminate. exact (Hf x y w S). }
    destruct S as (So & Se & _ & _ & _ & _ & _ & Sn & Sdt & _). unfold g1 in So, Se, Sn, Sdt. cbn [g_out g_ode g_s] in So, Se, Sn, Sdt.
    unfold bind at 1, gets in E. unfold bind at 1 in E. unfold bind at 1 in E. set (g3 := mkG _ _ _ _ _) in E.
    assert (G3 : g_out g3 = g_out g /\ g_s g3 = g_s g2 /\ e_hmin (g_ode g3) = hmin /\ (e_nok (g_ode g3) + e_nbad (g_ode g3) = 1 + nstp)%nat).
    { unfold g3. cbn [g_out g_s g_ode]. rewrite So, Se. destruct (Req_EM_T _ _); cbn [e_hmin e_nok e_nbad]; repeat split; auto; lia. }
    clearbody g3. destruct G3 as (G3o & G3s & G3hm & G3n).
    pose proof (record_spec fuel (Z.of_nat nstp) (p_x (g_s g2)) (p_y (g_s g2)) (p_hdid (g_s g2)) g3 n dt l) as R. rewrite G3o, G3s in R. specialize (R Hs ltac:(congruence) ltac:(congruence) ltac:(congruence)).
    destruct (record fuel (Z.of_nat nstp) (p_x (g_s g2)) (p_y (g_s g2)) (p_hdid (g_s g2)) g3) as [r4 g4]. destruct R as (R1 & R2 & R3 & R4 & R5 & l' & R6 & R7 & R8).
    destruct r4 as [u4|e4]; [|injection E as -> _; destruct R8 as [R8|[R8|R8]]; discriminate].
    unfold bind at 1 in E. cbv zeta in E. destruct (Rle_dec 0 _) as [Q|Q].
    + exfalso. unfold bind at 1 in E. match type of E with (if ?b then ?T else ?F) ?G = _ => set (g5 := G) in E; destruct b end; [|discriminate].
      destruct (Rlt_dec _ _); [|discriminate]. unfold onout in E. assert (G5 : g_out g5 = g_out g4) by reflexivity. rewrite G5 in E.
      destruct (save_good n dt l' (g_out g4) (p_x (g_s g2)) (p_y (g_s g2)) R6 ltac:(congruence)) as (o7 & E7 & _). rewrite Sdt, Hdt, E7 in E. discriminate.
    + rewrite R4, G3hm in E. destruct (Rle_dec (Rabs (p_hnext (g_s g2))) hmin) as [Z|Z].
      * injection E as <-. right. rewrite R3. exact Z.
      * unfold bind at 1 in E. apply (IH _ l' _ _ ltac:(rewrite <- Hl; apply Nat.add_succ_r) ) in E; [exact E| | | | |].
        -- exact R6.
        -- cbn [g_s]. congruence.
        -- cbn [g_s]. congruence.
        -- cbn [g_ode e_hmin]. rewrite R4. exact G3hm.
        -- cbn [g_ode e_nok e_nbad]. rewrite R4. exact G3n.
Qed.

(*! C42: the run-time error of integrate means what it says: if the right-hand side does not itself raise it, either exactly 50000 steps were taken or the next proposed step is at most hmin. *)
Lemma C42_runtime_error_l : forall (W : Type) (f : R -> list C -> M W (list C)) (fuel : nat) (w : W) (con : ctrl) (ystart : list C) (x1 x2 atol rtol h1 hmin : R) (nsaves : nat) (dense : bool) (dt : dtype) (g : G W),
  (forall x y w, fst (f x y w) <> Raise RuntimeError) ->
  integrate f fuel (new_ode w con ystart x1 x2 atol rtol h1 hmin (new_output (Some nsaves)) dense dt) = (Raise RuntimeError, g) ->
  (Z.of_nat (e_nok (g_ode g)) + Z.of_nat (e_nbad (g_ode g)) = 50000)%Z \/ Rabs (p_hnext (g_s g)) <= hmin.
Proof.
  intros W f fuel w con ys x1 x2 atol rtol h1 hmin k dense dt g' Hf E.
  cut ((e_nok (g_ode g') + e_nbad (g_ode g') = MAXSTP)%nat \/ Rabs (p_hnext (g_s g')) <= hmin).
  { intros [H|H]; [left|now right]. rewrite <- Nat2Z.inj_add, H. unfold MAXSTP. rewrite N_nat_Z. reflexivity. }
  rewrite integrate_unfold in E. unfold new_ode in E. cbn [g_s g_ode p_y e_x1 e_h new_stepper] in E. set (g := mkG w _ _ _ _) in E.
  unfold bind at 1 in E. pose proof (keeps_deriv f (length ys) x1 ys g) as K. pose proof (only_deriv f (length ys) x1 ys g) as O. destruct (deriv f (length ys) x1 ys g) as [[d|e] g1]; cbn [fst snd] in K, O.
  2: { exfalso. injection E as -> _. destruct (O RuntimeError eq_refl) as (x & y & w' & S). exact (Hf x y w' S). }
  destruct K as (K1 & K2 & K3 & K4 & K5 & K6 & K7 & K8 & K9 & K10 & K11 & K12 & K13).
  unfold bind at 1, set_s, modify in E. unfold bind at 1 in E. set (g2 := mkG (g_w g1) _ _ _ _) in E.
  assert (Hs : stored (length ys) dt [] (g_out g2)) by (unfold g2; cbn [g_out]; rewrite K2; apply stored_init).
  assert (Hdt : p_dtype (g_s g2) = dt) by (unfold g2; cbn [g_s p_dtype]; rewrite K13; reflexivity).
  assert (Hy : p_y (g_s g2) = ys) by (unfold g2; cbn [g_s p_y]; rewrite K6; reflexivity).
  assert (He : g_ode g2 = mkOde x1 x2 hmin dense (Rabs h1 * sgn (x2 - x1)) 0 0 0 ys) by (unfold g2; cbn [g_ode]; rewrite K3; reflexivity).
  clearbody g2. pose proof (record_spec fuel (-1) x1 ys (Rabs h1 * sgn (x2 - x1)) g2 (length ys) dt [] Hs Hdt eq_refl ltac:(congruence)) as R.
  destruct (record fuel (-1) x1 ys (Rabs h1 * sgn (x2 - x1)) g2) as [r3 g3]. destruct R as (R1 & R2 & R3 & R4 & R5 & l' & R6 & R7 & R8).
  destruct r3 as [u|e]; [|injection E as -> _; destruct R8 as [R8|[R8|R8]]; discriminate].
  refine (iloop_runtime f Hf (length ys) dt hmin fuel MAXSTP 0 l' g3 g' (Nat.add_0_r _) R6 _ _ _ _ E); rewrite ?R3, ?R4, ?He; try reflexivity; congruence.
Qed.

Section Fresh.
Import ModelFiber FiberShareProofs.
Variable polyfit : list R -> list R -> nat -> result (list R).
Variable spline : list R -> list R -> list R -> result (list R).
Lemma fresh_world dbs : forall w, (exists t, fw_heap w = empty_specs :: t) -> (forall i f, nth_error (fw_fs w) i = Some f -> f_specs f = None /\ f_dz f = None) ->
  let w' := frun polyfit spline (map FNew dbs) w in (exists t, fw_heap w' = empty_specs :: t) /\ (forall i f, nth_error (fw_fs w') i = Some f -> f_specs f = None /\ f_dz f = None) /\ (length (fw_fs w') = length (fw_fs w) + length dbs)%nat.
Proof.
  induction dbs as [|db dbs IH]; intros w (t & Ht) Hn; cbn [map frun fold_left].
  - cbv zeta. split; [eauto|]. split; [exact Hn|]. cbn. lia.
  - set (w1 := snd _). destruct (IH w1) as (A & B & D).
    + exists (t ++ map snd db). unfold w1. cbn. rewrite Ht. reflexivity.
    + intros i f Hi. unfold w1 in Hi. cbn [fstep snd fw_fs fiber_init] in Hi. destruct (Nat.lt_ge_cases i (length (fw_fs w))) as [L|L].
      * rewrite nth_error_app1 in Hi by exact L. now apply (Hn i).
      * rewrite nth_error_app2 in Hi by exact L. destruct (i - length (fw_fs w))%nat as [|j]; [|destruct j; discriminate]. injection Hi as <-. auto.
    + split; [exact A|]. split; [exact B|]. unfold frun in D |- *. rewrite D. unfold w1. cbn [fstep snd fw_fs]. rewrite app_length. cbn [length]. lia.
Qed.
End Fresh.

(*! C57: a fiber that was only constructed knows nothing: in a fresh process, as long as the other fibers are configured through their own dictionaries (generate_fiber, load_from_db), its get_gain and get_betas raise KeyError. *)
Lemma C57_unconfigured_partial_l : forall (polyfit : list R -> list R -> nat -> result (list R)) (spline : list R -> list R -> list R -> result (list R)) (dbs : list (list (String.string * ModelFiber.specs))) (others : list ModelFiber.fop) (i : nat) (p : pulse) (z : R),
  (i < length dbs)%nat ->
  (forall o, In o others -> match o with ModelFiber.FNew _ => True
    | ModelFiber.FGenerate j _ _ _ _ _ _ _ | ModelFiber.FLoadDb j _ _ _ | ModelFiber.FSetGamma j _ | ModelFiber.FGain j _ | ModelFiber.FBetas j _ _ | ModelFiber.FGamma j _ | ModelFiber.FBeta2 j _ => j <> i
    | ModelFiber.FLoadFile _ _ _ _ _ _ _ _ | ModelFiber.FSetDisp _ _ _ => False end) ->
  let w := ModelFiber.frun polyfit spline (map ModelFiber.FNew dbs ++ others) ModelFiber.fworld0 in
  fst (ModelFiber.fstep polyfit spline w (ModelFiber.FGain i p)) = ModelFiber.FArr (Raise KeyError) /\
  fst (ModelFiber.fstep polyfit spline w (ModelFiber.FBetas i p z)) = ModelFiber.FOpt (Raise KeyError).
Proof.
  intros polyfit spline dbs others i p z Hi Ho w. unfold w, ModelFiber.frun. rewrite fold_left_app. fold (ModelFiber.frun polyfit spline (map ModelFiber.FNew dbs) ModelFiber.fworld0).
  destruct (fresh_world polyfit spline dbs ModelFiber.fworld0) as ((t & Ht) & Hn & Hl); [now exists []|intros j f Hj; destruct j; discriminate|].
  cbn [ModelFiber.fworld0 ModelFiber.fw_fs length Nat.add] in Hl.
  pose proof (FiberShareProofs.C57_other_operations_partial_l polyfit spline (map ModelFiber.FNew dbs) others i) as Q. cbv zeta in Q.
  set (w0 := ModelFiber.frun polyfit spline (map ModelFiber.FNew dbs) ModelFiber.fworld0) in *.
  destruct (nth_error (ModelFiber.fw_fs w0) i) as [f|] eqn:Ef; [|apply nth_error_None in Ef; lia]. destruct (Hn i f Ef) as [S D].
  split; (etransitivity; [apply Q; [lia|exact Ho|reflexivity]|]); cbn [ModelFiber.fstep]; unfold ModelFiber.call; rewrite Ef;
    unfold ModelFiber.get_gain, ModelFiber.get_betas, ModelFiber.refresh, ModelFiber.pV, bind, gets, ModelFiber.key, ModelFiber.self_specs, ModelFiber.cell; cbn [fst snd]; rewrite ?D; unfold gets, bind, ret, lift; cbn [fst snd]; rewrite ?S, ?Ht; cbn.
  all: reflexivity.
Qed.

(** Fibers, pulses and the split-step solver together. *)
From Coq Require Import String.
From Coq Require Import Reals List ZArith Bool Arith Factorial Lia Lra.
From Coquelicot Require Import Complex.
From Verif Require Import Base CNum NumPy ModelFFT FFTProofs ModelPulse PulseProofs PulseRegridProofs PulseMoreProofs ModelSSFM SSFMLoopProofs SSFMProofs SSFMSymProofs SSFMPropProofs SSFMTrivProofs SSFMRamanProofs SSFMGnlseProofs ModelRun.
From Verif Require ModelCrystal ModelFiber FiberProofs FiberLocalProofs CrystalShareProofs.
Import ListNotations.
Local Open Scope R_scope.
Local Open Scope py_scope.
Local Notation z0 := (RtoC 0).
Local Notation fibr := (ModelFiber.heap * ModelFiber.fiber)%type.

(** the propagation constant of bin k of a grid of 2m points with spacing d (rad/ps) around f THz, of a fiber with Taylor coefficients b (ps^n/m) around the wavelength c (nm), relative
    to the grid centre: value at the bin minus value and (symmetric difference) slope at the centre *)
Definition beta_bin (m : nat) (tw f c : R) (b : list R) (k : nat) : R :=
  let d := 2 * PI / tw in let w k := 2 * PI * f + (INR k - INR m) * d in
  let P v := rsum (length b) (fun i => nth i b 0 / INR (fact (i + 2)) * (v - 2 * PI * c_nmps / c) ^ (i + 2)) in
  P (w k) - P (w m) - (P (w (m + 1)%nat) - P (w (m - 1)%nat)) / (2 * d) * (w k - w m).

(** a fiber state that holds Taylor coefficients df z (constant or position-dependent), length, gamma and gain *)
Definition taylor_fiber (s : fibr) (len center gamma gain : R) (df : R -> list R) : Prop :=
  ModelFiber.d_format (ModelFiber.self_specs s) = Some "GVD"%string /\ ModelFiber.f_center (snd s) = Some center /\ ModelFiber.f_length (snd s) = Some len /\ ModelFiber.f_gamma (snd s) = Some gamma /\
  (forall z, fst (ModelFiber.get_gamma z s) = Ok (Some gamma)) /\ (forall p, fst (ModelFiber.get_gain p s) = Ok (repeat gain (p_n p))) /\
  forall z, match ModelFiber.f_dz (snd s) with None => ModelFiber.f_betas (snd s) = Some (df z) | Some (ModelFiber.DBetas g) => g z = df z | Some (ModelFiber.DXY _) => False end.

Lemma view_answers polyfit spline s len center gamma gain df p m op : taylor_fiber s len center gamma gain df ->
  p_ready p = true -> p_n p = (2 * m)%nat -> (1 < m)%nat -> p_tw p <> 0 -> center <> 0 ->
  answers (view polyfit spline s) p op (fun z => mk (p_n p) (beta_bin m (p_tw p) (p_f p) center (df z))) (repeat gain (p_n p)).
Proof.
  intros (F1 & F2 & F3 & F4 & F5 & F6 & F7) Hr Hn Hm Ht Hc. split; [|split; [|split]].
  - intros z q L. exists q. split; [|exact L]. destruct (like_fields p q L) as (E1 & E2 & E3 & _ & _ & E6). cbn [view fb_betas]. rewrite <- E1 in Hn. rewrite <- E6 in Hr. rewrite <- E3 in Ht.
    destruct (FiberProofs.C55_gvd_value_l polyfit spline q z m s center (df z) Hr Hn Hm Ht F1 F2 Hc (F7 z)) as (B & s' & E & LB & V). rewrite E. cbn [fst]. f_equal. f_equal.
    apply (list_ext 0); [now rewrite mk_length, LB|]. intros k Hk. rewrite LB in Hk. rewrite V by exact Hk. rewrite mk_nth by (rewrite <- E1; exact Hk). unfold beta_bin. rewrite E3, E2. reflexivity.
  - intros q L. exists q. split; [|exact L]. destruct (like_fields p q L) as (E1 & _). cbn [view fb_gain]. rewrite F6, E1. reflexivity.
  - intros z. apply mk_length.
  - apply repeat_length.
Qed.

Lemma generated_taylor (h : ModelFiber.heap) f len center betas gamma gain units label : ModelFiber.f_dz f = None -> ModelFiber.f_gz f = None ->
  exists st, ModelFiber.generate_fiber len center betas gamma gain units label (h, f) = (Ok tt, st) /\
    taylor_fiber st len center gamma gain (fun _ => if String.eqb units "ps^n/km" then map (fun b => b * 1.0e-3) betas else betas) /\
    forall df, exists st', ModelFiber.set_dispersion_function (ModelFiber.DBetas df) "GVD" st = (Ok tt, st') /\ taylor_fiber st' len center gamma gain df.
Proof.
  intros Zd Zg. destruct (FiberProofs.C56_parameters_l h f len center betas gamma gain units label) as (h' & f' & E & H1 & H2 & H3 & H4 & H5). exists (h', f'). split; [exact E|].
  assert (X : f' = (if String.eqb units "ps^n/km" then ModelFiber.set_betas (map (fun b => b * 1.0e-3) betas) else fun x => x) (ModelFiber.set_gamma gamma (ModelFiber.set_betas betas (ModelFiber.set_center center (ModelFiber.set_gain gain (ModelFiber.set_type label (ModelFiber.set_specs (Some (List.length h)) (ModelFiber.set_length len f))))))) /\
     exists x, h' = h ++ [x] /\ x = ModelFiber.with_gain_x None (ModelFiber.with_is_gain (negb (ModelFiber.is_zero gain)) (ModelFiber.with_format "GVD" ModelFiber.empty_specs))).
  { apply (f_equal snd) in E. cbn [snd] in E. unfold ModelFiber.generate_fiber, ModelFiber.put_specs, ModelFiber.on_fiber, modify, bind, gets, ret in E. cbn [fst snd ModelFiber.cell ModelFiber.f_specs ModelFiber.set_specs ModelFiber.set_type ModelFiber.set_gain] in E. 
    rewrite !FiberProofs.upd_app_last in E. destruct (String.eqb units "ps^n/km"); cbn [snd fst] in E; injection E as <- <-; (split; [reflexivity|eexists; split; reflexivity]). }
  destruct X as (X & x & Xh & Xx).
  assert (D : ModelFiber.f_dz f' = None /\ ModelFiber.f_gz f' = None /\ ModelFiber.f_gamma f' = Some gamma /\ ModelFiber.cell f' = List.length h /\ ModelFiber.f_gain f' = Some gain /\ ModelFiber.f_betas f' = Some (if String.eqb units "ps^n/km" then map (fun b => b * 1.0e-3) betas else betas)).
  { rewrite X. destruct (String.eqb units "ps^n/km"); repeat split; assumption. }
  destruct D as (D1 & D2 & D3 & D4 & D5 & D6). split.
  - repeat split; try assumption; [intros z; now rewrite H4|intros p; now rewrite H5|]. intros z. cbn [snd]. now rewrite D1.
  - intros df. eexists. split; [unfold ModelFiber.set_dispersion_function, ModelFiber.put_specs, ModelFiber.on_fiber, modify, bind; cbn [fst snd]; reflexivity|]. rewrite D4, Xh, FiberProofs.upd_app_last.
    assert (G5 : forall p, fst (ModelFiber.get_gain p (h ++ [ModelFiber.with_format "GVD" x], ModelFiber.set_dz (ModelFiber.DBetas df) f')) = Ok (repeat gain (p_n p))).
    { intros p. set (st := (h ++ [ModelFiber.with_format "GVD" x], ModelFiber.set_dz (ModelFiber.DBetas df) f')).
      assert (Sp : ModelFiber.self_specs st = ModelFiber.with_format "GVD" x) by (unfold ModelFiber.self_specs, st; cbn [fst snd]; change (ModelFiber.cell (ModelFiber.set_dz (ModelFiber.DBetas df) f')) with (ModelFiber.cell f'); rewrite D4, app_nth2, Nat.sub_diag by lia; reflexivity).
      assert (Sg : ModelFiber.f_gain (snd st) = Some gain) by exact D5. clearbody st. subst x. unfold ModelFiber.get_gain, ModelFiber.key, ModelFiber.attr, bind, gets. rewrite Sp. cbn [ModelFiber.d_is_gain ModelFiber.with_gain_x ModelFiber.with_is_gain ModelFiber.with_format]. unfold ret, ModelFiber.is_zero.
      destruct (Req_EM_T gain 0) as [->|Ng]; cbn [negb]; [reflexivity|]. rewrite Sp. cbn [ModelFiber.d_gain_x ModelFiber.with_gain_x ModelFiber.with_is_gain ModelFiber.with_format]. match goal with |- context[ModelFiber.f_gain ?x] => replace (ModelFiber.f_gain x) with (Some gain) by (symmetry; exact Sg) end. reflexivity. }
    split. { unfold ModelFiber.self_specs. cbn [fst snd]. change (ModelFiber.cell (ModelFiber.set_dz (ModelFiber.DBetas df) f')) with (ModelFiber.cell f'). rewrite D4, app_nth2, Nat.sub_diag by lia. reflexivity. }
    repeat split; try assumption. intros z. unfold ModelFiber.get_gamma, bind, gets, ret. cbn [snd]. change (ModelFiber.f_gz (ModelFiber.set_dz (ModelFiber.DBetas df) f')) with (ModelFiber.f_gz f'). rewrite D2. cbn [fst]. f_equal. exact D3.
Qed.

Section Linear.
Variables (polyfit : list R -> list R -> nat -> result (list R)) (spline : list R -> list R -> list R -> result (list R)).
Lemma taylor_setting st len center gamma gain df c N op s p a m Rw F : taylor_fiber st len center gamma gain df -> center <> 0 ->
  holds p a -> p_n p = (2 * m)%nat -> (1 < m)%nat -> p_tw p <> 0 -> p_f p <> 0 -> fst (calc_raman c (s_fR s) p) = Ok (Rw, F) -> (0 < N)%nat -> 0 < len -> 0 < s_dz s ->
  setting c (view polyfit spline st) N op s p a (fun z => mk (p_n p) (beta_bin m (p_tw p) (p_f p) center (df z))) (repeat gain (p_n p)) Rw F.
Proof.
  intros T Hc Hh Hn Hm Ht Hf HR HN HL Hd. pose proof Hh as (Hr & _). split; [exact Hh|]. split; [lia|]. split; [exact Hf|]. split; [exact (view_answers polyfit spline st len center gamma gain df p m op T Hr Hn Hm Ht Hc)|]. split; [exact HR|]. split; [exact HN|]. split; [|exact Hd].
  destruct T as (_ & _ & E & _). cbn [view fb_len]. now rewrite E.
Qed.
Lemma taylor_run st len center gain df c fuel N op reload s p a m Rw F z AW AT po s' q : taylor_fiber st len center 0 gain df -> center <> 0 ->
  holds p a -> p_n p = (2 * m)%nat -> (1 < m)%nat -> p_tw p <> 0 -> p_f p <> 0 -> fst (calc_raman c (s_fR s) p) = Ok (Rw, F) -> (0 < N)%nat -> 0 < len -> 0 < s_dz s ->
  c_method c = METHOD_RK4IP -> (2 <= c_eta c)%nat ->
  propagate c fuel (view polyfit spline st) N op reload s p = (Ok (Some (z, AW, AT, po, s')), q) ->
  get_AW po = (Ok (last AW []), po) /\
  exists d : nat -> R, (forall j, (j < N)%nat -> len / INR N <= d j /\ (d j = len / INR N \/ exists last, 0 < len / INR N - (d j - last) <= 2 * / 10 ^ 12)) /\
  forall i k, (i < N)%nat -> (k < p_n p)%nat ->
    nth k (nth i AW []) z0 = (nth k a z0 * cexp (gain / 2 * rsum (S i) d, rsum (S i) (fun j => d j * beta_bin m (p_tw p) (p_f p) center (df (if reload then INR j * len / INR N else 0)%R) k))%R)%C.
Proof.
  intros T Hc Hh Hn Hm Ht Hf HR HN HL Hd Hme He H. pose proof (taylor_setting st len center 0 gain df c N op s p a m Rw F T Hc Hh Hn Hm Ht Hf HR HN HL Hd) as Hs.
  assert (Ev : Nat.even (p_n p) = true) by (rewrite Hn, Nat.even_mul; reflexivity). destruct T as (_ & _ & E3 & _ & E5 & _). assert (EL : fb_len (view polyfit spline st) = len) by (cbn [view fb_len]; now rewrite E3).
  split; [exact (proj1 (C33_output_is_last_column_partial_l _ _ _ _ _ _ _ _ _ _ _ _ _ _ _ _ _ _ _ Hs (or_intror Ev) H))|].
  destruct (C33_propagate_bookkeeping_l _ _ _ _ _ _ _ _ _ _ _ _ _ _ _ _ _ _ _ Hs H) as (_ & Z & _).
  destruct (C75_linear_fiber_columns_l _ _ _ _ _ _ _ _ _ _ _ _ _ _ _ _ _ _ _ Hs Hme He (or_intror Ev) ltac:(intros x; cbn [view fb_get_gamma]; now rewrite E5) H) as (d & H1 & H2).
  rewrite EL in H1, Z. exists d. split; [exact H1|]. intros i k Hi Hk. rewrite (H2 i k Hi Hk). f_equal. f_equal. f_equal.
  - rewrite <- rsum_scal_l. apply rsum_ext. intros j Hj. rewrite (nth_indep _ 0 gain) by (now rewrite repeat_length). rewrite nth_repeat. unfold Rdiv. ring.
  - apply rsum_ext. intros j Hj. rewrite mk_nth by exact Hk. f_equal. f_equal. destruct reload; [|reflexivity]. apply f_equal, Z. lia.
Qed.
End Linear.

(*! C103: a fiber generated from Taylor coefficients without nonlinearity, a pulse on an even grid and the solver (RK4IP) together: propagate returns, and bin k of AW column i is the input bin times
    exp(D (gain/2 + i beta_k)): D is the distance covered so far, gain the power gain per metre given to generate_fiber and beta_k the Taylor series around the fiber's centre wavelength with its value and slope at the
    pulse's centre removed; pulse_out is the last column.  D is (i+1) L/N unless a residue below 2e-12 m was left before a last step (C28). *)
Lemma C103_uniform_fiber_l : forall (polyfit : list R -> list R -> nat -> result (list R)) (spline : list R -> list R -> list R -> result (list R)) (h : ModelFiber.heap) (f : ModelFiber.fiber) (len center : R) (betas : list R) (gain : R) (units label : string)
  (c : cfg) (N : nat) (op : option R) (reload : bool) (s : ssfm) (p : pulse) (a : list C) (m : nat) (Rw : list C) (F : R),
  ModelFiber.f_dz f = None -> ModelFiber.f_gz f = None -> center <> 0 -> 0 < len ->
  holds p a -> p_n p = (2 * m)%nat -> (1 < m)%nat -> p_tw p <> 0 -> p_f p <> 0 -> fst (calc_raman c (s_fR s) p) = Ok (Rw, F) -> (0 < N)%nat -> 0 < s_dz s -> c_method c = METHOD_RK4IP -> (2 <= c_eta c)%nat ->
  let b := if String.eqb units "ps^n/km" then map (fun b => b * 1.0e-3) betas else betas in
  exists st, ModelFiber.generate_fiber len center betas 0 gain units label (h, f) = (Ok tt, st) /\
  (exists fuel r q, propagate c fuel (view polyfit spline st) N op reload s p = (Ok (Some r), q)) /\
  forall fuel z AW AT po s' q, propagate c fuel (view polyfit spline st) N op reload s p = (Ok (Some (z, AW, AT, po, s')), q) ->
    get_AW po = (Ok (last AW []), po) /\
    exists d : nat -> R, (forall j, (j < N)%nat -> len / INR N <= d j /\ (d j = len / INR N \/ exists last, 0 < len / INR N - (d j - last) <= 2 * / 10 ^ 12)) /\
    forall i k, (i < N)%nat -> (k < p_n p)%nat -> let D := rsum (S i) d in
      nth k (nth i AW []) z0 = (nth k a z0 * cexp (D * (gain / 2), D * beta_bin m (p_tw p) (p_f p) center b k)%R)%C.
Proof.
  intros polyfit spline h f len center betas gain units label c N op reload s p a m Rw F Zd Zg Hc HL Hh Hn Hm Ht Hf HR HN Hd Hme He b.
  destruct (generated_taylor h f len center betas 0 gain units label Zd Zg) as (st & E & T & _). exists st. split; [exact E|]. fold b in T.
  pose proof (taylor_setting polyfit spline st len center 0 gain (fun _ => b) c N op s p a m Rw F T Hc Hh Hn Hm Ht Hf HR HN HL Hd) as Hs.
  split.
  - destruct (C33_propagate_returns_l c _ N op reload s p _ _ _ _ _ Hs) as (fuel & z & AW & AT & po & s' & q & H). exists fuel. eexists. exists q. exact H.
  - intros fuel z AW AT po s' q H. destruct (taylor_run polyfit spline st len center gain (fun _ => b) c fuel N op reload s p a m Rw F z AW AT po s' q T Hc Hh Hn Hm Ht Hf HR HN HL Hd Hme He H) as (O & d & H1 & H2).
    split; [exact O|]. exists d. split; [exact H1|]. intros i k Hi Hk. cbv zeta. rewrite (H2 i k Hi Hk). f_equal. f_equal. f_equal; [ring|]. rewrite Rmult_comm, <- rsum_scal_l. apply rsum_ext. intros j Hj. ring.
Qed.

(*! C103: the same fiber with Taylor coefficients df(z) that depend on the position, reloaded at each step: the phase is the sum over the slices of slice length times the propagation constant of df at the beginning of the slice;
    without reloading it is that of the fiber's input. *)
Lemma C103_varying_fiber_l : forall (polyfit : list R -> list R -> nat -> result (list R)) (spline : list R -> list R -> list R -> result (list R)) (h : ModelFiber.heap) (f : ModelFiber.fiber) (len center : R) (betas : list R) (gain : R) (units label : string) (df : R -> list R)
  (c : cfg) (N : nat) (op : option R) (reload : bool) (s : ssfm) (p : pulse) (a : list C) (m : nat) (Rw : list C) (F : R),
  ModelFiber.f_dz f = None -> ModelFiber.f_gz f = None -> center <> 0 -> 0 < len ->
  holds p a -> p_n p = (2 * m)%nat -> (1 < m)%nat -> p_tw p <> 0 -> p_f p <> 0 -> fst (calc_raman c (s_fR s) p) = Ok (Rw, F) -> (0 < N)%nat -> 0 < s_dz s -> c_method c = METHOD_RK4IP -> (2 <= c_eta c)%nat ->
  exists st, (ModelFiber.generate_fiber len center betas 0 gain units label ;;; ModelFiber.set_dispersion_function (ModelFiber.DBetas df) "GVD") (h, f) = (Ok tt, st) /\
  (exists fuel r q, propagate c fuel (view polyfit spline st) N op reload s p = (Ok (Some r), q)) /\
  forall fuel z AW AT po s' q, propagate c fuel (view polyfit spline st) N op reload s p = (Ok (Some (z, AW, AT, po, s')), q) ->
    get_AW po = (Ok (last AW []), po) /\
    exists d : nat -> R, (forall j, (j < N)%nat -> len / INR N <= d j /\ (d j = len / INR N \/ exists last, 0 < len / INR N - (d j - last) <= 2 * / 10 ^ 12)) /\
    forall i k, (i < N)%nat -> (k < p_n p)%nat ->
      nth k (nth i AW []) z0 = (nth k a z0 * cexp (gain / 2 * rsum (S i) d, rsum (S i) (fun j => d j * beta_bin m (p_tw p) (p_f p) center (df (if reload then INR j * len / INR N else 0)%R) k))%R)%C.
Proof.
  intros polyfit spline h f len center betas gain units label df c N op reload s p a m Rw F Zd Zg Hc HL Hh Hn Hm Ht Hf HR HN Hd Hme He.
  destruct (generated_taylor h f len center betas 0 gain units label Zd Zg) as (st0 & E0 & _ & Q). destruct (Q df) as (st & E & T). exists st. split; [unfold bind; rewrite E0; exact E|].
  pose proof (taylor_setting polyfit spline st len center 0 gain df c N op s p a m Rw F T Hc Hh Hn Hm Ht Hf HR HN HL Hd) as Hs.
  split.
  - destruct (C33_propagate_returns_l c _ N op reload s p _ _ _ _ _ Hs) as (fuel & z & AW & AT & po & s' & q & H). exists fuel. eexists. exists q. exact H.
  - intros fuel z AW AT po s' q H. exact (taylor_run polyfit spline st len center gain df c fuel N op reload s p a m Rw F z AW AT po s' q T Hc Hh Hn Hm Ht Hf HR HN HL Hd Hme He H).
Qed.

(** Fibers whose dispersion and nonlinearity depend on the position. *)
From Coq Require Import String.
From Coq Require Import Reals List ZArith Bool Arith Lia Lra.
From Verif Require Import Base NumPy FFTProofs ModelPulse ModelDerived PulseProofs ModelODE ModelCrystal CrystalShareProofs ModelFiber FiberProofs.
Import ListNotations.
Local Open Scope R_scope.
Local Open Scope py_scope.

Lemma history polyfit spline calls (h : heap) f : exists f', fold_left (fun s c => snd (get_betas polyfit spline (fst c) (snd c) s)) calls (h, f) = (h, f') /\ alike (nth (cell f) h empty_specs) f f'.
Proof.
  set (d := nth (cell f) h empty_specs). assert (A : alike d f f) by (exists (f_betas f), (f_x f), (f_y f); split; [destruct f; reflexivity|repeat split]). enough (HI : forall f0, alike d f f0 -> exists f', fold_left (fun s c => snd (get_betas polyfit spline (fst c) (snd c) s)) calls (h, f0) = (h, f') /\ alike d f f') by exact (HI f A). clear A.
  induction calls as [|c calls IH]; intros f0 A; cbn [fold_left]; [eauto|]. assert (d = nth (cell f0) h empty_specs) by (destruct A as (? & ? & ? & -> & _); reflexivity). destruct (alike_step polyfit spline d h f0 (fst c) (snd c) H) as (f1 & E1 & A1). rewrite E1. exact (IH f1 (alike_trans _ _ _ _ A A1)).
Qed.

(*! C93: a fiber given by Taylor coefficients df and a nonlinearity gf that depend on the position answers, at position z and after any queries at other positions and for other pulses, what the uniform fiber generated from the
    values at z answers at any position: propagation constants, nonlinearity and gain. *)
Lemma C93_local_fiber_l : forall (polyfit : list R -> list R -> nat -> result (list R)) (spline : list R -> list R -> list R -> result (list R)) (s : heap * fiber) (len center : R) (b0 : list R) (g0 gain : R) (label : string) (df : R -> list R) (gf : R -> R),
  f_dz (snd s) = None -> f_gz (snd s) = None ->
  exists sv, (generate_fiber len center b0 g0 gain "ps^n/m" label ;;; set_dispersion_function (DBetas df) "GVD" ;;; set_gamma_function gf) s = (Ok tt, sv) /\
    forall (calls : list (pulse * R)) (z : R), let st := fold_left (fun s c => snd (get_betas polyfit spline (fst c) (snd c) s)) calls sv in
    exists su, generate_fiber len center (df z) (gf z) gain "ps^n/m" label s = (Ok tt, su) /\
      forall (p : pulse) (z' : R),
        fst (get_betas polyfit spline p z st) = fst (get_betas polyfit spline p z' su) /\
        get_gamma z st = (Ok (Some (gf z)), st) /\ fst (get_gamma z' su) = Ok (Some (gf z)) /\
        fst (get_gain p st) = fst (get_gain p su).
Proof.
  intros polyfit spline [h f] len center b0 g0 gain label df gf Zd Zg. cbn [snd] in Zd, Zg.
  set (F b g := set_gamma g (set_betas b (set_center center (set_gain gain (set_type label (set_specs (Some (List.length h)) (set_length len f))))))).
  set (d := with_gain_x None (with_is_gain (negb (is_zero gain)) (with_format "GVD" empty_specs))).
  assert (E : forall b g, generate_fiber len center b g gain "ps^n/m" label (h, f) = (Ok tt, (h ++ [d], F b g))).
  { intros b g. transitivity (@Ok unit tt, (upd (List.length h) (with_gain_x None) (upd (List.length h) (with_is_gain (negb (is_zero gain))) (upd (List.length h) (with_format "GVD") (h ++ [empty_specs]))), F b g)); [reflexivity|]. rewrite !upd_app_last. reflexivity. }
  eexists. split; [unfold bind at 1; rewrite E; unfold set_dispersion_function, set_gamma_function, put_specs, on_fiber, modify, bind, ret; cbn [fst snd]; reflexivity|].
  change (cell (F b0 g0)) with (List.length h). rewrite upd_app_last. change (with_format "GVD" d) with d. intros calls z. set (F1 := set_gz gf (set_dz (DBetas df) (F b0 g0))).
  destruct (history polyfit spline calls (h ++ [d]) F1) as (f' & Eh & A). change (cell F1) with (List.length h) in A. rewrite app_nth2, Nat.sub_diag in A by lia. cbn [nth] in A. cbv zeta. rewrite Eh. exists (h ++ [d], F (df z) (gf z)). split; [apply E|]. intros p z'.
  assert (C : cell f' = List.length h /\ f_gz f' = Some gf /\ f_gain f' = Some gain) by (destruct A as (? & ? & ? & -> & _); repeat split). destruct C as (C1 & C2 & C3). split; [|split; [|split]].
  - rewrite !get_betas_body. cbv zeta. rewrite C1. change (cell (F (df z) (gf z))) with (List.length h). rewrite app_nth2, Nat.sub_diag by lia. cbn [nth]. pose proof (alike_result polyfit spline d F1 f' p z A) as Q.
    assert (R1 : refreshed z d F1 = Ok (set_betas (df z) F1)) by reflexivity. rewrite R1 in Q. destruct (refreshed z d f') as [f1|]; [|contradiction]. cbn [fst]. rewrite Q. assert (R2 : refreshed z' d (F (df z) (gf z)) = Ok (F (df z) (gf z))) by (unfold refreshed; change (f_dz (F (df z) (gf z))) with (f_dz f); rewrite Zd; reflexivity). rewrite R2. cbn [fst].
    apply body_ext; reflexivity.
  - unfold get_gamma, bind, gets, ret. cbn [snd]. rewrite C2. reflexivity.
  - unfold get_gamma, bind, gets, ret. cbn [snd]. change (f_gz (F (df z) (gf z))) with (f_gz f). rewrite Zg. reflexivity.
  - assert (G : forall g, cell g = List.length h -> f_gain g = Some gain -> fst (get_gain p (h ++ [d], g)) = Ok (repeat gain (p_n p))); [|rewrite !G by (assumption || reflexivity); reflexivity].
    intros g K1 K2. assert (Sp : self_specs (h ++ [d], g) = d) by (unfold self_specs; cbn [fst snd]; rewrite K1, app_nth2, Nat.sub_diag by lia; reflexivity). unfold get_gain, key, attr, bind, gets. rewrite Sp. cbn [d d_is_gain with_gain_x with_is_gain]. unfold ret, is_zero. destruct (Req_EM_T gain 0) as [->|N]; cbn [negb]; [reflexivity|]. rewrite Sp. cbn [d d_gain_x with_gain_x snd]. rewrite K2. reflexivity.
Qed.
(*! C93: the same for a tabulated dispersion: the fiber read from a file and given a position-dependent tabulation answers at z as the fiber whose file holds the tabulation at z. *)
Lemma C93_local_table_l : forall (polyfit : list R -> list R -> nat -> result (list R)) (spline : list R -> list R -> list R -> result (list R)) (s : heap * fiber) (x0 y0 : list R) (len : R) (name : string) (g0 gain : R) (order : nat) (df : R -> list R * list R),
  f_dz (snd s) = None -> (cell (snd s) < length (fst s))%nat ->
  exists sv, (load_from_file x0 y0 len name g0 gain order ;;; set_dispersion_function (DXY df) "D") s = (Ok tt, sv) /\
    forall (calls : list (pulse * R)) (z : R), let st := fold_left (fun s c => snd (get_betas polyfit spline (fst c) (snd c) s)) calls sv in
    exists su, load_from_file (fst (df z)) (snd (df z)) len name g0 gain order s = (Ok tt, su) /\
      forall (p : pulse) (z' : R), fst (get_betas polyfit spline p z st) = fst (get_betas polyfit spline p z' su).
Proof.
  intros polyfit spline [h f] x0 y0 len name g0 gain order df Zd Hc. cbn [fst snd] in Zd, Hc.
  set (F x y := set_xy x y (set_gamma g0 (set_length len (set_gain gain (set_poly order (set_type name f)))))).
  set (H := upd (cell f) (with_gain_x None) (upd (cell f) (with_is_gain (negb (is_zero gain))) (upd (cell f) (with_format "D") h))).
  assert (E : forall x y, load_from_file x y len name g0 gain order (h, f) = (Ok tt, (H, F x y))) by reflexivity.
  eexists. split; [unfold bind at 1; rewrite E; unfold set_dispersion_function, put_specs, on_fiber, modify, bind, ret; cbn [fst snd]; reflexivity|]. change (cell (F x0 y0)) with (cell f). intros calls z. set (H1 := upd (cell f) (with_format "D") H). set (F1 := set_dz (DXY df) (F x0 y0)).
  assert (D : d_format (nth (cell f) H empty_specs) = Some "D"%string /\ d_format (nth (cell f) H1 empty_specs) = Some "D"%string) by (unfold H1, H; rewrite !upd_nth by (rewrite ?upd_length; exact Hc); rewrite !Nat.eqb_refl; split; reflexivity). destruct D as [D0 D1].
  destruct (history polyfit spline calls H1 F1) as (f' & Eh & A). change (cell F1) with (cell f) in A. cbv zeta. rewrite Eh. exists (H, F (fst (df z)) (snd (df z))). split; [apply E|]. intros p z'.
  rewrite !get_betas_body. cbv zeta. assert (C1 : cell f' = cell f) by (destruct A as (? & ? & ? & -> & _); reflexivity). rewrite C1. change (cell (F (fst (df z)) (snd (df z)))) with (cell f). pose proof (alike_result polyfit spline _ F1 f' p z A) as Q.
  assert (R1 : refreshed z (nth (cell f) H1 empty_specs) F1 = Ok (set_xy (fst (df z)) (snd (df z)) F1)) by (unfold refreshed; rewrite D1; reflexivity). rewrite R1 in Q. destruct (refreshed z _ f') as [f1|]; [|contradiction]. cbn [fst]. rewrite Q.
  assert (R2 : refreshed z' (nth (cell f) H empty_specs) (F (fst (df z)) (snd (df z))) = Ok (F (fst (df z)) (snd (df z)))) by (unfold refreshed; change (f_dz (F (fst (df z)) (snd (df z)))) with (f_dz f); rewrite Zd; reflexivity). rewrite R2. cbn [fst].
  unfold body. rewrite D0, D1. reflexivity.
Qed.

(** What load_from_db leaves behind for entries that are not in ps^n/km or carry a gain spectrum (C67). *)
From Coq Require Import String.
From Coq Require Import Reals List ZArith Bool Arith Lia Lra.
From Verif Require Import Base CNum NumPy ModelPulse PulseProofs ModelFiber FiberProofs.
Import ListNotations.
Local Open Scope R_scope.
Local Open Scope py_scope.

(*! C67: a Taylor-format entry in any other unit than ps^n/km is loaded without complaint, but its coefficients are dropped: betas is [0] whatever the fiber held before. *)
Lemma C67_other_units_refuted_l : forall (h : heap) (f : fiber) (len : R) (name u : string) (order l : nat) (g c : R) (b : list R),
  find_db name (f_db f) = Some l -> let e := nth l h empty_specs in
  d_format e = Some "GVD"%string -> d_units e = Some u -> u <> "ps^n/km"%string -> d_center e = Some c -> d_data e = Some b -> d_gamma e = Some g ->
  exists f', load_from_db len name order (h, f) = (Ok tt, (h, f')) /\ f_length f' = Some len /\ f_center f' = Some c /\ f_gamma f' = Some g /\ f_betas f' = Some [0].
Proof.
  intros h f len name u order l g c b Hf e He1 He2 Hu He3 He4 He5. unfold load_from_db, on_fiber, modify, bind, gets. cbn [fst snd f_db set_type]. rewrite Hf. unfold key, bind, gets, self_specs. cbn [fst snd cell f_specs set_betas set_length set_specs]. fold e. rewrite He5. unfold ret. cbn [fst snd].
  unfold load_dispersion, key, bind, gets, self_specs, on_fiber, modify. cbn [fst snd cell f_specs set_poly set_gamma set_betas set_length set_specs]. fold e. rewrite He1. unfold ret. cbn [String.eqb Ascii.eqb Bool.eqb fst snd cell f_specs set_poly set_gamma set_betas set_length set_specs]. fold e. rewrite He2. cbn [fst snd cell f_specs set_poly set_gamma set_betas set_length set_specs]. fold e. rewrite He3. cbn [fst snd].
  apply String.eqb_neq in Hu. rewrite Hu. eexists. split; [reflexivity|]. repeat split; reflexivity.
Qed.

(*! C67: an entry in tabulated format (D over wavelength) gives the fiber the entry's two columns, and no Taylor coefficient of an earlier fiber survives. *)
Lemma C67_tabulated_l : forall (h : heap) (f : fiber) (len : R) (name xu yu : string) (order l : nat) (g : R) (x y : list R),
  find_db name (f_db f) = Some l -> let e := nth l h empty_specs in
  d_format e = Some "D"%string -> d_xunits e = Some xu -> d_yunits e = Some yu -> d_x e = Some x -> d_y e = Some y -> d_gamma e = Some g ->
  exists f', load_from_db len name order (h, f) = (Ok tt, (h, f')) /\ f_length f' = Some len /\ f_gamma f' = Some g /\ f_x f' = Some x /\ f_y f' = Some y /\ f_poly f' = Some order /\ f_type f' = Some name /\ f_betas f' = Some [0].
Proof.
  intros h f len name xu yu order l g x y Hf e He1 He2 He3 He4 He6 He5. unfold load_from_db, on_fiber, modify, bind, gets. cbn [fst snd f_db set_type]. rewrite Hf. unfold key, bind, gets, self_specs. cbn [fst snd cell f_specs set_betas set_length set_specs]. fold e. rewrite He5. unfold ret. cbn [fst snd].
  unfold load_dispersion, key, bind, gets, self_specs, on_fiber, modify. cbn [fst snd cell f_specs set_poly set_gamma set_betas set_length set_specs]. fold e. rewrite He1. unfold ret. cbn [String.eqb Ascii.eqb Bool.eqb fst snd cell f_specs set_poly set_gamma set_betas set_length set_specs]. fold e. rewrite He2. cbn [fst snd cell f_specs set_poly set_gamma set_betas set_length set_specs]. fold e. rewrite He3. cbn [fst snd cell f_specs set_poly set_gamma set_betas set_length set_specs]. fold e. rewrite He4. cbn [fst snd cell f_specs set_poly set_gamma set_betas set_length set_specs]. fold e. rewrite He6.
  eexists. split; [reflexivity|]. repeat split; reflexivity.
Qed.

(*! C67: a fiber loaded from an entry with a gain spectrum can never report its gain: get_gain raises AttributeError for every pulse. *)
Lemma C67_gain_spectrum_refuted_l : forall (h h' : heap) (f f' : fiber) (len : R) (name : string) (order l : nat) (gx : list R),
  find_db name (f_db f) = Some l -> d_is_gain (nth l h empty_specs) = Some true -> d_gain_x (nth l h empty_specs) = Some (Some gx) ->
  load_from_db len name order (h, f) = (Ok tt, (h', f')) -> forall p, get_gain p (h', f') = (Raise AttributeError, (h', f')).
Proof.
  intros h h' f f' len name order l gx Hf Hg Hx H p.
  assert (Z : h' = h /\ f_specs f' = Some l).
  { unfold load_from_db, on_fiber, modify, bind, gets in H. cbn [fst snd f_db set_type] in H. rewrite Hf in H. unfold key, bind, gets, self_specs, ret, raise in H. cbn [fst snd cell f_specs set_betas set_length set_specs] in H. set (e := nth l h empty_specs) in *.
    destruct (d_gamma e); [|discriminate]. cbn [fst snd] in H. unfold load_dispersion, key, bind, gets, self_specs, on_fiber, modify, ret, raise in H. cbn [fst snd cell f_specs set_poly set_gamma set_betas set_length set_specs] in H. fold e in H.
    destruct (d_format e) as [fmt|]; [|discriminate]. destruct (String.eqb fmt "D"); cbn [fst snd cell f_specs set_poly set_gamma set_betas set_length set_specs] in H; fold e in H.
    - destruct (d_xunits e); [|discriminate]. cbn [fst snd cell f_specs set_poly set_gamma set_betas set_length set_specs] in H; fold e in H. destruct (d_yunits e); [|discriminate]. cbn [fst snd cell f_specs set_poly set_gamma set_betas set_length set_specs] in H; fold e in H. destruct (d_x e); [|discriminate]. cbn [fst snd cell f_specs set_poly set_gamma set_betas set_length set_specs] in H; fold e in H. destruct (d_y e); [|discriminate]. apply (f_equal snd) in H. cbn [snd] in H. injection H as <- <-. split; reflexivity.
    - destruct (String.eqb fmt "GVD"); cbn [fst snd cell f_specs set_poly set_gamma set_betas set_length set_specs] in H; fold e in H.
      + destruct (d_units e) as [u|]; [|discriminate]. cbn [fst snd cell f_specs set_poly set_gamma set_betas set_length set_specs] in H; fold e in H. destruct (d_center e); [|discriminate]. cbn [fst snd cell f_specs set_center set_poly set_gamma set_betas set_length set_specs] in H; fold e in H. destruct (String.eqb u "ps^n/km").
        * cbn [fst snd cell f_specs set_center set_poly set_gamma set_betas set_length set_specs] in H; fold e in H. destruct (d_data e); [|discriminate]. apply (f_equal snd) in H. cbn [snd] in H. injection H as <- <-. split; reflexivity.
        * apply (f_equal snd) in H. cbn [snd] in H. injection H as <- <-. split; reflexivity.
      + apply (f_equal snd) in H. cbn [snd] in H. injection H as <- <-. split; reflexivity. }
  destruct Z as [-> Z]. unfold get_gain, key, bind, gets, self_specs, cell. cbn [fst snd]. rewrite Z, Hg. unfold ret. cbn [fst snd]. rewrite Z, Hx. reflexivity.
Qed.

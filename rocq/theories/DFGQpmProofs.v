(** Quasi-phase-matching: what a poled crystal changes in the equations. *)
From Coq Require Import String.
From Coq Require Import Reals List ZArith Bool Arith Lia Lra.
From Coquelicot Require Import Coquelicot.
From Verif Require Import Base CNum NumPy FFTProofs ModelPulse Spec ModelDerived PulseProofs PulseHistory PulseRegridProofs ModelCrystal CrystalProofs ModelBeam BeamProofs ModelODE ModelDFG DFGMixProofs DFGPolingProofs DFGProofs DFGInitProofs DFGSymProofs DFGTotalProofs.
Import ListNotations.
Local Open Scope R_scope.
Local Open Scope py_scope.

(** the same crystal without poling *)
Definition unpoled (x : dcrystal) : dcrystal := mkDX (dx_x x) "simple" (dx_deff x) (dx_pp x).
Definition plain (q : dfg) : dfg :=
  mkDfg (q_pump q) (q_sgnl q) (q_idlr q) (unpoled (q_xtal q)) [] (q_gouy q) (q_noSPM q) (q_n q) (q_beams q) (q_ystart q) (q_kp q) (q_ks q) (q_ki q) (q_kp0 q) (q_ks0 q) (q_ki0 q) (q_np q) (q_ns q) (q_ni q) (q_centre q) (q_speed q).
Lemma init_plain strf fuel rand pump sgnl x noSPM waist gouy wg Aeff k0 q fc k1 : dx_mode x = "PP"%string -> dfg_init strf fuel rand pump sgnl x noSPM waist gouy wg Aeff k0 = (Ok (q, fc), k1) ->
  dfg_init strf fuel rand pump sgnl (unpoled x) noSPM waist gouy wg Aeff k0 = (Ok (plain q, fc), k1) /\ precompute_poling fuel x = Ok (q_doms q).
Proof.
  intros Md H. unfold dfg_init in *. assert (Mb : forall i, make_beams strf wg waist (match Aeff with Some a => a | None => 0 end) pump sgnl i (unpoled x) = make_beams strf wg waist (match Aeff with Some a => a | None => 0 end) pump sgnl i x) by (intros i; unfold make_beams, is_mode, unpoled; cbn [dx_mode dx_x]; rewrite Md; reflexivity).
  replace (is_mode x "PP") with true in H by (unfold is_mode; rewrite Md; reflexivity). change (is_mode (unpoled x) "PP") with false. cbv iota.
  Ltac follow H := apply bind_ok in H as (?v & ?k & ?E & H); unfold bind at 1; match goal with E : ?m = (Ok ?v, _) |- context [match ?m with _ => _ end] => rewrite E; clear E end; cbv beta iota zeta in H |- *.
  do 4 follow H. apply bind_ok in H as (doms & kd & Ed & H). apply lift_ok in Ed as [Ed ->]. unfold bind at 1. unfold lift at 1. cbv beta iota zeta in H |- *. rewrite Mb. unfold k_at, n_at in *. change (dx_x (unpoled x)) with (dx_x x).
  do 5 follow H. match goal with |- context [axes ?b] => destruct (axes b) as [[xp xs] xi] end. do 17 follow H.
  injection H as <- <- <-. split; [reflexivity|exact Ed].
Qed.
Lemma frame_plain strf q z s de ph pa s1 : dx_mode (q_xtal q) = "PP"%string -> frame strf q z s = (Ok (de, ph, pa), s1) -> de = poling (q_doms q) z * dx_deff (q_xtal q) /\ frame strf (plain q) z s = (Ok (dx_deff (q_xtal q), ph, pa), s1).
Proof.
  intros Md H. unfold frame in *. apply bind_ok in H as (d & k & E & H). apply lift_ok in E as [E ->]. unfold deff_at, is_mode in E. rewrite Md in E. injection E as <-. unfold bind at 1, lift at 1. cbn [deff_at plain q_xtal unpoled is_mode dx_mode dx_deff].
  change (deff_at (plain q) z) with (Ok (A := R) (dx_deff (q_xtal q))). cbv beta iota.
  change (P_to_a strf (plain q)) with (P_to_a strf q). change (add_gouy (plain q)) with (add_gouy q). cbn [plain q_pump q_sgnl q_idlr q_xtal q_n q_noSPM q_kp q_ks q_ki q_kp0 q_ks0 q_ki0 q_speed unpoled dx_x]. do 11 follow H. unfold ret in *. injection H as <- <- <- <-. split; reflexivity.
Qed.

(*! C92: poling a crystal changes the equations by a sign only.  If a problem with a poled crystal is accepted, so is the same problem with the crystal unpoled; at every distance and for every field the derivative of the poled
    problem is the derivative of the unpoled one, times -1 in the second half of each poling period that begins inside the crystal and times 1 elsewhere. *)
Lemma C92_poling_sign_l : forall strf fuel rand pump sgnl mat caching deff pp len noSPM waist gouy wg Aeff k0 q fc k1 n,
  let x mode := mkDX (mkX mat (Some len) caching) mode deff pp in
  dfg_init strf fuel rand pump sgnl (x "PP"%string) noSPM waist gouy wg Aeff k0 = (Ok (q, fc), k1) -> q_n q = n -> (2 <= n)%nat -> Nat.Even n -> (forall z, 0 <= z < len -> 0 < pp z) ->
  exists q', dfg_init strf fuel rand pump sgnl (x "simple"%string) noSPM waist gouy wg Aeff k0 = (Ok (q', fc), k1) /\
    forall z y dydx dydx' s d s1 d' s1', fc_ok n (ds_fc s) -> length y = (3 * n)%nat -> length dydx = (3 * n)%nat -> length dydx' = (3 * n)%nat ->
      deriv strf q z y dydx s = (Ok d, s1) -> deriv strf q' z y dydx' s = (Ok d', s1') ->
      let start := period_start pp 0 in let inside := fun k => forall j, (j <= k)%nat -> start j < len in
      (forall k, inside k -> start k <= z < start (S k) -> start k + pp (start k) / 2 < z -> d = map (fun v => - v)%C d') /\
      (forall k, inside k -> start k <= z < start (S k) -> z <= start k + pp (start k) / 2 -> d = d') /\
      ((forall k, inside k -> ~ (start k <= z < start (S k))) -> d = d').
Proof.
  intros strf fuel rand pump sgnl mat caching deff pp len noSPM waist gouy wg Aeff k0 q fc k1 n x H Qn Hn Ev Pp. destruct (init_plain strf fuel rand pump sgnl (x "PP"%string) noSPM waist gouy wg Aeff k0 q fc k1 eq_refl H) as [H' Hd]. exists (plain q). split; [exact H'|]. apply init_inv in H as (_ & _ & Qx & _).
  intros z y dydx dydx' s d s1 d' s1' Fc Ly Ld Ld' D D' start inside. assert (Fr := D). unfold deriv in Fr. apply bind_ok in Fr as (fr & s3 & Fr & _). destruct fr as [[de [[p1 p2] p3]] [[ap as_] ai]].
  destruct (frame_phi strf q z s de p1 p2 p3 _ s3 Fr) as (_ & [L1 _] & [L2 _] & [L3 _] & _). rewrite Qn in L1, L2, L3. destruct (frame_plain strf q z s de (p1, p2, p3) (ap, as_, ai) s3 ltac:(rewrite Qx; reflexivity) Fr) as [De Fr']. rewrite Qx in De, Fr'. cbn [x dx_deff] in De, Fr'.
  destruct (deriv_core strf q z y dydx s d s1 n de p1 p2 p3 ap as_ ai s3 Qn Hn Ev Fc Ly Ld Fr L1 L2 L3 D) as (_ & Lnd & wp & ws & wi & Ewp & Ews & Ewi & Np & Ns & Ni).
  destruct (deriv_core strf (plain q) z y dydx' s d' s1' n deff p1 p2 p3 ap as_ ai s3 Qn Hn Ev Fc Ly Ld' Fr' L1 L2 L3 D') as (_ & Lnd' & wp' & ws' & wi' & Ewp' & Ews' & Ewi' & Np' & Ns' & Ni').
  cbn [plain q_pump q_sgnl q_idlr] in Ewp', Ews', Ewi'. rewrite Ewp in Ewp'. rewrite Ews in Ews'. rewrite Ewi in Ewi'. injection Ewp' as <-. injection Ews' as <-. injection Ewi' as <-.
  assert (Sc : forall mix phi w sg nn pa, scaled mix phi w (sg * deff) nn pa = (RtoC sg * scaled mix phi w deff nn pa)%C) by (intros; unfold scaled; rewrite RtoC_mult; unfold Cdiv; ring).
  assert (V : forall m, (m < 3 * n)%nat -> at0 d m = (RtoC (poling (q_doms q) z) * at0 d' m)%C).
  { intros m Hm. assert (Pn : forall m, (m < n)%nat -> at0 (Ap q d) m = (RtoC (poling (q_doms q) z) * at0 (Ap (plain q) d') m)%C /\ at0 (As q d) m = (RtoC (poling (q_doms q) z) * at0 (As (plain q) d') m)%C /\ at0 (Ai q d) m = (RtoC (poling (q_doms q) z) * at0 (Ai (plain q) d') m)%C).
    { intros a Ha. destruct (Np a Ha) as (_ & _ & ->). destruct (Ns a Ha) as (_ & _ & ->). destruct (Ni a Ha) as (_ & _ & ->). destruct (Np' a Ha) as (_ & _ & ->). destruct (Ns' a Ha) as (_ & _ & ->). destruct (Ni' a Ha) as (_ & _ & ->). rewrite De, !Sc. auto. }
    destruct (Nat.lt_ge_cases m n) as [A|A]; [|destruct (Nat.lt_ge_cases m (2 * n)) as [B|B]].
    - destruct (Pn m A) as (E & _ & _). destruct (field_nth q d n Qn Lnd m A) as (E1 & _ & _). destruct (field_nth (plain q) d' n Qn Lnd' m A) as (E2 & _ & _). congruence.
    - assert (A' : (m - n < n)%nat) by lia. destruct (Pn (m - n)%nat A') as (_ & E & _). destruct (field_nth q d n Qn Lnd (m - n)%nat A') as (_ & E1 & _). destruct (field_nth (plain q) d' n Qn Lnd' (m - n)%nat A') as (_ & E2 & _). replace (n + (m - n))%nat with m in E1, E2 by lia. congruence.
    - assert (A' : (m - 2 * n < n)%nat) by lia. destruct (Pn (m - 2 * n)%nat A') as (_ & _ & E). destruct (field_nth q d n Qn Lnd (m - 2 * n)%nat A') as (_ & _ & E1). destruct (field_nth (plain q) d' n Qn Lnd' (m - 2 * n)%nat A') as (_ & _ & E2). replace (2 * n + (m - 2 * n))%nat with m in E1, E2 by lia. congruence. }
  destruct (C52_pattern_l (x "PP"%string) len fuel (q_doms q) eq_refl Hd Pp) as (Q1 & Q2 & _). cbn [x dx_pp] in Q1, Q2. fold start in Q1, Q2.
  assert (Pos : poling (q_doms q) z = 1 -> d = d'). { intros E. apply (nth_ext _ _ (RtoC 0) (RtoC 0)); [lia|]. intros m Hm. rewrite (V m) by lia. rewrite E. ring. }
  split; [|split].
  - intros k Ik Hk Hz. specialize (Q1 k z Ik Hk). destruct (Rlt_dec _ _) as [_|N] in Q1; [|contradiction]. apply (nth_ext _ _ (RtoC 0) (- RtoC 0)%C); [rewrite map_length; lia|]. intros m Hm. rewrite map_nth, (V m) by lia. rewrite Q1. apply injective_projections; cbn; ring.
  - intros k Ik Hk Hz. apply Pos. specialize (Q1 k z Ik Hk). destruct (Rlt_dec _ _) as [N|_] in Q1; [lra|exact Q1].
  - intros N. apply Pos, Q2, N.
Qed.

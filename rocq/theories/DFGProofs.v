(** Proofs about the right-hand side of the DFG equations: C50, C51, C69, C70. *)
From Coq Require Import String.
From Coq Require Import Reals List ZArith Bool Arith Lia Lra.
From Coquelicot Require Import Coquelicot.
From Verif Require Import Base CNum NumPy FFTProofs ModelPulse ModelDerived ModelCrystal CrystalProofs ModelBeam BeamProofs ModelODE ModelDFG DFGMixProofs.
Import ListNotations.
Local Open Scope R_scope.
Local Open Scope py_scope.
Local Notation z0 := (RtoC 0).
Local Notation at0 x i := (nth i x z0).

(** element m of an array that numpy broadcasts when it has one element *)
Definition bnth {A} (l : list A) (d : A) (m : nat) : A := nth (if Nat.eqb (length l) 1 then 0 else m)%nat l d.
Lemma bnth_eq {A} (l : list A) d m n : length l = n -> (m < n)%nat -> bnth l d m = nth m l d.
Proof. intros H Hm. unfold bnth. destruct (Nat.eqb_spec (length l) 1); [|reflexivity]. replace m with 0%nat by lia. reflexivity. Qed.

Lemma b2_left {A B D} (f : A -> B -> D) a b c n da db d : broadcast2 f a b = Ok c -> length b = n -> (2 <= n)%nat ->
  length c = n /\ forall m, (m < n)%nat -> nth m c d = f (bnth a da m) (nth m b db).
Proof.
  intros H L Hn. unfold broadcast2 in H. destruct (Nat.eqb_spec (length a) (length b)) as [E|E].
  - injection H as <-. split; [rewrite map2_length by exact E; lia|]. intros m Hm. rewrite (map2_nth f a b m da db d) by lia. rewrite (bnth_eq a da m n) by lia. reflexivity.
  - destruct a as [|x [|x' a]]; [destruct b as [|y [|y' b]]; cbn in *; try discriminate; lia| |destruct b as [|y [|y' b]]; cbn in *; try discriminate; lia].
    injection H as <-. split; [rewrite map_length; exact L|]. intros m Hm. rewrite (nth_map' (f x) b m db d) by lia. reflexivity.
Qed.
Lemma b2_right {A B D} (f : A -> B -> D) a b c n da db d : broadcast2 f a b = Ok c -> length a = n -> (2 <= n)%nat ->
  length c = n /\ forall m, (m < n)%nat -> nth m c d = f (nth m a da) (bnth b db m).
Proof.
  intros H L Hn. unfold broadcast2 in H. destruct (Nat.eqb_spec (length a) (length b)) as [E|E].
  - injection H as <-. split; [rewrite map2_length by exact E; lia|]. intros m Hm. rewrite (map2_nth f a b m da db d) by lia. rewrite (bnth_eq b db m n) by lia. reflexivity.
  - destruct a as [|x [|x' a]]; [cbn in L; lia|cbn in L; lia|]. destruct b as [|y [|y' b]]; try discriminate.
    injection H as <-. change (f x y :: f x' y :: map (fun x0 => f x0 y) a) with (map (fun x0 => f x0 y) (x :: x' :: a)). split; [rewrite map_length; exact L|]. intros m Hm. rewrite (nth_map' (fun x0 => f x0 y) _ m da d) by lia. reflexivity.
Qed.
Lemma bc_right {A B D} (f : A -> B -> result D) a b r n da db d : bcast f a b = Ok r -> length a = n -> (2 <= n)%nat ->
  length r = n /\ forall m, (m < n)%nat -> f (nth m a da) (bnth b db m) = Ok (nth m r d).
Proof.
  intros H L Hn. unfold bcast in H. destruct (broadcast2 pair a b) as [l|e] eqn:E; [|discriminate]. cbn [rbind] in H. apply (b2_right pair a b l n da db (da, db)) in E; [|assumption..]. destruct E as [E1 E2].
  apply (rtraverse_inv _ l r (da, db) d) in H. destruct H as [H1 H2]. split; [lia|]. intros m Hm. specialize (H2 m ltac:(lia)). rewrite (E2 m Hm) in H2. exact H2.
Qed.

Lemma seg_app1 {A} (a b : list A) n : length a = n -> seg 0 n (a ++ b) = a.
Proof. intros H. unfold seg. rewrite Nat.sub_0_r. cbn [skipn]. rewrite firstn_app, H, Nat.sub_diag, <- H, firstn_all. cbn. apply app_nil_r. Qed.
Lemma seg_app2 {A} (a b : list A) n lo hi : length a = n -> seg (n + lo) (n + hi) (a ++ b) = seg lo hi b.
Proof. intros H. unfold seg. rewrite skipn_app, H, skipn_all2 by lia. cbn [app]. replace (n + hi - (n + lo))%nat with (hi - lo)%nat by lia. replace (n + lo - n)%nat with lo by lia. reflexivity. Qed.
Lemma set_seg_app {A} (a b c v : list A) lo hi : length a = lo -> hi = (lo + length b)%nat -> length v = length b -> set_seg lo hi v (a ++ b ++ c) = Ok (a ++ v ++ c).
Proof.
  intros Ha Hb Hv. unfold set_seg. replace (seg lo hi (a ++ b ++ c)) with b.
  - rewrite assign_all_eq by lia. rewrite firstn_app, Ha, Nat.sub_diag, firstn_all2 by lia. cbn [firstn]. rewrite app_nil_r. rewrite Nat.max_r by lia. rewrite skipn_app, skipn_all2 by lia. rewrite skipn_app, (skipn_all2 b) by lia. cbn [app]. replace (hi - length a - length b)%nat with 0%nat by lia. reflexivity.
  - subst hi. replace lo with (lo + 0)%nat at 1 by lia. rewrite seg_app2 by exact Ha. symmetry. apply seg_app1. reflexivity.
Qed.
Lemma set_segs {A} n (r1 r2 r3 d d1 d2 d3 : list A) : length d = (3 * n)%nat -> length r1 = n -> length r2 = n -> length r3 = n ->
  set_seg 0 n r1 d = Ok d1 -> set_seg n (2 * n) r2 d1 = Ok d2 -> set_seg (2 * n) (3 * n) r3 d2 = Ok d3 -> d3 = r1 ++ r2 ++ r3.
Proof.
  intros L L1 L2 L3 H1 H2 H3. rewrite <- (firstn_skipn n d) in H1. rewrite <- (firstn_skipn n (skipn n d)) in H1. set (a := firstn n d) in *. set (b := firstn n (skipn n d)) in *. set (c := skipn n (skipn n d)) in *.
  assert (La : length a = n) by (unfold a; rewrite firstn_length; lia). assert (Lb : length b = n) by (unfold b; rewrite firstn_length, skipn_length; lia). assert (Lc : length c = n) by (unfold c; rewrite !skipn_length; lia).
  change (a ++ b ++ c) with ([] ++ a ++ b ++ c) in H1. rewrite set_seg_app in H1 by (cbn; lia). injection H1 as <-. cbn [app] in H2. rewrite set_seg_app in H2 by lia. injection H2 as <-.
  replace (r1 ++ r2 ++ c) with ((r1 ++ r2) ++ c ++ []) in H3 by (rewrite app_nil_r, app_assoc; reflexivity). rewrite set_seg_app in H3 by (try rewrite app_length; lia). injection H3 as <-. rewrite app_nil_r, app_assoc. reflexivity.
Qed.

(** the two binds *)
Lemma bind_ok {S A B} (m : M S A) (f : A -> M S B) s b s' : bind m f s = (Ok b, s') -> exists a s1, m s = (Ok a, s1) /\ f a s1 = (Ok b, s').
Proof. unfold bind. destruct (m s) as [[a|e] s1]; [|discriminate]. intros H. exists a, s1. split; [reflexivity|exact H]. Qed.
Lemma lift_ok {S A} (r : result A) (s : S) a s' : lift r s = (Ok a, s') -> r = Ok a /\ s' = s.
Proof. unfold lift. intros H. injection H as -> ->. split; reflexivity. Qed.
Lemma rbind_ok {A B} (m : result A) (f : A -> result B) b : rbind m f = Ok b -> exists a, m = Ok a /\ f a = Ok b.
Proof. destruct m; [|discriminate]. intros H. eexists. split; [reflexivity|exact H]. Qed.

Lemma drive_spec pa a phi r n : drive pa a phi = Ok r -> length a = n -> length phi = n -> (2 <= n)%nat ->
  length r = n /\ forall m, (m < n)%nat -> at0 r m = (RtoC (bnth pa 0 m) * at0 a m * at0 phi m)%C.
Proof.
  intros H La Lp Hn. unfold drive in H. apply rbind_ok in H as (x & E1 & E2). apply (b2_left _ _ _ _ n 0 z0 z0) in E1 as [L1 N1]; [|assumption..]. rewrite broadcast2_eq in E2 by lia. injection E2 as <-. split; [rewrite map2_length; lia|]. intros m Hm. rewrite (map2_nth Cmult x phi m z0 z0 z0) by lia. rewrite N1 by lia. reflexivity.
Qed.
Lemma unphase_spec n phi mix r : unphase n phi mix = Ok r -> length phi = n -> length mix = n -> length r = n /\ forall m, (m < n)%nat -> at0 r m = (/ at0 phi m * at0 mix m)%C.
Proof.
  intros H Lp Lm. unfold unphase in H. rewrite broadcast2_eq in H by lia. cbn [rbind] in H. rewrite assign_all_eq in H by (rewrite repeat_length, map2_length; lia). injection H as <-. split; [rewrite map2_length; lia|]. intros m Hm. rewrite (map2_nth _ phi mix m z0 z0 z0) by lia. reflexivity.
Qed.
Lemma rhs_spec mix w deff nn pa r n : rhs mix w deff nn pa = Ok r -> length mix = n -> (2 <= n)%nat -> length r = n /\ forall m, (m < n)%nat ->
  c_mks * bnth nn 0 m <> 0 /\ bnth pa 0 m <> 0 /\ at0 r m = (Ci * RtoC 2 * at0 mix m * RtoC (bnth w 0 m) * RtoC deff / RtoC (c_mks * bnth nn 0 m) / RtoC (bnth pa 0 m))%C.
Proof.
  intros H L Hn. unfold rhs in H. apply rbind_ok in H as (a & Ea & H). apply rbind_ok in H as (b & Eb & H). apply (b2_right _ _ _ _ n z0 0 z0) in Ea as [La Na]; [|assumption..]. apply (bc_right _ _ _ _ n z0 0 z0) in Eb as [Lb Nb]; [|assumption..]. apply (bc_right _ _ _ _ n z0 0 z0) in H as [Lr Nr]; [|assumption..].
  split; [exact Lr|]. intros m Hm. specialize (Nb m Hm). specialize (Nr m Hm). cbv beta in Nb, Nr. destruct (Req_EM_T (c_mks * bnth nn 0 m) 0) as [E|E]; [discriminate|]. destruct (Req_EM_T (bnth pa 0 m) 0) as [E'|E']; [discriminate|]. split; [exact E|]. split; [exact E'|].
  injection Nr as <-. injection Nb as <-. rewrite (Na m Hm). reflexivity.
Qed.

Section Str.
Variable strf : R -> string.

Lemma frame_fc q z s r s1 : frame strf q z s = (r, s1) -> ds_fc s1 = ds_fc s.
Proof.
  unfold frame, bind, lift, ret, raise, on_k.
  repeat match goal with |- context [match ?x with _ => _ end] => match x with context [match _ with _ => _ end] => fail 1 | _ => destruct x end end; intros H; injection H as _ <-; reflexivity.
Qed.

(** what deriv returns, in terms of the y-independent quantities *)
Definition gp (ap : list R) (pp y : list C) (q : dfg) (a : nat) : C := (RtoC (bnth ap 0 a) * at0 (Ap q y) a * at0 pp a)%C.
Definition gs (as_ : list R) (ps y : list C) (q : dfg) (b : nat) : C := (RtoC (bnth as_ 0 b) * at0 (As q y) b * at0 ps b)%C.
Definition gi (ai : list R) (pi y : list C) (q : dfg) (c : nat) : C := (RtoC (bnth ai 0 c) * at0 (Ai q y) c * at0 pi c)%C.
Definition scaled (mix : C) (phi : C) (w deff n pa : R) : C := (Ci * RtoC 2 * (/ phi * mix) * RtoC w * RtoC deff / RtoC (c_mks * n) / RtoC pa)%C.
Lemma scaled_ext X mix mix' phi w deff n pa : X = (/ phi * mix)%C -> mix = mix' -> (Ci * RtoC 2 * X * RtoC w * RtoC deff / RtoC (c_mks * n) / RtoC pa)%C = scaled mix' phi w deff n pa.
Proof. intros -> ->. reflexivity. Qed.

Lemma deriv_core q z y dydx s d s' n deff pp ps pi ap as_ ai s1 :
  q_n q = n -> (2 <= n)%nat -> Nat.Even n -> fc_ok n (ds_fc s) -> length y = (3 * n)%nat -> length dydx = (3 * n)%nat ->
  frame strf q z s = (Ok (deff, (pp, ps, pi), (ap, as_, ai)), s1) -> length pp = n -> length ps = n -> length pi = n ->
  deriv strf q z y dydx s = (Ok d, s') ->
  let h := (n / 2)%nat in let P := gp ap pp y q in let Sg := gs as_ ps y q in let I := gi ai pi y q in
  fc_ok n (ds_fc s') /\ length d = (3 * n)%nat /\ exists wp ws wi,
    Wmks_of strf (q_pump q) = Ok wp /\ Wmks_of strf (q_sgnl q) = Ok ws /\ Wmks_of strf (q_idlr q) = Ok wi /\
    (forall m, (m < n)%nat -> c_mks * bnth (q_np q) 0 m <> 0 /\ bnth ap 0 m <> 0 /\
       at0 (Ap q d) m = scaled (csum n (fun b => csum n (fun c => if Nat.eqb (b + c) (m + h) then (Sg b * I c)%C else z0))) (at0 pp m) (bnth wp 0 m) deff (bnth (q_np q) 0 m) (bnth ap 0 m)) /\
    (forall m, (m < n)%nat -> c_mks * bnth (q_ns q) 0 m <> 0 /\ bnth as_ 0 m <> 0 /\
       at0 (As q d) m = scaled (csum n (fun a => csum n (fun c => if Nat.eqb (a + h) (c + m) then (P a * Cconj (I c))%C else z0))) (at0 ps m) (bnth ws 0 m) deff (bnth (q_ns q) 0 m) (bnth as_ 0 m)) /\
    (forall m, (m < n)%nat -> c_mks * bnth (q_ni q) 0 m <> 0 /\ bnth ai 0 m <> 0 /\
       at0 (Ai q d) m = scaled (csum n (fun a => csum n (fun b => if Nat.eqb (a + h) (b + m) then (P a * Cconj (Sg b))%C else z0))) (at0 pi m) (bnth wi 0 m) deff (bnth (q_ni q) 0 m) (bnth ai 0 m)).
Proof.
  intros Qn Hn Ev Fc Ly Ld Fr Lpp Lps Lpi H h P Sg I.
  unfold deriv in H. unfold bind at 1 in H. rewrite Fr in H. rewrite Qn in H. cbv beta iota in H.
  apply bind_ok in H as (dp & s2 & E & H). apply lift_ok in E as [Edp ->].
  apply bind_ok in H as (ds & s2 & E & H). apply lift_ok in E as [Eds ->].
  apply bind_ok in H as (di & s2 & E & H). apply lift_ok in E as [Edi ->].
  assert (LA : length (Ap q y) = n /\ length (As q y) = n /\ length (Ai q y) = n) by (unfold Ap, As, Ai; rewrite Qn, !seg_length; lia). destruct LA as (LAp & LAs & LAi).
  apply (drive_spec _ _ _ _ n) in Edp as [Ldp Ndp]; [|assumption..]. apply (drive_spec _ _ _ _ n) in Eds as [Lds Nds]; [|assumption..]. apply (drive_spec _ _ _ _ n) in Edi as [Ldi Ndi]; [|assumption..].
  assert (F1 : fc_ok n (ds_fc s1)) by (rewrite (frame_fc _ _ _ _ _ Fr); exact Fc).
  apply bind_ok in H as (c1 & s2 & E1 & H). unfold on_fc in E1. destruct (C49_conv_l n (ds_fc s1) ds di F1 ltac:(lia) Lds Ldi) as (o1 & f1 & R1 & F2 & L1 & N1). rewrite R1 in E1. injection E1 as <- <-.
  apply bind_ok in H as (AsAi & s2 & E & H). apply lift_ok in E as [E1 ->]. apply (unphase_spec n) in E1 as [LX NX]; [|assumption..].
  apply bind_ok in H as (c2 & s2 & E2 & H). unfold on_fc in E2. cbn [ds_k ds_fc] in E2. destruct (C49_corr_l n f1 dp ds F2 ltac:(lia) Ev Ldp Lds) as (o2 & f2 & R2 & F3 & L2 & N2). rewrite R2 in E2. injection E2 as <- <-.
  apply bind_ok in H as (ApAs & s2 & E & H). apply lift_ok in E as [E2 ->]. apply (unphase_spec n) in E2 as [LY NY]; [|assumption..].
  apply bind_ok in H as (c3 & s2 & E3 & H). unfold on_fc in E3. cbn [ds_k ds_fc] in E3. destruct (C49_corr_l n f2 dp di F3 ltac:(lia) Ev Ldp Ldi) as (o3 & f3 & R3 & F4 & L3 & N3). rewrite R3 in E3. injection E3 as <- <-.
  apply bind_ok in H as (ApAi & s2 & E & H). apply lift_ok in E as [E3 ->]. apply (unphase_spec n) in E3 as [LZ NZ]; [|assumption..]. cbv zeta in H.
  apply bind_ok in H as (wp & s2 & E & H). apply lift_ok in E as [Ewp ->].
  apply bind_ok in H as (r1 & s2 & E & H). apply lift_ok in E as [Er1 ->]. apply (rhs_spec _ _ _ _ _ _ n) in Er1 as [Lr1 Nr1]; [|assumption..].
  apply bind_ok in H as (d1 & s2 & E & H). apply lift_ok in E as [Ed1 ->].
  apply bind_ok in H as (ws & s2 & E & H). apply lift_ok in E as [Ews ->].
  apply bind_ok in H as (r2 & s2 & E & H). apply lift_ok in E as [Er2 ->]. apply (rhs_spec _ _ _ _ _ _ n) in Er2 as [Lr2 Nr2]; [|assumption..].
  apply bind_ok in H as (d2 & s2 & E & H). apply lift_ok in E as [Ed2 ->].
  apply bind_ok in H as (wi & s2 & E & H). apply lift_ok in E as [Ewi ->].
  apply bind_ok in H as (r3 & s2 & E & H). apply lift_ok in E as [Er3 ->]. apply (rhs_spec _ _ _ _ _ _ n) in Er3 as [Lr3 Nr3]; [|assumption..].
  apply lift_ok in H as [Ed3 ->].
  assert (D : d = r1 ++ r2 ++ r3) by exact (set_segs n r1 r2 r3 dydx d1 d2 d Ld Lr1 Lr2 Lr3 Ed1 Ed2 Ed3).
  assert (Dp : Ap q d = r1) by (unfold Ap; rewrite Qn, D; apply seg_app1; exact Lr1).
  assert (Ds : As q d = r2). { unfold As. rewrite Qn, D. replace n with (n + 0)%nat at 1 by lia. replace (2 * n)%nat with (n + n)%nat by lia. rewrite seg_app2 by exact Lr1. apply seg_app1. exact Lr2. }
  assert (Di : Ai q d = r3). { unfold Ai. rewrite Qn, D, app_assoc. replace (2 * n)%nat with (2 * n + 0)%nat by lia. replace (3 * n)%nat with (2 * n + n)%nat by lia. rewrite seg_app2 by (rewrite app_length; lia). rewrite <- (app_nil_r r3) at 1. apply seg_app1. exact Lr3. }
  assert (Hh : Nat.div2 n = h) by (unfold h; rewrite Nat.div2_div; reflexivity).
  cbn [ds_fc]. split; [exact F4|]. split; [rewrite D, !app_length; lia|]. exists wp, ws, wi. repeat (split; [assumption|]). rewrite Dp, Ds, Di.
  split; [|split]; intros m Hm.
  - destruct (Nr1 m Hm) as (A & B & E). split; [exact A|]. split; [exact B|]. rewrite E. apply (scaled_ext _ _ _ _ _ _ _ _ (NX m Hm)). rewrite (N1 m Hm), Hh. apply csum_ext. intros b Hb. apply csum_ext. intros c Hc. rewrite (Nds b Hb), (Ndi c Hc). reflexivity.
  - destruct (Nr2 m Hm) as (A & B & E). split; [exact A|]. split; [exact B|]. rewrite E. apply (scaled_ext _ _ _ _ _ _ _ _ (NZ m Hm)). rewrite (N3 m Hm). fold h. apply csum_ext. intros b Hb. apply csum_ext. intros c Hc. rewrite (Ndp b Hb), (Ndi c Hc). reflexivity.
  - destruct (Nr3 m Hm) as (A & B & E). split; [exact A|]. split; [exact B|]. rewrite E. apply (scaled_ext _ _ _ _ _ _ _ _ (NY m Hm)). rewrite (N2 m Hm). fold h. apply csum_ext. intros b Hb. apply csum_ext. intros c Hc. rewrite (Ndp b Hb), (Nds c Hc). reflexivity.
Qed.

(** ** The phasors have modulus one in every mode *)
Lemma b2_all {A B D} (P : A -> Prop) (Q : B -> Prop) (Z : D -> Prop) f a b c : (forall x y, P x -> Q y -> Z (f x y)) -> List.Forall P a -> List.Forall Q b -> broadcast2 f a b = Ok c -> List.Forall Z c.
Proof.
  intros H Fa Fb E. unfold broadcast2 in E. destruct (Nat.eqb (length a) (length b)).
  - injection E as <-. revert b Fb. induction Fa as [|x a Hx Fa IH]; intros b Fb; cbn; [constructor|]. destruct Fb as [|y b Hy Fb]; [constructor|]. constructor; [apply H; assumption|apply IH; exact Fb].
  - destruct a as [|x [|x' a]].
    + destruct b as [|y [|y' b]]; try discriminate. injection E as <-. constructor.
    + injection E as <-. inversion Fa; subst. clear -H H2 Fb. induction Fb; cbn; constructor; auto.
    + destruct b as [|y [|y' b]]; try discriminate. injection E as <-. inversion Fb; subst. change (f x y :: f x' y :: map (fun x0 => f x0 y) a) with (map (fun x0 => f x0 y) (x :: x' :: a)). revert Fa. generalize (x :: x' :: a) as l. clear -H H2. intros l Fl. induction Fl; cbn; constructor; auto.
Qed.
Lemma assign_all_spec {A} (P : A -> Prop) dst src r : assign_all dst src = Ok r -> List.Forall P src -> List.Forall P r /\ length r = length dst.
Proof.
  intros H F. split; [|exact (assign_all_length _ _ _ H)]. unfold assign_all in H. destruct (Nat.eqb _ _); [injection H as <-; exact F|]. destruct src as [|y [|? ?]]; try discriminate. injection H as <-. inversion F; subst. clear -H1. induction (length dst); cbn; constructor; auto.
Qed.
Definition unimod (v : C) : Prop := Cnorm2 v = 1.
Lemma phasor_unimod k k0 z t p r : phasor strf k k0 z t p = Ok r -> List.Forall unimod r.
Proof.
  intros H. unfold phasor in H. apply rbind_ok in H as (w & _ & H). refine (b2_all (fun _ => True) (fun _ => True) unimod _ _ _ _ _ _ _ H).
  - intros x y _ _. apply cis_norm2.
  - clear. induction k; constructor; auto.
  - clear. induction w; constructor; auto.
Qed.
Lemma gouy_unimod b z n r : calculate_gouy_phase b z n = Ok r -> List.Forall unimod r.
Proof. unfold calculate_gouy_phase. intros H. apply rbind_ok in H as (zr & _ & H). injection H as <-. clear. induction zr; cbn; constructor; [apply cis_norm2|assumption]. Qed.
Lemma unimod_mult x y : unimod x -> unimod y -> unimod (x * y)%C.
Proof. unfold unimod. intros H1 H2. rewrite Cnorm2_mult, H1, H2. ring. Qed.
Lemma frame_phi q z s deff pp ps pi pa s1 : frame strf q z s = (Ok (deff, (pp, ps, pi), pa), s1) ->
  deff_at q z = Ok deff /\ (length pp = q_n q /\ List.Forall unimod pp) /\ (length ps = q_n q /\ List.Forall unimod ps) /\ (length pi = q_n q /\ List.Forall unimod pi) /\
  q_noSPM q = true /\ exists len k1, x_len (dx_x (q_xtal q)) = Some len /\ P_to_a strf q (z - len / 2) (ds_k s) = (Ok pa, k1).
Proof.
  intros H. unfold frame in H.
  apply bind_ok in H as (de & s2 & E & H). apply lift_ok in E as [Ed ->].
  apply bind_ok in H as (t & s2 & E & H). apply lift_ok in E as [Et ->].
  apply bind_ok in H as (p & s2 & E & H). apply lift_ok in E as [Ep ->]. apply bind_ok in H as (p0 & s2 & E & H). apply lift_ok in E as [Ep0 ->].
  apply bind_ok in H as (sg & s2 & E & H). apply lift_ok in E as [Es ->]. apply bind_ok in H as (sg0 & s2 & E & H). apply lift_ok in E as [Es0 ->].
  apply bind_ok in H as (i & s2 & E & H). apply lift_ok in E as [Ei ->]. apply bind_ok in H as (i0 & s2 & E & H). apply lift_ok in E as [Ei0 ->].
  apply bind_ok in H as (len & s2 & E & H). apply lift_ok in E as [El ->]. cbv zeta in H.
  apply bind_ok in H as (ph & s2 & E & H). apply lift_ok in E as [Eg ->].
  apply bind_ok in H as (u & s2 & E & H). destruct (q_noSPM q) eqn:Eq; [|discriminate]. injection E as <- <-.
  apply bind_ok in H as (pa' & s2 & E & H). injection H as <- -> <- <-. unfold on_k in E. destruct (P_to_a strf q (z - len / 2) (ds_k s)) as [rp k1] eqn:EP. injection E as -> <-.
  apply phasor_unimod in Ep, Es, Ei. destruct (assign_all_spec unimod _ _ _ Ep0 Ep) as [Fp Lp]. destruct (assign_all_spec unimod _ _ _ Es0 Es) as [Fs Ls]. destruct (assign_all_spec unimod _ _ _ Ei0 Ei) as [Fi Li]. rewrite repeat_length in Lp, Ls, Li.
  split; [exact Ed|]. assert (G : (length pp = q_n q /\ List.Forall unimod pp) /\ (length ps = q_n q /\ List.Forall unimod ps) /\ (length pi = q_n q /\ List.Forall unimod pi)).
  { unfold add_gouy in Eg. destruct (q_gouy q); [|injection Eg as <- <- <-; auto]. destruct (q_beams q) as [bp bs bi|bp bs bi].
    - apply rbind_ok in Eg as (gp1 & Q1 & Eg). apply rbind_ok in Eg as (xp & Q2 & Eg). apply rbind_ok in Eg as (xp' & Q3 & Eg).
      apply rbind_ok in Eg as (gs1 & Q4 & Eg). apply rbind_ok in Eg as (xs & Q5 & Eg). apply rbind_ok in Eg as (xs' & Q6 & Eg).
      apply rbind_ok in Eg as (gi1 & Q7 & Eg). apply rbind_ok in Eg as (xi & Q8 & Eg). apply rbind_ok in Eg as (xi' & Q9 & Eg). injection Eg as <- <- <-.
      apply gouy_unimod in Q1, Q4, Q7. apply (b2_all unimod unimod unimod) in Q2, Q5, Q8; try assumption; try exact unimod_mult.
      destruct (assign_all_spec unimod _ _ _ Q3 Q2). destruct (assign_all_spec unimod _ _ _ Q6 Q5). destruct (assign_all_spec unimod _ _ _ Q9 Q8). split; [|split]; split; try assumption; lia.
    - injection Eg as <- <- <-. assert (X : forall l, List.Forall unimod l -> List.Forall unimod (map (fun v => v * RtoC 1)%C l)) by (intros l Fl; induction Fl; cbn; constructor; [replace (x * RtoC 1)%C with x by ring|]; assumption).
      unfold wg_gouy. rewrite !map_length. split; [|split]; split; auto. }
  destruct G as (G1 & G2 & G3). repeat (split; [assumption|]). split; [reflexivity|]. exists len, k1. split; [|exact EP]. destruct (x_len _); [injection El as ->; reflexivity|discriminate].
Qed.

(** ** Waveguide mode: powers *)
Lemma wg_spec g nn pa m : wg_rtP_to_a g nn = Ok pa -> bnth pa 0 m <> 0 -> (bnth pa 0 m) ^ 2 * (g_Aeff g * bnth nn 0 m * eps0 * c_mks) = 1.
Proof.
  intros H Hm. unfold wg_rtP_to_a in H. apply (rtraverse_inv _ _ _ 0 0) in H as [L N]. unfold bnth in *. rewrite L in *. set (i := (if Nat.eqb (length nn) 1 then 0 else m)%nat) in *.
  destruct (Nat.lt_ge_cases i (length nn)) as [Hi|Hi]; [|rewrite nth_overflow in Hm by lia; congruence]. specialize (N i Hi). unfold fsqrt in N. destruct (Rlt_dec _ 0) as [A|A]; [discriminate|]. cbn [rbind] in N. apply fdiv_inv in N as [B E]. rewrite E.
  set (v := g_Aeff g * nth i nn 0 * eps0 * c_mks) in *. assert (Q : sqrt v * sqrt v = v) by (apply sqrt_sqrt; lra). rewrite <- Q at 2. field. exact B.
Qed.
Lemma Cinv_unimod v : unimod v -> (/ v)%C = Cconj v.
Proof.
  unfold unimod. intros H. assert (N : v <> z0) by (intros E; rewrite E, Cnorm2_0 in H; lra). replace (/ v)%C with (/ v * (v * Cconj v))%C; [|rewrite Cmult_conj, H; ring]. rewrite Cmult_assoc, Cinv_l by exact N. ring.
Qed.
Lemma Im_RtoC_mult r v : Im (RtoC r * v)%C = r * Im v. Proof. destruct v. cbn. ring. Qed.
Lemma Re_RtoC_mult r v : Re (RtoC r * v)%C = r * Re v. Proof. destruct v. cbn. ring. Qed.
Lemma Re_Ci_mult v : Re (Ci * v)%C = - Im v. Proof. destruct v. cbn. ring. Qed.
Lemma flux_term A phi mix w deff n pa Ae : unimod phi -> c_mks * n <> 0 -> pa <> 0 -> pa ^ 2 * (Ae * n * eps0 * c_mks) = 1 ->
  Re (Cconj A * scaled mix phi w deff n pa)%C = - (2 * deff * Ae * eps0) * (w * Im (Cconj (RtoC pa * A * phi) * mix)%C).
Proof.
  intros U Hn Hp Q. unfold scaled. rewrite Cinv_unimod by exact U. rewrite !Cconj_mult, Cconj_R.
  assert (I1 : (/ RtoC (c_mks * n) * / RtoC pa)%C = RtoC (pa * Ae * eps0)). { rewrite <- !RtoC_inv by assumption. rewrite <- RtoC_mult. f_equal. apply (Rmult_eq_reg_r (c_mks * n * pa)); [|apply Rmult_integral_contrapositive_currified; assumption]. transitivity 1; [field; split; [exact Hp|]|]. 
    - split; intros E; apply Hn; rewrite E; ring.
    - rewrite <- Q. ring. }
  replace (Cconj A * (Ci * RtoC 2 * (Cconj phi * mix) * RtoC w * RtoC deff / RtoC (c_mks * n) / RtoC pa))%C with (RtoC (2 * deff * Ae * eps0 * w) * (Ci * (RtoC pa * Cconj A * Cconj phi * mix)))%C.
  - rewrite Re_RtoC_mult, Re_Ci_mult. ring.
  - unfold Cdiv. rewrite <- (Cmult_assoc _ (Cinv _) (Cinv _)), I1. rewrite !RtoC_mult. ring.
Qed.

(** the interaction of one triple of grid points *)
Definition triple (n : nat) (P Sg I : nat -> C) (a b c : nat) : R := if Nat.eqb (a + n / 2) (b + c) then Im (Cconj (P a) * (Sg b * I c))%C else 0.
Lemma Im_if (b : bool) x : Im (if b then x else z0) = if b then Im x else 0. Proof. destruct b; reflexivity. Qed.
Lemma Im_conj v : Im (Cconj v) = - Im v. Proof. destruct v. reflexivity. Qed.
Lemma Im_cmul_csum2 n (X : C) (b : nat -> nat -> bool) (F : nat -> nat -> C) : Im (X * csum n (fun i => csum n (fun j => if b i j then F i j else z0)))%C = rsum n (fun i => rsum n (fun j => if b i j then Im (X * F i j)%C else 0)).
Proof.
  rewrite <- csum_scal_l, Im_csum. apply rsum_ext. intros i _. rewrite <- csum_scal_l, Im_csum. apply rsum_ext. intros j _. destruct (b i j); [reflexivity|]. replace (X * z0)%C with z0 by ring. reflexivity.
Qed.

(** rate of change along z of the g-weighted sum of |A|^2 *)
Definition rate (n : nat) (g : nat -> R) (A dA : list C) : R := rsum n (fun m => g m * (2 * Re (Cconj (at0 A m) * at0 dA m)%C)).

Lemma rsum3_ext n f g : (forall a b c, (a < n)%nat -> (b < n)%nat -> (c < n)%nat -> f a b c = g a b c) -> rsum n (fun a => rsum n (fun b => rsum n (fun c => f a b c))) = rsum n (fun a => rsum n (fun b => rsum n (fun c => g a b c))).
Proof. intros H. apply rsum_ext. intros a Ha. apply rsum_ext. intros b Hb. apply rsum_ext. intros c Hc. apply H; assumption. Qed.
(** P, Sg, I: the three fields as they enter the mixing product; [Ae m] is the mode area used at grid point m *)
Lemma rates_area q z y dydx s d s' n deff pp ps pi ap as_ ai s1 (Ae : nat -> R) :
  q_n q = n -> (2 <= n)%nat -> Nat.Even n -> fc_ok n (ds_fc s) -> length y = (3 * n)%nat -> length dydx = (3 * n)%nat ->
  frame strf q z s = (Ok (deff, (pp, ps, pi), (ap, as_, ai)), s1) ->
  (forall m, (m < n)%nat -> bnth ap 0 m <> 0 -> bnth ap 0 m ^ 2 * (Ae m * bnth (q_np q) 0 m * eps0 * c_mks) = 1) ->
  (forall m, (m < n)%nat -> bnth as_ 0 m <> 0 -> bnth as_ 0 m ^ 2 * (Ae m * bnth (q_ns q) 0 m * eps0 * c_mks) = 1) ->
  (forall m, (m < n)%nat -> bnth ai 0 m <> 0 -> bnth ai 0 m ^ 2 * (Ae m * bnth (q_ni q) 0 m * eps0 * c_mks) = 1) ->
  deriv strf q z y dydx s = (Ok d, s') ->
  let T := triple n (gp ap pp y q) (gs as_ ps y q) (gi ai pi y q) in
  exists wp ws wi, Wmks_of strf (q_pump q) = Ok wp /\ Wmks_of strf (q_sgnl q) = Ok ws /\ Wmks_of strf (q_idlr q) = Ok wi /\ forall g,
      rate n g (Ap q y) (Ap q d) = - (4 * deff * eps0) * rsum n (fun a => rsum n (fun b => rsum n (fun c => g a * (Ae a * bnth wp 0 a) * T a b c))) /\
      rate n g (As q y) (As q d) = 4 * deff * eps0 * rsum n (fun a => rsum n (fun b => rsum n (fun c => g b * (Ae b * bnth ws 0 b) * T a b c))) /\
      rate n g (Ai q y) (Ai q d) = 4 * deff * eps0 * rsum n (fun a => rsum n (fun b => rsum n (fun c => g c * (Ae c * bnth wi 0 c) * T a b c))).
Proof.
  intros Qn Hn Ev Fc Ly Ld Fr Wp Ws Wi H T. 
  destruct (frame_phi q z s deff pp ps pi _ s1 Fr) as (_ & [Lp Up] & [Ls Us] & [Li Ui] & _). rewrite Qn in Lp, Ls, Li.
  destruct (deriv_core q z y dydx s d s' n deff pp ps pi ap as_ ai s1 Qn Hn Ev Fc Ly Ld Fr Lp Ls Li H) as (_ & _ & wp & ws & wi & Ewp & Ews & Ewi & Np & Ns & Ni).
  set (P := gp ap pp y q) in *. set (Sg := gs as_ ps y q) in *. set (I := gi ai pi y q) in *.
  assert (Un : forall l m, List.Forall unimod l -> (m < length l)%nat -> unimod (at0 l m)) by (intros l m F Hm; rewrite List.Forall_forall in F; apply F, nth_In, Hm).
  exists wp, ws, wi. repeat (split; [assumption|]). unfold T.
  intros g. split; [|split].
  - unfold rate. rewrite <- rsum_scal_l. apply rsum_ext. intros a Ha. destruct (Np a Ha) as (A & B & E). rewrite E, (flux_term _ _ _ _ _ _ _ (Ae a)); [|apply Un; [exact Up|lia]|exact A|exact B|apply (Wp a Ha B)].
    change (RtoC (bnth ap 0 a) * at0 (Ap q y) a * at0 pp a)%C with (P a). rewrite Im_cmul_csum2.
    replace (rsum n (fun b => rsum n (fun c => g a * (Ae a * bnth wp 0 a) * triple n P Sg I a b c))) with (g a * (Ae a * bnth wp 0 a) * rsum n (fun b => rsum n (fun c => if Nat.eqb (b + c) (a + n / 2) then Im (Cconj (P a) * (Sg b * I c))%C else 0))); [ring|].
    rewrite <- rsum_scal_l. apply rsum_ext. intros b _. rewrite <- rsum_scal_l. apply rsum_ext. intros c _. unfold triple. rewrite Nat.eqb_sym. reflexivity.
  - rewrite rsum_swap. unfold rate. rewrite <- rsum_scal_l. apply rsum_ext. intros b Hb. destruct (Ns b Hb) as (A & B & E). rewrite E, (flux_term _ _ _ _ _ _ _ (Ae b)); [|apply Un; [exact Us|lia]|exact A|exact B|apply (Ws b Hb B)].
    change (RtoC (bnth as_ 0 b) * at0 (As q y) b * at0 ps b)%C with (Sg b). rewrite Im_cmul_csum2.
    replace (rsum n (fun a => rsum n (fun c => g b * (Ae b * bnth ws 0 b) * triple n P Sg I a b c))) with (g b * (Ae b * bnth ws 0 b) * - rsum n (fun a => rsum n (fun c => if Nat.eqb (a + n / 2) (c + b) then Im (Cconj (Sg b) * (P a * Cconj (I c)))%C else 0))); [ring|].
    rewrite <- rsum_opp, <- rsum_scal_l. apply rsum_ext. intros a _. rewrite <- rsum_opp, <- rsum_scal_l. apply rsum_ext. intros c _. unfold triple. rewrite (Nat.add_comm b c). destruct (Nat.eqb _ _); [|ring].
    replace (Cconj (P a) * (Sg b * I c))%C with (Cconj (Cconj (Sg b) * (P a * Cconj (I c))))%C by (rewrite !Cconj_mult, !Cconj_conj; ring). rewrite Im_conj. reflexivity.
  - rewrite (rsum_ext n _ (fun a => rsum n (fun c => rsum n (fun b => g c * (Ae c * bnth wi 0 c) * triple n P Sg I a b c)))) by (intros a _; apply rsum_swap). rewrite rsum_swap. unfold rate. rewrite <- rsum_scal_l. apply rsum_ext. intros c Hc. destruct (Ni c Hc) as (A & B & E). rewrite E, (flux_term _ _ _ _ _ _ _ (Ae c)); [|apply Un; [exact Ui|lia]|exact A|exact B|apply (Wi c Hc B)].
    change (RtoC (bnth ai 0 c) * at0 (Ai q y) c * at0 pi c)%C with (I c). rewrite Im_cmul_csum2.
    replace (rsum n (fun a => rsum n (fun b => g c * (Ae c * bnth wi 0 c) * triple n P Sg I a b c))) with (g c * (Ae c * bnth wi 0 c) * - rsum n (fun a => rsum n (fun b => if Nat.eqb (a + n / 2) (b + c) then Im (Cconj (I c) * (P a * Cconj (Sg b)))%C else 0))); [ring|].
    rewrite <- rsum_opp, <- rsum_scal_l. apply rsum_ext. intros a _. rewrite <- rsum_opp, <- rsum_scal_l. apply rsum_ext. intros b _. unfold triple. destruct (Nat.eqb _ _); [|ring].
    replace (Cconj (P a) * (Sg b * I c))%C with (Cconj (Cconj (I c) * (P a * Cconj (Sg b))))%C by (rewrite !Cconj_mult, !Cconj_conj; ring). rewrite Im_conj. reflexivity.
Qed.

Lemma rates q z y dydx s d s' n bp bs bi Ae :
  q_n q = n -> (2 <= n)%nat -> Nat.Even n -> fc_ok n (ds_fc s) -> length y = (3 * n)%nat -> length dydx = (3 * n)%nat ->
  q_beams q = Guided bp bs bi -> g_Aeff bp = Ae -> g_Aeff bs = Ae -> g_Aeff bi = Ae ->
  deriv strf q z y dydx s = (Ok d, s') ->
  exists kappa (T : nat -> nat -> nat -> R) wp ws wi, Wmks_of strf (q_pump q) = Ok wp /\ Wmks_of strf (q_sgnl q) = Ok ws /\ Wmks_of strf (q_idlr q) = Ok wi /\
    (forall a b c, (a + n / 2 <> b + c)%nat -> T a b c = 0) /\
    forall g,
      rate n g (Ap q y) (Ap q d) = - kappa * rsum n (fun a => rsum n (fun b => rsum n (fun c => g a * bnth wp 0 a * T a b c))) /\
      rate n g (As q y) (As q d) = kappa * rsum n (fun a => rsum n (fun b => rsum n (fun c => g b * bnth ws 0 b * T a b c))) /\
      rate n g (Ai q y) (Ai q d) = kappa * rsum n (fun a => rsum n (fun b => rsum n (fun c => g c * bnth wi 0 c * T a b c))).
Proof.
  intros Qn Hn Ev Fc Ly Ld Qb Ap_ As_ Ai_ H. assert (Fr := H). unfold deriv in Fr. apply bind_ok in Fr as (fr & s1 & Fr & _). destruct fr as [[deff [[pp ps] pi]] [[ap as_] ai]].
  destruct (frame_phi q z s deff pp ps pi _ s1 Fr) as (_ & [Lp Up] & [Ls Us] & [Li Ui] & _ & len & k1 & _ & EP). rewrite Qn in Lp, Ls, Li.
  unfold P_to_a in EP. rewrite Qb in EP. apply bind_ok in EP as (a1 & k2 & E & EP). apply lift_ok in E as [Wp ->]. apply bind_ok in EP as (a2 & k2 & E & EP). apply lift_ok in E as [Ws ->]. apply bind_ok in EP as (a3 & k2 & E & EP). apply lift_ok in E as [Wi ->]. injection EP as -> -> -> _.
  destruct (rates_area q z y dydx s d s' n deff pp ps pi ap as_ ai s1 (fun _ => Ae) Qn Hn Ev Fc Ly Ld Fr) as (wp & ws & wi & Ewp & Ews & Ewi & Rt); [intros m _ Hm; rewrite <- Ap_; apply (wg_spec _ _ _ _ Wp Hm)|intros m _ Hm; rewrite <- As_; apply (wg_spec _ _ _ _ Ws Hm)|intros m _ Hm; rewrite <- Ai_; apply (wg_spec _ _ _ _ Wi Hm)|exact H|].
  exists (4 * deff * eps0), (fun a b c => Ae * triple n (gp ap pp y q) (gs as_ ps y q) (gi ai pi y q) a b c), wp, ws, wi. repeat (split; [assumption|]). split; [intros a b c Habc; unfold triple; destruct (Nat.eqb_spec (a + n / 2) (b + c)); [lia|ring]|].
  intros g. destruct (Rt g) as (R1 & R2 & R3). rewrite R1, R2, R3. split; [|split]; f_equal; apply rsum3_ext; intros; ring.
Qed.
End Str.

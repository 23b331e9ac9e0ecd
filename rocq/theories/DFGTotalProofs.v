(** The waveguide right-hand side never raises on an accepted problem: C71. *)
From Coq Require Import String.
From Coq Require Import Reals List ZArith Bool Arith Lia Lra.
From Coquelicot Require Import Coquelicot.
From Verif Require Import Base CNum NumPy FFTProofs ModelPulse Spec PulseProofs PulseHistory ModelCrystal CrystalProofs ModelBeam BeamProofs ModelODE ModelDFG DFGMixProofs DFGProofs DFGInitProofs DFGOutProofs.
Import ListNotations.
Local Open Scope R_scope.
Local Open Scope py_scope.
Local Notation z0 := (RtoC 0).
Local Notation at0 x i := (nth i x z0).

Lemma b2_len {A B D} (f : A -> B -> D) a b n : length a = n -> length b = n -> exists c, broadcast2 f a b = Ok c /\ length c = n.
Proof. intros H1 H2. exists (map2 f a b). split; [apply broadcast2_eq; lia|]. rewrite map2_length by lia. exact H1. Qed.
Lemma rtraverse_total {A B} (f : A -> result B) l : (forall x, In x l -> exists y, f x = Ok y) -> exists r, rtraverse f l = Ok r /\ length r = length l.
Proof.
  induction l as [|x l IH]; intros H; [exists []; split; reflexivity|]. destruct (H x (or_introl eq_refl)) as [y Ey]. destruct IH as (r & Er & Lr); [intros x' Hx; apply H; right; exact Hx|]. exists (y :: r). cbn [rtraverse]. rewrite Ey, Er. cbn. split; [reflexivity|]. f_equal. exact Lr.
Qed.
Lemma bc_len {A B D} (f : A -> B -> result D) a b n : length a = n -> length b = n -> (forall x y, In y b -> exists v, f x y = Ok v) -> exists c, bcast f a b = Ok c /\ length c = n.
Proof.
  intros H1 H2 H. unfold bcast. destruct (b2_len pair a b n H1 H2) as (l & E & L). rewrite broadcast2_eq in E |- * by lia. cbn [rbind]. destruct (rtraverse_total (fun p => f (fst p) (snd p)) (map2 pair a b)) as (r & Er & Lr).
  - intros [x y] Hx. apply H. clear -Hx. revert b Hx. induction a as [|u a IH]; intros [|v b] Hx; cbn in Hx; try contradiction. destruct Hx as [E|Hx]; [injection E as _ E; left; exact E|right; apply (IH b Hx)].
  - exists r. split; [exact Er|]. rewrite Lr, map2_length by lia. exact H1.
Qed.
Lemma wg_ok g nn : 0 < g_Aeff g -> (forall v, In v nn -> 0 < v) -> exists pa, wg_rtP_to_a g nn = Ok pa /\ length pa = length nn /\ forall v, In v pa -> v <> 0.
Proof.
  intros Hg Hn. assert (E0 : 0 < eps0) by (unfold eps0; lra). assert (C0 : 0 < c_mks) by (unfold c_mks; lra).
  assert (P : forall v, In v nn -> 0 < g_Aeff g * v * eps0 * c_mks) by (intros v Hv; specialize (Hn v Hv); apply Rmult_lt_0_compat; [apply Rmult_lt_0_compat; [apply Rmult_lt_0_compat|]|]; assumption).
  exists (map (fun v => 1 / sqrt (g_Aeff g * v * eps0 * c_mks)) nn). split; [|split; [apply map_length|]].
  - unfold wg_rtP_to_a. clear Hn. induction nn as [|x nn IH]; [reflexivity|]. cbn [rtraverse map]. specialize (P x (or_introl eq_refl)) as Px. rewrite fsqrt_ok by lra. cbn [rbind]. rewrite fdiv_ok by (apply Rgt_not_eq, sqrt_lt_R0; exact Px). cbn [rbind]. rewrite IH by (intros v Hv; apply P; right; exact Hv). reflexivity.
  - intros v Hv. apply in_map_iff in Hv as (u & <- & Hu). specialize (P u Hu). apply Rgt_not_eq. apply Rdiv_lt_0_compat; [lra|]. apply sqrt_lt_R0; exact P.
Qed.
Lemma drive_ok pa a phi n : length pa = n -> length a = n -> length phi = n -> exists d, drive pa a phi = Ok d /\ length d = n.
Proof. intros H1 H2 H3. unfold drive. destruct (b2_len (fun r z => RtoC r * z)%C pa a n H1 H2) as (c & E & L). rewrite E. cbn [rbind]. apply b2_len; assumption. Qed.
Lemma unphase_ok n phi mix : length phi = n -> length mix = n -> exists d, unphase n phi mix = Ok d /\ length d = n.
Proof. intros H1 H2. unfold unphase. destruct (b2_len (fun p m => / p * m)%C phi mix n H1 H2) as (c & E & L). rewrite E. cbn [rbind]. rewrite assign_all_eq by (rewrite repeat_length; lia). exists c. auto. Qed.
Lemma rhs_ok mix w deff nn pa n : length mix = n -> length w = n -> length nn = n -> length pa = n -> (forall v, In v nn -> 0 < v) -> (forall v, In v pa -> v <> 0) -> exists d, rhs mix w deff nn pa = Ok d /\ length d = n.
Proof.
  intros H1 H2 H3 H4 P1 P2. unfold rhs. destruct (b2_len (fun m w => Ci * RtoC 2 * m * RtoC w * RtoC deff)%C mix w n H1 H2) as (c & E & L). rewrite E. cbn [rbind].
  edestruct (bc_len (fun a n => if Req_EM_T (c_mks * n) 0 then Raise NonFinite else Ok (a / RtoC (c_mks * n))%C) c nn n L H3) as (b & Eb & Lb).
  - intros x y Hy. specialize (P1 y Hy). destruct (Req_EM_T (c_mks * y) 0) as [Q|_]; [exfalso; assert (0 < c_mks * y) by (apply Rmult_lt_0_compat; [unfold c_mks; lra|exact P1]); lra|eexists; reflexivity].
  - rewrite Eb. cbn [rbind]. apply bc_len; [exact Lb|exact H4|]. intros x y Hy. specialize (P2 y Hy). destruct (Req_EM_T y 0); [contradiction|eexists; reflexivity].
Qed.

(** once the field-independent quantities are there, the rest succeeds *)
Lemma deriv_run strf q n z y dydx s de pp ps pi ap as_ ai s1 : sized strf q n -> frame strf q z s = (Ok (de, (pp, ps, pi), (ap, as_, ai)), s1) -> length pp = n -> length ps = n -> length pi = n -> length ap = n -> length as_ = n -> length ai = n ->
  (forall v, In v ap -> v <> 0) -> (forall v, In v as_ -> v <> 0) -> (forall v, In v ai -> v <> 0) ->
  length (q_np q) = n -> length (q_ns q) = n -> length (q_ni q) = n -> (forall v, In v (q_np q) -> 0 < v) -> (forall v, In v (q_ns q) -> 0 < v) -> (forall v, In v (q_ni q) -> 0 < v) ->
  fc_ok n (ds_fc s) -> length y = (3 * n)%nat -> length dydx = (3 * n)%nat -> exists d s', deriv strf q z y dydx s = (Ok d, s') /\ length d = (3 * n)%nat /\ fc_ok n (ds_fc s').
Proof.
  intros Sz Fr Lpp Lps Lpi Lap Las Lai Za Zs Zi Lp Ls Li Pp Ps Pi Fc0 Ly Ld. destruct Sz as (Qn & Hn & L1 & L2 & L3 & N1 & N2 & N3 & C1 & C2 & C3).
  assert (Fc : fc_ok n (ds_fc s1)) by (rewrite (frame_fc _ _ _ _ _ _ Fr); exact Fc0).
  assert (LA : length (Ap q y) = n /\ length (As q y) = n /\ length (Ai q y) = n) by (unfold Ap, As, Ai; rewrite Qn, !seg_length; lia). destruct LA as (LAp & LAs & LAi).
  destruct (drive_ok ap (Ap q y) pp n Lap LAp Lpp) as (dp & Edp & Ldp). destruct (drive_ok as_ (As q y) ps n Las LAs Lps) as (ds & Eds & Lds). destruct (drive_ok ai (Ai q y) pi n Lai LAi Lpi) as (di & Edi & Ldi).
  destruct (C49_conv_l n (ds_fc s1) ds di Fc Hn Lds Ldi) as (c1 & f1 & R1 & F1 & Lc1 & _). destruct (unphase_ok n pp c1 Lpp Lc1) as (u1 & U1 & Lu1).
  destruct (corr_any n f1 dp ds F1 Hn Ldp Lds) as (c2 & f2 & R2 & F2 & Lc2 & _). destruct (unphase_ok n pi c2 Lpi Lc2) as (u2 & U2 & Lu2).
  destruct (corr_any n f2 dp di F2 Hn Ldp Ldi) as (c3 & f3 & R3 & F3 & Lc3 & _). destruct (unphase_ok n ps c3 Lps Lc3) as (u3 & U3 & Lu3).
  assert (LW : forall p, p_n p = n -> length (map (fun w => w * 1000000000000) (spec_W (p_n p) (p_tw p) (p_f p))) = n) by (intros p Hp; rewrite map_length, spec_W_length; exact Hp).
  destruct (rhs_ok u1 _ de (q_np q) ap n Lu1 (LW _ N1) Lp Lap Pp Za) as (r1 & Er1 & Lr1). destruct (rhs_ok u3 _ de (q_ns q) as_ n Lu3 (LW _ N2) Ls Las Ps Zs) as (r2 & Er2 & Lr2). destruct (rhs_ok u2 _ de (q_ni q) ai n Lu2 (LW _ N3) Li Lai Pi Zi) as (r3 & Er3 & Lr3).
  destruct (split3 n dydx Ld) as (a & b & c & -> & La & Lb & Lc).
  assert (S1 : set_seg 0 n r1 (a ++ b ++ c) = Ok (r1 ++ b ++ c)) by (change (a ++ b ++ c) with ([] ++ a ++ b ++ c); rewrite set_seg_app by (cbn [length]; lia); reflexivity).
  assert (S2 : set_seg n (2 * n) r2 (r1 ++ b ++ c) = Ok (r1 ++ r2 ++ c)) by (rewrite set_seg_app by lia; reflexivity).
  assert (S3 : set_seg (2 * n) (3 * n) r3 (r1 ++ r2 ++ c) = Ok (r1 ++ r2 ++ r3)). { replace (r1 ++ r2 ++ c) with ((r1 ++ r2) ++ c ++ []) by (rewrite app_nil_r, app_assoc; reflexivity). rewrite set_seg_app by (rewrite ?app_length; lia). rewrite app_nil_r, app_assoc. reflexivity. }
  exists (r1 ++ r2 ++ r3), (mkDS (ds_k s1) f3). split; [|split; [rewrite !app_length; lia|exact F3]].
  unfold deriv. unfold bind at 1. rewrite Fr. cbv beta iota. rewrite Qn.
  unfold bind at 1, lift at 1. rewrite Edp. unfold bind at 1, lift at 1. rewrite Eds. unfold bind at 1, lift at 1. rewrite Edi.
  unfold bind at 1, on_fc at 1. rewrite R1. unfold bind at 1, lift at 1. rewrite U1. unfold bind at 1, on_fc at 1. cbn [ds_fc ds_k]. rewrite R2. unfold bind at 1, lift at 1. rewrite U2. unfold bind at 1, on_fc at 1. cbn [ds_fc ds_k]. rewrite R3. unfold bind at 1, lift at 1. rewrite U3. cbv zeta.
  unfold bind at 1, lift at 1. rewrite (Wmks_of_cur _ _ C1). unfold bind at 1, lift at 1. rewrite Er1. unfold bind at 1, lift at 1. rewrite S1.
  unfold bind at 1, lift at 1. rewrite (Wmks_of_cur _ _ C2). unfold bind at 1, lift at 1. rewrite Er2. unfold bind at 1, lift at 1. rewrite S2.
  unfold bind at 1, lift at 1. rewrite (Wmks_of_cur _ _ C3). unfold bind at 1, lift at 1. rewrite Er3. unfold lift at 1. rewrite S3. reflexivity.
Qed.
Lemma deriv_total strf q n z y dydx s bp bs bi len : sized strf q n -> q_noSPM q = true -> q_beams q = Guided bp bs bi -> 0 < g_Aeff bp -> 0 < g_Aeff bs -> 0 < g_Aeff bi ->
  length (q_np q) = n -> length (q_ns q) = n -> length (q_ni q) = n -> (forall v, In v (q_np q) -> 0 < v) -> (forall v, In v (q_ns q) -> 0 < v) -> (forall v, In v (q_ni q) -> 0 < v) -> q_speed q <> 0 ->
  x_len (dx_x (q_xtal q)) = Some len -> (exists de, deff_at q z = Ok de) -> fc_ok n (ds_fc s) -> length y = (3 * n)%nat -> length dydx = (3 * n)%nat ->
  exists d s', deriv strf q z y dydx s = (Ok d, s') /\ length d = (3 * n)%nat /\ fc_ok n (ds_fc s').
Proof.
  intros Sz Ns Qb Ap_ As_ Ai_ Lp Ls Li Pp Ps Pi Sp Xl [de Ed] Fc Ly Ld. destruct Sz as (Qn & Hn & L1 & L2 & L3 & N1 & N2 & N3 & C1 & C2 & C3).
  assert (Fr : exists pp ps pi ap as_ ai, frame strf q z s = (Ok (de, (pp, ps, pi), (ap, as_, ai)), s) /\ length pp = n /\ length ps = n /\ length pi = n /\ length ap = n /\ length as_ = n /\ length ai = n /\ (forall v, In v ap -> v <> 0) /\ (forall v, In v as_ -> v <> 0) /\ (forall v, In v ai -> v <> 0)).
  { destruct (wg_ok bp (q_np q) Ap_ Pp) as (ap & Ea & La & Za). destruct (wg_ok bs (q_ns q) As_ Ps) as (as_ & Es & Lsa & Zs). destruct (wg_ok bi (q_ni q) Ai_ Pi) as (ai & Ei & Lia_ & Zi).
    set (p0 := mk n (fun m => cis (delay (q_kp q) (q_kp0 q) (q_pump q) (q_speed q) z m))). set (s0 := mk n (fun m => cis (delay (q_ks q) (q_ks0 q) (q_sgnl q) (q_speed q) z m))). set (i0 := mk n (fun m => cis (delay (q_ki q) (q_ki0 q) (q_idlr q) (q_speed q) z m))).
    assert (G : exists pp ps pi, add_gouy q (z - len / 2) (p0, s0, i0) = Ok (pp, ps, pi) /\ length pp = n /\ length ps = n /\ length pi = n).
    { unfold add_gouy. rewrite Qb. destruct (q_gouy q); eexists _, _, _; (split; [reflexivity|]); rewrite ?map_length; unfold p0, s0, i0; rewrite !mk_length; auto. }
    destruct G as (pp & ps & pi & Eg & Gp & Gs & Gi). exists pp, ps, pi, ap, as_, ai. split; [|repeat (split; [assumption || lia|]); assumption].
    unfold frame. unfold bind at 1, lift at 1. rewrite Ed. unfold bind at 1, lift at 1. rewrite fdiv_ok by exact Sp. unfold bind at 1, lift at 1. rewrite (phasor_run strf _ _ _ _ _ n L1 N1 C1). fold p0. unfold bind at 1, lift at 1. rewrite Qn, assign_all_eq by (unfold p0; rewrite repeat_length, mk_length; reflexivity).
    unfold bind at 1, lift at 1. rewrite (phasor_run strf _ _ _ _ _ n L2 N2 C2). fold s0. unfold bind at 1, lift at 1. rewrite assign_all_eq by (unfold s0; rewrite repeat_length, mk_length; reflexivity).
    unfold bind at 1, lift at 1. rewrite (phasor_run strf _ _ _ _ _ n L3 N3 C3). fold i0. unfold bind at 1, lift at 1. rewrite assign_all_eq by (unfold i0; rewrite repeat_length, mk_length; reflexivity).
    unfold bind at 1, lift at 1. rewrite Xl. cbv zeta. unfold bind at 1, lift at 1. rewrite Eg. rewrite Ns. unfold bind at 1, ret at 1. unfold bind at 1, on_k, P_to_a. rewrite Qb. unfold bind, lift. rewrite Ea, Es, Ei. destruct s as [k f]. reflexivity. }
  destruct Fr as (pp & ps & pi & ap & as_ & ai & Fr & Lpp & Lps & Lpi & Lap & Las & Lai & Za & Zs & Zi).
  apply (deriv_run strf q n z y dydx s de pp ps pi ap as_ ai s); try assumption. unfold sized. auto 15.
Qed.
(** the arrays the constructor computes *)
Lemma init_inv2 strf fuel rand pump sgnl x noSPM waist gouy wg Aeff k0 q fc k1 : dfg_init strf fuel rand pump sgnl x noSPM waist gouy wg Aeff k0 = (Ok (q, fc), k1) ->
  (exists kp kk ax k', k_at strf ax pump x kk = (Ok kp, k') /\ q_kp q = map (fun k => k - q_kp0 q) kp) /\
  (exists kp kk ax k', k_at strf ax sgnl x kk = (Ok kp, k') /\ q_ks q = map (fun k => k - q_ks0 q) kp) /\
  (exists kp kk ax k', k_at strf ax (q_idlr q) x kk = (Ok kp, k') /\ q_ki q = map (fun k => k - q_ki0 q) kp) /\
  exists vp mp vs ms vi mi, rtraverse (fdiv c_mks) (q_np q) = Ok vp /\ max_list vp = Ok mp /\ rtraverse (fdiv c_mks) (q_ns q) = Ok vs /\ max_list vs = Ok ms /\ rtraverse (fdiv c_mks) (q_ni q) = Ok vi /\ max_list vi = Ok mi /\ max_list [mp; ms; mi] = Ok (q_speed q).
Proof.
  intros H. unfold dfg_init in H. apply bind_ok in H as (u & s1 & E0 & H). apply bind_ok in H as (idlr & s2 & E1 & H). apply lift_ok in E1 as [E1 ->]. apply bind_ok in H as ([] & s2 & E2 & H). apply bind_ok in H as ([] & s3 & E3 & H). apply bind_ok in H as (doms & s4 & E4 & H).
  apply bind_ok in H as (u2 & s5 & E5 & H). apply bind_ok in H as (bs & s6 & E6 & H).
  apply bind_ok in H as (ap & s7 & E7 & H). apply bind_ok in H as (as_ & s8 & E8 & H). apply bind_ok in H as (ai & s9 & E9 & H). destruct (axes bs) as [[xp xs] xi].
  apply bind_ok in H as (kp & t1 & Kp & H). apply bind_ok in H as (ks & t2 & Ks & H). apply bind_ok in H as (ki & t3 & Ki & H). apply bind_ok in H as (kp0 & t4 & _ & H). apply bind_ok in H as (ks0 & t5 & _ & H). apply bind_ok in H as (ki0 & t6 & _ & H).
  apply bind_ok in H as (np & t7 & _ & H). apply bind_ok in H as (ns & t8 & _ & H). apply bind_ok in H as (ni & t9 & _ & H). apply bind_ok in H as (ci & t10 & _ & H).
  apply bind_ok in H as (vp & t11 & V1 & H). apply lift_ok in V1 as [V1 ->]. apply bind_ok in H as (mp & t11 & V2 & H). apply lift_ok in V2 as [V2 ->]. apply bind_ok in H as (vs & t11 & V3 & H). apply lift_ok in V3 as [V3 ->]. apply bind_ok in H as (ms & t11 & V4 & H). apply lift_ok in V4 as [V4 ->]. apply bind_ok in H as (vi & t11 & V5 & H). apply lift_ok in V5 as [V5 ->]. apply bind_ok in H as (mi & t11 & V6 & H). apply lift_ok in V6 as [V6 ->]. apply bind_ok in H as (sp & t11 & V7 & H). apply lift_ok in V7 as [V7 ->].
  unfold ret in H. match type of H with (Ok (?q0, ?f0), _) = _ => assert (Q : q = q0) by congruence end. clear H. subst q. cbn [q_idlr q_kp q_ks q_ki q_kp0 q_ks0 q_ki0 q_np q_ns q_ni q_speed].
  split; [exists kp; eexists _, _, _; split; [exact Kp|reflexivity]|]. split; [exists ks; eexists _, _, _; split; [exact Ks|reflexivity]|]. split; [exists ki; eexists _, _, _; split; [exact Ki|reflexivity]|]. exists vp, mp, vs, ms, vi, mi. repeat (split; [assumption|]). assumption.
Qed.
Lemma rtraverse_length {A B} (f : A -> result B) l r : rtraverse f l = Ok r -> length r = length l.
Proof. revert r. induction l as [|x l IH]; intros r H; cbn [rtraverse] in H; [injection H as <-; reflexivity|]. apply rbind_ok in H as (y & _ & H). apply rbind_ok in H as (r' & E & H). injection H as <-. cbn [length]. rewrite (IH r' E). reflexivity. Qed.
Lemma k_at_length strf ax p x kk kp k' n : k_at strf ax p x kk = (Ok kp, k') -> cur_wl strf p -> p_n p = n -> (2 <= n)%nat -> length kp = n.
Proof.
  intros H C Np Hn. unfold k_at, reading in H. destruct (get_pulse_k strf (dx_x x) ax (kk, p)) as [r s] eqn:E. injection H as -> _. unfold get_pulse_k in E.
  apply bind_ok in E as (o & s1 & E1 & E). apply bind_ok in E as (wl & s2 & E2 & E). apply bind_ok in E as (ns & s3 & E3 & E). apply lift_ok in E3 as [E3 ->]. apply bind_ok in E as (wm & s4 & _ & E). apply bind_ok in E as (kk' & s5 & E5 & E). apply lift_ok in E5 as [E5 ->]. apply lift_ok in E as [E ->].
  unfold on_pulse in E1. cbn [snd fst] in E1. unfold cur_wl in C. destruct (get_wl_nm strf p) as [r p1]. cbn [fst] in C. rewrite C in E1. injection E1 as <- <-. cbn [as_array ret] in E2. injection E2 as <- _.
  assert (L : length ns = n). { unfold index in E3. destruct (x_mat (dx_x x)); apply rtraverse_length in E3; rewrite E3, map_length, spec_W_length; exact Np. }
  apply (b2_right (fun n w => (n, w)) ns wm kk' n 0 0 (0, 0)) in E5 as [E5 _]; [|exact L|exact Hn]. apply rtraverse_length in E. lia.
Qed.
Lemma max_pos l m : max_list l = Ok m -> (forall v, In v l -> 0 < v) -> 0 < m.
Proof. intros E H. apply H. apply max_list_in, E. Qed.
Lemma speeds_pos l v : rtraverse (fdiv c_mks) l = Ok v -> (forall u, In u l -> 0 < u) -> forall u, In u v -> 0 < u.
Proof.
  revert v. induction l as [|x l IH]; intros v H P; cbn [rtraverse] in H; [injection H as <-; intros u []|]. apply rbind_ok in H as (y & E & H). apply rbind_ok in H as (r & E' & H). injection H as <-. intros u [<-|Hu].
  - apply fdiv_inv in E as [_ ->]. apply Rdiv_lt_0_compat; [unfold c_mks; lra|apply P; left; reflexivity].
  - apply (IH r E'); [intros w Hw; apply P; right; exact Hw|exact Hu].
Qed.
Lemma init_sized strf fuel rand pump sgnl x noSPM waist gouy wg Aeff k0 q fc k1 n : dfg_init strf fuel rand pump sgnl x noSPM waist gouy wg Aeff k0 = (Ok (q, fc), k1) -> q_n q = n -> (2 <= n)%nat -> p_f pump <> 0 -> p_f sgnl <> 0 ->
  cur_W strf pump -> cur_W strf sgnl -> cur_wl strf pump -> cur_wl strf sgnl -> sized strf q n.
Proof.
  intros H Qn Hn Hp Hs C1 C2 C3 C4. destruct (init_inv2 _ _ _ _ _ _ _ _ _ _ _ _ _ _ _ H) as ((kp & kk & ax & k' & Kp & Ep) & (ks & kk2 & ax2 & k2' & Ks & Es) & (ki & kk3 & ax3 & k3' & Ki & Ei) & _).
  apply init_inv in H as (Qp & Qs & _ & _ & _ & Ei0 & _ & _ & Qn' & Np & Ni & _). destruct (idler_spec _ _ _ _ Hp Hs Ei0) as (_ & _ & _ & _ & C). destruct (C strf) as [C5 C6].
  unfold sized. rewrite Ep, Es, Ei, !map_length, Qp, Qs. rewrite (k_at_length _ _ _ _ _ _ _ n Kp C3 ltac:(congruence) Hn), (k_at_length _ _ _ _ _ _ _ n Ks C4 ltac:(congruence) Hn), (k_at_length _ _ _ _ _ _ _ n Ki C6 ltac:(congruence) Hn). repeat (split; [assumption || lia|]). assumption.
Qed.

(*! C71: once the constructor has accepted a waveguide problem (SPM disabled, a poling mode the class knows, a crystal length, positive effective area, indices found for the whole grid and positive), the right-hand side returns a
    derivative of the same size at every distance, for every field and from every state of the FFT buffers; it also leaves the buffers usable for the next call. *)
Lemma C71_total_l : forall strf fuel rand pump sgnl x waist gouy Aeff len k0 q fc0 k1 n z y dydx s,
  dfg_init strf fuel rand pump sgnl x true waist gouy true (Some Aeff) k0 = (Ok (q, fc0), k1) -> q_n q = n -> (2 <= n)%nat ->
  p_f pump <> 0 -> p_f sgnl <> 0 -> cur_W strf pump -> cur_W strf sgnl -> cur_wl strf pump -> cur_wl strf sgnl ->
  0 < Aeff -> x_len (dx_x x) = Some len -> (dx_mode x = "PP" \/ dx_mode x = "simple")%string ->
  length (q_np q) = n -> length (q_ns q) = n -> length (q_ni q) = n -> (forall v, In v (q_np q ++ q_ns q ++ q_ni q) -> 0 < v) ->
  fc_ok n (ds_fc s) -> length y = (3 * n)%nat -> length dydx = (3 * n)%nat ->
  exists d s', deriv strf q z y dydx s = (Ok d, s') /\ length d = (3 * n)%nat /\ fc_ok n (ds_fc s').
Proof.
  intros strf fuel rand pump sgnl x waist gouy Aeff len k0 q fc0 k1 n z y dydx s H Qn Hn Hp Hs C1 C2 C3 C4 Ha Xl Md L1 L2 L3 P Fc Ly Ld.
  pose proof (init_sized _ _ _ _ _ _ _ _ _ _ _ _ _ _ _ n H Qn Hn Hp Hs C1 C2 C3 C4) as Sz. destruct (init_inv2 _ _ _ _ _ _ _ _ _ _ _ _ _ _ _ H) as (_ & _ & _ & vp & mp & vs & ms & vi & mi & V1 & V2 & V3 & V4 & V5 & V6 & V7).
  apply init_inv in H as (_ & _ & Qx & Qs & _ & _ & _ & _ & _ & _ & _ & _ & Hb & _). destruct (Hb eq_refl) as (a & [= <-] & Qb).
  assert (P1 : forall v, In v (q_np q) -> 0 < v) by (intros v Hv; apply P, in_or_app; left; exact Hv). assert (P2 : forall v, In v (q_ns q) -> 0 < v) by (intros v Hv; apply P, in_or_app; right; apply in_or_app; left; exact Hv). assert (P3 : forall v, In v (q_ni q) -> 0 < v) by (intros v Hv; apply P, in_or_app; right; apply in_or_app; right; exact Hv).
  assert (A0 : 0 < g_Aeff (wg_init Aeff None)) by (cbn [wg_init g_Aeff]; lra).
  apply (deriv_total strf q n z y dydx s _ _ _ len Sz Qs Qb A0 A0 A0 L1 L2 L3 P1 P2 P3); try assumption.
  - apply Rgt_not_eq. apply (max_pos _ _ V7). intros v [<-|[<-|[<-|[]]]]; [apply (max_pos _ _ V2), (speeds_pos _ _ V1 P1)|apply (max_pos _ _ V4), (speeds_pos _ _ V3 P2)|apply (max_pos _ _ V6), (speeds_pos _ _ V5 P3)].
  - rewrite Qx. exact Xl.
  - unfold deff_at, is_mode. rewrite Qx. destruct Md as [-> | ->]; cbn; eexists; reflexivity.
Qed.

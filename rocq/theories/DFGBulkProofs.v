(** Free-space (bulk) mode of dfg_problem: C89, C90, C91. *)
From Coq Require Import String.
From Coq Require Import Reals List ZArith Bool Arith Lia Lra.
From Coquelicot Require Import Coquelicot.
From Verif Require Import Base CNum NumPy FFTProofs ModelPulse Spec ModelDerived PulseProofs PulseHistory PulseRegridProofs DerivedProofs ModelCrystal CrystalProofs ModelBeam BeamProofs ModelODE ModelDFG DFGMixProofs DFGProofs DFGInitProofs DFGOutProofs DFGTotalProofs DFGAcceptProofs.
Import ListNotations.
Local Open Scope R_scope.
Local Open Scope py_scope.
Local Notation z0 := (RtoC 0).
Local Notation at0 x i := (nth i x z0).

(** ** Reading indices and wave vectors on any axis *)
(** the index of a crystal is defined and positive at every positive wavelength (nm), on the given axis *)
Definition index_pos_on (x : dcrystal) (ax : option string) : Prop := forall l, (forall w, In w l -> 0 < w) -> exists ns, index (x_mat (dx_x x)) ax l = Ok ns /\ forall v, In v ns -> 0 < v.
Lemma n_on_ok strf p x ax n : index_pos_on x ax -> x_caching (dx_x x) = false -> cur_wl strf p -> p_n p = n -> (forall k, (k < n)%nat -> 0 < omega p k) ->
  exists ns, (forall kk, n_at strf ax p x kk = (Ok ns, kk)) /\ length ns = n /\ forall v, In v ns -> 0 < v.
Proof.
  intros X Ca C <- P. destruct (X _ (wl_pos p P)) as (ns & E & Pn). exists ns. split; [|split; [apply index_length in E; rewrite E, map_length, spec_W_length; reflexivity|exact Pn]]. intros kk.
  unfold n_at, reading, get_pulse_n. rewrite Ca. unfold compute_n, bind, on_pulse. cbn [snd fst]. unfold cur_wl in C. destruct (get_wl_nm strf p) as [r p1]. cbn [fst] in C. subst r. unfold as_array, ret, lift. rewrite E. reflexivity.
Qed.
Lemma k_on_ok strf p x ax n : index_pos_on x ax -> cur_wl strf p -> cur_W strf p -> p_n p = n -> (forall k, (k < n)%nat -> 0 < omega p k) -> exists ks, (forall kk, k_at strf ax p x kk = (Ok ks, kk)) /\ length ks = n.
Proof.
  intros X C C' <- P. destruct (X _ (wl_pos p P)) as (ns & E & _). pose proof (index_length _ _ _ _ E) as L. rewrite map_length, spec_W_length in L.
  set (wm := map (fun x => 2 * PI * c_mks / x) (map (fun w => w * 1000000000000) (spec_W (p_n p) (p_tw p) (p_f p)))). assert (Lw : length wm = p_n p) by (unfold wm; rewrite !map_length; apply spec_W_length).
  destruct (b2_len (fun n w => (n, w)) ns wm (p_n p) L Lw) as (kk' & Ek & Lk).
  destruct (rtraverse_total (fun nw : R * R => fdiv (2 * PI * fst nw) (snd nw)) kk') as (ks & Eks & Lks).
  { intros [u v] Hv. assert (V : In v wm). { rewrite broadcast2_eq in Ek by lia. injection Ek as <-. clearbody wm. clear -Hv. revert wm Hv. induction ns as [|a ns IH]; intros [|b wm] Hv; cbn in Hv; try contradiction. destruct Hv as [Q|Hv]; [injection Q as _ ->; left; reflexivity|right; apply (IH wm Hv)]. }
    unfold wm in V. apply in_map_iff in V as (t & <- & Ht). apply in_map_iff in Ht as (t' & <- & Ht). apply (In_nth _ _ 0) in Ht as (k & Hk & <-). rewrite spec_W_length in Hk. specialize (P k Hk). unfold omega in P. eexists. apply fdiv_ok. apply Rgt_not_eq, Rdiv_lt_0_compat; [pose proof PI_RGT_0; unfold c_mks; nra|]. cbn [fst snd]. lra. }
  exists ks. split; [|lia]. intros kk.
  unfold k_at, reading, get_pulse_k, bind, on_pulse. cbn [snd fst]. pose proof (W_after_wl strf p) as W. unfold cur_wl in C. destruct (get_wl_nm strf p) as [r p1] eqn:G. cbn [fst] in C. subst r. cbn [snd] in W. unfold as_array, ret, lift. rewrite E.
  assert (Q : fst (get_wl_mks strf p1) = Ok wm). { unfold get_wl_mks, bind. unfold cur_W in C'. rewrite C' in W. destruct (get_W_mks strf p1) as [r p2]. cbn [fst] in W. subst r. reflexivity. }
  cbn [snd fst]. destruct (get_wl_mks strf p1) as [r p2]. cbn [fst] in Q. subst r. rewrite Ek, Eks. reflexivity.
Qed.
(** wavelengths in metres *)
Definition lam_of (p : pulse) : list R := map (fun x => 2 * PI * c_mks / x) (map (fun w => w * 1000000000000) (spec_W (p_n p) (p_tw p) (p_f p))).
Lemma lam_length p : length (lam_of p) = p_n p. Proof. unfold lam_of. rewrite !map_length. apply spec_W_length. Qed.
Lemma lam_nth p m : (m < p_n p)%nat -> nth m (lam_of p) 0 = 2 * PI * c_mks / (omega p m * 1000000000000).
Proof. intros H. unfold lam_of. rewrite (nth_map' _ _ _ 0) by (rewrite map_length, spec_W_length; exact H). rewrite (nth_map' _ _ _ 0) by (rewrite spec_W_length; exact H). reflexivity. Qed.
Lemma lam_pos p : (forall k, (k < p_n p)%nat -> 0 < omega p k) -> forall v, In v (lam_of p) -> 0 < v.
Proof. intros P v Hv. apply (In_nth _ _ 0) in Hv as (k & Hk & <-). rewrite lam_length in Hk. rewrite lam_nth by exact Hk. specialize (P k Hk). pose proof PI_RGT_0. apply Rdiv_lt_0_compat; [unfold c_mks; nra|lra]. Qed.
Lemma beam_read strf p w ax (k : shared) : cur_W strf p -> rd (beam_init strf w ax) p k = (Ok (mkBeam w (lam_of p) ax), k).
Proof.
  intros C. pose proof (wl_mks_cur _ _ C) as L. unfold rd, lift, beam_init, bind. destruct (get_wl_mks strf p) as [r p']. cbn [fst] in L. subst r. reflexivity.
Qed.

(** ** The beams of an accepted problem *)
Lemma waist_of_shape zr lam n w N : waist_of zr lam n = Ok w -> length lam = N -> length n = N -> (2 <= N)%nat -> (length zr = N \/ length zr = 1)%nat -> length w = N /\ forall m, 0 <= nth m w 0.
Proof.
  intros H Ll Ln HN Lz. unfold waist_of in H. apply rbind_ok in H as (a & Ea & H). destruct (broadcast2_inv _ _ _ _ 0 0 0 Ea) as (A1 & _). destruct (bcast_inv _ _ _ _ 0 0 0 H) as (B1 & B2 & B3 & Nb).
  assert (La : length a = N) by (destruct (Nat.eqb_spec (length zr) 1); lia). assert (Lw : length w = N) by (destruct (Nat.eqb_spec (length a) 1); lia). split; [exact Lw|]. intros m. destruct (Nat.lt_ge_cases m N) as [Hm|Hm]; [|rewrite nth_overflow by lia; lra].
  specialize (Nb m ltac:(lia)). apply rbind_ok in Nb as (q & _ & Nb). unfold fsqrt in Nb. destruct (Rlt_dec q 0); [discriminate|]. injection Nb as <-. apply sqrt_pos.
Qed.
Lemma central_keeps strf b p w x k b' k' N n1 : set_waist_to_match_central_waist strf b p w x k = (Ok b', k') -> (forall kk, get_n_in_crystal strf b p x kk = (Ok n1, kk)) -> length n1 = N -> length (b_lam b) = N -> (2 <= N)%nat ->
  b_lam b' = b_lam b /\ b_axis b' = b_axis b /\ length (b_w0 b') = N /\ forall m, 0 <= nth m (b_w0 b') 0.
Proof.
  unfold set_waist_to_match_central_waist. intros H R L1 Ll HN. apply bind_ok in H as (n1' & s1 & E & H). rewrite R in E. injection E as <- _. apply bind_ok in H as (nc & s2 & _ & H). apply bind_ok in H as (lc & s3 & _ & H). apply bind_ok in H as (q & s4 & _ & H). apply bind_ok in H as (w0 & s5 & E & H). apply lift_ok in E as [E _].
  unfold ret in H. match type of H with (Ok ?b0, _) = _ => assert (Q : b' = b0) by congruence end. subst b'. split; [reflexivity|]. split; [reflexivity|]. apply (waist_of_shape _ _ _ _ N E Ll L1 HN). right. reflexivity.
Qed.
Lemma confocal_keeps strf b p p' ob x k b' k' N n1 n2 c : set_waist_to_match_confocal strf b p p' ob x k = (Ok b', k') -> (forall kk, get_n_in_crystal strf b p x kk = (Ok n1, kk)) -> (forall kk, get_n_in_crystal strf ob p' x kk = (Ok n2, kk)) -> calc_confocal ob n2 = Ok c -> length c = N ->
  length n1 = N -> length (b_lam b) = N -> (2 <= N)%nat -> length (b_w0 b') = N /\ forall m, 0 <= nth m (b_w0 b') 0.
Proof.
  unfold set_waist_to_match_confocal. intros H R1 R2 Ec Lc L1 Ll HN. apply bind_ok in H as (n1' & s1 & E & H). rewrite R1 in E. injection E as <- _. apply bind_ok in H as (n2' & s2 & E & H). rewrite R2 in E. injection E as <- _. apply bind_ok in H as (zr & s3 & E & H). apply lift_ok in E as [E _]. apply bind_ok in H as (w0 & s5 & E' & H). apply lift_ok in E' as [E' _].
  unfold ret in H. match type of H with (Ok ?b0, _) = _ => assert (Q : b' = b0) by congruence end. subst b'. unfold calculate_zR in E. rewrite Ec in E. cbn [rbind] in E. injection E as <-. apply (waist_of_shape _ _ _ _ N E' Ll L1 HN). left. rewrite map_length. exact Lc.
Qed.
Definition ax_pump (x : dcrystal) : option string := if is_mode x "BPM" then Some "mix"%string else None.
Definition ax_othr (x : dcrystal) : option string := if is_mode x "BPM" then Some "o"%string else None.
(** a beam of a pulse in a medium of the given indices: its wavelengths are the pulse's, and its confocal parameter is c at every one of them *)
Record beam_of (p : pulse) (ax : option string) (ns : list R) (c : R) (b : beam) : Prop := mkBeamOf {
  bo_lam : b_lam b = lam_of p; bo_axis : b_axis b = ax; bo_conf : calc_confocal b ns = Ok (repeat c (p_n p)); bo_len : length (b_w0 b) = p_n p; bo_nn : forall m, 0 <= nth m (b_w0 b) 0 }.
Lemma bulk_beams strf waist a pump sgnl idlr x n np ns ni k0 :
  p_n pump = n -> p_n sgnl = n -> p_n idlr = n -> (2 <= n)%nat -> 0 < waist -> cur_W strf pump -> cur_W strf sgnl -> cur_W strf idlr ->
  (forall k, (k < n)%nat -> 0 < omega pump k /\ 0 < omega sgnl k /\ 0 < omega idlr k) ->
  (forall kk, n_at strf (ax_pump x) pump x kk = (Ok np, kk)) -> (forall kk, n_at strf (ax_othr x) sgnl x kk = (Ok ns, kk)) -> (forall kk, n_at strf (ax_othr x) idlr x kk = (Ok ni, kk)) ->
  length np = n -> length ns = n -> length ni = n -> (forall v, In v np -> 0 < v) -> (forall v, In v ns -> 0 < v) -> (forall v, In v ni -> 0 < v) ->
  let c := 2 * PI * waist ^ 2 * nth (n / 2) np 0 / nth (n / 2) (lam_of pump) 0 in
  exists bp bs bi, make_beams strf false waist a pump sgnl idlr x k0 = (Ok (Bulk bp bs bi), k0) /\ nth (n / 2) (b_w0 bp) 0 = waist /\
    beam_of pump (ax_pump x) np c bp /\ beam_of sgnl (ax_othr x) ns c bs /\ beam_of idlr (ax_othr x) ni c bi.
Proof.
  intros Np Ns Ni Hn Hw Cp Cs Ci P Rp Rs Ri Lp Ls Li Pp Ps Pi c. unfold make_beams. fold (ax_pump x). fold (ax_othr x).
  assert (Lam : forall p, p_n p = n -> length (lam_of p) = n) by (intros p <-; apply lam_length).
  assert (Q1 : forall v, In v (lam_of pump) -> 0 < v) by (apply lam_pos; intros k Hk; apply P; lia). assert (Q2 : forall v, In v (lam_of sgnl) -> 0 < v) by (apply lam_pos; intros k Hk; apply P; lia). assert (Q3 : forall v, In v (lam_of idlr) -> 0 < v) by (apply lam_pos; intros k Hk; apply P; lia).
  unfold bind at 1. rewrite (beam_read _ _ _ _ _ Cp). set (bp0 := mkBeam [waist] (lam_of pump) (ax_pump x)).
  destruct (C62_match_central_l strf bp0 pump waist (dx_x x) k0 k0 np (Rp k0) ltac:(lia) ltac:(cbn [b_lam bp0]; rewrite Lam by exact Np; lia) Pp Q1 Hw) as (bp & Ep & Wp & Lw & cc & Conf & Hcc). destruct (central_keeps _ _ _ _ _ _ _ _ n np Ep Rp Lp (Lam _ Np) Hn) as (Lam1 & Ax1 & Len1 & Nn1).
  unfold bind at 1. rewrite Ep. rewrite Lp, Nat.div2_div in Wp. rewrite Lp in Conf, Lw. rewrite Lp, Nat.div2_div in Hcc. cbn [b_lam bp0] in Hcc. fold c in Hcc. subst cc.
  unfold bind at 1. rewrite (beam_read _ _ _ _ _ Cs). set (bs0 := mkBeam [waist] (lam_of sgnl) (ax_othr x)).
  assert (Gp : forall kk, get_n_in_crystal strf bp pump (dx_x x) kk = (Ok np, kk)) by (intros kk; unfold get_n_in_crystal; rewrite Ax1; apply Rp).
  destruct (C62_match_confocal_l strf bs0 bp sgnl pump (dx_x x) k0 k0 k0 ns np (repeat c n) (Rs k0) (Gp k0) Conf) as (bs & Es & Cfs & Lam2 & Ax2); try assumption; [lia|cbn [b_lam bs0]; rewrite Lam by exact Ns; lia|rewrite repeat_length; lia|rewrite Lam1; exact Q1|].
  destruct (confocal_keeps _ _ _ _ _ _ _ _ _ n ns np _ Es Rs Gp Conf (repeat_length _ _) Ls (Lam _ Ns) Hn) as [Len2 Nn2]. unfold bind at 1. rewrite Es. unfold bind at 1. rewrite (beam_read _ _ _ _ _ Ci). set (bi0 := mkBeam [waist] (lam_of idlr) (ax_othr x)).
  destruct (C62_match_confocal_l strf bi0 bp idlr pump (dx_x x) k0 k0 k0 ni np (repeat c n) (Ri k0) (Gp k0) Conf) as (bi & Ei & Cfi & Lam3 & Ax3); try assumption; [lia|cbn [b_lam bi0]; rewrite Lam by exact Ni; lia|rewrite repeat_length; lia|rewrite Lam1; exact Q1|].
  destruct (confocal_keeps _ _ _ _ _ _ _ _ _ n ni np _ Ei Ri Gp Conf (repeat_length _ _) Li (Lam _ Ni) Hn) as [Len3 Nn3]. unfold bind at 1. rewrite Ei. exists bp, bs, bi. split; [reflexivity|]. split; [exact Wp|]. split; [|split]; split; try assumption; rewrite ?Np, ?Ns, ?Ni; assumption.
Qed.

Lemma confocal_pos waist np p n : 0 < waist -> length np = n -> p_n p = n -> (2 <= n)%nat -> (forall v, In v np -> 0 < v) -> (forall k, (k < n)%nat -> 0 < omega p k) ->
  0 < 2 * PI * waist ^ 2 * nth (n / 2) np 0 / nth (n / 2) (lam_of p) 0.
Proof.
  intros Hw Ln Np Hn Pn P. pose proof PI_RGT_0. assert (Hh : (n / 2 < n)%nat) by (apply Nat.div_lt; lia). assert (0 < nth (n / 2) np 0) by (apply Pn, nth_In; lia). assert (0 < nth (n / 2) (lam_of p) 0) by (apply (lam_pos p); [rewrite Np; exact P|apply nth_In; rewrite lam_length; lia]).
  apply Rdiv_lt_0_compat; [|assumption]. apply Rmult_lt_0_compat; [|assumption]. apply Rmult_lt_0_compat; [lra|apply pow_lt; assumption].
Qed.
(** widths of such a beam *)
Definition grow (c z : R) : R := sqrt (1 + (2 * z / c) ^ 2).
Lemma grow_pos c z : 0 < grow c z. Proof. apply sqrt_lt_R0. pose proof (pow2_ge_0 (2 * z / c)). lra. Qed.
Lemma beam_widths p ax ns c b n : beam_of p ax ns c b -> p_n p = n -> (2 <= n)%nat -> length ns = n -> 0 < c -> (forall v, In v ns -> 0 < v) -> (forall k, (k < n)%nat -> 0 < omega p k) ->
  (forall z, calculate_waist b z ns = Ok (map (Rmult (grow c z)) (b_w0 b))) /\
  forall m, (m < n)%nat -> 0 < nth m (b_w0 b) 0 /\ nth m (b_w0 b) 0 ^ 2 = c * nth m (lam_of p) 0 / (2 * PI * nth m ns 0).
Proof.
  intros [Hl Ha Hc Lw Nn] Np Hn Ln Pc Pn P. rewrite Np in Hc, Lw. destruct (confocal_inv _ _ _ Hc) as (N & M1 & M2 & M3). rewrite repeat_length in *.
  assert (Rc : forall m, (m < n)%nat -> nth m (repeat c n) 0 = c) by (intros m Hm; rewrite (nth_indep _ 0 c) by (rewrite repeat_length; lia); apply nth_repeat).
  split.
  - intros z. assert (Ew : exists w, calculate_waist b z ns = Ok w). { unfold calculate_waist. rewrite Hc. cbn [rbind]. apply (bcast_some _ _ _ 0 0); [rewrite repeat_length; lia|]. intros i Hi. rewrite repeat_length in Hi. assert (i < n)%nat by (destruct (Nat.eqb_spec (length (b_w0 b)) 1); lia). rewrite (bget_nth (repeat c n)) by (rewrite repeat_length; lia). rewrite Rc, fdiv_ok by (assumption || lra). cbn [rbind]. eauto. }
    destruct Ew as [w Ew]. rewrite Ew. destruct (waist_inv _ _ _ _ Ew) as (c' & Ec & Lc & V). rewrite Hc in Ec. injection Ec as <-. rewrite repeat_length in Lc. f_equal. apply (list_ext 0); [rewrite map_length; lia|]. intros m Hm. destruct (V m Hm) as [_ ->]. rewrite Rc by lia. rewrite bget_nth by lia. rewrite (nth_map' _ _ _ 0) by lia. unfold grow. ring.
  - intros m Hm. destruct (N m Hm) as [Z E]. rewrite Rc in E by exact Hm. rewrite Hl in E, Z. rewrite (bget_nth ns) in E by lia. rewrite (bget_nth (lam_of p)) in E, Z by (rewrite lam_length; lia). rewrite (bget_nth (b_w0 b)) in E by lia. specialize (Nn m).
    pose proof PI_RGT_0. assert (0 < nth m ns 0) by (apply Pn, nth_In; lia). assert (0 < nth m (lam_of p) 0) by (apply (lam_pos p); [rewrite Np; exact P|apply nth_In; rewrite lam_length; lia]).
    set (v := nth m (b_w0 b) 0) in *. split; [|rewrite E at 1; field; repeat split; lra]. destruct Nn as [|Z0]; [assumption|]. rewrite <- Z0 in E. replace (2 * PI * 0 ^ 2 * (nth m ns 0 / nth m (lam_of p) 0)) with 0 in E by (cbn; ring). lra.
Qed.

(** What an accepted free-space problem satisfies. *)
Record bulk (strf : R -> string) (q : dfg) (n : nat) (c : R) (bp bs bi : beam) : Prop := mkBulk {
  bk_sized : sized strf q n; bk_n : (2 <= n)%nat; bk_c : 0 < c; bk_beams : q_beams q = Bulk bp bs bi; bk_speed : q_speed q <> 0;
  bk_om : forall k, (k < n)%nat -> 0 < omega (q_pump q) k /\ 0 < omega (q_sgnl q) k /\ 0 < omega (q_idlr q) k;
  bk_p : beam_of (q_pump q) (ax_pump (q_xtal q)) (q_np q) c bp; bk_s : beam_of (q_sgnl q) (ax_othr (q_xtal q)) (q_ns q) c bs; bk_i : beam_of (q_idlr q) (ax_othr (q_xtal q)) (q_ni q) c bi;
  bk_rp : forall k, n_at strf (ax_pump (q_xtal q)) (q_pump q) (q_xtal q) k = (Ok (q_np q), k); bk_rs : forall k, n_at strf (ax_othr (q_xtal q)) (q_sgnl q) (q_xtal q) k = (Ok (q_ns q), k); bk_ri : forall k, n_at strf (ax_othr (q_xtal q)) (q_idlr q) (q_xtal q) k = (Ok (q_ni q), k);
  bk_lp : length (q_np q) = n; bk_ls : length (q_ns q) = n; bk_li : length (q_ni q) = n;
  bk_pp : forall v, In v (q_np q) -> 0 < v; bk_ps : forall v, In v (q_ns q) -> 0 < v; bk_pi : forall v, In v (q_ni q) -> 0 < v }.

(** ** Conversion between power and field *)
Lemma area_factor w n e c : 0 < w -> 0 < n -> 0 < e -> 0 < c -> exists r, rbind (fsqrt (PI * w ^ 2 * n * e * c)) (fun r => fdiv 1 r) = Ok r /\ 0 < r /\ r ^ 2 * (PI * w ^ 2 * n * e * c) = 1.
Proof.
  intros Hw Hn He Hc. pose proof PI_RGT_0. set (v := PI * w ^ 2 * n * e * c). assert (Pv : 0 < v) by (unfold v; apply Rmult_lt_0_compat; [|assumption]; apply Rmult_lt_0_compat; [|assumption]; apply Rmult_lt_0_compat; [|assumption]; apply Rmult_lt_0_compat; [assumption|apply pow_lt; assumption]).
  rewrite fsqrt_ok by lra. cbn [rbind]. pose proof (sqrt_lt_R0 _ Pv). rewrite fdiv_ok by lra. eexists. split; [reflexivity|]. split; [apply Rdiv_lt_0_compat; lra|]. assert (Q : sqrt v * sqrt v = v) by (apply sqrt_sqrt; lra). rewrite <- Q at 2. field. lra.
Qed.
Lemma rtP_ok b ns z w n : length w = n -> length ns = n -> (forall m, (m < n)%nat -> 0 < nth m w 0) -> (forall v, In v ns -> 0 < v) ->
  exists pa, rtP_to_a_ b ns z (Some w) = Ok pa /\ length pa = n /\ forall m, (m < n)%nat -> 0 < nth m pa 0 /\ nth m pa 0 ^ 2 * (PI * nth m w 0 ^ 2 * nth m ns 0 * eps0 * c_mks) = 1.
Proof.
  intros Lw Ln Pw Pn. unfold rtP_to_a_. cbn [rbind]. assert (E0 : 0 < eps0) by (unfold eps0; lra). assert (C0 : 0 < c_mks) by (unfold c_mks; lra).
  assert (Pn' : forall m, (m < n)%nat -> 0 < nth m ns 0) by (intros m Hm; apply Pn, nth_In; lia).
  destruct (bcast_some (fun w n => r <-r fsqrt (PI * w ^ 2 * n * eps0 * c_mks) ;; fdiv 1 r) w ns 0 0) as [pa E]; [lia| |].
  { intros m Hm. assert (Hm' : (m < n)%nat) by (destruct (Nat.eqb_spec (length w) 1); lia). rewrite !bget_nth by lia. destruct (area_factor (nth m w 0) (nth m ns 0) eps0 c_mks) as (r & Er & _); auto. eauto. }
  exists pa. split; [exact E|]. destruct (bcast_inv _ _ _ _ 0 0 0 E) as (L1 & L2 & L3 & N). assert (Lp : length pa = n) by (destruct (Nat.eqb_spec (length w) 1); lia). split; [exact Lp|]. intros m Hm. specialize (N m ltac:(lia)). rewrite !bget_nth in N by lia.
  destruct (area_factor (nth m w 0) (nth m ns 0) eps0 c_mks) as (r & Er & Pr & Qr); auto. rewrite Er in N. injection N as <-. split; assumption.
Qed.
(** the beam that gives the width: pump first, then signal, then idler on ties *)
Definition narrow (bp bs bi : beam) : beam :=
  if Rle_dec (lrsum (b_w0 bp)) (lrsum (b_w0 bs)) then
    if Rle_dec (lrsum (b_w0 bp)) (lrsum (b_w0 bi)) then bp else if Rle_dec (lrsum (b_w0 bs)) (lrsum (b_w0 bi)) then bs else bi
  else if Rle_dec (lrsum (b_w0 bs)) (lrsum (b_w0 bi)) then bs else bi.
Lemma narrow_in bp bs bi : In (narrow bp bs bi) [bp; bs; bi] /\ forall b, In b [bp; bs; bi] -> lrsum (b_w0 (narrow bp bs bi)) <= lrsum (b_w0 b).
Proof.
  unfold narrow. repeat destruct (Rle_dec _ _); (split; [cbn; auto|]); intros b [<-|[<-|[<-|[]]]]; lra.
Qed.
Lemma lrsum_map_scale k l : lrsum (map (Rmult k) l) = k * lrsum l.
Proof. induction l as [|x l IH]; [cbn; ring|]. change (k * x + lrsum (map (Rmult k) l) = k * (x + lrsum l)). rewrite IH. ring. Qed.
Lemma mean_scaled k l n : length l = n -> (2 <= n)%nat -> mean (map (Rmult k) l) = Ok (k * lrsum l / INR n).
Proof. intros L Hn. unfold mean. rewrite map_length, L, fdiv_ok by (apply not_0_INR; lia). rewrite lrsum_map_scale. reflexivity. Qed.
Lemma Rle_scaled k a b N : 0 < k -> 0 < N -> (k * a / N <= k * b / N <-> a <= b).
Proof.
  intros Hk HN. assert (P : 0 < k / N) by (apply Rdiv_lt_0_compat; assumption). replace (k * a / N) with (k / N * a) by (field; lra). replace (k * b / N) with (k / N * b) by (field; lra). split; intros H; [apply (Rmult_le_reg_l (k / N)); assumption|apply Rmult_le_compat_l; lra].
Qed.
Lemma Rle_dec_iff {A} (a b a' b' : R) (x y : A) : (a <= b <-> a' <= b') -> (if Rle_dec a b then x else y) = (if Rle_dec a' b' then x else y).
Proof. intros H. destruct (Rle_dec a b), (Rle_dec a' b'); tauto. Qed.

Section Bulk.
Variables (strf : R -> string) (q : dfg) (n : nat) (c : R) (bp bs bi : beam).
Hypothesis B : bulk strf q n c bp bs bi.
Let b := narrow bp bs bi.
Let width (z : R) (m : nat) : R := grow c z * nth m (b_w0 b) 0.

Lemma bulk_pos : (forall b', In b' [bp; bs; bi] -> length (b_w0 b') = n /\ forall m, (m < n)%nat -> 0 < nth m (b_w0 b') 0) /\
  forall z, calculate_waist bp z (q_np q) = Ok (map (Rmult (grow c z)) (b_w0 bp)) /\ calculate_waist bs z (q_ns q) = Ok (map (Rmult (grow c z)) (b_w0 bs)) /\ calculate_waist bi z (q_ni q) = Ok (map (Rmult (grow c z)) (b_w0 bi)).
Proof.
  destruct B as [(Qn & _ & _ & _ & _ & N1 & N2 & N3 & _) Hn Hc Qb Sp Om Bp Bs Bi _ _ _ L1 L2 L3 P1 P2 P3].
  destruct (beam_widths _ _ _ _ _ n Bp N1 Hn L1 Hc P1 ltac:(intros k Hk; apply Om, Hk)) as [W1 V1]. destruct (beam_widths _ _ _ _ _ n Bs N2 Hn L2 Hc P2 ltac:(intros k Hk; apply Om, Hk)) as [W2 V2]. destruct (beam_widths _ _ _ _ _ n Bi N3 Hn L3 Hc P3 ltac:(intros k Hk; apply Om, Hk)) as [W3 V3].
  split; [|intros z; auto]. intros b' [<-|[<-|[<-|[]]]]; (split; [|intros m Hm; apply V1 || apply V2 || apply V3; exact Hm]); [rewrite <- N1; apply (bo_len _ _ _ _ _ Bp)|rewrite <- N2; apply (bo_len _ _ _ _ _ Bs)|rewrite <- N3; apply (bo_len _ _ _ _ _ Bi)].
Qed.

Lemma bulk_P_to_a z k : exists ap as_ ai, P_to_a strf q z k = (Ok (ap, as_, ai), k) /\ length ap = n /\ length as_ = n /\ length ai = n /\ forall m, (m < n)%nat ->
  (0 < nth m ap 0 /\ nth m ap 0 ^ 2 * (PI * width z m ^ 2 * nth m (q_np q) 0 * eps0 * c_mks) = 1) /\ (0 < nth m as_ 0 /\ nth m as_ 0 ^ 2 * (PI * width z m ^ 2 * nth m (q_ns q) 0 * eps0 * c_mks) = 1) /\ (0 < nth m ai 0 /\ nth m ai 0 ^ 2 * (PI * width z m ^ 2 * nth m (q_ni q) 0 * eps0 * c_mks) = 1).
Proof.
  destruct bulk_pos as [Pw Wz]. destruct (Wz z) as (W1 & W2 & W3). destruct (narrow_in bp bs bi) as [Ib _]. fold b in Ib. destruct (Pw b Ib) as [Lb Pb]. pose proof (grow_pos c z) as G. set (g := grow c z) in *.
  assert (Lw : length (map (Rmult g) (b_w0 b)) = n) by (rewrite map_length; exact Lb). assert (Ew : forall m, (m < n)%nat -> nth m (map (Rmult g) (b_w0 b)) 0 = g * nth m (b_w0 b) 0) by (intros m Hm; rewrite (nth_map' _ _ _ 0) by lia; reflexivity).
  assert (Pw' : forall m, (m < n)%nat -> 0 < nth m (map (Rmult g) (b_w0 b)) 0) by (intros m Hm; rewrite Ew by exact Hm; apply Rmult_lt_0_compat; [exact G|apply Pb, Hm]).
  destruct B as [_ Hn Hc Qb Sp Om Bp Bs Bi R1 R2 R3 L1 L2 L3 P1 P2 P3].
  destruct (rtP_ok bp (q_np q) z _ n Lw L1 Pw' P1) as (ap & Ea & La & Na). destruct (rtP_ok bs (q_ns q) z _ n Lw L2 Pw' P2) as (as_ & Es & Ls & Ns). destruct (rtP_ok bi (q_ni q) z _ n Lw L3 Pw' P3) as (ai & Ei & Li & Ni).
  exists ap, as_, ai. split; [|split; [exact La|split; [exact Ls|split; [exact Li|]]]].
  2:{ intros m Hm. specialize (Na m Hm). specialize (Ns m Hm). specialize (Ni m Hm). rewrite Ew in Na, Ns, Ni by exact Hm. unfold width. fold g. auto. }
  assert (Rd : forall kk, get_n_in_crystal strf bp (q_pump q) (dx_x (q_xtal q)) kk = (Ok (q_np q), kk) /\ get_n_in_crystal strf bs (q_sgnl q) (dx_x (q_xtal q)) kk = (Ok (q_ns q), kk) /\ get_n_in_crystal strf bi (q_idlr q) (dx_x (q_xtal q)) kk = (Ok (q_ni q), kk)).
  { intros kk. unfold get_n_in_crystal. rewrite (bo_axis _ _ _ _ _ Bp), (bo_axis _ _ _ _ _ Bs), (bo_axis _ _ _ _ _ Bi). split; [apply R1|split; [apply R2|apply R3]]. }
  assert (T1 : forall kk w pa, rtP_to_a_ bp (q_np q) z w = Ok pa -> rtP_to_a_2 strf bp (q_pump q) (dx_x (q_xtal q)) z w kk = (Ok pa, kk)) by (intros kk w pa E; unfold rtP_to_a_2, bind; destruct (Rd kk) as (-> & _); unfold lift; rewrite E; reflexivity).
  assert (T2 : forall kk w pa, rtP_to_a_ bs (q_ns q) z w = Ok pa -> rtP_to_a_2 strf bs (q_sgnl q) (dx_x (q_xtal q)) z w kk = (Ok pa, kk)) by (intros kk w pa E; unfold rtP_to_a_2, bind; destruct (Rd kk) as (_ & -> & _); unfold lift; rewrite E; reflexivity).
  assert (T3 : forall kk w pa, rtP_to_a_ bi (q_ni q) z w = Ok pa -> rtP_to_a_2 strf bi (q_idlr q) (dx_x (q_xtal q)) z w kk = (Ok pa, kk)) by (intros kk w pa E; unfold rtP_to_a_2, bind; destruct (Rd kk) as (_ & _ & ->); unfold lift; rewrite E; reflexivity).
  assert (X1 : b = bp -> rtP_to_a_ bp (q_np q) z None = Ok ap) by (intros E; rewrite E in Ea; unfold rtP_to_a_ in *; rewrite W1; exact Ea).
  assert (X2 : b = bs -> rtP_to_a_ bs (q_ns q) z None = Ok as_) by (intros E; rewrite E in Es; unfold rtP_to_a_ in *; rewrite W2; exact Es).
  assert (Lp : length (b_w0 bp) = n) by (apply Pw; cbn; auto). assert (Ls' : length (b_w0 bs) = n) by (apply Pw; cbn; auto). assert (Li' : length (b_w0 bi) = n) by (apply Pw; cbn; auto).
  assert (Nn : 0 < INR n) by (apply lt_0_INR; lia).
  unfold P_to_a. rewrite Qb. unfold bind at 1, lift at 1. rewrite W1. unfold bind at 1, lift at 1. rewrite W2. unfold bind at 1, lift at 1. rewrite W3. unfold bind at 1, lift at 1. rewrite (mean_scaled _ _ n Lp Hn). unfold bind at 1, lift at 1. rewrite (mean_scaled _ _ n Ls' Hn). unfold bind at 1, lift at 1. rewrite (mean_scaled _ _ n Li' Hn). cbv zeta.
  rewrite !(Rle_dec_iff _ _ _ _ _ _ (Rle_scaled g (lrsum (b_w0 bp)) (lrsum (b_w0 bs)) (INR n) G Nn)). rewrite !(Rle_dec_iff _ _ _ _ _ _ (Rle_scaled g (lrsum (b_w0 bp)) (lrsum (b_w0 bi)) (INR n) G Nn)). rewrite !(Rle_dec_iff _ _ _ _ _ _ (Rle_scaled g (lrsum (b_w0 bs)) (lrsum (b_w0 bi)) (INR n) G Nn)).
  clear W1 W2 W3 Wz Pw Pw' Ew Na Ns Ni Bp Bs Bi R1 R2 R3 Om Lw.
  unfold b, narrow in *. destruct (Rle_dec (lrsum (b_w0 bp)) (lrsum (b_w0 bs))); [destruct (Rle_dec (lrsum (b_w0 bp)) (lrsum (b_w0 bi)))|]; [|destruct (Rle_dec (lrsum (b_w0 bs)) (lrsum (b_w0 bi)))..].
  - unfold bind at 1. rewrite (T1 k None ap (X1 eq_refl)). unfold bind at 1. rewrite (T2 _ _ _ Es). unfold bind at 1. rewrite (T3 _ _ _ Ei). reflexivity.
  - unfold bind at 1. rewrite (T2 k None as_ (X2 eq_refl)). unfold bind at 1. rewrite (T1 _ _ _ Ea). unfold bind at 1. rewrite (T3 _ _ _ Ei). reflexivity.
  - unfold bind at 1. rewrite (T3 _ _ _ Ei). unfold bind at 1. rewrite (T2 _ _ _ Es). unfold bind at 1. rewrite (T1 _ _ _ Ea). reflexivity.
  - unfold bind at 1. rewrite (T2 k None as_ (X2 eq_refl)). unfold bind at 1. rewrite (T1 _ _ _ Ea). unfold bind at 1. rewrite (T3 _ _ _ Ei). reflexivity.
  - unfold bind at 1. rewrite (T3 _ _ _ Ei). unfold bind at 1. rewrite (T2 _ _ _ Es). unfold bind at 1. rewrite (T1 _ _ _ Ea). reflexivity.
Qed.
End Bulk.

(** ** Acceptance *)
(** Inputs of a free-space problem: fields on separated positive grids of one size, a crystal of known length without index cache whose index is positive on the axes used, a known poling mode and a positive waist. *)
Definition bulk_inputs (strf : R -> string) (fuel : nat) (pump sgnl : pulse) (x : dcrystal) (waist : R) (n : nat) : Prop :=
  ((exists a, holds pump a) /\ (exists a, holds sgnl a)) /\ (p_n pump = n /\ p_n sgnl = n /\ (2 <= n)%nat) /\ 0 < p_f sgnl < p_f pump /\
  (cur_W strf pump /\ cur_W strf sgnl /\ cur_wl strf pump /\ cur_wl strf sgnl) /\
  (forall k, (k < n)%nat -> 0 < omega pump k /\ 0 < omega sgnl k /\ 0 < nth k (spec_W n (p_tw pump) (p_f pump - p_f sgnl)) 0) /\
  (forall a b, (a < n)%nat -> (b < n)%nat -> omega sgnl b <= omega pump a /\ nth b (spec_W n (p_tw pump) (p_f pump - p_f sgnl)) 0 <= omega sgnl a) /\
  (index_pos_on x (ax_pump x) /\ index_pos_on x (ax_othr x)) /\ x_caching (dx_x x) = false /\ (exists len, x_len (dx_x x) = Some len) /\
  (dx_mode x = "simple"%string \/ dx_mode x = "BPM"%string \/ dx_mode x = "PP"%string /\ exists doms, precompute_poling fuel x = Ok doms) /\ 0 < waist.

Lemma bulk_accepts strf fuel rand pump sgnl x noSPM waist gouy Aeff k0 n : bulk_inputs strf fuel pump sgnl x waist n ->
  exists q bp bs bi, dfg_init strf fuel rand pump sgnl x noSPM waist gouy false Aeff k0 = (Ok (q, fftc_init n), k0) /\ q_n q = n /\ length (q_ystart q) = (3 * n)%nat /\ nth (n / 2) (b_w0 bp) 0 = waist /\
    bulk strf q n (2 * PI * waist ^ 2 * nth (n / 2) (q_np q) 0 / nth (n / 2) (lam_of pump) 0) bp bs bi.
Proof.
  intros (([ap Hp] & [as_ Hs]) & (Np & Ns & Hn) & Hf & (Wp & Ws & Lp & Ls) & P & O & (Xp & Xo) & Ca & [len Xl] & Md & Hw).
  assert (Z1 : p_f pump <> 0) by (apply Rgt_not_eq; lra). assert (Z2 : p_f sgnl <> 0) by (apply Rgt_not_eq; lra). assert (Z3 : p_f pump <> p_f sgnl) by (apply Rgt_not_eq; lra). destruct (idler_made rand pump sgnl Z1 Z2 Z3) as [i Ei]. destruct (idler_spec _ _ _ _ Z1 Z2 Ei) as (Fi & Ti & Ni & _ & Ci). destruct (Ci strf) as [Wi Li]. destruct (make_idler_holds _ _ _ _ Ei) as [ai Hi].
  assert (Oi : forall k, nth k (spec_W n (p_tw pump) (p_f pump - p_f sgnl)) 0 = omega i k) by (intros k; unfold omega; rewrite Fi, Ti, Ni, Np; reflexivity).
  assert (B1 : check_below strf pump sgnl = Ok tt). { destruct (check_below_cur strf pump sgnl Lp Ls ltac:(lia) ltac:(lia)) as [[E _]|[_ (a & b & Ha & Hb & L)]]; [exact E|exfalso]. rewrite Np in Ha. rewrite Ns in Hb. pose proof (proj2 (freq_order (omega pump a) (omega sgnl b) ltac:(apply P, Ha) ltac:(apply P, Hb)) ltac:(apply O; assumption)). lra. }
  assert (B2 : check_below strf sgnl i = Ok tt). { destruct (check_below_cur strf sgnl i Ls Li ltac:(lia) ltac:(lia)) as [[E _]|[_ (a & b & Ha & Hb & L)]]; [exact E|exfalso]. rewrite Ns in Ha. rewrite Ni, Np in Hb. destruct (P b Hb) as (_ & _ & Pb). destruct (O a b Ha Hb) as [_ Ob]. rewrite Oi in Pb, Ob. pose proof (proj2 (freq_order (omega sgnl a) (omega i b) ltac:(apply P, Ha) Pb) Ob). lra. }
  assert (D : exists doms, (if is_mode x "PP" then precompute_poling fuel x else Ok []) = Ok doms). { unfold is_mode. destruct Md as [-> |[-> | [-> H]]]; [exists []; reflexivity..|exact H]. }
  destruct D as [doms D]. assert (Om : forall k, (k < n)%nat -> 0 < omega pump k /\ 0 < omega sgnl k /\ 0 < omega i k) by (intros k Hk; rewrite <- Oi; apply P, Hk). assert (Nin : p_n i = n) by lia.
  destruct (k_on_ok strf pump x (ax_pump x) n Xp Lp Wp Np ltac:(intros k Hk; apply (Om k Hk))) as (kp & Kp & Lkp). destruct (k_on_ok strf sgnl x (ax_othr x) n Xo Ls Ws Ns ltac:(intros k Hk; apply (Om k Hk))) as (ks & Ks & Lks). destruct (k_on_ok strf i x (ax_othr x) n Xo Li Wi Nin ltac:(intros k Hk; apply (Om k Hk))) as (ki & Ki & Lki).
  destruct (n_on_ok strf pump x (ax_pump x) n Xp Ca Lp Np ltac:(intros k Hk; apply (Om k Hk))) as (np & Enp & Lnp & Pnp). destruct (n_on_ok strf sgnl x (ax_othr x) n Xo Ca Ls Ns ltac:(intros k Hk; apply (Om k Hk))) as (ns & Ens & Lns & Pns). destruct (n_on_ok strf i x (ax_othr x) n Xo Ca Li Nin ltac:(intros k Hk; apply (Om k Hk))) as (ni & Eni & Lni & Pni).
  destruct (bulk_beams strf waist (match Aeff with Some a => a | None => 0 end) pump sgnl i x n np ns ni k0 Np Ns Nin Hn Hw Wp Ws Wi Om Enp Ens Eni Lnp Lns Lni Pnp Pns Pni) as (bp & bs & bi & Eb & Wc & Bp & Bs & Bi).
  destruct (middle_ok kp ltac:(lia)) as [kp0 Mp]. destruct (middle_ok ks ltac:(lia)) as [ks0 Ms]. destruct (middle_ok ki ltac:(lia)) as [ki0 Mi].
  destruct Hp as (_ & Hp & Lap). destruct Hs as (_ & Hs & Las). destruct Hi as (_ & Hi & Lai). destruct (argmax_ok ap ltac:(lia)) as (ci & Eci & Lci).
  destruct (fastest_ok np ltac:(lia) Pnp) as (vp & mp & V1 & V2). destruct (fastest_ok ns ltac:(lia) Pns) as (vs & ms & V3 & V4). destruct (fastest_ok ni ltac:(lia) Pni) as (vi & mi & V5 & V6). destruct (list_max_ok [mp; ms; mi] ltac:(discriminate)) as [sp V7].
  eexists _, bp, bs, bi. split.
  - unfold dfg_init. unfold bind at 1, ret at 1. unfold bind at 1, lift at 1. rewrite Ei. unfold bind at 1, lift at 1. rewrite B1. unfold bind at 1, lift at 1. rewrite B2. unfold bind at 1, lift at 1. rewrite D. cbv zeta. rewrite Np, Ns, Nin, !Nat.eqb_refl. cbn [andb]. unfold bind at 1, ret at 1.
    unfold bind at 1. rewrite Eb.
    unfold bind at 1. unfold rd at 1. unfold lift at 1. unfold get_AW at 1. unfold bind at 1. unfold get at 1. rewrite Hp. unfold ret at 1. cbn [fst]. unfold bind at 1. unfold rd at 1. unfold lift at 1. unfold get_AW at 1. unfold bind at 1. unfold get at 1. rewrite Hs. unfold ret at 1. cbn [fst]. unfold bind at 1. unfold rd at 1. unfold lift at 1. unfold get_AW at 1. unfold bind at 1. unfold get at 1. rewrite Hi. unfold ret at 1. cbn [fst axes]. rewrite (bo_axis _ _ _ _ _ Bp), (bo_axis _ _ _ _ _ Bs), (bo_axis _ _ _ _ _ Bi).
    unfold bind at 1. rewrite Kp. unfold bind at 1. rewrite Ks. unfold bind at 1. rewrite Ki. unfold bind at 1, lift at 1. rewrite Mp. unfold bind at 1, lift at 1. rewrite Ms. unfold bind at 1, lift at 1. rewrite Mi. unfold bind at 1. rewrite Enp. unfold bind at 1. rewrite Ens. unfold bind at 1. rewrite Eni.
    unfold bind at 1, lift at 1. rewrite Eci. unfold bind at 1, lift at 1. rewrite V1. unfold bind at 1, lift at 1. rewrite V2. unfold bind at 1, lift at 1. rewrite V3. unfold bind at 1, lift at 1. rewrite V4. unfold bind at 1, lift at 1. rewrite V5. unfold bind at 1, lift at 1. rewrite V6. unfold bind at 1, lift at 1. rewrite V7. unfold ret. reflexivity.
  - cbn [q_n q_np q_ystart]. split; [reflexivity|]. split; [rewrite !app_length; lia|]. split; [exact Wc|]. split; cbn [q_n q_kp q_ks q_ki q_pump q_sgnl q_idlr q_beams q_speed q_xtal q_np q_ns q_ni]; try assumption; try reflexivity.
    + unfold sized. cbn [q_n q_kp q_ks q_ki q_pump q_sgnl q_idlr]. rewrite !map_length. repeat (split; [assumption || lia|]). assumption.
    + apply confocal_pos; try assumption. intros k Hk. apply Om, Hk.
    + apply Rgt_not_eq. apply (max_pos _ _ V7). intros v [<-|[<-|[<-|[]]]]; [apply (max_pos _ _ V2), (speeds_pos _ _ V1 Pnp)|apply (max_pos _ _ V4), (speeds_pos _ _ V3 Pns)|apply (max_pos _ _ V6), (speeds_pos _ _ V5 Pni)].
Qed.

(** ** The right-hand side *)
Lemma gouy_ok p ax ns c b n z : beam_of p ax ns c b -> p_n p = n -> exists g, calculate_gouy_phase b z ns = Ok g /\ length g = n.
Proof. intros [_ _ Hc _ _] Np. unfold calculate_gouy_phase, calculate_zR. rewrite Hc. cbn [rbind]. eexists. split; [reflexivity|]. rewrite !map_length, repeat_length. exact Np. Qed.
Lemma gouy_step p g n : length p = n -> length g = n -> exists r, broadcast2 Cmult p g = Ok r /\ assign_all p r = Ok r /\ length r = n.
Proof. intros Lp Lg. destruct (b2_len Cmult p g n Lp Lg) as (r & E & L). exists r. split; [exact E|]. split; [apply assign_all_eq; lia|exact L]. Qed.
Lemma bulk_frame strf q n c bp bs bi z s len de : bulk strf q n c bp bs bi -> q_noSPM q = true -> x_len (dx_x (q_xtal q)) = Some len -> deff_at q z = Ok de ->
  exists pp ps pi ap as_ ai, frame strf q z s = (Ok (de, (pp, ps, pi), (ap, as_, ai)), s) /\ (length pp = n /\ length ps = n /\ length pi = n) /\ P_to_a strf q (z - len / 2) (ds_k s) = (Ok (ap, as_, ai), ds_k s).
Proof.
  intros B Ns Xl Ed. destruct (bulk_P_to_a strf q n c bp bs bi B (z - len / 2) (ds_k s)) as (ap & as_ & ai & Ep & _). destruct B as [(Qn & Hn & L1 & L2 & L3 & N1 & N2 & N3 & C1 & C2 & C3) Hn2 Hc Qb Sp _ Bp Bs Bi _ _ _ _ _ _ _ _ _].
  set (p0 := mk n (fun m => cis (delay (q_kp q) (q_kp0 q) (q_pump q) (q_speed q) z m))). set (s0 := mk n (fun m => cis (delay (q_ks q) (q_ks0 q) (q_sgnl q) (q_speed q) z m))). set (i0 := mk n (fun m => cis (delay (q_ki q) (q_ki0 q) (q_idlr q) (q_speed q) z m))).
  assert (G : exists pp ps pi, add_gouy q (z - len / 2) (p0, s0, i0) = Ok (pp, ps, pi) /\ length pp = n /\ length ps = n /\ length pi = n).
  { unfold add_gouy. rewrite Qb. assert (Lp0 : length p0 = n) by apply mk_length. assert (Ls0 : length s0 = n) by apply mk_length. assert (Li0 : length i0 = n) by apply mk_length. destruct (q_gouy q); [|exists p0, s0, i0; auto].
    destruct (gouy_ok _ _ _ _ _ n (z - len / 2) Bp N1) as (g1 & G1 & M1). destruct (gouy_ok _ _ _ _ _ n (z - len / 2) Bs N2) as (g2 & G2 & M2). destruct (gouy_ok _ _ _ _ _ n (z - len / 2) Bi N3) as (g3 & G3 & M3).
    destruct (gouy_step p0 g1 n Lp0 M1) as (r1 & X1 & Y1 & K1). destruct (gouy_step s0 g2 n Ls0 M2) as (r2 & X2 & Y2 & K2). destruct (gouy_step i0 g3 n Li0 M3) as (r3 & X3 & Y3 & K3).
    exists r1, r2, r3. rewrite G1. cbn [rbind]. rewrite X1. cbn [rbind]. rewrite Y1. cbn [rbind]. rewrite G2. cbn [rbind]. rewrite X2. cbn [rbind]. rewrite Y2. cbn [rbind]. rewrite G3. cbn [rbind]. rewrite X3. cbn [rbind]. rewrite Y3. cbn [rbind]. auto. }
  destruct G as (pp & ps & pi & Eg & Gp & Gs & Gi). exists pp, ps, pi, ap, as_, ai. split; [|auto].
  unfold frame. unfold bind at 1, lift at 1. rewrite Ed. unfold bind at 1, lift at 1. rewrite fdiv_ok by exact Sp. unfold bind at 1, lift at 1. rewrite (phasor_run strf _ _ _ _ _ n L1 N1 C1). fold p0. unfold bind at 1, lift at 1. rewrite Qn, assign_all_eq by (unfold p0; rewrite repeat_length, mk_length; reflexivity).
  unfold bind at 1, lift at 1. rewrite (phasor_run strf _ _ _ _ _ n L2 N2 C2). fold s0. unfold bind at 1, lift at 1. rewrite assign_all_eq by (unfold s0; rewrite repeat_length, mk_length; reflexivity).
  unfold bind at 1, lift at 1. rewrite (phasor_run strf _ _ _ _ _ n L3 N3 C3). fold i0. unfold bind at 1, lift at 1. rewrite assign_all_eq by (unfold i0; rewrite repeat_length, mk_length; reflexivity).
  unfold bind at 1, lift at 1. rewrite Xl. cbv zeta. unfold bind at 1, lift at 1. rewrite Eg. rewrite Ns. unfold bind at 1, ret at 1. unfold bind at 1, on_k. rewrite Ep. destruct s as [k f]. reflexivity.
Qed.
Lemma nz_all (l : list R) n : length l = n -> (forall m, (m < n)%nat -> 0 < nth m l 0) -> forall v, In v l -> v <> 0.
Proof. intros L H v Hv. apply (In_nth _ _ 0) in Hv as (m & Hm & <-). apply Rgt_not_eq, H. lia. Qed.
Lemma bulk_total strf q n c bp bs bi z y dydx s len : bulk strf q n c bp bs bi -> q_noSPM q = true -> x_len (dx_x (q_xtal q)) = Some len -> (exists de, deff_at q z = Ok de) -> fc_ok n (ds_fc s) -> length y = (3 * n)%nat -> length dydx = (3 * n)%nat ->
  exists d s', deriv strf q z y dydx s = (Ok d, s') /\ length d = (3 * n)%nat /\ fc_ok n (ds_fc s').
Proof.
  intros B Ns Xl [de Ed] Fc Ly Ld. destruct (bulk_frame strf q n c bp bs bi z s len de B Ns Xl Ed) as (pp & ps & pi & ap & as_ & ai & Fr & (Lp & Ls & Li) & Ep). destruct (bulk_P_to_a strf q n c bp bs bi B (z - len / 2) (ds_k s)) as (ap' & as' & ai' & Ep' & La & Lb & Lc & V). rewrite Ep in Ep'. injection Ep' as <- <- <-.
  destruct B as [Sz Hn2 Hc Qb Sp _ Bp Bs Bi _ _ _ M1 M2 M3 P1 P2 P3]. apply (deriv_run strf q n z y dydx s de pp ps pi ap as_ ai s); try assumption; apply (nz_all _ n); try assumption; intros m Hm; destruct (V m Hm) as ((V1 & _) & (V2 & _) & (V3 & _)); assumption.
Qed.
Lemma deff_some strf fuel pump sgnl x waist n q z : bulk_inputs strf fuel pump sgnl x waist n -> q_xtal q = x -> exists de, deff_at q z = Ok de /\ (de = dx_deff x \/ de = - dx_deff x) /\ (dx_mode x <> "PP"%string -> de = dx_deff x).
Proof.
  intros (_ & _ & _ & _ & _ & _ & _ & _ & _ & Md & _) Qx. unfold deff_at, is_mode. rewrite Qx. destruct Md as [-> |[-> | [-> _]]]; cbn; eexists; (split; [reflexivity|]); auto. split; [|congruence]. unfold poling. destruct (existsb _ _); [right|left]; ring.
Qed.

(*! C89: a free-space problem (birefringent, poled or plain) with such inputs is accepted by the constructor for any idler noise.  All three beams then have one confocal parameter, the same at every wavelength of the three grids, and the
    pump has the requested waist at its centre frequency.  From then on the right-hand side returns a derivative of the same size at every distance and for every field. *)
Lemma C89_accepted_l : forall strf fuel rand pump sgnl x waist gouy Aeff k0 n, bulk_inputs strf fuel pump sgnl x waist n ->
  exists q bp bs bi c, dfg_init strf fuel rand pump sgnl x true waist gouy false Aeff k0 = (Ok (q, fftc_init n), k0) /\ q_n q = n /\ length (q_ystart q) = (3 * n)%nat /\ q_beams q = Bulk bp bs bi /\
    nth (n / 2) (b_w0 bp) 0 = waist /\ 0 < c /\ calc_confocal bp (q_np q) = Ok (repeat c n) /\ calc_confocal bs (q_ns q) = Ok (repeat c n) /\ calc_confocal bi (q_ni q) = Ok (repeat c n) /\
    forall z y dydx s, fc_ok n (ds_fc s) -> length y = (3 * n)%nat -> length dydx = (3 * n)%nat ->
      exists d s', deriv strf q z y dydx s = (Ok d, s') /\ length d = (3 * n)%nat /\ fc_ok n (ds_fc s').
Proof.
  intros strf fuel rand pump sgnl x waist gouy Aeff k0 n In_. destruct (bulk_accepts strf fuel rand pump sgnl x true waist gouy Aeff k0 n In_) as (q & bp & bs & bi & E & Qn & Ly & Wc & B). exists q, bp, bs, bi. eexists. split; [exact E|]. split; [exact Qn|]. split; [exact Ly|].
  apply init_inv in E as (_ & _ & Qx & Qs & _). split; [apply (bk_beams _ _ _ _ _ _ _ B)|]. split; [exact Wc|]. split; [apply (bk_c _ _ _ _ _ _ _ B)|].
  destruct (bk_sized _ _ _ _ _ _ _ B) as (_ & _ & _ & _ & _ & N1 & N2 & N3 & _).
  split; [rewrite <- N1 at 3; apply (bo_conf _ _ _ _ _ (bk_p _ _ _ _ _ _ _ B))|]. split; [rewrite <- N2 at 3; apply (bo_conf _ _ _ _ _ (bk_s _ _ _ _ _ _ _ B))|]. split; [rewrite <- N3 at 3; apply (bo_conf _ _ _ _ _ (bk_i _ _ _ _ _ _ _ B))|].
  intros z y dydx s Fc L1 L2. destruct (deff_some strf fuel pump sgnl x waist n q z In_ Qx) as (de & Ed & _). destruct In_ as (_ & _ & _ & _ & _ & _ & _ & _ & [len Xl] & _). apply (bulk_total strf q n _ bp bs bi z y dydx s len B Qs); try assumption; [rewrite Qx; exact Xl|eauto].
Qed.

(** ** Rates *)
(** flow into the field from one triple of grid points, per unit of squared width at the focus *)
Definition gain (de c zf : R) : R := 4 * de * eps0 * (PI * grow c zf ^ 2) * 1000000000000.
Lemma bulk_rates strf q n c bp bs bi z s len de : bulk strf q n c bp bs bi -> q_noSPM q = true -> Nat.Even n -> x_len (dx_x (q_xtal q)) = Some len -> deff_at q z = Ok de -> fc_ok n (ds_fc s) ->
  exists pp ps pi ap as_ ai, (forall m, (m < n)%nat -> unimod (at0 pp m) /\ unimod (at0 ps m) /\ unimod (at0 pi m) /\ 0 < bnth ap 0 m /\ 0 < bnth as_ 0 m /\ 0 < bnth ai 0 m) /\
  forall y dydx d s', length y = (3 * n)%nat -> length dydx = (3 * n)%nat -> deriv strf q z y dydx s = (Ok d, s') -> let w := b_w0 (narrow bp bs bi) in let T := triple n (gp ap pp y q) (gs as_ ps y q) (gi ai pi y q) in forall g,
    rate n g (Ap q y) (Ap q d) = - (gain de c (z - len / 2) * rsum n (fun a => rsum n (fun b => rsum n (fun c => g a * (nth a w 0 ^ 2 * omega (q_pump q) a) * T a b c)))) /\
    rate n g (As q y) (As q d) = gain de c (z - len / 2) * rsum n (fun a => rsum n (fun b => rsum n (fun c => g b * (nth b w 0 ^ 2 * omega (q_sgnl q) b) * T a b c))) /\
    rate n g (Ai q y) (Ai q d) = gain de c (z - len / 2) * rsum n (fun a => rsum n (fun b => rsum n (fun c => g c * (nth c w 0 ^ 2 * omega (q_idlr q) c) * T a b c))).
Proof.
  intros B Ns Ev Xl Ed Fc. destruct (bulk_frame strf q n c bp bs bi z s len de B Ns Xl Ed) as (pp & ps & pi & ap & as_ & ai & Fr & (Lp & Ls & Li) & Ep). destruct (bulk_P_to_a strf q n c bp bs bi B (z - len / 2) (ds_k s)) as (ap' & as' & ai' & Ep' & La & Lb & Lc & V). rewrite Ep in Ep'. injection Ep' as <- <- <-.
  destruct (frame_phi strf q z s de pp ps pi _ s Fr) as (_ & [_ Up] & [_ Us] & [_ Ui] & _). assert (Un : forall l m, List.Forall unimod l -> (m < length l)%nat -> unimod (at0 l m)) by (intros l m F Hm; rewrite List.Forall_forall in F; apply F, nth_In, Hm).
  destruct B as [Sz Hn2 Hc Qb Sp _ Bp Bs Bi _ _ _ M1 M2 M3 P1 P2 P3]. destruct Sz as (Qn & Hn & L1 & L2 & L3 & N1 & N2 & N3 & C1 & C2 & C3).
  assert (Bn : forall l m, length l = n -> (m < n)%nat -> bnth l 0 m = nth m l 0) by (intros l m L Hm; apply (bnth_eq l 0 m n L Hm)).
  exists pp, ps, pi, ap, as_, ai. split.
  { intros m Hm. destruct (V m Hm) as ((V1 & _) & (V2 & _) & (V3 & _)). rewrite !Bn by assumption. split; [apply Un; [exact Up|lia]|]. split; [apply Un; [exact Us|lia]|]. split; [apply Un; [exact Ui|lia]|]. auto. }
  intros y dydx d s' Ly Ld H w T g. set (w2 := fun m => PI * (grow c (z - len / 2) * nth m w 0) ^ 2).
  destruct (rates_area strf q z y dydx s d s' n de pp ps pi ap as_ ai s w2 Qn Hn2 Ev Fc Ly Ld Fr) as (wp & ws & wi & Ewp & Ews & Ewi & Rt); [intros m Hm _; rewrite !Bn by assumption; apply V, Hm..|exact H|]. fold T in Rt.
  pose proof (W_read strf _ wp n C1 N1 Ewp Hn2) as Vp. pose proof (W_read strf _ ws n C2 N2 Ews Hn2) as Vs. pose proof (W_read strf _ wi n C3 N3 Ewi Hn2) as Vi. destruct (Rt g) as (R1 & R2 & R3). rewrite R1, R2, R3.
  assert (Sc : forall f, gain de c (z - len / 2) * rsum n (fun a => rsum n (fun b => rsum n (fun c => f a b c))) = 4 * de * eps0 * rsum n (fun a => rsum n (fun b => rsum n (fun c0 => PI * grow c (z - len / 2) ^ 2 * 1000000000000 * f a b c0)))).
  { intros f. unfold gain. rewrite !Rmult_assoc. do 3 f_equal. rewrite <- !Rmult_assoc. rewrite <- rsum_scal_l. apply rsum_ext. intros a _. rewrite <- rsum_scal_l. apply rsum_ext. intros b _. rewrite <- rsum_scal_l. apply rsum_ext. intros c0 _. ring. }
  rewrite !Sc. split; [|split]; [rewrite <- Ropp_mult_distr_l; f_equal|..]; f_equal; apply rsum3_ext; intros a b c0 Ha Hb Hc0; [rewrite (Vp a Ha)|rewrite (Vs b Hb)|rewrite (Vi c0 Hc0)]; unfold w2; ring.
Qed.

(*! C90: in free space the right-hand side changes the photon fluxes weighted with the inverse squared focal width of one beam - at each grid point the width of the beam that is narrowest on average - by -D, +D and +D
    for pump, signal and idler. *)
Lemma C90_manley_rowe_bulk_l : forall strf fuel rand pump sgnl x waist gouy Aeff k0 n q fc0 k1, bulk_inputs strf fuel pump sgnl x waist n -> Nat.Even n ->
  dfg_init strf fuel rand pump sgnl x true waist gouy false Aeff k0 = (Ok (q, fc0), k1) ->
  exists bp bs bi b, q_beams q = Bulk bp bs bi /\ In b [bp; bs; bi] /\ (forall b', In b' [bp; bs; bi] -> lrsum (b_w0 b) <= lrsum (b_w0 b')) /\ length (b_w0 b) = n /\ (forall m, (m < n)%nat -> 0 < nth m (b_w0 b) 0) /\
    forall z y dydx s d s', fc_ok n (ds_fc s) -> length y = (3 * n)%nat -> length dydx = (3 * n)%nat -> deriv strf q z y dydx s = (Ok d, s') ->
    exists D,
      rsum n (fun m => 2 * Re (Cconj (nth m (Ap q y) (RtoC 0)) * nth m (Ap q d) (RtoC 0))%C / (omega pump m * nth m (b_w0 b) 0 ^ 2)) = - D /\
      rsum n (fun m => 2 * Re (Cconj (nth m (As q y) (RtoC 0)) * nth m (As q d) (RtoC 0))%C / (omega sgnl m * nth m (b_w0 b) 0 ^ 2)) = D /\
      rsum n (fun m => 2 * Re (Cconj (nth m (Ai q y) (RtoC 0)) * nth m (Ai q d) (RtoC 0))%C / (omega (q_idlr q) m * nth m (b_w0 b) 0 ^ 2)) = D.
Proof.
  intros strf fuel rand pump sgnl x waist gouy Aeff k0 n q fc0 k1 In_ Ev E. destruct (bulk_accepts strf fuel rand pump sgnl x true waist gouy Aeff k0 n In_) as (q' & bp & bs & bi & E' & Qn & Ly & Wc & B). rewrite E in E'. injection E' as <- _ _.
  pose proof (proj1 (bulk_pos _ _ _ _ _ _ _ B)) as Pw. destruct (narrow_in bp bs bi) as [Ib Mb]. destruct (Pw _ Ib) as [Lb Pb].
  exists bp, bs, bi, (narrow bp bs bi). split; [apply (bk_beams _ _ _ _ _ _ _ B)|]. split; [exact Ib|]. split; [exact Mb|]. split; [exact Lb|]. split; [exact Pb|]. apply init_inv in E as (Qp & Qs & Qx & Qm & _).
  intros z y dydx s d s' Fc L1 L2 Hd. destruct (deff_some strf fuel pump sgnl x waist n q z In_ Qx) as (de & Ed & _). destruct In_ as (_ & _ & _ & _ & _ & _ & _ & _ & [len Xl] & _). rewrite <- Qx in Xl.
  destruct (bulk_rates strf q n _ bp bs bi z s len de B Qm Ev Xl Ed Fc) as (pp & ps & pi & ap & as_ & ai & _ & Rt). specialize (Rt y dydx d s' L1 L2 Hd). cbv zeta in Rt. set (T := triple _ _ _ _) in Rt. set (w := b_w0 (narrow bp bs bi)) in *. set (K := gain _ _ _) in Rt.
  exists (K * rsum n (fun a => rsum n (fun b => rsum n (fun c => T a b c)))).
  assert (G : forall om A dA, rsum n (fun m => 2 * Re (Cconj (nth m A z0) * nth m dA z0)%C / (om m * nth m w 0 ^ 2)) = rate n (fun m => / (om m * nth m w 0 ^ 2)) A dA) by (intros; unfold rate; apply rsum_ext; intros m _; unfold Rdiv; ring). rewrite !G.
  rewrite <- Qp, <- Qs. pose proof (bk_om _ _ _ _ _ _ _ B) as Om. destruct (Rt (fun m => / (omega (q_pump q) m * nth m w 0 ^ 2))) as (R1 & _ & _). destruct (Rt (fun m => / (omega (q_sgnl q) m * nth m w 0 ^ 2))) as (_ & R2 & _). destruct (Rt (fun m => / (omega (q_idlr q) m * nth m w 0 ^ 2))) as (_ & _ & R3). rewrite R1, R2, R3. split; [|split].
  - f_equal. f_equal. apply rsum3_ext. intros a b c Ha _ _. specialize (Om a Ha). specialize (Pb a Ha). field. split; apply Rgt_not_eq; tauto.
  - f_equal. apply rsum3_ext. intros a b c _ Hb _. specialize (Om b Hb). specialize (Pb b Hb). field. split; apply Rgt_not_eq; tauto.
  - f_equal. apply rsum3_ext. intros a b c _ _ Hc. specialize (Om c Hc). specialize (Pb c Hc). field. split; apply Rgt_not_eq; tauto.
Qed.

(** ** Power *)
Lemma bulk_weighted strf q n c bp bs bi z s len de y dydx d s' : bulk strf q n c bp bs bi -> q_noSPM q = true -> Nat.Even n -> x_len (dx_x (q_xtal q)) = Some len -> deff_at q z = Ok de -> fc_ok n (ds_fc s) ->
  (forall a b c, (a < n)%nat -> (b < n)%nat -> (c < n)%nat -> (a + n / 2 = b + c)%nat -> omega (q_pump q) a = omega (q_sgnl q) b + omega (q_idlr q) c) ->
  length y = (3 * n)%nat -> length dydx = (3 * n)%nat -> deriv strf q z y dydx s = (Ok d, s') -> let g m := / nth m (b_w0 (narrow bp bs bi)) 0 ^ 2 in
  rate n g (Ap q y) (Ap q d) + rate n g (As q y) (As q d) + rate n g (Ai q y) (Ai q d) = 0.
Proof.
  intros B Ns Ev Xl Ed Fc En Ly Ld Hd g. destruct (bulk_rates strf q n c bp bs bi z s len de B Ns Ev Xl Ed Fc) as (pp & ps & pi & ap & as_ & ai & _ & Rt). specialize (Rt y dydx d s' Ly Ld Hd). cbv zeta in Rt. destruct (Rt g) as (-> & -> & ->). clear Rt.
  pose proof (proj1 (bulk_pos _ _ _ _ _ _ _ B)) as Pw. destruct (Pw _ (proj1 (narrow_in bp bs bi))) as [_ Pb]. set (w := b_w0 (narrow bp bs bi)) in *. set (T := triple _ _ _ _).
  set (Xp := rsum n _). set (Xs := rsum n (fun a => rsum n (fun b => rsum n (fun c => g b * _ * T a b c)))). set (Xi := rsum n (fun a => rsum n (fun b => rsum n (fun c => g c * _ * T a b c)))).
  assert (E : Xp = Xs + Xi); [|rewrite E; ring]. unfold Xp, Xs, Xi. rewrite <- rsum_plus. apply rsum_ext. intros a Ha. rewrite <- rsum_plus. apply rsum_ext. intros b Hb. rewrite <- rsum_plus. apply rsum_ext. intros c0 Hc.
  assert (W1 : forall m, (m < n)%nat -> g m * nth m w 0 ^ 2 = 1) by (intros m Hm; unfold g; fold w; specialize (Pb m Hm); field; apply Rgt_not_eq, Pb). rewrite <- !Rmult_assoc. rewrite (W1 a Ha), (W1 b Hb), (W1 c0 Hc).
  destruct (Nat.eq_dec (a + n / 2) (b + c0)) as [E|E]; [rewrite (En a b c0 Ha Hb Hc E); ring|]. unfold T, triple. destruct (Nat.eqb_spec (a + n / 2) (b + c0)); [contradiction|ring].
Qed.
Lemma grids_sum strf fuel rand pump sgnl x noSPM waist gouy wg Aeff k0 q fc0 k1 n : dfg_init strf fuel rand pump sgnl x noSPM waist gouy wg Aeff k0 = (Ok (q, fc0), k1) -> q_n q = n -> Nat.Even n -> p_f pump <> 0 -> p_f sgnl <> 0 -> p_tw sgnl = p_tw pump ->
  forall a b c, (a < n)%nat -> (b < n)%nat -> (c < n)%nat -> (a + n / 2 = b + c)%nat -> omega (q_pump q) a = omega (q_sgnl q) b + omega (q_idlr q) c.
Proof.
  intros H Qn Ev Hp Hs Ht. destruct (C54_accepted_grids_l _ _ _ _ _ _ _ _ _ _ _ _ _ _ _ H Hp Hs) as (Qp & Qs & _ & _ & _ & _ & _ & _ & _ & En & _). specialize (En Ht). rewrite Qn in En. specialize (En Ev). rewrite Qp, Qs. exact En.
Qed.
Lemma deriv_length strf q z y dydx s d s' n : q_n q = n -> (2 <= n)%nat -> Nat.Even n -> fc_ok n (ds_fc s) -> length y = (3 * n)%nat -> length dydx = (3 * n)%nat -> deriv strf q z y dydx s = (Ok d, s') -> length d = (3 * n)%nat.
Proof.
  intros Qn Hn Ev Fc Ly Ld Hd. assert (Fr := Hd). unfold deriv in Fr. apply bind_ok in Fr as (fr & s1 & Fr & _). destruct fr as [[deff [[pp ps] pi]] [[ap as_] ai]]. destruct (frame_phi strf q z s deff pp ps pi _ s1 Fr) as (_ & [Lp _] & [Ls _] & [Li _] & _). rewrite Qn in Lp, Ls, Li.
  apply (deriv_core strf q z y dydx s d s' n deff pp ps pi ap as_ ai s1 Qn Hn Ev Fc Ly Ld Fr Lp Ls Li Hd).
Qed.
Lemma Cmod_sq v : Cmod v ^ 2 = Re v ^ 2 + Im v ^ 2.
Proof. unfold Cmod. rewrite pow2_sqrt; [reflexivity|]. pose proof (pow2_ge_0 (fst v)). pose proof (pow2_ge_0 (snd v)). lra. Qed.
Lemma is_derive_power (f : R -> C) z d : is_derive (fun t => Re (f t)) z (Re d) -> is_derive (fun t => Im (f t)) z (Im d) -> is_derive (fun t => Cmod (f t) ^ 2) z (2 * Re (Cconj (f z) * d)%C).
Proof.
  intros D1 D2. apply (is_derive_ext (fun t => Re (f t) ^ 2 + Im (f t) ^ 2)); [intros t; symmetry; apply Cmod_sq|].
  replace (2 * Re (Cconj (f z) * d)%C) with (INR 2 * Re d * Re (f z) ^ pred 2 + INR 2 * Im d * Im (f z) ^ pred 2).
  - apply (@is_derive_plus R_AbsRing R_NormedModule); apply is_derive_pow; assumption.
  - destruct (f z) as [a b]. destruct d as [a' b']. cbn [Re Im fst snd Cconj Cmult pred INR]. simpl. ring.
Qed.

(*! C91 (partial: the weighted power only): in free space with equal time windows, every trajectory that solves the equations keeps the sum over the three fields of |A|^2 / w^2, w the focal width - at the same grid index - of
    the beam that is narrowest on average.  The power itself is not conserved, see C91_power_refuted. *)
Lemma C91_weighted_power_partial_l : forall strf fuel rand pump sgnl x waist gouy Aeff k0 n q fc0 k1, bulk_inputs strf fuel pump sgnl x waist n -> Nat.Even n -> p_tw sgnl = p_tw pump ->
  dfg_init strf fuel rand pump sgnl x true waist gouy false Aeff k0 = (Ok (q, fc0), k1) ->
  exists bp bs bi b, q_beams q = Bulk bp bs bi /\ In b [bp; bs; bi] /\ (forall b', In b' [bp; bs; bi] -> lrsum (b_w0 b) <= lrsum (b_w0 b')) /\ (forall m, (m < n)%nat -> 0 < nth m (b_w0 b) 0) /\
    forall (y dy : R -> list C) z1 z2, z1 < z2 ->
    (forall z, z1 <= z <= z2 -> length (y z) = (3 * n)%nat /\
      (exists dydx s s', fc_ok n (ds_fc s) /\ length dydx = (3 * n)%nat /\ deriv strf q z (y z) dydx s = (Ok (dy z), s')) /\
      forall m, (m < 3 * n)%nat -> is_derive (fun t => Re (nth m (y t) (RtoC 0))) z (Re (nth m (dy z) (RtoC 0))) /\ is_derive (fun t => Im (nth m (y t) (RtoC 0))) z (Im (nth m (dy z) (RtoC 0)))) ->
    let Q z := rsum n (fun m => (Cmod (nth m (y z) (RtoC 0)) ^ 2 + Cmod (nth (n + m) (y z) (RtoC 0)) ^ 2 + Cmod (nth (2 * n + m) (y z) (RtoC 0)) ^ 2) / nth m (b_w0 b) 0 ^ 2) in
    Q z1 = Q z2.
Proof.
  intros strf fuel rand pump sgnl x waist gouy Aeff k0 n q fc0 k1 In_ Ev Ht E. destruct (bulk_accepts strf fuel rand pump sgnl x true waist gouy Aeff k0 n In_) as (q' & bp & bs & bi & E' & Qn & Ly & Wc & B). rewrite E in E'. injection E' as <- _ _.
  pose proof (proj1 (bulk_pos _ _ _ _ _ _ _ B)) as Pw. destruct (narrow_in bp bs bi) as [Ib Mb]. destruct (Pw _ Ib) as [Lb Pb].
  exists bp, bs, bi, (narrow bp bs bi). split; [apply (bk_beams _ _ _ _ _ _ _ B)|]. split; [exact Ib|]. split; [exact Mb|]. split; [exact Pb|].
  assert (Hf : 0 < p_f sgnl < p_f pump) by apply In_. assert (Hn : (2 <= n)%nat) by apply In_. pose proof (grids_sum _ _ _ _ _ _ _ _ _ _ _ _ _ _ _ n E Qn Ev ltac:(apply Rgt_not_eq; lra) ltac:(apply Rgt_not_eq; lra) Ht) as En. apply init_inv in E as (Qp & Qs & Qx & Qm & _).
  intros y dy z1 z2 Hz Sol Q. set (w := b_w0 (narrow bp bs bi)) in *. apply (eq_is_derive Q z1 z2); [|exact Hz]. intros z Iz. destruct (Sol z Iz) as (Lyz & (dydx & s & s' & Fc & Ld & Hd) & Der). unfold Q. clear Q.
  destruct (deff_some strf fuel pump sgnl x waist n q z In_ Qx) as (de & Ed & _). assert (Xl : exists len, x_len (dx_x x) = Some len) by apply In_. destruct Xl as [len Xl]. rewrite <- Qx in Xl.
  pose proof (bulk_weighted strf q n _ bp bs bi z s len de (y z) dydx (dy z) s' B Qm Ev Xl Ed Fc En Lyz Ld Hd) as Z. cbv zeta in Z. fold w in Z. pose proof (deriv_length strf q z (y z) dydx s (dy z) s' n Qn Hn Ev Fc Lyz Ld Hd) as Ldd.
  refine (eq_ind _ (fun v : R => is_derive _ z v) _ _ Z). clear Z. unfold rate. rewrite <- !rsum_plus.
  apply (is_derive_rsum n (fun m t => (Cmod (nth m (y t) z0) ^ 2 + Cmod (nth (n + m) (y t) z0) ^ 2 + Cmod (nth (2 * n + m) (y t) z0) ^ 2) / nth m w 0 ^ 2)). intros m Hm. destruct (field_nth q (y z) n Qn Lyz m Hm) as (-> & -> & ->). destruct (field_nth q (dy z) n Qn Ldd m Hm) as (-> & -> & ->).
  destruct (Der m ltac:(lia)) as [D1 D2]. destruct (Der (n + m)%nat ltac:(lia)) as [D3 D4]. destruct (Der (2 * n + m)%nat ltac:(lia)) as [D5 D6].
  pose proof (is_derive_power (fun t => nth m (y t) z0) z _ D1 D2) as F1. pose proof (is_derive_power (fun t => nth (n + m) (y t) z0) z _ D3 D4) as F2. pose proof (is_derive_power (fun t => nth (2 * n + m) (y t) z0) z _ D5 D6) as F3. cbv beta in F1, F2, F3.
  pose proof (@is_derive_plus R_AbsRing R_NormedModule _ _ z _ _ (@is_derive_plus R_AbsRing R_NormedModule _ _ z _ _ F1 F2) F3) as F. apply (is_derive_scal _ _ (/ nth m w 0 ^ 2)) in F.
  refine (eq_ind _ (fun v : R => is_derive _ z v) (is_derive_ext _ _ _ _ _ F) _ _); [intros t; unfold plus; cbn; unfold Rdiv; ring|unfold plus; cbn; ring].
Qed.

(** a field with one pump, one signal and one idler point *)
Definition probe (n a h : nat) (v : C) : list C := mk (3 * n) (fun k => if Nat.eqb k a then RtoC 1 else if Nat.eqb k (n + a) then RtoC 1 else if Nat.eqb k (2 * n + h) then v else z0).
Lemma probe_nth n a h v m : (a < n)%nat -> (h < n)%nat -> (m < n)%nat ->
  at0 (probe n a h v) m = (if Nat.eqb m a then RtoC 1 else z0) /\ at0 (probe n a h v) (n + m) = (if Nat.eqb m a then RtoC 1 else z0) /\ at0 (probe n a h v) (2 * n + m) = (if Nat.eqb m h then v else z0).
Proof.
  intros Ha Hh Hm. unfold probe. rewrite !mk_nth by lia. split; [|split].
  - destruct (Nat.eqb_spec m a); [reflexivity|]. destruct (Nat.eqb_spec m (n + a)); [lia|]. destruct (Nat.eqb_spec m (2 * n + h)); [lia|reflexivity].
  - destruct (Nat.eqb_spec (n + m) a); [lia|]. destruct (Nat.eqb_spec (n + m) (n + a)), (Nat.eqb_spec m a); try lia; [reflexivity|]. destruct (Nat.eqb_spec (n + m) (2 * n + h)); [lia|reflexivity].
  - destruct (Nat.eqb_spec (2 * n + m) a); [lia|]. destruct (Nat.eqb_spec (2 * n + m) (n + a)); [lia|]. destruct (Nat.eqb_spec (2 * n + m) (2 * n + h)), (Nat.eqb_spec m h); try lia; reflexivity.
Qed.
Lemma rsum3_single n a b c (f : nat -> nat -> nat -> R) : (a < n)%nat -> (b < n)%nat -> (c < n)%nat -> (forall i j k, (i < n)%nat -> (j < n)%nat -> (k < n)%nat -> (i, j, k) <> (a, b, c) -> f i j k = 0) ->
  rsum n (fun i => rsum n (fun j => rsum n (fun k => f i j k))) = f a b c.
Proof.
  intros Ha Hb Hc H. rewrite (rsum_single n a); [|exact Ha|].
  - rewrite (rsum_single n b); [|exact Hb|].
    + apply rsum_single; [exact Hc|]. intros k Hk N. apply H; [assumption..|congruence].
    + intros j Hj N. apply rsum_zero. intros k Hk. apply H; [assumption..|congruence].
  - intros i Hi N. apply rsum_zero. intros j Hj. apply rsum_zero. intros k Hk. apply H; [assumption..|congruence].
Qed.
Lemma unimod_nz v : unimod v -> v <> z0. Proof. unfold unimod. intros H E. rewrite E, Cnorm2_0 in H. lra. Qed.
Lemma total_split q n y d : q_n q = n -> length y = (3 * n)%nat -> length d = (3 * n)%nat ->
  rsum (3 * n) (fun m => 2 * Re (Cconj (nth m y (RtoC 0)) * nth m d (RtoC 0))%C) = rate n (fun _ => 1) (Ap q y) (Ap q d) + rate n (fun _ => 1) (As q y) (As q d) + rate n (fun _ => 1) (Ai q y) (Ai q d).
Proof.
  intros Qn Ly Ld. rewrite seg_split3. unfold rate. f_equal; [f_equal|]; apply rsum_ext; intros m Hm; destruct (field_nth q y n Qn Ly m Hm) as (E1 & E2 & E3); destruct (field_nth q d n Qn Ld m Hm) as (E4 & E5 & E6); rewrite ?E1, ?E2, ?E3, ?E4, ?E5, ?E6; ring.
Qed.

(*! C91 (refuted): in free space with equal time windows and a nonzero coefficient the total power is not conserved: unless some beam has the same focal width at all its wavelengths, at every distance there is a field -
    one pump, one signal and one idler point - whose total power the right-hand side changes. *)
Lemma C91_power_refuted_l : forall strf fuel rand pump sgnl x waist gouy Aeff k0 n q fc0 k1 bp bs bi, bulk_inputs strf fuel pump sgnl x waist n -> Nat.Even n -> p_tw sgnl = p_tw pump -> dx_deff x <> 0 ->
  dfg_init strf fuel rand pump sgnl x true waist gouy false Aeff k0 = (Ok (q, fc0), k1) -> q_beams q = Bulk bp bs bi ->
  (forall b, In b [bp; bs; bi] -> exists m, (m < n)%nat /\ nth m (b_w0 b) 0 <> nth (n / 2) (b_w0 b) 0) ->
  forall z dydx s, fc_ok n (ds_fc s) -> length dydx = (3 * n)%nat ->
  exists y d s', length y = (3 * n)%nat /\ deriv strf q z y dydx s = (Ok d, s') /\ rsum (3 * n) (fun m => 2 * Re (Cconj (nth m y (RtoC 0)) * nth m d (RtoC 0))%C) <> 0.
Proof.
  intros strf fuel rand pump sgnl x waist gouy Aeff k0 n q fc0 k1 bp bs bi In_ Ev Ht Hde E Qb Var z dydx s Fc Ld. destruct (bulk_accepts strf fuel rand pump sgnl x true waist gouy Aeff k0 n In_) as (q' & bp' & bs' & bi' & E' & Qn & _ & _ & B). rewrite E in E'. injection E' as <- _ _.
  pose proof (bk_beams _ _ _ _ _ _ _ B) as Qb'. rewrite Qb in Qb'. injection Qb' as <- <- <-. pose proof (proj1 (bulk_pos _ _ _ _ _ _ _ B)) as Pw. destruct (narrow_in bp bs bi) as [Ib _]. destruct (Pw _ Ib) as [_ Pb]. destruct (Var _ Ib) as (a & Ha & Wa). clear Var Pw Ib.
  assert (Hf : 0 < p_f sgnl < p_f pump) by apply In_. assert (Hn : (2 <= n)%nat) by apply In_. pose proof (grids_sum _ _ _ _ _ _ _ _ _ _ _ _ _ _ _ n E Qn Ev ltac:(apply Rgt_not_eq; lra) ltac:(apply Rgt_not_eq; lra) Ht) as En. apply init_inv in E as (Qp & Qs & Qx & Qm & _).
  destruct (deff_some strf fuel pump sgnl x waist n q z In_ Qx) as (de & Ed & Vd & _). assert (De : de <> 0) by (destruct Vd as [-> | ->]; lra). assert (Xl : exists len, x_len (dx_x x) = Some len) by apply In_. destruct Xl as [len Xl]. rewrite <- Qx in Xl.
  set (c := 2 * PI * waist ^ 2 * _ / _) in B. destruct (bulk_rates strf q n c bp bs bi z s len de B Qm Ev Xl Ed Fc) as (pp & ps & pi & ap & as_ & ai & V & Rt).
  assert (Hh : (n / 2 < n)%nat) by (apply Nat.div_lt; lia). destruct (V a Ha) as (U1 & U2 & _ & A1 & A2 & _). destruct (V (n / 2)%nat Hh) as (_ & _ & U3 & _ & _ & A3).
  set (X := (Cconj (RtoC (bnth ap 0 a) * at0 pp a) * (RtoC (bnth as_ 0 a) * at0 ps a * (RtoC (bnth ai 0 (n / 2)) * at0 pi (n / 2))))%C). set (y := probe n a (n / 2) (Ci * Cconj X)%C).
  assert (Ly : length y = (3 * n)%nat) by apply mk_length. destruct (bulk_total strf q n c bp bs bi z y dydx s len B Qm Xl (ex_intro _ de Ed) Fc Ly Ld) as (d & s' & Hd & Ldd & _). exists y, d, s'. split; [exact Ly|]. split; [exact Hd|].
  rewrite (total_split q n y d Qn Ly Ldd). specialize (Rt y dydx d s' Ly Ld Hd). cbv zeta in Rt. destruct (Rt (fun _ => 1)) as (-> & -> & ->). clear Rt.
  set (P := gp ap pp y q). set (Sg := gs as_ ps y q). set (I := gi ai pi y q). set (w := b_w0 (narrow bp bs bi)) in *.
  assert (Pv : forall m, (m < n)%nat -> m <> a -> P m = z0) by (intros m Hm N; unfold P, gp; destruct (field_nth q y n Qn Ly m Hm) as (-> & _); unfold y; destruct (probe_nth n a (n / 2) (Ci * Cconj X)%C m Ha Hh Hm) as (-> & _); destruct (Nat.eqb_spec m a); [contradiction|ring]).
  assert (Sv : forall m, (m < n)%nat -> m <> a -> Sg m = z0) by (intros m Hm N; unfold Sg, gs; destruct (field_nth q y n Qn Ly m Hm) as (_ & -> & _); unfold y; destruct (probe_nth n a (n / 2) (Ci * Cconj X)%C m Ha Hh Hm) as (_ & -> & _); destruct (Nat.eqb_spec m a); [contradiction|ring]).
  assert (Iv : forall m, (m < n)%nat -> m <> (n / 2)%nat -> I m = z0) by (intros m Hm N; unfold I, gi; destruct (field_nth q y n Qn Ly m Hm) as (_ & _ & ->); unfold y; destruct (probe_nth n a (n / 2) (Ci * Cconj X)%C m Ha Hh Hm) as (_ & _ & ->); destruct (Nat.eqb_spec m (n / 2)); [contradiction|ring]).
  assert (Tz : forall i j k, (i < n)%nat -> (j < n)%nat -> (k < n)%nat -> (i, j, k) <> (a, a, (n / 2)%nat) -> triple n P Sg I i j k = 0).
  { intros i j k Hi Hj Hk N. unfold triple. destruct (Nat.eqb _ _); [|reflexivity]. destruct (Nat.eq_dec i a) as [->|Ni]; [|rewrite (Pv i Hi Ni), Cconj_R; replace (z0 * (Sg j * I k))%C with z0 by ring; reflexivity]. destruct (Nat.eq_dec j a) as [->|Nj]; [|rewrite (Sv j Hj Nj); replace (Cconj (P a) * (z0 * I k))%C with z0 by ring; reflexivity]. destruct (Nat.eq_dec k (n / 2)) as [->|Nk]; [congruence|]. rewrite (Iv k Hk Nk). replace (Cconj (P a) * (Sg a * z0))%C with z0 by ring. reflexivity. }
  rewrite !(rsum3_single n a a (n / 2) _ Ha Ha Hh) by (intros i j k Hi Hj Hk N; rewrite (Tz i j k Hi Hj Hk N); ring).
  assert (Tv : triple n P Sg I a a (n / 2) = Cnorm2 X).
  { unfold triple. rewrite Nat.eqb_refl. unfold P, Sg, I, gp, gs, gi. destruct (field_nth q y n Qn Ly a Ha) as (-> & -> & _). destruct (field_nth q y n Qn Ly (n / 2)%nat Hh) as (_ & _ & ->). unfold y. destruct (probe_nth n a (n / 2) (Ci * Cconj X)%C a Ha Hh Ha) as (-> & -> & _). destruct (probe_nth n a (n / 2) (Ci * Cconj X)%C (n / 2)%nat Ha Hh Hh) as (_ & _ & ->). rewrite !Nat.eqb_refl.
    transitivity (Im (Ci * (X * Cconj X))%C); [f_equal; unfold X at 2; rewrite !Cconj_mult, !Cconj_R; ring|]. rewrite Cmult_conj. cbn. ring. }
  rewrite Tv. rewrite (En a a (n / 2)%nat Ha Ha Hh ltac:(lia)).
  assert (X0 : Cnorm2 X <> 0). { unfold X. rewrite !Cnorm2_mult, Cnorm2_conj, !Cnorm2_mult. unfold unimod in U1, U2, U3. rewrite U1, U2, U3. assert (N : forall r, 0 < r -> Cnorm2 (RtoC r) <> 0) by (intros r Hr; unfold Cnorm2, RtoC; cbn; nra). pose proof (N _ A1). pose proof (N _ A2). pose proof (N _ A3). rewrite !Rmult_1_r. auto using Rmult_integral_contrapositive_currified. }
  assert (G0 : gain de c (z - len / 2) <> 0). { pose proof (grow_pos c (z - len / 2)). pose proof PI_RGT_0. unfold gain. assert (grow c (z - len / 2) ^ 2 <> 0) by (apply pow_nonzero; lra). assert (eps0 <> 0) by (unfold eps0; lra). assert (PI <> 0) by lra. assert (4 <> 0) by lra. assert (1000000000000 <> 0) by lra. auto using Rmult_integral_contrapositive_currified. }
  pose proof (proj2 (proj2 (bk_om _ _ _ _ _ _ _ B (n / 2)%nat Hh))) as Om. pose proof (Pb a Ha) as P1. pose proof (Pb (n / 2)%nat Hh) as P2.
  replace (_ + _ + _) with (gain de c (z - len / 2) * Cnorm2 X * omega (q_idlr q) (n / 2) * (nth (n / 2) w 0 - nth a w 0) * (nth (n / 2) w 0 + nth a w 0)) by ring.
  assert (omega (q_idlr q) (n / 2) <> 0) by lra. assert (nth (n / 2) w 0 - nth a w 0 <> 0) by lra. assert (nth (n / 2) w 0 + nth a w 0 <> 0) by lra. auto using Rmult_integral_contrapositive_currified.
Qed.

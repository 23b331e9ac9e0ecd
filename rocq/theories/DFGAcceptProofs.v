(** When the constructor of dfg_problem accepts its inputs: C71. *)
From Coq Require Import String.
From Coq Require Import Reals List ZArith Bool Arith Lia Lra.
From Coquelicot Require Import Coquelicot.
From Verif Require Import Base CNum NumPy FFTProofs ModelPulse Spec ModelDerived PulseProofs PulseHistory PulseRegridProofs DerivedProofs ModelCrystal CrystalProofs ModelBeam BeamProofs ModelODE ModelDFG DFGMixProofs DFGProofs DFGInitProofs DFGOutProofs DFGTotalProofs.
Import ListNotations.
Local Open Scope R_scope.
Local Open Scope py_scope.

Lemma W_mks_fst strf p : fst (get_W_mks strf p) = if hash_eqb (p_Wh p) (hash_of strf p) then Ok (p_Wv p) else if p_ready p then Ok (Some (map (fun x => x * 1000000000000) (W_of p))) else Raise RuntimeError.
Proof. unfold get_W_mks, get_W, need_ready, gets, bind, modify, get, ret, raise. destruct (hash_eqb (p_Wh p) (hash_of strf p)); [reflexivity|]. change (p_ready (with_Wc (Some (hash_of strf p)) (p_Wv p) p)) with (p_ready p). destruct (p_ready p); reflexivity. Qed.
Lemma W_mks_wlc strf a b p : fst (get_W_mks strf (with_wlc a b p)) = fst (get_W_mks strf p).
Proof. rewrite !W_mks_fst. reflexivity. Qed.
Lemma wl_keeps strf p : exists a b, snd (get_wl_nm strf p) = with_wlc a b p.
Proof. unfold get_wl_nm, get_W, need_ready, gets, bind, modify, get, ret, raise. destruct (hash_eqb (p_wlh p) (hash_of strf p)); [exists (p_wlh p), (p_wlv p); destruct p; reflexivity|]. change (p_ready (with_wlc (Some (hash_of strf p)) (p_wlv p) p)) with (p_ready p). destruct (p_ready p); eexists _, _; reflexivity. Qed.
Lemma W_after_wl strf p : fst (get_W_mks strf (snd (get_wl_nm strf p))) = fst (get_W_mks strf p).
Proof. destruct (wl_keeps strf p) as (a & b & ->). apply W_mks_wlc. Qed.
Lemma wl_mks_cur strf p : cur_W strf p -> fst (get_wl_mks strf p) = Ok (map (fun x => 2 * PI * c_mks / x) (map (fun w => w * 1000000000000) (spec_W (p_n p) (p_tw p) (p_f p)))).
Proof. unfold cur_W, get_wl_mks, bind. intros C. destruct (get_W_mks strf p) as [r p']. cbn [fst] in C. subst r. reflexivity. Qed.
(** the index of a crystal is defined and positive at every positive wavelength (nm), on the default axis *)
Definition index_pos (x : dcrystal) : Prop := forall l, (forall w, In w l -> 0 < w) -> exists ns, index (x_mat (dx_x x)) None l = Ok ns /\ forall v, In v ns -> 0 < v.
Lemma wl_pos p : (forall k, (k < p_n p)%nat -> 0 < omega p k) -> forall w, In w (map (fun w => 2 * PI * c_nmps / w) (spec_W (p_n p) (p_tw p) (p_f p))) -> 0 < w.
Proof.
  intros H w Hw. apply in_map_iff in Hw as (u & <- & Hu). apply (In_nth _ _ 0) in Hu as (k & Hk & <-). rewrite spec_W_length in Hk. specialize (H k Hk). unfold omega in H. apply Rdiv_lt_0_compat; [pose proof PI_RGT_0; unfold c_nmps, c_mks; nra|exact H].
Qed.
Lemma index_length m ax l ns : index m ax l = Ok ns -> length ns = length l.
Proof. unfold index. destruct m; apply rtraverse_length. Qed.
Lemma n_at_ok strf p x kk n : index_pos x -> x_caching (dx_x x) = false -> cur_wl strf p -> p_n p = n -> (forall k, (k < n)%nat -> 0 < omega p k) ->
  exists ns, n_at strf None p x kk = (Ok ns, kk) /\ length ns = n /\ forall v, In v ns -> 0 < v.
Proof.
  intros X Ca C <- P. destruct (X _ (wl_pos p P)) as (ns & E & Pn). exists ns. split; [|split; [apply index_length in E; rewrite E, map_length, spec_W_length; reflexivity|exact Pn]].
  unfold n_at, reading, get_pulse_n. rewrite Ca. unfold compute_n, bind, on_pulse. cbn [snd fst]. unfold cur_wl in C. destruct (get_wl_nm strf p) as [r p1]. cbn [fst] in C. subst r. unfold as_array, ret, lift. rewrite E. reflexivity.
Qed.
Lemma k_at_ok strf p x kk n : index_pos x -> cur_wl strf p -> cur_W strf p -> p_n p = n -> (forall k, (k < n)%nat -> 0 < omega p k) -> exists ks, k_at strf None p x kk = (Ok ks, kk) /\ length ks = n /\
  forall ns, index (x_mat (dx_x x)) None (map (fun w => 2 * PI * c_nmps / w) (spec_W (p_n p) (p_tw p) (p_f p))) = Ok ns -> forall m, (m < n)%nat -> nth m ks 0 = nth m ns 0 * (omega p m * 1000000000000) / c_mks.
Proof.
  intros X C C' <- P. destruct (X _ (wl_pos p P)) as (ns & E & _). pose proof (index_length _ _ _ _ E) as L. rewrite map_length, spec_W_length in L.
  set (wm := map (fun x => 2 * PI * c_mks / x) (map (fun w => w * 1000000000000) (spec_W (p_n p) (p_tw p) (p_f p)))). assert (Lw : length wm = p_n p) by (unfold wm; rewrite !map_length; apply spec_W_length).
  destruct (b2_len (fun n w => (n, w)) ns wm (p_n p) L Lw) as (kk' & Ek & Lk).
  destruct (rtraverse_total (fun nw : R * R => fdiv (2 * PI * fst nw) (snd nw)) kk') as (ks & Eks & Lks).
  { intros [u v] Hv. assert (V : In v wm). { rewrite broadcast2_eq in Ek by lia. injection Ek as <-. clearbody wm. clear -Hv. revert wm Hv. induction ns as [|a ns IH]; intros [|b wm] Hv; cbn in Hv; try contradiction. destruct Hv as [Q|Hv]; [injection Q as _ ->; left; reflexivity|right; apply (IH wm Hv)]. }
    unfold wm in V. apply in_map_iff in V as (t & <- & Ht). apply in_map_iff in Ht as (t' & <- & Ht). apply (In_nth _ _ 0) in Ht as (k & Hk & <-). rewrite spec_W_length in Hk. specialize (P k Hk). unfold omega in P. eexists. apply fdiv_ok. apply Rgt_not_eq, Rdiv_lt_0_compat; [pose proof PI_RGT_0; unfold c_mks; nra|]. cbn [fst snd]. lra. }
  exists ks. split; [|split; [lia|]]; cycle 1.
  { intros ns' E' m Hm. rewrite E in E'. injection E' as <-. rewrite broadcast2_eq in Ek by lia. injection Ek as <-. destruct (rtraverse_inv _ _ _ (0, 0) 0 Eks) as [_ I1]. specialize (I1 m ltac:(lia)). rewrite (map2_nth _ _ _ m 0 0 (0, 0)) in I1 by lia. cbn [fst snd] in I1. apply fdiv_inv in I1 as [_ ->]. unfold wm. rewrite (nth_map' (fun x => 2 * PI * c_mks / x) _ m 0) by (rewrite map_length, spec_W_length; lia). rewrite (nth_map' (fun w => w * 1000000000000) _ m 0) by (rewrite spec_W_length; lia). specialize (P m Hm). unfold omega in *. field. pose proof PI_RGT_0. unfold c_mks. repeat split; lra. }
  unfold k_at, reading, get_pulse_k, bind, on_pulse. cbn [snd fst]. pose proof (W_after_wl strf p) as W. unfold cur_wl in C. destruct (get_wl_nm strf p) as [r p1] eqn:G. cbn [fst] in C. subst r. cbn [snd] in W. unfold as_array, ret, lift. rewrite E.
  assert (Q : fst (get_wl_mks strf p1) = Ok wm). { unfold get_wl_mks, bind. unfold cur_W in C'. rewrite C' in W. destruct (get_W_mks strf p1) as [r p2]. cbn [fst] in W. subst r. reflexivity. }
  cbn [snd fst]. destruct (get_wl_mks strf p1) as [r p2]. cbn [fst] in Q. subst r. rewrite Ek, Eks. reflexivity.
Qed.
Lemma middle_ok l : (0 < length l)%nat -> exists v, middle l = Ok v.
Proof. intros H. unfold middle. destruct (nth_error l (Nat.div2 (length l))) eqn:E; [eauto|]. apply nth_error_None in E. pose proof (Nat.div2_decr (length l) (length l - 1) ltac:(lia)). lia. Qed.
Lemma argmax_ok a : (0 < length a)%nat -> exists i, argmax_abs a = Ok i /\ (i < length a)%nat.
Proof. intros H. unfold argmax_abs. destruct (argmin_spec (map (fun z => - Cmod z) a)) as (r & E & L & _); [destruct a; cbn in *; [lia|discriminate]|]. rewrite map_length in L. eauto. Qed.
Lemma fastest_ok l : (0 < length l)%nat -> (forall v, In v l -> 0 < v) -> exists v m, rtraverse (fdiv c_mks) l = Ok v /\ max_list v = Ok m.
Proof.
  intros H P. destruct (rtraverse_total (fdiv c_mks) l) as (v & E & L); [intros x Hx; specialize (P x Hx); eexists; apply fdiv_ok; lra|]. destruct (list_max_ok v) as [m M]; [intros ->; cbn in L; lia|]. eauto.
Qed.
Lemma make_idler_holds rand pump sgnl i : make_idler rand pump sgnl = Ok i -> exists a, holds i a.
Proof.
  unfold make_idler. intros H. apply rbind_ok in H as (a & _ & H). apply rbind_ok in H as (b & _ & H). apply rbind_ok in H as (w & _ & H).
  set (v := mk (p_n pump) (fun k => RtoC (/ 10 ^ 30) * cexp (Ci * RtoC (2 * PI) * Ci * RtoC (rand k)))%C) in *.
  assert (R : noise_pulse w (p_tw pump) (p_n pump) (p_frep pump) rand pulse0 = set_AW v (blank (p_frep pump) (p_n pump) w (p_tw pump))) by (destruct (p_frep pump); reflexivity).
  rewrite R, set_AW_ok in H; [|apply blank_writable|apply mk_length]. injection H as <-. exists v. repeat split. apply mk_length.
Qed.

Lemma accepts strf fuel rand pump sgnl x noSPM waist gouy Aeff k0 n ap as_ :
  holds pump ap -> holds sgnl as_ -> p_n pump = n -> p_n sgnl = n -> (2 <= n)%nat -> 0 < p_f sgnl < p_f pump ->
  cur_W strf pump -> cur_W strf sgnl -> cur_wl strf pump -> cur_wl strf sgnl ->
  (forall k, (k < n)%nat -> 0 < omega pump k /\ 0 < omega sgnl k /\ 0 < nth k (spec_W n (p_tw pump) (p_f pump - p_f sgnl)) 0) ->
  (forall a b, (a < n)%nat -> (b < n)%nat -> omega sgnl b <= omega pump a /\ nth b (spec_W n (p_tw pump) (p_f pump - p_f sgnl)) 0 <= omega sgnl a) ->
  index_pos x -> x_caching (dx_x x) = false -> (dx_mode x = "simple"%string \/ dx_mode x = "PP"%string /\ exists doms, precompute_poling fuel x = Ok doms) ->
  exists q, dfg_init strf fuel rand pump sgnl x noSPM waist gouy true (Some Aeff) k0 = (Ok (q, fftc_init n), k0) /\ q_n q = n /\ length (q_ystart q) = (3 * n)%nat /\
    length (q_np q) = n /\ length (q_ns q) = n /\ length (q_ni q) = n /\ (forall v, In v (q_np q ++ q_ns q ++ q_ni q) -> 0 < v) /\ (q_centre q < n)%nat /\
    n_at strf None pump x k0 = (Ok (q_np q), k0) /\ exists ks, k_at strf None sgnl x k0 = (Ok ks, k0) /\ q_ks q = map (fun k => k - q_ks0 q) ks.
Proof.
  intros Hp Hs Np Ns Hn Hf Wp Ws Lp Ls P O X Ca Md. assert (Z1 : p_f pump <> 0) by (apply Rgt_not_eq; lra). assert (Z2 : p_f sgnl <> 0) by (apply Rgt_not_eq; lra). assert (Z3 : p_f pump <> p_f sgnl) by (apply Rgt_not_eq; lra). destruct (idler_made rand pump sgnl Z1 Z2 Z3) as [i Ei]. destruct (idler_spec _ _ _ _ Z1 Z2 Ei) as (Fi & Ti & Ni & _ & Ci). destruct (Ci strf) as [Wi Li]. destruct (make_idler_holds _ _ _ _ Ei) as [ai Hi].
  assert (Oi : forall k, nth k (spec_W n (p_tw pump) (p_f pump - p_f sgnl)) 0 = omega i k) by (intros k; unfold omega; rewrite Fi, Ti, Ni, Np; reflexivity).
  assert (B1 : check_below strf pump sgnl = Ok tt). { destruct (check_below_cur strf pump sgnl Lp Ls ltac:(lia) ltac:(lia)) as [[E _]|[_ (a & b & Ha & Hb & L)]]; [exact E|exfalso]. rewrite Np in Ha. rewrite Ns in Hb. pose proof (proj2 (freq_order (omega pump a) (omega sgnl b) ltac:(apply P, Ha) ltac:(apply P, Hb)) ltac:(apply O; assumption)). lra. }
  assert (B2 : check_below strf sgnl i = Ok tt). { destruct (check_below_cur strf sgnl i Ls Li ltac:(lia) ltac:(lia)) as [[E _]|[_ (a & b & Ha & Hb & L)]]; [exact E|exfalso]. rewrite Ns in Ha. rewrite Ni, Np in Hb. destruct (P b Hb) as (_ & _ & Pb). destruct (O a b Ha Hb) as [_ Ob]. rewrite Oi in Pb, Ob. pose proof (proj2 (freq_order (omega sgnl a) (omega i b) ltac:(apply P, Ha) Pb) Ob). lra. }
  assert (D : exists doms, (if is_mode x "PP" then precompute_poling fuel x else Ok []) = Ok doms). { unfold is_mode. destruct Md as [-> | [-> H]]; [exists []; reflexivity|exact H]. }
  destruct D as [doms D]. assert (Bpm : is_mode x "BPM" = false) by (unfold is_mode; destruct Md as [-> | [-> _]]; reflexivity).
  destruct (k_at_ok strf pump x k0 n X Lp Wp Np ltac:(intros k Hk; apply (P k Hk))) as (kp & Kp & Lkp & _). destruct (k_at_ok strf sgnl x k0 n X Ls Ws Ns ltac:(intros k Hk; apply (P k Hk))) as (ks & Ks & Lks & _). destruct (k_at_ok strf i x k0 n X Li Wi ltac:(lia) ltac:(intros k Hk; rewrite <- Oi; apply (P k Hk))) as (ki & Ki & Lki & _).
  destruct (n_at_ok strf pump x k0 n X Ca Lp Np ltac:(intros k Hk; apply (P k Hk))) as (np & Enp & Lnp & Pnp). destruct (n_at_ok strf sgnl x k0 n X Ca Ls Ns ltac:(intros k Hk; apply (P k Hk))) as (ns & Ens & Lns & Pns). destruct (n_at_ok strf i x k0 n X Ca Li ltac:(lia) ltac:(intros k Hk; rewrite <- Oi; apply (P k Hk))) as (ni & Eni & Lni & Pni).
  destruct (middle_ok kp ltac:(lia)) as [kp0 Mp]. destruct (middle_ok ks ltac:(lia)) as [ks0 Ms]. destruct (middle_ok ki ltac:(lia)) as [ki0 Mi].
  destruct Hp as (_ & Hp & Lap). destruct Hs as (_ & Hs & Las). destruct Hi as (_ & Hi & Lai). destruct (argmax_ok ap ltac:(lia)) as (ci & Eci & Lci).
  destruct (fastest_ok np ltac:(lia) Pnp) as (vp & mp & V1 & V2). destruct (fastest_ok ns ltac:(lia) Pns) as (vs & ms & V3 & V4). destruct (fastest_ok ni ltac:(lia) Pni) as (vi & mi & V5 & V6). destruct (list_max_ok [mp; ms; mi] ltac:(discriminate)) as [sp V7].
  eexists. split.
  - unfold dfg_init. unfold bind at 1, ret at 1. unfold bind at 1, lift at 1. rewrite Ei. unfold bind at 1, lift at 1. rewrite B1. unfold bind at 1, lift at 1. rewrite B2. unfold bind at 1, lift at 1. rewrite D. cbv zeta. rewrite Np, Ns, Ni, Np, !Nat.eqb_refl. cbn [andb]. unfold bind at 1, ret at 1.
    unfold bind at 1, make_beams. rewrite Bpm. unfold bind at 1. unfold rd at 1. unfold lift at 1. rewrite (wl_mks_cur _ _ Wp). unfold bind at 1. unfold rd at 1. unfold lift at 1. rewrite (wl_mks_cur _ _ Ws). unfold bind at 1. unfold rd at 1. unfold lift at 1. rewrite (wl_mks_cur _ _ Wi). unfold ret at 1.
    unfold bind at 1. unfold rd at 1. unfold lift at 1. unfold get_AW at 1. unfold bind at 1. unfold get at 1. rewrite Hp. unfold ret at 1. cbn [fst]. unfold bind at 1. unfold rd at 1. unfold lift at 1. unfold get_AW at 1. unfold bind at 1. unfold get at 1. rewrite Hs. unfold ret at 1. cbn [fst]. unfold bind at 1. unfold rd at 1. unfold lift at 1. unfold get_AW at 1. unfold bind at 1. unfold get at 1. rewrite Hi. unfold ret at 1. cbn [fst axes g_axis wg_init].
    unfold bind at 1. rewrite Kp. unfold bind at 1. rewrite Ks. unfold bind at 1. rewrite Ki. unfold bind at 1, lift at 1. rewrite Mp. unfold bind at 1, lift at 1. rewrite Ms. unfold bind at 1, lift at 1. rewrite Mi. unfold bind at 1. rewrite Enp. unfold bind at 1. rewrite Ens. unfold bind at 1. rewrite Eni.
    unfold bind at 1, lift at 1. rewrite Eci. unfold bind at 1, lift at 1. rewrite V1. unfold bind at 1, lift at 1. rewrite V2. unfold bind at 1, lift at 1. rewrite V3. unfold bind at 1, lift at 1. rewrite V4. unfold bind at 1, lift at 1. rewrite V5. unfold bind at 1, lift at 1. rewrite V6. unfold bind at 1, lift at 1. rewrite V7. unfold ret. reflexivity.
  - cbn [q_n q_np q_ns q_ni q_centre q_ystart]. split; [reflexivity|]. split; [rewrite !app_length; lia|]. repeat (split; [assumption|]). split; [|split; [lia|split; [exact Enp|exists ks; split; [exact Ks|reflexivity]]]]. intros v Hv. apply in_app_or in Hv as [Hv|Hv]; [auto|]. apply in_app_or in Hv as [Hv|Hv]; auto.
Qed.

(*! C71: a waveguide problem with separated positive grids of one size, fields, a crystal with positive index, known length and positive effective area is accepted by the constructor (for any random idler noise), and from then on
    the right-hand side returns a derivative of the same size at every distance and for every field. *)
Lemma C71_accepted_l : forall strf fuel rand pump sgnl x waist gouy Aeff len k0 n ap as_,
  holds pump ap -> holds sgnl as_ -> p_n pump = n -> p_n sgnl = n -> (2 <= n)%nat -> 0 < p_f sgnl < p_f pump ->
  cur_W strf pump -> cur_W strf sgnl -> cur_wl strf pump -> cur_wl strf sgnl ->
  (forall k, (k < n)%nat -> 0 < omega pump k /\ 0 < omega sgnl k /\ 0 < nth k (spec_W n (p_tw pump) (p_f pump - p_f sgnl)) 0) ->
  (forall a b, (a < n)%nat -> (b < n)%nat -> omega sgnl b <= omega pump a /\ nth b (spec_W n (p_tw pump) (p_f pump - p_f sgnl)) 0 <= omega sgnl a) ->
  index_pos x -> x_caching (dx_x x) = false -> x_len (dx_x x) = Some len -> 0 < Aeff ->
  (dx_mode x = "simple"%string \/ dx_mode x = "PP"%string /\ exists doms, precompute_poling fuel x = Ok doms) ->
  exists q, dfg_init strf fuel rand pump sgnl x true waist gouy true (Some Aeff) k0 = (Ok (q, fftc_init n), k0) /\ q_n q = n /\ length (q_ystart q) = (3 * n)%nat /\
    forall z y dydx s, fc_ok n (ds_fc s) -> length y = (3 * n)%nat -> length dydx = (3 * n)%nat ->
      exists d s', deriv strf q z y dydx s = (Ok d, s') /\ length d = (3 * n)%nat /\ fc_ok n (ds_fc s').
Proof.
  intros strf fuel rand pump sgnl x waist gouy Aeff len k0 n ap as_ Hp Hs Np Ns Hn Hf Wp Ws Lp Ls P O X Ca Xl Ha Md.
  destruct (accepts strf fuel rand pump sgnl x true waist gouy Aeff k0 n ap as_ Hp Hs Np Ns Hn Hf Wp Ws Lp Ls P O X Ca Md) as (q & E & Qn & Qy & L1 & L2 & L3 & Pos & _). exists q. split; [exact E|]. split; [exact Qn|]. split; [exact Qy|]. intros z y dydx s Fc Ly Ld.
  apply (C71_total_l strf fuel rand pump sgnl x waist gouy Aeff len k0 q (fftc_init n) k0 n z y dydx s E Qn Hn ltac:(apply Rgt_not_eq; lra) ltac:(apply Rgt_not_eq; lra) Wp Ws Lp Ls Ha Xl); try assumption. destruct Md as [Md|[Md _]]; [right|left]; exact Md.
Qed.

(** Proofs about several crystals and the attributes they share: C61. *)
From Coq Require Import String.
From Coq Require Import Reals List ZArith Bool Arith Lia Lra.
From Verif Require Import Base CNum NumPy ModelPulse ModelCrystal CrystalProofs.
Import ListNotations.
Local Open Scope R_scope.
Local Open Scope py_scope.

Lemma compute_n_free strf x b axis k k' p : fst (compute_n strf (set_caching b x) axis (k, p)) = fst (compute_n strf x axis (k', p)).
Proof.
  unfold compute_n, on_pulse, bind. cbn [snd fst set_caching x_mat]. destruct (get_wl_nm strf p) as [[o|e] p'] eqn:E; cbn [fst]; [|reflexivity]. unfold as_array. destruct o as [l|]; reflexivity.
Qed.
Lemma compute_n_state strf x axis s : fst (snd (compute_n strf x axis s)) = fst s.
Proof.
  unfold compute_n, on_pulse, bind. destruct (get_wl_nm strf (snd s)) as [[o|e] p'] eqn:E; cbn [fst snd]; [|reflexivity]. unfold as_array. destruct o as [l|]; reflexivity.
Qed.
Lemma uncached_compute strf x axis p : fst (get_pulse_n strf (set_caching false x) axis (shared0, p)) = fst (compute_n strf x axis (shared0, p)).
Proof. unfold get_pulse_n. cbn [set_caching x_caching]. apply (compute_n_free strf x false). Qed.

Definition provenance (strf : R -> string) (ops : list xop) (key : string) (v : list R) : Prop :=
  exists a j q ax b y, ops = a ++ XReadN j q ax :: b /\ nth_error (xw_xs (xrun strf a xworld0)) j = Some y /\ x_caching y = true /\
    (hash_of strf q ++ str_axis ax)%string = key /\ fst (get_pulse_n strf (set_caching false y) ax (shared0, q)) = Ok v.
Lemma provenance_app strf ops o key v : provenance strf ops key v -> provenance strf (ops ++ [o]) key v.
Proof. intros (a & j & q & ax & b & y & -> & H). exists a, j, q, ax, (b ++ [o]), y. split; [rewrite <- app_assoc; reflexivity|exact H]. Qed.
Lemma read_spec strf x axis p k : let key := (hash_of strf p ++ str_axis axis)%string in let u := fst (get_pulse_n strf (set_caching false x) axis (shared0, p)) in
  match get_pulse_n strf x axis (k, p) with (r, s) =>
    k_damage (fst s) = k_damage k /\
    (x_caching x = false /\ r = u /\ k_ns (fst s) = k_ns k \/
     x_caching x = true /\ (exists v, assoc key (k_ns k) = Some v /\ r = Ok v /\ k_ns (fst s) = k_ns k) \/
     x_caching x = true /\ assoc key (k_ns k) = None /\ r = u /\ (k_ns (fst s) = k_ns k \/ exists v, u = Ok v /\ k_ns (fst s) = (key, v) :: k_ns k)) end.
Proof.
  intros key u. unfold u. rewrite uncached_compute. unfold get_pulse_n. destruct (x_caching x) eqn:Ec.
  - unfold bind at 1, get. cbn [fst snd]. fold key. destruct (assoc key (k_ns k)) as [v|] eqn:Ea.
    + cbn. split; [reflexivity|]. right; left. split; [reflexivity|]. exists v. auto.
    + unfold bind. pose proof (compute_n_state strf x axis (k, p)) as S. pose proof (compute_n_free strf x (x_caching x) axis k shared0 p) as F. replace (set_caching (x_caching x) x) with x in F by (destruct x; reflexivity).
      destruct (compute_n strf x axis (k, p)) as [[v|e] s]; cbn [fst snd] in *.
      * unfold modify, ret. cbn [fst snd k_damage k_ns]. split; [rewrite S; reflexivity|]. right; right. repeat split; [exact F|]. right. exists v. cbn [fst k_ns]. rewrite S. split; [symmetry; exact F|reflexivity].
      * split; [rewrite S; reflexivity|]. right; right. repeat split; [exact F|]. left. rewrite S. reflexivity.
  - pose proof (compute_n_state strf x axis (k, p)) as S. pose proof (compute_n_free strf x (x_caching x) axis k shared0 p) as F. replace (set_caching (x_caching x) x) with x in F by (destruct x; reflexivity).
    destruct (compute_n strf x axis (k, p)) as [r s]; cbn [fst snd] in *. split; [rewrite S; reflexivity|]. left. rewrite S. auto.
Qed.
Lemma xrun_snoc strf ops o w : xrun strf (ops ++ [o]) w = snd (xstep strf (xrun strf ops w) o).
Proof. unfold xrun. rewrite fold_left_app. reflexivity. Qed.
Lemma cache_inv strf ops : forall key v, assoc key (k_ns (xw_k (xrun strf ops xworld0))) = Some v -> provenance strf ops key v.
Proof.
  induction ops as [|o ops IH] using rev_ind; [intros key v H; discriminate|]. intros key v. rewrite xrun_snoc. set (w := xrun strf ops xworld0) in *.
  assert (Same : k_ns (xw_k (snd (xstep strf w o))) = k_ns (xw_k w) -> assoc key (k_ns (xw_k (snd (xstep strf w o)))) = Some v -> provenance strf (ops ++ [o]) key v).
  { intros E H. rewrite E in H. apply provenance_app, IH, H. }
  destruct o as [T src len b|th len b|i T|i a|i b|i p axis|i]; try (apply Same; reflexivity).
  - unfold xstep in *. destruct (nth_error (xw_xs w) i) as [x|] eqn:Ex; [|apply Same; reflexivity].
    pose proof (read_spec strf x axis p (xw_k w)) as S. cbv zeta in S. destruct (get_pulse_n strf x axis (xw_k w, p)) as [r s]. cbn [snd xw_k] in *. destruct S as [_ [(_ & _ & E)|[(_ & v' & _ & _ & E)|(Ec & Ea & _ & [E|(v' & Eu & E)])]]]; try (apply Same; exact E).
    rewrite E. cbn [assoc]. destruct (String.eqb _ key) eqn:Ek.
    + intros [= <-]. apply String.eqb_eq in Ek. exists ops, i, p, axis, [], x. split; [reflexivity|]. fold w. split; [exact Ex|]. split; [exact Ec|]. split; [exact Ek|exact Eu].
    + intros H. apply provenance_app, IH, H.
  - unfold xstep in *. destruct (nth_error (xw_xs w) i) as [x|] eqn:Ex; apply Same; reflexivity.
Qed.

(*! C61: partial: where the value of a refractive-index read comes from, after every history of creating, heating, rotating, switching the caching of and reading any number of crystals: it is the value this crystal computes without caching, or - only with caching on - the uncached value that some crystal with caching on gave at an earlier read with the same pulse hash and axis.  Missing (false, see the refutations): that the earlier crystal was this one in its present state. *)
Lemma C61_provenance_partial_l : forall (strf : R -> string) (ops : list xop) (i : nat) (p : pulse) (axis : option string) (x : crystal),
  let w := xrun strf ops xworld0 in let uncached y q ax := fst (get_pulse_n strf (set_caching false y) ax (shared0, q)) in
  nth_error (xw_xs w) i = Some x ->
  exists r, fst (xstep strf w (XReadN i p axis)) = OIndex r /\
    (r = uncached x p axis \/
     x_caching x = true /\ exists a j q ax b y v, ops = a ++ XReadN j q ax :: b /\ nth_error (xw_xs (xrun strf a xworld0)) j = Some y /\ x_caching y = true /\
       (hash_of strf q ++ str_axis ax)%string = (hash_of strf p ++ str_axis axis)%string /\ uncached y q ax = Ok v /\ r = Ok v).
Proof.
  intros strf ops i p axis x w uncached Hx. unfold xstep. rewrite Hx. pose proof (read_spec strf x axis p (xw_k w)) as S. cbv zeta in S. fold (uncached x p axis) in S. destruct (get_pulse_n strf x axis (xw_k w, p)) as [r s]. cbn [fst] in *. exists r. split; [reflexivity|].
  destruct S as [_ [(_ & E & _)|[(Ec & v & Ea & Er & _)|(_ & _ & E & _)]]]; [left; exact E| |left; exact E]. right. split; [exact Ec|]. destruct (cache_inv strf ops _ _ Ea) as (a & j & q & ax & b & y & H1 & H2 & H3 & H4 & H5). exists a, j, q, ax, b, y, v. auto 10.
Qed.
(*! C61: partial: caching is transparent in every history in which the cached reads with one pulse hash and axis agree on the uncached value (as when one crystal in one state is read); with caching off it always is. *)
Lemma C61_transparent_partial_l : forall (strf : R -> string) (ops : list xop) (i : nat) (p : pulse) (axis : option string) (x : crystal),
  let w := xrun strf ops xworld0 in let uncached y q ax := fst (get_pulse_n strf (set_caching false y) ax (shared0, q)) in
  nth_error (xw_xs w) i = Some x ->
  (x_caching x = true -> forall a j q ax b y, ops = a ++ XReadN j q ax :: b -> nth_error (xw_xs (xrun strf a xworld0)) j = Some y -> x_caching y = true ->
     (hash_of strf q ++ str_axis ax)%string = (hash_of strf p ++ str_axis axis)%string -> uncached y q ax = uncached x p axis) ->
  fst (xstep strf w (XReadN i p axis)) = OIndex (uncached x p axis).
Proof.
  intros strf ops i p axis x w uncached Hx H. destruct (C61_provenance_partial_l strf ops i p axis x Hx) as (r & E & [->|(Ec & a & j & q & ax & b & y & v & H1 & H2 & H3 & H4 & H5 & ->)]); fold w in E; rewrite E; [reflexivity|]. specialize (H Ec a j q ax b y H1 H2 H3 H4). fold (uncached y q ax) in H5. rewrite <- H, H5. reflexivity.
Qed.

(** ** The damage threshold *)
Definition is_new_ppln (o : xop) : bool := match o with XNewPpln _ _ _ _ => true | _ => false end.
Lemma damage_inv strf ops : k_damage (xw_k (xrun strf ops xworld0)) = if existsb is_new_ppln ops then 4.0 else 1.0.
Proof.
  induction ops as [|o ops IH] using rev_ind; [reflexivity|]. rewrite xrun_snoc, existsb_app. cbn [existsb]. rewrite orb_false_r. set (w := xrun strf ops xworld0) in *.
  destruct o as [T src len b|th len b|i T|i a|i b|i p axis|i]; cbn [is_new_ppln]; rewrite ?orb_false_r, ?orb_true_r; try exact IH; try reflexivity.
  - unfold xstep. destruct (nth_error (xw_xs w) i) as [x|]; [|exact IH]. pose proof (read_spec strf x axis p (xw_k w)) as S. cbv zeta in S. destruct (get_pulse_n strf x axis (xw_k w, p)) as [r s]. cbn [snd xw_k]. destruct S as [E _]. rewrite E. exact IH.
  - unfold xstep. destruct (nth_error (xw_xs w) i) as [x|]; exact IH.
Qed.
(*! C61: partial: what a crystal's damage threshold does depend on: in every history every crystal reports 1e13 as long as no PPLN was ever created and 4e13 afterwards. *)
Lemma C61_damage_partial_l : forall (strf : R -> string) (ops : list xop) (i : nat), (i < length (xw_xs (xrun strf ops xworld0)))%nat ->
  fst (xstep strf (xrun strf ops xworld0) (XReadDamage i)) = ODamage (Ok (if existsb (fun o => match o with XNewPpln _ _ _ _ => true | _ => false end) ops then 4e13 else 1e13)).
Proof.
  intros strf ops i Hi. unfold xstep. apply nth_error_Some in Hi. destruct (nth_error (xw_xs (xrun strf ops xworld0)) i); [|contradiction]. cbn [damage_threshold_mks gets fst]. pose proof (damage_inv strf ops) as D. unfold damage_threshold_mks, gets. cbn [fst]. rewrite D. unfold is_new_ppln. destruct (existsb _ ops); do 2 f_equal; lra.
Qed.
(*! C61: refuted: creating a PPLN crystal quadruples the damage threshold an existing AgGaSe2 crystal reports, because both write one class-level dictionary. *)
Lemma C61_damage_refuted_l : forall (strf : R -> string) (theta T : R) (len len' : option R) (b b' : bool) (src : source),
  fst (xstep strf (xrun strf [XNewAgse theta len b] xworld0) (XReadDamage 0)) = ODamage (Ok 1e13) /\
  fst (xstep strf (xrun strf [XNewAgse theta len b; XNewPpln T src len' b'] xworld0) (XReadDamage 0)) = ODamage (Ok 4e13).
Proof. intros. split; rewrite C61_damage_partial_l by (cbn; lia); reflexivity. Qed.

(** ** Stale indices *)
Definition p12 : pulse := mkPulse 2 299.792458 (2 / 299.792458) None None true None None None None.
Lemma p12_wl' strf : get_wl_nm strf p12 = (Ok (Some [2000; 1000]), with_wlc (Some (hash_of strf p12)) (Some [2000; 1000]) p12).
Proof.
  assert (H : forall q, p_n q = 2%nat -> p_f q = 299.792458 -> p_tw q = 2 / 299.792458 -> map (fun x => 2 * PI * c_nmps / x) (W_of q) = [2000; 1000]).
  { intros q Hn Hf Ht. unfold W_of, V_of, arange_sym, mk, c_nmps, c_mks, w0_of. rewrite Hn, Hf, Ht. cbn [seq map INR]. pose proof PI_RGT_0. apply (f_equal2 cons); [|apply (f_equal2 cons); [|reflexivity]].
    - replace (2 * PI * (- ((1 + 1) / 2) + 0) / ((1 + 1) * (2 / 299.792458 / (1 + 1))) + 2 * PI * 299.792458) with (PI * 299.792458) by (field; lra). field_simplify; lra.
    - replace (2 * PI * (- ((1 + 1) / 2) + 1) / ((1 + 1) * (2 / 299.792458 / (1 + 1))) + 2 * PI * 299.792458) with (2 * PI * 299.792458) by (field; lra). field_simplify; lra. }
  unfold get_wl_nm. unfold bind at 1, get. cbn [hash_eqb p_wlh p12]. unfold bind at 1, modify. unfold get_W, need_ready, gets, bind, get, ret. cbn [with_wlc p_ready p12]. rewrite H by reflexivity. reflexivity.
Qed.
Lemma p12_wl strf : exists p', get_wl_nm strf p12 = (Ok (Some [2000; 1000]), p').
Proof. eexists. apply p12_wl'. Qed.
Lemma gayer_vals : exists a b a' b', gayer_n 24.5 2000 = Ok a /\ gayer_n 24.5 1000 = Ok b /\ gayer_n 124.5 2000 = Ok a' /\ gayer_n 124.5 1000 = Ok b' /\ a <> a'.
Proof.
  unfold gayer_n. cbv zeta.
  assert (F0 : (24.5 - 24.5) * (24.5 + 570.82) = 0) by lra. assert (F1 : (124.5 - 24.5) * (124.5 + 570.82) = 69532) by lra. rewrite F0, F1.
  replace (2000 * 0.001) with 2 by lra. replace (1000 * 0.001) with 1 by lra.
  assert (D : forall f d, 0 <= f <= 69532 -> d = 1 \/ d = 2 -> let q := 0.2020 + 6.113e-8 * f in 0 < q < 0.21 /\ 0.95 < d ^ 2 - q ^ 2 < 4 /\ -156 < d ^ 2 - 12.52 ^ 2 < -152).
  { intros f d Hf Hd q. assert (Q : 0 < q < 0.21) by (unfold q; lra). split; [exact Q|]. assert (0 < q ^ 2 < 0.0441). { replace (q ^ 2) with (q * q) by ring. split; [apply Rmult_lt_0_compat; lra|]. replace 0.0441 with (0.21 * 0.21) by lra. apply Rmult_gt_0_lt_compat; lra. } destruct Hd as [-> | ->]; cbn [pow]; lra. }
  pose proof (D 0 1 ltac:(lra) ltac:(auto)) as D1. pose proof (D 0 2 ltac:(lra) ltac:(auto)) as D2. pose proof (D 69532 1 ltac:(lra) ltac:(auto)) as D3. pose proof (D 69532 2 ltac:(lra) ltac:(auto)) as D4. cbv zeta in *.
  rewrite !fdiv_ok by lra. cbn [rbind].
  assert (Q1 : forall n m, 0 < n < 0.2 -> 0.95 < m < 4 -> 0 < n / m < 0.22). { intros n m Hn Hm. split; [apply Rdiv_lt_0_compat; lra|]. apply (Rmult_lt_reg_r m); [lra|]. replace (n / m * m) with n by (field; lra). lra. }
  assert (Q2 : forall n m, 189 < n < 200 -> -156 < m < -152 -> -1.4 < n / m < -1.2). { intros n m Hn Hm. replace (n / m) with (- (n / - m)) by (field; lra). assert (1.2 < n / - m < 1.4). { split; apply (Rmult_lt_reg_r (- m)); try lra; replace (n / - m * - m) with n by (field; lra); lra. } lra. }
  rewrite !fsqrt_ok.
  2-5: match goal with |- 0 <= _ + _ + ?a / ?b + ?c / ?d - _ => pose proof (Q1 a b ltac:(lra) ltac:(lra)); pose proof (Q2 c d ltac:(lra) ltac:(lra)) end; cbn [pow]; lra.
  do 4 eexists. split; [reflexivity|]. split; [reflexivity|]. split; [reflexivity|]. split; [reflexivity|].
  intros E. apply sqrt_inj in E; try (match goal with |- 0 <= _ + _ + ?a / ?b + ?c / ?d - _ => pose proof (Q1 a b ltac:(lra) ltac:(lra)); pose proof (Q2 c d ltac:(lra) ltac:(lra)) end; cbn [pow]; lra).
  assert (I1 : (0.0983 + 4.700e-8 * 0) / (2 ^ 2 - (0.2020 + 6.113e-8 * 0) ^ 2) <= (0.0983 + 4.700e-8 * 69532) / (2 ^ 2 - (0.2020 + 6.113e-8 * 69532) ^ 2)).
  { apply Rmult_le_compat; [lra|apply Rlt_le, Rinv_0_lt_compat; lra|lra|]. apply Rinv_le_contravar; [lra|]. cbn [pow]. lra. }
  assert (I2 : (189.32 + 1.516e-4 * 69532) / (2 ^ 2 - 12.52 ^ 2) = (189.32 + 1.516e-4 * 0) / (2 ^ 2 - 12.52 ^ 2) + 1.516e-4 * 69532 / (2 ^ 2 - 12.52 ^ 2)) by (field; lra).
  assert (I3 : -0.08 < 1.516e-4 * 69532 / (2 ^ 2 - 12.52 ^ 2)). { replace (1.516e-4 * 69532 / (2 ^ 2 - 12.52 ^ 2)) with (- (1.516e-4 * 69532 / (12.52 ^ 2 - 2 ^ 2))) by (field; lra). assert (1.516e-4 * 69532 / (12.52 ^ 2 - 2 ^ 2) < 0.08); [|lra]. apply (Rmult_lt_reg_r (12.52 ^ 2 - 2 ^ 2)); [lra|]. replace (1.516e-4 * 69532 / (12.52 ^ 2 - 2 ^ 2) * (12.52 ^ 2 - 2 ^ 2)) with (1.516e-4 * 69532) by (field; lra). cbn [pow]. lra. }
  rewrite I2 in E. lra.
Qed.
(*! C61: refuted: a PPLN crystal with caching on is heated from 24.5 to 124.5 degrees between two reads with the same pulse; the second read still returns the index of the cold crystal, which differs from what it returns with caching off. *)
Lemma C61_stale_index_refuted_l : forall strf : R -> string, exists (p : pulse) (cold hot : list R), cold <> hot /\
  let hist := [XNewPpln 24.5 Gayer (Some 1.0) true; XReadN 0 p None; XSetT 0 124.5] in
  fst (xstep strf (xrun strf hist xworld0) (XReadN 0 p None)) = OIndex (Ok cold) /\
  fst (xstep strf (xrun strf (hist ++ [XSetCaching 0 false]) xworld0) (XReadN 0 p None)) = OIndex (Ok hot).
Proof.
  intros strf. destruct gayer_vals as (a & b & a' & b' & E1 & E2 & E3 & E4 & N). destruct (p12_wl strf) as (p' & Ep). exists p12, [a; b], [a'; b']. split; [congruence|].
  assert (C1 : forall k T x y, gayer_n T 2000 = Ok x -> gayer_n T 1000 = Ok y -> forall T0 D len c, compute_n strf (mkX (Ppln (mkPpln T0 D T Gayer)) len c) None (k, p12) = (Ok [x; y], (k, p'))).
  { intros k T x y X Y T0 D len c. unfold compute_n, on_pulse, bind. cbn [snd fst]. rewrite Ep. cbn [as_array ret lift x_mat index rtraverse ppln_n pp_src pp_gayer]. rewrite X, Y. reflexivity. }
  cbv zeta. unfold xrun. cbn [fold_left app]. set (key := (hash_of strf p12 ++ "None")%string).
  assert (R1 : xstep strf (snd (xstep strf xworld0 (XNewPpln 24.5 Gayer (Some 1.0) true))) (XReadN 0 p12 None) = (OIndex (Ok [a; b]), mkXW (mkShared [(key, [a; b])] 4.0) [mkX (Ppln (mkPpln 24.5 24.5 24.5 Gayer)) (Some 1.0) true])).
  { cbn [xstep ppln_init bind modify ret snd xworld0 xw_k xw_xs app nth_error]. unfold get_pulse_n. cbn [x_caching]. unfold bind at 1, get. cbn [fst snd k_ns assoc shared0]. unfold bind. rewrite (C1 _ _ _ _ E1 E2). reflexivity. }
  rewrite R1. cbn [snd]. set (k := mkShared [(key, [a; b])] 4.0). split.
  - change (fst (match get_pulse_n strf (mkX (Ppln (mkPpln 124.5 24.5 124.5 Gayer)) (Some 1.0) true) None (k, p12) with (r, s) => (OIndex r, mkXW (fst s) [mkX (Ppln (mkPpln 124.5 24.5 124.5 Gayer)) (Some 1.0) true]) end) = OIndex (Ok [a; b])).
    unfold get_pulse_n. cbn [x_caching]. unfold bind at 1, get. cbn [fst snd k_ns k]. change (str_axis None) with "None"%string. fold key. cbn [assoc]. rewrite String.eqb_refl. reflexivity.
  - change (fst (match get_pulse_n strf (mkX (Ppln (mkPpln 124.5 24.5 124.5 Gayer)) (Some 1.0) false) None (k, p12) with (r, s) => (OIndex r, mkXW (fst s) [mkX (Ppln (mkPpln 124.5 24.5 124.5 Gayer)) (Some 1.0) false]) end) = OIndex (Ok [a'; b'])).
    unfold get_pulse_n. cbn [x_caching]. rewrite (C1 k _ _ _ E3 E4). reflexivity.
Qed.

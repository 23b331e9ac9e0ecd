(** The constructor of dfg_problem (C54) and the conservation laws of its right-hand side (C50, C51). *)
From Coq Require Import String.
From Coq Require Import Reals List ZArith Bool Arith Lia Lra.
From Coquelicot Require Import Coquelicot.
From Verif Require Import Base CNum NumPy FFTProofs ModelPulse Spec ModelDerived PulseProofs PulseHistory PulseRegridProofs DerivedProofs ModelCrystal CrystalProofs ModelBeam BeamProofs ModelODE ModelDFG DFGMixProofs DFGProofs.
Import ListNotations.
Local Open Scope R_scope.
Local Open Scope py_scope.
Local Notation z0 := (RtoC 0).
Local Notation at0 x i := (nth i x z0).

(** the cached grids of a pulse are those of its present parameters (C07 says when) *)
Definition cur_W (strf : R -> string) (p : pulse) : Prop := fst (get_W_mks strf p) = Ok (Some (map (fun w => w * 1000000000000) (spec_W (p_n p) (p_tw p) (p_f p)))).
Definition cur_wl (strf : R -> string) (p : pulse) : Prop := fst (get_wl_nm strf p) = Ok (Some (map (fun w => 2 * PI * c_nmps / w) (spec_W (p_n p) (p_tw p) (p_f p)))).
(** angular frequency of grid point k (rad/ps) *)
Definition omega (p : pulse) (k : nat) : R := nth k (spec_W (p_n p) (p_tw p) (p_f p)) 0.

Lemma idler_spec rand pump sgnl idlr : p_f pump <> 0 -> p_f sgnl <> 0 -> make_idler rand pump sgnl = Ok idlr ->
  p_f idlr = p_f pump - p_f sgnl /\ p_tw idlr = p_tw pump /\ p_n idlr = p_n pump /\ p_f pump <> p_f sgnl /\ (forall strf, cur_W strf idlr /\ cur_wl strf idlr).
Proof.
  intros Hp Hs H. assert (Hc : c_nmps <> 0) by (unfold c_nmps, c_mks; lra). unfold make_idler in H.
  apply rbind_ok in H as (a & Ea & H). apply rbind_ok in H as (b & Eb & H). apply rbind_ok in H as (w & Ew & H).
  unfold pyinv in Ea, Eb, Ew. destruct (Req_EM_T (c_nmps / p_f pump) 0); [discriminate|]. destruct (Req_EM_T (c_nmps / p_f sgnl) 0); [discriminate|]. destruct (Req_EM_T (a - b) 0) as [|D]; [discriminate|]. injection Ea as <-. injection Eb as <-. injection Ew as <-.
  set (w := 1 / _) in H.
  assert (X : 1 / (c_nmps / p_f pump) - 1 / (c_nmps / p_f sgnl) = (p_f pump - p_f sgnl) / c_nmps) by (field; auto).
  assert (N : p_f pump <> p_f sgnl) by (intros E; apply D; rewrite X, E; unfold Rdiv; ring).
  assert (W : c_nmps / w = p_f pump - p_f sgnl). { unfold w. rewrite X. field. split; [exact Hc|]. intros E; apply N; lra. }
  set (v := mk (p_n pump) (fun k => RtoC (/ 10 ^ 30) * cexp (Ci * RtoC (2 * PI) * Ci * RtoC (rand k)))%C) in *.
  assert (R : noise_pulse w (p_tw pump) (p_n pump) (p_frep pump) rand pulse0 = set_AW v (blank (p_frep pump) (p_n pump) w (p_tw pump))) by (destruct (p_frep pump); reflexivity).
  rewrite R, set_AW_ok in H; [|apply blank_writable|apply mk_length]. injection H as <-. cbn [p_f p_tw p_n with_AW blank]. repeat (split; [assumption || reflexivity|]). intros strf. unfold cur_W, cur_wl. rewrite <- W_of_spec. split; reflexivity.
Qed.

Lemma init_inv strf fuel rand pump sgnl x noSPM waist gouy wg Aeff k0 q fc k1 : dfg_init strf fuel rand pump sgnl x noSPM waist gouy wg Aeff k0 = (Ok (q, fc), k1) ->
  q_pump q = pump /\ q_sgnl q = sgnl /\ q_xtal q = x /\ q_noSPM q = noSPM /\ q_gouy q = gouy /\ make_idler rand pump sgnl = Ok (q_idlr q) /\
  check_below strf pump sgnl = Ok tt /\ check_below strf sgnl (q_idlr q) = Ok tt /\ q_n q = p_n sgnl /\ p_n pump = p_n sgnl /\ p_n (q_idlr q) = p_n sgnl /\ fc = fftc_init (q_n q) /\
  (wg = true -> exists a, Aeff = Some a /\ q_beams q = Guided (wg_init a None) (wg_init a None) (wg_init a None)) /\
  (if is_mode x "PP" then precompute_poling fuel x else Ok []) = Ok (q_doms q).
Proof.
  intros H. unfold dfg_init in H. apply bind_ok in H as (u & s1 & E0 & H). apply bind_ok in H as (idlr & s2 & E1 & H). apply lift_ok in E1 as [E1 ->]. apply bind_ok in H as ([] & s2 & E2 & H). apply lift_ok in E2 as [E2 ->]. apply bind_ok in H as ([] & s2 & E3 & H). apply lift_ok in E3 as [E3 ->]. apply bind_ok in H as (doms & s2 & E4 & H). apply lift_ok in E4 as [E4 ->].
  apply bind_ok in H as (u2 & s2 & E5 & H). destruct (Nat.eqb (p_n pump) (p_n sgnl) && Nat.eqb (p_n sgnl) (p_n idlr))%bool eqn:En; [|discriminate]. injection E5 as <- <-. apply andb_prop in En as [En1 En2]. apply Nat.eqb_eq in En1, En2.
  apply bind_ok in H as (bs & s2 & E5 & H).
  apply bind_ok in H as (ap & s3 & E6 & H). apply bind_ok in H as (as_ & s4 & E7 & H). apply bind_ok in H as (ai & s5 & E8 & H). destruct (axes bs) as [[xp xs] xi].
  do 14 (apply bind_ok in H as (? & ? & _ & H)). apply bind_ok in H as (? & ? & _ & H). apply bind_ok in H as (? & ? & _ & H). apply bind_ok in H as (? & ? & _ & H).
  unfold ret in H. assert (Hq : (fst (A := dfg) (q, fc), snd (B := fftc) (q, fc)) = (q, fc)) by reflexivity. clear Hq. 
  match type of H with (Ok (?q0, ?f0), _) = _ => assert (Q : q = q0) by congruence; assert (F : fc = f0) by congruence end. clear H. subst q fc. cbn [q_pump q_sgnl q_xtal q_noSPM q_gouy q_idlr q_n q_beams q_doms].
  repeat (split; [first [reflexivity|assumption|congruence]|]). split; [|exact E4]. intros ->. destruct Aeff as [a|]; [|discriminate]. exists a. split; [reflexivity|]. unfold make_beams in E5. destruct (is_mode x "BPM"); [discriminate|]. do 3 (apply bind_ok in E5 as (? & ? & _ & E5)). injection E5 as <- _. reflexivity.
Qed.

Lemma max_list_in l m : max_list l = Ok m -> In m l /\ forall x, In x l -> x <= m.
Proof.
  destruct l as [|x l]; [discriminate|]. intros [= <-]. revert x. induction l as [|y l IH]; intros x; cbn [fold_left]; [split; [left; reflexivity|intros z [->|[]]; lra]|].
  destruct (IH (Rmax x y)) as [A B]. split.
  - destruct A as [A|A]; [|right; right; exact A]. rewrite <- A. destruct (Rle_dec x y); [rewrite Rmax_right by lra; right; left; reflexivity|rewrite Rmax_left by lra; left; reflexivity].
  - intros z Hz. pose proof (Rmax_l x y). pose proof (Rmax_r x y). assert (Rmax x y <= fold_left Rmax l (Rmax x y)) by (apply B; left; reflexivity). destruct Hz as [<-|[<-|Hz]]; [lra|lra|apply B; right; exact Hz].
Qed.
Lemma min_list_in l m : min_list l = Ok m -> In m l /\ forall x, In x l -> m <= x.
Proof.
  destruct l as [|x l]; [discriminate|]. intros [= <-]. revert x. induction l as [|y l IH]; intros x; cbn [fold_left]; [split; [left; reflexivity|intros z [->|[]]; lra]|].
  destruct (IH (Rmin x y)) as [A B]. split.
  - destruct A as [A|A]; [|right; right; exact A]. rewrite <- A. destruct (Rle_dec x y); [rewrite Rmin_left by lra; left; reflexivity|rewrite Rmin_right by lra; right; left; reflexivity].
  - intros z Hz. pose proof (Rmin_l x y). pose proof (Rmin_r x y). assert (fold_left Rmin l (Rmin x y) <= Rmin x y) by (apply B; left; reflexivity). destruct Hz as [<-|[<-|Hz]]; [lra|lra|apply B; right; exact Hz].
Qed.
Lemma list_max_ok l : l <> [] -> exists m, max_list l = Ok m. Proof. destruct l; [congruence|]. intros _. eexists. reflexivity. Qed.
Lemma list_min_ok l : l <> [] -> exists m, min_list l = Ok m. Proof. destruct l; [congruence|]. intros _. eexists. reflexivity. Qed.
Lemma spec_W_length n t f : length (spec_W n t f) = n. Proof. apply mk_length. Qed.

Lemma wl_of_cur strf p : cur_wl strf p -> wl_of strf p = Ok (map (fun w => 2 * PI * c_nmps / w) (spec_W (p_n p) (p_tw p) (p_f p))).
Proof. unfold cur_wl, wl_of. intros H. unfold bind. destruct (get_wl_nm strf p) as [r p1]. cbn [fst] in H. rewrite H. reflexivity. Qed.
Lemma Wmks_of_cur strf p : cur_W strf p -> Wmks_of strf p = Ok (map (fun w => w * 1000000000000) (spec_W (p_n p) (p_tw p) (p_f p))).
Proof. unfold cur_W, Wmks_of. intros H. unfold bind. destruct (get_W_mks strf p) as [r p1]. cbn [fst] in H. rewrite H. reflexivity. Qed.

(** the wavelength test, on the frequencies *)
Lemma check_below_cur strf p s : cur_wl strf p -> cur_wl strf s -> (0 < p_n p)%nat -> (0 < p_n s)%nat ->
  (check_below strf p s = Ok tt /\ (forall a b, (a < p_n p)%nat -> (b < p_n s)%nat -> 2 * PI * c_nmps / omega p a <= 2 * PI * c_nmps / omega s b)) \/
  (check_below strf p s = Raise ValueError /\ (exists a b, (a < p_n p)%nat /\ (b < p_n s)%nat /\ 2 * PI * c_nmps / omega s b < 2 * PI * c_nmps / omega p a)).
Proof.
  intros Cp Cs Np Ns. unfold check_below. rewrite (wl_of_cur _ _ Cp), (wl_of_cur _ _ Cs). cbn [rbind]. set (f := fun w => 2 * PI * c_nmps / w).
  set (lp := map f (spec_W (p_n p) _ _)). set (ls := map f (spec_W (p_n s) _ _)).
  assert (Lp : length lp = p_n p) by (unfold lp; rewrite map_length; apply spec_W_length). assert (Ls : length ls = p_n s) by (unfold ls; rewrite map_length; apply spec_W_length).
  assert (Vp : forall a, (a < p_n p)%nat -> nth a lp 0 = f (omega p a)) by (intros a Ha; unfold lp; rewrite (nth_map' f _ _ 0) by (rewrite spec_W_length; exact Ha); reflexivity).
  assert (Vs : forall a, (a < p_n s)%nat -> nth a ls 0 = f (omega s a)) by (intros a Ha; unfold ls; rewrite (nth_map' f _ _ 0) by (rewrite spec_W_length; exact Ha); reflexivity).
  destruct (list_max_ok lp) as [M EM]; [intros E; rewrite E in Lp; cbn in Lp; lia|]. destruct (list_min_ok ls) as [m Em]; [intros E; rewrite E in Ls; cbn in Ls; lia|]. rewrite EM. cbn [rbind]. rewrite Em. cbn [rbind].
  destruct (max_list_in _ _ EM) as [IM BM]. destruct (min_list_in _ _ Em) as [Im_ Bm]. destruct (Rlt_dec m M) as [A|A]; [right|left]; (split; [reflexivity|]).
  - apply (In_nth _ _ 0) in IM as (a & Ha & Va). apply (In_nth _ _ 0) in Im_ as (b & Hb & Vb). rewrite Lp in Ha. rewrite Ls in Hb. exists a, b. split; [exact Ha|]. split; [exact Hb|]. rewrite Vp in Va by exact Ha. rewrite Vs in Vb by exact Hb. unfold f in *. lra.
  - intros a b Ha Hb. assert (X : nth a lp 0 <= M) by (apply BM, nth_In; lia). assert (Y : m <= nth b ls 0) by (apply Bm, nth_In; lia). rewrite Vp in X by exact Ha. rewrite Vs in Y by exact Hb. unfold f in *. lra.
Qed.
Lemma freq_order a b : 0 < a -> 0 < b -> (2 * PI * c_nmps / a <= 2 * PI * c_nmps / b <-> b <= a).
Proof.
  intros Ha Hb. assert (K : 0 < 2 * PI * c_nmps) by (pose proof PI_RGT_0; unfold c_nmps, c_mks; nra). set (k := 2 * PI * c_nmps) in *. split; intros H.
  - apply Rnot_lt_le. intros L. assert (X : k / b < k / a) by (unfold Rdiv; apply Rmult_lt_compat_l; [exact K|]; apply Rinv_lt_contravar; [apply Rmult_lt_0_compat; lra|exact L]). lra.
  - unfold Rdiv. apply Rmult_le_compat_l; [lra|]. apply Rinv_le_contravar; assumption.
Qed.
Lemma recip_pos a : 0 < 2 * PI * c_nmps / a -> a <> 0 -> 0 < a.
Proof.
  intros H N. assert (K : 0 < 2 * PI * c_nmps) by (pose proof PI_RGT_0; unfold c_nmps, c_mks; nra). set (k := 2 * PI * c_nmps) in *. destruct (Rlt_le_dec 0 a) as [L|L]; [exact L|exfalso]. assert (/ a < 0) by (apply Rinv_lt_0_compat; lra). unfold Rdiv in H. nra.
Qed.

(*! C54: when dfg_problem accepts its inputs, the idler grid is centred on the difference of the pump's and the signal's centre frequencies, has the pump's window and size (so the pump's
    spacing); all three grids have the same size; grid points paired by the mixing (a + n/2 = b + c) conserve energy when the windows agree; and for current positive grids every
    signal frequency is at most every pump frequency and every (non-zero) idler frequency is positive and at most every signal frequency. *)
Lemma C54_accepted_grids_l : forall strf fuel rand pump sgnl x noSPM waist gouy wg Aeff k0 q fc k1,
  dfg_init strf fuel rand pump sgnl x noSPM waist gouy wg Aeff k0 = (Ok (q, fc), k1) -> p_f pump <> 0 -> p_f sgnl <> 0 ->
  let idlr := q_idlr q in let n := q_n q in
  q_pump q = pump /\ q_sgnl q = sgnl /\
  p_f idlr = p_f pump - p_f sgnl /\ p_tw idlr = p_tw pump /\ p_n pump = n /\ p_n sgnl = n /\ p_n idlr = n /\ cur_W strf idlr /\ cur_wl strf idlr /\
  (p_tw sgnl = p_tw pump -> Nat.Even n -> forall a b c, (a < n)%nat -> (b < n)%nat -> (c < n)%nat -> (a + n / 2 = b + c)%nat -> omega pump a = omega sgnl b + omega idlr c) /\
  ((0 < n)%nat -> cur_wl strf pump -> cur_wl strf sgnl -> (forall k, (k < n)%nat -> 0 < omega pump k) -> (forall k, (k < n)%nat -> 0 < omega sgnl k) ->
   forall a b, (a < n)%nat -> (b < n)%nat -> omega sgnl b <= omega pump a /\ (omega idlr b <> 0 -> 0 < omega idlr b <= omega sgnl a)).
Proof.
  intros strf fuel rand pump sgnl x noSPM waist gouy wg Aeff k0 q fc k1 H Hp Hs idlr n. apply init_inv in H as (Qp & Qs & _ & _ & _ & Ei & B1 & B2 & Qn & Np & Ni & _ & _ & _).
  destruct (idler_spec _ _ _ _ Hp Hs Ei) as (F & T & N & D & C). change (q_idlr q) with idlr in B1, B2, Ni, F, T, N, C. change (q_n q) with n in Qn. repeat (split; [first [assumption|congruence|apply C]|]). split.
  - intros Ht Ev a b c Ha Hb Hc E. unfold omega. rewrite !spec_W_nth by lia. rewrite Ht, T, F, Np, Ni, <- Qn. destruct Ev as [h Eh]. assert (Hh : (n / 2)%nat = h) by (rewrite Eh, Nat.mul_comm; apply Nat.div_mul; lia). rewrite Hh in E. apply (f_equal INR) in E. rewrite !plus_INR in E. rewrite Eh at 1 2 3. rewrite mult_INR. cbn [INR]. replace (INR a) with (INR b + INR c - INR h) by lra. replace ((1 + 1) * INR h / 2) with (INR h) by field. unfold Rdiv. ring.
  - intros Hn Cp Cs Pp Ps a b Ha Hb. destruct (check_below_cur strf pump sgnl Cp Cs ltac:(lia) ltac:(lia)) as [[_ X]|[X _]]; [|congruence]. destruct (check_below_cur strf sgnl idlr Cs (proj2 (C strf)) ltac:(lia) ltac:(lia)) as [[_ Y]|[Y _]]; [|congruence]. split.
    + apply (freq_order _ _ (Pp a Ha) (Ps b Hb)). apply X; lia.
    + intros Nz. specialize (Y a b ltac:(lia) ltac:(lia)). assert (Z : 0 < omega idlr b).
      { apply recip_pos; [|exact Nz]. assert (0 < 2 * PI * c_nmps / omega sgnl a); [|lra]. apply Rdiv_lt_0_compat; [pose proof PI_RGT_0; unfold c_nmps, c_mks; nra|apply Ps, Ha]. }
      split; [exact Z|]. apply (freq_order _ _ (Ps a Ha) Z). exact Y.
Qed.

Lemma idler_made rand pump sgnl : p_f pump <> 0 -> p_f sgnl <> 0 -> p_f pump <> p_f sgnl -> exists i, make_idler rand pump sgnl = Ok i.
Proof.
  intros Hp Hs D. assert (Hc : c_nmps <> 0) by (unfold c_nmps, c_mks; lra). unfold make_idler, pyinv.
  assert (X : forall f, f <> 0 -> c_nmps / f <> 0) by (intros f Hf; unfold Rdiv; apply Rmult_integral_contrapositive_currified; [exact Hc|apply Rinv_neq_0_compat, Hf]).
  destruct (Req_EM_T (c_nmps / p_f pump) 0) as [E|_]; [exfalso; exact (X _ Hp E)|]. destruct (Req_EM_T (c_nmps / p_f sgnl) 0) as [E|_]; [exfalso; exact (X _ Hs E)|]. cbn [rbind].
  destruct (Req_EM_T _ 0) as [E|_].
  - exfalso. apply D. replace (1 / (c_nmps / p_f pump) - 1 / (c_nmps / p_f sgnl)) with ((p_f pump - p_f sgnl) / c_nmps) in E by (field; auto). apply Rmult_integral in E as [E|E]; [lra|]. exfalso. exact (Rinv_neq_0_compat _ Hc E).
  - cbn [rbind]. set (w := 1 / (_ - _)). set (v := mk (p_n pump) (fun k => RtoC (/ 10 ^ 30) * cexp (Ci * RtoC (2 * PI) * Ci * RtoC (rand k)))%C).
    assert (R : noise_pulse w (p_tw pump) (p_n pump) (p_frep pump) rand pulse0 = set_AW v (blank (p_frep pump) (p_n pump) w (p_tw pump))) by (destruct (p_frep pump); reflexivity).
    rewrite R, set_AW_ok; [|apply blank_writable|apply mk_length]. eexists. reflexivity.
Qed.

(*! C54: inputs with overlapping grids (some signal frequency above some pump frequency) or of different sizes are rejected with ValueError, whatever the mode.  (Different sizes in the periodically
    poled mode: the poling loop runs first, so the statement asks for a mode other than PP there.) *)
Lemma C54_rejects_l : forall strf fuel rand pump sgnl x noSPM waist gouy wg Aeff k0,
  cur_wl strf pump -> cur_wl strf sgnl -> (0 < p_n pump)%nat -> (0 < p_n sgnl)%nat -> p_f pump <> 0 -> p_f sgnl <> 0 -> p_f pump <> p_f sgnl -> (wg = true -> Aeff <> None) ->
  (forall k, (k < p_n pump)%nat -> 0 < omega pump k) -> (forall k, (k < p_n sgnl)%nat -> 0 < omega sgnl k) ->
  ((exists a b, (a < p_n pump)%nat /\ (b < p_n sgnl)%nat /\ omega pump a < omega sgnl b) \/ (p_n pump <> p_n sgnl /\ dx_mode x <> "PP"%string)) ->
  fst (dfg_init strf fuel rand pump sgnl x noSPM waist gouy wg Aeff k0) = Raise ValueError.
Proof.
  intros strf fuel rand pump sgnl x noSPM waist gouy wg Aeff k0 Cp Cs Np Ns Hp Hs D Hw Pp Ps Bad. destruct (idler_made rand pump sgnl Hp Hs D) as [i Ei]. destruct (idler_spec _ _ _ _ Hp Hs Ei) as (F & T & N & _ & C).
  unfold dfg_init. assert (H0 : (if wg then match Aeff with None => raise AssertionError | Some _ => ret tt end else ret tt) k0 = (Ok tt, k0)) by (destruct wg; [destruct Aeff; [reflexivity|exfalso; apply Hw; reflexivity]|reflexivity]).
  unfold bind at 1. rewrite H0. unfold bind at 1. unfold lift at 1. rewrite Ei. unfold bind at 1. unfold lift at 1.
  destruct (check_below_cur strf pump sgnl Cp Cs Np Ns) as [[E X]|[E _]]; rewrite E; [|reflexivity]. unfold bind at 1. unfold lift at 1.
  destruct (check_below_cur strf sgnl i Cs (proj2 (C strf)) Ns ltac:(lia)) as [[E' _]|[E' _]]; rewrite E'; [|reflexivity].
  destruct Bad as [(a & b & Ha & Hb & L)|[Dn Dm]].
  - exfalso. specialize (X a b Ha Hb). apply (freq_order _ _ (Pp a Ha) (Ps b Hb)) in X. lra.
  - unfold is_mode at 1. apply String.eqb_neq in Dm. rewrite Dm. unfold bind at 1. unfold lift at 1. apply Nat.eqb_neq in Dn. rewrite Dn. reflexivity.
Qed.

(*! C54: whatever the inputs, pulses of different sizes are never accepted. *)
Lemma C54_sizes_l : forall strf fuel rand pump sgnl x noSPM waist gouy wg Aeff k0 r, p_n pump <> p_n sgnl -> fst (dfg_init strf fuel rand pump sgnl x noSPM waist gouy wg Aeff k0) <> Ok r.
Proof.
  intros strf fuel rand pump sgnl x noSPM waist gouy wg Aeff k0 [q fc] D H. destruct (dfg_init strf fuel rand pump sgnl x noSPM waist gouy wg Aeff k0) as [r k1] eqn:E. cbn [fst] in H. subst r. apply init_inv in E as (_ & _ & _ & _ & _ & _ & _ & _ & _ & Np & _). congruence.
Qed.

(** ** Conservation laws *)
Lemma W_read strf p w n : cur_W strf p -> p_n p = n -> Wmks_of strf p = Ok w -> (2 <= n)%nat -> forall k, (k < n)%nat -> bnth w 0 k = omega p k * 1000000000000.
Proof.
  intros C N E Hn k Hk. rewrite (Wmks_of_cur _ _ C) in E. injection E as <-. rewrite (bnth_eq _ 0 k n) by (try rewrite map_length, spec_W_length; lia). rewrite (nth_map' (fun w => w * 1000000000000) _ k 0) by (rewrite spec_W_length; lia). reflexivity.
Qed.

Lemma init_rates strf fuel rand pump sgnl x noSPM waist gouy Aeff k0 q fc0 k1 z y dydx s d s' n :
  dfg_init strf fuel rand pump sgnl x noSPM waist gouy true Aeff k0 = (Ok (q, fc0), k1) -> q_n q = n -> (2 <= n)%nat -> Nat.Even n -> p_f pump <> 0 -> p_f sgnl <> 0 -> cur_W strf pump -> cur_W strf sgnl ->
  fc_ok n (ds_fc s) -> length y = (3 * n)%nat -> length dydx = (3 * n)%nat -> deriv strf q z y dydx s = (Ok d, s') ->
  exists kappa (T : nat -> nat -> nat -> R), (forall a b c, (a + n / 2 <> b + c)%nat -> T a b c = 0) /\ forall g,
      rate n g (Ap q y) (Ap q d) = - (kappa * rsum n (fun a => rsum n (fun b => rsum n (fun c => g a * omega pump a * T a b c)))) /\
      rate n g (As q y) (As q d) = kappa * rsum n (fun a => rsum n (fun b => rsum n (fun c => g b * omega sgnl b * T a b c))) /\
      rate n g (Ai q y) (Ai q d) = kappa * rsum n (fun a => rsum n (fun b => rsum n (fun c => g c * omega (q_idlr q) c * T a b c))).
Proof.
  intros H Qn Hn Ev Hp Hs Cp Cs Fc Ly Ld Hd. apply init_inv in H as (Qp & Qs & _ & _ & _ & Ei & B1 & B2 & Qn' & Np & Ni & _ & Hb & _). destruct (Hb eq_refl) as (ae & -> & Qb). destruct (idler_spec _ _ _ _ Hp Hs Ei) as (F & T & N & D & C).
  destruct (rates strf q z y dydx s d s' n _ _ _ (g_Aeff (wg_init ae None)) Qn Hn Ev Fc Ly Ld Qb eq_refl eq_refl eq_refl Hd) as (kappa & Tr & wp & ws & wi & Ewp & Ews & Ewi & Z & Rt). rewrite Qp in Ewp. rewrite Qs in Ews.
  pose proof (W_read strf pump wp n Cp ltac:(congruence) Ewp Hn) as Vp. pose proof (W_read strf sgnl ws n Cs ltac:(congruence) Ews Hn) as Vs. pose proof (W_read strf (q_idlr q) wi n (proj1 (C strf)) ltac:(congruence) Ewi Hn) as Vi.
  exists kappa, (fun a b c => 1000000000000 * Tr a b c). split; [intros a b c E; rewrite (Z a b c E); ring|]. intros g. destruct (Rt g) as (R1 & R2 & R3). rewrite R1, R2, R3. rewrite <- Ropp_mult_distr_l. repeat split.
  - f_equal. f_equal. apply rsum3_ext. intros a b c Ha _ _. rewrite (Vp a Ha). ring.
  - f_equal. apply rsum3_ext. intros a b c _ Hb' _. rewrite (Vs b Hb'). ring.
  - f_equal. apply rsum3_ext. intros a b c _ _ Hc. rewrite (Vi c Hc). ring.
Qed.

(*! C50: in waveguide mode (any crystal, poling, phase mismatch, distance, field and state of the FFT buffers), the right-hand side changes the photon fluxes - the powers of the grid points
    divided by their angular frequencies - of pump, signal and idler by -D, +D and +D with one number D. *)
Lemma C50_manley_rowe_l : forall strf fuel rand pump sgnl x noSPM waist gouy Aeff k0 q fc0 k1 z y dydx s d s' n,
  dfg_init strf fuel rand pump sgnl x noSPM waist gouy true Aeff k0 = (Ok (q, fc0), k1) -> q_n q = n -> (2 <= n)%nat -> Nat.Even n ->
  p_f pump <> 0 -> p_f sgnl <> 0 -> cur_W strf pump -> cur_W strf sgnl ->
  (forall k, (k < n)%nat -> omega pump k <> 0 /\ omega sgnl k <> 0 /\ omega (q_idlr q) k <> 0) ->
  fc_ok n (ds_fc s) -> length y = (3 * n)%nat -> length dydx = (3 * n)%nat ->
  deriv strf q z y dydx s = (Ok d, s') ->
  exists D,
    rsum n (fun m => 2 * Re (Cconj (nth m (Ap q y) (RtoC 0)) * nth m (Ap q d) (RtoC 0))%C / omega pump m) = - D /\
    rsum n (fun m => 2 * Re (Cconj (nth m (As q y) (RtoC 0)) * nth m (As q d) (RtoC 0))%C / omega sgnl m) = D /\
    rsum n (fun m => 2 * Re (Cconj (nth m (Ai q y) (RtoC 0)) * nth m (Ai q d) (RtoC 0))%C / omega (q_idlr q) m) = D.
Proof.
  intros strf fuel rand pump sgnl x noSPM waist gouy Aeff k0 q fc0 k1 z y dydx s d s' n H Qn Hn Ev Hp Hs Cp Cs Nz Fc Ly Ld Hd.
  destruct (init_rates strf fuel rand pump sgnl x noSPM waist gouy Aeff k0 q fc0 k1 z y dydx s d s' n H Qn Hn Ev Hp Hs Cp Cs Fc Ly Ld Hd) as (kappa & T & _ & Rt).
  exists (kappa * rsum n (fun a => rsum n (fun b => rsum n (fun c => T a b c)))).
  assert (G : forall om A dA, rsum n (fun m => 2 * Re (Cconj (nth m A z0) * nth m dA z0)%C / om m) = rate n (fun m => / om m) A dA) by (intros; unfold rate; apply rsum_ext; intros m _; unfold Rdiv; ring). rewrite !G.
  destruct (Rt (fun m => / omega pump m)) as (R1 & _ & _). destruct (Rt (fun m => / omega sgnl m)) as (_ & R2 & _). destruct (Rt (fun m => / omega (q_idlr q) m)) as (_ & _ & R3). rewrite R1, R2, R3. split; [|split].
  - f_equal. f_equal. apply rsum3_ext. intros a b c Ha _ _. field. apply Nz, Ha.
  - f_equal. apply rsum3_ext. intros a b c _ Hb _. field. apply Nz, Hb.
  - f_equal. apply rsum3_ext. intros a b c _ _ Hc. field. apply Nz, Hc.
Qed.

Lemma power_stationary strf fuel rand pump sgnl x noSPM waist gouy Aeff k0 q fc0 k1 z y dydx s d s' n :
  dfg_init strf fuel rand pump sgnl x noSPM waist gouy true Aeff k0 = (Ok (q, fc0), k1) -> q_n q = n -> (2 <= n)%nat -> Nat.Even n -> p_f pump <> 0 -> p_f sgnl <> 0 -> cur_W strf pump -> cur_W strf sgnl -> p_tw sgnl = p_tw pump ->
  fc_ok n (ds_fc s) -> length y = (3 * n)%nat -> length dydx = (3 * n)%nat -> deriv strf q z y dydx s = (Ok d, s') ->
  rate n (fun _ => 1) (Ap q y) (Ap q d) + rate n (fun _ => 1) (As q y) (As q d) + rate n (fun _ => 1) (Ai q y) (Ai q d) = 0.
Proof.
  intros H Qn Hn Ev Hp Hs Cp Cs Ht Fc Ly Ld Hd. destruct (init_rates strf fuel rand pump sgnl x noSPM waist gouy Aeff k0 q fc0 k1 z y dydx s d s' n H Qn Hn Ev Hp Hs Cp Cs Fc Ly Ld Hd) as (kappa & T & Z & Rt).
  destruct (C54_accepted_grids_l _ _ _ _ _ _ _ _ _ _ _ _ _ _ _ H Hp Hs) as (_ & _ & _ & _ & _ & _ & _ & _ & _ & En & _). specialize (En Ht). rewrite Qn in En. specialize (En Ev).
  destruct (Rt (fun _ => 1)) as (R1 & R2 & R3). rewrite R1, R2, R3.
  set (Xp := rsum n (fun a => _)). set (Xs := rsum n (fun a => rsum n (fun b => rsum n (fun c => 1 * omega sgnl b * T a b c)))). set (Xi := rsum n (fun a => rsum n (fun b => rsum n (fun c => 1 * omega (q_idlr q) c * T a b c)))).
  assert (E : Xp = Xs + Xi); [|rewrite E; ring]. unfold Xp, Xs, Xi. rewrite <- rsum_plus. apply rsum_ext. intros a Ha. rewrite <- rsum_plus. apply rsum_ext. intros b Hb. rewrite <- rsum_plus. apply rsum_ext. intros c Hc.
  destruct (Nat.eq_dec (a + n / 2) (b + c)) as [E|E]; [rewrite (En a b c Ha Hb Hc E); ring|rewrite (Z a b c E); ring].
Qed.
Lemma seg_split3 n (f : nat -> R) : rsum (3 * n) f = rsum n f + rsum n (fun m => f (n + m)%nat) + rsum n (fun m => f (2 * n + m)%nat).
Proof. replace (3 * n)%nat with (2 * n + n)%nat by lia. rewrite rsum_add. replace (2 * n)%nat with (n + n)%nat by lia. rewrite rsum_add. reflexivity. Qed.
Lemma field_nth q y n : q_n q = n -> length y = (3 * n)%nat -> forall m, (m < n)%nat -> at0 (Ap q y) m = at0 y m /\ at0 (As q y) m = at0 y (n + m)%nat /\ at0 (Ai q y) m = at0 y (2 * n + m)%nat.
Proof. intros Qn Ly m Hm. unfold Ap, As, Ai. rewrite Qn, !seg_nth by lia. repeat split; f_equal; lia. Qed.

(*! C51: in waveguide mode with equal time windows the right-hand side leaves the total power - the sum of |y|^2 over the three fields - stationary, for every field, phase, poling sign and
    distance. *)
Lemma C51_power_stationary_l : forall strf fuel rand pump sgnl x noSPM waist gouy Aeff k0 q fc0 k1 z y dydx s d s' n,
  dfg_init strf fuel rand pump sgnl x noSPM waist gouy true Aeff k0 = (Ok (q, fc0), k1) -> q_n q = n -> (2 <= n)%nat -> Nat.Even n ->
  p_f pump <> 0 -> p_f sgnl <> 0 -> cur_W strf pump -> cur_W strf sgnl -> p_tw sgnl = p_tw pump ->
  fc_ok n (ds_fc s) -> length y = (3 * n)%nat -> length dydx = (3 * n)%nat ->
  deriv strf q z y dydx s = (Ok d, s') ->
  rsum (3 * n) (fun m => 2 * Re (Cconj (nth m y (RtoC 0)) * nth m d (RtoC 0))%C) = 0.
Proof.
  intros strf fuel rand pump sgnl x noSPM waist gouy Aeff k0 q fc0 k1 z y dydx s d s' n H Qn Hn Ev Hp Hs Cp Cs Ht Fc Ly Ld Hd.
  etransitivity; [|exact (power_stationary strf fuel rand pump sgnl x noSPM waist gouy Aeff k0 q fc0 k1 z y dydx s d s' n H Qn Hn Ev Hp Hs Cp Cs Ht Fc Ly Ld Hd)].
  assert (Ldd : length d = (3 * n)%nat). { assert (Fr := Hd). unfold deriv in Fr. apply bind_ok in Fr as (fr & s1 & Fr & _). destruct fr as [[deff [[pp ps] pi]] [[ap as_] ai]]. destruct (frame_phi strf q z s deff pp ps pi _ s1 Fr) as (_ & [Lp _] & [Ls _] & [Li _] & _). rewrite Qn in Lp, Ls, Li.
    apply (deriv_core strf q z y dydx s d s' n deff pp ps pi ap as_ ai s1 Qn Hn Ev Fc Ly Ld Fr Lp Ls Li Hd). }
  rewrite seg_split3. unfold rate. f_equal; [f_equal|]; apply rsum_ext; intros m Hm; destruct (field_nth q y n Qn Ly m Hm) as (E1 & E2 & E3); destruct (field_nth q d n Qn Ldd m Hm) as (E4 & E5 & E6); rewrite ?E1, ?E2, ?E3, ?E4, ?E5, ?E6; ring.
Qed.

Lemma is_derive_rsum n (f : nat -> R -> R) (g : nat -> R) (z : R) : (forall m, (m < n)%nat -> is_derive (f m) z (g m)) -> is_derive (fun t => rsum n (fun m => f m t)) z (rsum n g).
Proof.
  induction n as [|n IH]; intros H.
  - apply (is_derive_ext (fun _ : R => 0)); [intros t; symmetry; apply rsum_0|]. rewrite rsum_0. apply (@is_derive_const R_AbsRing R_NormedModule).
  - apply (is_derive_ext (fun t => plus (rsum n (fun m => f m t)) (f n t))); [intros t; symmetry; apply rsum_S|]. rewrite rsum_S. apply (@is_derive_plus R_AbsRing R_NormedModule); [apply IH; intros m Hm; apply H; lia|apply H; lia].
Qed.

(*! C51: every trajectory that solves the equations (its Re and Im parts are differentiable with the right-hand side as derivative, whatever buffers the right-hand side was called with) has the same total power at any
    two distances. *)
Lemma C51_power_conserved_l : forall strf fuel rand pump sgnl x noSPM waist gouy Aeff k0 q fc0 k1 n (y dy : R -> list C) z1 z2,
  dfg_init strf fuel rand pump sgnl x noSPM waist gouy true Aeff k0 = (Ok (q, fc0), k1) -> q_n q = n -> (2 <= n)%nat -> Nat.Even n ->
  p_f pump <> 0 -> p_f sgnl <> 0 -> cur_W strf pump -> cur_W strf sgnl -> p_tw sgnl = p_tw pump -> z1 < z2 ->
  (forall z, z1 <= z <= z2 -> length (y z) = (3 * n)%nat /\
     (exists dydx s s', fc_ok n (ds_fc s) /\ length dydx = (3 * n)%nat /\ deriv strf q z (y z) dydx s = (Ok (dy z), s')) /\
     forall m, (m < 3 * n)%nat -> is_derive (fun t => Re (nth m (y t) (RtoC 0))) z (Re (nth m (dy z) (RtoC 0))) /\ is_derive (fun t => Im (nth m (y t) (RtoC 0))) z (Im (nth m (dy z) (RtoC 0)))) ->
  rsum (3 * n) (fun m => Cmod (nth m (y z1) (RtoC 0)) ^ 2) = rsum (3 * n) (fun m => Cmod (nth m (y z2) (RtoC 0)) ^ 2).
Proof.
  intros strf fuel rand pump sgnl x noSPM waist gouy Aeff k0 q fc0 k1 n y dy z1 z2 H Qn Hn Ev Hp Hs Cp Cs Ht Hz Sol.
  assert (M2 : forall v, Cmod v ^ 2 = Re v ^ 2 + Im v ^ 2) by (intros v; unfold Cmod; rewrite pow2_sqrt; [reflexivity|]; pose proof (pow2_ge_0 (fst v)); pose proof (pow2_ge_0 (snd v)); lra).
  apply (eq_is_derive (fun t => rsum (3 * n) (fun m => Cmod (nth m (y t) z0) ^ 2)) z1 z2); [|exact Hz]. intros z Iz. destruct (Sol z Iz) as (Ly & (dydx & s & s' & Fc & Ld & Hd) & Der).
  assert (Z := C51_power_stationary_l strf fuel rand pump sgnl x noSPM waist gouy Aeff k0 q fc0 k1 z (y z) dydx s (dy z) s' n H Qn Hn Ev Hp Hs Cp Cs Ht Fc Ly Ld Hd). refine (eq_ind _ (fun v : R => is_derive (fun t : R => rsum (3 * n) (fun m => Cmod (nth m (y t) z0) ^ 2)) z v) _ _ Z). clear Z.
  apply (is_derive_rsum (3 * n) (fun m t => Cmod (nth m (y t) z0) ^ 2) (fun m => 2 * Re (Cconj (nth m (y z) z0) * nth m (dy z) z0)%C)). intros m Hm. destruct (Der m Hm) as [D1 D2].
  apply (is_derive_ext (fun t => Re (nth m (y t) z0) ^ 2 + Im (nth m (y t) z0) ^ 2)); [intros t; symmetry; apply M2|].
  replace (2 * Re (Cconj (nth m (y z) z0) * nth m (dy z) z0)%C) with (INR 2 * Re (nth m (dy z) z0) * Re (nth m (y z) z0) ^ pred 2 + INR 2 * Im (nth m (dy z) z0) * Im (nth m (y z) z0) ^ pred 2).
  - apply (@is_derive_plus R_AbsRing R_NormedModule); apply is_derive_pow; assumption.
  - destruct (nth m (y z) z0) as [a b]. destruct (nth m (dy z) z0) as [a' b']. cbn [Re Im fst snd Cconj Cmult pred INR]. simpl. ring.
Qed.

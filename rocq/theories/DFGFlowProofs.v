(** The waveguide three-wave equations as a system of differential equations: what deriv computes, the global solution and its uniqueness, and the convergence of
    the solver to it (C124). *)
From Coq Require Import String.
From Coq Require Import Reals List ZArith Bool Arith Lia Lra.
From Coquelicot Require Import Coquelicot.
From Verif Require Import Base CNum NumPy FFTProofs ModelPulse Spec PulseProofs PulseHistory ModelCrystal CrystalProofs ModelBeam BeamProofs SSFMGnlseProofs ModelODE ODETreeProofs BSeriesProofs ODETotalProofs ODEConvergeProofs SmoothProofs MixingProofs ModelDFG DFGMixProofs DFGProofs DFGInitProofs DFGOutProofs DFGTotalProofs DFGAcceptProofs DFGRunProofs.
Import ListNotations.
Local Open Scope R_scope.
Local Open Scope py_scope.
Local Notation z0 := (RtoC 0).
Local Notation at0 x i := (nth i x z0).

(** ** The equations.  Element m of a field (pump, signal or idler) has a refractive index, an angular frequency (rad/s), a wave number seen from the moving frame
    (rad/m), the factor from sqrt(power) to field amplitude in a mode of area [Ae], and the strength with which a driving polarisation acts on it. *)
Definition index_at (q : dfg) (x : which) (m : nat) : R := nth m (match x with Pump => q_np q | Sgnl => q_ns q | Idlr => q_ni q end) 0.
Definition angular (q : dfg) (x : which) (m : nat) : R := omega (source x q) m * 1000000000000.
Definition wavenumber (q : dfg) (x : which) (m : nat) : R := index_at q x m * angular q x m / c_mks - angular q x m / q_speed q.
Definition amplitude (q : dfg) (Ae : R) (x : which) (m : nat) : R := 1 / sqrt (Ae * index_at q x m * eps0 * c_mks).
Definition strength (q : dfg) (Ae deff : R) (x : which) (m : nat) : R := 2 * angular q x m * deff / (c_mks * index_at q x m) / amplitude q Ae x m.
(** which of the three fields equation number i belongs to, and the two others *)
Definition field_of (n i : nat) : which := if Nat.ltb i n then Pump else if Nat.ltb i (2 * n) then Sgnl else Idlr.
Definition tw_coef (q : dfg) (Ae deff : R) (i b c : nat) : C :=
  let n := q_n q in let h := (n / 2)%nat in
  match field_of n i with
  | Pump => if Nat.eqb (b + c) (i + h) then (Ci * RtoC (strength q Ae deff Pump i * amplitude q Ae Sgnl b * amplitude q Ae Idlr c))%C else z0
  | Sgnl => if Nat.eqb (b + h) (c + (i - n)) then (Ci * RtoC (strength q Ae deff Sgnl (i - n) * amplitude q Ae Pump b * amplitude q Ae Idlr c))%C else z0
  | Idlr => if Nat.eqb (b + h) (c + (i - 2 * n)) then (Ci * RtoC (strength q Ae deff Idlr (i - 2 * n) * amplitude q Ae Pump b * amplitude q Ae Sgnl c))%C else z0
  end.
Definition tw_mismatch (q : dfg) (i b c : nat) : R :=
  let n := q_n q in
  match field_of n i with
  | Pump => wavenumber q Sgnl b + wavenumber q Idlr c - wavenumber q Pump i
  | Sgnl => wavenumber q Pump b - wavenumber q Idlr c - wavenumber q Sgnl (i - n)
  | Idlr => wavenumber q Pump b - wavenumber q Sgnl c - wavenumber q Idlr (i - 2 * n)
  end.
Definition tw_left (q : dfg) (i b c : nat) : nat * bool := match field_of (q_n q) i with Pump => (q_n q + b, false)%nat | _ => (b, false) end.
Definition tw_right (q : dfg) (i b c : nat) : nat * bool := match field_of (q_n q) i with Pump => (2 * q_n q + c, false)%nat | Sgnl => (2 * q_n q + c, true)%nat | Idlr => (q_n q + c, true)%nat end.
Definition three_wave (q : dfg) (Ae deff : R) (z : R) (y : list C) (i : nat) : C := mixing (q_n q) (tw_coef q Ae deff) (tw_mismatch q) (tw_left q) (tw_right q) z (fun j => at0 y j) i.

Lemma wg_run g nn : 0 < g_Aeff g -> (forall v, In v nn -> 0 < v) -> wg_rtP_to_a g nn = Ok (map (fun v => 1 / sqrt (g_Aeff g * v * eps0 * c_mks)) nn).
Proof.
  intros Hg Hn. assert (E0 : 0 < eps0) by (unfold eps0; lra). assert (C0 : 0 < c_mks) by (unfold c_mks; lra).
  assert (P : forall v, In v nn -> 0 < g_Aeff g * v * eps0 * c_mks) by (intros v Hv; specialize (Hn v Hv); apply Rmult_lt_0_compat; [apply Rmult_lt_0_compat; [apply Rmult_lt_0_compat|]|]; assumption).
  unfold wg_rtP_to_a. clear Hn. induction nn as [|x nn IH]; [reflexivity|]. cbn [rtraverse map]. specialize (P x (or_introl eq_refl)) as Px. rewrite fsqrt_ok by lra. cbn [rbind]. rewrite CrystalProofs.fdiv_ok by (apply Rgt_not_eq, sqrt_lt_R0; exact Px). cbn [rbind]. rewrite IH by (intros v Hv; apply P; right; exact Hv). reflexivity.
Qed.
Definition stored_k (q : dfg) (x : which) (m : nat) : R := match x with Pump => nth m (q_kp q) 0 + q_kp0 q | Sgnl => nth m (q_ks q) 0 + q_ks0 q | Idlr => nth m (q_ki q) 0 + q_ki0 q end.
Lemma delay_rate q x z m : stored_k q x m = index_at q x m * angular q x m / c_mks -> delay (match x with Pump => q_kp q | Sgnl => q_ks q | Idlr => q_ki q end) (match x with Pump => q_kp0 q | Sgnl => q_ks0 q | Idlr => q_ki0 q end) (source x q) (q_speed q) z m = wavenumber q x m * z.
Proof. intros E. unfold wavenumber. rewrite <- E. unfold delay, stored_k, angular, Rdiv. destruct x; ring. Qed.

Lemma frame_guided strf q n z s g Ae len de : sized strf q n -> (forall x m, (m < n)%nat -> stored_k q x m = index_at q x m * angular q x m / c_mks) -> q_noSPM q = true -> q_beams q = Guided g g g -> g_Aeff g = Ae -> 0 < Ae ->
  (forall v, In v (q_np q) -> 0 < v) -> (forall v, In v (q_ns q) -> 0 < v) -> (forall v, In v (q_ni q) -> 0 < v) -> q_speed q <> 0 -> x_len (dx_x (q_xtal q)) = Some len -> deff_at q z = Ok de ->
  let ph x := mk n (fun m => cis (wavenumber q x m * z)) in let am l := map (fun v => 1 / sqrt (Ae * v * eps0 * c_mks)) l in
  frame strf q z s = (Ok (de, (ph Pump, ph Sgnl, ph Idlr), (am (q_np q), am (q_ns q), am (q_ni q))), s).
Proof.
  intros Sz HK Ns Qb <- HA Pp Ps Pi Sp Xl Ed ph am. destruct Sz as (Qn & Hn & L1 & L2 & L3 & N1 & N2 & N3 & C1 & C2 & C3).
  assert (D : forall x, mk n (fun m => cis (delay (match x with Pump => q_kp q | Sgnl => q_ks q | Idlr => q_ki q end) (match x with Pump => q_kp0 q | Sgnl => q_ks0 q | Idlr => q_ki0 q end) (source x q) (q_speed q) z m)) = ph x) by (intros x; apply mk_ext; intros m Hm; now rewrite (delay_rate q x z m (HK x m Hm))).
  assert (Dp := D Pump). assert (Ds := D Sgnl). assert (Di := D Idlr). cbn [source] in Dp, Ds, Di.
  assert (Lm : forall x, length (ph x) = n) by (intros x; apply mk_length).
  assert (Eg : add_gouy q (z - len / 2) (ph Pump, ph Sgnl, ph Idlr) = Ok (ph Pump, ph Sgnl, ph Idlr)).
  { unfold add_gouy. rewrite Qb. destruct (q_gouy q); [|reflexivity]. assert (Mi : forall l : list C, map (fun z => z * RtoC 1)%C l = l) by (intros l; induction l as [|a l IH]; cbn; [reflexivity|]; rewrite IH; f_equal; ring). unfold wg_gouy. now rewrite !Mi. }
  unfold frame. unfold bind at 1, lift at 1. rewrite Ed. unfold bind at 1, lift at 1. rewrite CrystalProofs.fdiv_ok by exact Sp. unfold bind at 1, lift at 1. rewrite (phasor_run strf _ _ _ _ _ n L1 N1 C1), Dp. unfold bind at 1, lift at 1. rewrite Qn, assign_all_eq by (rewrite repeat_length, Lm; reflexivity).
  unfold bind at 1, lift at 1. rewrite (phasor_run strf _ _ _ _ _ n L2 N2 C2), Ds. unfold bind at 1, lift at 1. rewrite assign_all_eq by (rewrite repeat_length, Lm; reflexivity).
  unfold bind at 1, lift at 1. rewrite (phasor_run strf _ _ _ _ _ n L3 N3 C3), Di. unfold bind at 1, lift at 1. rewrite assign_all_eq by (rewrite repeat_length, Lm; reflexivity).
  unfold bind at 1, lift at 1. rewrite Xl. cbv zeta. unfold bind at 1, lift at 1. rewrite Eg. rewrite Ns. unfold bind at 1, ret at 1. unfold bind at 1, on_k, P_to_a. rewrite Qb. unfold bind, lift.
  rewrite (wg_run g (q_np q) HA Pp), (wg_run g (q_ns q) HA Ps), (wg_run g (q_ni q) HA Pi). destruct s as [k f]. reflexivity.
Qed.

Lemma csum2_scal n (a : C) (t : nat -> nat -> bool) (f g : nat -> nat -> C) : (forall b c, (b < n)%nat -> (c < n)%nat -> t b c = true -> (a * f b c)%C = g b c) -> (forall b c, (b < n)%nat -> (c < n)%nat -> t b c = false -> g b c = z0) ->
  (a * csum n (fun b => csum n (fun c => if t b c then f b c else z0)))%C = csum n (fun b => csum n (fun c => g b c)).
Proof.
  intros H H0. rewrite <- csum_scal_l. apply csum_ext. intros b Hb. rewrite <- csum_scal_l. apply csum_ext. intros c Hc. destruct (t b c) eqn:E; [now apply H|]. rewrite (H0 b c Hb Hc E). ring.
Qed.
Lemma scaled_prod (mix phi : C) w de nn a : scaled mix phi w de nn a = (scaled (RtoC 1) phi w de nn a * mix)%C.
Proof. unfold scaled, Cdiv. ring. Qed.
Lemma deriv_three_wave strf q n z y dydx s d s' g Ae len de : sized strf q n -> (2 <= n)%nat -> Nat.Even n -> (forall x m, (m < n)%nat -> stored_k q x m = index_at q x m * angular q x m / c_mks) -> q_noSPM q = true -> q_beams q = Guided g g g -> g_Aeff g = Ae -> 0 < Ae ->
  length (q_np q) = n -> length (q_ns q) = n -> length (q_ni q) = n -> (forall v, In v (q_np q) -> 0 < v) -> (forall v, In v (q_ns q) -> 0 < v) -> (forall v, In v (q_ni q) -> 0 < v) -> q_speed q <> 0 -> x_len (dx_x (q_xtal q)) = Some len -> deff_at q z = Ok de ->
  fc_ok n (ds_fc s) -> length y = (3 * n)%nat -> length dydx = (3 * n)%nat -> deriv strf q z y dydx s = (Ok d, s') -> forall i, (i < 3 * n)%nat -> at0 d i = three_wave q Ae de z y i.
Proof.
  intros Sz Hn Ev HK Ns Qb GA HA Lp Ls Li Pp Ps Pi Sp Xl Ed Fc Ly Ld H i Hi. pose proof (frame_guided strf q n z s g Ae len de Sz HK Ns Qb GA HA Pp Ps Pi Sp Xl Ed) as Fr. cbv zeta in Fr. pose proof Sz as (Qn & _ & _ & _ & _ & N1 & N2 & N3 & C1 & C2 & C3).
  pose proof (deriv_core strf q z y dydx s d s' n de _ _ _ _ _ _ s Qn Hn Ev Fc Ly Ld Fr (mk_length _ _) (mk_length _ _) (mk_length _ _) H) as (_ & Ldd & wp & ws & wi & Ewp & Ews & Ewi & Rp & Rs & Ri). cbv zeta in *.
  rewrite (Wmks_of_cur _ _ C1) in Ewp. rewrite (Wmks_of_cur _ _ C2) in Ews. rewrite (Wmks_of_cur _ _ C3) in Ewi. injection Ewp as <-. injection Ews as <-. injection Ewi as <-.
  assert (Bw : forall p m, p_n p = n -> (m < n)%nat -> bnth (map (fun w => w * 1000000000000) (spec_W (p_n p) (p_tw p) (p_f p))) 0 m = omega p m * 1000000000000).
  { intros p m Np Hm. rewrite (bnth_eq _ _ _ n) by (rewrite ?map_length, ?spec_W_length; lia). rewrite (nth_map' (fun w => w * 1000000000000) _ m 0) by (rewrite spec_W_length; lia). reflexivity. }
  assert (Ba : forall l m, length l = n -> (m < n)%nat -> bnth (map (fun v => 1 / sqrt (Ae * v * eps0 * c_mks)) l) 0 m = 1 / sqrt (Ae * nth m l 0 * eps0 * c_mks)).
  { intros l m Ll Hm. rewrite (bnth_eq _ _ _ n) by (rewrite ?map_length; lia). rewrite (nth_map' (fun v => 1 / sqrt (Ae * v * eps0 * c_mks)) l m 0) by lia. reflexivity. }
  assert (Bn : forall l m, length l = n -> (m < n)%nat -> bnth l 0 m = nth m l 0) by (intros l m Ll Hm; now apply (bnth_eq l 0 m n)).
  assert (Un : forall t, Cinv (cis t) = cis (- t)). { intros t. rewrite <- (Cmult_1_r (Cinv (cis t))), <- (cis_neg_mult t). rewrite (Cmult_comm (cis (- t))), Cmult_assoc, Cinv_l, Cmult_1_l; [reflexivity|apply cis_nonzero]. }
  assert (Gp : forall a, (a < n)%nat -> gp (map (fun v => 1 / sqrt (Ae * v * eps0 * c_mks)) (q_np q)) (mk n (fun m => cis (wavenumber q Pump m * z))) y q a = (RtoC (amplitude q Ae Pump a) * at0 y a * cis (wavenumber q Pump a * z))%C).
  { intros a Ha. unfold gp. rewrite Ba, mk_nth by assumption. destruct (field_nth q y n Qn Ly a Ha) as (-> & _ & _). reflexivity. }
  assert (Gs : forall a, (a < n)%nat -> gs (map (fun v => 1 / sqrt (Ae * v * eps0 * c_mks)) (q_ns q)) (mk n (fun m => cis (wavenumber q Sgnl m * z))) y q a = (RtoC (amplitude q Ae Sgnl a) * at0 y (n + a) * cis (wavenumber q Sgnl a * z))%C).
  { intros a Ha. unfold gs. rewrite Ba, mk_nth by assumption. destruct (field_nth q y n Qn Ly a Ha) as (_ & -> & _). reflexivity. }
  assert (Gi : forall a, (a < n)%nat -> gi (map (fun v => 1 / sqrt (Ae * v * eps0 * c_mks)) (q_ni q)) (mk n (fun m => cis (wavenumber q Idlr m * z))) y q a = (RtoC (amplitude q Ae Idlr a) * at0 y (2 * n + a) * cis (wavenumber q Idlr a * z))%C).
  { intros a Ha. unfold gi. rewrite Ba, mk_nth by assumption. destruct (field_nth q y n Qn Ly a Ha) as (_ & _ & ->). reflexivity. }
  assert (Sc : forall x m, c_mks * index_at q x m <> 0 -> amplitude q Ae x m <> 0 -> scaled (RtoC 1) (cis (wavenumber q x m * z)) (angular q x m) de (index_at q x m) (amplitude q Ae x m) = (Ci * RtoC (strength q Ae de x m) * cis (- (wavenumber q x m * z)))%C).
  { intros x m Z1 Z2. unfold scaled, strength. rewrite Un. revert Z1 Z2. generalize (c_mks * index_at q x m) (amplitude q Ae x m) (angular q x m). intros D a w Z1 Z2. unfold Rdiv, Cdiv. rewrite !RtoC_mult, <- !RtoC_inv by assumption. ring. }
  assert (CR : forall r : R, Cconj (RtoC r) = RtoC r) by (intros r; apply injective_projections; cbn; ring).
  unfold three_wave, mixing. rewrite Qn. destruct (lt_dec i n) as [I1|I1]; [|destruct (lt_dec i (2 * n)) as [I2|I2]].
  - destruct (Rp i I1) as (Z1 & Z2 & E). destruct (field_nth q d n Qn Ldd i I1) as (Fp & _ & _). rewrite Fp in E. cbn [Nat.add] in E. rewrite E, (Bw _ _ N1 I1), (Bn _ _ Lp I1), (Ba _ _ Lp I1), (mk_nth n _ i z0 I1), scaled_prod. rewrite (Bn _ _ Lp I1) in Z1. rewrite (Ba _ _ Lp I1) in Z2.
    change (nth i (q_np q) 0) with (index_at q Pump i) in *. change (1 / sqrt (Ae * index_at q Pump i * eps0 * c_mks)) with (amplitude q Ae Pump i) in *. change (omega (q_pump q) i * 1000000000000) with (angular q Pump i). rewrite (Sc Pump i Z1 Z2).
    assert (Fo : field_of n i = Pump) by (unfold field_of; apply Nat.ltb_lt in I1; now rewrite I1).
    apply (csum2_scal n _ (fun b c => Nat.eqb (b + c) (i + n / 2))); intros b c Hb Hc T; unfold tw_coef, tw_mismatch, tw_left, tw_right; rewrite !Qn, !Fo, T; [|ring]. rewrite (Gs b Hb), (Gi c Hc). unfold lin. cbn [fst snd].
    replace ((wavenumber q Sgnl b + wavenumber q Idlr c - wavenumber q Pump i) * z) with (wavenumber q Sgnl b * z + wavenumber q Idlr c * z + - (wavenumber q Pump i * z)) by ring. rewrite !cis_add, !RtoC_mult. ring.
  - assert (Im : (i - n < n)%nat) by lia. destruct (Rs (i - n)%nat Im) as (Z1 & Z2 & E). destruct (field_nth q d n Qn Ldd (i - n) Im) as (_ & Fp & _). rewrite Fp in E. replace (n + (i - n))%nat with i in E by lia. rewrite E, (Bw _ _ N2 Im), (Bn _ _ Ls Im), (Ba _ _ Ls Im), (mk_nth n _ _ z0 Im), scaled_prod. rewrite (Bn _ _ Ls Im) in Z1. rewrite (Ba _ _ Ls Im) in Z2.
    change (nth (i - n) (q_ns q) 0) with (index_at q Sgnl (i - n)) in *. change (1 / sqrt (Ae * index_at q Sgnl (i - n) * eps0 * c_mks)) with (amplitude q Ae Sgnl (i - n)) in *. change (omega (q_sgnl q) (i - n) * 1000000000000) with (angular q Sgnl (i - n)). rewrite (Sc Sgnl (i - n)%nat Z1 Z2).
    assert (Fo : field_of n i = Sgnl) by (unfold field_of; destruct (Nat.ltb_spec i n); [lia|]; destruct (Nat.ltb_spec i (2 * n)); [reflexivity|lia]).
    apply (csum2_scal n _ (fun b c => Nat.eqb (b + n / 2) (c + (i - n)))); intros b c Hb Hc T; unfold tw_coef, tw_mismatch, tw_left, tw_right; rewrite !Qn, !Fo, T; [|ring]. rewrite (Gp b Hb), (Gi c Hc). unfold lin. cbn [fst snd].
    replace ((wavenumber q Pump b - wavenumber q Idlr c - wavenumber q Sgnl (i - n)) * z) with (wavenumber q Pump b * z + - (wavenumber q Idlr c * z) + - (wavenumber q Sgnl (i - n) * z)) by ring. rewrite !cis_add, !Cconj_mult, cis_conj, CR, !RtoC_mult. ring.
  - assert (Im : (i - 2 * n < n)%nat) by lia. destruct (Ri (i - 2 * n)%nat Im) as (Z1 & Z2 & E). destruct (field_nth q d n Qn Ldd (i - 2 * n) Im) as (_ & _ & Fp). rewrite Fp in E. replace (2 * n + (i - 2 * n))%nat with i in E by lia. rewrite E, (Bw _ _ N3 Im), (Bn _ _ Li Im), (Ba _ _ Li Im), (mk_nth n _ _ z0 Im), scaled_prod. rewrite (Bn _ _ Li Im) in Z1. rewrite (Ba _ _ Li Im) in Z2.
    change (nth (i - 2 * n) (q_ni q) 0) with (index_at q Idlr (i - 2 * n)) in *. change (1 / sqrt (Ae * index_at q Idlr (i - 2 * n) * eps0 * c_mks)) with (amplitude q Ae Idlr (i - 2 * n)) in *. change (omega (q_idlr q) (i - 2 * n) * 1000000000000) with (angular q Idlr (i - 2 * n)). rewrite (Sc Idlr (i - 2 * n)%nat Z1 Z2).
    assert (Fo : field_of n i = Idlr) by (unfold field_of; destruct (Nat.ltb_spec i n); [lia|]; destruct (Nat.ltb_spec i (2 * n)); [lia|reflexivity]).
    apply (csum2_scal n _ (fun b c => Nat.eqb (b + n / 2) (c + (i - 2 * n)))); intros b c Hb Hc T; unfold tw_coef, tw_mismatch, tw_left, tw_right; rewrite !Qn, !Fo, T; [|ring]. rewrite (Gp b Hb), (Gs c Hc). unfold lin. cbn [fst snd].
    replace ((wavenumber q Pump b - wavenumber q Sgnl c - wavenumber q Idlr (i - 2 * n)) * z) with (wavenumber q Pump b * z + - (wavenumber q Sgnl c * z) + - (wavenumber q Idlr (i - 2 * n) * z)) by ring. rewrite !cis_add, !Cconj_mult, cis_conj, CR, !RtoC_mult. ring.
Qed.

(** ** What the constructor stores *)
Lemma n_at_index strf p x kk ns kk' : x_caching (dx_x x) = false -> cur_wl strf p -> n_at strf None p x kk = (Ok ns, kk') -> index (x_mat (dx_x x)) None (map (fun w => 2 * PI * c_nmps / w) (spec_W (p_n p) (p_tw p) (p_f p))) = Ok ns.
Proof.
  intros Ca C H. unfold n_at, reading, get_pulse_n in H. rewrite Ca in H. unfold compute_n, bind, on_pulse in H. cbn [snd fst] in H. unfold cur_wl in C. destruct (get_wl_nm strf p) as [r p1]. cbn [fst] in C. subst r. unfold as_array, ret, lift in H. destruct (index _ _ _); [|discriminate]. congruence.
Qed.
Lemma init_tables strf fuel rand pump sgnl x noSPM waist gouy Aeff k0 q fc k1 : dfg_init strf fuel rand pump sgnl x noSPM waist gouy true Aeff k0 = (Ok (q, fc), k1) ->
  (exists k a b, k_at strf None pump x a = (Ok k, b) /\ q_kp q = map (fun v => v - q_kp0 q) k) /\ (exists k a b, k_at strf None sgnl x a = (Ok k, b) /\ q_ks q = map (fun v => v - q_ks0 q) k) /\ (exists k a b, k_at strf None (q_idlr q) x a = (Ok k, b) /\ q_ki q = map (fun v => v - q_ki0 q) k) /\
  (exists a b, n_at strf None pump x a = (Ok (q_np q), b)) /\ (exists a b, n_at strf None sgnl x a = (Ok (q_ns q), b)) /\ exists a b, n_at strf None (q_idlr q) x a = (Ok (q_ni q), b).
Proof.
  intros H. unfold dfg_init in H. apply bind_ok in H as (u & s1 & E0 & H). apply bind_ok in H as (idlr & s2 & E1 & H). apply bind_ok in H as ([] & s3 & E2 & H). apply bind_ok in H as ([] & s4 & E3 & H). apply bind_ok in H as (doms & s5 & E4 & H).
  apply bind_ok in H as (u2 & s6 & E5 & H). apply bind_ok in H as (bs & s7 & E6 & H).
  apply bind_ok in H as (ap & s8 & E7 & H). apply bind_ok in H as (as_ & s9 & E8 & H). apply bind_ok in H as (ai & s10 & E9 & H).
  assert (Ax : axes bs = (None, None, None)). { unfold make_beams in E6. destruct (is_mode x "BPM"); [discriminate|]. do 3 (apply bind_ok in E6 as (? & ? & _ & E6)). injection E6 as <- _. reflexivity. }
  rewrite Ax in H. apply bind_ok in H as (kp & t1 & Kp & H). apply bind_ok in H as (ks & t2 & Ks & H). apply bind_ok in H as (ki & t3 & Ki & H). apply bind_ok in H as (kp0 & t4 & _ & H). apply bind_ok in H as (ks0 & t5 & _ & H). apply bind_ok in H as (ki0 & t6 & _ & H).
  apply bind_ok in H as (np & t7 & Np & H). apply bind_ok in H as (ns & t8 & Ns & H). apply bind_ok in H as (ni & t9 & Ni & H). do 8 (apply bind_ok in H as (? & ? & _ & H)).
  unfold ret in H. match type of H with (Ok (?q0, ?f0), _) = _ => assert (Q : q = q0) by congruence end. clear H. subst q. cbn [q_idlr q_kp q_ks q_ki q_kp0 q_ks0 q_ki0 q_np q_ns q_ni].
  split; [exists kp; eexists _, _; split; [exact Kp|reflexivity]|]. split; [exists ks; eexists _, _; split; [exact Ks|reflexivity]|]. split; [exists ki; eexists _, _; split; [exact Ki|reflexivity]|]. split; [eexists _, _; exact Np|]. split; [eexists _, _; exact Ns|]. eexists _, _. exact Ni.
Qed.

(** A waveguide problem: pump and signal with fields on separated positive grids of one even size and one time window, a plain ("simple") crystal with positive index and known length, and a positive effective area (um^2). *)
Definition waveguide_inputs (strf : R -> string) (pump sgnl : pulse) (x : dcrystal) (Aeff : R) (n : nat) : Prop :=
  (exists ap, holds pump ap) /\ (exists as_, holds sgnl as_) /\ p_n pump = n /\ p_n sgnl = n /\ (2 <= n)%nat /\ Nat.Even n /\ 0 < p_f sgnl < p_f pump /\ p_tw sgnl = p_tw pump /\
  cur_W strf pump /\ cur_W strf sgnl /\ cur_wl strf pump /\ cur_wl strf sgnl /\
  (forall k, (k < n)%nat -> 0 < omega pump k /\ 0 < omega sgnl k /\ 0 < nth k (spec_W n (p_tw pump) (p_f pump - p_f sgnl)) 0) /\
  (forall a b, (a < n)%nat -> (b < n)%nat -> omega sgnl b <= omega pump a /\ nth b (spec_W n (p_tw pump) (p_f pump - p_f sgnl)) 0 <= omega sgnl a) /\
  index_pos x /\ x_caching (dx_x x) = false /\ (exists len, x_len (dx_x x) = Some len) /\ 0 < Aeff /\ dx_mode x = "simple"%string.
(** the index of the crystal at the wavelengths of a field is what the equations use, and the frame moves with the fastest phase velocity *)
Definition tables_ok (q : dfg) (x : dcrystal) (n : nat) : Prop :=
  (forall w, length (match w with Pump => q_np q | Sgnl => q_ns q | Idlr => q_ni q end) = n /\
     index (x_mat (dx_x x)) None (map (fun o => 2 * PI * c_nmps / o) (spec_W n (p_tw (source w q)) (p_f (source w q)))) = Ok (match w with Pump => q_np q | Sgnl => q_ns q | Idlr => q_ni q end)) /\
  (forall w m, (m < n)%nat -> 0 < index_at q w m /\ c_mks / index_at q w m <= q_speed q) /\ exists w m, (m < n)%nat /\ q_speed q = c_mks / index_at q w m.

Lemma fastest l v mx n : rtraverse (fdiv c_mks) l = Ok v -> max_list v = Ok mx -> length l = n -> (forall m, (m < n)%nat -> c_mks / nth m l 0 <= mx) /\ exists m, (m < n)%nat /\ mx = c_mks / nth m l 0.
Proof.
  intros V M L. destruct (rtraverse_inv _ _ _ 0 0 V) as [Lv I]. destruct (max_list_in _ _ M) as [Im Mx]. 
  assert (N : forall m, (m < n)%nat -> nth m v 0 = c_mks / nth m l 0) by (intros m Hm; specialize (I m ltac:(lia)); apply fdiv_inv in I as [_ E]; exact E). split.
  - intros m Hm. rewrite <- N by exact Hm. apply Mx, nth_In. lia.
  - apply (In_nth _ _ 0) in Im as (m & Hm & <-). exists m. split; [lia|]. apply N. lia.
Qed.
Lemma guided_area a : g_Aeff (wg_init a None) = a * / 10 ^ 12. Proof. unfold wg_init. cbn [g_Aeff]. lra. Qed.

Lemma wg_facts strf fuel rand pump sgnl x waist gouy Aeff k0 n : waveguide_inputs strf pump sgnl x Aeff n ->
  exists q, dfg_init strf fuel rand pump sgnl x true waist gouy true (Some Aeff) k0 = (Ok (q, fftc_init n), k0) /\ q_n q = n /\ length (q_ystart q) = (3 * n)%nat /\ q_pump q = pump /\ q_sgnl q = sgnl /\ p_f (q_idlr q) = p_f pump - p_f sgnl /\ p_tw (q_idlr q) = p_tw pump /\
    (q_ystart q = input_of Pump q ++ input_of Sgnl q ++ input_of Idlr q) /\ tables_ok q x n /\
    forall z y dydx s, fc_ok n (ds_fc s) -> length y = (3 * n)%nat -> length dydx = (3 * n)%nat ->
      exists d s', deriv strf q z y dydx s = (Ok d, s') /\ length d = (3 * n)%nat /\ fc_ok n (ds_fc s') /\ (forall i, (i < 3 * n)%nat -> at0 d i = three_wave q (Aeff * / 10 ^ 12) (dx_deff x) z y i) /\ rsum (3 * n) (fun m => 2 * Re (Cconj (at0 y m) * at0 d m)%C) = 0.
Proof.
  intros ((ap & Hp) & (as_ & Hs) & Np & Ns & Hn & Ev & Hf & Tw & Wp & Ws & Lp & Ls & P & O & X & Ca & (len & Xl) & Ha & Md).
  assert (Z1 : p_f pump <> 0) by (apply Rgt_not_eq; lra). assert (Z2 : p_f sgnl <> 0) by (apply Rgt_not_eq; lra). 
  destruct (accepts strf fuel rand pump sgnl x true waist gouy Aeff k0 n ap as_ Hp Hs Np Ns Hn Hf Wp Ws Lp Ls P O X Ca (or_introl Md)) as (q & E & Qn & Qy & L1 & L2 & L3 & Pos & Qc & _). exists q.
  destruct (C71_accepted_l strf fuel rand pump sgnl x waist gouy Aeff len k0 n ap as_ Hp Hs Np Ns Hn Hf Wp Ws Lp Ls P O X Ca Xl Ha (or_introl Md)) as (q' & E' & _ & _ & T). rewrite E in E'. assert (Q' : q = q') by congruence. subst q'. clear E'.
  destruct (init_ystart _ _ _ _ _ _ _ _ _ _ _ _ _ _ _ _ _ E Hp Hs) as (ai & Hi & Ey & _). pose proof (init_sized _ _ _ _ _ _ _ _ _ _ _ _ _ _ _ n E Qn Hn Z1 Z2 Wp Ws Lp Ls) as Sz.
  pose proof (init_inv _ _ _ _ _ _ _ _ _ _ _ _ _ _ _ E) as (Qp & Qs & Qx & Qsp & _ & Ei & _ & _ & _ & _ & _ & _ & Hb & _). destruct (Hb eq_refl) as (a & [= <-] & Qb). destruct (idler_spec _ _ _ _ Z1 Z2 Ei) as (Fi & Ti & Ni & _ & Ci'). destruct (Ci' strf) as [Wi Li].
  destruct (init_inv2 _ _ _ _ _ _ _ _ _ _ _ _ _ _ _ E) as (_ & _ & _ & vp & mp & vs & ms & vi & mi & V1 & V2 & V3 & V4 & V5 & V6 & V7).
  destruct (init_tables _ _ _ _ _ _ _ _ _ _ _ _ _ _ E) as ((kp & ? & ? & Kp & Ep) & (ks & ? & ? & Ks & Es) & (ki & ? & ? & Ki & Eki) & (? & ? & Tp) & (? & ? & Ts) & (? & ? & Ti')).
  apply (n_at_index _ _ _ _ _ _ Ca Lp) in Tp. apply (n_at_index _ _ _ _ _ _ Ca Ls) in Ts. apply (n_at_index _ _ _ _ _ _ Ca Li) in Ti'.
  assert (P1 : forall v, In v (q_np q) -> 0 < v) by (intros v Hv; apply Pos, in_or_app; left; exact Hv). assert (P2 : forall v, In v (q_ns q) -> 0 < v) by (intros v Hv; apply Pos, in_or_app; right; apply in_or_app; left; exact Hv). assert (P3 : forall v, In v (q_ni q) -> 0 < v) by (intros v Hv; apply Pos, in_or_app; right; apply in_or_app; right; exact Hv).
  assert (Ip : forall w m, (m < n)%nat -> 0 < index_at q w m) by (intros w m Hm; unfold index_at; destruct w; [apply P1|apply P2|apply P3]; apply nth_In; lia).
  assert (Oi : forall k, nth k (spec_W n (p_tw pump) (p_f pump - p_f sgnl)) 0 = omega (q_idlr q) k) by (intros k; unfold omega; rewrite Fi, Ti, Ni, Np; reflexivity).
  assert (HK : forall w m, (m < n)%nat -> stored_k q w m = index_at q w m * angular q w m / c_mks).
  { assert (KK : forall p k k0' kk kk' ns tb m, k_at strf None p x kk = (Ok k, kk') -> index (x_mat (dx_x x)) None (map (fun o => 2 * PI * c_nmps / o) (spec_W (p_n p) (p_tw p) (p_f p))) = Ok ns -> tb = map (fun v => v - k0') k -> cur_wl strf p -> cur_W strf p -> p_n p = n -> (forall k, (k < n)%nat -> 0 < omega p k) -> (m < n)%nat -> nth m tb 0 + k0' = nth m ns 0 * (omega p m * 1000000000000) / c_mks).
    { intros p k k0' kk kk' ns tb m A B -> A1 A2 A3 A4 Hm. destruct (k_at_ok strf p x kk n X A1 A2 A3 A4) as (k' & A' & Lk & V). rewrite A in A'. assert (k' = k) by congruence. subst k'. rewrite (nth_map' (fun v => v - k0') k m 0) by lia. rewrite <- (V ns B m Hm). ring. }
    intros w m Hm. unfold stored_k, index_at, angular, source. destruct w; rewrite ?Qp, ?Qs.
    - apply (KK pump kp _ _ _ (q_np q) _ m Kp Tp Ep Lp Wp Np); [intros k Hk; apply (P k Hk)|exact Hm].
    - apply (KK sgnl ks _ _ _ (q_ns q) _ m Ks Ts Es Ls Ws Ns); [intros k Hk; apply (P k Hk)|exact Hm].
    - apply (KK (q_idlr q) ki _ _ _ (q_ni q) _ m Ki Ti' Eki Li Wi ltac:(lia)); [intros k Hk; rewrite <- Oi; apply (P k Hk)|exact Hm]. }
  assert (Sp : q_speed q <> 0) by (apply Rgt_not_eq; apply (max_pos _ _ V7); intros v [<-|[<-|[<-|[]]]]; [apply (max_pos _ _ V2), (speeds_pos _ _ V1 P1)|apply (max_pos _ _ V4), (speeds_pos _ _ V3 P2)|apply (max_pos _ _ V6), (speeds_pos _ _ V5 P3)]).
  split; [exact E|]. split; [exact Qn|]. split; [exact Qy|]. split; [exact Qp|]. split; [exact Qs|]. split; [exact Fi|]. split; [exact Ti|]. split; [|split].
  - unfold input_of, source. rewrite Qp, Qs. destruct Hp as (_ & -> & _). destruct Hs as (_ & -> & _). destruct Hi as (_ & -> & _). exact Ey.
  - split; [|split].
    + intros w. unfold source. destruct w; rewrite ?Qp, ?Qs; (split; [assumption|]); [rewrite Np in Tp|rewrite Ns in Ts|rewrite Ni, Np in Ti']; assumption.
    + intros w m Hm. split; [now apply Ip|]. destruct (max_list_in _ _ V7) as [_ Mx]. destruct (fastest _ _ _ n V1 V2 L1) as [F1 _]. destruct (fastest _ _ _ n V3 V4 L2) as [F2 _]. destruct (fastest _ _ _ n V5 V6 L3) as [F3 _].
      destruct w; (eapply Rle_trans; [first [apply (F1 m Hm)|apply (F2 m Hm)|apply (F3 m Hm)]|apply Mx; cbn; tauto]).
    + destruct (max_list_in _ _ V7) as [[<-|[<-|[<-|[]]]] _]; [destruct (fastest _ _ _ n V1 V2 L1) as [_ (m & Hm & ->)]; exists Pump, m; auto|destruct (fastest _ _ _ n V3 V4 L2) as [_ (m & Hm & ->)]; exists Sgnl, m; auto|destruct (fastest _ _ _ n V5 V6 L3) as [_ (m & Hm & ->)]; exists Idlr, m; auto].
  - intros z y dydx s Fc Ly Ld. destruct (T z y dydx s Fc Ly Ld) as (d & s' & Ed & Ldd & Fc'). exists d, s'. split; [exact Ed|]. split; [exact Ldd|]. split; [exact Fc'|]. split.
    + assert (De : deff_at q z = Ok (dx_deff x)) by (unfold deff_at, is_mode; rewrite Qx, Md; reflexivity). rewrite <- Qx in Xl.
      apply (deriv_three_wave strf q n z y dydx s d s' (wg_init Aeff None) _ len (dx_deff x) Sz Hn Ev HK Qsp Qb (guided_area Aeff)); try assumption. apply Rmult_lt_0_compat; [exact Ha|]. apply Rinv_0_lt_compat, pow_lt. lra.
    + apply (C51_power_stationary_l strf fuel rand pump sgnl x true waist gouy (Some Aeff) k0 q (fftc_init n) k0 z y dydx s d s' n E Qn Hn Ev Z1 Z2 Wp Ws Tw Fc Ly Ld Ed).
Qed.

(** ** The claims *)
(** the equations at amplitude [y], as a list of 3 n functions of the distance *)
Definition solves (q : dfg) (Ae deff : R) (dom : R -> Prop) (u : R -> list C) : Prop := forall z j, (j < 3 * q_n q)%nat -> dom z -> is_cderive (fun t => at0 (u t) j) z (three_wave q Ae deff z (u z) j).

Lemma tw_idx q i b c : (i < 3 * q_n q)%nat -> (b < q_n q)%nat -> (c < q_n q)%nat -> (fst (tw_left q i b c) < 3 * q_n q)%nat /\ (fst (tw_right q i b c) < 3 * q_n q)%nat.
Proof. intros Hi Hb Hc. unfold tw_left, tw_right. destruct (field_of (q_n q) i); cbn [fst]; lia. Qed.
Lemma tw_ext q Ae de z y y' i : (i < 3 * q_n q)%nat -> (forall j, (j < 3 * q_n q)%nat -> at0 y j = at0 y' j) -> three_wave q Ae de z y i = three_wave q Ae de z y' i.
Proof. intros Hi H. unfold three_wave. apply (mix_ext (3 * q_n q)); [intros; now apply tw_idx|exact Hi|exact H]. Qed.
Lemma tw_mk q Ae de z (v : nat -> C) i : (i < 3 * q_n q)%nat -> three_wave q Ae de z (mk (3 * q_n q) v) i = mixing (q_n q) (tw_coef q Ae de) (tw_mismatch q) (tw_left q) (tw_right q) z v i.
Proof. intros Hi. unfold three_wave. apply (mix_ext (3 * q_n q)); [intros; now apply tw_idx|exact Hi|]. intros j Hj. now apply mk_nth. Qed.
(** bounds of the coefficients: the total coupling into one element and the largest mismatch *)
Definition tw_bounds (q : dfg) (Ae deff G Th : R) : Prop := 0 <= G /\ 1 <= Th /\
  (forall i, (i < 3 * q_n q)%nat -> rsum (q_n q) (fun b => rsum (q_n q) (fun c => Cmod (tw_coef q Ae deff i b c))) <= G) /\
  forall i b c, (i < 3 * q_n q)%nat -> (b < q_n q)%nat -> (c < q_n q)%nat -> Rabs (tw_mismatch q i b c) <= Th.
Lemma tw_bounds_exist q Ae de : exists G Th, tw_bounds q Ae de G Th.
Proof.
  set (n := q_n q). exists (rsum (3 * n) (fun i => rsum n (fun b => rsum n (fun c => Cmod (tw_coef q Ae de i b c))))), (1 + rsum (3 * n) (fun i => rsum n (fun b => rsum n (fun c => Rabs (tw_mismatch q i b c))))). unfold tw_bounds. fold n.
  assert (N1 : forall i, 0 <= rsum n (fun b => rsum n (fun c => Cmod (tw_coef q Ae de i b c)))) by (intros i; apply rsum_nonneg; intros b _; apply rsum_nonneg; intros c _; apply Cmod_ge_0).
  assert (N3 : forall i b, 0 <= rsum n (fun c => Rabs (tw_mismatch q i b c))) by (intros i b; apply rsum_nonneg; intros c _; apply Rabs_pos).
  assert (N2 : forall i, 0 <= rsum n (fun b => rsum n (fun c => Rabs (tw_mismatch q i b c)))) by (intros i; apply rsum_nonneg; intros b _; apply N3).
  split; [apply rsum_nonneg; intros i _; apply N1|]. split; [pose proof (rsum_nonneg (3 * n) _ (fun i _ => N2 i)); lra|]. split.
  - intros i Hi. apply (rsum_term_le (3 * n) (fun i => rsum n (fun b => rsum n (fun c => Cmod (tw_coef q Ae de i b c)))) i); [intros j _; apply N1|exact Hi].
  - intros i b c Hi Hb Hc. apply Rle_trans with (rsum (3 * n) (fun i => rsum n (fun b => rsum n (fun c => Rabs (tw_mismatch q i b c))))); [|lra]. eapply Rle_trans; [|apply (rsum_term_le (3 * n) (fun i => rsum n (fun b => rsum n (fun c => Rabs (tw_mismatch q i b c)))) i); [intros j _; apply N2|exact Hi]].
    eapply Rle_trans; [|apply (rsum_term_le n (fun b => rsum n (fun c => Rabs (tw_mismatch q i b c))) b); [intros j _; apply N3|exact Hb]]. apply (rsum_term_le n (fun c => Rabs (tw_mismatch q i b c)) c); [intros j _; apply Rabs_pos|exact Hc].
Qed.
(** the conservation law, for all amplitudes *)
Lemma tw_cons strf q n Ae de (dydx : list C) s : q_n q = n -> fc_ok n (ds_fc s) -> length dydx = (3 * n)%nat ->
  (forall z y dydx s, fc_ok n (ds_fc s) -> length y = (3 * n)%nat -> length dydx = (3 * n)%nat -> exists d s', deriv strf q z y dydx s = (Ok d, s') /\ length d = (3 * n)%nat /\ fc_ok n (ds_fc s') /\ (forall i, (i < 3 * n)%nat -> at0 d i = three_wave q Ae de z y i) /\ rsum (3 * n) (fun m => 2 * Re (Cconj (at0 y m) * at0 d m)%C) = 0) ->
  forall z v, Re (csum (3 * n) (fun j => Cconj (v j) * mixing n (tw_coef q Ae de) (tw_mismatch q) (tw_left q) (tw_right q) z v j)%C) = 0.
Proof.
  intros Qn Fc Ld H z v. destruct (H z (mk (3 * n) v) dydx s Fc (mk_length _ _) Ld) as (d & s' & _ & _ & _ & E & P).
  assert (R : forall k (f : nat -> C), Re (csum k f) = rsum k (fun j => Re (f j))). { induction k as [|k IH]; intros f; [rewrite csum_0, rsum_0; reflexivity|]. rewrite csum_S, rsum_S, <- IH. reflexivity. }
  rewrite R. rewrite rsum_scal_l in P. assert (P' : rsum (3 * n) (fun m => Re (Cconj (at0 (mk (3 * n) v) m) * at0 d m)%C) = 0) by lra. rewrite <- P'. apply rsum_ext. intros j Hj. rewrite (E j Hj), mk_nth by exact Hj. rewrite <- Qn at 2. rewrite tw_mk by (rewrite Qn; exact Hj). now rewrite Qn.
Qed.
Lemma tw_power k (v : nat -> C) : power k v = rsum k (fun j => Cmod (v j) ^ 2). Proof. reflexivity. Qed.

(*! C124: the right-hand side given to the solver by a waveguide problem is, at every distance and for every field and whatever the output buffer held, the system of three-wave mixing equations: each element of the pump, signal or idler is driven
    by exactly the pairs of elements of the other two fields whose frequencies match it, through the crystal's nonlinear coefficient, its index at the wavelengths involved and the mode area, with a phase turning at the wave-vector mismatch. *)
Lemma C124_equations_l : forall strf fuel rand pump sgnl x waist gouy Aeff k0 n, waveguide_inputs strf pump sgnl x Aeff n ->
  exists q, dfg_init strf fuel rand pump sgnl x true waist gouy true (Some Aeff) k0 = (Ok (q, fftc_init n), k0) /\ q_n q = n /\ q_pump q = pump /\ q_sgnl q = sgnl /\ p_f (q_idlr q) = p_f pump - p_f sgnl /\ p_tw (q_idlr q) = p_tw pump /\ tables_ok q x n /\
    forall z y dydx s, fc_ok n (ds_fc s) -> length y = (3 * n)%nat -> length dydx = (3 * n)%nat ->
      exists d s', deriv strf q z y dydx s = (Ok d, s') /\ length d = (3 * n)%nat /\ fc_ok n (ds_fc s') /\ forall i, (i < 3 * n)%nat -> nth i d (RtoC 0) = three_wave q (Aeff * / 10 ^ 12) (dx_deff x) z y i.
Proof.
  intros strf fuel rand pump sgnl x waist gouy Aeff k0 n H. destruct (wg_facts strf fuel rand pump sgnl x waist gouy Aeff k0 n H) as (q & E & Qn & Ly & Qp & Qs & Fi & Ti & _ & Tb & D). exists q. repeat (split; [assumption|]). intros z y dydx s Fc L1 L2. destruct (D z y dydx s Fc L1 L2) as (d & s' & A & B & C' & V & _). exists d, s'. auto.
Qed.

(*! C124: these equations have, through the input pulses and the seeded idler, one and only one solution over all distances, and the total power in the three fields is the same at every distance. *)
Lemma C124_solution_l : forall strf fuel rand pump sgnl x waist gouy Aeff k0 n, waveguide_inputs strf pump sgnl x Aeff n ->
  exists q u, dfg_init strf fuel rand pump sgnl x true waist gouy true (Some Aeff) k0 = (Ok (q, fftc_init n), k0) /\ u 0 = input_of Pump q ++ input_of Sgnl q ++ input_of Idlr q /\ (forall z, length (u z) = (3 * n)%nat) /\
    solves q (Aeff * / 10 ^ 12) (dx_deff x) (fun _ => True) u /\ (forall z, rsum (3 * n) (fun j => Cmod (nth j (u z) (RtoC 0)) ^ 2) = rsum (3 * n) (fun j => Cmod (nth j (u 0) (RtoC 0)) ^ 2)) /\
    forall v L, v 0 = u 0 -> solves q (Aeff * / 10 ^ 12) (dx_deff x) (fun z => Rabs z <= L) v -> forall z j, (j < 3 * n)%nat -> Rabs z <= L -> nth j (v z) (RtoC 0) = nth j (u z) (RtoC 0).
Proof.
  intros strf fuel rand pump sgnl x waist gouy Aeff k0 n H. destruct (wg_facts strf fuel rand pump sgnl x waist gouy Aeff k0 n H) as (q & E & Qn & Ly & Qp & Qs & Fi & Ti & Ey & _ & D). exists q.
  set (Ae := Aeff * / 10 ^ 12) in *. set (de := dx_deff x) in *. pose proof (tw_cons strf q n Ae de (repeat z0 (3 * n)) (mkDS k0 (fftc_init n)) Qn (fc_init_ok n) (repeat_length _ _) D) as Co. destruct (tw_bounds_exist q Ae de) as (G & Th & G0 & T1 & HG & HT).
  assert (HP : forall i b c, (i < 3 * n)%nat -> (b < n)%nat -> (c < n)%nat -> (fst (tw_left q i b c) < 3 * n)%nat /\ (fst (tw_right q i b c) < 3 * n)%nat) by (intros i b c; rewrite <- Qn; apply tw_idx). rewrite Qn in HG, HT.
  destruct (mix_solution (3 * n) n (tw_coef q Ae de) (tw_mismatch q) (tw_left q) (tw_right q) G HP HG G0 Co (fun j => at0 (q_ystart q) j)) as (w & W0 & Wd & Wp).
  set (u := fun z => mk (3 * n) (w z)). assert (Un : forall z j, (j < 3 * n)%nat -> at0 (u z) j = w z j) by (intros z j Hj; unfold u; now apply mk_nth).
  assert (U0 : u 0 = q_ystart q). { apply (nth_ext _ _ z0 z0); [unfold u; now rewrite mk_length|]. unfold u at 1. rewrite mk_length. intros j Hj. rewrite Un by exact Hj. now apply W0. }
  assert (So : solves q Ae de (fun _ => True) u).
  { intros z j Hj _. rewrite Qn in Hj. apply (cderive_ext (fun t => w t j)); [intros t; now rewrite Un|]. unfold u. rewrite <- Qn at 1. rewrite tw_mk by now rewrite Qn. rewrite Qn. now apply Wd. }
  exists u. split; [exact E|]. split; [now rewrite U0|]. split; [intros z; apply mk_length|]. split; [exact So|]. split.
  - intros z. rewrite (rsum_ext _ _ (fun j => Cmod (w z j) ^ 2)) by (intros j Hj; now rewrite Un). rewrite <- tw_power, Wp, tw_power. apply rsum_ext. intros j Hj. now rewrite U0.
  - intros v L V0 Sv z j Hj Hz. apply (mix_unique (3 * n) n (tw_coef q Ae de) (tw_mismatch q) (tw_left q) (tw_right q) G HP HG G0 Co (fun t j => at0 (v t) j) (fun t j => at0 (u t) j) L); try assumption.
    + intros t i Hi Ht. pose proof (Sv t i ltac:(rewrite Qn; exact Hi) Ht) as S. unfold three_wave in S. rewrite Qn in S. exact S.
    + intros t i Hi _. pose proof (So t i ltac:(rewrite Qn; exact Hi) I) as S. unfold three_wave in S. rewrite Qn in S. exact S.
    + intros i _. now rewrite V0.
Qed.

(*! C124: and the solver follows that solution.  For every length and every bound of the coefficients there are a constant and a step size such that every run that returns, from the constructed problem over at most that length and with no step longer than
    h below that size, has all its stored rows within exp(52 G (B + rho) L) L (K h^8 + 1e-26 M) of the solution, B^2 being the total input power - whatever the tolerances, first step, step controller, output buffer and fuel. *)
Lemma C124_converges_l : forall strf fuel rand pump sgnl x waist gouy Aeff k0 n, waveguide_inputs strf pump sgnl x Aeff n ->
  exists q u, dfg_init strf fuel rand pump sgnl x true waist gouy true (Some Aeff) k0 = (Ok (q, fftc_init n), k0) /\ u 0 = input_of Pump q ++ input_of Sgnl q ++ input_of Idlr q /\ solves q (Aeff * / 10 ^ 12) (dx_deff x) (fun _ => True) u /\
    (exists G Th, tw_bounds q (Aeff * / 10 ^ 12) (dx_deff x) G Th) /\
    forall zmax rho G Th, 0 < zmax -> 0 < rho -> tw_bounds q (Aeff * / 10 ^ 12) (dx_deff x) G Th -> exists K hmax, 0 <= K /\ 0 < hmax /\
      forall buf ofuel con L atol rtol h1 hmin nsaves g' h, length buf = (3 * n)%nat -> 0 < L <= zmax -> 0 <= hmin ->
        integrate (rhs_of strf q buf) ofuel (new_ode (mkDS k0 (fftc_init n)) con (q_ystart q) 0 L atol rtol h1 hmin (new_output (Some nsaves)) false Complex128) = (Ok tt, g') ->
        let m := (e_nok (g_ode g') + e_nbad (g_ode g'))%nat in let Z k := nth k (o_xsave (g_out g')) 0 in
        h <= hmax -> (forall k, (k < m)%nat -> Rabs (Z (S k) - Z k) <= h) ->
        let B := sqrt (rsum (3 * n) (fun j => Cmod (nth j (u 0) (RtoC 0)) ^ 2)) in
        let E := exp (52 * G * (B + rho) * L) * (L * (K * h ^ 8 + / 10 ^ 26 * (1 + G * (Th ^ 7 * (B + 7) * (B + 7))))) in E <= rho / 4 ->
        forall k j, (k <= m)%nat -> (j < 3 * n)%nat -> Cmod (nth j (nth k (o_ysave (g_out g')) []) (RtoC 0) - nth j (u (Z k)) (RtoC 0))%C <= E.
Proof.
  intros strf fuel rand pump sgnl x waist gouy Aeff k0 n H. destruct (C124_solution_l strf fuel rand pump sgnl x waist gouy Aeff k0 n H) as (q & u & E & U0 & Lu & So & Po & _). exists q, u. split; [exact E|]. split; [exact U0|]. split; [exact So|]. split; [apply tw_bounds_exist|].
  destruct (wg_facts strf fuel rand pump sgnl x waist gouy Aeff k0 n H) as (q' & E' & Qn & Ly & _ & _ & _ & _ & Ey & _ & D). rewrite E in E'. assert (Q' : q = q') by congruence. subst q'. clear E'. rewrite <- Ey in U0.
  intros zmax rho G Th Hz Hr (G0 & T1 & HG & HT). set (Ae := Aeff * / 10 ^ 12) in *. set (de := dx_deff x) in *.
  assert (HP : forall i b c, (i < 3 * n)%nat -> (b < n)%nat -> (c < n)%nat -> (fst (tw_left q i b c) < 3 * n)%nat /\ (fst (tw_right q i b c) < 3 * n)%nat) by (intros i b c; rewrite <- Qn; apply tw_idx). rewrite Qn in HG, HT.
  set (B := sqrt (rsum (3 * n) (fun j => Cmod (at0 (u 0) j) ^ 2))) in *. assert (B0 : 0 <= B) by apply sqrt_pos.
  assert (Ub : forall z j, (j < 3 * n)%nat -> Cmod (at0 (u z) j) <= B). { intros z j Hj. unfold B. rewrite <- (Po z). apply (power_bound (3 * n) (fun j => at0 (u z) j) j Hj). }
  set (phi := fun z (y : list C) => mixing n (tw_coef q Ae de) (tw_mismatch q) (tw_left q) (tw_right q) z (fun j => at0 y j)). assert (Ph : forall z y i, three_wave q Ae de z y i = phi z y i) by (intros z y i; unfold three_wave; now rewrite Qn).
  set (T := fun z => Tmix (3 * n) n (tw_coef q Ae de) (tw_mismatch q) (tw_left q) (tw_right q) z (u z)). set (M := 1 + G * (Th ^ 7 * (B + 7) * (B + 7))).
  assert (P7 : 0 <= G * (Th ^ 7 * (B + 7) * (B + 7))) by (apply Rmult_le_pos; [exact G0|]; apply Rmult_le_pos; [apply Rmult_le_pos; [apply pow_le|]|]; lra).
  destruct (C123_convergence_l (3 * n) phi (- 1) 0 zmax (zmax + 1) u T M (2 * G * (B + rho)) rho) as (K & h0 & HK & Hh0 & Cv).
  - lra.
  - lra.
  - exact Lu.
  - intros z j Hj _. rewrite <- Ph. apply So; [rewrite Qn; exact Hj|exact I].
  - apply (mix_utaylor (3 * n) n (tw_coef q Ae de) (tw_mismatch q) (tw_left q) (tw_right q) G Th HP HG G0 T1 HT (fun o : {z | - 1 <= z <= zmax + 1} => proj1_sig o) (fun o => u (proj1_sig o)) B B0). intros o j Hj. now apply Ub.
  - unfold M. lra.
  - intros z l rs i _ Hi Hl Hf. eapply Rle_trans; [apply (Tmix_bound (3 * n) n (tw_coef q Ae de) (tw_mismatch q) (tw_left q) (tw_right q) G Th HP HG T1 HT B z (u z) l rs i Hi B0 (Ub z) Hl Hf)|]. unfold Mmix, M. apply Rmult_le_compat_r; [|lra]. exact (rprod_nonneg _ _ _ Hf).
  - apply Rmult_le_pos; [|lra]. lra.
  - exact Hr.
  - intros z y y' d _ L1 L2 N1 N2 N i Hi. unfold phi. apply (mix_lip (3 * n) n (tw_coef q Ae de) (tw_mismatch q) (tw_left q) (tw_right q) G HP HG z (fun j => at0 y j) (fun j => at0 y' j) (B + rho) d i Hi); [lra| | |exact N].
    + intros j Hj. specialize (N1 j Hj). specialize (Ub z j Hj). pose proof (Cmod_triangle (at0 y j - at0 (u z) j) (at0 (u z) j))%C as Tr. replace (at0 y j - at0 (u z) j + at0 (u z) j)%C with (at0 y j) in Tr by ring. lra.
    + intros j Hj. specialize (N2 j Hj). specialize (Ub z j Hj). pose proof (Cmod_triangle (at0 y' j - at0 (u z) j) (at0 (u z) j))%C as Tr. replace (at0 y' j - at0 (u z) j + at0 (u z) j)%C with (at0 y' j) in Tr by ring. lra.
  - exists K, h0. split; [exact HK|]. split; [exact Hh0|]. intros buf ofuel con L atol rtol h1 hmin nsaves g' h Lb HL Hm Hi m Z Hh Hst B' E0 HE k j Hk Hj.
    set (bad := fun z y => mk (3 * n) (phi z y)). assert (Tt : forall z y w, fc_okb n w = true -> length y = (3 * n)%nat -> exists d w', rhs_of strf q buf z y w = (Ok d, w') /\ fc_okb n w' = true).
    { intros z y w Fw Lw. apply fc_okb_iff in Fw. destruct (D z y buf w Fw Lw Lb) as (d & w' & A & _ & Fw' & _). exists d, w'. split; [exact A|]. now apply fc_okb_iff. }
    destruct (agree_integrate (rhs_of strf q buf) (fc_okb n) (3 * n) bad Tt ofuel _ (new_J (fc_okb n) (3 * n) (mkDS k0 (fftc_init n)) con (q_ystart q) 0 L atol rtol h1 hmin (new_output (Some nsaves)) false Complex128 ltac:(apply fc_okb_iff, fc_init_ok) Ly)) as [Eq _]. rewrite Hi in Eq. symmetry in Eq.
    specialize (Cv dstate (tot (rhs_of strf q buf) (fc_okb n) (3 * n) bad) ofuel (mkDS k0 (fftc_init n)) con (q_ystart q) 0 L atol rtol h1 hmin nsaves Complex128 g' h 0). cbv zeta in Cv. fold m in Cv.
    assert (EE : exp (26 * (2 * G * (B + rho)) * Rabs (L - 0)) * (0 + Rabs (L - 0) * (K * h ^ 8 + / 10 ^ 26 * M)) = E0). { unfold E0. change B' with B. rewrite Rminus_0_r, (Rabs_pos_eq L) by lra. fold M. rewrite Rplus_0_l. f_equal. f_equal. ring. }
    rewrite EE in Cv. destruct Cv as [R _]; [| | | | | | | |exact Eq|exact Hh|exact Hst|exact HE|].
    + intros z y w d w' Ly' Hf i Hi'. unfold tot in Hf. rewrite Ly', Nat.eqb_refl, andb_true_r in Hf. destruct (fc_okb n w) eqn:Fw; [|injection Hf as <- _; unfold bad; now apply mk_nth]. apply fc_okb_iff in Fw. destruct (D z y buf w Fw Ly' Lb) as (d' & w'' & A & _ & _ & V & _). unfold rhs_of in Hf. rewrite A in Hf. injection Hf as <- _. rewrite <- Ph. now apply V.
    + lra.
    + lra.
    + lra.
    + exact Hm.
    + exact Ly.
    + lra.
    + intros i _. rewrite U0. replace (at0 (q_ystart q) i - at0 (q_ystart q) i)%C with z0 by ring. rewrite Cmod_0. lra.
    + exact (R k Hk j Hj).
Qed.

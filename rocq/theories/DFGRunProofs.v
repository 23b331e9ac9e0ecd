(** A whole difference-frequency run: constructor, solver, post-processing and reading (C112). *)
From Coq Require Import String.
From Coq Require Import Reals List ZArith Bool Arith Lia Lra.
From Coquelicot Require Import Coquelicot.
From Verif Require Import Base CNum NumPy FFTProofs ModelPulse Spec ModelDerived PulseProofs PulseHistory PulseOpsProofs PulseRegridProofs ModelCrystal CrystalProofs ModelBeam BeamProofs ModelODE ODEOutputProofs ODEIntProofs ODETotalProofs ModelDFG DFGMixProofs DFGProofs DFGInitProofs DFGOutProofs DFGTotalProofs DFGAcceptProofs DFGBulkProofs.
Import ListNotations.
Local Open Scope R_scope.
Local Open Scope py_scope.
Local Notation z0 := (RtoC 0).
Local Notation at0 x i := (nth i x z0).

(** The solver's view of a problem: deriv writes into [buf], whatever it held. *)
Definition rhs_of (strf : R -> string) (q : dfg) (buf : list C) : R -> list C -> M dstate (list C) := fun z y => deriv strf q z y buf.
(** The field of [x] at the input. *)
Definition input_of (x : which) (q : dfg) : list C := match p_AW (source x q) with Some a => a | None => [] end.

(** What a run from 0 to L leaves to be read: [r] and [g] are the outcome of integrate, [n] the grid size. *)
Definition run_reads (strf : R -> string) (q : dfg) (n : nat) (L : R) (dense : bool) (r : result unit) (g : G dstate) : Prop :=
  match r with
  | Raise e => e = OverflowError \/ e = AssertionError \/ e = RuntimeError \/ e = NoFuel
  | Ok _ => forall pulses, exists f w1, process_stepper_output strf q (mkRW (g_out g) pulses) = (Ok f, w1) /\ (1 <= i_saves f)%nat /\
      (dense = false -> i_saves f = (1 + e_nok (g_ode g) + e_nbad (g_ode g))%nat) /\
      (forall k, (k < i_saves f)%nat -> exists z, get_z f k w1 = (Ok z, w1) /\ (k = 0%nat -> z = 0) /\ (S k = i_saves f -> Rabs (z - L) <= 100 * Rabs L * EPS /\ (dense = false -> z = L)) /\
        (dense = false -> forall z', get_z f (S k) w1 = (Ok z', w1) -> z < z') /\
        forall x, exists w2 p a, getter x f k w1 = (Ok (i_pulse f), w2) /\ nth_error (rw_pulses w2) (i_pulse f) = Some p /\ holds p a /\ p_n p = n /\ p_f p = p_f (source x q) /\ p_tw p = p_tw (q_pump q) /\
          (forall m, (m < n)%nat -> Cmod (at0 a m) = Cmod (at0 (nth k (o_ysave (g_out g)) []) (slot x n + m))) /\
          (k = 0%nat -> a = input_of x q)) /\
      (forall k x, (i_saves f <= k)%nat -> fst (get_z f k w1) = Raise IndexError /\ fst (getter x f k w1) = Raise IndexError)
  end.

Definition fc_okb (n : nat) (s : dstate) : bool := (Nat.eqb (fc_n (ds_fc s)) n && (Nat.eqb (length (fc_in (ds_fc s))) (2 * n) && (Nat.eqb (length (fc_tr (ds_fc s))) (2 * n) && Nat.eqb (length (fc_out (ds_fc s))) (2 * n))))%bool.
Lemma fc_okb_iff n s : fc_okb n s = true <-> fc_ok n (ds_fc s).
Proof. unfold fc_okb, fc_ok. rewrite !andb_true_iff, !Nat.eqb_eq. tauto. Qed.
Lemma fc_init_ok n : fc_ok n (fftc_init n). Proof. unfold fc_ok, fftc_init. cbn [fc_n fc_in fc_tr fc_out]. rewrite repeat_length. repeat split; lia. Qed.

Lemma dispersion_0 q speed m : dispersion q speed 0 m = RtoC 1.
Proof.
  assert (D : forall k k0 p j, cis (delay k k0 p speed 0 j) = RtoC 1). { intros. unfold delay. replace ((nth j k 0 + k0) * 0 - 0 / speed * (omega p j * 1000000000000)) with 0 by (unfold Rdiv; ring). unfold cis. rewrite cos_0, sin_0. reflexivity. }
  unfold dispersion. cbv zeta. destruct (Nat.ltb m _); [apply D|]. destruct (Nat.ltb m _); apply D.
Qed.
Lemma dispersion_unit q speed z m : Cmod (dispersion q speed z m) = 1.
Proof.
  assert (D : forall t, Cmod (cis t) = 1). { intros t. unfold cis, Cmod. cbn [fst snd]. replace (cos t ^ 2 + sin t ^ 2) with 1; [apply sqrt_1|]. pose proof (sin2_cos2 t). unfold Rsqr in *. lra. }
  unfold dispersion. cbv zeta. destruct (Nat.ltb m _); [apply D|]. destruct (Nat.ltb m _); apply D.
Qed.

(** the starting point of the solver and the pump's brightest point *)
Lemma init_ystart strf fuel rand pump sgnl x noSPM waist gouy wg Aeff k0 q fc k1 ap as_ : dfg_init strf fuel rand pump sgnl x noSPM waist gouy wg Aeff k0 = (Ok (q, fc), k1) -> holds pump ap -> holds sgnl as_ ->
  exists ai, holds (q_idlr q) ai /\ q_ystart q = ap ++ as_ ++ ai /\ argmax_abs ap = Ok (q_centre q).
Proof.
  intros H (_ & Hp & _) (_ & Hs & _). unfold dfg_init in H. apply bind_ok in H as (u & s1 & E0 & H). apply bind_ok in H as (idlr & s2 & E1 & H). apply DFGProofs.lift_ok in E1 as [E1 ->]. do 4 (apply bind_ok in H as (? & ? & _ & H)). apply bind_ok in H as (bs & s6 & _ & H).
  destruct (make_idler_holds _ _ _ _ E1) as [ai Hi]. pose proof Hi as (_ & Hi' & _).
  apply bind_ok in H as (ap' & s3 & E6 & H). apply bind_ok in H as (as' & s4 & E7 & H). apply bind_ok in H as (ai' & s5 & E8 & H). 
  unfold rd, lift, get_AW, bind, get in E6, E7, E8. rewrite Hp in E6. rewrite Hs in E7. rewrite Hi' in E8. unfold ret in E6, E7, E8. cbn [fst] in E6, E7, E8. injection E6 as <- _. injection E7 as <- _. injection E8 as <- _.
  destruct (axes bs) as [[xp xs] xi]. do 9 (apply bind_ok in H as (? & ? & _ & H)). apply bind_ok in H as (ci & ? & Ec & H). apply DFGProofs.lift_ok in Ec as [Ec _]. do 7 (apply bind_ok in H as (? & ? & _ & H)).
  unfold ret in H. match type of H with (Ok (?q0, ?f0), _) = _ => assert (Q : q = q0) by congruence end. clear H. subst q. exists ai. cbn [q_idlr q_ystart q_centre]. auto.
Qed.

Lemma seg_input n (ap as_ ai : list C) m x : length ap = n -> length as_ = n -> length ai = n -> (m < n)%nat -> at0 (ap ++ as_ ++ ai) (slot x n + m) = at0 (match x with Pump => ap | Sgnl => as_ | Idlr => ai end) m.
Proof.
  intros L1 L2 L3 Hm. destruct x; cbn [slot].
  - cbn [plus]. apply app_nth1. lia.
  - rewrite app_nth2 by lia. rewrite app_nth1 by lia. f_equal. lia.
  - rewrite app_nth2 by lia. rewrite app_nth2 by lia. f_equal. lia.
Qed.

Lemma run_generic strf q n nc ap as_ ai L fuel con k0 buf atol rtol h1 hmin nsaves dense :
  (forall z y dydx s, fc_ok n (ds_fc s) -> length y = (3 * n)%nat -> length dydx = (3 * n)%nat -> exists d s', deriv strf q z y dydx s = (Ok d, s') /\ length d = (3 * n)%nat /\ fc_ok n (ds_fc s')) ->
  sized strf q n -> nth_error (q_np q) (q_centre q) = Some nc -> nc <> 0 -> holds (q_pump q) ap -> holds (q_sgnl q) as_ -> holds (q_idlr q) ai -> q_ystart q = ap ++ as_ ++ ai ->
  p_f (q_pump q) <> 0 -> p_f (q_sgnl q) <> 0 -> p_f (q_idlr q) <> 0 -> length buf = (3 * n)%nat -> 0 < L -> 0 <= hmin -> (dense = true -> (0 < nsaves)%nat) ->
  match integrate (rhs_of strf q buf) fuel (new_ode (mkDS k0 (fftc_init n)) con (q_ystart q) 0 L atol rtol h1 hmin (new_output (Some nsaves)) dense Complex128) with (r, g) => run_reads strf q n L dense r g end.
Proof.
  intros T Sz Enc Hnc Hp Hs Hi Ey F1 F2 F3 Lb HL Hm Hk. pose proof Sz as (Qn & Hn & _ & _ & _ & N1 & N2 & N3 & _).
  assert (Lp : length ap = n) by (destruct Hp as (_ & _ & E); congruence). assert (Ls : length as_ = n) by (destruct Hs as (_ & _ & E); congruence). assert (Li : length ai = n) by (destruct Hi as (_ & _ & E); congruence).
  assert (Ly : length (q_ystart q) = (3 * n)%nat) by (rewrite Ey, !app_length; lia).
  pose proof (total_run (rhs_of strf q buf) (fc_okb n) (3 * n) fuel (mkDS k0 (fftc_init n)) con (q_ystart q) 0 L atol rtol h1 hmin nsaves dense Complex128) as R.
  specialize (R ltac:(intros z y w Pw Lw; apply fc_okb_iff in Pw; destruct (T z y buf w Pw Lw Lb) as (d & w' & E & _ & Fc); exists d, w'; split; [exact E|apply fc_okb_iff, Fc])).
  specialize (R ltac:(apply fc_okb_iff, fc_init_ok) Ly ltac:(lra) Hm Hk). destruct (integrate _ fuel _) as [[u|e] g]; [|exact R]. destruct R as (_ & Rw & l & St & Df & Dt). unfold run_reads. intros pulses.
  set (saves := S (length l)). destruct (stored_nth _ _ _ _ St) as [Cn Nt]. cbn [length] in Cn, Nt. fold saves in Cn, Nt.
  assert (Sv : saved (g_out g) n saves).
  { pose proof St as (km & K1 & K2 & K3 & K4 & K5 & K6 & K7 & K8 & K9 & K10). cbn [length] in K6. split; [eauto|]. split; [exact K7|]. split; [exact Cn|]. split; [unfold saves; lia|]. split; [unfold saves; lia|]. split; [unfold saves; lia|]. intros k Hk'. unfold rows_ok in Rw. rewrite Forall_forall in Rw. rewrite K8 in Rw. apply Rw. apply nth_In. unfold saves in Hk'. lia. }
  destruct (process_iface strf q n nc ap (mkRW (g_out g) pulses) saves Sz Sv Enc Hnc Hp F1) as (f & w1 & p0 & Pr & If & Ip & Np0 & Tp0 & _ & Xs & Sv1 & Vk). cbn [rw_out rw_pulses] in *.
  exists f, w1. split; [exact Pr|]. pose proof If as (I1 & I2 & I3 & I4 & I5 & I6 & I7 & _). split; [rewrite I2; unfold saves; lia|]. split; [intros D; rewrite I2; unfold saves; destruct (Df D) as [-> _]; reflexivity|].
  assert (Gz : forall k, (k < saves)%nat -> get_z f k w1 = (Ok (fst (nth k ((0, q_ystart q) :: l) (0, []))), w1)).
  { intros k Hk'. unfold get_z, bind, get. rewrite I2. destruct (Nat.ltb_spec k saves) as [_|]; [|lia]. rewrite Xs. destruct (Nt k Hk') as [<- _]. destruct Sv as (_ & _ & _ & _ & Lx & _). rewrite (nth_error_nth' _ 0) by lia. reflexivity. }
  split.
  - intros k Hk'. rewrite I2 in Hk'. exists (fst (nth k ((0, q_ystart q) :: l) (0, []))). split; [apply Gz, Hk'|]. split; [intros ->; reflexivity|]. split.
    { rewrite I2. intros Sk. assert (Hl : fst (nth k ((0, q_ystart q) :: l) (0, [])) = last (map fst ((0, q_ystart q) :: l)) 0).
      { rewrite last_nth' by discriminate. rewrite map_length. cbn [length]. unfold saves in Sk. replace (S (length l) - 1)%nat with k by lia. symmetry. apply (nth_map' fst _ _ (0, []) 0). cbn [length]. lia. }
      destruct dense; [split; [rewrite Hl; apply Dt; reflexivity|discriminate]|].
      destruct (Df eq_refl) as (_ & _ & La). assert (Ez : fst (nth k ((0, q_ystart q) :: l) (0, [])) = L). { rewrite last_nth' in La by discriminate. cbn [length] in La. unfold saves in Sk. replace (S (length l) - 1)%nat with k in La by lia. rewrite La. reflexivity. }
      split; [|intros _; exact Ez]. rewrite Ez, Rminus_diag_eq, Rabs_R0 by reflexivity. pose proof (Rabs_pos L). assert (0 <= EPS) by (unfold EPS; lra). apply Rmult_le_pos; lra. }
    split.
    { intros D z' Gz'. destruct (Nat.lt_ge_cases (S k) saves) as [H|H].
      - rewrite (Gz _ H) in Gz'. apply (f_equal fst) in Gz'. cbn [fst] in Gz'. apply Ok_inj in Gz'. destruct (Df D) as (_ & Mo & _). specialize (Mo k). rewrite map_length in Mo. specialize (Mo H).
        rewrite !(nth_map' fst _ _ (0, []) 0) in Mo by (cbn [length]; unfold saves in *; lia). rewrite Gz' in Mo. set (u0 := fst (nth k ((0, q_ystart q) :: l) (0, []))) in *. clearbody u0. assert (0 < z' - u0); [|lra]. apply (Rmult_lt_reg_r (L - 0)); lra.
      - exfalso. unfold get_z, bind, get in Gz'. rewrite I2 in Gz'. destruct (Nat.ltb_spec (S k) saves) as [|_]; [lia|]. discriminate. }
    intros x. assert (Fx : p_f (source x q) <> 0) by (destruct x; assumption). destruct (get_spec q n saves f w1 x k If Hk' Fx) as (w2 & p & a & G & _ & _ & Ep & Ha & Np & Fp & Tw & Va & _). exists w2, p, a.
    split; [exact G|]. split; [exact Ep|]. split; [exact Ha|]. split; [exact Np|]. split; [exact Fp|]. split; [destruct (Tw _ Np0) as [-> _]; exact Tp0|].
    assert (Sl : forall m, (m < n)%nat -> (slot x n + m < 3 * n)%nat) by (intros m Hm'; destruct x; cbn [slot]; lia). split.
    + intros m Hm'. rewrite Va by exact Hm'. rewrite Vk by auto. rewrite Cmod_mult, dispersion_unit. ring.
    + intros ->. assert (La : length a = n) by (destruct Ha as (_ & _ & E); congruence).
      assert (Es : input_of x q = match x with Pump => ap | Sgnl => as_ | Idlr => ai end). { unfold input_of. destruct Hp as (_ & E1 & _), Hs as (_ & E2 & _), Hi as (_ & E3 & _). destruct x; cbn [source]; rewrite ?E1, ?E2, ?E3; reflexivity. }
      rewrite Es. apply (nth_ext _ _ z0 z0); [rewrite La; destruct x; auto|]. intros m Hm'. rewrite La in Hm'. rewrite Va by exact Hm'. rewrite Vk by auto. destruct (Nt 0%nat Hk') as [X0 Y0]. rewrite X0, Y0. cbn [nth fst snd]. rewrite dispersion_0, Ey, Cmult_1_r. apply seg_input; assumption.
  - intros k x Hk'. rewrite I2 in Hk'. split.
    + unfold get_z, bind, get. rewrite I2. destruct (Nat.ltb_spec k saves) as [|_]; [lia|]. reflexivity.
    + assert (G : forall lo hi wl, fst (get_field lo hi wl f k w1) = Raise IndexError) by (intros; unfold get_field, bind, get; rewrite I2; destruct (Nat.ltb_spec k saves) as [|_]; [lia|reflexivity]). destruct x; apply G.
Qed.

(** ** The work array of the solver *)
Lemma assign_len {A} (d v u : list A) : assign_all d v = Ok u -> length u = length d.
Proof. unfold assign_all. destruct (Nat.eqb_spec (length d) (length v)) as [E|E]; [intros [= <-]; auto|]. destruct v as [|a [|]]; try discriminate. intros [= <-]. apply repeat_length. Qed.
Lemma set_seg_agree {A} lo hi (v d d' : list A) : (lo <= hi <= length d)%nat -> length d = length d' -> firstn lo d = firstn lo d' ->
  match set_seg lo hi v d, set_seg lo hi v d' with Ok w, Ok w' => length w = length d /\ length w' = length d /\ firstn hi w = firstn hi w' | Raise e, Raise e' => e = e' | _, _ => False end.
Proof.
  intros H L F. unfold set_seg. assert (Ls : forall x : list A, length x = length d -> length (seg lo hi x) = (hi - lo)%nat) by (intros x Lx; unfold seg; rewrite firstn_length, skipn_length; lia).
  assert (E : assign_all (seg lo hi d) v = assign_all (seg lo hi d') v) by (unfold assign_all; rewrite !Ls by auto; reflexivity). rewrite <- E. destruct (assign_all (seg lo hi d) v) as [u|e] eqn:Eu; [|reflexivity]. apply assign_len in Eu. rewrite Ls in Eu by reflexivity.
  replace (Nat.max lo hi) with hi by lia. rewrite !app_length, !firstn_length, !skipn_length. split; [lia|]. split; [lia|]. rewrite !app_assoc, !(firstn_app hi), !app_length, !firstn_length. replace (hi - (Nat.min lo (length d) + length u))%nat with 0%nat by lia. replace (hi - (Nat.min lo (length d') + length u))%nat with 0%nat by lia. rewrite F, L. reflexivity.
Qed.
Lemma bind_ext {S A B} (m : M S A) (k k' : A -> M S B) s : (forall a s', k a s' = k' a s') -> bind m k s = bind m k' s.
Proof. intros H. unfold bind. destruct (m s) as [[a|e] s']; auto. Qed.
Lemma set_agree {S B} lo hi (v d d' : list C) (k k' : list C -> M S B) s : (lo <= hi <= length d)%nat -> length d = length d' -> firstn lo d = firstn lo d' ->
  (forall w w' s', length w = length d -> length w' = length d -> firstn hi w = firstn hi w' -> k w s' = k' w' s') -> bind (lift (set_seg lo hi v d)) k s = bind (lift (set_seg lo hi v d')) k' s.
Proof.
  intros H L F K. pose proof (set_seg_agree lo hi v d d' H L F) as Q. unfold bind, lift. destruct (set_seg lo hi v d), (set_seg lo hi v d'); try contradiction; [|congruence]. destruct Q as (Q1 & Q2 & Q3). apply K; assumption.
Qed.

(*! C112 (buffer): the right-hand side does not depend on what the work array it fills contained. *)
Lemma C112_buffer_l : forall strf q z y d1 d2 s, length d1 = (3 * q_n q)%nat -> length d2 = (3 * q_n q)%nat -> deriv strf q z y d1 s = deriv strf q z y d2 s.
Proof.
  intros strf q z y d1 d2 s L1 L2. unfold deriv. apply bind_ext. intros [[deff [[pp ps] pi]] [[ap as_] ai]] s1. do 11 (apply bind_ext; intros ? ?). cbv zeta.
  apply set_agree; [lia|congruence|reflexivity|]. intros e1 e2 s2 M1 M2 F1. do 2 (apply bind_ext; intros ? ?).
  apply set_agree; [lia|congruence|exact F1|]. intros e3 e4 s3 M3 M4 F2. do 2 (apply bind_ext; intros ? ?).
  match goal with |- lift (set_seg ?lo ?hi ?v _) _ = _ => pose proof (set_seg_agree lo hi v e3 e4 ltac:(lia) ltac:(congruence) F2) as Q; unfold lift; destruct (set_seg lo hi v e3), (set_seg lo hi v e4) end; try contradiction; [|congruence].
  destruct Q as (Q1 & Q2 & Q3). rewrite !firstn_all2 in Q3 by lia. congruence.
Qed.

(*! C112: a waveguide problem as in C71, solved from 0 to any L > 0 with or without dense output, whatever the state of the controller, the idler noise, the tolerances and the first step.  The solver stops with an overflow, its assertion
    or its step-size error (or needs more fuel), or it returns, and then everything can be read: at least one save, exactly 1 + nok + nbad without dense output; distances that start at 0 and reach L (exactly, and strictly increasing, without dense
    output; up to rounding of the last grid point with it); at every save pump, signal and idler come back as pulses with their own centre frequency, the pump's window, the size of the grid, and the spectral amplitudes the solver
    stored; at save 0 these are the fields the problem was given; saves past the last raise IndexError. *)
Lemma C112_waveguide_l : forall strf fuel rand pump sgnl x waist gouy Aeff len k0 n ap as_ L buf ofuel con atol rtol h1 hmin nsaves dense,
  holds pump ap -> holds sgnl as_ -> p_n pump = n -> p_n sgnl = n -> (2 <= n)%nat -> 0 < p_f sgnl < p_f pump ->
  cur_W strf pump -> cur_W strf sgnl -> cur_wl strf pump -> cur_wl strf sgnl ->
  (forall k, (k < n)%nat -> 0 < omega pump k /\ 0 < omega sgnl k /\ 0 < nth k (spec_W n (p_tw pump) (p_f pump - p_f sgnl)) 0) ->
  (forall a b, (a < n)%nat -> (b < n)%nat -> omega sgnl b <= omega pump a /\ nth b (spec_W n (p_tw pump) (p_f pump - p_f sgnl)) 0 <= omega sgnl a) ->
  index_pos x -> x_caching (dx_x x) = false -> x_len (dx_x x) = Some len -> 0 < Aeff ->
  (dx_mode x = "simple"%string \/ dx_mode x = "PP"%string /\ exists doms, precompute_poling fuel x = Ok doms) ->
  length buf = (3 * n)%nat -> 0 < L -> 0 <= hmin -> (dense = true -> (0 < nsaves)%nat) ->
  exists q fc, dfg_init strf fuel rand pump sgnl x true waist gouy true (Some Aeff) k0 = (Ok (q, fc), k0) /\ q_pump q = pump /\ q_sgnl q = sgnl /\ p_f (q_idlr q) = p_f pump - p_f sgnl /\
    exists r g, integrate (rhs_of strf q buf) ofuel (new_ode (mkDS k0 fc) con (q_ystart q) 0 L atol rtol h1 hmin (new_output (Some nsaves)) dense Complex128) = (r, g) /\ run_reads strf q n L dense r g.
Proof.
  intros strf fuel rand pump sgnl x waist gouy Aeff len k0 n ap as_ L buf ofuel con atol rtol h1 hmin nsaves dense Hp Hs Np Ns Hn Hf Wp Ws Lp Ls P O X Ca Xl Ha Md Lb HL Hm Hk.
  assert (Z1 : p_f pump <> 0) by (apply Rgt_not_eq; lra). assert (Z2 : p_f sgnl <> 0) by (apply Rgt_not_eq; lra). assert (Z3 : p_f pump - p_f sgnl <> 0) by (apply Rgt_not_eq; lra). 
  destruct (accepts strf fuel rand pump sgnl x true waist gouy Aeff k0 n ap as_ Hp Hs Np Ns Hn Hf Wp Ws Lp Ls P O X Ca Md) as (q & E & Qn & Qy & L1 & L2 & L3 & Pos & Qc & _). exists q, (fftc_init n).
  destruct (C71_accepted_l strf fuel rand pump sgnl x waist gouy Aeff len k0 n ap as_ Hp Hs Np Ns Hn Hf Wp Ws Lp Ls P O X Ca Xl Ha Md) as (q' & E' & _ & _ & T). rewrite E in E'. assert (Q' : q = q') by congruence. subst q'. clear E'.
  destruct (init_ystart _ _ _ _ _ _ _ _ _ _ _ _ _ _ _ _ _ E Hp Hs) as (ai & Hi & Ey & Ec). pose proof (init_sized _ _ _ _ _ _ _ _ _ _ _ _ _ _ _ n E Qn Hn Z1 Z2 Wp Ws Lp Ls) as Sz.
  pose proof (init_inv _ _ _ _ _ _ _ _ _ _ _ _ _ _ _ E) as (Qp & Qs & _ & _ & _ & Ei & _). destruct (idler_spec _ _ _ _ Z1 Z2 Ei) as (Fi & _).
  split; [exact E|]. split; [exact Qp|]. split; [exact Qs|]. split; [exact Fi|].
  destruct (nth_error (q_np q) (q_centre q)) as [nc|] eqn:Enc; [|apply nth_error_None in Enc; lia]. assert (Hnc : nc <> 0). { apply Rgt_not_eq. apply Pos. apply in_or_app. left. apply (nth_error_In _ _ Enc). }
  pose proof (run_generic strf q n nc ap as_ ai L ofuel con k0 buf atol rtol h1 hmin nsaves dense T Sz Enc Hnc) as R. rewrite Qp, Qs, Fi in R. specialize (R Hp Hs Hi Ey Z1 Z2 Z3 Lb HL Hm Hk).
  destruct (integrate _ ofuel _) as [r g]. exists r, g. split; [reflexivity|exact R].
Qed.

(*! C112: the same for a free-space problem (birefringent, poled or plain) as in C89. *)
Lemma C112_free_space_l : forall strf fuel rand pump sgnl x waist gouy Aeff k0 n L buf ofuel con atol rtol h1 hmin nsaves dense, bulk_inputs strf fuel pump sgnl x waist n ->
  length buf = (3 * n)%nat -> 0 < L -> 0 <= hmin -> (dense = true -> (0 < nsaves)%nat) ->
  exists q fc, dfg_init strf fuel rand pump sgnl x true waist gouy false Aeff k0 = (Ok (q, fc), k0) /\ q_pump q = pump /\ q_sgnl q = sgnl /\ p_f (q_idlr q) = p_f pump - p_f sgnl /\
    exists r g, integrate (rhs_of strf q buf) ofuel (new_ode (mkDS k0 fc) con (q_ystart q) 0 L atol rtol h1 hmin (new_output (Some nsaves)) dense Complex128) = (r, g) /\ run_reads strf q n L dense r g.
Proof.
  intros strf fuel rand pump sgnl x waist gouy Aeff k0 n L buf ofuel con atol rtol h1 hmin nsaves dense In_ Lb HL Hm Hk.
  destruct (bulk_accepts strf fuel rand pump sgnl x true waist gouy Aeff k0 n In_) as (q & bp & bs & bi & E & Qn & Ly & _ & B). exists q, (fftc_init n).
  pose proof (init_inv _ _ _ _ _ _ _ _ _ _ _ _ _ _ _ E) as (Qp & Qs & Qx & Qsp & _ & Ei & _).
  assert (T : forall z y dydx s, fc_ok n (ds_fc s) -> length y = (3 * n)%nat -> length dydx = (3 * n)%nat -> exists d s', deriv strf q z y dydx s = (Ok d, s') /\ length d = (3 * n)%nat /\ fc_ok n (ds_fc s')).
  { intros z y dydx s Fc L1 L2. destruct (deff_some strf fuel pump sgnl x waist n q z In_ Qx) as (de & Ed & _). destruct In_ as (_ & _ & _ & _ & _ & _ & _ & _ & [len Xl] & _). apply (bulk_total strf q n _ bp bs bi z y dydx s len B Qsp); try assumption; [rewrite Qx; exact Xl|eauto]. }
  destruct In_ as (([ap Hp] & [as_ Hs]) & (Np & Ns & Hn) & Hf & (Wp & Ws & Lp & Ls) & _). assert (Z1 : p_f pump <> 0) by (apply Rgt_not_eq; lra). assert (Z2 : p_f sgnl <> 0) by (apply Rgt_not_eq; lra). assert (Z3 : p_f pump - p_f sgnl <> 0) by (apply Rgt_not_eq; lra). 
  destruct (init_ystart _ _ _ _ _ _ _ _ _ _ _ _ _ _ _ _ _ E Hp Hs) as (ai & Hi & Ey & Ec). destruct (idler_spec _ _ _ _ Z1 Z2 Ei) as (Fi & _).
  split; [exact E|]. split; [exact Qp|]. split; [exact Qs|]. split; [exact Fi|].
  assert (Lap : length ap = n) by (destruct Hp as (_ & _ & X); congruence). destruct (argmax_ok ap ltac:(lia)) as (c & Ec' & Hc). rewrite Ec in Ec'. apply Ok_inj in Ec'. rewrite <- Ec' in Hc.
  destruct (nth_error (q_np q) (q_centre q)) as [nc|] eqn:Enc; [|apply nth_error_None in Enc; rewrite (bk_lp _ _ _ _ _ _ _ B) in Enc; lia]. assert (Hnc : nc <> 0). { apply Rgt_not_eq. apply (bk_pp _ _ _ _ _ _ _ B). apply (nth_error_In _ _ Enc). }
  pose proof (run_generic strf q n nc ap as_ ai L ofuel con k0 buf atol rtol h1 hmin nsaves dense T (bk_sized _ _ _ _ _ _ _ B) Enc Hnc) as R. rewrite Qp, Qs, Fi in R. specialize (R Hp Hs Hi Ey Z1 Z2 Z3 Lb HL Hm Hk).
  destruct (integrate _ ofuel _) as [r g]. exists r, g. split; [reflexivity|exact R].
Qed.

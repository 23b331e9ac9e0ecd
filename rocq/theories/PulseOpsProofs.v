(** Proofs about the Pulse model, part 2: energy, phases, regridding, copies, averages (C10-C22). *)
From Coq Require Import String.
From Coq Require Import Reals List ZArith Bool Arith Lia Lra.
From Coquelicot Require Import Complex.
From Verif Require Import Base CNum NumPy ModelFFT FFTProofs ModelPulse Spec ModelPulseOps PulseProofs PulseHistory.
Import ListNotations.
Local Open Scope R_scope.

Lemma Ok_inj {A} (a b : A) : Ok a = Ok b -> a = b.
Proof. congruence. Qed.
Ltac okinj := let H := fresh in intros H; apply Ok_inj in H; subst.
Lemma with_AW_with_AW x y p : with_AW x (with_AW y p) = with_AW x p.
Proof. reflexivity. Qed.
Lemma with_AW_same p a : p_AW p = Some a -> with_AW (Some a) p = p.
Proof. destruct p; pred. intros ->. reflexivity. Qed.
Lemma holds_with p a b : holds p a -> length b = p_n p -> holds (with_AW (Some b) p) b.
Proof. intros (Hr & Ha & Hl) H. repeat split; auto. Qed.

Lemma power_sum_rsum l : power_sum l = rsum (length l) (fun i => Cnorm2 (nth i l (RtoC 0))).
Proof.
  unfold power_sum. rewrite lrsum_nth, map_length. apply rsum_ext. intros i Hi.
  rewrite (nth_map' _ _ _ (RtoC 0)) by exact Hi. rewrite <- Cmod_sqr. simpl. ring.
Qed.
Lemma power_sum_mags a b : same_mags a b -> power_sum a = power_sum b.
Proof.
  unfold same_mags, power_sum. intros H.
  assert (E : forall l : list C, map (fun z => Cmod z ^ 2) l = map (fun x => x ^ 2) (map Cmod l))
    by (intros; now rewrite map_map).
  now rewrite !E, H.
Qed.
Lemma power_sum_AT a : power_sum (IFFT_t a) = INR (length a) * power_sum a.
Proof. rewrite !power_sum_rsum, IFFT_t_length. apply parseval_IFFT_t. Qed.

Lemma FFT_t_scale x (s : C) : FFT_t (map (Cmult s) x) = map (Cmult s) (FFT_t x).
Proof.
  apply (list_ext (RtoC 0)); [rewrite FFT_t_length, !map_length, FFT_t_length; reflexivity|].
  rewrite FFT_t_length, map_length. intros k Hk.
  rewrite (nth_map' _ _ _ (RtoC 0)) by now rewrite FFT_t_length.
  rewrite !FFT_t_nth by (rewrite ?map_length; exact Hk). rewrite map_length.
  transitivity (RtoC (/ INR (length x)) * (s * csum (length x) (fun j => nth j x (RtoC 0) *
     tw (length x) ((Z.of_nat j + Z.of_nat (Nat.div2 (length x))) * (Z.of_nat k + Z.of_nat (Nat.div2 (length x)))))))%C;
    [|ring]. f_equal. rewrite <- csum_scal_l. apply csum_ext. intros j Hj.
  rewrite (nth_map' _ _ _ (RtoC 0)) by exact Hj. ring.
Qed.
Lemma IFFT_t_scale x (s : C) : IFFT_t (map (Cmult s) x) = map (Cmult s) (IFFT_t x).
Proof. rewrite <- (FFT_IFFT_t x) at 1. rewrite <- FFT_t_scale. apply IFFT_FFT_t. Qed.

Lemma calc_epp_run p a : holds p a -> (0 < p_n p)%nat ->
  calc_epp p = (Ok (p_tw p / INR (p_n p) * / 1000000000000 * trapz (map (fun z => Cmod z ^ 2) (IFFT_t a))), p).
Proof.
  intros (Hr & Ha & Hl) Hn. unfold calc_epp, get_dT_mks. mred. rewrite Hr.
  destruct (Nat.eqb_spec (p_n p) 0); [lia|]. rewrite Ha. reflexivity.
Qed.
Lemma calc_epp_zero p a : holds p a -> p_n p = 0%nat -> calc_epp p = (Raise NonFinite, p).
Proof.
  intros (Hr & Ha & Hl) Hn. unfold calc_epp, get_dT_mks. mred. rewrite Hr, Hn. reflexivity.
Qed.

Lemma trapz_mod_scale c (l : list C) : trapz (map (fun z => Cmod (RtoC c * z)%C ^ 2) l) = c ^ 2 * trapz (map (fun z => Cmod z ^ 2) l).
Proof.
  rewrite <- trapz_scale. f_equal. rewrite map_map. apply map_ext. intros z.
  rewrite Cmod_mult, Cmod_R, Rpow_mult_distr. f_equal. rewrite <- (Rabs_pos_eq (c ^ 2)) by apply pow2_ge_0.
  apply RPow_abs.
Qed.

(*! C10: set_epp E makes calc_epp return E; the new field is a nonnegative multiple of the old one and nothing else changes. *)
Lemma C10_set_epp_l : forall (p : pulse) (a : list C) (e E : R),
  holds p a -> fst (calc_epp p) = Ok e -> 0 < e -> 0 <= E ->
  exists p' c, set_epp E p = (Ok tt, p') /\ calc_epp p' = (Ok E, p') /\
    0 <= c /\ get_AW p' = (Ok (map (fun z => RtoC c * z)%C a), p') /\
    p' = with_AW (p_AW p') p.
Proof.
  intros p a e E Hh He Hpos HE. pose proof Hh as (Hr & Ha & Hl).
  destruct (Nat.eq_dec (p_n p) 0) as [N|N]; [rewrite (calc_epp_zero p a) in He by auto; discriminate|].
  pose proof (calc_epp_run p a Hh ltac:(lia)) as Hc. rewrite Hc in He. cbn [fst] in He. apply Ok_inj in He.
  set (c := sqrt (E / e)).
  assert (Hq : 0 <= E / e) by (apply Rmult_le_pos; [lra|left; apply Rinv_0_lt_compat; lra]).
  exists (with_AW (Some (map (fun z => RtoC c * z)%C a)) p), c.
  assert (Es : set_epp E p = (Ok tt, with_AW (Some (map (fun z => RtoC c * z)%C a)) p)).
  { unfold set_epp. unfold bind at 1. rewrite (get_AT_run p a Ha). unfold bind at 1. rewrite Hc, He.
    destruct (Req_EM_T e 0); [lra|]. destruct (Rlt_dec (E / e) 0); [lra|]. fold c.
    rewrite (map_ext _ (Cmult (RtoC c))) by (intros; ring).
    rewrite set_AT_ok.
    - now rewrite FFT_t_scale, FFT_IFFT_t.
    - now apply (holds_writable p a).
    - now rewrite map_length, IFFT_t_length. }
  split; [exact Es|]. split; [|split; [apply sqrt_pos|split; reflexivity]].
  rewrite (calc_epp_run _ (map (fun z => RtoC c * z)%C a)).
  - pred. do 2 f_equal. change (map (fun z => RtoC c * z)%C a) with (map (Cmult (RtoC c)) a).
    rewrite IFFT_t_scale, map_map, trapz_mod_scale.
    replace (c ^ 2) with (E / e) by (unfold c; rewrite pow2_sqrt; auto).
    rewrite <- Rmult_assoc, (Rmult_comm _ (E / e)), Rmult_assoc, He. field. lra.
  - apply (holds_with p a); auto. now rewrite map_length.
  - pred. lia.
Qed.

(** ** Phases *)
Lemma Cmod_cis_r z t : Cmod (z * cis t)%C = Cmod z.
Proof. rewrite Cmod_mult, cis_mod. ring. Qed.
Lemma Cmod_cis_l z t : Cmod (cis t * z)%C = Cmod z.
Proof. rewrite Cmod_mult, cis_mod. ring. Qed.

(** any elementwise product with phases, written back over the field, keeps the magnitudes *)
Lemma phase_mags {B} (f : C -> B -> C) (a : list C) (ph : list B) s b :
  (forall z t, Cmod (f z t) = Cmod z) ->
  broadcast2 f a ph = Ok s -> assign_all a s = Ok b -> map Cmod b = map Cmod a.
Proof.
  intros Hf. unfold broadcast2.
  destruct (Nat.eqb_spec (length a) (length ph)) as [E|E].
  - okinj. rewrite assign_all_eq by now rewrite map2_length.
    okinj. revert ph E. induction a as [|x a IH]; intros [|t ph] E; simpl in *; try discriminate; auto.
    rewrite Hf, IH by congruence. reflexivity.
  - assert (K : forall t, map Cmod (map (fun x => f x t) a) = map Cmod a).
    { intros t. rewrite map_map. apply map_ext. intros; apply Hf. }
    destruct a as [|x [|y a]].
    + destruct ph as [|t [|t' ph]]; simpl in E; try congruence; try discriminate.
      okinj. okinj. reflexivity.
    + okinj. unfold assign_all. rewrite map_length.
      destruct (Nat.eqb_spec (length [x]) (length ph)); [congruence|].
      destruct ph as [|t [|t' ph]]; simpl in *; discriminate || congruence.
    + destruct ph as [|t [|t' ph]]; try discriminate. okinj.
      rewrite assign_all_eq by now rewrite map_length. okinj. apply K.
Qed.
Lemma phase_mags_l {B} (f : B -> C -> C) (a : list C) (ph : list B) s b :
  (forall z t, Cmod (f t z) = Cmod z) ->
  broadcast2 f ph a = Ok s -> assign_all a s = Ok b -> map Cmod b = map Cmod a.
Proof.
  intros Hf. unfold broadcast2.
  destruct (Nat.eqb_spec (length ph) (length a)) as [E|E].
  - okinj. rewrite assign_all_eq by (rewrite map2_length; congruence).
    okinj. revert a E. induction ph as [|x ph IH]; intros [|t a] E; simpl in *; try discriminate; auto.
    rewrite Hf, IH by congruence. reflexivity.
  - assert (K : forall t, map Cmod (map (f t) a) = map Cmod a).
    { intros t. rewrite map_map. apply map_ext. intros; apply Hf. }
    destruct ph as [|t [|t' ph]].
    + destruct a as [|x [|y a]]; simpl in E; try congruence; try discriminate.
      okinj. unfold assign_all. simpl. discriminate.
    + okinj. rewrite assign_all_eq by now rewrite map_length.
      okinj. apply K.
    + destruct a as [|x [|y a]]; try discriminate. okinj.
      unfold assign_all. rewrite map_length. simpl. discriminate.
Qed.

Lemma set_AW_inv v p p' : p_ready p = true -> set_AW v p = (Ok tt, p') ->
  exists b, assign_all (cur_field p) v = Ok b /\ p' = with_AW (Some b) p.
Proof.
  intros Hr. rewrite set_AW_run by exact Hr. destruct (assign_all (cur_field p) v) as [b|e]; intros H; inversion H.
  eauto.
Qed.
Lemma cur_field_holds p a : holds p a -> cur_field p = a.
Proof. intros (_ & H & _). unfold cur_field. now rewrite H. Qed.

(** the operations documented to act on the spectral phase only *)
Definition is_phase_op (o : pop) : Prop :=
  match o with OChirpW _ _ _ _ | OApplyPhase _ | OTimeOffset _ | ORemoveFit _ _ _ _ => True | _ => False end.

Lemma map_eq_length {A B D} (f : A -> D) (g : B -> D) a b : map f a = map g b -> length a = length b.
Proof. intros H. apply (f_equal (@length D)) in H. now rewrite !map_length in H. Qed.

Lemma map2_map_l {A A' B D} (f : A -> B -> D) (g : A' -> A) l b : map2 f (map g l) b = map2 (fun t z => f (g t) z) l b.
Proof. revert b. induction l as [|x l IH]; intros [|y b]; simpl; auto. now rewrite IH. Qed.
Lemma map2_map_r {A B B' D} (f : A -> B -> D) (g : B' -> B) a l : map2 f a (map g l) = map2 (fun z t => f z (g t)) a l.
Proof. revert l. induction a as [|x a IH]; intros [|y l]; simpl; auto. now rewrite IH. Qed.
Lemma broadcast2_map_l {A A' B D} (f : A -> B -> D) (g : A' -> A) l b :
  broadcast2 f (map g l) b = broadcast2 (fun t z => f (g t) z) l b.
Proof.
  unfold broadcast2. rewrite map_length. destruct (Nat.eqb _ _); [now rewrite map2_map_l|].
  destruct l as [|x [|y l]]; simpl; auto; destruct b as [|u [|v b]]; auto. now rewrite map_map.
Qed.
Lemma broadcast2_map_r {A B B' D} (f : A -> B -> D) (g : B' -> B) a l :
  broadcast2 f a (map g l) = broadcast2 (fun z t => f z (g t)) a l.
Proof.
  unfold broadcast2. rewrite map_length. destruct (Nat.eqb _ _); [now rewrite map2_map_r|].
  destruct a as [|x [|y a]]; simpl.
  - destruct l as [|u [|v l]]; auto.
  - now rewrite map_map.
  - destruct l as [|u [|v l]]; auto.
Qed.

Lemma Cmod_pos_cis m t : 0 <= m -> Cmod (RtoC m * cis t)%C = m.
Proof. intros H. rewrite Cmod_cis_r, Cmod_R. now apply Rabs_pos_eq. Qed.

Lemma phase_op_mags strf o p a p' : is_phase_op o -> holds p a -> run_op strf o p = (Ok tt, p') ->
  exists b, p' = with_AW (Some b) p /\ map Cmod b = map Cmod a.
Proof.
  intros Ho Hh. pose proof Hh as (Hr & Ha & Hl).
  assert (K : forall s, set_AW s p = (Ok tt, p') -> exists b, assign_all a s = Ok b /\ p' = with_AW (Some b) p).
  { intros s H. destruct (set_AW_inv _ _ _ Hr H) as (b & Eb & ->). rewrite (cur_field_holds p a Hh) in Eb. eauto. }
  destruct o; try contradiction; cbn [run_op].
  - unfold chirp_pulse_W.
    assert (E : exists v, match w0 with None => get_V | Some x => bind get_W (fun w => ret (map (fun y => y - x) w)) end p = (Ok v, p)).
    { destruct w0; mred; rewrite Hr; eauto. }
    destruct E as [v E]. unfold bind at 1. rewrite E. unfold bind at 1. rewrite (get_AW_run p a Ha).
    unfold bind, lift. rewrite broadcast2_map_l. destruct (broadcast2 _ _ _) as [s|] eqn:Es; [|discriminate].
    intros H. destruct (K _ H) as (b & Eb & ->).
    exists b. split; [reflexivity|]. eapply phase_mags_l; [|exact Es|exact Eb]. intros. apply Cmod_cis_l.
  - unfold apply_phase_W. unfold bind at 1. rewrite (get_AW_run p a Ha).
    unfold bind, lift. rewrite broadcast2_map_r. destruct (broadcast2 _ _ _) as [s|] eqn:Es; [|discriminate].
    intros H. destruct (K _ H) as (b & Eb & ->).
    exists b. split; [reflexivity|]. eapply phase_mags; [|exact Es|exact Eb]. intros. apply Cmod_cis_r.
  - unfold remove_fit. unfold bind at 1. rewrite (get_AW_run p a Ha). unfold bind, lift.
    destruct (max_list _) as [mx|]; [|discriminate]. mred. rewrite Hr.
    destruct (mask_select (W_of p) _ _) as [wm|]; [|discriminate].
    destruct (mask_select (ph a) _ _) as [pm|]; [|discriminate].
    destruct wm as [|w1 wm]; [discriminate|].
    destruct (broadcast2 _ (ph a) (W_of p)) as [rest|]; [|discriminate].
    rewrite broadcast2_map_l. destruct (broadcast2 _ a rest) as [s|] eqn:Es; [|discriminate].
    intros H. destruct (K _ H) as (b & Eb & ->).
    exists b. split; [reflexivity|]. eapply phase_mags; [|exact Es|exact Eb].
    intros z t. apply Cmod_pos_cis, Cmod_ge_0.
  - unfold add_time_offset. mred. rewrite Hr, Ha. 
    rewrite broadcast2_map_r. destruct (broadcast2 _ _ _) as [s|] eqn:Es; [|discriminate].
    intros H. destruct (K _ H) as (b & Eb & ->).
    exists b. split; [reflexivity|]. eapply phase_mags; [|exact Es|exact Eb]. intros. apply Cmod_cis_r.
Qed.

(*! C11 (partial): a spectral-phase operation that returns leaves every |AW| bin, sum |AW|^2 and sum |AT|^2 unchanged, and
    nothing but the field of the pulse.  Missing: the energy reported by calc_epp may change, see the refutation. *)
Lemma C11_spectrum_unchanged_partial_l : forall (strf : R -> string) (o : pop) (p p' : pulse) (a : list C),
  is_phase_op o -> holds p a -> run_op strf o p = (Ok tt, p') ->
  exists b t t', get_AW p' = (Ok b, p') /\ same_mags b a /\ power_sum b = power_sum a /\
    get_AT p = (Ok t, p) /\ get_AT p' = (Ok t', p') /\ power_sum t' = power_sum t /\
    p' = with_AW (p_AW p') p.
Proof.
  intros strf o p p' a Ho Hh E. destruct (phase_op_mags strf o p a p' Ho Hh E) as (b & -> & Hm).
  pose proof Hh as (Hr & Ha & Hl).
  exists b, (IFFT_t a), (IFFT_t b). split; [reflexivity|]. split; [exact Hm|].
  split; [now apply power_sum_mags|]. split; [now apply get_AT_run|]. split; [reflexivity|].
  split; [|reflexivity]. rewrite !power_sum_AT. rewrite (map_eq_length _ _ _ _ Hm). f_equal. now apply power_sum_mags.
Qed.

Lemma chirp_run g t f w0 p a : holds p a ->
  let v := match w0 with None => V_of p | Some x => map (fun y => y - x) (W_of p) end in
  chirp_pulse_W g t f w0 p = (Ok tt, with_AW (Some (map2 Cmult (map (fun x => cis (chirp_phase g t f x)) v) a)) p).
Proof.
  intros Hh v. pose proof Hh as (Hr & Ha & Hl).
  assert (Lv : length v = p_n p) by (unfold v; destruct w0; rewrite ?map_length, ?W_of_length, ?V_of_length; reflexivity).
  unfold chirp_pulse_W.
  assert (E : match w0 with None => get_V | Some x => bind get_W (fun w => ret (map (fun y => y - x) w)) end p = (Ok v, p)).
  { unfold v. destruct w0; mred; rewrite Hr; eauto. }
  unfold bind at 1. rewrite E. unfold bind at 1. rewrite (get_AW_run p a Ha). unfold bind, lift.
  rewrite broadcast2_eq by (rewrite map_length; congruence).
  apply set_AW_ok; [now apply (holds_writable p a)|]. rewrite map2_length; rewrite map_length; congruence.
Qed.
Lemma apply_run ph p a : holds p a -> length ph = p_n p ->
  apply_phase_W ph p = (Ok tt, with_AW (Some (map2 Cmult a (map cis ph))) p).
Proof.
  intros Hh Hp. pose proof Hh as (Hr & Ha & Hl). unfold apply_phase_W. unfold bind at 1. rewrite (get_AW_run p a Ha).
  unfold bind, lift. rewrite broadcast2_eq by (rewrite map_length; congruence).
  apply set_AW_ok; [now apply (holds_writable p a)|]. rewrite map2_length; rewrite ?map_length; congruence.
Qed.
Lemma offset_run off p a : holds p a ->
  add_time_offset off p = (Ok tt, with_AW (Some (map2 Cmult a (map (fun x => cis (- (x * off))) (W_of p)))) p).
Proof.
  intros Hh. pose proof Hh as (Hr & Ha & Hl). unfold add_time_offset. mred. rewrite Hr, Ha.
  rewrite broadcast2_eq by (rewrite map_length, W_of_length; congruence).
  apply set_AW_ok; [now apply (holds_writable p a)|].
  rewrite map2_length; rewrite ?map_length, ?W_of_length; congruence.
Qed.

Lemma max_list_ge l m : max_list l = Ok m -> In m l /\ forall x, In x l -> x <= m.
Proof.
  destruct l as [|x l]; [discriminate|]. cbn. okinj.
  revert x. induction l as [|y l IH]; intros x; cbn.
  - split; [now left|]. intros z [->|[]]. lra.
  - destruct (IH (Rmax x y)) as [A B]. split.
    + destruct A as [A|A]; [|right; right; exact A]. rewrite <- A.
      unfold Rmax. destruct (Rle_dec x y); auto.
    + intros z [->|[->|H]].
      * eapply Rle_trans; [apply (Rmax_l z y)|]. apply B. now left.
      * eapply Rle_trans; [apply (Rmax_r x z)|]. apply B. now left.
      * apply B. now right.
Qed.

(*! C11: none of the phase operations is ever rejected on a pulse that holds a field (apply_phase_W: for a phase array of length
    NPTS; the two fits: for a nonzero field, a threshold below one and an unwrapping that keeps the length). *)
Lemma C11_phase_operations_return_l : forall (strf : R -> string) (o : pop) (p : pulse) (a : list C),
  is_phase_op o -> holds p a ->
  match o with
  | OApplyPhase ph => length ph = p_n p
  | ORemoveFit ph _ _ thr => length (ph a) = length a /\ 0 <= thr < 1 /\ (exists k, (k < length a)%nat /\ nth k a (RtoC 0) <> RtoC 0)
  | _ => True
  end ->
  exists p', run_op strf o p = (Ok tt, p').
Proof.
  intros strf o p a Ho Hh Hc. pose proof Hh as (Hr & Ha & Hl). destruct o; try contradiction; cbn [run_op].
  - eexists. now apply (chirp_run g t f w0 p a).
  - eexists. now apply (apply_run ph p a).
  - destruct Hc as (L1 & Ht & k & Hk & Hnz).
    unfold remove_fit. unfold bind at 1. rewrite (get_AW_run p a Ha). unfold bind, lift.
    destruct (max_list (map Cmod a)) as [mx|] eqn:Em; [|destruct a; [simpl in Hk; lia|discriminate]].
    destruct (max_list_ge _ _ Em) as [Hin Hge].
    assert (Hmx : 0 < mx).
    { apply Rlt_le_trans with (Cmod (nth k a (RtoC 0))); [now apply Cmod_gt_0|].
      apply Hge, in_map, nth_In, Hk. }
    mred. rewrite Hr. unfold mask_select at 1. rewrite W_of_length, map_length.
    destruct (Nat.eqb_spec (p_n p) (length a)); [|congruence].
    unfold mask_select at 1. rewrite map_length. destruct (Nat.eqb_spec (length (ph a)) (length a)); [|congruence].
    set (msk := filter _ (combine (W_of p) _)).
    assert (Hm : msk <> []).
    { destruct (In_nth _ _ 0 Hin) as (i & Hi & Ei).
      assert (In (nth i (combine (W_of p) (map Cmod a)) (0, 0)) msk).
      { apply filter_In. rewrite combine_nth by (rewrite W_of_length, map_length; congruence). split.
        - rewrite <- combine_nth by (rewrite W_of_length, map_length; congruence). apply nth_In.
          rewrite combine_length, W_of_length, map_length in *. lia.
        - cbn [snd]. rewrite Ei. destruct (Rlt_dec (thr * mx ^ 2) (mx ^ 2)) as [_|N]; [reflexivity|].
          exfalso. apply N. assert (0 < mx ^ 2) by (apply pow_lt; exact Hmx). nra. }
      intros Z. rewrite Z in H. exact H. }
    destruct msk as [|m0 msk]; [congruence|]. cbn [map].
    rewrite broadcast2_eq by (rewrite W_of_length; congruence).
    rewrite broadcast2_eq by (rewrite map_length, map2_length; [congruence|rewrite W_of_length; congruence]).
    eexists. apply set_AW_ok; [now apply (holds_writable p a)|].
    rewrite map2_length; rewrite ?map_length; [congruence|]. rewrite map2_length; rewrite ?W_of_length; congruence.
  - eexists. now apply (offset_run t p a).
Qed.

(** impulse fields *)
Definition delta (n i : nat) : list C := mk n (fun j => if Nat.eqb j i then RtoC 1 else RtoC 0).
Lemma delta_nth n i j : (j < n)%nat -> nth j (delta n i) (RtoC 0) = if Nat.eqb j i then RtoC 1 else RtoC 0.
Proof. intros. unfold delta. now rewrite mk_nth. Qed.
Lemma delta_length n i : length (delta n i) = n. Proof. apply mk_length. Qed.
Lemma FFT_t_delta n i k : (k < n)%nat -> (i < n)%nat ->
  nth k (FFT_t (delta n i)) (RtoC 0) =
  (RtoC (/ INR n) * tw n ((Z.of_nat i + Z.of_nat (Nat.div2 n)) * (Z.of_nat k + Z.of_nat (Nat.div2 n))))%C.
Proof.
  intros Hk Hi. rewrite FFT_t_nth by (rewrite delta_length; exact Hk). rewrite delta_length. f_equal.
  rewrite (csum_single n i (fun j => (nth j (delta n i) (RtoC 0) * _)%C)); auto.
  - rewrite delta_nth, Nat.eqb_refl by exact Hi. ring.
  - intros j Hj Hne. rewrite delta_nth by exact Hj. destruct (Nat.eqb_spec j i); [congruence|ring].
Qed.
Lemma delta_power_nth n i j : (j < n)%nat ->
  nth j (map (fun z => Cmod z ^ 2) (delta n i)) 0 = if Nat.eqb j i then 1 else 0.
Proof.
  intros Hj. rewrite (nth_map' _ _ _ (RtoC 0)) by now rewrite delta_length.
  rewrite delta_nth by exact Hj. destruct (Nat.eqb j i).
  - rewrite Cmod_1. ring.
  - rewrite Cmod_0. ring.
Qed.
Lemma trapz_delta n i : (2 <= n)%nat -> (i < n)%nat ->
  trapz (map (fun z => Cmod z ^ 2) (delta n i)) = if Nat.eqb 0 i then 1/2 else if Nat.eqb (n - 1) i then 1/2 else 1.
Proof.
  intros Hn Hi. rewrite trapz_sum by (rewrite map_length, delta_length; exact Hn).
  rewrite map_length, delta_length.
  assert (E : lrsum (map (fun z => Cmod z ^ 2) (delta n i)) = 1).
  { rewrite lrsum_nth, map_length, delta_length. rewrite (rsum_single n i).
    - rewrite delta_power_nth, Nat.eqb_refl by exact Hi. reflexivity.
    - exact Hi.
    - intros j Hj Hne. rewrite delta_power_nth by exact Hj. destruct (Nat.eqb_spec j i); congruence. }
  rewrite E, !delta_power_nth by lia.
  destruct (Nat.eqb_spec 0 i), (Nat.eqb_spec (n - 1) i); try lia; lra.
Qed.

(*! C11 refuted for calc_epp: on every even grid with at least four points there is a field and a spectral phase that halves the
    energy calc_epp reports (the trapezoidal rule weighs the window edges by one half). *)
Lemma C11_calc_epp_refuted_l : forall (p : pulse) (h : nat),
  writable p -> (p_n p = 2 * h)%nat -> (2 <= h)%nat -> 0 < p_tw p ->
  exists (x : list C) (ph : list R) (p1 p2 : pulse) (e : R),
    set_AT x p = (Ok tt, p1) /\ length x = p_n p /\ length ph = p_n p /\
    apply_phase_W ph p1 = (Ok tt, p2) /\
    calc_epp p1 = (Ok e, p1) /\ calc_epp p2 = (Ok (e / 2), p2) /\ 0 < e.
Proof.
  intros p h Hw Hn Hh Ht. set (n := p_n p) in *.
  assert (Ed : Nat.div2 n = h) by (rewrite Hn; apply Nat.div2_double).
  assert (Hn0 : 0 < INR n) by (apply lt_0_INR; lia).
  set (x := delta n h). set (y := delta n 0).
  set (ph := mk n (fun k => - (PI * (INR k + INR h)))).
  set (p1 := with_AW (Some (FFT_t x)) p).
  assert (E1 : set_AT x p = (Ok tt, p1)) by (apply set_AT_ok; [exact Hw|apply delta_length]).
  assert (H1 : holds p1 (FFT_t x)).
  { split; [apply Hw|]. split; [reflexivity|]. rewrite FFT_t_length. apply delta_length. }
  assert (Em : map2 Cmult (FFT_t x) (map cis ph) = FFT_t y).
  { apply (list_ext (RtoC 0)).
    - rewrite map2_length; rewrite !FFT_t_length; unfold x, y, ph; rewrite ?map_length, ?mk_length, !delta_length; reflexivity.
    - rewrite map2_length by (rewrite FFT_t_length, map_length; unfold x, ph; now rewrite delta_length, mk_length).
      rewrite FFT_t_length. unfold x at 1. rewrite delta_length. intros k Hk.
      rewrite (map2_nth _ _ _ _ (RtoC 0) (RtoC 0))
        by (rewrite ?FFT_t_length, ?map_length; unfold x, ph; now rewrite ?delta_length, ?mk_length).
      rewrite (nth_map' _ _ _ 0) by (unfold ph; now rewrite mk_length). unfold ph. rewrite mk_nth by exact Hk.
      unfold x, y. rewrite !FFT_t_delta by lia. rewrite Ed. rewrite <- Cmult_assoc. f_equal.
      replace (cis (- (PI * (INR k + INR h)))) with (tw n (- (Z.of_nat h * (Z.of_nat k + Z.of_nat h)))).
      + rewrite <- tw_add. apply tw_mod; [lia|]. f_equal. simpl (Z.of_nat 0). ring.
      + unfold tw. f_equal. rewrite opp_IZR, mult_IZR, plus_IZR, <- !INR_IZR_INZ.
        rewrite Hn, mult_INR. simpl (INR 2). assert (0 < INR h) by (apply lt_0_INR; lia). field. lra. }
  set (p2 := with_AW (Some (FFT_t y)) p1).
  assert (E2 : apply_phase_W ph p1 = (Ok tt, p2)).
  { rewrite (apply_run ph p1 (FFT_t x) H1) by (unfold ph; now rewrite mk_length). now rewrite Em. }
  assert (H2 : holds p2 (FFT_t y)).
  { split; [apply Hw|]. split; [reflexivity|]. rewrite FFT_t_length. apply delta_length. }
  exists x, ph, p1, p2, (p_tw p / INR n * / 1000000000000).
  split; [exact E1|]. split; [apply delta_length|]. split; [apply mk_length|]. split; [exact E2|].
  assert (0 < p_tw p / INR n) by (apply Rdiv_lt_0_compat; lra).
  split; [|split].
  - rewrite (calc_epp_run p1 _ H1) by (unfold p1; pred; fold n; lia). rewrite IFFT_FFT_t. unfold p1; pred. fold n.
    unfold x. rewrite trapz_delta by lia. destruct (Nat.eqb_spec 0 h), (Nat.eqb_spec (n - 1) h); try lia.
    do 2 f_equal. field. lra.
  - rewrite (calc_epp_run p2 _ H2) by (unfold p2, p1; pred; fold n; lia). rewrite IFFT_FFT_t. unfold p2, p1; pred. fold n.
    unfold y. rewrite trapz_delta by lia. do 2 f_equal. simpl. field. lra.
  - lra.
Qed.

(** ** C12 *)
Lemma map2_cis_l (g1 g2 : R -> R) v a : length v = length a ->
  map2 Cmult (map (fun x => cis (g1 x)) v) (map2 Cmult (map (fun x => cis (g2 x)) v) a) =
  map2 Cmult (map (fun x => cis (g1 x + g2 x)) v) a.
Proof.
  revert a. induction v as [|x v IH]; intros [|z a] H; simpl in *; try discriminate; auto.
  rewrite IH by congruence. f_equal. rewrite cis_add. ring.
Qed.
Lemma map2_cis_r (g1 g2 : R -> R) v a : length v = length a ->
  map2 Cmult (map2 Cmult a (map (fun x => cis (g1 x)) v)) (map (fun x => cis (g2 x)) v) =
  map2 Cmult a (map (fun x => cis (g1 x + g2 x)) v).
Proof.
  revert a. induction v as [|x v IH]; intros [|z a] H; simpl in *; try discriminate; auto.
  rewrite IH by congruence. f_equal. rewrite cis_add. ring.
Qed.
Lemma map2_cis_id_l (v : list R) (g : R -> R) a : length v = length a -> (forall x, g x = 0) ->
  map2 Cmult (map (fun x => cis (g x)) v) a = a.
Proof.
  intros H G. revert a H. induction v as [|x v IH]; intros [|z a] H; simpl in *; try discriminate; auto.
  rewrite IH by congruence. rewrite G, cis_0. f_equal. ring.
Qed.
Lemma map2_cis_id_r (v : list R) (g : R -> R) a : length v = length a -> (forall x, g x = 0) ->
  map2 Cmult a (map (fun x => cis (g x)) v) = a.
Proof.
  intros H G. revert a H. induction v as [|x v IH]; intros [|z a] H; simpl in *; try discriminate; auto.
  rewrite IH by congruence. rewrite G, cis_0. f_equal. ring.
Qed.
Lemma map_ext' {A B} (f g : A -> B) l : (forall x, f x = g x) -> map f l = map g l.
Proof. intros; now apply map_ext. Qed.

(*! C12: two chirps in a row (any common reference frequency) are the chirp with summed coefficients; the negated
    coefficients restore the pulse exactly. *)
Lemma C12_chirps_compose_invert_l : forall (p : pulse) (a : list C) (g t f g' t' f' : R) (w0 : option R),
  holds p a ->
  bind (chirp_pulse_W g t f w0) (fun _ => chirp_pulse_W g' t' f' w0) p = chirp_pulse_W (g + g') (t + t') (f + f') w0 p /\
  bind (chirp_pulse_W g t f w0) (fun _ => chirp_pulse_W (- g) (- t) (- f) w0) p = (Ok tt, p).
Proof.
  intros p a g t f g' t' f' w0 Hh. pose proof Hh as (Hr & Ha & Hl).
  set (v := match w0 with None => V_of p | Some x => map (fun y => y - x) (W_of p) end).
  assert (Lv : length v = length a) by (unfold v; destruct w0; rewrite ?map_length, ?W_of_length, ?V_of_length; congruence).
  assert (E1 : forall g1 t1 f1 g2 t2 f2, bind (chirp_pulse_W g1 t1 f1 w0) (fun _ => chirp_pulse_W g2 t2 f2 w0) p =
     (Ok tt, with_AW (Some (map2 Cmult (map (fun x => cis (chirp_phase g2 t2 f2 x + chirp_phase g1 t1 f1 x)) v) a)) p)).
  { intros. unfold bind. rewrite (chirp_run g1 t1 f1 w0 p a Hh). fold v.
    set (b := map2 _ _ _). assert (Lb : length b = p_n p) by (unfold b; rewrite map2_length; rewrite ?map_length; congruence).
    rewrite (chirp_run g2 t2 f2 w0 _ b) by (apply (holds_with p a); auto).
    change (V_of (with_AW (Some b) p)) with (V_of p). change (W_of (with_AW (Some b) p)) with (W_of p). fold v.
    rewrite with_AW_with_AW. unfold b. rewrite map2_cis_l by exact Lv. reflexivity. }
  split.
  - rewrite E1, (chirp_run _ _ _ w0 p a Hh). fold v.
    rewrite (map_ext' (fun x => cis (chirp_phase g' t' f' x + chirp_phase g t f x)) (fun x => cis (chirp_phase (g + g') (t + t') (f + f') x)));
      [reflexivity|]. intros x. f_equal. unfold chirp_phase. field.
  - rewrite E1. rewrite map2_cis_id_l; [|exact Lv|].
    + now rewrite with_AW_same.
    + intros x. unfold chirp_phase. field.
Qed.

Lemma map2_cis_sum a : forall ph ph', length ph = length a -> length ph' = length a ->
  map2 Cmult (map2 Cmult a (map cis ph)) (map cis ph') = map2 Cmult a (map cis (map2 Rplus ph ph')).
Proof.
  induction a as [|z a IH]; intros [|x ph] [|y ph'] H1 H2; cbn [length map map2] in *; try lia; auto.
  rewrite IH by lia. f_equal. rewrite cis_add. ring.
Qed.
Lemma map2_cis_opp a : forall ph, length ph = length a ->
  map2 Cmult (map2 Cmult a (map cis ph)) (map cis (map Ropp ph)) = a.
Proof.
  induction a as [|z a IH]; intros [|x ph] H1; cbn [length map map2] in *; try lia; auto.
  rewrite IH by lia. f_equal. rewrite <- Cmult_assoc, <- cis_add. replace (x + - x) with 0 by ring. rewrite cis_0. ring.
Qed.

(*! C12: apply_phase_W composes by adding the phase arrays and is undone by the negated array. *)
Lemma C12_phases_compose_invert_l : forall (p : pulse) (a : list C) (ph ph' : list R),
  holds p a -> length ph = p_n p -> length ph' = p_n p ->
  bind (apply_phase_W ph) (fun _ => apply_phase_W ph') p = apply_phase_W (map2 Rplus ph ph') p /\
  bind (apply_phase_W ph) (fun _ => apply_phase_W (map Ropp ph)) p = (Ok tt, p).
Proof.
  intros p a ph ph' Hh H1 H2. pose proof Hh as (Hr & Ha & Hl).
  assert (E1 : forall q1 q2, length q1 = p_n p -> length q2 = p_n p ->
     bind (apply_phase_W q1) (fun _ => apply_phase_W q2) p =
     (Ok tt, with_AW (Some (map2 Cmult (map2 Cmult a (map cis q1)) (map cis q2))) p)).
  { intros q1 q2 L1 L2. unfold bind. rewrite (apply_run q1 p a Hh L1).
    set (b := map2 _ _ _). assert (Lb : length b = p_n p) by (unfold b; rewrite map2_length; rewrite ?map_length; congruence).
    rewrite (apply_run q2 _ b) by (auto; apply (holds_with p a); auto). now rewrite with_AW_with_AW. }
  split.
  - rewrite E1 by auto. rewrite (apply_run (map2 Rplus ph ph') p a Hh) by (rewrite map2_length; congruence).
    rewrite map2_cis_sum by congruence. reflexivity.
  - rewrite E1 by (rewrite ?map_length; auto). rewrite map2_cis_opp by congruence. now rewrite with_AW_same.
Qed.

(*! C12: time offsets add up and are undone by the negative offset. *)
Lemma C12_offsets_compose_invert_l : forall (p : pulse) (a : list C) (d d' : R),
  holds p a ->
  bind (add_time_offset d) (fun _ => add_time_offset d') p = add_time_offset (d + d') p /\
  bind (add_time_offset d) (fun _ => add_time_offset (- d)) p = (Ok tt, p).
Proof.
  intros p a d d' Hh. pose proof Hh as (Hr & Ha & Hl).
  assert (E1 : forall d1 d2, bind (add_time_offset d1) (fun _ => add_time_offset d2) p =
     (Ok tt, with_AW (Some (map2 Cmult a (map (fun x => cis (- (x * d1) + - (x * d2))) (W_of p)))) p)).
  { intros. unfold bind. rewrite (offset_run d1 p a Hh).
    set (b := map2 _ _ _). assert (Lb : length b = p_n p) by (unfold b; rewrite map2_length; rewrite ?map_length, ?W_of_length; congruence).
    rewrite (offset_run d2 _ b) by (apply (holds_with p a); auto).
    change (W_of (with_AW (Some b) p)) with (W_of p). rewrite with_AW_with_AW. unfold b.
    rewrite map2_cis_r by (rewrite W_of_length; congruence). reflexivity. }
  split.
  - rewrite E1, (offset_run _ p a Hh).
    rewrite (map_ext' (fun x => cis (- (x * d) + - (x * d'))) (fun x => cis (- (x * (d + d'))))); [reflexivity|].
    intros x. f_equal. ring.
  - rewrite E1. rewrite map2_cis_id_r; [|rewrite W_of_length; congruence|intros; ring]. now rewrite with_AW_same.
Qed.

(*! C13: an offset of m grid steps on an even grid moves sample j+m (mod NPTS) to sample j, times one common carrier phase. *)
Lemma C13_offset_circular_shift_l : forall (p : pulse) (a : list C) (h : nat) (m : Z),
  holds p a -> (p_n p = 2 * h)%nat -> (0 < h)%nat -> p_tw p <> 0 ->
  let off := IZR m * (p_tw p / INR (p_n p)) in
  exists p' t t', add_time_offset off p = (Ok tt, p') /\ get_AT p = (Ok t, p) /\ get_AT p' = (Ok t', p') /\
    length t' = p_n p /\
    (forall j, (j < p_n p)%nat ->
      nth j t' (RtoC 0) = (cexp (- (Ci * RtoC (2 * PI * p_f p * off))) *
                           nth (Z.to_nat ((Z.of_nat j + m) mod Z.of_nat (p_n p))) t (RtoC 0))%C) /\
    (forall j, (j < p_n p)%nat ->
      Cmod (nth j t' (RtoC 0)) = Cmod (nth (Z.to_nat ((Z.of_nat j + m) mod Z.of_nat (p_n p))) t (RtoC 0))).
Proof.
  intros p a h m Hh Hn Hh0 Ht off. pose proof Hh as (Hr & Ha & Hl).
  assert (Hn0 : INR (p_n p) <> 0) by (apply not_0_INR; lia).
  assert (Ed : Nat.div2 (p_n p) = h) by (rewrite Hn; apply Nat.div2_double).
  set (b := map2 Cmult a (map (fun x => cis (- (x * off))) (W_of p))).
  assert (Lb : length b = p_n p) by (unfold b; rewrite map2_length; rewrite ?map_length, ?W_of_length; congruence).
  assert (Eci' : forall x, (- (Ci * RtoC x))%C = (0, - x)%R).
  { intros x. unfold Ci, RtoC, Cmult, Copp; simpl. f_equal; ring. }
  assert (Main : forall j, (j < p_n p)%nat ->
      nth j (IFFT_t b) (RtoC 0) = (cexp (- (Ci * RtoC (2 * PI * p_f p * off))) *
                           nth (Z.to_nat ((Z.of_nat j + m) mod Z.of_nat (p_n p))) (IFFT_t a) (RtoC 0))%C).
  { intros j Hj. rewrite IFFT_t_nth by (rewrite Lb; exact Hj). rewrite Lb, Ed.
    assert (Hz : (Z.to_nat ((Z.of_nat j + m) mod Z.of_nat (p_n p)) < p_n p)%nat) by (apply zmodn_lt; lia).
    rewrite IFFT_t_nth by (rewrite Hl; exact Hz). rewrite Hl, Ed.
    rewrite <- csum_scal_l. apply csum_ext. intros k Hk.
    unfold b. rewrite (map2_nth _ _ _ _ (RtoC 0) (RtoC 0)) by (rewrite ?map_length, ?W_of_length; congruence || lia).
    rewrite (nth_map' _ _ _ 0) by (rewrite W_of_length; exact Hk). rewrite W_of_val by exact Hk.
    rewrite Eci', cexp_imag.
    assert (E1 : cis (- ((2 * PI * (INR k - INR (p_n p) / 2) / p_tw p + 2 * PI * p_f p) * off)) =
                 (cis (- (2 * PI * p_f p * off)) * tw (p_n p) (- ((Z.of_nat k - Z.of_nat h) * m)))%C).
    { unfold tw. rewrite <- cis_add. f_equal. rewrite opp_IZR, mult_IZR, minus_IZR, <- !INR_IZR_INZ.
      assert (Hi : INR (p_n p) / 2 = INR h) by (rewrite Hn, mult_INR; simpl; field). rewrite Hi.
      unfold off. field. auto. }
    rewrite E1.
    assert (E2 : (tw (p_n p) (- ((Z.of_nat k - Z.of_nat h) * m)) * tw (p_n p) (- ((Z.of_nat k + Z.of_nat h) * (Z.of_nat j + Z.of_nat h))))%C =
       tw (p_n p) (- ((Z.of_nat k + Z.of_nat h) * (Z.of_nat (Z.to_nat ((Z.of_nat j + m) mod Z.of_nat (p_n p))) + Z.of_nat h)))).
    { rewrite <- tw_add. apply tw_mod; [lia|].
      change (Z.to_nat ((Z.of_nat j + m) mod Z.of_nat (p_n p))) with (zmodn (p_n p) (Z.of_nat j + m)).
      rewrite zmodn_of by lia.
      set (N := Z.of_nat (p_n p)). set (K := (Z.of_nat k + Z.of_nat h)%Z).
      replace (- (K * ((Z.of_nat j + m) mod N + Z.of_nat h)))%Z with (- K * ((Z.of_nat j + m) mod N) - K * Z.of_nat h)%Z by ring.
      rewrite <- (Zminus_mod_idemp_l (- K * ((Z.of_nat j + m) mod N))). rewrite Zmult_mod_idemp_r. rewrite Zminus_mod_idemp_l.
      replace (- ((Z.of_nat k - Z.of_nat h) * m) + - (K * (Z.of_nat j + Z.of_nat h)))%Z
        with (- K * (Z.of_nat j + m) - K * Z.of_nat h + m * N)%Z by (unfold K, N; rewrite Hn; lia).
      apply Z_mod_plus_full. }
    rewrite <- E2. ring. }
  exists (with_AW (Some b) p), (IFFT_t a), (IFFT_t b).
  split; [unfold b; now apply (offset_run off p a)|]. split; [now apply get_AT_run|]. split; [reflexivity|].
  split; [rewrite IFFT_t_length; exact Lb|]. split; [exact Main|].
  intros j Hj. rewrite Main by exact Hj. rewrite Eci', cexp_imag. apply Cmod_cis_l.
Qed.

(*! C14: a temporal chirp leaves |AT| sample by sample and calc_epp unchanged, and changes nothing but the field. *)
Lemma C14_temporal_chirp_l : forall (p : pulse) (a : list C) (c2 c3 T0 : R),
  holds p a ->
  exists p' t t', chirp_pulse_T c2 c3 T0 p = (Ok tt, p') /\ get_AT p = (Ok t, p) /\ get_AT p' = (Ok t', p') /\
    same_mags t' t /\ fst (calc_epp p') = fst (calc_epp p) /\ p' = with_AW (p_AW p') p.
Proof.
  intros p a c2 c3 T0 Hh. pose proof Hh as (Hr & Ha & Hl).
  set (s := map2 Cmult (IFFT_t a) (map (fun x => cis (- (c2 / 2 * (x / T0) ^ 2) - c3 / 3 * (x / T0) ^ 3)) (T_of p))).
  assert (Ls : length s = p_n p) by (unfold s; rewrite map2_length; rewrite ?IFFT_t_length, ?map_length, ?T_of_length; congruence).
  assert (Hm : map Cmod s = map Cmod (IFFT_t a)).
  { unfold s. generalize (T_of p) (T_of_length p). rewrite <- Hl, <- IFFT_t_length. generalize (IFFT_t a).
    intros l. induction l as [|z l IH]; intros [|x v] H; simpl in *; try discriminate; auto.
    rewrite IH by congruence. now rewrite Cmod_cis_r. }
  set (p' := with_AW (Some (FFT_t s)) p).
  assert (E : chirp_pulse_T c2 c3 T0 p = (Ok tt, p')).
  { unfold chirp_pulse_T. mred. rewrite Ha. rewrite Hr.
    rewrite broadcast2_eq by (rewrite IFFT_t_length, map_length, T_of_length; exact Hl).
    apply set_AT_ok; [now apply (holds_writable p a)|exact Ls]. }
  assert (Hh' : holds p' (FFT_t s)) by (apply (holds_with p a); [exact Hh|now rewrite FFT_t_length]).
  exists p', (IFFT_t a), s. split; [exact E|]. split; [now apply get_AT_run|].
  split; [unfold p'; rewrite (get_AT_run _ (FFT_t s)) by reflexivity; now rewrite IFFT_FFT_t|].
  split; [exact Hm|]. split; [|reflexivity].
  destruct (Nat.eq_dec (p_n p) 0) as [N|N].
  - rewrite (calc_epp_zero p a) by auto. now rewrite (calc_epp_zero p' (FFT_t s)) by auto.
  - rewrite (calc_epp_run p a Hh) by lia. rewrite (calc_epp_run p' (FFT_t s) Hh') by (unfold p'; pred; lia).
    cbn [fst]. unfold p'; pred. rewrite IFFT_FFT_t. do 3 f_equal.
    assert (Eq : forall l : list C, map (fun z => Cmod z ^ 2) l = map (fun x => x ^ 2) (map Cmod l)) by (intros; now rewrite map_map).
    now rewrite !Eq, Hm.
Qed.

(*! C15: expand_time_window(k, placement) multiplies NPTS and the window by 2^k, keeps dT, and AT becomes the old samples with
    zeros before / after / split evenly; the sampled energy is unchanged. *)
Lemma C15_expand_l : forall (p : pulse) (a : list C) (k : nat) (l : loc),
  holds p a -> l <> BadLoc -> (0 < p_n p)%nat ->
  exists p' t t' nb na, expand_time_window k l p = (Ok tt, p') /\ get_AT p = (Ok t, p) /\ get_AT p' = (Ok t', p') /\
    p_n p' = (p_n p * 2 ^ k)%nat /\ p_tw p' = p_tw p * 2 ^ k /\ p_f p' = p_f p /\ p_frep p' = p_frep p /\
    fst (get_dT_ps p') = fst (get_dT_ps p) /\
    t' = repeat (RtoC 0) nb ++ t ++ repeat (RtoC 0) na /\
    length t' = p_n p' /\
    (nb + na = p_n p * (2 ^ k - 1))%nat /\
    (l = Before -> na = 0%nat) /\ (l = After -> nb = 0%nat) /\ (l = Even -> (nb <= na <= nb + 1)%nat) /\
    power_sum t' = power_sum t.
Proof.
  intros p a k l Hh Hb Hn. pose proof Hh as (Hr & Ha & Hl).
  set (m := (p_n p * (2 ^ k - 1))%nat).
  assert (H2k : (1 <= 2 ^ k)%nat) by (apply Nat.neq_0_lt_0, Nat.pow_nonzero; lia).
  assert (Em : (p_n p + m = p_n p * 2 ^ k)%nat) by (unfold m; nia).
  set (nb := match l with Before => m | After => 0%nat | _ => Nat.div2 m end).
  set (na := match l with Before => 0%nat | After => m | _ => (m - Nat.div2 m)%nat end).
  pose proof (Nat.div2_odd m) as Hd. assert (Hb1 : (Nat.b2n (Nat.odd m) <= 1)%nat) by (destruct (Nat.odd m); simpl; lia).
  set (t' := repeat (RtoC 0) nb ++ IFFT_t a ++ repeat (RtoC 0) na).
  set (q := with_AW None (with_ready true (with_tw (p_tw p * 2 ^ k) (with_ready true (with_n (p_n p * 2 ^ k) p))))).
  assert (Ls : (nb + na = m)%nat) by (unfold nb, na; destruct l; lia).
  assert (Lt : length t' = (p_n p * 2 ^ k)%nat).
  { unfold t'. rewrite !app_length, !repeat_length, IFFT_t_length, Hl. lia. }
  exists (with_AW (Some (FFT_t t')) q), (IFFT_t a), t', nb, na.
  assert (Hq : writable q) by (split; [reflexivity|left; reflexivity]).
  split.
  { unfold expand_time_window. mred. rewrite Ha. fold m.
    destruct l; try congruence; unfold set_NPTS, set_time_window_ps, set_time_window; mred; pred; fold q.
    - rewrite (set_AT_ok _ q Hq).
      + unfold t', nb, na. now rewrite app_nil_r.
      + unfold q; pred. unfold t', nb, na in Lt. rewrite app_nil_r in Lt. exact Lt.
    - rewrite (set_AT_ok _ q Hq); [reflexivity|exact Lt].
    - rewrite (set_AT_ok _ q Hq); [reflexivity|exact Lt]. }
  split; [now apply get_AT_run|].
  split; [rewrite (get_AT_run _ (FFT_t t')) by reflexivity; now rewrite IFFT_FFT_t|].
  split; [reflexivity|]. split; [reflexivity|]. split; [reflexivity|]. split; [reflexivity|].
  split.
  { mred. unfold q; pred. rewrite Hr. destruct (Nat.eqb_spec (p_n p) 0); [lia|].
    destruct (Nat.eqb_spec (p_n p * 2 ^ k) 0); [lia|]. cbn [fst]. f_equal.
    rewrite mult_INR, pow_INR. simpl (INR 2). replace (1 + 1) with 2 by ring.
    assert (INR (p_n p) <> 0) by (apply not_0_INR; lia). assert (2 ^ k <> 0) by (apply pow_nonzero; lra). field. auto. }
  split; [reflexivity|]. split; [exact Lt|]. split; [exact Ls|].
  split; [intros ->; reflexivity|]. split; [intros ->; reflexivity|].
  split; [intros ->; unfold nb, na; lia|].
  assert (Z0 : forall n, power_sum (repeat (RtoC 0) n) = 0).
  { induction n as [|n IH]; [reflexivity|]. 
    change (power_sum (repeat (RtoC 0) (S n))) with (Cmod (RtoC 0) ^ 2 + power_sum (repeat (RtoC 0) n)).
    rewrite IH, Cmod_0. ring. }
  unfold t'. unfold power_sum in *. rewrite !map_app, !lrsum_app, !Z0. ring.
Qed.

(** ** C16 *)
Lemma py_round_half x : Rabs (IZR (py_round x) - x) <= 1 / 2.
Proof.
  unfold py_round. pose proof (base_Int_part x) as [A B]. set (k := Int_part x) in *.
  destruct (Rlt_dec (x - IZR k) (1 / 2)) as [H|H]; [|destruct (Rlt_dec (1 / 2) (x - IZR k)) as [H'|H'];
    [|destruct (Z.even k)]]; rewrite ?plus_IZR; apply Rabs_le; lra.
Qed.

(*! C16: the spectrum is moved rigidly by the integer number of bins nearest to the requested frequency shift; energy is preserved,
    nothing but the field changes and rolling back by the same number restores the field. *)
Lemma C16_rotate_l : forall (p : pulse) (a : list C) (wl : R),
  holds p a -> (2 <= p_n p)%nat -> 0 < p_tw p ->
  exists p' b (r : Z), rotate_spectrum_to_new_center_wl wl p = (Ok tt, p') /\ get_AW p' = (Ok b, p') /\
    get_dF_THz p = (Ok (/ p_tw p), p) /\
    Rabs (IZR r - (c_nmps / wl - p_f p) / (/ p_tw p)) <= 1 / 2 /\
    length b = p_n p /\
    (forall k, (k < p_n p)%nat -> nth (Z.to_nat ((Z.of_nat k + r) mod Z.of_nat (p_n p))) b (RtoC 0) = nth k a (RtoC 0)) /\
    power_sum b = power_sum a /\ roll (- r) b = a /\ p' = with_AW (p_AW p') p.
Proof.
  intros p a wl Hh Hn Ht. pose proof Hh as (Hr & Ha & Hl).
  assert (Ed : get_dF_THz p = (Ok (/ p_tw p), p)).
  { destruct (C04_units_l p) as (_ & _ & _ & _ & _ & _ & H); [exact Hr|lia|lra|]. rewrite H by exact Hn.
    now rewrite Rabs_pos_eq by lra. }
  set (r := (- 1 * py_round ((p_f p - c_nmps / wl) / / p_tw p))%Z).
  exists (with_AW (Some (roll r a)) p), (roll r a), r.
  split.
  { unfold rotate_spectrum_to_new_center_wl, get_center_frequency_THz. unfold bind at 1, gets at 1.
    unfold bind at 1. rewrite Ed. unfold bind at 1. rewrite (get_AW_run p a Ha). fold r.
    apply set_AW_ok; [now apply (holds_writable p a)|now rewrite roll_length]. }
  split; [reflexivity|]. split; [exact Ed|]. split.
  { unfold r. rewrite mult_IZR. pose proof (py_round_half ((p_f p - c_nmps / wl) / / p_tw p)) as H.
    rewrite Rabs_minus_sym in H. eapply Rle_trans; [|exact H]. right. f_equal.
    unfold Rdiv. simpl (IZR (-1)). ring. }
  split; [now rewrite roll_length|]. split.
  { intros k Hk. rewrite roll_nth by (rewrite Hl; apply zmodn_lt; lia). rewrite Hl. f_equal.
    fold (zmodn (p_n p) (Z.of_nat k + r)). transitivity (zmodn (p_n p) (Z.of_nat k)); [|now apply zmodn_id].
    apply zmodn_eq. rewrite zmodn_of by lia. rewrite Zminus_mod_idemp_l. f_equal. ring. }
  split. { unfold power_sum. rewrite <- roll_map. apply lrsum_perm, roll_perm. }
  split; [|reflexivity]. rewrite roll_roll. replace (- r + r)%Z with 0%Z by ring. apply roll_0.
Qed.

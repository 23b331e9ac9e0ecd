(** Proofs about the Pulse model, part 4: what the dispersion, fit-removal and noise operations write into the field (C78-C80). *)
From Coq Require Import String.
From Coq Require Import Reals List ZArith Bool Arith Lia Lra.
From Coquelicot Require Import Complex Derive Hierarchy AutoDerive.
From Verif Require Import Base CNum NumPy ModelFFT FFTProofs ModelPulse Spec ModelPulseOps PulseProofs PulseHistory PulseOpsProofs PulseRegridProofs.
Import ListNotations.
Local Open Scope R_scope.

(** ** C78: the dispersion phase *)
(** [taylor4 w0 g t f phi]: phi is the function of angular frequency with phase, group delay 0 and dispersion
    coefficients beta2 = g, beta3 = t, beta4 = f at w0, and no higher order. *)
Definition taylor4 (w0 g t f : R) (phi : R -> R) : Prop :=
  exists p1 p2 p3 : R -> R,
    (forall x, is_derive phi x (p1 x)) /\ (forall x, is_derive p1 x (p2 x)) /\
    (forall x, is_derive p2 x (p3 x)) /\ (forall x, is_derive p3 x f) /\
    phi w0 = 0 /\ p1 w0 = 0 /\ p2 w0 = g /\ p3 w0 = t.

Lemma chirp_taylor g t f w0 : taylor4 w0 g t f (fun x => chirp_phase g t f (x - w0)).
Proof.
  exists (fun x => g * (x - w0) + t / 2 * (x - w0) ^ 2 + f / 6 * (x - w0) ^ 3),
         (fun x => g + t * (x - w0) + f / 2 * (x - w0) ^ 2), (fun x => t + f * (x - w0)).
  unfold chirp_phase.
  split; [|split; [|split; [|split; [|split; [|split; [|split]]]]]];
    try (intros x; auto_derive; [exact I|match goal with |- @eq _ ?u ?v => change (@eq R u v) end; field]); field.
Qed.

Lemma V_of_W_of p : V_of p = map (fun y => y - 2 * PI * p_f p) (W_of p).
Proof.
  unfold W_of. rewrite map_map. rewrite <- (map_id (V_of p)) at 1. apply map_ext. intros. unfold w0_of. ring.
Qed.

(*! C78: chirp_pulse_W multiplies every bin by the phase factor whose Taylor coefficients at the expansion
    frequency (the carrier unless given) are exactly GDD, TOD and FOD, with no constant, linear or higher term. *)
Lemma C78_chirp_applies_stated_dispersion_l : forall (g t f : R) (w0 : option R) (p : pulse) (a : list C),
  holds p a ->
  let c := match w0 with Some x => x | None => 2 * PI * p_f p end in
  exists (phi : R -> R) (b : list C),
    taylor4 c g t f phi /\ length b = p_n p /\
    chirp_pulse_W g t f w0 p = (Ok tt, with_AW (Some b) p) /\
    (forall k, (k < p_n p)%nat ->
       nth k b (RtoC 0) = (cis (phi (nth k (spec_W (p_n p) (p_tw p) (p_f p)) 0)) * nth k a (RtoC 0))%C).
Proof.
  intros g t f w0 p a Hh c. pose proof Hh as (Hr & Ha & Hl).
  exists (fun x => chirp_phase g t f (x - c)). eexists. split; [apply chirp_taylor|].
  assert (E : match w0 with None => V_of p | Some x => map (fun y => y - x) (W_of p) end = map (fun y => y - c) (W_of p)).
  { unfold c. destruct w0; [reflexivity|apply V_of_W_of]. }
  split; [|split; [exact (chirp_run g t f w0 p a Hh)|]]; rewrite E.
  - rewrite map2_length; rewrite !map_length, W_of_length; congruence.
  - intros k Hk. rewrite (map2_nth _ _ _ _ (cis 0) (RtoC 0)) by (rewrite !map_length, W_of_length; congruence).
    f_equal. rewrite map_map. rewrite (nth_map' _ _ _ 0) by (rewrite W_of_length; exact Hk).
    now rewrite W_of_spec.
Qed.

(** ** C79: removing a fitted phase *)
Fixpoint poly (c : list R) (x : R) : R := match c with [] => 0 | a :: c' => a + x * poly c' x end.
Definition ssr (f : R -> R) (xs ys : list R) : R := lrsum (map (fun q => (f (fst q) - snd q) ^ 2) (combine xs ys)).
(** [f] is a least-squares polynomial of degree [deg] through the points *)
Definition least_squares (deg : nat) (f : R -> R) (xs ys : list R) : Prop :=
  (exists c, length c = S deg /\ forall x, f x = poly c x) /\
  forall c, length c = S deg -> ssr f xs ys <= ssr (poly c) xs ys.

Lemma lrsum_sq_zero l : (forall x, In x l -> 0 <= x) -> lrsum l <= 0 -> forall x, In x l -> x = 0.
Proof.
  induction l as [|y l IH]; intros Hp Hs x Hx; [destruct Hx|].
  assert (P : forall l, (forall x, In x l -> 0 <= x) -> 0 <= lrsum l).
  { clear. induction l as [|z l IH]; intros H; cbn; [lra|].
    assert (0 <= z) by (apply H; now left). assert (0 <= lrsum l) by (apply IH; intros; apply H; now right).
    unfold lrsum in *. cbn in *. lra. }
  assert (A : lrsum (y :: l) = y + lrsum l) by reflexivity.
  assert (0 <= y) by (apply Hp; now left).
  assert (0 <= lrsum l) by (apply P; intros; apply Hp; now right).
  destruct Hx as [<-|Hx]; [lra|]. apply IH; auto; [intros; apply Hp; now right|lra].
Qed.

Lemma least_squares_exact deg f xs c : length c = S deg -> least_squares deg f xs (map (poly c) xs) ->
  forall x, In x xs -> f x = poly c x.
Proof.
  intros Hc [_ H] x Hx. specialize (H c Hc).
  assert (Z : ssr (poly c) xs (map (poly c) xs) = 0).
  { unfold ssr. clear. induction xs as [|y xs IH]; cbn; [reflexivity|]. unfold lrsum in *. cbn in *. rewrite IH. ring. }
  rewrite Z in H. unfold ssr in H.
  assert (K : (f x - poly c x) ^ 2 = 0).
  { apply (lrsum_sq_zero _ ltac:(intros z Hz; apply in_map_iff in Hz; destruct Hz as (q & <- & _); apply pow2_ge_0) H).
    apply in_map_iff. exists (x, poly c x). split; [reflexivity|].
    clear - Hx. induction xs as [|y xs IH]; [destruct Hx|]. cbn. destruct Hx as [->|Hx]; [now left|right; auto]. }
  assert (f x - poly c x = 0) by nra. lra.
Qed.

Lemma combine_seq (x y : list R) : length x = length y ->
  combine x y = map (fun k => (nth k x 0, nth k y 0)) (seq 0 (length x)).
Proof.
  revert y. induction x as [|a x IH]; intros [|b y] H; try discriminate; [reflexivity|].
  cbn [length seq combine map nth]. rewrite <- seq_shift, map_map. cbn [nth]. now rewrite IH by (injection H; auto).
Qed.
Lemma filter_map_comm {A B} (g : A -> B) (q : B -> bool) l : filter q (map g l) = map g (filter (fun x => q (g x)) l).
Proof. induction l as [|x l IH]; cbn; [reflexivity|]. destruct (q (g x)); cbn; now rewrite IH. Qed.
Lemma mask_select_seq x key m : length x = length key ->
  mask_select x key m = Ok (map (fun k => nth k x 0) (filter (fun k => m (nth k key 0)) (seq 0 (length x)))).
Proof.
  intros H. unfold mask_select. rewrite H, Nat.eqb_refl, <- H. f_equal.
  rewrite combine_seq by exact H. rewrite filter_map_comm, map_map. reflexivity.
Qed.

(** the bins whose power exceeds the fraction [thr] of the peak power [M] *)
Definition bright (a : list C) (thr M : R) : list nat :=
  filter (fun k => if Rlt_dec (thr * M) (Cmod (nth k a (RtoC 0)) ^ 2) then true else false) (seq 0 (length a)).
Definition peak_power (a : list C) (M : R) : Prop :=
  (forall k, (k < length a)%nat -> Cmod (nth k a (RtoC 0)) ^ 2 <= M) /\
  exists k, (k < length a)%nat /\ Cmod (nth k a (RtoC 0)) ^ 2 = M.

Lemma peak_max a M mx : peak_power a M -> max_list (map Cmod a) = Ok mx -> mx ^ 2 = M.
Proof.
  intros [Hle (k & Hk & Ek)] Hm. destruct (max_list_ge _ _ Hm) as [Hin Hge].
  apply in_map_iff in Hin. destruct Hin as (z & Ez & Hz).
  apply Rle_antisym.
  - destruct (In_nth _ _ (RtoC 0) Hz) as (i & Hi & Ei). rewrite <- Ez, <- Ei. now apply Hle.
  - rewrite <- Ek. apply pow_incr. split; [apply Cmod_ge_0|]. apply Hge, in_map, nth_In, Hk.
Qed.

Lemma remove_fit_run ph fit deg thr p a M : holds p a -> length (ph a) = p_n p -> peak_power a M -> bright a thr M <> [] ->
  let W := spec_W (p_n p) (p_tw p) (p_f p) in
  let F := fit deg (map (fun k => nth k W 0) (bright a thr M)) (map (fun k => nth k (ph a) 0) (bright a thr M)) in
  exists b, remove_fit ph fit deg thr p = (Ok tt, with_AW (Some b) p) /\ length b = p_n p /\
    forall k, (k < p_n p)%nat -> nth k b (RtoC 0) = (RtoC (Cmod (nth k a (RtoC 0))) * cis (nth k (ph a) 0 - F (nth k W 0)))%C.
Proof.
  intros Hh Lp HM Hb W F. pose proof Hh as (Hr & Ha & Hl).
  unfold remove_fit. unfold bind at 1. rewrite (get_AW_run p a Ha). unfold bind, lift.
  destruct (max_list (map Cmod a)) as [mx|] eqn:Em.
  2:{ destruct HM as [_ (k & Hk & _)]. destruct a; [simpl in Hk; lia|discriminate]. }
  rewrite (peak_max a M mx HM Em).
  mred. rewrite Hr.
  assert (EW : W_of p = W) by apply W_of_spec. rewrite EW.
  assert (LW : length W = p_n p) by (rewrite <- EW; apply W_of_length).
  assert (EB : filter (fun k => if Rlt_dec (thr * M) (nth k (map Cmod a) 0 ^ 2) then true else false) (seq 0 (p_n p)) = bright a thr M).
  { unfold bright. rewrite Hl. apply filter_ext_in. intros k Hk. apply in_seq in Hk.
    rewrite (nth_map' _ _ _ (RtoC 0)) by lia. reflexivity. }
  rewrite mask_select_seq by (rewrite map_length; congruence). rewrite LW, EB.
  rewrite mask_select_seq by (rewrite map_length; congruence). rewrite Lp, EB.
  fold F. destruct (map (fun k => nth k W 0) (bright a thr M)) as [|x0 xs] eqn:Ex.
  { destruct (bright a thr M); [congruence|discriminate]. }
  rewrite broadcast2_eq by congruence.
  rewrite broadcast2_eq by (rewrite map_length, map2_length; congruence).
  assert (Lb : length (map2 (fun (m : R) (t : R) => RtoC m * cis t)%C (map Cmod a)
     (map2 (fun q x => q - F x) (ph a) W)) = p_n p).
  { rewrite map2_length; rewrite ?map_length; [exact Hl|]. rewrite map2_length; congruence. }
  eexists. split; [apply set_AW_ok; [now apply (holds_writable p a)|exact Lb]|]. split; [exact Lb|].
  intros k Hk. rewrite (map2_nth _ _ _ _ 0 0) by (rewrite ?map_length, ?map2_length; rewrite ?map_length; congruence).
  rewrite (nth_map' _ _ _ (RtoC 0)) by congruence.
  rewrite (map2_nth _ _ _ _ 0 0) by congruence. reflexivity.
Qed.

Lemma remove_fit_spec ph fit deg thr p a M : holds p a -> length (ph a) = p_n p -> peak_power a M -> bright a thr M <> [] ->
  (forall k, (k < p_n p)%nat -> nth k a (RtoC 0) = (RtoC (Cmod (nth k a (RtoC 0))) * cis (nth k (ph a) 0))%C) ->
  let W := spec_W (p_n p) (p_tw p) (p_f p) in
  let F := fit deg (map (fun k => nth k W 0) (bright a thr M)) (map (fun k => nth k (ph a) 0) (bright a thr M)) in
  exists b, remove_fit ph fit deg thr p = (Ok tt, with_AW (Some b) p) /\ length b = p_n p /\
    (forall k, (k < p_n p)%nat -> nth k b (RtoC 0) = (nth k a (RtoC 0) * cis (- F (nth k W 0)))%C) /\
    (forall c, length c = S deg ->
       least_squares deg F (map (fun k => nth k W 0) (bright a thr M)) (map (fun k => nth k (ph a) 0) (bright a thr M)) ->
       (forall k, In k (bright a thr M) -> nth k (ph a) 0 = poly c (nth k W 0)) ->
       forall k, In k (bright a thr M) -> nth k b (RtoC 0) = RtoC (Cmod (nth k a (RtoC 0)))).
Proof.
  intros Hh Lp HM Hb Hph W F. destruct (remove_fit_run ph fit deg thr p a M Hh Lp HM Hb) as (b & Hrun & Lb & Hn).
  fold W in Hn. fold F in Hn. exists b. split; [exact Hrun|]. split; [exact Lb|]. split.
  - intros k Hk. rewrite Hn by exact Hk. rewrite (Hph k Hk) at 2. unfold Rminus. rewrite cis_add. ring.
  - intros c Hc Hls Hq k Hk. assert (Hk' : (k < p_n p)%nat).
    { unfold bright in Hk. apply filter_In in Hk. destruct Hk as [Hk _]. apply in_seq in Hk. destruct Hh as (_ & _ & Hl). lia. }
    rewrite Hn by exact Hk'. rewrite (Hq k Hk).
    assert (E : map (fun k => nth k (ph a) 0) (bright a thr M) = map (poly c) (map (fun k => nth k W 0) (bright a thr M))).
    { rewrite map_map. apply map_ext_in. exact Hq. }
    rewrite E in Hls. rewrite (least_squares_exact deg F _ c Hc Hls) by (apply (in_map (fun k => nth k W 0)); exact Hk).
    replace (poly c (nth k W 0) - poly c (nth k W 0)) with 0 by ring. rewrite cis_0. apply Cmult_1_r.
Qed.

(*! C79: dechirp_pulse subtracts, from the phase of every bin, the quadratic fitted to the bins above the threshold, and nothing
    else; when those bins do have a quadratic phase, they come out with zero phase. *)
Lemma C79_dechirp_removes_quadratic_phase_l : forall (ph : list C -> list R) (fit : nat -> list R -> list R -> R -> R)
    (thr : R) (p : pulse) (a : list C) (M : R),
  holds p a -> length (ph a) = p_n p -> peak_power a M -> bright a thr M <> [] ->
  (forall k, (k < p_n p)%nat -> nth k a (RtoC 0) = (RtoC (Cmod (nth k a (RtoC 0))) * cis (nth k (ph a) 0))%C) ->
  let W := spec_W (p_n p) (p_tw p) (p_f p) in
  let xs := map (fun k => nth k W 0) (bright a thr M) in
  let ys := map (fun k => nth k (ph a) 0) (bright a thr M) in
  exists b, dechirp_pulse ph fit thr p = (Ok tt, with_AW (Some b) p) /\ length b = p_n p /\
    (forall k, (k < p_n p)%nat -> nth k b (RtoC 0) = (nth k a (RtoC 0) * cis (- fit 2%nat xs ys (nth k W 0)))%C) /\
    (forall c0 c1 c2, least_squares 2 (fit 2%nat xs ys) xs ys ->
       (forall k, In k (bright a thr M) -> nth k (ph a) 0 = c0 + c1 * nth k W 0 + c2 * nth k W 0 ^ 2) ->
       forall k, In k (bright a thr M) -> nth k b (RtoC 0) = RtoC (Cmod (nth k a (RtoC 0)))).
Proof.
  intros ph fit thr p a M Hh Lp HM Hb Hph W xs ys.
  destruct (remove_fit_spec ph fit 2 thr p a M Hh Lp HM Hb Hph) as (b & H1 & H2 & H3 & H4).
  exists b. split; [exact H1|]. split; [exact H2|]. split; [exact H3|].
  intros c0 c1 c2 Hls Hq. apply (H4 [c0; c1; c2] eq_refl Hls). intros k Hk. rewrite (Hq k Hk). cbn [poly]. fold W. ring.
Qed.

(*! C79: remove_time_delay does the same with a straight line, so that a pulse whose bright bins have a linear phase (a pure
    delay) comes out with zero phase there. *)
Lemma C79_remove_time_delay_removes_linear_phase_l : forall (ph : list C -> list R) (fit : nat -> list R -> list R -> R -> R)
    (thr : R) (p : pulse) (a : list C) (M : R),
  holds p a -> length (ph a) = p_n p -> peak_power a M -> bright a thr M <> [] ->
  (forall k, (k < p_n p)%nat -> nth k a (RtoC 0) = (RtoC (Cmod (nth k a (RtoC 0))) * cis (nth k (ph a) 0))%C) ->
  let W := spec_W (p_n p) (p_tw p) (p_f p) in
  let xs := map (fun k => nth k W 0) (bright a thr M) in
  let ys := map (fun k => nth k (ph a) 0) (bright a thr M) in
  exists b, remove_time_delay ph fit thr p = (Ok tt, with_AW (Some b) p) /\ length b = p_n p /\
    (forall k, (k < p_n p)%nat -> nth k b (RtoC 0) = (nth k a (RtoC 0) * cis (- fit 1%nat xs ys (nth k W 0)))%C) /\
    (forall c0 c1, least_squares 1 (fit 1%nat xs ys) xs ys ->
       (forall k, In k (bright a thr M) -> nth k (ph a) 0 = c0 + c1 * nth k W 0) ->
       forall k, In k (bright a thr M) -> nth k b (RtoC 0) = RtoC (Cmod (nth k a (RtoC 0)))).
Proof.
  intros ph fit thr p a M Hh Lp HM Hb Hph W xs ys.
  destruct (remove_fit_spec ph fit 1 thr p a M Hh Lp HM Hb Hph) as (b & H1 & H2 & H3 & H4).
  exists b. split; [exact H1|]. split; [exact H2|]. split; [exact H3|].
  intros c0 c1 Hls Hq. apply (H4 [c0; c1] eq_refl Hls). intros k Hk. rewrite (Hq k Hk). cbn [poly]. fold W. ring.
Qed.

(** ** C80: noise *)
(** the current frequency grid in Hz, and its spacing *)
Definition spec_F_Hz (n : nat) (t f : R) (k : nat) : R := (f + (INR k - INR n / 2) / t) * 1000000000000.

Lemma get_Wm_hit strf q w : p_Wh q = Some (hash_of strf q) -> p_Wv q = Some w -> get_W_mks strf q = (Ok (Some w), q).
Proof. intros H1 H2. unfold get_W_mks. mred. unfold hash_eqb. now rewrite H1, String.eqb_refl, H2. Qed.

Lemma has_zero_false l : (forall x, In x l -> x <> 0) -> has_zero l = false.
Proof.
  intros H. unfold has_zero. apply not_true_is_false. intros E. apply existsb_exists in E. destruct E as (x & Hx & E).
  destruct (Req_EM_T x 0); [now apply (H x)|discriminate].
Qed.

Section Noise.
Variables (strf : R -> string) (planck : R) (ri rp : nat -> R) (p p1 : pulse) (a : list C).
Hypothesis Hh : holds p a.
Hypothesis Hn : (2 <= p_n p)%nat.
Hypothesis Ht : 0 < p_tw p.
Hypothesis Hw : get_W_mks strf p = (Ok (Some (map (fun w => w * 1000000000000) (spec_W (p_n p) (p_tw p) (p_f p)))), p1).
Hypothesis Hp : 0 < planck.
Let n := p_n p.
Let F := spec_F_Hz n (p_tw p) (p_f p).
Hypothesis HF : forall k, (k < n)%nat -> F k <> 0.
Let dF := 1000000000000 / p_tw p.

Let Wm := map (fun w => w * 1000000000000) (spec_W (p_n p) (p_tw p) (p_f p)).
Lemma noise_W2 : get_W_mks strf p1 = (Ok (Some Wm), p1).
Proof. destruct (get_Wm_after _ _ _ _ Hw) as (A & B & _). now apply get_Wm_hit. Qed.
Lemma noise_h1 : holds p1 a.
Proof. destruct (get_Wm_after _ _ _ _ Hw) as (_ & _ & O). now apply (obs_holds p). Qed.
Lemma noise_n1 : p_n p1 = n.
Proof. destruct (get_Wm_after _ _ _ _ Hw) as (_ & _ & O). unfold obs in O. injection O as E _ _ _ _ _. exact E. Qed.
Lemma spec_W_nth' k : (k < n)%nat -> nth k (spec_W (p_n p) (p_tw p) (p_f p)) 0 = 2 * PI * (p_f p + (INR k - INR n / 2) / p_tw p).
Proof. intros H. unfold spec_W. now rewrite mk_nth. Qed.
Lemma noise_dF : get_dF_mks strf p = (Ok dF, p1).
Proof.
  unfold get_dF_mks. unfold bind at 1. rewrite Hw. unfold as_array, bind, ret, lift. f_equal.
  assert (L : length (spec_W (p_n p) (p_tw p) (p_f p)) = n) by (unfold spec_W; apply mk_length).
  pose proof (spec_W_nth' 0 ltac:(unfold n; lia)) as E0. pose proof (spec_W_nth' 1 ltac:(unfold n; lia)) as E1.
  destruct (spec_W (p_n p) (p_tw p) (p_f p)) as [|x [|y l]]; try (cbn in L; unfold n in L; lia).
  cbn [nth] in E0, E1. cbn [map first_spacing]. f_equal. rewrite E0, E1. pose proof PI_RGT_0.
  match goal with |- Rabs ?z / _ = _ => replace z with (2 * PI * (1000000000000 / p_tw p)) by (simpl; field; lra) end.
  rewrite Rabs_pos_eq; [unfold dF; field; lra|]. apply Rmult_le_pos; [lra|]. apply Rlt_le, Rdiv_lt_0_compat; lra.
Qed.
Lemma noise_F : get_F_mks strf p1 = (Ok (mk n F), p1).
Proof.
  unfold get_F_mks. unfold bind at 1. rewrite noise_W2. unfold as_array, bind, ret, Wm. f_equal. f_equal.
  rewrite map_map. unfold spec_W. rewrite map_mk. apply (list_ext 0); [now rewrite !mk_length|].
  intros k Hk. rewrite mk_length in Hk. rewrite !mk_nth by exact Hk. unfold F, spec_F_Hz, n. pose proof PI_RGT_0. field. lra.
Qed.

Definition photons (z : C) (k : nat) : R := Cmod z ^ 2 / dF / (planck * F k).
Definition amp (kd : noise_kind) (k : nat) : R :=
  match kd with
  | one_photon_freq => ri k * (planck * F k) * dF
  | sqrt_N_freq => ri k * sqrt (Rmax 0 (photons (nth k a (RtoC 0)) k)) * (planck * F k) * dF
  | other_noise => 0
  end.

Ltac lens := rewrite ?mk_length, ?map_length; first [congruence | rewrite map2_length; [lens|lens]].
Lemma noise_run kd : kd <> other_noise ->
  exists b, add_noise strf planck ri rp kd p = (Ok tt, with_AW (Some b) p1) /\ length b = n /\
    forall k, (k < n)%nat -> nth k b (RtoC 0) = (nth k a (RtoC 0) + RtoC (amp kd k) * cis (2 * PI * rp k))%C.
Proof.
  intros Hk. unfold add_noise. unfold bind at 1. rewrite noise_dF.
  pose proof noise_h1 as (R1 & A1 & L1). rewrite noise_n1 in L1.
  unfold bind at 1. rewrite (get_AW_run p1 a A1). unfold bind at 1. rewrite noise_F. rewrite map_mk. cbv zeta.
  assert (D : 0 < dF) by (unfold dF; apply Rdiv_lt_0_compat; lra).
  destruct (Req_EM_T dF 0) as [E|_]; [lra|].
  rewrite has_zero_false.
  2:{ intros x Hx. destruct (In_nth _ _ 0 Hx) as (i & Hi & Ei). rewrite mk_length in Hi. rewrite mk_nth in Ei by exact Hi.
      rewrite <- Ei. apply Rmult_integral_contrapositive_currified; [lra|now apply HF]. }
  unfold bind, lift.
  rewrite broadcast2_eq by lens.
  assert (W1 : writable p1) by (apply (holds_writable p1 a), noise_h1).
  destruct kd; [| |congruence].
  - rewrite broadcast2_eq by lens.
    rewrite broadcast2_eq by lens.
    rewrite broadcast2_eq by lens.
    rewrite broadcast2_eq by lens.
    assert (Q : forall b, length b = n -> set_AW b p1 = (Ok tt, with_AW (Some b) p1)).
    { intros b Lb. apply set_AW_ok; [exact W1|]. now rewrite noise_n1. }
    eexists. split; [apply Q|].
    + rewrite map2_length; [exact L1|].
      lens.
    + split.
      * rewrite map2_length; [exact L1|].
        lens.
      * intros k Hkn.
        assert (La : length (map2 (fun z e => Cmod z ^ 2 / dF / e) a (mk n (fun i => planck * F i))) = n)
          by lens.
        rewrite (map2_nth Cplus a _ k (RtoC 0) (RtoC 0)); [| |congruence].
        2:{ lens. }
        f_equal. rewrite L1.
        rewrite (map2_nth _ _ _ k 0 0) by lens.
        rewrite (map2_nth _ _ _ k 0 0) by lens.
        rewrite (map2_nth _ _ _ k 0 0) by lens.
        rewrite (nth_map' _ _ _ 0) by (rewrite La; exact Hkn).
        rewrite (map2_nth _ _ _ k (RtoC 0) 0) by lens.
        rewrite !mk_nth by exact Hkn. f_equal.
        -- f_equal. unfold amp, photons. f_equal. f_equal. f_equal. f_equal.
           set (x := Cmod _ ^ 2 / dF / _). unfold Rmax. destruct (Rlt_dec x 0), (Rle_dec 0 x); auto; lra.
        -- f_equal. ring.
  - rewrite L1. rewrite broadcast2_eq by lens.
    rewrite broadcast2_eq by lens.
    rewrite broadcast2_eq by lens.
    assert (Lb : length (map2 Cplus a (map2 (fun (x : R) (t : R) => RtoC x * cis t)%C
        (map2 (fun r e => r * e * dF) (mk n ri) (mk n (fun i => planck * F i))) (mk n (fun i => rp i * 2 * PI)))) = n).
    { lens. }
    eexists. split; [apply set_AW_ok; [exact W1|rewrite noise_n1; exact Lb]|]. split; [exact Lb|].
    intros k Hkn. rewrite (map2_nth Cplus a _ k (RtoC 0) (RtoC 0)); [| |congruence].
    2:{ lens. }
    f_equal. rewrite (map2_nth _ _ _ k 0 0) by lens.
    rewrite (map2_nth _ _ _ k 0 0) by lens.
    rewrite !mk_nth by exact Hkn. f_equal. f_equal. ring.
Qed.
Lemma noise_other : fst (add_noise strf planck ri rp other_noise p) = Raise ValueError.
Proof.
  unfold add_noise. unfold bind at 1. rewrite noise_dF.
  pose proof noise_h1 as (R1 & A1 & L1). rewrite noise_n1 in L1.
  unfold bind at 1. rewrite (get_AW_run p1 a A1). unfold bind at 1. rewrite noise_F. rewrite map_mk. cbv zeta.
  assert (D : 0 < dF) by (unfold dF; apply Rdiv_lt_0_compat; lra).
  destruct (Req_EM_T dF 0) as [E|_]; [lra|].
  rewrite has_zero_false.
  2:{ intros x Hx. destruct (In_nth _ _ 0 Hx) as (i & Hi & Ei). rewrite mk_length in Hi. rewrite mk_nth in Ei by exact Hi.
      rewrite <- Ei. apply Rmult_integral_contrapositive_currified; [lra|now apply HF]. }
  unfold bind, lift. rewrite broadcast2_eq by (rewrite mk_length; congruence). reflexivity.
Qed.
End Noise.

(*! C80: what add_noise adds.  With the frequency bins nu_k (Hz) of width dF and N_k the photon number |AW_k|^2/dF/(h nu_k), bin k
    gains r_k sqrt(N_k) h nu_k dF exp(2 pi i u_k) (sqrt_N_freq) or r_k h nu_k dF exp(2 pi i u_k) (one_photon_freq), r and u being the
    random draws; any other noise type raises ValueError; nothing but the field changes. *)
Lemma C80_noise_amplitudes_partial_l : forall (strf : R -> string) (planck : R) (ri rp : nat -> R) (p p1 : pulse) (a : list C),
  holds p a -> (2 <= p_n p)%nat -> 0 < p_tw p -> 0 < planck ->
  get_W_mks strf p = (Ok (Some (map (fun w => w * 1000000000000) (spec_W (p_n p) (p_tw p) (p_f p)))), p1) ->
  let nu := spec_F_Hz (p_n p) (p_tw p) (p_f p) in
  let dF := 1000000000000 / p_tw p in
  (forall k, (k < p_n p)%nat -> nu k <> 0) ->
  fst (add_noise strf planck ri rp other_noise p) = Raise ValueError /\
  (exists b, add_noise strf planck ri rp one_photon_freq p = (Ok tt, with_AW (Some b) p1) /\ obs p1 = obs p /\ length b = p_n p /\
    forall k, (k < p_n p)%nat ->
      nth k b (RtoC 0) = (nth k a (RtoC 0) + RtoC (ri k * (planck * nu k) * dF) * cis (2 * PI * rp k))%C) /\
  (exists b, add_noise strf planck ri rp sqrt_N_freq p = (Ok tt, with_AW (Some b) p1) /\ obs p1 = obs p /\ length b = p_n p /\
    forall k, (k < p_n p)%nat -> let N := Cmod (nth k a (RtoC 0)) ^ 2 / dF / (planck * nu k) in
      nth k b (RtoC 0) = (nth k a (RtoC 0) + RtoC (ri k * sqrt (Rmax 0 N) * (planck * nu k) * dF) * cis (2 * PI * rp k))%C).
Proof.
  intros strf planck ri rp p p1 a Hh Hn Ht Hp Hw nu dF HF.
  destruct (get_Wm_after _ _ _ _ Hw) as (_ & _ & O).
  split; [|split].
  - now apply (noise_other strf planck ri rp p p1 a).
  - destruct (noise_run strf planck ri rp p p1 a Hh Hn Ht Hw Hp HF one_photon_freq ltac:(discriminate)) as (b & A & B & D).
    exists b. auto.
  - destruct (noise_run strf planck ri rp p p1 a Hh Hn Ht Hw Hp HF sqrt_N_freq ltac:(discriminate)) as (b & A & B & D).
    exists b. split; [exact A|]. split; [exact O|]. split; [exact B|]. intros k Hk N. rewrite (D k Hk). reflexivity.
Qed.

(*! C80 refuted: the documentation says one_photon_freq adds one photon of noise to each bin.  On an empty bin the noise is, counted
    the way the method itself counts photons, r_k^2 times h nu_k dF photons, so it is r_k^2 photons only where h nu_k dF = 1. *)
Lemma C80_one_photon_per_bin_refuted_l : forall (strf : R -> string) (planck : R) (ri rp : nat -> R) (p p1 : pulse) (a : list C) (k : nat),
  holds p a -> (2 <= p_n p)%nat -> 0 < p_tw p -> 0 < planck ->
  get_W_mks strf p = (Ok (Some (map (fun w => w * 1000000000000) (spec_W (p_n p) (p_tw p) (p_f p)))), p1) ->
  let nu := spec_F_Hz (p_n p) (p_tw p) (p_f p) in
  let dF := 1000000000000 / p_tw p in
  (forall k, (k < p_n p)%nat -> nu k <> 0) ->
  (k < p_n p)%nat -> nth k a (RtoC 0) = RtoC 0 -> ri k <> 0 -> planck * nu k * dF <> 1 ->
  exists b, add_noise strf planck ri rp one_photon_freq p = (Ok tt, with_AW (Some b) p1) /\
    Cmod (nth k b (RtoC 0)) ^ 2 / dF / (planck * nu k) = ri k ^ 2 * (planck * nu k * dF) /\
    Cmod (nth k b (RtoC 0)) ^ 2 / dF / (planck * nu k) <> ri k ^ 2.
Proof.
  intros strf planck ri rp p p1 a k Hh Hn Ht Hp Hw nu dF HF Hk Ha Hr Hne.
  destruct (C80_noise_amplitudes_partial_l strf planck ri rp p p1 a Hh Hn Ht Hp Hw HF) as (_ & (b & Hb & _ & _ & Hbk) & _).
  exists b. split; [exact Hb|].
  assert (D : 0 < dF) by (unfold dF; apply Rdiv_lt_0_compat; lra).
  assert (E : Cmod (nth k b (RtoC 0)) ^ 2 / dF / (planck * nu k) = ri k ^ 2 * (planck * nu k * dF)).
  { rewrite (Hbk k Hk), Ha, Cplus_0_l, Cmod_mult, cis_mod, Rmult_1_r, Cmod_R, pow2_abs. fold nu dF.
    specialize (HF k Hk). field. repeat split; first [exact HF|apply Rgt_not_eq; lra]. }
  split; [exact E|]. rewrite E. intros K. apply Hne.
  assert (Q : 0 < ri k ^ 2) by (rewrite <- Rsqr_pow2; now apply Rsqr_pos_lt). nra.
Qed.

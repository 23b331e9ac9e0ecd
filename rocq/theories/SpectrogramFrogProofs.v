(** Pulse.spectrogram with gate_type 'frog' (C108, C117). *)
From Coq Require Import String.
From Coq Require Import Reals List ZArith Bool Arith Lia Lra Psatz.
From Coquelicot Require Import Complex.
From Verif Require Import Base CNum NumPy ModelFFT FFTProofs ModelPulse ModelPulseOps PulseProofs PulseOpsProofs ODETableauProofs ModelCrystal ModelSpectrogram SpectrogramProofs.
Import ListNotations.
Local Open Scope R_scope.
Local Open Scope py_scope.
Local Notation z0 := (RtoC 0).

(** any gate: the axes are as for xfrog, the entries are the moduli of the transform of the gated field *)
Lemma gated_run (mapc : list R -> R -> R) (p : pulse) (a : list C) (gt : string) (g : R -> R -> C) (sigma : R) (steps : nat) : holds p a -> (2 <= p_n p)%nat -> 0 < p_tw p -> (2 <= steps)%nat ->
  gate mapc gt sigma (mk (p_n p) (time_at p)) (mk steps (delay_at p steps)) (time_at p 0) (IFFT_t a) = Ok g ->
  exists S, spectrogram mapc gt sigma steps p = (Ok (repeat (mk steps (delay_at p steps)) (p_n p / 2), mk (p_n p / 2) (fun k => repeat (INR k / p_tw p) steps),
    (- p_tw p / 2, p_tw p / 2 - p_tw p / INR (p_n p), 0, INR (p_n p / 2 - 1) / p_tw p), S), p) /\
  length S = (p_n p / 2)%nat /\ (forall k, (k < p_n p / 2)%nat -> length (nth k S []) = steps) /\
  forall k j, (k < p_n p / 2)%nat -> (j < steps)%nat -> nth j (nth k S []) 0 = Cmod (nth k (fft (mk (p_n p) (fun i => nth i (IFFT_t a) z0 * g (delay_at p steps j) (time_at p i) * cis (2 * PI * time_at p i * p_f p))%C)) z0).
Proof.
  intros (Hr & Ha & Hl) Hn Ht Hst HG. set (n := p_n p) in *. assert (P : 0 < INR n) by (apply lt_0_INR; lia).
  set (cols := map (fun j => mk n (fun i => nth i (IFFT_t a) (RtoC 0) * g (delay_at p steps j) (time_at p i) * cis (2 * PI * time_at p i * p_f p))%C) (seq 0 steps)).
  exists (mk (n / 2) (fun k => map (fun c => Cmod (nth k (fft c) (RtoC 0))) cols)).
  assert (H2 : (1 <= n / 2)%nat) by (apply (Nat.div_le_mono 2 n 2) in Hn; [exact Hn|lia]). assert (H2n : (n / 2 < n)%nat) by (apply Nat.div_lt; lia).
  split.
  - unfold spectrogram. erewrite bok by (unfold get_T, need_ready, bind, get, gets; rewrite Hr; reflexivity). rewrite T_times. fold n.
    erewrite bok by (apply lift_ok, (amin_is _ (time_at p 0)); [apply in_mk; exists 0%nat; split; [lia|reflexivity]|intros x Hx; apply in_mk in Hx as (i & Hi & ->); apply time_le; [exact Ht|fold n; lia|lia]]).
    erewrite bok by (apply lift_ok, (amax_is _ (time_at p (n - 1))); [apply in_mk; exists (n - 1)%nat; split; [lia|reflexivity]|intros x Hx; apply in_mk in Hx as (i & Hi & ->); apply time_le; [exact Ht|fold n; lia|lia]]).
    cbv zeta. assert (DL : linspace (time_at p 0) (time_at p (n - 1)) steps = mk steps (delay_at p steps)) by (apply delays; [exact Ht|fold n; lia|exact Hst]). rewrite DL.
    erewrite bok by (unfold get_AT, bind, get; rewrite Ha; reflexivity).
    erewrite bok by (apply lift_ok; exact HG).
    erewrite bok by reflexivity.
    assert (LA : length (IFFT_t a) = n) by (rewrite IFFT_t_length; exact Hl).
    erewrite bok by (apply lift_ok; unfold broadcast2; rewrite LA, mk_length, Nat.eqb_refl; reflexivity).
    assert (EC : rtraverse (fun j => broadcast2 (fun (a0 : C) (t : R) => (RtoC (Cmod a0) * g (nth j (mk steps (delay_at p steps)) 0)%R t * cis (2 * PI * t * p_f p + nth j (unwrap (repeat (angle a0) steps)) 0))%C) (IFFT_t a) (mk n (time_at p))) (seq 0 steps) = Ok cols).
    { unfold cols. generalize (fun j (H : In j (seq 0 steps)) => proj2 (proj1 (in_seq steps 0 j) H)). generalize (seq 0 steps) as js. induction js as [|j js IH]; intros Hj; [reflexivity|]. cbn [rtraverse map]. rewrite IH by (intros i Hi; apply Hj; right; exact Hi).
      unfold broadcast2. rewrite LA, mk_length, Nat.eqb_refl. cbn [rbind]. f_equal. f_equal. apply (list_ext (RtoC 0)).
      - rewrite map2_length, mk_length by (rewrite mk_length; exact LA). exact LA.
      - rewrite map2_length by (rewrite mk_length; exact LA). rewrite LA. intros i Hi. rewrite (map2_nth _ _ _ i (RtoC 0) 0) by (rewrite ?mk_length; lia || (rewrite LA; exact Hi)). rewrite !(mk_nth n) by exact Hi.
        assert (Hj' : (j < steps)%nat) by (specialize (Hj j (or_introl eq_refl)); lia). rewrite mk_nth by exact Hj'. rewrite unwrap_const by exact Hj'. rewrite cis_add. pose proof (angle_spec (nth i (IFFT_t a) (RtoC 0))) as Q. revert Q. generalize (RtoC (Cmod (nth i (IFFT_t a) (RtoC 0)))) (cis (angle (nth i (IFFT_t a) (RtoC 0)))). intros u v Q. rewrite <- Q. ring. }
    erewrite bok by (apply lift_ok; exact EC). rewrite map2_length by (rewrite mk_length; exact LA). rewrite LA.
    assert (ET : exists l, mk n (time_at p) = time_at p 0 :: time_at p 1 :: l). { destruct n as [|[|m]]; [lia|lia|]. unfold mk. cbn [seq map]. eexists. reflexivity. } destruct ET as [tl ET]. rewrite ET. erewrite bok by reflexivity.
    assert (ED : time_at p 1 - time_at p 0 = p_tw p / INR n) by (unfold time_at; fold n; cbn [INR]; lra). rewrite ED.
    assert (PD : 0 < p_tw p / INR n) by (apply Rdiv_lt_0_compat; assumption). destruct (Req_EM_T (p_tw p / INR n) 0) as [Z|_]; [lra|]. erewrite bok by reflexivity.
    assert (EF : mk (n / 2) (fun k => repeat (nth k (fftfreq n (p_tw p / INR n)) 0) steps) = mk (n / 2) (fun k => repeat (INR k / p_tw p) steps)).
    { apply mk_ext. intros k Hk. f_equal. unfold fftfreq. rewrite mk_nth by lia. assert (LE : (k <=? (n - 1) / 2)%nat = true). { apply Nat.leb_le. assert (n / 2 <= (n - 1) / 2 + 1)%nat; [|lia]. rewrite <- (Nat.div_add (n - 1) 1 2) by lia. apply Nat.div_le_mono; lia. } rewrite LE. field. lra. }
    rewrite EF.
    erewrite bok by (apply lift_ok, (amin_is _ (delay_at p steps 0)); [apply concat_repeat_in; [lia|]; apply in_mk; exists 0%nat; split; [lia|reflexivity]|intros x Hx; apply concat_repeat_in in Hx; [|lia]; apply in_mk in Hx as (i & Hi & ->); apply delay_le; try exact Ht; fold n; lia]).
    erewrite bok by (apply lift_ok, (amax_is _ (delay_at p steps (steps - 1))); [apply concat_repeat_in; [lia|]; apply in_mk; exists (steps - 1)%nat; split; [lia|reflexivity]|intros x Hx; apply concat_repeat_in in Hx; [|lia]; apply in_mk in Hx as (i & Hi & ->); apply delay_le; try exact Ht; fold n; lia]).
    assert (IT : 0 < / p_tw p) by (now apply Rinv_0_lt_compat).
    assert (InF : forall x, In x (concat (mk (n / 2) (fun k => repeat (INR k / p_tw p) steps))) <-> exists k, (k < n / 2)%nat /\ x = INR k / p_tw p).
    { intros x. rewrite in_concat. split.
      - intros (y & Hy & Hx). apply in_mk in Hy as (k & Hk & ->). apply repeat_spec in Hx. exists k. split; [exact Hk|exact Hx].
      - intros (k & Hk & ->). exists (repeat (INR k / p_tw p) steps). split; [apply in_mk; exists k; split; [exact Hk|reflexivity]|]. destruct steps; [lia|]. left. reflexivity. }
    erewrite bok by (apply lift_ok, (amin_is (concat (mk (n / 2) _)) 0); [apply InF; exists 0%nat; split; [lia|cbn [INR]; field; lra]|intros x Hx; apply InF in Hx as (k & Hk & ->); apply Rmult_le_pos; [apply pos_INR|lra]]).
    erewrite bok by (apply lift_ok, (amax_is (concat (mk (n / 2) _)) (INR (n / 2 - 1) / p_tw p)); [apply InF; exists (n / 2 - 1)%nat; split; [lia|reflexivity]|intros x Hx; apply InF in Hx as (k & Hk & ->); apply Rmult_le_compat_r; [lra|]; apply le_INR; lia]).
    cbv zeta. unfold ret. f_equal. f_equal. f_equal. f_equal. f_equal. f_equal. f_equal.
    + unfold delay_at. cbn [INR]. lra.
    + unfold delay_at. fold n. rewrite minus_INR by lia. assert (0 < INR steps - INR 1) by (rewrite <- minus_INR by lia; apply lt_0_INR; lia). field. split; lra.
  - split; [apply mk_length|]. split.
    + intros k Hk. rewrite mk_nth by exact Hk. rewrite map_length. unfold cols. rewrite map_length, seq_length. reflexivity.
    + intros k j Hk Hj. rewrite mk_nth by exact Hk. unfold cols. rewrite map_map. change (map ?f (seq 0 steps)) with (mk steps f). rewrite mk_nth by exact Hj. reflexivity.
Qed.


(** what map_coordinates delivers at fractional index x of the real and the imaginary part of the field *)
Definition field_at (mapc : list R -> R -> R) (A : list C) (x : R) : C := (mapc (map Re A) x, mapc (map Im A) x).

(*! C108: the frog spectrogram of every pulse that holds a field, for every number of at least two delay steps: the call succeeds and changes nothing, with the axes and the extent of the xfrog case; the gate width is not used;
    the entry at frequency nu and delay d is the magnitude of the sum over the time grid of A(t) A(t - d) exp(2 pi i (f0 - nu) t), where A(t - d) is what map_coordinates delivers, for real and imaginary part, at the fractional index (t - d - t_0)/dt. *)
Lemma C108_frog_value_l : forall (mapc : list R -> R -> R) (p : pulse) (a : list C) (sigma : R) (steps : nat), holds p a -> (2 <= p_n p)%nat -> 0 < p_tw p -> (2 <= steps)%nat ->
  let dt := p_tw p / INR (p_n p) in let t := fun i => - p_tw p / 2 + INR i * dt in let d := fun j => - p_tw p / 2 + INR j * ((p_tw p - dt) / INR (steps - 1)) in let A := IFFT_t a in
  exists S, spectrogram mapc "frog" sigma steps p = (Ok (repeat (mk steps d) (p_n p / 2), mk (p_n p / 2) (fun k => repeat (INR k / p_tw p) steps),
    (- p_tw p / 2, p_tw p / 2 - dt, 0, INR (p_n p / 2 - 1) / p_tw p), S), p) /\
  length S = (p_n p / 2)%nat /\ (forall k, (k < p_n p / 2)%nat -> length (nth k S []) = steps) /\
  forall k j, (k < p_n p / 2)%nat -> (j < steps)%nat -> nth j (nth k S []) 0 =
    Cmod (csum (p_n p) (fun i => nth i A z0 * (mapc (map Re A) ((t i - d j - t 0%nat) / dt)%R, mapc (map Im A) ((t i - d j - t 0%nat) / dt)%R) * cis (2 * PI * (p_f p - INR k / p_tw p) * t i)%R)%C).
Proof.
  intros mapc p a sigma steps Hh Hn Ht Hst dt t d A. assert (P : 0 < INR (p_n p)) by (apply lt_0_INR; lia).
  assert (ET : exists l, mk (p_n p) (time_at p) = time_at p 0 :: time_at p 1 :: l). { destruct (p_n p) as [|[|m]]; [lia|lia|]. unfold mk. cbn [seq map]. eexists. reflexivity. } destruct ET as [tl ET].
  assert (ED : exists l, mk steps (delay_at p steps) = delay_at p steps 0 :: delay_at p steps 1 :: l). { destruct steps as [|[|m]]; [lia|lia|]. unfold mk. cbn [seq map]. eexists. reflexivity. } destruct ED as [dl ED].
  assert (DT : time_at p 1 - time_at p 0 = dt) by (unfold time_at, dt; cbn [INR]; lra). assert (PD : 0 < dt) by (apply Rdiv_lt_0_compat; assumption).
  destruct (gated_run mapc p a "frog" (fun d t => field_at mapc A ((t - d - time_at p 0) / dt)) sigma steps Hh Hn Ht Hst) as (S & E & L & W & V).
  { unfold gate. change (String.eqb "frog" "xfrog") with false. change (String.eqb "frog" "frog") with true. cbv iota. rewrite ED, ET, DT. destruct (Req_EM_T dt 0) as [Z|_]; [lra|]. reflexivity. }
  exists S. split; [exact E|]. split; [exact L|]. split; [exact W|]. intros k j Hk Hj. rewrite V by assumption.
  assert (Hk' : (k < p_n p)%nat) by (assert (p_n p / 2 < p_n p)%nat by (apply Nat.div_lt; lia); lia).
  set (x := mk _ _). assert (Lx : length x = p_n p) by apply mk_length. change (nth k (fft x) z0) with (at0 (fft x) k). rewrite fft_nth by (rewrite Lx; exact Hk'). rewrite Lx.
  set (th := 2 * PI * (INR k / p_tw p) * time_at p 0).
  rewrite <- (Rmult_1_l (Cmod (csum (p_n p) (fun i => nth i A z0 * _ * _)%C))), <- (cis_mod th), <- Cmod_mult. f_equal. rewrite <- csum_scal_l. apply csum_ext. intros i Hi. unfold x. rewrite mk_nth by exact Hi. unfold tw.
  fold A. change (t i) with (time_at p i). change (t 0%nat) with (time_at p 0). change (d j) with (delay_at p steps j). unfold field_at.
  replace (cis (2 * PI * (p_f p - INR k / p_tw p) * time_at p i)) with (cis (2 * PI * time_at p i * p_f p) * cis (- (2 * PI * (INR k / p_tw p) * time_at p i)))%C by (rewrite <- cis_add; f_equal; ring).
  replace (cis (2 * PI * IZR (- (Z.of_nat i * Z.of_nat k)) / INR (p_n p))) with (cis th * cis (- (2 * PI * (INR k / p_tw p) * time_at p i)))%C; [ring|].
  rewrite <- cis_add. f_equal. unfold th, time_at. rewrite opp_IZR, mult_IZR, <- !INR_IZR_INZ. cbn [INR]. field. lra.
Qed.

(** ** Delays on the time grid *)
(** what is assumed of map_coordinates there: the samples at the indices, nothing a whole step or more outside the array *)
Definition interpolates (mapc : list R -> R -> R) : Prop :=
  (forall l i, (i < length l)%nat -> mapc l (INR i) = nth i l 0) /\ (forall l x, x <= -1 \/ INR (length l) <= x -> mapc l x = 0).
(** sample z of the field, zero outside the grid *)
Definition sample (A : list C) (z : Z) : C := if (0 <=? z)%Z then nth (Z.to_nat z) A z0 else z0.
Lemma field_sample mapc A z : interpolates mapc -> field_at mapc A (IZR z) = sample A z.
Proof.
  intros (H1 & H2). unfold field_at, sample. destruct (Z.leb_spec 0 z) as [Hz|Hz].
  - rewrite <- (Z2Nat.id z) at 1 2 by exact Hz. rewrite <- INR_IZR_INZ. destruct (Nat.lt_ge_cases (Z.to_nat z) (length A)) as [L|L].
    + rewrite !H1 by (now rewrite map_length). rewrite !(nth_map' _ _ _ z0) by exact L. destruct (nth (Z.to_nat z) A z0). reflexivity.
    + rewrite (nth_overflow A) by exact L. rewrite !H2 by (right; rewrite map_length; now apply le_INR). reflexivity.
  - rewrite !H2; [reflexivity|left; replace (-1) with (IZR (-1)) by reflexivity; apply IZR_le; lia..].
Qed.

(*! C117: as many delay steps as time samples on an even grid: the delays are the times themselves, and the entry of row k in the column of delay t_j is |sum_i A_i A_(i-j+n/2) exp(2 pi i (f0 - k/T) t_i)|, samples outside the grid counting as zero: the field times a copy of itself delayed by t_j, with the carrier f0 (and not 2 f0). *)
Lemma C117_trace_l : forall (mapc : list R -> R -> R) (p : pulse) (a : list C) (sigma : R) (h : nat), interpolates mapc -> holds p a -> p_n p = (2 * h)%nat -> (0 < h)%nat -> 0 < p_tw p ->
  let n := p_n p in let A := IFFT_t a in let t := fun i => - p_tw p / 2 + INR i * (p_tw p / INR n) in
  exists D F E S, spectrogram mapc "frog" sigma n p = (Ok (D, F, E, S), p) /\ length S = h /\
  (forall k, (k < h)%nat -> nth k D [] = mk n t /\ nth k F [] = repeat (INR k / p_tw p) n /\ length (nth k S []) = n) /\
  forall k j, (k < h)%nat -> (j < n)%nat -> nth j (nth k S []) 0 =
    Cmod (csum n (fun i => nth i A z0 * sample A (Z.of_nat i - Z.of_nat j + Z.of_nat h) * cis (2 * PI * (p_f p - INR k / p_tw p) * t i)%R)%C).
Proof.
  intros mapc p a sigma h HI Hh En Hp Ht n A t. assert (P : 0 < INR h) by (apply lt_0_INR; lia). assert (Pn : 0 < INR n) by (apply lt_0_INR; unfold n; lia).
  assert (E2 : (p_n p / 2 = h)%nat) by (rewrite En, Nat.mul_comm, Nat.div_mul by lia; reflexivity).
  destruct (C108_frog_value_l mapc p a sigma n Hh ltac:(unfold n; lia) Ht ltac:(unfold n; lia)) as (S & E & L & W & V). cbv zeta in E, V. rewrite E2 in *. do 4 eexists. split; [exact E|]. split; [exact L|]. 
  assert (ST : (p_tw p - p_tw p / INR (p_n p)) / INR (n - 1) = p_tw p / INR n).
  { fold n. rewrite minus_INR by (unfold n; lia). change (INR 1) with 1. assert (1 < INR n) by (change 1 with (INR 1); apply lt_INR; unfold n; lia). field. split; lra. }
  rewrite ST in *.
  split.
  - intros k Hk. split; [now rewrite nth_repeat_lt by exact Hk|]. split; [now rewrite mk_nth by exact Hk|]. apply W, Hk.
  - intros k j Hk Hj. rewrite V by assumption. f_equal. apply csum_ext. intros i Hi. fold A n. f_equal. f_equal.
    rewrite <- (field_sample mapc) by exact HI. unfold field_at. fold n in En.
    assert (X : (- p_tw p / 2 + INR i * (p_tw p / INR n) - (- p_tw p / 2 + INR j * (p_tw p / INR n)) - (- p_tw p / 2 + INR 0 * (p_tw p / INR n))) / (p_tw p / INR n) = IZR (Z.of_nat i - Z.of_nat j + Z.of_nat h)).
    { rewrite plus_IZR, minus_IZR, <- !INR_IZR_INZ. cbn [INR]. rewrite En, mult_INR. cbn [INR]. field. lra. }
    rewrite X. reflexivity.
Qed.

Lemma sample_in A i : sample A (Z.of_nat i) = nth i A z0.
Proof. unfold sample. destruct (Z.leb_spec 0 (Z.of_nat i)); [|lia]. now rewrite Nat2Z.id. Qed.
Lemma sample_below A z : (z < 0)%Z -> sample A z = z0.
Proof. intros H. unfold sample. destruct (Z.leb_spec 0 z); [lia|reflexivity]. Qed.
Lemma sample_above A z : (Z.of_nat (length A) <= z)%Z -> sample A z = z0.
Proof. intros H. unfold sample. destruct (Z.leb_spec 0 z); [|reflexivity]. apply nth_overflow. lia. Qed.
Lemma csum_zero_if n f : (forall i, (i < n)%nat -> f i = z0) -> csum n f = z0.
Proof. induction n as [|n IH]; intros H; [apply csum_0|]. rewrite csum_S, IH, H by (intros; try apply H; lia). ring. Qed.
(** the autocorrelation with a running phase, from either side *)
Lemma auto_sym A n s th t0 dt : length A = n -> (s <= n)%nat ->
  csum n (fun i => nth i A z0 * sample A (Z.of_nat i - Z.of_nat s) * cis (th * (t0 + INR i * dt))%R)%C = (cis (th * (INR s * dt))%R * csum n (fun i => nth i A z0 * sample A (Z.of_nat i + Z.of_nat s) * cis (th * (t0 + INR i * dt))%R))%C.
Proof.
  intros L Hs. replace n with (s + (n - s))%nat at 1 by lia. rewrite csum_add. rewrite csum_zero_if by (intros i Hi; rewrite sample_below by lia; ring).
  replace n with ((n - s) + s)%nat at 2 by lia. rewrite csum_add. rewrite (csum_zero_if s) by (intros i Hi; rewrite sample_above by lia; ring).
  rewrite Cplus_0_l, Cplus_0_r, <- csum_scal_l. apply csum_ext. intros i Hi. replace (Z.of_nat (s + i) - Z.of_nat s)%Z with (Z.of_nat i) by lia. replace (Z.of_nat i + Z.of_nat s)%Z with (Z.of_nat (s + i)) by lia. rewrite !sample_in.
  replace (th * (t0 + INR (s + i) * dt)) with (th * (INR s * dt) + th * (t0 + INR i * dt)) by (rewrite plus_INR; ring). rewrite cis_add. ring.
Qed.

(*! C117: a frog trace is symmetric in the delay, whatever the pulse: on the same grid the columns of the delays d and -d are equal in every row. *)
Lemma C117_symmetric_l : forall (mapc : list R -> R -> R) (p : pulse) (a : list C) (sigma : R) (h : nat), interpolates mapc -> holds p a -> p_n p = (2 * h)%nat -> (0 < h)%nat -> 0 < p_tw p ->
  exists D F E S, spectrogram mapc "frog" sigma (p_n p) p = (Ok (D, F, E, S), p) /\
  forall k j, (k < h)%nat -> (0 < j < p_n p)%nat -> nth (p_n p - j) (nth k D []) 0 = - nth j (nth k D []) 0 /\ nth (p_n p - j) (nth k S []) 0 = nth j (nth k S []) 0.
Proof.
  intros mapc p a sigma h HI Hh En Hp Ht. destruct (C117_trace_l mapc p a sigma h HI Hh En Hp Ht) as (D & F & E & S & R & _ & X & V). cbv zeta in X, V. do 4 eexists. split; [exact R|]. intros k j Hk Hj.
  assert (P : 0 < INR h) by (apply lt_0_INR; lia). assert (LA : length (IFFT_t a) = p_n p) by (rewrite IFFT_t_length; apply Hh).
  split.
  - destruct (X k Hk) as (-> & _ & _). rewrite !mk_nth by lia. rewrite minus_INR by lia. rewrite En, mult_INR. cbn [INR]. field. lra.
  - rewrite !V by lia. set (th := 2 * PI * (p_f p - INR k / p_tw p)). set (A := IFFT_t a) in *. set (dt := p_tw p / INR (p_n p)).
    assert (G : forall s, (s <= p_n p)%nat -> Cmod (csum (p_n p) (fun i => nth i A z0 * sample A (Z.of_nat i - Z.of_nat s) * cis (th * (- p_tw p / 2 + INR i * dt))%R)%C) = Cmod (csum (p_n p) (fun i => nth i A z0 * sample A (Z.of_nat i + Z.of_nat s) * cis (th * (- p_tw p / 2 + INR i * dt))%R)%C)).
    { intros s Hs. rewrite auto_sym by assumption. rewrite Cmod_mult, cis_mod. ring. }
    destruct (Nat.le_ge_cases h j) as [J|J].
    + transitivity (Cmod (csum (p_n p) (fun i => nth i A z0 * sample A (Z.of_nat i + Z.of_nat (j - h)) * cis (th * (- p_tw p / 2 + INR i * dt))%R)%C)).
      * f_equal. apply csum_ext. intros i Hi. f_equal. f_equal. f_equal. lia.
      * rewrite <- G by lia. f_equal. apply csum_ext. intros i Hi. f_equal. f_equal. f_equal. lia.
    + transitivity (Cmod (csum (p_n p) (fun i => nth i A z0 * sample A (Z.of_nat i - Z.of_nat (h - j)) * cis (th * (- p_tw p / 2 + INR i * dt))%R)%C)).
      * f_equal. apply csum_ext. intros i Hi. f_equal. f_equal. f_equal. lia.
      * rewrite G by lia. f_equal. apply csum_ext. intros i Hi. f_equal. f_equal. f_equal. lia.
Qed.

(*! C117: multiplying the field by a complex number multiplies the frog trace by the square of its modulus. *)
Lemma C117_scaling_l : forall (mapc : list R -> R -> R) (p q : pulse) (a : list C) (c : C) (sigma : R) (h : nat), interpolates mapc -> holds p a -> holds q (map (Cmult c) a) -> p_n q = p_n p -> p_tw q = p_tw p -> p_f q = p_f p ->
  p_n p = (2 * h)%nat -> (0 < h)%nat -> 0 < p_tw p ->
  exists D F E S D' F' E' S', spectrogram mapc "frog" sigma (p_n p) p = (Ok (D, F, E, S), p) /\ spectrogram mapc "frog" sigma (p_n p) q = (Ok (D', F', E', S'), q) /\
  forall k j, (k < h)%nat -> (j < p_n p)%nat -> nth j (nth k S' []) 0 = Cmod c ^ 2 * nth j (nth k S []) 0.
Proof.
  intros mapc p q a c sigma h HI Hh Hq N1 N2 N3 En Hp Ht. destruct (C117_trace_l mapc p a sigma h HI Hh En Hp Ht) as (D & F & E & S & R & _ & _ & V).
  destruct (C117_trace_l mapc q (map (Cmult c) a) sigma h HI Hq ltac:(congruence) Hp ltac:(lra)) as (D' & F' & E' & S' & R' & _ & _ & V'). cbv zeta in V, V'. rewrite N1, N2, N3 in *.
  do 8 eexists. split; [exact R|]. split; [exact R'|]. intros k j Hk Hj. rewrite V, V' by assumption. rewrite <- (Rabs_pos_eq (Cmod c ^ 2)) by apply pow2_ge_0. rewrite <- Cmod_R, <- Cmod_mult.
  assert (LA : length (IFFT_t a) = p_n p) by (rewrite IFFT_t_length; apply Hh).
  assert (SC : forall z, sample (map (Cmult c) (IFFT_t a)) z = (c * sample (IFFT_t a) z)%C).
  { intros z. unfold sample. destruct (0 <=? z)%Z; [|ring]. destruct (Nat.lt_ge_cases (Z.to_nat z) (length (IFFT_t a))) as [X|X]; [now rewrite (nth_map' _ _ _ z0)|]. rewrite !nth_overflow by (rewrite ?map_length; exact X). ring. }
  rewrite !Cmod_mult, Cmod_R, Rabs_pos_eq by apply pow2_ge_0. replace (Cmod c ^ 2) with (Cmod (c * c)%C) by (rewrite Cmod_mult; ring). rewrite <- Cmod_mult. f_equal. rewrite <- csum_scal_l. apply csum_ext. intros i Hi.
  rewrite IFFT_t_scale, SC. rewrite (nth_map' _ _ _ z0) by (rewrite LA; exact Hi). ring.
Qed.

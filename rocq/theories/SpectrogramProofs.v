(** Pulse.spectrogram (C108). *)
From Coq Require Import String.
From Coq Require Import Reals List ZArith Bool Arith Lia Lra Psatz.
From Coquelicot Require Import Complex.
From Verif Require Import Base CNum NumPy ModelFFT FFTProofs ModelPulse ModelPulseOps PulseProofs PulseOpsProofs ODETableauProofs ModelCrystal ModelSpectrogram.
Import ListNotations.
Local Open Scope R_scope.
Local Open Scope py_scope.

(** ** np.angle and np.unwrap *)
Lemma angle_spec z : (RtoC (Cmod z) * cis (angle z))%C = z.
Proof.
  unfold angle. destruct (Req_EM_T (Cmod z) 0) as [E|E].
  - rewrite E. rewrite (Cmod_eq_0 z E). ring.
  - assert (P : 0 < Cmod z) by (pose proof (Cmod_ge_0 z); lra). set (r := Cmod z) in *.
    assert (Q : r * r = Re z * Re z + Im z * Im z) by exact (Cmod_sqr z).
    assert (B : -1 <= Re z / r <= 1).
    { assert (Rabs (Re z) <= r) by (apply Rsqr_le_abs_0_alt || idtac; rewrite <- (Rabs_pos_eq r) by lra; apply Rsqr_le_abs_0; unfold Rsqr; pose proof (Rle_0_sqr (Im z)) as S; unfold Rsqr in S; lra).
      assert (- r <= Re z <= r) by (pose proof (Rle_abs (Re z)); pose proof (Rle_abs (- Re z)) as N; rewrite Rabs_Ropp in N; lra).
      split; apply Rmult_le_reg_r with r; try exact P; unfold Rdiv; rewrite Rmult_assoc, Rinv_l by lra; lra. }
    assert (S : sin (acos (Re z / r)) = Rabs (Im z) / r).
    { rewrite sin_acos by exact B. apply Rsqr_inj; [apply sqrt_pos|apply Rmult_le_pos; [apply Rabs_pos|left; now apply Rinv_0_lt_compat]|].
      rewrite Rsqr_sqrt; [|unfold Rsqr; assert (0 <= (1 - Re z / r) * (1 + Re z / r)) by (apply Rmult_le_pos; lra); lra]. unfold Rsqr. replace (Rabs (Im z) / r * (Rabs (Im z) / r)) with ((Rabs (Im z) * Rabs (Im z)) / (r * r)) by (field; lra).
      rewrite <- Rabs_mult, (Rabs_pos_eq (Im z * Im z)) by (pose proof (Rle_0_sqr (Im z)) as S; unfold Rsqr in S; exact S). replace (Im z * Im z) with (r * r - Re z * Re z) by lra. field. lra. }
    destruct (Rlt_dec (Im z) 0) as [L|L]; apply C_eq; unfold cis; cbn [Re Im fst snd Cmult RtoC].
    + rewrite cos_neg, cos_acos by exact B. fold r. change (fst z) with (Re z). field. lra.
    + rewrite sin_neg, S. rewrite Rabs_left by exact L. change (snd z) with (Im z). field. lra.
    + rewrite cos_acos by exact B. change (fst z) with (Re z). field. lra.
    + rewrite S. rewrite Rabs_pos_eq by lra. change (snd z) with (Im z). field. lra.
Qed.
Lemma nth_repeat_lt {A} (x d : A) n i : (i < n)%nat -> nth i (repeat x n) d = x.
Proof. revert i. induction n as [|n IH]; intros i H; [lia|]. destruct i; [reflexivity|]. cbn. apply IH. lia. Qed.
Lemma unwrap_const x n j : (j < n)%nat -> nth j (unwrap (repeat x n)) 0 = x.
Proof.
  intros H. unfold unwrap. rewrite mk_nth by (rewrite repeat_length; exact H). rewrite nth_repeat_lt by exact H. rewrite rsum_zero; [ring|]. intros i Hi. rewrite !nth_repeat_lt by lia.
  unfold unwrap_corr. rewrite Rminus_diag_eq by reflexivity. rewrite Rabs_R0. destruct (Rlt_dec 0 PI) as [|N]; [reflexivity|]. exfalso. apply N, PI_RGT_0.
Qed.

(** np.unwrap: every correction is a whole number of turns and leaves a jump of at most half a turn. *)
Lemma unwrap_corr_spec d : exists k : Z, unwrap_corr d = IZR k * (2 * PI) /\ - PI <= d + unwrap_corr d <= PI.
Proof.
  pose proof PI_RGT_0 as HP. unfold unwrap_corr. destruct (Rlt_dec (Rabs d) PI) as [L|L].
  - exists 0%Z. apply Rabs_def2 in L. lra.
  - unfold rmod. set (q := Int_part ((d + PI) / (2 * PI))). assert (E : (d + PI) / (2 * PI) * (2 * PI) = d + PI) by (field; lra). destruct (base_Int_part ((d + PI) / (2 * PI))) as (B1 & B2). fold q in B1, B2. set (u := (d + PI) / (2 * PI)) in *.
    assert (C1 : IZR q * (2 * PI) <= d + PI) by (rewrite <- E; apply Rmult_le_compat_r; lra). assert (C2 : d + PI < (IZR q + 1) * (2 * PI)) by (rewrite <- E; apply Rmult_lt_compat_r; lra).
    destruct (Req_EM_T _ _) as [Q|Q]; [destruct (Rlt_dec 0 d)|].
    + exists (1 - q)%Z. rewrite minus_IZR. split; lra.
    + exists (- q)%Z. rewrite opp_IZR. split; lra.
    + exists (- q)%Z. rewrite opp_IZR. split; lra.
Qed.
(** np.unwrap: the phases stay the same up to whole turns, and neighbours are at most half a turn apart. *)
Lemma unwrap_spec p : length (unwrap p) = length p /\
  (forall i, (i < length p)%nat -> exists k : Z, nth i (unwrap p) 0 = nth i p 0 + IZR k * (2 * PI)) /\
  (forall i, (i + 1 < length p)%nat -> Rabs (nth (i + 1) (unwrap p) 0 - nth i (unwrap p) 0) <= PI).
Proof.
  split; [apply mk_length|]. split.
  - intros i Hi. unfold unwrap. rewrite mk_nth by exact Hi.
    assert (S : exists k : Z, rsum i (fun k => unwrap_corr (nth (k + 1) p 0 - nth k p 0)) = IZR k * (2 * PI)).
    { clear Hi. induction i as [|i (k & IH)]; [exists 0%Z; unfold rsum; cbn; ring|]. destruct (unwrap_corr_spec (nth (i + 1) p 0 - nth i p 0)) as (k' & E & _). exists (k + k')%Z. rewrite rsum_S. rewrite IH, E, plus_IZR. ring. }
    destruct S as (k & ->). exists k. reflexivity.
  - intros i Hi. unfold unwrap. rewrite !mk_nth by lia. replace (i + 1)%nat with (Datatypes.S i) by lia. rewrite rsum_S. destruct (unwrap_corr_spec (nth (i + 1) p 0 - nth i p 0)) as (_ & _ & B). replace (i + 1)%nat with (Datatypes.S i) in B |- * by lia. apply Rabs_le. lra.
Qed.

(** ** Minima and maxima *)
Lemma fold_min_le l : forall x, fold_left Rmin l x <= x /\ forall y, In y l -> fold_left Rmin l x <= y.
Proof.
  induction l as [|a l IH]; intros x; cbn [fold_left]; [split; [lra|intros y []]|]. destruct (IH (Rmin x a)) as [A B]. split; [pose proof (Rmin_l x a); lra|]. intros y [<-|H]; [pose proof (Rmin_r x a); lra|now apply B].
Qed.
Lemma fold_min_in l : forall x, fold_left Rmin l x = x \/ In (fold_left Rmin l x) l.
Proof.
  induction l as [|a l IH]; intros x; cbn [fold_left]; [now left|]. destruct (IH (Rmin x a)) as [E|E]; [|right; now right]. rewrite E. unfold Rmin. destruct (Rle_dec x a); [now left|right; now left].
Qed.
Lemma amin_is l m : In m l -> (forall x, In x l -> m <= x) -> amin l = Ok m.
Proof.
  intros Hm H. destruct l as [|x l]; [destruct Hm|]. unfold amin. f_equal. apply Rle_antisym.
  - destruct (fold_min_le l x) as [A B]. destruct Hm as [<-|Hm]; [exact A|now apply B].
  - apply H. destruct (fold_min_in l x) as [E|E]; [left; now symmetry|right; exact E].
Qed.
Lemma fold_max_ge l : forall x, x <= fold_left Rmax l x /\ forall y, In y l -> y <= fold_left Rmax l x.
Proof.
  induction l as [|a l IH]; intros x; cbn [fold_left]; [split; [lra|intros y []]|]. destruct (IH (Rmax x a)) as [A B]. split; [pose proof (Rmax_l x a); lra|]. intros y [<-|H]; [pose proof (Rmax_r x a); lra|now apply B].
Qed.
Lemma fold_max_in l : forall x, fold_left Rmax l x = x \/ In (fold_left Rmax l x) l.
Proof.
  induction l as [|a l IH]; intros x; cbn [fold_left]; [now left|]. destruct (IH (Rmax x a)) as [E|E]; [|right; now right]. rewrite E. unfold Rmax. destruct (Rle_dec x a); [right; now left|now left].
Qed.
Lemma amax_is l m : In m l -> (forall x, In x l -> x <= m) -> max_list l = Ok m.
Proof.
  intros Hm H. destruct l as [|x l]; [destruct Hm|]. unfold max_list. f_equal. apply Rle_antisym.
  - apply H. destruct (fold_max_in l x) as [E|E]; [left; now symmetry|right; exact E].
  - destruct (fold_max_ge l x) as [A B]. destruct Hm as [<-|Hm]; [exact A|now apply B].
Qed.
Lemma in_mk {A} (f : nat -> A) n x : In x (mk n f) <-> exists i, (i < n)%nat /\ x = f i.
Proof. unfold mk. rewrite in_map_iff. split; intros (i & H1 & H2); exists i; rewrite in_seq in *; split; try lia; try (symmetry; assumption); assumption. Qed.

(** ** The value *)
(** the sampled times and the delays *)
Definition time_at (p : pulse) (i : nat) : R := - p_tw p / 2 + INR i * (p_tw p / INR (p_n p)).
Definition delay_at (p : pulse) (steps j : nat) : R := - p_tw p / 2 + INR j * ((p_tw p - p_tw p / INR (p_n p)) / INR (steps - 1)).
Lemma T_times p : T_of p = mk (p_n p) (time_at p).
Proof. unfold T_of, linspace_open. apply mk_ext. intros i Hi. unfold time_at. replace (p_tw p / 2 - - p_tw p / 2) with (p_tw p) by field. reflexivity. Qed.
Lemma time_le p i j : 0 < p_tw p -> (0 < p_n p)%nat -> (i <= j)%nat -> time_at p i <= time_at p j.
Proof.
  intros Ht Hn Hij. unfold time_at. apply Rplus_le_compat_l. apply Rmult_le_compat_r; [|now apply le_INR]. left. apply Rdiv_lt_0_compat; [exact Ht|]. now apply lt_0_INR.
Qed.
Lemma delay_le p s i j : 0 < p_tw p -> (0 < p_n p)%nat -> (2 <= s)%nat -> (i <= j)%nat -> delay_at p s i <= delay_at p s j.
Proof.
  intros Ht Hn Hs Hij. unfold delay_at. apply Rplus_le_compat_l. apply Rmult_le_compat_r; [|now apply le_INR]. apply Rmult_le_pos; [|left; apply Rinv_0_lt_compat, lt_0_INR; lia].
  assert (1 <= INR (p_n p)) by (change 1 with (INR 1); apply le_INR; lia). assert (p_tw p / INR (p_n p) <= p_tw p); [|lra]. apply Rmult_le_reg_r with (INR (p_n p)); [lra|]. unfold Rdiv. rewrite Rmult_assoc, Rinv_l by lra. nra.
Qed.
Lemma delays p s : 0 < p_tw p -> (0 < p_n p)%nat -> (2 <= s)%nat -> linspace (time_at p 0) (time_at p (p_n p - 1)) s = mk s (delay_at p s).
Proof.
  intros Ht Hn Hs. destruct s as [|[|s]]; [lia|lia|]. unfold linspace. apply mk_ext. intros i Hi. unfold delay_at. assert (P : 0 < INR (p_n p)) by (now apply lt_0_INR).
  assert (E : time_at p (p_n p - 1) - time_at p 0 = p_tw p - p_tw p / INR (p_n p)). { unfold time_at. rewrite minus_INR by lia. cbn [INR]. field. lra. }
  rewrite E. unfold time_at. cbn [INR]. lra.
Qed.
Lemma concat_repeat_in {A} (l : list A) m x : (0 < m)%nat -> In x (concat (repeat l m)) <-> In x l.
Proof.
  intros Hm. rewrite in_concat. split.
  - intros (y & Hy & Hx). apply repeat_spec in Hy. now subst y.
  - intros Hx. exists l. split; [|exact Hx]. destruct m; [lia|]. left. reflexivity.
Qed.
(** one entry of the spectrogram: the Fourier sum, at the absolute frequency k/T_window, of the field with its carrier exp(+2 pi i f0 t), seen through the gate around the delay *)
Definition gated_sum (p : pulse) (sigma d nu : R) : C :=
  csum (p_n p) (fun i => nth i (IFFT_t (match p_AW p with Some a => a | None => [] end)) (RtoC 0) * RtoC (exp (- (time_at p i - d) ^ 2 / (2 * sigma ^ 2))) * cis (2 * PI * (p_f p - nu) * time_at p i))%C.

Lemma column_mod p a sigma d k : length a = p_n p -> p_AW p = Some a -> 0 < p_tw p -> (2 <= p_n p)%nat -> (k < p_n p)%nat ->
  Cmod (nth k (fft (mk (p_n p) (fun i => nth i (IFFT_t a) (RtoC 0) * RtoC (exp (- (time_at p i - d) ^ 2 / (2 * sigma ^ 2))) * cis (2 * PI * time_at p i * p_f p))%C)) (RtoC 0)) = Cmod (gated_sum p sigma d (INR k / p_tw p)).
Proof.
  intros Hl Ha Ht Hn Hk. set (x := mk _ _). assert (L : length x = p_n p) by apply mk_length. change (nth k (fft x) (RtoC 0)) with (at0 (fft x) k). rewrite fft_nth by (rewrite L; exact Hk). rewrite L. unfold gated_sum. rewrite Ha.
  set (th := 2 * PI * (INR k / p_tw p) * time_at p 0). assert (P : 0 < INR (p_n p)) by (apply lt_0_INR; lia).
  transitivity (Cmod (cis th * csum (p_n p) (fun i => nth i (IFFT_t a) (RtoC 0) * RtoC (exp (- (time_at p i - d) ^ 2 / (2 * sigma ^ 2))) * cis (2 * PI * (p_f p - INR k / p_tw p) * time_at p i))%C)%C).
  - f_equal. rewrite <- csum_scal_l. apply csum_ext. intros i Hi. unfold x. rewrite mk_nth by exact Hi. unfold tw.
    replace (cis (2 * PI * (p_f p - INR k / p_tw p) * time_at p i)) with (cis (2 * PI * time_at p i * p_f p) * cis (- (2 * PI * (INR k / p_tw p) * time_at p i)))%C by (rewrite <- cis_add; f_equal; ring).
    replace (cis (2 * PI * IZR (- (Z.of_nat i * Z.of_nat k)) / INR (p_n p))) with (cis th * cis (- (2 * PI * (INR k / p_tw p) * time_at p i)))%C; [ring|].
    rewrite <- cis_add. f_equal. unfold th, time_at. rewrite opp_IZR, mult_IZR, <- !INR_IZR_INZ. cbn [INR]. field. lra.
  - rewrite Cmod_mult, cis_mod. ring.
Qed.

Lemma bok {S A B} (m : M S A) (k : A -> M S B) s a s' : m s = (Ok a, s') -> bind m k s = k a s'.
Proof. intros E. unfold bind. rewrite E. reflexivity. Qed.
Lemma lift_ok {S A} (r : result A) (a : A) (s : S) : r = Ok a -> lift r s = (Ok a, s).
Proof. intros ->. reflexivity. Qed.

(*! C108: the xfrog spectrogram of every pulse that holds a field, for every gate width and every number of at least two delay steps: the call succeeds and changes nothing; the delays run evenly from the first to the last time of the grid, the rows are the frequencies k/T_window for k < n/2, the extent is their range, and the entry at frequency nu and delay d is the magnitude of the sum of A(t) exp(-(t-d)^2/2 sigma^2) exp(2 pi i f0 t) exp(-2 pi i nu t) over the time grid. *)
Lemma C108_value_l : forall (mapc : list R -> R -> R) (p : pulse) (a : list C) (sigma : R) (steps : nat), holds p a -> (2 <= p_n p)%nat -> 0 < p_tw p -> sigma <> 0 -> (2 <= steps)%nat ->
  exists S, spectrogram mapc "xfrog" sigma steps p = (Ok (repeat (mk steps (delay_at p steps)) (p_n p / 2), mk (p_n p / 2) (fun k => repeat (INR k / p_tw p) steps),
    (- p_tw p / 2, p_tw p / 2 - p_tw p / INR (p_n p), 0, INR (p_n p / 2 - 1) / p_tw p), S), p) /\
  length S = (p_n p / 2)%nat /\ (forall k, (k < p_n p / 2)%nat -> length (nth k S []) = steps) /\
  forall k j, (k < p_n p / 2)%nat -> (j < steps)%nat -> nth j (nth k S []) 0 = Cmod (gated_sum p sigma (delay_at p steps j) (INR k / p_tw p)).
Proof.
  intros mapc p a sigma steps (Hr & Ha & Hl) Hn Ht Hs Hst. set (n := p_n p) in *. assert (P : 0 < INR n) by (apply lt_0_INR; lia).
  set (cols := map (fun j => mk n (fun i => nth i (IFFT_t a) (RtoC 0) * RtoC (exp (- (time_at p i - delay_at p steps j) ^ 2 / (2 * sigma ^ 2))) * cis (2 * PI * time_at p i * p_f p))%C) (seq 0 steps)).
  exists (mk (n / 2) (fun k => map (fun c => Cmod (nth k (fft c) (RtoC 0))) cols)).
  assert (H2 : (1 <= n / 2)%nat) by (apply (Nat.div_le_mono 2 n 2) in Hn; [exact Hn|lia]). assert (H2n : (n / 2 < n)%nat) by (apply Nat.div_lt; lia).
  split.
  - unfold spectrogram. erewrite bok by (unfold get_T, need_ready, bind, get, gets; rewrite Hr; reflexivity). rewrite T_times. fold n.
    erewrite bok by (apply lift_ok, (amin_is _ (time_at p 0)); [apply in_mk; exists 0%nat; split; [lia|reflexivity]|intros x Hx; apply in_mk in Hx as (i & Hi & ->); apply time_le; [exact Ht|fold n; lia|lia]]).
    erewrite bok by (apply lift_ok, (amax_is _ (time_at p (n - 1))); [apply in_mk; exists (n - 1)%nat; split; [lia|reflexivity]|intros x Hx; apply in_mk in Hx as (i & Hi & ->); apply time_le; [exact Ht|fold n; lia|lia]]).
    cbv zeta. assert (DL : linspace (time_at p 0) (time_at p (n - 1)) steps = mk steps (delay_at p steps)) by (apply delays; [exact Ht|fold n; lia|exact Hst]). rewrite DL.
    erewrite bok by (unfold get_AT, bind, get; rewrite Ha; reflexivity).
    erewrite bok by (apply lift_ok; unfold gate; change (String.eqb "xfrog" "xfrog") with true; cbv iota; destruct (Req_EM_T sigma 0) as [Z|_]; [contradiction|reflexivity]).
    erewrite bok by reflexivity.
    assert (LA : length (IFFT_t a) = n) by (rewrite IFFT_t_length; exact Hl).
    erewrite bok by (apply lift_ok; unfold broadcast2; rewrite LA, mk_length, Nat.eqb_refl; reflexivity).
    assert (EC : rtraverse (fun j => broadcast2 (fun (a0 : C) (t : R) => (RtoC (Cmod a0) * RtoC (gauss t (nth j (mk steps (delay_at p steps)) 0) sigma) * cis (2 * PI * t * p_f p + nth j (unwrap (repeat (angle a0) steps)) 0))%C) (IFFT_t a) (mk n (time_at p))) (seq 0 steps) = Ok cols).
    { unfold cols. generalize (fun j (H : In j (seq 0 steps)) => proj2 (proj1 (in_seq steps 0 j) H)). generalize (seq 0 steps) as js. induction js as [|j js IH]; intros Hj; [reflexivity|]. cbn [rtraverse map]. rewrite IH by (intros i Hi; apply Hj; right; exact Hi).
      unfold broadcast2. rewrite LA, mk_length, Nat.eqb_refl. cbn [rbind]. f_equal. f_equal. apply (list_ext (RtoC 0)).
      - rewrite map2_length, mk_length by (rewrite mk_length; exact LA). exact LA.
      - rewrite map2_length by (rewrite mk_length; exact LA). rewrite LA. intros i Hi. rewrite (map2_nth _ _ _ i (RtoC 0) 0) by (rewrite ?mk_length; lia || (rewrite LA; exact Hi)). rewrite !mk_nth by exact Hi.
        assert (Hj' : (j < steps)%nat) by (specialize (Hj j (or_introl eq_refl)); lia). rewrite mk_nth by exact Hj'. rewrite unwrap_const by exact Hj'. unfold gauss. rewrite cis_add. pose proof (angle_spec (nth i (IFFT_t a) (RtoC 0))) as Q. revert Q. generalize (RtoC (Cmod (nth i (IFFT_t a) (RtoC 0)))) (cis (angle (nth i (IFFT_t a) (RtoC 0)))). intros u v Q. rewrite (mk_nth n) by exact Hi. rewrite <- Q. ring. }
    erewrite bok by (apply lift_ok; exact EC). rewrite map2_length by (rewrite mk_length; exact LA). rewrite LA.
    assert (ET : exists l, mk n (time_at p) = time_at p 0 :: time_at p 1 :: l). { destruct n as [|[|m]]; [lia|lia|]. unfold mk. cbn [seq map]. eexists. reflexivity. } destruct ET as [tl ET]. rewrite ET. erewrite bok by reflexivity.
    assert (ED : time_at p 1 - time_at p 0 = p_tw p / INR n) by (unfold time_at; fold n; cbn [INR]; lra). rewrite ED.
    assert (PD : 0 < p_tw p / INR n) by (apply Rdiv_lt_0_compat; assumption). destruct (Req_EM_T (p_tw p / INR n) 0) as [Z|_]; [lra|]. erewrite bok by reflexivity.
    assert (EF : mk (n / 2) (fun k => repeat (nth k (fftfreq n (p_tw p / INR n)) 0) steps) = mk (n / 2) (fun k => repeat (INR k / p_tw p) steps)).
    { apply mk_ext. intros k Hk. f_equal. unfold fftfreq. rewrite mk_nth by lia. assert (LE : (k <=? (n - 1) / 2)%nat = true). { apply Nat.leb_le. assert (n / 2 <= (n - 1) / 2 + 1)%nat; [|lia]. rewrite <- (Nat.div_add (n - 1) 1 2) by lia. apply Nat.div_le_mono; lia. } rewrite LE. field. lra. }
    rewrite EF.
    erewrite bok by (apply lift_ok, (amin_is _ (delay_at p steps 0)); [apply concat_repeat_in; [lia|]; apply in_mk; exists 0%nat; split; [lia|reflexivity]|intros x Hx; apply concat_repeat_in in Hx; [|lia]; apply in_mk in Hx as (i & Hi & ->); apply delay_le; try exact Ht; fold n; lia]).
    erewrite bok by (apply lift_ok, (amax_is _ (delay_at p steps (steps - 1))); [apply concat_repeat_in; [lia|]; apply in_mk; exists (steps - 1)%nat; split; [lia|reflexivity]|intros x Hx; apply concat_repeat_in in Hx; [|lia]; apply in_mk in Hx as (i & Hi & ->); apply delay_le; try exact Ht; fold n; lia]).
    assert (IT : 0 < / p_tw p) by (now apply Rinv_0_lt_compat).
    assert (InF : forall x, In x (concat (mk (n / 2) (fun k => repeat (INR k / p_tw p) steps))) <-> exists k, (k < n / 2)%nat /\ x = INR k / p_tw p).
    { intros x. rewrite in_concat. split.
      - intros (y & Hy & Hx). apply in_mk in Hy as (k & Hk & ->). apply repeat_spec in Hx. exists k. split; [exact Hk|exact Hx].
      - intros (k & Hk & ->). exists (repeat (INR k / p_tw p) steps). split; [apply in_mk; exists k; split; [exact Hk|reflexivity]|]. destruct steps; [lia|]. left. reflexivity. }
    erewrite bok by (apply lift_ok, (amin_is (concat (mk (n / 2) _)) 0); [apply InF; exists 0%nat; split; [lia|cbn [INR]; field; lra]|intros x Hx; apply InF in Hx as (k & Hk & ->); apply Rmult_le_pos; [apply pos_INR|lra]]).
    erewrite bok by (apply lift_ok, (amax_is (concat (mk (n / 2) _)) (INR (n / 2 - 1) / p_tw p)); [apply InF; exists (n / 2 - 1)%nat; split; [lia|reflexivity]|intros x Hx; apply InF in Hx as (k & Hk & ->); apply Rmult_le_compat_r; [lra|]; apply le_INR; lia]).
    cbv zeta. unfold ret. f_equal. f_equal. f_equal. f_equal. f_equal. f_equal. f_equal.
    + unfold delay_at. cbn [INR]. lra.
    + unfold delay_at. fold n. rewrite minus_INR by lia. assert (0 < INR steps - INR 1) by (rewrite <- minus_INR by lia; apply lt_0_INR; lia). field. split; lra.
  - split; [apply mk_length|]. split.
    + intros k Hk. rewrite mk_nth by exact Hk. rewrite map_length. unfold cols. rewrite map_length, seq_length. reflexivity.
    + intros k j Hk Hj. rewrite mk_nth by exact Hk. unfold cols. rewrite map_map. change (map ?f (seq 0 steps)) with (mk steps f). rewrite mk_nth by exact Hj. apply (column_mod p a); try assumption. fold n. lia.
Qed.

Lemma gated_scale p q a c sigma d nu : p_n q = p_n p -> p_tw q = p_tw p -> p_f q = p_f p -> length a = p_n p -> p_AW p = Some a -> p_AW q = Some (map (Cmult c) a) ->
  gated_sum q sigma d nu = (c * gated_sum p sigma d nu)%C.
Proof.
  intros En Et Ef Hl Ea Eq. unfold gated_sum. rewrite Ea, Eq, En, Ef, IFFT_t_scale, <- csum_scal_l. apply csum_ext. intros i Hi. rewrite (nth_map' (Cmult c) _ i (RtoC 0)) by (rewrite IFFT_t_length; lia). unfold time_at. rewrite En, Et. ring.
Qed.
(*! C108: multiplying the field by a complex number multiplies every entry of the spectrogram by its modulus and changes neither the axes nor the extent; in particular a constant phase of the field does not show. *)
Lemma C108_scaling_l : forall (mapc : list R -> R -> R) (p q : pulse) (a : list C) (c : C) (sigma : R) (steps : nat), holds p a -> holds q (map (Cmult c) a) -> p_n q = p_n p -> p_tw q = p_tw p -> p_f q = p_f p -> (2 <= p_n p)%nat -> 0 < p_tw p -> sigma <> 0 -> (2 <= steps)%nat ->
  exists D F E S S', spectrogram mapc "xfrog" sigma steps p = (Ok (D, F, E, S), p) /\ spectrogram mapc "xfrog" sigma steps q = (Ok (D, F, E, S'), q) /\
  length S' = length S /\ (forall k, (k < p_n p / 2)%nat -> length (nth k S' []) = length (nth k S [])) /\
  forall k j, (k < p_n p / 2)%nat -> (j < steps)%nat -> nth j (nth k S' []) 0 = Cmod c * nth j (nth k S []) 0.
Proof.
  intros mapc p q a c sigma steps Hp Hq En Et Ef Hn Ht Hs Hst.
  destruct (C108_value_l mapc p a sigma steps Hp Hn Ht Hs Hst) as (S & R1 & L1 & W1 & V1).
  destruct (C108_value_l mapc q (map (Cmult c) a) sigma steps Hq) as (S' & R2 & L2 & W2 & V2); [lia|rewrite Et; exact Ht|exact Hs|exact Hst|].
  assert (ED : mk steps (delay_at q steps) = mk steps (delay_at p steps)) by (apply mk_ext; intros j Hj; unfold delay_at; rewrite En, Et; reflexivity).
  rewrite En, Et, ED in R2. rewrite En in L2, W2, V2.
  do 5 eexists. split; [exact R1|]. split; [exact R2|]. split; [lia|]. split; [intros k Hk; rewrite W1, W2 by exact Hk; reflexivity|].
  intros k j Hk Hj. rewrite V1, V2 by assumption. destruct Hp as (_ & Ha & Hl). destruct Hq as (_ & Hb & _). rewrite <- Cmod_mult. rewrite <- (gated_scale p q a c) by assumption. unfold delay_at. rewrite En, Et. reflexivity.
Qed.

(*! C108: in every column the squares of the entries add up to at most n times the gated energy, the sum of |A(t)|^2 exp(-(t-d)^2/sigma^2) over the time grid. *)
Lemma C108_energy_bound_l : forall (mapc : list R -> R -> R) (p : pulse) (a : list C) (sigma : R) (steps : nat), holds p a -> (2 <= p_n p)%nat -> 0 < p_tw p -> sigma <> 0 -> (2 <= steps)%nat ->
  exists D F E S, spectrogram mapc "xfrog" sigma steps p = (Ok (D, F, E, S), p) /\
  forall j, (j < steps)%nat -> rsum (p_n p / 2) (fun k => nth j (nth k S []) 0 ^ 2) <= INR (p_n p) * rsum (p_n p) (fun i => Cmod (nth i (IFFT_t a) (RtoC 0)) ^ 2 * exp (- (time_at p i - delay_at p steps j) ^ 2 / sigma ^ 2)).
Proof.
  intros mapc p a sigma steps Hp Hn Ht Hs Hst. destruct (C108_value_l mapc p a sigma steps Hp Hn Ht Hs Hst) as (S & R1 & L1 & W1 & V1). do 4 eexists. split; [exact R1|]. intros j Hj.
  destruct Hp as (_ & Ha & Hl). set (d := delay_at p steps j). set (x := mk (p_n p) (fun i => nth i (IFFT_t a) (RtoC 0) * RtoC (exp (- (time_at p i - d) ^ 2 / (2 * sigma ^ 2))) * cis (2 * PI * time_at p i * p_f p))%C).
  assert (L : length x = p_n p) by apply mk_length. pose proof (parseval_fft x) as Q. rewrite L in Q.
  assert (H2n : (p_n p / 2 <= p_n p)%nat) by (apply Nat.div_le_upper_bound; lia).
  apply Rle_trans with (rsum (p_n p) (fun k => Cnorm2 (nth k (fft x) (RtoC 0)))).
  - replace (p_n p) with (p_n p / 2 + (p_n p - p_n p / 2))%nat at 2 by lia. rewrite rsum_add. rewrite <- (Rplus_0_r (rsum (p_n p / 2) _)). apply Rplus_le_compat.
    + apply Req_le. apply rsum_ext. intros k Hk. rewrite V1 by assumption. fold d. rewrite <- (column_mod p a) by (assumption || lia). fold x. rewrite <- Cmod_sqr. ring.
    + apply rsum_nonneg. intros i Hi. apply Cnorm2_nonneg.
  - rewrite Q. apply Rmult_le_compat_l; [apply pos_INR|]. apply Req_le. apply rsum_ext. intros i Hi. unfold x. rewrite mk_nth by exact Hi. rewrite <- Cmod_sqr, !Cmod_mult, cis_mod, Cmod_R, Rabs_right by (left; apply exp_pos).
    replace (- (time_at p i - d) ^ 2 / sigma ^ 2) with (- (time_at p i - d) ^ 2 / (2 * sigma ^ 2) + - (time_at p i - d) ^ 2 / (2 * sigma ^ 2)) by (field; exact Hs). rewrite exp_plus. ring.
Qed.

(*! C108: the centre frequency is only seen modulo the sampling rate n/T_window of the grid: raising it by any whole multiple of that rate leaves the axes, the extent and every entry of the spectrogram as they were, although every frequency of the pulse has moved. *)
Lemma C108_carrier_aliased_refuted_l : forall (mapc : list R -> R -> R) (p q : pulse) (a : list C) (m : Z) (sigma : R) (steps : nat), holds p a -> holds q a -> p_n q = p_n p -> p_tw q = p_tw p -> p_f q = p_f p + IZR m * (INR (p_n p) / p_tw p) -> (2 <= p_n p)%nat -> 0 < p_tw p -> sigma <> 0 -> (2 <= steps)%nat ->
  exists D F E S S', spectrogram mapc "xfrog" sigma steps p = (Ok (D, F, E, S), p) /\ spectrogram mapc "xfrog" sigma steps q = (Ok (D, F, E, S'), q) /\
  forall k j, (k < p_n p / 2)%nat -> (j < steps)%nat -> nth j (nth k S' []) 0 = nth j (nth k S []) 0.
Proof.
  intros mapc p q a m sigma steps Hp Hq En Et Ef Hn Ht Hs Hst.
  destruct (C108_value_l mapc p a sigma steps Hp Hn Ht Hs Hst) as (S & R1 & L1 & W1 & V1).
  destruct (C108_value_l mapc q a sigma steps Hq) as (S' & R2 & L2 & W2 & V2); [lia|rewrite Et; exact Ht|exact Hs|exact Hst|].
  assert (ED : mk steps (delay_at q steps) = mk steps (delay_at p steps)) by (apply mk_ext; intros j Hj; unfold delay_at; rewrite En, Et; reflexivity).
  rewrite En, Et, ED in R2. rewrite En in V2.
  do 5 eexists. split; [exact R1|]. split; [exact R2|].
  intros k j Hk Hj. rewrite V1, V2 by assumption. destruct Hp as (_ & Ha & Hl). destruct Hq as (_ & Hb & _). unfold gated_sum. rewrite Ha, Hb, En, Et, Ef. assert (P : 0 < INR (p_n p)) by (apply lt_0_INR; lia).
  transitivity (Cmod (cis (- PI * IZR m * INR (p_n p)) * csum (p_n p) (fun i => nth i (IFFT_t a) (RtoC 0) * RtoC (exp (- (time_at p i - delay_at p steps j) ^ 2 / (2 * sigma ^ 2))) * cis (2 * PI * (p_f p - INR k / p_tw p) * time_at p i))%C)%C); [|rewrite Cmod_mult, cis_mod; ring].
  f_equal. rewrite <- csum_scal_l. apply csum_ext. intros i Hi.
  replace (time_at q i) with (time_at p i) by (unfold time_at; rewrite En, Et; reflexivity). replace (delay_at q steps j) with (delay_at p steps j) by (unfold delay_at; rewrite En, Et; reflexivity).
  replace (2 * PI * (p_f p + IZR m * (INR (p_n p) / p_tw p) - INR k / p_tw p) * time_at p i) with (2 * PI * (p_f p - INR k / p_tw p) * time_at p i + (2 * PI * IZR (m * Z.of_nat i) + - PI * IZR m * INR (p_n p))).
  - rewrite !cis_add, cis_2PI_Z. ring.
  - rewrite mult_IZR, <- INR_IZR_INZ. unfold time_at. field. split; lra.
Qed.

Lemma two_lt g1 g2 z1 z2 : 0 < g1 -> 0 < g2 -> Cmod z1 = 1 -> Cmod z2 = 1 -> z1 <> z2 -> Cmod (RtoC g1 * z1 + RtoC g2 * z2)%C < g1 + g2.
Proof.
  intros P1 P2 M1 M2 N. destruct z1 as [a b], z2 as [c d]. assert (Q1 : a * a + b * b = 1). { pose proof (Cmod_sqr (a, b)) as E. rewrite M1 in E. unfold Cnorm2 in E. cbn in E. lra. }
  assert (Q2 : c * c + d * d = 1). { pose proof (Cmod_sqr (c, d)) as E. rewrite M2 in E. unfold Cnorm2 in E. cbn in E. lra. }
  assert (K : a * c + b * d < 1). { assert (0 < (a - c) ^ 2 + (b - d) ^ 2); [|nra]. destruct (Req_dec a c) as [Ea|Ea]; destruct (Req_dec b d) as [Eb|Eb]; try (subst; exfalso; apply N; reflexivity); [| |]; pose proof (pow2_ge_0 (a - c)); pose proof (pow2_ge_0 (b - d)).
    - assert (0 < (b - d) ^ 2) by (rewrite <- Rsqr_pow2; apply Rlt_0_sqr; lra). lra.
    - assert (0 < (a - c) ^ 2) by (rewrite <- Rsqr_pow2; apply Rlt_0_sqr; lra). lra.
    - assert (0 < (a - c) ^ 2) by (rewrite <- Rsqr_pow2; apply Rlt_0_sqr; lra). lra. }
  apply Rsqr_incrst_0; [|apply Cmod_ge_0|lra]. unfold Rsqr. rewrite Cmod_sqr. unfold Cnorm2. cbn.
  assert (0 < g1 * g2 * (1 - (a * c + b * d))) by (apply Rmult_lt_0_compat; [now apply Rmult_lt_0_compat|lra]).
  match goal with |- ?l < _ => replace l with (g1 * g1 * (a * a + b * b) + g2 * g2 * (c * c + d * d) + 2 * (g1 * g2 * (a * c + b * d))) by ring end. rewrite Q1, Q2. lra.
Qed.
Lemma sum_lt n g z : (2 <= n)%nat -> (forall i, (i < n)%nat -> 0 < g i /\ Cmod (z i) = 1) -> z 0%nat <> z 1%nat -> Cmod (csum n (fun i => RtoC (g i) * z i)%C) < rsum n g.
Proof.
  intros Hn H N. destruct n as [|[|n]]; [lia|lia|]. change (Datatypes.S (Datatypes.S n)) with (2 + n)%nat. rewrite csum_add, rsum_add. eapply Rle_lt_trans; [apply Cmod_triangle|]. apply Rplus_lt_le_compat.
  - rewrite !csum_S, csum_0, !rsum_S. cbn [rsum seq map fold_right]. replace (0 + RtoC (g 0%nat) * z 0%nat + RtoC (g 1%nat) * z 1%nat)%C with (RtoC (g 0%nat) * z 0%nat + RtoC (g 1%nat) * z 1%nat)%C by ring.
    destruct (H 0%nat ltac:(lia)), (H 1%nat ltac:(lia)). eapply Rlt_le_trans; [apply two_lt; assumption|]. apply Req_le. change (rsum 0 g) with 0. ring.
  - eapply Rle_trans; [apply Cmod_csum|]. apply Req_le. apply rsum_ext. intros i Hi. destruct (H (2 + i)%nat ltac:(lia)) as [G Z]. rewrite Cmod_mult, Z, Cmod_R, Rabs_right by lra. ring.
Qed.
(** the field of a single spectral line *)
Lemma line_time p h s (c : C) i : p_n p = (2 * h)%nat -> (0 < h)%nat -> 0 < p_tw p -> (s < p_n p)%nat -> (i < p_n p)%nat ->
  nth i (IFFT_t (mk (p_n p) (fun j => if (j =? s)%nat then c else RtoC 0))) (RtoC 0) = (c * cis (- (2 * PI * ((INR s - INR h) / p_tw p) * time_at p i)))%C.
Proof.
  intros En Hh Ht Hs Hi. set (a := mk _ _). assert (L : length a = p_n p) by apply mk_length. change (nth i (IFFT_t a) (RtoC 0)) with (at0 (IFFT_t a) i). rewrite IFFT_t_nth by lia. rewrite L.
  rewrite (csum_single _ s) by (try lia; intros j Hj Nj; unfold a; rewrite mk_nth by lia; apply Nat.eqb_neq in Nj; rewrite Nj; ring).
  unfold a. rewrite mk_nth by exact Hs. rewrite Nat.eqb_refl. f_equal. rewrite En, Nat.div2_double.
  rewrite (tw_mod (2 * h) _ (- ((Z.of_nat s - Z.of_nat h) * (Z.of_nat i - Z.of_nat h)))%Z).
  - unfold tw. f_equal. unfold time_at. rewrite En, opp_IZR, mult_IZR, !minus_IZR, <- !INR_IZR_INZ, mult_INR. cbn [INR]. assert (0 < INR h) by (now apply lt_0_INR). field. split; lra.
  - lia.
  - rewrite Nat2Z.inj_mul. change (Z.of_nat 2) with 2%Z. rewrite <- (Z_mod_plus_full (- ((Z.of_nat s - Z.of_nat h) * (Z.of_nat i - Z.of_nat h)))%Z (- (Z.of_nat s + Z.of_nat i))%Z). f_equal. ring.
Qed.

(*! C108: the frequency axis of the spectrogram is mirrored about the centre frequency.  The pulse holds one spectral line at index s of an even grid, whose frequency by F_THz is exactly the frequency of row k; the row k' at the mirror image of that frequency about the centre frequency is at least as high as every other row and strictly higher than row k, at every delay. *)
Lemma C108_frequency_axis_refuted_l : forall (mapc : list R -> R -> R) (p : pulse) (h M s k k' : nat) (c : C) (sigma : R) (steps : nat),
  holds p (mk (p_n p) (fun j => if (j =? s)%nat then c else RtoC 0)) -> c <> RtoC 0 -> p_n p = (2 * h)%nat -> (0 < h)%nat -> 0 < p_tw p -> p_f p = INR M / p_tw p -> (s < p_n p)%nat -> s <> h -> (k + h = M + s)%nat -> (k' + s = M + h)%nat -> (k < h)%nat -> (k' < h)%nat -> sigma <> 0 -> (2 <= steps)%nat ->
  exists D F E S, spectrogram mapc "xfrog" sigma steps p = (Ok (D, F, E, S), p) /\ nth s (F_of p) 0 = INR k / p_tw p /\
  (forall j, (j < steps)%nat -> nth j (nth k F []) 0 = INR k / p_tw p /\ nth j (nth k' F []) 0 = INR k' / p_tw p /\ INR k' / p_tw p = 2 * p_f p - INR k / p_tw p) /\
  forall j, (j < steps)%nat -> nth j (nth k S []) 0 < nth j (nth k' S []) 0 /\ forall l, (l < h)%nat -> nth j (nth l S []) 0 <= nth j (nth k' S []) 0.
Proof.
  intros mapc p h M s k k' c sigma steps Hp Hc En Hh Ht Ef Hs Nsh Ek Ek' Hk Hk' Hsg Hst.
  assert (E2 : (p_n p / 2 = h)%nat) by (rewrite En, Nat.mul_comm, Nat.div_mul by lia; reflexivity).
  destruct (C108_value_l mapc p _ sigma steps Hp ltac:(lia) Ht Hsg Hst) as (S & R1 & L1 & W1 & V1). rewrite E2 in V1.
  assert (RE : INR k = INR M + INR s - INR h) by (rewrite <- plus_INR, <- Ek, plus_INR; ring). assert (RE' : INR k' = INR M + INR h - INR s) by (rewrite <- plus_INR, <- Ek', plus_INR; ring).
  assert (Ph : 0 < INR h) by (now apply lt_0_INR).
  do 4 eexists. split; [exact R1|]. split; [|split].
  - unfold F_of, W_of, V_of. rewrite !map_map. rewrite (nth_map' _ _ s 0) by (unfold arange_sym; rewrite mk_length; exact Hs). unfold w0_of. unfold arange_sym. rewrite mk_nth by exact Hs. rewrite Ef, RE, En, mult_INR. cbn [INR]. pose proof PI_RGT_0. field. split; [lra|split; lra].
  - intros j Hj. rewrite E2. rewrite !mk_nth by assumption. rewrite !nth_repeat_lt by exact Hj. split; [reflexivity|]. split; [reflexivity|]. rewrite Ef, RE, RE'. field. lra.
  - assert (G : forall l j, gated_sum p sigma (delay_at p steps j) (INR l / p_tw p) = (c * csum (p_n p) (fun i => RtoC (exp (- (time_at p i - delay_at p steps j) ^ 2 / (2 * sigma ^ 2))) * cis (2 * PI * ((INR k' - INR l) / p_tw p) * time_at p i)))%C).
    { intros l j. unfold gated_sum. destruct Hp as (_ & Ha & _). rewrite Ha. rewrite <- csum_scal_l. apply csum_ext. intros i Hi. rewrite (line_time p h) by assumption.
      replace (2 * PI * ((INR k' - INR l) / p_tw p) * time_at p i) with (- (2 * PI * ((INR s - INR h) / p_tw p) * time_at p i) + 2 * PI * (p_f p - INR l / p_tw p) * time_at p i) by (rewrite Ef, RE'; field; lra). rewrite cis_add. ring. }
    assert (Pc : 0 < Cmod c) by (now apply Cmod_gt_0).
    assert (T : forall j, Cmod (gated_sum p sigma (delay_at p steps j) (INR k' / p_tw p)) = Cmod c * rsum (p_n p) (fun i => exp (- (time_at p i - delay_at p steps j) ^ 2 / (2 * sigma ^ 2)))).
    { intros j. rewrite G, Cmod_mult. f_equal. replace (csum _ _) with (RtoC (rsum (p_n p) (fun i => exp (- (time_at p i - delay_at p steps j) ^ 2 / (2 * sigma ^ 2))))).
      - rewrite Cmod_R. apply Rabs_right. apply Rle_ge, rsum_nonneg. intros i Hi. left. apply exp_pos.
      - rewrite <- csum_RtoC. apply csum_ext. intros i Hi. replace (2 * PI * ((INR k' - INR k') / p_tw p) * time_at p i) with 0 by (field; lra). rewrite cis_0. ring. }
    intros j Hj. rewrite !V1 by assumption. rewrite T. split.
    + rewrite G, Cmod_mult. apply Rmult_lt_compat_l; [exact Pc|].
      apply (sum_lt (p_n p) (fun i => exp (- (time_at p i - delay_at p steps j) ^ 2 / (2 * sigma ^ 2))) (fun i => cis (2 * PI * ((INR k' - INR k) / p_tw p) * time_at p i))); [lia|intros i Hi; split; [apply exp_pos|apply cis_mod]|].
      intros Q. assert (Q' : cis (2 * PI * ((INR k' - INR k) / p_tw p) * (time_at p 1 - time_at p 0)) = RtoC 1).
      { replace (2 * PI * ((INR k' - INR k) / p_tw p) * (time_at p 1 - time_at p 0)) with (2 * PI * ((INR k' - INR k) / p_tw p) * time_at p 1 + - (2 * PI * ((INR k' - INR k) / p_tw p) * time_at p 0)) by ring. rewrite cis_add, <- Q, <- cis_add. rewrite Rplus_opp_r. apply cis_0. }
      replace (2 * PI * ((INR k' - INR k) / p_tw p) * (time_at p 1 - time_at p 0)) with (2 * PI * ((INR k' - INR k) / INR h / 2)) in Q' by (unfold time_at; rewrite En, mult_INR; cbn [INR]; field; lra).
      assert (B : -1 < (INR k' - INR k) / INR h < 1). { pose proof (pos_INR k). pose proof (pos_INR k'). apply lt_INR in Hk, Hk'. split; apply Rmult_lt_reg_r with (INR h); try exact Ph; unfold Rdiv; rewrite Rmult_assoc, Rinv_l by lra; lra. }
      assert (N0 : (INR k' - INR k) / INR h <> 0). { intros Z. assert (INR k' - INR k = 0). { replace (INR k' - INR k) with ((INR k' - INR k) / INR h * INR h) by (field; lra). rewrite Z. ring. } assert (INR s = INR h) by lra. apply INR_eq in H0. contradiction. }
      set (u := (INR k' - INR k) / INR h) in *. clearbody u. apply (f_equal Re) in Q'. cbn in Q'. pose proof PI_RGT_0.
      assert (SQ : sin (PI * u / 2) = 0). { replace (2 * PI * (u / 2)) with (2 * (PI * u / 2)) in Q' by field. rewrite cos_2a_sin in Q'. nra. }
      destruct (Rtotal_order u 0) as [U|[U|U]]; [|contradiction|].
      * assert (0 < sin (- (PI * u / 2))) by (apply sin_gt_0; nra). rewrite sin_neg in H0. lra.
      * assert (0 < sin (PI * u / 2)) by (apply sin_gt_0; nra). lra.
    + intros l Hl. rewrite V1 by assumption. rewrite G, Cmod_mult. apply Rmult_le_compat_l; [lra|]. eapply Rle_trans; [apply Cmod_csum|]. apply Req_le. apply rsum_ext. intros i Hi. rewrite Cmod_mult, cis_mod, Cmod_R, Rabs_right by (left; apply exp_pos). ring.
Qed.

(*! C108: an unknown gate type raises ValueError and a pulse without a field RuntimeError; neither call changes the pulse. *)
Lemma C108_errors_l : forall (mapc : list R -> R -> R) (p : pulse) (g : string) (sigma : R) (steps : nat),
  (forall a, holds p a -> (1 <= p_n p)%nat -> 0 < p_tw p -> g <> "xfrog"%string -> g <> "frog"%string -> spectrogram mapc g sigma steps p = (Raise ValueError, p)) /\
  (p_ready p = false -> spectrogram mapc g sigma steps p = (Raise RuntimeError, p)) /\
  (p_ready p = true -> (1 <= p_n p)%nat -> p_AW p = None -> spectrogram mapc g sigma steps p = (Raise RuntimeError, p)).
Proof.
  intros mapc p g sigma steps. split; [|split].
  - intros a (Hr & Ha & Hl) Hn Ht N1 N2. unfold spectrogram. erewrite bok by (unfold get_T, need_ready, bind, get, gets; rewrite Hr; reflexivity). rewrite T_times.
    erewrite bok by (apply lift_ok, (amin_is _ (time_at p 0)); [apply in_mk; exists 0%nat; split; [lia|reflexivity]|intros x Hx; apply in_mk in Hx as (i & Hi & ->); apply time_le; [exact Ht|lia|lia]]).
    erewrite bok by (apply lift_ok, (amax_is _ (time_at p (p_n p - 1))); [apply in_mk; exists (p_n p - 1)%nat; split; [lia|reflexivity]|intros x Hx; apply in_mk in Hx as (i & Hi & ->); apply time_le; [exact Ht|lia|lia]]).
    cbv zeta. erewrite bok by (unfold get_AT, bind, get; rewrite Ha; reflexivity). unfold gate, bind, lift. apply String.eqb_neq in N1, N2. rewrite N1, N2. reflexivity.
  - intros Hr. unfold spectrogram, get_T, need_ready, bind, get. rewrite Hr. reflexivity.
  - intros Hr Hn Ha. unfold spectrogram. erewrite bok by (unfold get_T, need_ready, bind, get, gets; rewrite Hr; reflexivity). rewrite T_times.
    assert (ET : exists x l, mk (p_n p) (time_at p) = x :: l). { destruct (p_n p) as [|m]; [lia|]. unfold mk. cbn [seq map]. eexists. eexists. reflexivity. } destruct ET as (x & l & ET). rewrite ET.
    erewrite bok by reflexivity. erewrite bok by reflexivity. unfold bind at 1. unfold get_AT, bind, get. rewrite Ha. reflexivity.
Qed.

(** Quasi-phase matching from the period that calculate_poling_period returns to the pattern that dfg_problem lays down (C98), and the objective of the beam optimisation (C99). *)
From Coq Require Import String.
From Coq Require Import Reals List ZArith Bool Arith Lra Lia Psatz.
From Coquelicot Require Import Coquelicot.
From Verif Require Import Base CNum NumPy ModelPulse ModelCrystal ModelBeam BeamProofs CrystalProofs CrystalIndexProofs ModelDFG DFGPolingProofs ModelCrystalMore.
Import ListNotations.
Local Open Scope R_scope.
Local Open Scope py_scope.

Lemma RInt_cos w a b : w <> 0 -> is_RInt (fun z => cos (w * z)) a b ((sin (w * b) - sin (w * a)) / w).
Proof.
  intros Hw. replace ((sin (w * b) - sin (w * a)) / w) with (minus (sin (w * b) / w) (sin (w * a) / w)) by (unfold minus, plus, opp; cbn; field; exact Hw).
  apply (is_RInt_derive (fun z => sin (w * z) / w)).
  - intros z _. auto_derive; [exact Logic.I|]. match goal with |- @eq _ ?u ?v => change (@eq R u v) end. field. exact Hw.
  - intros z _. apply (ex_derive_continuous (fun z => cos (w * z))). auto_derive. exact Logic.I.
Qed.
Lemma RInt_sin w a b : w <> 0 -> is_RInt (fun z => sin (w * z)) a b ((cos (w * a) - cos (w * b)) / w).
Proof.
  intros Hw. replace ((cos (w * a) - cos (w * b)) / w) with (minus (- cos (w * b) / w) (- cos (w * a) / w)) by (unfold minus, plus, opp; cbn; field; exact Hw).
  apply (is_RInt_derive (fun z => - cos (w * z) / w)).
  - intros z _. auto_derive; [exact Logic.I|]. match goal with |- @eq _ ?u ?v => change (@eq R u v) end. field. exact Hw.
  - intros z _. apply (ex_derive_continuous (fun z => sin (w * z))). auto_derive. exact Logic.I.
Qed.

Section Grating.
Context (x : dcrystal) (len L : R) (fuel : nat) (doms : list (R * R)).
Hypothesis (HL : 0 < L) (Hlen : x_len (dx_x x) = Some len) (Hpp : forall z, dx_pp x z = L) (Hd : precompute_poling fuel x = Ok doms).
Lemma start_const k : period_start (dx_pp x) 0 k = INR k * L.
Proof. induction k as [|k IH]; [cbn; ring|]. cbn [period_start]. rewrite IH, Hpp, S_INR. ring. Qed.
Lemma sign_at k z : INR k * L < len -> INR k * L <= z < (INR k + 1) * L -> poling doms z = if Rlt_dec (INR k * L + L / 2) z then -1 else 1.
Proof.
  intros Hk Hz. destruct (C52_pattern_l x len fuel doms Hlen Hd) as (P & _).
  { intros u _. rewrite Hpp. exact HL. }
  specialize (P k z). rewrite !start_const, Hpp in P. apply P.
  - intros j Hj. rewrite start_const. apply le_INR in Hj. nra.
  - rewrite S_INR. exact Hz.
Qed.
Let w := 2 * PI / L.
Lemma w_pos : 0 < w.
Proof. pose proof PI_RGT_0. apply Rdiv_lt_0_compat; lra. Qed.
Lemma trig k : sin (w * (INR k * L)) = 0 /\ cos (w * (INR k * L)) = 1 /\ sin (w * (INR k * L + L / 2)) = 0 /\ cos (w * (INR k * L + L / 2)) = -1.
Proof.
  assert (N : L <> 0) by (apply Rgt_not_eq, HL).
  replace (w * (INR k * L)) with (0 + 2 * INR k * PI) by (unfold w; field; exact N). replace (w * (INR k * L + L / 2)) with (PI + 2 * INR k * PI) by (unfold w; field; exact N).
  rewrite !sin_period, !cos_period, sin_0, cos_0, sin_PI, cos_PI. repeat split; reflexivity.
Qed.
(** one period *)
Lemma period_integral (g : R -> R) k I1 I2 : INR k * L < len ->
  is_RInt g (INR k * L) (INR k * L + L / 2) I1 -> is_RInt g (INR k * L + L / 2) (INR (S k) * L) I2 -> is_RInt (fun z => poling doms z * g z) (INR k * L) (INR (S k) * L) (I1 - I2).
Proof.
  intros Hk H1 H2. rewrite S_INR in *.
  replace (I1 - I2) with (plus I1 (opp I2)) by (unfold plus, opp; cbn; ring). apply is_RInt_Chasles with (INR k * L + L / 2).
  - eapply is_RInt_ext; [|exact H1]. intros z. rewrite Rmin_left, Rmax_right by lra. intros Hz. rewrite (sign_at k z Hk) by lra. destruct (Rlt_dec (INR k * L + L / 2) z); [lra|symmetry; apply Rmult_1_l].
  - eapply is_RInt_ext; [|apply (@is_RInt_opp R_NormedModule), H2]. intros z. rewrite Rmin_left, Rmax_right by lra. intros Hz. rewrite (sign_at k z Hk) by lra.
    destruct (Rlt_dec (INR k * L + L / 2) z); [change (- g z = -1 * g z); ring|lra].
Qed.
Lemma grating_integrals n : INR n * L <= len ->
  is_RInt (fun z => poling doms z * cos (w * z)) 0 (INR n * L) 0 /\ is_RInt (fun z => poling doms z * sin (w * z)) 0 (INR n * L) (2 / PI * (INR n * L)).
Proof.
  pose proof w_pos as Hw. pose proof PI_RGT_0 as Hpi. assert (Nw : w <> 0) by (apply Rgt_not_eq, Hw). induction n as [|n IH]; intros Hn.
  - replace (INR 0 * L) with 0 by (cbn; ring). rewrite Rmult_0_r. split; apply (@is_RInt_point R_NormedModule).
  - rewrite S_INR in Hn. assert (Hk : INR n * L < len) by lra. destruct IH as [C S]; [lra|].
    destruct (trig n) as (s1 & c1 & s2 & c2). destruct (trig (Datatypes.S n)) as (s3 & c3 & _).
    split.
    + assert (G : is_RInt (fun z => poling doms z * cos (w * z)) (INR n * L) (INR (Datatypes.S n) * L) ((0 - 0) / w - (0 - 0) / w)).
      { apply period_integral; [exact Hk| |].
        - pose proof (RInt_cos w (INR n * L) (INR n * L + L / 2) Nw) as E. rewrite s1, s2 in E. exact E.
        - pose proof (RInt_cos w (INR n * L + L / 2) (INR (Datatypes.S n) * L) Nw) as E. rewrite s2, s3 in E. exact E. }
      pose proof (is_RInt_Chasles _ _ _ _ _ _ C G) as A. match type of A with is_RInt _ _ _ ?v => assert (E : v = 0) by (unfold plus; cbn; field; exact Nw); rewrite E in A end. exact A.
    + assert (G : is_RInt (fun z => poling doms z * sin (w * z)) (INR n * L) (INR (Datatypes.S n) * L) ((1 - -1) / w - (-1 - 1) / w)).
      { apply period_integral; [exact Hk| |].
        - pose proof (RInt_sin w (INR n * L) (INR n * L + L / 2) Nw) as E. rewrite c1, c2 in E. exact E.
        - pose proof (RInt_sin w (INR n * L + L / 2) (INR (Datatypes.S n) * L) Nw) as E. rewrite c2, c3 in E. exact E. }
      pose proof (is_RInt_Chasles _ _ _ _ _ _ S G) as A.
      match type of A with is_RInt _ _ _ ?v => assert (E : v = 2 / PI * (INR (Datatypes.S n) * L)) by (rewrite S_INR; unfold plus, w; cbn; field; repeat split; apply Rgt_not_eq; assumption); rewrite E in A end. exact A.
Qed.
End Grating.

(*! C98: let a crystal's index at pump, signal and idler give a positive mismatch kp - ks - ki.  The period that poling_period returns for them (delta_k_L = 0), handed to set_pp as a tuple, makes
    dfg_problem's precomputation end on every crystal length, and the pattern cancels the mismatch: over any whole number n of periods inside the crystal the integral of the sign times
    exp(i (kp - ks - ki) z) is i 2/pi n Lambda, growing with the length (first-order quasi-phase matching), whereas without poling it is 0. *)
Lemma C98_qpm_grows_l : forall (n : R -> result R) (y : dcrystal) (len P S I np ns ni : R),
  P <> 0 -> S <> 0 -> I <> 0 -> n P = Ok np -> n S = Ok ns -> n I = Ok ni ->
  let k n wl := 2 * PI * n / (wl * 1e-9) in let dk := k np P - k ns S - k ni I in
  0 < dk -> x_len (dx_x y) = Some len ->
  exists Lam, poling_period n None (Some P) (Some S) (Some I) 0 = Ok (Lam, None) /\ 0 < Lam /\
    forall fuel, len / Lam <= INR fuel -> exists doms, precompute_poling fuel (set_pp (PTuple Lam) y) = Ok doms /\
      forall j, INR j * Lam <= len ->
        is_RInt (fun z => poling doms z * cos (dk * z)) 0 (INR j * Lam) 0 /\ is_RInt (fun z => poling doms z * sin (dk * z)) 0 (INR j * Lam) (2 / PI * (INR j * Lam)) /\
        is_RInt (fun z => cos (dk * z)) 0 (INR j * Lam) 0 /\ is_RInt (fun z => sin (dk * z)) 0 (INR j * Lam) 0.
Proof.
  intros n y len P S I np ns ni ZP ZS ZI EP ES EI k dk Hdk Hlen. pose proof PI_RGT_0 as Hpi.
  destruct (C60_poling_period_l n None (Some P) (Some S) (Some I) 0 P S I np ns ni None ZP ZS ZI ltac:(discriminate) ltac:(left; repeat split) EP ES EI) as [H _].
  destruct H as (Lam & E & NL & EL). { apply Rgt_not_eq. exact Hdk. } change (dk - 2 * PI / Lam = 0) in EL.
  assert (EW : 2 * PI / Lam = dk) by lra.
  assert (PL : 0 < Lam). { destruct (Rtotal_order Lam 0) as [L|[L|L]]; [|contradiction|exact L]. exfalso. assert (2 * PI / Lam < 0) by (unfold Rdiv; pose proof (Rinv_lt_0_compat Lam L); nra). lra. }
  exists Lam. split; [exact E|]. split; [exact PL|]. intros fuel Hf.
  destruct (C52_terminates_l (set_pp (PTuple Lam) y) len Lam fuel Hlen PL ltac:(intros; cbn; lra) Hf) as (doms & Ed).
  exists doms. split; [exact Ed|]. intros j Hj.
  destruct (grating_integrals (set_pp (PTuple Lam) y) len Lam fuel doms PL Hlen ltac:(reflexivity) Ed j Hj) as [C1 S1]. rewrite EW in C1, S1.
  split; [exact C1|]. split; [exact S1|].
  destruct (trig Lam PL j) as (s1 & c1 & _). rewrite EW in s1, c1. assert (Nd : dk <> 0) by lra. split.
  - pose proof (RInt_cos dk 0 (INR j * Lam) Nd) as G. rewrite s1, Rmult_0_r, sin_0 in G. match type of G with is_RInt _ _ _ ?v => assert (X : v = 0) by (field; exact Nd); rewrite X in G end. exact G.
  - pose proof (RInt_sin dk 0 (INR j * Lam) Nd) as G. rewrite c1, Rmult_0_r, cos_0 in G. match type of G with is_RInt _ _ _ ?v => assert (X : v = 0) by (field; exact Nd); rewrite X in G end. exact G.
Qed.

(*! C98 (negative mismatch): for a negative mismatch the period returned is negative, and with it the precomputation of the domains never ends. *)
Lemma C98_negative_mismatch_l : forall (n : R -> result R) (y : dcrystal) (len P S I np ns ni : R),
  P <> 0 -> S <> 0 -> I <> 0 -> n P = Ok np -> n S = Ok ns -> n I = Ok ni ->
  let k n wl := 2 * PI * n / (wl * 1e-9) in k np P - k ns S - k ni I < 0 -> x_len (dx_x y) = Some len -> 0 < len ->
  exists Lam, poling_period n None (Some P) (Some S) (Some I) 0 = Ok (Lam, None) /\ Lam < 0 /\ forall fuel, precompute_poling fuel (set_pp (PTuple Lam) y) = Raise NoFuel.
Proof.
  intros n y len P S I np ns ni ZP ZS ZI EP ES EI k Hdk Hlen Hl. pose proof PI_RGT_0 as Hpi.
  destruct (C60_poling_period_l n None (Some P) (Some S) (Some I) 0 P S I np ns ni None ZP ZS ZI ltac:(discriminate) ltac:(left; repeat split) EP ES EI) as [H _].
  set (dk := k np P - k ns S - k ni I) in *.
  destruct H as (Lam & E & NL & EL); [apply Rlt_not_eq; exact Hdk|]. change (dk - 2 * PI / Lam = 0) in EL. assert (EW : 2 * PI / Lam = dk) by lra.
  assert (PL : Lam < 0). { destruct (Rtotal_order Lam 0) as [L|[L|L]]; [exact L|contradiction|]. exfalso. assert (0 < 2 * PI / Lam) by (apply Rdiv_lt_0_compat; lra). lra. }
  exists Lam. split; [exact E|]. split; [exact PL|]. intros fuel. unfold precompute_poling. cbn [set_pp dx_x dx_pp]. rewrite Hlen.
  assert (Hz : 0 < len) by exact Hl. revert Hz. generalize 0 as z. induction fuel as [|fuel IH]; intros z Hz; cbn [poling_loop]; (destruct (Rlt_dec z len); [|lra]); [reflexivity|].
  rewrite IH by lra. reflexivity.
Qed.

(** ** The objective of calc_optimal_beam_overlap_in_crystal *)
Lemma atan_integral K d s L : d <> 0 -> s <> 0 -> is_RInt (fun z => K / (d ^ 2 * z ^ 2 + s ^ 2)) 0 L (K * atan (d * L / s) / (d * s)).
Proof.
  intros Hd Hs.
  assert (D : forall z, is_derive (fun z => K * atan (d * z / s) / (d * s)) z (K / (d ^ 2 * z ^ 2 + s ^ 2))).
  { intros z. assert (P : d ^ 2 * z ^ 2 + s ^ 2 <> 0) by (apply Rgt_not_eq; assert (0 < s ^ 2) by (cbn [pow]; nra); assert (0 <= d ^ 2 * z ^ 2) by (rewrite <- Rpow_mult_distr; apply pow2_ge_0); lra).
    auto_derive; [exact Logic.I|]. match goal with |- @eq _ ?u ?v => change (@eq R u v) end. unfold Rsqr. field. repeat split; try assumption.
    intros F. apply P. rewrite <- F. ring. }
  replace (K * atan (d * L / s) / (d * s)) with (minus (K * atan (d * L / s) / (d * s)) (K * atan (d * 0 / s) / (d * s))).
  2:{ unfold minus, plus, opp; cbn. replace (d * 0 / s) with 0 by (field; exact Hs). rewrite atan_0. field. split; assumption. }
  apply (is_RInt_derive (fun z => K * atan (d * z / s) / (d * s))); [intros z _; apply D|].
  intros z _. apply (ex_derive_continuous (fun z => K / (d ^ 2 * z ^ 2 + s ^ 2))). auto_derive.
  apply Rgt_not_eq. assert (0 < s ^ 2) by (cbn [pow]; nra). assert (0 <= d ^ 2 * z ^ 2) by (rewrite <- Rpow_mult_distr; apply pow2_ge_0). cbn [pow] in *. lra.
Qed.

Lemma overlap_denominator z k1 k2 zr1 zr2 : k2 ^ 2 * (z ^ 2 + zr1 ^ 2) - 2 * k1 * k2 * (z ^ 2 - zr1 * zr2) + k1 ^ 2 * (z ^ 2 + zr2 ^ 2) = (k1 - k2) ^ 2 * z ^ 2 + (k2 * zr1 + k1 * zr2) ^ 2.
Proof. ring. Qed.
(** the three arrays element by element *)
Lemma objective_lists L k1 k2 zr2 zr1 : length k2 = length k1 -> length zr2 = length k1 ->
  overlap_objective L k1 k2 zr2 zr1 = (t <-r rtraverse (fun i => overlap_term L (nth i k1 0) (nth i k2 0) zr1 (nth i zr2 0)) (seq 0 (length k1)) ;; Ok (-1.0 * lrsum t)).
Proof.
  intros H1 H2. unfold overlap_objective. rewrite broadcast2_eq by lia. cbn [rbind]. unfold bcast. rewrite broadcast2_eq by (rewrite map2_length; lia). cbn [rbind]. f_equal.
  revert k2 zr2 H1 H2. induction k1 as [|a k1 IH]; intros [|b k2] [|z zr2] H1 H2; try discriminate; [reflexivity|].
  cbn [map2 length seq rtraverse nth fst snd]. rewrite IH by (cbn in *; lia). f_equal. apply FunctionalExtensionality.functional_extensionality. intros y. f_equal.
  rewrite <- seq_shift. clear. generalize (seq 0 (length k1)) as l. induction l as [|i l IH]; [reflexivity|]. cbn [map rtraverse nth]. rewrite IH. reflexivity.
Qed.

(*! C99: for beams with positive wave vectors (different at every wavelength) and positive Rayleigh ranges, the function that calc_optimal_beam_overlap_in_crystal minimises is minus the sum over the wavelengths
    of the overlap that calc_overlap_integral reports, integrated over distances 0 to L from the common focus. *)
Lemma C99_objective_l : forall (L zr1 : R) (k1 k2 zr2 : list R), length k2 = length k1 -> length zr2 = length k1 -> 0 < zr1 ->
  (forall i, (i < length k1)%nat -> 0 < nth i k1 0 /\ 0 < nth i k2 0 /\ nth i k1 0 <> nth i k2 0 /\ 0 < nth i zr2 0) ->
  exists t, overlap_objective L k1 k2 zr2 zr1 = Ok (- lrsum t) /\ length t = length k1 /\
    forall i, (i < length k1)%nat -> exists g, (forall z, overlap1 z (nth i k1 0) (nth i k2 0) zr1 (nth i zr2 0) = Ok (g z)) /\ is_RInt g 0 L (nth i t 0).
Proof.
  intros L zr1 k1 k2 zr2 H1 H2 Hz H. rewrite objective_lists by assumption.
  set (K := fun i => 4 * nth i k1 0 * nth i k2 0 * zr1 * nth i zr2 0). set (d := fun i => nth i k1 0 - nth i k2 0). set (s := fun i => nth i k2 0 * zr1 + nth i k1 0 * nth i zr2 0).
  assert (A : forall i, (i < length k1)%nat -> d i <> 0 /\ 0 < s i).
  { intros i Hi. destruct (H i Hi) as (P1 & P2 & N & P3). split; [unfold d; intros F; apply N; lra|]. unfold s. pose proof (Rmult_lt_0_compat _ _ P2 Hz). pose proof (Rmult_lt_0_compat _ _ P1 P3). lra. }
  rewrite (rtraverse_ok _ (fun i => K i * atan (d i * L / s i) / (d i * s i))).
  2:{ intros i Hi. apply in_seq in Hi. destruct (A i ltac:(lia)) as [Nd Ps]. destruct (H i ltac:(lia)) as (P1 & P2 & N & P3). unfold overlap_term. cbv zeta. rewrite (Rabs_pos_eq (nth i zr2 0)) by lra. fold (d i) (s i) (K i).
      unfold fdiv at 1. destruct (Req_EM_T (s i) 0); [lra|]. cbn [rbind]. unfold fdiv. destruct (Req_EM_T (d i * s i) 0) as [F|_]; [|reflexivity].
      apply Rmult_integral in F as [F|F]; [contradiction|lra]. }
  cbn [rbind]. eexists. split; [f_equal; instantiate (1 := map (fun i => K i * atan (d i * L / s i) / (d i * s i)) (seq 0 (length k1))); lra|].
  rewrite map_length, seq_length. split; [reflexivity|]. intros i Hi. destruct (A i Hi) as [Nd Ps].
  exists (fun z => K i / (d i ^ 2 * z ^ 2 + s i ^ 2)). split.
  - intros z. unfold overlap1. rewrite overlap_denominator. fold (d i) (s i) (K i). unfold fdiv.
    destruct (Req_EM_T (d i ^ 2 * z ^ 2 + s i ^ 2) 0) as [F|_]; [|reflexivity]. exfalso. assert (0 < s i ^ 2) by (cbn [pow]; nra). assert (0 <= d i ^ 2 * z ^ 2) by (rewrite <- Rpow_mult_distr; apply pow2_ge_0). lra.
  - rewrite (nth_indep _ 0 (K 0%nat * atan (d 0%nat * L / s 0%nat) / (d 0%nat * s 0%nat))) by (rewrite map_length, seq_length; exact Hi).
    rewrite (map_nth (fun i => K i * atan (d i * L / s i) / (d i * s i))), seq_nth by exact Hi. cbn [Nat.add]. apply atan_integral; [exact Nd|lra].
Qed.
(*! C99 (equal wave vectors): with equal wave vectors at some wavelength, for instance a beam compared with itself, the function is 0/0 at every argument. *)
Lemma C99_equal_k_l : forall (L zr1 : R) (k1 k2 zr2 : list R) (i : nat), length k2 = length k1 -> length zr2 = length k1 -> (i < length k1)%nat -> nth i k1 0 = nth i k2 0 ->
  overlap_objective L k1 k2 zr2 zr1 = Raise NonFinite.
Proof.
  intros L zr1 k1 k2 zr2 i H1 H2 Hi E. rewrite objective_lists by assumption.
  assert (R : forall l, In i l -> rtraverse (fun i => overlap_term L (nth i k1 0) (nth i k2 0) zr1 (nth i zr2 0)) l = Raise NonFinite).
  { assert (T : forall j, (exists v, overlap_term L (nth j k1 0) (nth j k2 0) zr1 (nth j zr2 0) = Ok v) \/ overlap_term L (nth j k1 0) (nth j k2 0) zr1 (nth j zr2 0) = Raise NonFinite).
    { intros j. unfold overlap_term, fdiv. cbv zeta. destruct (Req_EM_T _ 0); [right; reflexivity|]. cbn [rbind]. destruct (Req_EM_T _ 0); [right; reflexivity|left; eexists; reflexivity]. }
    assert (B : overlap_term L (nth i k1 0) (nth i k2 0) zr1 (nth i zr2 0) = Raise NonFinite).
    { unfold overlap_term, fdiv. cbv zeta. destruct (Req_EM_T _ 0); [reflexivity|]. cbn [rbind]. rewrite E. destruct (Req_EM_T _ 0) as [_|N]; [reflexivity|]. exfalso. apply N. ring. }
    induction l as [|j l IH]; intros Hl; [destruct Hl|]. cbn [rtraverse]. destruct (Nat.eq_dec j i) as [->|Nj]; [rewrite B; reflexivity|].
    destruct (T j) as [[v ->]| ->]; [|reflexivity]. cbn [rbind]. rewrite IH; [reflexivity|]. destruct Hl as [Hl|Hl]; [contradiction|exact Hl]. }
  rewrite R; [reflexivity|]. apply in_seq. lia.
Qed.

(*! C98 (PPLN): in PPLN at any temperature from 20 to 250 degC, with either data, the mismatch of every down-conversion with wavelengths from 500 to 4500 nm is positive, so that C98 applies to it. *)
Lemma C98_ppln_mismatch_l : forall (x : ppln) (T P S I : R), 20 <= T <= 250 -> 500 <= P -> S <= 4500 -> I <= 4500 -> 0 < S -> 0 < I -> / P = / S + / I ->
  exists np ns ni, ppln_n (set_T T x) P = Ok np /\ ppln_n (set_T T x) S = Ok ns /\ ppln_n (set_T T x) I = Ok ni /\
    let k n wl := 2 * PI * n / (wl * 1e-9) in 0 < k np P - k ns S - k ni I.
Proof.
  intros x T P S I HT HP HS HI PS PI' E. pose proof (Rinv_0_lt_compat S PS) as QS. pose proof (Rinv_0_lt_compat I PI') as QI.
  assert (L1 : P < S). { apply Rnot_le_lt. intros F. pose proof (Rinv_le_contravar S P PS F). lra. }
  assert (L2 : P < I). { apply Rnot_le_lt. intros F. pose proof (Rinv_le_contravar I P PI' F). lra. }
  destruct (C84_ppln_index_l x T T P S HT HT ltac:(lra) ltac:(lra)) as (np & _ & ns & Ep & _ & Es & Bp & _ & Ls).
  destruct (C84_ppln_index_l x T T P I HT HT ltac:(lra) ltac:(lra)) as (np' & _ & ni & Ep' & _ & Ei & _ & _ & Li).
  rewrite Ep in Ep'. injection Ep' as <-. exists np, ns, ni. do 3 (split; [assumption|]). cbv beta zeta. pose proof PI_RGT_0 as Hpi.
  set (c := 1e-9). assert (Hc : 0 < c) by (unfold c; lra). clearbody c. cbv beta.
  replace (2 * PI * np / (P * c) - 2 * PI * ns / (S * c) - 2 * PI * ni / (I * c)) with (2 * PI / c * ((np - ns) * / S + (np - ni) * / I)).
  2:{ replace (2 * PI * np / (P * c)) with (2 * PI / c * np * / P) by (field; split; apply Rgt_not_eq; lra). rewrite E. field. repeat split; apply Rgt_not_eq; lra. }
  apply Rmult_lt_0_compat; [apply Rdiv_lt_0_compat; lra|]. specialize (Ls L1). specialize (Li L2).
  assert (0 < (np - ns) * / S) by (apply Rmult_lt_0_compat; lra). assert (0 < (np - ni) * / I) by (apply Rmult_lt_0_compat; lra). lra.
Qed.

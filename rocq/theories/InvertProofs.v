(** invert_dfg_qpm_to_signal_wl (C126) *)
From Coq Require Import Reals List String Lia Lra.
From Verif Require Import Base ModelCrystal ModelInvert CrystalProofs QpmProofs.
Local Open Scope R_scope.

(** a minimiser that finds an exact minimum of the objective it is given, over the points of the interval where the objective is defined *)
Definition exact_min (f : R -> result R) (lo hi x : R) : Prop := lo <= x <= hi /\ exists m, f x = Ok m /\ forall y v, lo <= y <= hi -> f y = Ok v -> m <= v.
(** the process pump -> signal + idler closed by a grating of period [q] up to the set point 3.2 / length *)
Definition closes (n : R -> result R) (len : option R) (P S q : R) : Prop := exists I np ns ni, / P = / S + / I /\ I <> 0 /\ n P = Ok np /\ n S = Ok ns /\ n I = Ok ni /\
  2 * PI * np / (P * 1e-9) - 2 * PI * ns / (S * 1e-9) - 2 * PI * ni / (I * 1e-9) - 2 * PI / q = match len with Some L => 3.2 / L | None => 0 end.
Ltac step H E := match type of H with rbind ?e _ = Ok _ => destruct e eqn:E; [cbn [rbind] in H|discriminate] end.
Lemma period_inv n len P S q w : poling_period n len (Some P) (Some S) None 3.2 = Ok (q, w) ->
  P <> 0 /\ S <> 0 /\ len <> Some 0 /\ exists I np ns ni, w = Some I /\ I <> 0 /\ / P = / S + / I /\ n P = Ok np /\ n S = Ok ns /\ n I = Ok ni.
Proof.
  intros H. unfold poling_period, fill, inv1 in H. cbn [rbind] in H. step H E. step E F. step F F1. step F F2. step F F3. injection F as <-. injection E as <-.
  apply CrystalProofs.fdiv_inv in F1, F2, F3. destruct F1 as [HP ->], F2 as [HS ->], F3 as [HD ->]. step H N1. step H G1. step H N2. step H G2. step H N3. step H G3. step H G4. step H G5. injection H as _ <-. apply CrystalProofs.fdiv_inv in G1, G2, G3.
  split; [exact HP|]. split; [exact HS|]. split; [destruct len as [L|]; [|discriminate]; apply CrystalProofs.fdiv_inv in G4; intros [= ->]; destruct G4 as [G4 _]; lra|].
  exists (1 / (1 / P - 1 / S)). eexists _, _, _. split; [reflexivity|]. split; [apply G3|]. split; [|eauto]. replace (1 / (1 / P - 1 / S)) with (/ (1 / P - 1 / S)) by (unfold Rdiv; ring). rewrite Rinv_inv. field. auto.
Qed.
Lemma period_swap n len P S q I : poling_period n len (Some P) (Some S) None 3.2 = Ok (q, Some I) -> poling_period n len (Some P) (Some I) None 3.2 = Ok (q, Some S) /\ q <> 0 /\ closes n len P S q.
Proof.
  intros H. destruct (period_inv n len P S q (Some I) H) as (HP & HS & HL & I' & np & ns & ni & [= <-] & HI & E & Ep & Es & Ei).
  destruct (C60_poling_period_l n len (Some P) (Some S) None 3.2 P S I np ns ni (Some I) HP HS HI HL ltac:(right; split; [exact E|]; right; right; auto) Ep Es Ei) as [A1 A2]. cbv zeta in A1, A2.
  destruct (C60_poling_period_l n len (Some P) (Some I) None 3.2 P I S np ni ns (Some S) HP HI HS HL ltac:(right; split; [rewrite E; ring|]; right; right; auto) Ep Ei Es) as [B1 B2]. cbv zeta in B1, B2.
  set (t := match len with Some L => 3.2 / L | None => 0 end) in *. set (kp := 2 * PI * np / (P * 1e-9)) in *. set (ks := 2 * PI * ns / (S * 1e-9)) in *. set (ki := 2 * PI * ni / (I * 1e-9)) in *.
  destruct (Req_dec (kp - ks - ki) t) as [Z|Z]; [rewrite (A2 Z) in H; discriminate|]. destruct (A1 Z) as (q1 & F1 & G1 & M1). rewrite H in F1. injection F1 as <-. destruct (B1 ltac:(lra)) as (q2 & F2 & G2 & M2).
  assert (Q : 2 * PI / q = 2 * PI / q2) by lra. assert (Q2 : q = q2). { pose proof PI_RGT_0. assert (/ q = / q2) by (apply (Rmult_eq_reg_l (2 * PI)); [exact Q|lra]). rewrite <- (Rinv_inv q), <- (Rinv_inv q2). now f_equal. }
  split; [rewrite Q2; exact F2|]. split; [exact G1|]. exists I, np, ns, ni. fold t. fold kp ks ki. repeat split; try assumption. 
Qed.

(*! C126: the objective that invert_dfg_qpm_to_signal_wl minimises is nonnegative, it is zero at a wavelength exactly when the wanted period (nonzero) closes the mixing process pump -> signal + idler
    with the default set point, and it has the same value at the signal and at the idler that belongs to it. *)
Lemma C126_objective_l : forall (n : R -> result R) (len : option R) (P period S v : R), inv_objective n len P period S = Ok v ->
  0 <= v /\ (v = 0 <-> period <> 0 /\ closes n len P S period) /\ exists I, / P = / S + / I /\ inv_objective n len P period I = Ok v.
Proof.
  intros n len P period S v H. unfold inv_objective in H. destruct (poling_period n len (Some P) (Some S) None 3.2) as [[q w]|] eqn:E; [|discriminate]. cbn [rbind fst] in H. injection H as <-.
  destruct (period_inv n len P S q w E) as (HP & HS & HL & I & np & ns & ni & -> & HI & T & Ep & Es & Ei). destruct (period_swap n len P S q I E) as (SW & Q0 & CL). split; [apply pow2_ge_0|]. split; [split|].
  - intros Z. assert (q = period) as <- by (assert (Z2 : (q - period) * (q - period) = 0) by (rewrite <- Z; ring); apply Rmult_integral in Z2; lra). auto.
  - intros [P0 (I2 & np2 & ns2 & ni2 & T2 & HI2 & Ep2 & Es2 & Ei2 & M2)]. assert (I2 = I) as ->. { assert (/ I2 = / I) by lra. rewrite <- (Rinv_inv I2), <- (Rinv_inv I). now f_equal. }
    destruct CL as (I3 & np3 & ns3 & ni3 & T3 & HI3 & Ep3 & Es3 & Ei3 & M3). assert (I3 = I) as ->. { assert (/ I3 = / I) by lra. rewrite <- (Rinv_inv I3), <- (Rinv_inv I). now f_equal. }
    assert (np2 = np3) as -> by congruence. assert (ns2 = ns3) as -> by congruence. assert (ni2 = ni3) as -> by congruence. assert (Q : 2 * PI / period = 2 * PI / q) by lra.
    assert (Q2 : period = q). { pose proof PI_RGT_0. assert (/ period = / q) by (apply (Rmult_eq_reg_l (2 * PI)); [exact Q|lra]). rewrite <- (Rinv_inv period), <- (Rinv_inv q). now f_equal. } rewrite Q2. ring.
  - exists I. split; [exact T|]. unfold inv_objective. rewrite SW. reflexivity.
Qed.

(*! C126: if the minimiser is exact and some signal wavelength between 1.001 times the pump and max_signal_wl_nm has the wanted period, the wavelength invert_dfg_qpm_to_signal_wl returns lies in that range and
    is quasi-phase-matched by the period; with max_signal_wl_nm below 1.001 times the pump it raises. *)
Lemma C126_inverts_l : forall (minimize : (R -> result R) -> R -> R -> R) (n : R -> result R) (len : option R) (P period S max_signal : R) (w : option R),
  let f := inv_objective n len P period in
  (P * 1.001 <= S <= max_signal -> poling_period n len (Some P) (Some S) None 3.2 = Ok (period, w) -> exact_min f (P * 1.001) max_signal (minimize f (P * 1.001) max_signal) ->
     exists r, invert_dfg minimize n len P period max_signal = Ok r /\ P * 1.001 <= r <= max_signal /\ closes n len P r period /\ exists w', poling_period n len (Some P) (Some r) None 3.2 = Ok (period, w')) /\
  (max_signal < P * 1.001 -> invert_dfg minimize n len P period max_signal = Raise ValueError).
Proof.
  intros minimize n len P period S mx w f. unfold invert_dfg. split; [|intros H; destruct (Rlt_dec mx (P * 1.001)); [reflexivity|lra]]. intros HS E HM. destruct (Rlt_dec mx (P * 1.001)) as [F|F]; [lra|].
  fold f. assert (E0 : f S = Ok 0) by (unfold f, inv_objective; rewrite E; cbn [rbind fst]; f_equal; ring).
  assert (LB : forall z v, f z = Ok v -> 0 <= v) by (intros z v Hz; apply (C126_objective_l n len P period z v Hz)).
  destruct HM as (IN & m & Hm & Lm).
  assert (m = 0) as -> by (apply Rle_antisym; [exact (Lm S 0 HS E0)|exact (LB _ _ Hm)]). eexists. split; [reflexivity|]. split; [exact IN|]. set (r := minimize f (P * 1.001) mx) in *. split; [apply (C126_objective_l n len P period r 0 Hm); reflexivity|].
  unfold f, inv_objective in Hm. destruct (poling_period n len (Some P) (Some r) None 3.2) as [[q w']|]; [|discriminate]. cbn [rbind fst] in Hm. injection Hm as Hm. exists w'. do 2 f_equal. assert (Z2 : (q - period) * (q - period) = 0) by (rewrite <- Hm; ring). apply Rmult_integral in Z2. lra.
Qed.

(*! C126: but the answer need not be the signal asked for, even with an exact minimiser: in PPLN at any temperature from 20 to 250 C, with either index data, pumped at 800 nm, the period calculated for a
    signal at 1500 nm is matched exactly at its idler at 12000/7 = 1714 nm as well, both below the default limit of 2000 nm, and an exact minimiser may return either. *)
Lemma C126_signal_refuted_l : forall (x : ppln) (T : R), 20 <= T <= 250 -> exists period w1 w2, let n := ppln_n (set_T T x) in
  poling_period n None (Some 800) (Some 1500) None 3.2 = Ok (period, w1) /\ poling_period n None (Some 800) (Some (12000 / 7)) None 3.2 = Ok (period, w2) /\ 0 < period /\
  exact_min (inv_objective n None 800 period) (800 * 1.001) 2000 1500 /\ exact_min (inv_objective n None 800 period) (800 * 1.001) 2000 (12000 / 7) /\ 12000 / 7 <> 1500.
Proof.
  intros x T HT. destruct (C98_ppln_mismatch_l x T 800 1500 (12000 / 7) HT ltac:(lra) ltac:(lra) ltac:(lra) ltac:(lra) ltac:(lra) ltac:(field)) as (np & ns & ni & Ep & Es & Ei & Hd). cbv zeta in Hd.
  destruct (C60_poling_period_l (ppln_n (set_T T x)) None (Some 800) (Some 1500) None 3.2 800 1500 (12000 / 7) np ns ni (Some (12000 / 7)) ltac:(lra) ltac:(lra) ltac:(lra) ltac:(discriminate) ltac:(right; split; [field|]; right; right; auto) Ep Es Ei) as [A _]. cbv zeta in A.
  destruct (A ltac:(lra)) as (q & F & Q0 & M). destruct (period_swap _ None 800 1500 q _ F) as (F2 & _ & _). exists q, (Some (12000 / 7)), (Some 1500). cbv zeta. split; [exact F|]. split; [exact F2|].
  assert (LB : forall z v, inv_objective (ppln_n (set_T T x)) None 800 q z = Ok v -> 0 <= v) by (intros z v Hz; apply (C126_objective_l _ _ _ _ _ _ Hz)).
  split; [|split; [|split; [|lra]]].
  - pose proof PI_RGT_0. assert (Z : 0 < 2 * PI / q) by lra. apply Rnot_le_lt. intros C. assert (q < 0) by lra. assert (/ q < 0) by now apply Rinv_lt_0_compat. unfold Rdiv in Z. nra.
  - split; [lra|]. exists 0. split; [unfold inv_objective; rewrite F; cbn [rbind fst]; f_equal; ring|]. intros y v _ Hy. exact (LB y v Hy).
  - split; [lra|]. exists 0. split; [unfold inv_objective; rewrite F2; cbn [rbind fst]; f_equal; ring|]. intros y v _ Hy. exact (LB y v Hy).
Qed.

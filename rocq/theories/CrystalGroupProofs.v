(** The group velocity and the dispersion of PPLN with their numbers: C94, C95, C96 on a crystal of the package. *)
From Coq Require Import String.
From Coq Require Import Reals List ZArith Bool Arith Lra Lia Psatz Factorial.
From Coquelicot Require Import Coquelicot.
From Verif Require Import Base CNum NumPy ModelPulse ModelCrystal ModelBeam ModelDFG ModelCrystalMore CrystalIndexProofs CrystalMoreProofs.
Import ListNotations.
Local Open Scope R_scope.
Local Open Scope py_scope.

(** the accuracy of the eleven-point formulas in terms of the third derivative *)
Lemma stencil2 F x r M h : derivatives F 3 x r -> 0 < h <= 1 / 2 -> 1 / 2 < r -> (forall t, Rabs (t - x) <= 1 / 2 -> Rabs (F 3%nat t) <= M) ->
  exists r1 r2, F 0%nat (x + h) = F 0%nat x + h * F 1%nat x + h ^ 2 / 2 * F 2%nat x + r1 /\ F 0%nat (x - h) = F 0%nat x - h * F 1%nat x + h ^ 2 / 2 * F 2%nat x + r2 /\
    Rabs r1 <= h ^ 3 / 6 * M /\ Rabs r2 <= h ^ 3 / 6 * M.
Proof.
  intros H Hh Hr B.
  assert (B' : forall t, Rabs (t - x) <= h -> Rabs (F 3%nat t) <= M) by (intros t Ht; apply B; lra).
  destruct (taylor_right 2 F x r h M H ltac:(lra) B') as (r1 & P1 & E1). destruct (taylor_left 2 F x r h M H ltac:(lra) B') as (r2 & P2 & E2).
  cbn [sum_f_R0 fact Nat.mul Nat.add INR] in *. exists r1, r2.
  split; [rewrite E1; field|]. split; [rewrite E2; field|].
  replace ((1 + 1 + 1 + 1 + 1 + 1)) with 6 in P1, P2 by ring. split; assumption.
Qed.
Section Rough.
Context (f : R -> result R) (F : nat -> R -> R) (x r M : R).
Hypothesis (H : derivatives F 3 x r) (Hr : 1 / 2 < r) (Hv : forall t, Rabs (t - x) <= 1 / 2 -> f t = Ok (F 0%nat t)).
Hypothesis (B : forall t, Rabs (t - x) <= 1 / 2 -> Rabs (F 3%nat t) <= M).
Ltac points := destruct (stencil2 F x r M 0.1 H ltac:(lra) Hr B) as (r1 & l1 & E1 & G1 & P1 & Q1);
  destruct (stencil2 F x r M 0.2 H ltac:(lra) Hr B) as (r2 & l2 & E2 & G2 & P2 & Q2);
  destruct (stencil2 F x r M 0.3 H ltac:(lra) Hr B) as (r3 & l3 & E3 & G3 & P3 & Q3);
  destruct (stencil2 F x r M 0.4 H ltac:(lra) Hr B) as (r4 & l4 & E4 & G4 & P4 & Q4);
  destruct (stencil2 F x r M 0.5 H ltac:(lra) Hr B) as (r5 & l5 & E5 & G5 & P5 & Q5);
  rewrite E1, E2, E3, E4, E5, G1, G2, G3, G4, G5;
  apply Rabs_def2' in P1, P2, P3, P4, P5, Q1, Q2, Q3, Q4, Q5;
  apply Rabs_le; unfold weights1, weights2; cbn [map2 lrsum fold_right pow] in *; lra.
Lemma derivative1_rough : exists d, derivative f x 0.1 1 weights1 = Ok d /\ Rabs (d - F 1%nat x) <= 0.017 * M.
Proof. eexists. split; [apply (derivative_value f (F 0%nat)); exact Hv|]. points. Qed.
Lemma derivative2_rough : exists d, derivative f x 0.1 2 weights2 = Ok d /\ Rabs (d - F 2%nat x) <= 0.17 * M.
Proof. eexists. split; [apply (derivative_value f (F 0%nat)); exact Hv|]. points. Qed.
End Rough.

(** the first three derivatives of the square root of a function *)
Section Sqrt.
Context (s : nat -> R -> R) (x r : R).
Definition sqrt_family (k : nat) (t : R) : R :=
  match k with
  | 0%nat => sqrt (s 0%nat t)
  | 1%nat => s 1%nat t / (2 * sqrt (s 0%nat t))
  | 2%nat => s 2%nat t / (2 * sqrt (s 0%nat t)) - s 1%nat t ^ 2 / (4 * (s 0%nat t * sqrt (s 0%nat t)))
  | _ => s 3%nat t / (2 * sqrt (s 0%nat t)) - 3 * s 1%nat t * s 2%nat t / (4 * (s 0%nat t * sqrt (s 0%nat t))) + 3 * s 1%nat t ^ 3 / (8 * (s 0%nat t ^ 2 * sqrt (s 0%nat t)))
  end.
Hypothesis (D : derivatives s 3 x r) (P : forall t, Rabs (t - x) < r -> 0 < s 0%nat t).
Lemma sqrt_derivatives : derivatives sqrt_family 3 x r.
Proof.
  intros k t Hk Ht. pose proof (P t Ht) as Pt. pose proof (sqrt_lt_R0 _ Pt) as Ps. pose proof (sqrt_sqrt _ (Rlt_le _ _ Pt)) as SS.
  pose proof (D 0%nat t ltac:(lia) Ht) as D0. pose proof (D 1%nat t ltac:(lia) Ht) as D1. pose proof (D 2%nat t ltac:(lia) Ht) as D2.
  pose proof (is_derive_unique _ _ _ D0) as U0. pose proof (is_derive_unique _ _ _ D1) as U1. pose proof (is_derive_unique _ _ _ D2) as U2.
  assert (X0 : ex_derive (s 0%nat) t) by (eexists; exact D0). assert (X1 : ex_derive (s 1%nat) t) by (eexists; exact D1). assert (X2 : ex_derive (s 2%nat) t) by (eexists; exact D2).
  destruct k as [|[|[|k]]]; [| | |lia]; cbn [sqrt_family].
  - apply is_derive_ext with (fun u => sqrt (s 0%nat u)); [reflexivity|]. apply is_derive_sqrt; assumption.
  - apply is_derive_ext with (fun u => s 1%nat u / (2 * sqrt (s 0%nat u))); [reflexivity|].
    auto_derive; [repeat split; try assumption; apply Rgt_not_eq; lra|]. match goal with |- @eq _ ?u ?v => change (@eq R u v) end.
    change (Derive (fun x : R => s 0%nat x) t) with (Derive (s 0%nat) t). change (Derive (fun x : R => s 1%nat x) t) with (Derive (s 1%nat) t). rewrite U0, U1.
    set (q := sqrt (s 0%nat t)) in *. rewrite <- SS. clearbody q. field. apply Rgt_not_eq, Ps.
  - apply is_derive_ext with (fun u => s 2%nat u / (2 * sqrt (s 0%nat u)) - s 1%nat u ^ 2 / (4 * (s 0%nat u * sqrt (s 0%nat u)))); [reflexivity|].
    assert (Z1 : 2 * sqrt (s 0%nat t) <> 0) by (apply Rgt_not_eq; lra). assert (Z2 : 4 * (s 0%nat t * sqrt (s 0%nat t)) <> 0) by (apply Rgt_not_eq, Rmult_lt_0_compat; [lra|apply Rmult_lt_0_compat; assumption]).
    auto_derive; [repeat split; try assumption|]. match goal with |- @eq _ ?u ?v => change (@eq R u v) end.
    change (Derive (fun x : R => s 0%nat x) t) with (Derive (s 0%nat) t). change (Derive (fun x : R => s 1%nat x) t) with (Derive (s 1%nat) t). change (Derive (fun x : R => s 2%nat x) t) with (Derive (s 2%nat) t). rewrite U0, U1, U2.
    set (q := sqrt (s 0%nat t)) in *. rewrite <- SS. clearbody q. field. apply Rgt_not_eq, Ps.
Qed.
End Sqrt.

(** the Sellmeier expression and its derivatives by the wavelength in nm *)
Section Sell.
Context (A B C D E F : R).
Definition sell_family (k : nat) (t : R) : R :=
  let l := t * 0.001 in let p := / (l ^ 2 - C) in let q := / (l ^ 2 - E) in
  match k with
  | 0%nat => sell2 A B C D E F (l ^ 2)
  | 1%nat => 0.001 * (B * (-2 * l * p ^ 2) + D * (-2 * l * q ^ 2) - 2 * F * l)
  | 2%nat => 0.001 ^ 2 * (B * (8 * l ^ 2 * p ^ 3 - 2 * p ^ 2) + D * (8 * l ^ 2 * q ^ 3 - 2 * q ^ 2) - 2 * F)
  | _ => 0.001 ^ 3 * (B * (24 * l * p ^ 3 - 48 * l ^ 3 * p ^ 4) + D * (24 * l * q ^ 3 - 48 * l ^ 3 * q ^ 4))
  end.
Lemma sell_derivatives x r : (forall t, Rabs (t - x) < r -> (t * 0.001) ^ 2 - C <> 0 /\ (t * 0.001) ^ 2 - E <> 0) -> derivatives sell_family 3 x r.
Proof.
  intros Z k t Hk Ht. destruct (Z t Ht) as [Z1 Z2]. set (m := 0.001) in *.
  destruct k as [|[|[|k]]]; [| | |lia].
  - apply is_derive_ext with (fun t => A + B / ((t * m) ^ 2 - C) + D / ((t * m) ^ 2 - E) - F * (t * m) ^ 2); [intros u; reflexivity|].
    cbn [sell_family]. fold m. clearbody m. auto_derive; [repeat split; assumption|]. match goal with |- @eq _ ?u ?v => change (@eq R u v) end. field. split; assumption.
  - apply is_derive_ext with (fun t => m * (B * (-2 * (t * m) * (/ ((t * m) ^ 2 - C)) ^ 2) + D * (-2 * (t * m) * (/ ((t * m) ^ 2 - E)) ^ 2) - 2 * F * (t * m))); [intros u; reflexivity|].
    cbn [sell_family]. fold m. clearbody m. auto_derive; [repeat split; assumption|]. match goal with |- @eq _ ?u ?v => change (@eq R u v) end. field. split; assumption.
  - apply is_derive_ext with (fun t => m ^ 2 * (B * (8 * (t * m) ^ 2 * (/ ((t * m) ^ 2 - C)) ^ 3 - 2 * (/ ((t * m) ^ 2 - C)) ^ 2) + D * (8 * (t * m) ^ 2 * (/ ((t * m) ^ 2 - E)) ^ 3 - 2 * (/ ((t * m) ^ 2 - E)) ^ 2) - 2 * F)); [intros u; reflexivity|].
    cbn [sell_family]. fold m. clearbody m. auto_derive; [repeat split; assumption|]. match goal with |- @eq _ ?u ?v => change (@eq R u v) end. field. split; assumption.
Qed.
End Sell.

Lemma inv_bound a b : 0 < b -> b <= a -> 0 < / a <= / b.
Proof. intros Hb H. split; [apply Rinv_0_lt_compat; lra|apply Rinv_le_contravar; assumption]. Qed.
Lemma prod_bound a b A B M : 0 <= a <= A -> 0 <= b <= B -> A * B <= M -> 0 <= a * b <= M.
Proof. intros Ha Hb HM. split; [apply Rmult_le_pos; lra|]. apply (Rle_trans _ (A * B)); [apply Rmult_le_compat; lra|exact HM]. Qed.

Section SellBounds.
Context (A B C D E F : R).
Hypothesis (HB : 0 < B <= 0.11) (HC : 0 <= C <= 0.046) (HD : 0 <= D <= 220) (HE : 128 <= E) (HF : 0.0132 <= F <= 0.016).
Lemma sell_family_bounds t : 500 <= t <= 4500 ->
  - 0.003 <= sell_family A B C D E F 1 t <= - 1.3e-5 /\ Rabs (sell_family A B C D E F 2 t) <= 3.2e-5 /\ Rabs (sell_family A B C D E F 3 t) <= 5.45e-7.
Proof.
  intros Ht. cbn [sell_family]. set (l := t * 0.001). assert (Hl : 0.5 <= l <= 4.5) by (unfold l; lra). clearbody l.
  assert (U : 0.25 <= l ^ 2 <= 20.25) by (cbn [pow]; nra).
  assert (HP : 0 < / (l ^ 2 - C) <= 4.91).
  { destruct (inv_bound (l ^ 2 - C) 0.204 ltac:(lra) ltac:(lra)) as [P1 P2]. split; [exact P1|]. eapply Rle_trans; [exact P2|]. lra. }
  assert (HQ : 0 <= - / (l ^ 2 - E) <= 0.0093).
  { replace (- / (l ^ 2 - E)) with (/ (E - l ^ 2)) by (field; lra). destruct (inv_bound (E - l ^ 2) 107.75 ltac:(lra) ltac:(lra)) as [P1 P2]. lra. }
  assert (HW : 0 <= l * / (l ^ 2 - C) <= 2.46).
  { split; [apply Rmult_le_pos; lra|]. apply (Rmult_le_reg_r (l ^ 2 - C)); [lra|]. rewrite Rmult_assoc, Rinv_l, Rmult_1_r by lra. cbn [pow] in *. nra. }
  set (p := / (l ^ 2 - C)) in *. set (q' := / (l ^ 2 - E)) in *. clearbody p q'. set (q := - q') in *. replace q' with (- q) by (unfold q; ring). clearbody q. set (w := l * p) in *.
  assert (W1 : l * p ^ 2 = w * p) by (unfold w; ring). assert (W2 : l ^ 2 * p ^ 3 = w ^ 2 * p) by (unfold w; ring).
  assert (W3 : l * p ^ 3 = w * p ^ 2) by (unfold w; ring). assert (W4 : l ^ 3 * p ^ 4 = w ^ 3 * p) by (unfold w; ring).
  assert (P2 : 0 <= p ^ 2 <= 24.2) by (cbn [pow]; nra). assert (Q2 : 0 <= q ^ 2 <= 8.7e-5) by (cbn [pow]; nra).
  assert (V2 : 0 <= w ^ 2 <= 6.06) by (cbn [pow]; nra). assert (V3 : 0 <= w ^ 3 <= 14.91) by (replace (w ^ 3) with (w * w ^ 2) by ring; nra).
  assert (Q3 : 0 <= q ^ 3 <= 8.1e-7) by (replace (q ^ 3) with (q * q ^ 2) by ring; nra). assert (Q4 : 0 <= q ^ 4 <= 7.6e-9) by (replace (q ^ 4) with (q ^ 2 * q ^ 2) by ring; nra).
  assert (L3 : 0 <= l ^ 3 <= 91.2) by (replace (l ^ 3) with (l * l ^ 2) by ring; nra).
  assert (M1 : 0 <= w * p <= 12.08) by nra. assert (M2 : 0 <= w ^ 2 * p <= 29.76) by nra. assert (M3 : 0 <= w * p ^ 2 <= 59.6) by nra. assert (M4 : 0 <= w ^ 3 * p <= 73.3) by nra.
  assert (N1 : 0 <= l * q ^ 2 <= 4e-4) by nra. assert (N2 : 0 <= l ^ 2 * q ^ 3 <= 1.7e-5) by nra. assert (N3 : 0 <= l * q ^ 3 <= 3.7e-6) by nra. assert (N4 : 0 <= l ^ 3 * q ^ 4 <= 7e-7) by nra.
  clearbody w. split; [|split].
  - replace (0.001 * (B * (-2 * l * p ^ 2) + D * (-2 * l * (- q) ^ 2) - 2 * F * l)) with (0.001 * - (2 * (B * (w * p)) + 2 * (D * (l * q ^ 2)) + 2 * (F * l))) by (rewrite <- W1; f_equal; ring).
    assert (0 <= B * (w * p) <= 1.33) by (apply (prod_bound _ _ 0.11 12.08); lra). assert (0 <= D * (l * q ^ 2) <= 0.088) by (apply (prod_bound _ _ 220 4e-4); lra). assert (0.0066 <= F * l <= 0.072) by nra. lra.
  - replace (0.001 ^ 2 * (B * (8 * l ^ 2 * p ^ 3 - 2 * p ^ 2) + D * (8 * l ^ 2 * (- q) ^ 3 - 2 * (- q) ^ 2) - 2 * F))
      with (0.001 ^ 2 * (B * (8 * (w ^ 2 * p) - 2 * p ^ 2) - D * (8 * (l ^ 2 * q ^ 3) + 2 * q ^ 2) - 2 * F)) by (rewrite <- W2; f_equal; ring).

    assert (0 <= B * (w ^ 2 * p) <= 3.28) by (apply (prod_bound _ _ 0.11 29.76); lra). assert (0 <= B * p ^ 2 <= 2.67) by (apply (prod_bound _ _ 0.11 24.2); lra). assert (0 <= D * (l ^ 2 * q ^ 3) <= 0.004) by (apply (prod_bound _ _ 220 1.7e-5); lra). assert (0 <= D * q ^ 2 <= 0.02) by (apply (prod_bound _ _ 220 8.7e-5); lra). apply Rabs_le. lra.
  - replace (0.001 ^ 3 * (B * (24 * l * p ^ 3 - 48 * l ^ 3 * p ^ 4) + D * (24 * l * (- q) ^ 3 - 48 * l ^ 3 * (- q) ^ 4)))
      with (0.001 ^ 3 * (B * (24 * (w * p ^ 2) - 48 * (w ^ 3 * p)) - D * (24 * (l * q ^ 3) + 48 * (l ^ 3 * q ^ 4)))) by (rewrite <- W3, <- W4; f_equal; ring).

    assert (0 <= B * (w * p ^ 2) <= 6.56) by (apply (prod_bound _ _ 0.11 59.6); lra). assert (0 <= B * (w ^ 3 * p) <= 8.07) by (apply (prod_bound _ _ 0.11 73.3); lra). assert (0 <= D * (l * q ^ 3) <= 0.001) by (apply (prod_bound _ _ 220 3.7e-6); lra). assert (0 <= D * (l ^ 3 * q ^ 4) <= 0.0002) by (apply (prod_bound _ _ 220 7e-7); lra). apply Rabs_le. lra.
Qed.
End SellBounds.

Lemma ppln_params x T : 20 <= T <= 250 -> exists A B C D E F, 0.098 <= B <= 0.11 /\ 0 <= C <= 0.046 /\ 0 <= D <= 220 /\ 128 <= E /\ 0.0132 <= F <= 0.016 /\
  forall t, 500 <= t <= 4500 -> ppln_n (set_T T x) t = Ok (sqrt (sell_family A B C D E F 0 t)) /\ 3.24 < sell_family A B C D E F 0 t < 5.76.
Proof.
  intros HT. pose proof (temp_range T HT) as Hf. destruct (pp_src x) eqn:S.
  - exists (5.39121 + 4.96827e-7 * temp T), (0.100473 + 3.862e-8 * temp T), ((0.20692 + (- 0.89e-8) * temp T) ^ 2), (100.0 + 2.657e-5 * temp T), (11.34927 ^ 2), (1.544e-2 + 9.62119e-10 * temp T).
    pose proof (deng_pole _ Hf). do 5 (split; [lra|]). intros t Ht. pose proof (ppln_run x T t HT Ht) as P. rewrite S in P. exact P.
  - exists (5.756 + 2.860e-6 * temp T), (0.0983 + 4.700e-8 * temp T), ((0.2020 + 6.113e-8 * temp T) ^ 2), (189.32 + 1.516e-4 * temp T), (12.52 ^ 2), 1.32e-2.
    pose proof (gayer_pole _ Hf). do 5 (split; [lra|]). intros t Ht. pose proof (ppln_run x T t HT Ht) as P. rewrite S in P. exact P.
Qed.

(** the index of PPLN with its first three derivatives and their bounds *)
Lemma quot_bound a b A B : Rabs a <= A -> 0 < B -> B <= b -> Rabs (a / b) <= A / B.
Proof.
  intros Ha HB Hb. pose proof (Rabs_pos a). unfold Rdiv. rewrite Rabs_mult, Rabs_inv, (Rabs_pos_eq b) by lra.
  apply Rmult_le_compat; [apply Rabs_pos|apply Rlt_le, Rinv_0_lt_compat; lra|exact Ha|apply Rinv_le_contravar; lra].
Qed.
Lemma ppln_index_family x T : 20 <= T <= 250 -> exists F : nat -> R -> R,
  (forall wl, 501 <= wl <= 4499 -> derivatives F 3 wl 1) /\
  forall t, 500 <= t <= 4500 -> ppln_n (set_T T x) t = Ok (F 0%nat t) /\ 1.8 < F 0%nat t < 2.4 /\ - 0.00084 <= F 1%nat t <= - 2.7e-6 /\ Rabs (F 3%nat t) <= 1.7e-7.
Proof.
  intros HT. destruct (ppln_params x T HT) as (A & B & C & D & E & F & HB & HC & HD & HE & HF & Hn).
  exists (sqrt_family (sell_family A B C D E F)). split.
  - intros wl Hw. assert (W : forall t, Rabs (t - wl) < 1 -> 500 <= t <= 4500) by (intros t Ht; unfold Rabs in Ht; destruct (Rcase_abs (t - wl)); lra).
    apply sqrt_derivatives.
    + apply sell_derivatives. intros t Ht. specialize (W t Ht). set (l := t * 0.001). assert (0.5 <= l <= 4.5) by (unfold l; lra). assert (0.25 <= l ^ 2 <= 20.25) by (cbn [pow]; nra). split; lra.
    + intros t Ht. destruct (Hn t (W t Ht)) as [_ P]. lra.
  - intros t Ht. destruct (Hn t Ht) as [R1 R2]. destruct (sell_family_bounds A B C D E F ltac:(lra) HC HD HE HF t Ht) as (S1 & S2 & S3).
    split; [exact R1|]. cbn [sqrt_family].
    set (s0 := sell_family A B C D E F 0 t) in *. set (s1 := sell_family A B C D E F 1 t) in *. set (s2 := sell_family A B C D E F 2 t) in *. set (s3 := sell_family A B C D E F 3 t) in *.
    clearbody s0 s1 s2 s3. pose proof (sqrt_sqrt s0 ltac:(lra)) as SS. assert (Q : 1.8 < sqrt s0 < 2.4).
    { pose proof (sqrt_pos s0). split; nra. }
    set (q := sqrt s0) in *. clearbody q. split; [exact Q|]. split.
    + split; apply (Rmult_le_reg_r (2 * q)); try lra; unfold Rdiv; rewrite Rmult_assoc, Rinv_l, Rmult_1_r by lra; nra.
    + assert (T1 : Rabs (s3 / (2 * q)) <= 5.45e-7 / 3.6) by (apply quot_bound; lra).
      assert (A1 : Rabs s1 <= 0.003) by (apply Rabs_le; lra).
      assert (A12 : Rabs (3 * s1 * s2) <= 2.9e-7).
      { rewrite Rmult_assoc, !Rabs_mult, (Rabs_pos_eq 3) by lra. pose proof (Rabs_pos s1). pose proof (Rabs_pos s2). nra. }
      assert (A13 : Rabs (3 * s1 ^ 3) <= 8.2e-8).
      { rewrite Rabs_mult, (Rabs_pos_eq 3), <- RPow_abs by lra. pose proof (Rabs_pos s1). cbn [pow]. assert (Rabs s1 * Rabs s1 <= 9e-6) by nra. nra. }
      assert (G1 : 5.8 <= s0 * q) by nra. assert (G2 : 18 <= s0 ^ 2 * q) by (replace (s0 ^ 2 * q) with (s0 * (s0 * q)) by ring; nra).
      assert (T2 : Rabs (3 * s1 * s2 / (4 * (s0 * q))) <= 2.9e-7 / 23.2) by (apply quot_bound; lra).
      assert (T3 : Rabs (3 * s1 ^ 3 / (8 * (s0 ^ 2 * q))) <= 8.2e-8 / 144) by (apply quot_bound; lra).
      apply Rabs_def2' in T1, T2, T3. apply Rabs_le. lra.
Qed.

Lemma near_range t wl : 501 <= wl <= 4499 -> Rabs (t - wl) < 1 -> 500 <= t <= 4500.
Proof. intros Hw Ht. unfold Rabs in Ht. destruct (Rcase_abs (t - wl)); lra. Qed.
Section PplnGroup.
Context (x : crystal) (m : ppln) (T : R) (axis : option string).
Hypothesis (HT : 20 <= T <= 250) (Hx : x_mat x = Ppln (set_T T m)).
Lemma ppln_group wl : 501 <= wl <= 4499 -> exists n q,
  n_on_axis (x_mat x) axis wl = Ok n /\ group_velocity_nm_ps x axis wl = Ok (1 / q) /\ 1.8 < n < q * c_nmps /\ n < c_nmps * inv_vg (index (x_mat x) axis) wl /\
  Rabs (c_nmps * q - c_nmps * inv_vg (index (x_mat x) axis) wl) <= 2e-5 /\ ex_derive (wavevector (index (x_mat x) axis)) (2 * PI * c_nmps / wl).
Proof.
  intros Hw. destruct (ppln_index_family m T HT) as (F & DF & HF). specialize (DF wl Hw).
  assert (NF : forall t, Rabs (t - wl) < 1 -> n_on_axis (x_mat x) axis t = Ok (F 0%nat t)).
  { intros t Ht. rewrite Hx. apply (HF t), (near_range t wl Hw Ht). }
  assert (Z : Rabs (wl - wl) < 1) by (rewrite Rminus_eq_0, Rabs_R0; lra).
  destruct (derivative1_rough (n_on_axis (x_mat x) axis) F wl 1 1.7e-7 DF ltac:(lra)) as (d & Ed & Bd).
  { intros t Ht. apply NF. lra. }
  { intros t Ht. apply (HF t), (near_range t wl Hw). lra. }
  assert (DN : is_derive (index (x_mat x) axis) wl (F 1%nat wl)).
  { eapply is_derive_ext_loc; [|apply (DF 0%nat wl ltac:(lia) Z)]. apply (in_locally (wl - 1) (wl + 1)); [lra|]. intros u Hu.
    unfold index. rewrite NF; [reflexivity|]. unfold Rabs. destruct (Rcase_abs (u - wl)); lra. }
  destruct (HF wl ltac:(lra)) as (_ & B0 & B1 & _). pose proof c_pos as Hc.
  assert (Hw0 : 0 < wl) by lra. pose proof (inv_vg_value _ _ _ Hw0 DN) as IV.
  assert (IN : index (x_mat x) axis wl = F 0%nat wl) by (unfold index; rewrite (NF wl Z); reflexivity). rewrite IN in IV.
  apply Rabs_def2' in Bd.
  assert (Pd : 1e-6 <= - d) by lra. assert (Pw : 0 < wl * - d) by (apply Rmult_lt_0_compat; lra). assert (Pf : 0 < wl * - F 1%nat wl) by (apply Rmult_lt_0_compat; lra).
  exists (F 0%nat wl), (1 / c_nmps * (F 0%nat wl - wl * d)).
  assert (EQ : 1 / c_nmps * (F 0%nat wl - wl * d) * c_nmps = F 0%nat wl - wl * d) by (field; apply Rgt_not_eq, Hc).
  assert (EI : c_nmps * inv_vg (index (x_mat x) axis) wl = F 0%nat wl - wl * F 1%nat wl) by (rewrite IV; field; apply Rgt_not_eq, Hc).
  split; [apply NF, Z|]. split.
  - unfold group_velocity_nm_ps. cbv zeta. rewrite Ed. cbn [rbind]. rewrite (NF wl Z). cbn [rbind]. unfold fdiv.
    destruct (Req_EM_T (1 / c_nmps * (F 0%nat wl - wl * d)) 0) as [E|_]; [|reflexivity]. exfalso. rewrite E in EQ. lra.
  - rewrite EQ, EI. split; [lra|]. split; [lra|]. split.
    + rewrite (Rmult_comm c_nmps), EQ. replace (F 0%nat wl - wl * d - (F 0%nat wl - wl * F 1%nat wl)) with (wl * (F 1%nat wl - d)) by ring.
      apply Rabs_le. assert (- 3e-9 <= F 1%nat wl - d <= 3e-9) by lra. nra.
    + eexists. apply wavevector_derive; [exact Hw0|exact DN].
Qed.
End PplnGroup.

(*! C94 (PPLN): on a PPLN crystal at any temperature from 20 to 250 degC, with either Sellmeier data, the group velocity at every wavelength from 501 to 4499 nm is returned; it is positive, below c/n,
    and c over it is the group index c dk/dw to 2e-5. *)
Lemma C94_ppln_l : forall (x : crystal) (m : ppln) (T wl : R) (axis : option string), x_mat x = Ppln (set_T T m) -> 20 <= T <= 250 -> 501 <= wl <= 4499 ->
  exists n vg, n_on_axis (x_mat x) axis wl = Ok n /\ group_velocity_nm_ps x axis wl = Ok vg /\ 0 < vg < c_nmps / n /\
    Rabs (c_nmps / vg - c_nmps * inv_vg (index (x_mat x) axis) wl) <= 2e-5 /\ ex_derive (wavevector (index (x_mat x) axis)) (2 * PI * c_nmps / wl).
Proof.
  intros x m T wl axis Hx HT Hw. destruct (ppln_group x m T axis HT Hx wl Hw) as (n & q & En & Eg & B & _ & A & X). pose proof c_pos as Hc.
  assert (Hq : 0 < q) by nra. exists n, (1 / q). split; [exact En|]. split; [exact Eg|]. split; [split|split; [|exact X]].
  - apply Rdiv_lt_0_compat; lra.
  - apply (Rmult_lt_reg_r (q * n)); [apply Rmult_lt_0_compat; lra|]. replace (1 / q * (q * n)) with n by (field; apply Rgt_not_eq, Hq).
    replace (c_nmps / n * (q * n)) with (q * c_nmps) by (field; apply Rgt_not_eq; lra). apply B.
  - replace (c_nmps / (1 / q)) with (c_nmps * q) by (field; apply Rgt_not_eq, Hq). exact A.
Qed.

(*! C96 (PPLN): for PPLN in the same ranges the delay of two wavelengths over a length is returned, and is the length times the difference of dk/dw to 4e-5 times length over c. *)
Lemma C96_ppln_l : forall (x : crystal) (m : ppln) (T wl1 wl2 L : R) (axis : option string), x_mat x = Ppln (set_T T m) -> 20 <= T <= 250 -> 501 <= wl1 <= 4499 -> 501 <= wl2 <= 4499 -> 0 <= L ->
  exists d, pulse_delay_ps x wl1 wl2 (Some L) axis = Ok d /\
    Rabs (d - 1e9 * L * (inv_vg (index (x_mat x) axis) wl1 - inv_vg (index (x_mat x) axis) wl2)) <= 4e-5 * (1e9 * L / c_nmps).
Proof.
  intros x m T wl1 wl2 L axis Hx HT H1 H2 HL. destruct (ppln_group x m T axis HT Hx wl1 H1) as (n1 & q1 & _ & E1 & B1 & _ & A1 & _).
  destruct (ppln_group x m T axis HT Hx wl2 H2) as (n2 & q2 & _ & E2 & B2 & _ & A2 & _). pose proof c_pos as Hc.
  assert (P1 : 0 < q1) by nra. assert (P2 : 0 < q2) by nra.
  exists (1e9 * L * (q1 - q2)). split.
  - unfold pulse_delay_ps. cbn [rbind]. rewrite E1, E2. cbn [rbind]. unfold fdiv.
    pose proof (Rdiv_lt_0_compat 1 q1 Rlt_0_1 P1). pose proof (Rdiv_lt_0_compat 1 q2 Rlt_0_1 P2).
    destruct (Req_EM_T (1 / q1) 0); [lra|]. destruct (Req_EM_T (1 / q2) 0); [lra|]. cbn [rbind]. f_equal.
    set (k := 1.0e9). replace 1e9 with k by (unfold k; lra). clearbody k. field. split; apply Rgt_not_eq; assumption.
  - set (i1 := inv_vg _ wl1) in *. set (i2 := inv_vg _ wl2) in *. apply Rabs_def2' in A1, A2. set (k := 1e9 * L).
    replace (k * (q1 - q2) - k * (i1 - i2)) with (k / c_nmps * ((c_nmps * q1 - c_nmps * i1) - (c_nmps * q2 - c_nmps * i2))) by (field; apply Rgt_not_eq, Hc).
    assert (Hk : 0 <= k / c_nmps) by (apply Rmult_le_pos; [unfold k; nra|apply Rlt_le, Rinv_0_lt_compat, Hc]).
    rewrite Rabs_mult, (Rabs_pos_eq (k / c_nmps)), (Rmult_comm 4e-5) by exact Hk. apply Rmult_le_compat_l; [exact Hk|]. apply Rabs_le. lra.
Qed.

(** ** The sign of the dispersion, around 1000 nm *)
Section Near1.
Context (A B C D E F : R).
Hypothesis (HB : 0.098 <= B <= 0.11) (HC : 0 <= C <= 0.046) (HD : 0 <= D <= 220) (HE : 128 <= E) (HF : 0.0132 <= F <= 0.016).
Lemma sell_near1 t : 999.5 <= t <= 1000.5 ->
  Rabs (sell_family A B C D E F 1 t) <= 3.2e-4 /\ 5.2e-7 <= sell_family A B C D E F 2 t <= 1e-6 /\ Rabs (sell_family A B C D E F 3 t) <= 1.2e-8.
Proof.
  intros Ht. cbn [sell_family]. set (l := t * 0.001). assert (Hl : 0.9995 <= l <= 1.0005) by (unfold l; lra). clearbody l.
  assert (U : 0.999 <= l ^ 2 <= 1.0011) by (cbn [pow]; nra). assert (L3 : 0.99 <= l ^ 3 <= 1.01) by (replace (l ^ 3) with (l * l ^ 2) by ring; nra).
  assert (HP : 0.9989 <= / (l ^ 2 - C) <= 1.0494).
  { destruct (inv_bound (l ^ 2 - C) 0.953 ltac:(lra) ltac:(lra)) as [P1 P2]. split; [|lra].
    apply (Rmult_le_reg_r (l ^ 2 - C)); [lra|]. rewrite Rinv_l by lra. nra. }
  assert (HQ : 0 <= - / (l ^ 2 - E) <= 0.0079).
  { replace (- / (l ^ 2 - E)) with (/ (E - l ^ 2)) by (field; lra). destruct (inv_bound (E - l ^ 2) 126.9 ltac:(lra) ltac:(lra)) as [P1 P2]. lra. }
  set (p := / (l ^ 2 - C)) in *. set (q' := / (l ^ 2 - E)) in *. clearbody p q'. set (q := - q') in *. replace q' with (- q) by (unfold q; ring). clearbody q.
  assert (P2 : 0.9978 <= p ^ 2 <= 1.1013) by (cbn [pow]; nra). assert (P3 : 0.9967 <= p ^ 3 <= 1.1558) by (replace (p ^ 3) with (p * p ^ 2) by ring; nra). assert (P4 : 0.99 <= p ^ 4 <= 1.213) by (replace (p ^ 4) with (p ^ 2 * p ^ 2) by ring; nra).
  assert (Q2 : 0 <= q ^ 2 <= 6.3e-5) by (cbn [pow]; nra). assert (Q3 : 0 <= q ^ 3 <= 5e-7) by (replace (q ^ 3) with (q * q ^ 2) by ring; nra). assert (Q4 : 0 <= q ^ 4 <= 4e-9) by (replace (q ^ 4) with (q ^ 2 * q ^ 2) by ring; nra).
  assert (M1 : 0 <= l * p ^ 2 <= 1.102) by nra. assert (M2 : 8 * (l ^ 2 * p ^ 3) - 2 * p ^ 2 >= 5.96).
  { replace (l ^ 2 * p ^ 3) with (l ^ 2 * p * p ^ 2) by ring. assert (0.9978 <= l ^ 2 * p) by nra. assert (8 * (l ^ 2 * p) - 2 >= 5.98) by lra. nra. }
  assert (M2' : 8 * (l ^ 2 * p ^ 3) - 2 * p ^ 2 <= 7.27).
  { assert (l ^ 2 * p ^ 3 <= 1.158) by nra. lra. }
  assert (M3 : 0 <= l * p ^ 3 <= 1.157) by nra. assert (M4 : 0 <= l ^ 3 * p ^ 4 <= 1.226) by nra.
  assert (N1 : 0 <= l * q ^ 2 <= 6.4e-5) by nra. assert (N2 : 0 <= l ^ 2 * q ^ 3 <= 6e-7) by nra. assert (N3 : 0 <= l * q ^ 3 <= 6e-7) by nra. assert (N4 : 0 <= l ^ 3 * q ^ 4 <= 5e-9) by nra.
  split; [|split].
  - replace (0.001 * (B * (-2 * l * p ^ 2) + D * (-2 * l * (- q) ^ 2) - 2 * F * l)) with (0.001 * - (2 * (B * (l * p ^ 2)) + 2 * (D * (l * q ^ 2)) + 2 * (F * l))) by (f_equal; ring).
    assert (0 <= B * (l * p ^ 2) <= 0.1213) by (apply (prod_bound _ _ 0.11 1.102); lra). assert (0 <= D * (l * q ^ 2) <= 0.0141) by (apply (prod_bound _ _ 220 6.4e-5); lra). assert (0 <= F * l <= 0.0161) by nra.
    apply Rabs_le. lra.
  - replace (0.001 ^ 2 * (B * (8 * l ^ 2 * p ^ 3 - 2 * p ^ 2) + D * (8 * l ^ 2 * (- q) ^ 3 - 2 * (- q) ^ 2) - 2 * F))
      with (0.001 ^ 2 * (B * (8 * (l ^ 2 * p ^ 3) - 2 * p ^ 2) - D * (8 * (l ^ 2 * q ^ 3) + 2 * q ^ 2) - 2 * F)) by (f_equal; ring).
    set (m2 := 8 * (l ^ 2 * p ^ 3) - 2 * p ^ 2) in *. clearbody m2. assert (0.584 <= B * m2 <= 0.8) by nra. set (n2 := l ^ 2 * q ^ 3) in *. clearbody n2.
    assert (0 <= D * (8 * n2 + 2 * q ^ 2) <= 0.029) by (apply (prod_bound _ _ 220 1.31e-4); lra). lra.
  - replace (0.001 ^ 3 * (B * (24 * l * p ^ 3 - 48 * l ^ 3 * p ^ 4) + D * (24 * l * (- q) ^ 3 - 48 * l ^ 3 * (- q) ^ 4)))
      with (0.001 ^ 3 * (B * (24 * (l * p ^ 3) - 48 * (l ^ 3 * p ^ 4)) - D * (24 * (l * q ^ 3) + 48 * (l ^ 3 * q ^ 4)))) by (f_equal; ring).
    assert (0 <= B * (l * p ^ 3) <= 0.128) by (apply (prod_bound _ _ 0.11 1.157); lra). assert (0 <= B * (l ^ 3 * p ^ 4) <= 0.135) by (apply (prod_bound _ _ 0.11 1.226); lra).
    assert (0 <= D * (l * q ^ 3) <= 0.00014) by (apply (prod_bound _ _ 220 6e-7); lra). assert (0 <= D * (l ^ 3 * q ^ 4) <= 0.00001) by (apply (prod_bound _ _ 220 5e-9); lra). apply Rabs_le. lra.
Qed.
End Near1.

(*! C95 (sign, refuted): PPLN has normal dispersion at 1000 nm (group velocity rising with wavelength, D below -300 ps/(nm km)), at every temperature from 20 to 250 degC and with either data, and
    calculate_D_ps_nm_km returns a number above +300 for it. *)
Lemma C95_sign_refuted_l : forall (x : crystal) (m : ppln) (T : R) (axis : option string), x_mat x = Ppln (set_T T m) -> 20 <= T <= 250 ->
  exists D, D_ps_nm_km x axis 1000 = Ok D /\ 300 < D /\ ex_derive (inv_vg (index (x_mat x) axis)) 1000 /\ 1e12 * Derive (inv_vg (index (x_mat x) axis)) 1000 < - 300.
Proof.
  intros x m T axis Hx HT. destruct (ppln_params m T HT) as (A & B & C & D & E & F & HB & HC & HD & HE & HF & Hn).
  set (s := sell_family A B C D E F). assert (Z : Rabs (1000 - 1000) < 1) by (rewrite Rminus_eq_0, Rabs_R0; lra).
  assert (W : forall t, Rabs (t - 1000) < 1 -> 500 <= t <= 4500) by (intros t; apply near_range; lra).
  assert (DF : derivatives (sqrt_family s) 3 1000 1).
  { apply sqrt_derivatives.
    - apply sell_derivatives. intros t Ht. specialize (W t Ht). set (l := t * 0.001). assert (0.5 <= l <= 4.5) by (unfold l; lra). assert (0.25 <= l ^ 2 <= 20.25) by (cbn [pow]; nra). split; lra.
    - intros t Ht. destruct (Hn t (W t Ht)) as [_ P]. unfold s. lra. }
  assert (NF : forall t, Rabs (t - 1000) < 1 -> n_on_axis (x_mat x) axis t = Ok (sqrt_family s 0%nat t)).
  { intros t Ht. rewrite Hx. apply (Hn t), W, Ht. }
  assert (Bd : forall t, Rabs (t - 1000) <= 1 / 2 -> 1e-7 <= sqrt_family s 2%nat t /\ Rabs (sqrt_family s 3%nat t) <= 4e-9).
  { intros t Ht. assert (Ht' : 999.5 <= t <= 1000.5) by (apply Rabs_def2' in Ht; lra). destruct (sell_near1 A B C D E F HB HC HD HE HF t Ht') as (S1 & S2 & S3).
    destruct (Hn t ltac:(lra)) as [_ S0]. cbn [sqrt_family]. fold s in S0, S1, S2, S3. set (s0 := s 0%nat t) in *. set (s1 := s 1%nat t) in *. set (s2 := s 2%nat t) in *. set (s3 := s 3%nat t) in *.
    clearbody s0 s1 s2 s3. pose proof (sqrt_sqrt s0 ltac:(lra)) as SS. assert (Q : 1.8 < sqrt s0 < 2.4) by (pose proof (sqrt_pos s0); split; nra).
    set (q := sqrt s0) in *. clearbody q. assert (G1 : 5.8 <= s0 * q) by nra. assert (G2 : 18 <= s0 ^ 2 * q) by (replace (s0 ^ 2 * q) with (s0 * (s0 * q)) by ring; nra).
    assert (A11 : 0 <= Rabs s1 * Rabs s1 <= 1.03e-7) by (pose proof (Rabs_pos s1); split; nra). assert (E1 : s1 ^ 2 = Rabs s1 * Rabs s1) by (cbn [pow]; rewrite Rmult_1_r, <- Rabs_mult, Rabs_pos_eq by nra; ring).
    split.
    - assert (V1 : 1.08e-7 <= s2 / (2 * q)). { apply (Rmult_le_reg_r (2 * q)); [lra|]. replace (s2 / (2 * q) * (2 * q)) with s2 by (field; lra). nra. }
      assert (V2 : Rabs (s1 ^ 2 / (4 * (s0 * q))) <= 1.03e-7 / 23.2) by (apply quot_bound; [rewrite E1, Rabs_pos_eq; lra|lra|lra]).
      apply Rabs_def2' in V2. lra.
    - assert (T1 : Rabs (s3 / (2 * q)) <= 1.2e-8 / 3.6) by (apply quot_bound; lra).
      assert (A12 : Rabs (3 * s1 * s2) <= 1e-9). { rewrite Rmult_assoc, !Rabs_mult, (Rabs_pos_eq 3), (Rabs_pos_eq s2) by lra. pose proof (Rabs_pos s1). nra. }
      assert (A13 : Rabs (3 * s1 ^ 3) <= 1e-10).
      { rewrite Rabs_mult, (Rabs_pos_eq 3), <- RPow_abs by lra. pose proof (Rabs_pos s1). replace (Rabs s1 ^ 3) with (Rabs s1 * (Rabs s1 * Rabs s1)) by ring. nra. }
      assert (T2 : Rabs (3 * s1 * s2 / (4 * (s0 * q))) <= 1e-9 / 23.2) by (apply quot_bound; lra).
      assert (T3 : Rabs (3 * s1 ^ 3 / (8 * (s0 ^ 2 * q))) <= 1e-10 / 144) by (apply quot_bound; lra).
      apply Rabs_def2' in T1, T2, T3. apply Rabs_le. lra. }
  destruct (derivative2_rough (n_on_axis (x_mat x) axis) (sqrt_family s) 1000 1 4e-9 DF ltac:(lra)) as (d & Ed & Dd).
  { intros t Ht. apply NF. lra. } { intros t Ht. apply Bd, Ht. }
  assert (DI : is_derive (inv_vg (index (x_mat x) axis)) 1000 (- 1000 / c_nmps * sqrt_family s 2%nat 1000)).
  { apply (inv_vg_derive _ _ 1); [lra|lra| |]. { intros k t Hk Ht. apply DF; [lia|exact Ht]. } intros t Ht. unfold index. rewrite (NF t Ht). reflexivity. }
  destruct (Bd 1000 ltac:(rewrite Rminus_eq_0, Rabs_R0; lra)) as [N2 _]. set (n2 := sqrt_family s 2%nat 1000) in *. clearbody n2. apply Rabs_def2' in Dd.
  assert (Hc : 1000 / c_nmps >= 0.0033) by (unfold c_nmps, c_mks; lra).
  exists (1000 / c_nmps * d * 1.0e12). split; [unfold D_ps_nm_km; rewrite Ed; reflexivity|]. split; [nra|]. split; [eexists; exact DI|].
  rewrite (is_derive_unique _ _ _ DI). replace (- 1000 / c_nmps * n2) with (- (1000 / c_nmps * n2)) by (unfold Rdiv; ring). nra.
Qed.

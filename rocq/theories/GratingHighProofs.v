(** Proofs about the higher-order dispersion of the grating compressor: C118, C119, C120. *)
From Coq Require Import Reals List ZArith Bool Arith Lia Lra Psatz Factorial.
From Coquelicot Require Import Coquelicot.
From Verif Require Import Base CNum NumPy ModelPulse ModelCrystal CrystalProofs ModelGrating ModelGratingHigh CrystalMoreProofs BeamProofs GratingProofs StencilProofs.
Import ListNotations.
Local Open Scope R_scope.
Local Open Scope py_scope.

(** ** Polynomials in 1/w and 1/sqrt(1 - v^2), v = K/w - s, and their derivatives *)
Definition vv (K s x : R) : R := K * / x - s.
Definition ss (K s x : R) : R := / sqrt (1 - vv K s x ^ 2).
Definition mono : Type := R * nat * nat.
Definition ev1 (K s x : R) (m : mono) : R := let '(r, a, b) := m in r * (/ x) ^ a * ss K s x ^ b.
Definition ev (K s : R) (l : list mono) (x : R) : R := lrsum (map (ev1 K s x) l).
Definition D1 (K s : R) (m : mono) : list mono := let '(r, a, b) := m in
  [(- INR a * r, S a, b); (- (INR b * K ^ 2) * r, (3 + a)%nat, (2 + b)%nat); (INR b * K * s * r, (2 + a)%nat, (2 + b)%nat)].
Definition Dm (K s : R) (l : list mono) : list mono := flat_map (D1 K s) l.
Definition inside (K s x : R) : Prop := x <> 0 /\ -1 < vv K s x < 1.

Lemma inside_pos K s x : inside K s x -> 0 < 1 - vv K s x ^ 2.
Proof. intros [_ H]. nra. Qed.
Lemma ss_pos K s x : inside K s x -> 0 < ss K s x.
Proof. intros H. apply Rinv_0_lt_compat, sqrt_lt_R0, inside_pos, H. Qed.
Lemma ss_derive K s x : inside K s x -> is_derive (ss K s) x (- K ^ 2 * (/ x) ^ 3 * ss K s x ^ 3 + K * s * (/ x) ^ 2 * ss K s x ^ 3).
Proof.
  intros H. pose proof (inside_pos K s x H) as P. destruct H as [Z _]. pose proof (sqrt_lt_R0 _ P) as Q. unfold ss, vv in *. auto_derive.
  - replace (1 + - ((K * / x + - s) * ((K * / x + - s) * 1))) with (1 - (K * / x - s) ^ 2) by ring. split; [exact Z|]. split; [exact P|]. split; [apply Rgt_not_eq; exact Q|exact I].
  - replace (K * / x + - s) with (K * / x - s) by ring. replace (1 + - ((K * / x - s) * ((K * / x - s) * 1))) with (1 - (K * / x - s) ^ 2) by ring.
    set (q := sqrt (1 - (K * / x - s) ^ 2)) in *. field. split; [lra|assumption].
Qed.
Lemma ev1_derive K s x m : inside K s x -> is_derive (fun y => ev1 K s y m) x (ev K s (D1 K s m) x).
Proof.
  intros H. destruct m as [[r a] b]. pose proof (ss_derive K s x H) as D. set (q := ss K s x) in *.
  assert (U : is_derive (fun y => / y) x (- (/ x) ^ 2)) by (auto_derive; [apply H|field; apply H]).
  pose proof (is_derive_pow _ a x _ U) as Ua. pose proof (is_derive_pow _ b x _ D) as Ub.
  pose proof (is_derive_mult _ _ x _ _ Ua Ub Rmult_comm) as M. pose proof (is_derive_scal _ x r _ M) as S1.
  assert (E : r * (INR a * - (/ x) ^ 2 * (/ x) ^ pred a * q ^ b + (/ x) ^ a * (INR b * (- K ^ 2 * (/ x) ^ 3 * q ^ 3 + K * s * (/ x) ^ 2 * q ^ 3) * q ^ pred b)) = ev K s (D1 K s (r, a, b)) x).
  { unfold ev. cbn [D1 map lrsum fold_right ev1]. fold q. destruct a as [|a], b as [|b]; cbn [pred pow Nat.add]; rewrite ?S_INR; change (INR 0) with 0; ring. }
  rewrite <- E. eapply is_derive_ext; [intros y; symmetry; unfold ev1; apply Rmult_assoc|]. exact S1.
Qed.
Lemma ev_app K s l l' x : ev K s (l ++ l') x = ev K s l x + ev K s l' x.
Proof. unfold ev. rewrite map_app, lrsum_app. reflexivity. Qed.
Lemma ev_derive K s x l : inside K s x -> is_derive (ev K s l) x (ev K s (Dm K s l) x).
Proof.
  intros H. induction l as [|m l IH].
  - eapply is_derive_ext; [intros y; symmetry; reflexivity|]. apply (is_derive_const 0).
  - cbn [Dm flat_map]. rewrite ev_app. apply (is_derive_plus (fun y => ev1 K s y m) (ev K s l)); [apply ev1_derive, H|exact IH].
Qed.

(** the size of the terms *)
Definition sz1 (K s x : R) (m : mono) : R := let '(r, a, b) := m in Rabs r * Rabs (/ x) ^ a * ss K s x ^ b.
Definition sz (K s : R) (l : list mono) (x : R) : R := lrsum (map (sz1 K s x) l).
Definition degs (d : nat) (l : list mono) : Prop := forall m, In m l -> (snd (fst m) + snd m <= d)%nat.
Lemma sz_cons K s m l x : sz K s (m :: l) x = sz1 K s x m + sz K s l x.
Proof. reflexivity. Qed.
Lemma sz_app K s l l' x : sz K s (l ++ l') x = sz K s l x + sz K s l' x.
Proof. unfold sz. rewrite map_app, lrsum_app. reflexivity. Qed.
Lemma sz1_pos K s x m : inside K s x -> 0 <= sz1 K s x m.
Proof. intros H. destruct m as [[r a] b]. cbn. pose proof (ss_pos K s x H). repeat apply Rmult_le_pos; try apply Rabs_pos; apply pow_le; [apply Rabs_pos|lra]. Qed.
Lemma ev_sz K s l x : inside K s x -> Rabs (ev K s l x) <= sz K s l x.
Proof.
  intros H. induction l as [|m l IH]; [cbn; rewrite Rabs_R0; lra|]. change (ev K s (m :: l) x) with (ev1 K s x m + ev K s l x). rewrite sz_cons. eapply Rle_trans; [apply Rabs_triang|].
  apply Rplus_le_compat; [|exact IH]. destruct m as [[r a] b]. cbn. rewrite !Rabs_mult, <- !RPow_abs, (Rabs_pos_eq (ss K s x)); [lra|]. left. apply ss_pos, H.
Qed.
Lemma degs_D K s d l : degs d l -> degs (d + 5) (Dm K s l).
Proof. intros H m Hm. unfold Dm in Hm. apply in_flat_map in Hm as ([[r a] b] & H1 & H2). specialize (H _ H1). cbn in H, H2. destruct H2 as [<-|[<-|[<-|[]]]]; cbn; lia. Qed.
Lemma sz_D K s B d l x : inside K s x -> 1 <= B -> (K ^ 2 * (/ x) ^ 2 + Rabs (K * s) * Rabs (/ x)) * ss K s x ^ 2 <= B -> degs d l ->
  sz K s (Dm K s l) x <= INR d * (B * Rabs (/ x)) * sz K s l x.
Proof.
  intros H HB HK. induction l as [|m l IH]; intros Hd; [cbn; lra|]. cbn [Dm flat_map]. rewrite sz_app, sz_cons, Rmult_plus_distr_l. apply Rplus_le_compat; [|apply IH; intros m' Hm'; apply Hd; right; exact Hm'].
  specialize (Hd m (or_introl eq_refl)). pose proof (sz1_pos K s x m H) as P. destruct m as [[r a] b]. cbn [fst snd] in Hd. unfold sz. cbn [D1 map lrsum fold_right sz1] in *. pose proof (ss_pos K s x H) as Q. set (q := ss K s x) in *. set (u := Rabs (/ x)) in *.
  rewrite !Rabs_mult, !Rabs_Ropp, !Rabs_mult, (Rabs_pos_eq (INR a)), (Rabs_pos_eq (INR b)) by apply pos_INR. rewrite (Rabs_pos_eq (K ^ 2)) by nra.
  cbn [Nat.add pow]. assert (U0 : 0 <= u) by apply Rabs_pos.
  replace (INR a * Rabs r * (u * u ^ a) * q ^ b + (INR b * (K * (K * 1)) * Rabs r * (u * (u * (u * u ^ a))) * (q * (q * q ^ b)) + (INR b * Rabs K * Rabs s * Rabs r * (u * (u * u ^ a)) * (q * (q * q ^ b)) + 0))) with (u * (Rabs r * u ^ a * q ^ b) * (INR a + INR b * ((K ^ 2 * u ^ 2 + Rabs (K * s) * u) * q ^ 2))) by (rewrite Rabs_mult; ring).
  replace ((/ x) ^ 2) with (u ^ 2) in HK by (unfold u; rewrite pow2_abs; reflexivity). fold u q in HK.
  replace (INR d * (B * u) * (Rabs r * u ^ a * q ^ b)) with (u * (Rabs r * u ^ a * q ^ b) * (INR d * B)) by ring. apply Rmult_le_compat_l; [apply Rmult_le_pos; assumption|].
  apply le_INR in Hd. rewrite plus_INR in Hd. pose proof (pos_INR a) as A1. pose proof (pos_INR b) as B1.
  assert (INR b * ((K ^ 2 * u ^ 2 + Rabs (K * s) * u) * q ^ 2) <= INR b * B) by (apply Rmult_le_compat_l; assumption). assert (INR a <= INR a * B) by nra. assert ((INR a + INR b) * B <= INR d * B) by (apply Rmult_le_compat_r; lra). lra.
Qed.
Fixpoint Dn (K s : R) (n : nat) (l : list mono) : list mono := match n with O => l | S n => Dm K s (Dn K s n l) end.
Lemma degs_Dn K s d n l : degs d l -> degs (d + 5 * n) (Dn K s n l).
Proof. intros H. induction n as [|n IH]; cbn [Dn]; [rewrite Nat.mul_0_r, Nat.add_0_r; exact H|]. replace (d + 5 * S n)%nat with ((d + 5 * n) + 5)%nat by lia. apply degs_D, IH. Qed.
Lemma sz_Dn K s B n l x : inside K s x -> 1 <= B -> (K ^ 2 * (/ x) ^ 2 + Rabs (K * s) * Rabs (/ x)) * ss K s x ^ 2 <= B -> degs 5 l ->
  sz K s (Dn K s n l) x <= INR (fact n) * (5 * B * Rabs (/ x)) ^ n * sz K s l x.
Proof.
  intros H HB HK Hd. induction n as [|n IH]; [cbn [Dn fact pow]; change (INR 1) with 1; lra|]. cbn [Dn]. eapply Rle_trans; [apply (sz_D K s B (5 + 5 * n)); try assumption; apply degs_Dn, Hd|].
  replace (5 + 5 * n)%nat with (5 * S n)%nat by lia. rewrite mult_INR. change (fact (S n)) with (S n * fact n)%nat. rewrite mult_INR. cbn [pow]. replace (INR 5) with 5 by (cbn; lra).
  replace (INR (S n) * INR (fact n) * (5 * B * Rabs (/ x) * (5 * B * Rabs (/ x)) ^ n) * sz K s l x) with (5 * INR (S n) * (B * Rabs (/ x)) * (INR (fact n) * (5 * B * Rabs (/ x)) ^ n * sz K s l x)) by ring.
  apply Rmult_le_compat_l; [|exact IH]. pose proof (pos_INR (S n)). pose proof (Rabs_pos (/ x)). repeat apply Rmult_le_pos; lra.
Qed.

(** ** The group delay *)
Definition tK (t : treacy) : R := 2 * PI * c_mks / t_d t.
Definition tau_mono (t : treacy) (G : R) : list mono := [(G / c_mks * (1 - sin (t_g t) ^ 2), 0%nat, 1%nat); (G / c_mks * (sin (t_g t) * tK t), 1%nat, 1%nat)].
Definition tau (t : treacy) (G x : R) : R := G / c_mks * cos (t_g t) + ev (tK t) (sin (t_g t)) (tau_mono t G) x.
Definition taun (t : treacy) (G : R) (n : nat) (x : R) : R := match n with O => tau t G x | _ => ev (tK t) (sin (t_g t)) (Dn (tK t) (sin (t_g t)) n (tau_mono t G)) x end.
Definition diffracted (t : treacy) (x : R) : Prop := x <> 0 /\ -1 < 2 * PI * c_mks / (x * t_d t) - sin (t_g t) < 1.

Lemma vv_diff t x : x <> 0 -> t_d t <> 0 -> vv (tK t) (sin (t_g t)) x = 2 * PI * c_mks / (x * t_d t) - sin (t_g t).
Proof. intros Z D. unfold vv, tK. field. auto. Qed.
Lemma diff_inside t x : t_d t <> 0 -> diffracted t x -> inside (tK t) (sin (t_g t)) x.
Proof. intros D [Z H]. split; [exact Z|]. rewrite vv_diff by assumption. exact H. Qed.
Lemma taun_derive t G n x : t_d t <> 0 -> diffracted t x -> is_derive (taun t G n) x (taun t G (S n) x).
Proof.
  intros D H. pose proof (diff_inside t x D H) as I. destruct n as [|n]; cbn [taun Dn]; [|apply ev_derive, I]. unfold tau.
  rewrite <- (Rplus_0_l (ev _ _ (Dm _ _ _) x)). apply (is_derive_plus (fun _ => G / c_mks * cos (t_g t)) (ev (tK t) (sin (t_g t)) (tau_mono t G))); [|apply ev_derive, I].
  exact (is_derive_const (V := R_NormedModule) (G / c_mks * cos (t_g t)) x).
Qed.
Lemma nm_mks x : x <> 0 -> 1e9 * 2 * PI * c_mks / x * 1e-9 = 2 * PI * c_mks / x.
Proof. intros Z. assert (E : 1e9 * 1e-9 = 1) by lra. revert E. generalize 1e9 1e-9. intros u v E. transitivity ((u * v) * (2 * PI * c_mks / x)); [unfold Rdiv; ring|]. rewrite E. ring. Qed.
Lemma delay_value t G q x : inside (tK t) (sin (t_g t)) x -> q = vv (tK t) (sin (t_g t)) x -> cos (asin q) <> 0 /\ G / cos (asin q) * (1 + cos (t_g t - asin q)) / c_mks = tau t G x.
Proof.
  intros I ->. pose proof (ss_pos _ _ _ I) as P. pose proof (inside_pos _ _ _ I) as W. pose proof (sqrt_lt_R0 _ W) as Q. destruct I as [Z B].
  set (v := vv (tK t) (sin (t_g t)) x) in *. assert (E : cos (asin v) = sqrt (1 - v ^ 2)) by (rewrite cos_asin by lra; f_equal; unfold Rsqr; ring).
  rewrite E. split; [lra|]. rewrite cos_minus, E, sin_asin by lra. unfold tau, ev. cbn [tau_mono map lrsum fold_right ev1]. unfold ss. fold v. set (w := sqrt (1 - v ^ 2)) in *.
  pose proof c_pos. assert (EV : tK t * / x = v + sin (t_g t)) by (unfold v, vv; ring). set (sg := sin (t_g t)) in *. clearbody w.
  replace (G / c_mks * (sg * tK t) * (/ x) ^ 1 * (/ w) ^ 1) with (G / c_mks * sg * (tK t * / x) * / w) by (cbn [pow]; ring). rewrite EV. cbn [pow]. field. split; lra.
Qed.
Lemma dphi_value t G x : t_d t <> 0 -> diffracted t x -> calc_dphi_domega t x G = Ok (tau t G x).
Proof.
  intros D H. pose proof (diff_inside t x D H) as I. unfold calc_dphi_domega, calc_theta. rewrite CrystalProofs.fdiv_ok by exact (proj1 H). cbn [rbind]. rewrite nm_mks by apply H. rewrite CrystalProofs.fdiv_ok by exact D. cbn [rbind].
  set (q := 2 * PI * c_mks / x / t_d t - sin (t_g t)). assert (E : q = vv (tK t) (sin (t_g t)) x) by (unfold q, vv, tK; field; split; [apply H|exact D]).
  rewrite arcsin_ok by (rewrite E; destruct I; lra). cbn [rbind]. replace (t_g t - (t_g t - asin q)) with (asin q) by ring. destruct (delay_value t G q x I E) as [C V]. rewrite CrystalProofs.fdiv_ok by exact C. cbn [rbind]. pose proof c_pos. rewrite CrystalProofs.fdiv_ok by lra. now rewrite V.
Qed.
Lemma dphi_array t G xs : t_d t <> 0 -> (forall x, In x xs -> diffracted t x) -> calc_dphi_domega_array t xs G = Ok (map (tau t G) xs).
Proof.
  intros D H. unfold calc_dphi_domega_array. rewrite (rtraverse_map _ (fun x => 1e9 * 2 * PI * c_mks / x)) by (intros x Hx; apply CrystalProofs.fdiv_ok, (H x Hx)). cbn [rbind].
  unfold calc_theta_array. rewrite (rtraverse_map _ (fun wl => t_g t - asin (wl * 1e-9 / t_d t - sin (t_g t)))).
  - cbn [rbind]. rewrite map_map. rewrite (rtraverse_map _ (fun th => G / cos (t_g t - th) * (1 + cos th) / c_mks)).
    + f_equal. rewrite map_map. apply map_ext_in. intros x Hx. specialize (H x Hx). pose proof (diff_inside t x D H) as I. rewrite nm_mks by apply H. set (q := 2 * PI * c_mks / x / t_d t - sin (t_g t)). replace (t_g t - (t_g t - asin q)) with (asin q) by ring.
      apply delay_value; [exact I|]. unfold q, vv, tK. field. split; [apply H|exact D].
    + intros th Hth. apply in_map_iff in Hth as (x & <- & Hx). specialize (H x Hx). pose proof (diff_inside t x D H) as I. rewrite nm_mks by apply H. set (q := 2 * PI * c_mks / x / t_d t - sin (t_g t)). replace (t_g t - (t_g t - asin q)) with (asin q) by ring.
      destruct (delay_value t G q x I) as [C V]; [unfold q, vv, tK; field; split; [apply H|exact D]|]. rewrite CrystalProofs.fdiv_ok by exact C. cbn [rbind]. pose proof c_pos. rewrite CrystalProofs.fdiv_ok by lra. reflexivity.
  - intros wl Hwl. apply in_map_iff in Hwl as (x & <- & Hx). specialize (H x Hx). pose proof (diff_inside t x D H) as I. rewrite nm_mks by apply H. rewrite CrystalProofs.fdiv_ok by exact D. cbn [rbind]. set (q := 2 * PI * c_mks / x / t_d t - sin (t_g t)).
    assert (E : q = vv (tK t) (sin (t_g t)) x) by (unfold q, vv, tK; field; split; [apply H|exact D]). destruct I as [_ I]. rewrite <- E in I. unfold coerce. destruct (Rlt_dec 1 q); [lra|]. destruct (Rlt_dec q (-1)); [lra|]. rewrite arcsin_ok by lra. reflexivity.
Qed.
Lemma taun_derivatives t G n x r : t_d t <> 0 -> (forall y, Rabs (y - x) < r -> diffracted t y) -> derivatives (taun t G) n x r.
Proof. intros D H k y _ Hy. apply taun_derive; [exact D|apply H, Hy]. Qed.
(** any function that gives the delay near x has its derivatives *)
Lemma Derive_delay t G (F : R -> R) x r : t_d t <> 0 -> (forall y, Rabs (y - x) < r -> diffracted t y /\ calc_dphi_domega t y G = Ok (F y)) -> forall n y, Rabs (y - x) < r -> ex_derive_n F n y /\ Derive_n F n y = taun t G n y.
Proof.
  intros D H n y Hy. assert (E : forall z, Rabs (z - x) < r -> F z = tau t G z). { intros z Hz. destruct (H z Hz) as [A B]. rewrite (dphi_value t G z D A) in B. congruence. }
  assert (L : locally y (fun z => tau t G z = F z)).
  { assert (P : 0 < r - Rabs (y - x)) by lra. exists (mkposreal _ P). intros z Hz. symmetry. apply E. unfold ball in Hz; cbn in Hz; unfold AbsRing_ball, abs, minus, plus, opp in Hz; cbn in Hz. replace (z - x) with ((z + - y) + (y - x)) by ring. eapply Rle_lt_trans; [apply Rabs_triang|]. lra. }
  destruct (derivatives_n (taun t G) n x r (taun_derivatives t G n x r D ltac:(intros z Hz; apply (H z Hz))) n y (le_n _) Hy) as [X Y]. split.
  - apply (ex_derive_n_ext_loc (taun t G 0)); [exact L|exact X].
  - rewrite <- Y. symmetry. apply Derive_n_ext_loc. exact L.
Qed.

(*! C118: all derivatives of the single-pass group delay exist where the colour is diffracted, and the n-th is at most n! (5 B / |w|)^n times (|G|/c)(1 + |sin g| |2 pi c/(w d)|)/sqrt(1 - sin^2 out). *)
Lemma C118_derivative_bound_l : forall (t : treacy) (G w r B : R) (F : R -> R) (n : nat), t_d t <> 0 -> 0 < r ->
  (forall y, Rabs (y - w) < r -> y <> 0 /\ -1 < 2 * PI * c_mks / (y * t_d t) - sin (t_g t) < 1 /\ calc_dphi_domega t y G = Ok (F y)) ->
  let k := Rabs (2 * PI * c_mks / (w * t_d t)) in let q := 1 - (2 * PI * c_mks / (w * t_d t) - sin (t_g t)) ^ 2 in
  1 <= B -> (k ^ 2 + Rabs (sin (t_g t)) * k) / q <= B -> (1 <= n)%nat ->
  ex_derive_n F n w /\ Rabs (Derive_n F n w) <= INR (fact n) * (5 * B / Rabs w) ^ n * (Rabs G / c_mks * (1 + Rabs (sin (t_g t)) * k) / sqrt q).
Proof.
  intros t G w r B F n D Hr H k q HB HK Hn. destruct (Derive_delay t G F w r D ltac:(intros y Hy; destruct (H y Hy) as (A1 & A2 & A3); split; [split; assumption|assumption]) n w ltac:(rewrite Rminus_diag_eq, Rabs_R0 by reflexivity; exact Hr)) as [X Y].
  split; [exact X|]. rewrite Y. destruct (H w ltac:(rewrite Rminus_diag_eq, Rabs_R0 by reflexivity; exact Hr)) as (Z & V & _). pose proof (diff_inside t w D (conj Z V)) as I.
  destruct n as [|n]; [lia|]. cbn [taun]. eapply Rle_trans; [apply ev_sz, I|].
  assert (Eq : q = 1 - vv (tK t) (sin (t_g t)) w ^ 2) by (unfold q; rewrite vv_diff by assumption; reflexivity).
  assert (Ek : k = Rabs (tK t) * Rabs (/ w)) by (unfold k, tK; rewrite <- Rabs_mult; f_equal; field; auto).
  pose proof (inside_pos _ _ _ I) as Pq. rewrite <- Eq in Pq. pose proof (sqrt_lt_R0 _ Pq) as Sq. assert (Es : ss (tK t) (sin (t_g t)) w = / sqrt q) by (unfold ss; rewrite Eq; reflexivity).
  eapply Rle_trans; [apply (sz_Dn _ _ B (S n)); [exact I|exact HB| |]|].
  - rewrite Es. eapply Rle_trans; [|exact HK]. right. rewrite Ek, Rabs_mult, Rpow_mult_distr, !pow2_abs. replace ((/ sqrt q) ^ 2) with (/ q); [field; split; [exact Z|lra]|]. rewrite <- (sqrt_sqrt q) at 1 by lra. field. lra.
  - intros m [<-|[<-|[]]]; cbn; lia.
  - replace (5 * B * Rabs (/ w)) with (5 * B / Rabs w) by (unfold Rdiv; rewrite Rabs_Rinv by exact Z; reflexivity). pose proof c_pos as Pc. apply Rmult_le_compat_l.
    + apply Rmult_le_pos; [apply pos_INR|]. apply pow_le. apply Rmult_le_pos; [lra|]. left. apply Rinv_0_lt_compat, Rabs_pos_lt, Z.
    + unfold sz. cbn [tau_mono map lrsum fold_right sz1]. rewrite Es, !Rabs_mult. unfold Rdiv. rewrite !Rabs_mult. rewrite (Rabs_pos_eq (/ c_mks)) by (left; apply Rinv_0_lt_compat; lra).
      assert (S1 : Rabs (1 - sin (t_g t) ^ 2) <= 1). { pose proof (SIN_bound (t_g t)). rewrite Rabs_pos_eq; nra. } rewrite Ek. set (z := Rabs (1 - sin (t_g t) ^ 2)) in *. clearbody z. cbn [pow]. pose proof (Rabs_pos G) as PG.
      assert (0 <= Rabs G * / c_mks * / sqrt q) by (repeat apply Rmult_le_pos; try (left; apply Rinv_0_lt_compat; lra); assumption).
      replace (Rabs G * / c_mks * z * 1 * (/ sqrt q * 1) + (Rabs G * / c_mks * (Rabs (sin (t_g t)) * Rabs (tK t)) * (Rabs (/ w) * 1) * (/ sqrt q * 1) + 0)) with ((Rabs G * / c_mks * / sqrt q) * (z + Rabs (sin (t_g t)) * (Rabs (tK t) * Rabs (/ w)))) by ring.
      replace (Rabs G * / c_mks * (1 + Rabs (sin (t_g t)) * (Rabs (tK t) * Rabs (/ w))) * / sqrt q) with ((Rabs G * / c_mks * / sqrt q) * (1 + Rabs (sin (t_g t)) * (Rabs (tK t) * Rabs (/ w)))) by ring. apply Rmult_le_compat_l; [assumption|]. lra.
Qed.

(** ** calc_compressor_dnphi_domega_n *)
Definition sg_const (n : nat) : R := rsum 11 (fun i => Rabs (nth i (savgol_coeffs (Z.of_nat n)) 0) * Rabs (INR i - 5) ^ 8) / INR (fact 8).
Lemma sg_const_le n : (1 <= n <= 4)%nat -> sg_const n <= 5 / 2.
Proof.
  intros [H1 H2]. unfold sg_const.
  assert (E : rsum 11 (fun i => Rabs (nth i (savgol_coeffs (Z.of_nat n)) 0) * Rabs (INR i - 5) ^ 8) = IZR (zs 11 (fun i => Z.abs (nth i (snd (savgol_table (Z.of_nat n))) 0%Z) * (Z.abs (Z.of_nat i - 5)) ^ Z.of_nat 8)%Z) / sgd n).
  { rewrite <- zs_rsum. unfold Rdiv. rewrite <- rsum_scal_r. apply rsum_ext. intros i Hi. pose proof (sgd_pos n). rewrite sg_nth by exact Hi. rewrite mult_IZR, <- pow_IZR, !abs_IZR, minus_IZR, <- INR_IZR_INZ. unfold Rdiv. rewrite Rabs_mult, (Rabs_pos_eq (/ sgd n)) by (left; apply Rinv_0_lt_compat; assumption). ring. }
  rewrite E. change (INR (fact 8)) with (INR (Z.to_nat 40320)). rewrite INR_IZR_INZ, Z2Nat.id by lia. destruct n as [|[|[|[|[|n]]]]]; try lia; unfold sgd; cbn [Z.of_nat savgol_table fst snd Pos.of_succ_nat Pos.succ]; match goal with |- IZR ?z / _ / _ <= _ => let v := eval vm_compute in z in change z with v end; lra.
Qed.
Lemma ws_nth w0 i : (i < 101)%nat -> nth i (linspace (w0 - 10e12) (w0 + 10e12) 101) 0 = w0 + (INR i - 50) * 2e11.
Proof. intros Hi. change (linspace (w0 - 10e12) (w0 + 10e12) 101) with (mk 101 (fun j => (w0 - 10e12) + INR j * ((w0 + 10e12 - (w0 - 10e12)) / INR (101 - 1)))). rewrite mk_nth by exact Hi. replace (INR (101 - 1)) with 100 by (rewrite INR_IZR_INZ; reflexivity). lra. Qed.
Lemma ws_length w0 : length (linspace (w0 - 10e12) (w0 + 10e12) 101) = 101%nat.
Proof. change (linspace (w0 - 10e12) (w0 + 10e12) 101) with (mk 101 (fun j => (w0 - 10e12) + INR j * ((w0 + 10e12 - (w0 - 10e12)) / INR (101 - 1)))). apply mk_length. Qed.
Lemma scale_pow n : (2e11 * powerRZ 10 (-15 * (1 + Z.of_nat n))) ^ n = 2e11 ^ n * / 10 ^ (15 * n * (n + 1)).
Proof.
  rewrite Rpow_mult_distr. f_equal. replace (-15 * (1 + Z.of_nat n))%Z with (- Z.of_nat (15 * (n + 1)))%Z by lia. rewrite powerRZ_neg by lra. rewrite <- pow_powerRZ. replace (15 * n * (n + 1))%nat with (15 * (n + 1) * n)%nat by lia. rewrite (pow_mult 10 (15 * (n + 1)) n). rewrite <- (Rinv_pow 10 (15 * (n + 1))) by lra. symmetry. apply Rinv_pow, pow_nonzero. lra.
Qed.

(*! C118: calc_compressor_dnphi_domega_n of order n (1 to 4), at a wavelength around which all colours within 10 rad/ps are diffracted, is the n-th derivative of the single-pass group delay at that colour, in SI units times 10^(15 n (n+1)), up to an error of at most 2.5 M (2e11)^(8-n) in the same units, M bounding the eighth derivative within 1 rad/ps. *)
Lemma C118_dnphi_value_l : forall (t : treacy) (wl G M : R) (F : R -> R) (n : nat), let w0 := 2 * PI * c_mks / (wl * 1e-9) in
  wl <> 0 -> t_d t <> 0 -> (1 <= n <= 4)%nat ->
  (forall y, Rabs (y - w0) <= 10e12 -> y <> 0 /\ -1 < 2 * PI * c_mks / (y * t_d t) - sin (t_g t) < 1 /\ calc_dphi_domega t y G = Ok (F y)) ->
  (forall y, Rabs (y - w0) <= 1e12 -> Rabs (Derive_n F 8 y) <= M) ->
  exists v, calc_compressor_dnphi_domega_n t wl G (Z.of_nat n) = Ok v /\
    Rabs (v - 10 ^ (15 * n * (n + 1)) * Derive_n F n w0) <= 10 ^ (15 * n * (n + 1)) * (5 / 2 * M * 2e11 ^ (8 - n)).
Proof.
  intros t wl G M F n w0 Hwl D Hn H HM. assert (Z1 : wl * 1e-9 <> 0) by (intros E; apply Hwl; lra).
  assert (Hd : forall y, Rabs (y - w0) <= 10e12 -> diffracted t y) by (intros y Hy; destruct (H y Hy) as (A & B & _); split; assumption).
  pose proof (Derive_delay t G F w0 10e12 D ltac:(intros y Hy; destruct (H y ltac:(lra)) as (A1 & A2 & A3); split; [split; assumption|assumption])) as DD.
  unfold calc_compressor_dnphi_domega_n. replace (Z.of_nat n <? 1)%Z with false by (symmetry; apply Z.ltb_ge; lia). rewrite CrystalProofs.fdiv_ok by exact Z1. cbn [rbind]. fold w0.
  assert (Wd : forall x, In x (linspace (w0 - 10e12) (w0 + 10e12) 101) -> diffracted t x).
  { intros x Hx. destruct (In_nth _ _ 0 Hx) as (i & Hi & <-). rewrite ws_length in Hi. rewrite ws_nth by exact Hi. apply Hd. replace (w0 + (INR i - 50) * 2e11 - w0) with ((INR i - 50) * 2e11) by ring.
    assert (I1 : 0 <= INR i) by apply pos_INR. assert (I2 : INR i <= 100) by (replace 100 with (INR 100) by (rewrite INR_IZR_INZ; reflexivity); apply le_INR; lia). apply Rabs_le. lra. }
  rewrite dphi_array by assumption. cbn [rbind].
  replace (nth 1 (linspace (w0 - 10e12) (w0 + 10e12) 101) 0 - nth 0 (linspace (w0 - 10e12) (w0 + 10e12) 101) 0) with 2e11 by (rewrite !ws_nth by lia; cbn [INR]; lra). rewrite Nat2Z.id, scale_pow.
  set (sc := 10 ^ (15 * n * (n + 1))). assert (Ps : 0 < sc) by (apply pow_lt; lra). assert (Ph : 0 < 2e11 ^ n) by (apply pow_lt; lra).
  rewrite CrystalProofs.fdiv_ok by (apply Rgt_not_eq, Rmult_lt_0_compat; [exact Ph|apply Rinv_0_lt_compat, Ps]). eexists. split; [reflexivity|].
  set (S0 := savgol_filter_at _ _ _).
  assert (ES : S0 = rsum 11 (fun i => nth i (savgol_coeffs (Z.of_nat n)) 0 * taun t G 0 (w0 + (INR i - 5) * 2e11))).
  { unfold S0, savgol_filter_at. apply rsum_ext. intros i Hi. f_equal. rewrite (nth_indep _ 0 (tau t G 0)) by (rewrite map_length, ws_length; lia). rewrite map_nth. cbn [taun]. f_equal. rewrite ws_nth by lia. rewrite plus_INR. replace (INR (50 - 5)) with 45 by (rewrite INR_IZR_INZ; reflexivity). lra. }
  assert (BB : Rabs (S0 - 2e11 ^ n * Derive_n F n w0) <= sg_const n * 2e11 ^ 8 * M).
  { rewrite ES. rewrite (proj2 (DD n w0 ltac:(rewrite Rminus_diag_eq, Rabs_R0 by reflexivity; lra))). unfold sg_const.
    apply (stencil 11 (fun i => nth i (savgol_coeffs (Z.of_nat n)) 0) (fun i => INR i - 5) 7 n (taun t G) w0 10e12 2e11 5 M).
    - intros k Hk. apply sg_moments; lia.
    - lia.
    - apply taun_derivatives; [exact D|]. intros y Hy. apply Hd. lra.
    - lra.
    - intros i Hi. assert (I1 : 0 <= INR i) by apply pos_INR. assert (I2 : INR i <= 10) by (replace 10 with (INR 10) by (rewrite INR_IZR_INZ; reflexivity); apply le_INR; lia). apply Rabs_le. lra.
    - lra.
    - intros y Hy. rewrite <- (proj2 (DD 8%nat y ltac:(lra))). apply HM. lra. }
  assert (PM : 0 <= M) by (eapply Rle_trans; [apply Rabs_pos|apply (HM w0); rewrite Rminus_diag_eq, Rabs_R0 by reflexivity; lra]).
  pose proof (sg_const_le n Hn) as SC. set (h := 2e11) in *. assert (Hh : 0 < h) by (unfold h; lra). clearbody h.
  replace (S0 / (h ^ n * / sc) - sc * Derive_n F n w0) with (sc / h ^ n * (S0 - h ^ n * Derive_n F n w0)) by (field; split; lra).
  rewrite Rabs_mult, (Rabs_pos_eq (sc / h ^ n)) by (left; apply Rmult_lt_0_compat; [exact Ps|apply Rinv_0_lt_compat, Ph]).
  replace (sc * (5 / 2 * M * h ^ (8 - n))) with (sc / h ^ n * (5 / 2 * h ^ 8 * M)) by (replace (h ^ 8) with (h ^ n * h ^ (8 - n)) by (rewrite <- pow_add; f_equal; lia); field; lra).
  apply Rmult_le_compat_l; [left; apply Rmult_lt_0_compat; [exact Ps|apply Rinv_0_lt_compat, Ph]|]. eapply Rle_trans; [exact BB|]. apply Rmult_le_compat_r; [exact PM|]. apply Rmult_le_compat_r; [apply pow_le; lra|exact SC].
Qed.
(*! C118: an order below one is refused with ValueError. *)
Lemma C118_order_refused_l : forall (t : treacy) (wl G : R) (n : Z), (n < 1)%Z -> calc_compressor_dnphi_domega_n t wl G n = Raise ValueError.
Proof. intros t wl G n H. unfold calc_compressor_dnphi_domega_n. replace (n <? 1)%Z with true by (symmetry; apply Z.ltb_lt; exact H). reflexivity. Qed.

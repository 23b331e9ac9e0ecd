(** The Dormand-Prince step on forced linear systems y' = A y + p(x): agreement of the step, the interpolant and the error
    estimates with the Taylor series of the solution (C76). *)
From Coq Require Import QArith Qreals Reals List ZArith Bool Arith Lia Lra.
From Coquelicot Require Import Complex.
From Verif Require Import Base CNum NumPy ModelDopr ModelODE ODEStepProofs ODETableauProofs.
Import ListNotations.
Local Open Scope R_scope.
Local Open Scope py_scope.
Local Notation z0 := (RtoC 0).

(** ** Integer polynomials in the step, measured in units of 10^-33 *)
Definition SC : Z := (10 ^ 33)%Z.
(** 10^33 times a tabulated coefficient *)
Definition zc (q : Q) : Z := (Qnum q * (SC / Zpos (Qden q)))%Z.
Definition zok (q : Q) : bool := Z.eqb (zc q * Zpos (Qden q)) (Qnum q * SC).
Lemma SC_pos : 0 < IZR SC. Proof. apply IZR_lt. vm_compute. reflexivity. Qed.
Lemma zc_R q : zok q = true -> Q2R q = IZR (zc q) / IZR SC.
Proof.
  unfold zok. intros H. apply Z.eqb_eq in H. apply (f_equal IZR) in H. rewrite !mult_IZR in H. unfold Q2R. pose proof SC_pos as P. assert (D : 0 < IZR (Zpos (Qden q))) by (apply IZR_lt; reflexivity).
  apply (Rmult_eq_reg_r (IZR SC * IZR (Zpos (Qden q)))); [|apply Rgt_not_eq, Rmult_lt_0_compat; assumption].
  transitivity (IZR (Qnum q) * IZR SC); [field; lra|]. rewrite <- H. field. lra.
Qed.
Fixpoint padd (p q : list Z) : list Z :=
  match p, q with [], _ => q | _, [] => p | a :: p, b :: q => (a + b)%Z :: padd p q end.
Definition pscale (c : Z) (p : list Z) : list Z := map (fun a => (c * a)%Z) p.
Definition pcomb (l : list (Z * list Z)) : list Z := fold_right (fun p q => padd (pscale (fst p) (snd p)) q) [] l.
(** sum of p_j h^j w_(k+j) *)
Fixpoint ev (h : R) (w : nat -> C) (p : list Z) (k : nat) : C :=
  match p with [] => z0 | a :: p => RtoC (IZR a) * w k + RtoC h * ev h w p (S k) end%C.
Lemma ev_padd h w : forall p q k, ev h w (padd p q) k = (ev h w p k + ev h w q k)%C.
Proof.
  induction p as [|a p IH]; intros q k; [cbn [padd ev]; ring|]. destruct q as [|b q]; [cbn [padd ev]; ring|].
  cbn [padd ev]. rewrite IH, plus_IZR, RtoC_plus. ring.
Qed.
Lemma ev_pscale h w c : forall p k, ev h w (pscale c p) k = (RtoC (IZR c) * ev h w p k)%C.
Proof.
  induction p as [|a p IH]; intros k; [cbn [pscale map ev]; ring|]. cbn [pscale map ev]. fold (pscale c p). rewrite IH, mult_IZR, RtoC_mult. ring.
Qed.
Lemma csum_first m (u : nat -> C) : csum (S m) u = (u 0%nat + csum m (fun j => u (S j)))%C.
Proof. induction m as [|m IH]; [rewrite csum_S, csum_0; cbn; ring|]. rewrite csum_S, IH, csum_S. ring. Qed.
Lemma ev_csum h w : forall p k, ev h w p k = csum (length p) (fun j => RtoC (IZR (nth j p 0%Z) * h ^ j) * w (k + j)%nat)%C.
Proof.
  induction p as [|a p IH]; intros k; [reflexivity|]. cbn [length ev]. rewrite csum_first. cbn [nth pow]. rewrite IH, Rmult_1_r, Nat.add_0_r. f_equal.
  rewrite <- csum_scal_l. apply csum_ext. intros j _. cbn [nth pow]. rewrite <- Nat.add_succ_comm, !RtoC_mult. ring.
Qed.

(** a family of polynomials, one for each power of x in the forcing; family 0 also multiplies the initial state *)
Definition fam : Type := nat -> list Z.
Definition fcomb (l : list (Z * fam)) : fam := fun m => pcomb (map (fun p => (fst p, snd p m)) l).
(** the stage with node c (times 10^33) and row l *)
Definition stg (c : Z) (l : list (Z * fam)) : fam := fun m => (c ^ Z.of_nat m)%Z :: fcomb l m.
Definition fadd (F G : fam) : fam := fun m => padd (F m) (G m).
Definition fscale (c : Z) (F : fam) : fam := fun m => pscale c (F m).

Section Linear.
  Variables (n : nat) (A : nat -> nat -> C) (v : nat -> nat -> C) (w : nat -> nat -> nat -> C) (h : R).
  Hypothesis Hv : forall k i, (i < n)%nat -> v (S k) i = csum n (fun j => A i j * v k j)%C.
  Hypothesis Hw : forall m k i, (i < n)%nat -> w m (S k) i = csum n (fun j => A i j * w m k j)%C.
  Definition hs : R := h / IZR SC.
  (** the value of a family: homogeneous part and one part for each power of x *)
  Definition val (F : fam) (k : nat) (i : nat) : C :=
    (ev hs (fun j => v j i) (F 0%nat) (S k) + csum 8 (fun m => RtoC (hs ^ m) * ev hs (fun j => w m j i) (F m) k))%C.
  Lemma val_add F G k i : val (fadd F G) k i = (val F k i + val G k i)%C.
  Proof.
    unfold val, fadd. rewrite ev_padd. rewrite (csum_ext 8 _ (fun m => RtoC (hs ^ m) * ev hs (fun j => w m j i) (F m) k + RtoC (hs ^ m) * ev hs (fun j => w m j i) (G m) k)%C) by (intros m _; rewrite ev_padd; ring).
    rewrite csum_plus. ring.
  Qed.
  Lemma val_scale c F k i : val (fscale c F) k i = (RtoC (IZR c) * val F k i)%C.
  Proof.
    unfold val, fscale. rewrite ev_pscale, (csum_ext 8 _ (fun m => RtoC (IZR c) * (RtoC (hs ^ m) * ev hs (fun j => w m j i) (F m) k))%C) by (intros m _; rewrite ev_pscale; ring).
    rewrite csum_scal_l. ring.
  Qed.
  Lemma val_ext F G k i : (forall m, F m = G m) -> val F k i = val G k i.
  Proof. intros H. unfold val. rewrite H. f_equal. apply csum_ext. intros m _. now rewrite H. Qed.
  Lemma val_apply i F : (i < n)%nat -> csum n (fun j => A i j * val F 0 j)%C = val F 1 i.
  Proof.
    intros Hi. assert (G : forall u : nat -> nat -> C, (forall k j, (j < n)%nat -> u (S k) j = csum n (fun l => A j l * u k l)%C) -> forall p k, csum n (fun j => A i j * ev hs (fun m => u m j) p k)%C = ev hs (fun m => u m i) p (S k)).
    { intros u Hu. induction p as [|a p IH]; intros k; cbn [ev]; [apply csum_zero; intros j _; ring|]. rewrite <- IH, Hu by exact Hi. rewrite <- !csum_scal_l, <- csum_plus. apply csum_ext. intros j _. ring. }
    unfold val. rewrite (csum_ext n _ (fun j => A i j * ev hs (fun m => v m j) (F 0%nat) 1 + A i j * csum 8 (fun m => RtoC (hs ^ m) * ev hs (fun l => w m l j) (F m) 0))%C) by (intros j _; ring).
    rewrite csum_plus, (G v Hv). f_equal. rewrite (csum_ext n _ (fun j => csum 8 (fun m => RtoC (hs ^ m) * (A i j * ev hs (fun l => w m l j) (F m) 0)))%C).
    - rewrite csum_swap. apply csum_ext. intros m _. rewrite csum_scal_l. f_equal. apply (G (w m)). intros k j Hj. now apply Hw.
    - intros j _. rewrite <- csum_scal_l. apply csum_ext. intros m _. ring.
  Qed.
  (** a stage derivative, and a state y + h * (combination of stage derivatives) *)
  Definition is_k (F : fam) (l : list C) : Prop := forall i, (i < n)%nat -> nth i l z0 = val F 0 i.
  Definition is_y (F : fam) (l : list C) : Prop := forall i, (i < n)%nat -> nth i l z0 = (v 0%nat i + RtoC hs * val F 0 i)%C.
  (** coefficient c of the program and its integer multiple *)
  Definition is_zc (c : R) (z : Z) : Prop := c = IZR z / IZR SC.
  Definition pairs (l : list (R * list C)) (q : list (Z * fam)) : Prop := Forall2 (fun a b => is_zc (fst a) (fst b) /\ is_k (snd b) (snd a)) l q.
  Lemma SC_inv c : (RtoC (IZR SC) * RtoC (c / IZR SC))%C = RtoC c.
  Proof. rewrite <- RtoC_mult. f_equal. pose proof SC_pos. field. lra. Qed.
  Lemma fcomb_cons b F q m : fcomb ((b, F) :: q) m = fadd (fscale b F) (fcomb q) m. Proof. reflexivity. Qed.
  Lemma comb_ev l q : pairs l q -> forall i, (i < n)%nat -> (RtoC (IZR SC) * comb l i)%C = val (fcomb q) 0 i.
  Proof.
    intros H i Hi. induction H as [|[a x] [b F] l q [E1 E2] H IH].
    - unfold comb, val, fcomb. cbn [fold_left map pcomb fold_right ev]. rewrite csum_zero by (intros m _; ring). ring.
    - rewrite comb_cons. cbn [fst snd] in *. rewrite (val_ext _ _ 0 i (fcomb_cons b F q)), val_add, val_scale, <- IH, E1, (E2 i Hi). rewrite <- (SC_inv (IZR b)). ring.
  Qed.
  Lemma comb_ev' l q : pairs l q -> forall i, (i < n)%nat -> comb l i = (RtoC (/ IZR SC) * val (fcomb q) 0 i)%C.
  Proof. intros H i Hi. rewrite <- (comb_ev l q H i Hi), Cmult_assoc, <- RtoC_mult, Rinv_l, Cmult_1_l; [reflexivity|]. pose proof SC_pos. lra. Qed.
  Lemma comb_h l q : pairs l q -> forall i, (i < n)%nat -> (RtoC h * comb l i)%C = (RtoC hs * val (fcomb q) 0 i)%C.
  Proof. intros H i Hi. rewrite (comb_ev' l q H i Hi). unfold hs at 1, Rdiv. rewrite RtoC_mult. ring. Qed.
  Lemma h_hs : RtoC h = (RtoC hs * RtoC (IZR SC))%C. Proof. rewrite <- RtoC_mult. f_equal. unfold hs. pose proof SC_pos. field. lra. Qed.
  Lemma ytemp_ev y l q : length y = n -> (forall i, (i < n)%nat -> nth i y z0 = v 0%nat i) -> pairs l q -> is_y (fcomb q) (ytemp y h l).
  Proof. intros L Hy H i Hi. unfold ytemp. rewrite mk_nth by (rewrite L; exact Hi). now rewrite (comb_h l q H i Hi), (Hy i Hi). Qed.
  Context {W : Type}.
  Variable f : R -> list C -> M W (list C).
  Variable x0 : R.
  Hypothesis Hf : forall x y s, exists d s', f x y s = (Ok d, s') /\ forall i, (i < n)%nat -> nth i d z0 = (csum n (fun j => A i j * nth j y z0) + csum 8 (fun m => RtoC ((x - x0) ^ m) * w m 0%nat i))%C.
  Lemma deriv_ev c z y F g : is_zc c z -> is_y F y -> exists d g', deriv f n (x0 + c * h) y g = (Ok d, g') /\ g_s g' = g_s g /\ is_k (fun m => (z ^ Z.of_nat m)%Z :: F m) d.
  Proof.
    intros Hc H. destruct (Hf (x0 + c * h) y (g_w g)) as (d & w' & E & Hd). eexists. eexists. unfold deriv, bind, onw. rewrite E. split; [reflexivity|]. split; [reflexivity|].
    intros i Hi. rewrite mk_nth by exact Hi. rewrite Hd by exact Hi. rewrite (csum_ext n _ (fun j => A i j * v 0%nat j + RtoC hs * (A i j * val F 0 j))%C) by (intros j Hj; rewrite (H j Hj); ring).
    rewrite csum_plus, csum_scal_l, (val_apply i F Hi), <- (Hv 0%nat i Hi). unfold val. cbn [ev Z.of_nat Z.pow].
    rewrite (csum_ext 8 (fun m => RtoC (hs ^ m) * (RtoC (IZR (z ^ Z.of_nat m)) * _ + _))%C (fun m => RtoC ((x0 + c * h - x0) ^ m) * w m 0%nat i + RtoC hs * (RtoC (hs ^ m) * ev hs (fun j => w m j i) (F m) 1))%C).
    - rewrite csum_plus, csum_scal_l. ring.
    - intros m _. rewrite <- pow_IZR. replace (x0 + c * h - x0) with (hs * IZR z) by (rewrite Hc; unfold hs; pose proof SC_pos; field; lra). rewrite Rpow_mult_distr, RtoC_mult. ring.
  Qed.
End Linear.

(** ** The stages for y' = A y *)
Definition P1 : fam := stg 0 [].
Definition P2 : fam := stg (zc q_c2) [(zc q_a21, P1)].
Definition P3 : fam := stg (zc q_c3) [(zc q_a31, P1); (zc q_a32, P2)].
Definition P4 : fam := stg (zc q_c4) [(zc q_a41, P1); (zc q_a43, P3)].
Definition P5 : fam := stg (zc q_c5) [(zc q_a51, P1); (zc q_a53, P3); (zc q_a54, P4)].
Definition P6 : fam := stg (zc q_c6) [(zc q_a61, P1); (zc q_a64, P4); (zc q_a65, P5)].
Definition P7 : fam := stg (zc q_c7) [(zc q_a71, P1); (zc q_a74, P4); (zc q_a75, P5); (zc q_a76, P6)].
Definition P8 : fam := stg (zc q_c8) [(zc q_a81, P1); (zc q_a84, P4); (zc q_a85, P5); (zc q_a86, P6); (zc q_a87, P7)].
Definition P9 : fam := stg (zc q_c9) [(zc q_a91, P1); (zc q_a94, P4); (zc q_a95, P5); (zc q_a96, P6); (zc q_a97, P7); (zc q_a98, P8)].
Definition P10 : fam := stg (zc q_c10) [(zc q_a101, P1); (zc q_a104, P4); (zc q_a105, P5); (zc q_a106, P6); (zc q_a107, P7); (zc q_a108, P8); (zc q_a109, P9)].
Definition P11 : fam := stg (zc q_c11) [(zc q_a111, P1); (zc q_a114, P4); (zc q_a115, P5); (zc q_a116, P6); (zc q_a117, P7); (zc q_a118, P8); (zc q_a119, P9); (zc q_a1110, P10)].
Definition P12 : fam := stg SC [(zc q_a121, P1); (zc q_a124, P4); (zc q_a125, P5); (zc q_a126, P6); (zc q_a127, P7); (zc q_a128, P8); (zc q_a129, P9); (zc q_a1210, P10); (zc q_a1211, P11)].
Definition PB : fam := fcomb [(zc q_b1, P1); (zc q_b6, P6); (zc q_b7, P7); (zc q_b8, P8); (zc q_b9, P9); (zc q_b10, P10); (zc q_b11, P11); (zc q_b12, P12)].
Definition PY : fam := fun m => (SC ^ Z.of_nat m)%Z :: PB m.
Definition PE : fam := fadd PB (fcomb [((- zc q_bhh1)%Z, P1); ((- zc q_bhh2)%Z, P9); ((- zc q_bhh3)%Z, P12)]).
Definition PE2 : fam := fcomb [(zc q_er1, P1); (zc q_er6, P6); (zc q_er7, P7); (zc q_er8, P8); (zc q_er9, P9); (zc q_er10, P10); (zc q_er11, P11); (zc q_er12, P12)].
Definition P14 : fam := stg (zc q_c14) [(zc q_a141, P1); (zc q_a147, P7); (zc q_a148, P8); (zc q_a149, P9); (zc q_a1410, P10); (zc q_a1411, P11); (zc q_a1412, P12); (zc q_a1413, PY)].
Definition P15 : fam := stg (zc q_c15) [(zc q_a151, P1); (zc q_a156, P6); (zc q_a157, P7); (zc q_a158, P8); (zc q_a1511, P11); (zc q_a1512, P12); (zc q_a1513, PY); (zc q_a1514, P14)].
Definition P16 : fam := stg (zc q_c16) [(zc q_a161, P1); (zc q_a166, P6); (zc q_a167, P7); (zc q_a168, P8); (zc q_a169, P9); (zc q_a1613, PY); (zc q_a1614, P14); (zc q_a1615, P15)].
(** the arrays of the interpolant, except the initial state *)
Definition PR2 : fam := fadd (fscale SC P1) (fscale (-1) PB).
Definition PR3 : fam := fadd PB (fadd (fscale (- SC) PY) (fscale (-1) PR2)).
Definition prc (l : list (Z * fam)) (m : list Z) : fam := fcomb (l ++ combine m [PY; P14; P15; P16]).
Definition PR4 : fam := prc [(zc q_d41, P1); (zc q_d46, P6); (zc q_d47, P7); (zc q_d48, P8); (zc q_d49, P9); (zc q_d410, P10); (zc q_d411, P11); (zc q_d412, P12)] [zc q_d413; zc q_d414; zc q_d415; zc q_d416].
Definition PR5 : fam := prc [(zc q_d51, P1); (zc q_d56, P6); (zc q_d57, P7); (zc q_d58, P8); (zc q_d59, P9); (zc q_d510, P10); (zc q_d511, P11); (zc q_d512, P12)] [zc q_d513; zc q_d514; zc q_d515; zc q_d516].
Definition PR6 : fam := prc [(zc q_d61, P1); (zc q_d66, P6); (zc q_d67, P7); (zc q_d68, P8); (zc q_d69, P9); (zc q_d610, P10); (zc q_d611, P11); (zc q_d612, P12)] [zc q_d613; zc q_d614; zc q_d615; zc q_d616].
Definition PR7 : fam := prc [(zc q_d71, P1); (zc q_d76, P6); (zc q_d77, P7); (zc q_d78, P8); (zc q_d79, P9); (zc q_d710, P10); (zc q_d711, P11); (zc q_d712, P12)] [zc q_d713; zc q_d714; zc q_d715; zc q_d716].

(** the program's coefficients and their integer forms *)
Lemma is_zc_q q : zok q = true -> is_zc (Q2R q) (zc q). Proof. exact (zc_R q). Qed.
Lemma is_zc_opp q : zok q = true -> is_zc (- Q2R q) (- zc q)%Z.
Proof. intros H. unfold is_zc. rewrite (zc_R q H), opp_IZR. unfold Rdiv. ring. Qed.
Ltac f2 := unfold pairs; repeat (apply Forall2_cons; [split; cbn [fst snd]; [first [apply is_zc_q | apply is_zc_opp]; vm_compute; reflexivity|assumption]|]); apply Forall2_nil.
Lemma zc_SC : is_zc 1 SC. Proof. unfold is_zc. pose proof SC_pos. field. lra. Qed.
Lemma C_m1 : RtoC (-1) = (- RtoC 1)%C. Proof. rewrite <- RtoC_opp. reflexivity. Qed.
Section Steps.
  Variables (n : nat) (A : nat -> nat -> C) (v : nat -> nat -> C) (w : nat -> nat -> nat -> C).
  Hypothesis Hv : forall k i, (i < n)%nat -> v (S k) i = csum n (fun j => A i j * v k j)%C.
  Hypothesis Hw : forall m k i, (i < n)%nat -> w m (S k) i = csum n (fun j => A i j * w m k j)%C.
  Context {W : Type}.
  Variable f : R -> list C -> M W (list C).
  Variable x0 : R.
  Hypothesis Hf : forall x y s, exists d s', f x y s = (Ok d, s') /\ forall i, (i < n)%nat -> nth i d z0 = (csum n (fun j => A i j * nth j y z0) + csum 8 (fun m => RtoC ((x - x0) ^ m) * w m 0%nat i))%C.
  Definition start (s : stepper) : Prop := p_x s = x0 /\ length (p_y s) = n /\ (forall i, (i < n)%nat -> nth i (p_y s) z0 = v 0%nat i) /\ (forall i, (i < n)%nat -> nth i (p_dydx s) z0 = (v 1%nat i + w 0%nat 0%nat i)%C).
  Lemma start_ev h s : start s -> is_k n v w h P1 (p_dydx s).
  Proof.
    intros (_ & _ & _ & H) i Hi. rewrite (H i Hi). unfold val, P1, stg, fcomb. cbn [ev map pcomb fold_right Z.of_nat Z.pow]. rewrite csum_first, csum_zero.
    - cbn [Z.of_nat Z.pow pow]. ring.
    - intros j _. rewrite Z.pow_0_l by lia. ring.
  Qed.
  (** the array is 10^-33 times the family *)
  Definition is_ks (h : R) (F : fam) (l : list C) : Prop := forall i, (i < n)%nat -> nth i l z0 = (RtoC (/ IZR SC) * val v w h F 0 i)%C.
  Definition dy_done (h : R) (s : stepper) : Prop :=
    is_y n v w h PB (p_yout s) /\ length (p_yout s) = n /\ is_ks h PE (p_yerr s) /\ is_ks h PE2 (p_yerr2 s) /\
    is_k n v w h P11 (sk2 (p_k s)) /\ is_k n v w h P12 (sk3 (p_k s)) /\ is_k n v w h P6 (sk6 (p_k s)) /\ is_k n v w h P7 (sk7 (p_k s)) /\
    is_k n v w h P8 (sk8 (p_k s)) /\ is_k n v w h P9 (sk9 (p_k s)) /\ is_k n v w h P10 (sk10 (p_k s)).
  Lemma bind_ev h c z x y q (k : list C -> M (G W) unit) (Q : G W -> Prop) s : x = x0 + c * h -> is_zc c z -> is_y n v w h (fcomb q) y ->
    (forall d g1, g_s g1 = s -> is_k n v w h (stg z q) d -> exists g', k d g1 = (Ok tt, g') /\ Q g') ->
    forall g1, g_s g1 = s -> exists g', bind (deriv f n x y) k g1 = (Ok tt, g') /\ Q g'.
  Proof.
    intros -> Hc Hy Hk g1 Hs. destruct (deriv_ev n A v w h Hv Hw f x0 Hf c z y (fcomb q) g1 Hc Hy) as (d & g2 & E & E2 & Hd). unfold bind. rewrite E. apply Hk; [congruence|exact Hd].
  Qed.
  Lemma dy_ev h g : start (g_s g) -> exists g', dy f h g = (Ok tt, g') /\ dy_done h (g_s g').
  Proof.
    intros Hst. pose proof (start_ev h _ Hst) as K1. destruct Hst as (X0 & L & Y0 & _).
    unfold dy. unfold bind at 1, gets at 1. cbv zeta. rewrite L, X0. set (s := g_s g) in *. assert (Es : g_s g = s) by reflexivity. clearbody s. revert g Es.
    apply (bind_ev h c2 (zc q_c2) _ _ [(zc q_a21, P1)]); [reflexivity|apply is_zc_q; vm_compute; reflexivity|apply ytemp_ev; [exact L|exact Y0|f2]|]. change (stg (zc q_c2) [(zc q_a21, P1)]) with P2. intros k2 g2 S2 K2. revert g2 S2.
    apply (bind_ev h c3 (zc q_c3) _ _ [(zc q_a31, P1); (zc q_a32, P2)]); [reflexivity|apply is_zc_q; vm_compute; reflexivity|apply ytemp_ev; [exact L|exact Y0|f2]|]. change (stg (zc q_c3) [(zc q_a31, P1); (zc q_a32, P2)]) with P3. intros k3 g3 S3 K3. revert g3 S3.
    apply (bind_ev h c4 (zc q_c4) _ _ [(zc q_a41, P1); (zc q_a43, P3)]); [reflexivity|apply is_zc_q; vm_compute; reflexivity|apply ytemp_ev; [exact L|exact Y0|f2]|]. change (stg (zc q_c4) [(zc q_a41, P1); (zc q_a43, P3)]) with P4. intros k4 g4 S4 K4. revert g4 S4.
    apply (bind_ev h c5 (zc q_c5) _ _ [(zc q_a51, P1); (zc q_a53, P3); (zc q_a54, P4)]); [reflexivity|apply is_zc_q; vm_compute; reflexivity|apply ytemp_ev; [exact L|exact Y0|f2]|]. change (stg (zc q_c5) [(zc q_a51, P1); (zc q_a53, P3); (zc q_a54, P4)]) with P5. intros k5 g5 S5 K5. revert g5 S5.
    apply (bind_ev h c6 (zc q_c6) _ _ [(zc q_a61, P1); (zc q_a64, P4); (zc q_a65, P5)]); [reflexivity|apply is_zc_q; vm_compute; reflexivity|apply ytemp_ev; [exact L|exact Y0|f2]|]. change (stg (zc q_c6) [(zc q_a61, P1); (zc q_a64, P4); (zc q_a65, P5)]) with P6. intros k6 g6 S6 K6. revert g6 S6.
    apply (bind_ev h c7 (zc q_c7) _ _ [(zc q_a71, P1); (zc q_a74, P4); (zc q_a75, P5); (zc q_a76, P6)]); [reflexivity|apply is_zc_q; vm_compute; reflexivity|apply ytemp_ev; [exact L|exact Y0|f2]|]. change (stg (zc q_c7) [(zc q_a71, P1); (zc q_a74, P4); (zc q_a75, P5); (zc q_a76, P6)]) with P7. intros k7 g7 S7 K7. revert g7 S7.
    apply (bind_ev h c8 (zc q_c8) _ _ [(zc q_a81, P1); (zc q_a84, P4); (zc q_a85, P5); (zc q_a86, P6); (zc q_a87, P7)]); [reflexivity|apply is_zc_q; vm_compute; reflexivity|apply ytemp_ev; [exact L|exact Y0|f2]|]. change (stg (zc q_c8) [(zc q_a81, P1); (zc q_a84, P4); (zc q_a85, P5); (zc q_a86, P6); (zc q_a87, P7)]) with P8. intros k8 g8 S8 K8. revert g8 S8.
    apply (bind_ev h c9 (zc q_c9) _ _ [(zc q_a91, P1); (zc q_a94, P4); (zc q_a95, P5); (zc q_a96, P6); (zc q_a97, P7); (zc q_a98, P8)]); [reflexivity|apply is_zc_q; vm_compute; reflexivity|apply ytemp_ev; [exact L|exact Y0|f2]|]. change (stg (zc q_c9) [(zc q_a91, P1); (zc q_a94, P4); (zc q_a95, P5); (zc q_a96, P6); (zc q_a97, P7); (zc q_a98, P8)]) with P9. intros k9 g9 S9 K9. revert g9 S9.
    apply (bind_ev h c10 (zc q_c10) _ _ [(zc q_a101, P1); (zc q_a104, P4); (zc q_a105, P5); (zc q_a106, P6); (zc q_a107, P7); (zc q_a108, P8); (zc q_a109, P9)]); [reflexivity|apply is_zc_q; vm_compute; reflexivity|apply ytemp_ev; [exact L|exact Y0|f2]|]. change (stg (zc q_c10) [(zc q_a101, P1); (zc q_a104, P4); (zc q_a105, P5); (zc q_a106, P6); (zc q_a107, P7); (zc q_a108, P8); (zc q_a109, P9)]) with P10. intros k10 g10 S10 K10. revert g10 S10.
    apply (bind_ev h c11 (zc q_c11) _ _ [(zc q_a111, P1); (zc q_a114, P4); (zc q_a115, P5); (zc q_a116, P6); (zc q_a117, P7); (zc q_a118, P8); (zc q_a119, P9); (zc q_a1110, P10)]); [reflexivity|apply is_zc_q; vm_compute; reflexivity|apply ytemp_ev; [exact L|exact Y0|f2]|]. change (stg (zc q_c11) [(zc q_a111, P1); (zc q_a114, P4); (zc q_a115, P5); (zc q_a116, P6); (zc q_a117, P7); (zc q_a118, P8); (zc q_a119, P9); (zc q_a1110, P10)]) with P11. intros k11 g11 S11 K11. revert g11 S11.
    apply (bind_ev h 1 SC _ _ [(zc q_a121, P1); (zc q_a124, P4); (zc q_a125, P5); (zc q_a126, P6); (zc q_a127, P7); (zc q_a128, P8); (zc q_a129, P9); (zc q_a1210, P10); (zc q_a1211, P11)]); [symmetry; rewrite Rmult_1_l; reflexivity|exact zc_SC|apply ytemp_ev; [exact L|exact Y0|f2]|]. change (stg SC [(zc q_a121, P1); (zc q_a124, P4); (zc q_a125, P5); (zc q_a126, P6); (zc q_a127, P7); (zc q_a128, P8); (zc q_a129, P9); (zc q_a1210, P10); (zc q_a1211, P11)]) with P12. intros k12 g12 S12 K12.
    eexists. split; [reflexivity|]. unfold dy_done. cbn [g_s p_yout p_yerr p_yerr2 p_k sk2 sk3 sk6 sk7 sk8 sk9 sk10].
    assert (LC : forall l q, pairs n v w h l q -> is_ks h (fcomb q) (lincomb n l)) by (intros l q H i Hi; rewrite nth_lincomb by exact Hi; exact (comb_ev' n v w h l q H i Hi)).
    set (kb := lincomb n _). assert (KB : is_ks h PB kb) by (apply (LC _ [(zc q_b1, P1); (zc q_b6, P6); (zc q_b7, P7); (zc q_b8, P8); (zc q_b9, P9); (zc q_b10, P10); (zc q_b11, P11); (zc q_b12, P12)]); f2).
    split; [|split; [unfold ytemp; now rewrite mk_length|split; [|split; [apply (LC _ [(zc q_er1, P1); (zc q_er6, P6); (zc q_er7, P7); (zc q_er8, P8); (zc q_er9, P9); (zc q_er10, P10); (zc q_er11, P11); (zc q_er12, P12)]); f2|repeat split; assumption]]]].
    - intros i Hi. unfold ytemp. rewrite mk_nth by (rewrite L; exact Hi). rewrite comb_cons, (KB i Hi), (Y0 i Hi). unfold comb. cbn [fold_left]. unfold hs at 1, Rdiv. rewrite RtoC_mult. ring.
    - intros i Hi. rewrite nth_lincomb by exact Hi. rewrite comb_cons, (KB i Hi). unfold PE. rewrite val_add.
      rewrite (comb_ev' n v w h _ [((- zc q_bhh1)%Z, P1); ((- zc q_bhh2)%Z, P9); ((- zc q_bhh3)%Z, P12)]); [ring|f2|exact Hi].
  Qed.
  (** the accepted attempt was the last call of dy *)
  Lemma attempts_last fuel : forall h g h' g', attempts f fuel (Some h) g = (Ok h', g') ->
    exists g0 g1, same_step (g_s g) (g_s g0) /\ dy f h' g0 = (Ok tt, g1) /\ g_s g' = g_s g1.
  Proof.
    induction fuel as [|fuel IH]; intros h g h' g' E; [discriminate|]. cbn [attempts] in E. unfold bind at 1 in E. pose proof (keeps_dy f h g) as Kd. destruct (dy f h g) as [[[]|e] g1] eqn:Ed; [|discriminate]. cbn [snd] in Kd.
    unfold bind at 1, gets at 1 in E. unfold bind at 1, oncon in E. pose proof (success_spec (error (g_s g1) h) h (g_con g1) (error_ok _ _)) as S.
    destruct (success (error (g_s g1) h) (Some h) (g_con g1)) as [[[[|] h1]|e] c1]; [| |discriminate].
    - destruct S as (-> & _). unfold ret in E. exists g, g1. pose proof (f_equal fst E) as E1. pose proof (f_equal snd E) as Eg. cbn [fst snd] in E1, Eg. assert (h = h') by congruence. subst h'.
      split; [apply same_refl|]. split; [exact Ed|]. rewrite <- Eg. reflexivity.
    - destruct h1 as [h1|].
      + destruct (Rle_dec _ _) in E; [discriminate|]. destruct (IH _ _ _ _ E) as (g0 & g2 & S0 & E0 & Eg). exists g0, g2. split; [|auto]. eapply same_trans; [apply Kd|exact S0].
      + destruct (attempts_none f fuel {| g_w := g_w g1; g_con := c1; g_s := g_s g1; g_out := g_out g1; g_ode := g_ode g1 |}) as (e & Ea & _). rewrite Ea in E. discriminate.
  Qed.
  Definition PRC : list fam := [PB; PR2; PR3; PR4; PR5; PR6; PR7].
  Definition rc_done (h : R) (rc : list (list C)) : Prop := length rc = 8%nat /\ (forall i, (i < n)%nat -> nth i (nth 0 rc []) z0 = v 0%nat i) /\
    forall k, (k < 7)%nat -> forall i, (i < n)%nat -> nth i (nth (S k) rc []) z0 = (RtoC (hs h) * val v w h (nth k PRC P1) 0 i)%C.
  Lemma prepare_ev h dn g : start (g_s g) -> dy_done h (g_s g) -> is_k n v w h PY dn ->
    exists g', prepare_dense f h dn g = (Ok tt, g') /\ rc_done h (p_rc (g_s g')) /\ p_yout (g_s g') = p_yout (g_s g) /\ p_yerr (g_s g') = p_yerr (g_s g) /\ p_yerr2 (g_s g') = p_yerr2 (g_s g).
  Proof.
    intros Hst Hdone K13. pose proof (start_ev h _ Hst) as K1. destruct Hst as (X0 & L & Y0 & _). destruct Hdone as (KY & LY & _ & _ & K11 & K12 & K6 & K7 & K8 & K9 & K10).
    unfold prepare_dense. unfold bind at 1, gets at 1. cbv zeta. rewrite L, X0. set (s := g_s g) in *. assert (Es : g_s g = s) by reflexivity. clearbody s. revert g Es.
    destruct (p_k s) as [k11 k12 k6 k7 k8 k9 k10]. cbn [sk2 sk3 sk6 sk7 sk8 sk9 sk10] in *.
    apply (bind_ev h c14 (zc q_c14) _ _ [(zc q_a141, P1); (zc q_a147, P7); (zc q_a148, P8); (zc q_a149, P9); (zc q_a1410, P10); (zc q_a1411, P11); (zc q_a1412, P12); (zc q_a1413, PY)]); [reflexivity|apply is_zc_q; vm_compute; reflexivity|apply ytemp_ev; [exact L|exact Y0|f2]|]. change (stg (zc q_c14) [(zc q_a141, P1); (zc q_a147, P7); (zc q_a148, P8); (zc q_a149, P9); (zc q_a1410, P10); (zc q_a1411, P11); (zc q_a1412, P12); (zc q_a1413, PY)]) with P14. intros k14 g14 S14 K14. revert g14 S14.
    apply (bind_ev h c15 (zc q_c15) _ _ [(zc q_a151, P1); (zc q_a156, P6); (zc q_a157, P7); (zc q_a158, P8); (zc q_a1511, P11); (zc q_a1512, P12); (zc q_a1513, PY); (zc q_a1514, P14)]); [reflexivity|apply is_zc_q; vm_compute; reflexivity|apply ytemp_ev; [exact L|exact Y0|f2]|]. change (stg (zc q_c15) [(zc q_a151, P1); (zc q_a156, P6); (zc q_a157, P7); (zc q_a158, P8); (zc q_a1511, P11); (zc q_a1512, P12); (zc q_a1513, PY); (zc q_a1514, P14)]) with P15. intros k15 g15 S15 K15. revert g15 S15.
    apply (bind_ev h c16 (zc q_c16) _ _ [(zc q_a161, P1); (zc q_a166, P6); (zc q_a167, P7); (zc q_a168, P8); (zc q_a169, P9); (zc q_a1613, PY); (zc q_a1614, P14); (zc q_a1615, P15)]); [reflexivity|apply is_zc_q; vm_compute; reflexivity|apply ytemp_ev; [exact L|exact Y0|f2]|]. change (stg (zc q_c16) [(zc q_a161, P1); (zc q_a166, P6); (zc q_a167, P7); (zc q_a168, P8); (zc q_a169, P9); (zc q_a1613, PY); (zc q_a1614, P14); (zc q_a1615, P15)]) with P16. intros k16 g16 S16 K16.
    eexists. split; [reflexivity|]. cbn [g_s p_rc p_yout p_yerr p_yerr2]. rewrite S16. split; [|auto]. split; [reflexivity|]. split; [exact Y0|].
    set (yd := lincomb n [(1, p_yout s); (-1, p_y s)]). assert (KD : forall i, (i < n)%nat -> nth i yd z0 = (RtoC (hs h) * val v w h PB 0 i)%C).
    { intros i Hi. unfold yd. rewrite nth_lincomb by exact Hi. rewrite !comb_cons, (KY i Hi), (Y0 i Hi). unfold comb. cbn [fold_left]. rewrite C_m1. ring. }
    set (bs := lincomb n [(h, p_dydx s); (-1, yd)]). assert (K2 : forall i, (i < n)%nat -> nth i bs z0 = (RtoC (hs h) * val v w h PR2 0 i)%C).
    { intros i Hi. unfold bs. rewrite nth_lincomb by exact Hi. rewrite !comb_cons. rewrite (K1 i Hi), (KD i Hi). unfold comb. cbn [fold_left]. unfold PR2. rewrite val_add, !val_scale, !C_m1, (h_hs h). ring. }
    assert (FIN : forall l q m1 m2 m3 m4 z1 z2 z3 z4, pairs n v w h l q -> is_zc m1 z1 -> is_zc m2 z2 -> is_zc m3 z3 -> is_zc m4 z4 -> forall i, (i < n)%nat ->
      nth i (mk n (fun i => RtoC h * comb [(1, lincomb n l); (m1, dn); (m2, k14); (m3, k15); (m4, k16)] i)%C) z0 = (RtoC (hs h) * val v w h (prc q [z1; z2; z3; z4]) 0 i)%C).
    { intros l q m1 m2 m3 m4 z1 z2 z3 z4 H M1 M2 M3 M4 i Hi. rewrite mk_nth by exact Hi. unfold prc. cbn [combine].
      assert (H' : pairs n v w h (l ++ [(m1, dn); (m2, k14); (m3, k15); (m4, k16)]) (q ++ [(z1, PY); (z2, P14); (z3, P15); (z4, P16)])).
      { apply Forall2_app; [exact H|]. repeat (apply Forall2_cons; [split; cbn [fst snd]; assumption|]). apply Forall2_nil. }
      rewrite <- (comb_h n v w h _ _ H' i Hi). f_equal. rewrite comb_cons, nth_lincomb by exact Hi. clear. induction l as [|[a x] l IH]; [rewrite Cmult_1_l; unfold comb at 1; cbn [fold_left app]; ring|].
      rewrite <- app_comm_cons, !comb_cons, <- IH. rewrite !comb_cons. ring. }
    unfold PRC. intros k Hk. destruct k as [|[|[|[|[|[|[|k]]]]]]]; cbn [nth]; [| | | | | | |lia].
    - exact KD.
    - exact K2.
    - intros i Hi. rewrite nth_lincomb by exact Hi. rewrite !comb_cons, (KD i Hi), (K2 i Hi), (K13 i Hi). unfold comb. cbn [fold_left]. unfold PR3. rewrite !val_add, !val_scale, opp_IZR, !RtoC_opp, (h_hs h), !C_m1. ring.
    - apply (FIN _ [(zc q_d41, P1); (zc q_d46, P6); (zc q_d47, P7); (zc q_d48, P8); (zc q_d49, P9); (zc q_d410, P10); (zc q_d411, P11); (zc q_d412, P12)]); [f2|..]; apply is_zc_q; vm_compute; reflexivity.
    - apply (FIN _ [(zc q_d51, P1); (zc q_d56, P6); (zc q_d57, P7); (zc q_d58, P8); (zc q_d59, P9); (zc q_d510, P10); (zc q_d511, P11); (zc q_d512, P12)]); [f2|..]; apply is_zc_q; vm_compute; reflexivity.
    - apply (FIN _ [(zc q_d61, P1); (zc q_d66, P6); (zc q_d67, P7); (zc q_d68, P8); (zc q_d69, P9); (zc q_d610, P10); (zc q_d611, P11); (zc q_d612, P12)]); [f2|..]; apply is_zc_q; vm_compute; reflexivity.
    - apply (FIN _ [(zc q_d71, P1); (zc q_d76, P6); (zc q_d77, P7); (zc q_d78, P8); (zc q_d79, P9); (zc q_d710, P10); (zc q_d711, P11); (zc q_d712, P12)]); [f2|..]; apply is_zc_q; vm_compute; reflexivity.
  Qed.
  Local Opaque P2 P3 P4 P5 P6 P7 P8 P9 P10 P11 P12 PB PY PE PE2 P14 P15 P16 PR2 PR3 PR4 PR5 PR6 PR7.
  Lemma step_ev fuel htry g g' : start (g_s g) -> step f fuel htry g = (Ok tt, g') ->
    let h := p_hdid (g_s g') in is_y n v w h PB (p_y (g_s g')) /\ is_ks h PE (p_yerr (g_s g')) /\ is_ks h PE2 (p_yerr2 (g_s g')) /\
    (p_dense (g_s g) = true -> rc_done h (p_rc (g_s g'))).
  Proof.
    Transparent step. unfold step. Opaque step. intros Hst E. unfold bind at 1 in E. destruct (attempts f fuel (Some htry) g) as [[h|e] g1] eqn:Ea; [|discriminate].
    destruct (attempts_last _ _ _ _ _ Ea) as (ga & gb & Ss & Ed & Eg). assert (Hsa : start (g_s ga)).
    { destruct Ss as (Sx & _ & Sy & Sd & _). destruct Hst as (H0 & H1 & H2 & H3). unfold start. rewrite Sx, Sy, Sd. auto. }
    destruct (dy_ev h ga Hsa) as (gb' & Ed' & Done). assert (gb' = gb) by congruence. subst gb'. rewrite <- Eg in Done.
    assert (Sb : same_step (g_s g) (g_s g1)) by (rewrite Eg; eapply same_trans; [exact Ss|]; pose proof (keeps_dy f h ga) as K; rewrite Ed in K; apply K).
    assert (Hs1 : start (g_s g1)). { destruct Sb as (Sx & _ & Sy & Sd & _). destruct Hst as (H0 & H1 & H2 & H3). unfold start. rewrite Sx, Sy, Sd. auto. }
    unfold bind at 1, gets at 1 in E. unfold bind at 1 in E. destruct Done as (KY & LY & Rest). rewrite (proj1 (proj2 Hs1)), (proj1 Hs1) in E.
    destruct (deriv_ev n A v w h Hv Hw f x0 Hf 1 SC (p_yout (g_s g1)) PB g1 zc_SC KY) as (dn & g2 & E2 & S2 & K13). rewrite Rmult_1_l in E2. rewrite E2 in E. clear E2.
    unfold bind at 1 in E. assert (Dd : p_dense (g_s g1) = p_dense (g_s g)) by apply Sb. rewrite Dd in E.
    destruct (p_dense (g_s g)).
    - destruct (prepare_ev h dn g2) as (g3 & E3 & RC & Q1 & Q2 & Q3); [now rewrite S2|rewrite S2; split; [exact KY|]; split; [exact LY|exact Rest]|exact K13|]. rewrite E3 in E. unfold bind, get, set_s, modify in E. apply (f_equal snd) in E. cbn [snd] in E. rewrite <- E.
      cbv zeta. cbn [g_s p_hdid p_y p_yerr p_yerr2 p_rc]. rewrite Q1, Q2, Q3, S2. split; [exact KY|]. split; [exact (proj1 Rest)|]. split; [exact (proj1 (proj2 Rest))|]. intros _. exact RC.
    - cbn [ret] in E. unfold ret, bind, get, set_s, modify in E. apply (f_equal snd) in E. cbn [snd] in E. rewrite <- E.
      cbv zeta. cbn [g_s p_hdid p_y p_yerr p_yerr2 p_rc]. rewrite S2. split; [exact KY|]. split; [exact (proj1 Rest)|]. split; [exact (proj1 (proj2 Rest))|]. discriminate.
  Qed.
End Steps.
Local Opaque P2 P3 P4 P5 P6 P7 P8 P9 P10 P11 P12 PB PY PE PE2 P14 P15 P16 PR2 PR3 PR4 PR5 PR6 PR7.

(** ** Truncated tables of the families, so that each is computed once *)

Definition K (m : nat) : nat := match m with O => 16 | S _ => 8 - m end.
Definition good (F : fam) (T : list (list Z)) : Prop := forall m, (m < 8)%nat -> firstn (K m) (F m) = nth m T [].
Definition tab (f : nat -> list Z) : list (list Z) := map (fun m => firstn (K m) (f m)) (seq 0 8).
Lemma tab_nth f m : (m < 8)%nat -> nth m (tab f) [] = firstn (K m) (f m).
Proof. intros H. unfold tab. rewrite (nth_indep _ _ (firstn (K 0) (f 0%nat))) by (rewrite map_length, seq_length; exact H). rewrite (map_nth (fun m => firstn (K m) (f m))), seq_nth by exact H. reflexivity. Qed.
Lemma firstn_padd : forall (k : nat) (p q : list Z), firstn k (padd p q) = padd (firstn k p) (firstn k q).
Proof. induction k as [|k IH]; intros p q; [reflexivity|]. destruct p as [|a p]; [reflexivity|]. destruct q as [|b q]; [reflexivity|]. cbn [padd firstn]. now rewrite IH. Qed.
Lemma firstn_pscale (k : nat) (c : Z) (p : list Z) : firstn k (pscale c p) = pscale c (firstn k p). Proof. apply firstn_map. Qed.
Definition tcomb (l : list (Z * list (list Z))) (m : nat) : list Z := pcomb (map (fun p => (fst p, nth m (snd p) [])) l).
Definition rows (l : list (Z * fam)) (q : list (Z * list (list Z))) : Prop := Forall2 (fun a b => fst a = fst b /\ good (snd a) (snd b)) l q.
Lemma fcomb_firstn l q m : rows l q -> (m < 8)%nat -> firstn (K m) (fcomb l m) = tcomb q m.
Proof.
  intros H Hm. unfold fcomb, tcomb. induction H as [|[a F] [b T] l q [E G] _ IH]; [cbn; apply firstn_nil|]. cbn [map pcomb fold_right fst snd] in *. subst b.
  rewrite firstn_padd, firstn_pscale, (G m Hm). f_equal. exact IH.
Qed.
Lemma firstn_K_cons (k : nat) (a : Z) (p q : list Z) : firstn k p = firstn k q -> firstn k (a :: p) = firstn k (a :: q).
Proof. intros H. destruct k as [|k]; [reflexivity|]. cbn [firstn]. f_equal. assert (E : forall r : list Z, firstn k r = firstn k (firstn (S k) r)) by (intros r; rewrite firstn_firstn; f_equal; lia). now rewrite E, H, <- E. Qed.
Lemma good_stg c l q T : rows l q -> tab (fun m => (c ^ Z.of_nat m)%Z :: tcomb q m) = T -> good (stg c l) T.
Proof. intros H <- m Hm. rewrite tab_nth by exact Hm. unfold stg. apply firstn_K_cons. rewrite <- (fcomb_firstn l q m H Hm), firstn_firstn, Nat.min_id. reflexivity. Qed.
Lemma good_fcomb l q T : rows l q -> tab (tcomb q) = T -> good (fcomb l) T.
Proof. intros H <- m Hm. rewrite tab_nth by exact Hm. rewrite <- (fcomb_firstn l q m H Hm), firstn_firstn, Nat.min_id. reflexivity. Qed.
Lemma good_fadd F G T1 T2 T : good F T1 -> good G T2 -> tab (fun m => padd (nth m T1 []) (nth m T2 [])) = T -> good (fadd F G) T.
Proof. intros HF HG <- m Hm. rewrite tab_nth by exact Hm. unfold fadd. rewrite <- (HF m Hm), <- (HG m Hm), <- !firstn_padd, firstn_firstn, Nat.min_id. reflexivity. Qed.
Lemma good_fscale c F T1 T : good F T1 -> tab (fun m => pscale c (nth m T1 [])) = T -> good (fscale c F) T.
Proof. intros HF <- m Hm. rewrite tab_nth by exact Hm. unfold fscale. rewrite <- (HF m Hm), <- !firstn_pscale, firstn_firstn, Nat.min_id. reflexivity. Qed.
Lemma good_cons F T1 T : good F T1 -> tab (fun m => (SC ^ Z.of_nat m)%Z :: nth m T1 []) = T -> good (fun m => (SC ^ Z.of_nat m)%Z :: F m) T.
Proof. intros HF <- m Hm. rewrite tab_nth by exact Hm. apply firstn_K_cons. rewrite <- (HF m Hm), firstn_firstn, Nat.min_id. reflexivity. Qed.
Ltac comp := match goal with |- _ = ?T => vm_cast_no_check (eq_refl T) end.
Definition TP1 : list (list Z) := Eval vm_compute in tab (fun m => (0 ^ Z.of_nat m)%Z :: tcomb [] m).
Lemma g_P1 : good P1 TP1. Proof. unfold P1. eapply good_stg; [constructor|comp]. Qed.
Local Opaque P1.
Definition TP2 : list (list Z) := Eval vm_compute in tab (fun m => ((zc q_c2) ^ Z.of_nat m)%Z :: tcomb [(zc q_a21, TP1)] m).
Local Transparent P2.
Lemma g_P2 : good P2 TP2. Proof. unfold P2. apply (good_stg _ _ [(zc q_a21, TP1)] TP2); [apply Forall2_cons; [split; [reflexivity|exact g_P1]|]; apply Forall2_nil|comp]. Qed.
Local Opaque P2.
Definition TP3 : list (list Z) := Eval vm_compute in tab (fun m => ((zc q_c3) ^ Z.of_nat m)%Z :: tcomb [(zc q_a31, TP1); (zc q_a32, TP2)] m).
Local Transparent P3.
Lemma g_P3 : good P3 TP3. Proof. unfold P3. apply (good_stg _ _ [(zc q_a31, TP1); (zc q_a32, TP2)] TP3); [apply Forall2_cons; [split; [reflexivity|exact g_P1]|]; apply Forall2_cons; [split; [reflexivity|exact g_P2]|]; apply Forall2_nil|comp]. Qed.
Local Opaque P3.
Definition TP4 : list (list Z) := Eval vm_compute in tab (fun m => ((zc q_c4) ^ Z.of_nat m)%Z :: tcomb [(zc q_a41, TP1); (zc q_a43, TP3)] m).
Local Transparent P4.
Lemma g_P4 : good P4 TP4. Proof. unfold P4. apply (good_stg _ _ [(zc q_a41, TP1); (zc q_a43, TP3)] TP4); [apply Forall2_cons; [split; [reflexivity|exact g_P1]|]; apply Forall2_cons; [split; [reflexivity|exact g_P3]|]; apply Forall2_nil|comp]. Qed.
Local Opaque P4.
Definition TP5 : list (list Z) := Eval vm_compute in tab (fun m => ((zc q_c5) ^ Z.of_nat m)%Z :: tcomb [(zc q_a51, TP1); (zc q_a53, TP3); (zc q_a54, TP4)] m).
Local Transparent P5.
Lemma g_P5 : good P5 TP5. Proof. unfold P5. apply (good_stg _ _ [(zc q_a51, TP1); (zc q_a53, TP3); (zc q_a54, TP4)] TP5); [apply Forall2_cons; [split; [reflexivity|exact g_P1]|]; apply Forall2_cons; [split; [reflexivity|exact g_P3]|]; apply Forall2_cons; [split; [reflexivity|exact g_P4]|]; apply Forall2_nil|comp]. Qed.
Local Opaque P5.
Definition TP6 : list (list Z) := Eval vm_compute in tab (fun m => ((zc q_c6) ^ Z.of_nat m)%Z :: tcomb [(zc q_a61, TP1); (zc q_a64, TP4); (zc q_a65, TP5)] m).
Local Transparent P6.
Lemma g_P6 : good P6 TP6. Proof. unfold P6. apply (good_stg _ _ [(zc q_a61, TP1); (zc q_a64, TP4); (zc q_a65, TP5)] TP6); [apply Forall2_cons; [split; [reflexivity|exact g_P1]|]; apply Forall2_cons; [split; [reflexivity|exact g_P4]|]; apply Forall2_cons; [split; [reflexivity|exact g_P5]|]; apply Forall2_nil|comp]. Qed.
Local Opaque P6.
Definition TP7 : list (list Z) := Eval vm_compute in tab (fun m => ((zc q_c7) ^ Z.of_nat m)%Z :: tcomb [(zc q_a71, TP1); (zc q_a74, TP4); (zc q_a75, TP5); (zc q_a76, TP6)] m).
Local Transparent P7.
Lemma g_P7 : good P7 TP7. Proof. unfold P7. apply (good_stg _ _ [(zc q_a71, TP1); (zc q_a74, TP4); (zc q_a75, TP5); (zc q_a76, TP6)] TP7); [apply Forall2_cons; [split; [reflexivity|exact g_P1]|]; apply Forall2_cons; [split; [reflexivity|exact g_P4]|]; apply Forall2_cons; [split; [reflexivity|exact g_P5]|]; apply Forall2_cons; [split; [reflexivity|exact g_P6]|]; apply Forall2_nil|comp]. Qed.
Local Opaque P7.
Definition TP8 : list (list Z) := Eval vm_compute in tab (fun m => ((zc q_c8) ^ Z.of_nat m)%Z :: tcomb [(zc q_a81, TP1); (zc q_a84, TP4); (zc q_a85, TP5); (zc q_a86, TP6); (zc q_a87, TP7)] m).
Local Transparent P8.
Lemma g_P8 : good P8 TP8. Proof. unfold P8. apply (good_stg _ _ [(zc q_a81, TP1); (zc q_a84, TP4); (zc q_a85, TP5); (zc q_a86, TP6); (zc q_a87, TP7)] TP8); [apply Forall2_cons; [split; [reflexivity|exact g_P1]|]; apply Forall2_cons; [split; [reflexivity|exact g_P4]|]; apply Forall2_cons; [split; [reflexivity|exact g_P5]|]; apply Forall2_cons; [split; [reflexivity|exact g_P6]|]; apply Forall2_cons; [split; [reflexivity|exact g_P7]|]; apply Forall2_nil|comp]. Qed.
Local Opaque P8.
Definition TP9 : list (list Z) := Eval vm_compute in tab (fun m => ((zc q_c9) ^ Z.of_nat m)%Z :: tcomb [(zc q_a91, TP1); (zc q_a94, TP4); (zc q_a95, TP5); (zc q_a96, TP6); (zc q_a97, TP7); (zc q_a98, TP8)] m).
Local Transparent P9.
Lemma g_P9 : good P9 TP9. Proof. unfold P9. apply (good_stg _ _ [(zc q_a91, TP1); (zc q_a94, TP4); (zc q_a95, TP5); (zc q_a96, TP6); (zc q_a97, TP7); (zc q_a98, TP8)] TP9); [apply Forall2_cons; [split; [reflexivity|exact g_P1]|]; apply Forall2_cons; [split; [reflexivity|exact g_P4]|]; apply Forall2_cons; [split; [reflexivity|exact g_P5]|]; apply Forall2_cons; [split; [reflexivity|exact g_P6]|]; apply Forall2_cons; [split; [reflexivity|exact g_P7]|]; apply Forall2_cons; [split; [reflexivity|exact g_P8]|]; apply Forall2_nil|comp]. Qed.
Local Opaque P9.
Definition TP10 : list (list Z) := Eval vm_compute in tab (fun m => ((zc q_c10) ^ Z.of_nat m)%Z :: tcomb [(zc q_a101, TP1); (zc q_a104, TP4); (zc q_a105, TP5); (zc q_a106, TP6); (zc q_a107, TP7); (zc q_a108, TP8); (zc q_a109, TP9)] m).
Local Transparent P10.
Lemma g_P10 : good P10 TP10. Proof. unfold P10. apply (good_stg _ _ [(zc q_a101, TP1); (zc q_a104, TP4); (zc q_a105, TP5); (zc q_a106, TP6); (zc q_a107, TP7); (zc q_a108, TP8); (zc q_a109, TP9)] TP10); [apply Forall2_cons; [split; [reflexivity|exact g_P1]|]; apply Forall2_cons; [split; [reflexivity|exact g_P4]|]; apply Forall2_cons; [split; [reflexivity|exact g_P5]|]; apply Forall2_cons; [split; [reflexivity|exact g_P6]|]; apply Forall2_cons; [split; [reflexivity|exact g_P7]|]; apply Forall2_cons; [split; [reflexivity|exact g_P8]|]; apply Forall2_cons; [split; [reflexivity|exact g_P9]|]; apply Forall2_nil|comp]. Qed.
Local Opaque P10.
Definition TP11 : list (list Z) := Eval vm_compute in tab (fun m => ((zc q_c11) ^ Z.of_nat m)%Z :: tcomb [(zc q_a111, TP1); (zc q_a114, TP4); (zc q_a115, TP5); (zc q_a116, TP6); (zc q_a117, TP7); (zc q_a118, TP8); (zc q_a119, TP9); (zc q_a1110, TP10)] m).
Local Transparent P11.
Lemma g_P11 : good P11 TP11. Proof. unfold P11. apply (good_stg _ _ [(zc q_a111, TP1); (zc q_a114, TP4); (zc q_a115, TP5); (zc q_a116, TP6); (zc q_a117, TP7); (zc q_a118, TP8); (zc q_a119, TP9); (zc q_a1110, TP10)] TP11); [apply Forall2_cons; [split; [reflexivity|exact g_P1]|]; apply Forall2_cons; [split; [reflexivity|exact g_P4]|]; apply Forall2_cons; [split; [reflexivity|exact g_P5]|]; apply Forall2_cons; [split; [reflexivity|exact g_P6]|]; apply Forall2_cons; [split; [reflexivity|exact g_P7]|]; apply Forall2_cons; [split; [reflexivity|exact g_P8]|]; apply Forall2_cons; [split; [reflexivity|exact g_P9]|]; apply Forall2_cons; [split; [reflexivity|exact g_P10]|]; apply Forall2_nil|comp]. Qed.
Local Opaque P11.
Definition TP12 : list (list Z) := Eval vm_compute in tab (fun m => (SC ^ Z.of_nat m)%Z :: tcomb [(zc q_a121, TP1); (zc q_a124, TP4); (zc q_a125, TP5); (zc q_a126, TP6); (zc q_a127, TP7); (zc q_a128, TP8); (zc q_a129, TP9); (zc q_a1210, TP10); (zc q_a1211, TP11)] m).
Local Transparent P12.
Lemma g_P12 : good P12 TP12. Proof. unfold P12. apply (good_stg _ _ [(zc q_a121, TP1); (zc q_a124, TP4); (zc q_a125, TP5); (zc q_a126, TP6); (zc q_a127, TP7); (zc q_a128, TP8); (zc q_a129, TP9); (zc q_a1210, TP10); (zc q_a1211, TP11)] TP12); [apply Forall2_cons; [split; [reflexivity|exact g_P1]|]; apply Forall2_cons; [split; [reflexivity|exact g_P4]|]; apply Forall2_cons; [split; [reflexivity|exact g_P5]|]; apply Forall2_cons; [split; [reflexivity|exact g_P6]|]; apply Forall2_cons; [split; [reflexivity|exact g_P7]|]; apply Forall2_cons; [split; [reflexivity|exact g_P8]|]; apply Forall2_cons; [split; [reflexivity|exact g_P9]|]; apply Forall2_cons; [split; [reflexivity|exact g_P10]|]; apply Forall2_cons; [split; [reflexivity|exact g_P11]|]; apply Forall2_nil|comp]. Qed.
Local Opaque P12.
Definition TPB : list (list Z) := Eval vm_compute in tab (tcomb [(zc q_b1, TP1); (zc q_b6, TP6); (zc q_b7, TP7); (zc q_b8, TP8); (zc q_b9, TP9); (zc q_b10, TP10); (zc q_b11, TP11); (zc q_b12, TP12)]).
Local Transparent PB.
Lemma g_PB : good PB TPB. Proof. unfold PB. apply (good_fcomb _ [(zc q_b1, TP1); (zc q_b6, TP6); (zc q_b7, TP7); (zc q_b8, TP8); (zc q_b9, TP9); (zc q_b10, TP10); (zc q_b11, TP11); (zc q_b12, TP12)] TPB); [apply Forall2_cons; [split; [reflexivity|exact g_P1]|]; apply Forall2_cons; [split; [reflexivity|exact g_P6]|]; apply Forall2_cons; [split; [reflexivity|exact g_P7]|]; apply Forall2_cons; [split; [reflexivity|exact g_P8]|]; apply Forall2_cons; [split; [reflexivity|exact g_P9]|]; apply Forall2_cons; [split; [reflexivity|exact g_P10]|]; apply Forall2_cons; [split; [reflexivity|exact g_P11]|]; apply Forall2_cons; [split; [reflexivity|exact g_P12]|]; apply Forall2_nil|comp]. Qed.
Local Opaque PB.
Definition TPY : list (list Z) := Eval vm_compute in tab (fun m => (SC ^ Z.of_nat m)%Z :: nth m TPB []).
Local Transparent PY.
Lemma g_PY : good PY TPY. Proof. exact (good_cons PB TPB TPY g_PB ltac:(comp)). Qed.
Local Opaque PY.
Definition TPE0 : list (list Z) := Eval vm_compute in tab (tcomb [((- zc q_bhh1)%Z, TP1); ((- zc q_bhh2)%Z, TP9); ((- zc q_bhh3)%Z, TP12)]).
Definition TPE : list (list Z) := Eval vm_compute in tab (fun m => padd (nth m TPB []) (nth m TPE0 [])).
Local Transparent PE.
Lemma g_PE : good PE TPE. Proof. unfold PE. eapply good_fadd; [exact g_PB|apply (good_fcomb _ [((- zc q_bhh1)%Z, TP1); ((- zc q_bhh2)%Z, TP9); ((- zc q_bhh3)%Z, TP12)] TPE0); [apply Forall2_cons; [split; [reflexivity|exact g_P1]|]; apply Forall2_cons; [split; [reflexivity|exact g_P9]|]; apply Forall2_cons; [split; [reflexivity|exact g_P12]|]; apply Forall2_nil|comp]|comp]. Qed.
Local Opaque PE.
Definition TPE2 : list (list Z) := Eval vm_compute in tab (tcomb [(zc q_er1, TP1); (zc q_er6, TP6); (zc q_er7, TP7); (zc q_er8, TP8); (zc q_er9, TP9); (zc q_er10, TP10); (zc q_er11, TP11); (zc q_er12, TP12)]).
Local Transparent PE2.
Lemma g_PE2 : good PE2 TPE2. Proof. unfold PE2. apply (good_fcomb _ [(zc q_er1, TP1); (zc q_er6, TP6); (zc q_er7, TP7); (zc q_er8, TP8); (zc q_er9, TP9); (zc q_er10, TP10); (zc q_er11, TP11); (zc q_er12, TP12)] TPE2); [apply Forall2_cons; [split; [reflexivity|exact g_P1]|]; apply Forall2_cons; [split; [reflexivity|exact g_P6]|]; apply Forall2_cons; [split; [reflexivity|exact g_P7]|]; apply Forall2_cons; [split; [reflexivity|exact g_P8]|]; apply Forall2_cons; [split; [reflexivity|exact g_P9]|]; apply Forall2_cons; [split; [reflexivity|exact g_P10]|]; apply Forall2_cons; [split; [reflexivity|exact g_P11]|]; apply Forall2_cons; [split; [reflexivity|exact g_P12]|]; apply Forall2_nil|comp]. Qed.
Local Opaque PE2.
Definition TP14 : list (list Z) := Eval vm_compute in tab (fun m => ((zc q_c14) ^ Z.of_nat m)%Z :: tcomb [(zc q_a141, TP1); (zc q_a147, TP7); (zc q_a148, TP8); (zc q_a149, TP9); (zc q_a1410, TP10); (zc q_a1411, TP11); (zc q_a1412, TP12); (zc q_a1413, TPY)] m).
Local Transparent P14.
Lemma g_P14 : good P14 TP14. Proof. unfold P14. apply (good_stg _ _ [(zc q_a141, TP1); (zc q_a147, TP7); (zc q_a148, TP8); (zc q_a149, TP9); (zc q_a1410, TP10); (zc q_a1411, TP11); (zc q_a1412, TP12); (zc q_a1413, TPY)] TP14); [apply Forall2_cons; [split; [reflexivity|exact g_P1]|]; apply Forall2_cons; [split; [reflexivity|exact g_P7]|]; apply Forall2_cons; [split; [reflexivity|exact g_P8]|]; apply Forall2_cons; [split; [reflexivity|exact g_P9]|]; apply Forall2_cons; [split; [reflexivity|exact g_P10]|]; apply Forall2_cons; [split; [reflexivity|exact g_P11]|]; apply Forall2_cons; [split; [reflexivity|exact g_P12]|]; apply Forall2_cons; [split; [reflexivity|exact g_PY]|]; apply Forall2_nil|comp]. Qed.
Local Opaque P14.
Definition TP15 : list (list Z) := Eval vm_compute in tab (fun m => ((zc q_c15) ^ Z.of_nat m)%Z :: tcomb [(zc q_a151, TP1); (zc q_a156, TP6); (zc q_a157, TP7); (zc q_a158, TP8); (zc q_a1511, TP11); (zc q_a1512, TP12); (zc q_a1513, TPY); (zc q_a1514, TP14)] m).
Local Transparent P15.
Lemma g_P15 : good P15 TP15. Proof. unfold P15. apply (good_stg _ _ [(zc q_a151, TP1); (zc q_a156, TP6); (zc q_a157, TP7); (zc q_a158, TP8); (zc q_a1511, TP11); (zc q_a1512, TP12); (zc q_a1513, TPY); (zc q_a1514, TP14)] TP15); [apply Forall2_cons; [split; [reflexivity|exact g_P1]|]; apply Forall2_cons; [split; [reflexivity|exact g_P6]|]; apply Forall2_cons; [split; [reflexivity|exact g_P7]|]; apply Forall2_cons; [split; [reflexivity|exact g_P8]|]; apply Forall2_cons; [split; [reflexivity|exact g_P11]|]; apply Forall2_cons; [split; [reflexivity|exact g_P12]|]; apply Forall2_cons; [split; [reflexivity|exact g_PY]|]; apply Forall2_cons; [split; [reflexivity|exact g_P14]|]; apply Forall2_nil|comp]. Qed.
Local Opaque P15.
Definition TP16 : list (list Z) := Eval vm_compute in tab (fun m => ((zc q_c16) ^ Z.of_nat m)%Z :: tcomb [(zc q_a161, TP1); (zc q_a166, TP6); (zc q_a167, TP7); (zc q_a168, TP8); (zc q_a169, TP9); (zc q_a1613, TPY); (zc q_a1614, TP14); (zc q_a1615, TP15)] m).
Local Transparent P16.
Lemma g_P16 : good P16 TP16. Proof. unfold P16. apply (good_stg _ _ [(zc q_a161, TP1); (zc q_a166, TP6); (zc q_a167, TP7); (zc q_a168, TP8); (zc q_a169, TP9); (zc q_a1613, TPY); (zc q_a1614, TP14); (zc q_a1615, TP15)] TP16); [apply Forall2_cons; [split; [reflexivity|exact g_P1]|]; apply Forall2_cons; [split; [reflexivity|exact g_P6]|]; apply Forall2_cons; [split; [reflexivity|exact g_P7]|]; apply Forall2_cons; [split; [reflexivity|exact g_P8]|]; apply Forall2_cons; [split; [reflexivity|exact g_P9]|]; apply Forall2_cons; [split; [reflexivity|exact g_PY]|]; apply Forall2_cons; [split; [reflexivity|exact g_P14]|]; apply Forall2_cons; [split; [reflexivity|exact g_P15]|]; apply Forall2_nil|comp]. Qed.
Local Opaque P16.
Definition TA : list (list Z) := Eval vm_compute in tab (fun m => pscale SC (nth m TP1 [])).
Definition TB : list (list Z) := Eval vm_compute in tab (fun m => pscale (-1) (nth m TPB [])).
Definition TPR2 : list (list Z) := Eval vm_compute in tab (fun m => padd (nth m TA []) (nth m TB [])).
Local Transparent PR2.
Lemma g_PR2 : good PR2 TPR2. Proof. unfold PR2. eapply good_fadd; [eapply (good_fscale _ _ _ TA); [exact g_P1|comp]|eapply (good_fscale _ _ _ TB); [exact g_PB|comp]|comp]. Qed.
Local Opaque PR2.
Definition TC : list (list Z) := Eval vm_compute in tab (fun m => pscale (- SC) (nth m TPY [])).
Definition TD : list (list Z) := Eval vm_compute in tab (fun m => pscale (-1) (nth m TPR2 [])).
Definition TE : list (list Z) := Eval vm_compute in tab (fun m => padd (nth m TC []) (nth m TD [])).
Definition TPR3 : list (list Z) := Eval vm_compute in tab (fun m => padd (nth m TPB []) (nth m TE [])).
Local Transparent PR3.
Lemma g_PR3 : good PR3 TPR3. Proof. unfold PR3. eapply good_fadd; [exact g_PB|eapply (good_fadd _ _ TC TD TE); [eapply (good_fscale _ _ _ TC); [exact g_PY|comp]|eapply (good_fscale _ _ _ TD); [exact g_PR2|comp]|comp]|comp]. Qed.
Local Opaque PR3.
Definition TPR4 : list (list Z) := Eval vm_compute in tab (tcomb [(zc q_d41, TP1); (zc q_d46, TP6); (zc q_d47, TP7); (zc q_d48, TP8); (zc q_d49, TP9); (zc q_d410, TP10); (zc q_d411, TP11); (zc q_d412, TP12); (zc q_d413, TPY); (zc q_d414, TP14); (zc q_d415, TP15); (zc q_d416, TP16)]).
Local Transparent PR4.
Lemma g_PR4 : good PR4 TPR4. Proof. unfold PR4, prc. cbn [app combine]. apply (good_fcomb _ [(zc q_d41, TP1); (zc q_d46, TP6); (zc q_d47, TP7); (zc q_d48, TP8); (zc q_d49, TP9); (zc q_d410, TP10); (zc q_d411, TP11); (zc q_d412, TP12); (zc q_d413, TPY); (zc q_d414, TP14); (zc q_d415, TP15); (zc q_d416, TP16)] TPR4); [apply Forall2_cons; [split; [reflexivity|exact g_P1]|]; apply Forall2_cons; [split; [reflexivity|exact g_P6]|]; apply Forall2_cons; [split; [reflexivity|exact g_P7]|]; apply Forall2_cons; [split; [reflexivity|exact g_P8]|]; apply Forall2_cons; [split; [reflexivity|exact g_P9]|]; apply Forall2_cons; [split; [reflexivity|exact g_P10]|]; apply Forall2_cons; [split; [reflexivity|exact g_P11]|]; apply Forall2_cons; [split; [reflexivity|exact g_P12]|]; apply Forall2_cons; [split; [reflexivity|exact g_PY]|]; apply Forall2_cons; [split; [reflexivity|exact g_P14]|]; apply Forall2_cons; [split; [reflexivity|exact g_P15]|]; apply Forall2_cons; [split; [reflexivity|exact g_P16]|]; apply Forall2_nil|comp]. Qed.
Local Opaque PR4.
Definition TPR5 : list (list Z) := Eval vm_compute in tab (tcomb [(zc q_d51, TP1); (zc q_d56, TP6); (zc q_d57, TP7); (zc q_d58, TP8); (zc q_d59, TP9); (zc q_d510, TP10); (zc q_d511, TP11); (zc q_d512, TP12); (zc q_d513, TPY); (zc q_d514, TP14); (zc q_d515, TP15); (zc q_d516, TP16)]).
Local Transparent PR5.
Lemma g_PR5 : good PR5 TPR5. Proof. unfold PR5, prc. cbn [app combine]. apply (good_fcomb _ [(zc q_d51, TP1); (zc q_d56, TP6); (zc q_d57, TP7); (zc q_d58, TP8); (zc q_d59, TP9); (zc q_d510, TP10); (zc q_d511, TP11); (zc q_d512, TP12); (zc q_d513, TPY); (zc q_d514, TP14); (zc q_d515, TP15); (zc q_d516, TP16)] TPR5); [apply Forall2_cons; [split; [reflexivity|exact g_P1]|]; apply Forall2_cons; [split; [reflexivity|exact g_P6]|]; apply Forall2_cons; [split; [reflexivity|exact g_P7]|]; apply Forall2_cons; [split; [reflexivity|exact g_P8]|]; apply Forall2_cons; [split; [reflexivity|exact g_P9]|]; apply Forall2_cons; [split; [reflexivity|exact g_P10]|]; apply Forall2_cons; [split; [reflexivity|exact g_P11]|]; apply Forall2_cons; [split; [reflexivity|exact g_P12]|]; apply Forall2_cons; [split; [reflexivity|exact g_PY]|]; apply Forall2_cons; [split; [reflexivity|exact g_P14]|]; apply Forall2_cons; [split; [reflexivity|exact g_P15]|]; apply Forall2_cons; [split; [reflexivity|exact g_P16]|]; apply Forall2_nil|comp]. Qed.
Local Opaque PR5.
Definition TPR6 : list (list Z) := Eval vm_compute in tab (tcomb [(zc q_d61, TP1); (zc q_d66, TP6); (zc q_d67, TP7); (zc q_d68, TP8); (zc q_d69, TP9); (zc q_d610, TP10); (zc q_d611, TP11); (zc q_d612, TP12); (zc q_d613, TPY); (zc q_d614, TP14); (zc q_d615, TP15); (zc q_d616, TP16)]).
Local Transparent PR6.
Lemma g_PR6 : good PR6 TPR6. Proof. unfold PR6, prc. cbn [app combine]. apply (good_fcomb _ [(zc q_d61, TP1); (zc q_d66, TP6); (zc q_d67, TP7); (zc q_d68, TP8); (zc q_d69, TP9); (zc q_d610, TP10); (zc q_d611, TP11); (zc q_d612, TP12); (zc q_d613, TPY); (zc q_d614, TP14); (zc q_d615, TP15); (zc q_d616, TP16)] TPR6); [apply Forall2_cons; [split; [reflexivity|exact g_P1]|]; apply Forall2_cons; [split; [reflexivity|exact g_P6]|]; apply Forall2_cons; [split; [reflexivity|exact g_P7]|]; apply Forall2_cons; [split; [reflexivity|exact g_P8]|]; apply Forall2_cons; [split; [reflexivity|exact g_P9]|]; apply Forall2_cons; [split; [reflexivity|exact g_P10]|]; apply Forall2_cons; [split; [reflexivity|exact g_P11]|]; apply Forall2_cons; [split; [reflexivity|exact g_P12]|]; apply Forall2_cons; [split; [reflexivity|exact g_PY]|]; apply Forall2_cons; [split; [reflexivity|exact g_P14]|]; apply Forall2_cons; [split; [reflexivity|exact g_P15]|]; apply Forall2_cons; [split; [reflexivity|exact g_P16]|]; apply Forall2_nil|comp]. Qed.
Local Opaque PR6.
Definition TPR7 : list (list Z) := Eval vm_compute in tab (tcomb [(zc q_d71, TP1); (zc q_d76, TP6); (zc q_d77, TP7); (zc q_d78, TP8); (zc q_d79, TP9); (zc q_d710, TP10); (zc q_d711, TP11); (zc q_d712, TP12); (zc q_d713, TPY); (zc q_d714, TP14); (zc q_d715, TP15); (zc q_d716, TP16)]).
Local Transparent PR7.
Lemma g_PR7 : good PR7 TPR7. Proof. unfold PR7, prc. cbn [app combine]. apply (good_fcomb _ [(zc q_d71, TP1); (zc q_d76, TP6); (zc q_d77, TP7); (zc q_d78, TP8); (zc q_d79, TP9); (zc q_d710, TP10); (zc q_d711, TP11); (zc q_d712, TP12); (zc q_d713, TPY); (zc q_d714, TP14); (zc q_d715, TP15); (zc q_d716, TP16)] TPR7); [apply Forall2_cons; [split; [reflexivity|exact g_P1]|]; apply Forall2_cons; [split; [reflexivity|exact g_P6]|]; apply Forall2_cons; [split; [reflexivity|exact g_P7]|]; apply Forall2_cons; [split; [reflexivity|exact g_P8]|]; apply Forall2_cons; [split; [reflexivity|exact g_P9]|]; apply Forall2_cons; [split; [reflexivity|exact g_P10]|]; apply Forall2_cons; [split; [reflexivity|exact g_P11]|]; apply Forall2_cons; [split; [reflexivity|exact g_P12]|]; apply Forall2_cons; [split; [reflexivity|exact g_PY]|]; apply Forall2_cons; [split; [reflexivity|exact g_P14]|]; apply Forall2_cons; [split; [reflexivity|exact g_P15]|]; apply Forall2_cons; [split; [reflexivity|exact g_P16]|]; apply Forall2_nil|comp]. Qed.
Local Opaque PR7.

(** ** The coefficients *)
Lemma ev_csum_pad h w p k N : (length p <= N)%nat -> ev h w p k = csum N (fun j => RtoC (IZR (nth j p 0%Z) * h ^ j) * w (k + j)%nat)%C.
Proof.
  intros H. rewrite ev_csum. induction H as [|N H IH]; [reflexivity|]. rewrite csum_S, <- IH, (nth_overflow p) by lia. rewrite Rmult_0_l. ring.
Qed.
Fixpoint zfact (j : nat) : Z := match j with O => 1 | S k => (Z.of_nat (S k) * zfact k)%Z end.
Lemma zfact_fact j : IZR (zfact j) = INR (fact j).
Proof. induction j as [|j IH]; [reflexivity|]. cbn [zfact]. rewrite mult_IZR, IH, <- INR_IZR_INZ, fact_simpl, mult_INR. reflexivity. Qed.
Lemma zfact_pos j : 0 < IZR (zfact j). Proof. rewrite zfact_fact. apply INR_fact_lt_0. Qed.
Definition scp (j : nat) : Z := (SC ^ Z.of_nat j)%Z.
Lemma scp_R j : IZR (scp j) = IZR SC ^ j. Proof. unfold scp. now rewrite <- pow_IZR. Qed.
Lemma scp_pos j : 0 < IZR SC ^ j. Proof. apply pow_lt, SC_pos. Qed.
(** |a/d - u/p| <= 1/B *)
Definition near (B a d u p : Z) : bool := Z.leb (Z.abs (a * p - u * d) * B) (p * d).
Lemma near_R B a d u p : near B a d u p = true -> 0 < IZR d -> 0 < IZR p -> 0 < IZR B -> Rabs (IZR a / IZR d - IZR u / IZR p) <= / IZR B.
Proof.
  unfold near. intros H Hd Hp HB. apply Z.leb_le, IZR_le in H. rewrite !mult_IZR, abs_IZR, minus_IZR, !mult_IZR in H.
  replace (IZR a / IZR d - IZR u / IZR p) with ((IZR a * IZR p - IZR u * IZR d) * / (IZR p * IZR d)) by (field; lra). assert (P : 0 < IZR p * IZR d) by (apply Rmult_lt_0_compat; assumption).
  rewrite Rabs_mult, (Rabs_pos_eq (/ _)) by (left; apply Rinv_0_lt_compat, P). apply (Rmult_le_reg_r (IZR p * IZR d)); [exact P|]. rewrite Rmult_assoc, Rinv_l, Rmult_1_r by lra.
  apply (Rmult_le_reg_r (IZR B)); [exact HB|]. eapply Rle_trans; [exact H|]. right. field. lra.
Qed.
(** |a|/d <= m/B *)
Definition small (m B a d : Z) : bool := Z.leb (Z.abs a * B) (m * d).
Lemma small_R m B a d : small m B a d = true -> 0 < IZR d -> 0 < IZR B -> Rabs (IZR a / IZR d) <= IZR m / IZR B.
Proof.
  unfold small. intros H Hd HB. apply Z.leb_le, IZR_le in H. rewrite !mult_IZR, abs_IZR in H. unfold Rdiv. rewrite Rabs_mult, (Rabs_pos_eq (/ IZR d)) by (left; apply Rinv_0_lt_compat, Hd).
  apply (Rmult_le_reg_r (IZR d)); [exact Hd|]. rewrite Rmult_assoc, Rinv_l, Rmult_1_r by lra. apply (Rmult_le_reg_r (IZR B)); [exact HB|]. eapply Rle_trans; [exact H|]. right. field. lra.
Qed.
(** m1/B <= a/d <= m2/B *)
Definition within (m1 m2 B a d : Z) : bool := Z.leb (m1 * d) (a * B) && Z.leb (a * B) (m2 * d).
Lemma within_R m1 m2 B a d : within m1 m2 B a d = true -> 0 < IZR d -> 0 < IZR B -> IZR m1 / IZR B <= IZR a / IZR d <= IZR m2 / IZR B.
Proof.
  unfold within. intros H Hd HB. apply andb_true_iff in H as [H1 H2]. apply Z.leb_le, IZR_le in H1. apply Z.leb_le, IZR_le in H2. rewrite !mult_IZR in H1, H2.
  assert (P : 0 < IZR d * IZR B) by (apply Rmult_lt_0_compat; assumption).
  split; apply (Rmult_le_reg_r (IZR d * IZR B)); try exact P.
  - replace (IZR m1 / IZR B * (IZR d * IZR B)) with (IZR m1 * IZR d) by (field; lra). replace (IZR a / IZR d * (IZR d * IZR B)) with (IZR a * IZR B) by (field; lra). exact H1.
  - replace (IZR m2 / IZR B * (IZR d * IZR B)) with (IZR m2 * IZR d) by (field; lra). replace (IZR a / IZR d * (IZR d * IZR B)) with (IZR a * IZR B) by (field; lra). exact H2.
Qed.
(** a check of the coefficients (l, m) with l + m < N *)
Definition tri (T : list (list Z)) (c : nat -> nat -> Z -> bool) (N : nat) : bool := forallb (fun m => forallb (fun l => c l m (nth l (nth m T []) 0%Z)) (seq 0 (N - m))) (seq 0 N).
Lemma nth_firstn_lt : forall (k l : nat) (p : list Z), (l < k)%nat -> nth l (firstn k p) 0%Z = nth l p 0%Z.
Proof. induction k as [|k IH]; intros l p H; [lia|]. destruct p as [|a p]; [reflexivity|]. destruct l as [|l]; [reflexivity|]. cbn [firstn nth]. apply IH. lia. Qed.
Lemma tri_nth F T c N l m : good F T -> tri T c N = true -> (N <= 8)%nat -> (l + m < N)%nat -> c l m (nth l (F m) 0%Z) = true.
Proof.
  unfold tri. intros G H HN Hj. rewrite forallb_forall in H. specialize (H m ltac:(apply in_seq; lia)). cbv beta in H. rewrite forallb_forall in H. specialize (H l ltac:(apply in_seq; lia)). cbv beta in H.
  rewrite <- (G m ltac:(lia)), nth_firstn_lt in H; [exact H|]. destruct m; cbn [K]; lia.
Qed.
Definition row0 (T : list (list Z)) (c : nat -> Z -> bool) (a k : nat) : bool := forallb (fun l => c l (nth l (nth 0 T []) 0%Z)) (seq a k).
Lemma row0_nth F T c a k l : good F T -> row0 T c a k = true -> (a <= l < a + k)%nat -> (l < 16)%nat -> c l (nth l (F 0%nat) 0%Z) = true.
Proof. unfold row0. intros G H Hj Hl. rewrite forallb_forall in H. specialize (H l ltac:(apply in_seq; lia)). cbv beta in H. rewrite <- (G 0%nat ltac:(lia)), nth_firstn_lt in H; [exact H|cbn [K]; lia]. Qed.
Definition coef (F : fam) (l m : nat) : R := IZR (nth l (F m) 0%Z) / IZR SC ^ (l + m + 1).
Lemma T27 : / IZR (10 ^ 27) = / 10 ^ 27. Proof. now rewrite (pow_IZR 10 27). Qed.
Lemma beta_close l m : (l + m <= 7)%nat -> Rabs (coef PB l m - INR (fact m) / INR (fact (l + m + 1))) <= / 10 ^ 27.
Proof.
  intros H. unfold coef. rewrite <- scp_R, <- !zfact_fact, <- T27. apply near_R; [|rewrite scp_R; apply scp_pos|apply zfact_pos|apply IZR_lt; reflexivity].
  assert (F : tri TPB (fun l m a => near (10 ^ 27) a (scp (l + m + 1)) (zfact m) (zfact (l + m + 1))) 8 = true) by (vm_compute; reflexivity). exact (tri_nth _ _ _ _ l m g_PB F ltac:(lia) ltac:(lia)).
Qed.
Lemma beta_tail l : (8 <= l <= 11)%nat -> 0 < coef PB l 0 <= / INR (fact (l + 1)).
Proof.
  intros H. unfold coef. rewrite <- scp_R, <- zfact_fact, Nat.add_0_r. assert (F : row0 TPB (fun l a => Z.ltb 0 a && Z.leb (a * zfact (l + 1)) (scp (l + 1))) 8 4 = true) by (vm_compute; reflexivity).
  pose proof (row0_nth _ _ _ _ _ l g_PB F ltac:(lia) ltac:(lia)) as G. cbv beta in G. clear F. apply andb_true_iff in G as [G1 G2]. apply Z.ltb_lt, IZR_lt in G1. apply Z.leb_le, IZR_le in G2. rewrite mult_IZR in G2.
  set (a := nth l (PB 0%nat) 0%Z) in *. pose proof (scp_pos (l + 1)) as P. rewrite <- scp_R in P. pose proof (zfact_pos (l + 1)) as Z. split; [apply Rdiv_lt_0_compat; assumption|].
  apply (Rmult_le_reg_r (IZR (scp (l + 1)) * IZR (zfact (l + 1)))); [apply Rmult_lt_0_compat; assumption|]. replace (IZR a / IZR (scp (l + 1)) * (IZR (scp (l + 1)) * IZR (zfact (l + 1)))) with (IZR a * IZR (zfact (l + 1))) by (field; lra).
  eapply Rle_trans; [exact G2|]. right. field. lra.
Qed.
Lemma small_tri F T N l m : good F T -> (N <= 8)%nat -> tri T (fun l m a => small 1 (10 ^ 27) a (scp (l + m + 1))) N = true -> (l + m < N)%nat -> Rabs (coef F l m) <= / 10 ^ 27.
Proof.
  intros G HN Ht H. unfold coef. rewrite <- scp_R, <- T27. rewrite <- (Rmult_1_l (/ IZR (10 ^ 27))). apply (small_R 1 (10 ^ 27)); [|rewrite scp_R; apply scp_pos|apply IZR_lt; reflexivity]. exact (tri_nth _ _ _ _ l m G Ht HN H).
Qed.
Lemma eps1_small l m : (l + m < 3)%nat -> Rabs (coef PE l m) <= / 10 ^ 27. Proof. apply (small_tri _ _ 3 _ _ g_PE); [lia|]. vm_compute. reflexivity. Qed.
Lemma eps2_small l m : (l + m < 5)%nat -> Rabs (coef PE2 l m) <= / 10 ^ 27. Proof. apply (small_tri _ _ 5 _ _ g_PE2); [lia|]. vm_compute. reflexivity. Qed.
Lemma eps1_lead : 0.0042 <= coef PE 3 0 <= 0.0043.
Proof.
  unfold coef. rewrite <- scp_R. assert (F : within 42 43 10000 (nth 3 (PE 0%nat) 0%Z) (scp 4) = true) by (rewrite <- (nth_firstn_lt (K 0)), (g_PE 0%nat) by (cbn; lia); vm_compute; reflexivity). apply within_R in F; [|rewrite scp_R; apply scp_pos|lra]. destruct F as [F1 F2].
  change (3 + 0 + 1)%nat with 4%nat. set (x := IZR (nth 3 (PE 0%nat) 0%Z) / IZR (scp 4)) in *. clearbody x. lra.
Qed.
Lemma eps2_lead : 0.000013 <= - coef PE2 5 0 <= 0.000014.
Proof.
  unfold coef. rewrite <- scp_R. assert (F : within (-14) (-13) 1000000 (nth 5 (PE2 0%nat) 0%Z) (scp 6) = true) by (rewrite <- (nth_firstn_lt (K 0)), (g_PE2 0%nat) by (cbn; lia); vm_compute; reflexivity). apply within_R in F; [|rewrite scp_R; apply scp_pos|lra]. destruct F as [F1 F2].
  change (5 + 0 + 1)%nat with 6%nat. set (x := IZR (nth 5 (PE2 0%nat) 0%Z) / IZR (scp 6)) in *. clearbody x. lra.
Qed.
Lemma eps1_tail l : (4 <= l < 12)%nat -> Rabs (coef PE l 0) <= 0.002.
Proof.
  intros H. unfold coef. rewrite <- scp_R, Nat.add_0_r. assert (F : row0 TPE (fun l a => small 2 1000 a (scp (l + 1))) 4 8 = true) by (vm_compute; reflexivity).
  pose proof (row0_nth _ _ _ _ _ l g_PE F ltac:(lia) ltac:(lia)) as G. cbv beta in G. clear F. apply small_R in G; [|rewrite scp_R; apply scp_pos|lra]. set (x := IZR _ / IZR _) in *. clearbody x. lra.
Qed.
Lemma eps2_tail l : (6 <= l < 12)%nat -> Rabs (coef PE2 l 0) <= 0.0000003.
Proof.
  intros H. unfold coef. rewrite <- scp_R, Nat.add_0_r. assert (F : row0 TPE2 (fun l a => small 3 10000000 a (scp (l + 1))) 6 6 = true) by (vm_compute; reflexivity).
  pose proof (row0_nth _ _ _ _ _ l g_PE2 F ltac:(lia) ltac:(lia)) as G. cbv beta in G. clear F. apply small_R in G; [|rewrite scp_R; apply scp_pos|lra]. set (x := IZR _ / IZR _) in *. clearbody x. lra.
Qed.

(** polynomials in the relative position inside a step *)
Fixpoint pe (t : R) (p : list Z) : R := match p with [] => 0 | a :: p => IZR a + t * pe t p end.
Lemma pe_padd t : forall p q, pe t (padd p q) = pe t p + pe t q.
Proof.
  induction p as [|a p IH]; intros q; [cbn [padd pe]; ring|]. destruct q as [|b q]; [cbn [padd pe]; ring|]. cbn [padd pe]. rewrite IH, plus_IZR. ring.
Qed.
Lemma pe_pscale t c : forall p, pe t (pscale c p) = IZR c * pe t p.
Proof. induction p as [|a p IH]; [cbn [pscale map pe]; ring|]. cbn [pscale map pe]. fold (pscale c p). rewrite IH, mult_IZR. ring. Qed.
Definition abs_sum (p : list Z) : Z := fold_right (fun a q => (Z.abs a + q)%Z) 0%Z p.
Lemma pe_bound t p : 0 <= t <= 1 -> Rabs (pe t p) <= IZR (abs_sum p).
Proof.
  intros Ht. induction p as [|a p IH]; cbn [pe abs_sum fold_right]; [rewrite Rabs_R0; lra|]. fold (abs_sum p). rewrite plus_IZR, abs_IZR.
  eapply Rle_trans; [apply Rabs_triang|]. apply Rplus_le_compat_l. rewrite Rabs_mult, (Rabs_pos_eq t) by lra. pose proof (Rabs_pos (pe t p)). nra.
Qed.
Definition mono (c : Z) (j : nat) : list Z := repeat 0%Z j ++ [c].
Lemma pe_mono t c j : pe t (mono c j) = t ^ j * IZR c.
Proof. unfold mono. induction j as [|j IH]; cbn [repeat app pe pow]; [ring|]. rewrite IH. ring. Qed.
Definition pt1 (c : Z) (p : list Z) : list Z := padd [c] (padd p (0%Z :: pscale (-1) p)).
Lemma pe_pt t c p : pe t (c :: p) = IZR c + t * pe t p. Proof. reflexivity. Qed.
Lemma pe_pt1 t c p : pe t (pt1 c p) = IZR c + (1 - t) * pe t p.
Proof. unfold pt1. rewrite !pe_padd. cbn [pe]. rewrite pe_pscale. ring. Qed.
Definition dpoly (r : list (list Z)) (l : nat) : list Z :=
  let c k := nth l (nth k r []) 0%Z in
  0%Z :: pt1 (c 0%nat) (c 1%nat :: pt1 (c 2%nat) (c 3%nat :: pt1 (c 4%nat) (c 5%nat :: [c 6%nat]))).
Definition RC (m : nat) : list (list Z) := map (fun F : fam => F m) PRC.
Definition delta (t : R) (l m : nat) : R := pe t (dpoly (RC m) l) / IZR SC ^ (l + m + 1).
Definition TRC (m : nat) : list (list Z) := map (fun T => nth m T []) [TPB; TPR2; TPR3; TPR4; TPR5; TPR6; TPR7].
Lemma RC_dpoly l m : (m < 8)%nat -> (l < K m)%nat -> dpoly (RC m) l = dpoly (TRC m) l.
Proof.
  intros Hm Hl. unfold dpoly, RC, TRC, PRC. cbn [map nth].
  rewrite <- (g_PB m Hm), <- (g_PR2 m Hm), <- (g_PR3 m Hm), <- (g_PR4 m Hm), <- (g_PR5 m Hm), <- (g_PR6 m Hm), <- (g_PR7 m Hm), !(nth_firstn_lt (K m) l) by exact Hl. reflexivity.
Qed.
Lemma delta_close t l m : 0 <= t <= 1 -> (l + m <= 6)%nat -> Rabs (delta t l m - t ^ (l + m + 1) * INR (fact m) / INR (fact (l + m + 1))) <= / 10 ^ 24.
Proof.
  intros Ht H. unfold delta. rewrite RC_dpoly, <- !zfact_fact, <- scp_R by (try destruct m; cbn [K]; lia).
  assert (F : forallb (fun m => (fun r => forallb (fun l => let j := (l + m + 1)%nat in Z.leb (abs_sum (padd (pscale (zfact j) (dpoly r l)) (mono (- zfact m * scp j) j)) * 10 ^ 24) (zfact j * scp j)) (seq 0 (7 - m))) (TRC m)) (seq 0 7) = true) by (vm_compute; reflexivity).
  rewrite forallb_forall in F. specialize (F m ltac:(apply in_seq; lia)). cbv beta in F. rewrite forallb_forall in F. specialize (F l ltac:(apply in_seq; lia)). cbv zeta in F. set (j := (l + m + 1)%nat) in *. clearbody j. apply Z.leb_le, IZR_le in F. rewrite !mult_IZR in F.
  set (D := padd (pscale (zfact j) (dpoly (TRC m) l)) (mono (- zfact m * scp j) j)) in *. pose proof (pe_bound t D Ht) as B. assert (ED : pe t D = IZR (zfact j) * pe t (dpoly (TRC m) l) - t ^ j * (IZR (zfact m) * IZR (scp j))) by (unfold D; rewrite pe_padd, pe_pscale, pe_mono, mult_IZR, opp_IZR; ring).
  rewrite ED in B. clearbody D. set (x := pe t (dpoly (TRC m) l)) in *. clearbody x. clear ED. pose proof (zfact_pos j) as Pz. pose proof (scp_pos j) as Ps. rewrite <- scp_R in Ps. set (z := IZR (zfact j)) in *. set (y := IZR (zfact m)) in *. set (s := IZR (scp j)) in *. clearbody z s y.
  assert (P : 0 < z * s) by (apply Rmult_lt_0_compat; assumption). assert (T : IZR (10 ^ 24) = 10 ^ 24) by (now rewrite (pow_IZR 10 24)). rewrite T in F. assert (PT : 0 < 10 ^ 24) by (apply pow_lt; lra). set (T24 := 10 ^ 24) in *. clearbody T24.
  replace (x / s - t ^ j * y / z) with ((z * x - t ^ j * (y * s)) * / (z * s)) by (field; lra). rewrite Rabs_mult, (Rabs_pos_eq (/ _)) by (left; apply Rinv_0_lt_compat, P).
  apply (Rmult_le_reg_r (z * s)); [exact P|]. rewrite Rmult_assoc, Rinv_l, Rmult_1_r by lra. eapply Rle_trans; [exact B|]. apply (Rmult_le_reg_r T24); [exact PT|]. eapply Rle_trans; [exact F|]. right. field. lra.
Qed.
Lemma delta_tail t l : 0 <= t <= 1 -> (7 <= l <= 15)%nat -> Rabs (delta t l 0) <= / 100.
Proof.
  intros Ht H. unfold delta. rewrite RC_dpoly, <- scp_R, Nat.add_0_r by (cbn [K]; lia).
  assert (F : (fun r => forallb (fun l => Z.leb (abs_sum (dpoly r l) * 100) (scp (l + 1))) (seq 7 9)) (TRC 0) = true) by (vm_compute; reflexivity).
  cbv beta in F. rewrite forallb_forall in F. specialize (F l ltac:(apply in_seq; lia)). apply Z.leb_le, IZR_le in F. rewrite !mult_IZR in F. pose proof (pe_bound t (dpoly (TRC 0) l) Ht) as B.
  set (x := pe t (dpoly (TRC 0) l)) in *. set (a := IZR (abs_sum (dpoly (TRC 0) l))) in *. clearbody x a. pose proof (scp_pos (l + 1)) as Ps. rewrite <- scp_R in Ps. set (s := IZR (scp (l + 1))) in *. clearbody s.
  unfold Rdiv. rewrite Rabs_mult, (Rabs_pos_eq (/ _)) by (left; apply Rinv_0_lt_compat, Ps). apply (Rmult_le_reg_r s); [exact Ps|]. rewrite Rmult_assoc, Rinv_l, Rmult_1_r by lra. lra.
Qed.
(** the value of a family as a double sum *)
Definition dsum (N : nat) (c : nat -> nat -> R) (e : nat) (h : R) (v : nat -> nat -> C) (w : nat -> nat -> nat -> C) (i : nat) : C :=
  (csum N (fun l => RtoC (c l 0%nat * h ^ (l + e)) * v (S l) i) + csum 8 (fun m => csum N (fun l => RtoC (c l m * h ^ (l + m + e)) * w m l i)))%C.
Lemma hs_pow h a k e : (e <= 1)%nat -> RtoC (IZR a * hs h ^ k) = (RtoC (IZR SC ^ e) * RtoC (IZR a / IZR SC ^ (k + e) * h ^ k))%C.
Proof.
  intros _. rewrite <- RtoC_mult. f_equal. unfold hs, Rdiv. rewrite Rpow_mult_distr, pow_inv, pow_add. pose proof (scp_pos k). pose proof (scp_pos e). field. lra.
Qed.
Lemma val_sum v w h F N i : (forall m, (length (F m) <= N)%nat) -> (RtoC (/ IZR SC) * val v w h F 0 i)%C = dsum N (coef F) 0 h v w i.
Proof.
  intros L. unfold val, dsum. rewrite Cmult_plus_distr_l. pose proof SC_pos as P. f_equal.
  - rewrite (ev_csum_pad _ _ _ 1 N (L 0%nat)), <- csum_scal_l. apply csum_ext. intros l _. unfold coef. rewrite Nat.add_0_r, (hs_pow h _ l 1) by lia. rewrite pow_1, !Cmult_assoc, <- RtoC_mult, Rinv_l, Cmult_1_l by lra. reflexivity.
  - rewrite <- csum_scal_l. apply csum_ext. intros m _. rewrite (ev_csum_pad _ _ _ 0 N (L m)), <- !csum_scal_l. apply csum_ext. intros l _. unfold coef. rewrite Nat.add_0_r. cbn [Nat.add].
    replace (RtoC (hs h ^ m) * (RtoC (IZR (nth l (F m) 0%Z) * hs h ^ l) * w m l i))%C with (RtoC (IZR (nth l (F m) 0%Z) * hs h ^ (l + m)) * w m l i)%C by (rewrite pow_add, !RtoC_mult; ring).
    rewrite (hs_pow h _ (l + m) 1) by lia. rewrite pow_1, !Cmult_assoc, <- RtoC_mult, Rinv_l, Cmult_1_l by lra. reflexivity.
Qed.
Lemma dsum_h N c h v w i : (RtoC h * dsum N c 0 h v w i)%C = dsum N c 1 h v w i.
Proof.
  unfold dsum. rewrite Cmult_plus_distr_l. f_equal.
  - rewrite <- csum_scal_l. apply csum_ext. intros l _. rewrite Nat.add_0_r, Nat.add_1_r. cbn [pow]. rewrite Cmult_assoc, <- RtoC_mult. do 2 f_equal. ring.
  - rewrite <- csum_scal_l. apply csum_ext. intros m _. rewrite <- csum_scal_l. apply csum_ext. intros l _. rewrite Nat.add_0_r, Nat.add_1_r. cbn [pow]. rewrite Cmult_assoc, <- RtoC_mult. do 2 f_equal. ring.
Qed.
Lemma hval_sum v w h F N i : (forall m, (length (F m) <= N)%nat) -> (RtoC (hs h) * val v w h F 0 i)%C = dsum N (coef F) 1 h v w i.
Proof. intros L. rewrite <- dsum_h, <- (val_sum v w h F N i L). unfold hs at 1, Rdiv. rewrite RtoC_mult. ring. Qed.
Lemma dsum_lin N a b t e h v w i : (dsum N a e h v w i + RtoC t * dsum N b e h v w i)%C = dsum N (fun l m => a l m + t * b l m) e h v w i.
Proof.
  unfold dsum. rewrite Cmult_plus_distr_l. match goal with |- ((?p + ?q) + (?r + ?s))%C = (?x + ?y)%C => replace x with (p + r)%C; [replace y with (q + s)%C; [ring|]|] end.
  - rewrite <- csum_scal_l, <- csum_plus. apply csum_ext. intros m _. rewrite <- csum_scal_l, <- csum_plus. apply csum_ext. intros l _. rewrite Rmult_plus_distr_r, RtoC_plus, Rmult_assoc, (RtoC_mult t). ring.
  - rewrite <- csum_scal_l, <- csum_plus. apply csum_ext. intros l _. rewrite Rmult_plus_distr_r, RtoC_plus, Rmult_assoc, (RtoC_mult t). ring.
Qed.
Lemma dsum_ext N a b e h v w i : (forall l m, a l m = b l m) -> dsum N a e h v w i = dsum N b e h v w i.
Proof. intros H. unfold dsum. f_equal; [apply csum_ext; intros l _; now rewrite H|]. apply csum_ext. intros m _. apply csum_ext. intros l _. now rewrite H. Qed.

(** how long the families are *)
Definition len (F : fam) (k : nat) : Prop := forall m, (length (F m) <= k)%nat.
Lemma padd_length : forall p q : list Z, length (padd p q) = Nat.max (length p) (length q).
Proof. induction p as [|a p IH]; intros q; [reflexivity|]. destruct q as [|b q]; [reflexivity|]. cbn [padd length]. now rewrite IH. Qed.
Lemma len_fcomb l k : List.Forall (fun p => len (snd p) k) l -> len (fcomb l) k.
Proof.
  intros H m. unfold fcomb. induction H as [|[c F] l H _ IH]; [cbn; lia|]. cbn [map pcomb fold_right fst snd] in *. rewrite padd_length. unfold pscale. rewrite map_length. specialize (H m). cbn [snd] in H. unfold pcomb, pscale in IH. lia.
Qed.
Lemma len_stg c l k : List.Forall (fun p => len (snd p) k) l -> len (stg c l) (S k).
Proof. intros H m. unfold stg. cbn [length]. pose proof (len_fcomb l k H m). lia. Qed.
Lemma len_fadd F G k : len F k -> len G k -> len (fadd F G) k.
Proof. intros HF HG m. unfold fadd. rewrite padd_length. specialize (HF m). specialize (HG m). lia. Qed.
Lemma len_fscale c F k : len F k -> len (fscale c F) k.
Proof. intros HF m. unfold fscale, pscale. rewrite map_length. apply HF. Qed.
Lemma len_le F j k : len F j -> Nat.leb j k = true -> len F k.
Proof. intros H E m. apply Nat.leb_le in E. specialize (H m). lia. Qed.
Local Transparent P1.
Lemma len_P1 : len P1 1. Proof. unfold P1. apply len_stg. apply Forall_nil. Qed.
Local Opaque P1.
Local Transparent P2.
Lemma len_P2 : len P2 2. Proof. unfold P2. apply len_stg. apply Forall_cons; [apply (len_le _ _ _ len_P1); reflexivity|]. apply Forall_nil. Qed.
Local Opaque P2.
Local Transparent P3.
Lemma len_P3 : len P3 3. Proof. unfold P3. apply len_stg. apply Forall_cons; [apply (len_le _ _ _ len_P1); reflexivity|]. apply Forall_cons; [apply (len_le _ _ _ len_P2); reflexivity|]. apply Forall_nil. Qed.
Local Opaque P3.
Local Transparent P4.
Lemma len_P4 : len P4 4. Proof. unfold P4. apply len_stg. apply Forall_cons; [apply (len_le _ _ _ len_P1); reflexivity|]. apply Forall_cons; [apply (len_le _ _ _ len_P3); reflexivity|]. apply Forall_nil. Qed.
Local Opaque P4.
Local Transparent P5.
Lemma len_P5 : len P5 5. Proof. unfold P5. apply len_stg. apply Forall_cons; [apply (len_le _ _ _ len_P1); reflexivity|]. apply Forall_cons; [apply (len_le _ _ _ len_P3); reflexivity|]. apply Forall_cons; [apply (len_le _ _ _ len_P4); reflexivity|]. apply Forall_nil. Qed.
Local Opaque P5.
Local Transparent P6.
Lemma len_P6 : len P6 6. Proof. unfold P6. apply len_stg. apply Forall_cons; [apply (len_le _ _ _ len_P1); reflexivity|]. apply Forall_cons; [apply (len_le _ _ _ len_P4); reflexivity|]. apply Forall_cons; [apply (len_le _ _ _ len_P5); reflexivity|]. apply Forall_nil. Qed.
Local Opaque P6.
Local Transparent P7.
Lemma len_P7 : len P7 7. Proof. unfold P7. apply len_stg. apply Forall_cons; [apply (len_le _ _ _ len_P1); reflexivity|]. apply Forall_cons; [apply (len_le _ _ _ len_P4); reflexivity|]. apply Forall_cons; [apply (len_le _ _ _ len_P5); reflexivity|]. apply Forall_cons; [apply (len_le _ _ _ len_P6); reflexivity|]. apply Forall_nil. Qed.
Local Opaque P7.
Local Transparent P8.
Lemma len_P8 : len P8 8. Proof. unfold P8. apply len_stg. apply Forall_cons; [apply (len_le _ _ _ len_P1); reflexivity|]. apply Forall_cons; [apply (len_le _ _ _ len_P4); reflexivity|]. apply Forall_cons; [apply (len_le _ _ _ len_P5); reflexivity|]. apply Forall_cons; [apply (len_le _ _ _ len_P6); reflexivity|]. apply Forall_cons; [apply (len_le _ _ _ len_P7); reflexivity|]. apply Forall_nil. Qed.
Local Opaque P8.
Local Transparent P9.
Lemma len_P9 : len P9 9. Proof. unfold P9. apply len_stg. apply Forall_cons; [apply (len_le _ _ _ len_P1); reflexivity|]. apply Forall_cons; [apply (len_le _ _ _ len_P4); reflexivity|]. apply Forall_cons; [apply (len_le _ _ _ len_P5); reflexivity|]. apply Forall_cons; [apply (len_le _ _ _ len_P6); reflexivity|]. apply Forall_cons; [apply (len_le _ _ _ len_P7); reflexivity|]. apply Forall_cons; [apply (len_le _ _ _ len_P8); reflexivity|]. apply Forall_nil. Qed.
Local Opaque P9.
Local Transparent P10.
Lemma len_P10 : len P10 10. Proof. unfold P10. apply len_stg. apply Forall_cons; [apply (len_le _ _ _ len_P1); reflexivity|]. apply Forall_cons; [apply (len_le _ _ _ len_P4); reflexivity|]. apply Forall_cons; [apply (len_le _ _ _ len_P5); reflexivity|]. apply Forall_cons; [apply (len_le _ _ _ len_P6); reflexivity|]. apply Forall_cons; [apply (len_le _ _ _ len_P7); reflexivity|]. apply Forall_cons; [apply (len_le _ _ _ len_P8); reflexivity|]. apply Forall_cons; [apply (len_le _ _ _ len_P9); reflexivity|]. apply Forall_nil. Qed.
Local Opaque P10.
Local Transparent P11.
Lemma len_P11 : len P11 11. Proof. unfold P11. apply len_stg. apply Forall_cons; [apply (len_le _ _ _ len_P1); reflexivity|]. apply Forall_cons; [apply (len_le _ _ _ len_P4); reflexivity|]. apply Forall_cons; [apply (len_le _ _ _ len_P5); reflexivity|]. apply Forall_cons; [apply (len_le _ _ _ len_P6); reflexivity|]. apply Forall_cons; [apply (len_le _ _ _ len_P7); reflexivity|]. apply Forall_cons; [apply (len_le _ _ _ len_P8); reflexivity|]. apply Forall_cons; [apply (len_le _ _ _ len_P9); reflexivity|]. apply Forall_cons; [apply (len_le _ _ _ len_P10); reflexivity|]. apply Forall_nil. Qed.
Local Opaque P11.
Local Transparent P12.
Lemma len_P12 : len P12 12. Proof. unfold P12. apply len_stg. apply Forall_cons; [apply (len_le _ _ _ len_P1); reflexivity|]. apply Forall_cons; [apply (len_le _ _ _ len_P4); reflexivity|]. apply Forall_cons; [apply (len_le _ _ _ len_P5); reflexivity|]. apply Forall_cons; [apply (len_le _ _ _ len_P6); reflexivity|]. apply Forall_cons; [apply (len_le _ _ _ len_P7); reflexivity|]. apply Forall_cons; [apply (len_le _ _ _ len_P8); reflexivity|]. apply Forall_cons; [apply (len_le _ _ _ len_P9); reflexivity|]. apply Forall_cons; [apply (len_le _ _ _ len_P10); reflexivity|]. apply Forall_cons; [apply (len_le _ _ _ len_P11); reflexivity|]. apply Forall_nil. Qed.
Local Opaque P12.
Local Transparent PB.
Lemma len_PB : len PB 12. Proof. unfold PB. apply len_fcomb. apply Forall_cons; [apply (len_le _ _ _ len_P1); reflexivity|]. apply Forall_cons; [apply (len_le _ _ _ len_P6); reflexivity|]. apply Forall_cons; [apply (len_le _ _ _ len_P7); reflexivity|]. apply Forall_cons; [apply (len_le _ _ _ len_P8); reflexivity|]. apply Forall_cons; [apply (len_le _ _ _ len_P9); reflexivity|]. apply Forall_cons; [apply (len_le _ _ _ len_P10); reflexivity|]. apply Forall_cons; [apply (len_le _ _ _ len_P11); reflexivity|]. apply Forall_cons; [apply (len_le _ _ _ len_P12); reflexivity|]. apply Forall_nil. Qed.
Local Opaque PB.
Local Transparent PY.
Lemma len_PY : len PY 13. Proof. intros m. unfold PY. cbn [length]. pose proof (len_PB m). lia. Qed.
Local Opaque PY.
Local Transparent PE.
Lemma len_PE : len PE 12. Proof. unfold PE. apply len_fadd; [exact len_PB|]. apply len_fcomb. apply Forall_cons; [apply (len_le _ _ _ len_P1); reflexivity|]. apply Forall_cons; [apply (len_le _ _ _ len_P9); reflexivity|]. apply Forall_cons; [apply (len_le _ _ _ len_P12); reflexivity|]. apply Forall_nil. Qed.
Local Opaque PE.
Local Transparent PE2.
Lemma len_PE2 : len PE2 12. Proof. unfold PE2. apply len_fcomb. apply Forall_cons; [apply (len_le _ _ _ len_P1); reflexivity|]. apply Forall_cons; [apply (len_le _ _ _ len_P6); reflexivity|]. apply Forall_cons; [apply (len_le _ _ _ len_P7); reflexivity|]. apply Forall_cons; [apply (len_le _ _ _ len_P8); reflexivity|]. apply Forall_cons; [apply (len_le _ _ _ len_P9); reflexivity|]. apply Forall_cons; [apply (len_le _ _ _ len_P10); reflexivity|]. apply Forall_cons; [apply (len_le _ _ _ len_P11); reflexivity|]. apply Forall_cons; [apply (len_le _ _ _ len_P12); reflexivity|]. apply Forall_nil. Qed.
Local Opaque PE2.
Local Transparent P14.
Lemma len_P14 : len P14 14. Proof. unfold P14. apply len_stg. apply Forall_cons; [apply (len_le _ _ _ len_P1); reflexivity|]. apply Forall_cons; [apply (len_le _ _ _ len_P7); reflexivity|]. apply Forall_cons; [apply (len_le _ _ _ len_P8); reflexivity|]. apply Forall_cons; [apply (len_le _ _ _ len_P9); reflexivity|]. apply Forall_cons; [apply (len_le _ _ _ len_P10); reflexivity|]. apply Forall_cons; [apply (len_le _ _ _ len_P11); reflexivity|]. apply Forall_cons; [apply (len_le _ _ _ len_P12); reflexivity|]. apply Forall_cons; [apply (len_le _ _ _ len_PY); reflexivity|]. apply Forall_nil. Qed.
Local Opaque P14.
Local Transparent P15.
Lemma len_P15 : len P15 15. Proof. unfold P15. apply len_stg. apply Forall_cons; [apply (len_le _ _ _ len_P1); reflexivity|]. apply Forall_cons; [apply (len_le _ _ _ len_P6); reflexivity|]. apply Forall_cons; [apply (len_le _ _ _ len_P7); reflexivity|]. apply Forall_cons; [apply (len_le _ _ _ len_P8); reflexivity|]. apply Forall_cons; [apply (len_le _ _ _ len_P11); reflexivity|]. apply Forall_cons; [apply (len_le _ _ _ len_P12); reflexivity|]. apply Forall_cons; [apply (len_le _ _ _ len_PY); reflexivity|]. apply Forall_cons; [apply (len_le _ _ _ len_P14); reflexivity|]. apply Forall_nil. Qed.
Local Opaque P15.
Local Transparent P16.
Lemma len_P16 : len P16 16. Proof. unfold P16. apply len_stg. apply Forall_cons; [apply (len_le _ _ _ len_P1); reflexivity|]. apply Forall_cons; [apply (len_le _ _ _ len_P6); reflexivity|]. apply Forall_cons; [apply (len_le _ _ _ len_P7); reflexivity|]. apply Forall_cons; [apply (len_le _ _ _ len_P8); reflexivity|]. apply Forall_cons; [apply (len_le _ _ _ len_P9); reflexivity|]. apply Forall_cons; [apply (len_le _ _ _ len_PY); reflexivity|]. apply Forall_cons; [apply (len_le _ _ _ len_P14); reflexivity|]. apply Forall_cons; [apply (len_le _ _ _ len_P15); reflexivity|]. apply Forall_nil. Qed.
Local Opaque P16.
Local Transparent PR2.
Lemma len_PR2 : len PR2 12. Proof. unfold PR2. apply len_fadd; apply len_fscale; [apply (len_le _ _ _ len_P1); reflexivity|exact len_PB]. Qed.
Local Opaque PR2.
Local Transparent PR3.
Lemma len_PR3 : len PR3 13. Proof. unfold PR3. apply len_fadd; [apply (len_le _ _ _ len_PB); reflexivity|]. apply len_fadd; apply len_fscale; [exact len_PY|apply (len_le _ _ _ len_PR2); reflexivity]. Qed.
Local Opaque PR3.
Local Transparent PR4.
Lemma len_PR4 : len PR4 16. Proof. unfold PR4. unfold prc. cbn [app combine]. apply len_fcomb. apply Forall_cons; [apply (len_le _ _ _ len_P1); reflexivity|]. apply Forall_cons; [apply (len_le _ _ _ len_P6); reflexivity|]. apply Forall_cons; [apply (len_le _ _ _ len_P7); reflexivity|]. apply Forall_cons; [apply (len_le _ _ _ len_P8); reflexivity|]. apply Forall_cons; [apply (len_le _ _ _ len_P9); reflexivity|]. apply Forall_cons; [apply (len_le _ _ _ len_P10); reflexivity|]. apply Forall_cons; [apply (len_le _ _ _ len_P11); reflexivity|]. apply Forall_cons; [apply (len_le _ _ _ len_P12); reflexivity|]. apply Forall_cons; [apply (len_le _ _ _ len_PY); reflexivity|]. apply Forall_cons; [apply (len_le _ _ _ len_P14); reflexivity|]. apply Forall_cons; [apply (len_le _ _ _ len_P15); reflexivity|]. apply Forall_cons; [apply (len_le _ _ _ len_P16); reflexivity|]. apply Forall_nil. Qed.
Local Opaque PR4.
Local Transparent PR5.
Lemma len_PR5 : len PR5 16. Proof. unfold PR5. unfold prc. cbn [app combine]. apply len_fcomb. apply Forall_cons; [apply (len_le _ _ _ len_P1); reflexivity|]. apply Forall_cons; [apply (len_le _ _ _ len_P6); reflexivity|]. apply Forall_cons; [apply (len_le _ _ _ len_P7); reflexivity|]. apply Forall_cons; [apply (len_le _ _ _ len_P8); reflexivity|]. apply Forall_cons; [apply (len_le _ _ _ len_P9); reflexivity|]. apply Forall_cons; [apply (len_le _ _ _ len_P10); reflexivity|]. apply Forall_cons; [apply (len_le _ _ _ len_P11); reflexivity|]. apply Forall_cons; [apply (len_le _ _ _ len_P12); reflexivity|]. apply Forall_cons; [apply (len_le _ _ _ len_PY); reflexivity|]. apply Forall_cons; [apply (len_le _ _ _ len_P14); reflexivity|]. apply Forall_cons; [apply (len_le _ _ _ len_P15); reflexivity|]. apply Forall_cons; [apply (len_le _ _ _ len_P16); reflexivity|]. apply Forall_nil. Qed.
Local Opaque PR5.
Local Transparent PR6.
Lemma len_PR6 : len PR6 16. Proof. unfold PR6. unfold prc. cbn [app combine]. apply len_fcomb. apply Forall_cons; [apply (len_le _ _ _ len_P1); reflexivity|]. apply Forall_cons; [apply (len_le _ _ _ len_P6); reflexivity|]. apply Forall_cons; [apply (len_le _ _ _ len_P7); reflexivity|]. apply Forall_cons; [apply (len_le _ _ _ len_P8); reflexivity|]. apply Forall_cons; [apply (len_le _ _ _ len_P9); reflexivity|]. apply Forall_cons; [apply (len_le _ _ _ len_P10); reflexivity|]. apply Forall_cons; [apply (len_le _ _ _ len_P11); reflexivity|]. apply Forall_cons; [apply (len_le _ _ _ len_P12); reflexivity|]. apply Forall_cons; [apply (len_le _ _ _ len_PY); reflexivity|]. apply Forall_cons; [apply (len_le _ _ _ len_P14); reflexivity|]. apply Forall_cons; [apply (len_le _ _ _ len_P15); reflexivity|]. apply Forall_cons; [apply (len_le _ _ _ len_P16); reflexivity|]. apply Forall_nil. Qed.
Local Opaque PR6.
Local Transparent PR7.
Lemma len_PR7 : len PR7 16. Proof. unfold PR7. unfold prc. cbn [app combine]. apply len_fcomb. apply Forall_cons; [apply (len_le _ _ _ len_P1); reflexivity|]. apply Forall_cons; [apply (len_le _ _ _ len_P6); reflexivity|]. apply Forall_cons; [apply (len_le _ _ _ len_P7); reflexivity|]. apply Forall_cons; [apply (len_le _ _ _ len_P8); reflexivity|]. apply Forall_cons; [apply (len_le _ _ _ len_P9); reflexivity|]. apply Forall_cons; [apply (len_le _ _ _ len_P10); reflexivity|]. apply Forall_cons; [apply (len_le _ _ _ len_P11); reflexivity|]. apply Forall_cons; [apply (len_le _ _ _ len_P12); reflexivity|]. apply Forall_cons; [apply (len_le _ _ _ len_PY); reflexivity|]. apply Forall_cons; [apply (len_le _ _ _ len_P14); reflexivity|]. apply Forall_cons; [apply (len_le _ _ _ len_P15); reflexivity|]. apply Forall_cons; [apply (len_le _ _ _ len_P16); reflexivity|]. apply Forall_nil. Qed.
Local Opaque PR7.

Lemma len_PRC k : (k < 7)%nat -> len (nth k PRC P1) 16.
Proof.
  intros Hk. destruct k as [|[|[|[|[|[|[|k]]]]]]]; [| | | | | | |lia]; cbn [nth PRC]; [apply (len_le _ _ _ len_PB); reflexivity|apply (len_le _ _ _ len_PR2); reflexivity|apply (len_le _ _ _ len_PR3); reflexivity|exact len_PR4|exact len_PR5|exact len_PR6|exact len_PR7].
Qed.

(*! C76: there are numbers beta, e1, e2 and functions delta on [0, 1], fixed by the method, such that every returning step (of any size, after any number of rejections) of every linear system y' = A y + sum_(m < 8) (x - x0)^m u_m with polynomial forcing returns exactly y + sum_l beta(l,0) h^(l+1) A^(l+1) y + sum_m sum_l beta(l,m) h^(l+m+1) A^l u_m, leaves the two estimates given by e1 and e2 in the same way, and with dense output interpolates by delta.  The exact solution has m!/(l+m+1)! (times t^(l+m+1)) in the place of beta (of delta): beta agrees with it to 1e-27 for all terms through order 8, delta to 1e-24 through order 7, and the estimates vanish to 1e-27 below orders 3 and 5, with leading coefficients 0.0042.. and -1.3..e-5. *)
Lemma C76_linear_systems_l : exists (beta e1 e2 : nat -> nat -> R) (delta : R -> nat -> nat -> R),
  (forall l m, (l + m <= 7)%nat -> Rabs (beta l m - INR (fact m) / INR (fact (l + m + 1))) <= / 10 ^ 27) /\ (forall l, (8 <= l <= 11)%nat -> 0 < beta l 0%nat <= / INR (fact (l + 1))) /\
  (forall t l m, 0 <= t <= 1 -> (l + m <= 6)%nat -> Rabs (delta t l m - t ^ (l + m + 1) * INR (fact m) / INR (fact (l + m + 1))) <= / 10 ^ 24) /\ (forall t l, 0 <= t <= 1 -> (7 <= l <= 15)%nat -> Rabs (delta t l 0%nat) <= / 100) /\
  (forall l m, (l + m < 3)%nat -> Rabs (e1 l m) <= / 10 ^ 27) /\ 0.0042 <= e1 3%nat 0%nat <= 0.0043 /\ (forall l, (4 <= l < 12)%nat -> Rabs (e1 l 0%nat) <= 0.002) /\
  (forall l m, (l + m < 5)%nat -> Rabs (e2 l m) <= / 10 ^ 27) /\ 0.000013 <= - e2 5%nat 0%nat <= 0.000014 /\ (forall l, (6 <= l < 12)%nat -> Rabs (e2 l 0%nat) <= 0.0000003) /\
  forall (W : Type) (f : R -> list C -> M W (list C)) (n : nat) (A v : nat -> nat -> C) (w : nat -> nat -> nat -> C) (fuel : nat) (htry : R) (g g' : G W),
  let s := g_s g in let s' := g_s g' in let h := p_hdid s' in
  let series (N : nat) (c : nat -> nat -> R) (e i : nat) := (csum N (fun l => RtoC (c l 0%nat * h ^ (l + e)) * v (S l) i) + csum 8 (fun m => csum N (fun l => RtoC (c l m * h ^ (l + m + e)) * w m l i)))%C in
  (forall x y st, exists d st', f x y st = (Ok d, st') /\ forall i, (i < n)%nat -> nth i d z0 = (csum n (fun j => A i j * nth j y z0) + csum 8 (fun m => RtoC ((x - p_x s) ^ m) * w m 0%nat i))%C) ->
  (forall k i, (i < n)%nat -> v (S k) i = csum n (fun j => A i j * v k j)%C) -> (forall m k i, (i < n)%nat -> w m (S k) i = csum n (fun j => A i j * w m k j)%C) ->
  length (p_y s) = n -> (forall i, (i < n)%nat -> nth i (p_y s) z0 = v 0%nat i /\ nth i (p_dydx s) z0 = (v 1%nat i + w 0%nat 0%nat i)%C) ->
  step f fuel htry g = (Ok tt, g') -> forall i, (i < n)%nat ->
    nth i (p_y s') z0 = (v 0%nat i + series 12%nat beta 1%nat i)%C /\
    nth i (p_yerr s') z0 = series 12%nat e1 0%nat i /\ nth i (p_yerr2 s') z0 = series 12%nat e2 0%nat i /\
    (p_dense s = true -> htry <> 0 -> forall t, nth i (dense_out s' (p_x s + t * h) h) z0 = (v 0%nat i + series 16%nat (delta t) 1%nat i)%C).
Proof.
  exists (coef PB), (coef PE), (coef PE2), delta.
  split; [apply beta_close|]. split; [apply beta_tail|]. split; [apply delta_close|]. split; [apply delta_tail|]. split; [apply eps1_small|]. split; [apply eps1_lead|]. split; [apply eps1_tail|]. split; [apply eps2_small|]. split; [apply eps2_lead|]. split; [apply eps2_tail|].
  intros W f n A v w fuel htry g g' s s' h series Hf Hv Hw L Hs E i Hi. assert (St : start n v w (p_x s) s) by (split; [reflexivity|]; split; [exact L|]; split; intros k Hk; apply (Hs k Hk)).
  assert (SE : forall N c e j, series N c e j = dsum N c e h v w j) by reflexivity. clearbody series.
  destruct (step_ev n A v w Hv Hw f (p_x s) Hf fuel htry g g' St E) as (KY & KE & KE2 & RC). fold s s' in KY, KE, KE2, RC. fold h in KY, KE, KE2, RC. rewrite !SE.
  split; [|split; [|split]].
  - rewrite (KY i Hi), (hval_sum v w h PB 12 i len_PB). reflexivity.
  - rewrite (KE i Hi). apply val_sum, len_PE.
  - rewrite (KE2 i Hi). apply val_sum, len_PE2.
  - intros Hd Hh t. rewrite SE. destruct (RC Hd) as (_ & R0 & RC'). clear RC. pose proof (step_spec f fuel htry g) as Sp. rewrite E in Sp. destruct Sp as (_ & _ & (u & Hu & Hdid) & _ & Xo & _ & _ & Ly & _). fold s s' in Hdid, Xo, Ly. fold h in Hdid.
    assert (Hne : h <> 0) by (rewrite Hdid; apply Rmult_integral_contrapositive; split; lra).
    unfold dense_out. cbv zeta. rewrite mk_nth by (rewrite Ly, L; exact Hi). rewrite Xo. replace ((p_x s + t * h - p_x s) / h) with t by (field; exact Hne).
    assert (R8 : forall k, (k < 7)%nat -> nth i (nth (S k) (p_rc s') []) z0 = dsum 16 (coef (nth k PRC P1)) 1 h v w i).
    { intros k Hk. rewrite (RC' k Hk i Hi). apply hval_sum. exact (len_PRC k Hk). }
    rewrite (R0 i Hi), !R8 by lia. cbn [nth PRC]. rewrite !dsum_lin. f_equal. match goal with |- (RtoC ?a * dsum ?N ?b ?e ?h ?v ?w ?i)%C = _ => transitivity (dsum N (fun l m => a * b l m) e h v w i) end.
    + unfold dsum. rewrite Cmult_plus_distr_l, <- !csum_scal_l. f_equal; apply csum_ext; intros l _; [rewrite Rmult_assoc, (RtoC_mult t); ring|]. rewrite <- csum_scal_l. apply csum_ext. intros k _. rewrite Rmult_assoc, (RtoC_mult t). ring.
    + apply dsum_ext. intros l m. unfold delta, coef, RC, PRC, dpoly. cbn [map nth]. cbv zeta. cbn [pe]. repeat first [rewrite pe_pt1 | rewrite pe_pt]. cbn [pe]. unfold Rdiv. ring.
Qed.

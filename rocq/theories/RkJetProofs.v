(** The expansion of a Runge-Kutta step in the interaction picture, and of the Richardson combination of one step of length 2h and two of length h, against the expansion of the exact solution. *)
From Coq Require Import Reals List ZArith Bool Arith Lra Lia Psatz FunctionalExtensionality.
From Coquelicot Require Import Coquelicot.
From Verif Require Import CNum SSFMGnlseProofs JetProofs.
Import ListNotations.
Local Open Scope R_scope.

(** ** Jets: coefficients of the rows of order 0 to 5 *)
Fixpoint jadd (X Y : list (list Z)) : list (list Z) := match X, Y with p :: X, q :: Y => zadd p q :: jadd X Y | _, _ => [] end.
Definition jscale (z : Z) (X : list (list Z)) : list (list Z) := map (map (Z.mul z)) X.
Definition zr : list (list Z) := Eval vm_compute in tab (fun z => z) (fun _ _ => 0%Z) 0%Z 5.
Definition zblk : list (list Z) := Eval vm_compute in map (nblk (fun _ _ => 0%Z) (vrow (fun i => nth i zr []))) [0; 1; 2; 3; 4]%nat.
Definition zN (k : nat) (l : list Z) : Z := (1 * prodZ l)%Z.
(** u D x and u N y *)
Definition jD (X : list (list Z)) : list (list Z) := [0%Z] :: map (fun n => nth n X [] ++ nth n zblk []) [0; 1; 2; 3; 4]%nat.
Definition jN (Y : list (list Z)) : list (list Z) := [0%Z] :: map (fun n => nth n zr [] ++ nblk zN (vrow (fun i => nth i Y [])) n) [0; 1; 2; 3; 4]%nat.
Fixpoint jE (cs : list Z) (X : list (list Z)) : list (list Z) := match cs with [] => jscale 0 X | c :: cs => jadd (jscale c X) (jE cs (jD X)) end.
Definition jA : list (list Z) := [1%Z] :: List.tl zr.
(** the coefficients of exp of half a step, for steps 120 u and 240 u *)
Definition e60 : list Z := [1; 60; 1800; 36000; 540000; 6480000]%Z.
Definition e120 : list Z := [1; 120; 7200; 288000; 8640000; 207360000]%Z.
Definition jrk (h : Z) (e : list Z) (X : list (list Z)) : list (list Z) :=
  let AI := jE e X in
  let g1 := jN X in
  let g2 := jN (jadd AI (jE e (jscale (h / 2) g1))) in
  let g3 := jN (jadd AI (jscale (h / 2) g2)) in
  let g4 := jN (jE e (jadd AI (jscale h g3))) in
  jadd (jE e (jadd (jadd (jadd AI (jE e (jscale (h / 6) g1))) (jscale (h / 3) g2)) (jscale (h / 3) g3))) (jscale (h / 6) g4).
(** the exact solution of y' = s (D y + N y) *)
Definition jnext (s : Z) (n : nat) (Y : list (list Z)) : list Z := map (fun z => (s * z / Z.of_nat (S n))%Z) (zadd (nth (S n) (jD Y) []) (nth (S n) (jN Y) [])).
Fixpoint jsol (s : Z) (m : nat) : list (list Z) := match m with O => [[1%Z]] | S m => let Y := jsol s m in Y ++ [jnext s m Y] end.
Definition Y120 : list (list Z) := Eval vm_compute in jsol 120 5.
Definition Y240 : list (list Z) := Eval vm_compute in jsol 240 5.
Definition zeqb (p q : list Z) : bool := if list_eq_dec Z.eq_dec p q then true else false.
Definition C1 : list (list Z) := Eval vm_compute in jrk 120 e60 jA.
Definition C2 : list (list Z) := Eval vm_compute in jrk 120 e60 C1.
Definition C3 : list (list Z) := Eval vm_compute in jrk 240 e120 jA.
Lemma C1_eq : C1 = jrk 120 e60 jA. Proof. vm_compute. reflexivity. Qed.
Lemma C2_eq : C2 = jrk 120 e60 C1. Proof. vm_compute. reflexivity. Qed.
Lemma C3_eq : C3 = jrk 240 e120 jA. Proof. vm_compute. reflexivity. Qed.
(** one step agrees with the solution to order 4, the Richardson combination to order 5 *)
Lemma step_jet : map (fun n => nth n C1 []) [0; 1; 2; 3; 4]%nat = map (fun n => nth n Y120 []) [0; 1; 2; 3; 4]%nat.
Proof. vm_compute. reflexivity. Qed.
Lemma rich_jet : jadd (jscale 16 C2) (jscale (-1) C3) = jscale 15 Y240.
Proof. vm_compute. reflexivity. Qed.
Lemma est_jet : map (fun n => nth n C2 []) [0; 1; 2; 3; 4]%nat = map (fun n => nth n C3 []) [0; 1; 2; 3; 4]%nat.
Proof. vm_compute. reflexivity. Qed.
Definition sol_rel (s : Z) (Y : list (list Z)) : Prop :=
  map (fun n => map (Z.mul (Z.of_nat (S n))) (nth (S n) Y [])) [0; 1; 2; 3; 4]%nat = map (fun n => map (Z.mul s) (zadd (nth (S n) (jD Y) []) (nth (S n) (jN Y) []))) [0; 1; 2; 3; 4]%nat.
Lemma sol120 : sol_rel 120 Y120. Proof. vm_compute. reflexivity. Qed.
Lemma sol240 : sol_rel 240 Y240. Proof. vm_compute. reflexivity. Qed.
Lemma zr_eq : zr = tab (fun z => z) (fun _ _ => 0%Z) 0%Z 5. Proof. vm_compute. reflexivity. Qed.
Lemma zblk_eq : zblk = map (nblk (fun _ _ => 0%Z) (vrow (fun i => nth i zr []))) [0; 1; 2; 3; 4]%nat. Proof. vm_compute. reflexivity. Qed.
Lemma map_in {A B} (f g : A -> B) l : map f l = map g l -> forall a, In a l -> f a = g a.
Proof. induction l as [|x l IH]; intros E a H; [destruct H|]. injection E as E1 E2. destruct H as [<-|H]; [exact E1|now apply IH]. Qed.
Lemma five n : (n < 5)%nat -> In n [0; 1; 2; 3; 4]%nat.
Proof. intros H. do 5 (destruct n as [|n]; [cbn; tauto|]). lia. Qed.
Lemma nth_map5 {A} (f : nat -> list A) n : (n < 5)%nat -> nth n (map f [0; 1; 2; 3; 4]%nat) [] = f n.
Proof. intros H. do 5 (destruct n as [|n]; [reflexivity|]). lia. Qed.
Lemma jadd_nth X : forall Y n, length X = length Y -> nth n (jadd X Y) [] = zadd (nth n X []) (nth n Y []).
Proof. induction X as [|p X IH]; intros [|q Y] [|n] H; try discriminate; try reflexivity. cbn [jadd nth]. apply IH. cbn in H. lia. Qed.
Lemma jadd_length X : forall Y, length X = length Y -> length (jadd X Y) = length X.
Proof. induction X as [|p X IH]; intros [|q Y] H; try discriminate; [reflexivity|]. cbn in *. rewrite IH; lia. Qed.
Lemma jscale_nth z X n : nth n (jscale z X) [] = map (Z.mul z) (nth n X []).
Proof. unfold jscale. change (@nil Z) with (map (Z.mul z) []) at 1. apply map_nth. Qed.
Lemma zrow_zero n : forall a, In a (row (fun z => z) (fun _ _ => 0%Z) 0%Z n) -> a = 0%Z.
Proof.
  induction n as [|n IH]; intros a H; [destruct H as [<-|[]]; reflexivity|]. rewrite row_S in H. apply in_app_or in H as [H|H]; [rewrite map_id in H; now apply IH|].
  apply nblk_in in H as (k & l & _ & _ & E & _). exact E.
Qed.

(** ** Integrating an expansion *)
Lemma psum_csum m : forall c u k, psum m c u k = csum m (fun j => RtoC (u ^ j) * c j k)%C.
Proof.
  induction m as [|m IH]; intros c u k; [reflexivity|]. cbn [psum]. unfold vp, vs. rewrite IH. change (S m) with (1 + m)%nat. rewrite csum_add, <- csum_scal_l. f_equal.
  - rewrite csum_S, csum_0. cbn [pow]. ring.
  - apply csum_ext. intros i _. unfold tl. cbn [pow Nat.add]. rewrite RtoC_mult. ring.
Qed.
Lemma psum_der m s a c u k : is_cderive (fun t => psum (S m) (cons0 a (fun n => vs (s / INR (S n)) (c n))) t k) u (RtoC s * psum m c u k)%C.
Proof.
  apply (cderive_ext (fun t => a k + csum m (fun j => RtoC (t ^ S j) * (RtoC (s / INR (S j)) * c j k)))%C).
  - intros t. rewrite psum_csum. change (S m) with (1 + m)%nat. rewrite csum_add. f_equal. rewrite csum_S, csum_0. cbn [pow cons0]. ring.
  - replace (RtoC s * psum m c u k)%C with (RtoC 0 + csum m (fun j => RtoC (u ^ j) * (RtoC s * c j k)))%C.
    2:{ rewrite psum_csum, <- csum_scal_l, Cplus_0_l. apply csum_ext. intros. ring. }
    apply cderive_plus; [split; cbn; apply (is_derive_const (K := R_AbsRing) (V := R_NormedModule))|]. apply cderive_csum. intros j _. pose proof (not_0_INR (S j) ltac:(lia)) as NZ.
    split.
    + apply (is_derive_ext (fun t => t ^ S j * (s / INR (S j) * Re (c j k)))); [intros t; unfold Re; cbn; ring|].
      auto_derive; [trivial|]. change (Init.Nat.pred (S j)) with j. replace (Re (RtoC (u ^ j) * (RtoC s * c j k))%C) with (u ^ j * (s * Re (c j k))) by (unfold Re; cbn; ring). field. exact NZ.
    + apply (is_derive_ext (fun t => t ^ S j * (s / INR (S j) * Im (c j k)))); [intros t; unfold Im; cbn; ring|].
      auto_derive; [trivial|]. change (Init.Nat.pred (S j)) with j. replace (Im (RtoC (u ^ j) * (RtoC s * c j k))%C) with (u ^ j * (s * Im (c j k))) by (unfold Im; cbn; ring). field. exact NZ.
Qed.
Lemma Re_le_Cmod z : Rabs (Re z) <= Cmod z. Proof. eapply Rle_trans; [apply Rmax_l|apply Rmax_Cmod]. Qed.
Lemma Im_le_Cmod z : Rabs (Im z) <= Cmod z. Proof. eapply Rle_trans; [apply Rmax_r|apply Rmax_Cmod]. Qed.
Lemma Cmod_le_sum z : Cmod z <= Rabs (Re z) + Rabs (Im z).
Proof.
  apply Rsqr_incr_0; [|apply Cmod_ge_0|pose proof (Rabs_pos (Re z)); pose proof (Rabs_pos (Im z)); lra]. unfold Rsqr. rewrite Cmod_sqr. unfold Cnorm2. pose proof (Rabs_pos (Re z)). pose proof (Rabs_pos (Im z)).
  rewrite <- (Rabs_pos_eq (Re z * Re z)), <- (Rabs_pos_eq (Im z * Im z)), !Rabs_mult by nra. nra.
Qed.
Lemma mvt_bound f df u M : 0 < u -> (forall t, 0 <= t <= u -> is_derive f t (df t)) -> (forall t, 0 <= t <= u -> Rabs (df t) <= M) -> Rabs (f u - f 0) <= M * u.
Proof.
  intros Hu D B. destruct (MVT_gen f 0 u df) as (x & Hx & E).
  - intros t Ht. rewrite Rmin_left, Rmax_right in Ht by lra. apply D. lra.
  - intros t Ht. rewrite Rmin_left, Rmax_right in Ht by lra. apply derivable_continuous_pt. exists (df t). apply is_derive_Reals, D. exact Ht.
  - rewrite Rmin_left, Rmax_right in Hx by lra. rewrite E, Rminus_0_r, Rabs_mult, (Rabs_pos_eq u) by lra. apply Rmult_le_compat_r; [lra|]. now apply B.
Qed.
Lemma cmvt_bound f df u M : 0 < u -> (forall t, 0 <= t <= u -> is_cderive f t (df t)) -> (forall t, 0 <= t <= u -> Cmod (df t) <= M) -> Cmod (f u - f 0)%C <= 2 * (M * u).
Proof.
  intros Hu D B. eapply Rle_trans; [apply Cmod_le_sum|].
  assert (Rabs (Re (f u - f 0)%C) <= M * u). { apply (mvt_bound (fun t => Re (f t)) (fun t => Re (df t))); [exact Hu|intros t Ht; apply D, Ht|intros t Ht; eapply Rle_trans; [apply Re_le_Cmod|now apply B]]. }
  assert (Rabs (Im (f u - f 0)%C) <= M * u). { apply (mvt_bound (fun t => Im (f t)) (fun t => Im (df t))); [exact Hu|intros t Ht; apply D, Ht|intros t Ht; eapply Rle_trans; [apply Im_le_Cmod|now apply B]]. }
  lra.
Qed.
Lemma cderive_minus f g t l m : is_cderive f t l -> is_cderive g t m -> is_cderive (fun x => f x - g x)%C t (l - m)%C.
Proof. intros [A B] [A' B']. split; [apply (is_derive_minus (K := R_AbsRing) (V := R_NormedModule) _ _ _ _ _ A A')|apply (is_derive_minus (K := R_AbsRing) (V := R_NormedModule) _ _ _ _ _ B B')]. Qed.
Lemma app_integral m s c F y : near (fun u => forall k, is_cderive (fun t => y t k) u (RtoC s * F u k)%C) -> app m c F -> app (S m) (cons0 (y 0) (fun n => vs (s / INR (S n)) (c n))) y.
Proof.
  intros HD HF. destruct (app_sum m c F HF) as (r & (B & HB) & Er). set (c' := cons0 (y 0) (fun n => vs (s / INR (S n)) (c n))).
  destruct (near_and _ _ HD (near_and _ _ HB Er)) as (U & PU & HU).
  set (g := fun u => vp (y u) (vs (-1) (psum (S m) c' u))).
  assert (G : forall u, 0 < u <= U -> bnd (g u) (2 * Rabs s * B * u ^ S m)).
  { intros u Hu k. assert (PB : 0 <= B) by (apply (bnd_ge (r u)); apply HU; lra).
    assert (E0 : (y 0 k - psum (S m) c' 0 k)%C = RtoC 0). { unfold c'. cbn [psum]. unfold vp, vs. cbn [cons0]. ring. }
    replace (g u k) with ((y u k - psum (S m) c' u k) - (y 0 k - psum (S m) c' 0 k))%C by (rewrite E0; unfold g, vp, vs; rewrite RtoC_m1; ring).
    apply Rle_trans with (2 * (Rabs s * (u ^ m * B) * u)); [|right; cbn [pow]; ring].
    apply (cmvt_bound (fun t => y t k - psum (S m) c' t k)%C (fun t => RtoC s * (RtoC (t ^ m) * r t k))%C); [lra| |].
    - intros t Ht. destruct (HU t ltac:(lra)) as (D1 & _ & E1). replace (RtoC s * (RtoC (t ^ m) * r t k))%C with (RtoC s * F t k - RtoC s * psum m c t k)%C by (rewrite E1; unfold vp, vs; ring).
      apply cderive_minus; [apply D1|apply psum_der].
    - intros t Ht. destruct (HU t ltac:(lra)) as (_ & B1 & _). rewrite !Cmod_mult, !Cmod_R. apply Rmult_le_compat_l; [apply Rabs_pos|]. rewrite Rabs_pos_eq by (apply pow_le; lra).
      apply Rmult_le_compat; [apply pow_le; lra|apply Cmod_ge_0|apply pow_incr; lra|apply B1]. }
  set (r' := fun u => if Req_EM_T u 0 then v0 else vs (/ u ^ S m) (g u)).
  apply (app_ext (S m) c' c' (fun u => vp (psum (S m) c' u) (vs (u ^ S m) (r' u))) y); [reflexivity| |].
  - apply near_all. intros u Hu. unfold r'. destruct (Req_EM_T u 0) as [->|NZ].
    + unfold c'. cbn [psum]. cbn [cons0]. vext.
    + rewrite vs_vs, Rinv_r, vs_1 by (apply pow_nonzero; exact NZ). unfold g. vext.
  - apply app_of_sum. exists (2 * Rabs s * B). exists U. split; [exact PU|]. intros u Hu. assert (PB : 0 <= B) by (apply (bnd_ge (r u)); apply HU; lra). pose proof (Rabs_pos s) as Ps.
    assert (P2 : 0 <= 2 * Rabs s * B) by nra. unfold r'. destruct (Req_EM_T u 0) as [_|NZ]; [now apply bnd_v0|]. assert (Pu : 0 < u ^ S m) by (apply pow_lt; lra).
    eapply bnd_le; [apply bnd_vs, G; lra|]. rewrite Rabs_pos_eq by (left; now apply Rinv_0_lt_compat). right. field. lra.
Qed.
Lemma near_scale a P : 0 < a -> near (fun u => P (a * u)) -> near P.
Proof.
  intros Ha (U & PU & H). exists (a * U). split; [now apply Rmult_lt_0_compat|]. intros h Hh. replace h with (a * (h / a)) by (field; lra). apply H. split; [apply Rmult_le_pos; [lra|left; now apply Rinv_0_lt_compat]|].
  apply (Rmult_le_reg_l a); [exact Ha|]. replace (a * (h / a)) with h by (field; lra). lra.
Qed.
Lemma near_unscale a P : 0 < a -> near P -> near (fun u => P (a * u)).
Proof.
  intros Ha (U & PU & H). exists (U / a). split; [now apply Rdiv_lt_0_compat|]. intros u Hu. apply H. split; [apply Rmult_le_pos; lra|]. apply Rle_trans with (a * (U / a)); [apply Rmult_le_compat_l; lra|right; field; lra].
Qed.
Lemma cderive_scale f a t l : is_cderive f (a * t) l -> is_cderive (fun x => f (a * x)) t (RtoC a * l)%C.
Proof.
  intros [H1 H2]. split.
  - replace (Re (RtoC a * l)%C) with (a * Re l) by (unfold Re; cbn; ring). apply (is_derive_comp (fun x => Re (f x)) (fun x => a * x) t _ a H1). auto_derive; [trivial|ring].
  - replace (Im (RtoC a * l)%C) with (a * Im l) by (unfold Im; cbn; ring). apply (is_derive_comp (fun x => Im (f x)) (fun x => a * x) t _ a H2). auto_derive; [trivial|ring].
Qed.

Section Step.
Variables (D N : V -> V) (Nm : nat -> list V -> V) (A : V) (E : R -> V -> V).
Hypothesis HD : linear D.
Hypothesis HN : taylor A N Nm.
Hypothesis HA : exists B, bnd A B.
Definition texp (t : R) (x : V) : V :=
  vp x (vp (vs t (D x)) (vp (vs (t ^ 2 / 2) (D (D x))) (vp (vs (t ^ 3 / 6) (D (D (D x)))) (vp (vs (t ^ 4 / 24) (D (D (D (D x))))) (vs (t ^ 5 / 120) (D (D (D (D (D x)))))))))).
Hypothesis HEh : forall t r x, E t (vs r x) = vs r (E t x).
Hypothesis HE : forall (q : R) (x : R -> V), bounded x -> exists r, bounded r /\ near (fun u => E (q * u) (x u) = vp (texp (q * u) (x u)) (vs (u ^ 6) (r u))).

Let rows : nat -> list V := row D Nm A.
Lemma rows_bnd n : forall v, In v (rows n) -> exists B, bnd v B.
Proof.
  induction n as [n IH] using lt_wf_ind. intros v H. destruct n as [|n]; [destruct H as [<-|[]]; exact HA|]. unfold rows in H. rewrite row_S in H. apply in_app_or in H as [H|H].
  - apply in_map_iff in H as (w & <- & Hw). destruct (IH n ltac:(lia) w Hw) as [B HB]. destruct HD as (_ & _ & M & _ & HM). exists (M * B). now apply HM.
  - apply nblk_in in H as (k & l & Hk & El & -> & Hl). destruct HN as (ML & _). destruct (ML k Hk) as (_ & _ & M & _ & HM).
    assert (G : exists Bs, Forall2 bnd l Bs).
    { clear El. induction l as [|a l IHl]; [exists []; constructor|]. destruct IHl as (Bs & HBs); [intros; apply Hl; now right|]. destruct (Hl a (or_introl eq_refl)) as (i & Hi & Hai).
      destruct i as [|i]; [destruct Hai|]. destruct (IH (S i) ltac:(lia) a Hai) as [B HB]. exists (B :: Bs). now constructor. }
    destruct G as (Bs & HBs). exists (M * prodR Bs). now apply HM.
Qed.
Lemma ev_bnd p : forall P, (forall v, In v P -> exists B, bnd v B) -> exists B, bnd (ev p P) B.
Proof.
  induction p as [|z p IH]; intros [|v P] H; try (exists 0; apply bnd_v0; lra). destruct (IH P ltac:(intros; apply H; now right)) as [B HB]. destruct (H v (or_introl eq_refl)) as [B' HB'].
  exists (Rabs (IZR z) * B' + B). cbn [ev]. apply bnd_vp; [now apply bnd_vs|exact HB].
Qed.
Definition evJ (X : list (list Z)) (n : nat) : V := ev (nth n X []) (rows n).
Lemma evJ_bco X : bco (evJ X). Proof. intros n. apply ev_bnd. apply rows_bnd. Qed.
Definition shape (X : list (list Z)) : Prop := length X = 6%nat /\ forall n, (n < 6)%nat -> length (nth n X []) = length (rows n).
Lemma zr_shape : shape zr.
Proof. rewrite zr_eq. split; [apply tab_length|]. intros n Hn. rewrite tab_row by lia. apply row_len. Qed.
Lemma zr_row n : (n < 6)%nat -> nth n zr [] = row (fun z => z) (fun _ _ => 0%Z) 0%Z n.
Proof. intros Hn. rewrite zr_eq. apply tab_row. lia. Qed.
Lemma ev_zr n : (n < 6)%nat -> forall P, ev (nth n zr []) P = v0.
Proof. intros Hn P. apply ev_zeros. rewrite zr_row by exact Hn. apply zrow_zero. Qed.
Lemma zblk_len n : (n < 5)%nat -> length (nth n zblk []) = length (nblk Nm (vrow rows) n).
Proof. intros Hn. rewrite zblk_eq, nth_map5 by exact Hn. apply nblk_len, vrow_len. intros i Hi. apply zr_shape. lia. Qed.
Lemma zblk_zero n : (n < 5)%nat -> forall P, ev (nth n zblk []) P = v0.
Proof. intros Hn P. apply ev_zeros. rewrite zblk_eq, nth_map5 by exact Hn. intros a H. apply nblk_in in H as (k & l & _ & _ & Ea & _). exact Ea. Qed.
Lemma jadd_shape X Y : shape X -> shape Y -> shape (jadd X Y).
Proof.
  intros [L1 H1] [L2 H2]. split; [rewrite jadd_length; congruence|]. intros n Hn. rewrite jadd_nth by congruence. rewrite zadd_length; [now apply H1|]. now rewrite H1, H2.
Qed.
Lemma jscale_shape z X : shape X -> shape (jscale z X).
Proof. intros [L H]. split; [unfold jscale; now rewrite map_length|]. intros n Hn. rewrite jscale_nth, map_length. now apply H. Qed.
Lemma jD_nth X n : (n < 5)%nat -> nth (S n) (jD X) [] = nth n X [] ++ nth n zblk [].
Proof. intros Hn. unfold jD. cbn [nth]. now rewrite nth_map5. Qed.
Lemma jN_nth X n : (n < 5)%nat -> nth (S n) (jN X) [] = nth n zr [] ++ nblk zN (vrow (fun i => nth i X [])) n.
Proof. intros Hn. unfold jN. cbn [nth]. now rewrite nth_map5. Qed.
Lemma jD_shape X : shape X -> shape (jD X).
Proof.
  intros [L H]. split; [reflexivity|]. intros [|n] Hn; [reflexivity|]. rewrite jD_nth, app_length, zblk_len, H by lia. unfold rows. rewrite row_S, app_length, map_length. reflexivity.
Qed.
Lemma jN_shape X : shape X -> shape (jN X).
Proof.
  intros [L H]. split; [reflexivity|]. intros [|n] Hn; [reflexivity|]. rewrite jN_nth, app_length by lia. unfold rows. rewrite row_S, app_length, map_length. f_equal; [apply zr_shape; lia|].
  apply nblk_len, vrow_len. intros i Hi. apply H. lia.
Qed.
Lemma evJ_D X n : shape X -> (n < 5)%nat -> evJ (jD X) (S n) = D (evJ X n).
Proof.
  intros [L H] Hn. unfold evJ. rewrite jD_nth by exact Hn. unfold rows. rewrite row_S. rewrite ev_app by (rewrite map_length; apply H; lia). rewrite zblk_zero, vp_0_r by exact Hn. apply ev_lin, HD.
Qed.
Lemma evJ_N X n : shape X -> (n < 5)%nat -> evJ (jN X) (S n) = ncoef Nm (cons0 v0 (tl (evJ X))) n.
Proof.
  intros [L H] Hn. unfold evJ at 1. rewrite jN_nth by exact Hn. unfold rows. rewrite row_S. rewrite ev_app by (rewrite map_length; apply zr_shape; lia). rewrite ev_zr, vp_0_l by lia.
  assert (LT : forall i, (i <= n)%nat -> length (vrow (fun i => nth i X []) i) = length (vrow rows i)) by (apply vrow_len; intros i Hi; apply H; lia).
  assert (CV : (fun i => ev (vrow (fun i => nth i X []) i) (vrow rows i)) = cons0 v0 (tl (evJ X))) by (apply functional_extensionality; intros [|i]; reflexivity).
  unfold nblk, ncoef. unfold zN. destruct HN as (ML & _).
  rewrite !ev_app by (apply mcv_len; exact LT). rewrite !ev_mcv by (first [exact LT|apply mlin_alin, ML; lia]). fold rows. rewrite CV, !vs_1. reflexivity.
Qed.

Definition approx (x : R -> V) (X : list (list Z)) : Prop := shape X /\ app 6 (evJ X) x.
Lemma approx_ext x y X : near (fun u => x u = y u) -> approx x X -> approx y X.
Proof. intros Hn [S H]. split; [exact S|]. eapply app_ext; [|exact Hn|exact H]. reflexivity. Qed.
Lemma approx_add x y X Y : approx x X -> approx y Y -> approx (fun u => vp (x u) (y u)) (jadd X Y).
Proof.
  intros [S1 H1] [S2 H2]. split; [now apply jadd_shape|]. eapply app_ext; [|apply near_all; reflexivity|exact (app_plus 6 _ _ _ _ H1 H2)]. intros n Hn. cbn beta. unfold evJ.
  pose proof S1 as [L1 Q1]. pose proof S2 as [L2 Q2]. rewrite jadd_nth by congruence. symmetry. apply ev_add. now rewrite Q1, Q2.
Qed.
Lemma approx_scale z x X : approx x X -> approx (fun u => vs (IZR z) (x u)) (jscale z X).
Proof.
  intros [S1 H1]. split; [now apply jscale_shape|]. eapply app_ext; [|apply near_all; reflexivity|exact (app_scale 6 (IZR z) _ _ H1)]. intros n Hn. cbn beta. unfold evJ. rewrite jscale_nth. symmetry. apply ev_scale.
Qed.
Lemma evJ_0 X : nth 0 X [] = [0%Z] -> evJ X 0 = v0.
Proof. intros H. unfold evJ. rewrite H. unfold rows. cbn. vext. Qed.
Lemma evJ_1 X : nth 0 X [] = [1%Z] -> evJ X 0 = A.
Proof. intros H. unfold evJ. rewrite H. unfold rows. cbn. vext. Qed.
Lemma approx_D x X : approx x X -> approx (fun u => vs u (D (x u))) (jD X).
Proof.
  intros [S H]. split; [now apply jD_shape|]. apply app_trunc in H; [|apply evJ_bco]. eapply app_ext; [|apply near_all; reflexivity|exact (app_shift 5 _ _ (app_lin D 5 HD _ _ H))].
  intros [|n] Hn; cbn [cons0]; [symmetry; apply evJ_0; reflexivity|]. symmetry. apply evJ_D; [exact S|lia].
Qed.
Lemma approx_N x X : approx x X -> nth 0 X [] = [1%Z] -> approx (fun u => vs u (N (x u))) (jN X).
Proof.
  intros [S H] H1. split; [now apply jN_shape|]. apply app_trunc in H; [|apply evJ_bco].
  pose proof (app_taylor A N Nm 5 _ _ HN ltac:(lia) (evJ_bco X) (evJ_1 X H1) H) as T. eapply app_ext; [|apply near_all; reflexivity|exact (app_shift 5 _ _ T)].
  intros [|n] Hn; cbn [cons0]; [symmetry; apply evJ_0; reflexivity|]. symmetry. apply evJ_N; [exact S|lia].
Qed.
Lemma jA_shape : shape jA.
Proof. destruct zr_shape as [L H]. split; [reflexivity|]. intros [|n] Hn; [reflexivity|]. apply (H (Datatypes.S n) Hn). Qed.
Lemma approx_A : approx (fun _ => A) jA.
Proof.
  split; [exact jA_shape|]. destruct HA as [B HB]. eapply app_ext; [|apply near_all; reflexivity|exact (app_const 6 A B HB)]. intros [|n] Hn; cbn [cons0]; [symmetry; apply evJ_1; reflexivity|].
  symmetry. unfold evJ. change (nth (Datatypes.S n) jA []) with (nth (Datatypes.S n) zr []). apply ev_zr. exact Hn.
Qed.

Fixpoint esum (cs : list Z) (x : R -> V) (u : R) : V := match cs with [] => vs 0 (x u) | c :: cs => vp (vs (IZR c) (x u)) (esum cs (fun u => vs u (D (x u))) u) end.
Lemma approx_esum cs : forall x X, approx x X -> approx (esum cs x) (jE cs X).
Proof. induction cs as [|c cs IH]; intros x X H; [exact (approx_scale 0 x X H)|]. exact (approx_add _ _ _ _ (approx_scale c x X H) (IH _ _ (approx_D x X H))). Qed.
Definition good_e (q : R) (e : list Z) : Prop := map IZR e = [1; q; q ^ 2 / 2; q ^ 3 / 6; q ^ 4 / 24; q ^ 5 / 120].
Lemma good60 : good_e 60 e60. Proof. unfold good_e, e60. cbn [map]. repeat f_equal; lra. Qed.
Lemma good120 : good_e 120 e120. Proof. unfold good_e, e120. cbn [map]. repeat f_equal; lra. Qed.
Lemma approx_E q e x X : good_e q e -> approx x X -> approx (fun u => E (q * u) (x u)) (jE e X).
Proof.
  intros G H. destruct (HE q x) as (r & Hr & Er); [destruct H as [_ H]; eapply app_bounded; [apply evJ_bco|exact H]|].
  destruct (approx_esum e _ _ H) as [S Q]. split; [exact S|]. eapply app_ext; [reflexivity| |exact (app_rem 6 _ _ _ Q Hr)]. eapply near_imp; [|exact Er]. intros u _ ->. f_equal.
  do 7 (destruct e as [|? e]; [unfold good_e in G; try discriminate G|]); [|discriminate G]. unfold good_e in G. cbn [map] in G. injection G as G0 G1 G2 G3 G4 G5. cbn [esum]. rewrite G0, G1, G2, G3, G4, G5.
  destruct HD as (_ & DS & _). unfold texp. rewrite !DS. vext. rewrite !Rpow_mult_distr. unfold Rdiv. rewrite !RtoC_mult. cbn [pow]. rewrite !RtoC_mult. ring.
Qed.

(** ** The Runge-Kutta step in the interaction picture *)
Definition rk (h : R) (x : V) : V :=
  let AI := E (h / 2) x in
  let k1 := E (h / 2) (vs h (N x)) in
  let k2 := vs h (N (vp AI (vs (/ 2) k1))) in
  let k3 := vs h (N (vp AI (vs (/ 2) k2))) in
  let k4 := vs h (N (E (h / 2) (vp AI k3))) in
  vp (E (h / 2) (vp (vp (vp AI (vs (/ 6) k1)) (vs (/ 3) k2)) (vs (/ 3) k3))) (vs (/ 6) k4).
Lemma approx_rk (h : Z) e x X : good_e (IZR h / 2) e -> IZR (h / 2) = IZR h / 2 -> IZR (h / 3) = IZR h / 3 -> IZR (h / 6) = IZR h / 6 ->
  (let AI := jE e X in let g1 := jN X in let g2 := jN (jadd AI (jE e (jscale (h / 2) g1))) in let g3 := jN (jadd AI (jscale (h / 2) g2)) in
   map (fun X => nth 0 X []) [X; jadd AI (jE e (jscale (h / 2) g1)); jadd AI (jscale (h / 2) g2); jE e (jadd AI (jscale h g3))] = [[1]; [1]; [1]; [1]]%Z) ->
  approx x X -> approx (fun u => rk (IZR h * u) (x u)) (jrk h e X).
Proof.
  intros G Q2 Q3 Q6 HH H. cbv zeta in HH. set (AI := jE e X) in *. set (g1 := jN X) in *. set (X2 := jadd AI (jE e (jscale (h / 2) g1))) in *. set (g2 := jN X2) in *.
  set (X3 := jadd AI (jscale (h / 2) g2)) in *. set (g3 := jN X3) in *. set (X4 := jE e (jadd AI (jscale h g3))) in *. cbn [map] in HH. injection HH as H1 H2 H3 H4.
  set (q := IZR h / 2) in *. assert (EQ : forall u, IZR h * u / 2 = q * u) by (intros u; unfold q; field).
  set (aI := fun u => E (q * u) (x u)). set (n1 := fun u => vs u (N (x u))). set (x2 := fun u => vp (aI u) (E (q * u) (vs q (n1 u)))). set (n2 := fun u => vs u (N (x2 u))).
  set (x3 := fun u => vp (aI u) (vs q (n2 u))). set (n3 := fun u => vs u (N (x3 u))). set (x4 := fun u => E (q * u) (vp (aI u) (vs (IZR h) (n3 u)))). set (n4 := fun u => vs u (N (x4 u))).
  assert (PAI : approx aI AI) by (apply (approx_E q); assumption).
  assert (P1 : approx n1 g1) by (apply approx_N; assumption).
  assert (PX2 : approx x2 X2). { apply approx_add; [exact PAI|]. apply (approx_E q e (fun u => vs q (n1 u)) _ G). rewrite <- Q2. now apply approx_scale. }
  assert (P2 : approx n2 g2) by (apply approx_N; assumption).
  assert (PX3 : approx x3 X3). { apply approx_add; [exact PAI|]. rewrite <- Q2. now apply approx_scale. }
  assert (P3 : approx n3 g3) by (apply approx_N; assumption).
  assert (PX4 : approx x4 X4). { apply (approx_E q e (fun u => vp (aI u) (vs (IZR h) (n3 u))) _ G). apply approx_add; [exact PAI|]. now apply approx_scale. }
  assert (P4 : approx n4 (jN X4)) by (apply approx_N; assumption).
  pose proof (approx_add _ _ _ _ (approx_E q e _ _ G (approx_add _ _ _ _ (approx_add _ _ _ _ (approx_add _ _ _ _ PAI (approx_E q e _ _ G (approx_scale (h / 6) _ _ P1))) (approx_scale (h / 3) _ _ P2)) (approx_scale (h / 3) _ _ P3))) (approx_scale (h / 6) _ _ P4)) as F.
  unfold jrk. cbv zeta. fold AI g1. fold X2. fold g2. fold X3. fold g3. fold X4. eapply approx_ext; [|exact F]. apply near_all. intros u _. cbn beta. unfold rk. cbv zeta. rewrite EQ.
  assert (F1 : forall z y, vs (IZR h * u) y = vs (IZR h) (vs u y) /\ (IZR z = IZR h / 2 -> vs (IZR z) y = vs (/ 2) (vs (IZR h) y)) /\ (IZR z = IZR h / 3 -> vs (IZR z) y = vs (/ 3) (vs (IZR h) y)) /\ (IZR z = IZR h / 6 -> vs (IZR z) y = vs (/ 6) (vs (IZR h) y))).
  { intros z y. rewrite !vs_vs. split; [reflexivity|]. repeat split; intros ->; f_equal; field. }
  rewrite !(proj1 (F1 0%Z _)). fold (n1 u). rewrite !(proj1 (proj2 (proj2 (F1 (h / 3)%Z _))) Q3), !(proj2 (proj2 (proj2 (F1 (h / 6)%Z _))) Q6). rewrite !HEh.
  assert (E2 : vp (E (q * u) (x u)) (vs (/ 2) (vs (IZR h) (E (q * u) (n1 u)))) = x2 u). { unfold x2, aI. f_equal. rewrite !HEh, !vs_vs. f_equal. unfold q. field. }
  rewrite E2. fold (n2 u). assert (E3 : vp (E (q * u) (x u)) (vs (/ 2) (vs (IZR h) (n2 u))) = x3 u). { unfold x3, aI. f_equal. rewrite !vs_vs. f_equal. unfold q. field. }
  rewrite E3. fold (n3 u). reflexivity.
Qed.

(** ** The exact solution *)
Lemma sol_coef s Y n : shape Y -> sol_rel s Y -> (n < 5)%nat -> evJ Y (S n) = vs (IZR s / INR (S n)) (vp (D (evJ Y n)) (ncoef Nm (cons0 v0 (tl (evJ Y))) n)).
Proof.
  intros Sh R Hn. pose proof (map_in _ _ _ R n (five n Hn)) as Q. cbn beta in Q.
  assert (Q' : ev (map (Z.mul (Z.of_nat (S n))) (nth (S n) Y [])) (rows (S n)) = ev (map (Z.mul s) (zadd (nth (S n) (jD Y) []) (nth (S n) (jN Y) []))) (rows (S n))) by (now rewrite Q).
  rewrite !ev_scale, ev_add in Q' by (destruct (jD_shape Y Sh) as [_ H1]; destruct (jN_shape Y Sh) as [_ H2]; rewrite H1, H2 by lia; reflexivity).
  fold (evJ Y (S n)) in Q'. fold (evJ (jD Y) (S n)) in Q'. fold (evJ (jN Y) (S n)) in Q'. rewrite evJ_D, evJ_N in Q' by assumption. rewrite <- INR_IZR_INZ in Q'.
  pose proof (not_0_INR (S n) ltac:(lia)) as NZ. unfold Rdiv. rewrite Rmult_comm, <- vs_vs, <- Q', vs_vs, Rinv_l, vs_1 by exact NZ. reflexivity.
Qed.
Lemma approx_sol s Y y : shape Y -> nth 0 Y [] = [1%Z] -> sol_rel s Y -> y 0 = A -> app 1 (fun _ => A) y ->
  near (fun u => forall k, is_cderive (fun t => y t k) u (RtoC (IZR s) * vp (D (y u)) (N (y u)) k)%C) -> approx y Y.
Proof.
  intros Sh H0 R Y0 H1 HY. split; [exact Sh|]. assert (G : forall m, (m <= 5)%nat -> app (S m) (evJ Y) y).
  { induction m as [|m IH]; intros Hm; [eapply app_ext; [|apply near_all; reflexivity|exact H1]; intros [|n] Hn; [symmetry; now apply evJ_1|lia]|].
    specialize (IH ltac:(lia)). pose proof (app_plus _ _ _ _ _ (app_lin D (S m) HD _ _ IH) (app_taylor A N Nm (S m) _ _ HN ltac:(lia) (evJ_bco Y) (evJ_1 Y H0) IH)) as F.
    eapply app_ext; [|apply near_all; reflexivity|exact (app_integral (S m) (IZR s) _ _ y HY F)]. intros [|n] Hn; cbn [cons0]; [rewrite Y0; symmetry; now apply evJ_1|]. symmetry. apply sol_coef; [exact Sh|exact R|lia]. }
  apply (G 5%nat). lia.
Qed.
Lemma zero_coefs m c x : app m c x -> (forall n, (n < m)%nat -> c n = v0) -> exists K, 0 <= K /\ near (fun u => bnd (x u) (K * u ^ m)).
Proof.
  intros H Z. destruct (app_sum m c x H) as (r & (B & HB) & Er). exists (Rabs B). split; [apply Rabs_pos|]. eapply near_imp; [|exact (near_and _ _ HB Er)]. intros u Hu [E1 E2]. rewrite E2.
  assert (P0 : psum m c u = v0). { clear - Z. revert c Z. induction m as [|m IH]; intros c Z; [reflexivity|]. cbn [psum]. rewrite Z, IH by (intros; try apply Z; lia). vext. }
  rewrite P0, vp_0_l. eapply bnd_le; [apply bnd_vs, E1|]. rewrite Rabs_pos_eq by (apply pow_le; exact Hu). rewrite Rmult_comm. apply Rmult_le_compat_r; [apply pow_le; exact Hu|apply Rle_abs].
Qed.
Lemma same_shape X : map (@length Z) X = map (@length Z) zr -> shape X.
Proof.
  intros H. destruct zr_shape as [L S]. assert (LX : length X = 6%nat) by (rewrite <- L, <- (map_length (@length Z)), H; apply map_length). split; [exact LX|]. intros n Hn. rewrite <- S by exact Hn.
  rewrite <- !(map_nth (@length Z)), H. reflexivity.
Qed.
Variable y : R -> V.
Hypothesis Y0 : y 0 = A.
Hypothesis Y1 : app 1 (fun _ => A) y.
Hypothesis HY : near (fun z => forall k, is_cderive (fun t => y t k) z (vp (D (y z)) (N (y z)) k)).
Lemma scaled_sol s Y : (0 < s)%Z -> map (@length Z) Y = map (@length Z) zr -> nth 0 Y [] = [1%Z] -> sol_rel s Y -> approx (fun u => y (IZR s * u)) Y.
Proof.
  intros Ps L H0 R. assert (Ps' : 0 < IZR s) by (now apply IZR_lt). apply (approx_sol s); [now apply same_shape|exact H0|exact R|rewrite Rmult_0_r; exact Y0| |].
  - destruct Y1 as (y' & (B & HB) & E1). exists (fun u => vs (IZR s) (y' (IZR s * u))). split.
    + exists (Rabs (IZR s) * B). eapply near_imp; [|exact (near_unscale _ _ Ps' HB)]. intros u _ Hb. now apply bnd_vs.
    + eapply near_imp; [|exact (near_unscale _ _ Ps' E1)]. intros u _ ->. rewrite vs_vs, (Rmult_comm u). reflexivity.
  - eapply near_imp; [|exact (near_unscale _ _ Ps' HY)]. intros u _ Hd k. apply (cderive_scale (fun t => y t k)), Hd.
Qed.
(** ** Orders of the step and of the Richardson combination *)
Lemma P1 : approx (fun u => rk (IZR 120 * u) A) C1.
Proof. rewrite C1_eq. apply approx_rk; [replace (IZR 120 / 2) with 60 by lra; exact good60|cbn; lra|cbn; lra|cbn; lra|vm_compute; reflexivity|exact approx_A]. Qed.
Lemma P2 : approx (fun u => rk (IZR 120 * u) (rk (IZR 120 * u) A)) C2.
Proof. rewrite C2_eq. apply (approx_rk 120 e60 (fun u => rk (IZR 120 * u) A)); [replace (IZR 120 / 2) with 60 by lra; exact good60|cbn; lra|cbn; lra|cbn; lra|vm_compute; reflexivity|exact P1]. Qed.
Lemma P3 : approx (fun u => rk (IZR 240 * u) A) C3.
Proof. rewrite C3_eq. apply approx_rk; [replace (IZR 240 / 2) with 120 by lra; exact good120|cbn; lra|cbn; lra|cbn; lra|vm_compute; reflexivity|exact approx_A]. Qed.
Lemma rk_order4 : exists K, 0 <= K /\ near (fun h => bnd (vp (rk h A) (vs (-1) (y h))) (K * h ^ 5)).
Proof.
  destruct P1 as [S1 Q1]. destruct (scaled_sol 120 Y120 ltac:(lia) eq_refl eq_refl sol120) as [S2 Q2].
  pose proof (app_plus _ _ _ _ _ (app_trunc 5 _ _ (evJ_bco _) Q1) (app_scale _ (-1) _ _ (app_trunc 5 _ _ (evJ_bco _) Q2))) as Q.
  destruct (zero_coefs _ _ _ Q) as (K & PK & HK).
  { intros n Hn. unfold evJ. rewrite (map_in _ _ _ step_jet n (five n Hn)). vext. }
  exists (K / 120 ^ 5). split; [apply Rmult_le_pos; lra|]. apply (near_scale (IZR 120)); [lra|]. eapply near_imp; [|exact HK]. intros u Hu Hb. eapply bnd_le; [exact Hb|right]. rewrite Rpow_mult_distr. field.
Qed.
Lemma est_order4 : exists K, 0 <= K /\ near (fun h => bnd (vp (rk h (rk h A)) (vs (-1) (rk (2 * h) A))) (K * h ^ 5)).
Proof.
  destruct P2 as [S2 Q2]. destruct P3 as [S3 Q3]. pose proof (app_plus _ _ _ _ _ (app_trunc 5 _ _ (evJ_bco _) Q2) (app_scale _ (-1) _ _ (app_trunc 5 _ _ (evJ_bco _) Q3))) as Q.
  destruct (zero_coefs _ _ _ Q) as (K & PK & HK).
  { intros n Hn. unfold evJ. rewrite (map_in _ _ _ est_jet n (five n Hn)). vext. }
  exists (K / 120 ^ 5). split; [apply Rmult_le_pos; lra|]. apply (near_scale (IZR 120)); [lra|]. eapply near_imp; [|exact HK]. intros u Hu Hb. replace (2 * (IZR 120 * u)) with (IZR 240 * u) by ring. eapply bnd_le; [exact Hb|right]. rewrite Rpow_mult_distr. field.
Qed.
Lemma two_near : exists K, 0 <= K /\ near (fun h => bnd (vp (rk h (rk h A)) (vs (-1) A)) (K * h ^ 1)).
Proof.
  destruct P2 as [S2 Q2]. destruct approx_A as [S3 Q3]. do 5 (apply app_trunc in Q2; [|apply evJ_bco]). do 5 (apply app_trunc in Q3; [|apply evJ_bco]).
  pose proof (app_plus _ _ _ _ _ Q2 (app_scale _ (-1) _ _ Q3)) as Q. destruct (zero_coefs _ _ _ Q) as (K & PK & HK).
  { intros n Hn. assert (n = 0)%nat as -> by lia. rewrite !evJ_1 by reflexivity. vext. }
  exists (K / 120). split; [apply Rmult_le_pos; lra|]. apply (near_scale (IZR 120)); [lra|]. eapply near_imp; [|exact HK]. intros u Hu Hb. eapply bnd_le; [exact Hb|right]. cbn [pow]. field.
Qed.
Definition rich (h : R) : V := vp (vs (16 / 15) (rk h (rk h A))) (vs (- (1 / 15)) (rk (2 * h) A)).
Lemma rich_order5 : exists K, 0 <= K /\ near (fun h => bnd (vp (rich h) (vs (-1) (y (2 * h)))) (K * h ^ 6)).
Proof.
  destruct P2 as [S2 Q2]. destruct P3 as [S3 Q3]. destruct (scaled_sol 240 Y240 ltac:(lia) eq_refl eq_refl sol240) as [SY QY].
  pose proof (app_plus _ _ _ _ _ (app_plus _ _ _ _ _ (app_scale _ (16 / 15) _ _ Q2) (app_scale _ (- (1 / 15)) _ _ Q3)) (app_scale _ (-1) _ _ QY)) as Q.
  destruct (zero_coefs _ _ _ Q) as (K & PK & HK).
  { intros n Hn. assert (EE : nth n (jadd (jscale 16 C2) (jscale (-1) C3)) [] = nth n (jscale 15 Y240) []) by (now rewrite rich_jet).
    destruct S2 as [L2 S2], S3 as [L3 S3]. rewrite jadd_nth in EE by (unfold jscale; rewrite !map_length, L2, L3; reflexivity). rewrite !jscale_nth in EE.
    assert (EE' : vp (vs 16 (evJ C2 n)) (vs (-1) (evJ C3 n)) = vs 15 (evJ Y240 n)). { unfold evJ. change 16 with (IZR 16). change (-1) with (IZR (-1)). change 15 with (IZR 15). rewrite <- !ev_scale, <- EE, ev_add; [reflexivity|]. rewrite !map_length, S2, S3 by lia. reflexivity. }
    replace (evJ Y240 n) with (vs (/ 15) (vs 15 (evJ Y240 n))) by (rewrite vs_vs, Rinv_l, vs_1 by lra; reflexivity). rewrite <- EE', vs_vp, !vs_vs.
    replace (/ 15 * 16) with (16 / 15) by lra. replace (/ 15 * -1) with (- (1 / 15)) by lra. vext. }
  exists (K / 120 ^ 6). split; [apply Rmult_le_pos; lra|]. apply (near_scale (IZR 120)); [lra|]. eapply near_imp; [|exact HK]. intros u Hu Hb. unfold rich. replace (2 * (IZR 120 * u)) with (IZR 240 * u) by ring.
  eapply bnd_le; [exact Hb|right]. rewrite Rpow_mult_distr. field.
Qed.
End Step.

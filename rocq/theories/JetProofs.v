(** Expansions in the step length: curves of vectors with an asymptotic expansion at 0 (app), their algebra, and a free algebra of elementary differentials with integer coefficients (rows, jets)
    in which the expansion of a Runge-Kutta step in the interaction picture can be computed. *)
From Coq Require Import Reals List ZArith Bool Arith Lra Lia Psatz FunctionalExtensionality.
From Coquelicot Require Import Coquelicot.
From Verif Require Import CNum.
Import ListNotations.
Local Open Scope R_scope.

(** ** Vectors and bounds *)
(** a vector is a family, indexed by the reals, of sequences of samples: constants that hold for a vector hold uniformly along the family *)
Definition ix : Type := (R * nat)%type.
Definition V := ix -> C.
Definition v0 : V := fun _ => RtoC 0.
Definition vp (a b : V) : V := fun k => (a k + b k)%C.
Definition vs (r : R) (a : V) : V := fun k => (RtoC r * a k)%C.
Definition bnd (x : V) (B : R) : Prop := forall k, Cmod (x k) <= B.
Lemma RtoC_m1 : RtoC (-1) = (- RtoC 1)%C. Proof. apply injective_projections; cbn; ring. Qed.
Ltac vext := let k := fresh "k" in apply functional_extensionality; intros k; unfold vp, vs, v0; rewrite ?RtoC_mult, ?RtoC_plus, ?RtoC_minus, ?RtoC_m1; try ring.

Lemma vp_0_l a : vp v0 a = a. Proof. vext. Qed.
Lemma vp_0_r a : vp a v0 = a. Proof. vext. Qed.
Lemma vp_comm a b : vp a b = vp b a. Proof. vext. Qed.
Lemma vp_assoc a b c : vp a (vp b c) = vp (vp a b) c. Proof. vext. Qed.
Lemma vs_0 r : vs r v0 = v0. Proof. vext. Qed.
Lemma vs_00 a : vs 0 a = v0. Proof. vext. Qed.
Lemma vs_1 a : vs 1 a = a. Proof. vext. Qed.
Lemma vs_vs r q a : vs r (vs q a) = vs (r * q) a. Proof. vext. Qed.
Lemma vs_vp r a b : vs r (vp a b) = vp (vs r a) (vs r b). Proof. vext. Qed.
Lemma vs_plus r q a : vs (r + q) a = vp (vs r a) (vs q a). Proof. vext. Qed.
Lemma bnd_ge x B : bnd x B -> 0 <= B. Proof. intros H. eapply Rle_trans; [apply Cmod_ge_0|apply (H (0, 0%nat))]. Qed.
Lemma bnd_le x B B' : bnd x B -> B <= B' -> bnd x B'. Proof. intros H L k. eapply Rle_trans; [apply H|exact L]. Qed.
Lemma bnd_v0 B : 0 <= B -> bnd v0 B. Proof. intros H k. unfold v0. rewrite Cmod_0. exact H. Qed.
Lemma bnd_vp a b A B : bnd a A -> bnd b B -> bnd (vp a b) (A + B).
Proof. intros H1 H2 k. unfold vp. eapply Rle_trans; [apply Cmod_triangle|]. specialize (H1 k). specialize (H2 k). lra. Qed.
Lemma bnd_vs r a A : bnd a A -> bnd (vs r a) (Rabs r * A).
Proof. intros H k. unfold vs. rewrite Cmod_mult, Cmod_R. apply Rmult_le_compat_l; [apply Rabs_pos|apply H]. Qed.

(** ** Near zero *)
Definition near (P : R -> Prop) : Prop := exists U, 0 < U /\ forall u, 0 <= u <= U -> P u.
Lemma near_and P Q : near P -> near Q -> near (fun u => P u /\ Q u).
Proof. intros (U1 & P1 & H1) (U2 & P2 & H2). exists (Rmin U1 U2). split; [now apply Rmin_pos|]. intros u Hu. pose proof (Rmin_l U1 U2). pose proof (Rmin_r U1 U2). split; [apply H1|apply H2]; lra. Qed.
Lemma near_imp (P Q : R -> Prop) : (forall u, 0 <= u -> P u -> Q u) -> near P -> near Q.
Proof. intros H (U & PU & HU). exists U. split; [exact PU|]. intros u Hu. apply H; [lra|now apply HU]. Qed.
Lemma near_all (P : R -> Prop) : (forall u, 0 <= u -> P u) -> near P.
Proof. intros H. exists 1. split; [lra|]. intros u Hu. apply H. lra. Qed.
Lemma near_le d : 0 < d -> near (fun u => u <= d).
Proof. intros H. exists d. split; [exact H|]. intros u Hu. lra. Qed.
Definition bounded (x : R -> V) : Prop := exists B, near (fun u => bnd (x u) B).
Lemma bounded_ext x y : near (fun u => x u = y u) -> bounded x -> bounded y.
Proof. intros H (B & HB). exists B. eapply near_imp; [|exact (near_and _ _ H HB)]. intros u _ [E F]. now rewrite <- E. Qed.
Lemma bounded_const a B : bnd a B -> bounded (fun _ => a). Proof. intros H. exists B. now apply near_all. Qed.
Lemma bounded_vp x y : bounded x -> bounded y -> bounded (fun u => vp (x u) (y u)).
Proof. intros (A & HA) (B & HB). exists (A + B). eapply near_imp; [|exact (near_and _ _ HA HB)]. intros u _ [E F]. now apply bnd_vp. Qed.
Lemma bounded_vs r x : bounded x -> bounded (fun u => vs r (x u)).
Proof. intros (A & HA). exists (Rabs r * A). eapply near_imp; [|exact HA]. intros u _ E. now apply bnd_vs. Qed.
Lemma bounded_u x : bounded x -> bounded (fun u => vs u (x u)).
Proof.
  intros (A & HA). exists A. eapply near_imp; [|exact (near_and _ _ HA (near_le 1 Rlt_0_1))]. intros u Hu [E F]. eapply bnd_le; [apply bnd_vs, E|]. pose proof (bnd_ge _ _ E).
  rewrite Rabs_pos_eq by exact Hu. rewrite <- (Rmult_1_l A) at 2. apply Rmult_le_compat_r; lra.
Qed.

(** ** Expansions: app m c x says x u = c 0 + u c 1 + ... + u^(m-1) c (m-1) + u^m r u with r bounded near 0 *)
Definition tl {T} (c : nat -> T) : nat -> T := fun n => c (S n).
Fixpoint app (m : nat) (c : nat -> V) (x : R -> V) : Prop :=
  match m with
  | O => bounded x
  | S m => exists x', app m (tl c) x' /\ near (fun u => x u = vp (c O) (vs u (x' u)))
  end.
Lemma app_ext m : forall c d x y, (forall n, (n < m)%nat -> c n = d n) -> near (fun u => x u = y u) -> app m c x -> app m d y.
Proof.
  induction m as [|m IH]; intros c d x y Hc Hx H; [exact (bounded_ext _ _ Hx H)|]. destruct H as (x' & H & E). exists x'. split.
  - apply (IH (tl c) (tl d) x' x'); [intros n Hn; apply Hc; lia|apply near_all; reflexivity|exact H].
  - eapply near_imp; [|exact (near_and _ _ Hx E)]. intros u _ [E1 E2]. rewrite <- E1, E2, (Hc 0%nat) by lia. reflexivity.
Qed.
Lemma app_bounded m : forall c x, (forall n, exists B, bnd (c n) B) -> app m c x -> bounded x.
Proof.
  induction m as [|m IH]; intros c x Hc H; [exact H|]. destruct H as (x' & H & E). apply IH in H; [|intros n; apply Hc]. destruct (Hc 0%nat) as [B HB].
  eapply bounded_ext; [|apply (bounded_vp _ _ (bounded_const _ _ HB) (bounded_u _ H))]. eapply near_imp; [|exact E]. intros u _ E1. cbn beta. now rewrite E1.
Qed.
Lemma app_trunc m : forall c x, (forall n, exists B, bnd (c n) B) -> app (S m) c x -> app m c x.
Proof.
  induction m as [|m IH]; intros c x Hc H; [eapply app_bounded; eauto|]. destruct H as (x' & H & E). exists x'. split; [apply IH; [intros n; apply Hc|exact H]|exact E].
Qed.
Lemma app_plus m : forall c d x y, app m c x -> app m d y -> app m (fun n => vp (c n) (d n)) (fun u => vp (x u) (y u)).
Proof.
  induction m as [|m IH]; intros c d x y H1 H2; [now apply bounded_vp|]. destruct H1 as (x' & H1 & E1). destruct H2 as (y' & H2 & E2). exists (fun u => vp (x' u) (y' u)). split.
  - apply (IH _ _ _ _ H1 H2).
  - eapply near_imp; [|exact (near_and _ _ E1 E2)]. intros u _ [-> ->]. vext.
Qed.
Lemma app_scale m r : forall c x, app m c x -> app m (fun n => vs r (c n)) (fun u => vs r (x u)).
Proof.
  induction m as [|m IH]; intros c x H; [now apply bounded_vs|]. destruct H as (x' & H & E). exists (fun u => vs r (x' u)). split; [apply (IH _ _ H)|].
  eapply near_imp; [|exact E]. intros u _ ->. vext.
Qed.
Lemma app_zero m : app m (fun _ => v0) (fun _ => v0).
Proof.
  induction m as [|m IH]; [exact (bounded_const v0 0 (bnd_v0 0 (Rle_refl 0)))|]. exists (fun _ => v0). split; [exact IH|]. apply near_all. intros u _. vext.
Qed.
Definition cons0 {T} (a : T) (c : nat -> T) : nat -> T := fun n => match n with O => a | S n => c n end.
Lemma app_const m a B : bnd a B -> app m (cons0 a (fun _ => v0)) (fun _ => a).
Proof. intros H. destruct m as [|m]; [exact (bounded_const a B H)|]. exists (fun _ => v0). split; [apply app_zero|]. apply near_all. intros u _. cbn [cons0]. vext. Qed.
(** multiplication by u shifts the expansion *)
Lemma app_shift m c x : app m c x -> app (S m) (cons0 v0 c) (fun u => vs u (x u)).
Proof. intros H. exists x. split; [exact H|]. apply near_all. intros u _. cbn [cons0]. vext. Qed.
(** a remainder of the right order does not matter *)
Lemma app_rem m : forall c x r, app m c x -> bounded r -> app m c (fun u => vp (x u) (vs (u ^ m) (r u))).
Proof.
  induction m as [|m IH]; intros c x r H Hr.
  - eapply bounded_ext; [|apply (bounded_vp _ _ H Hr)]. apply near_all. intros u _. cbn [pow]. now rewrite vs_1.
  - destruct H as (x' & H & E). exists (fun u => vp (x' u) (vs (u ^ m) (r u))). split; [apply (IH _ _ _ H Hr)|]. eapply near_imp; [|exact E]. intros u _ ->. cbn [pow]. vext.
Qed.
(** what an expansion says: the partial sum and the remainder *)
Fixpoint psum (m : nat) (c : nat -> V) (u : R) : V := match m with O => v0 | S m => vp (c O) (vs u (psum m (tl c) u)) end.
Lemma app_sum m : forall c x, app m c x -> exists r, bounded r /\ near (fun u => x u = vp (psum m c u) (vs (u ^ m) (r u))).
Proof.
  induction m as [|m IH]; intros c x H; [exists x; split; [exact H|apply near_all; intros u _; cbn [psum pow]; vext]|].
  destruct H as (x' & H & E). destruct (IH _ _ H) as (r & Hr & Er). exists r. split; [exact Hr|]. eapply near_imp; [|exact (near_and _ _ E Er)]. intros u _ [-> ->]. cbn [psum pow]. vext.
Qed.
Lemma app_of_sum m : forall c r, bounded r -> app m c (fun u => vp (psum m c u) (vs (u ^ m) (r u))).
Proof.
  induction m as [|m IH]; intros c r Hr; [eapply bounded_ext; [|exact Hr]; apply near_all; intros u _; cbn [psum pow]; vext|].
  exists (fun u => vp (psum m (tl c) u) (vs (u ^ m) (r u))). split; [apply IH, Hr|]. apply near_all. intros u _. cbn [psum pow]. vext.
Qed.

Lemma F2_length {X Y} (P : X -> Y -> Prop) l l' : Forall2 P l l' -> length l = length l'.
Proof. induction 1; cbn; congruence. Qed.
(** ** Linear and multilinear maps *)
Definition linear (L : V -> V) : Prop :=
  (forall a b, L (vp a b) = vp (L a) (L b)) /\ (forall r a, L (vs r a) = vs r (L a)) /\ exists M, 0 <= M /\ forall a B, bnd a B -> bnd (L a) (M * B).
Lemma linear_0 L : linear L -> L v0 = v0.
Proof. intros (_ & H & _). rewrite <- (vs_00 v0), H. rewrite !vs_00. reflexivity. Qed.
Lemma app_lin L m : linear L -> forall c x, app m c x -> app m (fun n => L (c n)) (fun u => L (x u)).
Proof.
  intros HL. pose proof HL as (LA & LS & M & PM & LB). induction m as [|m IH]; intros c x H.
  - destruct H as (B & H). exists (M * B). eapply near_imp; [|exact H]. intros u _. apply LB.
  - destruct H as (x' & H & E). exists (fun u => L (x' u)). split; [apply (IH _ _ H)|]. eapply near_imp; [|exact E]. intros u _ ->. now rewrite LA, LS.
Qed.
(** H is k-linear on lists of length k *)
Definition prodR (l : list R) : R := fold_right Rmult 1 l.
Definition mlin (k : nat) (H : list V -> V) : Prop :=
  (forall l1 l2 a b, (length l1 + S (length l2))%nat = k -> H (l1 ++ vp a b :: l2) = vp (H (l1 ++ a :: l2)) (H (l1 ++ b :: l2))) /\
  (forall l1 l2 r a, (length l1 + S (length l2))%nat = k -> H (l1 ++ vs r a :: l2) = vs r (H (l1 ++ a :: l2))) /\
  exists M, 0 <= M /\ forall l Bs, length l = k -> Forall2 bnd l Bs -> bnd (H l) (M * prodR Bs).
Lemma mlin_head k H a : (exists B, bnd a B) -> mlin (S k) H -> mlin k (fun l => H (a :: l)).
Proof.
  intros (A & HA) (H1 & H2 & M & PM & H3). split; [|split].
  - intros l1 l2 x y E. apply (H1 (a :: l1) l2 x y). cbn. lia.
  - intros l1 l2 r x E. apply (H2 (a :: l1) l2 r x). cbn. lia.
  - exists (M * A). split; [apply Rmult_le_pos; [exact PM|exact (bnd_ge _ _ HA)]|]. intros l Bs El F. eapply bnd_le; [apply (H3 (a :: l) (A :: Bs)); [cbn; lia|now constructor]|]. change (prodR (A :: Bs)) with (A * prodR Bs). right. ring.
Qed.
Lemma mlin_lin k H l a b : mlin (S k) H -> length l = k -> H (vp a b :: l) = vp (H (a :: l)) (H (b :: l)).
Proof. intros (H1 & _) E. apply (H1 [] l). cbn. lia. Qed.
Lemma mlin_hom k H l r a : mlin (S k) H -> length l = k -> H (vs r a :: l) = vs r (H (a :: l)).
Proof. intros (_ & H1 & _) E. apply (H1 [] l). cbn. lia. Qed.
Lemma mlin_zero k H l : mlin (S k) H -> length l = k -> H (v0 :: l) = v0.
Proof. intros M E. rewrite <- (vs_00 v0), (mlin_hom k H l 0 v0 M E). rewrite !vs_00. reflexivity. Qed.

(** the coefficients of H(x_1, ..., x_k) *)
Fixpoint mcl (H : list V -> V) (cs : list (nat -> V)) (n : nat) : V :=
  match cs with
  | [] => match n with O => H [] | S _ => v0 end
  | c :: cs' => (fix pc (n : nat) (c : nat -> V) : V :=
                   match n with
                   | O => mcl (fun l => H (c O :: l)) cs' O
                   | S n' => vp (mcl (fun l => H (c O :: l)) cs' n) (pc n' (tl c))
                   end) n c
  end.
Lemma mcl_S H c cs n : mcl H (c :: cs) (S n) = vp (mcl (fun l => H (c O :: l)) cs (S n)) (mcl H (tl c :: cs) n).
Proof. reflexivity. Qed.
Lemma mcl_O H c cs : mcl H (c :: cs) O = mcl (fun l => H (c O :: l)) cs O.
Proof. reflexivity. Qed.
Lemma mcl_ext cs : forall H H' n, (forall l, length l = length cs -> H l = H' l) -> mcl H cs n = mcl H' cs n.
Proof.
  induction cs as [|c cs IH]; intros H H' n E; [destruct n; [apply E; reflexivity|reflexivity]|]. cbn [length] in E. revert c. induction n as [|n IHn]; intros c.
  - rewrite !mcl_O. apply IH. intros l El. apply E. cbn. lia.
  - rewrite !mcl_S. f_equal; [apply IH; intros l El; apply E; cbn; lia|apply IHn].
Qed.
Lemma mcl_plus cs : forall H H' n, mcl (fun l => vp (H l) (H' l)) cs n = vp (mcl H cs n) (mcl H' cs n).
Proof.
  induction cs as [|c cs IH]; intros H H' n; [destruct n; [reflexivity|cbn; vext]|]. revert c. induction n as [|n IHn]; intros c.
  - rewrite !mcl_O. apply (IH (fun l => H (c O :: l)) (fun l => H' (c O :: l))).
  - rewrite !mcl_S, IHn, (IH (fun l => H (c O :: l)) (fun l => H' (c O :: l))). vext.
Qed.
Lemma mcl_vs r cs : forall H n, mcl (fun l => vs r (H l)) cs n = vs r (mcl H cs n).
Proof.
  induction cs as [|c cs IH]; intros H n; [destruct n; [reflexivity|cbn; vext]|]. revert c. induction n as [|n IHn]; intros c.
  - rewrite !mcl_O. apply (IH (fun l => H (c O :: l))).
  - rewrite !mcl_S, IHn, (IH (fun l => H (c O :: l))). vext.
Qed.
Definition bco (c : nat -> V) : Prop := forall n, exists B, bnd (c n) B.
Lemma bco_tl c : bco c -> bco (tl c). Proof. intros H n. apply H. Qed.
Lemma mlin_bounded k H : mlin k H -> forall xs, length xs = k -> List.Forall bounded xs -> bounded (fun u => H (map (fun x => x u) xs)).
Proof.
  intros (_ & _ & M & PM & HM) xs L F. assert (G : exists Bs, near (fun u => Forall2 bnd (map (fun x => x u) xs) Bs)).
  { clear L. induction F as [|x xs (B & HB) F IH]; [exists []; apply near_all; intros; constructor|]. destruct IH as (Bs & HBs). exists (B :: Bs).
    eapply near_imp; [|exact (near_and _ _ HB HBs)]. intros u _ [? ?]. cbn. now constructor. }
  destruct G as (Bs & G). exists (M * prodR Bs). eapply near_imp; [|exact G]. intros u _ E. apply HM; [now rewrite map_length|exact E].
Qed.
Lemma mcl_bnd cs : forall H n, mlin (length cs) H -> List.Forall bco cs -> exists B, bnd (mcl H cs n) B.
Proof.
  induction cs as [|c cs IH]; intros H n ML F.
  - destruct n; [|exists 0; apply bnd_v0; lra]. destruct ML as (_ & _ & M & _ & HM). eexists. apply (HM [] []); [reflexivity|constructor].
  - inversion_clear F as [|? ? Fc Fcs]. cbn [length] in ML. revert c Fc. induction n as [|n IHn]; intros c Fc.
    + rewrite mcl_O. apply IH; [apply mlin_head; [apply Fc|exact ML]|exact Fcs].
    + rewrite mcl_S. destruct (IH (fun l => H (c O :: l)) (S n)) as [B1 H1]; [apply mlin_head; [apply Fc|exact ML]|exact Fcs|]. destruct (IHn (tl c) (bco_tl _ Fc)) as [B2 H2]. exists (B1 + B2). now apply bnd_vp.
Qed.
Lemma app_mlin cs : forall m H xs, mlin (length cs) H -> List.Forall bco cs -> Forall2 (app m) cs xs -> app m (mcl H cs) (fun u => H (map (fun x => x u) xs)).
Proof.
  induction cs as [|c cs IH]; intros m H xs ML F A; inversion A as [|? x ? xs' A1 A2]; subst.
  - destruct ML as (_ & _ & M & _ & HM). cbn [map]. apply (app_ext m (cons0 (H []) (fun _ => v0)) _ (fun _ => H []) (fun _ => H [])); [intros [|n] _; reflexivity|apply near_all; reflexivity|].
    apply (app_const m _ (M * prodR [])). apply HM; [reflexivity|constructor].
  - inversion_clear F as [|? ? Fc Fcs]. cbn [length] in ML. clear A. assert (LX : length xs' = length cs) by (symmetry; exact (F2_length _ _ _ A2)). revert c x xs' Fc A1 A2 LX. induction m as [|m IHm]; intros c x xs' Fc A1 A2 LX.
    + apply (mlin_bounded _ _ ML (x :: xs')); [cbn; lia|]. constructor; [exact A1|]. clear - A2. induction A2; constructor; assumption.
    + destruct A1 as (x' & A1 & E).
      assert (A2' : Forall2 (app m) cs xs'). { clear - A2 Fcs. induction A2 as [|? ? ? ? HA A2 IH]; constructor; inversion_clear Fcs; [now apply app_trunc|now apply IH]. }
      pose proof (IH (S m) (fun l => H (c O :: l)) xs' (mlin_head _ _ _ (Fc O) ML) Fcs A2) as (w & W1 & W2).
      pose proof (IHm (tl c) x' xs' (bco_tl _ Fc) A1 A2' LX) as Z.
      exists (fun u => vp (w u) (H (x' u :: map (fun y => y u) xs'))). split.
      * eapply app_ext; [|apply near_all; reflexivity|exact (app_plus m _ _ _ _ W1 Z)]. intros n _. unfold tl at 1 3. rewrite mcl_S. reflexivity.
      * eapply near_imp; [|exact (near_and _ _ E W2)]. intros u _ [E1 E2]. cbn [map]. rewrite E1, (mlin_lin _ _ _ _ _ ML), (mlin_hom _ _ _ _ _ ML), E2, mcl_O by (rewrite map_length; exact LX). vext.
Qed.

(** ** Maps with a Taylor expansion of order 4 at A *)
Definition taylor (A : V) (N : V -> V) (Nm : nat -> list V -> V) : Prop :=
  (forall k, (k <= 4)%nat -> mlin k (Nm k)) /\
  exists d M, 0 < d /\ 0 <= M /\ forall v B, bnd v B -> B <= d ->
    exists r, bnd r (M * B ^ 5) /\ N (vp A v) = vp (vp (Nm 0%nat []) (vp (Nm 1%nat [v]) (vp (Nm 2%nat [v; v]) (vp (Nm 3%nat [v; v; v]) (Nm 4%nat [v; v; v; v]))))) r.
Definition ncoef (Nm : nat -> list V -> V) (c : nat -> V) (n : nat) : V :=
  vp (mcl (Nm 0%nat) [] n) (vp (mcl (Nm 1%nat) [c] n) (vp (mcl (Nm 2%nat) [c; c] n) (vp (mcl (Nm 3%nat) [c; c; c] n) (mcl (Nm 4%nat) [c; c; c; c] n)))).
Lemma app_taylor A N Nm m c x : taylor A N Nm -> (1 <= m <= 5)%nat -> bco c -> c O = A -> app m c x -> app m (ncoef Nm (cons0 v0 (tl c))) (fun u => N (x u)).
Proof.
  intros (ML & d & M & Pd & PM & T) Hm Bc E0 H. destruct m as [|m]; [lia|]. pose proof H as (x' & H' & E). set (v := fun u => vs u (x' u)). set (cv := cons0 v0 (tl c)).
  assert (Bv : bco cv). { intros [|n]; [exists 0; apply bnd_v0; lra|apply Bc]. }
  assert (Av : app (S m) cv v). { exists x'. split; [exact H'|]. apply near_all. intros u _. unfold v, cv. cbn [cons0]. vext. }
  pose proof (app_bounded m _ _ (bco_tl _ Bc) H') as (B & HB).
  assert (P : forall k, (k <= 4)%nat -> app (S m) (mcl (Nm k) (repeat cv k)) (fun u => Nm k (map (fun x => x u) (repeat v k)))).
  { intros k Hk. apply app_mlin; [rewrite repeat_length; now apply ML|apply Forall_forall; intros y Hy; apply repeat_spec in Hy; now subst|]. clear - Av. induction k; constructor; assumption. }
  pose proof (app_plus _ _ _ _ _ (P 0%nat ltac:(lia)) (app_plus _ _ _ _ _ (P 1%nat ltac:(lia)) (app_plus _ _ _ _ _ (P 2%nat ltac:(lia)) (app_plus _ _ _ _ _ (P 3%nat ltac:(lia)) (P 4%nat ltac:(lia)))))) as Q.
  set (Sm := fun u => vp (Nm 0%nat []) (vp (Nm 1%nat [v u]) (vp (Nm 2%nat [v u; v u]) (vp (Nm 3%nat [v u; v u; v u]) (Nm 4%nat [v u; v u; v u; v u]))))).
  change (app (S m) (ncoef Nm cv) Sm) in Q.
  (* the remainder, divided by u^(m+1) *)
  set (r := fun u => if Req_EM_T u 0 then v0 else vs (/ u ^ S m) (vp (N (x u)) (vs (-1) (Sm u)))).
  assert (N0 : near (fun u => vp A (v u) = x u /\ exists q, bnd q (M * (u * B) ^ 5) /\ N (x u) = vp (Sm u) q)).
  { assert (NB : near (fun u => u * B <= d)). { exists (d / (Rabs B + 1)). pose proof (Rabs_pos B). split; [apply Rdiv_lt_0_compat; lra|]. intros u Hu. apply Rle_trans with (d / (Rabs B + 1) * (Rabs B + 1)); [|right; field; lra].
      apply Rle_trans with (u * (Rabs B + 1)); [apply Rmult_le_compat_l; [lra|]; pose proof (Rle_abs B); lra|apply Rmult_le_compat_r; lra]. }
    eapply near_imp; [|exact (near_and _ _ (near_and _ _ E HB) NB)]. intros u Hu [[E1 E2] E3]. assert (EX : vp A (v u) = x u) by (rewrite E1, E0; reflexivity). split; [exact EX|].
    destruct (T (v u) (u * B)) as (q & Hq & Eq); [|exact E3|].
    - unfold v. eapply bnd_le; [apply bnd_vs, E2|]. rewrite Rabs_pos_eq by exact Hu. lra.
    - exists q. split; [exact Hq|]. rewrite <- EX. exact Eq. }
  apply (app_ext (S m) (ncoef Nm cv) _ (fun u => vp (Sm u) (vs (u ^ S m) (r u)))); [reflexivity| |].
  - eapply near_imp; [|exact N0]. intros u Hu [EX (q & Hq & Eq)]. unfold r. destruct (Req_EM_T u 0) as [->|NZ].
    + rewrite Eq. assert (q = v0) as ->; [|vext]. apply functional_extensionality. intros k. specialize (Hq k). replace (M * (0 * B) ^ 5) with 0 in Hq by ring. apply Cmod_eq_0. pose proof (Cmod_ge_0 (q k)). lra.
    + rewrite vs_vs, Rinv_r by (apply pow_nonzero; exact NZ). rewrite vs_1. vext.
  - apply app_rem; [exact Q|]. exists (M * Rabs B ^ 5). eapply near_imp; [|exact (near_and _ _ N0 (near_le 1 Rlt_0_1))]. intros u Hu [[EX (q & Hq & Eq)] L1]. unfold r.
    assert (PB : 0 <= M * Rabs B ^ 5) by (apply Rmult_le_pos; [exact PM|apply pow_le, Rabs_pos]).
    destruct (Req_EM_T u 0) as [_|NZ]; [now apply bnd_v0|]. rewrite Eq. replace (vp (vp (Sm u) q) (vs (-1) (Sm u))) with q by vext.
    assert (Pu : 0 < u) by lra. eapply bnd_le; [apply bnd_vs, Hq|]. assert (PU : 0 < u ^ S m) by (apply pow_lt; exact Pu). rewrite Rabs_pos_eq by (left; now apply Rinv_0_lt_compat).
    apply (Rmult_le_reg_l (u ^ S m)); [exact PU|]. rewrite <- Rmult_assoc, Rinv_r, Rmult_1_l by lra.
    rewrite Rpow_mult_distr. replace (M * (u ^ 5 * B ^ 5)) with (u ^ 5 * (M * B ^ 5)) by ring.
    assert (U5 : u ^ 5 <= u ^ S m). { replace 5%nat with (S m + (4 - m))%nat by lia. rewrite pow_add. rewrite <- (Rmult_1_r (u ^ S m)) at 2. apply Rmult_le_compat_l; [lra|]. rewrite <- (pow1 (4 - m)). apply pow_incr. lra. }
    apply Rle_trans with (u ^ 5 * (M * Rabs B ^ 5)).
    + apply Rmult_le_compat_l; [apply pow_le; lra|]. apply Rmult_le_compat_l; [exact PM|]. apply Rle_trans with (Rabs (B ^ 5)); [apply Rle_abs|rewrite RPow_abs; lra].
    + apply Rmult_le_compat_r; [exact PB|exact U5].
Qed.

(** ** Rows of elementary differentials with integer coefficients *)
Fixpoint ev (p : list Z) (P : list V) : V := match p, P with z :: p, v :: P => vp (vs (IZR z) v) (ev p P) | _, _ => v0 end.
Fixpoint zadd (p q : list Z) : list Z := match p, q with a :: p, b :: q => (a + b)%Z :: zadd p q | _, _ => [] end.
Lemma zadd_length p : forall q, length p = length q -> length (zadd p q) = length p.
Proof. induction p as [|a p IH]; intros [|b q] H; try discriminate; [reflexivity|]. cbn in *. rewrite IH; lia. Qed.
Lemma ev_app p : forall q P Q, length p = length P -> ev (p ++ q) (P ++ Q) = vp (ev p P) (ev q Q).
Proof. induction p as [|z p IH]; intros q [|v P] Q H; try discriminate; cbn [ev List.app]; [now rewrite vp_0_l|]. rewrite IH by (cbn in H; lia). apply vp_assoc. Qed.
Lemma ev_lin L : linear L -> forall p P, ev p (map L P) = L (ev p P).
Proof. intros H. pose proof (linear_0 L H) as L0. destruct H as (LA & LS & _). induction p as [|z p IH]; intros [|v P]; cbn [ev map]; try (symmetry; exact L0). now rewrite IH, LA, LS. Qed.
Lemma ev_add p : forall q P, length p = length q -> ev (zadd p q) P = vp (ev p P) (ev q P).
Proof. induction p as [|a p IH]; intros [|b q] P H; try discriminate; [cbn; vext|]. destruct P as [|v P]; cbn [ev zadd]; [vext|]. rewrite IH, plus_IZR, vs_plus by (cbn in H; lia). vext. Qed.
Lemma ev_scale z p : forall P, ev (map (Z.mul z) p) P = vs (IZR z) (ev p P).
Proof. induction p as [|a p IH]; intros [|v P]; cbn [ev map]; try (symmetry; apply vs_0). rewrite IH, mult_IZR, vs_vp, vs_vs. reflexivity. Qed.
Lemma ev_zeros p : forall P, (forall a, In a p -> a = 0%Z) -> ev p P = v0.
Proof. induction p as [|a p IH]; intros [|v P] H; cbn [ev]; try reflexivity. rewrite IH by (intros; apply H; now right). rewrite (H a) by (now left). rewrite vs_00. apply vp_0_l. Qed.

(** all values of f on lists of k rows whose orders add up to n *)
Fixpoint hd_conv {A B} (g : A -> nat -> list B) (T : nat -> list A) (n : nat) : list B :=
  match n with O => flat_map (fun a => g a O) (T O) | S n' => flat_map (fun a => g a n) (T O) ++ hd_conv g (tl T) n' end.
Fixpoint mcv {A B} (f : list A -> B) (k : nat) (T : nat -> list A) (n : nat) : list B :=
  match k with
  | O => match n with O => [f []] | S _ => [] end
  | S k' => hd_conv (fun a => mcv (fun l => f (a :: l)) k' T) T n
  end.
Lemma flat_map_len {A A' B B'} (g : A -> list B) (g' : A' -> list B') : (forall a a', length (g a) = length (g' a')) -> forall l l', length l = length l' -> length (flat_map g l) = length (flat_map g' l').
Proof. intros H. induction l as [|a l IH]; intros [|a' l'] E; try discriminate; [reflexivity|]. cbn [flat_map]. rewrite !app_length, (H a a'), (IH l') by (cbn in E; lia). reflexivity. Qed.
Lemma hd_conv_len {A A' B B'} (g : A -> nat -> list B) (g' : A' -> nat -> list B') n : forall T T', (forall i a a', (i <= n)%nat -> length (g a i) = length (g' a' i)) -> (forall i, (i <= n)%nat -> length (T i) = length (T' i)) ->
  length (hd_conv g T n) = length (hd_conv g' T' n).
Proof.
  induction n as [|n IH]; intros T T' Hg HT; cbn [hd_conv]; [apply flat_map_len; [intros; apply Hg; lia|apply HT; lia]|]. rewrite !app_length. f_equal.
  - apply flat_map_len; [intros; apply Hg; lia|apply HT; lia].
  - apply IH; [intros; apply Hg; lia|intros; apply HT; lia].
Qed.
Lemma mcv_len {A A' B B'} k : forall (f : list A -> B) (f' : list A' -> B') T T' n, (forall i, (i <= n)%nat -> length (T i) = length (T' i)) -> length (mcv f k T n) = length (mcv f' k T' n).
Proof.
  induction k as [|k IH]; intros f f' T T' n H; [destruct n; reflexivity|]. cbn [mcv]. apply hd_conv_len; [|exact H]. intros i a a' Hi. apply IH. intros j Hj. apply H. lia.
Qed.
Lemma hd_conv_ext {A B} (g g' : A -> nat -> list B) n : forall T T', (forall i a, (i <= n)%nat -> g a i = g' a i) -> (forall i, (i <= n)%nat -> T i = T' i) -> hd_conv g T n = hd_conv g' T' n.
Proof.
  induction n as [|n IH]; intros T T' Hg HT; cbn [hd_conv]; rewrite <- (HT 0%nat) by lia.
  - apply flat_map_ext. intros; apply Hg; lia.
  - f_equal; [apply flat_map_ext; intros; apply Hg; lia|]. apply IH; [intros; apply Hg; lia|intros; apply HT; lia].
Qed.
Lemma mcv_ext {A B} k : forall (f f' : list A -> B) T T' n, (forall l, f l = f' l) -> (forall i, (i <= n)%nat -> T i = T' i) -> mcv f k T n = mcv f' k T' n.
Proof.
  induction k as [|k IH]; intros f f' T T' n Hf H; [destruct n; [cbn; now rewrite Hf|reflexivity]|]. cbn [mcv]. apply hd_conv_ext; [|exact H]. intros i a Hi. apply IH; [intros; apply Hf|]. intros j Hj. apply H. lia.
Qed.
Lemma hd_conv_in {A B} (g : A -> nat -> list B) n : forall T b, In b (hd_conv g T n) -> exists i j a, (i <= n)%nat /\ (j <= n)%nat /\ In a (T i) /\ In b (g a j).
Proof.
  induction n as [|n IH]; intros T b H; cbn [hd_conv] in H.
  - apply in_flat_map in H as (a & Ha & Hb). exists 0%nat, 0%nat, a. auto with arith.
  - apply in_app_or in H as [H|H]; [apply in_flat_map in H as (a & Ha & Hb); exists 0%nat, (S n), a; auto with arith|].
    apply IH in H as (i & j & a & Hi & Hj & Ha & Hb). exists (S i), j, a. repeat split; try lia; assumption.
Qed.
Lemma mcv_in {A B} k : forall (f : list A -> B) T n b, In b (mcv f k T n) -> exists l, length l = k /\ b = f l /\ forall a, In a l -> exists i, (i <= n)%nat /\ In a (T i).
Proof.
  induction k as [|k IH]; intros f T n b H.
  - destruct n; [|destruct H]. destruct H as [<-|[]]. exists []. repeat split. intros a [].
  - cbn [mcv] in H. apply hd_conv_in in H as (i & j & a & Hi & Hj & Ha & Hb). apply IH in Hb as (l & El & -> & Hl). exists (a :: l). split; [cbn; lia|]. split; [reflexivity|].
    intros a' [<-|H']; [exists i; auto|]. destruct (Hl a' H') as (i' & Hi' & Ha'). exists i'. split; [lia|exact Ha'].
Qed.

(** the algebraic part of multilinearity *)
Definition alin (k : nat) (H : list V -> V) : Prop :=
  (forall l1 l2 a b, (length l1 + S (length l2))%nat = k -> H (l1 ++ vp a b :: l2) = vp (H (l1 ++ a :: l2)) (H (l1 ++ b :: l2))) /\
  (forall l1 l2 r a, (length l1 + S (length l2))%nat = k -> H (l1 ++ vs r a :: l2) = vs r (H (l1 ++ a :: l2))).
Lemma mlin_alin k H : mlin k H -> alin k H. Proof. intros (H1 & H2 & _). now split. Qed.
Lemma alin_head k H a : alin (S k) H -> alin k (fun l => H (a :: l)).
Proof. intros (H1 & H2). split; [intros l1 l2 x y E; apply (H1 (a :: l1) l2 x y); cbn; lia|intros l1 l2 r x E; apply (H2 (a :: l1) l2 r x); cbn; lia]. Qed.
Fixpoint pcl (M : V -> nat -> V) (c : nat -> V) (n : nat) : V := match n with O => M (c O) O | S n' => vp (M (c O) n) (pcl M (tl c) n') end.
Lemma mcl_pcl H c cs n : mcl H (c :: cs) n = pcl (fun v => mcl (fun l => H (v :: l)) cs) c n.
Proof. revert c. induction n as [|n IH]; intros c; [reflexivity|]. rewrite mcl_S, IH. reflexivity. Qed.
Lemma pcl_vs r M n : forall c, pcl (fun v i => vs r (M v i)) c n = vs r (pcl M c n).
Proof. induction n as [|n IH]; intros c; [reflexivity|]. cbn [pcl]. now rewrite IH, vs_vp. Qed.
Lemma ev_flat (gz : Z -> nat -> list Z) (gv : V -> nat -> list V) (M : V -> nat -> V) i : (forall z v, length (gz z i) = length (gv v i)) -> (forall z v, ev (gz z i) (gv v i) = vs (IZR z) (M v i)) ->
  (forall a b, M (vp a b) i = vp (M a i) (M b i)) -> (forall r a, M (vs r a) i = vs r (M a i)) ->
  forall p P, length p = length P -> ev (flat_map (fun a => gz a i) p) (flat_map (fun a => gv a i) P) = M (ev p P) i.
Proof.
  intros HL HE MA MS. assert (M0 : M v0 i = v0) by (rewrite <- (vs_00 v0), MS, !vs_00; reflexivity).
  induction p as [|z p IH]; intros [|v P] E; try discriminate; cbn [flat_map ev]; [symmetry; exact M0|]. rewrite ev_app by apply HL. rewrite HE, IH, MA, MS by (cbn in E; lia). reflexivity.
Qed.
Lemma ev_hd (gz : Z -> nat -> list Z) (gv : V -> nat -> list V) (M : V -> nat -> V) n : (forall i z v, (i <= n)%nat -> length (gz z i) = length (gv v i)) -> (forall i z v, (i <= n)%nat -> ev (gz z i) (gv v i) = vs (IZR z) (M v i)) ->
  (forall i a b, M (vp a b) i = vp (M a i) (M b i)) -> (forall i r a, M (vs r a) i = vs r (M a i)) ->
  forall p P, (forall i, (i <= n)%nat -> length (p i) = length (P i)) -> ev (hd_conv gz p n) (hd_conv gv P n) = pcl M (fun i => ev (p i) (P i)) n.
Proof.
  intros HL HE MA MS. induction n as [|n IH]; intros p P E; cbn [hd_conv pcl].
  - apply ev_flat; auto.
  - rewrite ev_app by (apply flat_map_len; [intros; apply HL; lia|apply E; lia]). f_equal; [apply ev_flat; auto; apply E; lia|]. apply (IH ltac:(intros; apply HL; lia) ltac:(intros; apply HE; lia) (tl p) (tl P)). intros i Hi. apply E. lia.
Qed.
Definition prodZ (l : list Z) : Z := fold_right Z.mul 1%Z l.
Lemma ev_mcv k : forall H n z p P, alin k H -> (forall i, (i <= n)%nat -> length (p i) = length (P i)) ->
  ev (mcv (fun l => (z * prodZ l)%Z) k p n) (mcv H k P n) = vs (IZR z) (mcl H (repeat (fun i => ev (p i) (P i)) k) n).
Proof.
  induction k as [|k IH]; intros H n z p P AL E.
  - destruct n; cbn; [rewrite Z.mul_1_r; vext|vext].
  - cbn [mcv repeat]. rewrite mcl_pcl, <- pcl_vs. apply (ev_hd _ _ (fun v i => vs (IZR z) (mcl (fun l => H (v :: l)) (repeat (fun i => ev (p i) (P i)) k) i))); [| | | |exact E].
    + intros i a v Hi. apply mcv_len. intros j Hj. apply E. lia.
    + intros i a v Hi. rewrite (mcv_ext k _ (fun l => (a * z * prodZ l)%Z) p p) by (reflexivity || (intros l; cbn [prodZ fold_right]; fold (prodZ l); ring)).
      rewrite IH; [rewrite mult_IZR, vs_vs; reflexivity|now apply alin_head|intros; apply E; lia].
    + intros i a b. rewrite <- vs_vp, <- mcl_plus. f_equal. apply mcl_ext. rewrite repeat_length. intros l El. destruct AL as [A1 _]. apply (A1 [] l). cbn. lia.
    + intros i r a. rewrite vs_vs, Rmult_comm, <- vs_vs. f_equal. rewrite <- mcl_vs. apply mcl_ext. rewrite repeat_length. intros l El. destruct AL as [_ A1]. apply (A1 [] l). cbn. lia.
Qed.

(** rows: order 0 is [a0]; order n+1 is d of order n, then N k of k rows (of order at least 1) of total order n, k = 0..4 *)
Definition vrow {A} (T : nat -> list A) : nat -> list A := cons0 [] (tl T).
Definition nblk {A B} (N : nat -> list A -> B) (T : nat -> list A) (n : nat) : list B :=
  mcv (N 0%nat) 0 T n ++ mcv (N 1%nat) 1 T n ++ mcv (N 2%nat) 2 T n ++ mcv (N 3%nat) 3 T n ++ mcv (N 4%nat) 4 T n.
Fixpoint tab {A} (d : A -> A) (N : nat -> list A -> A) (a0 : A) (m : nat) : list (list A) :=
  match m with
  | O => [[a0]]
  | S m => let t := tab d N a0 m in t ++ [map d (nth m t []) ++ nblk N (vrow (fun i => nth i t [])) m]
  end.
Definition row {A} (d : A -> A) (N : nat -> list A -> A) (a0 : A) (i : nat) : list A := nth i (tab d N a0 i) [].
Lemma tab_length {A} (d : A -> A) N a0 m : length (tab d N a0 m) = S m.
Proof. induction m as [|m IH]; [reflexivity|]. cbn [tab]. rewrite app_length, IH. cbn. lia. Qed.
Lemma tab_row {A} (d : A -> A) N a0 m : forall i, (i <= m)%nat -> nth i (tab d N a0 m) [] = row d N a0 i.
Proof.
  induction m as [|m IH]; intros i Hi; [now replace i with 0%nat by lia|]. destruct (Nat.eq_dec i (S m)) as [->|Ni]; [reflexivity|]. cbn [tab]. rewrite app_nth1 by (rewrite tab_length; lia). apply IH. lia.
Qed.
Lemma vrow_ext {A} (T T' : nat -> list A) n : (forall i, (i <= n)%nat -> T i = T' i) -> forall i, (i <= n)%nat -> vrow T i = vrow T' i.
Proof. intros H [|i] Hi; [reflexivity|]. apply (H (S i)). exact Hi. Qed.
Lemma vrow_len {A B} (T : nat -> list A) (T' : nat -> list B) n : (forall i, (i <= n)%nat -> length (T i) = length (T' i)) -> forall i, (i <= n)%nat -> length (vrow T i) = length (vrow T' i).
Proof. intros H [|i] Hi; [reflexivity|]. apply (H (S i)). exact Hi. Qed.
Lemma nblk_ext {A B} (N : nat -> list A -> B) T T' n : (forall i, (i <= n)%nat -> T i = T' i) -> nblk N T n = nblk N T' n.
Proof. intros H. unfold nblk. rewrite !(mcv_ext _ _ _ T T' n (fun l => eq_refl) H). reflexivity. Qed.
Lemma nblk_len {A A' B B'} (N : nat -> list A -> B) (N' : nat -> list A' -> B') T T' n : (forall i, (i <= n)%nat -> length (T i) = length (T' i)) -> length (nblk N T n) = length (nblk N' T' n).
Proof.
  intros H. unfold nblk. rewrite !app_length.
  rewrite (mcv_len 0 (N 0%nat) (N' 0%nat) T T' n H), (mcv_len 1 (N 1%nat) (N' 1%nat) T T' n H), (mcv_len 2 (N 2%nat) (N' 2%nat) T T' n H), (mcv_len 3 (N 3%nat) (N' 3%nat) T T' n H), (mcv_len 4 (N 4%nat) (N' 4%nat) T T' n H). reflexivity.
Qed.
Lemma row_S {A} (d : A -> A) N a0 n : row d N a0 (S n) = map d (row d N a0 n) ++ nblk N (vrow (row d N a0)) n.
Proof.
  unfold row at 1. cbn [tab]. rewrite app_nth2 by (rewrite tab_length; lia). rewrite tab_length, Nat.sub_diag. cbn [nth]. rewrite tab_row by lia. f_equal.
  apply nblk_ext, vrow_ext. intros i Hi. now apply tab_row.
Qed.
Lemma row_len {A B} (d : A -> A) N a0 (d' : B -> B) N' b0 n : length (row d N a0 n) = length (row d' N' b0 n).
Proof.
  induction n as [n IH] using lt_wf_ind. destruct n as [|n]; [reflexivity|]. rewrite !row_S, !app_length, !map_length. f_equal; [apply IH; lia|]. apply nblk_len, vrow_len. intros i Hi. apply IH. lia.
Qed.
Lemma nblk_in {A B} (N : nat -> list A -> B) T n b : In b (nblk N T n) -> exists k l, (k <= 4)%nat /\ length l = k /\ b = N k l /\ forall a, In a l -> exists i, (i <= n)%nat /\ In a (T i).
Proof.
  unfold nblk. rewrite !in_app_iff. intros [H|[H|[H|[H|H]]]]; apply mcv_in in H as (l & El & E & Hl); [exists 0%nat|exists 1%nat|exists 2%nat|exists 3%nat|exists 4%nat]; exists l; repeat split; try lia; assumption.
Qed.

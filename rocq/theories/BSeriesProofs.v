(** Series over rooted trees: how a smooth right-hand side acts on them, the series of the stages of a Runge-Kutta method and of
    the exact solution (used by C114). *)
From Coq Require Import Reals List ZArith Bool Arith Lia Lra Permutation FunctionalExtensionality.
From Coquelicot Require Import Coquelicot.
From Verif Require Import Base CNum NumPy SSFMGnlseProofs JetProofs RkJetProofs ODETreeProofs.
Import ListNotations.
Local Open Scope R_scope.
Local Notation z0 := (RtoC 0).

(** ** Sums over lists *)
Definition lsum {A} (l : list A) (f : A -> C) : C := fold_right (fun t s => f t + s)%C z0 l.
Section Sums.
  Context {A : Type}.
  Implicit Types (l : list A) (f g : A -> C).
  Lemma lsum_cons a l f : lsum (a :: l) f = (f a + lsum l f)%C. Proof. reflexivity. Qed.
  Lemma lsum_app l m f : lsum (l ++ m) f = (lsum l f + lsum m f)%C.
  Proof. induction l as [|a l IH]; [change (lsum m f = z0 + lsum m f)%C; ring|]. cbn [List.app]. rewrite !lsum_cons, IH. ring. Qed.
  Lemma lsum_ext l f g : (forall a, In a l -> f a = g a) -> lsum l f = lsum l g.
  Proof. intros H. induction l as [|a l IH]; [reflexivity|]. rewrite !lsum_cons, IH by (intros b Hb; apply H; now right). now rewrite (H a (or_introl eq_refl)). Qed.
  Lemma lsum_zero l f : (forall a, In a l -> f a = z0) -> lsum l f = z0.
  Proof. intros H. induction l as [|a l IH]; [reflexivity|]. rewrite lsum_cons, IH by (intros b Hb; apply H; now right). rewrite (H a (or_introl eq_refl)). ring. Qed.
  Lemma lsum_plus l f g : lsum l (fun a => f a + g a)%C = (lsum l f + lsum l g)%C.
  Proof. induction l as [|a l IH]; [unfold lsum; cbn [fold_right]; ring|]. rewrite !lsum_cons, IH. ring. Qed.
  Lemma lsum_scal l f (c : C) : lsum l (fun a => c * f a)%C = (c * lsum l f)%C.
  Proof. induction l as [|a l IH]; [unfold lsum; cbn [fold_right]; ring|]. rewrite !lsum_cons, IH. ring. Qed.
  Lemma lsum_filter (p : A -> bool) l f : lsum l f = (lsum (filter p l) f + lsum (filter (fun a => negb (p a)) l) f)%C.
  Proof. induction l as [|a l IH]; [unfold lsum; cbn [filter fold_right]; ring|]. cbn [filter]. destruct (p a); cbn [negb]; rewrite !lsum_cons, IH; ring. Qed.
  Lemma lsum_perm l m f : Permutation l m -> lsum l f = lsum m f.
  Proof. induction 1; [reflexivity|rewrite !lsum_cons; congruence|rewrite !lsum_cons; ring|congruence]. Qed.
  Lemma lsum_csum n l (f : nat -> A -> C) : csum n (fun i => lsum l (f i)) = lsum l (fun a => csum n (fun i => f i a)).
  Proof. induction l as [|a l IH]; [now apply csum_zero|]. rewrite lsum_cons, <- IH, <- csum_plus. apply csum_ext. intros i _. now rewrite lsum_cons. Qed.
End Sums.
Lemma lsum_map {A B} (g : A -> B) l f : lsum (map g l) f = lsum l (fun a => f (g a)).
Proof. induction l as [|a l IH]; [reflexivity|]. cbn [map]. now rewrite !lsum_cons, IH. Qed.
Lemma lsum_flat_map {A B} (g : A -> list B) l f : lsum (flat_map g l) f = lsum l (fun a => lsum (g a) f).
Proof. induction l as [|a l IH]; [reflexivity|]. cbn [flat_map]. now rewrite lsum_app, lsum_cons, IH. Qed.
Lemma csum_lsum n (g : nat -> C) : csum n g = lsum (seq 0 n) g.
Proof. induction n as [|n IH]; [reflexivity|]. rewrite csum_S, seq_S, lsum_app, IH. rewrite lsum_cons, Nat.add_0_l. change (lsum [] g) with z0. ring. Qed.
(** ** Functions of the step that vanish of a given order *)
(** A step: where it starts (an index into some family of starting points) and how long it is.  All constants are common to the family. *)
Record hs (I : Type) := at_ { pos : I; len :> R }.
Arguments at_ {I} _ _. Arguments pos {I} _. Arguments len {I} _.
Section Bo.
Context {I : Type}.
Definition bo (p : nat) (u : hs I -> C) : Prop := exists K h0, 0 <= K /\ 0 < h0 <= 1 /\ forall h : hs I, Rabs h <= h0 -> Cmod (u h) <= K * Rabs h ^ p.
Lemma bo_intro p u K h0 : 0 <= K -> 0 < h0 -> (forall h : hs I, Rabs h <= h0 -> Cmod (u h) <= K * Rabs h ^ p) -> bo p u.
Proof.
  intros HK H0 H. exists K, (Rmin h0 1). split; [exact HK|]. split; [split; [apply Rmin_glb_lt; lra|apply Rmin_r]|]. intros h Hh. apply H. eapply Rle_trans; [exact Hh|apply Rmin_l].
Qed.
Lemma bo_ext' p u v h1 : 0 < h1 -> (forall h : hs I, Rabs h <= h1 -> u h = v h) -> bo p u -> bo p v.
Proof.
  intros H1 E (K & h0 & HK & [H0 _] & H). apply (bo_intro p v K (Rmin h0 h1)); [exact HK|now apply Rmin_glb_lt|]. intros h Hh. rewrite <- E by (eapply Rle_trans; [exact Hh|apply Rmin_r]). apply H. eapply Rle_trans; [exact Hh|apply Rmin_l].
Qed.
Lemma bo_ext p u v : (forall h, u h = v h) -> bo p u -> bo p v. Proof. intros E. apply (bo_ext' p u v 1); [lra|auto]. Qed.
Lemma bo_zero p : bo p (fun _ => z0).
Proof. apply (bo_intro p _ 0 1); [lra|lra|]. intros h _. rewrite Cmod_0. lra. Qed.
Lemma bo_plus p u v : bo p u -> bo p v -> bo p (fun h => u h + v h)%C.
Proof.
  intros (K & h0 & HK & [H0 _] & H) (K' & h1 & HK' & [H1 _] & H'). apply (bo_intro p _ (K + K') (Rmin h0 h1)); [lra|now apply Rmin_glb_lt|]. intros h Hh. eapply Rle_trans; [apply Cmod_triangle|]. rewrite Rmult_plus_distr_r.
  apply Rplus_le_compat; [apply H|apply H']; (eapply Rle_trans; [exact Hh|]); [apply Rmin_l|apply Rmin_r].
Qed.
Lemma bo_opp p u : bo p u -> bo p (fun h => - u h)%C.
Proof. intros (K & h0 & HK & H0 & H). exists K, h0. split; [exact HK|]. split; [exact H0|]. intros h Hh. rewrite Cmod_opp. now apply H. Qed.
Lemma bo_minus p u v : bo p u -> bo p v -> bo p (fun h => u h - v h)%C.
Proof. intros H1 H2. apply (bo_plus p u (fun h => - v h)%C H1). now apply bo_opp. Qed.
Lemma bo_mult p q u v : bo p u -> bo q v -> bo (p + q) (fun h => u h * v h)%C.
Proof.
  intros (K & h0 & HK & [H0 _] & H) (K' & h1 & HK' & [H1 _] & H'). apply (bo_intro _ _ (K * K') (Rmin h0 h1)); [now apply Rmult_le_pos|now apply Rmin_glb_lt|]. intros h Hh. rewrite Cmod_mult, pow_add.
  replace (K * K' * (Rabs h ^ p * Rabs h ^ q)) with ((K * Rabs h ^ p) * (K' * Rabs h ^ q)) by ring. apply Rmult_le_compat; try apply Cmod_ge_0; [apply H|apply H']; (eapply Rle_trans; [exact Hh|]); [apply Rmin_l|apply Rmin_r].
Qed.
Lemma bo_const (c : C) : bo 0 (fun _ => c).
Proof. apply (bo_intro 0 _ (Cmod c) 1); [apply Cmod_ge_0|lra|]. intros h _. cbn. lra. Qed.
Lemma bo_pow k : bo k (fun h => RtoC (h ^ k)).
Proof. apply (bo_intro k _ 1 1); [lra|lra|]. intros h _. rewrite Cmod_R, <- RPow_abs. lra. Qed.
Lemma pow_mono_le x p q : 0 <= x <= 1 -> (p <= q)%nat -> x ^ q <= x ^ p.
Proof.
  intros Hx H. replace q with (p + (q - p))%nat by lia. rewrite pow_add. rewrite <- (Rmult_1_r (x ^ p)) at 2. apply Rmult_le_compat_l; [apply pow_le, Hx|]. rewrite <- (pow1 (q - p)). apply pow_incr. lra.
Qed.
Lemma bo_le p q u : (p <= q)%nat -> bo q u -> bo p u.
Proof.
  intros Hpq (K & h0 & HK & H0 & H). exists K, h0. split; [exact HK|]. split; [exact H0|]. intros h Hh. eapply Rle_trans; [apply H, Hh|]. apply Rmult_le_compat_l; [exact HK|]. apply pow_mono_le; [|exact Hpq]. split; [apply Rabs_pos|lra].
Qed.
Lemma bo_scal p (c : C) u : bo p u -> bo p (fun h => c * u h)%C.
Proof. intros H. exact (bo_mult 0 p _ u (bo_const c) H). Qed.
Lemma bo_lsum {A} p (l : list A) (u : A -> hs I -> C) : (forall a, In a l -> bo p (u a)) -> bo p (fun h => lsum l (fun a => u a h)).
Proof. intros H. induction l as [|a l IH]; [apply bo_zero|]. apply (bo_plus p (u a)); [apply H; now left|]. apply IH. intros b Hb. apply H. now right. Qed.
Lemma bo_csum p n (u : nat -> hs I -> C) : (forall i, (i < n)%nat -> bo p (u i)) -> bo p (fun h => csum n (fun i => u i h)).
Proof.
  intros H. induction n as [|n IH]; [apply (bo_ext p (fun _ => z0)); [intros h; now rewrite csum_0|apply bo_zero]|]. apply (bo_ext p (fun h => csum n (fun i => u i h) + u n h)%C); [intros h; now rewrite csum_S|].
  apply bo_plus; [apply IH; intros i Hi; apply H; lia|apply H; lia].
Qed.
Definition bd (N : nat) (v : nat -> C) (r : R) : Prop := forall i, (i < N)%nat -> Cmod (v i) <= r.
Lemma bo_unif p N (u : nat -> hs I -> C) : (forall j, (j < N)%nat -> bo p (u j)) -> exists K h0, 0 <= K /\ 0 < h0 <= 1 /\ forall h : hs I, Rabs h <= h0 -> bd N (fun j => u j h) (K * Rabs h ^ p).
Proof.
  induction N as [|N IH]; intros H.
  - exists 0, 1. split; [lra|]. split; [lra|]. intros h _ j Hj. lia.
  - destruct IH as (K & h0 & HK & H0 & B); [intros j Hj; apply H; lia|]. destruct (H N ltac:(lia)) as (K' & h1 & HK' & H1 & B').
    exists (K + K'), (Rmin h0 h1). split; [lra|]. split; [split; [apply Rmin_glb_lt; lra|eapply Rle_trans; [apply Rmin_l|lra]]|].
    intros h Hh j Hj. assert (P : 0 <= Rabs h ^ p) by (apply pow_le, Rabs_pos). assert (Q1 : Rabs h <= h0) by (eapply Rle_trans; [exact Hh|apply Rmin_l]). assert (Q2 : Rabs h <= h1) by (eapply Rle_trans; [exact Hh|apply Rmin_r]).
    pose proof (Rmult_le_pos _ _ HK P). pose proof (Rmult_le_pos _ _ HK' P). rewrite Rmult_plus_distr_r. destruct (Nat.eq_dec j N) as [->|Nj]; [specialize (B' h Q2); lra|specialize (B h Q1 j ltac:(lia)); cbv beta in B; lra].
Qed.
Lemma bo_bounded (v : I -> C) B : (forall a, Cmod (v a) <= B) -> bo 0 (fun h => v (pos h)).
Proof. intros H. apply (bo_intro 0 _ (Rmax 0 B) 1); [apply Rmax_l|lra|]. intros h _. cbn [pow]. rewrite Rmult_1_r. eapply Rle_trans; [apply H|apply Rmax_r]. Qed.
End Bo.
(** ** The Taylor expansion of a right-hand side phi(x, y) at (x0, y0), to degree 7: T[v1..vm] is the m-th derivative applied to
    v1..vm, whose entries 0..n-1 are increments of y and whose entry n is an increment of x *)
Definition incr (n : nat) (d : nat -> C) (xi : R) (j : nat) : C := if Nat.ltb j n then d j else if Nat.eqb j n then RtoC xi else z0.
Definition shifted (n : nat) (y : list C) (d : nat -> C) : list C := mk n (fun j => nth j y z0 + d j)%C.
Definition taylor7 (n : nat) (phi : R -> list C -> nat -> C) (x0 : R) (y0 : list C) (T : list (nat -> C) -> nat -> C) : Prop :=
  (forall l1 l2 u v (a : R) i, (i < n)%nat -> (length l1 + length l2 < 7)%nat ->
    T (l1 ++ (fun j => RtoC a * u j + v j)%C :: l2) i = (RtoC a * T (l1 ++ u :: l2) i + T (l1 ++ v :: l2) i)%C) /\
  exists M r, 0 <= M /\ 0 < r /\
  (forall l rs i, (i < n)%nat -> (length l <= 7)%nat -> Forall2 (bd (S n)) l rs -> Cmod (T l i) <= M * rprod rs) /\
  (forall d xi q i, (i < n)%nat -> q <= r -> Rabs xi <= q -> bd n d q ->
    Cmod (phi (x0 + xi)%R (shifted n y0 d) i - csum 8 (fun m => RtoC (/ INR (fact m)) * T (repeat (incr n d xi) m) i))%C <= M * q ^ 8).
(** the same over a family of starting points, with common constants *)
Definition utaylor7 {I : Type} (n : nat) (phi : R -> list C -> nat -> C) (x0 : I -> R) (y0 : I -> list C) (T : I -> list (nat -> C) -> nat -> C) : Prop :=
  (forall o l1 l2 u v (a : R) i, (i < n)%nat -> (length l1 + length l2 < 7)%nat ->
    T o (l1 ++ (fun j => RtoC a * u j + v j)%C :: l2) i = (RtoC a * T o (l1 ++ u :: l2) i + T o (l1 ++ v :: l2) i)%C) /\
  exists M r, 0 <= M /\ 0 < r /\ forall o,
  (forall l rs i, (i < n)%nat -> (length l <= 7)%nat -> Forall2 (bd (S n)) l rs -> Cmod (T o l i) <= M * rprod rs) /\
  (forall d xi q i, (i < n)%nat -> q <= r -> Rabs xi <= q -> bd n d q ->
    Cmod (phi (x0 o + xi)%R (shifted n (y0 o) d) i - csum 8 (fun m => RtoC (/ INR (fact m)) * T o (repeat (incr n d xi) m) i))%C <= M * q ^ 8).
Lemma taylor7_unit n phi x0 y0 T : taylor7 n phi x0 y0 T -> utaylor7 (I := unit) n phi (fun _ => x0) (fun _ => y0) (fun _ => T).
Proof. intros (H & M & r & HM & Hr & B & C). split; [intros _; exact H|]. exists M, r. split; [exact HM|]. split; [exact Hr|]. intros _. split; assumption. Qed.
Lemma utaylor7_at {I} n phi (x0 : I -> R) y0 T o : utaylor7 n phi x0 y0 T -> taylor7 n phi (x0 o) (y0 o) (T o).
Proof. intros (H & M & r & HM & Hr & B). split; [apply H|]. exists M, r. split; [exact HM|]. split; [exact Hr|]. apply B. Qed.
(** elementary differentials and the weights of their symmetries *)
Fixpoint tel (n : nat) (T : list (nat -> C) -> nat -> C) (t : tree) : nat -> C :=
  match t with
  | TX => fun j => if Nat.eqb j n then RtoC 1 else z0
  | TN l => fun j => if Nat.ltb j n then T (map (tel n T) l) j else z0
  end.
Fixpoint tw (t : tree) : R := match t with TX => 1 | TN l => / INR (fact (length l)) * rprod (map tw l) end.
Definition fw (l : list tree) : R := / INR (fact (length l)) * rprod (map tw l).
(** all trees up to a size *)
Fixpoint tup (L : list tree) (m : nat) : list (list tree) := match m with O => [[]] | S m => flat_map (fun t => map (cons t) (tup L m)) L end.
Definition forests (L : list tree) (p : nat) : list (list tree) := filter (fun l => Nat.leb (fsize l) p) (flat_map (tup L) (seq 0 8)).
Fixpoint trees (p : nat) : list tree := match p with O => [] | S p => TX :: map TN (forests (trees p) p) end.

Section Series.
  Context {I : Type}.
  Variables (n : nat) (phi : R -> list C -> nat -> C) (x0 : I -> R) (y0 : I -> list C) (T : I -> list (nat -> C) -> nat -> C).
  Hypothesis HT : utaylor7 n phi x0 y0 T.
  Notation el h := (tel n (T (pos h))).
  Lemma T_add o l1 l2 u v (a : R) i : (i < n)%nat -> (length l1 + length l2 < 7)%nat -> T o (l1 ++ (fun j => RtoC a * u j + v j)%C :: l2) i = (RtoC a * T o (l1 ++ u :: l2) i + T o (l1 ++ v :: l2) i)%C.
  Proof. apply HT. Qed.
  Lemma T_lsum {A} (L : list A) (cf : A -> R) (w : A -> nat -> C) (rho : nat -> C) o l1 l2 i : (i < n)%nat -> (length l1 + length l2 < 7)%nat ->
    T o (l1 ++ (fun j => lsum L (fun t => RtoC (cf t) * w t j) + rho j)%C :: l2) i = (lsum L (fun t => RtoC (cf t) * T o (l1 ++ w t :: l2) i) + T o (l1 ++ rho :: l2) i)%C.
  Proof.
    intros Hi HL. induction L as [|t L IH].
    - cbn [lsum fold_right]. replace (fun j => z0 + rho j)%C with rho by (apply functional_extensionality; intros j; ring). ring.
    - rewrite lsum_cons, <- Cplus_assoc, <- IH, <- (T_add o l1 l2 (w t) _ (cf t) i Hi HL). f_equal. f_equal. f_equal. apply functional_extensionality. intros j. rewrite lsum_cons. ring.
  Qed.
  Lemma T_bound : exists M, 0 <= M /\ forall o l rs i, (i < n)%nat -> (length l <= 7)%nat -> Forall2 (bd (S n)) l rs -> Cmod (T o l i) <= M * rprod rs.
  Proof. destruct HT as (_ & M & r & HM & _ & B). exists M. split; [exact HM|]. intros o. apply B. Qed.
  Lemma rprod_nonneg rs : List.Forall (fun r => 0 <= r) rs -> 0 <= rprod rs.
  Proof. unfold rprod. induction 1; cbn; [lra|]. now apply Rmult_le_pos. Qed.
  Lemma Forall2_repeat {A B} (Q : A -> B -> Prop) a b m : Q a b -> Forall2 Q (repeat a m) (repeat b m).
  Proof. intros H. induction m; cbn; constructor; assumption. Qed.
  Lemma rprod_repeat b m : rprod (repeat b m) = b ^ m.
  Proof. unfold rprod. induction m as [|m IH]; cbn; [reflexivity|]. now rewrite IH. Qed.

  (** the elementary differentials of the trees in use are bounded over the family *)
  Lemma els_bounded (l : list tree) : (forall t, In t l -> exists r, 0 <= r /\ forall o, bd (S n) (tel n (T o) t) r) ->
    exists rs, List.Forall (fun r => 0 <= r) rs /\ forall o, Forall2 (bd (S n)) (map (tel n (T o)) l) rs.
  Proof.
    induction l as [|t l IH]; intros H; [exists []; split; [constructor|intros o; constructor]|]. destruct IH as (rs & P & B); [intros u Hu; apply H; now right|]. destruct (H t (or_introl eq_refl)) as (r & Hr & Br).
    exists (r :: rs). split; [now constructor|]. intros o. cbn [map]. constructor; [apply Br|apply B].
  Qed.
  Lemma tup_in L m l : In l (tup L m) -> length l = m /\ forall t, In t l -> In t L.
  Proof.
    revert l. induction m as [|m IH]; intros l H; [destruct H as [<- | []]; split; [reflexivity|intros t []]|]. cbn [tup] in H. apply in_flat_map in H. destruct H as (u & Hu & H). apply in_map_iff in H. destruct H as (l' & <- & H). destruct (IH l' H) as [E Q]. split; [cbn; now rewrite E|]. intros t [<-|Ht]; [exact Hu|now apply Q].
  Qed.
  Lemma el_bounded p : forall t, In t (trees p) -> exists r, 0 <= r /\ forall o, bd (S n) (tel n (T o) t) r.
  Proof.
    induction p as [|p IH]; intros t Ht; [contradiction|]. cbn [trees] in Ht. destruct Ht as [<-|Ht].
    - exists 1. split; [lra|]. intros o j _. cbn [tel]. destruct (Nat.eqb j n); [rewrite Cmod_1|rewrite Cmod_0]; lra.
    - apply in_map_iff in Ht. destruct Ht as (l & <- & Hl). unfold forests in Hl. apply filter_In in Hl. destruct Hl as (Hl & _). apply in_flat_map in Hl. destruct Hl as (m & Hm & Hl). apply in_seq in Hm. destruct (tup_in _ _ _ Hl) as [El Il].
      destruct (els_bounded l) as (rs & Prs & Brs); [intros u Hu; apply IH, Il, Hu|]. destruct T_bound as (M & HM & B). pose proof (rprod_nonneg rs Prs). exists (M * rprod rs). split; [now apply Rmult_le_pos|]. intros o j Hj. cbn [tel].
      destruct (Nat.ltb_spec j n) as [H1|H1]; [|rewrite Cmod_0; now apply Rmult_le_pos]. apply B; [exact H1|rewrite map_length; lia|apply Brs].
  Qed.
  Lemma T_el_bo0 p m l i : In l (tup (trees p) m) -> (m <= 7)%nat -> (i < n)%nat -> bo 0 (fun h => T (pos h) (map (el h) l) i).
  Proof.
    intros Hl Hm Hi. destruct (tup_in _ _ _ Hl) as [El Il]. destruct (els_bounded l) as (rs & Prs & Brs); [intros u Hu; apply (el_bounded p), Il, Hu|]. destruct T_bound as (M & HM & B).
    apply (bo_bounded (fun o => T o (map (tel n (T o)) l) i) (M * rprod rs)). intros o. apply B; [exact Hi|rewrite map_length; lia|apply Brs].
  Qed.
  Lemma T_forest_bo0 p l i : In l (forests (trees p) p) -> (i < n)%nat -> bo 0 (fun h => T (pos h) (map (el h) l) i).
  Proof.
    intros Hl Hi. unfold forests in Hl. apply filter_In in Hl. destruct Hl as (Hl & _). apply in_flat_map in Hl. destruct Hl as (m & Hm & Hl). apply in_seq in Hm. apply (T_el_bo0 p m l i Hl); [lia|exact Hi].
  Qed.
  (** ** Substituting a series into the Taylor polynomial *)
  Section Expand.
    Variables (L : list tree) (cf : hs I -> tree -> R) (dl : hs I -> nat -> C) (p : nat).
    Hypothesis Hcf : forall t, In t L -> bo 0 (fun h => RtoC (cf h t)).
    Hypothesis Hdl0 : forall j, (j < S n)%nat -> bo 0 (fun h => dl h j).
    Hypothesis Hdl : forall j, (j < S n)%nat -> bo p (fun h => dl h j - lsum L (fun t => RtoC (cf h t) * el h t j))%C.
    Hypothesis Hel : forall t, In t L -> exists r, 0 <= r /\ forall o, bd (S n) (tel n (T o) t) r.
    Definition cfp (h : hs I) (l : list tree) : R := rprod (map (cf h) l).
    Lemma expand i : (i < n)%nat -> forall m k (pre : I -> list (nat -> C)) rs, (forall o, length (pre o) = k) -> List.Forall (fun r => 0 <= r) rs -> (forall o, Forall2 (bd (S n)) (pre o) rs) -> (k + m <= 7)%nat ->
      bo p (fun h => T (pos h) (pre (pos h) ++ repeat (dl h) m) i - lsum (tup L m) (fun l => RtoC (cfp h l) * T (pos h) (pre (pos h) ++ map (el h) l) i))%C.
    Proof.
      intros Hi. induction m as [|m IH]; intros k pre rs Hk Prs Brs HL.
      - apply (bo_ext p (fun _ => z0)); [|apply bo_zero]. intros h. cbn [repeat tup lsum fold_right map]. unfold cfp, rprod. cbn [map fold_right]. ring.
      - set (rho := fun h j => (dl h j - lsum L (fun t => RtoC (cf h t) * el h t j))%C).
        apply (bo_ext p (fun h => T (pos h) (pre (pos h) ++ rho h :: repeat (dl h) m) i + lsum L (fun t => RtoC (cf h t) * (T (pos h) ((pre (pos h) ++ [el h t]) ++ repeat (dl h) m) i - lsum (tup L m) (fun l => RtoC (cfp h l) * T (pos h) ((pre (pos h) ++ [el h t]) ++ map (el h) l) i))))%C).
        + intros h. cbn [repeat tup]. rewrite lsum_flat_map.
          assert (E1 : T (pos h) (pre (pos h) ++ dl h :: repeat (dl h) m) i = (lsum L (fun t => RtoC (cf h t) * T (pos h) (pre (pos h) ++ el h t :: repeat (dl h) m) i) + T (pos h) (pre (pos h) ++ rho h :: repeat (dl h) m) i)%C).
          { rewrite <- T_lsum by (try exact Hi; rewrite Hk, repeat_length; lia). f_equal. f_equal. f_equal. apply functional_extensionality. intros j. unfold rho. ring. }
          rewrite E1. match goal with |- (?a + ?b)%C = (?c + ?a - ?d)%C => replace b with (c - d)%C; [ring|] end.
          transitivity (lsum L (fun t => RtoC (cf h t) * T (pos h) (pre (pos h) ++ el h t :: repeat (dl h) m) i + (RtoC (-1)) * lsum (map (cons t) (tup L m)) (fun l => RtoC (cfp h l) * T (pos h) (pre (pos h) ++ map (el h) l) i))%C).
          * rewrite lsum_plus, lsum_scal. replace (RtoC (-1)) with (- RtoC 1)%C by (rewrite <- RtoC_opp; reflexivity). ring.
          * apply lsum_ext. intros t _. assert (Q : forall l, (pre (pos h) ++ [el h t]) ++ l = pre (pos h) ++ el h t :: l) by (intros l; now rewrite <- app_assoc). rewrite lsum_map. replace (RtoC (-1)) with (- RtoC 1)%C by (rewrite <- RtoC_opp; reflexivity).
            assert (E2 : lsum (tup L m) (fun l => RtoC (cfp h (t :: l)) * T (pos h) (pre (pos h) ++ map (el h) (t :: l)) i)%C = (RtoC (cf h t) * lsum (tup L m) (fun l => RtoC (cfp h l) * T (pos h) ((pre (pos h) ++ [el h t]) ++ map (el h) l) i))%C).
            { rewrite <- lsum_scal. apply lsum_ext. intros l _. rewrite Q. unfold cfp. cbn [map]. unfold rprod. cbn [fold_right]. rewrite RtoC_mult. ring. }
            rewrite E2, Q. ring.
        + apply bo_plus.
          * destruct T_bound as (M & HM & B). destruct (bo_unif p (S n) (fun j h => rho h j)) as (K & h0 & HK & H0 & Brho); [exact Hdl|]. destruct (bo_unif 0 (S n) (fun j h => dl h j)) as (K' & h1 & HK' & H1 & Bd); [exact Hdl0|].
            pose proof (rprod_nonneg rs Prs) as PR. assert (PK : 0 <= K' ^ m) by (apply pow_le, HK').
            apply (bo_intro p _ (M * rprod rs * K * K' ^ m) (Rmin h0 h1)); [repeat apply Rmult_le_pos; assumption|apply Rmin_glb_lt; lra|].
            intros h Hh. eapply Rle_trans; [apply (B (pos h) _ (rs ++ (K * Rabs h ^ p) :: repeat K' m) i Hi); [rewrite app_length, Hk; cbn [length]; rewrite repeat_length; lia|]|].
            { apply Forall2_app; [apply Brs|]. constructor; [apply Brho; eapply Rle_trans; [exact Hh|apply Rmin_l]|]. apply Forall2_repeat. intros j Hj. specialize (Bd h ltac:(eapply Rle_trans; [exact Hh|apply Rmin_r]) j Hj). cbn [pow] in Bd. lra. }
            rewrite rprod_app. unfold rprod at 2. cbn [fold_right]. fold (rprod (repeat K' m)). rewrite rprod_repeat. right. ring.
          * apply bo_lsum. intros t Ht. apply (bo_mult 0 p); [apply Hcf, Ht|]. destruct (Hel t Ht) as (r & Hr & Br). apply (IH (S k) (fun o => pre o ++ [tel n (T o) t]) (rs ++ [r])); [intros o; rewrite app_length, Hk; cbn [length]; lia|apply Forall_app; split; [exact Prs|now constructor]|intros o; apply Forall2_app; [apply Brs|constructor; [apply Br|constructor]]|lia].
    Qed.
  End Expand.

  Lemma tup_len L m l : In l (tup L m) -> length l = m. Proof. intros H. apply (tup_in L m l H). Qed.
  Lemma cfp_series (a : tree -> R) (h : hs I) l : cfp (fun (h : hs I) t => h ^ tsize t * tw t * a t) h l = h ^ fsize l * rprod (map tw l) * rprod (map a l).
  Proof.
    unfold cfp, fsize. induction l as [|t l IH]; [cbn; ring|]. cbn [map list_sum fold_right]. unfold rprod in *. cbn [fold_right]. rewrite IH. change (fold_right Nat.add 0%nat (map tsize l)) with (list_sum (map tsize l)). rewrite pow_add. ring.
  Qed.
  (** phi at a point given by a tree series *)
  Lemma substitute p (dl : hs I -> nat -> C) (xi : hs I -> R) (a : tree -> R) : (p <= 7)%nat -> (forall h, dl h n = RtoC (xi h)) ->
    (forall j, (j < S n)%nat -> bo 1 (fun h => dl h j)) ->
    (forall j, (j < S n)%nat -> bo (S p) (fun h => dl h j - lsum (trees p) (fun t => RtoC (h ^ tsize t * tw t * a t) * el h t j))%C) ->
    forall i, (i < n)%nat -> bo (S p) (fun h => phi (x0 (pos h) + xi h)%R (shifted n (y0 (pos h)) (dl h)) i - lsum (forests (trees p) p) (fun l => RtoC (h ^ fsize l * fw l * rprod (map a l)) * T (pos h) (map (el h) l) i))%C.
  Proof.
    intros Hp Hxi H1 H i Hi. set (cf := fun (h : hs I) t => h ^ tsize t * tw t * a t).
    assert (E : forall m, (m < 8)%nat -> bo (S p) (fun h => RtoC (/ INR (fact m)) * (T (pos h) (repeat (incr n (dl h) (xi h)) m) i - lsum (tup (trees p) m) (fun l => RtoC (cfp cf h l) * T (pos h) (map (el h) l) i)))%C).
    { intros m Hm. apply bo_scal. apply (expand (trees p) cf (fun h => incr n (dl h) (xi h)) (S p)) with (pre := fun _ => []) (k := 0%nat) (rs := []); [| | |intros t Ht; exact (el_bounded p t Ht)|exact Hi|reflexivity|constructor|intros o; constructor|lia].
      - intros t _. unfold cf. apply (bo_ext 0 (fun h => RtoC (tw t * a t) * RtoC (h ^ tsize t))%C); [intros h; rewrite <- RtoC_mult; f_equal; ring|]. apply bo_scal. apply (bo_le 0 (tsize t)); [lia|apply bo_pow].
      - intros j Hj. apply (bo_le 0 1); [lia|]. apply (bo_ext 1 (fun h => dl h j)); [|now apply H1]. intros h. unfold incr. destruct (Nat.ltb_spec j n); [reflexivity|]. assert (j = n) by lia. subst j. rewrite Nat.eqb_refl. apply Hxi.
      - intros j Hj. apply (bo_ext (S p) (fun h => dl h j - lsum (trees p) (fun t => RtoC (cf h t) * el h t j))%C); [|now apply H]. intros h. f_equal. unfold incr. destruct (Nat.ltb_spec j n); [reflexivity|]. assert (j = n) by lia. subst j. rewrite Nat.eqb_refl. apply Hxi. }
    apply (bo_csum (S p) 8) in E.
    assert (Rm : bo (S p) (fun h => phi (x0 (pos h) + xi h)%R (shifted n (y0 (pos h)) (dl h)) i - csum 8 (fun m => RtoC (/ INR (fact m)) * T (pos h) (repeat (incr n (dl h) (xi h)) m) i))%C).
    { apply (bo_le (S p) 8); [lia|]. destruct (bo_unif 1 (S n) (fun j h => dl h j) H1) as (K & h0 & HK & H0 & B). destruct HT as (_ & M & r & HM & Hr & RT0).
      apply (bo_intro 8 _ (M * K ^ 8) (Rmin h0 (r / (K + 1)))); [apply Rmult_le_pos; [exact HM|now apply pow_le]|apply Rmin_glb_lt; [lra|apply Rdiv_lt_0_compat; lra]|].
      intros h Hh. assert (Q0 : Rabs h <= h0) by (eapply Rle_trans; [exact Hh|apply Rmin_l]). assert (Q1 : Rabs h <= r / (K + 1)) by (eapply Rle_trans; [exact Hh|apply Rmin_r]). specialize (B h Q0). rewrite pow_1 in B.
      rewrite Rmult_assoc, <- Rpow_mult_distr. apply (RT0 (pos h)); [exact Hi| | |intros j Hj; apply B; lia].
      - apply (Rmult_le_compat_l (K + 1)) in Q1; [|lra]. replace ((K + 1) * (r / (K + 1))) with r in Q1 by (field; lra). pose proof (Rabs_pos h). nra.
      - specialize (B n ltac:(lia)). cbv beta in B. rewrite Hxi, Cmod_R in B. exact B. }
    assert (Tl : bo (S p) (fun h => lsum (filter (fun l => negb (Nat.leb (fsize l) p)) (flat_map (tup (trees p)) (seq 0 8))) (fun l => RtoC (h ^ fsize l * fw l * rprod (map a l)) * T (pos h) (map (el h) l) i))%C).
    { apply bo_lsum. intros l Hl. apply filter_In in Hl. destruct Hl as (Il & Hl). apply in_flat_map in Il. destruct Il as (m & Hm & Il). apply in_seq in Hm. apply negb_true_iff, Nat.leb_gt in Hl.
      apply (bo_ext (S p) (fun h => (RtoC (fw l * rprod (map a l)) * T (pos h) (map (el h) l) i) * RtoC (h ^ fsize l))%C); [intros h; rewrite !RtoC_mult; ring|]. apply (bo_mult 0 (S p)); [apply bo_scal, (T_el_bo0 p m l i Il); [lia|exact Hi]|]. apply (bo_le (S p) (fsize l)); [lia|apply bo_pow]. }
    apply (bo_ext (S p) (fun h => (phi (x0 (pos h) + xi h)%R (shifted n (y0 (pos h)) (dl h)) i - csum 8 (fun m => RtoC (/ INR (fact m)) * T (pos h) (repeat (incr n (dl h) (xi h)) m) i)) +
       (csum 8 (fun m => RtoC (/ INR (fact m)) * (T (pos h) (repeat (incr n (dl h) (xi h)) m) i - lsum (tup (trees p) m) (fun l => RtoC (cfp cf h l) * T (pos h) (map (el h) l) i))) +
        lsum (filter (fun l => negb (Nat.leb (fsize l) p)) (flat_map (tup (trees p)) (seq 0 8))) (fun l => RtoC (h ^ fsize l * fw l * rprod (map a l)) * T (pos h) (map (el h) l) i)))%C).
    2:{ apply bo_plus; [exact Rm|]. apply bo_plus; [exact E|exact Tl]. }
    intros h. set (g := fun l => (RtoC (h ^ fsize l * fw l * rprod (map a l)) * T (pos h) (map (el h) l) i)%C). set (G := lsum (flat_map (tup (trees p)) (seq 0 8)) g).
    assert (S1 : G = (lsum (forests (trees p) p) g + lsum (filter (fun l => negb (Nat.leb (fsize l) p)) (flat_map (tup (trees p)) (seq 0 8))) g)%C) by apply lsum_filter.
    assert (S2 : G = csum 8 (fun m => RtoC (/ INR (fact m)) * lsum (tup (trees p) m) (fun l => RtoC (cfp cf h l) * T (pos h) (map (el h) l) i))%C).
    { unfold G. rewrite lsum_flat_map. transitivity (csum 8 (fun m => lsum (tup (trees p) m) g)); [symmetry; apply csum_lsum|]. apply csum_ext. intros m _. rewrite <- lsum_scal. apply lsum_ext. intros l Hl. unfold g. unfold cf. rewrite (cfp_series a h l). unfold fw. rewrite (tup_len _ _ _ Hl), !RtoC_mult. ring. }
    rewrite (csum_ext 8 (fun m => RtoC (/ INR (fact m)) * (T (pos h) (repeat (incr n (dl h) (xi h)) m) i - _))%C (fun m => RtoC (/ INR (fact m)) * T (pos h) (repeat (incr n (dl h) (xi h)) m) i + - (RtoC (/ INR (fact m)) * lsum (tup (trees p) m) (fun l => RtoC (cfp cf h l) * T (pos h) (map (el h) l) i)))%C) by (intros m _; ring).
    rewrite csum_plus, csum_opp, <- S2, S1. ring.
  Qed.
End Series.
(** ** Trees split by their root *)
Section Els.
  Variable n : nat.
  Notation F p := (forests (trees p) p).
  Lemma el_TN T' l i : (i < n)%nat -> tel n T' (TN l) i = T' (map (tel n T') l) i.
  Proof. intros H. cbn [tel]. apply Nat.ltb_lt in H. now rewrite H. Qed.
  Lemma el_TN_n T' l : tel n T' (TN l) n = z0.
  Proof. cbn [tel]. now rewrite Nat.ltb_irrefl. Qed.
  Lemma el_TX T' i : (i < n)%nat -> tel n T' TX i = z0.
  Proof. intros H. cbn [tel]. destruct (Nat.eqb_spec i n); [lia|reflexivity]. Qed.
  Lemma el_TX_n T' : tel n T' TX n = RtoC 1.
  Proof. cbn [tel]. now rewrite Nat.eqb_refl. Qed.
  Lemma lsum_trees T' p (w : tree -> R) j : lsum (trees (S p)) (fun t => RtoC (w t) * tel n T' t j)%C = (RtoC (w TX) * tel n T' TX j + lsum (F p) (fun f => RtoC (w (TN f)) * tel n T' (TN f) j))%C.
  Proof. cbn [trees]. rewrite lsum_cons, lsum_map. reflexivity. Qed.
End Els.
(** ** The stages of a method *)
(** the increments of stage m for given values of the stages *)
Definition dst (n s : nat) (a : nat -> nat -> R) (c : nat -> R) (kk : nat -> R -> nat -> C) (m : nat) (h : R) (j : nat) : C := if Nat.ltb j n then (RtoC h * csum s (fun l => RtoC (a m l) * kk l h j))%C else if Nat.eqb j n then RtoC (c m * h) else z0.
Lemma dst_lt n s a c kk m h j : (j < n)%nat -> dst n s a c kk m h j = (RtoC h * csum s (fun l => RtoC (a m l) * kk l h j))%C.
Proof. intros H. unfold dst. now apply Nat.ltb_lt in H; rewrite H. Qed.
Lemma dst_n n s a c kk m h : dst n s a c kk m h n = RtoC (c m * h).
Proof. unfold dst. now rewrite Nat.ltb_irrefl, Nat.eqb_refl. Qed.
Section Method.
  Context {I : Type}.
  Variables (n : nat) (phi : R -> list C -> nat -> C) (x0 : I -> R) (y0 : I -> list C) (T : I -> list (nat -> C) -> nat -> C).
  Hypothesis HT : utaylor7 n phi x0 y0 T.
  Variables (s : nat) (a : nat -> nat -> R) (c : nat -> R) (kk : nat -> hs I -> nat -> C).
  Notation el h := (tel n (T (pos h))).
  Definition dsth (m : nat) (h : hs I) (j : nat) : C := dst n s a c (fun l _ => kk l h) m h j.
  Notation F p := (forests (trees p) p).
  Hypothesis Hk : forall m h i, (m < s)%nat -> (i < n)%nat -> kk m h i = phi (x0 (pos h) + c m * h)%R (shifted n (y0 (pos h)) (dsth m h)) i.
  Hypothesis Hlow : forall m l, (m <= l)%nat -> a m l = 0.
  Lemma dsth_lt m h j : (j < n)%nat -> dsth m h j = (RtoC h * csum s (fun l => RtoC (a m l) * kk l h j))%C.
  Proof. intros H. unfold dsth. now rewrite dst_lt by exact H. Qed.
  Lemma dsth_n m h : dsth m h n = RtoC (c m * h).
  Proof. apply dst_n. Qed.
  Lemma bo_h : bo 1 (fun h : hs I => RtoC h).
  Proof. apply (bo_ext 1 (fun h : hs I => RtoC (h ^ 1))); [intros h; now rewrite pow_1|apply bo_pow]. Qed.
  Lemma dst_bo1 m : (forall l i, (l < m)%nat -> (l < s)%nat -> (i < n)%nat -> bo 0 (fun h => kk l h i)) -> forall j, (j < S n)%nat -> bo 1 (fun h => dsth m h j).
  Proof.
    intros H j Hj. destruct (lt_dec j n) as [Hn|Hn].
    - apply (bo_ext 1 (fun h => RtoC h * csum s (fun l => RtoC (a m l) * kk l h j))%C); [intros h; symmetry; now apply dsth_lt|]. apply (bo_mult 1 0); [apply bo_h|]. apply (bo_csum 0 s (fun l h => RtoC (a m l) * kk l h j)%C). intros l Hl.
      destruct (lt_dec l m) as [Hm|Hm]; [apply bo_scal; now apply H|]. apply (bo_ext 0 (fun _ => z0)); [|apply bo_zero]. intros h. rewrite Hlow by lia. ring.
    - assert (j = n) by lia. subst j. apply (bo_ext 1 (fun h => RtoC (c m) * RtoC h)%C); [intros h; now rewrite dsth_n, RtoC_mult|]. apply bo_scal, bo_h.
  Qed.
  Lemma lsum_bo0 {A} (L : list A) (k : A -> nat) (w : A -> R) (v : A -> hs I -> C) : (forall l, In l L -> bo 0 (v l)) -> bo 0 (fun h => lsum L (fun l => RtoC (h ^ k l * w l) * v l h)%C).
  Proof.
    intros Hv. apply (bo_lsum 0 L (fun l h => RtoC (h ^ k l * w l) * v l h)%C). intros l Hl. apply (bo_ext 0 (fun h => (RtoC (w l) * v l h) * RtoC (h ^ k l))%C); [intros h; rewrite RtoC_mult; ring|]. apply (bo_mult 0 0); [apply bo_scal, Hv, Hl|]. apply (bo_le 0 (k l)); [lia|apply bo_pow].
  Qed.
  Lemma kk_bo0 m : (m < s)%nat -> forall i, (i < n)%nat -> bo 0 (fun h => kk m h i).
  Proof.
    induction m as [m IH] using lt_wf_ind. intros Hm i Hi. assert (D : forall j, (j < S n)%nat -> bo 1 (fun h => dsth m h j)) by (apply dst_bo1; intros l i' H1 H2 H3; now apply IH).
    pose proof (substitute n phi x0 y0 T HT 0 (dsth m) (fun h : hs I => c m * h) (fun _ => 0) ltac:(lia) (dsth_n m) D) as S0.
    assert (S1 : forall j, (j < S n)%nat -> bo 1 (fun h => dsth m h j - lsum (trees 0) (fun t => RtoC (h ^ tsize t * tw t * 0) * el h t j))%C).
    { intros j Hj. apply (bo_ext 1 (fun h => dsth m h j)); [|now apply D]. intros h. cbn [trees]. change (lsum [] _) with z0. ring. }
    specialize (S0 S1 i Hi). apply (bo_ext 0 (fun h => (phi (x0 (pos h) + c m * h)%R (shifted n (y0 (pos h)) (dsth m h)) i - lsum (F 0) (fun l => RtoC (h ^ fsize l * fw l * rprod (map (fun _ => 0) l)) * T (pos h) (map (el h) l) i)) + lsum (F 0) (fun l => RtoC (h ^ fsize l * (fw l * rprod (map (fun _ => 0) l))) * T (pos h) (map (el h) l) i))%C).
    - intros h. rewrite <- (Hk m h i Hm Hi). rewrite (lsum_ext (F 0) (fun l => RtoC (h ^ fsize l * (fw l * _)) * _)%C (fun l => RtoC (h ^ fsize l * fw l * rprod (map (fun _ => 0) l)) * T (pos h) (map (el h) l) i)%C) by (intros l _; now rewrite Rmult_assoc). ring.
    - apply bo_plus; [apply (bo_le 0 1); [lia|exact S0]|]. apply (lsum_bo0 (F 0) fsize (fun l => fw l * rprod (map (fun _ => 0) l)) (fun l h => T (pos h) (map (el h) l) i)). intros l Hl. exact (T_forest_bo0 n phi x0 y0 T HT 0 l i Hl Hi).
  Qed.
  Lemma dst_bo m j : (j < S n)%nat -> bo 1 (fun h => dsth m h j).
  Proof. apply dst_bo1. intros l i _ Hl Hi. now apply kk_bo0. Qed.
  Definition level (p : nat) : Prop := forall m j, (m < s)%nat -> (j < S n)%nat -> bo (S p) (fun h => dsth m h j - lsum (trees p) (fun t => RtoC (h ^ tsize t * tw t * tphi s a c t m) * el h t j))%C.
  (** any combination of the stages *)
  Lemma weighted p (be : nat -> R) : level p -> (p <= 7)%nat -> forall i, (i < n)%nat ->
    bo (S p) (fun h => csum s (fun l => RtoC (be l) * kk l h i) - lsum (F p) (fun f => RtoC (h ^ fsize f * fw f * rsum s (fun l => be l * fphi s a c f l)%R) * T (pos h) (map (el h) f) i))%C.
  Proof.
    intros HL Hp i Hi. apply (bo_ext (S p) (fun h => csum s (fun l => RtoC (be l) * (kk l h i - lsum (F p) (fun f => RtoC (h ^ fsize f * fw f * fphi s a c f l) * T (pos h) (map (el h) f) i))))%C).
    - intros h. rewrite (csum_ext s (fun l => RtoC (be l) * (kk l h i - _))%C (fun l => RtoC (be l) * kk l h i + - lsum (F p) (fun f => RtoC (be l) * (RtoC (h ^ fsize f * fw f * fphi s a c f l) * T (pos h) (map (el h) f) i)))%C) by (intros l _; rewrite lsum_scal; ring).
      rewrite csum_plus, csum_opp, lsum_csum. unfold Cminus. f_equal. f_equal. apply lsum_ext. intros f _. rewrite (csum_ext s _ (fun l => (RtoC (h ^ fsize f * fw f) * T (pos h) (map (el h) f) i) * RtoC (be l * fphi s a c f l))%C) by (intros l _; rewrite !RtoC_mult; ring).
      rewrite csum_scal_l, csum_RtoC, !RtoC_mult. ring.
    - apply (bo_csum (S p) s (fun l h => RtoC (be l) * (kk l h i - lsum (F p) (fun f => RtoC (h ^ fsize f * fw f * fphi s a c f l) * T (pos h) (map (el h) f) i)))%C). intros l Hl. apply bo_scal.
      apply (bo_ext (S p) (fun h => phi (x0 (pos h) + c l * h)%R (shifted n (y0 (pos h)) (dsth l h)) i - lsum (F p) (fun f => RtoC (h ^ fsize f * fw f * rprod (map (fun t => tphi s a c t l) f)) * T (pos h) (map (el h) f) i))%C); [intros h; now rewrite (Hk l h i Hl Hi)|].
      apply (substitute n phi x0 y0 T HT p (dsth l) (fun h : hs I => c l * h) (fun t => tphi s a c t l) Hp (dsth_n l) (dst_bo l)); [|exact Hi]. intros j Hj. exact (HL l j Hl Hj).
  Qed.
  Lemma levels p : (p <= 8)%nat -> level p.
  Proof.
    induction p as [|p IH]; intros Hp m j Hm Hj.
    - apply (bo_ext 1 (fun h => dsth m h j)); [|now apply dst_bo]. intros h. cbn [trees]. change (lsum [] _) with z0. ring.
    - destruct (lt_dec j n) as [Hn|Hn].
      + pose proof (weighted p (a m) (IH ltac:(lia)) ltac:(lia) j Hn) as Wt. apply (bo_mult 1 (S p) _ _ bo_h) in Wt. refine (bo_ext (S (S p)) _ _ _ Wt).
        intros h. rewrite dsth_lt by exact Hn. rewrite (lsum_trees n (T (pos h)) p (fun t => h ^ tsize t * tw t * tphi s a c t m) j), el_TX by exact Hn.
        rewrite (lsum_ext (F p) (fun f => RtoC (h ^ tsize (TN f) * tw (TN f) * tphi s a c (TN f) m) * el h (TN f) j)%C (fun f => RtoC h * (RtoC (h ^ fsize f * fw f * rsum s (fun l => a m l * fphi s a c f l)%R) * T (pos h) (map (el h) f) j))%C).
        { rewrite lsum_scal. ring. }
        intros f _. rewrite el_TN by exact Hn. cbn [tsize tw tphi pow]. fold (fsize f) (fw f). rewrite Cmult_assoc, <- RtoC_mult. f_equal. f_equal. unfold fphi. ring.
      + assert (j = n) by lia. subst j. apply (bo_ext (S (S p)) (fun _ => z0)); [|apply bo_zero]. intros h. rewrite dsth_n, (lsum_trees n (T (pos h)) p (fun t => h ^ tsize t * tw t * tphi s a c t m) n), el_TX_n.
        rewrite (lsum_zero (F p)) by (intros f _; rewrite el_TN_n; ring). cbn [tsize tw tphi]. replace (h ^ 1 * 1 * c m) with (c m * h) by ring. ring.
  Qed.
End Method.
(** ** The exact solution *)
Lemma cderive_shift f x0 t l : is_cderive f (x0 + t) l -> is_cderive (fun x => f (x0 + x)) t l.
Proof.
  intros [H1 H2]. split.
  - replace (Re l) with (1 * Re l) by ring. apply (is_derive_comp (fun x => Re (f x)) (fun x => x0 + x) t _ 1 H1). auto_derive; [trivial|ring].
  - replace (Im l) with (1 * Im l) by ring. apply (is_derive_comp (fun x => Im (f x)) (fun x => x0 + x) t _ 1 H2). auto_derive; [trivial|ring].
Qed.
Lemma cderive_lsum {A} (L : list A) (f : A -> R -> C) t (l : A -> C) : (forall a, In a L -> is_cderive (f a) t (l a)) -> is_cderive (fun x => lsum L (fun a => f a x)) t (lsum L l).
Proof.
  intros H. induction L as [|a L IH]; [split; cbn; apply (is_derive_const (K := R_AbsRing) (V := R_NormedModule))|].
  apply (cderive_plus (f a) (fun x => lsum L (fun a => f a x))); [apply H; now left|]. apply IH. intros b Hb. apply H. now right.
Qed.
Lemma reC x w (v : C) : x * (w * Re v) = Re (RtoC (x * w) * v)%C. Proof. unfold Re. cbn [fst snd Cmult RtoC]. ring. Qed.
Lemma imC x w (v : C) : x * (w * Im v) = Im (RtoC (x * w) * v)%C. Proof. unfold Im. cbn [fst snd Cmult RtoC]. ring. Qed.
Lemma cderive_mono k (w : R) (v : C) t : is_cderive (fun x => RtoC (x ^ S k * w) * v)%C t (RtoC (INR (S k) * t ^ k * w) * v)%C.
Proof.
  split.
  - apply (is_derive_ext (fun x => x ^ S k * (w * Re v))); [intros x; apply reC|]. rewrite <- reC. auto_derive; [trivial|]. cbn [INR Nat.pred]. change (match k with O => 1 | S _ => INR k + 1 end) with (INR (S k)). ring.
  - apply (is_derive_ext (fun x => x ^ S k * (w * Im v))); [intros x; apply imC|]. rewrite <- imC. auto_derive; [trivial|]. cbn [INR Nat.pred]. change (match k with O => 1 | S _ => INR k + 1 end) with (INR (S k)). ring.
Qed.
Lemma mvt2 f df u M : (forall t, Rabs t <= Rabs u -> is_derive f t (df t)) -> (forall t, Rabs t <= Rabs u -> Rabs (df t) <= M) -> Rabs (f u - f 0) <= M * Rabs u.
Proof.
  intros D B. assert (HB : forall t, Rmin 0 u <= t <= Rmax 0 u -> Rabs t <= Rabs u).
  { intros t Ht. destruct (Rle_dec 0 u) as [H|H]; [rewrite Rmin_left, Rmax_right in Ht by lra; rewrite !Rabs_pos_eq; lra|]. rewrite Rmin_right, Rmax_left in Ht by lra. rewrite !Rabs_left1; lra. }
  destruct (MVT_gen f 0 u df) as (x & Hx & E).
  - intros t Ht. apply D, HB. lra.
  - intros t Ht. apply derivable_continuous_pt. exists (df t). apply is_derive_Reals, D, HB, Ht.
  - rewrite E, Rminus_0_r, Rabs_mult. apply Rmult_le_compat_r; [apply Rabs_pos|]. apply B, HB, Hx.
Qed.
Lemma cmvt2 f df u M : (forall t, Rabs t <= Rabs u -> is_cderive f t (df t)) -> (forall t, Rabs t <= Rabs u -> Cmod (df t) <= M) -> Cmod (f u - f 0)%C <= 2 * (M * Rabs u).
Proof.
  intros D B. eapply Rle_trans; [apply Cmod_le_sum|].
  assert (Rabs (Re (f u - f 0)%C) <= M * Rabs u). { apply (mvt2 (fun t => Re (f t)) (fun t => Re (df t))); [intros t Ht; apply D, Ht|intros t Ht; eapply Rle_trans; [apply Re_le_Cmod|now apply B]]. }
  assert (Rabs (Im (f u - f 0)%C) <= M * Rabs u). { apply (mvt2 (fun t => Im (f t)) (fun t => Im (df t))); [intros t Ht; apply D, Ht|intros t Ht; eapply Rle_trans; [apply Im_le_Cmod|now apply B]]. }
  lra.
Qed.
Lemma bo_integral {I} p (f df : hs I -> C) h1 : 0 < h1 -> (forall o, f (at_ o 0) = z0) -> (forall o t, Rabs t <= h1 -> is_cderive (fun t => f (at_ o t)) t (df (at_ o t))) -> bo p df -> bo (S p) f.
Proof.
  intros H1 F0 D (K & h0 & HK & [H0 _] & B). apply (bo_intro (S p) f (2 * K) (Rmin h0 h1)); [lra|now apply Rmin_glb_lt|]. intros h Hh. assert (Q0 : Rabs h <= h0) by (eapply Rle_trans; [exact Hh|apply Rmin_l]). assert (Q1 : Rabs h <= h1) by (eapply Rle_trans; [exact Hh|apply Rmin_r]).
  pose proof (cmvt2 (fun t => f (at_ (pos h) t)) (fun t => df (at_ (pos h) t)) h (K * Rabs h ^ p)) as MV. cbv beta in MV. rewrite F0 in MV. assert (Eh : at_ (pos h) (len h) = h) by now destruct h. rewrite Eh in MV. replace (f h - z0)%C with (f h) in MV by ring. cbn [pow]. replace (2 * K * (Rabs h * Rabs h ^ p)) with (2 * (K * Rabs h ^ p * Rabs h)) by ring. apply MV.
  - intros t Ht. apply D. lra.
  - intros t Ht. eapply Rle_trans; [apply (B (at_ (pos h) t)); cbn [len]; lra|]. apply Rmult_le_compat_l; [exact HK|]. apply pow_incr. split; [apply Rabs_pos|exact Ht].
Qed.
Lemma slope_bo (f : R -> C) l : is_cderive f 0 l -> bo (I := unit) 1 (fun h => f h - f 0)%C.
Proof.
  intros [D1 D2]. assert (G : forall g k, is_derive g 0 k -> exists U, 0 < U /\ forall u, Rabs u <= U -> Rabs (g u - g 0) <= (Rabs k + 1) * Rabs u).
  { intros g k D. apply is_derive_Reals in D. destruct (D 1 ltac:(lra)) as (d & Hd). exists (d / 2). pose proof (cond_pos d) as Pd. split; [lra|]. intros u Hu. destruct (Req_dec u 0) as [->|NZ]; [rewrite Rminus_diag_eq, !Rabs_R0 by reflexivity; lra|].
    specialize (Hd u NZ). rewrite Rplus_0_l in Hd. specialize (Hd ltac:(lra)). replace (g u - g 0) with ((((g u - g 0) / u - k) + k) * u) by (field; exact NZ). rewrite Rabs_mult. apply Rmult_le_compat_r; [apply Rabs_pos|]. eapply Rle_trans; [apply Rabs_triang|]. lra. }
  destruct (G _ _ D1) as (U1 & P1 & H1). destruct (G _ _ D2) as (U2 & P2 & H2). apply (bo_intro 1 _ (Rabs (Re l) + 1 + (Rabs (Im l) + 1)) (Rmin U1 U2)); [pose proof (Rabs_pos (Re l)); pose proof (Rabs_pos (Im l)); lra|now apply Rmin_glb_lt|].
  intros u Hu. assert (Q0 : Rabs u <= U1) by (eapply Rle_trans; [exact Hu|apply Rmin_l]). assert (Q1 : Rabs u <= U2) by (eapply Rle_trans; [exact Hu|apply Rmin_r]). rewrite pow_1. eapply Rle_trans; [apply Cmod_le_sum|]. specialize (H1 u Q0). specialize (H2 u Q1). cbv beta in H1, H2.
  change (Re (f u - f 0)%C) with (Re (f u) - Re (f 0)). change (Im (f u - f 0)%C) with (Im (f u) - Im (f 0)). lra.
Qed.
Lemma rprod_inv l : rprod (map (fun t => / tgam t) l) = / rprod (map tgam l).
Proof. unfold rprod. induction l as [|t l IH]; cbn; [field|]. rewrite IH. pose proof (tgam_pos t). assert (0 < fold_right Rmult 1 (map tgam l)). { clear. induction l as [|t l IH]; cbn; [lra|]. apply Rmult_lt_0_compat; [apply tgam_pos|exact IH]. } field. lra. Qed.
Section Exact.
  Context {I : Type}.
  Variables (n : nat) (phi : R -> list C -> nat -> C) (x0 : I -> R) (y0 : I -> list C) (T : I -> list (nat -> C) -> nat -> C).
  Hypothesis HT : utaylor7 n phi x0 y0 T.
  Variables (sol : I -> R -> list C) (h1 : R).
  Hypothesis Hh1 : 0 < h1.
  Hypothesis Hlen : forall o x, length (sol o x) = n.
  Hypothesis Hini : forall o, sol o (x0 o) = y0 o.
  Hypothesis Hder : forall o x j, (j < n)%nat -> Rabs (x - x0 o) <= h1 -> is_cderive (fun t => nth j (sol o t) z0) x (phi x (sol o x) j).
  Notation el h := (tel n (T (pos h))).
  Notation F p := (forests (trees p) p).
  Definition dex (h : hs I) (j : nat) : C := if Nat.ltb j n then (nth j (sol (pos h) (x0 (pos h) + h)%R) z0 - nth j (y0 (pos h)) z0)%C else if Nat.eqb j n then RtoC h else z0.
  Lemma dex_lt h j : (j < n)%nat -> dex h j = (nth j (sol (pos h) (x0 (pos h) + h)%R) z0 - nth j (y0 (pos h)) z0)%C.
  Proof. intros H. unfold dex. now apply Nat.ltb_lt in H; rewrite H. Qed.
  Lemma dex_n h : dex h n = RtoC h.
  Proof. unfold dex. now rewrite Nat.ltb_irrefl, Nat.eqb_refl. Qed.
  Lemma shifted_dex h : shifted n (y0 (pos h)) (dex h) = sol (pos h) (x0 (pos h) + h)%R.
  Proof.
    unfold shifted. apply (nth_ext _ _ z0 z0); [now rewrite mk_length, Hlen|]. rewrite mk_length. intros j Hj. rewrite mk_nth by exact Hj. rewrite dex_lt by exact Hj. ring.
  Qed.
  Lemma dex_der o t j : (j < n)%nat -> Rabs t <= h1 -> is_cderive (fun h => nth j (sol o (x0 o + h)%R) z0 - nth j (y0 o) z0)%C t (phi (x0 o + t)%R (sol o (x0 o + t)%R) j).
  Proof.
    intros Hj Ht. replace (phi (x0 o + t)%R (sol o (x0 o + t)%R) j) with (phi (x0 o + t)%R (sol o (x0 o + t)%R) j - z0)%C by ring. apply (cderive_minus (fun h => nth j (sol o (x0 o + h)%R) z0) (fun _ => nth j (y0 o) z0)).
    - apply (cderive_shift (fun x => nth j (sol o x) z0)). apply Hder; [exact Hj|]. replace (x0 o + t - x0 o) with t by ring. exact Ht.
    - split; cbn; apply (is_derive_const (K := R_AbsRing) (V := R_NormedModule)).
  Qed.
  (** the solutions leave the starting points at a common speed at most *)
  Hypothesis Hslope : forall j, (j < n)%nat -> bo 1 (fun h => dex h j).
  Lemma dex_bo1 j : (j < S n)%nat -> bo 1 (fun h => dex h j).
  Proof.
    intros Hj. destruct (lt_dec j n) as [Hn|Hn]; [now apply Hslope|].
    assert (j = n) by lia. subst j. apply (bo_ext 1 (fun h => RtoC h)); [intros h; now rewrite dex_n|]. apply bo_h.
  Qed.
  Lemma inv_gam l : / tgam (TN l) = / INR (S (fsize l)) * rprod (map (fun t => / tgam t) l).
  Proof. rewrite rprod_inv. cbn [tgam]. fold (fsize l). apply Rinv_mult. Qed.
  Lemma dex_levels p : (p <= 8)%nat -> forall j, (j < S n)%nat -> bo (S p) (fun h => dex h j - lsum (trees p) (fun t => RtoC (h ^ tsize t * tw t * / tgam t) * el h t j))%C.
  Proof.
    induction p as [|p IH]; intros Hp j Hj.
    - apply (bo_ext 1 (fun h => dex h j)); [|now apply dex_bo1]. intros h. cbn [trees]. change (lsum [] _) with z0. ring.
    - destruct (lt_dec j n) as [Hn|Hn].
      + assert (Dv : bo (S p) (fun h => phi (x0 (pos h) + h)%R (sol (pos h) (x0 (pos h) + h)%R) j - lsum (F p) (fun f => RtoC (INR (S (fsize f)) * h ^ fsize f * (fw f * / tgam (TN f))) * T (pos h) (map (el h) f) j))%C).
        { pose proof (substitute n phi x0 y0 T HT p dex (fun h => len h) (fun t => / tgam t) ltac:(lia) dex_n dex_bo1 (IH ltac:(lia)) j Hn) as Sb. refine (bo_ext (S p) _ _ _ Sb). intros h. rewrite shifted_dex. f_equal. apply lsum_ext. intros f _. f_equal. f_equal. rewrite inv_gam. field. apply not_0_INR. lia. }
        assert (E : forall h, (dex h j - lsum (trees (S p)) (fun t => RtoC (h ^ tsize t * tw t * / tgam t) * el h t j))%C = ((nth j (sol (pos h) (x0 (pos h) + h)%R) z0 - nth j (y0 (pos h)) z0) - lsum (F p) (fun f => RtoC (h ^ S (fsize f) * (fw f * / tgam (TN f))) * T (pos h) (map (el h) f) j))%C).
        { intros h. rewrite (lsum_trees n (T (pos h)) p (fun t => h ^ tsize t * tw t * / tgam t) j), (el_TX n (T (pos h)) j Hn), (dex_lt h j Hn). f_equal. rewrite Cmult_0_r, Cplus_0_l. apply lsum_ext. intros f _. rewrite (el_TN n (T (pos h)) f j Hn). f_equal. f_equal. cbn [tsize tw]. fold (fsize f) (fw f). ring. }
        apply (bo_ext (S (S p)) _ _ (fun h => eq_sym (E h))).
        apply (bo_integral (S p) _ _ h1 Hh1) with (3 := Dv).
        * intros o. cbn [pos len]. rewrite Rplus_0_r, Hini. rewrite lsum_zero; [ring|]. intros f _. rewrite pow_i by lia. rewrite Rmult_0_l. ring.
        * intros o t Ht. cbn [pos len]. apply (cderive_minus (fun h => nth j (sol o (x0 o + h)%R) z0 - nth j (y0 o) z0)%C (fun h => lsum (F p) (fun f => RtoC (h ^ S (fsize f) * (fw f * / tgam (TN f))) * T o (map (tel n (T o)) f) j)%C)); [now apply dex_der|].
          apply (cderive_lsum (F p) (fun f h => RtoC (h ^ S (fsize f) * (fw f * / tgam (TN f))) * T o (map (tel n (T o)) f) j)%C t (fun f => RtoC (INR (S (fsize f)) * t ^ fsize f * (fw f * / tgam (TN f))) * T o (map (tel n (T o)) f) j)%C). intros f _. apply cderive_mono.
      + assert (j = n) by lia. subst j. apply (bo_ext (S (S p)) (fun _ => z0)); [|apply bo_zero]. intros h. rewrite dex_n, (lsum_trees n (T (pos h)) p (fun t => h ^ tsize t * tw t * / tgam t) n), el_TX_n.
        rewrite (lsum_zero (F p)) by (intros f _; rewrite el_TN_n; ring). cbn [tsize tw tgam]. replace (h ^ 1 * 1 * / 1) with (len h) by field. ring.
  Qed.
End Exact.
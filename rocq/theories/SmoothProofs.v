(** Right-hand sides built from oscillating coefficients and products of (conjugated) unknowns are smooth in the sense
    required by the order and convergence theorems, with explicit bounds on their Taylor terms (used for C124). *)
From Coq Require Import Reals List ZArith Bool Arith Lia Lra.
From Coquelicot Require Import Complex Coquelicot.
From Verif Require Import Base CNum NumPy SSFMGnlseProofs RkJetProofs ODETableauProofs ODETreeProofs BSeriesProofs.
Import ListNotations.
Local Open Scope R_scope.
Local Notation z0 := (RtoC 0).
Local Notation V := (nat -> C).

Lemma rsum_first0 m (u : nat -> R) : rsum (S m) u = u 0%nat + rsum m (fun j => u (S j)).
Proof. induction m as [|m IH]; [rewrite !rsum_S, !rsum_0; lra|]. rewrite rsum_S, IH, rsum_S. lra. Qed.
Lemma csum_first0 m (u : nat -> C) : csum (S m) u = (u 0%nat + csum m (fun j => u (S j)))%C.
Proof. induction m as [|m IH]; [rewrite !csum_S, !csum_0; ring|]. rewrite csum_S, IH, csum_S. ring. Qed.

(** ** One real function: cis *)
Fixpoint cp (z : C) (k : nat) : C := match k with O => RtoC 1 | S k => (z * cp z k)%C end.
Lemma Cmod_cp z k : Cmod (cp z k) = Cmod z ^ k.
Proof. induction k as [|k IH]; cbn [cp pow]; [apply Cmod_1|]. now rewrite Cmod_mult, IH. Qed.
Definition er (th : R) (k : nat) (t : R) : C := (cis (th * t) - csum k (fun m => RtoC (t ^ m * / INR (fact m)) * cp (Ci * RtoC th) m))%C.
Lemma cderive_cis th t : is_cderive (fun x => cis (th * x)) t (Ci * RtoC th * cis (th * t))%C.
Proof.
  pose proof (cderive_line (RtoC 1) (- th) t) as H. eapply (cderive_ext _ (fun x => cis (th * x))) in H.
  - replace (Ci * RtoC th * cis (th * t))%C with (- Ci * RtoC (- th) * (RtoC 1 * cis (- (- th * t))))%C; [exact H|]. rewrite RtoC_opp. replace (- (- th * t)) with (th * t) by ring. ring.
  - intros x. cbv beta. replace (- (- th * x)) with (th * x) by ring. ring.
Qed.
Lemma cderive_er th k t : is_cderive (er th (S k)) t (Ci * RtoC th * er th k t)%C.
Proof.
  unfold er. replace (Ci * RtoC th * (cis (th * t) - csum k (fun m => RtoC (t ^ m * / INR (fact m)) * cp (Ci * RtoC th) m)))%C with
    (Ci * RtoC th * cis (th * t) - csum k (fun m => RtoC (INR (S m) * t ^ m * / INR (fact (S m))) * cp (Ci * RtoC th) (S m)))%C.
  - apply (cderive_ext (fun x => cis (th * x) - (RtoC 1 + csum k (fun m => RtoC (x ^ S m * / INR (fact (S m))) * cp (Ci * RtoC th) (S m))))%C).
    + intros x. rewrite csum_first0. f_equal. f_equal. f_equal. cbn [pow fact cp INR]. rewrite Rinv_1, Rmult_1_l. ring.
    + apply cderive_minus; [apply cderive_cis|]. rewrite <- (Cplus_0_l (csum k _)). apply cderive_plus.
      * split; cbn; [apply is_derive_Reals, derivable_pt_lim_const|apply is_derive_Reals, derivable_pt_lim_const].
      * apply cderive_csum. intros m _. apply cderive_mono.
  - replace (Ci * RtoC th * (cis (th * t) - csum k (fun m => RtoC (t ^ m * / INR (fact m)) * cp (Ci * RtoC th) m)))%C with (Ci * RtoC th * cis (th * t) - (Ci * RtoC th) * csum k (fun m => RtoC (t ^ m * / INR (fact m)) * cp (Ci * RtoC th) m))%C by ring.
    f_equal. f_equal. rewrite <- csum_scal_l. apply csum_ext. intros m _. cbn [cp]. replace (INR (S m) * t ^ m * / INR (fact (S m))) with (t ^ m * / INR (fact m)); [ring|].
    rewrite fact_simpl, mult_INR. field. split; [apply INR_fact_neq_0|]. apply not_0_INR. lia.
Qed.
Lemma er_bound th k : forall t, Cmod (er th k t) <= (2 * Rabs th) ^ k * Rabs t ^ k.
Proof.
  induction k as [|k IH]; intros t.
  - unfold er. rewrite csum_0. replace (cis (th * t) - RtoC 0)%C with (cis (th * t)) by ring. rewrite cis_mod. cbn. lra.
  - assert (E0 : er th (S k) 0 = z0). { unfold er. rewrite csum_first0, Rmult_0_r, cis_0, csum_zero; [cbn [pow fact cp INR]; rewrite Rinv_1, Rmult_1_l; ring|]. intros i _. cbn [pow]. rewrite !Rmult_0_l. ring. }
    replace (er th (S k) t) with (er th (S k) t - er th (S k) 0)%C by (rewrite E0; ring).
    eapply Rle_trans; [apply (cmvt2 (er th (S k)) (fun t => Ci * RtoC th * er th k t)%C t (Rabs th * ((2 * Rabs th) ^ k * Rabs t ^ k)))|cbn [pow]; right; ring].
    + intros x _. apply cderive_er.
    + intros x Hx. rewrite !Cmod_mult, Cmod_R. replace (Cmod Ci) with 1 by (unfold Cmod, Ci; cbn [fst snd]; rewrite <- sqrt_1 at 1; f_equal; ring). rewrite Rmult_1_l. apply Rmult_le_compat_l; [apply Rabs_pos|]. eapply Rle_trans; [apply IH|].
      apply Rmult_le_compat_l; [apply pow_le; pose proof (Rabs_pos th); lra|]. apply pow_incr. split; [apply Rabs_pos|exact Hx].
Qed.

(** ** Smooth scalar functions of (x, y), uniformly over a family of base points *)
Lemma rprod_nonneg (N : nat) l rs : List.Forall2 (bd (S N)) l rs -> 0 <= rprod rs.
Proof. unfold rprod. induction 1 as [|v r l rs H _ IH]; cbn; [lra|]. apply Rmult_le_pos; [|exact IH]. eapply Rle_trans; [apply Cmod_ge_0|apply (H 0%nat); lia]. Qed.
Section Smooth.
  Context {I : Type}.
  Variable n : nat.
  Variable x0 : I -> R.
  Variable y0 : I -> list C.
  Definition multilin (T : list V -> C) : Prop := forall l1 l2 u v (a : R), T (l1 ++ (fun j => RtoC a * u j + v j)%C :: l2) = (RtoC a * T (l1 ++ u :: l2) + T (l1 ++ v :: l2))%C.
  Definition smooth (F : R -> list C -> C) (T : I -> list V -> C) (Mb : R) : Prop :=
    0 <= Mb /\ (forall o, multilin (T o)) /\
    (forall o l rs, (length l <= 7)%nat -> List.Forall2 (bd (S n)) l rs -> Cmod (T o l) <= Mb * rprod rs) /\
    exists M r, 0 <= M /\ 0 < r /\ forall o d xi q, q <= r -> Rabs xi <= q -> bd n d q ->
      Cmod (F (x0 o + xi)%R (shifted n (y0 o) d) - csum 8 (fun m => RtoC (/ INR (fact m)) * T o (repeat (incr n d xi) m)))%C <= M * q ^ 8.

  Lemma smooth_zero : smooth (fun _ _ => z0) (fun _ _ => z0) 0.
  Proof.
    split; [lra|]. split; [intros o l1 l2 u v a; ring|]. split; [intros o l rs _ _; rewrite Cmod_0; lra|]. exists 0, 1. split; [lra|]. split; [lra|]. intros o d xi q _ _ _.
    rewrite csum_zero by (intros; ring). replace (z0 - RtoC 0)%C with z0 by ring. rewrite Cmod_0. lra.
  Qed.
  Lemma smooth_plus F F' T T' Mb Mb' : smooth F T Mb -> smooth F' T' Mb' -> smooth (fun x y => F x y + F' x y)%C (fun o l => T o l + T' o l)%C (Mb + Mb').
  Proof.
    intros (P1 & L1 & B1 & M1 & r1 & HM1 & Hr1 & R1) (P2 & L2 & B2 & M2 & r2 & HM2 & Hr2 & R2). split; [lra|]. split; [intros o l1 l2 u v a; rewrite L1, L2; ring|]. split.
    - intros o l rs Hl Hf. eapply Rle_trans; [apply Cmod_triangle|]. pose proof (B1 o l rs Hl Hf). pose proof (B2 o l rs Hl Hf). rewrite Rmult_plus_distr_r. lra.
    - exists (M1 + M2), (Rmin r1 r2). split; [lra|]. split; [now apply Rmin_glb_lt|]. intros o d xi q Hq Hx Hd. pose proof (Rmin_l r1 r2). pose proof (Rmin_r r1 r2).
      specialize (R1 o d xi q ltac:(lra) Hx Hd). specialize (R2 o d xi q ltac:(lra) Hx Hd). set (a := F _ _) in *. set (b := F' _ _) in *. clearbody a b.
      rewrite (csum_ext 8 _ (fun m => RtoC (/ INR (fact m)) * T o (repeat (incr n d xi) m) + RtoC (/ INR (fact m)) * T' o (repeat (incr n d xi) m))%C) by (intros; ring). rewrite csum_plus. set (s := csum 8 (fun m => RtoC (/ INR (fact m)) * T o (repeat (incr n d xi) m))%C) in *. set (t := csum 8 (fun m => RtoC (/ INR (fact m)) * T' o (repeat (incr n d xi) m))%C) in *.
      replace (a + b - (s + t))%C with ((a - s) + (b - t))%C by ring. eapply Rle_trans; [apply Cmod_triangle|]. rewrite Rmult_plus_distr_r. apply Rplus_le_compat; assumption.
  Qed.
  Lemma smooth_ext F F' T Mb : (forall x y, F x y = F' x y) -> smooth F T Mb -> smooth F' T Mb.
  Proof. intros E (P & L & B & M & r & HM & Hr & R). split; [exact P|]. split; [exact L|]. split; [exact B|]. exists M, r. split; [exact HM|]. split; [exact Hr|]. intros. rewrite <- E. now apply R. Qed.
  Lemma smooth_T F T T' Mb : (forall o l, T o l = T' o l) -> smooth F T Mb -> smooth F T' Mb.
  Proof.
    intros E (P & L & B & M & r & HM & Hr & R). split; [exact P|]. split; [intros o l1 l2 u v a; rewrite <- !E; apply L|]. split; [intros o l rs; rewrite <- E; apply B|]. exists M, r. split; [exact HM|]. split; [exact Hr|]. intros o d xi q Hq Hx Hd.
    rewrite (csum_ext 8 _ (fun m => RtoC (/ INR (fact m)) * T o (repeat (incr n d xi) m))%C) by (intros; now rewrite E). now apply R.
  Qed.
  Lemma smooth_le F T Mb Mb' : Mb <= Mb' -> smooth F T Mb -> smooth F T Mb'.
  Proof.
    intros Hm (P & L & B & Hx). split; [lra|]. split; [exact L|]. split; [|exact Hx]. intros o l rs Hl Hf. eapply Rle_trans; [now apply (B o l rs)|]. apply Rmult_le_compat_r; [exact (rprod_nonneg _ _ _ Hf)|exact Hm].
  Qed.
  Lemma smooth_csum k (F : nat -> R -> list C -> C) (T : nat -> I -> list V -> C) (Mb : nat -> R) : (forall t, (t < k)%nat -> smooth (F t) (T t) (Mb t)) ->
    smooth (fun x y => csum k (fun t => F t x y)) (fun o l => csum k (fun t => T t o l)) (rsum k Mb).
  Proof.
    induction k as [|k IH]; intros H.
    - apply (smooth_le _ _ 0); [rewrite rsum_0; lra|]. apply (smooth_ext (fun _ _ => z0)); [intros; now rewrite csum_0|]. apply (smooth_T _ (fun _ _ => z0)); [intros; now rewrite csum_0|apply smooth_zero].
    - apply (smooth_le _ _ (rsum k Mb + Mb k)); [rewrite rsum_S; lra|]. apply (smooth_ext (fun x y => csum k (fun t => F t x y) + F k x y)%C); [intros; now rewrite csum_S|]. apply (smooth_T _ (fun o l => csum k (fun t => T t o l) + T k o l)%C); [intros; now rewrite csum_S|].
      apply smooth_plus; [apply IH; intros; apply H; lia|apply H; lia].
  Qed.

  (** *** c cis(th x) *)
  Definition vprod (l : list V) : C := fold_right (fun v p => v n * p)%C (RtoC 1) l.
  Lemma vprod_app l1 l2 : vprod (l1 ++ l2) = (vprod l1 * vprod l2)%C.
  Proof. unfold vprod. induction l1 as [|v l1 IH]; cbn; [ring|]. rewrite IH. ring. Qed.
  Lemma vprod_bound l rs : List.Forall2 (bd (S n)) l rs -> Cmod (vprod l) <= rprod rs.
  Proof. unfold vprod, rprod. induction 1 as [|v r l rs H _ IH]; cbn; [rewrite Cmod_1; lra|]. rewrite Cmod_mult. apply Rmult_le_compat; [apply Cmod_ge_0|apply Cmod_ge_0|apply H; lia|exact IH]. Qed.
  Lemma vprod_repeat d xi m : vprod (repeat (incr n d xi) m) = RtoC (xi ^ m).
  Proof. unfold vprod. induction m as [|m IH]; cbn; [reflexivity|]. rewrite IH. unfold incr. rewrite Nat.ltb_irrefl, Nat.eqb_refl, RtoC_mult. reflexivity. Qed.
  Definition Tcis (c : C) (th : R) (o : I) (l : list V) : C := (c * cis (th * x0 o) * (cp (Ci * RtoC th) (length l) * vprod l))%C.
  Lemma smooth_cis c th Th : 1 <= Th -> Rabs th <= Th -> smooth (fun x _ => c * cis (th * x))%C (Tcis c th) (Cmod c * Th ^ 7).
  Proof.
    intros H1 Ht. assert (Pc := Cmod_ge_0 c). assert (P7 : 0 <= Th ^ 7) by (apply pow_le; lra). split; [now apply Rmult_le_pos|]. split; [|split].
    - intros o l1 l2 u v a. unfold Tcis. rewrite !app_length, !vprod_app. cbn [length vprod fold_right]. fold (vprod l2). ring.
    - intros o l rs Hl Hf. unfold Tcis. rewrite !Cmod_mult, cis_mod, Rmult_1_r, Cmod_cp. replace (Cmod (Ci * RtoC th)%C) with (Rabs th). 2: { rewrite Cmod_mult, Cmod_R. replace (Cmod Ci) with 1 by (unfold Cmod, Ci; cbn [fst snd]; rewrite <- sqrt_1 at 1; f_equal; ring). ring. }
      rewrite Rmult_assoc. apply Rmult_le_compat_l; [exact Pc|]. apply Rmult_le_compat; [apply pow_le, Rabs_pos|apply Cmod_ge_0| |now apply vprod_bound]. apply Rle_trans with (Th ^ length l); [apply pow_incr; split; [apply Rabs_pos|exact Ht]|]. apply Rle_pow; [exact H1|exact Hl].
    - exists (Cmod c * (2 * Rabs th) ^ 8), 1. split; [apply Rmult_le_pos; [exact Pc|apply pow_le; pose proof (Rabs_pos th); lra]|]. split; [lra|]. intros o d xi q Hq Hx _.
      replace (c * cis (th * (x0 o + xi)) - csum 8 (fun m => RtoC (/ INR (fact m)) * Tcis c th o (repeat (incr n d xi) m)))%C with (c * cis (th * x0 o) * er th 8 xi)%C.
      + rewrite !Cmod_mult, cis_mod, Rmult_1_r, Rmult_assoc. apply Rmult_le_compat_l; [exact Pc|]. eapply Rle_trans; [apply er_bound|]. apply Rmult_le_compat_l; [apply pow_le; pose proof (Rabs_pos th); lra|]. apply pow_incr. split; [apply Rabs_pos|exact Hx].
      + unfold er, Tcis. rewrite Rmult_plus_distr_l, cis_add. rewrite (csum_ext 8 (fun m => RtoC (/ INR (fact m)) * _)%C (fun m => (c * cis (th * x0 o)) * (RtoC (xi ^ m * / INR (fact m)) * cp (Ci * RtoC th) m))%C); [rewrite csum_scal_l; ring|].
        intros m _. rewrite repeat_length, vprod_repeat, RtoC_mult. ring.
  Qed.

  (** *** times a real-linear functional of y *)
  Section Lin.
    Variable L : V -> C.
    Hypothesis Llin : forall u v (a : R), L (fun j => RtoC a * u j + v j)%C = (RtoC a * L u + L v)%C.
    Hypothesis Lbd : forall v r, bd n v r -> Cmod (L v) <= r.
    Hypothesis Lext : forall u v, (forall j, (j < n)%nat -> u j = v j) -> L u = L v.
    Variable B : R.
    Hypothesis B0 : 0 <= B.
    Hypothesis LB : forall o, Cmod (L (fun j => nth j (y0 o) z0)) <= B.
    Fixpoint dl (T : list V -> C) (l : list V) : C := match l with [] => z0 | v :: l' => (L v * T l' + dl (fun r => T (v :: r)) l')%C end.
    Lemma dl_lin T1 T2 T3 a l : (forall r, T3 r = (RtoC a * T1 r + T2 r)%C) -> dl T3 l = (RtoC a * dl T1 l + dl T2 l)%C.
    Proof. revert T1 T2 T3. induction l as [|v l IH]; intros T1 T2 T3 H; cbn [dl]; [ring|]. rewrite H, (IH (fun r => T1 (v :: r)) (fun r => T2 (v :: r)) (fun r => T3 (v :: r))) by (intros r; apply H). ring. Qed.
    Lemma dl_multi T : multilin T -> multilin (dl T).
    Proof.
      intros HT l1. revert T HT. induction l1 as [|w l1 IH]; intros T HT l2 u v a; cbn [List.app dl].
      - rewrite Llin, (dl_lin (fun r => T (u :: r)) (fun r => T (v :: r)) _ a) by (intros r; apply (HT [] r)). ring.
      - rewrite HT, (IH (fun r => T (w :: r))); [ring|]. intros m1 m2 u' v' a'. apply (HT (w :: m1)).
    Qed.
    Lemma dl_bound : forall l T Mb rs k, 0 <= Mb -> (forall l rs, (length l <= k)%nat -> List.Forall2 (bd (S n)) l rs -> Cmod (T l) <= Mb * rprod rs) -> (length l <= S k)%nat -> List.Forall2 (bd (S n)) l rs -> Cmod (dl T l) <= INR (length l) * (Mb * rprod rs).
    Proof.
      induction l as [|v l IH]; intros T Mb rs k HM HT Hl Hf; inversion Hf as [|v' r l' rs' Hv Hr]; subst; cbn [dl length].
      - rewrite Cmod_0. cbn. lra.
      - cbn [length] in Hl. assert (Hr0 : 0 <= r) by (eapply Rle_trans; [apply Cmod_ge_0|apply (Hv 0%nat); lia]). pose proof (rprod_nonneg _ _ _ Hr) as Pr.
        assert (A1 : Cmod (L v * T l)%C <= Mb * (r * rprod rs')). { rewrite Cmod_mult. apply Rle_trans with (r * (Mb * rprod rs')); [|right; ring]. apply Rmult_le_compat; [apply Cmod_ge_0|apply Cmod_ge_0|apply Lbd; intros j Hj; apply Hv; lia|apply HT; [lia|exact Hr]]. }
        assert (A2 : Cmod (dl (fun s => T (v :: s)) l) <= INR (length l) * (Mb * (r * rprod rs'))).
        { destruct k as [|k].
          - destruct l; [|cbn [length] in Hl; lia]. cbn [dl length]. rewrite Cmod_0. cbn. lra.
          - replace (Mb * (r * rprod rs')) with (Mb * r * rprod rs') by ring. apply (IH (fun s => T (v :: s)) (Mb * r) rs' k); [now apply Rmult_le_pos| |lia|exact Hr].
            intros m ms Hm Hms. replace (Mb * r * rprod ms) with (Mb * rprod (r :: ms)) by (unfold rprod; cbn; ring). apply HT; [cbn [length]; lia|now constructor]. }
        change (rprod (r :: rs')) with (r * rprod rs'). rewrite S_INR. eapply Rle_trans; [apply Cmod_triangle|]. lra.
    Qed.
    Lemma dl_repeat d m : forall T, dl T (repeat d (S m)) = (RtoC (INR (S m)) * (L d * T (repeat d m)))%C.
    Proof.
      induction m as [|m IH]; intros T; [cbn; ring|]. change (repeat d (S (S m))) with (d :: repeat d (S m)). change (dl T (d :: repeat d (S m))) with (L d * T (repeat d (S m)) + dl (fun r => T (d :: r)) (repeat d (S m)))%C.
      rewrite IH. rewrite (S_INR (S m)), RtoC_plus. change (d :: repeat d m) with (repeat d (S m)). ring.
    Qed.
    Lemma smooth_lin F T Mb : smooth F T Mb -> smooth (fun x y => F x y * L (fun j => nth j y z0))%C (fun o l => T o l * L (fun j => nth j (y0 o) z0) + dl (T o) l)%C (Mb * (B + 7)).
    Proof.
      intros (P & Li & Bd & M & r & HM & Hr & R). split; [apply Rmult_le_pos; lra|]. split; [|split].
      - intros o l1 l2 u v a. rewrite Li, (dl_multi (T o) (Li o)). ring.
      - intros o l rs Hl Hf. pose proof (rprod_nonneg _ _ _ Hf) as Pr. eapply Rle_trans; [apply Cmod_triangle|]. rewrite Cmod_mult.
        assert (A1 : Cmod (T o l) * Cmod (L (fun j => nth j (y0 o) z0)) <= Mb * rprod rs * B) by (apply Rmult_le_compat; [apply Cmod_ge_0|apply Cmod_ge_0|now apply Bd|apply LB]).
        assert (A2 : Cmod (dl (T o) l) <= INR (length l) * (Mb * rprod rs)) by (apply (dl_bound l (T o) Mb rs 7 P); [apply Bd|lia|exact Hf]).
        assert (A3 : INR (length l) * (Mb * rprod rs) <= 7 * (Mb * rprod rs)) by (apply Rmult_le_compat_r; [now apply Rmult_le_pos|]; replace 7 with (INR 7) by (cbn; lra); now apply le_INR).
        lra.
      - exists (M * (B + 1) + Mb), (Rmin r 1). split; [apply Rplus_le_le_0_compat; [apply Rmult_le_pos; lra|exact P]|]. split; [apply Rmin_glb_lt; lra|]. intros o d xi q Hq Hx Hd. pose proof (Rmin_l r 1). pose proof (Rmin_r r 1). assert (Q0 : 0 <= q) by (pose proof (Rabs_pos xi); lra).
        specialize (R o d xi q ltac:(lra) Hx Hd). set (y := shifted n (y0 o) d) in *. set (D := incr n d xi) in *. set (L0 := L (fun j => nth j (y0 o) z0)). set (t := fun m => (RtoC (/ INR (fact m)) * T o (repeat D m))%C) in *.
        assert (EL : L (fun j => nth j y z0) = (L0 + L d)%C).
        { rewrite (Lext _ (fun j => RtoC 1 * nth j (y0 o) z0 + d j)%C); [rewrite Llin; unfold L0; ring|]. intros j Hj. unfold y, shifted. rewrite mk_nth by exact Hj. ring. }
        assert (ED : L D = L d). { apply Lext. intros j Hj. unfold D, incr. apply Nat.ltb_lt in Hj. now rewrite Hj. }
        assert (ES : csum 8 (fun m => RtoC (/ INR (fact m)) * (T o (repeat D m) * L0 + dl (T o) (repeat D m)))%C = (csum 8 t * L0 + csum 7 t * L d)%C).
        { rewrite (csum_ext 8 _ (fun m => t m * L0 + RtoC (/ INR (fact m)) * dl (T o) (repeat D m))%C) by (intros; unfold t; ring). rewrite csum_plus, csum_scal_r. f_equal. rewrite csum_first0. change (dl (T o) (repeat D 0)) with z0. rewrite <- csum_scal_r. rewrite (csum_ext 7 _ (fun m => t m * L d)%C); [ring|].
          intros m _. rewrite dl_repeat, ED. unfold t. rewrite fact_simpl, mult_INR, Rinv_mult, RtoC_mult. assert (N : INR (S m) <> 0) by (apply not_0_INR; lia). rewrite (RtoC_inv (INR (S m))) by exact N. field. intros Z. apply N. now apply RtoC_inj. }
        rewrite EL, ES. rewrite (csum_S 7) in *. set (s := csum 7 t) in *. set (f := F (x0 o + xi)%R y) in *. assert (T7 : Cmod (t 7%nat) <= Mb * q ^ 7).
        { unfold t. rewrite Cmod_mult, Cmod_R. assert (F1 : 1 <= INR (fact 7)) by (replace 1 with (INR 1) by reflexivity; apply le_INR, lt_O_fact). rewrite Rabs_pos_eq by (left; apply Rinv_0_lt_compat; lra). rewrite <- (Rmult_1_l (Mb * q ^ 7)). apply Rmult_le_compat; [left; apply Rinv_0_lt_compat; lra|apply Cmod_ge_0|rewrite <- Rinv_1; apply Rinv_le_contravar; lra|].
          replace (q ^ 7) with (rprod (repeat q 7)) by (unfold rprod; cbn; ring). apply Bd; [rewrite repeat_length; lia|]. assert (Db : bd (S n) D q). { intros j Hj. unfold D, incr. destruct (Nat.ltb_spec j n); [now apply Hd|]. replace j with n by lia. rewrite Nat.eqb_refl, Cmod_R. exact Hx. } cbn [repeat]. do 7 (constructor; [exact Db|]). constructor. }
        replace (f * (L0 + L d) - ((s + t 7%nat) * L0 + s * L d))%C with ((f - (s + t 7%nat)) * (L0 + L d) + t 7%nat * L d)%C by ring. eapply Rle_trans; [apply Cmod_triangle|]. rewrite !Cmod_mult.
        assert (Ld : Cmod (L d) <= q) by now apply Lbd.
        assert (A1 : Cmod (f - (s + t 7%nat))%C * Cmod (L0 + L d)%C <= M * q ^ 8 * (B + 1)). { apply Rmult_le_compat; [apply Cmod_ge_0|apply Cmod_ge_0|exact R|]. eapply Rle_trans; [apply Cmod_triangle|]. specialize (LB o). fold L0 in LB. lra. }
        assert (A2 : Cmod (t 7%nat) * Cmod (L d) <= Mb * q ^ 7 * q) by (apply Rmult_le_compat; [apply Cmod_ge_0|apply Cmod_ge_0|exact T7|exact Ld]). replace (q ^ 8) with (q ^ 7 * q) in * by ring. lra.
    Qed.
  End Lin.
End Smooth.

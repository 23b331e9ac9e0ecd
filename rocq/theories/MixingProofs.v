(** Systems of three-wave-mixing type: each equation is a sum of products of two unknowns, possibly conjugated, with coefficients oscillating in x.
    They are smooth with explicit bounds, and if they conserve the total power they have exactly one solution, for all x (used for C124). *)
From Coq Require Import Reals List ZArith Bool Arith Lia Lra.
From Coquelicot Require Import Complex Coquelicot.
From Verif Require Import Base CNum NumPy SSFMGnlseProofs RkJetProofs ODETableauProofs ODETreeProofs BSeriesProofs SmoothProofs PicardProofs ODEConvergeProofs.
Import ListNotations.
Local Open Scope R_scope.
Local Notation z0 := (RtoC 0).
Local Notation V := (nat -> C).

(** one factor: unknown number [fst p], conjugated if [snd p] *)
Definition lin (p : nat * bool) (v : V) : C := if snd p then Cconj (v (fst p)) else v (fst p).
Lemma lin_lin p u v (a : R) : lin p (fun j => RtoC a * u j + v j)%C = (RtoC a * lin p u + lin p v)%C.
Proof. unfold lin. destruct (snd p); [|reflexivity]. apply injective_projections; cbn; ring. Qed.
Lemma lin_mod p v : Cmod (lin p v) = Cmod (v (fst p)).
Proof. unfold lin. destruct (snd p); [|reflexivity]. unfold Cmod. f_equal. cbn. ring. Qed.
Lemma lin_diff p u v : Cmod (lin p u - lin p v)%C = Cmod (u (fst p) - v (fst p))%C.
Proof. unfold lin. destruct (snd p); [|reflexivity]. unfold Cmod. f_equal. cbn. ring. Qed.

Section Mixing.
  Variables n m : nat.
  Variable coef : nat -> nat -> nat -> C.
  Variable theta : nat -> nat -> nat -> R.
  Variables P Q : nat -> nat -> nat -> nat * bool.
  Definition mixing (x : R) (v : V) (i : nat) : C := csum m (fun b => csum m (fun c => coef i b c * cis (theta i b c * x) * lin (P i b c) v * lin (Q i b c) v)%C).
  Variables G Th : R.
  Hypothesis HP : forall i b c, (i < n)%nat -> (b < m)%nat -> (c < m)%nat -> (fst (P i b c) < n)%nat /\ (fst (Q i b c) < n)%nat.
  Hypothesis HG : forall i, (i < n)%nat -> rsum m (fun b => rsum m (fun c => Cmod (coef i b c))) <= G.
  Hypothesis G0 : 0 <= G.
  Hypothesis Th1 : 1 <= Th.
  Hypothesis HTh : forall i b c, (i < n)%nat -> (b < m)%nat -> (c < m)%nat -> Rabs (theta i b c) <= Th.

  Lemma mix_sum (f : nat -> nat -> C) (g : nat -> nat -> R) i D : (i < n)%nat -> 0 <= D -> (forall b c, (b < m)%nat -> (c < m)%nat -> Cmod (f b c) <= Cmod (coef i b c) * D) -> Cmod (csum m (fun b => csum m (fun c => f b c))) <= G * D.
  Proof.
    intros Hi HD H. eapply Rle_trans; [apply Cmod_csum|]. apply Rle_trans with (rsum m (fun b => rsum m (fun c => Cmod (coef i b c)) * D)).
    - apply rsum_le. intros b Hb. rewrite <- rsum_scal_r. eapply Rle_trans; [apply Cmod_csum|]. apply rsum_le. intros c Hc. now apply H.
    - rewrite rsum_scal_r. apply Rmult_le_compat_r; [exact HD|now apply HG].
  Qed.
  Lemma mix_bound x v D i : (i < n)%nat -> 0 <= D -> (forall j, (j < n)%nat -> Cmod (v j) <= D) -> Cmod (mixing x v i) <= G * (D * D).
  Proof.
    intros Hi HD Hv. apply (mix_sum _ (fun _ _ => 0) i); [exact Hi|now apply Rmult_le_pos|]. intros b c Hb Hc. destruct (HP i b c Hi Hb Hc) as [A B]. rewrite !Cmod_mult, cis_mod, Rmult_1_r, Rmult_assoc, !lin_mod.
    apply Rmult_le_compat_l; [apply Cmod_ge_0|]. apply Rmult_le_compat; try apply Cmod_ge_0; now apply Hv.
  Qed.
  Lemma mix_lip x u v D d i : (i < n)%nat -> 0 <= D -> (forall j, (j < n)%nat -> Cmod (u j) <= D) -> (forall j, (j < n)%nat -> Cmod (v j) <= D) -> (forall j, (j < n)%nat -> Cmod (u j - v j)%C <= d) -> Cmod (mixing x u i - mixing x v i)%C <= 2 * G * D * d.
  Proof.
    intros Hi HD Hu Hv Hd. assert (Hd0 : 0 <= d) by (eapply Rle_trans; [apply Cmod_ge_0|apply (Hd i Hi)]).
    replace (mixing x u i - mixing x v i)%C with (csum m (fun b => csum m (fun c => coef i b c * cis (theta i b c * x) * (lin (P i b c) u * lin (Q i b c) u - lin (P i b c) v * lin (Q i b c) v))%C)).
    - replace (2 * G * D * d) with (G * (2 * D * d)) by ring. apply (mix_sum _ (fun _ _ => 0) i); [exact Hi|apply Rmult_le_pos; lra|]. intros b c Hb Hc. destruct (HP i b c Hi Hb Hc) as [A B]. rewrite !Cmod_mult, cis_mod, Rmult_1_r. apply Rmult_le_compat_l; [apply Cmod_ge_0|].
      set (p := P i b c) in *. set (q := Q i b c) in *. replace (lin p u * lin q u - lin p v * lin q v)%C with ((lin p u - lin p v) * lin q u + lin p v * (lin q u - lin q v))%C by ring. eapply Rle_trans; [apply Cmod_triangle|]. rewrite !Cmod_mult, !lin_diff, !lin_mod.
      assert (Cmod (u (fst p) - v (fst p))%C * Cmod (u (fst q)) <= d * D) by (apply Rmult_le_compat; try apply Cmod_ge_0; [now apply Hd|now apply Hu]). assert (Cmod (v (fst p)) * Cmod (u (fst q) - v (fst q))%C <= D * d) by (apply Rmult_le_compat; try apply Cmod_ge_0; [now apply Hv|now apply Hd]). lra.
    - unfold mixing, Cminus. rewrite <- csum_opp, <- csum_plus. apply csum_ext. intros b _. rewrite <- csum_opp, <- csum_plus. apply csum_ext. intros c _. ring.
  Qed.
  Lemma mix_ext x u v i : (i < n)%nat -> (forall j, (j < n)%nat -> u j = v j) -> mixing x u i = mixing x v i.
  Proof. intros Hi H. unfold mixing. apply csum_ext. intros b Hb. apply csum_ext. intros c Hc. destruct (HP i b c Hi Hb Hc) as [A B]. unfold lin. now rewrite (H _ A), (H _ B). Qed.

  (** ** Smoothness *)
  Definition Tmix (x : R) (y : list C) (l : list V) (i : nat) : C :=
    let at_ p := lin p (fun j => nth j y z0) in
    csum m (fun b => csum m (fun c =>
      let T1 l := (Tcis n (fun _ : unit => x) (coef i b c) (theta i b c) tt l) in
      let T2 l := (T1 l * at_ (P i b c) + dl (lin (P i b c)) T1 l)%C in
      (T2 l * at_ (Q i b c) + dl (lin (Q i b c)) T2 l)%C)).
  Definition Mmix (B : R) : R := G * (Th ^ 7 * (B + 7) * (B + 7)).
  Lemma mix_smooth {I : Type} (x0 : I -> R) (y0 : I -> list C) B i : (i < n)%nat -> 0 <= B -> (forall o j, (j < n)%nat -> Cmod (nth j (y0 o) z0) <= B) ->
    smooth n x0 y0 (fun x y => mixing x (fun j => nth j y z0) i) (fun o l => Tmix (x0 o) (y0 o) l i) (Mmix B).
  Proof.
    intros Hi HB Hy. assert (P7 : 0 <= Th ^ 7) by (apply pow_le; lra).
    apply (smooth_le _ _ _ _ _ (rsum m (fun b => rsum m (fun c => Cmod (coef i b c) * Th ^ 7 * (B + 7) * (B + 7))))).
    - unfold Mmix. rewrite (rsum_ext m _ (fun b => rsum m (fun c => Cmod (coef i b c)) * (Th ^ 7 * (B + 7) * (B + 7)))); [rewrite rsum_scal_r; apply Rmult_le_compat_r; [repeat apply Rmult_le_pos; lra|now apply HG]|]. intros b _. rewrite <- rsum_scal_r. apply rsum_ext. intros c _. ring.
    - unfold mixing, Tmix. apply (smooth_csum n x0 y0 m (fun b x y => csum m (fun c => coef i b c * cis (theta i b c * x) * lin (P i b c) (fun j => nth j y z0) * lin (Q i b c) (fun j => nth j y z0))%C) _ (fun b => rsum m (fun c => Cmod (coef i b c) * Th ^ 7 * (B + 7) * (B + 7)))). intros b Hb.
      apply (smooth_csum n x0 y0 m (fun c x y => coef i b c * cis (theta i b c * x) * lin (P i b c) (fun j => nth j y z0) * lin (Q i b c) (fun j => nth j y z0))%C _ (fun c => Cmod (coef i b c) * Th ^ 7 * (B + 7) * (B + 7))). intros c Hc. destruct (HP i b c Hi Hb Hc) as [A1 A2].
      assert (Ab : forall p, (fst p < n)%nat -> forall v r, bd n v r -> Cmod (lin p v) <= r) by (intros p Hp v r Hv; rewrite lin_mod; now apply Hv).
      assert (Ae : forall p, (fst p < n)%nat -> forall u v, (forall j, (j < n)%nat -> u j = v j) -> lin p u = lin p v) by (intros p Hp u v Huv; unfold lin; now rewrite (Huv _ Hp)).
      assert (Ay : forall p, (fst p < n)%nat -> forall o, Cmod (lin p (fun j => nth j (y0 o) z0)) <= B) by (intros p Hp o; rewrite lin_mod; now apply Hy).
      apply (smooth_lin n x0 y0 (lin (Q i b c)) (lin_lin _) (Ab _ A2) (Ae _ A2) B HB (Ay _ A2)). apply (smooth_lin n x0 y0 (lin (P i b c)) (lin_lin _) (Ab _ A1) (Ae _ A1) B HB (Ay _ A1)). apply (smooth_cis n x0 y0 (coef i b c) (theta i b c) Th Th1). now apply HTh.
  Qed.
  Lemma mix_utaylor {I : Type} (x0 : I -> R) (y0 : I -> list C) B : 0 <= B -> (forall o j, (j < n)%nat -> Cmod (nth j (y0 o) z0) <= B) ->
    utaylor7 n (fun x y => mixing x (fun j => nth j y z0)) x0 y0 (fun o l i => Tmix (x0 o) (y0 o) l i).
  Proof.
    intros HB Hy. assert (S : forall i, (i < n)%nat -> smooth n x0 y0 (fun x y => mixing x (fun j => nth j y z0) i) (fun o l => Tmix (x0 o) (y0 o) l i) (Mmix B)) by (intros i Hi; now apply mix_smooth).
    split; [intros o l1 l2 u v a i Hi _; destruct (S i Hi) as (_ & L & _); apply L|].
    assert (U : forall k, (k <= n)%nat -> exists M r, Mmix B <= M /\ 0 < r /\ forall o d xi q i, (i < k)%nat -> q <= r -> Rabs xi <= q -> bd n d q -> Cmod (mixing (x0 o + xi)%R (fun j => nth j (shifted n (y0 o) d) z0) i - csum 8 (fun m0 => RtoC (/ INR (fact m0)) * Tmix (x0 o) (y0 o) (repeat (incr n d xi) m0) i))%C <= M * q ^ 8).
    { induction k as [|k IH]; intros Hk; [exists (Mmix B), 1; split; [lra|]; split; [lra|]; intros; lia|]. destruct (IH ltac:(lia)) as (M & r & HM & Hr & R). destruct (S k ltac:(lia)) as (_ & _ & _ & M' & r' & HM' & Hr' & R'). exists (Rmax M M'), (Rmin r r'). split; [eapply Rle_trans; [exact HM|apply Rmax_l]|]. split; [now apply Rmin_glb_lt|].
      intros o d xi q i Hi Hq Hx Hd. pose proof (Rmin_l r r'). pose proof (Rmin_r r r'). assert (Q8 : 0 <= q ^ 8) by (apply pow_le; pose proof (Rabs_pos xi); lra). destruct (Nat.eq_dec i k) as [->|Nk].
      - eapply Rle_trans; [exact (R' o d xi q ltac:(lra) Hx Hd)|]. apply Rmult_le_compat_r; [exact Q8|apply Rmax_r].
      - eapply Rle_trans; [exact (R o d xi q i ltac:(lia) ltac:(lra) Hx Hd)|]. apply Rmult_le_compat_r; [exact Q8|apply Rmax_l]. }
    assert (M0 : 0 <= Mmix B) by (unfold Mmix; apply Rmult_le_pos; [exact G0|]; repeat apply Rmult_le_pos; try lra; apply pow_le; lra).
    destruct (U n (le_n n)) as (M & r & HM & Hr & R). exists M, r. split; [lra|]. split; [exact Hr|]. intros o. split; [|intros d xi q i Hi; now apply R].
    intros l rs i Hi Hl Hf. destruct (S i Hi) as (_ & _ & Bd & _). eapply Rle_trans; [apply (Bd o l rs Hl Hf)|]. apply Rmult_le_compat_r; [exact (rprod_nonneg _ _ _ Hf)|exact HM].
  Qed.
  Lemma Tmix_bound B x y l rs i : (i < n)%nat -> 0 <= B -> (forall j, (j < n)%nat -> Cmod (nth j y z0) <= B) -> (length l <= 7)%nat -> List.Forall2 (bd (S n)) l rs -> Cmod (Tmix x y l i) <= Mmix B * rprod rs.
  Proof. intros Hi HB Hy Hl Hf. destruct (mix_smooth (fun _ : unit => x) (fun _ => y) B i Hi HB (fun _ => Hy)) as (_ & _ & Bd & _). exact (Bd tt l rs Hl Hf). Qed.

  (** ** The global solution of a conservative system *)
  Definition power (v : V) : R := rsum n (fun j => Cmod (v j) ^ 2).
  Hypothesis cons : forall x v, Re (csum n (fun j => Cconj (v j) * mixing x v j)%C) = 0.
  Definition cut (B t : R) : R := Rmax (- B) (Rmin B t).
  Lemma cut_abs B t : 0 <= B -> Rabs (cut B t) <= B. Proof. intros H. unfold cut, Rmax, Rmin, Rabs. repeat destruct (Rle_dec _ _); destruct (Rcase_abs _); lra. Qed.
  Lemma cut_lip B s t : 0 <= B -> Rabs (cut B s - cut B t) <= Rabs (s - t). Proof. intros H. unfold cut, Rmax, Rmin. repeat destruct (Rle_dec _ _); unfold Rabs; repeat destruct (Rcase_abs _); lra. Qed.
  Lemma cut_id B t : Rabs t <= B -> cut B t = t. Proof. intros H. unfold cut, Rmax, Rmin. unfold Rabs in H. repeat destruct (Rle_dec _ _); destruct (Rcase_abs t); lra. Qed.
  Definition ccut (B : R) (z : C) : C := (cut B (Re z), cut B (Im z)).
  Lemma ccut_abs B z : 0 <= B -> Cmod (ccut B z) <= 2 * B.
  Proof. intros H. eapply Rle_trans; [apply Cmod_parts|]. cbn [Re Im ccut fst snd]. pose proof (cut_abs B (Re z) H). pose proof (cut_abs B (Im z) H). lra. Qed.
  Lemma ccut_lip B z w : 0 <= B -> Cmod (ccut B z - ccut B w)%C <= 2 * Cmod (z - w)%C.
  Proof.
    intros H. eapply Rle_trans; [apply Cmod_parts|]. change (Re (ccut B z - ccut B w)%C) with (cut B (Re z) - cut B (Re w)). change (Im (ccut B z - ccut B w)%C) with (cut B (Im z) - cut B (Im w)).
    pose proof (cut_lip B (Re z) (Re w) H). pose proof (cut_lip B (Im z) (Im w) H). pose proof (re_le (z - w)%C) as H2. pose proof (im_le (z - w)%C) as H3. change (Re (z - w)%C) with (Re z - Re w) in H2. change (Im (z - w)%C) with (Im z - Im w) in H3. lra.
  Qed.
  Lemma ccut_id B z : Cmod z <= B -> ccut B z = z.
  Proof. intros H. pose proof (re_le z). pose proof (im_le z). unfold ccut. rewrite !cut_id by lra. now destruct z. Qed.
  Definition over (B : R) (v : V) : R := rsum n (fun j => Rmax 0 (Cmod (v j) - B)).
  Definition chi (B : R) (v : V) : R := Rmax 0 (1 - over B v).
  Lemma over_nonneg B v : 0 <= over B v. Proof. apply rsum_nonneg. intros i _. apply Rmax_l. Qed.
  Lemma chi_range B v : 0 <= chi B v <= 1. Proof. unfold chi. pose proof (over_nonneg B v). unfold Rmax. destruct (Rle_dec _ _); lra. Qed.
  Lemma chi_1 B v : (forall j, (j < n)%nat -> Cmod (v j) <= B) -> chi B v = 1.
  Proof. intros H. unfold chi, over. rewrite (rsum_zero n); [rewrite Rmax_right; lra|]. intros i Hi. rewrite Rmax_left; [reflexivity|]. specialize (H i Hi). lra. Qed.
  Lemma chi_small B v : chi B v <> 0 -> forall j, (j < n)%nat -> Cmod (v j) <= B + 1.
  Proof.
    intros H j Hj. apply Rnot_lt_le. intros P1. apply H. unfold chi. rewrite Rmax_left; [reflexivity|]. assert (1 <= over B v); [|lra]. unfold over. apply Rle_trans with (Rmax 0 (Cmod (v j) - B)); [eapply Rle_trans; [|apply Rmax_r]; lra|].
    apply (rsum_term_le n (fun j => Rmax 0 (Cmod (v j) - B)) j); [|exact Hj]. intros i _. apply Rmax_l.
  Qed.
  Lemma max0_lip a b : Rabs (Rmax 0 a - Rmax 0 b) <= Rabs (a - b). Proof. unfold Rmax. repeat destruct (Rle_dec _ _); unfold Rabs; repeat destruct (Rcase_abs _); lra. Qed.
  Lemma rsum_diff k (f g : nat -> R) d : (forall i, (i < k)%nat -> Rabs (f i - g i) <= d) -> Rabs (rsum k f - rsum k g) <= INR k * d.
  Proof. induction k as [|k IH]; intros H; [rewrite !rsum_0, Rminus_0_r, Rabs_R0; cbn; lra|]. rewrite !rsum_S, S_INR. replace (rsum k f + f k - (rsum k g + g k)) with ((rsum k f - rsum k g) + (f k - g k)) by ring. eapply Rle_trans; [apply Rabs_triang|]. pose proof (IH ltac:(intros; apply H; lia)). pose proof (H k ltac:(lia)). lra. Qed.
  Lemma chi_lip B u v d : (forall j, (j < n)%nat -> Cmod (u j - v j)%C <= d) -> Rabs (chi B u - chi B v) <= INR n * d.
  Proof.
    intros H. unfold chi. eapply Rle_trans; [apply max0_lip|]. replace (1 - over B u - (1 - over B v)) with (- (over B u - over B v)) by ring. rewrite Rabs_Ropp. apply rsum_diff. intros i Hi. eapply Rle_trans; [apply max0_lip|]. replace (Cmod (u i) - B - (Cmod (v i) - B)) with (Cmod (u i) - Cmod (v i)) by ring. eapply Rle_trans; [|apply (H i Hi)]. 
    pose proof (Cmod_triangle (u i - v i) (v i))%C as T1. replace (u i - v i + v i)%C with (u i) in T1 by ring. pose proof (Cmod_triangle (v i - u i) (u i))%C as T2. replace (v i - u i + u i)%C with (v i) in T2 by ring. replace (v i - u i)%C with (- (u i - v i))%C in T2 by ring. rewrite Cmod_opp in T2. unfold Rabs. destruct (Rcase_abs _); lra.
  Qed.
  Definition tame (B : R) (x : R) (v : V) (i : nat) : C := (RtoC (chi B v) * mixing x (fun j => ccut (B + 1) (v j)) i)%C.
  Definition Kt (B : R) : R := G * (2 * (B + 1) * (2 * (B + 1))).
  Definition Lt (B : R) : R := INR n * Kt B + 2 * G * (2 * (B + 1)) * 2 + 1.
  Lemma Kt_pos B : 0 <= B -> 0 <= Kt B. Proof. intros H. unfold Kt. apply Rmult_le_pos; [exact G0|]. apply Rmult_le_pos; lra. Qed.
  Lemma Lt_pos B : 0 <= B -> 0 < Lt B.
  Proof. intros H. unfold Lt. pose proof (Rmult_le_pos (INR n) (Kt B) (pos_INR n) (Kt_pos B H)). assert (0 <= 2 * G * (2 * (B + 1)) * 2) by (apply Rmult_le_pos; [apply Rmult_le_pos; lra|lra]). lra. Qed.
  Lemma tame_bound B x v i : 0 <= B -> (i < n)%nat -> Cmod (tame B x v i) <= Kt B.
  Proof.
    intros HB Hi. unfold tame. rewrite Cmod_mult, Cmod_R. pose proof (chi_range B v). rewrite Rabs_pos_eq by lra. rewrite <- (Rmult_1_l (Kt B)). apply Rmult_le_compat; [lra|apply Cmod_ge_0|lra|]. apply (mix_bound x _ (2 * (B + 1)) i Hi); [lra|]. intros j _. apply ccut_abs. lra.
  Qed.
  Lemma tame_lip B x u v d i : 0 <= B -> (i < n)%nat -> (forall j, (j < n)%nat -> Cmod (u j - v j)%C <= d) -> Cmod (tame B x u i - tame B x v i)%C <= Lt B * d.
  Proof.
    intros HB Hi Hd. assert (Hd0 : 0 <= d) by (eapply Rle_trans; [apply Cmod_ge_0|apply (Hd i Hi)]). unfold tame. set (a := mixing x (fun j => ccut (B + 1) (u j)) i). set (b := mixing x (fun j => ccut (B + 1) (v j)) i).
    replace (RtoC (chi B u) * a - RtoC (chi B v) * b)%C with (RtoC (chi B u - chi B v) * a + RtoC (chi B v) * (a - b))%C by (rewrite RtoC_minus; ring). eapply Rle_trans; [apply Cmod_triangle|]. rewrite !Cmod_mult, !Cmod_R. pose proof (chi_range B v) as R1. rewrite (Rabs_pos_eq (chi B v)) by lra.
    assert (A1 : Rabs (chi B u - chi B v) * Cmod a <= INR n * d * Kt B). { apply Rmult_le_compat; [apply Rabs_pos|apply Cmod_ge_0|now apply chi_lip|]. apply (mix_bound x _ (2 * (B + 1)) i Hi); [lra|]. intros j _. apply ccut_abs. lra. }
    assert (A2 : Cmod (a - b)%C <= 2 * G * (2 * (B + 1)) * (2 * d)). { apply mix_lip; [exact Hi|lra|intros j _; apply ccut_abs; lra|intros j _; apply ccut_abs; lra|]. intros j Hj. eapply Rle_trans; [apply ccut_lip; lra|]. specialize (Hd j Hj). lra. }
    assert (A3 : chi B v * Cmod (a - b)%C <= 1 * Cmod (a - b)%C) by (apply Rmult_le_compat_r; [apply Cmod_ge_0|lra]). unfold Lt. lra.
  Qed.
  Lemma mix_cont v i x : ccont (fun t => mixing t v i) x.
  Proof.
    eapply cderive_ccont. unfold mixing. apply cderive_csum. intros b _. apply cderive_csum. intros c _. 
    eapply (cderive_ext (fun t => coef i b c * lin (P i b c) v * lin (Q i b c) v * cis (- (- theta i b c * t)))%C); [|apply cderive_line].
    intros t. replace (- (- theta i b c * t)) with (theta i b c * t) by ring. ring.
  Qed.
  Lemma ccont_scal a f x : ccont f x -> ccont (fun t => RtoC a * f t)%C x.
  Proof.
    intros H e He. destruct (H (e / (Rabs a + 1))) as (d & Pd & Hd); [apply Rdiv_lt_0_compat; [exact He|pose proof (Rabs_pos a); lra]|]. exists d. split; [exact Pd|]. intros t Ht. specialize (Hd t Ht). replace (RtoC a * f t - RtoC a * f x)%C with (RtoC a * (f t - f x))%C by ring. rewrite Cmod_mult, Cmod_R. pose proof (Rabs_pos a). pose proof (Cmod_ge_0 (f t - f x)%C).
    apply Rle_lt_trans with ((Rabs a + 1) * Cmod (f t - f x)%C); [apply Rmult_le_compat_r; lra|]. replace e with ((Rabs a + 1) * (e / (Rabs a + 1))) by (field; lra). apply Rmult_lt_compat_l; lra.
  Qed.
  Lemma power_derive (u : R -> V) (l : V) x : (forall j, (j < n)%nat -> is_cderive (fun t => u t j) x (l j)) -> is_derive (fun t => power (u t)) x (2 * Re (csum n (fun j => Cconj (u x j) * l j)%C)).
  Proof.
    intros H. unfold power. clear cons HP HG HTh. induction n as [|k IH].
    - rewrite csum_0. cbn [Re fst RtoC]. rewrite Rmult_0_r. apply (is_derive_ext (fun _ => 0)); [intros t; now rewrite rsum_0|]. apply is_derive_Reals, derivable_pt_lim_const.
    - rewrite csum_S. change (Re (csum k (fun j => Cconj (u x j) * l j) + Cconj (u x k) * l k)%C) with (Re (csum k (fun j => Cconj (u x j) * l j)%C) + Re (Cconj (u x k) * l k)%C). rewrite Rmult_plus_distr_l.
      apply (is_derive_ext (fun t => rsum k (fun j => Cmod (u t j) ^ 2) + (Re (u t k) ^ 2 + Im (u t k) ^ 2))). { intros t. rewrite rsum_S. f_equal. unfold Cmod. rewrite pow2_sqrt; [reflexivity|]. apply Rplus_le_le_0_compat; apply pow2_ge_0. }
      apply (is_derive_plus (fun t => rsum k (fun j => Cmod (u t j) ^ 2)) (fun t => Re (u t k) ^ 2 + Im (u t k) ^ 2)); [apply IH; intros j Hj; apply H; lia|]. destruct (H k ltac:(lia)) as [D1 D2]. 
      pose proof (is_derive_pow (fun t => Re (u t k)) 2 x _ D1) as E1. pose proof (is_derive_pow (fun t => Im (u t k)) 2 x _ D2) as E2. pose proof (is_derive_plus _ _ _ _ _ E1 E2) as E. eapply is_derive_ext; [|replace (2 * Re (Cconj (u x k) * l k)%C) with (plus (INR 2 * Re (l k) * Re (u x k) ^ Nat.pred 2) (INR 2 * Im (l k) * Im (u x k) ^ Nat.pred 2)); [exact E|]]; [intros t; reflexivity|].
      change (INR 2 * Re (l k) * Re (u x k) ^ 1 + INR 2 * Im (l k) * Im (u x k) ^ 1 = 2 * (Re (u x k) * Re (l k) - - Im (u x k) * Im (l k))). cbn [INR pow]. ring.
  Qed.
  Lemma power_bound v j : (j < n)%nat -> Cmod (v j) <= sqrt (power v).
  Proof.
    intros Hj. rewrite <- (sqrt_pow2 (Cmod (v j))) by apply Cmod_ge_0. apply sqrt_le_1_alt. apply (rsum_term_le n (fun j => Cmod (v j) ^ 2) j); [|exact Hj]. intros i _. apply pow2_ge_0.
  Qed.
  Lemma power_ext u v : (forall j, (j < n)%nat -> u j = v j) -> power u = power v.
  Proof. intros H. apply rsum_ext. intros i Hi. now rewrite H. Qed.
  Lemma power_nonneg v : 0 <= power v. Proof. apply rsum_nonneg. intros i _. apply pow2_ge_0. Qed.
  Lemma const_of_derive (p : R -> R) L x : Rabs x <= L -> (forall t, Rabs t <= L -> is_derive p t 0) -> p x = p 0.
  Proof.
    intros Hx H. destruct (MVT_gen p 0 x (fun _ => 0)) as (c & _ & E).
    - intros t Ht. apply H. unfold Rmin, Rmax in Ht. unfold Rabs in *. destruct (Rle_dec 0 x), (Rcase_abs x), (Rcase_abs t); lra.
    - intros t Ht. apply continuity_pt_filterlim. apply (ex_derive_continuous p). exists 0. apply H. unfold Rmin, Rmax in Ht. unfold Rabs in *. destruct (Rle_dec 0 x), (Rcase_abs x), (Rcase_abs t); lra.
    - lra.
  Qed.
  Lemma mix_solution (y0 : V) : exists u : R -> V, (forall j, (j < n)%nat -> u 0 j = y0 j) /\ (forall x j, (j < n)%nat -> is_cderive (fun t => u t j) x (mixing x (u x) j)) /\ forall x, power (u x) = power y0.
  Proof.
    set (B := sqrt (power y0)). assert (HB : 0 <= B) by apply sqrt_pos.
    destruct (flow_solves n (tame B) (Lt B) (Kt B) (Lt_pos B HB) (Kt_pos B HB) (fun x u v d i Hi => tame_lip B x u v d i HB Hi)
      (fun u i x Hi => ccont_scal (chi B u) _ x (mix_cont (fun j => ccut (B + 1) (u j)) i x)) y0 (fun x i Hi => tame_bound B x y0 i HB Hi)) as [F0 FD].
    set (u := flow (tame B) y0) in *. exists u. assert (PC : forall x, power (u x) = power y0).
    { intros x. transitivity (power (u 0)); [|apply power_ext; exact F0]. apply (const_of_derive (fun t => power (u t)) (Rabs x) x (Rle_refl _)). intros t _. pose proof (power_derive u _ t (fun j Hj => FD j t Hj)) as D. replace 0 with (2 * Re (csum n (fun j => Cconj (u t j) * tame B t (u t) j)%C)); [exact D|].
      rewrite (csum_ext n _ (fun j => RtoC (chi B (u t)) * (Cconj (u t j) * mixing t (fun j => ccut (B + 1) (u t j)) j))%C) by (intros; unfold tame; ring). rewrite csum_scal_l. destruct (Req_dec (chi B (u t)) 0) as [->|Nz]; [cbn; ring|].
      rewrite (csum_ext n _ (fun j => Cconj (u t j) * mixing t (u t) j)%C). 2: { intros i Hi. f_equal. apply mix_ext; [exact Hi|]. intros j Hj. apply ccut_id. now apply (chi_small B (u t) Nz). }
      rewrite <- (Rmult_0_r 2). f_equal. transitivity (chi B (u t) * Re (csum n (fun j => Cconj (u t j) * mixing t (u t) j)%C) - 0 * Im (csum n (fun j => Cconj (u t j) * mixing t (u t) j)%C)); [reflexivity|]. rewrite cons. ring. }
    split; [exact F0|]. split; [|exact PC]. intros x j Hj. replace (mixing x (u x) j) with (tame B x (u x) j); [now apply FD|]. unfold tame. assert (Bd : forall k, (k < n)%nat -> Cmod (u x k) <= B) by (intros k Hk; unfold B; rewrite <- (PC x); now apply power_bound).
    rewrite chi_1 by exact Bd. rewrite (mix_ext x (fun j => ccut (B + 1) (u x j)) (u x) j Hj); [ring|]. intros k Hk. apply ccut_id. specialize (Bd k Hk). lra.
  Qed.
  Lemma mix_unique (u v : R -> V) L : (forall x j, (j < n)%nat -> Rabs x <= L -> is_cderive (fun t => u t j) x (mixing x (u x) j)) -> (forall x j, (j < n)%nat -> Rabs x <= L -> is_cderive (fun t => v t j) x (mixing x (v x) j)) ->
    (forall j, (j < n)%nat -> u 0 j = v 0 j) -> forall x j, (j < n)%nat -> Rabs x <= L -> u x j = v x j.
  Proof.
    intros Du Dv E0. set (B := sqrt (power (u 0))). assert (HB : 0 <= B) by apply sqrt_pos.
    assert (Bd : forall w, (forall x j, (j < n)%nat -> Rabs x <= L -> is_cderive (fun t => w t j) x (mixing x (w x) j)) -> power (w 0) = power (u 0) -> forall x j, (j < n)%nat -> Rabs x <= L -> Cmod (w x j) <= B).
    { intros w Dw Ew x j Hj Hx. unfold B. rewrite <- Ew, <- (const_of_derive (fun t => power (w t)) L x Hx); [now apply power_bound|]. intros t Ht. pose proof (power_derive w _ t (fun j Hj => Dw t j Hj Ht)) as D. rewrite cons, Rmult_0_r in D. exact D. }
    assert (Bu := Bd u Du eq_refl). assert (Bv := Bd v Dv (power_ext _ _ (fun j Hj => eq_sym (E0 j Hj)))).
    apply (unique_flow n mixing (2 * G * B + 1) (2 * B) L u v); [pose proof (Rmult_le_pos _ _ G0 HB); lra|lra| |exact Du|exact Dv|exact E0|].
    - intros x i d Hi Hx Hd. assert (Hd0 : 0 <= d) by (eapply Rle_trans; [apply Cmod_ge_0|apply (Hd i Hi)]). eapply Rle_trans; [apply (mix_lip x (u x) (v x) B d i Hi HB); [intros; now apply Bu|intros; now apply Bv|exact Hd]|]. lra.
    - intros x j Hj Hx. eapply Rle_trans; [apply Cmod_triangle|]. rewrite Cmod_opp. specialize (Bu x j Hj Hx). specialize (Bv x j Hj Hx). lra.
  Qed.
End Mixing.

(** Maps of vectors with a Taylor expansion of order four: sums, products, linear images and the guarded reciprocal. *)
From Coq Require Import Reals List ZArith Bool Arith Lra Lia Psatz FunctionalExtensionality.
From Coquelicot Require Import Coquelicot.
From Verif Require Import CNum JetProofs.
Import ListNotations.
Local Open Scope R_scope.

Lemma mlin_const A : (exists B, bnd A B) -> mlin 0 (fun _ => A).
Proof.
  intros (B & HB). split; [|split]; [intros; lia|intros; lia|]. exists B. split; [apply (bnd_ge A), HB|]. intros l Bs L F. destruct l; [|discriminate]. inversion F. cbn [prodR fold_right]. rewrite Rmult_1_r. exact HB.
Qed.
Lemma mlin_zero_map k : mlin k (fun _ => v0).
Proof. split; [|split]; [intros; symmetry; apply vp_0_l|intros; symmetry; apply vs_0|]. exists 0. split; [lra|]. intros l Bs L F. rewrite Rmult_0_l. apply bnd_v0. lra. Qed.
Lemma mlin_proj : mlin 1 (fun l => nth 0 l v0).
Proof.
  split; [|split]; [intros [|x l1] l2 a b L; [reflexivity|cbn in L; lia]|intros [|x l1] l2 r a L; [reflexivity|cbn in L; lia]|].
  exists 1. split; [lra|]. intros l Bs L F. destruct F as [|a B l Bs Ha F]; [discriminate|]. destruct l; [|discriminate]. inversion F. subst. cbn. replace (1 * (B * 1)) with B by ring. exact Ha.
Qed.
Lemma mlin_plus k H G : mlin k H -> mlin k G -> mlin k (fun l => vp (H l) (G l)).
Proof.
  intros (H1 & H2 & M & PM & HM) (G1 & G2 & M' & PM' & GM). split; [|split].
  - intros. rewrite H1, G1 by assumption. vext.
  - intros. rewrite H2, G2 by assumption. vext.
  - exists (M + M'). split; [lra|]. intros l Bs L F. eapply bnd_le; [apply bnd_vp; [exact (HM l Bs L F)|exact (GM l Bs L F)]|right; ring].
Qed.
Lemma mlin_linear k L H : linear L -> mlin k H -> mlin k (fun l => L (H l)).
Proof.
  intros (LA & LS & M & PM & LB) (H1 & H2 & M' & PM' & HM). split; [|split].
  - intros. rewrite H1, LA by assumption. reflexivity.
  - intros. rewrite H2, LS by assumption. reflexivity.
  - exists (M * M'). split; [nra|]. intros l Bs Ln F. eapply bnd_le; [apply LB, (HM l Bs Ln F)|right; ring].
Qed.
(** pointwise product *)
Definition pm (a b : V) : V := fun k => (a k * b k)%C.
Lemma bnd_pm a b A B : bnd a A -> bnd b B -> bnd (pm a b) (A * B).
Proof. intros H1 H2 k. unfold pm. rewrite Cmod_mult. apply Rmult_le_compat; try apply Cmod_ge_0; [apply H1|apply H2]. Qed.
Lemma prodR_app l l' : prodR (l ++ l') = prodR l * prodR l'.
Proof. unfold prodR. induction l as [|a l IH]; cbn; [lra|]. rewrite IH. ring. Qed.
Lemma F2_firstn {X Y} (P : X -> Y -> Prop) i : forall l l', Forall2 P l l' -> Forall2 P (firstn i l) (firstn i l').
Proof. induction i as [|i IH]; intros l l' F; [constructor|]. destruct F; cbn; constructor; [assumption|]. now apply IH. Qed.
Lemma F2_skipn {X Y} (P : X -> Y -> Prop) i : forall l l', Forall2 P l l' -> Forall2 P (skipn i l) (skipn i l').
Proof. induction i as [|i IH]; intros l l' F; [exact F|]. destruct F; cbn; [constructor|]. now apply IH. Qed.
Lemma firstn_in {X} i (l1 : list X) x l2 : (length l1 < i)%nat -> firstn i (l1 ++ x :: l2) = l1 ++ x :: firstn (i - length l1 - 1) l2.
Proof. intros H. rewrite firstn_app, firstn_all2 by lia. f_equal. destruct (i - length l1)%nat eqn:E; [lia|]. replace (S n - 1)%nat with n by lia. reflexivity. Qed.
Lemma skipn_in {X} i (l1 : list X) x l2 : (length l1 < i)%nat -> skipn i (l1 ++ x :: l2) = skipn (i - length l1 - 1) l2.
Proof. intros H. rewrite skipn_app, skipn_all2 by lia. destruct (i - length l1)%nat eqn:E; [lia|]. replace (S n - 1)%nat with n by lia. reflexivity. Qed.
Lemma firstn_out {X} i (l1 : list X) x l2 : (i <= length l1)%nat -> firstn i (l1 ++ x :: l2) = firstn i l1.
Proof. intros H. rewrite firstn_app. replace (i - length l1)%nat with 0%nat by lia. cbn [firstn]. apply app_nil_r. Qed.
Lemma skipn_out {X} i (l1 : list X) x l2 : (i <= length l1)%nat -> skipn i (l1 ++ x :: l2) = skipn i l1 ++ x :: l2.
Proof. intros H. rewrite skipn_app. replace (i - length l1)%nat with 0%nat by lia. reflexivity. Qed.
Lemma mlin_pm i j k G H : (i + j = k)%nat -> mlin i G -> mlin j H -> mlin k (fun l => pm (G (firstn i l)) (H (skipn i l))).
Proof.
  intros <- (G1 & G2 & M & PM & GM) (H1 & H2 & M' & PM' & HM). split; [|split].
  - intros l1 l2 a b L. destruct (lt_dec (length l1) i) as [Q|Q].
    + rewrite !firstn_in, !skipn_in by lia. rewrite G1 by (rewrite firstn_length; lia). extensionality k. unfold pm, vp. ring.
    + rewrite !firstn_out, !skipn_out by lia. rewrite H1 by (rewrite skipn_length; lia). extensionality k. unfold pm, vp. ring.
  - intros l1 l2 r a L. destruct (lt_dec (length l1) i) as [Q|Q].
    + rewrite !firstn_in, !skipn_in by lia. rewrite G2 by (rewrite firstn_length; lia). extensionality k. unfold pm, vs. ring.
    + rewrite !firstn_out, !skipn_out by lia. rewrite H2 by (rewrite skipn_length; lia). extensionality k. unfold pm, vs. ring.
  - exists (M * M'). split; [nra|]. intros l Bs L F. pose proof (F2_length _ _ _ F) as LB. rewrite <- (firstn_skipn i Bs), prodR_app.
    eapply bnd_le; [apply bnd_pm; [apply GM; [rewrite firstn_length; lia|apply F2_firstn, F]|apply HM; [rewrite skipn_length; lia|apply F2_skipn, F]]|right; ring].
Qed.
Fixpoint vsum (f : nat -> V) (n : nat) : V := match n with O => f O | S n => vp (vsum f n) (f (S n)) end.
Lemma mlin_vsum k (f : nat -> list V -> V) n : (forall i, (i <= n)%nat -> mlin k (f i)) -> mlin k (fun l => vsum (fun i => f i l) n).
Proof. induction n as [|n IH]; intros H; cbn [vsum]; [apply H; lia|]. apply mlin_plus; [apply IH; intros; apply H; lia|apply H; lia]. Qed.
Definition rep (v : V) (k : nat) : list V := repeat v k.
Lemma rep_F2 v B k : bnd v B -> Forall2 bnd (rep v k) (repeat B k).
Proof. intros H. induction k; cbn; constructor; assumption. Qed.
Lemma prodR_rep B k : prodR (repeat B k) = B ^ k.
Proof. induction k as [|k IH]; [reflexivity|]. unfold prodR in *. cbn. rewrite IH. reflexivity. Qed.
Lemma rep_firstn v k i : (i <= k)%nat -> firstn i (rep v k) = rep v i.
Proof. revert k. induction i as [|i IH]; intros [|k] H; [reflexivity|reflexivity|lia|]. cbn. f_equal. apply IH. lia. Qed.
Lemma rep_skipn v k i : (i <= k)%nat -> skipn i (rep v k) = rep v (k - i).
Proof. revert k. induction i as [|i IH]; intros [|k] H; [reflexivity|reflexivity|lia|]. cbn. apply IH. lia. Qed.
Lemma mlin_rep k H : mlin k H -> exists M, 0 <= M /\ forall v B, bnd v B -> bnd (H (rep v k)) (M * B ^ k).
Proof. intros (_ & _ & M & PM & HM). exists M. split; [exact PM|]. intros v B Hv. rewrite <- prodR_rep. apply HM; [apply repeat_length|now apply rep_F2]. Qed.
(** the expansion written with a uniform constant *)
Lemma taylor_unif A N Nm : taylor A N Nm -> exists d M, 0 < d /\ 0 <= M /\ forall v B, bnd v B -> B <= d ->
  exists r, bnd r (M * B ^ 5) /\ (forall i, (i <= 4)%nat -> bnd (Nm i (rep v i)) (M * B ^ i)) /\
  N (vp A v) = vp (vp (Nm 0%nat []) (vp (Nm 1%nat [v]) (vp (Nm 2%nat [v; v]) (vp (Nm 3%nat [v; v; v]) (Nm 4%nat [v; v; v; v]))))) r.
Proof.
  intros (ML & d & M & Pd & PM & H). assert (U : forall m, (m <= 5)%nat -> exists W, 0 <= W /\ forall i, (i < m)%nat -> forall v B, bnd v B -> bnd (Nm i (rep v i)) (W * B ^ i)).
  { induction m as [|m IH]; intros Hm; [exists 0; split; [lra|intros; lia]|]. destruct (IH ltac:(lia)) as (W & PW & HW). destruct (mlin_rep m (Nm m) (ML m ltac:(lia))) as (W' & PW' & HW').
    exists (W + W'). split; [lra|]. intros i Hi v B Hv. assert (PB : 0 <= B ^ i) by (apply pow_le, (bnd_ge v), Hv). destruct (Nat.eq_dec i m) as [->|].
    - eapply bnd_le; [apply HW', Hv|nra].
    - eapply bnd_le; [apply HW; [lia|exact Hv]|nra]. }
  destruct (U 5%nat ltac:(lia)) as (W & PW & HW). exists d, (W + M). split; [exact Pd|]. split; [lra|]. intros v B Hv HB. destruct (H v B Hv HB) as (r & Hr & E). exists r. split; [|split; [|exact E]].
  - assert (PB : 0 <= B ^ 5) by (apply pow_le, (bnd_ge v), Hv). eapply bnd_le; [exact Hr|nra].
  - intros i Hi. assert (PB : 0 <= B ^ i) by (apply pow_le, (bnd_ge v), Hv). eapply bnd_le; [apply HW; [lia|exact Hv]|nra].
Qed.

Definition id_m (A : V) (k : nat) (l : list V) : V := match k with O => A | S O => nth 0 l v0 | _ => v0 end.
Lemma taylor_id A : (exists B, bnd A B) -> taylor A (fun v => v) (id_m A).
Proof.
  intros HA. split.
  - intros [|[|k]] _; cbn [id_m]; [now apply mlin_const|apply mlin_proj|apply mlin_zero_map].
  - exists 1, 0. split; [lra|]. split; [lra|]. intros v B Hv HB. exists v0. split; [apply bnd_v0; rewrite Rmult_0_l; lra|]. cbn. vext.
Qed.
Lemma taylor_lin A N Nm L : linear L -> taylor A N Nm -> taylor A (fun v => L (N v)) (fun k l => L (Nm k l)).
Proof.
  intros HL (ML & d & M & Pd & PM & H). split; [intros; apply mlin_linear; [exact HL|now apply ML]|]. destruct HL as (LA & LS & M' & PM' & LB). exists d, (M' * M). split; [exact Pd|]. split; [nra|].
  intros v B Hv HB. destruct (H v B Hv HB) as (r & Hr & E). exists (L r). split; [eapply bnd_le; [apply LB, Hr|right; ring]|]. rewrite E, !LA. reflexivity.
Qed.
Lemma taylor_plus A N Nm N' Nm' : taylor A N Nm -> taylor A N' Nm' -> taylor A (fun v => vp (N v) (N' v)) (fun k l => vp (Nm k l) (Nm' k l)).
Proof.
  intros (ML & d & M & Pd & PM & H) (ML' & d' & M' & Pd' & PM' & H'). split; [intros; apply mlin_plus; [now apply ML|now apply ML']|].
  exists (Rmin d d'), (M + M'). split; [now apply Rmin_glb_lt|]. split; [lra|]. intros v B Hv HB. pose proof (Rmin_l d d'). pose proof (Rmin_r d d').
  destruct (H v B Hv ltac:(lra)) as (r & Hr & E). destruct (H' v B Hv ltac:(lra)) as (r' & Hr' & E'). exists (vp r r'). split; [eapply bnd_le; [apply bnd_vp; eassumption|right; ring]|]. rewrite E, E'. vext.
Qed.
Definition pm_m (G H : nat -> list V -> V) (k : nat) (l : list V) : V := vsum (fun i => pm (G i (firstn i l)) (H (k - i)%nat (skipn i l))) k.
Lemma taylor_pm A N Nm N' Nm' : taylor A N Nm -> taylor A N' Nm' -> taylor A (fun v => pm (N v) (N' v)) (pm_m Nm Nm').
Proof.
  intros T T'. split.
  - intros k Hk. unfold pm_m. apply (mlin_vsum k (fun i l => pm (Nm i (firstn i l)) (Nm' (k - i)%nat (skipn i l)))). intros i Hi. apply (mlin_pm i (k - i)); [lia|apply T; lia|apply T'; lia].
  - destruct (taylor_unif _ _ _ T) as (d & M & Pd & PM & H). destruct (taylor_unif _ _ _ T') as (d' & M' & Pd' & PM' & H'). clear T T'.
    exists (Rmin 1 (Rmin d d')), (21 * (M * M')). split; [repeat apply Rmin_glb_lt; lra|]. split; [nra|]. intros v B Hv HB.
    pose proof (Rmin_l 1 (Rmin d d')). pose proof (Rmin_r 1 (Rmin d d')). pose proof (Rmin_l d d'). pose proof (Rmin_r d d'). pose proof (bnd_ge v B Hv) as PB.
    destruct (H v B Hv ltac:(lra)) as (g5 & Hg5 & Hg & E). destruct (H' v B Hv ltac:(lra)) as (h5 & Hh5 & Hh & E').
    set (g := fun i => match i with 5%nat => g5 | _ => Nm i (rep v i) end). set (h := fun i => match i with 5%nat => h5 | _ => Nm' i (rep v i) end).
    assert (Bg : forall i, (i <= 5)%nat -> bnd (g i) (M * B ^ i)). { intros i Hi. do 5 (destruct i as [|i]; [apply Hg; lia|]). destruct i; [exact Hg5|lia]. }
    assert (Bh : forall i, (i <= 5)%nat -> bnd (h i) (M' * B ^ i)). { intros i Hi. do 5 (destruct i as [|i]; [apply Hh; lia|]). destruct i; [exact Hh5|lia]. }
    assert (T : forall i j, (i <= 5)%nat -> (j <= 5)%nat -> (5 <= i + j)%nat -> bnd (pm (g i) (h j)) (M * M' * B ^ 5)).
    { intros i j Hi Hj Hij. eapply bnd_le; [apply bnd_pm; [apply Bg, Hi|apply Bh, Hj]|]. replace (M * B ^ i * (M' * B ^ j)) with (M * M' * B ^ (i + j)) by (rewrite pow_add; ring).
      apply Rmult_le_compat_l; [nra|]. replace (i + j)%nat with (5 + (i + j - 5))%nat by lia. rewrite pow_add. rewrite <- (Rmult_1_r (B ^ 5)) at 2. apply Rmult_le_compat_l; [apply pow_le, PB|].
      rewrite <- (pow1 (i + j - 5)). apply pow_incr. lra. }
    set (G := fun n => vsum (fun i => pm (g (5 - n + i)%nat) (h (5 - i)%nat)) n).
    assert (BG : forall n, (n <= 5)%nat -> bnd (G n) (INR (S n) * (M * M' * B ^ 5))).
    { intros n Hn. unfold G. assert (Q : forall m, (m <= n)%nat -> bnd (vsum (fun i => pm (g (5 - n + i)%nat) (h (5 - i)%nat)) m) (INR (S m) * (M * M' * B ^ 5))).
      { induction m as [|m IH]; intros Hm; cbn [vsum].
        - rewrite Rmult_1_l. apply T; lia.
        - eapply bnd_le; [apply bnd_vp; [apply IH; lia|apply T; lia]|]. rewrite (S_INR (S m)). right. ring. }
      now apply Q. }
    exists (vp (G 0%nat) (vp (G 1%nat) (vp (G 2%nat) (vp (G 3%nat) (vp (G 4%nat) (G 5%nat)))))). split.
    + eapply bnd_le; [repeat (apply bnd_vp; [apply BG; lia|]); apply BG; lia|]. cbn [INR]. right. ring.
    + rewrite E, E'. unfold pm_m, G, g, h, rep. cbn [vsum Nat.sub Nat.add repeat firstn skipn].
      generalize (Nm 0%nat []) (Nm 1%nat [v]) (Nm 2%nat [v; v]) (Nm 3%nat [v; v; v]) (Nm 4%nat [v; v; v; v]) (Nm' 0%nat []) (Nm' 1%nat [v]) (Nm' 2%nat [v; v]) (Nm' 3%nat [v; v; v]) (Nm' 4%nat [v; v; v; v]).
      intros. extensionality k. unfold pm, vp. ring.
Qed.
(** the guarded reciprocal *)
Definition rcp (n : nat) (t e : R) (v : V) : V := fun k => if lt_dec (snd k) n then if Rlt_dec t (Cmod (v k)) then (/ (RtoC e + v k))%C else RtoC 0 else RtoC 0.
Fixpoint zpow (z : C) (n : nat) : C := match n with O => RtoC 1 | S n => (z * zpow z n)%C end.
Definition prodC (l : list C) : C := fold_right Cmult (RtoC 1) l.
Definition rcp_m (n : nat) (t e : R) (A : V) (j : nat) (l : list V) : V :=
  fun k => if lt_dec (snd k) n then if Rlt_dec t (Cmod (A k)) then (prodC (map (fun v => - v k)%C l) * zpow (/ (RtoC e + A k)) (S j))%C else RtoC 0 else RtoC 0.
Lemma prodC_app l l' : prodC (l ++ l') = (prodC l * prodC l')%C.
Proof. unfold prodC. induction l as [|a l IH]; cbn; [ring|]. rewrite IH. ring. Qed.
Lemma prodC_bnd k l Bs : Forall2 bnd l Bs -> Cmod (prodC (map (fun v => - v k)%C l)) <= prodR Bs.
Proof.
  induction 1 as [|v B l Bs Hv F IH]; cbn; [rewrite Cmod_1; lra|]. rewrite Cmod_mult, Cmod_opp. apply Rmult_le_compat; try apply Cmod_ge_0; [apply Hv|exact IH].
Qed.
Lemma Cmod_pow z n : Cmod (zpow z n) = Cmod z ^ n.
Proof. induction n as [|n IH]; cbn; [apply Cmod_1|]. now rewrite Cmod_mult, IH. Qed.
Lemma rcp_low t e z : 0 <= e < t -> t < Cmod z -> t - e <= Cmod (RtoC e + z)%C.
Proof. intros He Hz. pose proof (Cmod_triangle (RtoC e + z)%C (RtoC (- e))) as T. replace (RtoC e + z + RtoC (- e))%C with z in T by (rewrite RtoC_opp; ring). rewrite Cmod_R, Rabs_Ropp, Rabs_pos_eq in T by lra. lra. Qed.
(** the samples of A keep a distance from the threshold, uniformly along the family *)
Definition gap (n : nat) (t : R) (A : V) : Prop := exists d, 0 < d /\ forall k, (snd k < n)%nat -> d < Rabs (Cmod (A k) - t).
Lemma Cmod_near a v B : Cmod v <= B -> Cmod a - B <= Cmod (a + v)%C <= Cmod a + B.
Proof.
  intros H. split.
  - pose proof (Cmod_triangle (a + v)%C (- v)%C) as T. replace (a + v + - v)%C with a in T by ring. rewrite Cmod_opp in T. lra.
  - pose proof (Cmod_triangle a v). lra.
Qed.
Lemma taylor_rcp n t e A : 0 <= e < t -> gap n t A -> taylor A (rcp n t e) (rcp_m n t e A).
Proof.
  intros He HA. set (W := / (t - e)). assert (PW : 0 < W) by (apply Rinv_0_lt_compat; lra).
  assert (NZ : forall z, t < Cmod z -> (RtoC e + z)%C <> RtoC 0). { intros z Hz E0. pose proof (rcp_low t e z He Hz) as Q. rewrite E0, Cmod_0 in Q. lra. }
  assert (BW : forall z, t < Cmod z -> Cmod (/ (RtoC e + z))%C <= W). { intros z Hz. rewrite Cmod_inv by now apply NZ. apply Rinv_le_contravar; [lra|now apply rcp_low]. }
  split.
  - intros j Hj. split; [|split].
    + intros l1 l2 a b _. extensionality k. unfold rcp_m, vp. destruct (lt_dec (snd k) n); [|ring]. destruct (Rlt_dec t (Cmod (A k))); [|ring]. rewrite !map_app. cbn [map]. rewrite !prodC_app. cbn [prodC fold_right]. ring.
    + intros l1 l2 q a _. extensionality k. unfold rcp_m, vs. destruct (lt_dec (snd k) n); [|ring]. destruct (Rlt_dec t (Cmod (A k))); [|ring]. rewrite !map_app. cbn [map]. rewrite !prodC_app. cbn [prodC fold_right]. ring.
    + exists (W ^ S j). split; [apply pow_le; lra|]. intros l Bs L F k. unfold rcp_m. assert (PB : 0 <= prodR Bs).
      { clear - F. induction F as [|v B l Bs Hv F IH]; [unfold prodR; cbn; lra|]. unfold prodR in *. cbn [fold_right]. apply Rmult_le_pos; [apply (bnd_ge v), Hv|exact IH]. }
      assert (P0 : 0 <= W ^ S j * prodR Bs) by (apply Rmult_le_pos; [apply pow_le; lra|exact PB]).
      destruct (lt_dec (snd k) n); [|rewrite Cmod_0; exact P0]. destruct (Rlt_dec t (Cmod (A k))) as [Q|Q]; [|rewrite Cmod_0; exact P0].
      rewrite Cmod_mult, Cmod_pow, Rmult_comm. apply Rmult_le_compat; [apply pow_le, Cmod_ge_0|apply Cmod_ge_0|apply pow_incr; split; [apply Cmod_ge_0|now apply BW]|now apply prodC_bnd].
  - destruct HA as (d & Pd & Hd). exists d, (W ^ 6). split; [exact Pd|]. split; [apply pow_le; lra|]. intros v B Hv HB. pose proof (bnd_ge v B Hv) as PB.
    exists (fun k => if lt_dec (snd k) n then if Rlt_dec t (Cmod (A k)) then (zpow (- v k) 5 * zpow (/ (RtoC e + A k)) 5 * / (RtoC e + (A k + v k)))%C else RtoC 0 else RtoC 0). split.
    + intros k. assert (P0 : 0 <= W ^ 6 * B ^ 5) by (apply Rmult_le_pos; apply pow_le; lra). destruct (lt_dec (snd k) n) as [Hk|]; [|rewrite Cmod_0; exact P0]. destruct (Rlt_dec t (Cmod (A k))) as [Q|Q]; [|rewrite Cmod_0; exact P0].
      pose proof (Cmod_near (A k) (v k) B (Hv k)) as CN. pose proof (Hd k Hk) as D. rewrite Rabs_pos_eq in D by lra. assert (Q' : t < Cmod (A k + v k)%C) by lra.
      rewrite !Cmod_mult, !Cmod_pow, Cmod_opp. replace (W ^ 6 * B ^ 5) with (B ^ 5 * W ^ 5 * W) by ring.
      apply Rmult_le_compat; [apply Rmult_le_pos; apply pow_le, Cmod_ge_0|apply Cmod_ge_0| |now apply BW]. apply Rmult_le_compat; [apply pow_le, Cmod_ge_0|apply pow_le, Cmod_ge_0| |]; apply pow_incr; (split; [apply Cmod_ge_0|]); [apply Hv|now apply BW].
    + extensionality k. unfold rcp, rcp_m, vp. cbn [map prodC fold_right]. destruct (lt_dec (snd k) n) as [Hk|]; [|ring]. pose proof (Cmod_near (A k) (v k) B (Hv k)) as CN. pose proof (Hd k Hk) as D.
      destruct (Rlt_dec t (Cmod (A k))) as [Q|Q].
      * rewrite Rabs_pos_eq in D by lra. destruct (Rlt_dec t (Cmod (A k + v k)%C)) as [Q'|Q']; [|lra]. pose proof (NZ _ Q) as N1. pose proof (NZ _ Q') as N2. cbn [zpow]. field. now split.
      * rewrite Rabs_left1 in D by lra. destruct (Rlt_dec t (Cmod (A k + v k)%C)) as [Q'|Q']; [lra|]. ring.
Qed.

(** Existence and uniqueness of solutions of systems of ordinary differential equations with a right-hand side that is Lipschitz in the unknowns and
    continuous in x (Picard iteration; used for C124). *)
From Coq Require Import Reals List ZArith Bool Arith Lia Lra.
From Coquelicot Require Import Complex Coquelicot.
From Verif Require Import Base CNum NumPy SSFMGnlseProofs RkJetProofs BSeriesProofs.
Local Open Scope R_scope.
Local Notation z0 := (RtoC 0).

Lemma Cmod_parts z : Cmod z <= Rabs (Re z) + Rabs (Im z). Proof. apply Cmod_le_sum. Qed.
Lemma re_le z : Rabs (Re z) <= Cmod z. Proof. apply Re_le_Cmod. Qed.
Lemma im_le z : Rabs (Im z) <= Cmod z. Proof. apply Im_le_Cmod. Qed.

(** ** Comparison with an exponential *)
Lemma cmp_pos (g dg : R -> R) A la x : 0 <= x -> (forall t, 0 <= t <= x -> is_derive g t (dg t)) -> (forall t, 0 <= t <= x -> Rabs (dg t) <= A * la * exp (la * t)) -> Rabs (g x - g 0) <= A * (exp (la * x) - 1).
Proof.
  intros Hx D B. assert (M : forall s, s = 1 \/ s = -1 -> s * (g x - g 0) <= A * (exp (la * x) - 1)).
  { intros s Hs. destruct (MVT_gen (fun t => A * exp (la * t) - s * g t) 0 x (fun t => A * la * exp (la * t) - s * dg t)) as (c & Hc & E).
    - intros t Ht. rewrite Rmin_left, Rmax_right in Ht by lra. assert (Ht' : 0 <= t <= x) by lra. specialize (D t Ht').
      apply (is_derive_minus (fun t => A * exp (la * t)) (fun t => s * g t)); [auto_derive; [trivial|ring]|]. apply (is_derive_scal g t s (dg t) D).
    - intros t Ht. rewrite Rmin_left, Rmax_right in Ht by lra. apply continuity_pt_filterlim. apply (continuous_minus (fun t => A * exp (la * t)) (fun t => s * g t)).
      + apply (ex_derive_continuous (fun t => A * exp (la * t))). auto_derive. trivial.
      + apply (ex_derive_continuous (fun t => s * g t)). exists (s * dg t). apply (is_derive_scal g t s (dg t)). apply D. lra.
    - rewrite Rmin_left, Rmax_right in Hc by lra. specialize (B c Hc). rewrite Rmult_0_r, exp_0, Rminus_0_r in E. assert (0 <= (A * la * exp (la * c) - s * dg c) * x). { apply Rmult_le_pos; [|exact Hx]. unfold Rabs in B. destruct (Rcase_abs (dg c)); destruct Hs as [-> | ->]; lra. } lra. }
  pose proof (M 1 (or_introl eq_refl)). pose proof (M (-1) (or_intror eq_refl)). unfold Rabs. destruct (Rcase_abs _); lra.
Qed.
Lemma cmp_abs (g dg : R -> R) A la x : (forall t, Rabs t <= Rabs x -> is_derive g t (dg t)) -> (forall t, Rabs t <= Rabs x -> Rabs (dg t) <= A * la * exp (la * Rabs t)) -> Rabs (g x - g 0) <= A * (exp (la * Rabs x) - 1).
Proof.
  intros D B. destruct (Rle_dec 0 x) as [P|P].
  - rewrite (Rabs_pos_eq x) in * by exact P. apply (cmp_pos g dg A la x P); intros t Ht; [apply D|rewrite <- (Rabs_pos_eq t) at 2 by lra; apply B]; rewrite Rabs_pos_eq; lra.
  - rewrite (Rabs_left x) in * by lra. pose proof (cmp_pos (fun t => g (- t)) (fun t => - dg (- t)) A la (- x) ltac:(lra)) as C. cbv beta in C. rewrite Ropp_involutive, Ropp_0 in C. apply C.
    + intros t Ht. assert (Da : is_derive g (- t) (dg (- t))) by (apply D; rewrite Rabs_Ropp, Rabs_pos_eq; lra). pose proof (is_derive_comp g Ropp t (dg (- t)) (-1) Da) as Cd. replace (- dg (- t)) with (scal (-1) (dg (- t))) by (unfold scal; cbn; unfold mult; cbn; ring). apply Cd. auto_derive; [trivial|ring].
    + intros t Ht. rewrite Rabs_Ropp. replace t with (Rabs (- t)) at 2 by (rewrite Rabs_Ropp, Rabs_pos_eq; lra). apply B. rewrite Rabs_Ropp, Rabs_pos_eq; lra.
Qed.
Lemma ccmp (g dg : R -> C) A la x : (forall t, Rabs t <= Rabs x -> is_cderive g t (dg t)) -> (forall t, Rabs t <= Rabs x -> Cmod (dg t) <= A * la * exp (la * Rabs t)) -> Cmod (g x - g 0)%C <= 2 * A * (exp (la * Rabs x) - 1).
Proof.
  intros D B. eapply Rle_trans; [apply Cmod_parts|].
  pose proof (cmp_abs (fun t => Re (g t)) (fun t => Re (dg t)) A la x (fun t Ht => proj1 (D t Ht)) (fun t Ht => Rle_trans _ _ _ (re_le _) (B t Ht))) as H1.
  pose proof (cmp_abs (fun t => Im (g t)) (fun t => Im (dg t)) A la x (fun t Ht => proj2 (D t Ht)) (fun t Ht => Rle_trans _ _ _ (im_le _) (B t Ht))) as H2.
  change (Re (g x - g 0)%C) with (Re (g x) - Re (g 0)). change (Im (g x - g 0)%C) with (Im (g x) - Im (g 0)). lra.
Qed.

(** ** Continuous complex functions of a real variable and their integrals *)
Definition ccont (f : R -> C) (x : R) : Prop := forall e, 0 < e -> exists d, 0 < d /\ forall t, Rabs (t - x) < d -> Cmod (f t - f x)%C < e.
Lemma rcont (f : R -> R) x : (forall e, 0 < e -> exists d, 0 < d /\ forall t, Rabs (t - x) < d -> Rabs (f t - f x) < e) -> continuous f x.
Proof. intros H. apply continuity_pt_filterlim. intros e He. destruct (H e He) as (d & Hd & Hf). exists d. split; [exact Hd|]. intros t [_ Ht]. apply Hf. exact Ht. Qed.
Lemma ccont_re f x : ccont f x -> continuous (fun t => Re (f t)) x.
Proof. intros H. apply rcont. intros e He. destruct (H e He) as (d & Hd & Hf). exists d. split; [exact Hd|]. intros t Ht. eapply Rle_lt_trans; [apply (re_le (f t - f x)%C)|now apply Hf]. Qed.
Lemma ccont_im f x : ccont f x -> continuous (fun t => Im (f t)) x.
Proof. intros H. apply rcont. intros e He. destruct (H e He) as (d & Hd & Hf). exists d. split; [exact Hd|]. intros t Ht. eapply Rle_lt_trans; [apply (im_le (f t - f x)%C)|now apply Hf]. Qed.
Lemma rcont_eps (f : R -> R) x : continuous f x -> forall e, 0 < e -> exists d, 0 < d /\ forall t, Rabs (t - x) < d -> Rabs (f t - f x) < e.
Proof.
  intros H e He. apply continuity_pt_filterlim in H. destruct (H e He) as (d & Hd & Hf). exists d. split; [exact Hd|]. intros t Ht. destruct (Req_dec t x) as [->|N]; [rewrite Rminus_diag_eq, Rabs_R0 by reflexivity; exact He|]. apply Hf. split; [split; [exact Logic.I|congruence]|exact Ht].
Qed.
Lemma cderive_ccont f x l : is_cderive f x l -> ccont f x.
Proof.
  intros [D1 D2] e He. assert (C1 : continuous (fun t => Re (f t)) x) by (apply (ex_derive_continuous (fun t => Re (f t))); exists (Re l); exact D1). assert (C2 : continuous (fun t => Im (f t)) x) by (apply (ex_derive_continuous (fun t => Im (f t))); exists (Im l); exact D2).
  destruct (rcont_eps _ _ C1 (e / 2) ltac:(lra)) as (d1 & P1 & H1). destruct (rcont_eps _ _ C2 (e / 2) ltac:(lra)) as (d2 & P2 & H2). exists (Rmin d1 d2). split; [now apply Rmin_glb_lt|]. intros t Ht. pose proof (Rmin_l d1 d2). pose proof (Rmin_r d1 d2).
  eapply Rle_lt_trans; [apply Cmod_parts|]. specialize (H1 t ltac:(lra)). specialize (H2 t ltac:(lra)). cbv beta in H1, H2. change (Re (f t - f x)%C) with (Re (f t) - Re (f x)). change (Im (f t - f x)%C) with (Im (f t) - Im (f x)). lra.
Qed.
Definition CInt (f : R -> C) (x : R) : C := (RInt (fun t => Re (f t)) 0 x, RInt (fun t => Im (f t)) 0 x).
Lemma CInt_0 f : CInt f 0 = z0. Proof. unfold CInt. rewrite !RInt_point. reflexivity. Qed.
Lemma CInt_derive f x : (forall t, ccont f t) -> is_cderive (CInt f) x (f x).
Proof.
  intros H. split.
  - apply (is_derive_RInt (fun t => Re (f t)) (RInt (fun t => Re (f t)) 0) 0 x); [|apply ccont_re, H]. exists (mkposreal 1 Rlt_0_1). intros y _. apply (RInt_correct (fun t => Re (f t))). apply ex_RInt_continuous. intros z _. apply ccont_re, H.
  - apply (is_derive_RInt (fun t => Im (f t)) (RInt (fun t => Im (f t)) 0) 0 x); [|apply ccont_im, H]. exists (mkposreal 1 Rlt_0_1). intros y _. apply (RInt_correct (fun t => Im (f t))). apply ex_RInt_continuous. intros z _. apply ccont_im, H.
Qed.

(** ** Limits of geometric Cauchy sequences *)
Lemma half_pow k : 0 < (1 / 2) ^ k. Proof. apply pow_lt. lra. Qed.
Lemma geo_tail (u : nat -> R) A : 0 <= A -> (forall k, Rabs (u (S k) - u k) <= A * (1 / 2) ^ k) -> forall p k, Rabs (u (k + p)%nat - u k) <= 2 * A * (1 / 2) ^ k.
Proof.
  intros HA H. assert (Q : forall p k, Rabs (u (k + p)%nat - u k) <= 2 * A * ((1 / 2) ^ k - (1 / 2) ^ (k + p))).
  { induction p as [|p IH]; intros k; [rewrite Nat.add_0_r, !Rminus_diag_eq, Rabs_R0 by reflexivity; lra|]. rewrite <- plus_n_Sm. replace (u (S (k + p)) - u k) with ((u (S (k + p)) - u (k + p)%nat) + (u (k + p)%nat - u k)) by ring. eapply Rle_trans; [apply Rabs_triang|]. specialize (IH k). specialize (H (k + p)%nat). cbn [pow]. lra. }
  intros p k. eapply Rle_trans; [apply Q|]. pose proof (half_pow (k + p)). apply Rmult_le_compat_l; lra.
Qed.
Lemma half_small A e : 0 <= A -> 0 < e -> exists k, A * (1 / 2) ^ k < e.
Proof.
  intros HA He. destruct (pow_lt_1_zero (1 / 2) ltac:(rewrite Rabs_pos_eq; lra) (e / (A + 1)) ltac:(apply Rdiv_lt_0_compat; lra)) as (k & Hk). exists k. specialize (Hk k (le_n k)). rewrite Rabs_pos_eq in Hk by (left; apply half_pow).
  apply Rle_lt_trans with ((A + 1) * (1 / 2) ^ k); [apply Rmult_le_compat_r; [left; apply half_pow|lra]|]. replace e with ((A + 1) * (e / (A + 1))) by (field; lra). apply Rmult_lt_compat_l; lra.
Qed.
Lemma geo_lim (u : nat -> R) A : 0 <= A -> (forall k, Rabs (u (S k) - u k) <= A * (1 / 2) ^ k) -> forall k, Rabs (real (Lim_seq u) - u k) <= 2 * A * (1 / 2) ^ k.
Proof.
  intros HA H k. assert (E : ex_finite_lim_seq u).
  { apply ex_lim_seq_cauchy_corr. intros e. destruct (half_small (4 * A) e ltac:(lra) (cond_pos e)) as (m & Hm). exists m. intros p q Hp Hq. replace (u p - u q) with ((u p - u m) - (u q - u m)) by ring. eapply Rle_lt_trans; [apply Rabs_triang|]. rewrite Rabs_Ropp.
    pose proof (geo_tail u A HA H (p - m) m) as B1. pose proof (geo_tail u A HA H (q - m) m) as B2. replace (m + (p - m))%nat with p in B1 by lia. replace (m + (q - m))%nat with q in B2 by lia. lra. }
  destruct E as (l & Hl). rewrite (is_lim_seq_unique u l Hl). cbn [real]. apply Rnot_lt_le. intros Hlt. set (e := Rabs (l - u k) - 2 * A * (1 / 2) ^ k) in *. assert (He : 0 < e) by (unfold e; lra).
  apply is_lim_seq_spec in Hl. destruct (Hl (mkposreal e He)) as (m & Hm). specialize (Hm (k + m)%nat ltac:(lia)). pose proof (geo_tail u A HA H m k) as B.
  pose proof (Rabs_triang (- (u (k + m)%nat - l)) (u (k + m)%nat - u k)) as T. replace (- (u (k + m)%nat - l) + (u (k + m)%nat - u k)) with (l - u k) in T by ring. rewrite Rabs_Ropp in T. cbn [RIneq.pos] in Hm. unfold e in Hm. lra.
Qed.
Definition Clim (u : nat -> C) : C := (real (Lim_seq (fun k => Re (u k))), real (Lim_seq (fun k => Im (u k)))).
Lemma cgeo_lim (u : nat -> C) A : 0 <= A -> (forall k, Cmod (u (S k) - u k)%C <= A * (1 / 2) ^ k) -> forall k, Cmod (Clim u - u k)%C <= 4 * A * (1 / 2) ^ k.
Proof.
  intros HA H k. eapply Rle_trans; [apply Cmod_parts|].
  pose proof (geo_lim (fun k => Re (u k)) A HA (fun k => Rle_trans _ _ _ (re_le (u (S k) - u k)%C) (H k)) k) as B1. pose proof (geo_lim (fun k => Im (u k)) A HA (fun k => Rle_trans _ _ _ (im_le (u (S k) - u k)%C) (H k)) k) as B2.
  change (Re (Clim u - u k)%C) with (real (Lim_seq (fun k => Re (u k))) - Re (u k)). change (Im (Clim u - u k)%C) with (real (Lim_seq (fun k => Im (u k))) - Im (u k)). lra.
Qed.

Section Picard.
  Variable N : nat.
  Variable F : R -> (nat -> C) -> nat -> C.
  Variables La K : R.
  Hypothesis HLa : 0 < La.
  Hypothesis HK : 0 <= K.
  Hypothesis Lip : forall x u v d i, (i < N)%nat -> (forall j, (j < N)%nat -> Cmod (u j - v j)%C <= d) -> Cmod (F x u i - F x v i)%C <= La * d.
  Hypothesis Cx : forall u i x, (i < N)%nat -> ccont (fun t => F t u i) x.
  Variable y0 : nat -> C.
  Hypothesis HB : forall x i, (i < N)%nat -> Cmod (F x y0 i) <= K.
  Lemma F_cont u i x : (i < N)%nat -> (forall j, (j < N)%nat -> ccont (fun t => u t j) x) -> ccont (fun t => F t (u t) i) x.
  Proof.
    intros Hi Hu e He. destruct (Cx (u x) i x Hi (e / 2) ltac:(lra)) as (d1 & P1 & H1).
    assert (Q : forall m, (m <= N)%nat -> exists d, 0 < d /\ forall t, Rabs (t - x) < d -> forall j, (j < m)%nat -> Cmod (u t j - u x j)%C <= e / (4 * La)).
    { induction m as [|m IH]; intros Hm; [exists 1; split; [lra|]; intros; lia|]. destruct (IH ltac:(lia)) as (d & Pd & Hd). destruct (Hu m ltac:(lia) (e / (4 * La)) ltac:(apply Rdiv_lt_0_compat; lra)) as (d' & Pd' & Hd'). exists (Rmin d d'). split; [now apply Rmin_glb_lt|]. intros t Ht j Hj. pose proof (Rmin_l d d'). pose proof (Rmin_r d d').
      destruct (Nat.eq_dec j m) as [->|Nj]; [left; apply Hd'; lra|apply Hd; [lra|lia]]. }
    destruct (Q N (le_n N)) as (d2 & P2 & H2). exists (Rmin d1 d2). split; [now apply Rmin_glb_lt|]. intros t Ht. pose proof (Rmin_l d1 d2). pose proof (Rmin_r d1 d2).
    specialize (H1 t ltac:(lra)). pose proof (Lip t (u t) (u x) (e / (4 * La)) i Hi (H2 t ltac:(lra))) as B. replace (La * (e / (4 * La))) with (e / 4) in B by (field; lra). cbv beta in H1.
    replace (F t (u t) i - F x (u x) i)%C with ((F t (u t) i - F t (u x) i) + (F t (u x) i - F x (u x) i))%C by ring. eapply Rle_lt_trans; [apply Cmod_triangle|]. lra.
  Qed.
  Fixpoint it (k : nat) : R -> nat -> C := match k with O => fun _ => y0 | S k => fun x j => (y0 j + CInt (fun t => F t (it k t) j) x)%C end.
  Lemma ccont_const c x : ccont (fun _ => c) x.
  Proof. intros e He. exists 1. split; [lra|]. intros t _. replace (c - c)%C with z0 by ring. rewrite Cmod_0. exact He. Qed.
  Lemma cderive_const c x : is_cderive (fun _ => c) x z0.
  Proof. split; cbn; apply is_derive_Reals, derivable_pt_lim_const. Qed.
  Lemma it_facts k : (forall j x, (j < N)%nat -> ccont (fun t => it k t j) x) /\ (forall j x, (j < N)%nat -> is_cderive (fun t => it (S k) t j) x (F x (it k x) j)).
  Proof.
    assert (Q : forall k, (forall j x, (j < N)%nat -> ccont (fun t => it k t j) x) -> forall j x, (j < N)%nat -> is_cderive (fun t => it (S k) t j) x (F x (it k x) j)).
    { intros m Hm j x Hj. rewrite <- (Cplus_0_l (F x (it m x) j)). cbn [it]. apply cderive_plus; [apply cderive_const|]. apply (CInt_derive (fun t => F t (it m t) j)). intros t. apply F_cont; [exact Hj|]. intros i Hi. now apply Hm. }
    induction k as [|k [IH1 IH2]].
    - assert (C0 : forall j x, (j < N)%nat -> ccont (fun t => it 0 t j) x) by (intros j x _; exact (ccont_const (y0 j) x)). split; [exact C0|now apply Q].
    - assert (C1 : forall j x, (j < N)%nat -> ccont (fun t => it (S k) t j) x) by (intros j x Hj; eapply cderive_ccont; now apply IH2). split; [exact C1|now apply Q].
  Qed.
  Lemma it_at0 k j : it k 0 j = y0 j.
  Proof. destruct k; cbn [it]; [reflexivity|]. rewrite CInt_0. ring. Qed.
  Local Notation la := (4 * La).
  Definition A0 : R := 2 * K / la.
  Lemma A0_pos : 0 <= A0. Proof. unfold A0. apply Rmult_le_pos; [lra|]. left. apply Rinv_0_lt_compat. lra. Qed.
  Lemma it_step k : forall j x, (j < N)%nat -> Cmod (it (S k) x j - it k x j)%C <= A0 * (1 / 2) ^ k * exp (la * Rabs x).
  Proof.
    assert (E1 : forall x, 1 <= exp (la * Rabs x)) by (intros x; apply Rle_trans with (1 + la * Rabs x); [pose proof (Rmult_le_pos la (Rabs x) ltac:(lra) (Rabs_pos x)); lra|apply exp_ineq1_le]).
    pose proof A0_pos as PA. induction k as [|k IH]; intros j x Hj.
    - destruct (it_facts 0) as [_ D]. pose proof (ccmp (fun t => it 1 t j) (fun t => F t (it 0 t) j) (K / la) la x) as C. cbv beta in C. rewrite it_at0 in C. change (it 0 x j) with (y0 j).
      eapply Rle_trans; [apply C|].
      + intros t _. now apply D.
      + intros t _. eapply Rle_trans; [apply (HB t j Hj)|]. replace (K / la * la) with K by (field; lra). rewrite <- (Rmult_1_r K) at 1. apply Rmult_le_compat_l; [exact HK|apply E1].
      + change ((1 / 2) ^ 0) with 1. rewrite Rmult_1_r. replace (2 * (K / la)) with A0 by (unfold A0; field; lra). apply Rmult_le_compat_l; [exact PA|]. lra.
    - destruct (it_facts (S k)) as [_ D1]. destruct (it_facts k) as [_ D0]. pose proof (half_pow k) as Hp.
      pose proof (ccmp (fun t => it (S (S k)) t j - it (S k) t j)%C (fun t => F t (it (S k) t) j - F t (it k t) j)%C (A0 * (1 / 2) ^ k / 4) la x) as C. cbv beta in C. rewrite !it_at0 in C. replace (it (S (S k)) x j - it (S k) x j)%C with (it (S (S k)) x j - it (S k) x j - (y0 j - y0 j))%C by ring.
      eapply Rle_trans; [apply C|].
      + intros t _. apply cderive_minus; [now apply D1|now apply D0].
      + intros t _. eapply Rle_trans; [apply (Lip t (it (S k) t) (it k t) (A0 * (1 / 2) ^ k * exp (la * Rabs t)) j Hj); intros i Hi; now apply IH|]. right. field.
      + cbn [pow]. apply Rle_trans with (2 * (A0 * (1 / 2) ^ k / 4) * exp (la * Rabs x)); [|right; field]. apply Rmult_le_compat_l; [pose proof (Rmult_le_pos _ _ PA (Rlt_le _ _ Hp)); lra|lra].
  Qed.
  Definition flow (x : R) (j : nat) : C := Clim (fun k => it k x j).
  Lemma flow_near k j x : (j < N)%nat -> Cmod (flow x j - it k x j)%C <= 4 * (A0 * exp (la * Rabs x)) * (1 / 2) ^ k.
  Proof.
    intros Hj. apply (cgeo_lim (fun k => it k x j)); [apply Rmult_le_pos; [apply A0_pos|left; apply exp_pos]|]. intros m. eapply Rle_trans; [now apply it_step|]. right. ring.
  Qed.
  Lemma flow_cont j x : (j < N)%nat -> ccont (fun t => flow t j) x.
  Proof.
    intros Hj e He. set (A := 4 * (A0 * exp (la * (Rabs x + 1)))). assert (PA : 0 <= A) by (unfold A; apply Rmult_le_pos; [lra|]; apply Rmult_le_pos; [apply A0_pos|left; apply exp_pos]).
    destruct (half_small A (e / 3) PA ltac:(lra)) as (k & Hk). destruct (it_facts k) as [Ck _]. destruct (Ck j x Hj (e / 3) ltac:(lra)) as (d & Pd & Hd). exists (Rmin d 1). split; [apply Rmin_glb_lt; lra|]. intros t Ht. pose proof (Rmin_l d 1). pose proof (Rmin_r d 1). specialize (Hd t ltac:(lra)). cbv beta in Hd.
    assert (Q : forall s, Rabs s <= Rabs x + 1 -> Cmod (flow s j - it k s j)%C <= A * (1 / 2) ^ k).
    { intros s Hs. eapply Rle_trans; [now apply flow_near|]. apply Rmult_le_compat_r; [left; apply half_pow|]. unfold A. apply Rmult_le_compat_l; [lra|]. apply Rmult_le_compat_l; [apply A0_pos|]. destruct (Req_dec (Rabs s) (Rabs x + 1)) as [->|Ns]; [lra|]. left. apply exp_increasing. apply Rmult_lt_compat_l; lra. }
    assert (Tx : Rabs t <= Rabs x + 1) by (replace t with ((t - x) + x) by ring; eapply Rle_trans; [apply Rabs_triang|]; lra). pose proof (Q t Tx) as Q1. pose proof (Q x ltac:(lra)) as Q2.
    replace (flow t j - flow x j)%C with ((flow t j - it k t j) + (it k t j - it k x j) + - (flow x j - it k x j))%C by ring. eapply Rle_lt_trans; [apply Cmod_triangle|]. rewrite Cmod_opp. eapply Rle_lt_trans; [apply Rplus_le_compat_r, Cmod_triangle|]. lra.
  Qed.
  Lemma flow_int j x : (j < N)%nat -> flow x j = (y0 j + CInt (fun t => F t (flow t) j) x)%C.
  Proof.
    intros Hj. set (G := fun t => F t (flow t) j). assert (CG : forall t, ccont G t) by (intros t; apply F_cont; [exact Hj|intros i Hi; now apply flow_cont]).
    set (A := 4 * (A0 * exp (la * Rabs x))). assert (PA : 0 <= A) by (unfold A; apply Rmult_le_pos; [lra|]; apply Rmult_le_pos; [apply A0_pos|left; apply exp_pos]).
    assert (Q : forall k, Cmod (flow x j - (y0 j + CInt G x))%C <= 2 * A * (1 / 2) ^ k).
    { intros k. destruct (it_facts k) as [_ D]. pose proof (half_pow k) as Hp. pose proof A0_pos as P0.
      pose proof (ccmp (fun t => it (S k) t j - (y0 j + CInt G t))%C (fun t => F t (it k t) j - G t)%C (A0 * (1 / 2) ^ k) la x) as C. cbv beta in C. rewrite it_at0, CInt_0 in C.
      assert (B : Cmod (it (S k) x j - (y0 j + CInt G x))%C <= 2 * (A0 * (1 / 2) ^ k) * (exp (la * Rabs x) - 1)).
      { replace (it (S k) x j - (y0 j + CInt G x))%C with (it (S k) x j - (y0 j + CInt G x) - (y0 j - (y0 j + z0)))%C by ring. apply C.
        - intros t _. apply (cderive_minus (fun t => it (S k) t j) (fun t => y0 j + CInt G t)%C); [now apply D|]. rewrite <- (Cplus_0_l (G t)). apply cderive_plus; [apply cderive_const|]. now apply CInt_derive.
        - intros t _. eapply Rle_trans; [apply (Lip t (it k t) (flow t) (4 * (A0 * exp (la * Rabs t)) * (1 / 2) ^ k) j Hj); intros i Hi; replace (it k t i - flow t i)%C with (- (flow t i - it k t i))%C by ring; rewrite Cmod_opp; now apply flow_near|]. right. ring. }
      pose proof (flow_near (S k) j x Hj) as B2. fold A in B2. cbn [pow] in B2. replace (flow x j - (y0 j + CInt G x))%C with ((flow x j - it (S k) x j) + (it (S k) x j - (y0 j + CInt G x)))%C by ring. eapply Rle_trans; [apply Cmod_triangle|].
      assert (B3 : 2 * (A0 * (1 / 2) ^ k) * (exp (la * Rabs x) - 1) <= A * (1 / 2) ^ k). { unfold A. pose proof (Rmult_le_pos _ _ P0 (Rlt_le _ _ Hp)). pose proof (exp_pos (la * Rabs x)) as Pe. pose proof (Rmult_le_pos _ _ H (Rlt_le _ _ Pe)). lra. }
      assert (0 <= A * (1 / 2) ^ k) by (apply Rmult_le_pos; lra). lra. }
    assert (Z : Cmod (flow x j - (y0 j + CInt G x))%C = 0).
    { apply Rle_antisym; [|apply Cmod_ge_0]. apply Rnot_lt_le. intros P. destruct (half_small (2 * A) _ ltac:(lra) P) as (k & Hk). specialize (Q k). lra. }
    apply Cmod_eq_0 in Z. transitivity ((flow x j - (y0 j + CInt G x)) + (y0 j + CInt G x))%C; [ring|]. rewrite Z. unfold G. ring.
  Qed.
  Theorem flow_solves : (forall j, (j < N)%nat -> flow 0 j = y0 j) /\ forall j x, (j < N)%nat -> is_cderive (fun t => flow t j) x (F x (flow x) j).
  Proof.
    split; [intros j Hj; rewrite flow_int by exact Hj; rewrite CInt_0; ring|]. intros j x Hj. apply (cderive_ext (fun t => y0 j + CInt (fun t => F t (flow t) j) t)%C); [intros t; symmetry; now apply flow_int|].
    rewrite <- (Cplus_0_l (F x (flow x) j)). apply cderive_plus; [apply cderive_const|]. apply (CInt_derive (fun t => F t (flow t) j)). intros t. apply F_cont; [exact Hj|]. intros i Hi. now apply flow_cont.
  Qed.
End Picard.

(** ** Uniqueness of bounded solutions *)
Lemma unique_flow N (F : R -> (nat -> C) -> nat -> C) La A L (u v : R -> nat -> C) : 0 < La -> 0 <= A -> 
  (forall x i d, (i < N)%nat -> Rabs x <= L -> (forall j, (j < N)%nat -> Cmod (u x j - v x j)%C <= d) -> Cmod (F x (u x) i - F x (v x) i)%C <= La * d) ->
  (forall x j, (j < N)%nat -> Rabs x <= L -> is_cderive (fun t => u t j) x (F x (u x) j)) -> (forall x j, (j < N)%nat -> Rabs x <= L -> is_cderive (fun t => v t j) x (F x (v x) j)) ->
  (forall j, (j < N)%nat -> u 0 j = v 0 j) -> (forall x j, (j < N)%nat -> Rabs x <= L -> Cmod (u x j - v x j)%C <= A) ->
  forall x j, (j < N)%nat -> Rabs x <= L -> u x j = v x j.
Proof.
  intros HLa HA Lip Du Dv E0 Bd. assert (Q : forall k x j, (j < N)%nat -> Rabs x <= L -> Cmod (u x j - v x j)%C <= A * (1 / 2) ^ k * exp (4 * La * Rabs x)).
  { assert (E1 : forall x, 1 <= exp (4 * La * Rabs x)) by (intros x; apply Rle_trans with (1 + 4 * La * Rabs x); [pose proof (Rmult_le_pos (4 * La) (Rabs x) ltac:(lra) (Rabs_pos x)); lra|apply exp_ineq1_le]).
    induction k as [|k IH]; intros x j Hj Hx.
    - change ((1 / 2) ^ 0) with 1. rewrite Rmult_1_r. eapply Rle_trans; [now apply Bd|]. rewrite <- (Rmult_1_r A) at 1. apply Rmult_le_compat_l; [exact HA|apply E1].
    - pose proof (half_pow k) as Hp. pose proof (ccmp (fun t => u t j - v t j)%C (fun t => F t (u t) j - F t (v t) j)%C (A * (1 / 2) ^ k / 4) (4 * La) x) as C. cbv beta in C. rewrite (E0 j Hj) in C. replace (u x j - v x j)%C with (u x j - v x j - (v 0 j - v 0 j))%C by ring.
      eapply Rle_trans; [apply C|].
      + intros t Ht. apply cderive_minus; [apply Du; [exact Hj|lra]|apply Dv; [exact Hj|lra]].
      + intros t Ht. eapply Rle_trans; [apply (Lip t j (A * (1 / 2) ^ k * exp (4 * La * Rabs t)) Hj); [lra|]; intros i Hi; apply IH; [exact Hi|lra]|]. right. field.
      + cbn [pow]. apply Rle_trans with (2 * (A * (1 / 2) ^ k / 4) * exp (4 * La * Rabs x)); [|right; field]. apply Rmult_le_compat_l; [pose proof (Rmult_le_pos _ _ HA (Rlt_le _ _ Hp)); lra|lra]. }
  intros x j Hj Hx. assert (Z : Cmod (u x j - v x j)%C = 0).
  { apply Rle_antisym; [|apply Cmod_ge_0]. apply Rnot_lt_le. intros P. destruct (half_small (A * exp (4 * La * Rabs x)) _ ltac:(apply Rmult_le_pos; [exact HA|left; apply exp_pos]) P) as (k & Hk). specialize (Q k x j Hj Hx). lra. }
  apply Cmod_eq_0 in Z. transitivity ((u x j - v x j) + v x j)%C; [ring|]. rewrite Z. ring.
Qed.

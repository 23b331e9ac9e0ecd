(** Global existence and uniqueness for a locally Lipschitz system whose power grows at most exponentially. *)
From Coq Require Import Reals List Bool Arith Lia Lra.
From Coquelicot Require Import Coquelicot.
From Verif Require Import Base CNum NumPy FFTProofs SSFMGnlseProofs ODETableauProofs RkOrderProofs PicardProofs MixingProofs.
Local Open Scope R_scope.
Local Notation z0 := (RtoC 0).
Local Notation V := (nat -> C).

Lemma grow (p p' : R -> R) a Z : (forall t, 0 <= t <= Z -> is_derive p t (p' t)) -> (forall t, 0 <= t <= Z -> p' t <= a * p t) -> forall x, 0 <= x <= Z -> p x <= p 0 * exp (a * x).
Proof.
  intros D Hp x Hx. set (g := fun t => p t * exp (- a * t)).
  assert (Dg : forall t, 0 <= t <= x -> is_derive g t (p' t * exp (- a * t) + p t * (- a * exp (- a * t)))).
  { intros t Ht. apply (is_derive_mult p (fun t => exp (- a * t)) t (p' t) (- a * exp (- a * t))); [apply D; lra|auto_derive; [exact I|ring]|intros; apply Rmult_comm]. }
  destruct (MVT_gen g 0 x (fun t => p' t * exp (- a * t) + p t * (- a * exp (- a * t)))) as (c & Hc & E).
  - intros t Ht. rewrite Rmin_left, Rmax_right in Ht by lra. apply Dg. lra.
  - intros t Ht. rewrite Rmin_left, Rmax_right in Ht by lra. apply continuity_pt_filterlim. apply (ex_derive_continuous g). eexists. apply Dg. lra.
  - rewrite Rmin_left, Rmax_right in Hc by lra. assert (N : (p' c * exp (- a * c) + p c * (- a * exp (- a * c))) * (x - 0) <= 0).
    { replace (p' c * exp (- a * c) + p c * (- a * exp (- a * c))) with (- ((a * p c - p' c) * exp (- a * c))) by ring. assert (0 <= (a * p c - p' c) * exp (- a * c)) by (apply Rmult_le_pos; [specialize (Hp c ltac:(lra)); lra|left; apply exp_pos]). assert (0 <= (a * p c - p' c) * exp (- a * c) * (x - 0)) by (apply Rmult_le_pos; lra). lra. }
    assert (G : g x <= g 0) by lra. unfold g in G. rewrite Rmult_0_r, exp_0, Rmult_1_r in G. pose proof (exp_pos (a * x)) as Ep. apply Rmult_le_compat_r with (r := exp (a * x)) in G; [|lra]. rewrite Rmult_assoc, <- exp_plus in G. replace (- a * x + a * x) with 0 in G by ring. rewrite exp_0, Rmult_1_r in G. exact G.
Qed.
Lemma shrink (p p' : R -> R) a Z : (forall t, 0 <= t <= Z -> is_derive p t (p' t)) -> (forall t, 0 <= t <= Z -> a * p t <= p' t) -> forall x, 0 <= x <= Z -> p 0 * exp (a * x) <= p x.
Proof.
  intros D Hp x Hx. pose proof (grow (fun t => - p t) (fun t => - p' t) a Z) as G. assert (Q : - p x <= - p 0 * exp (a * x)); [|lra]. apply G; [|intros t Ht; specialize (Hp t Ht); lra|exact Hx]. intros t Ht. apply (is_derive_opp p). now apply D.
Qed.
Lemma refl_derive (p : R -> R) t l : is_derive p (- t) l -> is_derive (fun s => p (- s)) t (- l).
Proof. intros D. replace (- l) with (scal (-1) l) by (unfold scal; cbn; unfold mult; cbn; ring). apply (is_derive_comp p (fun s => - s) t l (-1)); [exact D|]. auto_derive; [exact I|ring]. Qed.
Lemma grow2 (p p' : R -> R) a : (forall t, is_derive p t (p' t)) -> (forall t, Rabs (p' t) <= a * p t) -> forall x, p x <= p 0 * exp (a * Rabs x).
Proof.
  intros D Hp x. unfold Rabs. destruct (Rcase_abs x) as [N|N].
  - pose proof (grow (fun t => p (- t)) (fun t => - p' (- t)) a (- x)) as G. specialize (G (fun t _ => refl_derive p t _ (D (- t)))). specialize (G (fun t _ => ltac:(pose proof (Hp (- t)) as H; pose proof (Rle_abs (- p' (- t))) as H'; rewrite Rabs_Ropp in H'; lra)) (- x) ltac:(lra)). cbv beta in G. rewrite Ropp_involutive, Ropp_0 in G. exact G.
  - apply (grow p p' a x); [intros; apply D| |lra]. intros t _. pose proof (Hp t). pose proof (Rle_abs (p' t)). lra.
Qed.

Section Global.
  Variable n : nat.
  Variable F : R -> V -> V.
  Hypothesis Fext : forall x u v i, (i < n)%nat -> (forall j, (j < n)%nat -> u j = v j) -> F x u i = F x v i.
  Hypothesis Floc : forall B, 0 <= B -> exists K, 0 <= K /\ forall x u v i, (i < n)%nat -> (forall j, (j < n)%nat -> Cmod (u j) <= B) -> (forall j, (j < n)%nat -> Cmod (v j) <= B) ->
    Cmod (F x u i) <= K /\ forall d, (forall j, (j < n)%nat -> Cmod (u j - v j)%C <= d) -> Cmod (F x u i - F x v i)%C <= K * d.
  Hypothesis Fcont : forall v i x, (i < n)%nat -> ccont (fun t => F t v i) x.
  Variables lo hi : R.
  Let rate x v := 2 * Re (csum n (fun j => Cconj (v j) * F x v j)%C).
  Hypothesis Frate : forall x v, lo * power n v <= rate x v <= hi * power n v.
  Let a := Rabs lo + Rabs hi.
  Lemma a_pos : 0 <= a. Proof. unfold a. pose proof (Rabs_pos lo). pose proof (Rabs_pos hi). lra. Qed.
  Lemma rate_abs x v : Rabs (rate x v) <= a * power n v.
  Proof.
    destruct (Frate x v) as [A B]. pose proof (power_nonneg n v) as P. unfold a. pose proof (Rle_abs lo). pose proof (Rle_abs (- lo)) as L. rewrite Rabs_Ropp in L. pose proof (Rle_abs hi). pose proof (Rabs_pos lo). pose proof (Rabs_pos hi).
    assert (hi * power n v <= (Rabs lo + Rabs hi) * power n v) by (apply Rmult_le_compat_r; lra). assert (- lo * power n v <= (Rabs lo + Rabs hi) * power n v) by (apply Rmult_le_compat_r; lra).
    unfold Rabs at 1. destruct (Rcase_abs (rate x v)); lra.
  Qed.
  Definition tamed (B x : R) (v : V) (i : nat) : C := (RtoC (chi n B v) * F x (fun j => ccut (B + 1) (v j)) i)%C.
  Definition radius (y0 : V) (L : R) : R := sqrt (power n y0 * exp (a * L)).
  Lemma tamed_flow y0 L : let u := flow (tamed (radius y0 L)) y0 in
    (forall j, (j < n)%nat -> u 0 j = y0 j) /\ (forall x, power n (u x) <= power n y0 * exp (a * Rabs x)) /\ forall x j, (j < n)%nat -> Rabs x <= L -> is_cderive (fun t => u t j) x (F x (u x) j).
  Proof.
    intros u. set (B := radius y0 L) in *. assert (HB : 0 <= B) by apply sqrt_pos. destruct (Floc (2 * (B + 1)) ltac:(lra)) as (K & HK & Fl).
    assert (Cu : forall (v : V) j, Cmod (ccut (B + 1) (v j)) <= 2 * (B + 1)) by (intros v j; apply ccut_abs; lra).
    assert (Tb : forall x v i, (i < n)%nat -> Cmod (tamed B x v i) <= K).
    { intros x v i Hi. unfold tamed. rewrite Cmod_mult, Cmod_R. pose proof (chi_range n B v). rewrite Rabs_pos_eq by lra. rewrite <- (Rmult_1_l K). apply Rmult_le_compat; [lra|apply Cmod_ge_0|lra|]. apply (Fl x _ (fun j => ccut (B + 1) (v j)) i Hi); intros; apply (Cu v). }
    assert (Tl : forall x p q d i, (i < n)%nat -> (forall j, (j < n)%nat -> Cmod (p j - q j)%C <= d) -> Cmod (tamed B x p i - tamed B x q i)%C <= (INR n * K + 2 * K + 1) * d).
    { intros x p q d i Hi Hd. assert (Hd0 : 0 <= d) by (eapply Rle_trans; [apply Cmod_ge_0|apply (Hd i Hi)]). unfold tamed. set (A1 := F x (fun j => ccut (B + 1) (p j)) i). set (A2 := F x (fun j => ccut (B + 1) (q j)) i).
      replace (RtoC (chi n B p) * A1 - RtoC (chi n B q) * A2)%C with (RtoC (chi n B p - chi n B q) * A1 + RtoC (chi n B q) * (A1 - A2))%C by (rewrite RtoC_minus; ring). eapply Rle_trans; [apply Cmod_triangle|]. rewrite !Cmod_mult, !Cmod_R. pose proof (chi_range n B q) as R1. rewrite (Rabs_pos_eq (chi n B q)) by lra.
      assert (Q1 : Rabs (chi n B p - chi n B q) * Cmod A1 <= INR n * d * K) by (apply Rmult_le_compat; [apply Rabs_pos|apply Cmod_ge_0|now apply chi_lip|]; apply (Fl x _ (fun j => ccut (B + 1) (p j)) i Hi); intros; apply (Cu p)).
      assert (Q2 : Cmod (A1 - A2)%C <= K * (2 * d)). { apply (Fl x (fun j => ccut (B + 1) (p j)) (fun j => ccut (B + 1) (q j)) i Hi); [intros; apply (Cu p)|intros; apply (Cu q)|]. intros j Hj. eapply Rle_trans; [apply ccut_lip; lra|]. specialize (Hd j Hj). lra. }
      assert (Q3 : chi n B q * Cmod (A1 - A2)%C <= 1 * Cmod (A1 - A2)%C) by (apply Rmult_le_compat_r; [apply Cmod_ge_0|lra]). lra. }
    assert (Hl : 0 < INR n * K + 2 * K + 1) by (pose proof (Rmult_le_pos (INR n) K (pos_INR n) HK); lra).
    destruct (flow_solves n (tamed B) (INR n * K + 2 * K + 1) K Hl HK Tl (fun v i x Hi => ccont_scal (chi n B v) _ x (Fcont (fun j => ccut (B + 1) (v j)) i x Hi)) y0 (fun x i Hi => Tb x y0 i Hi)) as [F0 FD]. fold u in F0, FD.
    assert (PC : forall x, power n (u x) <= power n y0 * exp (a * Rabs x)).
    { intros x. rewrite <- (power_ext n (u 0) y0 F0). apply (grow2 (fun t => power n (u t)) (fun t => 2 * Re (csum n (fun j => Cconj (u t j) * tamed B t (u t) j)%C)) a); [intros t; apply (power_derive n u _ t (fun j Hj => FD j t Hj))|]. intros t.
      rewrite (csum_ext n _ (fun j => RtoC (chi n B (u t)) * (Cconj (u t j) * F t (fun j => ccut (B + 1) (u t j)) j))%C) by (intros; unfold tamed; ring). rewrite csum_scal_l. pose proof (power_nonneg n (u t)) as Pn. pose proof (Rmult_le_pos _ _ a_pos Pn).
      destruct (Req_dec (chi n B (u t)) 0) as [->|Nz]; [rewrite Cmult_0_l; cbn; rewrite Rmult_0_r, Rabs_R0; assumption|].
      rewrite (csum_ext n _ (fun j => Cconj (u t j) * F t (u t) j)%C). 2: { intros i Hi. f_equal. apply Fext; [exact Hi|]. intros j Hj. apply ccut_id. now apply (chi_small n B (u t) Nz). }
      replace (2 * Re (RtoC (chi n B (u t)) * csum n (fun j => Cconj (u t j) * F t (u t) j))%C) with (chi n B (u t) * rate t (u t)).
      2: { unfold rate. change (Re (RtoC (chi n B (u t)) * csum n (fun j => Cconj (u t j) * F t (u t) j))%C) with (chi n B (u t) * Re (csum n (fun j => Cconj (u t j) * F t (u t) j)%C) - 0 * Im (csum n (fun j => Cconj (u t j) * F t (u t) j)%C)). ring. }
      rewrite Rabs_mult. pose proof (chi_range n B (u t)). rewrite (Rabs_pos_eq (chi n B (u t))) by lra. pose proof (rate_abs t (u t)). pose proof (Rabs_pos (rate t (u t))). assert (chi n B (u t) * Rabs (rate t (u t)) <= 1 * Rabs (rate t (u t))) by (apply Rmult_le_compat_r; lra). lra. }
    split; [exact F0|]. split; [exact PC|]. intros x j Hj Hx. replace (F x (u x) j) with (tamed B x (u x) j); [now apply FD|]. unfold tamed.
    assert (Bd : forall k, (k < n)%nat -> Cmod (u x k) <= B). { intros k Hk. eapply Rle_trans; [apply (power_bound n (u x) k Hk)|]. unfold B, radius. apply sqrt_le_1_alt. eapply Rle_trans; [apply PC|]. apply Rmult_le_compat_l; [apply power_nonneg|]. destruct (Req_dec (a * Rabs x) (a * L)) as [->|Ne]; [lra|]. left. apply exp_increasing. pose proof (Rmult_le_compat_l a _ _ a_pos Hx). lra. }
    rewrite chi_1 by exact Bd. rewrite (Fext x (fun j => ccut (B + 1) (u x j)) (u x) j Hj); [ring|]. intros k Hk. apply ccut_id. specialize (Bd k Hk). lra.
  Qed.
  (** solutions agree as long as they exist, here on an interval around the start *)
  Lemma agree2 (u v : R -> V) B L : 0 <= B -> (forall x j, (j < n)%nat -> Rabs x <= L -> is_cderive (fun t => u t j) x (F x (u x) j)) -> (forall x j, (j < n)%nat -> Rabs x <= L -> is_cderive (fun t => v t j) x (F x (v x) j)) ->
    (forall x j, (j < n)%nat -> Rabs x <= L -> Cmod (u x j) <= B) -> (forall x j, (j < n)%nat -> Rabs x <= L -> Cmod (v x j) <= B) -> (forall j, (j < n)%nat -> u 0 j = v 0 j) -> forall x j, (j < n)%nat -> Rabs x <= L -> u x j = v x j.
  Proof.
    intros HB Du Dv Bu Bv E0. destruct (Floc B HB) as (K & HK & Fl). apply (unique_flow n F (K + 1) (2 * B) L u v); [lra|lra| |exact Du|exact Dv|exact E0|].
    - intros x i d Hi Hx Hd. assert (Hd0 : 0 <= d) by (eapply Rle_trans; [apply Cmod_ge_0|apply (Hd i Hi)]). destruct (Fl x (u x) (v x) i Hi (fun j Hj => Bu x j Hj Hx) (fun j Hj => Bv x j Hj Hx)) as [_ H]. specialize (H d Hd). lra.
    - intros x j Hj Hx. eapply Rle_trans; [apply Cmod_triangle|]. rewrite Cmod_opp. specialize (Bu x j Hj Hx). specialize (Bv x j Hj Hx). lra.
  Qed.
  Theorem global_solution y0 : exists u : R -> V, (forall j, (j < n)%nat -> u 0 j = y0 j) /\ forall x j, (j < n)%nat -> is_cderive (fun t => u t j) x (F x (u x) j).
  Proof.
    set (w := fun L => flow (tamed (radius y0 L)) y0). exists (fun x => w (Rabs x + 1) x).
    assert (Bd : forall L M x j, (j < n)%nat -> Rabs x <= M -> Cmod (w L x j) <= radius y0 M).
    { intros L M x j Hj Hx. destruct (tamed_flow y0 L) as (_ & P & _). eapply Rle_trans; [apply (power_bound n (w L x) j Hj)|]. apply sqrt_le_1_alt. eapply Rle_trans; [apply P|]. apply Rmult_le_compat_l; [apply power_nonneg|]. destruct (Req_dec (a * Rabs x) (a * M)) as [->|Ne]; [lra|]. left. apply exp_increasing. pose proof (Rmult_le_compat_l a _ _ a_pos Hx). lra. }
    assert (Ag : forall L M x j, (j < n)%nat -> Rabs x <= L -> Rabs x <= M -> w L x j = w M x j).
    { intros L M x j Hj H1 H2. destruct (tamed_flow y0 L) as (A0 & _ & DL). destruct (tamed_flow y0 M) as (B0 & _ & DM). apply (agree2 (w L) (w M) (radius y0 (Rabs x)) (Rabs x)); try lra; try assumption.
      - apply sqrt_pos.
      - intros t i Hi Ht. apply DL; [exact Hi|lra].
      - intros t i Hi Ht. apply DM; [exact Hi|lra].
      - intros t i Hi Ht. now apply Bd.
      - intros t i Hi Ht. now apply Bd.
      - intros i Hi. unfold w. rewrite A0, B0 by exact Hi. reflexivity. }
    split; [intros j Hj; destruct (tamed_flow y0 (Rabs 0 + 1)) as (A0 & _ & _); now apply A0|].
    intros x j Hj. destruct (tamed_flow y0 (Rabs x + 2)) as (_ & _ & D). fold (w (Rabs x + 2)) in D. specialize (D x j Hj ltac:(lra)).
    assert (Lc : locally x (fun t => w (Rabs x + 2) t j = w (Rabs t + 1) t j)).
    { assert (Hq : forall t : R, Rabs (t - x) < 1 -> w (Rabs x + 2) t j = w (Rabs t + 1) t j). { intros t Ht. apply Ag; [exact Hj| |lra]. pose proof (Rabs_triang (t - x) x) as T. replace (t - x + x) with t in T by ring. lra. }
      exists (mkposreal 1 Rlt_0_1). intros t Ht. exact (Hq t Ht). }
    assert (E : F x (fun j => w (Rabs x + 1) x j) j = F x (w (Rabs x + 2) x) j) by (apply Fext; [exact Hj|]; intros i Hi; apply Ag; [exact Hi|lra|lra]). change (w (Rabs x + 1) x) with (fun j => w (Rabs x + 1) x j). rewrite E. destruct D as [D1 D2]. split; [apply (is_derive_ext_loc (fun t => Re (w (Rabs x + 2) t j))); [|exact D1]|apply (is_derive_ext_loc (fun t => Im (w (Rabs x + 2) t j))); [|exact D2]]; refine (filter_imp _ _ _ Lc); intros t ->; reflexivity.
  Qed.
  (** any solution on [0, Z]: its power, and its uniqueness *)
  Lemma forward_power (u : R -> V) Z : (forall x j, (j < n)%nat -> 0 <= x <= Z -> is_cderive (fun t => u t j) x (F x (u x) j)) -> forall x, 0 <= x <= Z -> power n (u 0) * exp (lo * x) <= power n (u x) <= power n (u 0) * exp (hi * x).
  Proof.
    intros D x Hx. assert (Dp : forall t, 0 <= t <= Z -> is_derive (fun t => power n (u t)) t (rate t (u t))) by (intros t Ht; apply (power_derive n u _ t (fun j Hj => D t j Hj Ht))). split.
    - apply (shrink (fun t => power n (u t)) (fun t => rate t (u t)) lo Z Dp); [intros t _; apply Frate|exact Hx].
    - apply (grow (fun t => power n (u t)) (fun t => rate t (u t)) hi Z Dp); [intros t _; apply Frate|exact Hx].
  Qed.
  Lemma forward_unique (u v : R -> V) Z : (forall x j, (j < n)%nat -> 0 <= x <= Z -> is_cderive (fun t => u t j) x (F x (u x) j)) -> (forall x j, (j < n)%nat -> 0 <= x <= Z -> is_cderive (fun t => v t j) x (F x (v x) j)) ->
    (forall j, (j < n)%nat -> u 0 j = v 0 j) -> forall x j, (j < n)%nat -> 0 <= x <= Z -> u x j = v x j.
  Proof.
    intros Du Dv E0 x j Hj Hx. set (B := radius (u 0) Z). assert (HB : 0 <= B) by apply sqrt_pos.
    assert (Bd : forall w, (forall x j, (j < n)%nat -> 0 <= x <= Z -> is_cderive (fun t => w t j) x (F x (w x) j)) -> power n (w 0) = power n (u 0) -> forall t i, (i < n)%nat -> 0 <= t <= Z -> Cmod (w t i) <= B).
    { intros w Dw Ew t i Hi Ht. eapply Rle_trans; [apply (power_bound n (w t) i Hi)|]. apply sqrt_le_1_alt. eapply Rle_trans; [apply (forward_power w Z Dw t Ht)|]. rewrite Ew. apply Rmult_le_compat_l; [apply power_nonneg|].
      assert (hi * t <= a * Z). { assert (hi <= a) by (unfold a; pose proof (Rle_abs hi); pose proof (Rabs_pos lo); lra). apply Rle_trans with (a * t); [apply Rmult_le_compat_r; lra|apply Rmult_le_compat_l; [apply a_pos|lra]]. }
      destruct (Req_dec (hi * t) (a * Z)) as [->|Ne]; [lra|]. left. apply exp_increasing. lra. }
    assert (Bu := Bd u Du eq_refl). assert (Bv := Bd v Dv (power_ext n _ _ (fun i Hi => eq_sym (E0 i Hi)))). destruct (Floc B HB) as (K & HK & Fl).
    set (w := fun t i => (u t i - v t i)%C). set (q := fun t => 2 * Re (csum n (fun i => Cconj (w t i) * (F t (u t) i - F t (v t) i))%C)).
    assert (Dw : forall t, 0 <= t <= Z -> is_derive (fun t => power n (w t)) t (q t)). { intros t Ht. apply (power_derive n w (fun i => F t (u t) i - F t (v t) i)%C t). intros i Hi. destruct (Du t i Hi Ht) as [A1 A2]. destruct (Dv t i Hi Ht) as [B1 B2]. split; [apply (is_derive_minus _ _ t _ _ A1 B1)|apply (is_derive_minus _ _ t _ _ A2 B2)]. }
    assert (Gq : forall t, 0 <= t <= Z -> q t <= 2 * (INR n * K) * power n (w t)).
    { intros t Ht. unfold q. set (m := sqrt (power n (w t))). assert (Hm : m * m = power n (w t)) by (apply sqrt_sqrt, power_nonneg). assert (m0 : 0 <= m) by apply sqrt_pos.
      assert (Re (csum n (fun i => Cconj (w t i) * (F t (u t) i - F t (v t) i))%C) <= INR n * (m * (K * m))); [|rewrite <- Hm; nra]. eapply Rle_trans; [apply Rle_abs|]. eapply Rle_trans; [apply re_le|]. eapply Rle_trans; [apply Cmod_csum|]. eapply Rle_trans; [apply (rsum_le n _ (fun _ => m * (K * m)))|rewrite rsum_const; lra].
      intros i Hi. rewrite Cmod_mult, RkOrderProofs.Cmod_cj. apply Rmult_le_compat; try apply Cmod_ge_0; [apply (power_bound n (w t) i Hi)|]. apply (Fl t (u t) (v t) i Hi (fun j Hj => Bu t j Hj Ht) (fun j Hj => Bv t j Hj Ht)). intros k Hk. apply (power_bound n (w t) k Hk). }
    pose proof (grow (fun t => power n (w t)) q _ Z Dw Gq x Hx) as G. assert (W0 : power n (w 0) = 0). { unfold power. apply rsum_zero. intros i Hi. unfold w. rewrite (E0 i Hi). replace (v 0 i - v 0 i)%C with z0 by ring. rewrite Cmod_0. ring. }
    cbv beta in G. rewrite W0, Rmult_0_l in G. pose proof (power_bound n (w x) j Hj) as P. pose proof (power_nonneg n (w x)). replace (power n (w x)) with 0 in P by lra. rewrite sqrt_0 in P. pose proof (Cmod_ge_0 (w x j)). assert (Z0 : w x j = z0) by (apply Cmod_eq_0; lra). unfold w in Z0. transitivity ((u x j - v x j) + v x j)%C; [ring|]. rewrite Z0. ring.
  Qed.
End Global.

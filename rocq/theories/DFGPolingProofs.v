(** Proofs about the poling pattern: C52. *)
From Coq Require Import String.
From Coq Require Import Reals List ZArith Bool Arith Lia Lra.
From Coquelicot Require Import Complex.
From Verif Require Import Base CNum NumPy ModelPulse ModelDerived ModelCrystal ModelBeam ModelODE ModelDFG.
Import ListNotations.
Local Open Scope R_scope.
Local Open Scope py_scope.

(** where the k-th poling period begins, when the first begins at z *)
Fixpoint period_start (pp : R -> R) (z : R) (k : nat) : R :=
  match k with O => z | S k' => period_start pp z k' + pp (period_start pp z k') end.
Lemma start_shift pp z k : period_start pp (z + pp z) k = period_start pp z (S k).
Proof. induction k as [|k IH]; [reflexivity|]. cbn [period_start] in *. now rewrite IH. Qed.

Definition dom_of (pp : R -> R) (z : R) (k : nat) : R * R :=
  let s := period_start pp z k in (s + pp s * (1 / 2), s + pp s * 1).
Lemma loop_spec fuel : forall len pp z doms, poling_loop fuel len pp z = Ok doms ->
  let K := length doms in (forall k, (k < K)%nat -> period_start pp z k < len /\ nth k doms (0, 0) = dom_of pp z k) /\ ~ period_start pp z K < len.
Proof.
  induction fuel as [|fuel IH]; intros len pp z doms; cbn [poling_loop]; destruct (Rlt_dec z len) as [H|H]; try discriminate.
  - intros [= <-]. cbn. split; [intros; lia|exact H].
  - destruct (poling_loop fuel len pp (z + pp z)) as [r|e] eqn:E; cbn [rbind]; [|discriminate]. intros [= <-]. apply IH in E. cbn zeta in *. destruct E as [E1 E2]. rewrite start_shift in E2. cbn [length]. split; [|exact E2].
    intros [|k] Hk; [split; [exact H|reflexivity]|]. destruct (E1 k ltac:(lia)) as [A B]. rewrite start_shift in A. split; [exact A|]. cbn [nth]. rewrite B. unfold dom_of. rewrite start_shift. reflexivity.
  - intros [= <-]. cbn. split; [intros; lia|exact H].
Qed.
Lemma loop_ends fuel : forall len pp delta z, 0 < delta -> 0 <= z -> (forall u, 0 <= u < len -> delta <= pp u) -> len - z <= INR fuel * delta ->
  exists doms, poling_loop fuel len pp z = Ok doms.
Proof.
  induction fuel as [|fuel IH]; intros len pp delta z Hd Hz P B.
  - cbn [poling_loop]. cbn [INR] in B. destruct (Rlt_dec z len); [lra|]. eexists. reflexivity.
  - cbn [poling_loop]. destruct (Rlt_dec z len) as [H|H]; [|eexists; reflexivity]. specialize (P z ltac:(lra)) as Pz.
    destruct (IH len pp delta (z + pp z)) as [r E]; [exact Hd|lra|exact P|rewrite S_INR in B; lra|]. rewrite E. cbn [rbind]. eexists. reflexivity.
Qed.
Lemma poling_neg doms z : poling doms z = -1 <-> exists k, (k < length doms)%nat /\ fst (nth k doms (0, 0)) < z < snd (nth k doms (0, 0)).
Proof.
  unfold poling. destruct (existsb _ doms) eqn:E.
  - split; [intros _|reflexivity]. apply existsb_exists in E as (d & I & T). apply (In_nth _ _ (0, 0)) in I as (k & Hk & <-). exists k. split; [exact Hk|]. destruct (Rlt_dec _ _), (Rlt_dec _ _); cbn in T; try discriminate. lra.
  - split; [intros H; exfalso; lra|]. intros (k & Hk & A). exfalso. assert (T : existsb (fun d => (if Rlt_dec (fst d) z then true else false) && (if Rlt_dec z (snd d) then true else false)) doms = true); [|congruence].
    apply existsb_exists. exists (nth k doms (0, 0)). split; [apply nth_In; exact Hk|]. destruct (Rlt_dec _ _), (Rlt_dec _ _); try reflexivity; lra.
Qed.
Lemma poling_pos doms z : poling doms z <> -1 -> poling doms z = 1.
Proof. unfold poling. destruct (existsb _ _); intros H; [congruence|reflexivity]. Qed.

(*! C52: precompute_poling ends whenever the period stays above some positive number inside the crystal *)
Lemma C52_terminates_l : forall x len delta fuel, x_len (dx_x x) = Some len -> 0 < delta -> (forall z, 0 <= z < len -> delta <= dx_pp x z) -> len / delta <= INR fuel ->
  exists doms, precompute_poling fuel x = Ok doms.
Proof.
  intros x len delta fuel L Hd P B. unfold precompute_poling. rewrite L. apply (loop_ends fuel len (dx_pp x) delta 0 Hd ltac:(lra) P). apply (Rmult_le_compat_r delta) in B; [|lra]. unfold Rdiv in B. rewrite Rmult_assoc, Rinv_l, Rmult_1_r in B by lra. lra.
Qed.

(*! C52: the sign is -1 exactly on the open second half of each period that begins inside the crystal, +1 everywhere else, and every point of the crystal is in exactly one period *)
Lemma C52_pattern_l : forall x len fuel doms, x_len (dx_x x) = Some len -> precompute_poling fuel x = Ok doms -> (forall z, 0 <= z < len -> 0 < dx_pp x z) ->
  let start := period_start (dx_pp x) 0 in let inside := fun k => forall j, (j <= k)%nat -> start j < len in
  (forall k z, inside k -> start k <= z < start (S k) -> poling doms z = if Rlt_dec (start k + dx_pp x (start k) / 2) z then -1 else 1) /\
  (forall z, (forall k, inside k -> ~ (start k <= z < start (S k))) -> poling doms z = 1) /\
  (forall z, 0 <= z < len -> exists k, inside k /\ start k <= z < start (S k) /\ forall k', inside k' -> start k' <= z < start (S k') -> k' = k).
Proof.
  intros x len fuel doms L E P start inside. unfold precompute_poling in E. rewrite L in E. apply loop_spec in E. cbn zeta in E. set (K := length doms) in *. destruct E as [E1 E2]. fold start in E1, E2.
  assert (N : forall k, (k <= K)%nat -> 0 <= start k). { induction k as [|k IH]; intros Hk; [cbn; lra|]. destruct (E1 k ltac:(lia)) as [A _]. specialize (IH ltac:(lia)). unfold start in *. cbn [period_start]. pose proof (P (period_start (dx_pp x) 0 k) ltac:(lra)). lra. }
  assert (Up : forall k, (k < K)%nat -> start k < start (S k)). { intros k Hk. destruct (E1 k Hk) as [A _]. pose proof (N k ltac:(lia)). unfold start in *. cbn [period_start]. pose proof (P (period_start (dx_pp x) 0 k) ltac:(lra)). lra. }
  assert (Mono : forall j k, (j <= k <= K)%nat -> start j <= start k). { intros j k. induction k as [|k IH]; intros H; [replace j with 0%nat by lia; lra|]. destruct (Nat.eq_dec j (S k)) as [->|Hne]; [lra|]. specialize (IH ltac:(lia)). pose proof (Up k ltac:(lia)). lra. }
  (** the periods that begin inside the crystal are the first K *)
  assert (Uniq : forall j k z, (j < K)%nat -> (k < K)%nat -> start j <= z < start (S j) -> start k <= z < start (S k) -> j = k).
  { intros j k z Hj Hk Aj Ak. destruct (Nat.lt_trichotomy j k) as [H|[H|H]]; [|exact H|]; exfalso; [pose proof (Mono (S j) k ltac:(lia))|pose proof (Mono (S k) j ltac:(lia))]; lra. }
  assert (Dn : forall k, (k < K)%nat -> nth k doms (0, 0) = (start k + dx_pp x (start k) / 2, start (S k))). { intros k Hk. destruct (E1 k Hk) as [_ ->]. unfold dom_of. fold start. apply f_equal2; [lra|]. unfold start. cbn [period_start]. lra. }
  assert (Half : forall k, (k < K)%nat -> start k < start k + dx_pp x (start k) / 2). { intros k Hk. destruct (E1 k Hk) as [A _]. pose proof (P (start k) (conj (N k ltac:(lia)) A)). lra. }
  assert (Neg : forall z, poling doms z = -1 -> exists k, (k < K)%nat /\ start k <= z < start (S k) /\ start k + dx_pp x (start k) / 2 < z). { intros z H. apply poling_neg in H as (k & Hk & A). fold K in Hk. rewrite (Dn k Hk) in A. cbn [fst snd] in A. exists k. split; [exact Hk|]. pose proof (Half k Hk). lra. }
  assert (In : forall z, 0 <= z < len -> exists k, (k < K)%nat /\ start k <= z < start (S k)).
  { intros z Hz. assert (G : forall m, (m <= K)%nat -> start m <= z \/ exists k, (k < m)%nat /\ start k <= z < start (S k)).
    { induction m as [|m IH]; intros Hm; [left; cbn; lra|]. destruct (IH ltac:(lia)) as [A|(k & Hk & A)]; [|right; exists k; split; [lia|exact A]]. destruct (Rle_dec (start (S m)) z) as [B|B]; [left; exact B|right]. exists m. split; [lia|lra]. }
    destruct (G K (le_n K)) as [A|A]; [exfalso; lra|exact A]. }
  assert (Ins : forall k, inside k <-> (k < K)%nat).
  { intros k. split; [intros A; destruct (Nat.lt_ge_cases k K) as [H|H]; [exact H|exfalso; exact (E2 (A K H))]|]. intros H j Hj. apply E1. lia. }
  split; [|split].
  - intros k z A B. apply Ins in A as Hk.
    destruct (Rlt_dec (start k + dx_pp x (start k) / 2) z) as [H|H].
    + apply poling_neg. exists k. split; [exact Hk|]. rewrite (Dn k Hk). cbn [fst snd]. lra.
    + apply poling_pos. intros Q. apply Neg in Q as (j & Hj & Bj & Cj). rewrite (Uniq j k z Hj Hk Bj B) in Cj. lra.
  - intros z H. apply poling_pos. intros Q. apply Neg in Q as (k & Hk & Bk & _). apply Ins in Hk as A. exact (H k A Bk).
  - intros z Hz. destruct (In z Hz) as (k & Hk & B). exists k. split; [apply Ins; exact Hk|]. split; [exact B|]. intros k' A' B'. apply (Uniq k' k z); [apply Ins; exact A'|assumption..].
Qed.

(*! C52: without a positive lower bound the loop need not end: a period that is always half of what is left *)
Lemma C52_unbounded_l : forall xt len deff fuel, 0 < len ->
  let x := mkDX (mkX xt (Some len) false) "PP" deff (fun z => (len - z) / 2) in
  (forall z, 0 <= z < len -> 0 < dx_pp x z) /\ precompute_poling fuel x = Raise NoFuel.
Proof.
  intros xt len deff fuel H x. split; [intros z Hz; cbn; lra|]. unfold precompute_poling. cbn [x dx_x x_len dx_pp]. assert (H0 : 0 < len) by exact H. clear H x. revert H0. generalize 0 as z. induction fuel as [|fuel IH]; intros z Hz; cbn [poling_loop]; (destruct (Rlt_dec z len); [|lra]); [reflexivity|]. rewrite IH by lra. reflexivity.
Qed.

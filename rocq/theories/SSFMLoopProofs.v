(** The adaptive loop of integrate_over_dz: termination, coverage, simulation (C28 in part). *)
From Coq Require Import Reals List ZArith Bool Arith Lia Lra.
From Coquelicot Require Import Complex.
From Verif Require Import Base CNum NumPy ModelFFT ModelPulse ModelSSFM.
Import ListNotations.
Local Open Scope R_scope.

Lemma dz_min_pos : 0 < dz_min.
Proof. unfold dz_min. apply Rinv_0_lt_compat, pow_lt. lra. Qed.
Lemma factor_ge1 c : 1 <= dz_factor c.
Proof.
  unfold dz_factor. apply Rle_trans with (Rpower 2 0); [rewrite Rpower_O by lra; lra|]. apply Rle_Rpower; [lra|].
  unfold Rdiv. rewrite Rmult_1_l. destruct (c_eta c) as [|k]; [simpl; rewrite Rinv_0; lra|].
  left. apply Rinv_0_lt_compat, lt_0_INR. lia.
Qed.
Lemma factor_gt1 c : (0 < c_eta c)%nat -> 1 < dz_factor c.
Proof.
  intros H. unfold dz_factor. apply Rle_lt_trans with (Rpower 2 0); [rewrite Rpower_O by lra; lra|]. apply Rpower_lt; [lra|].
  unfold Rdiv. rewrite Rmult_1_l. apply Rinv_0_lt_compat, lt_0_INR. exact H.
Qed.
Lemma ctl_spec c dz d keep dz1 : step_ctl c dz d = (keep, dz1) -> 0 < dz ->
  (keep = false -> dz1 = dz / 2 /\ dz_min <= dz1) /\ (keep = true -> Rmin dz dz_min <= dz1) /\ 0 < dz1.
Proof.
  intros H Hd. pose proof dz_min_pos as Hm. pose proof (factor_ge1 c) as Hf.
  pose proof (Rmin_l dz dz_min). pose proof (Rmin_r dz dz_min).
  assert (Hg : dz <= dz * dz_factor c) by (rewrite <- (Rmult_1_r dz) at 1; apply Rmult_le_compat_l; lra).
  unfold step_ctl in H.
  repeat match type of H with
  | match ?x with Some _ => _ | None => _ end = _ => destruct x
  | (if ?x then _ else _) = _ => destruct x
  | (_, if ?x then _ else _) = _ => destruct x
  end; injection H as <- <-; repeat split; intros; try discriminate; try lra.
Qed.
Lemma ctl_keep_or c dz d : fst (step_ctl c dz d) = true \/ (step_ctl c dz d = (false, dz / 2) /\ dz_min <= dz / 2).
Proof.
  unfold step_ctl. destruct d as [d|]; [|left; reflexivity].
  repeat match goal with |- context [if ?x then _ else _] => destruct x end; auto.
Qed.

Section Loop.
Context {S : Type}.
Variable c : cfg.
Variable att : R -> S -> option R * S * S.
Local Notation loop := (loop c att).

Lemma loop_done fuel dist dz ret steps s : dist <= 0 -> loop fuel dist dz ret steps s = Some (mkL dist dz ret steps s).
Proof. intros H. destruct fuel; simpl; destruct (Rlt_dec 0 dist); try lra; reflexivity. Qed.

(** one turn, with the accepted branch in one form *)
Definition next_dz (dist1 dz1 : R) : R := if Rlt_dec dist1 (2 * dz1) then if Rlt_dec (2 * dz_min) dist1 then dist1 / 2 else dz1 else dz1.
Definition next_ret (dist1 dz1 : R) (ret : option R) : option R := if Rlt_dec dist1 (2 * dz1) then if Rlt_dec (2 * dz_min) dist1 then Some dz1 else ret else ret.
Lemma loop_turn fuel dist dz ret steps s : 0 < dist ->
  loop (Datatypes.S fuel) dist dz ret steps s =
  let '(delta, s_rej, s_acc) := att dz s in
  let '(keep, dz1) := step_ctl c dz delta in
  if keep then loop fuel (dist - 2 * dz) (next_dz (dist - 2 * dz) dz1) (next_ret (dist - 2 * dz) dz1 ret) (2 * dz :: steps) s_acc
  else loop fuel dist dz1 ret steps s_rej.
Proof.
  intros H. simpl. destruct (Rlt_dec 0 dist); [|lra]. destruct (att dz s) as [[delta s1] s2]. destruct (step_ctl c dz delta) as [keep dz1].
  destruct keep; [|reflexivity]. unfold next_dz, next_ret.
  destruct (Rlt_dec (dist - 2 * dz) (2 * dz1)); [|reflexivity]. destruct (Rlt_dec (2 * dz_min) (dist - 2 * dz)); reflexivity.
Qed.
Lemma next_dz_pos dist1 dz1 : 0 < dz1 -> 0 < next_dz dist1 dz1.
Proof. pose proof dz_min_pos. unfold next_dz. destruct (Rlt_dec dist1 (2 * dz1)); [destruct (Rlt_dec (2 * dz_min) dist1)|]; lra. Qed.

(** an invariant of the loop holds at its end *)
Lemma loop_inv (P : R -> R -> option R -> list R -> S -> Prop) :
  (forall dist dz ret steps s delta s1 s2 keep dz1, 0 < dist -> 0 < dz -> P dist dz ret steps s -> att dz s = (delta, s1, s2) -> step_ctl c dz delta = (keep, dz1) ->
     if keep then P (dist - 2 * dz) (next_dz (dist - 2 * dz) dz1) (next_ret (dist - 2 * dz) dz1 ret) (2 * dz :: steps) s2
     else P dist dz1 ret steps s1) ->
  forall fuel dist dz ret steps s r, 0 < dz -> P dist dz ret steps s -> loop fuel dist dz ret steps s = Some r ->
  P (l_dist r) (l_dz r) (l_ret r) (l_steps r) (l_st r) /\ l_dist r <= 0 /\ 0 < l_dz r.
Proof.
  intros Hstep. induction fuel as [|f IH]; intros dist dz ret steps s r Hdz HP HL.
  - simpl in HL. destruct (Rlt_dec 0 dist); [discriminate|]. injection HL as <-. simpl. repeat split; auto; lra.
  - destruct (Rlt_dec 0 dist) as [Hd|Hd].
    + rewrite loop_turn in HL by exact Hd. destruct (att dz s) as [[delta s1] s2] eqn:E1. destruct (step_ctl c dz delta) as [keep dz1] eqn:E2.
      pose proof (Hstep _ _ _ _ _ _ _ _ _ _ Hd Hdz HP E1 E2) as HP'. destruct (ctl_spec _ _ _ _ _ E2 Hdz) as (_ & _ & Hp1).
      destruct keep; eapply IH in HL; eauto. now apply next_dz_pos.
    + rewrite loop_done in HL by lra. injection HL as <-. simpl. repeat split; auto; lra.
Qed.

Lemma two_pow_above x : exists K, x < 2 ^ K * dz_min.
Proof.
  pose proof dz_min_pos as Hm. destruct (Pow_x_infinity 2) with (b := x / dz_min) as [K HK]; [rewrite Rabs_pos_eq; lra|].
  exists (Datatypes.S K). specialize (HK K (le_n K)). rewrite Rabs_pos_eq in HK by (left; apply pow_lt; lra).
  assert (0 < 2 ^ K) by (apply pow_lt; lra).
  apply (Rmult_lt_reg_r (/ dz_min)); [now apply Rinv_0_lt_compat|]. rewrite Rmult_assoc, Rinv_r by lra. simpl. unfold Rdiv in HK. lra.
Qed.

Lemma loop_terminates_aux m : 0 < m -> m <= dz_min -> forall N dist, dist <= INR N * (2 * m) -> forall K dz, m <= dz -> dz < 2 ^ K * dz_min ->
  forall ret steps s, exists fuel r, loop fuel dist dz ret steps s = Some r.
Proof.
  intros Hm Hmm. induction N as [|N IHN]; intros dist HN.
  - intros K dz _ _ ret steps s. exists 0%nat, (mkL dist dz ret steps s). apply loop_done. simpl in HN. lra.
  - induction K as [|K IHK]; intros dz Hdz HK ret steps s.
    all: destruct (Rlt_dec 0 dist) as [Hd|Hd]; [|exists 0%nat, (mkL dist dz ret steps s); apply loop_done; lra].
    all: destruct (att dz s) as [[delta s1] s2] eqn:E1.
    all: assert (A : forall dz1, m <= dz1 -> exists fuel r, loop fuel (dist - 2 * dz) (next_dz (dist - 2 * dz) dz1) (next_ret (dist - 2 * dz) dz1 ret) (2 * dz :: steps) s2 = Some r)
      by (intros dz1 H1; destruct (two_pow_above (next_dz (dist - 2 * dz) dz1)) as [K' HK']; apply (IHN (dist - 2 * dz) ltac:(rewrite S_INR in HN; lra) K'); [|exact HK'];
          unfold next_dz; destruct (Rlt_dec (dist - 2 * dz) (2 * dz1)); [destruct (Rlt_dec (2 * dz_min) (dist - 2 * dz))|]; lra).
    all: destruct (ctl_keep_or c dz delta) as [E2|[E2 Hr]].
    1,3: destruct (step_ctl c dz delta) as [keep dz1] eqn:E3; cbn [fst] in E2; subst keep;
      destruct (ctl_spec _ _ _ _ _ E3 ltac:(lra)) as (_ & H2 & _); specialize (H2 eq_refl);
      destruct (A dz1) as (fuel & r & HL); [unfold Rmin in H2; destruct (Rle_dec dz dz_min); lra|];
      exists (Datatypes.S fuel), r; rewrite loop_turn by exact Hd; rewrite E1, E3; exact HL.
    + exfalso. simpl in HK. lra.
    + destruct (IHK (dz / 2)) with (ret := ret) (steps := steps) (s := s1) as (fuel & r & HL); [lra|simpl in HK; lra|].
      exists (Datatypes.S fuel), r. rewrite loop_turn by exact Hd. rewrite E1, E2. exact HL.
Qed.
Lemma loop_terminates dist dz ret steps s : 0 < dz -> exists fuel r, loop fuel dist dz ret steps s = Some r.
Proof.
  intros Hdz. pose proof dz_min_pos as Hm. set (m := Rmin dz dz_min).
  assert (0 < m) by (unfold m, Rmin; destruct (Rle_dec dz dz_min); lra).
  destruct (two_pow_above dz) as [K HK].
  destruct (Rlt_le_dec (dist / (2 * m)) 0) as [Hneg|Hnn].
  { exists 0%nat, (mkL dist dz ret steps s). apply loop_done. destruct (Rle_lt_dec dist 0) as [D|D]; [exact D|].
    assert (0 < dist / (2 * m)) by (apply Rdiv_lt_0_compat; lra). lra. }
  assert (exists N, dist / (2 * m) < INR N) as [N HN].
  { exists (Z.to_nat (up (dist / (2 * m)))). destruct (archimed (dist / (2 * m))) as [U _].
    assert (0 <= up (dist / (2 * m)))%Z by (apply le_IZR; lra). rewrite INR_IZR_INZ, Z2Nat.id by assumption. lra. }
  apply (loop_terminates_aux m) with (N := N) (K := K); try assumption; [apply Rmin_r| |apply Rmin_l].
  apply (Rmult_le_reg_r (/ (2 * m))); [apply Rinv_0_lt_compat; lra|]. rewrite Rmult_assoc, Rinv_r by lra. unfold Rdiv in HN. lra.
Qed.

(** coverage *)
Definition resid (d0 : R) (steps : list R) : Prop :=
  exists last earlier, steps = last :: earlier /\ 0 < d0 - lrsum earlier <= 2 * dz_min.
Definition cov (d0 dist dz : R) (steps : list R) : Prop :=
  dist = d0 - lrsum steps /\ (forall h, In h steps -> 0 < h) /\
  ((0 < dist /\ 2 * dz <= dist) \/ dist = 0 \/ 0 < dist <= 2 * dz_min \/ (dist <= 0 /\ resid d0 steps)).
Lemma loop_cov d0 fuel dz s r : 0 < dz -> 2 * dz <= d0 -> loop fuel d0 dz None [] s = Some r ->
  lrsum (l_steps r) = d0 - l_dist r /\ (forall h, In h (l_steps r) -> 0 < h) /\ l_dist r <= 0 /\ (l_dist r = 0 \/ resid d0 (l_steps r)).
Proof.
  intros Hdz H0 HL. pose proof dz_min_pos as Hm.
  destruct (loop_inv (fun dist dz ret steps s => cov d0 dist dz steps)) with (fuel := fuel) (dist := d0) (dz := dz) (ret := @None R) (steps := @nil R) (s := s) (r := r)
    as (HP & Hd & _); try assumption.
  - clear. pose proof dz_min_pos as Hm. intros dist dz ret steps s delta s1 s2 keep dz1 Hd Hdz (C1 & C2 & C3) _ E2.
    destruct (ctl_spec _ _ _ _ _ E2 Hdz) as (F1 & F2 & F3). destruct keep.
    + split; [cbn [lrsum fold_right]; fold (lrsum steps); lra|]. split.
      { intros h [<-|Hh]; [lra|now apply C2]. }
      destruct C3 as [[_ C3]|[C3|[C3|[C3 _]]]]; try lra.
      * unfold next_dz. destruct (Rlt_dec (dist - 2 * dz) (2 * dz1)).
        -- destruct (Rlt_dec (2 * dz_min) (dist - 2 * dz)); [left; lra|]. right. destruct (Rle_lt_dec (dist - 2 * dz) 0); [left; lra|right; left; lra].
        -- left. split; lra.
      * destruct (Rlt_le_dec 0 (dist - 2 * dz)).
        -- right; right; left. lra.
        -- right; right; right. split; [lra|]. exists (2 * dz), steps. split; [reflexivity|lra].
    + destruct (F1 eq_refl) as [-> _]. split; [exact C1|]. split; [exact C2|].
      destruct C3 as [[_ C3]|[C3|[C3|[C3 _]]]]; lra.
  - split; [simpl; lra|]. split; [intros h []|]. left. lra.
  - destruct HP as (C1 & C2 & C3). split; [lra|]. split; [exact C2|]. split; [exact Hd|]. destruct C3 as [C3|[C3|[C3|[_ C3]]]]; try lra; right; exact C3.
Qed.

(** a zero step never gets anywhere *)
Lemma loop_zero_dz fuel dist ret steps s : 0 < dist -> loop fuel dist 0 ret steps s = None.
Proof.
  revert ret steps s. induction fuel as [|f IH]; intros ret steps s Hd.
  - simpl. destruct (Rlt_dec 0 dist); [reflexivity|lra].
  - rewrite loop_turn by exact Hd. destruct (att 0 s) as [[delta s1] s2]. pose proof dz_min_pos as Hm.
    destruct (step_ctl c 0 delta) as [keep dz1] eqn:E. 
    assert (E' : keep = true /\ dz1 = 0).
    { unfold step_ctl in E. repeat match type of E with
      | match ?x with Some _ => _ | None => _ end = _ => destruct x
      | (if ?x then _ else _) = _ => destruct x
      | (_, if ?x then _ else _) = _ => destruct x
      end; injection E as <- <-; split; try reflexivity; try ring; unfold Rdiv in *; rewrite ?Rmult_0_l in *; try lra. }
    destruct E' as [-> ->]. replace (dist - 2 * 0) with dist by ring. 
    unfold next_dz, next_ret. destruct (Rlt_dec dist (2 * 0)); [lra|]. now apply IH.
Qed.
End Loop.

(** two loops whose attempts are related run in lock step *)
Section Sim.
Context {S1 S2 : Type}.
Variable c : cfg.
Variable att1 : R -> S1 -> option R * S1 * S1.
Variable att2 : R -> S2 -> option R * S2 * S2.
Variable Rel : S1 -> S2 -> Prop.
Definition att_rel (x : option R * S1 * S1) (y : option R * S2 * S2) : Prop :=
  fst (fst x) = fst (fst y) /\ Rel (snd (fst x)) (snd (fst y)) /\ Rel (snd x) (snd y).
Definition res_rel (x : option (lres S1)) (y : option (lres S2)) : Prop :=
  match x, y with
  | None, None => True
  | Some a, Some b => l_dist a = l_dist b /\ l_dz a = l_dz b /\ l_ret a = l_ret b /\ l_steps a = l_steps b /\ Rel (l_st a) (l_st b)
  | _, _ => False
  end.
Hypothesis Hatt : forall dz a b, 0 < dz -> Rel a b -> att_rel (att1 dz a) (att2 dz b).
Lemma loop_sim fuel dist dz ret steps a b : 0 < dz -> Rel a b ->
  res_rel (loop c att1 fuel dist dz ret steps a) (loop c att2 fuel dist dz ret steps b).
Proof.
  revert dist dz ret steps a b. induction fuel as [|f IH]; intros dist dz ret steps a b Hdz Hab.
  - simpl. destruct (Rlt_dec 0 dist); simpl; auto.
  - destruct (Rlt_dec 0 dist) as [Hd|Hd].
    + rewrite !loop_turn by exact Hd. pose proof (Hatt dz a b Hdz Hab) as H.
      destruct (att1 dz a) as [[d1 a1] a2], (att2 dz b) as [[d2 b1] b2]. destruct H as (E1 & E2 & E3). cbn [fst snd] in *. subst d2.
      destruct (step_ctl c dz d1) as [keep dz1] eqn:E. destruct (ctl_spec _ _ _ _ _ E Hdz) as (_ & _ & Hp).
      destruct keep; apply IH; auto. now apply next_dz_pos.
    + rewrite !loop_done by lra. simpl. auto.
Qed.
End Sim.

Lemma first_dz_pos d dz : 0 < d -> 0 < dz -> 0 < first_dz d dz /\ 2 * first_dz d dz <= d.
Proof. intros. unfold first_dz. destruct (Rlt_dec d (2 * dz)); lra. Qed.

(*! C28 (partial): for every positive distance and initial step, whatever the field does, integrate_over_dz terminates; the kept step lengths are positive and add up
    to at least the requested distance, and to exactly that distance unless the step before the last one left a residue in (0, 2*dz_min].
    Missing: exact coverage in that last case, refuted below. *)
Lemma C28_terminates_and_covers_partial_l : forall (c : cfg) (delta_z dir : R) (s : ssfm),
  0 < delta_z -> 0 < s_dz s ->
  exists fuel r, integrate_trace c fuel delta_z dir s = Some r /\
    (forall h, In h (l_steps r) -> 0 < h) /\ delta_z <= lrsum (l_steps r) /\
    (lrsum (l_steps r) = delta_z \/
     exists last earlier, l_steps r = last :: earlier /\ 0 < delta_z - lrsum earlier <= 2 * / 10 ^ 12).
Proof.
  intros c delta_z dir s Hd Hdz. destruct (first_dz_pos delta_z (s_dz s) Hd Hdz) as [P1 P2].
  destruct (loop_terminates c (attempt c dir) delta_z (first_dz delta_z (s_dz s)) None [] (with_lasth (Some (-1)) s) P1) as (fuel & r & HL).
  exists fuel, r. split; [exact HL|]. destruct (loop_cov c (attempt c dir) delta_z fuel _ _ r P1 P2 HL) as (A & B & D & E).
  split; [exact B|]. split; [lra|]. destruct E as [E|E]; [left; lra|right; exact E].
Qed.

(*! C28 (partial, arbitrary error estimates): the same for every sequence of error values, NaN (None) included, fed to the step controller. *)
Lemma C28_any_errors_partial_l : forall (c : cfg) (errs : nat -> option R) (delta_z dz0 : R),
  0 < delta_z -> 0 < dz0 ->
  exists fuel r, loop c (fun (_ : R) (k : nat) => (errs k, S k, S k)) fuel delta_z (first_dz delta_z dz0) None [] 0%nat = Some r /\
    (forall h, In h (l_steps r) -> 0 < h) /\ delta_z <= lrsum (l_steps r) /\
    (lrsum (l_steps r) = delta_z \/
     exists last earlier, l_steps r = last :: earlier /\ 0 < delta_z - lrsum earlier <= 2 * / 10 ^ 12).
Proof.
  intros c errs delta_z dz0 Hd Hdz. destruct (first_dz_pos delta_z dz0 Hd Hdz) as [P1 P2].
  destruct (loop_terminates c (fun (_ : R) (k : nat) => (errs k, S k, S k)) delta_z (first_dz delta_z dz0) None [] 0%nat P1) as (fuel & r & HL).
  exists fuel, r. split; [exact HL|]. destruct (loop_cov c _ delta_z fuel _ _ r P1 P2 HL) as (A & B & D & E).
  split; [exact B|]. split; [lra|]. destruct E as [E|E]; [left; lra|right; exact E].
Qed.

(*! C28 refuted for a solver that was once asked to integrate over zero distance (a fiber of length 0): its step size is then 0 and no later call ever returns. *)
Lemma C28_zero_distance_refuted_l : forall (c : cfg) (dir : R) (s : ssfm),
  0 < s_dz s ->
  exists s', integrate_over_dz c 0 0 dir s = Some s' /\
    forall (fuel : nat) (delta_z dir' : R), 0 < delta_z -> integrate_over_dz c fuel delta_z dir' s' = None.
Proof.
  intros c dir s Hs. eexists. split.
  - unfold integrate_over_dz, integrate_trace. rewrite loop_done by lra. reflexivity.
  - intros fuel delta_z dir' Hd. unfold integrate_over_dz, integrate_trace, final_dz. cbn [l_ret l_dz l_st s_dz with_dz].
    unfold first_dz at 2. destruct (Rlt_dec 0 (2 * s_dz s)); [|lra]. replace (0 / 2) with 0 by field.
    unfold first_dz. destruct (Rlt_dec delta_z (2 * 0)); [lra|]. now rewrite loop_zero_dz.
Qed.

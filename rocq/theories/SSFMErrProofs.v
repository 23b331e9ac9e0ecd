(** What a step kept by the adaptive integrator satisfies: tolerance and extrapolation (C88). *)
From Coq Require Import Reals List ZArith Bool Arith Lia Lra.
From Coquelicot Require Import Coquelicot.
From Verif Require Import Base CNum NumPy ModelFFT FFTProofs ModelPulse Spec PulseProofs PulseOpsProofs PulseRegridProofs ModelSSFM SSFMLoopProofs SSFMProofs SSFMSymProofs SSFMPropProofs.
Import ListNotations.
Local Open Scope R_scope.
Local Open Scope py_scope.
Local Notation z0 := (RtoC 0).

(** L2 norm of a sampled field *)
Definition l2 (a : list C) : R := sqrt (power_sum a).
Lemma norm2_l2 a : norm2 a = l2 a.
Proof.
  unfold norm2, l2, power_sum. f_equal. f_equal. apply map_ext. intros z. unfold Cmod, Cnorm2, Re, Im. destruct z as [x y]. cbn [fst snd].
  rewrite pow2_sqrt by nra. ring.
Qed.

(** One kept step of length 2h from field A to field B in the medium of solver s: Ac is the field after one step of length 2h, Af the field after two steps of length h, each with a freshly computed propagator. *)
Record good_step (c : cfg) (s : ssfm) (dir h : R) (A B : list C) : Prop := mkGood {
  gs_tol : let Ac := advance_fresh c s A (2 * h) dir in let Af := advance_fresh c s (advance_fresh c s A h dir) h dir in
    l2 (vsub Af Ac) <= 2 * c_err c * l2 Af \/ (l2 Af = 0 /\ l2 (vsub Af Ac) <= 2 * c_err c) \/ h < 2 * dz_min;
  gs_ext : let Ac := advance_fresh c s A (2 * h) dir in let Af := advance_fresh c s (advance_fresh c s A h dir) h dir in
    length B = length A /\ forall k, (k < length A)%nat -> (RtoC (2 ^ (c_eta c - 1)) * (nth k Af z0 - nth k B z0) = nth k Ac z0 - nth k B z0)%C }.
(** The kept steps, latest first, lead from A0 to A. *)
Inductive kept (c : cfg) (s : ssfm) (dir : R) (A0 : list C) : list R -> list C -> Prop :=
| kept_nil : kept c s dir A0 [] A0
| kept_cons steps h A B : 0 < h -> kept c s dir A0 steps A -> good_step c s dir h A B -> kept c s dir A0 (2 * h :: steps) B.

(** medium equality: everything but the field, step size, counter and cache *)
Definition same_medium (s t : ssfm) : Prop :=
  s_betas s = s_betas t /\ s_alpha s = s_alpha t /\ s_gamma s = s_gamma t /\ s_w0 s = s_w0 t /\ s_omegas s = s_omegas t /\ s_R s = s_R t.
Lemma adv_with_medium c s t E A h dir : same_medium s t -> adv_with c s E A h dir = adv_with c t E A h dir.
Proof.
  intros (_ & _ & H1 & H2 & H3 & H4). assert (N : forall x, nonlinear c s x = nonlinear c t x) by (intros x; unfold nonlinear; rewrite H1, H2, H3, H4; reflexivity).
  unfold adv_with, kerr, rk_with. destruct (c_method c); [destruct (Req_EM_T dir 1)|]; cbv zeta; rewrite !N; reflexivity.
Qed.
Lemma fresh_medium c s t A h dir : 0 < h -> same_medium s t -> advance_fresh c s A h dir = advance_fresh c t A h dir.
Proof. intros Hh H. rewrite !advance_fresh_eq by exact Hh. rewrite (adv_with_medium c s t) by exact H. destruct H as (-> & -> & _). reflexivity. Qed.
Lemma adv_with_length c n s E A h dir : wf n s -> length E = n -> length A = n -> length (adv_with c s E A h dir) = n.
Proof.
  intros W HE HA. assert (N : forall x, length x = n -> length (nonlinear c s x) = n) by (intros; apply nonlinear_length; assumption).
  unfold adv_with, kerr, rk_with. destruct (c_method c); [destruct (Req_EM_T dir 1)|]; cbv zeta;
  repeat first [assumption | apply N | apply len_diag | apply len_vmul | apply len_vadd | apply len_vscale | apply len_map].
Qed.
Lemma fresh_length c n s A h dir : 0 < h -> wf n s -> length A = n -> length (advance_fresh c s A h dir) = n.
Proof.
  intros Hh W HA. rewrite advance_fresh_eq by exact Hh. apply adv_with_length; [exact W| |exact HA]. destruct W as (_ & W1 & W2 & _). unfold calc_expD. rewrite map2_length by congruence. exact W1.
Qed.

Lemma richardson_ext c n Af Ac k : (2 <= c_eta c)%nat -> length Af = n -> length Ac = n ->
  length (richardson c Af Ac) = n /\ (RtoC (2 ^ (c_eta c - 1)) * (nth k Af z0 - nth k (richardson c Af Ac) z0) = nth k Ac z0 - nth k (richardson c Af Ac) z0)%C.
Proof.
  intros He L1 L2. set (p := 2 ^ (c_eta c - 1)).
  assert (Hp : 2 <= p). { unfold p. replace (c_eta c - 1)%nat with (S (c_eta c - 2)) by lia. cbn [pow]. assert (1 <= 2 ^ (c_eta c - 2)) by (apply pow_R1_Rle; lra). lra. }
  assert (E : richardson c Af Ac = vsub (vscale (RtoC (p / (p - 1))) Af) (vscale (RtoC (1 / (p - 1))) Ac)).
  { unfold richardson. destruct (Nat.eqb (c_eta c) 3) eqn:E3.
    - apply Nat.eqb_eq in E3. unfold p. rewrite E3. cbn [Nat.sub]. replace (2 ^ 2) with 4 by ring. do 3 f_equal; apply RtoC_inj || idtac; f_equal; lra.
    - destruct (Nat.eqb (c_eta c) 5) eqn:E5.
      + apply Nat.eqb_eq in E5. unfold p. rewrite E5. cbn [Nat.sub]. replace (2 ^ 4) with 16 by ring. do 3 f_equal; lra.
      + assert (Q : Rpower 2 (INR (c_eta c) - 1) = p). { unfold p. rewrite <- Rpower_pow by lra. f_equal. rewrite minus_INR by lia. reflexivity. } rewrite Q. reflexivity. }
  rewrite E. split; [apply len_vsub; apply len_vscale; assumption|]. rewrite vsub_nth by (rewrite !vscale_length; congruence). rewrite !vscale_nth.
  set (x := nth k Af z0). set (y := nth k Ac z0). assert (Hq : p - 1 <> 0) by lra. rewrite !RtoC_div by exact Hq. rewrite RtoC_minus. field. intros Z. apply Hq. assert (Z' : RtoC (p - 1) = RtoC 0) by (rewrite RtoC_minus; exact Z). apply RtoC_inj in Z'. exact Z'.
Qed.

Lemma ctl_keep c dz d dz1 : step_ctl c dz (Some d) = (true, dz1) -> d <= 2 * c_err c \/ dz < 2 * dz_min.
Proof.
  unfold step_ctl. destruct (Rlt_dec (2 * c_err c) d); [|lra]. destruct (Rle_dec dz_min (dz / 2)); [discriminate|]. intros _. right. lra.
Qed.

(*! C88: whatever the medium, the method and the tolerance, the field integrate_over_dz ends with is reached through the steps it kept.  Each of them, of length 2h, starts from the field the previous one left;
    unless h is below twice the smallest allowed step, one step over 2h and two steps over h (each with its own propagator) differ by at most twice the local error, relative to the finer field;
    and the field it leaves is the extrapolation that makes the error of the coarse field exactly 2^(eta-1) times that of the fine one. *)
Lemma C88_kept_steps_l : forall (c : cfg) (n fuel : nat) (delta_z dir : R) (s : ssfm) (r : lres ssfm),
  wf n s -> (2 <= c_eta c)%nat -> 0 < delta_z -> 0 < s_dz s -> integrate_trace c fuel delta_z dir s = Some r ->
  kept c s dir (s_A s) (l_steps r) (s_A (l_st r)).
Proof.
  intros c n fuel delta_z dir s r W He Hd Hdz HR. unfold integrate_trace in HR. destruct (first_dz_pos delta_z (s_dz s) Hd Hdz) as [P1 _].
  destruct (loop_inv c (attempt c dir) (fun dist dz ret steps t => cok t /\ same_medium t s /\ length (s_A t) = n /\ kept c s dir (s_A s) steps (s_A t))) with (fuel := fuel) (dist := delta_z) (dz := first_dz delta_z (s_dz s)) (ret := @None R) (steps := @nil R) (s := with_lasth (Some (-1)) s) (r := r) as (HP & _); try assumption.
  - clear HR. intros dist dz ret steps t delta s1 s2 keep dz1 Hdist Hdz' (Ct & Mt & Lt & Kt) Ea Ec.
    assert (Wt : wf n t). { destruct W as (_ & W1 & W2 & W3 & W4). destruct Mt as (M1 & M2 & _ & _ & M5 & M6). split; [exact Lt|]. rewrite M1, M2, M5, M6. auto. }
    pose proof (attempt_same c dir dz t t Hdz' (conj Ct eq_refl)) as H. rewrite Ea in H. unfold attempt_fresh in H. cbn in H. destruct H as (Hdel & (C1 & N1) & (C2 & N2)).
    destruct (nocache_fields _ _ N1) as (A1 & _ & _ & B1 & L1 & G1 & W01 & O1 & R1 & _). destruct (nocache_fields _ _ N2) as (A2 & _ & _ & B2 & L2 & G2 & W02 & O2 & R2 & _).
    cbn [fst snd] in *. cbn [s_A s_betas s_alpha s_gamma s_w0 s_omegas s_R with_iter with_A] in A2, B2, L2, G2, W02, O2, R2.
    destruct Mt as (M1 & M2 & M3 & M4 & M5 & M6).
    assert (Mt : same_medium t s) by (repeat split; assumption).
    set (Ac := advance_fresh c t (s_A t) (2 * dz) dir) in *. set (Af := advance_fresh c t (advance_fresh c t (s_A t) dz dir) dz dir) in *.
    assert (LAc : length Ac = n) by (apply fresh_length; [lra|exact Wt|exact Lt]). assert (LAf : length Af = n) by (apply fresh_length; [lra|exact Wt|apply fresh_length; [lra|exact Wt|exact Lt]]).
    destruct keep.
    + destruct (richardson_ext c n Af Ac 0 He LAf LAc) as [LR _].
      split; [exact C2|]. split; [repeat split; congruence|]. split; [rewrite A2; exact LR|]. apply kept_cons with (A := s_A t); [exact Hdz'|exact Kt|]. rewrite A2.
      assert (EAc : advance_fresh c s (s_A t) (2 * dz) dir = Ac) by (unfold Ac; symmetry; apply fresh_medium; [lra|exact Mt]).
      assert (EAf : advance_fresh c s (advance_fresh c s (s_A t) dz dir) dz dir = Af).
      { unfold Af. rewrite (fresh_medium c t s (s_A t) dz dir Hdz' Mt). symmetry. apply fresh_medium; [exact Hdz'|exact Mt]. }
      split; cbv zeta; rewrite EAc, EAf.
      * rewrite Hdel in Ec. apply ctl_keep in Ec. rewrite <- !norm2_l2. unfold local_err in Ec. destruct (Req_EM_T (norm2 Af) 0) as [Z|Z].
        -- destruct Ec as [Ec|Ec]; [right; left; split; assumption|right; right; exact Ec].
        -- destruct Ec as [Ec|Ec]; [left|right; right; exact Ec]. assert (Pn : 0 < norm2 Af) by (unfold norm2 in *; pose proof (sqrt_pos (lrsum (map Cnorm2 Af))); lra).
           apply (Rmult_le_reg_r (/ norm2 Af)); [apply Rinv_0_lt_compat; exact Pn|]. replace (2 * c_err c * norm2 Af * / norm2 Af) with (2 * c_err c) by (field; exact Z). exact Ec.
      * split; [rewrite LR; symmetry; exact Lt|]. intros k Hk. apply (richardson_ext c n Af Ac k He LAf LAc).
    + split; [exact C1|]. split; [repeat split; congruence|]. split; [rewrite A1; exact Lt|rewrite A1; exact Kt].
  - split; [right; left; reflexivity|]. split; [repeat split|]. split; [apply W|apply kept_nil].
  - apply HP.
Qed.

(** Proofs about the Pulse model, part 3: interpolation, filtering, copies, subsets, averages (C17-C22). *)
From Coq Require Import String.
From Coq Require Import Reals List ZArith Bool Arith Lia Lra.
From Coquelicot Require Import Complex.
From Verif Require Import Base CNum NumPy ModelFFT FFTProofs ModelPulse Spec ModelPulseOps PulseProofs PulseHistory PulseOpsProofs.
Import ListNotations.
Local Open Scope R_scope.

(** ** Reading cached grids twice *)
Lemma get_wl_after strf p w p1 : get_wl_nm strf p = (Ok (Some w), p1) ->
  p_wlh p1 = Some (hash_of strf p1) /\ p_wlv p1 = Some w /\ obs p1 = obs p.
Proof.
  intros H. pose proof (get_wl_ro strf p) as Ho. rewrite H in Ho. cbn [snd] in Ho.
  revert H. unfold get_wl_nm. mred. unfold hash_eqb.
  destruct (p_wlh p) as [x|] eqn:E1.
  - destruct (String.eqb_spec x (hash_of strf p)) as [E|E].
    + intros H. inversion H. subst p1. subst x. rewrite E1. split; [reflexivity|]. split; [congruence|exact Ho].
    + pred. destruct (p_ready p); intros H; inversion H. subst p1. repeat split; auto.
  - pred. destruct (p_ready p); intros H; inversion H. subst p1. repeat split; auto.
Qed.
Lemma get_wl_hit strf q w : p_wlh q = Some (hash_of strf q) -> p_wlv q = Some w ->
  get_wl_nm strf q = (Ok (Some w), q).
Proof. intros H1 H2. unfold get_wl_nm. mred. unfold hash_eqb. now rewrite H1, String.eqb_refl, H2. Qed.
Lemma get_Wm_after strf p w p1 : get_W_mks strf p = (Ok (Some w), p1) ->
  p_Wh p1 = Some (hash_of strf p1) /\ p_Wv p1 = Some w /\ obs p1 = obs p.
Proof.
  intros H. pose proof (get_Wm_ro strf p) as Ho. rewrite H in Ho. cbn [snd] in Ho.
  revert H. unfold get_W_mks. mred. unfold hash_eqb.
  destruct (p_Wh p) as [x|] eqn:E1.
  - destruct (String.eqb_spec x (hash_of strf p)) as [E|E].
    + intros H. inversion H. subst p1. subst x. rewrite E1. split; [reflexivity|]. split; [congruence|exact Ho].
    + pred. destruct (p_ready p); intros H; inversion H. subst p1. repeat split; auto.
  - pred. destruct (p_ready p); intros H; inversion H. subst p1. repeat split; auto.
Qed.
Lemma obs_holds p p1 a : obs p1 = obs p -> holds p a -> holds p1 a.
Proof. unfold obs, holds. intros H (A & B & D). injection H as E1 E2 E3 E4 E5 E6. rewrite E6, E4, E1. auto. Qed.
Lemma obs_hash strf p p1 : obs p1 = obs p -> hash_of strf p1 = hash_of strf p.
Proof. unfold obs, hash_of. intros H. injection H as E1 E2 E3 E4 E5 E6. now rewrite E1, E2. Qed.

(** everything observable except the field *)
Definition frame (p : pulse) := (p_n p, p_f p, p_tw p, p_frep p, p_ready p).
Lemma obs_frame p q : obs p = obs q -> frame p = frame q.
Proof. unfold obs, frame. intros H. injection H as E1 E2 E3 E4 E5 E6. congruence. Qed.

(** ** C17 *)
Lemma count_below_mk n : forall g v m, (m <= n)%nat -> (forall i, (i < n)%nat -> (g i < v <-> (i < m)%nat)) ->
  count_below (mk n g) v = m.
Proof.
  induction n as [|n IH]; intros g v m Hm H.
  - unfold count_below, mk. simpl. lia.
  - unfold count_below. rewrite mk_S, filter_app, app_length. fold (count_below (mk n g) v). simpl filter.
    destruct (Rlt_dec (g n) v) as [L|L].
    + assert (m = S n) by (apply (H n) in L; lia). subst m. rewrite (IH g v n); [simpl; lia|lia|].
      intros i Hi. split; [intros _; exact Hi|]. intros _. apply H; lia.
    + assert (m <= n)%nat. { destruct (Nat.eq_dec m (S n)) as [->|]; [|lia]. exfalso. apply L. apply H; lia. }
      rewrite (IH g v m); [simpl; lia|lia|]. intros i Hi. apply H. lia.
Qed.

Lemma interp1_chord n g y v j : (forall i k, (i < k < n)%nat -> g i < g k) -> (S j < n)%nat -> g j <= v <= g (S j) ->
  interp1 (mk n g) y v =
  (nth j y (RtoC 0) + RtoC ((v - g j) / (g (S j) - g j)) * (nth (S j) y (RtoC 0) - nth j y (RtoC 0)))%C.
Proof.
  intros Hg Hj Hv.
  assert (Hd : forall i, (S i < n)%nat -> g i < g (S i)) by (intros; apply Hg; lia).
  unfold interp1. rewrite mk_length. cbv zeta. rewrite !(mk_nth n g 0), !(mk_nth n g (n - 1)) by lia.
  assert (L0 : ~ v < g 0%nat).
  { destruct j as [|j]; [lra|]. assert (g 0%nat < g (S j)) by (apply Hg; lia). lra. }
  assert (L1 : ~ g (n - 1)%nat < v).
  { destruct (Nat.eq_dec (S j) (n - 1)) as [<-|N]; [lra|]. assert (g (S j) < g (n - 1)%nat) by (apply Hg; lia). lra. }
  destruct (Rlt_dec v (g 0%nat)); [contradiction|]. destruct (Rlt_dec (g (n - 1)%nat) v); [contradiction|].
  assert (Hcases : (v = g j /\ count_below (mk n g) v = j) \/ count_below (mk n g) v = S j).
  { destruct (Req_dec v (g j)) as [E|E].
    - left. split; [exact E|]. apply count_below_mk; [lia|]. intros i Hi. rewrite E. split.
      + intros L. destruct (le_lt_dec j i) as [K|K]; [|exact K]. exfalso.
        destruct (Nat.eq_dec j i) as [->|N']; [lra|]. assert (g j < g i) by (apply Hg; lia). lra.
      + intros L. apply Hg. lia.
    - right. apply count_below_mk; [lia|]. intros i Hi. split.
      + intros L. destruct (le_lt_dec (S j) i) as [K|K]; [|exact K]. exfalso.
        destruct (Nat.eq_dec (S j) i) as [<-|N']; [lra|]. assert (g (S j) < g i) by (apply Hg; lia). lra.
      + intros L. destruct (Nat.eq_dec i j) as [->|N']; [lra|]. assert (g i < g j) by (apply Hg; lia). lra. }
  assert (Hne : forall i, (S i < n)%nat -> RtoC (g (S i) - g i) <> RtoC 0).
  { intros i Hi Hc. apply RtoC_inj in Hc. specialize (Hd i Hi). lra. }
  destruct Hcases as [[E Ec]|Ec]; rewrite Ec.
  - destruct j as [|j].
    + replace (Nat.min (Nat.max 0 1) (n - 1)) with 1%nat by lia. replace (1 - 1)%nat with 0%nat by lia.
      rewrite !mk_nth by lia. rewrite E.
      replace (g 0%nat - g 0%nat) with 0 by ring. unfold Rdiv. rewrite Rmult_0_l. ring.
    + replace (Nat.min (Nat.max (S j) 1) (n - 1)) with (S j) by lia. replace (S j - 1)%nat with j by lia.
      rewrite !mk_nth by lia. rewrite E.
      replace (g (S j) - g (S j)) with 0 by ring. unfold Rdiv at 1. rewrite Rmult_0_l.
      field. apply (Hne j). lia.
  - replace (Nat.min (Nat.max (S j) 1) (n - 1)) with (S j) by lia. replace (S j - 1)%nat with j by lia.
    rewrite !mk_nth by lia. unfold Rdiv. rewrite RtoC_mult, RtoC_inv by (specialize (Hd j Hj); lra).
    field. apply Hne; exact Hj.
Qed.
Lemma interp1_outside n g y v : (0 < n)%nat -> v < g 0%nat \/ g (n - 1)%nat < v -> interp1 (mk n g) y v = RtoC 0.
Proof.
  intros Hn H. unfold interp1. rewrite mk_length, !mk_nth by lia.
  destruct (Rlt_dec v (g 0%nat)); [reflexivity|]. destruct (Rlt_dec (g (n - 1)%nat) v); [reflexivity|]. tauto.
Qed.

Lemma clone_new_run p a : holds p a ->
  create_cloned_pulse p =
  (Ok (mkPulse (p_n p) (c_nmps / (c_nmps / p_f p)) (p_tw p) (Some a) (p_frep p) true None None None None), p).
Proof.
  intros (Hr & Ha & Hl).
  unfold create_cloned_pulse, with_new.
  set (s1 := mkPulse (p_n p) (c_nmps / (c_nmps / p_f p)) (p_tw p) None (p_frep p) true None None None None).
  assert (E : clone_pulse p (new_pulse None None) = (Ok tt, with_AW (Some a) s1)).
  { change (clone_pulse p (new_pulse None None)) with (bind (lift (fst (get_AT p))) set_AT s1).
    rewrite (get_AT_run p a Ha). unfold bind, lift, fst.
    rewrite set_AT_ok; [now rewrite FFT_IFFT_t| |rewrite IFFT_t_length; exact Hl].
    split; [reflexivity|]. left; reflexivity. }
  unfold bind, get. rewrite E. reflexivity.
Qed.

Lemma get_Wm_empty strf q : p_ready q = true -> p_Wh q = None ->
  get_W_mks strf q = (Ok (Some (Wmks_now q)), with_Wc (Some (hash_of strf q)) (Some (Wmks_now q)) q).
Proof.
  intros Hr Hh. unfold get_W_mks. mred. unfold hash_eqb. rewrite Hh. pred. rewrite Hr. reflexivity.
Qed.

Lemma spec_W_nth n t f k : (k < n)%nat -> nth k (spec_W n t f) 0 = 2 * PI * (f + (INR k - INR n / 2) / t).
Proof. intros. unfold spec_W. now rewrite mk_nth. Qed.

(*! C17: with fresh grids the result lives on the grid shifted to the new centre; zero outside the old grid, equal to the old bin where the grids
    meet, on the chord in between; the source pulse keeps NPTS, window, centre, rate and field. *)
Lemma C17_interpolate_l : forall (strf : R -> string) (p p1 : pulse) (a : list C) (wl : R),
  holds p a -> (2 <= p_n p)%nat -> 0 < p_tw p ->
  get_W_mks strf p = (Ok (Some (map (fun w => w * 1000000000000) (spec_W (p_n p) (p_tw p) (p_f p)))), p1) ->
  exists q p' y, interpolate_to_new_center_wl strf wl p = (Ok q, p') /\
    obs_of p' = obs_of p /\
    p_n q = p_n p /\ p_tw q = p_tw p /\ p_frep q = p_frep p /\ p_f q = c_nmps / wl /\
    get_AW q = (Ok y, q) /\ length y = p_n p /\
    let X := fun j => nth j (spec_W (p_n p) (p_tw p) (p_f p)) 0 in
    let v := fun k => nth k (spec_W (p_n p) (p_tw p) (c_nmps / wl)) 0 in
    forall k, (k < p_n p)%nat ->
      (v k < X 0%nat \/ X (p_n p - 1)%nat < v k -> nth k y (RtoC 0) = RtoC 0) /\
      (forall j, (j < p_n p)%nat -> v k = X j -> nth k y (RtoC 0) = nth j a (RtoC 0)) /\
      (forall j, (S j < p_n p)%nat -> X j <= v k <= X (S j) ->
         nth k y (RtoC 0) = (nth j a (RtoC 0) +
            RtoC ((v k - X j) / (X (S j) - X j)) * (nth (S j) a (RtoC 0) - nth j a (RtoC 0)))%C).
Proof.
  intros strf p p1 a wl Hh Hn Ht Hw. pose proof Hh as (Hr & Ha & Hl). pose proof PI_RGT_0.
  destruct (get_Wm_after _ _ _ _ Hw) as (_ & _ & Ho).
  assert (Hh1 : holds p1 a) by (apply (obs_holds p); auto).
  set (q0 := mkPulse (p_n p) (c_nmps / wl) (p_tw p) (Some a) (p_frep p) true None None None None).
  set (x := map (fun w => w * 1000000000000) (spec_W (p_n p) (p_tw p) (p_f p))) in *.
  set (q1 := with_Wc (Some (hash_of strf q0)) (Some (Wmks_now q0)) q0).
  set (y := map (interp1 x a) (Wmks_now q0)).
  assert (Ly : length y = p_n p) by (unfold y, Wmks_now; rewrite !map_length, W_of_length; reflexivity).
  assert (Lx : length x = p_n p) by (unfold x, spec_W; now rewrite map_length, mk_length).
  exists (with_AW (Some y) q1), p1, y.
  split.
  { unfold interpolate_to_new_center_wl. unfold bind at 1. rewrite (clone_new_run p a Hh).
    unfold bind at 1. unfold with_new at 1. unfold set_center_wavelength_nm, set_centerfrequency, bind at 1, modify at 1, check_ready, modify.
    pred. fold q0. unfold bind at 1. rewrite Hw. unfold bind at 1, as_array at 1, ret at 1.
    unfold bind at 1. rewrite (get_AW_run p1 a) by apply Hh1. unfold bind at 1. cbn [snd].
    match goal with |- context [with_new ?z _] => change z with q0 end.
    unfold with_new. unfold bind at 1. rewrite (get_Wm_empty strf q0) by reflexivity.
    fold q1. unfold bind at 1, as_array, ret at 1. unfold bind at 1, lift, interp1d.
    rewrite Lx, Hl, Nat.eqb_refl. cbn [negb]. fold y.
    rewrite set_AW_ok; [reflexivity| |exact Ly].
    split; [reflexivity|]. right. exists a. split; [reflexivity|exact Hl]. }
  split; [exact Ho|]. split; [reflexivity|]. split; [reflexivity|]. split; [reflexivity|]. split; [reflexivity|].
  split; [reflexivity|]. split; [exact Ly|].
  intros X v k Hk.
  set (g := fun j => 2 * PI * (p_f p + (INR j - INR (p_n p) / 2) / p_tw p) * 1000000000000).
  assert (Ex : x = mk (p_n p) g) by (unfold x, spec_W; rewrite map_mk; reflexivity).
  assert (Hg : forall i j, (i < j < p_n p)%nat -> g i < g j).
  { intros i j Hij. unfold g. apply Rmult_lt_compat_r; [lra|]. apply Rmult_lt_compat_l; [lra|].
    apply Rplus_lt_compat_l. apply Rmult_lt_compat_r; [now apply Rinv_0_lt_compat|].
    assert (INR i < INR j) by (apply lt_INR; lia). lra. }
  assert (EX : forall j, (j < p_n p)%nat -> g j = X j * 1000000000000).
  { intros j Hj. unfold X. rewrite spec_W_nth by exact Hj. reflexivity. }
  assert (Ev : nth k y (RtoC 0) = interp1 x a (v k * 1000000000000)).
  { unfold y, Wmks_now. rewrite map_map. rewrite (nth_map' _ _ _ 0) by (rewrite W_of_length; exact Hk).
    rewrite W_of_spec. reflexivity. }
  rewrite Ev, Ex.
  assert (Hch : forall j, (S j < p_n p)%nat -> X j <= v k <= X (S j) ->
      interp1 (mk (p_n p) g) a (v k * 1000000000000) = (nth j a (RtoC 0) +
            RtoC ((v k - X j) / (X (S j) - X j)) * (nth (S j) a (RtoC 0) - nth j a (RtoC 0)))%C).
  { intros j Hj Hv. rewrite (interp1_chord (p_n p) g a _ j Hg Hj).
    - rewrite !EX by lia.
      assert (g j < g (S j)) by (apply Hg; lia). rewrite !EX in H0 by lia.
      replace ((v k * 1000000000000 - X j * 1000000000000) / (X (S j) * 1000000000000 - X j * 1000000000000))
        with ((v k - X j) / (X (S j) - X j)) by (field; lra). reflexivity.
    - rewrite !EX by lia. split; apply Rmult_le_compat_r; lra. }
  split; [|split; [|exact Hch]].
  - intros Hv. apply interp1_outside; [lia|]. rewrite !EX by lia. destruct Hv; [left|right]; apply Rmult_lt_compat_r; lra.
  - intros j Hj Hv.
    assert (Hlt : forall i, (S i < p_n p)%nat -> X i < X (S i)).
    { intros i Hi. assert (g i < g (S i)) by (apply Hg; lia). rewrite !EX in H0 by lia. lra. }
    destruct (lt_dec (S j) (p_n p)) as [L|L].
    + rewrite (Hch j L) by (specialize (Hlt j L); lra). rewrite Hv. replace (X j - X j) with 0 by ring.
      unfold Rdiv. rewrite Rmult_0_l. ring.
    + destruct j as [|j]; [lia|]. rewrite (Hch j Hj) by (specialize (Hlt j Hj); lra). rewrite Hv.
      specialize (Hlt j Hj). replace ((X (S j) - X j) / (X (S j) - X j)) with 1 by (field; lra). ring.
Qed.

(** ** C18 *)
Definition keep (lo hi x : R) : Prop := lo <= x <= hi.

Definition masked (lo hi : R) (a : list C) (w : list R) : list C :=
  map2 (fun z x => if (if Rlt_dec hi x then true else false) then RtoC 0 else z)
    (map2 (fun z x => if (if Rlt_dec x lo then true else false) then RtoC 0 else z) a w) w.
Lemma masked_length lo hi a w : length a = length w -> length (masked lo hi a w) = length a.
Proof. intros H. unfold masked. now rewrite !map2_length; rewrite ?map2_length. Qed.
Lemma masked_nth lo hi a w k : length a = length w -> (k < length a)%nat ->
  nth k (masked lo hi a w) (RtoC 0) =
  if Rlt_dec hi (nth k w 0) then RtoC 0 else if Rlt_dec (nth k w 0) lo then RtoC 0 else nth k a (RtoC 0).
Proof.
  intros H Hk. unfold masked. rewrite (map2_nth _ _ _ _ (RtoC 0) 0) by (rewrite ?map2_length; auto).
  rewrite (map2_nth _ _ _ _ (RtoC 0) 0) by auto.
  destruct (Rlt_dec hi (nth k w 0)); [reflexivity|]. now destruct (Rlt_dec (nth k w 0) lo).
Qed.
Lemma masked_twice lo hi a w : length a = length w -> masked lo hi (masked lo hi a w) w = masked lo hi a w.
Proof.
  intros H. assert (L := masked_length lo hi a w H).
  apply (list_ext (RtoC 0)); [apply masked_length; congruence|]. rewrite masked_length, L by congruence. intros k Hk.
  rewrite masked_nth by congruence. rewrite masked_nth by congruence.
  destruct (Rlt_dec hi (nth k w 0)); [reflexivity|]. now destruct (Rlt_dec (nth k w 0) lo).
Qed.

Lemma filter_run strf lo hi p p1 a w : holds p a -> get_wl_nm strf p = (Ok (Some w), p1) -> length w = p_n p ->
  filter_by_wavelength_nm strf lo hi p = (Ok tt, with_AW (Some (masked lo hi a w)) p1).
Proof.
  intros Hh Hw Lw. pose proof Hh as (Hr & Ha & Hl).
  destruct (get_wl_after _ _ _ _ Hw) as (E1 & E2 & Ho).
  assert (Hh1 : holds p1 a) by (apply (obs_holds p); auto).
  assert (En : p_n p1 = p_n p) by (unfold obs in Ho; congruence).
  unfold filter_by_wavelength_nm. unfold bind at 1. rewrite (get_AW_run p a Ha). unfold bind at 1. rewrite Hw.
  unfold bind at 1, as_array at 1, ret at 1. unfold bind at 1, lift at 1, mask_assign at 1.
  destruct (Nat.eqb_spec (length a) (length w)) as [_|N]; [|congruence].
  unfold bind at 1. rewrite (get_wl_hit strf p1 w E1 E2).
  unfold bind at 1, as_array at 1, ret at 1. unfold bind at 1, lift at 1, mask_assign at 1.
  rewrite map2_length by congruence. destruct (Nat.eqb_spec (length a) (length w)) as [_|N]; [|congruence].
  fold (masked lo hi a w).
  apply set_AW_ok; [now apply (holds_writable p1 a)|]. rewrite masked_length; congruence.
Qed.

(*! C18: bins whose published wavelength lies in [lo, hi] are kept, the others become zero; energy does not increase, nothing else changes and a
    second application changes nothing. *)
Lemma C18_filter_projection_l : forall (strf : R -> string) (p p1 : pulse) (a : list C) (w : list R) (lo hi : R),
  holds p a -> get_wl_nm strf p = (Ok (Some w), p1) -> length w = p_n p ->
  exists p2 b, filter_by_wavelength_nm strf lo hi p = (Ok tt, p2) /\ holds p2 b /\ frame p2 = frame p /\
    (forall k, (k < p_n p)%nat ->
       (lo <= nth k w 0 <= hi -> nth k b (RtoC 0) = nth k a (RtoC 0)) /\
       (~ (lo <= nth k w 0 <= hi) -> nth k b (RtoC 0) = RtoC 0)) /\
    power_sum b <= power_sum a /\
    exists p3, filter_by_wavelength_nm strf lo hi p2 = (Ok tt, p3) /\ holds p3 b /\ frame p3 = frame p.
Proof.
  intros strf p p1 a w lo hi Hh Hw Lw. pose proof Hh as (Hr & Ha & Hl).
  destruct (get_wl_after _ _ _ _ Hw) as (E1 & E2 & Ho).
  assert (Hh1 : holds p1 a) by (apply (obs_holds p); auto).
  assert (En : p_n p1 = p_n p) by (unfold obs in Ho; congruence).
  assert (Lb : length (masked lo hi a w) = p_n p) by (rewrite masked_length; congruence).
  exists (with_AW (Some (masked lo hi a w)) p1), (masked lo hi a w).
  assert (Hh2 : holds (with_AW (Some (masked lo hi a w)) p1) (masked lo hi a w)) by (apply (holds_with p1 a); congruence).
  split; [now apply filter_run|]. split; [exact Hh2|].
  split; [apply (obs_frame p1 p Ho)|].
  assert (Hk : forall k, (k < p_n p)%nat ->
       (lo <= nth k w 0 <= hi -> nth k (masked lo hi a w) (RtoC 0) = nth k a (RtoC 0)) /\
       (~ (lo <= nth k w 0 <= hi) -> nth k (masked lo hi a w) (RtoC 0) = RtoC 0)).
  { intros k Hk. rewrite masked_nth by congruence.
    destruct (Rlt_dec hi (nth k w 0)); [split; [lra|reflexivity]|]. destruct (Rlt_dec (nth k w 0) lo); split; try lra; reflexivity || lra. }
  split; [exact Hk|]. split.
  { rewrite !power_sum_rsum, Lb, Hl. apply rsum_le. intros k Hlt. destruct (Hk k Hlt) as [K1 K2].
    destruct (Rle_dec lo (nth k w 0)), (Rle_dec (nth k w 0) hi);
      try (rewrite K2 by lra; rewrite Cnorm2_0; apply Cnorm2_nonneg).
    rewrite K1 by lra. apply Rle_refl. }
  set (q := with_AW (Some (masked lo hi a w)) p1).
  assert (Hq : get_wl_nm strf q = (Ok (Some w), q)) by (apply get_wl_hit; [exact E1|exact E2]).
  exists (with_AW (Some (masked lo hi (masked lo hi a w) w)) q). split; [|split].
  - apply filter_run; [exact Hh2|exact Hq|exact (eq_trans Lw (eq_sym En))].
  - rewrite masked_twice by congruence. apply (holds_with q (masked lo hi a w)); [exact Hh2|exact (eq_trans Lb (eq_sym En))].
  - apply (obs_frame p1 p Ho).
Qed.

(** ** C19 *)
Lemma f_inv f : f <> 0 -> c_nmps / (c_nmps / f) = f.
Proof. intros. pose proof c_nmps_pos. field. split; lra. Qed.

(*! C19: cloning and dictionary export followed by import reproduce all observable content in a new pulse and leave the source untouched. *)
Lemma C19_clone_and_dict_l : forall (p : pulse) (a : list C), holds p a -> p_f p <> 0 ->
  (exists q, create_cloned_pulse p = (Ok q, p) /\ obs_of q = obs_of p) /\
  (exists d q, get_pulse_dict p = (Ok d, p) /\ load_pulse_dict d (new_pulse None None) = (Ok tt, q) /\ obs_of q = obs_of p).
Proof.
  intros p a Hh Hf. pose proof Hh as (Hr & Ha & Hl). split.
  - eexists. split; [apply (clone_new_run p a Hh)|]. unfold obs_of, obs. cbn. rewrite f_inv by exact Hf.
    rewrite Ha, Hr. reflexivity.
  - set (d := mkDict (p_n p) (p_tw p) (c_nmps / p_f p) (p_frep p) (map Re (IFFT_t a)) (map Im (IFFT_t a))).
    set (s1 := mkPulse (p_n p) (c_nmps / (c_nmps / p_f p)) (p_tw p) None (p_frep p) true None None None None).
    exists d, (with_AW (Some a) s1). split; [|split].
    + unfold get_pulse_dict. unfold bind at 1, get at 1. unfold bind. rewrite (get_AT_run p a Ha). reflexivity.
    + change (load_pulse_dict d (new_pulse None None)) with
        (bind (lift (broadcast2 (fun a b => RtoC a + Ci * RtoC b)%C (d_re d) (d_im d))) set_AT s1).
      unfold d, d_re, d_im. rewrite broadcast2_eq by now rewrite !map_length.
      unfold bind, lift. rewrite map2_map_l, map2_map_r.
      assert (E : map2 (fun z t => (RtoC (Re z) + Ci * RtoC (Im t))%C) (IFFT_t a) (IFFT_t a) = IFFT_t a).
      { induction (IFFT_t a) as [|z l IH]; [reflexivity|]. cbn [map2]. rewrite IH. f_equal.
        apply C_eq; unfold Ci; cbn; ring. }
      rewrite E, set_AT_ok.
      * now rewrite FFT_IFFT_t.
      * split; [reflexivity|]. left; reflexivity.
      * rewrite IFFT_t_length. exact Hl.
    + unfold obs_of, obs. cbn. rewrite f_inv by exact Hf. rewrite Ha, Hr. reflexivity.
Qed.

(*! C19: loading a field of more than one sample into a pulse that holds a field of another length raises ValueError. *)
Lemma C19_load_other_length_fails_l : forall (p r : pulse) (a b : list C), holds p a -> p_n p <> 1%nat ->
  p_AW r = Some b -> length b <> p_n p ->
  exists d, get_pulse_dict p = (Ok d, p) /\ fst (load_pulse_dict d r) = Raise ValueError /\
            fst (clone_pulse p r) = Raise ValueError.
Proof.
  intros p r a b Hh Hn Hb Hlb. pose proof Hh as (Hr & Ha & Hl).
  set (d := mkDict (p_n p) (p_tw p) (c_nmps / p_f p) (p_frep p) (map Re (IFFT_t a)) (map Im (IFFT_t a))).
  set (s1 := mkPulse (p_n p) (c_nmps / (c_nmps / p_f p)) (p_tw p) (Some b) (p_frep p) true (p_wlh r) (p_wlv r) (p_Wh r) (p_Wv r)).
  assert (Hs : forall v, length v = p_n p -> fst (set_AT v s1) = Raise ValueError).
  { intros v Lv. unfold set_AT. rewrite set_AW_run by reflexivity. unfold assign_all.
    unfold cur_field. unfold s1, p_AW. destruct (Nat.eqb_spec (length b) (length (FFT_t v))) as [E|E].
    - rewrite FFT_t_length in E. congruence.
    - destruct (FFT_t v) as [|y [|z l]] eqn:Ev; try reflexivity.
      exfalso. apply Hn. rewrite <- Lv, <- (FFT_t_length v), Ev. reflexivity. }
  assert (Hr1 : forall v, bind (lift (@Ok (list C) v)) set_AT s1 = set_AT v s1) by reflexivity.
  exists d. split; [|split].
  - unfold get_pulse_dict. unfold bind at 1, get at 1. unfold bind. rewrite (get_AT_run p a Ha). reflexivity.
  - replace (load_pulse_dict d r) with
        (bind (lift (broadcast2 (fun a b => RtoC a + Ci * RtoC b)%C (d_re d) (d_im d))) set_AT s1).
    2:{ unfold s1. rewrite <- Hb. reflexivity. }
    rewrite broadcast2_eq by (unfold d, d_re, d_im; now rewrite !map_length).
    rewrite Hr1. apply Hs. rewrite map2_length; unfold d, d_re, d_im; rewrite !map_length, IFFT_t_length; auto.
  - replace (clone_pulse p r) with (bind (lift (fst (get_AT p))) set_AT s1).
    2:{ unfold s1. rewrite <- Hb. reflexivity. }
    rewrite (get_AT_run p a Ha). unfold fst at 2. rewrite Hr1. apply Hs. now rewrite IFFT_t_length.
Qed.

(** ** C20 *)
Lemma argmin_from_spec l : forall pre best bi, (bi < length pre)%nat -> nth bi pre 0 = best ->
  (forall j, (j < length pre)%nat -> best <= nth j pre 0) -> (forall j, (j < bi)%nat -> best < nth j pre 0) ->
  let r := argmin_from best bi (length pre) l in
  let all := pre ++ l in
  (r < length all)%nat /\ (forall j, (j < length all)%nat -> nth r all 0 <= nth j all 0) /\
  (forall j, (j < r)%nat -> nth r all 0 < nth j all 0).
Proof.
  induction l as [|x l IH]; intros pre best bi Hb Hv Hm Hf; cbn zeta.
  - cbn [argmin_from]. rewrite app_nil_r. subst best. auto.
  - cbn [argmin_from]. destruct (Rlt_dec x best) as [L|L].
    + specialize (IH (pre ++ [x]) x (length pre)). rewrite app_length in IH. cbn [length] in IH.
      rewrite Nat.add_1_r in IH. rewrite <- app_assoc in IH. cbn [app] in IH. apply IH.
      * lia.
      * rewrite app_nth2, Nat.sub_diag by lia. reflexivity.
      * intros j Hj. destruct (Nat.eq_dec j (length pre)) as [->|N].
        -- rewrite app_nth2, Nat.sub_diag by lia. apply Rle_refl.
        -- rewrite app_nth1 by lia. specialize (Hm j ltac:(lia)). lra.
      * intros j Hj. rewrite app_nth1 by lia. specialize (Hm j Hj). lra.
    + specialize (IH (pre ++ [x]) best bi). rewrite app_length in IH. cbn [length] in IH.
      rewrite Nat.add_1_r in IH. rewrite <- app_assoc in IH. cbn [app] in IH. apply IH.
      * lia.
      * rewrite app_nth1 by lia. exact Hv.
      * intros j Hj. destruct (Nat.eq_dec j (length pre)) as [->|N].
        -- rewrite app_nth2, Nat.sub_diag by lia. cbn. lra.
        -- rewrite app_nth1 by lia. apply Hm. lia.
      * intros j Hj. rewrite app_nth1 by lia. apply Hf, Hj.
Qed.
Lemma argmin_spec l : l <> [] -> exists r, argmin l = Ok r /\ (r < length l)%nat /\
  (forall j, (j < length l)%nat -> nth r l 0 <= nth j l 0) /\ (forall j, (j < r)%nat -> nth r l 0 < nth j l 0).
Proof.
  destruct l as [|x l]; [congruence|]. intros _. eexists. split; [reflexivity|].
  apply (argmin_from_spec l [x] x 0%nat); cbn; [lia|reflexivity| |lia].
  intros [|j] Hj; [apply Rle_refl|lia].
Qed.

(** the grid point nearest to [v]: the first one at minimal distance *)
Definition nearest (n : nat) (g : nat -> R) (v : R) (c : nat) : Prop :=
  (c < n)%nat /\ (forall j, (j < n)%nat -> Rabs (g c - v) <= Rabs (g j - v)) /\
  (forall j, (j < c)%nat -> Rabs (g c - v) < Rabs (g j - v)).
Lemma nearest_unique n g v c c' : nearest n g v c -> nearest n g v c' -> c = c'.
Proof.
  intros (A & B & D) (A' & B' & D'). destruct (lt_eq_lt_dec c c') as [[L|E]|L]; [|exact E|].
  - specialize (D' c L). specialize (B c' A'). lra.
  - specialize (D c' L). specialize (B' c A). lra.
Qed.

Definition fits (n m c : nat) : Prop := Nat.even m = true /\ (m < n)%nat /\ (Nat.div2 m <= c)%nat /\ (c + Nat.div2 m <= n)%nat.

Lemma even_div2 m : Nat.even m = true -> m = (2 * Nat.div2 m)%nat.
Proof. intros H. apply Nat.even_spec in H. apply Nat.Even_double in H. unfold Nat.double in H. lia. Qed.
Lemma odd_div2 m : Nat.even m = false -> m = S (2 * Nat.div2 m)%nat.
Proof.
  intros H. assert (Nat.odd m = true) by (unfold Nat.odd; now rewrite H).
  apply Nat.odd_spec in H0. apply Nat.Odd_double in H0. unfold Nat.double in H0. lia.
Qed.

Lemma slice_fits {A} (a : list A) m c : fits (length a) m c ->
  slice (Z.of_nat c - Z.of_nat (Nat.div2 m)) (Z.of_nat c + Z.of_nat (Nat.div2 m)) a = firstn m (skipn (c - Nat.div2 m) a).
Proof.
  intros (He & Hm & H1 & H2). apply even_div2 in He. unfold slice, slice_bound.
  destruct (Z.ltb_spec (Z.of_nat c - Z.of_nat (Nat.div2 m)) 0); [lia|].
  destruct (Z.ltb_spec (Z.of_nat c + Z.of_nat (Nat.div2 m)) 0); [lia|].
  replace (Z.to_nat (Z.min (Z.max (Z.of_nat c - Z.of_nat (Nat.div2 m)) 0) (Z.of_nat (length a)))) with (c - Nat.div2 m)%nat by lia.
  f_equal. lia.
Qed.
Lemma slice_not_fits {A} (a : list A) m c : (c < length a)%nat -> (m < length a)%nat -> ~ fits (length a) m c ->
  let s := slice (Z.of_nat c - Z.of_nat (Nat.div2 m)) (Z.of_nat c + Z.of_nat (Nat.div2 m)) a in
  length s <> m /\ length s <> 1%nat.
Proof.
  intros Hc Hm Hf. cbn zeta. unfold slice, slice_bound. rewrite firstn_length, skipn_length.
  set (h := Nat.div2 m) in *. set (n := length a) in *.
  assert (Hmh : m = (2 * h)%nat /\ ~ ((h <= c)%nat /\ (c + h <= n)%nat) \/ m = S (2 * h)%nat).
  { destruct (Nat.even m) eqn:E.
    - left. split; [now apply even_div2|]. intros [K1 K2]. apply Hf. unfold fits. auto.
    - right. now apply odd_div2. }
  destruct (Z.ltb_spec (Z.of_nat c - Z.of_nat h) 0); destruct (Z.ltb_spec (Z.of_nat c + Z.of_nat h) 0); lia.
Qed.

(*! C20: with a fresh wavelength grid, a subset pulse is returned exactly when the size is even, smaller than the parent and the slice around the
    nearest grid point lies inside; it holds that slice of the parent spectrum on that slice of the parent frequency grid; otherwise ValueError.
    The parent is never changed. *)
Lemma C20_subset_l : forall (strf : R -> string) (p p1 : pulse) (a : list C) (wl : R) (m : nat),
  holds p a -> p_tw p <> 0 ->
  let W := fun k => nth k (spec_W (p_n p) (p_tw p) (p_f p)) 0 in
  (forall k, (k < p_n p)%nat -> W k <> 0) ->
  get_wl_nm strf p = (Ok (Some (map (fun w => 2 * PI * c_nmps / w) (spec_W (p_n p) (p_tw p) (p_f p)))), p1) ->
  let wavelength := fun k => 2 * PI * c_nmps / W k in
  exists p', obs_of p' = obs_of p /\
  ((p_n p <= m)%nat -> create_subset_pulse strf wl m p = (Raise ValueError, p')) /\
  ((m < p_n p)%nat -> exists c, nearest (p_n p) wavelength wl c /\
    (~ fits (p_n p) m c -> create_subset_pulse strf wl m p = (Raise ValueError, p')) /\
    (fits (p_n p) m c -> exists q, create_subset_pulse strf wl m p = (Ok q, p') /\
        holds q (firstn m (skipn (c - Nat.div2 m) a)) /\ p_n q = m /\ p_tw q = p_tw p /\ p_frep q = p_frep p /\
        (forall k, (k < m)%nat -> nth k (spec_W (p_n q) (p_tw q) (p_f q)) 0 = W (c - Nat.div2 m + k)%nat))).
Proof.
  intros strf p p1 a wl m Hh Ht W HW Hw wavelength. pose proof Hh as (Hr & Ha & Hl). pose proof PI_RGT_0 as Hpi. pose proof c_nmps_pos as Hc0.
  set (w := map (fun w => 2 * PI * c_nmps / w) (spec_W (p_n p) (p_tw p) (p_f p))) in *.
  assert (Lw : length w = p_n p) by (unfold w, spec_W; now rewrite map_length, mk_length).
  assert (Nw : forall k, (k < p_n p)%nat -> nth k w 0 = wavelength k).
  { intros k Hk. unfold w, wavelength, W. rewrite (nth_map' _ _ _ 0); [reflexivity|]. unfold spec_W. now rewrite mk_length. }
  destruct (get_wl_after _ _ _ _ Hw) as (E1 & E2 & Ho).
  assert (Hh1 : holds p1 a) by (apply (obs_holds p); auto).
  assert (En : p_n p1 = p_n p /\ p_tw p1 = p_tw p /\ p_frep p1 = p_frep p) by (unfold obs in Ho; repeat split; congruence).
  destruct En as (En & Et & Ef).
  destruct (le_lt_dec (p_n p) m) as [L|L].
  { exists p. split; [reflexivity|]. split; [|lia]. intros _. unfold create_subset_pulse.
    unfold bind at 1, get_NPTS, gets. destruct (Nat.leb_spec (p_n p) m); [reflexivity|lia]. }
  exists p1. split; [exact Ho|]. split; [lia|]. intros _.
  destruct (argmin_spec (map (fun x => Rabs (x - wl)) w)) as (c & Ec & Hc & Hmin & Hfst).
  { intros E. apply (f_equal (@length R)) in E. rewrite map_length in E. cbn in E. lia. }
  rewrite map_length, Lw in Hc, Hmin.
  assert (Nm : forall k, (k < p_n p)%nat -> nth k (map (fun x => Rabs (x - wl)) w) 0 = Rabs (wavelength k - wl)).
  { intros k Hk. rewrite (nth_map' _ _ _ 0) by congruence. now rewrite Nw. }
  exists c. split.
  { split; [exact Hc|]. split.
    - intros j Hj. rewrite <- !Nm by assumption. now apply Hmin.
    - intros j Hj. rewrite <- !Nm by lia. now apply Hfst. }
  set (s0 := mkPulse m (c_nmps / nth c w 0) (p_tw p) None (p_frep p) true None None None None).
  set (sl := slice (Z.of_nat c - Z.of_nat (Nat.div2 m)) (Z.of_nat c + Z.of_nat (Nat.div2 m)) a).
  assert (Run : create_subset_pulse strf wl m p =
                match set_AW sl s0 with (Ok _, q) => (Ok q, p1) | (Raise e, _) => (Raise e, p1) end).
  { unfold create_subset_pulse. unfold bind at 1, get_NPTS, gets. destruct (Nat.leb_spec (p_n p) m); [lia|].
    unfold bind at 1. rewrite Hw. unfold bind at 1, as_array at 1, ret at 1. unfold bind at 1, lift at 1. rewrite Ec.
    unfold bind at 1, get at 1. unfold bind at 1. rewrite (get_wl_hit strf p1 w E1 E2).
    unfold bind at 1, as_array at 1, ret at 1. cbv zeta.
    unfold bind at 1. rewrite (get_AW_run p1 a) by apply Hh1. fold sl.
    unfold bind at 1, with_new.
    match goal with |- context [(?f ;;; ?g)%py ?x] => change ((f ;;; g)%py x) with (set_AW sl
      (mkPulse m (c_nmps / nth c w 0) (p_tw p1) None (p_frep p1) true None None None None)) end.
    rewrite Et, Ef. fold s0. destruct (set_AW sl s0) as [[u|e] q]; reflexivity. }
  rewrite Run. split.
  - intros Nf. rewrite <- Hl in Hc, L, Nf. destruct (slice_not_fits a m c Hc L Nf) as [S1 S2]. fold sl in S1, S2.
    rewrite set_AW_run by reflexivity. unfold assign_all, cur_field, s0, p_AW, p_n. rewrite repeat_length.
    destruct (Nat.eqb_spec m (length sl)); [congruence|]. destruct sl as [|y [|z l]]; try reflexivity.
    exfalso. now apply S2.
  - intros F.
    assert (Esl : sl = firstn m (skipn (c - Nat.div2 m) a)) by (apply slice_fits; now rewrite Hl).
    destruct F as (Fe & Fm & F1 & F2).
    assert (Em : m = (2 * Nat.div2 m)%nat) by now apply even_div2.
    assert (Lsl : length sl = m) by (rewrite Esl, firstn_length, skipn_length, Hl; lia).
    rewrite set_AW_ok; [|split; [reflexivity|left; reflexivity]|exact Lsl].
    exists (with_AW (Some sl) s0). split; [reflexivity|]. split.
    { split; [reflexivity|]. split; [now rewrite <- Esl|]. now rewrite <- Esl. }
    split; [reflexivity|]. split; [reflexivity|]. split; [reflexivity|].
    intros k Hk. change (p_n (with_AW (Some sl) s0)) with m. change (p_tw (with_AW (Some sl) s0)) with (p_tw p).
    change (p_f (with_AW (Some sl) s0)) with (c_nmps / nth c w 0).
    rewrite Nw by exact Hc. unfold wavelength. rewrite spec_W_nth by exact Hk.
    assert (EW : c_nmps / (2 * PI * c_nmps / W c) = p_f p + (INR c - INR (p_n p) / 2) / p_tw p).
    { assert (W c = 2 * PI * (p_f p + (INR c - INR (p_n p) / 2) / p_tw p)) by (unfold W; now apply spec_W_nth).
      assert (HWc := HW c Hc). replace (c_nmps / (2 * PI * c_nmps / W c)) with (W c / (2 * PI)) by (field; repeat split; lra).
      rewrite H. field. lra. }
    rewrite EW. unfold W. rewrite spec_W_nth by lia.
    rewrite plus_INR, minus_INR by lia. rewrite Em at 1. rewrite mult_INR. cbn [INR]. field. lra.
Qed.

(** ** C21 *)
Lemma broadcast2_avg a w n : length a = n -> length w = n ->
  broadcast2 (fun z x => Cmod z ^ 2 * x) a w = Ok (mk n (fun k => Cmod (nth k a (RtoC 0)) ^ 2 * nth k w 0)).
Proof.
  intros Ha Hw. rewrite broadcast2_eq by congruence. f_equal. apply (list_ext 0).
  - rewrite map2_length, mk_length; congruence.
  - rewrite map2_length by congruence. intros k Hk. rewrite (map2_nth _ _ _ _ (RtoC 0) 0) by (congruence || exact Hk).
    now rewrite mk_nth by congruence.
Qed.
Lemma rsum_lt_pos n f : rsum n f <> 0 -> (forall k, (k < n)%nat -> 0 <= f k) -> 0 < rsum n f.
Proof. intros H1 H2. assert (0 <= rsum n f) by now apply rsum_nonneg. lra. Qed.

(*! C21: the average frequency is the power-weighted mean of the published frequencies (w/2pi), so it lies between any bounds for the bins that carry
    power, it is the bin frequency for a single line, and the average wavelength is its conversion. *)
Lemma C21_average_frequency_l : forall (strf : R -> string) (p p1 : pulse) (a : list C) (w : list R),
  holds p a -> get_W_mks strf p = (Ok (Some w), p1) -> length w = p_n p -> power_sum a <> 0 ->
  exists avg p', calculate_weighted_avg_frequency_mks strf p = (Ok avg, p') /\ obs_of p' = obs_of p /\
    avg * power_sum a = rsum (p_n p) (fun k => Cmod (nth k a (RtoC 0)) ^ 2 * (nth k w 0 / (2 * PI))) /\
    (forall lo hi, (forall k, (k < p_n p)%nat -> nth k a (RtoC 0) <> RtoC 0 -> lo <= nth k w 0 / (2 * PI) <= hi) -> lo <= avg <= hi) /\
    (forall k, (k < p_n p)%nat -> (forall j, (j < p_n p)%nat -> j <> k -> nth j a (RtoC 0) = RtoC 0) -> avg = nth k w 0 / (2 * PI)) /\
    (avg <> 0 -> exists p'', calculate_weighted_avg_wavelength_nm strf p = (Ok (c_mks / avg * 1000000000), p'') /\ obs_of p'' = obs_of p).
Proof.
  intros strf p p1 a w Hh Hw Lw Hp. pose proof Hh as (Hr & Ha & Hl). pose proof PI_RGT_0 as Hpi.
  destruct (get_Wm_after _ _ _ _ Hw) as (_ & _ & Ho).
  set (P := fun k => Cmod (nth k a (RtoC 0)) ^ 2).
  assert (Eps : power_sum a = rsum (p_n p) P).
  { unfold power_sum. rewrite lrsum_nth, map_length, Hl. apply rsum_ext. intros k Hk.
    rewrite (nth_map' _ _ _ (RtoC 0)) by congruence. reflexivity. }
  set (avg := lrsum (mk (p_n p) (fun k => P k * nth k w 0)) / (power_sum a * 2 * PI)).
  assert (Run : calculate_weighted_avg_frequency_mks strf p = (Ok avg, p1)).
  { unfold calculate_weighted_avg_frequency_mks. unfold bind at 1. rewrite (get_AW_run p a Ha).
    unfold bind at 1. rewrite Hw. unfold bind at 1, as_array, ret at 1. unfold bind at 1, lift.
    rewrite (broadcast2_avg a w (p_n p) Hl Lw). cbv zeta. fold (power_sum a).
    destruct (Req_EM_T (power_sum a) 0); [contradiction|]. reflexivity. }
  assert (P0 : forall k, 0 <= P k) by (intros; unfold P; apply pow2_ge_0).
  assert (Pz : forall k, nth k a (RtoC 0) = RtoC 0 -> P k = 0) by (intros k E; unfold P; rewrite E, Cmod_0; ring).
  assert (Hpos : 0 < power_sum a) by (rewrite Eps in *; now apply rsum_lt_pos).
  assert (Eavg : avg * power_sum a = rsum (p_n p) (fun k => P k * (nth k w 0 / (2 * PI)))).
  { unfold avg. fold (rsum (p_n p) (fun k => P k * nth k w 0)).
    rewrite (rsum_ext (p_n p) (fun k => P k * (nth k w 0 / (2 * PI))) (fun k => P k * nth k w 0 * / (2 * PI))) by (intros; field; lra).
    rewrite rsum_scal_r. field. split; lra. }
  assert (Hb : forall lo hi, (forall k, (k < p_n p)%nat -> nth k a (RtoC 0) <> RtoC 0 -> lo <= nth k w 0 / (2 * PI) <= hi) -> lo <= avg <= hi).
  { intros lo hi Hk. 
    assert (B : forall k, (k < p_n p)%nat -> lo * P k <= P k * (nth k w 0 / (2 * PI)) <= hi * P k).
    { intros k Hlt. destruct (Ceq_dec (nth k a (RtoC 0)) (RtoC 0)) as [E|E].
      - rewrite (Pz k E). lra.
      - specialize (Hk k Hlt E). specialize (P0 k). split; nra. }
    assert (B1 : lo * power_sum a <= avg * power_sum a).
    { rewrite Eavg, Eps, <- rsum_scal_l. apply rsum_le. intros; apply B; assumption. }
    assert (B2 : avg * power_sum a <= hi * power_sum a).
    { rewrite Eavg, Eps, <- rsum_scal_l. apply rsum_le. intros; apply B; assumption. }
    split; eapply Rmult_le_reg_r; eassumption. }
  exists avg, p1. split; [exact Run|]. split; [exact Ho|]. split; [exact Eavg|]. split; [exact Hb|]. split.
  - intros k Hk Hz. apply Rle_antisym; apply (Hb (nth k w 0 / (2 * PI)) (nth k w 0 / (2 * PI)));
    intros j Hj Hne; destruct (Nat.eq_dec j k) as [->|N]; try lra; exfalso; apply Hne; now apply Hz.
  - intros Hne. exists p1. split; [|exact Ho]. unfold calculate_weighted_avg_wavelength_nm. unfold bind. rewrite Run.
    destruct (Req_EM_T avg 0); [contradiction|]. unfold ret. f_equal. f_equal. field. exact Hne.
Qed.

(** ** C22 *)
(** a sample of the power profile, zero outside the window *)
Definition sample (x : list R) (j : Z) : R := if (0 <=? j)%Z && (j <? Z.of_nat (length x))%Z then nth (Z.to_nat j) x 0 else 0.

(*! C22: what is proved: entry i is the correlation of the power profile with its square root (the amplitude) at delay i - NPTS//2 and nothing else
    changes; missing: the amplitude should be the power. *)
Lemma C22_autocorrelation_partial_l : forall (p : pulse) (P : list R) (z : list C), holds p z ->
  P = map (fun u => Cmod u ^ 2) (IFFT_t z) ->
  exists r, calculate_intensity_autocorrelation p = (Ok r, p) /\ length r = p_n p /\
  forall i, (i < p_n p)%nat ->
    nth i r 0 = rsum (p_n p) (fun m => sample P (Z.of_nat m + (Z.of_nat i - Z.of_nat (Nat.div2 (p_n p)))) * sqrt (nth m P 0)).
Proof.
  intros p P z Hh EP. pose proof Hh as (Hr & Ha & Hl).
  exists (correlate_same P (map Cmod (IFFT_t z))). split; [|split].
  - unfold calculate_intensity_autocorrelation. unfold bind. rewrite (get_AT_run p z Ha). now rewrite EP.
  - unfold correlate_same. now rewrite mk_length, EP, map_length, IFFT_t_length.
  - intros i Hi. assert (LP : length P = p_n p) by now rewrite EP, map_length, IFFT_t_length.
    unfold correlate_same. rewrite LP, mk_nth by exact Hi. apply rsum_ext. intros m Hm. unfold sample. rewrite LP.
    rewrite Z.add_sub_assoc.
    destruct ((0 <=? _)%Z && _); [|ring]. f_equal.
    rewrite EP, !(nth_map' _ _ _ (RtoC 0)) by (rewrite IFFT_t_length; congruence).
    rewrite sqrt_pow2; [reflexivity|apply Cmod_ge_0].
Qed.

(*! C22 refuted: for the field 1, 2, 0 the values at delays -1 and +1 differ. *)
Lemma C22_not_symmetric_refuted_l :
  exists (p : pulse) (z : list C) (r : list R), holds p z /\ IFFT_t z = [RtoC 1; RtoC 2; RtoC 0] /\
    calculate_intensity_autocorrelation p = (Ok r, p) /\ nth 0 r 0 = 2 /\ nth 2 r 0 = 4.
Proof.
  set (z := FFT_t [RtoC 1; RtoC 2; RtoC 0]).
  set (p := mkPulse 3 200 1 (Some z) (Some 100) true None None None None).
  assert (Hh : holds p z) by (split; [reflexivity|split; [reflexivity|unfold z; now rewrite FFT_t_length]]).
  assert (Ez : IFFT_t z = [RtoC 1; RtoC 2; RtoC 0]) by apply IFFT_FFT_t.
  exists p, z, (correlate_same (map (fun u => Cmod u ^ 2) (IFFT_t z)) (map Cmod (IFFT_t z))).
  split; [exact Hh|]. split; [exact Ez|]. split.
  - unfold calculate_intensity_autocorrelation. unfold bind. now rewrite (get_AT_run p z) by reflexivity.
  - rewrite Ez. cbn [map]. rewrite !Cmod_R, Rabs_R0, Rabs_R1, (Rabs_pos_eq 2) by lra.
    unfold correlate_same. cbn [length]. rewrite !mk_nth by lia. unfold rsum, lrsum, mk. cbn.
    change (Pos.to_nat 1) with 1%nat. change (Pos.to_nat 2) with 2%nat. cbn iota. split; ring.
Qed.

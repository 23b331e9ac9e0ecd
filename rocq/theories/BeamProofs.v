(** Proofs about Gaussian beams: C62, C63, C65. *)
From Coq Require Import String.
From Coq Require Import Reals List ZArith Bool Arith Lia Lra.
From Coquelicot Require Import Rcomplements Complex.
From Verif Require Import Base CNum NumPy ModelPulse ModelCrystal CrystalProofs ModelBeam.
Import ListNotations.
Local Open Scope R_scope.
Local Open Scope py_scope.

(** the element numpy pairs with index i of the result *)
Definition bget {A} (l : list A) (i : nat) (d : A) : A := match l with [x] => x | _ => nth i l d end.
Lemma bget_nth {A} (l : list A) i d : (i < length l)%nat -> bget l i d = nth i l d.
Proof. destruct l as [|x [|y l]]; cbn [bget length]; intros H; try reflexivity. replace i with 0%nat by lia. reflexivity. Qed.
Lemma bget_map {A B} (f : A -> B) l i d d' : (i < length l \/ length l = 1)%nat -> bget (map f l) i d' = f (bget l i d).
Proof. destruct l as [|x [|y l]]; intros H; [cbn in H; lia|reflexivity|]. cbn [map bget]. rewrite <- (nth_map' f (x :: y :: l) i d d'); [reflexivity|cbn in *; lia]. Qed.
Lemma broadcast2_inv {A B D} (f : A -> B -> D) a b r da db d : broadcast2 f a b = Ok r ->
  length r = (if Nat.eqb (length a) 1 then length b else length a) /\ (length a = length r \/ length a = 1)%nat /\ (length b = length r \/ length b = 1)%nat /\ forall i, (i < length r)%nat -> nth i r d = f (bget a i da) (bget b i db).
Proof.
  unfold broadcast2. destruct (Nat.eqb (length a) (length b)) eqn:E.
  - intros [= <-]. apply Nat.eqb_eq in E. assert (L : length (map2 f a b) = length a) by (rewrite map2_length; lia). rewrite L, E. split; [destruct (Nat.eqb (length b) 1); reflexivity|]. split; [auto|]. split; [auto|]. intros i Hi. rewrite !bget_nth by lia. apply map2_nth; lia.
  - apply Nat.eqb_neq in E. destruct a as [|x [|y a]]; [destruct b as [|u [|v b]]| |destruct b as [|u [|v b]]]; intros H; try discriminate; injection H as <-.
    + cbn. split; [reflexivity|]. split; [auto|]. split; [auto|]. intros; lia.
    + rewrite map_length. split; [reflexivity|]. split; [auto|]. split; [auto|]. intros i Hi. cbn [bget]. rewrite bget_nth by exact Hi. apply nth_map'. exact Hi.
    + cbn [length]. rewrite map_length. split; [reflexivity|]. split; [auto|]. split; [auto|]. intros i Hi. rewrite (bget_nth _ i) by exact Hi. cbn [bget]. apply (nth_map' (fun x => f x u) (x :: y :: a)). cbn. exact Hi.
Qed.
Lemma broadcast2_some {A B D} (f : A -> B -> D) a b : (length a = length b \/ length a = 1 \/ length b = 1)%nat -> exists r, broadcast2 f a b = Ok r.
Proof.
  intros H. unfold broadcast2. destruct (Nat.eqb (length a) (length b)) eqn:E; [eauto|]. apply Nat.eqb_neq in E. destruct a as [|x [|y a]]; [destruct b as [|u [|v b]]| |destruct b as [|u [|v b]]]; cbn in H, E; try lia; eauto.
Qed.
Lemma rtraverse_inv {A B} (f : A -> result B) l r da db : rtraverse f l = Ok r -> length r = length l /\ forall i, (i < length l)%nat -> f (nth i l da) = Ok (nth i r db).
Proof.
  revert r. induction l as [|x l IH]; cbn [rtraverse]; intros r H; [injection H as <-; split; [reflexivity|cbn; lia]|]. destruct (f x) as [y|] eqn:E; [|discriminate]. cbn [rbind] in H. destruct (rtraverse f l) as [r'|] eqn:E2; [|discriminate]. injection H as <-. destruct (IH r' eq_refl) as [L N]. split; [cbn; lia|]. intros [|i] Hi; [exact E|]. apply N. cbn in Hi. lia.
Qed.
Lemma rtraverse_some {A B} (f : A -> result B) l : (forall x, In x l -> exists y, f x = Ok y) -> exists r, rtraverse f l = Ok r.
Proof.
  induction l as [|x l IH]; intros H; [eexists; reflexivity|]. destruct (H x (or_introl eq_refl)) as [y E]. destruct IH as [r E2]; [intros; apply H; right; assumption|]. cbn. rewrite E. cbn. rewrite E2. cbn. eauto.
Qed.
Lemma bcast_inv {A B D} (f : A -> B -> result D) a b r da db d : bcast f a b = Ok r ->
  length r = (if Nat.eqb (length a) 1 then length b else length a) /\ (length a = length r \/ length a = 1)%nat /\ (length b = length r \/ length b = 1)%nat /\ forall i, (i < length r)%nat -> f (bget a i da) (bget b i db) = Ok (nth i r d).
Proof.
  unfold bcast. destruct (broadcast2 pair a b) as [l|] eqn:E; [|discriminate]. cbn [rbind]. intros H. destruct (rtraverse_inv _ _ _ (da, db) d H) as [L N]. destruct (broadcast2_inv _ _ _ _ da db (da, db) E) as (L1 & L2 & L3 & N1). rewrite L. split; [exact L1|]. split; [exact L2|]. split; [exact L3|]. intros i Hi. specialize (N i Hi). rewrite N1 in N by exact Hi. exact N.
Qed.
Lemma bcast_some {A B D} (f : A -> B -> result D) a b da db : (length a = length b \/ length a = 1 \/ length b = 1)%nat ->
  (forall i, (i < (if Nat.eqb (length a) 1 then length b else length a))%nat -> exists y, f (bget a i da) (bget b i db) = Ok y) -> exists r, bcast f a b = Ok r.
Proof.
  intros H Hf. unfold bcast. destruct (broadcast2_some pair a b H) as [l E]. rewrite E. cbn [rbind]. apply rtraverse_some. intros x Hx. destruct (broadcast2_inv _ _ _ _ da db (da, db) E) as (L1 & L2 & L3 & N1). destruct (In_nth _ _ (da, db) Hx) as (i & Hi & <-). rewrite N1 by exact Hi. cbn [fst snd]. apply Hf. rewrite <- L1. exact Hi.
Qed.
Lemma nth_In_pos (P : R -> Prop) l i : (forall v, In v l -> P v) -> (i < length l)%nat -> P (nth i l 0).
Proof. intros H Hi. apply H, nth_In, Hi. Qed.
Lemma bget_In (P : R -> Prop) l i : (forall v, In v l -> P v) -> (i < length l \/ length l = 1)%nat -> P (bget l i 0).
Proof. intros H [Hi|Hi]; [rewrite bget_nth by exact Hi; apply nth_In_pos; assumption|]. destruct l as [|x [|]]; cbn in Hi; try lia. cbn. apply H. left. reflexivity. Qed.

Lemma confocal_inv b n c : calc_confocal b n = Ok c -> (forall i, (i < length c)%nat -> bget (b_lam b) i 0 <> 0 /\ nth i c 0 = 2 * PI * (bget (b_w0 b) i 0) ^ 2 * (bget n i 0 / bget (b_lam b) i 0)) /\
  (length (b_w0 b) = length c \/ length (b_w0 b) = 1)%nat /\ (length n = length c \/ length n = 1)%nat /\ (length (b_lam b) = length c \/ length (b_lam b) = 1)%nat.
Proof.
  unfold calc_confocal. destruct (bcast fdiv n (b_lam b)) as [q|] eqn:E; [|discriminate]. cbn [rbind]. intros H.
  destruct (bcast_inv _ _ _ _ 0 0 0 E) as (L1 & L2 & L3 & N1). destruct (broadcast2_inv _ _ _ _ 0 0 0 H) as (M1 & M2 & M3 & N2). rewrite map_length in M2.
  split; [|split; [exact M2|split; lia]]. intros i Hi. rewrite N2 by exact Hi. rewrite (bget_map _ _ _ 0) by lia.
  assert (Q : exists j, (j < length q)%nat /\ bget q i 0 = nth j q 0 /\ bget n i 0 = bget n j 0 /\ bget (b_lam b) i 0 = bget (b_lam b) j 0).
  { destruct M3 as [M3|M3]; [exists i; split; [lia|]; split; [apply bget_nth; lia|auto]|]. exists 0%nat. split; [lia|]. split; [destruct q as [|? [|]]; cbn in M3; try lia; reflexivity|]. split; [destruct n as [|? [|]]; cbn in *; try reflexivity; lia|destruct (b_lam b) as [|? [|]]; cbn in *; try reflexivity; lia]. }
  destruct Q as (j & Hj & -> & -> & ->). specialize (N1 j Hj). apply fdiv_inv in N1 as [Z ->]. auto.
Qed.
Lemma confocal_some b n : (length n = length (b_lam b))%nat -> (length (b_w0 b) = length n \/ length (b_w0 b) = 1)%nat -> (forall v, In v (b_lam b) -> v <> 0) -> exists c, calc_confocal b n = Ok c /\ length c = length n.
Proof.
  intros H1 H2 Hl. unfold calc_confocal. destruct (bcast_some fdiv n (b_lam b) 0 0) as [q E]; [auto| |].
  { intros i Hi. rewrite fdiv_ok; [eauto|]. apply bget_In; [exact Hl|]. destruct (Nat.eqb (length n) 1); lia. }
  rewrite E. cbn [rbind]. destruct (bcast_inv _ _ _ _ 0 0 0 E) as (L1 & L2 & L3 & N1). assert (Lq : length q = length n) by (destruct (Nat.eqb (length n) 1); lia).
  destruct (broadcast2_some Rmult (map (fun w => 2 * PI * w ^ 2) (b_w0 b)) q) as [c Ec]; [rewrite map_length; lia|]. exists c. split; [exact Ec|]. destruct (broadcast2_inv _ _ _ _ 0 0 0 Ec) as (M1 & M2 & M3 & _). rewrite map_length in *. destruct (Nat.eqb (length (b_w0 b)) 1) eqn:E1; [lia|]. apply Nat.eqb_neq in E1. lia.
Qed.

Lemma waist_of_spec zr lam n N : length lam = N -> length n = N -> (length zr = N \/ length zr = 1)%nat -> (0 < N)%nat -> (forall v, In v zr -> 0 <= v) -> (forall v, In v lam -> 0 < v) -> (forall v, In v n -> 0 < v) ->
  exists w, waist_of zr lam n = Ok w /\ length w = N /\ forall i, (i < N)%nat -> nth i w 0 = sqrt (2 * bget zr i 0 * nth i lam 0 / (2 * PI * nth i n 0)).
Proof.
  intros Ll Ln Lz HN Pz Pl Pn. unfold waist_of. pose proof PI_RGT_0 as Hpi. destruct (broadcast2_some (fun r l => 2 * r * l) zr lam) as [a Ea]; [lia|]. rewrite Ea. cbn [rbind]. destruct (broadcast2_inv _ _ _ _ 0 0 0 Ea) as (A1 & A2 & A3 & Na).
  assert (La : length a = N). { destruct (Nat.eqb (length zr) 1) eqn:E1; [lia|]. apply Nat.eqb_neq in E1. lia. }
  assert (Q : forall i, (i < N)%nat -> (q <-r fdiv (nth i a 0) (2 * PI * nth i n 0) ;; fsqrt q) = Ok (sqrt (2 * bget zr i 0 * nth i lam 0 / (2 * PI * nth i n 0)))).
  { intros i Hi. pose proof (nth_In_pos _ n i Pn ltac:(lia)) as P1. cbv beta in P1. pose proof (nth_In_pos _ lam i Pl ltac:(lia)) as P2. cbv beta in P2. pose proof (bget_In _ zr i Pz ltac:(lia)) as P3. cbv beta in P3.
    assert (0 < 2 * PI * nth i n 0) by (apply Rmult_lt_0_compat; lra). rewrite fdiv_ok by lra. cbn [rbind]. rewrite Na by lia. rewrite (bget_nth lam) by lia. apply fsqrt_ok. apply Rdiv_le_0_compat; [|lra]. apply Rmult_le_pos; lra. }
  destruct (bcast_some (fun a n => q <-r fdiv a (2 * PI * n) ;; fsqrt q) a n 0 0) as [w Ew]; [lia| |].
  { intros i Hi. assert (i < N)%nat by (destruct (Nat.eqb (length a) 1); lia). rewrite !bget_nth by lia. rewrite Q by assumption. eauto. }
  exists w. split; [exact Ew|]. destruct (bcast_inv _ _ _ _ 0 0 0 Ew) as (W1 & W2 & W3 & Nw). assert (Lw : length w = N) by (destruct (Nat.eqb (length a) 1); lia). split; [exact Lw|]. intros i Hi. specialize (Nw i ltac:(lia)). rewrite !bget_nth in Nw by lia. rewrite Q in Nw by exact Hi. injection Nw as <-. reflexivity.
Qed.
Lemma waist_confocal r l n : 0 <= r -> 0 < l -> 0 < n -> 2 * PI * sqrt (2 * r * l / (2 * PI * n)) ^ 2 * (n / l) = 2 * r.
Proof.
  intros Hr Hl Hn. pose proof PI_RGT_0. assert (0 < 2 * PI * n) by (apply Rmult_lt_0_compat; lra). rewrite <- Rsqr_pow2, Rsqr_sqrt; [field; lra|]. apply Rdiv_le_0_compat; [|lra]. apply Rmult_le_pos; lra.
Qed.
Lemma confocal_nonneg b n c : calc_confocal b n = Ok c -> (forall v, In v n -> 0 < v) -> (forall v, In v (b_lam b) -> 0 < v) -> forall v, In v c -> 0 <= v.
Proof.
  intros E Pn Pl v Hv. destruct (confocal_inv _ _ _ E) as (N & _ & L2 & L3). destruct (In_nth _ _ 0 Hv) as (i & Hi & <-). destruct (N i Hi) as [_ ->]. pose proof PI_RGT_0. pose proof (bget_In _ n i Pn ltac:(lia)) as P1. pose proof (bget_In _ (b_lam b) i Pl ltac:(lia)) as P2. cbv beta in *.
  apply Rmult_le_pos; [apply Rmult_le_pos; [lra|apply pow2_ge_0]|]. apply Rdiv_le_0_compat; lra.
Qed.

(*! C62: for every crystal (with or without caching), pulses, beams and positive indices and wavelengths: set_waist_to_match_confocal succeeds, changes nothing but the waist, and afterwards the beam's confocal parameter equals the other beam's at every wavelength. *)
Lemma C62_match_confocal_l : forall (strf : R -> string) (self ob : beam) (this othr : pulse) (x : crystal) (k k1 k2 : shared) (n1 n2 c2 : list R),
  get_n_in_crystal strf self this x k = (Ok n1, k1) -> get_n_in_crystal strf ob othr x k1 = (Ok n2, k2) -> calc_confocal ob n2 = Ok c2 ->
  (0 < length n1)%nat -> length (b_lam self) = length n1 -> length c2 = length n1 ->
  (forall v, In v n1 -> 0 < v) -> (forall v, In v n2 -> 0 < v) -> (forall v, In v (b_lam self) -> 0 < v) -> (forall v, In v (b_lam ob) -> 0 < v) ->
  exists self', set_waist_to_match_confocal strf self this othr ob x k = (Ok self', k2) /\ calc_confocal self' n1 = Ok c2 /\ b_lam self' = b_lam self /\ b_axis self' = b_axis self.
Proof.
  intros strf self ob this othr x k k1 k2 n1 n2 c2 E1 E2 Ec HN Ll Lc P1 P2 P3 P4. unfold set_waist_to_match_confocal, bind. rewrite E1, E2. unfold lift, calculate_zR. rewrite Ec. cbn [rbind].
  pose proof (confocal_nonneg _ _ _ Ec P2 P4) as Pc. destruct (waist_of_spec (map (fun x => x / 2) c2) (b_lam self) n1 (length n1)) as (w & Ew & Lw & Nw); [exact Ll|reflexivity|rewrite map_length; lia|exact HN| |exact P3|exact P1|].
  { intros v Hv. apply in_map_iff in Hv as (u & <- & Hu). specialize (Pc u Hu). lra. }
  rewrite Ew. exists (set_w0 w self). split; [reflexivity|]. split; [|split; reflexivity].
  destruct (confocal_some (set_w0 w self) n1) as (c & E & L); [symmetry; exact Ll|left; exact Lw|intros v Hv; specialize (P3 v Hv); lra|]. rewrite E. f_equal. apply (list_ext 0); [lia|]. intros i Hi. destruct (confocal_inv _ _ _ E) as (N & _). destruct (N i Hi) as [_ ->]. cbn [set_w0 b_w0 b_lam]. rewrite !bget_nth by lia. rewrite Nw by lia. rewrite bget_nth by (rewrite map_length; lia). rewrite (nth_map' _ _ _ 0) by lia.
  rewrite waist_confocal; [lra| | |]; [|apply nth_In_pos; [exact P3|lia]|apply nth_In_pos; [exact P1|lia]]. pose proof (nth_In_pos _ c2 i Pc ltac:(lia)). cbv beta in *. lra.
Qed.
(*! C62: set_waist_to_match_central_waist succeeds, makes the confocal parameter the same at every wavelength and gives the central wavelength the requested waist. *)
Lemma C62_match_central_l : forall (strf : R -> string) (self : beam) (this : pulse) (w0c : R) (x : crystal) (k k1 : shared) (n1 : list R),
  get_n_in_crystal strf self this x k = (Ok n1, k1) -> (0 < length n1)%nat -> length (b_lam self) = length n1 -> (forall v, In v n1 -> 0 < v) -> (forall v, In v (b_lam self) -> 0 < v) -> 0 < w0c ->
  let m := Nat.div2 (length n1) in
  exists self', set_waist_to_match_central_waist strf self this w0c x k = (Ok self', k1) /\ nth m (b_w0 self') 0 = w0c /\ length (b_w0 self') = length n1 /\
    exists c, calc_confocal self' n1 = Ok (repeat c (length n1)) /\ c = 2 * PI * w0c ^ 2 * nth m n1 0 / nth m (b_lam self) 0.
Proof.
  intros strf self this w0c x k k1 n1 E1 HN Ll P1 P3 Pw m. assert (Hm : (m < length n1)%nat) by (unfold m; rewrite Nat.div2_div; apply Nat.div_lt; lia).
  pose proof (nth_In_pos _ n1 m P1 Hm) as Q1. pose proof (nth_In_pos _ (b_lam self) m P3 ltac:(lia)) as Q3. cbv beta in *. pose proof PI_RGT_0 as Hpi.
  assert (Md : forall l, length l = length n1 -> middle l = Ok (nth m l 0)). { intros l L. unfold middle. rewrite L. fold m. rewrite (nth_error_nth' l 0) by lia. reflexivity. }
  unfold set_waist_to_match_central_waist, bind. rewrite E1. unfold lift. rewrite (Md n1 eq_refl), (Md _ Ll). rewrite fdiv_ok by lra. set (zr := PI * w0c ^ 2 * (nth m n1 0 / nth m (b_lam self) 0)).
  assert (Pz : 0 < zr) by (unfold zr; apply Rmult_lt_0_compat; [apply Rmult_lt_0_compat; [lra|apply pow_lt; exact Pw]|apply Rdiv_lt_0_compat; lra]).
  destruct (waist_of_spec [zr] (b_lam self) n1 (length n1)) as (w & Ew & Lw & Nw); [exact Ll|reflexivity|right; reflexivity|exact HN|intros v [<-|[]]; lra|exact P3|exact P1|]. cbn [bget] in Nw. rewrite Ew.
  exists (set_w0 w self). split; [reflexivity|]. split; [|split; [exact Lw|]].
  - cbn [set_w0 b_w0]. rewrite Nw by exact Hm. replace (2 * zr * nth m (b_lam self) 0 / (2 * PI * nth m n1 0)) with (Rsqr w0c) by (unfold zr, Rsqr; field; lra). apply sqrt_Rsqr. lra.
  - exists (2 * zr). split; [|unfold zr; field; lra]. destruct (confocal_some (set_w0 w self) n1) as (c & E & L); [symmetry; exact Ll|left; exact Lw|intros v Hv; specialize (P3 v Hv); lra|]. rewrite E. f_equal. apply (list_ext 0); [rewrite repeat_length; exact L|]. intros i Hi. rewrite (nth_indep (repeat (2 * zr) (length n1)) 0 (2 * zr)) by (rewrite repeat_length; lia). rewrite nth_repeat. destruct (confocal_inv _ _ _ E) as (N & _). destruct (N i Hi) as [_ ->]. cbn [set_w0 b_w0 b_lam]. rewrite !bget_nth by lia. rewrite Nw by lia. apply waist_confocal; [lra| |]; apply nth_In_pos; (assumption || lia).
Qed.
Lemma waist_inv b z n w : calculate_waist b z n = Ok w -> exists c, calc_confocal b n = Ok c /\ length c = length w /\ forall i, (i < length w)%nat -> nth i c 0 <> 0 /\ nth i w 0 = bget (b_w0 b) i 0 * sqrt (1 + (2 * z / nth i c 0) ^ 2).
Proof.
  unfold calculate_waist. destruct (calc_confocal b n) as [c|] eqn:E; [|discriminate]. cbn [rbind]. intros H. exists c. split; [reflexivity|]. destruct (bcast_inv _ _ _ _ 0 0 0 H) as (L1 & L2 & L3 & N). destruct (confocal_inv _ _ _ E) as (_ & M1 & _).
  assert (Lw : length c = length w). { destruct (Nat.eqb (length (b_w0 b)) 1) eqn:E1; [lia|]. apply Nat.eqb_neq in E1. lia. }
  split; [exact Lw|]. intros i Hi. specialize (N i Hi). rewrite (bget_nth c) in N by lia. destruct (fdiv (2 * z) (nth i c 0)) as [q|] eqn:Eq; [|discriminate]. cbn [rbind] in N. injection N as <-. apply fdiv_inv in Eq as [Z ->]. auto.
Qed.
(*! C62: the beam is narrowest at its focus, where it has its waist, is strictly wider at a strictly larger distance from the focus on either side, and has twice the focal area at the Rayleigh range, at every wavelength. *)
Lemma C62_waist_growth_l : forall (b : beam) (n : list R) (z z' : R) (w w' : list R) (i : nat),
  calculate_waist b z n = Ok w -> calculate_waist b z' n = Ok w' -> (i < length w)%nat -> (forall v, In v (b_w0 b) -> 0 < v) ->
  let w0 := nth (if Nat.eqb (length (b_w0 b)) 1 then 0 else i) (b_w0 b) 0 in
  (i < length w')%nat /\ (z = 0 -> nth i w 0 = w0) /\ (Rabs z < Rabs z' -> nth i w 0 < nth i w' 0) /\
  (forall zR, calculate_zR b n = Ok zR -> Rabs z = Rabs (nth i zR 0) -> (nth i w 0) ^ 2 = 2 * w0 ^ 2).
Proof.
  intros b n z z' w w' i E E' Hi Pw w0. destruct (waist_inv _ _ _ _ E) as (c & Ec & Lc & N). destruct (waist_inv _ _ _ _ E') as (c' & Ec' & Lc' & N'). rewrite Ec in Ec'. injection Ec' as <-.
  assert (Hi' : (i < length w')%nat) by lia. destruct (N i Hi) as [Z Nw]. destruct (N' i Hi') as [_ Nw']. destruct (confocal_inv _ _ _ Ec) as (_ & M1 & _).
  assert (W0 : bget (b_w0 b) i 0 = w0). { unfold w0. destruct (Nat.eqb (length (b_w0 b)) 1) eqn:E1; [apply Nat.eqb_eq in E1; destruct (b_w0 b) as [|v [|]]; cbn in E1; try lia; reflexivity|]. apply Nat.eqb_neq in E1. apply bget_nth. lia. }
  rewrite W0 in *. assert (P0 : 0 < w0) by (rewrite <- W0; apply bget_In; [exact Pw|lia]).
  assert (S2 : forall u, (2 * u / nth i c 0) ^ 2 = Rsqr u * Rsqr (2 / nth i c 0)) by (intros u; unfold Rsqr; field; exact Z).
  split; [exact Hi'|]. split; [|split].
  - intros ->. rewrite Nw, S2, Rsqr_0, Rmult_0_l, Rplus_0_r, sqrt_1. ring.
  - intros Hz. rewrite Nw, Nw'. apply Rmult_lt_compat_l; [exact P0|]. rewrite !S2. apply sqrt_lt_1_alt. assert (0 < Rsqr (2 / nth i c 0)) by (apply Rsqr_pos_lt; apply Rmult_integral_contrapositive_currified; [lra|apply Rinv_neq_0_compat; exact Z]). pose proof (Rle_0_sqr z). split; [assert (0 <= Rsqr z * Rsqr (2 / nth i c 0)) by (apply Rmult_le_pos; lra); lra|]. apply Rplus_lt_compat_l, Rmult_lt_compat_r; [assumption|]. apply Rsqr_lt_abs_1. exact Hz.
  - intros zR EzR Hz. unfold calculate_zR in EzR. rewrite Ec in EzR. cbn [rbind] in EzR. injection EzR as <-. rewrite (nth_map' _ _ _ 0) in Hz by lia. assert (Hq : Rsqr z = Rsqr (nth i c 0 / 2)) by (rewrite (Rsqr_abs z), (Rsqr_abs (nth i c 0 / 2)), Hz; reflexivity). rewrite Nw, S2. rewrite Hq. replace (Rsqr (nth i c 0 / 2) * Rsqr (2 / nth i c 0)) with 1 by (unfold Rsqr; field; exact Z). replace ((w0 * sqrt (1 + 1)) ^ 2) with (w0 ^ 2 * (sqrt (1 + 1) * sqrt (1 + 1))) by ring. rewrite sqrt_sqrt by lra. ring.
Qed.

(*! C65: waist, curvature and Gouy phase belong to one Gaussian beam: with q = z + i z_R (z_R the Rayleigh range), 1/q = 1/R(z) - i lambda/(pi n w(z)^2), and the Gouy factor is (z_R + i z)/|q|, at every wavelength and every z <> 0. *)
Lemma C65_beam_parameter_l : forall (b : beam) (n : list R) (z : R) (w zR Rz : list R) (ph : list C) (i : nat),
  calculate_waist b z n = Ok w -> calculate_zR b n = Ok zR -> calculate_R b z n = Ok Rz -> calculate_gouy_phase b z n = Ok ph -> (i < length w)%nat ->
  length n = length (b_lam b) -> (forall v, In v n -> 0 < v) -> (forall v, In v (b_lam b) -> 0 < v) -> (forall v, In v (b_w0 b) -> 0 < v) -> length n = length w ->
  let q := (RtoC z + Ci * RtoC (nth i zR 0))%C in
  (/ q = RtoC (/ nth i Rz 0) - Ci * RtoC (nth i (b_lam b) 0 / (PI * nth i n 0 * nth i w 0 ^ 2)))%C /\
  nth i ph (RtoC 0) = (RtoC (/ sqrt (z ^ 2 + nth i zR 0 ^ 2)) * (RtoC (nth i zR 0) + Ci * RtoC z))%C.
Proof.
  intros b n z w zR Rz ph i Ew Ez ER Eg Hi Ll Pn Pl Pw Lnw q. destruct (waist_inv _ _ _ _ Ew) as (c & Ec & Lc & N). destruct (N i Hi) as [Zc Nw]. destruct (confocal_inv _ _ _ Ec) as (Nc & M1 & M2 & M3). destruct (Nc i ltac:(lia)) as [_ Vc].
  unfold calculate_R in ER. unfold calculate_gouy_phase in Eg. rewrite Ez in ER, Eg. cbn [rbind] in ER, Eg. injection Eg as <-. unfold calculate_zR in Ez. rewrite Ec in Ez. cbn [rbind] in Ez. injection Ez as <-.
  destruct (rtraverse_inv _ _ _ 0 0 ER) as [LR NR]. rewrite map_length in *. specialize (NR i ltac:(lia)). subst q. rewrite (nth_map' (fun r => cis (arctan2 z r)) _ _ 0) by (rewrite map_length; lia).
  rewrite (nth_map' (fun x => x / 2) c i 0 0) in * by lia. set (r := nth i c 0 / 2) in *. rewrite (bget_nth n) in Vc by lia. rewrite (bget_nth (b_lam b)) in Vc by lia.
  pose proof (nth_In_pos _ n i Pn ltac:(lia)) as P1. pose proof (nth_In_pos _ (b_lam b) i Pl ltac:(lia)) as P2. pose proof (bget_In _ (b_w0 b) i Pw ltac:(lia)) as P3. cbv beta in *. pose proof PI_RGT_0 as Hpi.
  set (w0 := bget (b_w0 b) i 0) in *. set (n0 := nth i n 0) in *. set (l0 := nth i (b_lam b) 0) in *.
  assert (Vr : r = PI * w0 ^ 2 * n0 / l0) by (unfold r; rewrite Vc; field; lra). assert (Pw2 : 0 < w0 ^ 2) by (apply pow_lt; exact P3).
  assert (Pr : 0 < r). { rewrite Vr. apply Rdiv_lt_0_compat; [|lra]. apply Rmult_lt_0_compat; [apply Rmult_lt_0_compat|]; lra. }
  destruct (fdiv r z) as [t|] eqn:Et; [|discriminate]. cbn [rbind] in NR. injection NR as NR. apply fdiv_inv in Et as [Hz ->].
  assert (D : 0 < z ^ 2 + r ^ 2) by (pose proof (pow2_ge_0 z); assert (0 < r ^ 2) by (apply pow_lt; exact Pr); lra).
  split.
  - assert (E1 : / nth i Rz 0 = z / (z ^ 2 + r ^ 2)). { rewrite <- NR. field. split; [lra|exact Hz]. }
    assert (E2 : nth i w 0 ^ 2 = w0 ^ 2 * ((z ^ 2 + r ^ 2) / r ^ 2)). { rewrite Nw. fold w0. replace ((w0 * sqrt (1 + (2 * z / nth i c 0) ^ 2)) ^ 2) with (w0 ^ 2 * (sqrt (1 + (2 * z / nth i c 0) ^ 2) * sqrt (1 + (2 * z / nth i c 0) ^ 2))) by ring. rewrite sqrt_sqrt by (pose proof (pow2_ge_0 (2 * z / nth i c 0)); lra). f_equal. unfold r. field. exact Zc. }
    assert (E3 : l0 / (PI * n0 * nth i w 0 ^ 2) = r / (z ^ 2 + r ^ 2)). { rewrite E2. assert (Y : l0 = PI * w0 ^ 2 * n0 / r) by (rewrite Vr; field; lra). rewrite Y. field. repeat split; lra. }
    rewrite E1, E3. unfold Cinv, Cminus, Copp, Cplus, Cmult, Ci, RtoC. cbn [fst snd]. apply C_eq; unfold Re, Im; cbn [fst snd]; field; lra.
  - unfold arctan2. destruct (Rlt_dec 0 r) as [_|Q]; [|lra]. unfold cis. rewrite cos_atan, sin_atan. assert (S : sqrt (1 + (z / r)²) = sqrt (z ^ 2 + r ^ 2) / r). { replace (1 + (z / r)²) with ((z ^ 2 + r ^ 2) / r ^ 2) by (unfold Rsqr; field; lra). rewrite sqrt_div_alt by (apply pow_lt; exact Pr). f_equal. rewrite <- Rsqr_pow2. apply sqrt_Rsqr. lra. }
    rewrite S. assert (0 < sqrt (z ^ 2 + r ^ 2)) by (apply sqrt_lt_R0; exact D). unfold Cplus, Cmult, Ci, RtoC. cbn [fst snd]. apply C_eq; unfold Re, Im; cbn [fst snd]; field; lra.
Qed.

(** ** Overlap *)
Lemma overlap_spec z k1 k2 r1 r2 : 0 < k1 -> 0 < k2 -> 0 < r1 -> 0 < r2 -> exists v, overlap1 z k1 k2 r1 r2 = Ok v /\ 0 < v <= 1 /\ (k1 = k2 -> r1 = r2 -> v = 1) /\
  let a k r := (RtoC k * Ci / (2 * (RtoC z + Ci * RtoC r)))%C in v = 4 * Re (a k1 r1) * Re (a k2 r2) / Cmod (a k1 r1 + Cconj (a k2 r2))%C ^ 2.
Proof.
  intros K1 K2 R1 R2. unfold overlap1. set (D := k2 ^ 2 * (z ^ 2 + r1 ^ 2) - 2 * k1 * k2 * (z ^ 2 - r1 * r2) + k1 ^ 2 * (z ^ 2 + r2 ^ 2)).
  assert (ED : D = ((k1 - k2) * z) ^ 2 + (k2 * r1 + k1 * r2) ^ 2) by (unfold D; ring). assert (A : 0 < k2 * r1) by (apply Rmult_lt_0_compat; assumption). assert (B : 0 < k1 * r2) by (apply Rmult_lt_0_compat; assumption).
  assert (PD : 0 < D). { rewrite ED. pose proof (pow2_ge_0 ((k1 - k2) * z)). assert (0 < (k2 * r1 + k1 * r2) ^ 2) by (apply pow_lt; lra). lra. }
  rewrite fdiv_ok by lra. assert (PN : 0 < 4 * k1 * k2 * r1 * r2). { replace (4 * k1 * k2 * r1 * r2) with (4 * ((k2 * r1) * (k1 * r2))) by ring. apply Rmult_lt_0_compat; [lra|]. apply Rmult_lt_0_compat; assumption. }
  eexists. split; [reflexivity|]. split; [|split].
  - split; [apply Rdiv_lt_0_compat; assumption|]. apply (Rmult_le_reg_r D); [exact PD|]. replace (4 * k1 * k2 * r1 * r2 / D * D) with (4 * k1 * k2 * r1 * r2) by (field; lra). rewrite ED. pose proof (pow2_ge_0 ((k1 - k2) * z)). pose proof (pow2_ge_0 (k2 * r1 - k1 * r2)). replace ((k2 * r1 + k1 * r2) ^ 2) with ((k2 * r1 - k1 * r2) ^ 2 + 4 * k1 * k2 * r1 * r2) by ring. lra.
  - intros <- <-. apply (Rmult_eq_reg_r D); [|lra]. replace (4 * k1 * k1 * r1 * r1 / D * D) with (4 * k1 * k1 * r1 * r1) by (field; lra). rewrite ED. ring.
  - set (a := fun k r : R => (RtoC k * Ci / (2 * (RtoC z + Ci * RtoC r)))%C). change (4 * k1 * k2 * r1 * r2 / D = 4 * Re (a k1 r1) * Re (a k2 r2) / Cmod (a k1 r1 + Cconj (a k2 r2))%C ^ 2). assert (Q : forall r, 0 < r -> 0 < z ^ 2 + r ^ 2) by (intros r Hr; pose proof (pow2_ge_0 z); assert (0 < r ^ 2) by (apply pow_lt; exact Hr); lra).
    assert (V : forall k r, 0 < r -> a k r = (k * r / (2 * (z ^ 2 + r ^ 2)), k * z / (2 * (z ^ 2 + r ^ 2)))).
    { intros k r Hr. specialize (Q r Hr). unfold a, Cdiv, Cinv, Cplus, Cmult, Ci, RtoC. cbn [fst snd]. apply C_eq; unfold Re, Im; cbn [fst snd]; field; lra. }
    pose proof (Q r1 R1). pose proof (Q r2 R2).
    assert (M : Cmod (a k1 r1 + Cconj (a k2 r2))%C ^ 2 = D / (4 * ((z ^ 2 + r1 ^ 2) * (z ^ 2 + r2 ^ 2)))).
    { rewrite (V k1 r1 R1), (V k2 r2 R2), <- Rsqr_pow2. unfold Rsqr. rewrite Cmod_sqr. unfold Cnorm2, Cconj, Cplus, Re, Im. cbn [fst snd]. unfold D. field. lra. }
    rewrite M, (V k1 r1 R1), (V k2 r2 R2).
    unfold Re. cbn [fst]. field. repeat split; lra.
Qed.
Lemma overlap_value strf self z this othr ob x k n1 n2 zr1 zr2 k1 k2 s1 s2 s3 s4 N :
  get_n_in_crystal strf self this x k = (Ok n1, s1) -> get_n_in_crystal strf ob othr x s1 = (Ok n2, s2) -> calculate_zR self n1 = Ok zr1 -> calculate_zR ob n2 = Ok zr2 ->
  get_k_in_crystal strf self this x s2 = (Ok k1, s3) -> get_k_in_crystal strf ob othr x s3 = (Ok k2, s4) -> length zr1 = N -> length zr2 = N -> length k1 = N -> length k2 = N ->
  calc_overlap_integral strf self z this othr ob x k = (rtraverse (fun i => overlap1 z (nth i k1 0) (nth i k2 0) (nth i zr1 0) (nth i zr2 0)) (seq 0 N), s4).
Proof.
  intros E1 E2 Z1 Z2 K1 K2 L1 L2 L3 L4. unfold calc_overlap_integral, bind. rewrite E1, E2. unfold lift. rewrite Z1, Z2, K1, K2. rewrite !broadcast2_eq by lia. unfold bcast. rewrite broadcast2_eq by (rewrite !map2_length; lia). cbn [rbind]. f_equal.
  rewrite <- (mk_self 0 k1), <- (mk_self 0 k2), <- (mk_self 0 zr1), <- (mk_self 0 zr2), L1, L2, L3, L4, !map2_mk. unfold mk at 1.
  assert (T : forall (f : R * R * (R * R) -> result R) (g : nat -> R * R * (R * R)) l, rtraverse f (map g l) = rtraverse (fun i => f (g i)) l). { intros f g l. induction l as [|u l IH]; [reflexivity|]. cbn. rewrite IH. reflexivity. }
  rewrite T. cbn [fst snd]. clear. assert (X : forall l, (forall i, In i l -> (i < N)%nat) -> rtraverse (fun i => overlap1 z (nth i k1 0) (nth i k2 0) (nth i zr1 0) (nth i zr2 0)) l = rtraverse (fun i => overlap1 z (nth i (mk N (fun i => nth i k1 0)) 0) (nth i (mk N (fun i => nth i k2 0)) 0) (nth i (mk N (fun i => nth i zr1 0)) 0) (nth i (mk N (fun i => nth i zr2 0)) 0)) l).
  { induction l as [|u l IH]; intros H; [reflexivity|]. cbn [rtraverse]. rewrite IH by (intros; apply H; right; assumption). rewrite !mk_nth by (apply H; left; reflexivity). reflexivity. }
  apply X. intros i Hi. apply in_seq in Hi. lia.
Qed.
Lemma rtraverse_ok {A B} (f : A -> result B) (g : A -> B) l : (forall x, In x l -> f x = Ok (g x)) -> rtraverse f l = Ok (map g l).
Proof. induction l as [|x l IH]; intros H; [reflexivity|]. cbn. rewrite H by (left; reflexivity). cbn. rewrite IH by (intros; apply H; right; assumption). reflexivity. Qed.

(*! C63: for every pair of pulses and beams in every crystal, every z and all positive wavevectors and Rayleigh ranges: the overlap integral is computed, lies in (0,1] at every wavelength, is the power overlap 4 Re a1 Re a2 / |a1 + conj a2|^2 of the Gaussian fields exp(-a r^2), a = i k / (2 (z + i z_R)), and is 1 wherever the two beams have the same wavevector and Rayleigh range. *)
Lemma C63_overlap_fraction_l : forall (strf : R -> string) (self ob : beam) (z : R) (this othr : pulse) (x : crystal) (k s1 s2 s3 s4 : shared) (n1 n2 zr1 zr2 k1 k2 : list R) (N : nat),
  get_n_in_crystal strf self this x k = (Ok n1, s1) -> get_n_in_crystal strf ob othr x s1 = (Ok n2, s2) -> calculate_zR self n1 = Ok zr1 -> calculate_zR ob n2 = Ok zr2 ->
  get_k_in_crystal strf self this x s2 = (Ok k1, s3) -> get_k_in_crystal strf ob othr x s3 = (Ok k2, s4) -> length zr1 = N -> length zr2 = N -> length k1 = N -> length k2 = N ->
  (forall v, In v zr1 \/ In v zr2 \/ In v k1 \/ In v k2 -> 0 < v) ->
  exists r, calc_overlap_integral strf self z this othr ob x k = (Ok r, s4) /\ length r = N /\ forall i, (i < N)%nat ->
    0 < nth i r 0 <= 1 /\ (nth i k1 0 = nth i k2 0 -> nth i zr1 0 = nth i zr2 0 -> nth i r 0 = 1) /\
    let a k r := (RtoC k * Ci / (2 * (RtoC z + Ci * RtoC r)))%C in let a1 := a (nth i k1 0) (nth i zr1 0) in let a2 := a (nth i k2 0) (nth i zr2 0) in
    nth i r 0 = 4 * Re a1 * Re a2 / Cmod (a1 + Cconj a2)%C ^ 2.
Proof.
  intros strf self ob z this othr x k s1 s2 s3 s4 n1 n2 zr1 zr2 k1 k2 N E1 E2 Z1 Z2 K1 K2 L1 L2 L3 L4 P. rewrite (overlap_value _ _ _ _ _ _ _ _ _ _ _ _ _ _ _ _ _ _ _ E1 E2 Z1 Z2 K1 K2 L1 L2 L3 L4).
  assert (S : forall i, (i < N)%nat -> exists v, overlap1 z (nth i k1 0) (nth i k2 0) (nth i zr1 0) (nth i zr2 0) = Ok v /\ 0 < v <= 1 /\ (nth i k1 0 = nth i k2 0 -> nth i zr1 0 = nth i zr2 0 -> v = 1) /\ let a k r := (RtoC k * Ci / (2 * (RtoC z + Ci * RtoC r)))%C in v = 4 * Re (a (nth i k1 0) (nth i zr1 0)) * Re (a (nth i k2 0) (nth i zr2 0)) / Cmod (a (nth i k1 0) (nth i zr1 0) + Cconj (a (nth i k2 0) (nth i zr2 0)))%C ^ 2).
  { intros i Hi. apply overlap_spec; apply P; [right; right; left|right; right; right|left|right; left]; apply nth_In; lia. }
  set (g := fun i => match overlap1 z (nth i k1 0) (nth i k2 0) (nth i zr1 0) (nth i zr2 0) with Ok v => v | Raise _ => 0 end). exists (mk N g). rewrite (rtraverse_ok _ g).
  - split; [reflexivity|]. split; [apply mk_length|]. intros i Hi. rewrite mk_nth by exact Hi. destruct (S i Hi) as (v & Ev & H). unfold g. rewrite Ev. exact H.
  - intros i Hi. apply in_seq in Hi. destruct (S i ltac:(lia)) as (v & Ev & _). unfold g. rewrite Ev. reflexivity.
Qed.
Lemma reads_free strf b p x k : x_caching x = false -> snd (get_n_in_crystal strf b p x k) = k /\ forall k', fst (get_n_in_crystal strf b p x k') = fst (get_n_in_crystal strf b p x k).
Proof.
  intros H. unfold get_n_in_crystal, reading, get_pulse_n. rewrite H. unfold compute_n, on_pulse, bind. cbn [fst snd]. destruct (get_wl_nm strf p) as [[o|e] p']; cbn; [|auto]. destruct o; cbn; auto.
Qed.
Lemma k_free strf b p x k : snd (get_k_in_crystal strf b p x k) = k /\ forall k', fst (get_k_in_crystal strf b p x k') = fst (get_k_in_crystal strf b p x k).
Proof.
  unfold get_k_in_crystal, reading, get_pulse_k, on_pulse, bind. cbn [fst snd]. destruct (get_wl_nm strf p) as [[o|e] p']; cbn [fst snd]; [|auto]. destruct o; cbn [as_array ret raise fst snd]; [|auto]. unfold lift. destruct (index _ _ _); cbn [fst snd]; [|auto]. destruct (get_wl_mks strf p') as [[l'|e] p'']; cbn [fst snd]; [|auto]. destruct (broadcast2 _ _ _); cbn [fst snd]; auto.
Qed.
(*! C63: the overlap integral is symmetric in the two beams (crystal without caching). *)
Lemma C63_overlap_symmetric_l : forall (strf : R -> string) (self ob : beam) (z : R) (this othr : pulse) (x : crystal) (k : shared) (r : list R),
  x_caching x = false -> calc_overlap_integral strf self z this othr ob x k = (Ok r, k) -> calc_overlap_integral strf ob z othr this self x k = (Ok r, k).
Proof.
  intros strf self ob z this othr x k r Hc. unfold calc_overlap_integral, bind.
  destruct (reads_free strf self this x k Hc) as [A1 A2]. destruct (reads_free strf ob othr x k Hc) as [B1 B2]. destruct (k_free strf self this x k) as [C1 C2]. destruct (k_free strf ob othr x k) as [D1 D2].
  destruct (get_n_in_crystal strf self this x k) as [[n1|] s1] eqn:E1; [|discriminate]. cbn [fst snd] in A1. subst s1.
  destruct (get_n_in_crystal strf ob othr x k) as [[n2|] s2] eqn:E2; [|discriminate]. cbn [fst snd] in B1. subst s2. rewrite E1. unfold lift.
  destruct (calculate_zR self n1) as [z1|]; [|discriminate]. destruct (calculate_zR ob n2) as [z2|]; [|discriminate].
  destruct (get_k_in_crystal strf self this x k) as [[k1|] s3] eqn:E3; [|discriminate]. cbn [fst snd] in C1. subst s3.
  destruct (get_k_in_crystal strf ob othr x k) as [[k2|] s4] eqn:E4; [|discriminate]. cbn [fst snd] in D1. subst s4. rewrite E3.
  intros H. apply (f_equal fst) in H. cbn [fst] in H.
  destruct (broadcast2 pair k1 k2) as [kk|] eqn:F1; [|discriminate]. destruct (broadcast2 pair z1 z2) as [zz|] eqn:F2; [|discriminate]. 
  assert (Sw : forall (a b : list R) ab, broadcast2 pair a b = Ok ab -> broadcast2 pair b a = Ok (map (fun p => (snd p, fst p)) ab)).
  { intros a b ab E. destruct (broadcast2_inv _ _ _ _ 0 0 (0, 0) E) as (L1 & L2 & L3 & N). destruct (broadcast2_some (@pair R R) b a) as [ba Eb]; [lia|]. destruct (broadcast2_inv _ _ _ _ 0 0 (0, 0) Eb) as (M1 & M2 & M3 & N'). rewrite Eb. f_equal.
    assert (L : length ba = length ab). { destruct (Nat.eqb (length a) 1) eqn:Q1; destruct (Nat.eqb (length b) 1) eqn:Q2; rewrite ?Nat.eqb_eq, ?Nat.eqb_neq in *; lia. }
    apply (list_ext (0, 0)); [rewrite map_length; exact L|]. intros i Hi. rewrite N' by exact Hi. rewrite (nth_map' _ _ _ (0, 0)) by lia. rewrite N by lia. reflexivity. }
  rewrite (Sw _ _ _ F1), (Sw _ _ _ F2). f_equal. rewrite <- H. unfold bcast. 
  assert (BM : forall (a b : list (R * R)), broadcast2 pair (map (fun p => (snd p, fst p)) a) (map (fun p => (snd p, fst p)) b) = rmap (map (fun q => ((snd (fst q), fst (fst q)), (snd (snd q), fst (snd q))))) (broadcast2 pair a b)).
  { intros a b. unfold broadcast2. rewrite !map_length. destruct (Nat.eqb (length a) (length b)).
    - cbn [rmap rbind]. f_equal. revert b. induction a as [|u a IH]; intros [|v b]; [reflexivity..|]. cbn [map map2]. rewrite IH. reflexivity.
    - destruct a as [|u [|u' a]]; [destruct b as [|v [|v' b]]|destruct b as [|v [|v' b]]|destruct b as [|v [|v' b]]]; cbn [map rmap rbind]; try reflexivity; rewrite ?map_map; reflexivity. }
  rewrite BM. destruct (broadcast2 pair kk zz) as [l|]; [|reflexivity]. cbn [rmap rbind]. clear. induction l as [|[[a b] [c d]] l IH]; [reflexivity|]. cbn [map rtraverse fst snd]. rewrite IH.
  replace (overlap1 z b a d c) with (overlap1 z a b c d); [reflexivity|]. unfold overlap1. f_equal; ring.
Qed.

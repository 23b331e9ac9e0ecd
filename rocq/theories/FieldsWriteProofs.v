(** Further properties of the containers of field_classes.py (C130): the order of the rows, set_all and writing through views. *)
From Coq Require Import Reals List ZArith Bool Arith Lia Lra.
From Coquelicot Require Import Complex.
From Verif Require Import Base CNum NumPy ModelFields FieldsProofs.
Import ListNotations.
Local Open Scope R_scope.

Lemma nth_rep {A} (v d : A) n k : (k < n)%nat -> nth k (repeat v n) d = v.
Proof. revert k. induction n as [|n IH]; intros k H; [lia|]. destruct k; [reflexivity|]. cbn [repeat nth]. apply IH. lia. Qed.
Lemma set_row_run r o f h : length f = t_npts (obj h o) -> set_row r o f h = (Ok tt, with_obj o (mkT (t_npts (obj h o)) (update r f (t_fields (obj h o))) (t_derivs (obj h o)) (t_ks (obj h o))) h).
Proof. intros H. unfold set_row, bind, gets, lift, modify, fit. rewrite H, Nat.eqb_refl. reflexivity. Qed.

(*! C130: the pump is the first, the signal the second and the idler the third row: after set_pump, set_sgnl and set_idlr, in any order, the fields of the object are these three in this order. *)
Lemma C130_order_l : forall (h : heap) (o : nat) (p s i : list C), reach h -> (o < length (h_objs h))%nat -> length p = t_npts (obj h o) -> length s = t_npts (obj h o) -> length i = t_npts (obj h o) ->
  forall ops, In ops [[set_pump o p; set_sgnl o s; set_idlr o i]; [set_pump o p; set_idlr o i; set_sgnl o s]; [set_sgnl o s; set_pump o p; set_idlr o i]; [set_sgnl o s; set_idlr o i; set_pump o p]; [set_idlr o i; set_pump o p; set_sgnl o s]; [set_idlr o i; set_sgnl o s; set_pump o p]] ->
  t_fields (obj (fold_left (fun h (f : M heap unit) => snd (f h)) ops h) o) = [p; s; i].
Proof.
  intros h o p s i Hh Ho Hp Hs Hi ops Hops. pose proof (proj1 (reach_good h Hh) _ (obj_in h o Ho)) as ((L & _) & _ & _).
  assert (ST : forall r f h0, (o < length (h_objs h0))%nat -> length f = t_npts (obj h0 o) -> obj (snd (set_row r o f h0)) o = mkT (t_npts (obj h0 o)) (update r f (t_fields (obj h0 o))) (t_derivs (obj h0 o)) (t_ks (obj h0 o)) /\ length (h_objs (snd (set_row r o f h0))) = length (h_objs h0)).
  { intros r f h0 H0 H. rewrite set_row_run by exact H. cbn [snd]. rewrite obj_with by exact H0. rewrite Nat.eqb_refl. split; [reflexivity|]. cbn [with_obj h_objs]. apply update_len, H0. }
  assert (GO : forall r1 f1 r2 f2 r3 f3, length f1 = t_npts (obj h o) -> length f2 = t_npts (obj h o) -> length f3 = t_npts (obj h o) ->
    t_fields (obj (snd (set_row r3 o f3 (snd (set_row r2 o f2 (snd (set_row r1 o f1 h)))))) o) = update r3 f3 (update r2 f2 (update r1 f1 (t_fields (obj h o))))).
  { intros r1 f1 r2 f2 r3 f3 H1 H2 H3. destruct (ST r1 f1 h Ho H1) as (A1 & B1). set (h1 := snd (set_row r1 o f1 h)) in *.
    assert (N1 : t_npts (obj h1 o) = t_npts (obj h o)) by (rewrite A1; reflexivity).
    destruct (ST r2 f2 h1 ltac:(lia) ltac:(congruence)) as (A2 & B2). set (h2 := snd (set_row r2 o f2 h1)) in *.
    assert (N2 : t_npts (obj h2 o) = t_npts (obj h o)) by (rewrite A2; exact N1).
    destruct (ST r3 f3 h2 ltac:(lia) ltac:(congruence)) as (A3 & _). rewrite A3. cbn [t_fields]. rewrite A2. cbn [t_fields]. rewrite A1. reflexivity. }
  destruct (t_fields (obj h o)) as [|a [|b [|c [|d l]]]] eqn:F; try discriminate L.
  repeat (destruct Hops as [<-|Hops]; [cbn [fold_left]; unfold set_pump, set_sgnl, set_idlr; rewrite GO by assumption; reflexivity|]). destruct Hops.
Qed.

(*! C130: set_all with an array of one or three rows, of the grid's length or of length one, stores it (a single row three times, a single column in every point), and changes nothing else; an array of any other shape raises ValueError and changes nothing. *)
Lemma C130_all_l : forall (h : heap) (o L : nat) (m : list (list C)), reach h -> (o < length (h_objs h))%nat -> m <> [] -> (forall r, In r m -> length r = L) ->
  let n := t_npts (obj h o) in
  ((length m = 3%nat \/ length m = 1%nat) -> (L = n \/ L = 1%nat) -> exists h', set_all o m h = (Ok tt, h') /\
    (forall r k, (r < 3)%nat -> (k < n)%nat -> nth k (read_row r o h') (RtoC 0) = nth (if Nat.eqb L n then k else 0) (nth (if Nat.eqb (length m) 3 then r else 0) m []) (RtoC 0)) /\
    (forall o', o' <> o -> obj h' o' = obj h o') /\ t_npts (obj h' o) = n /\ t_derivs (obj h' o) = t_derivs (obj h o) /\ t_ks (obj h' o) = t_ks (obj h o) /\ h_k0s h' = h_k0s h) /\
  (~ ((length m = 3%nat \/ length m = 1%nat) /\ (L = n \/ L = 1%nat)) -> set_all o m h = (Raise ValueError, h)).
Proof.
  intros h o L m Hh Ho Hm HL n.
  assert (FIT : (length m = 3%nat \/ length m = 1%nat) -> exists rows, fit [] 3 m = Ok rows /\ length rows = 3%nat /\ (forall r, (r < 3)%nat -> nth r rows [] = nth (if Nat.eqb (length m) 3 then r else 0) m []) /\ forall r, In r rows -> length r = L).
  { unfold fit. destruct (Nat.eqb_spec (length m) 3) as [E|E]; intros H.
    - exists m. auto.
    - destruct H as [H|H]; [contradiction|]. rewrite H. cbn [Nat.eqb]. eexists. split; [reflexivity|]. split; [apply repeat_length|]. split; [intros r Hr; apply nth_rep, Hr|].
      intros r Hr. apply repeat_spec in Hr. subst r. apply HL, nth_In. lia. }
  assert (N : set_all o m h = match fit [] 3 m with Ok rows => if forallb (fun r => Nat.eqb (length r) n || Nat.eqb (length r) 1)%bool rows then (Ok tt, with_obj o (mkT n (map (spread n) rows) (t_derivs (obj h o)) (t_ks (obj h o))) h) else (Raise ValueError, h) | Raise e => (Raise e, h) end).
  { unfold set_all, bind, gets, lift, modify, ret, raise. fold n. destruct (fit [] 3 m) as [rows|]; [|reflexivity]. destruct (forallb _ rows); reflexivity. }
  split.
  - intros H HLn. destruct (FIT H) as (rows & F & RL & RV & RI). rewrite N, F.
    assert (FB : forallb (fun r => Nat.eqb (length r) n || Nat.eqb (length r) 1)%bool rows = true). { apply forallb_forall. intros r Hr. rewrite (RI r Hr). destruct HLn as [->| ->]; [rewrite Nat.eqb_refl; reflexivity|]. apply orb_true_r. }
    rewrite FB. eexists. split; [reflexivity|]. split; [|split; [|rewrite obj_with by exact Ho; rewrite Nat.eqb_refl; auto]].
    + intros r k Hr Hk. unfold read_row. rewrite obj_with by exact Ho. rewrite Nat.eqb_refl. cbn [t_fields]. rewrite (nth_indep _ [] (spread n [])) by (rewrite map_length; lia). rewrite map_nth. rewrite (RV r Hr). set (x := nth _ m []).
      assert (X : length x = L). { unfold x. rewrite <- (RV r Hr). apply RI, nth_In. lia. } unfold spread. rewrite X. destruct (Nat.eqb L n); [reflexivity|apply nth_rep, Hk].
    + intros o' D. rewrite obj_with by exact Ho. destruct (Nat.eqb_spec o' o); [contradiction|reflexivity].
  - intros H. rewrite N. destruct (Nat.eq_dec (length m) 3) as [E3|E3]; [|destruct (Nat.eq_dec (length m) 1) as [E1|E1]].
    1, 2: destruct FIT as (rows & F & RL & RV & RI); [auto|]; rewrite F; destruct rows as [|x rows]; [discriminate RL|]; cbn [forallb]; rewrite (RI x (or_introl eq_refl)); destruct (Nat.eqb_spec L n); [exfalso; apply H; auto|]; destruct (Nat.eqb_spec L 1); [exfalso; apply H; auto|]; reflexivity.
    unfold fit. destruct (Nat.eqb_spec (length m) 3); [contradiction|]. destruct (Nat.eqb_spec (length m) 1); [contradiction|]. reflexivity.
Qed.

Lemma write_el_spec {A} (k : Z) (v d : A) (l : list A) :
  ((- Z.of_nat (length l) <= k < Z.of_nat (length l))%Z -> exists l', write_el k v l = Ok l' /\ length l' = length l /\ forall j, (j < length l)%nat -> nth j l' d = if (Z.of_nat j =? k mod Z.of_nat (length l))%Z then v else nth j l d) /\
  (~ (- Z.of_nat (length l) <= k < Z.of_nat (length l))%Z -> write_el k v l = Raise IndexError).
Proof.
  unfold write_el, py_index. split.
  - intros H. destruct (Z.ltb_spec k (- Z.of_nat (length l))); [lia|]. destruct (Z.leb_spec (Z.of_nat (length l)) k); [lia|]. cbn [rbind]. eexists. split; [reflexivity|].
    assert (E : Z.of_nat (Z.to_nat (if (k <? 0)%Z then k + Z.of_nat (length l) else k)%Z) = (k mod Z.of_nat (length l))%Z).
    { destruct (Z.ltb_spec k 0).
      - rewrite Z2Nat.id by lia. rewrite <- (Z_mod_plus_full k 1). rewrite Z.mul_1_l, Z.mod_small by lia. reflexivity.
      - rewrite Z2Nat.id by lia. rewrite Z.mod_small by lia. reflexivity. }
    set (i := Z.to_nat _) in *. assert (I : (i < length l)%nat) by (pose proof (Z.mod_pos_bound k (Z.of_nat (length l)) ltac:(lia)); lia). split; [apply update_len, I|].
    intros j Hj. rewrite update_nth by exact I. rewrite <- E. destruct (Nat.eqb_spec j i) as [->|D]; [rewrite Z.eqb_refl; reflexivity|]. destruct (Z.eqb_spec (Z.of_nat j) (Z.of_nat i)); [lia|reflexivity].
  - intros H. destruct (Z.ltb_spec k (- Z.of_nat (length l))); [reflexivity|]. destruct (Z.leb_spec (Z.of_nat (length l)) k); [reflexivity|]. lia.
Qed.

(*! C130: an element of a row that an accessor returned (counted from the end when negative) written with a value is read back from the object, all its other elements, rows, arrays and all other objects being unchanged; an index outside raises IndexError and changes nothing. *)
Lemma C130_view_l : forall (h : heap) (o r : nat) (k : Z) (v : C), reach h -> (o < length (h_objs h))%nat -> (r < 3)%nat ->
  let n := Z.of_nat (t_npts (obj h o)) in
  ((- n <= k < n)%Z -> exists h', write_field o r k v h = (Ok tt, h') /\
    (forall j, (j < t_npts (obj h o))%nat -> nth j (read_row r o h') (RtoC 0) = if (Z.of_nat j =? k mod n)%Z then v else nth j (read_row r o h) (RtoC 0)) /\
    (forall r' o', (r' <> r \/ o' <> o) -> read_row r' o' h' = read_row r' o' h) /\
    (forall o', t_npts (obj h' o') = t_npts (obj h o') /\ t_derivs (obj h' o') = t_derivs (obj h o') /\ t_ks (obj h' o') = t_ks (obj h o')) /\ h_k0s h' = h_k0s h) /\
  (~ (- n <= k < n)%Z -> write_field o r k v h = (Raise IndexError, h)).
Proof.
  intros h o r k v Hh Ho Hr n. pose proof (proj1 (reach_good h Hh) _ (obj_in h o Ho)) as (S1 & _ & _). pose proof (row_len _ r _ S1 Hr) as RL.
  destruct (write_el_spec k v (RtoC 0) (nth r (t_fields (obj h o)) [])) as (W1 & W2). rewrite RL in W1, W2. fold n in W1, W2. unfold write_field, bind, gets, lift, modify. split.
  - intros H. destruct (W1 H) as (l' & E & L' & V). rewrite E. eexists. split; [reflexivity|].
    assert (RR : forall r' o', read_row r' o' (with_obj o (mkT (t_npts (obj h o)) (update r l' (t_fields (obj h o))) (t_derivs (obj h o)) (t_ks (obj h o))) h) = if (Nat.eqb o' o && Nat.eqb r' r)%bool then l' else read_row r' o' h).
    { intros r' o'. unfold read_row. rewrite obj_with by exact Ho. destruct (Nat.eqb_spec o' o) as [->|]; [|reflexivity]. cbn [t_fields andb]. rewrite update_nth by lia. reflexivity. }
    split; [intros j Hj; rewrite RR, !Nat.eqb_refl; apply V, Hj|]. split.
    { intros r' o' D. rewrite RR. destruct (Nat.eqb_spec o' o), (Nat.eqb_spec r' r); try reflexivity. destruct D; contradiction. }
    split; [|reflexivity]. intros o'. rewrite obj_with by exact Ho. destruct (Nat.eqb_spec o' o) as [->|]; auto.
  - intros H. rewrite (W2 H). reflexivity.
Qed.

(*! C130: likewise for an element of field_derivs and of ks: it is stored in its row of its array, everything else being unchanged; an index outside raises IndexError and changes nothing. *)
Lemma C130_arrays_l : forall (h : heap) (o r : nat) (k : Z) (v : C) (q : R), reach h -> (o < length (h_objs h))%nat -> (r < 3)%nat ->
  let n := Z.of_nat (t_npts (obj h o)) in
  ((- n <= k < n)%Z -> exists h1 h2, write_deriv o r k v h = (Ok tt, h1) /\ write_k o r k q h = (Ok tt, h2) /\
    (forall j, (j < t_npts (obj h o))%nat -> nth j (nth r (t_derivs (obj h1 o)) []) (RtoC 0) = if (Z.of_nat j =? k mod n)%Z then v else nth j (nth r (t_derivs (obj h o)) []) (RtoC 0)) /\
    (forall j, (j < t_npts (obj h o))%nat -> nth j (nth r (t_ks (obj h2 o)) []) 0 = if (Z.of_nat j =? k mod n)%Z then q else nth j (nth r (t_ks (obj h o)) []) 0) /\
    (forall r', r' <> r -> nth r' (t_derivs (obj h1 o)) [] = nth r' (t_derivs (obj h o)) [] /\ nth r' (t_ks (obj h2 o)) [] = nth r' (t_ks (obj h o)) []) /\
    t_fields (obj h1 o) = t_fields (obj h o) /\ t_ks (obj h1 o) = t_ks (obj h o) /\ t_fields (obj h2 o) = t_fields (obj h o) /\ t_derivs (obj h2 o) = t_derivs (obj h o) /\
    forall o', o' <> o -> obj h1 o' = obj h o' /\ obj h2 o' = obj h o') /\
  (~ (- n <= k < n)%Z -> write_deriv o r k v h = (Raise IndexError, h) /\ write_k o r k q h = (Raise IndexError, h)).
Proof.
  intros h o r k v q Hh Ho Hr n. pose proof (proj1 (reach_good h Hh) _ (obj_in h o Ho)) as (_ & S2 & S3). pose proof (row_len _ r _ S2 Hr) as R2. pose proof (row_len _ r _ S3 Hr) as R3.
  destruct (write_el_spec k v (RtoC 0) (nth r (t_derivs (obj h o)) [])) as (D1 & D2). rewrite R2 in D1, D2. fold n in D1, D2.
  destruct (write_el_spec k q 0 (nth r (t_ks (obj h o)) [])) as (K1 & K2). rewrite R3 in K1, K2. fold n in K1, K2. unfold write_deriv, write_k, bind, gets, lift, modify. split.
  - intros H. destruct (D1 H) as (l1 & E1 & _ & V1). destruct (K1 H) as (l2 & E2 & _ & V2). rewrite E1, E2. eexists. eexists. split; [reflexivity|]. split; [reflexivity|].
    rewrite !obj_with by exact Ho. rewrite Nat.eqb_refl. cbn [t_fields t_derivs t_ks]. rewrite !update_nth by lia. rewrite Nat.eqb_refl.
    split; [exact V1|]. split; [exact V2|]. split; [intros r' D; rewrite !update_nth by lia; destruct (Nat.eqb_spec r' r); [contradiction|auto]|]. do 4 (split; [reflexivity|]).
    intros o' D. rewrite !obj_with by exact Ho. destruct (Nat.eqb_spec o' o); [contradiction|auto].
  - intros H. rewrite (D2 H), (K2 H). auto.
Qed.

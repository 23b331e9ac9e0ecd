(** Proofs about the containers of field_classes.py (C130, C131). *)
From Coq Require Import Reals List ZArith Bool Arith Lia Lra.
From Coquelicot Require Import Complex.
From Verif Require Import Base CNum NumPy ModelFields.
Import ListNotations.
Local Open Scope R_scope.

Lemma update_len {A} i (v : A) l : (i < length l)%nat -> length (update i v l) = length l.
Proof. intros H. unfold update. rewrite app_length, firstn_length. cbn [length]. rewrite skipn_length. lia. Qed.
Lemma update_nth {A} i j (v d : A) l : (i < length l)%nat -> nth j (update i v l) d = if Nat.eqb j i then v else nth j l d.
Proof.
  revert i j. induction l as [|x l IH]; intros i j H; [cbn in H; lia|]. destruct i as [|i].
  - destruct j; reflexivity.
  - destruct j; [reflexivity|]. change (nth j (update i v l) d = if Nat.eqb j i then v else nth j l d). apply IH. cbn in H. lia.
Qed.
Lemma update_in {A} i (v x : A) l : In x (update i v l) -> x = v \/ In x l.
Proof. unfold update. intros H. apply in_app_or in H as [H|[H|H]]; [right; rewrite <- (firstn_skipn i l); apply in_or_app; left; exact H|left; auto|]. right. rewrite <- (firstn_skipn (S i) l). apply in_or_app. right. exact H. Qed.

(** ** What every object looks like *)
Definition shaped (t : three) : Prop :=
  (length (t_fields t) = 3%nat /\ forall r, In r (t_fields t) -> length r = t_npts t) /\ (length (t_derivs t) = 3%nat /\ forall r, In r (t_derivs t) -> length r = t_npts t) /\
  (length (t_ks t) = 3%nat /\ forall r, In r (t_ks t) -> length r = t_npts t).
Definition good (h : heap) : Prop := (forall t, In t (h_objs h) -> shaped t) /\ length (h_k0s h) = 3%nat.
(** the heaps that a program can reach *)
Inductive reach : heap -> Prop :=
| reach0 : reach heap0
| reach1 : forall h x, reach h -> fop_ok h x -> reach (run_fop x h).

Lemma blank_shaped n : shaped (blank n).
Proof. unfold shaped, blank. cbn [t_fields t_derivs t_ks t_npts]. repeat split; intros r H; apply repeat_spec in H; subst r; apply repeat_length. Qed.
Lemma obj_in h o : (o < length (h_objs h))%nat -> In (obj h o) (h_objs h).
Proof. intros H. apply nth_In, H. Qed.
Lemma good_with h o t : good h -> (o < length (h_objs h))%nat -> shaped t -> good (with_obj o t h).
Proof. intros (G & K) H S. split; [|exact K]. intros x Hx. apply update_in in Hx as [->|Hx]; [exact S|apply G, Hx]. Qed.
Lemma fit_len {A} (d : A) n l l' : fit d n l = Ok l' -> length l' = n.
Proof. unfold fit. destruct (Nat.eqb_spec (length l) n) as [E|E]; [intros H; injection H as <-; exact E|]. destruct (Nat.eqb _ 1); [intros H; injection H as <-; apply repeat_length|discriminate]. Qed.
Lemma write_el_len {A} k (v : A) l l' : write_el k v l = Ok l' -> length l' = length l.
Proof.
  unfold write_el, py_index. destruct (Z.ltb_spec k (- Z.of_nat (length l))); [discriminate|]. destruct (Z.leb_spec (Z.of_nat (length l)) k); [discriminate|]. cbn [rbind]. intros H'. injection H' as <-.
  apply update_len. destruct (Z.ltb_spec k 0); lia.
Qed.
Lemma new_good n h : good h -> good (snd (new_fields n h)).
Proof. intros (G & K). split; [|exact K]. intros t H. cbn [new_fields snd h_objs] in H. apply in_app_or in H as [H|[<-|[]]]; [apply G, H|apply blank_shaped]. Qed.
Lemma shaped_rows {A} (n r : nat) (row : list A) (l : list (list A)) : (length l = 3%nat /\ forall x, In x l -> length x = n) -> (r < 3)%nat -> length row = n -> length (update r row l) = 3%nat /\ forall x, In x (update r row l) -> length x = n.
Proof. intros (L & H) Hr Hl. split; [rewrite update_len; lia|]. intros x Hx. apply update_in in Hx as [->|Hx]; auto. Qed.
Lemma row_len {A} (n r : nat) (l : list (list A)) : (length l = 3%nat /\ forall x, In x l -> length x = n) -> (r < 3)%nat -> length (nth r l []) = n.
Proof. intros (L & H) Hr. apply H, nth_In. lia. Qed.
Definition spread (n : nat) (r : list C) : list C := if Nat.eqb (length r) n then r else repeat (nth 0 r (RtoC 0)) n.
Lemma spread_len n r : length (spread n r) = n.
Proof. unfold spread. destruct (Nat.eqb_spec (length r) n); [assumption|apply repeat_length]. Qed.
Lemma set_all_good o m h : good h -> (o < length (h_objs h))%nat -> good (snd (set_all o m h)).
Proof.
  intros G H. pose proof (proj1 G _ (obj_in h o H)) as (S1 & S2 & S3). unfold set_all, bind, gets, lift, modify, ret, raise. destruct (fit [] 3 m) as [rows|e] eqn:F; [|exact G]. destruct (forallb _ rows); [|exact G]. cbn [snd].
  apply good_with; [exact G|exact H|]. split; [|split; assumption]. cbn [t_fields t_npts]. split; [rewrite map_length; apply (fit_len _ _ _ _ F)|]. intros r Hr. apply in_map_iff in Hr as (x & <- & _). apply (spread_len _ x).
Qed.
Lemma run_good x h : good h -> fop_ok h x -> good (run_fop x h).
Proof.
  intros G Hx. destruct x as [n|o|r o f|o m|o r k v|o r k v|o r k v|o k v]; cbn [fop_ok run_fop] in *.
  - apply new_good, G.
  - unfold create_copy, bind, gets. change (fst (new_fields (t_npts (obj h o)) h)) with (Ok (length (h_objs h))). destruct (new_fields (t_npts (obj h o)) h) as [c h'] eqn:E. assert (E' := E). unfold new_fields in E'. injection E' as <- Eh.
    pose proof (new_good (t_npts (obj h o)) h G) as G'. rewrite E in G'. cbn [snd] in G'.
    assert (L : (length (h_objs h) < length (h_objs h'))%nat) by (subst h'; cbn [h_objs]; rewrite app_length; cbn [length]; lia).
    pose proof (set_all_good (length (h_objs h)) (t_fields (obj h o)) h' G' L) as S. destruct (set_all _ _ h') as [[u|e] h2]; exact S.
  - destruct Hx as (Ho & Hr). pose proof (proj1 G _ (obj_in h o Ho)) as (S1 & S2 & S3). unfold set_row, bind, gets, lift, modify. destruct (fit _ _ f) as [row|e] eqn:F; [|exact G]. cbn [snd].
    apply good_with; [exact G|exact Ho|]. split; [|split; assumption]. apply (shaped_rows _ r row _ S1 Hr). apply (fit_len _ _ _ _ F).
  - apply set_all_good; assumption.
  - destruct Hx as (Ho & Hr). pose proof (proj1 G _ (obj_in h o Ho)) as (S1 & S2 & S3). unfold write_field, bind, gets, lift, modify. destruct (write_el _ _ _) as [row|e] eqn:F; [|exact G]. cbn [snd].
    apply good_with; [exact G|exact Ho|]. split; [|split; assumption]. apply (shaped_rows _ r row _ S1 Hr). rewrite (write_el_len _ _ _ _ F). apply (row_len _ r _ S1 Hr).
  - destruct Hx as (Ho & Hr). pose proof (proj1 G _ (obj_in h o Ho)) as (S1 & S2 & S3). unfold write_deriv, bind, gets, lift, modify. destruct (write_el _ _ _) as [row|e] eqn:F; [|exact G]. cbn [snd].
    apply good_with; [exact G|exact Ho|]. split; [assumption|]. split; [|assumption]. apply (shaped_rows _ r row _ S2 Hr). rewrite (write_el_len _ _ _ _ F). apply (row_len _ r _ S2 Hr).
  - destruct Hx as (Ho & Hr). pose proof (proj1 G _ (obj_in h o Ho)) as (S1 & S2 & S3). unfold write_k, bind, gets, lift, modify. destruct (write_el _ _ _) as [row|e] eqn:F; [|exact G]. cbn [snd].
    apply good_with; [exact G|exact Ho|]. split; [assumption|]. split; [assumption|]. apply (shaped_rows _ r row _ S3 Hr). rewrite (write_el_len _ _ _ _ F). apply (row_len _ r _ S3 Hr).
  - unfold write_k0, bind, get, lift, modify. destruct (write_el _ _ _) as [l|e] eqn:F; [|exact G]. cbn [snd]. split; [exact (proj1 G)|]. cbn [h_k0s]. rewrite (write_el_len _ _ _ _ F). exact (proj2 G).
Qed.
Lemma reach_good h : reach h -> good h.
Proof. induction 1 as [|h x _ IH Hx]; [split; [intros t []|reflexivity]|apply run_good; assumption]. Qed.

(** ** Reading after writing *)
Lemma obj_with h o o' t : (o < length (h_objs h))%nat -> obj (with_obj o t h) o' = if Nat.eqb o' o then t else obj h o'.
Proof. intros H. unfold obj, with_obj. cbn [h_objs]. apply update_nth, H. Qed.
(*! C130: for every program, writing a field of the grid's length (or a single value, which is repeated) into one of the three fields stores it there and changes no other field, no other array and no other object; any other length raises ValueError and changes nothing. *)
Lemma C130_set_get_l : forall (h : heap) (o r : nat) (f : list C), reach h -> (o < length (h_objs h))%nat -> (r < 3)%nat ->
  ((length f = t_npts (obj h o) \/ length f = 1%nat) -> exists h', set_row r o f h = (Ok tt, h') /\
    length (read_row r o h') = t_npts (obj h o) /\ (forall k, (k < t_npts (obj h o))%nat -> nth k (read_row r o h') (RtoC 0) = nth (if Nat.eqb (length f) (t_npts (obj h o)) then k else 0) f (RtoC 0)) /\
    (forall r' o', (r' <> r \/ o' <> o) -> read_row r' o' h' = read_row r' o' h) /\
    (forall o', t_npts (obj h' o') = t_npts (obj h o') /\ t_derivs (obj h' o') = t_derivs (obj h o') /\ t_ks (obj h' o') = t_ks (obj h o')) /\ h_k0s h' = h_k0s h) /\
  (length f <> t_npts (obj h o) -> length f <> 1%nat -> set_row r o f h = (Raise ValueError, h)).
Proof.
  intros h o r f Hh Ho Hr. pose proof (proj1 (reach_good h Hh) _ (obj_in h o Ho)) as (S1 & _ & _). split.
  - intros Hf. assert (F : exists row, fit (RtoC 0) (t_npts (obj h o)) f = Ok row /\ length row = t_npts (obj h o) /\ forall k, (k < t_npts (obj h o))%nat -> nth k row (RtoC 0) = nth (if Nat.eqb (length f) (t_npts (obj h o)) then k else 0) f (RtoC 0)).
    { unfold fit. destruct (Nat.eqb_spec (length f) (t_npts (obj h o))) as [E|E]; [exists f; auto|]. destruct Hf as [Hf|Hf]; [contradiction|]. rewrite Hf. cbn [Nat.eqb]. eexists. split; [reflexivity|]. split; [apply repeat_length|].
      intros k Hk. generalize (nth 0 f (RtoC 0)). intros c. revert k Hk. generalize (t_npts (obj h o)). intros n. induction n as [|n IH]; intros k Hk; [lia|]. destruct k; [reflexivity|]. cbn [repeat nth]. apply IH. lia. }
    destruct F as (row & F & L & N). eexists. split.
    { unfold set_row, bind, gets, lift, modify. rewrite F. reflexivity. }
    assert (RR : forall r' o', read_row r' o' (with_obj o (mkT (t_npts (obj h o)) (update r row (t_fields (obj h o))) (t_derivs (obj h o)) (t_ks (obj h o))) h) = if (Nat.eqb o' o && Nat.eqb r' r)%bool then row else read_row r' o' h).
    { intros r' o'. unfold read_row. rewrite obj_with by exact Ho. destruct (Nat.eqb_spec o' o) as [->|]; [|reflexivity]. cbn [t_fields andb]. rewrite update_nth by lia. reflexivity. }
    split; [rewrite RR, !Nat.eqb_refl; exact L|]. split; [intros k Hk; rewrite RR, !Nat.eqb_refl; apply N, Hk|]. split.
    { intros r' o' D. rewrite RR. destruct (Nat.eqb_spec o' o), (Nat.eqb_spec r' r); try reflexivity. destruct D; contradiction. }
    split; [|reflexivity]. intros o'. rewrite obj_with by exact Ho. destruct (Nat.eqb_spec o' o) as [->|]; auto.
  - intros H1 H2. unfold set_row, bind, gets, lift, fit. destruct (Nat.eqb_spec (length f) (t_npts (obj h o))); [contradiction|]. destruct (Nat.eqb_spec (length f) 1); [contradiction|]. reflexivity.
Qed.

(** ** Copies and independence *)
Definition zeros {A} (z : A) (n : nat) : list (list A) := repeat (repeat z n) 3.
Lemma copy_run h o : reach h -> (o < length (h_objs h))%nat ->
  create_copy o h = (Ok (length (h_objs h)), mkH (h_objs h ++ [mkT (t_npts (obj h o)) (t_fields (obj h o)) (zeros (RtoC 0) (t_npts (obj h o))) (zeros 0 (t_npts (obj h o)))]) (h_k0s h)).
Proof.
  intros Hh Ho. pose proof (proj1 (reach_good h Hh) _ (obj_in h o Ho)) as ((L & S1) & _ & _). set (t := obj h o) in *. unfold create_copy, bind, gets, new_fields. fold t. unfold set_all, bind, gets, lift.
  assert (B : obj (mkH (h_objs h ++ [blank (t_npts t)]) (h_k0s h)) (length (h_objs h)) = blank (t_npts t)) by (unfold obj; cbn [h_objs]; rewrite app_nth2 by lia; rewrite Nat.sub_diag; reflexivity). rewrite B. cbn [blank t_npts t_derivs t_ks].
  unfold fit. rewrite L. cbn [Nat.eqb].
  assert (FB : forallb (fun r => Nat.eqb (length r) (t_npts t) || Nat.eqb (length r) 1)%bool (t_fields t) = true) by (apply forallb_forall; intros r Hr; rewrite (S1 r Hr), Nat.eqb_refl; reflexivity). rewrite FB.
  unfold ret, modify, with_obj. cbn [h_objs h_k0s]. f_equal. f_equal. unfold update. rewrite firstn_app, Nat.sub_diag, firstn_all, firstn_O, app_nil_r. rewrite skipn_all2 by (rewrite app_length; cbn; lia). f_equal. f_equal. f_equal.
  rewrite <- (map_id (t_fields t)) at 2. apply map_ext_in. intros r Hr. rewrite (S1 r Hr), Nat.eqb_refl. reflexivity.
Qed.
Lemma keep x h o : fop_ok h x -> (o < length (h_objs h))%nat -> reach h -> target x <> Some o -> obj (run_fop x h) o = obj h o /\ (length (h_objs h) <= length (h_objs (run_fop x h)))%nat.
Proof.
  intros Hx Ho Hh T. destruct x as [n|o1|r o1 f|o1 m|o1 r k v|o1 r k v|o1 r k v|o1 k v]; cbn [fop_ok run_fop target] in *.
  - cbn [new_fields snd]. split; [unfold obj; cbn [h_objs]; apply app_nth1, Ho|cbn [h_objs]; rewrite app_length; lia].
  - rewrite (copy_run h o1 Hh Hx). cbn [snd]. split; [unfold obj at 1; cbn [h_objs]; rewrite app_nth1 by exact Ho; reflexivity|cbn [h_objs]; rewrite app_length; lia].
  - assert (N : o <> o1) by congruence. unfold set_row, bind, gets, lift, modify. destruct (fit _ _ _); [|split; [reflexivity|apply le_n]]. cbn [snd]. rewrite obj_with by apply Hx. destruct (Nat.eqb_spec o o1); [contradiction|]. split; [reflexivity|]. cbn [with_obj h_objs]. rewrite update_len by apply Hx. apply le_n.
  - assert (N : o <> o1) by congruence. unfold set_all, bind, gets, lift, modify, ret, raise. destruct (fit _ _ _); [|split; [reflexivity|apply le_n]]. destruct (forallb _ _); [|split; [reflexivity|apply le_n]]. cbn [snd]. rewrite obj_with by apply Hx. destruct (Nat.eqb_spec o o1); [contradiction|]. split; [reflexivity|]. cbn [with_obj h_objs]. rewrite update_len by apply Hx. apply le_n.
  - assert (N : o <> o1) by congruence. unfold write_field, bind, gets, lift, modify. destruct (write_el _ _ _); [|split; [reflexivity|apply le_n]]. cbn [snd]. rewrite obj_with by apply Hx. destruct (Nat.eqb_spec o o1); [contradiction|]. split; [reflexivity|]. cbn [with_obj h_objs]. rewrite update_len by apply Hx. apply le_n.
  - assert (N : o <> o1) by congruence. unfold write_deriv, bind, gets, lift, modify. destruct (write_el _ _ _); [|split; [reflexivity|apply le_n]]. cbn [snd]. rewrite obj_with by apply Hx. destruct (Nat.eqb_spec o o1); [contradiction|]. split; [reflexivity|]. cbn [with_obj h_objs]. rewrite update_len by apply Hx. apply le_n.
  - assert (N : o <> o1) by congruence. unfold write_k, bind, gets, lift, modify. destruct (write_el _ _ _); [|split; [reflexivity|apply le_n]]. cbn [snd]. rewrite obj_with by apply Hx. destruct (Nat.eqb_spec o o1); [contradiction|]. split; [reflexivity|]. cbn [with_obj h_objs]. rewrite update_len by apply Hx. apply le_n.
  - unfold write_k0, bind, get, lift, modify. destruct (write_el _ _ _); split; try reflexivity; apply le_n.
Qed.
(** a continuation of a program: operations on objects that exist at their time *)
Inductive leads : heap -> list fop -> heap -> Prop :=
| leads0 : forall h, leads h [] h
| leads1 : forall h x xs h', fop_ok h x -> leads (run_fop x h) xs h' -> leads h (x :: xs) h'.
(*! C130: create_copy returns a new object with the same number of points and the same three fields, its two other arrays being zero, and changes no object that exists.  From then on whatever a program does with other objects, among them the original, leaves the arrays of the copy alone, and whatever it does with the copy leaves those of the original alone, even through the arrays that the accessors return. *)
Lemma C130_copy_l : forall (h : heap) (o : nat), reach h -> (o < length (h_objs h))%nat -> exists c h1, create_copy o h = (Ok c, h1) /\
  (length (h_objs h) <= c)%nat /\ t_npts (obj h1 c) = t_npts (obj h o) /\ (forall r, read_row r c h1 = read_row r o h) /\
  (forall r k, (r < 3)%nat -> (k < t_npts (obj h o))%nat -> nth k (nth r (t_derivs (obj h1 c)) []) (RtoC 0) = RtoC 0 /\ nth k (nth r (t_ks (obj h1 c)) []) 0 = 0) /\
  (forall o', (o' < length (h_objs h))%nat -> obj h1 o' = obj h o') /\
  (forall xs h2, leads h1 xs h2 -> (forall x, In x xs -> target x <> Some c) -> obj h2 c = obj h1 c) /\
  (forall xs h2, leads h1 xs h2 -> (forall x, In x xs -> target x <> Some o) -> obj h2 o = obj h o).
Proof.
  intros h o Hh Ho. pose proof (copy_run h o Hh Ho) as E. set (t := obj h o) in *. eexists. eexists. split; [exact E|]. set (h1 := mkH _ _).
  assert (C : obj h1 (length (h_objs h)) = mkT (t_npts t) (t_fields t) (zeros (RtoC 0) (t_npts t)) (zeros 0 (t_npts t))) by (unfold obj, h1; cbn [h_objs]; rewrite app_nth2 by lia; rewrite Nat.sub_diag; reflexivity).
  assert (O : forall o', (o' < length (h_objs h))%nat -> obj h1 o' = obj h o') by (intros o' H; unfold obj, h1; cbn [h_objs]; apply app_nth1, H).
  assert (R1 : reach h1). { pose proof (reach1 h (FCopy o) Hh Ho) as R. cbn [run_fop] in R. rewrite E in R. exact R. }
  assert (KEEP : forall xs h0 h2 o', reach h0 -> leads h0 xs h2 -> (o' < length (h_objs h0))%nat -> (forall x, In x xs -> target x <> Some o') -> obj h2 o' = obj h0 o').
  { intros xs h0 h2 o' R L. revert R. induction L as [h0|h0 x xs h2 Hx L IH]; intros R H T; [reflexivity|]. destruct (keep x h0 o' Hx H R (T x (or_introl eq_refl))) as (K1 & K2). rewrite IH; [exact K1|apply reach1; assumption|lia|]. intros y Hy. apply T. right. exact Hy. }
  assert (Z : forall {A} (z : A) n r k, (r < 3)%nat -> (k < n)%nat -> nth k (nth r (zeros z n) []) z = z). { intros A z n r k Hr Hk. unfold zeros. destruct r as [|[|[|]]]; [| | |lia]; cbn [repeat nth]; clear Hr; revert k Hk; induction n as [|n IH]; intros k Hk; try lia; destruct k; try reflexivity; cbn [repeat nth]; apply IH; lia. }
  split; [apply le_n|]. rewrite C. cbn [t_npts t_derivs t_ks]. split; [reflexivity|]. split; [intros r; unfold read_row; rewrite C; reflexivity|]. split; [intros r k Hr Hk; split; apply Z; assumption|]. split; [exact O|]. split.
  - intros xs h2 L T. rewrite <- C. apply (KEEP xs h1 h2 _ R1 L); [unfold h1; cbn [h_objs]; rewrite app_length; cbn; lia|exact T].
  - intros xs h2 L T. fold t. transitivity (obj h1 o); [|apply O, Ho]. apply (KEEP xs h1 h2 o R1 L); [unfold h1; cbn [h_objs]; rewrite app_length; cbn; lia|exact T].
Qed.
(*! C130 refuted: a copy is not equal to the original when that has a wave vector other than zero. *)
Lemma C130_copy_equal_refuted_l : forall (h : heap) (o r k : nat), reach h -> (o < length (h_objs h))%nat -> (r < 3)%nat -> (k < t_npts (obj h o))%nat -> nth k (nth r (t_ks (obj h o)) []) 0 <> 0 ->
  exists c h1, create_copy o h = (Ok c, h1) /\ nth k (nth r (t_ks (obj h1 c)) []) 0 = 0 /\ t_ks (obj h1 c) <> t_ks (obj h1 o).
Proof.
  intros h o r k Hh Ho Hr Hk Hne. destruct (C130_copy_l h o Hh Ho) as (c & h1 & E & _ & _ & _ & Z & O & _). exists c, h1. split; [exact E|]. destruct (Z r k Hr Hk) as (_ & Z2). split; [exact Z2|]. intros Q. apply Hne. rewrite <- (O o Ho), <- Q. exact Z2.
Qed.
(*! C130 refuted: the central wave vectors k0s are one list for all objects: a value written through one object is read through every other, also one created later. *)
Lemma C130_shared_k0s_refuted_l : forall (h : heap) (a b k n : nat) (v : R), reach h -> (a < length (h_objs h))%nat -> (b < length (h_objs h))%nat -> (k < 3)%nat ->
  exists h1, write_k0 a (Z.of_nat k) v h = (Ok tt, h1) /\ h_objs h1 = h_objs h /\ read_k0 b k h1 = v /\
  exists c h2, new_fields n h1 = (Ok c, h2) /\ read_k0 c k h2 = v.
Proof.
  intros h a b k n v Hh Ha Hb Hk. pose proof (proj2 (reach_good h Hh)) as K.
  assert (W : write_el (Z.of_nat k) v (h_k0s h) = Ok (update k v (h_k0s h))).
  { unfold write_el, py_index. rewrite K. destruct (Z.ltb_spec (Z.of_nat k) (- Z.of_nat 3)); [lia|]. destruct (Z.leb_spec (Z.of_nat 3) (Z.of_nat k)); [lia|]. destruct (Z.ltb_spec (Z.of_nat k) 0); [lia|]. cbn [rbind]. rewrite Nat2Z.id. reflexivity. }
  assert (N : nth k (update k v (h_k0s h)) 0 = v) by (rewrite update_nth by lia; rewrite Nat.eqb_refl; reflexivity).
  eexists. split; [unfold write_k0, bind, get, lift, modify; rewrite W; reflexivity|]. split; [reflexivity|]. split; [exact N|]. eexists. eexists. split; [reflexivity|]. exact N.
Qed.

(** ** C131 *)
(*! C131: calculate_overlap of two ints 0, 1, 2 is the mean of the two waists, symmetric in its arguments, and the waist itself for equal ones; arguments of another type raise TypeError, ints outside 0..3 ValueError. *)
Lemma C131_overlap_partial_l : forall (pump sgnl idlr : R) (a b : Z),
  let w := waists pump sgnl idlr in let waist z := if (z =? 0)%Z then pump else if (z =? 1)%Z then sgnl else idlr in
  ((0 <= a <= 2)%Z -> (0 <= b <= 2)%Z -> calculate_overlap w (AInt a) (AInt b) = Ok ((waist a + waist b) / 2)) /\
  calculate_overlap w (AInt a) (AInt b) = calculate_overlap w (AInt b) (AInt a) /\
  ((0 <= a <= 2)%Z -> calculate_overlap w (AInt a) (AInt a) = Ok (waist a)) /\
  (forall x, calculate_overlap w x AOther = Raise TypeError /\ calculate_overlap w AOther x = Raise TypeError) /\
  ((a < 0 \/ 3 < a \/ b < 0 \/ 3 < b)%Z -> calculate_overlap w (AInt a) (AInt b) = Raise ValueError).
Proof.
  intros pump sgnl idlr a b w waist.
  assert (IX : forall z, (0 <= z <= 2)%Z -> exists i, py_index (length w) z = Ok i /\ nth i w 0 = waist z).
  { intros z Hz. assert (D : (z = 0 \/ z = 1 \/ z = 2)%Z) by lia. destruct D as [->|[->| ->]]; eexists; split; reflexivity. }
  assert (VAL : forall a b, (0 <= a <= 2)%Z -> (0 <= b <= 2)%Z -> calculate_overlap w (AInt a) (AInt b) = Ok ((waist a + waist b) / 2)).
  { intros x y Hx Hy. unfold calculate_overlap. destruct (Z.ltb_spec x 0); [lia|]. destruct (Z.ltb_spec 3 x); [lia|]. destruct (Z.ltb_spec y 0); [lia|]. destruct (Z.ltb_spec 3 y); [lia|]. cbn [orb].
    destruct (IX x Hx) as (i & -> & Ni). destruct (IX y Hy) as (j & -> & Nj). cbn [rbind]. rewrite Ni, Nj. reflexivity. }
  split; [apply VAL|]. split.
  { unfold calculate_overlap. destruct (Z.ltb_spec a 0), (Z.ltb_spec 3 a), (Z.ltb_spec b 0), (Z.ltb_spec 3 b); cbn [orb]; try reflexivity.
    assert (E : forall z, py_index (length w) z = Raise IndexError \/ exists i, py_index (length w) z = Ok i). { intros z. unfold py_index. destruct (_ <? _)%Z; [left; reflexivity|]. destruct (_ <=? _)%Z; [left; reflexivity|]. right. eexists. reflexivity. }
    destruct (E a) as [-> |(i & ->)], (E b) as [-> |(j & ->)]; cbn [rbind]; try reflexivity. f_equal. lra. }
  split; [intros Ha; rewrite (VAL a a Ha Ha); f_equal; lra|]. split; [intros [z|]; split; reflexivity|].
  intros H. unfold calculate_overlap. destruct (Z.ltb_spec a 0), (Z.ltb_spec 3 a), (Z.ltb_spec b 0), (Z.ltb_spec 3 b); cbn [orb]; try reflexivity. lia.
Qed.
(*! C131 refuted: the code 3, which the docstring gives for the idler and the range check accepts, raises IndexError whatever the waists and the other field. *)
Lemma C131_idler_code_refuted_l : forall (pump sgnl idlr : R) (a : Z), (0 <= a <= 3)%Z ->
  calculate_overlap (waists pump sgnl idlr) (AInt 3) (AInt a) = Raise IndexError /\ calculate_overlap (waists pump sgnl idlr) (AInt a) (AInt 3) = Raise IndexError.
Proof. intros pump sgnl idlr a Ha. assert (D : (a = 0 \/ a = 1 \/ a = 2 \/ a = 3)%Z) by lia. destruct D as [->|[->|[->| ->]]]; split; reflexivity. Qed.

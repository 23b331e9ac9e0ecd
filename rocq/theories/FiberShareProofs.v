(** Proofs about several fibers: C57. *)
From Coq Require Import String.
From Coq Require Import Reals List ZArith Bool Arith Factorial Lia Lra.
From Verif Require Import Base CNum NumPy ModelPulse ModelCrystal ModelBeam ModelFiber FiberProofs.
Import ListNotations.
Local Open Scope R_scope.
Local Open Scope py_scope.

(** cells only this fiber can reach *)
Definition own (f : fiber) (l : nat) : Prop := f_specs f = Some l \/ exists k, In (k, l) (f_db f).
(** what an operation on one fiber may do *)
Definition good (s s' : heap * fiber) : Prop :=
  (length (fst s) <= length (fst s'))%nat /\ (forall l, (l < length (fst s))%nat -> ~ own (snd s) l -> l <> 0%nat -> nth l (fst s') empty_specs = nth l (fst s) empty_specs) /\
  (forall l, own (snd s') l -> own (snd s) l \/ (length (fst s) <= l < length (fst s'))%nat) /\ (f_specs (snd s) <> None -> f_specs (snd s') <> None).
Lemma good_refl s : good s s.
Proof. repeat split; auto. Qed.
Lemma good_trans s1 s2 s3 : good s1 s2 -> good s2 s3 -> good s1 s3.
Proof.
  intros (L & N & O & P) (L' & N' & O' & P'). split; [lia|]. split; [|split; [|auto]].
  - intros l Hl Ho Hz. rewrite N' by first [lia|intros Q; apply O in Q as [Q|Q]; [contradiction|lia]]. apply N; assumption.
  - intros l Ho. apply O' in Ho as [Ho|Ho]; [|right; lia]. apply O in Ho as [Ho|Ho]; [left; exact Ho|right; lia].
Qed.
Definition Good {A} (m : FM A) : Prop := forall s, good s (snd (m s)).
Lemma Good_ret {A} (a : A) : Good (ret a).
Proof. intros s. apply good_refl. Qed.
Lemma Good_raise {A} e : Good (raise e : FM A).
Proof. intros s. apply good_refl. Qed.
Lemma Good_bind {A B} (m : FM A) (k : A -> FM B) : Good m -> (forall a, Good (k a)) -> Good (bind m k).
Proof. intros Hm Hk s. unfold bind. pose proof (Hm s) as G. destruct (m s) as [[a|e] s1]; cbn [snd] in *; [|exact G]. exact (good_trans _ _ _ G (Hk a s1)). Qed.
Lemma Good_on g : (forall f, f_specs (g f) = f_specs f) -> (forall f, f_db (g f) = f_db f) -> Good (on_fiber g).
Proof. intros H1 H2 [h f]. unfold on_fiber, modify. cbn [fst snd]. split; [cbn; lia|]. split; [auto|]. split; [|rewrite ?H1; cbn [snd]; rewrite H1; auto]. cbn [snd fst]. intros l [Q|[k Q]]; left; [left; rewrite <- H1; exact Q|right; exists k; rewrite <- H2; exact Q]. Qed.
Lemma Good_put g : Good (put_specs g).
Proof.
  intros [h f]. unfold put_specs, modify. cbn [fst snd]. split; [cbn [fst]; rewrite upd_length; lia|]. cbn [fst snd]. split; [|split; [auto|auto]]. intros l Hl Ho Hz. rewrite upd_nth by exact Hl. destruct (Nat.eqb_spec l (cell f)) as [->|]; [|reflexivity]. exfalso. unfold cell in *. destruct (f_specs f) as [x|] eqn:E; [apply Ho; left; exact E|congruence].
Qed.
Lemma Good_gets {A} (g : heap * fiber -> A) : Good (gets g).
Proof. intros s. apply good_refl. Qed.
Lemma Good_lift {A} (r : result A) : Good (lift r).
Proof. intros s. unfold lift. destruct r; apply good_refl. Qed.
Lemma Good_key {A} (sel : specs -> option A) : Good (key sel).
Proof. apply Good_bind; [apply Good_gets|]. intros [v|]; [apply Good_ret|apply Good_raise]. Qed.
Lemma Good_attr {A} (sel : fiber -> option A) e : Good (attr sel e).
Proof. apply Good_bind; [apply Good_gets|]. intros [v|]; [apply Good_ret|apply Good_raise]. Qed.
Lemma Good_set_specs l f h : own f l -> good (h, f) (h, set_specs (Some l) f).
Proof. intros H. split; [cbn; lia|]. split; [reflexivity|]. split; [|discriminate]. cbn [snd fst]. intros l' [Q|[k Q]]; left; [cbn [f_specs set_specs] in Q; injection Q as <-; exact H|right; exists k; exact Q]. Qed.
Lemma find_db_In name l r : find_db name l = Some r -> exists k, In (k, r) l.
Proof. induction l as [|[k v] l IH]; cbn; [discriminate|]. destruct (String.eqb k name); [intros [= ->]; exists k; left; reflexivity|]. intros H. destruct (IH H) as [k' Q]. exists k'. right. exact Q. Qed.
Ltac gd := first [apply Good_key|apply Good_attr|apply Good_put|apply Good_on; reflexivity|apply Good_lift|apply Good_bind; [|intros]|apply Good_ret|apply Good_raise|apply Good_gets].
Lemma Good_load_dispersion : Good load_dispersion.
Proof. unfold load_dispersion. repeat (gd || match goal with |- Good (if ?b then _ else _) => destruct b end). Qed.
Lemma Good_load_from_db len name o : Good (load_from_db len name o).
Proof.
  unfold load_from_db. apply Good_bind; [apply Good_on; reflexivity|]. intros _ [h f]. unfold bind at 1, gets. cbn [snd]. destruct (find_db name (f_db f)) as [l|] eqn:E; [|apply good_refl].
  apply find_db_In in E as [k E]. apply (good_trans _ (h, set_specs (Some l) f)); [apply Good_set_specs; right; exists k; exact E|].
  unfold bind at 1. unfold on_fiber at 1, modify at 1. cbn [fst snd].
  match goal with |- good _ (snd (?m _)) => assert (G : Good m); [|exact (G _)] end. repeat (apply Good_load_dispersion || gd).
Qed.
Lemma Good_load_from_file x y len n g a k : Good (load_from_file x y len n g a k).
Proof. unfold load_from_file. repeat gd. Qed.
Lemma Good_set_dispersion d f : Good (set_dispersion_function d f).
Proof. unfold set_dispersion_function. repeat gd. Qed.
Lemma Good_set_gamma g : Good (set_gamma_function g).
Proof. unfold set_gamma_function. repeat gd. Qed.
Lemma Good_get_gamma z : Good (get_gamma z).
Proof. unfold get_gamma. apply Good_bind; [gd|]. intros f. destruct (f_gz f); gd. Qed.
Lemma Good_get_gain p : Good (get_gain p).
Proof. unfold get_gain. apply Good_bind; [gd|]. intros [|]; [|gd]. apply Good_bind; [gd|]. intros [|]; repeat gd. Qed.
Lemma generate_run len c b g a u n h f : exists f', generate_fiber len c b g a u n (h, f) = (Ok tt, (h ++ [with_gain_x None (with_is_gain (negb (is_zero a)) (with_format "GVD" empty_specs))], f')) /\ f_specs f' = Some (length h) /\ f_db f' = f_db f.
Proof.
  unfold generate_fiber, put_specs, on_fiber, modify, bind, gets, ret. cbn [fst snd cell f_specs set_specs set_type set_gain]. destruct (String.eqb u "ps^n/km"); cbn [fst snd]; rewrite !upd_app_last; (eexists; split; [reflexivity|]; split; reflexivity).
Qed.
Lemma Good_generate len c b g a u n : Good (generate_fiber len c b g a u n).
Proof.
  intros [h f]. destruct (generate_run len c b g a u n h f) as (f' & -> & Hs & Hd). cbn [fst snd]. split; [cbn [fst]; rewrite app_length; cbn; lia|]. cbn [fst snd]. split; [intros l Hl _ _; rewrite app_nth1 by exact Hl; reflexivity|]. split; [|rewrite Hs; discriminate].
  intros l [Q|[k Q]]; [right; rewrite Hs in Q; injection Q as <-; rewrite app_length; cbn; lia|left; right; exists k; rewrite <- Hd; exact Q].
Qed.
Lemma get_betas_good polyfit spline p z : Good (get_betas polyfit spline p z).
Proof.
  intros [h f]. destruct (alike_step polyfit spline _ h f p z eq_refl) as (f' & E & (b & x & y & -> & _)). rewrite E. split; [cbn; lia|]. split; [reflexivity|]. split; [|auto]. cbn [snd fst]. intros l [Q|[k Q]]; left; [left; exact Q|right; exists k; exact Q].
Qed.
Lemma Good_pV p : Good (pV p).
Proof. unfold pV. destruct (p_ready p); gd. Qed.
Lemma Good_Beta2 polyfit spline p : Good (Beta2 polyfit spline p).
Proof.
  unfold Beta2. apply Good_bind; [apply Good_pV|]. intros v. apply Good_bind; [destruct v as [|? [|? ?]]; gd|]. intros dw. apply Good_bind; [apply get_betas_good|]. intros [B|]; [|gd]. apply Good_bind; [gd|]. intros [|]; gd.
Qed.

(** ** Reads *)
Definition same_read {A} (m : FM A) : Prop := forall (h h' : heap) f, nth (cell f) h' empty_specs = nth (cell f) h empty_specs -> fst (m (h', f)) = fst (m (h, f)).
Lemma gain_read p : same_read (get_gain p).
Proof.
  intros h h' f H. unfold get_gain, key, attr, bind, gets, self_specs, raise, ret. cbn [fst snd]. rewrite H. destruct (d_is_gain _) as [[|]|]; cbn [fst snd]; try reflexivity. rewrite H. destruct (d_gain_x _) as [[|]|]; cbn [fst snd]; try reflexivity. destruct (f_gain f); reflexivity.
Qed.
Lemma gamma_read z : same_read (get_gamma z).
Proof. intros h h' f H. unfold get_gamma, bind, gets. cbn [snd]. destruct (f_gz f); reflexivity. Qed.
Lemma betas_read polyfit spline p z : same_read (get_betas polyfit spline p z).
Proof. intros h h' f H. rewrite !get_betas_body. cbv zeta. rewrite H. destruct (refreshed _ _ _); reflexivity. Qed.
Lemma Beta2_read polyfit spline p : same_read (Beta2 polyfit spline p).
Proof.
  intros h h' f H. unfold Beta2, pV. destruct (p_ready p); [|reflexivity]. unfold bind at 1 6, ret at 1 4. destruct (V_of p) as [|a [|b l]]; try reflexivity. unfold bind at 1, ret at 1. unfold bind at 1. symmetry. unfold bind at 1, ret at 1. unfold bind at 1. symmetry. pose proof (betas_read polyfit spline p 0 h h' f H) as Q.
  destruct (get_betas polyfit spline p 0 (h', f)) as [r1 s1], (get_betas polyfit spline p 0 (h, f)) as [r2 s2]. cbn [fst] in Q. subst r1. destruct r2 as [[B|]|e]; try reflexivity. unfold bind, lift. destruct (rtraverse _ _) as [[|]|]; reflexivity.
Qed.

(** ** Worlds *)
Definition target (o : fop) : option nat := match o with FNew _ => None | FGenerate i _ _ _ _ _ _ _ | FLoadDb i _ _ _ | FLoadFile i _ _ _ _ _ _ _ | FSetDisp i _ _ | FSetGamma i _ | FGain i _ | FBetas i _ _ | FGamma i _ | FBeta2 i _ => Some i end.
Definition inv (w : fworld) : Prop := (1 <= length (fw_heap w))%nat /\ forall i f l, nth_error (fw_fs w) i = Some f -> own f l ->
  (1 <= l < length (fw_heap w))%nat /\ forall j g, j <> i -> nth_error (fw_fs w) j = Some g -> ~ own g l.
Lemma upd_nth_error {A} i (g : A -> A) l k : nth_error (upd i g l) k = if Nat.eqb k i then option_map g (nth_error l k) else nth_error l k.
Proof.
  destruct (nth_error l k) as [x|] eqn:E.
  - assert (Hk : (k < length l)%nat) by (apply nth_error_Some; congruence). rewrite (nth_error_nth' (upd i g l) x) by (rewrite upd_length; exact Hk). rewrite upd_nth by exact Hk. rewrite (nth_error_nth l k x E). destruct (Nat.eqb k i); reflexivity.
  - apply nth_error_None in E. assert (nth_error (upd i g l) k = None) as -> by (apply nth_error_None; rewrite upd_length; exact E). destruct (Nat.eqb k i); reflexivity.
Qed.
Section W.
Variable polyfit : list R -> list R -> nat -> result (list R).
Variable spline : list R -> list R -> list R -> result (list R).
(** an operation is a call on its target *)
Lemma fstep_call o i w f : target o = Some i -> nth_error (fw_fs w) i = Some f -> exists h' f', good (fw_heap w, f) (h', f') /\ snd (fstep polyfit spline w o) = mkFW h' (upd i (fun _ => f') (fw_fs w)).
Proof.
  assert (K : forall A (m : FM A) wrap, Good m -> nth_error (fw_fs w) i = Some f -> exists h' f', good (fw_heap w, f) (h', f') /\ snd (call i m wrap w) = mkFW h' (upd i (fun _ => f') (fw_fs w))).
  { intros A m wrap G E. unfold call. rewrite E. specialize (G (fw_heap w, f)). destruct (m (fw_heap w, f)) as [r [h' f']]. exists h', f'. split; [exact G|reflexivity]. }
  intros T E. destruct o; cbn [target] in T; try discriminate; injection T as ->; cbn [fstep]; apply K; try exact E.
  - apply Good_generate.
  - apply Good_load_from_db.
  - apply Good_load_from_file.
  - apply Good_set_dispersion.
  - apply Good_set_gamma.
  - apply Good_get_gain.
  - apply get_betas_good.
  - apply Good_get_gamma.
  - apply Good_Beta2.
Qed.
Lemma fstep_miss o i w : target o = Some i -> nth_error (fw_fs w) i = None -> snd (fstep polyfit spline w o) = w.
Proof. intros T E. destruct o; cbn [target] in T; try discriminate; injection T as ->; cbn [fstep]; unfold call; rewrite E; reflexivity. Qed.
Lemma inv_step w o : inv w -> inv (snd (fstep polyfit spline w o)).
Proof.
  intros [H0 H]. destruct (target o) as [i|] eqn:T.
  - destruct (nth_error (fw_fs w) i) as [f|] eqn:E; [|rewrite (fstep_miss o i w T E); split; assumption]. destruct (fstep_call o i w f T E) as (h' & f' & (L & N & O & P) & ->). cbn [fst snd] in *. split; [cbn [fw_heap]; lia|]. cbn [fw_heap fw_fs]. intros j g l Hj Ho. rewrite upd_nth_error in Hj. destruct (Nat.eqb_spec j i) as [->|Nji].
    + rewrite E in Hj. injection Hj as <-. apply O in Ho as [Ho|Ho].
      * destruct (H i f l E Ho) as [Hl Hd]. split; [lia|]. intros k g Hk Hg. rewrite upd_nth_error in Hg. destruct (Nat.eqb_spec k i); [contradiction|]. exact (Hd k g Hk Hg).
      * split; [lia|]. intros k g Hk Hg Q. rewrite upd_nth_error in Hg. destruct (Nat.eqb_spec k i); [contradiction|]. destruct (H k g l Hg Q) as [? _]. lia.
    + destruct (H j g l Hj Ho) as [Hl Hd]. split; [lia|]. intros k g' Hk Hg Q. rewrite upd_nth_error in Hg. destruct (Nat.eqb_spec k i) as [->|Nki].
      * rewrite E in Hg. injection Hg as <-. apply O in Q as [Q|Q]; [exact (Hd i f (not_eq_sym Nji) E Q)|lia].
      * exact (Hd k g' Hk Hg Q).
  - destruct o; try discriminate. cbn [fstep fiber_init fst snd]. split; [cbn [fw_heap]; rewrite app_length; lia|]. cbn [fw_heap fw_fs]. set (nf := mkFiber None _ _ _ _ _ _ _ _ _ _ _ _).
    assert (NO : forall l, own nf l -> (length (fw_heap w) <= l < length (fw_heap w) + length db)%nat). { intros l [Q|[k Q]]; [discriminate|]. cbn [f_db nf] in Q. apply in_combine_r in Q. apply in_seq in Q. exact Q. }
    intros i f l Hi Ho. destruct (Nat.lt_ge_cases i (length (fw_fs w))) as [Hlt|Hge].
    + rewrite nth_error_app1 in Hi by exact Hlt. destruct (H i f l Hi Ho) as [Hl Hd]. split; [rewrite app_length; lia|]. intros j g Hj Hg Q. destruct (Nat.lt_ge_cases j (length (fw_fs w))) as [Hjl|Hjg].
      * rewrite nth_error_app1 in Hg by exact Hjl. exact (Hd j g Hj Hg Q).
      * rewrite nth_error_app2 in Hg by exact Hjg. destruct (j - length (fw_fs w))%nat as [|[|]]; [|discriminate|discriminate]. injection Hg as <-. apply NO in Q. lia.
    + rewrite nth_error_app2 in Hi by exact Hge. destruct (i - length (fw_fs w))%nat as [|[|]] eqn:Ei; [|discriminate|discriminate]. injection Hi as <-. apply NO in Ho. split; [rewrite app_length, map_length; lia|]. intros j g Hj Hg Q. destruct (Nat.lt_ge_cases j (length (fw_fs w))) as [Hjl|Hjg].
      * rewrite nth_error_app1 in Hg by exact Hjl. destruct (H j g l Hg Q) as [? _]. lia.
      * rewrite nth_error_app2 in Hg by exact Hjg. destruct (j - length (fw_fs w))%nat as [|[|]] eqn:Ej; [lia|discriminate|discriminate].
Qed.
Lemma inv_run ops w : inv w -> inv (frun polyfit spline ops w).
Proof. revert w. induction ops as [|o ops IH]; intros w H; [exact H|]. cbn. apply IH, inv_step, H. Qed.
Lemma inv0 : inv fworld0.
Proof. split; [cbn; lia|]. intros i f l H. destruct i; discriminate. Qed.
(** quiet: no operation on a class-level dictionary *)
Definition writes_class (o : fop) : bool := match o with FLoadFile _ _ _ _ _ _ _ _ | FSetDisp _ _ _ => true | _ => false end.
Definition keep {A} (m : FM A) : Prop := forall s, fst (snd (m s)) = fst s.
Lemma keep_bind {A B} (m : FM A) (k : A -> FM B) : keep m -> (forall a, keep (k a)) -> keep (bind m k).
Proof. intros Hm Hk s. unfold bind. specialize (Hm s). destruct (m s) as [[a|e] s1]; cbn [snd] in *; [|exact Hm]. rewrite Hk. exact Hm. Qed.
Lemma keep_ret {A} (a : A) : keep (ret a). Proof. intros s. reflexivity. Qed.
Lemma keep_raise {A} e : keep (raise e : FM A). Proof. intros s. reflexivity. Qed.
Lemma keep_gets {A} (g : heap * fiber -> A) : keep (gets g). Proof. intros s. reflexivity. Qed.
Lemma keep_lift {A} (r : result A) : keep (lift r). Proof. intros s. unfold lift. destruct r; reflexivity. Qed.
Lemma keep_on g : keep (on_fiber g). Proof. intros s. reflexivity. Qed.
Lemma keep_key {A} (sel : specs -> option A) : keep (key sel).
Proof. apply keep_bind; [apply keep_gets|]. intros [v|]; [apply keep_ret|apply keep_raise]. Qed.
Lemma keep_attr {A} (sel : fiber -> option A) e : keep (attr sel e).
Proof. apply keep_bind; [apply keep_gets|]. intros [v|]; [apply keep_ret|apply keep_raise]. Qed.
Ltac kp := first [apply keep_key|apply keep_attr|apply keep_on|apply keep_lift|apply keep_bind; [|intros]|apply keep_ret|apply keep_raise|apply keep_gets].
Lemma keep_db len name o : keep (load_from_db len name o).
Proof.
  unfold load_from_db. apply keep_bind; [kp|]. intros _. apply keep_bind; [kp|]. intros f. destruct (find_db _ _); [|kp]. unfold load_dispersion. repeat (kp || match goal with |- keep (if ?b then _ else _) => destruct b end).
Qed.
Lemma keep_betas p z : keep (get_betas polyfit spline p z).
Proof. intros [h f]. destruct (alike_step polyfit spline _ h f p z eq_refl) as (f' & E & _). rewrite E. reflexivity. Qed.
Lemma quiet_step w o l : writes_class o = false -> (l < length (fw_heap w))%nat -> nth l (fw_heap (snd (fstep polyfit spline w o))) empty_specs = nth l (fw_heap w) empty_specs.
Proof.
  assert (K : forall A i (m : FM A) wrap, keep m -> fw_heap (snd (call i m wrap w)) = fw_heap w). { intros A i m wrap H. unfold call. destruct (nth_error (fw_fs w) i) as [f|]; [|reflexivity]. specialize (H (fw_heap w, f)). destruct (m (fw_heap w, f)) as [r s]. exact H. }
  intros Q Hl. destruct o; try discriminate; cbn [fstep].
  - cbn [snd fw_heap fiber_init fst]. apply app_nth1. exact Hl.
  - unfold call. destruct (nth_error (fw_fs w) i) as [f|]; [|reflexivity]. destruct (generate_run length center_wl_nm betas gamma_W_m gain gvd_units label (fw_heap w) f) as (f' & -> & _). cbn [snd fw_heap fst]. apply app_nth1. exact Hl.
  - rewrite K by apply keep_db. reflexivity.
  - rewrite K by (unfold set_gamma_function; kp). reflexivity.
  - rewrite K; [reflexivity|]. unfold get_gain. apply keep_bind; [kp|]. intros [|]; [|kp]. apply keep_bind; [kp|]. intros [|]; repeat kp.
  - rewrite K by apply keep_betas. reflexivity.
  - rewrite K; [reflexivity|]. unfold get_gamma. apply keep_bind; [kp|]. intros f. destruct (f_gz f); kp.
  - rewrite K; [reflexivity|]. unfold Beta2. apply keep_bind; [unfold pV; destruct (p_ready p); kp|]. intros v. apply keep_bind; [destruct v as [|? [|? ?]]; kp|]. intros dw. apply keep_bind; [apply keep_betas|]. intros [B|]; [|kp]. apply keep_bind; [kp|]. intros [|]; kp.
Qed.
(** operations on others keep the fiber object *)
Lemma other_keeps w o i : target o <> Some i -> forall f, nth_error (fw_fs w) i = Some f -> nth_error (fw_fs (snd (fstep polyfit spline w o))) i = Some f.
Proof.
  intros T f E. destruct (target o) as [j|] eqn:Tj.
  - destruct (nth_error (fw_fs w) j) as [g|] eqn:Ej; [|rewrite (fstep_miss o j w Tj Ej); exact E]. destruct (fstep_call o j w g Tj Ej) as (h' & g' & _ & ->). cbn [fw_fs]. rewrite upd_nth_error. destruct (Nat.eqb_spec i j); [congruence|exact E].
  - destruct o; try discriminate. cbn [fstep snd fw_fs]. rewrite nth_error_app1; [exact E|]. apply nth_error_Some. congruence.
Qed.
Lemma heap_grows w o : (length (fw_heap w) <= length (fw_heap (snd (fstep polyfit spline w o))))%nat.
Proof.
  destruct (target o) as [j|] eqn:Tj.
  - destruct (nth_error (fw_fs w) j) as [g|] eqn:Ej; [|rewrite (fstep_miss o j w Tj Ej); lia]. destruct (fstep_call o j w g Tj Ej) as (h' & g' & (L & _) & ->). exact L.
  - destruct o; try discriminate. cbn [fstep snd fw_heap fiber_init fst]. rewrite app_length. lia.
Qed.
(** and, if it has a dictionary of its own or nobody writes to the class's, the dictionary it sees *)
Lemma other_step w o i f : inv w -> target o <> Some i -> nth_error (fw_fs w) i = Some f -> f_specs f <> None \/ writes_class o = false ->
  nth (cell f) (fw_heap (snd (fstep polyfit spline w o))) empty_specs = nth (cell f) (fw_heap w) empty_specs.
Proof.
  intros [H0 H] T E C. assert (Hl : (cell f < length (fw_heap w))%nat). { unfold cell. destruct (f_specs f) as [l|] eqn:Es; [|lia]. destruct (H i f l E (or_introl Es)). lia. }
  destruct C as [C|C]; [|exact (quiet_step w o _ C Hl)].
  destruct (target o) as [j|] eqn:Tj.
  - destruct (nth_error (fw_fs w) j) as [g|] eqn:Ej; [|rewrite (fstep_miss o j w Tj Ej); reflexivity]. destruct (fstep_call o j w g Tj Ej) as (h' & g' & (L & N & _) & ->). cbn [fst snd fw_heap] in *. unfold cell in *. destruct (f_specs f) as [l|] eqn:Es; [|congruence]. destruct (H i f l E (or_introl Es)) as [Hl2 Hd]. apply N; [exact Hl| |lia]. apply (Hd j g); [congruence|exact Ej].
  - destruct o; try discriminate. cbn [fstep snd fw_heap fiber_init fst]. apply app_nth1. exact Hl.
Qed.
Lemma others_run ops i f : forall w, inv w -> (forall o, In o ops -> target o <> Some i) -> nth_error (fw_fs w) i = Some f -> f_specs f <> None \/ (forall o, In o ops -> writes_class o = false) ->
  nth_error (fw_fs (frun polyfit spline ops w)) i = Some f /\ nth (cell f) (fw_heap (frun polyfit spline ops w)) empty_specs = nth (cell f) (fw_heap w) empty_specs.
Proof.
  induction ops as [|o ops IH]; intros w Hw T E C; [split; [exact E|reflexivity]|]. cbn [frun fold_left]. fold (frun polyfit spline ops (snd (fstep polyfit spline w o))).
  destruct (IH (snd (fstep polyfit spline w o))) as [I1 I2].
  - apply inv_step, Hw.
  - intros o' Ho. apply T. right. exact Ho.
  - apply other_keeps; [apply T; left; reflexivity|exact E].
  - destruct C as [C|C]; [left; exact C|right; intros o' Ho; apply C; right; exact Ho].
  - split; [exact I1|]. rewrite I2. apply (other_step w o i f Hw); [apply T; left; reflexivity|exact E|]. destruct C as [C|C]; [left; exact C|right; apply C; left; reflexivity].
Qed.
Definition is_read (o : fop) : bool := match o with FGain _ _ | FBetas _ _ _ | FGamma _ _ | FBeta2 _ _ => true | _ => false end.
Lemma read_same w w' r i f : is_read r = true -> target r = Some i -> nth_error (fw_fs w) i = Some f -> nth_error (fw_fs w') i = Some f -> nth (cell f) (fw_heap w') empty_specs = nth (cell f) (fw_heap w) empty_specs ->
  fst (fstep polyfit spline w' r) = fst (fstep polyfit spline w r).
Proof.
  intros Hr T E E' H. assert (K : forall A (m : FM A) wrap, same_read m -> fst (call i m wrap w') = fst (call i m wrap w)). { intros A m wrap S. unfold call. rewrite E, E'. specialize (S _ _ f H). destruct (m (fw_heap w', f)), (m (fw_heap w, f)). cbn [fst] in *. congruence. }
  destruct r; try discriminate; cbn [target] in T; injection T as ->; cbn [fstep]; apply K.
  - apply gain_read.
  - apply betas_read.
  - apply gamma_read.
  - apply Beta2_read.
Qed.
Lemma specs_stay o w i f : nth_error (fw_fs w) i = Some f -> f_specs f <> None -> exists f', nth_error (fw_fs (snd (fstep polyfit spline w o))) i = Some f' /\ f_specs f' <> None.
Proof.
  intros E H. destruct (target o) as [j|] eqn:Tj; [destruct (Nat.eq_dec j i) as [->|N]|].
  - destruct (fstep_call o i w f Tj E) as (h' & g' & (_ & _ & _ & P) & ->). cbn [fw_fs snd] in *. rewrite upd_nth_error, Nat.eqb_refl, E. cbn [option_map]. eauto.
  - exists f. split; [apply other_keeps; [congruence|exact E]|exact H].
  - exists f. split; [apply other_keeps; [congruence|exact E]|exact H].
Qed.
Lemma specs_stay_run ops i : forall w f, nth_error (fw_fs w) i = Some f -> f_specs f <> None -> exists f', nth_error (fw_fs (frun polyfit spline ops w)) i = Some f' /\ f_specs f' <> None.
Proof. induction ops as [|o ops IH]; intros w f E H; [eauto|]. cbn [frun fold_left]. destruct (specs_stay o w i f E H) as (f' & E' & H'). exact (IH _ f' E' H'). Qed.
End W.

(*! C57: once a fiber has been configured by generate_fiber or by a successful load_from_db -- whatever was done before, and whatever is done to it or to others afterwards -- no later sequence of operations on other fibers (loading files, installing dispersion functions, generating, ...) and no creation of fibers changes what it reports: gain, betas, gamma and Beta2, for every pulse and position. *)
Lemma C57_own_dictionary_partial_l : forall (polyfit : list R -> list R -> nat -> result (list R)) (spline : list R -> list R -> list R -> result (list R)) (before : list fop) (conf : fop) (middle others : list fop) (i : nat) (r : fop),
  match conf with FGenerate j _ _ _ _ _ _ _ | FLoadDb j _ _ _ => j = i | _ => False end ->
  fst (fstep polyfit spline (frun polyfit spline before fworld0) conf) = FNone (Ok tt) ->
  (forall o, In o others -> match o with FNew _ => True | FGenerate j _ _ _ _ _ _ _ | FLoadDb j _ _ _ | FLoadFile j _ _ _ _ _ _ _ | FSetDisp j _ _ | FSetGamma j _ | FGain j _ | FBetas j _ _ | FGamma j _ | FBeta2 j _ => j <> i end) ->
  match r with FGain j _ | FBetas j _ _ | FGamma j _ | FBeta2 j _ => j = i | _ => False end ->
  let w := frun polyfit spline (before ++ conf :: middle) fworld0 in
  fst (fstep polyfit spline (frun polyfit spline others w) r) = fst (fstep polyfit spline w r).
Proof.
  intros polyfit spline before conf middle others i r Hc Ok1 Ho Hr w.
  assert (Hw : inv w) by (apply inv_run, inv0). set (w0 := frun polyfit spline before fworld0) in *.
  assert (H1 : exists f, nth_error (fw_fs (snd (fstep polyfit spline w0 conf))) i = Some f /\ f_specs f <> None).
  { destruct conf; try contradiction; subst; cbn [fstep] in *; unfold call in *; destruct (nth_error (fw_fs w0) i) as [f|] eqn:E; try discriminate.
    - destruct (generate_run length center_wl_nm betas gamma_W_m gain gvd_units label (fw_heap w0) f) as (f' & -> & Hs & _). cbn [snd fw_fs]. rewrite upd_nth_error, Nat.eqb_refl, E. cbn [option_map]. exists f'. split; [reflexivity|rewrite Hs; discriminate].
    - pose proof (Good_load_dispersion) as G. unfold load_from_db in *. unfold bind at 1 in Ok1. unfold bind at 1. unfold on_fiber at 1 in Ok1. unfold on_fiber at 1. unfold modify at 1 in Ok1. unfold modify at 1. cbn [fst snd] in *. unfold bind at 1 in Ok1. unfold bind at 1. unfold gets at 1 in Ok1. unfold gets at 1. cbn [snd] in *. destruct (find_db _ _) as [l|]; [|discriminate]. unfold bind at 1. unfold on_fiber at 1, modify at 1. cbn [fst snd].
      match goal with |- context [match ?m ?s with _ => _ end] => assert (GG : Good m) by repeat (exact G || gd); specialize (GG s); destruct (m s) as [r0 s0] end. destruct GG as (_ & _ & _ & P). cbn [snd fw_fs]. rewrite upd_nth_error, Nat.eqb_refl, E. cbn [option_map]. exists (snd s0). split; [reflexivity|]. apply P. cbn [snd f_specs set_specs]. discriminate. }
  destruct H1 as (f1 & E1 & S1). destruct (specs_stay_run polyfit spline middle i _ f1 E1 S1) as (f & E & S).
  assert (W : w = frun polyfit spline middle (snd (fstep polyfit spline w0 conf))) by (unfold w, frun; rewrite fold_left_app; reflexivity). rewrite <- W in E.
  destruct (others_run polyfit spline others i f w Hw) as [A B]; [|exact E|left; exact S|].
  - intros o Hin. specialize (Ho o Hin). destruct o; cbn [target]; try discriminate; intros [= ->]; apply Ho; reflexivity.
  - apply (read_same polyfit spline w _ r i f); try assumption; destruct r; try contradiction; subst; reflexivity.
Qed.
(*! C57: for every history and every fiber, however configured: operations on other fibers other than load_from_file and set_dispersion_function do not change what it reports. *)
Lemma C57_other_operations_partial_l : forall (polyfit : list R -> list R -> nat -> result (list R)) (spline : list R -> list R -> list R -> result (list R)) (before others : list fop) (i : nat) (r : fop),
  let w := frun polyfit spline before fworld0 in (i < length (fw_fs w))%nat ->
  (forall o, In o others -> match o with FNew _ => True | FGenerate j _ _ _ _ _ _ _ | FLoadDb j _ _ _ | FSetGamma j _ | FGain j _ | FBetas j _ _ | FGamma j _ | FBeta2 j _ => j <> i | FLoadFile _ _ _ _ _ _ _ _ | FSetDisp _ _ _ => False end) ->
  match r with FGain j _ | FBetas j _ _ | FGamma j _ | FBeta2 j _ => j = i | _ => False end ->
  fst (fstep polyfit spline (frun polyfit spline others w) r) = fst (fstep polyfit spline w r).
Proof.
  intros polyfit spline before others i r w Hi Ho Hr. assert (Hw : inv w) by (apply inv_run, inv0). destruct (nth_error (fw_fs w) i) as [f|] eqn:E; [|apply nth_error_None in E; lia].
  destruct (others_run polyfit spline others i f w Hw) as [A B]; [|exact E|right|].
  - intros o Hin. specialize (Ho o Hin). destruct o; cbn [target]; try discriminate; try contradiction; intros [= ->]; apply Ho; reflexivity.
  - intros o Hin. specialize (Ho o Hin). destruct o; try reflexivity; contradiction.
  - apply (read_same polyfit spline w _ r i f); try assumption; destruct r; try contradiction; subst; reflexivity.
Qed.
(*! C57: two fibers read from files share the class's dictionary: the first, loaded with gain 1, reports gain 1 until the second is loaded with gain 0, and then gain 0. *)
Lemma C57_files_refuted_l : forall (polyfit : list R -> list R -> nat -> result (list R)) (spline : list R -> list R -> list R -> result (list R)) (x y x' y' : list R) (p : pulse) (g g' len len' : R) (o o' : nat), p_n p <> 0%nat ->
  let w := frun polyfit spline [FNew []; FNew []; FLoadFile 0 x y len "a" g 1 o] fworld0 in
  fst (fstep polyfit spline w (FGain 0 p)) = FArr (Ok (repeat 1 (p_n p))) /\
  fst (fstep polyfit spline (frun polyfit spline [FLoadFile 1 x' y' len' "b" g' 0 o'] w) (FGain 0 p)) = FArr (Ok (repeat 0 (p_n p))) /\ repeat 1 (p_n p) <> repeat 0 (p_n p).
Proof.
  intros. split; [|split].
  - unfold w. cbn [frun fold_left fstep fiber_init fst snd fworld0 fw_heap fw_fs app call nth_error map]. unfold load_from_file, put_specs, on_fiber, modify, bind. cbn [fst snd cell f_specs set_type set_poly set_gain set_length set_gamma set_xy]. unfold is_zero. destruct (Req_EM_T 1 0); [lra|]. reflexivity.
  - unfold w. cbn [frun fold_left fstep fiber_init fst snd fworld0 fw_heap fw_fs app call nth_error map]. unfold load_from_file, put_specs, on_fiber, modify, bind. cbn [fst snd cell f_specs set_type set_poly set_gain set_length set_gamma set_xy]. unfold is_zero. destruct (Req_EM_T 1 0); [lra|]. destruct (Req_EM_T 0 0); [|lra]. reflexivity.
  - destruct (p_n p); [contradiction|]. cbn. intros [= Q _]. lra.
Qed.

(** Proofs about whole integrations (C42, C43, C44, C47). *)
From Coq Require Import Reals List ZArith Bool Arith Lia Lra.
From Coquelicot Require Import Complex.
From Verif Require Import Base CNum NumPy ModelDopr ModelODE ODEOutputProofs ODEStepProofs ODETableauProofs.
Import ListNotations.
Local Open Scope R_scope.
Local Open Scope py_scope.
Local Notation z0 := (RtoC 0).

Lemma last_nth' {A} (d : A) l : l <> [] -> last l d = nth (length l - 1) l d.
Proof.
  intros H. destruct (exists_last H) as (l' & a & ->). rewrite last_last, app_length. cbn [length]. rewrite app_nth2 by lia. replace (length l' + 1 - 1 - length l')%nat with 0%nat by lia. reflexivity.
Qed.
Lemma last_map' {A B} (g : A -> B) (d : A) (e : B) l : l <> [] -> last (map g l) e = g (last l d).
Proof. intros H. destruct (exists_last H) as (l' & a & ->). rewrite map_app. cbn [map]. now rewrite !last_last. Qed.

(** ** Recording samples *)
Lemma save_good n dt l o x y : stored n dt l o -> length y = n -> exists o', save x dt y o = (Ok tt, o') /\ stored n dt (l ++ [(x, y)]) o' /\ frame o o'.
Proof.
  intros H L. destruct (run_op_ok n dt l o (Save x dt y) H) as (o' & E & S & F). exists o'. cbn [run_op accepted] in *. assert (D : dt_eqb dt dt = true) by (now destruct dt). assert (N : Nat.eqb (length y) n = true) by (now apply Nat.eqb_eq).
  unfold accepted in E, S. rewrite D, N in E, S. auto.
Qed.
Lemma save_dense_good n dt l o x y : stored n dt l o -> length y = n -> exists o', save_dense x dt y o = (Ok tt, o') /\ stored n dt (l ++ [(x, y)]) o' /\ frame o o'.
Proof.
  intros H L. destruct (run_op_ok n dt l o (SaveDense x dt y) H) as (o' & E & S & F). exists o'. cbn [run_op accepted] in *. assert (D : dt_eqb dt dt = true) by (now destruct dt). assert (N : Nat.eqb (length y) n = true) by (now apply Nat.eqb_eq).
  unfold accepted in E, S. rewrite D, N in E, S. auto.
Qed.
(** all attributes but the samples and xout *)
Definition frame' (o o' : output) : Prop := o_nsave o' = o_nsave o /\ o_dense o' = o_dense o /\ o_x1 o' = o_x1 o /\ o_x2 o' = o_x2 o /\ o_dxout o' = o_dxout o.
Lemma frame_frame' o o' : frame o o' -> frame' o o'. Proof. unfold frame, frame'. tauto. Qed.
Lemma frame'_trans a b c : frame' a b -> frame' b c -> frame' a c. Proof. unfold frame'. intuition congruence. Qed.
Lemma stored_xout n dt l o x : stored n dt l o -> stored n dt l (with_xout x o).
Proof. intros (km & H). exists km. exact H. Qed.
(** m samples of D on the grid X, X+d, ... *)
Definition grid (m : nat) (X d : R) (D : R -> list C) : list (R * list C) := mk m (fun j => (X + INR j * d, D (X + INR j * d))).
Lemma grid_S m X d D : grid (S m) X d D = (X, D X) :: grid m (X + d) d D.
Proof.
  unfold grid. apply (nth_ext _ _ (0, []) (0, [])); [cbn [length]; now rewrite !mk_length|]. rewrite mk_length. intros [|i] Hi; rewrite mk_nth by exact Hi.
  - cbn [nth INR]. now rewrite Rmult_0_l, Rplus_0_r.
  - cbn [nth]. rewrite mk_nth by lia. rewrite S_INR. replace (X + (INR i + 1) * d) with (X + d + INR i * d) by ring. reflexivity.
Qed.
Lemma out_while_spec n dt x D (HD : forall u, length (D u) = n) : forall fuel l o, stored n dt l o ->
  match out_while fuel x dt D o with
  | (Ok _, o') => exists m, stored n dt (l ++ grid m (o_xout o) (o_dxout o) D) o' /\ frame' o o' /\ o_xout o' = o_xout o + INR m * o_dxout o /\
      (forall j, (j < m)%nat -> 0 < (x - (o_xout o + INR j * o_dxout o)) * (o_x2 o - o_x1 o)) /\ (x - (o_xout o + INR m * o_dxout o)) * (o_x2 o - o_x1 o) <= 0
  | (Raise e, o') => e = NoFuel /\ exists l', stored n dt l' o' /\ frame' o o'
  end.
Proof.
  induction fuel as [|fuel IH]; intros l o H; cbn [out_while]; [split; [reflexivity|]; exists l; split; [exact H|repeat split]|].
  unfold bind at 1, get. destruct (Rlt_dec 0 ((x - o_xout o) * (o_x2 o - o_x1 o))) as [Q|Q].
  - destruct (save_dense_good n dt l o (o_xout o) (D (o_xout o)) H (HD _)) as (o1 & E1 & S1 & F1). unfold bind at 1. rewrite E1. unfold bind at 1, modify. pose proof F1 as (F1a & F1b & F1c & F1d & F1e & F1f).
    specialize (IH _ _ (stored_xout _ _ _ _ (o_xout o1 + o_dxout o1) S1)). destruct (out_while fuel x dt D _) as [[u|e] o2].
    + destruct IH as (m & S2 & F2 & X2 & A & B). cbn [o_xout with_xout o_dxout o_x2 o_x1] in S2, X2, A, B. rewrite F1c, F1d, F1e, F1f in *. exists (S m). rewrite grid_S. rewrite <- app_assoc in S2. split; [exact S2|].
      split; [eapply frame'_trans; [apply frame_frame', F1|exact F2]|]. rewrite S_INR. split; [rewrite X2; ring|]. split.
      * intros [|j] Hj; [cbn [INR]; rewrite Rmult_0_l, Rplus_0_r; exact Q|]. rewrite S_INR. replace (o_xout o + (INR j + 1) * o_dxout o) with (o_xout o + o_dxout o + INR j * o_dxout o) by ring. apply A. lia.
      * replace (o_xout o + (INR m + 1) * o_dxout o) with (o_xout o + o_dxout o + INR m * o_dxout o) by ring. exact B.
    + destruct IH as (E & l' & S2 & F2). split; [exact E|]. exists l'. split; [exact S2|]. eapply frame'_trans; [apply frame_frame', F1|exact F2].
  - unfold ret. exists 0%nat. unfold grid. cbn [mk map seq]. change (mk 0 _) with (@nil (R * list C)). rewrite app_nil_r. split; [exact H|]. split; [repeat split|]. cbn [INR]. rewrite Rmult_0_l, Rplus_0_r. split; [reflexivity|]. split; [intros j Hj; lia|lra].
Qed.

Section Run.
  Context {W : Type}.
  Variable f : R -> list C -> M W (list C).
  (** record: only the output changes; what it stores *)
  Lemma record_spec fuel nstp x y h (g : G W) n dt l : stored n dt l (g_out g) -> p_dtype (g_s g) = dt -> length y = n -> length (p_y (g_s g)) = n ->
    match record fuel nstp x y h g with
    | (r, g') => g_w g' = g_w g /\ g_con g' = g_con g /\ g_s g' = g_s g /\ g_ode g' = g_ode g /\ frame' (g_out g) (g_out g') /\
        exists l', stored n dt l' (g_out g') /\ (e_dense (g_ode g) = false -> r = Ok tt /\ l' = l ++ [(x, y)]) /\ (r = Ok tt \/ r = Raise NoFuel \/ r = Raise AttributeError)
    end.
  Proof.
    intros H Hdt Ly Lp. unfold record. unfold bind at 1, get. destruct (e_dense (g_ode g)).
    - unfold onout, out_out. unfold bind at 1, get. destruct (o_dense (g_out g)); cbn [negb].
      + destruct (Z.eqb nstp 1).
        * destruct (save_good n dt l (g_out g) x y H Ly) as (o1 & E1 & S1 & F1). unfold bind. rewrite Hdt, E1. unfold modify. cbn [g_w g_con g_s g_ode g_out]. repeat (split; [reflexivity|]). split; [apply frame_frame' in F1; exact F1|].
          exists (l ++ [(x, y)]). split; [now apply stored_xout|]. split; [discriminate|auto].
        * rewrite Hdt. pose proof (out_while_spec n dt x (fun xo => dense_out (g_s g) xo h) (fun u => eq_trans (mk_length _ _) Lp) fuel l (g_out g) H) as S. destruct (out_while fuel x dt _ (g_out g)) as [[u|e] o']; cbn [g_w g_con g_s g_ode g_out]; repeat (split; [reflexivity|]).
          -- destruct S as (m & S & F & _). split; [exact F|]. eexists. split; [exact S|]. split; [discriminate|]. destruct u. auto.
          -- destruct S as (-> & l' & S & F). split; [exact F|]. exists l'. split; [exact S|]. split; [discriminate|auto].
      + cbn. repeat (split; [reflexivity|]). split; [repeat split|]. exists l. split; [exact H|]. split; [discriminate|auto].
    - unfold onout. destruct (save_good n dt l (g_out g) x y H Ly) as (o1 & E1 & S1 & F1). rewrite Hdt, E1. cbn [g_w g_con g_s g_ode g_out]. repeat (split; [reflexivity|]). split; [now apply frame_frame'|]. exists (l ++ [(x, y)]). auto.
  Qed.

  (** ** The main loop *)
  Lemma clip_cases x x1 x2 h c : 0 < (x2 - x) * (x2 - x1) -> h = c * (x2 - x1) -> 0 <= c -> forall t, 0 < t <= 1 -> let x' := x + t * clip x x1 x2 h in
    0 <= (x' - x) * (x2 - x1) /\ 0 <= (x2 - x') * (x2 - x1) /\ (x2 <> x' -> 0 < (x2 - x') * (x2 - x1)) /\ (exists c', 0 <= c' /\ clip x x1 x2 h = c' * (x2 - x1)).
  Proof.
    intros Hx Hh Hc t Ht x'. set (D := x2 - x1) in *. assert (HD : D <> 0) by nra. assert (HD2 : 0 < D * D) by nra.
    assert (Hu : exists u, 0 < u /\ x2 - x = u * D). { exists ((x2 - x) * D / (D * D)). split; [apply Rdiv_lt_0_compat; assumption|field; exact HD]. } destruct Hu as (u & Hu & Eu).
    assert (Hcl : exists c', 0 <= c' <= u /\ clip x x1 x2 h = c' * D /\ (c' = u \/ c' < u)).
    { unfold clip. fold D. destruct (Req_EM_T D 0); [contradiction|]. destruct (Rlt_dec 0 ((x + h * 1.0001 - x2) / D)) as [Q|Q].
      - exists u. split; [lra|]. split; [exact Eu|auto].
      - exists c. split; [|split; [exact Hh|right]]; replace ((x + h * 1.0001 - x2) / D) with (c * 1.0001 - u) in Q by (rewrite Hh; replace x2 with (x + u * D) by lra; field; exact HD); lra. }
    destruct Hcl as (c' & Hc' & Ec & Hs). subst x'. rewrite Ec. replace (x + t * (c' * D) - x) with (t * c' * D) by ring. replace (x2 - (x + t * (c' * D))) with ((u - t * c') * D) by (rewrite Rmult_minus_distr_r, <- Eu; ring).
    assert (t * c' <= u) by nra. split; [rewrite Rmult_assoc; apply Rmult_le_pos; nra|]. split; [rewrite Rmult_assoc; apply Rmult_le_pos; nra|]. split.
    - intros Hne. assert (t * c' <> u). { intros E. apply Hne. replace x2 with (x + u * D) by lra. rewrite <- E. ring. } rewrite Rmult_assoc. apply Rmult_lt_0_compat; lra.
    - exists c'. split; [lra|reflexivity].
  Qed.

  Definition mono (D : R) (l : list R) : Prop := forall i, (S i < length l)%nat -> 0 < (nth (S i) l 0 - nth i l 0) * D.
  Lemma mono_app D l x : mono D l -> l <> [] -> 0 < (x - last l 0) * D -> mono D (l ++ [x]).
  Proof.
    intros H Hl Hx i Hi. rewrite app_length in Hi. cbn [length] in Hi. destruct (Nat.eq_dec (S i) (length l)) as [E|E].
    - rewrite (app_nth2 l) by lia. rewrite E, Nat.sub_diag. cbn [nth]. rewrite app_nth1 by lia. rewrite last_nth' in Hx by exact Hl. replace (length l - 1)%nat with i in Hx by lia. exact Hx.
    - rewrite !app_nth1 by lia. apply H. lia.
  Qed.

  (** the state at the head of the loop: accepted points so far in tr (only tracked without dense output) *)
  Definition inv (n : nat) (dt : dtype) (x1 x2 hmin : R) (dense : bool) (ys : list C) (nstp : nat) (l : list (R * list C)) (g : G W) : Prop :=
    stored n dt l (g_out g) /\ p_dtype (g_s g) = dt /\ length (p_y (g_s g)) = n /\
    e_x1 (g_ode g) = x1 /\ e_x2 (g_ode g) = x2 /\ e_hmin (g_ode g) = hmin /\ e_dense (g_ode g) = dense /\ e_ystart (g_ode g) = ys /\ (e_nok (g_ode g) + e_nbad (g_ode g) = nstp)%nat /\
    0 <= (p_x (g_s g) - x1) * (x2 - x1) /\ 0 < (x2 - p_x (g_s g)) * (x2 - x1) /\ (exists c, 0 <= c /\ e_h (g_ode g) = c * (x2 - x1)) /\
    (dense = false -> length l = S nstp /\ nth 0 l (0, []) = (x1, ys) /\ mono (x2 - x1) (map fst l) /\ last l (0, []) = (p_x (g_s g), p_y (g_s g))).
  Definition post (n : nat) (dt : dtype) (x1 x2 : R) (dense : bool) (ys : list C) (r : result unit) (g : G W) : Prop :=
    0 <= (p_x (g_s g) - x1) * (x2 - x1) /\ 0 <= (x2 - p_x (g_s g)) * (x2 - x1) /\
    match r with
    | Ok _ => p_x (g_s g) = x2 /\ e_ystart (g_ode g) = p_y (g_s g) /\ length (p_y (g_s g)) = n /\ (1 <= e_nok (g_ode g) + e_nbad (g_ode g) <= MAXSTP)%nat /\ c_reject (g_con g) = false /\
        (dense = false -> exists l, stored n dt l (g_out g) /\ (length l = e_nok (g_ode g) + e_nbad (g_ode g) + 1)%nat /\ nth 0 l (0, []) = (x1, ys) /\ mono (x2 - x1) (map fst l) /\ last l (0, []) = (x2, p_y (g_s g)))
    | Raise e => e_ystart (g_ode g) = ys /\ (solver_raises f e \/ e = RuntimeError \/ e = AttributeError)
    end.
  Lemma iloop_spec n dt x1 x2 hmin dense ys fuel : 0 <= hmin -> forall left nstp l g, (left + nstp = MAXSTP)%nat -> inv n dt x1 x2 hmin dense ys nstp l g ->
    match iloop f fuel left nstp g with (r, g') => post n dt x1 x2 dense ys r g' end.
  Proof.
    intros Hm. induction left as [|left IH]; intros nstp l g Hl Hi.
    - destruct Hi as (_ & _ & _ & _ & _ & _ & _ & Hy & _ & A & B & _). cbn. split; [exact A|]. split; [lra|]. split; [exact Hy|auto].
    - destruct Hi as (Hs & Hdt & Hn & Hx1 & Hx2 & Hhm & Hde & Hy & Hc & A & B & (c & Hc0 & Hh) & Htr).
      cbn [iloop]. unfold bind at 1, get. rewrite Hx1, Hx2. set (h := clip (p_x (g_s g)) x1 x2 (e_h (g_ode g))). unfold bind at 1, set_e, modify. unfold bind at 1. set (g1 := mkG _ _ _ _ _).
      pose proof (step_spec f fuel h g1) as S. destruct (step f fuel h g1) as [[u|e] g2].
      2: { destruct S as ((S1 & S2 & S3 & _) & S4). cbn. split; [rewrite S3; exact A|]. split; [rewrite S3; unfold g1; cbn [g_s]; lra|]. split; [rewrite S2; exact Hy|left; exact S4]. }
      destruct S as (So & Se & (t & Ht & Hdid) & Sx & Sxo & (k & Hk & Hhn) & Srej & Sn & Sdt & Sde & _). unfold g1 in So, Se, Sx, Sxo, Sn, Sdt, Sde. cbn [g_out g_ode g_s] in So, Se, Sx, Sxo, Sn, Sdt, Sde.
      destruct (clip_cases (p_x (g_s g)) x1 x2 (e_h (g_ode g)) c B Hh Hc0 t Ht) as (C1 & C2 & C3 & c' & Hc' & Ecl). fold h in C1, C2, C3, Ecl. rewrite <- Hdid, <- Sx in C1, C2, C3.
      unfold bind at 1, gets. unfold bind at 1. unfold bind at 1. set (g3 := mkG _ _ _ _ _).
      assert (G3 : g_out g3 = g_out g /\ g_s g3 = g_s g2 /\ g_con g3 = g_con g2 /\ e_x1 (g_ode g3) = x1 /\ e_x2 (g_ode g3) = x2 /\ e_hmin (g_ode g3) = hmin /\ e_dense (g_ode g3) = dense /\ e_ystart (g_ode g3) = ys /\ (e_nok (g_ode g3) + e_nbad (g_ode g3) = S nstp)%nat).
      { unfold g3. cbn [g_out g_s g_con g_ode]. rewrite So, Se. destruct (Req_EM_T _ _); cbn [e_x1 e_x2 e_hmin e_dense e_ystart e_nok e_nbad]; repeat split; auto; lia. }
      clearbody g3. destruct G3 as (G3o & G3s & G3c & G3x1 & G3x2 & G3hm & G3de & G3y & G3n).
      assert (A' : 0 <= (p_x (g_s g2) - x1) * (x2 - x1)) by lra.
      pose proof (record_spec fuel (Z.of_nat nstp) (p_x (g_s g2)) (p_y (g_s g2)) (p_hdid (g_s g2)) g3 n dt l) as R. rewrite G3o, G3s in R. specialize (R Hs ltac:(congruence) ltac:(congruence) ltac:(congruence)).
      destruct (record fuel (Z.of_nat nstp) (p_x (g_s g2)) (p_y (g_s g2)) (p_hdid (g_s g2)) g3) as [r4 g4]. destruct R as (R1 & R2 & R3 & R4 & R5 & l' & R6 & R7 & R8). rewrite G3de in R7.
      destruct r4 as [u4|e4].
      2: { unfold post. rewrite R3, R4. split; [exact A'|]. split; [exact C2|]. split; [exact G3y|]. destruct R8 as [R8|[R8|R8]]; [discriminate|injection R8 as ->; left; unfold solver_raises; auto|injection R8 as ->; auto]. }
      unfold bind at 1. cbv zeta. rewrite R4, G3x1, G3x2, G3hm. destruct (Rle_dec 0 ((p_x (g_s g2) - x2) * (x2 - x1))) as [Q|Q].
      + assert (X2 : p_x (g_s g2) = x2). { destruct (Req_EM_T x2 (p_x (g_s g2))) as [E|E]; [now symmetry|]. specialize (C3 E). lra. }
        unfold bind at 1. match goal with |- match (if ?b then ?T else ?E) ?G with _ => _ end => set (g5 := G); set (bb := b) end.
        assert (G5 : g_s g5 = g_s g2 /\ g_con g5 = g_con g2 /\ g_out g5 = g_out g4 /\ e_ystart (g_ode g5) = p_y (g_s g2) /\ e_nok (g_ode g5) = e_nok (g_ode g3) /\ e_nbad (g_ode g5) = e_nbad (g_ode g3)).
        { unfold g5. cbn [g_s g_con g_out g_ode e_ystart e_nok e_nbad]. rewrite R3, R2, R4. repeat split; congruence. }
        clearbody g5. destruct G5 as (G5s & G5c & G5o & G5y & G5k & G5b).
        assert (Fin : forall (l6 : list (R * list C)) (o6 : output), stored n dt l6 o6 -> (dense = false -> l6 = l ++ [(p_x (g_s g2), p_y (g_s g2))]) ->
          post n dt x1 x2 dense ys (Ok tt) (mkG (g_w g5) (g_con g5) (g_s g5) o6 (g_ode g5))).
        { intros l6 o6 S6 E6. unfold post. cbn [g_s g_ode g_con g_out]. rewrite G5s, G5y, G5k, G5b, G5c. split; [exact A'|]. split; [exact C2|]. split; [exact X2|]. split; [reflexivity|]. split; [congruence|]. split; [lia|]. split; [exact Srej|].
          intros Ed. specialize (E6 Ed). destruct (Htr Ed) as (T1 & T2 & T3 & T4). exists l6. subst l6. split; [exact S6|]. rewrite app_length. cbn [length]. split; [lia|]. assert (Ne : l <> []) by (destruct l; [discriminate|discriminate]).
          split; [rewrite app_nth1 by (destruct l; [contradiction|cbn; lia]); exact T2|]. split; [|rewrite last_last; congruence].
          rewrite map_app. cbn [map fst]. apply mono_app; [exact T3|destruct l; [contradiction|discriminate]|]. rewrite last_map' with (d := (0, [])) by exact Ne. rewrite T4. cbn [fst]. rewrite X2. exact B. }
        assert (Dl : dense = false -> l' = l ++ [(p_x (g_s g2), p_y (g_s g2))]) by (intros Ed; now apply R7).
        destruct bb.
        * destruct (Rlt_dec _ _) as [Z|Z].
          -- unfold onout. rewrite G5o. destruct (save_good n dt l' (g_out g4) (p_x (g_s g2)) (p_y (g_s g2)) R6 ltac:(congruence)) as (o7 & E7 & S7 & F7). rewrite Sdt, Hdt. rewrite E7. apply (Fin _ o7 S7).
             intros Ed. exfalso. specialize (Dl Ed). rewrite Dl in R6. assert (last_saved (g_out g4) = x2).
             { destruct R6 as (km & _ & _ & Lx & _ & Cn & _ & _ & _ & Fx & _). unfold last_saved. rewrite Cn, app_length. cbn [length]. replace (length l + 1)%nat with (S (length l)) by lia. rewrite app_length in Fx. cbn [length] in Fx. 
               rewrite <- (firstn_skipn (length l + 1) (o_xsave (g_out g4))). rewrite Fx, map_app, app_nth1 by (rewrite app_length, map_length; cbn; lia). rewrite app_nth2; rewrite map_length; [|lia]. rewrite Nat.sub_diag. exact X2. }
             rewrite H, Rminus_eq_0, Rabs_R0 in Z. pose proof (Rabs_pos x2). pose proof EPS_pos. nra.
          -- unfold ret. rewrite <- G5o in R6. pose proof (Fin _ _ R6 Dl) as P. destruct g5. exact P.
        * unfold ret. rewrite <- G5o in R6. pose proof (Fin _ _ R6 Dl) as P. destruct g5. exact P.
      + assert (B' : 0 < (x2 - p_x (g_s g2)) * (x2 - x1)) by lra.
        destruct (Rle_dec (Rabs (p_hnext (g_s g2))) hmin) as [Z|Z].
        * cbn. unfold post. rewrite R3, R4. split; [exact A'|]. split; [exact C2|]. split; [exact G3y|auto].
        * unfold bind at 1. set (g5 := mkG _ _ _ _ _). apply (IH (S nstp) l' g5 ltac:(lia)). unfold inv, g5. cbn [g_out g_s g_ode e_x1 e_x2 e_hmin e_dense e_ystart e_nok e_nbad e_h]. rewrite R3, R4.
          split; [exact R6|]. split; [congruence|]. split; [congruence|]. do 6 (split; [congruence|]). split; [exact A'|]. split; [exact B'|]. split.
          -- exists (k * (t * c')). split; [apply Rmult_le_pos; nra|]. rewrite Hhn, Hdid, Ecl. ring.
          -- intros Ed. destruct (R7 Ed) as [_ El]. destruct (Htr Ed) as (T1 & T2 & T3 & T4). subst l'. rewrite app_length. cbn [length]. split; [lia|]. assert (Ne : l <> []) by (destruct l; [discriminate|discriminate]).
             split; [rewrite app_nth1 by (destruct l; [contradiction|cbn; lia]); exact T2|]. split; [|rewrite last_last; congruence].
             rewrite map_app. cbn [map fst]. apply mono_app; [exact T3|destruct l; [contradiction|discriminate]|]. rewrite last_map' with (d := (0, [])) by exact Ne. rewrite T4. cbn [fst].
             assert (p_hnext (g_s g2) <> 0). { intros E0. apply Z. rewrite E0, Rabs_R0. exact Hm. } assert (p_hdid (g_s g2) <> 0) by (intros E0; rewrite Hhn, E0 in H; apply H; ring).
             rewrite Sx in *. replace (p_x (g_s g) + p_hdid (g_s g2) - p_x (g_s g)) with (p_hdid (g_s g2)) in * by ring. rewrite Hdid, Ecl in *. assert (x2 - x1 <> 0) by (intros E0; rewrite E0 in B; lra). nra.
  Qed.
End Run.

(** *** reading the samples back *)
Lemma stored_nth n dt l o : stored n dt l o -> o_count o = length l /\ forall i, (i < length l)%nat -> nth i (o_xsave o) 0 = fst (nth i l (0, [])) /\ nth i (o_ysave o) [] = snd (nth i l (0, [])).
Proof.
  intros (km & _ & _ & _ & _ & Cn & _ & _ & _ & Fx & Fy). split; [exact Cn|]. intros i Hi.
  rewrite <- (firstn_skipn (length l) (o_xsave o)), <- (firstn_skipn (length l) (o_ysave o)), Fx, Fy.
  rewrite !app_nth1 by (rewrite map_length; exact Hi). rewrite (nth_map' fst _ _ (0, []) 0), (nth_map' snd _ _ (0, []) []) by exact Hi. auto.
Qed.
Lemma sgn_mul D h1 : D <> 0 -> exists c, 0 <= c /\ Rabs h1 * sgn D = c * D.
Proof.
  intros HD. exists (Rabs h1 / Rabs D). pose proof (Rabs_pos h1). pose proof (Rabs_pos_lt D HD) as P. split; [apply Rmult_le_pos; [assumption|left; now apply Rinv_0_lt_compat]|].
  unfold sgn. destruct (Rlt_dec 0 D) as [A|A]; [rewrite (Rabs_pos_eq D) by lra; field; lra|]. destruct (Rlt_dec D 0) as [B|B]; [rewrite (Rabs_left D) by lra; field; lra|lra].
Qed.

Section Whole.
  Context {W : Type}.
  Variable f : R -> list C -> M W (list C).
  Lemma integrate_unfold fuel (g : G W) : integrate f fuel g =
    bind (deriv f (length (p_y (g_s g))) (e_x1 (g_ode g)) (p_y (g_s g))) (fun d =>
      bind (set_s (fun s => mkStp (p_x s) (p_xold s) (p_y s) d (p_atol s) (p_rtol s) (p_dense s) (p_hdid s) (p_hnext s) (p_dtype s) (p_yout s) (p_yerr s) (p_yerr2 s) (p_k s) (p_rc s))) (fun _ =>
        bind (record fuel (-1) (e_x1 (g_ode g)) (p_y (g_s g)) (e_h (g_ode g))) (fun _ => iloop f fuel MAXSTP 0))) g.
  Proof. reflexivity. Qed.
  Lemma integrate_post fuel w con ys x1 x2 atol rtol h1 hmin k dense dt : x1 <> x2 -> 0 <= hmin ->
    match integrate f fuel (new_ode w con ys x1 x2 atol rtol h1 hmin (new_output (Some k)) dense dt) with (r, g) => post f (length ys) dt x1 x2 dense ys r g end.
  Proof.
    intros Hx Hm. rewrite integrate_unfold. unfold new_ode. cbn [g_s g_ode p_y e_x1 e_h new_stepper]. set (g := mkG w _ _ _ _).
    unfold bind at 1. pose proof (keeps_deriv f (length ys) x1 ys g) as K. pose proof (only_deriv f (length ys) x1 ys g) as O. destruct (deriv f (length ys) x1 ys g) as [[d|e] g1]; cbn [fst snd] in K, O.
    all: destruct K as (K1 & K2 & K3 & K4 & K5 & K6 & K7 & K8 & K9 & K10 & K11 & K12 & K13).
    2: { unfold post. rewrite K4, K3. cbn [g g_s g_ode p_x e_ystart new_stepper]. replace ((x1 - x1) * (x2 - x1)) with 0 by ring. split; [lra|]. split; [nra|]. split; [reflexivity|]. left. unfold solver_raises. specialize (O e eq_refl). auto. }
    unfold bind at 1, set_s, modify. unfold bind at 1. set (g2 := mkG (g_w g1) _ _ _ _).
    assert (Hs : stored (length ys) dt [] (g_out g2)) by (unfold g2; cbn [g_out]; rewrite K2; apply stored_init).
    assert (Hdt : p_dtype (g_s g2) = dt) by (unfold g2; cbn [g_s p_dtype]; rewrite K13; reflexivity).
    assert (Hy : p_y (g_s g2) = ys) by (unfold g2; cbn [g_s p_y]; rewrite K6; reflexivity).
    assert (Hpx : p_x (g_s g2) = x1) by (unfold g2; cbn [g_s p_x]; rewrite K4; reflexivity).
    assert (He : g_ode g2 = mkOde x1 x2 hmin dense (Rabs h1 * sgn (x2 - x1)) 0 0 0 ys) by (unfold g2; cbn [g_ode]; rewrite K3; reflexivity).
    clearbody g2. pose proof (record_spec fuel (-1) x1 ys (Rabs h1 * sgn (x2 - x1)) g2 (length ys) dt [] Hs Hdt eq_refl ltac:(congruence)) as R.
    destruct (record fuel (-1) x1 ys (Rabs h1 * sgn (x2 - x1)) g2) as [r3 g3]. destruct R as (R1 & R2 & R3 & R4 & R5 & l' & R6 & R7 & R8). rewrite He in R4, R7. cbn [e_dense] in R7.
    destruct r3 as [u|e].
    2: { unfold post. rewrite R3, R4, Hpx. cbn [e_ystart]. replace ((x1 - x1) * (x2 - x1)) with 0 by ring. split; [lra|]. split; [nra|]. split; [reflexivity|]. destruct R8 as [R8|[R8|R8]]; [discriminate|injection R8 as ->; left; unfold solver_raises; auto|injection R8 as ->; auto]. }
    apply (iloop_spec f (length ys) dt x1 x2 hmin dense ys fuel Hm MAXSTP 0 l' g3); [apply Nat.add_0_r|]. unfold inv. rewrite R3, R4, Hpx, Hy. cbn [e_x1 e_x2 e_hmin e_dense e_ystart e_nok e_nbad e_h].
    split; [exact R6|]. split; [exact Hdt|]. do 7 (split; [reflexivity|]). split; [replace ((x1 - x1) * (x2 - x1)) with 0 by ring; lra|]. split; [nra|]. split; [apply sgn_mul; lra|].
    intros Ed. destruct (R7 Ed) as [_ El]. cbn [app] in El. subst l'. cbn [length nth map fst last]. repeat split. intros i Hi. cbn [length] in Hi. lia.
  Qed.
End Whole.

(*! C42: for every right-hand side, controller state, tolerances, first step (of either sign or zero), x1 <> x2 in either direction and hmin >= 0, with any storing Output: x never leaves the interval from x1 to x2; if integrate returns, the stepper stands exactly at x2, ystart is its final state (same length as the start), 1 <= nok + nbad <= 50000, and without dense output exactly 1 + nok + nbad samples are stored, the first (x1, ystart), the last (x2, final state), each strictly further towards x2 than the one before; if it raises, ystart is untouched. *)
Lemma C42_ends_exactly_l : forall (W : Type) (f : R -> list C -> M W (list C)) (fuel : nat) (w : W) (con : ctrl) (ystart : list C) (x1 x2 atol rtol h1 hmin : R) (nsaves : nat) (dense : bool) (dt : dtype),
  x1 <> x2 -> 0 <= hmin ->
  match integrate f fuel (new_ode w con ystart x1 x2 atol rtol h1 hmin (new_output (Some nsaves)) dense dt) with (r, g) =>
    Rmin x1 x2 <= p_x (g_s g) <= Rmax x1 x2 /\
    match r with
    | Ok _ => let m := (e_nok (g_ode g) + e_nbad (g_ode g))%nat in
        p_x (g_s g) = x2 /\ e_ystart (g_ode g) = p_y (g_s g) /\ length (p_y (g_s g)) = length ystart /\ (1 <= m)%nat /\ (Z.of_nat m <= 50000)%Z /\
        (dense = false -> o_count (g_out g) = (1 + m)%nat /\ nth 0 (o_xsave (g_out g)) 0 = x1 /\ nth 0 (o_ysave (g_out g)) [] = ystart /\
          nth m (o_xsave (g_out g)) 0 = x2 /\ nth m (o_ysave (g_out g)) [] = e_ystart (g_ode g) /\
          forall i, (i < m)%nat -> (x1 < x2 -> nth i (o_xsave (g_out g)) 0 < nth (S i) (o_xsave (g_out g)) 0) /\ (x2 < x1 -> nth (S i) (o_xsave (g_out g)) 0 < nth i (o_xsave (g_out g)) 0))
    | Raise _ => e_ystart (g_ode g) = ystart
    end
  end.
Proof.
  intros W f fuel w con ys x1 x2 atol rtol h1 hmin k dense dt Hx Hm. pose proof (integrate_post f fuel w con ys x1 x2 atol rtol h1 hmin k dense dt Hx Hm) as P.
  destruct (integrate f fuel _) as [r g]. destruct P as (A & B & P). split; [unfold Rmin, Rmax; destruct (Rle_dec x1 x2); nra|]. destruct r as [u|e]; [|apply P].
  destruct P as (X & Y & L & (M1 & M2) & _ & D). cbv zeta. split; [exact X|]. split; [exact Y|]. split; [exact L|]. split; [exact M1|]. split; [unfold MAXSTP in M2; lia|]. intros Ed. destruct (D Ed) as (l & St & Ll & F & Mo & La).
  destruct (stored_nth _ _ _ _ St) as [Cn Nt]. split; [lia|]. set (m := (e_nok (g_ode g) + e_nbad (g_ode g))%nat) in *.
  assert (Lm : nth m l (0, []) = (x2, p_y (g_s g))). { rewrite <- La. rewrite last_nth' by (destruct l; [cbn in Ll; lia|discriminate]). f_equal. lia. }
  destruct (Nt 0%nat ltac:(lia)) as [-> ->]. destruct (Nt m ltac:(lia)) as [-> ->]. rewrite F, Lm. cbn [fst snd]. do 4 (split; [auto; congruence|]).
  intros i Hi. destruct (Nt i ltac:(lia)) as [-> _]. destruct (Nt (S i) ltac:(lia)) as [-> _]. specialize (Mo i). rewrite map_length in Mo. specialize (Mo ltac:(lia)). rewrite (nth_map' fst l i (0, []) 0), (nth_map' fst l (S i) (0, []) 0) in Mo by lia. split; intros; nra.
Qed.

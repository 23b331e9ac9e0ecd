(** Proofs about fibers: C55, C56, C58, C66. *)
From Coq Require Import String.
From Coq Require Import Reals List ZArith Bool Arith Factorial Lia Lra.
From Coquelicot Require Import Rcomplements.
From Verif Require Import Base CNum NumPy ModelPulse PulseProofs PulseRegridProofs ModelCrystal CrystalProofs ModelBeam BeamProofs ODEIntProofs ModelFiber.
Import ListNotations.
Local Open Scope R_scope.
Local Open Scope py_scope.

(** ** Re-centring *)
Definition grad (n : nat) (f : nat -> R) (i : nat) : R := if Nat.eqb i 0 then f 1%nat - f 0%nat else if Nat.eqb i (n - 1) then f (n - 1)%nat - f (n - 2)%nat else (f (i + 1)%nat - f (i - 1)%nat) / 2.
Lemma gradient_run x : (2 <= length x)%nat -> gradient x = Ok (mk (length x) (grad (length x) (fun i => nth i x 0))).
Proof. intros H. unfold gradient. destruct (Nat.ltb_spec (length x) 2); [lia|]. reflexivity. Qed.
Lemma gradient_inv x g : gradient x = Ok g -> (2 <= length x)%nat /\ g = mk (length x) (grad (length x) (fun i => nth i x 0)).
Proof. intros H. unfold gradient in H. destruct (Nat.ltb_spec (length x) 2); [discriminate|]. injection H as <-. split; [lia|reflexivity]. Qed.
Lemma grad_lin n f g s c : (2 <= n)%nat -> forall i, grad n (fun k => f k - s * g k - c) i = grad n f i - s * grad n g i.
Proof. intros Hn i. unfold grad. destruct (Nat.eqb i 0); [ring|]. destruct (Nat.eqb i (n - 1)); [ring|field]. Qed.
Lemma grad_ext n f g i : (2 <= n)%nat -> (i < n)%nat -> (forall k, (k < n)%nat -> f k = g k) -> grad n f i = grad n g i.
Proof. intros Hn Hi H. unfold grad. destruct (Nat.eqb_spec i 0); [rewrite !H by lia; reflexivity|]. destruct (Nat.eqb_spec i (n - 1)); rewrite !H by lia; reflexivity. Qed.
Lemma grad_affine n a d i : (2 <= n)%nat -> (i < n)%nat -> grad n (fun k => a + INR k * d) i = d.
Proof.
  intros Hn Hi. unfold grad. destruct (Nat.eqb_spec i 0); [cbn [INR]; ring|]. destruct (Nat.eqb_spec i (n - 1)).
  - replace (n - 1)%nat with (S (n - 2)) by lia. rewrite S_INR. ring.
  - replace (i + 1)%nat with (S (S (i - 1))) by lia. rewrite !S_INR. field.
Qed.
Lemma V_affine p k : (k < p_n p)%nat -> nth k (V_of p) 0 = - (INR (p_n p) / 2) * (2 * PI / p_tw p) + INR k * (2 * PI / p_tw p).
Proof. intros H. rewrite V_of_val by exact H. unfold Rdiv. ring. Qed.
Lemma W_affine p k : (k < p_n p)%nat -> nth k (W_of p) 0 = (- (INR (p_n p) / 2) * (2 * PI / p_tw p) + 2 * PI * p_f p) + INR k * (2 * PI / p_tw p).
Proof. intros H. rewrite W_of_val by exact H. unfold Rdiv. ring. Qed.
Lemma dw_ne p : p_tw p <> 0 -> 2 * PI / p_tw p <> 0.
Proof. intros H. pose proof PI_RGT_0. apply Rmult_integral_contrapositive_currified; [lra|apply Rinv_neq_0_compat; exact H]. Qed.
Lemma centre_even p m : p_n p = (2 * m)%nat -> (0 < m)%nat -> p_tw p <> 0 -> argmin (map Rabs (V_of p)) = Ok m.
Proof.
  intros Hn Hm Ht. destruct (argmin_spec (map Rabs (V_of p))) as (r & E & Hr & Hmin & _).
  { intros H. apply (f_equal (@length R)) in H. rewrite map_length, V_of_length, Hn in H. cbn in H. lia. }
  rewrite map_length, V_of_length in *. rewrite E. f_equal. specialize (Hmin m ltac:(lia)). rewrite !(nth_map' Rabs _ _ 0) in Hmin by (rewrite V_of_length; lia).
  rewrite !V_of_val in Hmin by lia. replace (INR m - INR (p_n p) / 2) with 0 in Hmin by (rewrite Hn, mult_INR; cbn [INR]; field). replace (2 * PI * 0 / p_tw p) with 0 in Hmin by (unfold Rdiv; ring). rewrite Rabs_R0 in Hmin.
  assert (Z : 2 * PI * (INR r - INR (p_n p) / 2) / p_tw p = 0) by (destruct (Req_dec (2 * PI * (INR r - INR (p_n p) / 2) / p_tw p) 0); [assumption|]; pose proof (Rabs_pos_lt _ H); lra).
  replace (2 * PI * (INR r - INR (p_n p) / 2) / p_tw p) with ((INR r - INR (p_n p) / 2) * (2 * PI / p_tw p)) in Z by (unfold Rdiv; ring). apply Rmult_integral in Z as [Z|Z]; [|exfalso; exact (dw_ne p Ht Z)].
  apply INR_eq. rewrite Hn, mult_INR in Z. cbn [INR] in Z. lra.
Qed.
(** recentre does not touch the state *)
Lemma recentre_pure p B : exists r, forall s, recentre p B s = (r, s).
Proof.
  unfold recentre, pV, pW, bind, lift, ret, raise. destruct (p_ready p); [|eauto]. destruct (argmin _); [|eauto]. destruct (gradient B); [|eauto]. destruct (gradient (W_of p)); [|eauto]. destruct (Nat.eqb _ _); [|eauto]. destruct (fdiv _ _); eauto.
Qed.
Lemma recentre_inv p B s r s' : recentre p B s = (Ok r, s') ->
  s' = s /\ p_ready p = true /\ (2 <= p_n p)%nat /\ length B = p_n p /\ exists ci, argmin (map Rabs (V_of p)) = Ok ci /\ (ci < p_n p)%nat /\
    let sl := grad (p_n p) (fun i => nth i B 0) ci / (2 * PI / p_tw p) in r = mk (p_n p) (fun k => nth k B 0 - sl * nth k (V_of p) 0 - nth ci B 0).
Proof.
  unfold recentre, pV, pW, bind, lift, ret, raise. destruct (p_ready p); [|discriminate]. destruct (argmin _) as [ci|] eqn:Ea; [|discriminate]. destruct (gradient B) as [gB|] eqn:EB; [|discriminate]. destruct (gradient (W_of p)) as [gW|] eqn:EW; [|discriminate].
  destruct (Nat.eqb_spec (length gB) (length gW)) as [L|]; [|discriminate]. destruct (gradient_inv _ _ EB) as [L1 ->]. destruct (gradient_inv _ _ EW) as [L2 ->]. rewrite !mk_length, W_of_length in *.
  assert (Hci : (ci < p_n p)%nat). { destruct (argmin_spec (map Rabs (V_of p))) as (r' & E & Hr & _). { intros H. apply (f_equal (@length R)) in H. rewrite map_length, V_of_length in H. cbn in H. lia. } rewrite Ea in E. injection E as ->. rewrite map_length, V_of_length in Hr. exact Hr. }
  rewrite L, !mk_nth by exact Hci. rewrite (grad_ext (p_n p) (fun i => nth i (W_of p) 0) (fun k => (- (INR (p_n p) / 2) * (2 * PI / p_tw p) + 2 * PI * p_f p) + INR k * (2 * PI / p_tw p)) ci L2 Hci (W_affine p)), grad_affine by assumption.
  destruct (fdiv _ _) as [sl|] eqn:Es; [|discriminate]. apply fdiv_inv in Es as [_ ->]. intros H. rewrite broadcast2_eq in H by (rewrite V_of_length; exact L). injection H as <- <-. split; [reflexivity|]. split; [reflexivity|]. split; [exact L2|]. split; [first [exact L|reflexivity]|]. exists ci. split; [reflexivity|]. split; [exact Hci|]. cbv zeta.
  apply (list_ext 0); [rewrite mk_length, map2_length by (rewrite V_of_length; lia); exact L|]. intros i Hi. rewrite map2_length in Hi by (rewrite V_of_length; lia). rewrite mk_nth by lia. rewrite (map2_nth _ _ _ _ 0 0) by (rewrite ?V_of_length; lia). reflexivity.
Qed.
Lemma recentre_ok p B s m : p_ready p = true -> p_n p = (2 * m)%nat -> (0 < m)%nat -> p_tw p <> 0 -> length B = p_n p ->
  let sl := grad (p_n p) (fun i => nth i B 0) m / (2 * PI / p_tw p) in recentre p B s = (Ok (mk (p_n p) (fun k => nth k B 0 - sl * nth k (V_of p) 0 - nth m B 0)), s).
Proof.
  intros Hr Hn Hm Ht HB sl. pose proof (dw_ne p Ht) as Hd. destruct (recentre p B s) as [[r|e] s'] eqn:E.
  - destruct (recentre_inv _ _ _ _ _ E) as (-> & _ & _ & _ & ci & Ec & _ & ->). rewrite (centre_even p m Hn Hm Ht) in Ec. injection Ec as <-. reflexivity.
  - exfalso. revert E. unfold recentre, pV, pW, bind, lift, ret, raise. rewrite Hr, (centre_even p m Hn Hm Ht). rewrite gradient_run by lia. rewrite gradient_run by (rewrite W_of_length; lia). rewrite !mk_length, W_of_length, HB, Nat.eqb_refl, !mk_nth by lia.
    rewrite (grad_ext (p_n p) (fun i => nth i (W_of p) 0) (fun k => (- (INR (p_n p) / 2) * (2 * PI / p_tw p) + 2 * PI * p_f p) + INR k * (2 * PI / p_tw p)) m ltac:(lia) ltac:(lia) (W_affine p)), grad_affine by lia. rewrite fdiv_ok by exact Hd. rewrite broadcast2_eq by (rewrite V_of_length; exact HB). discriminate.
Qed.
Lemma recentred_zero p B s m r s' : recentre p B s = (Ok r, s') -> p_n p = (2 * m)%nat -> (0 < m)%nat -> p_tw p <> 0 -> length r = p_n p /\ nth m r 0 = 0 /\ exists g, gradient r = Ok g /\ nth m g 0 = 0.
Proof.
  intros E Hn Hm Ht. destruct (recentre_inv _ _ _ _ _ E) as (_ & _ & L2 & LB & ci & Ec & _ & ->). rewrite (centre_even p m Hn Hm Ht) in Ec. injection Ec as <-. set (sl := _ / _). split; [apply mk_length|]. split.
  - rewrite mk_nth by lia. rewrite V_of_val by lia. replace (INR m - INR (p_n p) / 2) with 0 by (rewrite Hn, mult_INR; cbn [INR]; field). unfold Rdiv. ring.
  - rewrite gradient_run by (rewrite mk_length; lia). rewrite mk_length. eexists. split; [reflexivity|]. rewrite mk_nth by lia.
    rewrite (grad_ext _ _ (fun k => nth k B 0 - sl * nth k (V_of p) 0 - nth m B 0)) by (try lia; intros; now rewrite mk_nth by assumption). rewrite grad_lin by lia.
    rewrite (grad_ext (p_n p) (fun i => nth i (V_of p) 0) (fun k => - (INR (p_n p) / 2) * (2 * PI / p_tw p) + INR k * (2 * PI / p_tw p)) m ltac:(lia) ltac:(lia) (V_affine p)), grad_affine by lia. unfold sl. field. split; [exact Ht|]. pose proof PI_RGT_0. lra.
Qed.

(** ** get_betas *)
Section B.
Variable polyfit : list R -> list R -> nat -> result (list R).
Variable spline : list R -> list R -> list R -> result (list R).
Definition upd3 (b x y : option (list R)) (f : fiber) : fiber := mkFiber (f_specs f) (f_db f) (f_type f) (f_length f) b (f_gamma f) (f_poly f) (f_gain f) x y (f_center f) (f_dz f) (f_gz f).
(** get_betas once the z-dependent data are in place *)
Definition body (p : pulse) (d : specs) (f : fiber) : result (option (list R)) * option (list R) :=
  match d_format d with
  | None => (Raise KeyError, f_betas f)
  | Some fmt =>
    if String.eqb fmt "D" then
      match f_x f, f_y f with
      | Some x, Some y =>
        if Nat.eqb (length x) (length y) then
          match f_poly f with
          | None => (Raise TypeError, f_betas f)
          | Some o => match fst (DTabulationToBetas polyfit (c_nmps / p_f p) o (combine x y)) with
                      | Raise e => (Raise e, f_betas f)
                      | Ok b => (if Nat.eqb (length b) 0 then Ok (Some (repeat 0 (p_n p))) else if p_ready p then Ok (Some (map (taylor b) (V_of p))) else Raise RuntimeError, Some b)
                      end
          end
        else (Raise ValueError, f_betas f)
      | _, _ => (Raise AttributeError, f_betas f)
      end
    else if String.eqb fmt "GVD" then
      (c <-r (match f_center f with Some c => Ok c | None => Raise AttributeError end) ;; w0 <-r fdiv (2 * PI * c_nmps) c ;;
       b <-r (match f_betas f with Some b => Ok b | None => Raise TypeError end) ;;
       B <-r (if Nat.eqb (length b) 0 then Ok (repeat 0 (p_n p)) else if p_ready p then Ok (map (fun w => taylor b (w - w0)) (W_of p)) else Raise RuntimeError) ;;
       r <-r fst (recentre p B ([], f)) ;; Ok (Some r), f_betas f)
    else if String.eqb fmt "n" then
      (x <-r (match f_x f with Some c => Ok c | None => Raise AttributeError end) ;; y <-r (match f_y f with Some c => Ok c | None => Raise AttributeError end) ;;
       sW <-r rtraverse (fun x => fdiv (2 * PI * 1e-12 * 3e8) (x * 1e-9)) x ;; sB <-r bcast (fun y x => fdiv (y * 2 * PI) (x * 1e-9)) y x ;;
       w <-r (if p_ready p then Ok (W_of p) else Raise RuntimeError) ;; B <-r spline (rev sW) (rev sB) w ;;
       r <-r fst (recentre p B ([], f)) ;; Ok (Some r), f_betas f)
    else (Ok None, f_betas f)
  end.
Lemma body_ext p d f f' : f_x f' = f_x f -> f_y f' = f_y f -> f_poly f' = f_poly f -> f_center f' = f_center f -> (d_format d <> Some "D"%string -> f_betas f' = f_betas f) -> fst (body p d f') = fst (body p d f).
Proof.
  intros Hx Hy Hp Hc Hb. unfold body. destruct (d_format d) as [fmt|]; [|reflexivity]. destruct (String.eqb_spec fmt "D") as [->|ND].
  - rewrite Hx, Hy, Hp. destruct (f_x f); [|reflexivity]. destruct (f_y f); [|reflexivity]. destruct (Nat.eqb _ _); [|reflexivity]. destruct (f_poly f); [|reflexivity]. destruct (fst (DTabulationToBetas _ _ _ _)); reflexivity.
  - assert (Hb' : f_betas f' = f_betas f) by (apply Hb; congruence). rewrite Hc, Hb', Hx, Hy. assert (Rc : forall B, fst (recentre p B ([], f')) = fst (recentre p B ([], f))) by (intros B; destruct (recentre_pure p B) as [r Hr]; rewrite !Hr; reflexivity).
    destruct (String.eqb fmt "GVD").
    + cbn [fst]. destruct (f_center f); [|reflexivity]. cbn [rbind]. destruct (fdiv _ _); [|reflexivity]. cbn [rbind]. destruct (f_betas f); [|reflexivity]. cbn [rbind]. destruct (Nat.eqb _ _); [|destruct (p_ready p); [|reflexivity]]; cbn [rbind]; rewrite Rc; reflexivity.
    + destruct (String.eqb fmt "n"); [|reflexivity]. cbn [fst]. destruct (f_x f); [|reflexivity]. cbn [rbind]. destruct (f_y f); [|reflexivity]. cbn [rbind]. destruct (rtraverse _ _); [|reflexivity]. cbn [rbind]. destruct (bcast _ _ _); [|reflexivity]. cbn [rbind]. destruct (p_ready p); [|reflexivity]. cbn [rbind]. destruct (spline _ _ _); [|reflexivity]. cbn [rbind]. rewrite Rc. reflexivity.
Qed.
(** the refreshed fiber, or the exception *)
Definition refreshed (z : R) (d : specs) (f : fiber) : result fiber :=
  match f_dz f with
  | None => Ok f
  | Some dd => match d_format d with
    | None => Raise KeyError
    | Some fmt => if String.eqb fmt "D" || String.eqb fmt "n" then match dd with DXY g => Ok (set_xy (fst (g z)) (snd (g z)) f) | DBetas _ => Raise TypeError end
                  else if String.eqb fmt "GVD" then match dd with DBetas g => Ok (set_betas (g z) f) | DXY _ => Raise TypeError end else Ok f
    end
  end.
Lemma get_betas_body p z (h : heap) f : let d := nth (cell f) h empty_specs in
  get_betas polyfit spline p z (h, f) = match refreshed z d f with Raise e => (Raise e, (h, f)) | Ok f1 => (fst (body p d f1), (h, upd3 (snd (body p d f1)) (f_x f1) (f_y f1) f1)) end.
Proof.
  intros d. unfold get_betas. unfold bind at 1.
  assert (RF : refresh z (h, f) = match refreshed z d f with Raise e => (Raise e, (h, f)) | Ok f1 => (Ok tt, (h, f1)) end).
  { unfold refresh, refreshed, bind, gets. cbn [snd]. destruct (f_dz f) as [dd|]; [|reflexivity]. unfold key, bind, gets. change (self_specs (h, f)) with d. destruct (d_format d) as [fmt|]; [|reflexivity]. cbn [ret]. destruct (String.eqb fmt "D" || String.eqb fmt "n"); [destruct dd; reflexivity|]. destruct (String.eqb fmt "GVD"); [destruct dd; reflexivity|reflexivity]. }
  rewrite RF. destruct (refreshed z d f) as [f1|e] eqn:E1; [|reflexivity].
  assert (C1 : cell f1 = cell f). { unfold refreshed in E1. destruct (f_dz f) as [dd|]; [|injection E1 as <-; reflexivity]. destruct (d_format d) as [fmt|]; [|discriminate]. destruct (String.eqb fmt "D" || String.eqb fmt "n"); [destruct dd; [|discriminate]; injection E1 as <-; reflexivity|]. destruct (String.eqb fmt "GVD"); [destruct dd; [discriminate|]|]; injection E1 as <-; reflexivity. }
  unfold bind at 1. unfold key at 1, bind at 1, gets at 1. unfold self_specs. cbn [fst snd]. rewrite C1. fold d. unfold body.
  assert (U : upd3 (f_betas f1) (f_x f1) (f_y f1) f1 = f1) by (destruct f1; reflexivity).
  destruct (d_format d) as [fmt|]; [|cbn [fst snd]; rewrite U; reflexivity]. cbn [ret]. destruct (String.eqb fmt "D").
  - unfold attr, bind, gets, lift, raise, on_fiber, modify, ret, pV. cbn [snd fst]. destruct (f_x f1) eqn:Ex; cbn [snd fst]; [|rewrite U; reflexivity]. destruct (f_y f1) eqn:Ey; cbn [snd fst]; [|rewrite U; reflexivity]. destruct (Nat.eqb _ _); cbn [snd fst]; [|rewrite U; reflexivity]. destruct (f_poly f1); cbn [snd fst]; [|rewrite U; reflexivity]. destruct (fst (DTabulationToBetas _ _ _ _)) as [b|]; cbn [snd fst]; [|rewrite U; reflexivity].
    assert (U' : set_betas b f1 = upd3 (Some b) (Some l) (Some l0) f1) by (unfold set_betas, upd3; rewrite Ex, Ey; reflexivity). rewrite <- U'. destruct (Nat.eqb (length b) 0); [reflexivity|]. destruct (p_ready p); reflexivity.
  - destruct (String.eqb fmt "GVD").
    + cbn [fst snd]. rewrite U. unfold attr, bind, gets, lift, raise, ret, pW. cbn [snd fst]. destruct (f_center f1); [|reflexivity]. cbn [rbind snd fst]. destruct (fdiv _ _); [|reflexivity]. cbn [rbind snd fst]. destruct (f_betas f1) as [b|]; [|reflexivity]. cbn [rbind snd fst].
      destruct (Nat.eqb (length b) 0); [|unfold ret, raise; destruct (p_ready p); [|reflexivity]]; cbn [rbind snd fst]; cbv beta iota delta [ret raise]; match goal with |- context [recentre p ?B ([], f1)] => destruct (recentre_pure p B) as [rr Hr]; rewrite !Hr end; cbn [fst]; destruct rr; reflexivity.
    + destruct (String.eqb fmt "n"); [|cbn [fst snd ret]; rewrite U; reflexivity]. cbn [fst snd]. rewrite U. unfold attr, bind, gets, lift, raise, ret, pW. cbn [snd fst]. destruct (f_x f1); [|reflexivity]. cbn [rbind snd fst]. destruct (f_y f1); [|reflexivity]. cbn [rbind snd fst]. destruct (rtraverse _ _); [|reflexivity]. cbn [rbind snd fst]. destruct (bcast _ _ _); [|reflexivity]. cbn [rbind snd fst]. unfold ret, raise; destruct (p_ready p); [|reflexivity]. cbn [rbind snd fst]. destruct (spline _ _ _); [|reflexivity]. cbn [rbind snd fst].
      cbv beta iota delta [ret raise]; match goal with |- context [recentre p ?B ([], f1)] => destruct (recentre_pure p B) as [rr Hr]; rewrite !Hr end; cbn [fst]; destruct rr; reflexivity.
Qed.

(** two fibers that get_betas cannot tell apart *)
Definition alike (d : specs) (f f' : fiber) : Prop := exists b x y, f' = upd3 b x y f /\ (f_dz f = None -> x = f_x f /\ y = f_y f /\ (d_format d <> Some "D"%string -> b = f_betas f)) /\
  (f_dz f <> None -> d_format d = Some "GVD"%string -> x = f_x f /\ y = f_y f) /\ (forall fmt, d_format d = Some fmt -> fmt <> "D"%string -> fmt <> "GVD"%string -> b = f_betas f) /\
  (forall fmt, d_format d = Some fmt -> fmt <> "D"%string -> fmt <> "n"%string -> x = f_x f /\ y = f_y f) /\ (d_format d = None -> b = f_betas f /\ x = f_x f /\ y = f_y f).
Lemma alike_result d f f' p z : alike d f f' -> match refreshed z d f, refreshed z d f' with Ok f1, Ok f1' => fst (body p d f1') = fst (body p d f1) | Raise e, Raise e' => e = e' | _, _ => False end.
Proof.
  intros (b & x & y & -> & H1 & H2 & H3 & H4 & H5). unfold refreshed. cbn [upd3 f_dz]. destruct (f_dz f) as [dd|] eqn:Ez.
  - destruct (d_format d) as [fmt|] eqn:Ef; [|reflexivity]. destruct (String.eqb_spec fmt "D") as [->|ND]; cbn [orb].
    + destruct dd; [|reflexivity]. apply body_ext; try reflexivity. intros Q. congruence.
    + destruct (String.eqb_spec fmt "n") as [->|Nn].
      * destruct dd; [|reflexivity]. apply body_ext; try reflexivity. intros _. cbn [f_betas set_xy upd3]. apply (H3 "n"%string eq_refl); discriminate.
      * destruct (String.eqb_spec fmt "GVD") as [->|NG].
        -- destruct (H2 ltac:(discriminate) eq_refl) as [-> ->]. destruct dd; [reflexivity|]. apply body_ext; reflexivity.
        -- destruct (H4 fmt eq_refl ND Nn) as [-> ->]. rewrite (H3 fmt eq_refl ND NG). destruct f; reflexivity.
  - destruct (H1 eq_refl) as (-> & -> & Hb). apply body_ext; try reflexivity. intros Q. cbn [upd3 f_betas]. exact (Hb Q).
Qed.
Lemma alike_step d (h : heap) f p z : d = nth (cell f) h empty_specs -> exists f', snd (get_betas polyfit spline p z (h, f)) = (h, f') /\ alike d f f'.
Proof.
  intros ->. rewrite get_betas_body. set (d := nth (cell f) h empty_specs).
  assert (Self : forall g, g = f -> alike d f g). { intros g ->. exists (f_betas f), (f_x f), (f_y f). split; [destruct f; reflexivity|]. repeat split. }
  assert (BD : forall f1, (d_format d <> Some "D"%string -> snd (body p d f1) = f_betas f1)).
  { intros f1 Q. unfold body. destruct (d_format d) as [fmt|]; [|reflexivity]. destruct (String.eqb_spec fmt "D"); [congruence|]. destruct (String.eqb fmt "GVD"); [reflexivity|]. destruct (String.eqb fmt "n"); reflexivity. }
  destruct (refreshed z d f) as [f1|e] eqn:E; cbn [snd]; [|eexists; split; [reflexivity|apply Self; reflexivity]]. eexists. split; [reflexivity|]. unfold refreshed in E. destruct (f_dz f) as [dd|] eqn:Ez.
  - destruct (d_format d) as [fmt|] eqn:Ef; [|discriminate]. destruct (String.eqb_spec fmt "D") as [->|ND]; cbn [orb] in E.
    + destruct dd as [g|]; [|discriminate]. injection E as <-. eexists _, _, _. split; [reflexivity|]. split; [congruence|]. split; [intros _; congruence|]. split; [intros ? ?; congruence|]. split; [intros ? ?; congruence|congruence].
    + destruct (String.eqb_spec fmt "n") as [->|Nn].
      * destruct dd as [g|]; [|discriminate]. injection E as <-. eexists _, _, _. split; [reflexivity|]. split; [congruence|]. split; [intros _; congruence|]. split; [intros ? ? _ _; rewrite BD by congruence; reflexivity|]. split; [intros ? ?; congruence|congruence].
      * destruct (String.eqb_spec fmt "GVD") as [->|NG].
        -- destruct dd as [|g]; [discriminate|]. injection E as <-. eexists _, _, _. split; [reflexivity|]. split; [congruence|]. split; [intros; split; reflexivity|]. split; [intros ? ?; congruence|]. split; [intros; split; reflexivity|congruence].
        -- injection E as <-. apply Self. rewrite BD by congruence. destruct f; reflexivity.
  - injection E as <-. eexists _, _, _. split; [reflexivity|]. split; [intros _; repeat split; apply BD|]. split; [congruence|]. split; [intros ? ? ? _; apply BD; congruence|]. split; [intros; split; reflexivity|]. intros Q. split; [apply BD; congruence|split; reflexivity].
Qed.
Lemma alike_trans d f f' f'' : alike d f f' -> alike d f' f'' -> alike d f f''.
Proof.
  intros (b & x & y & -> & H1 & H2 & H3 & H4 & H5) (b' & x' & y' & -> & K1 & K2 & K3 & K4 & K5). cbn [upd3 f_dz f_x f_y f_betas] in *. exists b', x', y'. split; [reflexivity|].
  split; [intros Z; destruct (H1 Z) as (A & B & C); destruct (K1 Z) as (A' & B' & C'); split; [congruence|split; [congruence|intros Q; rewrite (C' Q); exact (C Q)]]|].
  split; [intros Z Q; destruct (H2 Z Q); destruct (K2 Z Q); split; congruence|]. split; [intros fmt Q N1 N2; rewrite (K3 fmt Q N1 N2); exact (H3 fmt Q N1 N2)|]. split; [intros fmt Q N1 N2; destruct (K4 fmt Q N1 N2); destruct (H4 fmt Q N1 N2); split; congruence|]. intros Q. destruct (H5 Q) as (? & ? & ?). destruct (K5 Q) as (? & ? & ?). repeat split; congruence.
Qed.
End B.

(** ** C55 *)
(*! C55: in the Taylor (GVD) and index formats, whatever the fiber, z, and the polynomial fit and spline routines: on every even grid of nonzero time window, a result of get_betas has NPTS entries, is zero at the grid centre, and its numerical gradient is zero there. *)
Lemma C55_referenced_partial_l : forall (polyfit : list R -> list R -> nat -> result (list R)) (spline : list R -> list R -> list R -> result (list R)) (p : pulse) (z : R) (m : nat) (s s' : heap * fiber) (B : list R),
  p_n p = (2 * m)%nat -> (0 < m)%nat -> p_tw p <> 0 -> (d_format (self_specs s) = Some "GVD"%string \/ d_format (self_specs s) = Some "n"%string) ->
  get_betas polyfit spline p z s = (Ok (Some B), s') ->
  length B = p_n p /\ nth m B 0 = 0 /\ exists g, gradient B = Ok g /\ nth m g 0 = 0.
Proof.
  intros polyfit spline p z m [h f] s' B Hn Hm Ht Hf H. rewrite get_betas_body in H. unfold self_specs in Hf. cbn [fst snd] in Hf. destruct (refreshed z _ f) as [f1|]; [|discriminate]. assert (HB := f_equal fst H). cbn [fst] in HB. clear H. unfold body in HB. set (d := nth (cell f) h empty_specs) in *.
  assert (RC : forall B0, r <-r fst (recentre p B0 ([], f1)) ;; Ok (Some r) = Ok (Some B) -> length B = p_n p /\ nth m B 0 = 0 /\ exists g, gradient B = Ok g /\ nth m g 0 = 0).
  { intros B0 Q. destruct (recentre p B0 ([], f1)) as [[r|] s1] eqn:E; cbn [fst rbind] in Q; [|discriminate]. injection Q as <-. exact (recentred_zero p B0 _ m r s1 E Hn Hm Ht). }
  destruct Hf as [Hf|Hf]; rewrite Hf in HB; cbn [String.eqb Ascii.eqb Bool.eqb] in HB; cbn [fst] in HB.
  - destruct (f_center f1); [|discriminate]. cbn [rbind] in HB. destruct (fdiv _ _); [|discriminate]. cbn [rbind] in HB. destruct (f_betas f1); [|discriminate]. cbn [rbind] in HB. destruct (Nat.eqb _ _); [|destruct (p_ready p); [|discriminate]]; cbn [rbind] in HB; exact (RC _ HB).
  - destruct (f_x f1); [|discriminate]. cbn [rbind] in HB. destruct (f_y f1); [|discriminate]. cbn [rbind] in HB. destruct (rtraverse _ _); [|discriminate]. cbn [rbind] in HB. destruct (bcast _ _ _); [|discriminate]. cbn [rbind] in HB. destruct (p_ready p); [|discriminate]. cbn [rbind] in HB. destruct (spline _ _ _); [|discriminate]. cbn [rbind] in HB. exact (RC _ HB).
Qed.

Lemma taylor_map n b w0 W : length W = n -> (if Nat.eqb (length b) 0 then repeat 0 n else map (fun w => taylor b (w - w0)) W) = map (fun w => taylor b (w - w0)) W.
Proof.
  intros L. destruct (Nat.eqb_spec (length b) 0) as [Z|]; [|reflexivity]. destruct b; [|discriminate]. unfold taylor. cbn [length]. subst n. induction W as [|w W IH]; [reflexivity|]. cbn [length repeat map]. rewrite IH. reflexivity.
Qed.
(** betas that a GVD fiber uses at z *)
Definition betas_at (f : fiber) (z : R) : option (list R) := match f_dz f with None => f_betas f | Some (DBetas g) => Some (g z) | Some (DXY _) => None end.
Lemma gvd_value polyfit spline p z m s c b : p_ready p = true -> p_n p = (2 * m)%nat -> (0 < m)%nat -> p_tw p <> 0 -> d_format (self_specs s) = Some "GVD"%string ->
  f_center (snd s) = Some c -> c <> 0 -> betas_at (snd s) z = Some b ->
  let w0 := 2 * PI * c_nmps / c in let B0 := map (fun w => taylor b (w - w0)) (W_of p) in let sl := grad (p_n p) (fun i => nth i B0 0) m / (2 * PI / p_tw p) in
  exists s', get_betas polyfit spline p z s = (Ok (Some (mk (p_n p) (fun k => nth k B0 0 - sl * nth k (V_of p) 0 - nth m B0 0))), s') /\ fst s' = fst s.
Proof.
  intros Hr Hn Hm Ht Hf Hc Hc0 Hb w0 B0 sl. destruct s as [h f]. unfold self_specs in Hf. cbn [fst snd] in Hf, Hc, Hb. rewrite get_betas_body. cbv zeta. set (d := nth (cell f) h empty_specs) in *.
  assert (E : exists f1, refreshed z d f = Ok f1 /\ f_center f1 = Some c /\ f_betas f1 = Some b).
  { unfold refreshed, betas_at in *. rewrite Hf. destruct (f_dz f) as [[g|g]|]; [discriminate| |]; cbn [String.eqb Ascii.eqb Bool.eqb orb]; eexists; (split; [reflexivity|]); (split; [exact Hc|exact Hb]). }
  destruct E as (f1 & -> & Hc1 & Hb1). exists (h, upd3 (snd (body polyfit spline p d f1)) (f_x f1) (f_y f1) f1). split; [|reflexivity]. apply (f_equal2 pair); [|reflexivity]. unfold body. rewrite Hf. cbn [String.eqb Ascii.eqb Bool.eqb fst]. rewrite Hc1. cbn [rbind]. rewrite fdiv_ok by exact Hc0. cbn [rbind]. rewrite Hb1. cbn [rbind]. rewrite Hr.
  replace (if Nat.eqb (length b) 0 then Ok (repeat 0 (p_n p)) else Ok (map (fun w => taylor b (w - 2 * PI * c_nmps / c)) (W_of p))) with (Ok B0 : result (list R)).
  - cbn [rbind]. rewrite (recentre_ok p B0 _ m Hr Hn Hm Ht) by (unfold B0; rewrite map_length; apply W_of_length). reflexivity.
  - unfold B0. rewrite <- (taylor_map (p_n p) b w0 (W_of p) (W_of_length p)). destruct (Nat.eqb (length b) 0); reflexivity.
Qed.
(*! C55: in the GVD format get_betas always succeeds on an even grid when the fiber has a nonzero centre wavelength, and its entry at frequency omega_k is P(omega_k) - P(omega_m) - s (omega_k - omega_m), with P the Taylor polynomial sum b_i/(i+2)! (omega - 2 pi c/lambda)^(i+2) of the fiber (of its coefficients at z if they depend on z), m the grid centre and s the central difference quotient of P there. *)
Lemma C55_gvd_value_l : forall (polyfit : list R -> list R -> nat -> result (list R)) (spline : list R -> list R -> list R -> result (list R)) (p : pulse) (z : R) (m : nat) (s : heap * fiber) (c : R) (b : list R),
  p_ready p = true -> p_n p = (2 * m)%nat -> (1 < m)%nat -> p_tw p <> 0 -> d_format (self_specs s) = Some "GVD"%string -> f_center (snd s) = Some c -> c <> 0 ->
  match f_dz (snd s) with None => f_betas (snd s) = Some b | Some (DBetas g) => g z = b | Some (DXY _) => False end ->
  let d := 2 * PI / p_tw p in let w k := 2 * PI * p_f p + (INR k - INR m) * d in
  let P v := rsum (length b) (fun i => nth i b 0 / INR (fact (i + 2)) * (v - 2 * PI * c_nmps / c) ^ (i + 2)) in
  exists B s', get_betas polyfit spline p z s = (Ok (Some B), s') /\ length B = p_n p /\
    forall k, (k < p_n p)%nat -> nth k B 0 = P (w k) - P (w m) - (P (w (m + 1)%nat) - P (w (m - 1)%nat)) / (2 * d) * (w k - w m).
Proof.
  intros polyfit spline p z m s c b Hr Hn Hm Ht Hf Hc Hc0 Hb d w P.
  assert (Hb' : betas_at (snd s) z = Some b) by (unfold betas_at; destruct (f_dz (snd s)) as [[g|g]|]; [contradiction|congruence|exact Hb]).
  destruct (gvd_value polyfit spline p z m s c b Hr Hn ltac:(lia) Ht Hf Hc Hc0 Hb') as (s' & E & _). eexists _, s'. split; [exact E|]. split; [apply mk_length|]. intros k Hk. rewrite mk_nth by exact Hk.
  assert (HW : forall i, (i < p_n p)%nat -> nth i (W_of p) 0 = w i) by (intros i Hi; rewrite W_of_val by exact Hi; unfold w, d; rewrite Hn, mult_INR; cbn [INR]; field; exact Ht).
  assert (HB : forall i, (i < p_n p)%nat -> nth i (map (fun w => taylor b (w - 2 * PI * c_nmps / c)) (W_of p)) 0 = P (w i)) by (intros i Hi; rewrite (nth_map' _ _ _ 0) by (rewrite W_of_length; exact Hi); rewrite HW by exact Hi; reflexivity).
  assert (HV : nth k (V_of p) 0 = w k - w m) by (rewrite V_of_val by exact Hk; unfold w, d; rewrite Hn, mult_INR; cbn [INR]; field; exact Ht).
  rewrite HV, !HB by lia. unfold grad. destruct (Nat.eqb_spec m 0); [lia|]. destruct (Nat.eqb_spec m (p_n p - 1)); [lia|]. rewrite !HB by lia. fold d. assert (Hd : d <> 0) by exact (dw_ne p Ht). field. exact Hd.
Qed.
(*! C55: in the tabulated-D format every result of get_betas has NPTS entries and vanishes, with its analytic slope, at the grid centre: it is a sum of powers V^(i+2), i >= 0, of the frequency relative to the centre. *)
Lemma C55_tabulated_l : forall (polyfit : list R -> list R -> nat -> result (list R)) (spline : list R -> list R -> list R -> result (list R)) (p : pulse) (z : R) (s s' : heap * fiber) (B : list R),
  d_format (self_specs s) = Some "D"%string -> get_betas polyfit spline p z s = (Ok (Some B), s') ->
  exists b, length B = p_n p /\ forall k, (k < p_n p)%nat -> nth k B 0 = rsum (length b) (fun i => nth i b 0 / INR (fact (i + 2)) * (2 * PI * (INR k - INR (p_n p) / 2) / p_tw p) ^ (i + 2)).
Proof.
  intros polyfit spline p z [h f] s' B Hf H. rewrite get_betas_body in H. unfold self_specs in Hf. cbn [fst snd] in Hf. destruct (refreshed z _ f) as [f1|]; [|discriminate]. assert (HB := f_equal fst H). cbn [fst] in HB. clear H. unfold body in HB. rewrite Hf in HB. cbn [String.eqb Ascii.eqb Bool.eqb] in HB.
  destruct (f_x f1); [|discriminate]. destruct (f_y f1); [|discriminate]. destruct (Nat.eqb (length l) (length l0)); [|discriminate]. destruct (f_poly f1); [|discriminate]. destruct (fst (DTabulationToBetas _ _ _ _)) as [b|]; [|discriminate]. cbn [fst] in HB.
  destruct (Nat.eqb_spec (length b) 0) as [Z|Z].
  - injection HB as <-. exists []. split; [apply repeat_length|]. intros k Hk. cbn [length]. rewrite nth_repeat. reflexivity.
  - destruct (p_ready p); [|discriminate]. injection HB as <-. exists b. split; [rewrite map_length; apply V_of_length|]. intros k Hk. rewrite (nth_map' _ _ _ 0) by (rewrite V_of_length; exact Hk). rewrite V_of_val by exact Hk. reflexivity.
Qed.
(*! C55: what get_betas returns (or raises) does not depend on earlier calls of get_betas on the same fiber, however many, for whatever pulses and positions, in every format. *)
Lemma C55_repeatable_l : forall (polyfit : list R -> list R -> nat -> result (list R)) (spline : list R -> list R -> list R -> result (list R)) (p : pulse) (z : R) (s : heap * fiber) (calls : list (pulse * R)),
  fst (get_betas polyfit spline p z (fold_left (fun s c => snd (get_betas polyfit spline (fst c) (snd c) s)) calls s)) = fst (get_betas polyfit spline p z s).
Proof.
  intros polyfit spline p z [h f] calls. set (d := nth (cell f) h empty_specs).
  assert (HI : forall f0, alike d f f0 -> exists f', fold_left (fun s c => snd (get_betas polyfit spline (fst c) (snd c) s)) calls (h, f0) = (h, f') /\ alike d f f').
  { induction calls as [|c calls IH]; intros f0 A; cbn [fold_left]; [eauto|]. assert (d = nth (cell f0) h empty_specs) by (destruct A as (? & ? & ? & -> & _); reflexivity). destruct (alike_step polyfit spline d h f0 (fst c) (snd c) H) as (f1 & E1 & A1). rewrite E1. exact (IH f1 (alike_trans _ _ _ _ A A1)). }
  destruct (HI f) as (f' & -> & A). { exists (f_betas f), (f_x f), (f_y f). split; [destruct f; reflexivity|]. repeat split. }
  rewrite !get_betas_body. assert (C : cell f' = cell f) by (destruct A as (? & ? & ? & -> & _); reflexivity). cbv zeta. rewrite C. fold d. pose proof (alike_result polyfit spline d f f' p z A) as Q. destruct (refreshed z d f), (refreshed z d f'); try contradiction; cbn [fst]; [exact Q|congruence].
Qed.
(*! C55: on an odd grid the reference is not removed at a grid point: a ready pulse of 3 points and a one-coefficient fiber centred on it give a nonzero value at the point where |V| is smallest. *)
Lemma C55_odd_refuted_l : exists (p : pulse) (s : heap * fiber) (ci : nat), p_ready p = true /\ p_n p = 3%nat /\ 0 < p_tw p /\ argmin (map Rabs (V_of p)) = Ok ci /\
  forall (polyfit : list R -> list R -> nat -> result (list R)) (spline : list R -> list R -> list R -> result (list R)), exists B s', get_betas polyfit spline p 0 s = (Ok (Some B), s') /\ nth ci B 0 <> 0.
Proof.
  set (p := mkPulse 3 1 1 None None true None None None None).
  exists p, ([with_format "GVD" empty_specs], mkFiber (Some 0%nat) [] None None (Some [1]) None None None None None (Some c_nmps) None None), 1%nat.
  assert (HV : V_of p = [- (3 * PI); - PI; PI]). { apply (list_ext 0); [apply V_of_length|]. intros i Hi. rewrite V_of_length in Hi. change (p_n p) with 3%nat in Hi. rewrite V_of_val by exact Hi. change (p_n p) with 3%nat. change (p_tw p) with 1. destruct i as [|[|[|]]]; [| | |lia]; cbn [INR nth]; field. }
  assert (HW : W_of p = [- PI; PI; 3 * PI]). { apply (list_ext 0); [apply W_of_length|]. intros i Hi. rewrite W_of_length in Hi. change (p_n p) with 3%nat in Hi. rewrite W_of_val by exact Hi. change (p_n p) with 3%nat. change (p_tw p) with 1. change (p_f p) with 1. destruct i as [|[|[|]]]; [| | |lia]; cbn [INR nth]; field. }
  assert (HA : argmin (map Rabs (V_of p)) = Ok 1%nat).
  { destruct (argmin_spec (map Rabs (V_of p))) as (r & E & Hr & Hmin & Hfirst); [rewrite HV; discriminate|]. rewrite E. f_equal. rewrite map_length, V_of_length in *. change (p_n p) with 3%nat in *. rewrite HV in *. pose proof PI_RGT_0 as HP. assert (A1 : Rabs (- PI) = PI) by (rewrite Rabs_Ropp; apply Rabs_right; lra). assert (A0 : Rabs (- (3 * PI)) = 3 * PI) by (rewrite Rabs_Ropp; apply Rabs_right; lra). assert (A2 : Rabs PI = PI) by (apply Rabs_right; lra).
    destruct r as [|[|[|]]]; [| reflexivity| |lia].
    - specialize (Hmin 1%nat ltac:(lia)). cbn [map nth] in Hmin. rewrite A1, A0 in Hmin. lra.
    - specialize (Hfirst 1%nat ltac:(lia)). cbn [map nth] in Hfirst. rewrite A1, A2 in Hfirst. lra. }
  split; [reflexivity|]. split; [reflexivity|]. split; [cbn; lra|]. split; [exact HA|]. intros polyfit spline. pose proof PI_RGT_0 as HP.
  assert (Hc : c_nmps <> 0) by (unfold c_nmps, c_mks; lra).
  rewrite get_betas_body. cbv zeta. unfold refreshed. cbn [f_dz]. unfold body. cbn [cell f_specs nth with_format d_format String.eqb Ascii.eqb Bool.eqb fst f_center f_betas rbind]. rewrite fdiv_ok by exact Hc. cbn [rbind length Nat.eqb]. change (p_ready p) with true. cbn [rbind].
  set (B0 := map _ (W_of p)). destruct (recentre p B0 _) as [[r|e] s1] eqn:E.
  - destruct (recentre_inv _ _ _ _ _ E) as (_ & _ & _ & _ & ci & Ec & _ & ->). rewrite HA in Ec. injection Ec as <-. cbn [fst rbind]. eexists _, _. split; [reflexivity|]. change (p_n p) with 3%nat. rewrite mk_nth by lia. rewrite HV. unfold grad. cbn [Nat.eqb Nat.sub Nat.add nth]. change (p_tw p) with 1.
    unfold B0. rewrite HW. cbn [map nth]. unfold taylor. cbn [length]. unfold rsum, lrsum, mk. cbn [seq map fold_right nth]. change (fact (0 + 2)) with 2%nat. change (INR 2) with 2. replace (2 * PI * c_nmps / c_nmps) with (2 * PI) by (field; exact Hc). cbn [Nat.add pow].
    match goal with |- ?x <> 0 => replace x with (- PI ^ 2) by (field; lra) end. assert (0 < PI ^ 2) by (apply pow_lt; exact HP). lra.
  - exfalso. revert E. unfold recentre, pV, pW, bind, lift, ret, raise. change (p_ready p) with true. cbv iota beta. rewrite HA. rewrite gradient_run by (unfold B0; rewrite map_length, W_of_length; cbn; lia). rewrite gradient_run by (rewrite W_of_length; cbn; lia). rewrite !mk_length. unfold B0. rewrite map_length, W_of_length. change (p_n p) with 3%nat. cbn [Nat.eqb]. rewrite HW. rewrite !mk_nth by lia. unfold grad. cbn [Nat.eqb Nat.sub Nat.add nth]. rewrite fdiv_ok by lra. rewrite HV. discriminate.
Qed.

(** ** C56 *)
Lemma upd_length {A} i (g : A -> A) l : length (upd i g l) = length l.
Proof. unfold upd. rewrite map_length, combine_length, seq_length. apply Nat.min_id. Qed.
Lemma upd_nth {A} i (g : A -> A) l k d : (k < length l)%nat -> nth k (upd i g l) d = if Nat.eqb k i then g (nth k l d) else nth k l d.
Proof.
  intros H. unfold upd. rewrite (nth_map' _ _ _ (0%nat, d)) by (rewrite combine_length, seq_length; lia). rewrite combine_nth by apply seq_length. rewrite seq_nth by exact H. cbn [fst snd Nat.add]. reflexivity.
Qed.
Lemma upd_app_last {A} (g : A -> A) h x : upd (length h) g (h ++ [x]) = h ++ [g x].
Proof.
  apply (list_ext x); [rewrite upd_length, !app_length; reflexivity|]. rewrite upd_length, app_length. cbn [length]. intros i Hi. rewrite upd_nth by (rewrite app_length; cbn [length]; lia).
  destruct (Nat.eqb_spec i (length h)) as [->|N]; [rewrite !app_nth2, Nat.sub_diag by lia; reflexivity|]. rewrite !app_nth1 by lia. reflexivity.
Qed.
(*! C56: generate_fiber succeeds on every fiber object; then the length is the given one, get_gamma is the given gamma at every z (if no gamma function was installed) and get_gain is the given gain on every point of every pulse's grid. *)
Lemma C56_parameters_l : forall (h : heap) (f : fiber) (len center : R) (betas : list R) (gamma gain : R) (units label : string),
  exists h' f', generate_fiber len center betas gamma gain units label (h, f) = (Ok tt, (h', f')) /\
    f_length f' = Some len /\ f_center f' = Some center /\ d_format (self_specs (h', f')) = Some "GVD"%string /\
    (f_gz f = None -> forall z, get_gamma z (h', f') = (Ok (Some gamma), (h', f'))) /\
    (forall p, get_gain p (h', f') = (Ok (repeat gain (p_n p)), (h', f'))).
Proof.
  intros h f len center betas gamma gain units label.
  assert (E : generate_fiber len center betas gamma gain units label (h, f) =
    (Ok tt, (upd (List.length h) (with_gain_x None) (upd (List.length h) (with_is_gain (negb (is_zero gain))) (upd (List.length h) (with_format "GVD") (h ++ [empty_specs]))),
      (if String.eqb units "ps^n/km" then set_betas (map (fun b => b * 1.0e-3) betas) else fun x => x) (set_gamma gamma (set_betas betas (set_center center (set_gain gain (set_type label (set_specs (Some (List.length h)) (set_length len f)))))))))).
  { unfold generate_fiber, put_specs, on_fiber, modify, bind, gets, ret. cbn [fst snd cell f_specs set_specs set_type set_gain]. destruct (String.eqb units "ps^n/km"); reflexivity. }
  rewrite E. clear E. rewrite !upd_app_last.
  eexists _, _. split; [reflexivity|]. unfold self_specs. cbn [fst snd].
  assert (C : forall g : fiber, cell ((if String.eqb units "ps^n/km" then set_betas (map (fun b => b * 1.0e-3) betas) else fun x => x) g) = cell g) by (intros; destruct (String.eqb _ _); reflexivity).
  assert (HS : forall l (x : specs), nth (List.length l) (l ++ [x]) empty_specs = x) by (intros l x; rewrite app_nth2, Nat.sub_diag; [reflexivity|lia]).
  split; [destruct (String.eqb _ _); reflexivity|]. split; [destruct (String.eqb _ _); reflexivity|]. split; [rewrite C; cbn [cell f_specs set_gamma set_betas set_center set_gain set_type set_specs]; rewrite HS; reflexivity|]. split.
  - intros Z z. unfold get_gamma, bind, gets. cbn [snd]. destruct (String.eqb _ _); cbn [f_gz set_betas set_gamma set_center set_gain set_type set_specs set_length f_gamma]; rewrite Z; reflexivity.
  - intros p. unfold get_gain, key, attr, bind, gets, self_specs. cbn [fst snd]. rewrite C. cbn [cell f_specs set_gamma set_betas set_center set_gain set_type set_specs]. rewrite HS. cbn [with_gain_x with_is_gain d_is_gain ret]. unfold is_zero. destruct (Req_EM_T gain 0) as [->|N]; cbn [negb]; [reflexivity|]. cbn [d_gain_x with_gain_x].  unfold ret. cbn [fst snd]. rewrite C. cbn [cell f_specs set_gamma set_betas set_center set_gain set_type set_specs]. rewrite HS. cbn [d_gain_x with_gain_x]. destruct (String.eqb _ _); reflexivity.
Qed.

(*! C56: betas in ps^n/km are 1e-3 times those in ps^n/m: generating a fiber from betas in ps^n/km is the same as generating it from 1e-3*betas in ps^n/m, and on every grid, fit and spline its get_betas is 1e-3 times the one of the fiber generated from the same numbers read as ps^n/m. *)
Lemma C56_units_l : forall (polyfit : list R -> list R -> nat -> result (list R)) (spline : list R -> list R -> list R -> result (list R)) (s : heap * fiber) (len center : R) (betas : list R) (gamma gain : R) (label : string),
  generate_fiber len center betas gamma gain "ps^n/km" label s = generate_fiber len center (map (fun b => b * 1.0e-3) betas) gamma gain "ps^n/m" label s /\
  (f_dz (snd s) = None -> forall (p : pulse) (z : R) (B1 B2 : list R) s1 s2,
    get_betas polyfit spline p z (snd (generate_fiber len center betas gamma gain "ps^n/m" label s)) = (Ok (Some B1), s1) ->
    get_betas polyfit spline p z (snd (generate_fiber len center betas gamma gain "ps^n/km" label s)) = (Ok (Some B2), s2) ->
    B2 = map (fun b => b * 1.0e-3) B1).
Proof.
  intros polyfit spline [h f] len center betas gamma gain label.
  set (F b := set_gamma gamma (set_betas b (set_center center (set_gain gain (set_type label (set_specs (Some (List.length h)) (set_length len f))))))).
  set (H := upd (List.length h) (with_gain_x None) (upd (List.length h) (with_is_gain (negb (is_zero gain))) (upd (List.length h) (with_format "GVD") (h ++ [empty_specs])))).
  assert (E1 : forall b, generate_fiber len center b gamma gain "ps^n/m" label (h, f) = (Ok tt, (H, F b))) by (intros; reflexivity).
  assert (E2 : generate_fiber len center betas gamma gain "ps^n/km" label (h, f) = (Ok tt, (H, F (map (fun b => b * 1.0e-3) betas)))) by reflexivity.
  split; [rewrite E1, E2; reflexivity|]. intros Z p z B1 B2 s1 s2. rewrite E1, E2. cbn [snd] in *. rewrite !get_betas_body. cbv zeta. unfold refreshed. change (f_dz (F betas)) with (f_dz f). change (f_dz (F (map (fun b => b * 1.0e-3) betas))) with (f_dz f). rewrite Z. change (cell (F betas)) with (List.length h). change (cell (F (map (fun b => b * 1.0e-3) betas))) with (List.length h).
  unfold H. rewrite !upd_app_last. rewrite app_nth2, Nat.sub_diag by lia. cbn [nth]. unfold body. cbn [d_format with_gain_x with_is_gain with_format String.eqb Ascii.eqb Bool.eqb fst].
  change (f_center (F betas)) with (Some center). change (f_center (F (map (fun b => b * 1.0e-3) betas))) with (Some center). change (f_betas (F betas)) with (Some betas). change (f_betas (F (map (fun b => b * 1.0e-3) betas))) with (Some (map (fun b => b * 1.0e-3) betas)). cbn [rbind]. destruct (fdiv _ _) as [w0|]; [|discriminate]. cbn [rbind]. rewrite map_length.
  set (b2 := map (fun b => b * 1.0e-3) betas).
  assert (T : forall v, taylor b2 v = taylor betas v * 1.0e-3). { intros v. unfold taylor, b2. rewrite map_length. rewrite (Rmult_comm _ 1.0e-3), <- rsum_scal_l. apply rsum_ext. intros i Hi. rewrite (nth_map' _ _ _ 0) by exact Hi. unfold Rdiv. ring. }
  assert (S : forall B B' r r', (forall k, nth k B' 0 = nth k B 0 * 1.0e-3) -> fst (recentre p B ([], F betas)) = Ok r -> fst (recentre p B' ([], F b2)) = Ok r' -> r' = map (fun b => b * 1.0e-3) r).
  { intros B B' r r' HB Q1 Q2. destruct (recentre p B ([], F betas)) as [q1 t1] eqn:K1. destruct (recentre p B' ([], F b2)) as [q2 t2] eqn:K2. cbn [fst] in Q1, Q2. subst q1 q2. destruct (recentre_inv _ _ _ _ _ K1) as (_ & _ & L2 & _ & ci & Ec & Hci & ->). destruct (recentre_inv _ _ _ _ _ K2) as (_ & _ & _ & _ & ci' & Ec' & _ & ->). rewrite Ec in Ec'. injection Ec' as <-. cbv zeta.
    apply (list_ext 0); [rewrite map_length, !mk_length; reflexivity|]. rewrite mk_length. intros k Hk. rewrite (nth_map' _ _ _ 0) by (rewrite mk_length; exact Hk). rewrite !mk_nth by exact Hk. rewrite !HB. replace (grad (p_n p) (fun i => nth i B' 0) ci) with (grad (p_n p) (fun i => nth i B 0) ci * 1.0e-3); [unfold Rdiv; ring|].
    rewrite (grad_ext _ (fun i => nth i B' 0) (fun i => nth i B 0 * 1.0e-3)) by (assumption || intros; auto). unfold grad. destruct (Nat.eqb ci 0); [ring|]. destruct (Nat.eqb ci _); [ring|field]. }
  assert (Fin : forall B B', (forall k, nth k B' 0 = nth k B 0 * 1.0e-3) -> forall t1 t2, (r <-r fst (recentre p B ([], F betas)) ;; Ok (Some r), t1) = (Ok (Some B1), s1) -> (r <-r fst (recentre p B' ([], F b2)) ;; Ok (Some r), t2) = (Ok (Some B2), s2) -> B2 = map (fun b => b * 1.0e-3) B1).
  { intros B B' HB t1 t2 Q1 Q2. apply (f_equal fst) in Q1. apply (f_equal fst) in Q2. cbn [fst] in Q1, Q2. destruct (fst (recentre p B ([], F betas))) as [r|] eqn:G1; [|discriminate]. destruct (fst (recentre p B' ([], F b2))) as [r'|] eqn:G2; [|discriminate]. cbn [rbind] in Q1, Q2. injection Q1 as <-. injection Q2 as <-. exact (S B B' r r' HB G1 G2). }
  destruct (Nat.eqb (length betas) 0).
  - cbn [rbind]. apply Fin. intros k. rewrite nth_repeat. ring.
  - destruct (p_ready p); [|discriminate]. cbn [rbind]. apply Fin. intros k. destruct (Nat.lt_ge_cases k (p_n p)) as [Hk|Hk]; [rewrite !(nth_map' _ _ _ 0) by (rewrite W_of_length; exact Hk); apply T|]. rewrite !nth_overflow by (rewrite map_length, W_of_length; exact Hk). ring.
Qed.

(** ** C58 *)
(*! C58: a call of DTabulationToBetas multiplies the second column of the caller's array by 1e-12*1e9*1e-3, whatever happens later in the call; with a fit that is linear in the ordinates (as least squares is) the second call on the same array returns the first answer times that factor. *)
Lemma C58_second_call_partial_l : forall (polyfit : list R -> list R -> nat -> result (list R)) (lambda0 : R) (order : nat) (tab : list (R * R)),
  let q := 1e-12 * 1e9 * 1e-3 in
  snd (DTabulationToBetas polyfit lambda0 order tab) = map (fun r => (fst r, snd r * q)) tab /\
  ((forall x y c, polyfit x y order = Ok c -> polyfit x (map (fun v => v * q) y) order = Ok (map (fun v => v * q) c)) ->
   forall b, fst (DTabulationToBetas polyfit lambda0 order tab) = Ok b ->
   fst (DTabulationToBetas polyfit lambda0 order (snd (DTabulationToBetas polyfit lambda0 order tab))) = Ok (map (fun v => v * q) b)).
Proof.
  intros polyfit lambda0 order tab q.
  set (sc := fun r : R * R => (fst r, snd r * 1e-12 * 1e9 * 1e-3)). set (omf := fun r : R * R => a <-r fdiv (2 * PI * c_mks) (fst r * 1e-9) ;; b <-r fdiv (2 * PI * c_mks) (lambda0 * 1e-9) ;; Ok ((a - b) * 1e-12)).
  set (bf := fun r : R * R => (- snd r * (fst r * 1e-9) ^ 2 / (2 * PI * c_mks)) * 1e24).
  assert (E : forall t, DTabulationToBetas polyfit lambda0 order t = (om <-r rtraverse omf (map sc t) ;; co <-r polyfit om (map bf (map sc t)) order ;; Ok (mk (length (rev co)) (fun i => nth i (rev co) 0 * INR (fact i))), map sc t)).
  { intros t. unfold DTabulationToBetas, modify, get, lift, bind, ret. fold sc. fold omf. fold bf. destruct (rtraverse omf _); [|reflexivity]. cbn [rbind]. destruct (polyfit _ _ _); reflexivity. }
  assert (SC : forall t, map sc t = map (fun r => (fst r, snd r * q)) t) by (intros t; apply map_ext; intros r; unfold sc, q; apply (f_equal2 pair); [reflexivity|ring]).
  split; [rewrite E; cbn [snd]; apply SC|]. intros HP b. rewrite !E. cbn [fst snd].
  assert (R1 : forall t, rtraverse omf (map sc t) = rtraverse omf t). { induction t as [|r t IH]; [reflexivity|]. cbn [map rtraverse]. rewrite IH. reflexivity. }
  assert (R2 : forall t, map bf (map sc t) = map (fun v => v * q) (map bf t)) by (intros t; rewrite !map_map; apply map_ext; intros r; unfold bf, sc, q; cbn [fst snd]; unfold Rdiv; ring).
  rewrite !R1. destruct (rtraverse omf tab) as [om|]; [|discriminate]. cbn [rbind]. rewrite (R2 (map sc tab)). destruct (polyfit om (map bf (map sc tab)) order) as [c|] eqn:Ec; [|discriminate]. cbn [rbind]. rewrite (HP _ _ _ Ec). cbn [rbind]. intros [= <-]. apply (f_equal Ok). rewrite !rev_length, map_length.
  apply (list_ext 0); [rewrite map_length, !mk_length; reflexivity|]. rewrite mk_length. intros i Hi. rewrite (nth_map' _ _ _ 0) by (rewrite mk_length; exact Hi). rewrite !mk_nth by exact Hi. rewrite <- map_rev. rewrite (nth_map' _ _ _ 0) by (rewrite rev_length; exact Hi). ring.
Qed.
(*! C58: the two answers differ: a one-point tabulation, fitted exactly by a constant, gives another value on the second call. *)
Lemma C58_twice_refuted_l : exists (polyfit : list R -> list R -> nat -> result (list R)) (lambda0 : R) (order : nat) (tab : list (R * R)) (b1 b2 : list R),
  (forall x y, polyfit [x] [y] 0%nat = Ok [y]) /\ fst (DTabulationToBetas polyfit lambda0 order tab) = Ok b1 /\
  fst (DTabulationToBetas polyfit lambda0 order (snd (DTabulationToBetas polyfit lambda0 order tab))) = Ok b2 /\ b1 <> b2.
Proof.
  set (pf := fun (x y : list R) (o : nat) => Ok [nth 0 y 0] : result (list R)).
  assert (H : exists v, v <> 0 /\ fst (DTabulationToBetas pf 1000 0 [(1000, -1)]) = Ok [v]).
  { unfold DTabulationToBetas, modify, get, lift, bind, ret. cbn [map fst snd rtraverse]. rewrite fdiv_ok by lra. cbn [rbind]. unfold pf. cbn [fst rev app length nth mk]. unfold mk. cbn [seq map nth fact]. eexists. split; [|reflexivity]. pose proof PI_RGT_0. assert (0 < / (2 * PI * c_mks)) by (apply Rinv_0_lt_compat; unfold c_mks; lra). unfold Rdiv. cbn [INR]. intros Q.
    match type of Q with ?x = 0 => assert (0 < x); [|lra] end. match goal with |- 0 < ?x => replace x with (1e-12 * 1e9 * 1e-3 * (1000 * 1e-9) ^ 2 * 1e24 * / (2 * PI * c_mks)) by (unfold Rdiv; ring) end. apply Rmult_lt_0_compat; [lra|assumption]. }
  destruct H as (v & Hv & E). exists pf, 1000, 0%nat, [(1000, -1)], [v], [v * (1e-12 * 1e9 * 1e-3)]. split; [reflexivity|]. split; [exact E|]. split.
  - destruct (C58_second_call_partial_l pf 1000 0 [(1000, -1)]) as [_ Q]. cbv zeta in Q. rewrite (Q ltac:(intros x y c [= <-]; unfold pf; destruct y; cbn [map nth]; rewrite ?Rmult_0_l; reflexivity) [v] E). reflexivity.
  - intros [= Q]. apply Hv. lra.
Qed.

(** ** C66, C68 *)
(** what Beta2 computes from an array of betas *)
Lemma beta2_run polyfit spline p s B s' : p_ready p = true -> (3 <= p_n p)%nat -> p_tw p <> 0 -> length B = p_n p -> get_betas polyfit spline p 0 s = (Ok (Some B), s') ->
  exists out, Beta2 polyfit spline p s = (Ok out, s') /\ length out = p_n p /\
    (forall k, (1 <= k <= p_n p - 2)%nat -> nth k out 0 = (nth (k + 1) B 0 - 2 * nth k B 0 + nth (k - 1) B 0) / (2 * PI / p_tw p) ^ 2) /\
    nth 0 out 0 = nth 1 out 0 /\ nth (p_n p - 1) out 0 = nth (p_n p - 2) out 0.
Proof.
  intros Hr Hn Ht HB E. unfold Beta2, pV. rewrite Hr. unfold bind at 1, ret at 1. 
  assert (DW : forall a b l, V_of p = a :: b :: l -> b - a = 2 * PI / p_tw p). { intros a b l H. replace b with (nth 1 (V_of p) 0) by (rewrite H; reflexivity). replace a with (nth 0 (V_of p) 0) by (rewrite H; reflexivity). rewrite !V_of_val by lia. cbn [INR]. field. exact Ht. }
  pose proof (V_of_length p) as LV. destruct (V_of p) as [|a [|b l]] eqn:EV; [cbn in LV; lia|cbn in LV; lia|]. rewrite (DW a b l eq_refl). unfold bind at 1, ret at 1. unfold bind at 1. rewrite E. set (dw := 2 * PI / p_tw p). assert (Hd : dw ^ 2 <> 0) by (apply pow_nonzero; exact (dw_ne p Ht)).
  rewrite (rtraverse_ok _ (fun d => d / dw ^ 2)) by (intros; apply fdiv_ok; exact Hd). unfold bind at 1, lift at 1.
  set (dd := diff1 (diff1 B)). assert (Ld : length dd = (p_n p - 2)%nat) by (unfold dd, diff1; rewrite !mk_length; lia).
  assert (Nd : forall k, (k < p_n p - 2)%nat -> nth k (map (fun d => d / dw ^ 2) dd) 0 = (nth (k + 2) B 0 - 2 * nth (k + 1) B 0 + nth k B 0) / dw ^ 2). { intros k Hk. rewrite (nth_map' _ _ _ 0) by lia. unfold dd, diff1. rewrite mk_length, mk_nth by lia. rewrite !mk_nth by lia. replace (k + 1 + 1)%nat with (k + 2)%nat by lia. unfold Rdiv. ring. }
  destruct (map (fun d => d / dw ^ 2) dd) as [|x out] eqn:EM; [apply (f_equal (@length R)) in EM; rewrite map_length in EM; cbn in EM; lia|]. assert (Lo : length (x :: out) = (p_n p - 2)%nat) by (rewrite <- EM, map_length; exact Ld).
  assert (Lx : last (x :: x :: out) 0 = nth (p_n p - 3) (x :: out) 0). { change (last (x :: x :: out) 0) with (last (x :: out) 0). rewrite (last_nth' 0) by discriminate. f_equal. lia. }
  eexists. split; [reflexivity|]. assert (L1 : length (x :: x :: out) = (p_n p - 1)%nat) by (cbn [length] in *; lia). split; [rewrite app_length, L1; cbn [length]; lia|]. split; [|split].
  - intros k Hk. rewrite app_nth1 by lia. destruct k as [|k]; [lia|]. change (nth (S k) (x :: x :: out) 0) with (nth k (x :: out) 0). rewrite Nd by lia. replace (k + 2)%nat with (S k + 1)%nat by lia. replace (k + 1)%nat with (S k) by lia. replace (S k - 1)%nat with k by lia. reflexivity.
  - reflexivity.
  - rewrite app_nth2, L1, Nat.sub_diag by lia. rewrite Lx. cbn [nth]. rewrite app_nth1 by lia. replace (p_n p - 2)%nat with (S (p_n p - 3)) by lia. reflexivity.
Qed.
(*! C66: a fiber given by beta2 and at most beta3 reports through Beta2, at every interior point of every even grid, exactly beta2 + beta3*(omega - omega_fiber) -- the second derivative of its propagation constant -- whatever the pulse's centre frequency; the two edge points repeat their neighbours. *)
Lemma C66_beta2_exact_l : forall (polyfit : list R -> list R -> nat -> result (list R)) (spline : list R -> list R -> list R -> result (list R)) (p : pulse) (m : nat) (s : heap * fiber) (c b2 b3 : R),
  p_ready p = true -> p_n p = (2 * m)%nat -> (1 < m)%nat -> p_tw p <> 0 -> d_format (self_specs s) = Some "GVD"%string -> f_dz (snd s) = None -> f_center (snd s) = Some c -> c <> 0 ->
  (f_betas (snd s) = Some [b2; b3] \/ (f_betas (snd s) = Some [b2] /\ b3 = 0)) ->
  exists out s', Beta2 polyfit spline p s = (Ok out, s') /\ length out = p_n p /\
    (forall k, (1 <= k <= p_n p - 2)%nat -> nth k out 0 = b2 + b3 * (2 * PI * p_f p + (INR k - INR m) * (2 * PI / p_tw p) - 2 * PI * c_nmps / c)) /\
    nth 0 out 0 = nth 1 out 0 /\ nth (p_n p - 1) out 0 = nth (p_n p - 2) out 0.
Proof.
  intros polyfit spline p m s c b2 b3 Hr Hn Hm Ht Hf Hz Hc Hc0 Hb.
  assert (HB : exists b, f_betas (snd s) = Some b /\ forall v, taylor b v = b2 / 2 * v ^ 2 + b3 / 6 * v ^ 3).
  { destruct Hb as [Hb|[Hb ->]]; eexists; (split; [exact Hb|]); intros v; unfold taylor; cbn [length]; unfold rsum, lrsum, mk; cbn [seq map fold_right nth]; change (fact (0 + 2)) with 2%nat; change (fact (1 + 2)) with 6%nat; rewrite !INR_IZR_INZ; cbn [Z.of_nat Pos.of_succ_nat Pos.succ Nat.add]; field. }
  destruct HB as (b & Eb & HT). assert (Ba : betas_at (snd s) 0 = Some b) by (unfold betas_at; rewrite Hz; exact Eb).
  destruct (gvd_value polyfit spline p 0 m s c b Hr Hn ltac:(lia) Ht Hf Hc Hc0 Ba) as (s' & E & _). match type of E with _ = (Ok (Some ?X), _) => set (B := X) in E end. assert (LB : length B = p_n p) by apply mk_length.
  destruct (beta2_run polyfit spline p s B s' Hr ltac:(lia) Ht LB E) as (out & E2 & Lo & Hk & H0 & H1). exists out, s'. split; [exact E2|]. split; [exact Lo|]. split; [|split; assumption].
  intros k Hkk. rewrite Hk by exact Hkk. unfold B. set (sl := grad _ _ _ / _). rewrite !mk_nth by lia. rewrite !(nth_map' (fun w => taylor b (w - _)) _ _ 0) by (rewrite W_of_length; lia). rewrite !HT. rewrite !W_of_val, !V_of_val by lia. rewrite Hn, !mult_INR, plus_INR. rewrite (minus_INR k 1) by lia. cbn [INR].
  assert (HPI : PI <> 0) by (pose proof PI_RGT_0; lra). field. repeat split; assumption.
Qed.
(*! C68: D and beta2 are consistent both ways: when Beta2 succeeds with b and the wavelength grid w has the same number of points, all nonzero, Beta2_to_D gives -2 pi c/w^2 b in ps/nm/km, and a tabulation (w, D) made of it is turned back by DTabulationToBetas into exactly the ordinates b for its fit, over the angular frequencies 2 pi c/w - 2 pi c/lambda0 in THz. *)
Lemma C68_D_round_trip_l : forall (strf : R -> string) (polyfit : list R -> list R -> nat -> result (list R)) (spline : list R -> list R -> list R -> result (list R)) (p p1 : pulse) (s s' : heap * fiber) (w b : list R) (lambda0 : R) (order : nat),
  get_wl_nm strf p = (Ok (Some w), p1) -> Beta2 polyfit spline p s = (Ok b, s') -> length w = length b -> (forall v, In v w -> v <> 0) -> lambda0 <> 0 ->
  exists D, Beta2_to_D strf polyfit spline p s = (Ok D, s') /\ length D = length b /\ (forall k, (k < length b)%nat -> nth k D 0 = - (2 * PI * c_nmps / (nth k w 0) ^ 2) * nth k b 0 * 1000) /\
    exists om, length om = length b /\ (forall k, (k < length b)%nat -> nth k om 0 = 2 * PI * c_nmps / nth k w 0 - 2 * PI * c_nmps / lambda0) /\
      fst (DTabulationToBetas polyfit lambda0 order (combine w D)) = (co <-r polyfit om b order ;; Ok (mk (length co) (fun i => nth i (rev co) 0 * INR (fact i)))).
Proof.
  intros strf polyfit spline p p1 s s' w b lambda0 order Hw Hb L Hnz Hl.
  assert (E : Beta2_to_D strf polyfit spline p s = (Ok (map (fun d => d * 1000) (map2 Rmult (map (fun l => -2 * PI * c_nmps / l ^ 2) w) b)), s')).
  { unfold Beta2_to_D. unfold bind at 1. unfold lift at 1. unfold bind at 1. rewrite Hw. cbn [as_array]. unfold ret at 1. cbn [fst]. unfold bind at 1, lift at 1. rewrite (rtraverse_ok _ (fun l => -2 * PI * c_nmps / l ^ 2)) by (intros v Hv; apply fdiv_ok, pow_nonzero, Hnz, Hv). unfold bind at 1. rewrite Hb. unfold bind, lift. rewrite broadcast2_eq by (rewrite map_length; exact L). reflexivity. }
  rewrite E. clear E. set (D := map _ _). assert (LD : length D = length b) by (unfold D; rewrite map_length, map2_length; rewrite map_length; lia).
  assert (ND : forall k, (k < length b)%nat -> nth k D 0 = - (2 * PI * c_nmps / (nth k w 0) ^ 2) * nth k b 0 * 1000). { intros k Hk. unfold D. rewrite (nth_map' _ _ _ 0) by (rewrite map2_length; rewrite map_length; lia). rewrite (map2_nth _ _ _ _ 0 0) by (rewrite ?map_length; lia). rewrite (nth_map' _ _ _ 0) by lia. unfold Rdiv. ring. }
  exists D. split; [reflexivity|]. split; [exact LD|]. split; [exact ND|].
  set (om := map (fun v => 2 * PI * c_nmps / v - 2 * PI * c_nmps / lambda0) w). exists om. split; [unfold om; rewrite map_length; exact L|]. split; [intros k Hk; unfold om; rewrite (nth_map' _ _ _ 0) by lia; reflexivity|].
  unfold DTabulationToBetas, modify, get, lift, bind, ret.
  assert (NZ : forall k, (k < length b)%nat -> nth k w 0 <> 0) by (intros k Hk; apply Hnz, nth_In; lia).
  set (tab := map _ (combine w D)). assert (Lt : length tab = length b) by (unfold tab; rewrite map_length, combine_length; lia).
  assert (Nt : forall k, (k < length b)%nat -> nth k tab (0, 0) = (nth k w 0, nth k D 0 * 1e-12 * 1e9 * 1e-3)). { intros k Hk. unfold tab. rewrite (nth_map' _ _ _ (0, 0)) by (rewrite combine_length; lia). rewrite combine_nth by lia. reflexivity. }
  rewrite (rtraverse_ok _ (fun r => 2 * PI * c_nmps / fst r - 2 * PI * c_nmps / lambda0)).
  2: { intros r Hr. destruct (In_nth _ _ (0, 0) Hr) as (k & Hk & <-). rewrite Lt in Hk. rewrite Nt by exact Hk. cbn [fst]. specialize (NZ k Hk). rewrite fdiv_ok by lra. cbn [rbind]. rewrite fdiv_ok by lra. cbn [rbind]. apply (f_equal Ok). unfold c_nmps. field. split; assumption. }
  replace (map (fun r => 2 * PI * c_nmps / fst r - 2 * PI * c_nmps / lambda0) tab) with om. 2: { apply (list_ext 0); [unfold om; rewrite !map_length; lia|]. unfold om at 1. rewrite map_length. intros k Hk. unfold om. rewrite (nth_map' _ w _ 0) by exact Hk. rewrite (nth_map' _ tab _ (0, 0)) by lia. rewrite Nt by lia. reflexivity. }
  replace (map (fun r => - snd r * (fst r * 1e-9) ^ 2 / (2 * PI * c_mks) * 1e24) tab) with b.
  - destruct (polyfit om b order) as [co|]; [|reflexivity]. cbn [rbind fst]. rewrite rev_length. reflexivity.
  - apply (list_ext 0); [rewrite map_length; lia|]. intros k Hk. rewrite (nth_map' _ _ _ (0, 0)) by lia. rewrite Nt by exact Hk. cbn [fst snd]. rewrite ND by exact Hk. specialize (NZ k Hk). pose proof PI_RGT_0. unfold c_nmps. assert (c_mks <> 0) by (unfold c_mks; lra). field. repeat split; try assumption; lra.
Qed.

(** ** C67 *)
(*! C67: load_from_db of a Taylor-format entry in ps^n/km that is intact in the fiber's own copy of the data base succeeds from every state of the object, and gives the entry's length, gamma, centre wavelength and betas in ps^n/m. *)
Lemma C67_load_partial_l : forall (h : heap) (f : fiber) (len : R) (name : string) (order l : nat) (g c : R) (b : list R),
  find_db name (f_db f) = Some l -> let e := nth l h empty_specs in
  d_format e = Some "GVD"%string -> d_units e = Some "ps^n/km"%string -> d_center e = Some c -> d_data e = Some b -> d_gamma e = Some g ->
  exists f', load_from_db len name order (h, f) = (Ok tt, (h, f')) /\ f_length f' = Some len /\ f_betas f' = Some (map (fun x => x / 1000) b) /\ f_center f' = Some c /\ f_type f' = Some name /\
    (f_gz f = None -> forall z, get_gamma z (h, f') = (Ok (Some g), (h, f'))) /\ (d_is_gain e = Some false -> forall p, get_gain p (h, f') = (Ok (repeat 0 (p_n p)), (h, f'))).
Proof.
  intros h f len name order l g c b Hf e He1 He2 He3 He4 He5. unfold load_from_db, on_fiber, modify, bind, gets. cbn [fst snd f_db set_type]. rewrite Hf. unfold key, bind, gets, self_specs. cbn [fst snd cell f_specs set_betas set_length set_specs]. fold e. rewrite He5. unfold ret. cbn [fst snd].
  unfold load_dispersion, key, bind, gets, self_specs, on_fiber, modify. cbn [fst snd cell f_specs set_poly set_gamma set_betas set_length set_specs]. fold e. rewrite He1. unfold ret. cbn [String.eqb Ascii.eqb Bool.eqb fst snd cell f_specs set_poly set_gamma set_betas set_length set_specs]. fold e. rewrite He2. cbn [fst snd cell f_specs set_poly set_gamma set_betas set_length set_specs]. fold e. rewrite He3. cbn [fst snd cell f_specs set_center set_poly set_gamma set_betas set_length set_specs String.eqb Ascii.eqb Bool.eqb]. fold e. rewrite He4.
  eexists. split; [reflexivity|]. repeat (split; [reflexivity|]). split.
  - intros Z z. unfold get_gamma, bind, gets. cbn [fst snd f_gz set_center set_poly set_gamma set_betas set_length set_specs set_type f_gamma]. rewrite Z. reflexivity.
  - intros Hg p. unfold get_gain, key, bind, gets, self_specs. cbn [fst snd cell f_specs set_center set_poly set_gamma set_betas set_length set_specs]. fold e. rewrite Hg. reflexivity.
Qed.
(** the data base entry "dudley" of general_fibers.txt *)
Definition dudley : specs := mkSpecs (Some "GVD"%string) None None None None (Some "ps^n/km"%string) (Some 835) (Some [-11.830; 8.1038e-2; -9.5205e-5; 2.0737e-7; -5.3943e-10; 1.3486e-12; -2.5495e-15; 3.0524e-18; -1.7140e-21]) (Some 0.11) (Some false) None.
(*! C67: the copy is damaged by set_dispersion_function: loading an entry, giving the fiber a tabulated z-dependent dispersion and loading the same entry again raises KeyError, although the first load succeeded. *)
Lemma C67_reload_refuted_l : forall (polyfit : list R -> list R -> nat -> result (list R)) (spline : list R -> list R -> list R -> result (list R)) (d : dfun) (len : R) (order : nat),
  let w1 := frun polyfit spline [FNew [("dudley"%string, dudley)]] fworld0 in let ld := FLoadDb 0 len "dudley" order in
  fst (fstep polyfit spline w1 ld) = FNone (Ok tt) /\
  fst (fstep polyfit spline (frun polyfit spline [ld; FSetDisp 0 d "D"] w1) ld) = FNone (Raise KeyError).
Proof. intros. split; reflexivity. Qed.

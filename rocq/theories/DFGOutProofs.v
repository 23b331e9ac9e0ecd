(** Post-processing of the DFG solution and the results interface: C53. *)
From Coq Require Import String.
From Coq Require Import Reals List ZArith Bool Arith Lia Lra.
From Coquelicot Require Import Coquelicot.
From Verif Require Import Base CNum NumPy FFTProofs ModelPulse Spec PulseProofs PulseHistory PulseRegridProofs ModelCrystal CrystalProofs ModelBeam BeamProofs FiberShareProofs ModelODE ODEOutputProofs ModelDFG DFGMixProofs DFGProofs DFGInitProofs.
Import ListNotations.
Local Open Scope R_scope.
Local Open Scope py_scope.
Local Notation z0 := (RtoC 0).
Local Notation at0 x i := (nth i x z0).

(** a problem whose arrays have the size of the grid and whose pulses have current grids *)
Definition sized (strf : R -> string) (q : dfg) (n : nat) : Prop :=
  q_n q = n /\ (0 < n)%nat /\ length (q_kp q) = n /\ length (q_ks q) = n /\ length (q_ki q) = n /\
  p_n (q_pump q) = n /\ p_n (q_sgnl q) = n /\ p_n (q_idlr q) = n /\ cur_W strf (q_pump q) /\ cur_W strf (q_sgnl q) /\ cur_W strf (q_idlr q).
(** the dispersion of element m of a row at distance z, seen in a frame moving with [speed] *)
Definition delay (k : list R) (k0 : R) (p : pulse) (speed z : R) (m : nat) : R := (nth m k 0 + k0) * z - z / speed * (omega p m * 1000000000000).
Definition dispersion (q : dfg) (speed z : R) (m : nat) : C :=
  let n := q_n q in
  if Nat.ltb m n then cis (delay (q_kp q) (q_kp0 q) (q_pump q) speed z m)
  else if Nat.ltb m (2 * n) then cis (delay (q_ks q) (q_ks0 q) (q_sgnl q) speed z (m - n))
  else cis (delay (q_ki q) (q_ki0 q) (q_idlr q) speed z (m - 2 * n)).

Lemma phasor_run strf k k0 p speed z n : length k = n -> p_n p = n -> cur_W strf p -> phasor strf k k0 z (z / speed) p = Ok (mk n (fun m => cis (delay k k0 p speed z m))).
Proof.
  intros Lk Np C. unfold phasor. rewrite (Wmks_of_cur _ _ C). cbn [rbind]. set (w := map _ _). assert (Lw : length w = n) by (unfold w; rewrite map_length, spec_W_length; exact Np). rewrite broadcast2_eq by lia. f_equal.
  apply (list_ext z0); [rewrite map2_length, mk_length by lia; exact Lk|]. rewrite map2_length by lia. intros m Hm. rewrite Lk in Hm. rewrite (map2_nth _ _ _ m 0 0) by lia. rewrite mk_nth by exact Hm. unfold delay, w. rewrite (nth_map' (fun w => w * 1000000000000) _ m 0) by (rewrite spec_W_length; lia). reflexivity.
Qed.
Lemma mult_mk n (x : list C) (f : nat -> C) : length x = n -> broadcast2 Cmult x (mk n f) = Ok (mk n (fun m => at0 x m * f m)%C).
Proof.
  intros Ls. rewrite broadcast2_eq by (rewrite mk_length; exact Ls). f_equal. apply (list_ext z0); [rewrite map2_length, !mk_length by (rewrite mk_length; exact Ls); exact Ls|]. rewrite map2_length by (rewrite mk_length; exact Ls). intros m Hm. rewrite Ls in Hm.
  rewrite (map2_nth _ _ _ m z0 z0) by (rewrite ?mk_length; lia). rewrite !mk_nth by exact Hm. reflexivity.
Qed.
Lemma split3 {A} n (r : list A) : length r = (3 * n)%nat -> exists a b c, r = a ++ b ++ c /\ length a = n /\ length b = n /\ length c = n.
Proof.
  intros L. exists (firstn n r), (firstn n (skipn n r)), (skipn n (skipn n r)). rewrite !firstn_skipn. repeat split; rewrite ?firstn_length, ?skipn_length; lia.
Qed.
Lemma phase_row_run strf q n speed z r : sized strf q n -> speed <> 0 -> length r = (3 * n)%nat -> phase_row strf q speed z r = Ok (mk (3 * n) (fun m => at0 r m * dispersion q speed z m)%C).
Proof.
  intros (Qn & Hn & L1 & L2 & L3 & N1 & N2 & N3 & C1 & C2 & C3) Hs Lr. unfold phase_row. rewrite fdiv_ok by exact Hs. cbn [rbind].
  rewrite (phasor_run strf _ _ _ _ _ n L1 N1 C1), (phasor_run strf _ _ _ _ _ n L2 N2 C2), (phasor_run strf _ _ _ _ _ n L3 N3 C3). cbn [rbind]. cbv zeta. rewrite Qn. destruct (split3 n r Lr) as (a & b & c & -> & La & Lb & Lc).
  rewrite (seg_app1 a (b ++ c) n La). rewrite mult_mk by exact La. cbn [rbind]. set (a' := mk n _). assert (La' : length a' = n) by apply mk_length.
  assert (E1 : set_seg 0 n a' (a ++ b ++ c) = Ok (a' ++ b ++ c)) by (change (a ++ b ++ c) with ([] ++ a ++ b ++ c); rewrite set_seg_app by (cbn [length]; lia); reflexivity). rewrite E1. cbn [rbind].
  assert (E2 : seg n (2 * n) (a' ++ b ++ c) = b) by (replace n with (n + 0)%nat at 1 by lia; replace (2 * n)%nat with (n + n)%nat by lia; rewrite (seg_app2 a' _ n 0 n La'); apply seg_app1; exact Lb). rewrite E2, mult_mk by exact Lb. cbn [rbind]. set (b' := mk n _). assert (Lb' : length b' = n) by apply mk_length.
  rewrite set_seg_app by lia. cbn [rbind].
  assert (E3 : seg (2 * n) (3 * n) (a' ++ b' ++ c) = c). { rewrite app_assoc. replace (2 * n)%nat with (2 * n + 0)%nat by lia. replace (3 * n)%nat with (2 * n + n)%nat by lia. rewrite seg_app2 by (rewrite app_length; lia). unfold seg. rewrite Nat.sub_0_r. cbn [skipn]. apply firstn_all2. lia. } rewrite E3, mult_mk by exact Lc. cbn [rbind]. set (c' := mk n _). assert (Lc' : length c' = n) by apply mk_length.
  replace (a' ++ b' ++ c) with ((a' ++ b') ++ c ++ []) by (rewrite app_nil_r, app_assoc; reflexivity). rewrite set_seg_app by (rewrite ?app_length; lia). f_equal. rewrite app_nil_r.
  apply (list_ext z0); [rewrite !app_length, mk_length; lia|]. rewrite !app_length. intros m Hm. rewrite mk_nth by lia. unfold dispersion. rewrite Qn.
  destruct (Nat.ltb_spec m n) as [H1|H1]; [|destruct (Nat.ltb_spec m (2 * n)) as [H2|H2]].
  - rewrite !app_nth1 by (rewrite ?app_length; lia). unfold a'. rewrite mk_nth by exact H1. reflexivity.
  - rewrite (app_nth1 (a' ++ b')) by (rewrite app_length; lia). rewrite (app_nth2 a') by lia. rewrite (app_nth2 a) by lia. rewrite app_nth1 by lia. rewrite La, La'. unfold b'. rewrite mk_nth by lia. reflexivity.
  - rewrite (app_nth2 (a' ++ b')) by (rewrite app_length; lia). rewrite (app_nth2 a) by lia. rewrite app_nth2 by lia. rewrite app_length, La, Lb, La', Lb'. unfold c'. replace (m - (n + n))%nat with (m - 2 * n)%nat by lia. replace (m - n - n)%nat with (m - 2 * n)%nat by lia. rewrite mk_nth by lia. reflexivity.
Qed.

(** the saved rows from i on, [todo] of them, are multiplied; nothing else changes *)
Lemma phase_rows_run strf q n speed : sized strf q n -> speed <> 0 -> forall todo i o, (i + todo <= length (o_xsave o))%nat -> (i + todo <= length (o_ysave o))%nat ->
  (forall k, (i <= k < i + todo)%nat -> length (nth k (o_ysave o) []) = (3 * n)%nat) ->
  exists ys, phase_rows strf q speed todo i o = (Ok tt, set_ysave ys o) /\ length ys = length (o_ysave o) /\
    forall k, nth k ys [] = if (Nat.leb i k && Nat.ltb k (i + todo))%bool then mk (3 * n) (fun m => at0 (nth k (o_ysave o) []) m * dispersion q speed (nth k (o_xsave o) 0) m)%C else nth k (o_ysave o) [].
Proof.
  intros Sz Hs todo. induction todo as [|t IH]; intros i o Lx Ly Lr.
  - exists (o_ysave o). split; [destruct o; reflexivity|]. split; [reflexivity|]. intros k. rewrite Nat.add_0_r. destruct (Nat.leb_spec i k), (Nat.ltb_spec k i); cbn [andb]; try reflexivity; lia.
  - cbn [phase_rows]. unfold bind at 1, get at 1.
    rewrite (nth_error_nth' (o_xsave o) 0) by lia. rewrite (nth_error_nth' (o_ysave o) []) by lia. unfold bind at 1. rewrite (phase_row_run strf q n speed _ _ Sz Hs (Lr i ltac:(lia))). unfold lift at 1. set (r' := mk _ _). unfold bind at 1, put at 1. set (o1 := set_ysave _ o).
    assert (L1 : length (o_ysave o1) = length (o_ysave o)) by (apply setnth_length; lia).
    assert (V1 : forall k, nth k (o_ysave o1) [] = if Nat.eqb k i then r' else nth k (o_ysave o) []) by (intros k; apply nth_setnth; lia).
    destruct (IH (S i) o1) as (ys & E & Ls & V).
    + change (o_xsave o1) with (o_xsave o). lia.
    + lia.
    + intros k Hk. rewrite V1. destruct (Nat.eqb_spec k i); [lia|]. apply Lr. lia.
    + exists ys. split; [rewrite E; destruct o; reflexivity|]. split; [lia|]. intros k. rewrite V, V1. change (o_xsave o1) with (o_xsave o).
      destruct (Nat.eqb_spec k i) as [->|Ne].
      * destruct (Nat.leb_spec (S i) i); [lia|]. cbn [andb]. destruct (Nat.leb_spec i i); [|lia]. destruct (Nat.ltb_spec i (i + S t)); [reflexivity|lia].
      * destruct (Nat.leb_spec (S i) k), (Nat.ltb_spec k (S i + t)), (Nat.leb_spec i k), (Nat.ltb_spec k (i + S t)); cbn [andb]; try reflexivity; lia.
Qed.

(** what a solver leaves: [saves] rows of 3n complex numbers *)
Definition saved (o : output) (n saves : nat) : Prop :=
  (exists k, o_kmax o = Some k) /\ o_dtype o = Complex128 /\ o_count o = saves /\ (0 < saves)%nat /\ (saves <= length (o_xsave o))%nat /\ (saves <= length (o_ysave o))%nat /\
  forall k, (k < saves)%nat -> length (nth k (o_ysave o) []) = (3 * n)%nat.

Lemma process_run strf q n nc ap w saves : sized strf q n -> saved (rw_out w) n saves -> nth_error (q_np q) (q_centre q) = Some nc -> nc <> 0 -> holds (q_pump q) ap -> p_f (q_pump q) <> 0 ->
  exists ys p, process_stepper_output strf q w = (Ok (mkI (length (rw_pulses w)) (c_nmps / p_f (q_pump q)) (c_nmps / p_f (q_sgnl q)) (c_nmps / p_f (q_idlr q)) n saves), mkRW (set_ysave ys (rw_out w)) (rw_pulses w ++ [p])) /\
    holds p ap /\ p_n p = n /\ p_tw p = p_tw (q_pump q) /\ length ys = length (o_ysave (rw_out w)) /\
    forall k, nth k ys [] = if Nat.ltb k saves then mk (3 * n) (fun m => at0 (nth k (o_ysave (rw_out w)) []) m * dispersion q (c_mks / nc) (nth k (o_xsave (rw_out w)) 0) m)%C else nth k (o_ysave (rw_out w)) [].
Proof.
  intros Sz ((km & Ek) & Dt & Ct & Hs & Lx & Ly & Lr) Enc Hnc Hh Hf. assert (Hsp : c_mks / nc <> 0) by (unfold Rdiv; apply Rmult_integral_contrapositive_currified; [unfold c_mks; lra|apply Rinv_neq_0_compat, Hnc]).
  destruct (phase_rows_run strf q n (c_mks / nc) Sz Hsp saves 0 (rw_out w)) as (ys & E & L & V); [lia|lia|intros k Hk; apply Lr; lia|]. pose proof (clone_new_run (q_pump q) ap Hh) as Cl. set (p := mkPulse _ _ _ _ _ _ _ _ _ _) in Cl.
  assert (Sz' := Sz). destruct Sz' as (Qn & Hn & _ & _ & _ & N1 & _).
  exists ys, p. split.
  - unfold process_stepper_output. unfold bind at 1, get at 1. rewrite Ek. unfold bind at 1, ret at 1. unfold bind at 1. rewrite Enc. unfold lift at 1. unfold bind at 1. rewrite fdiv_ok by exact Hnc. unfold lift at 1. cbv zeta. rewrite Dt, Ct. unfold bind at 1, ret at 1. unfold bind at 1. unfold on_out. rewrite E. unfold bind at 1. unfold rd. rewrite Cl. cbn [fst]. unfold lift at 1.
    rewrite Qn. destruct (Nat.eqb_spec saves 0); [lia|]. destruct (Nat.eqb_spec n 0); [lia|]. cbn [orb]. reflexivity.
  - assert (Hp : holds p ap) by (destruct Hh as (_ & _ & Hl); split; [reflexivity|split; [reflexivity|exact Hl]]). repeat (split; [first [assumption|reflexivity|lia]|]). intros k. rewrite V. cbn [plus]. destruct (Nat.leb_spec 0 k); [|lia]. cbn [andb]. reflexivity.
Qed.

(** reading one field: the interface's own pulse gets the field and the wavelength *)
Lemma field_run lo hi wl f k w p r n : (k < i_saves f)%nat -> nth_error (o_ysave (rw_out w)) k = Some r -> nth_error (rw_pulses w) (i_pulse f) = Some p -> writable p -> p_n p = n -> length (seg lo hi r) = n ->
  let p' := with_ready true (with_f (c_nmps / wl) (with_AW (Some (seg lo hi r)) p)) in
  get_field lo hi wl f k w = (Ok (i_pulse f), mkRW (rw_out w) (upd (i_pulse f) (fun _ => p') (rw_pulses w))) /\ holds p' (seg lo hi r) /\ p_n p' = n.
Proof.
  intros Hk Er Ep Hw Np Lr p'. split; [|split; [split; [reflexivity|split; [reflexivity|rewrite Lr; symmetry; exact Np]]|exact Np]].
  unfold get_field. unfold bind at 1, get at 1. destruct (Nat.ltb_spec k (i_saves f)); [|lia]. rewrite Er, Ep. unfold bind at 1. rewrite set_AW_ok by (assumption || congruence). reflexivity.
Qed.

(** the three getters *)
Inductive which := Pump | Sgnl | Idlr.
Definition getter (x : which) : iface -> nat -> M rworld nat := match x with Pump => get_pump | Sgnl => get_sgnl | Idlr => get_idlr end.
Definition source (x : which) (q : dfg) : pulse := match x with Pump => q_pump q | Sgnl => q_sgnl q | Idlr => q_idlr q end.
Definition slot (x : which) (n : nat) : nat := match x with Pump => 0 | Sgnl => n | Idlr => 2 * n end.
(** earlier reads *)
Fixpoint reads (l : list (which * nat)) (f : iface) : M rworld unit :=
  match l with [] => ret tt | (x, k) :: l' => getter x f k ;;; reads l' f end.

Definition iface_ok (q : dfg) (n saves : nat) (f : iface) (w : rworld) : Prop :=
  i_n f = n /\ i_saves f = saves /\ i_wlp f = c_nmps / p_f (q_pump q) /\ i_wls f = c_nmps / p_f (q_sgnl q) /\ i_wli f = c_nmps / p_f (q_idlr q) /\
  (saves <= length (o_ysave (rw_out w)))%nat /\ (forall k, (k < saves)%nat -> length (nth k (o_ysave (rw_out w)) []) = (3 * n)%nat) /\
  exists p, nth_error (rw_pulses w) (i_pulse f) = Some p /\ writable p /\ p_n p = n.

Lemma get_spec q n saves f w x k : iface_ok q n saves f w -> (k < saves)%nat -> p_f (source x q) <> 0 ->
  exists w' p a, getter x f k w = (Ok (i_pulse f), w') /\ rw_out w' = rw_out w /\ iface_ok q n saves f w' /\
    nth_error (rw_pulses w') (i_pulse f) = Some p /\ holds p a /\ p_n p = n /\ p_f p = p_f (source x q) /\
    (forall p0, nth_error (rw_pulses w) (i_pulse f) = Some p0 -> p_tw p = p_tw p0 /\ p_frep p = p_frep p0) /\
    (forall m, (m < n)%nat -> at0 a m = at0 (nth k (o_ysave (rw_out w)) []) (slot x n + m)) /\
    (forall j, j <> i_pulse f -> nth_error (rw_pulses w') j = nth_error (rw_pulses w) j).
Proof.
  intros (I1 & I2 & I3 & I4 & I5 & Ly & Lr & p & Ep & Hw & Np) Hk Hf. set (r := nth k (o_ysave (rw_out w)) []). assert (Lrr : length r = (3 * n)%nat) by (apply Lr; exact Hk).
  assert (Er : nth_error (o_ysave (rw_out w)) k = Some r) by (apply nth_error_nth'; lia).
  assert (G : exists lo wl, getter x f k w = get_field lo (lo + n) wl f k w /\ lo = slot x n /\ c_nmps / wl = p_f (source x q)).
  { destruct x; cbn [getter source slot] in *.
    - exists 0%nat, (i_wlp f). rewrite I3. split; [unfold get_pump; rewrite I1, I3; reflexivity|]. split; [reflexivity|apply f_inv; exact Hf].
    - exists n, (i_wls f). rewrite I4. split; [unfold get_sgnl; rewrite I1, I4; replace (n + n)%nat with (2 * n)%nat by lia; reflexivity|]. split; [reflexivity|apply f_inv; exact Hf].
    - exists (2 * n)%nat, (i_wli f). rewrite I5. split; [unfold get_idlr; rewrite I1, I5; replace (2 * n + n)%nat with (3 * n)%nat by lia; reflexivity|]. split; [reflexivity|apply f_inv; exact Hf]. }
  destruct G as (lo & wl & G & Elo & Ewl). assert (Hlo : (lo + n <= 3 * n)%nat) by (rewrite Elo; destruct x; cbn [slot]; lia).
  assert (Ls : length (seg lo (lo + n) r) = n) by (rewrite seg_length; lia). assert (Hk' : (k < i_saves f)%nat) by lia.
  destruct (field_run lo (lo + n) wl f k w p r n Hk' Er Ep Hw Np Ls) as (R & Hh & Npp). set (p' := with_ready true _) in *.
  assert (U : nth_error (upd (i_pulse f) (fun _ => p') (rw_pulses w)) (i_pulse f) = Some p') by (rewrite upd_nth_error, Nat.eqb_refl, Ep; reflexivity).
  eexists _, p', (seg lo (lo + n) r). split; [rewrite G; exact R|]. split; [reflexivity|]. split.
  { repeat (split; [assumption|]). exists p'. split; [exact U|]. split; [|exact Npp]. split; [reflexivity|]. right. exists (seg lo (lo + n) r). destruct Hh as (_ & H1 & H2). auto. }
  split; [exact U|]. split; [exact Hh|]. split; [exact Npp|]. split; [exact Ewl|]. split.
  - intros p0 E0. rewrite Ep in E0. injection E0 as <-. split; reflexivity.
  - split.
    + intros m Hm. rewrite seg_nth by lia. rewrite Elo. reflexivity.
    + intros j Hj. cbn [rw_pulses]. rewrite upd_nth_error. destruct (Nat.eqb_spec j (i_pulse f)); [contradiction|reflexivity].
Qed.
Lemma reads_spec q n saves f l : p_f (q_pump q) <> 0 -> p_f (q_sgnl q) <> 0 -> p_f (q_idlr q) <> 0 -> forall w p0, iface_ok q n saves f w -> nth_error (rw_pulses w) (i_pulse f) = Some p0 -> (forall x k, In (x, k) l -> (k < saves)%nat) ->
  exists w' p1, reads l f w = (Ok tt, w') /\ rw_out w' = rw_out w /\ iface_ok q n saves f w' /\ nth_error (rw_pulses w') (i_pulse f) = Some p1 /\ p_tw p1 = p_tw p0 /\ p_frep p1 = p_frep p0 /\ (forall j, j <> i_pulse f -> nth_error (rw_pulses w') j = nth_error (rw_pulses w) j).
Proof.
  intros F1 F2 F3. induction l as [|[x k] l IH]; intros w p0 Ok0 E0 Hl.
  - exists w, p0. repeat (split; [first [assumption|reflexivity]|]). reflexivity.
  - destruct (get_spec q n saves f w x k Ok0 (Hl x k (or_introl eq_refl)) ltac:(destruct x; assumption)) as (w1 & p1 & a & R & O1 & Ok1 & E1 & _ & _ & _ & T1 & _ & K1).
    destruct (IH w1 p1 Ok1 E1 (fun x k H => Hl x k (or_intror H))) as (w2 & p2 & R2 & O2 & Ok2 & E2 & T2 & T2' & K2). destruct (T1 p0 E0) as [Ta Tb]. exists w2, p2. split; [cbn [reads]; unfold bind; rewrite R; exact R2|]. split; [congruence|]. split; [exact Ok2|]. split; [exact E2|]. split; [congruence|]. split; [congruence|]. intros j Hj. rewrite (K2 j Hj). apply K1, Hj.
Qed.

Lemma process_iface strf q n nc ap w saves : sized strf q n -> saved (rw_out w) n saves -> nth_error (q_np q) (q_centre q) = Some nc -> nc <> 0 -> holds (q_pump q) ap -> p_f (q_pump q) <> 0 ->
  exists f w1 p, process_stepper_output strf q w = (Ok f, w1) /\ iface_ok q n saves f w1 /\ i_pulse f = length (rw_pulses w) /\ nth_error (rw_pulses w1) (i_pulse f) = Some p /\ p_tw p = p_tw (q_pump q) /\
    (forall j, (j < length (rw_pulses w))%nat -> nth_error (rw_pulses w1) j = nth_error (rw_pulses w) j) /\ o_xsave (rw_out w1) = o_xsave (rw_out w) /\ saved (rw_out w1) n saves /\
    forall k m, (k < saves)%nat -> (m < 3 * n)%nat -> at0 (nth k (o_ysave (rw_out w1)) []) m = (at0 (nth k (o_ysave (rw_out w)) []) m * dispersion q (c_mks / nc) (nth k (o_xsave (rw_out w)) 0) m)%C.
Proof.
  intros Sz Sv Enc Hnc Hh Hf. destruct (process_run strf q n nc ap w saves Sz Sv Enc Hnc Hh Hf) as (ys & p & R & Hp & Np & Tp & L & V). destruct Sv as (Ek & Dt & Ct & Hs & Lx & Ly & Lr).
  assert (Lk : forall k, (k < saves)%nat -> length (nth k ys []) = (3 * n)%nat) by (intros k Hk; rewrite V; destruct (Nat.ltb_spec k saves); [apply mk_length|lia]).
  eexists _, _, p. split; [exact R|]. cbn [i_pulse rw_pulses rw_out]. assert (U : nth_error (rw_pulses w ++ [p]) (length (rw_pulses w)) = Some p) by (rewrite nth_error_app2, Nat.sub_diag by lia; reflexivity).
  split. { unfold iface_ok. cbn [i_n i_saves i_wlp i_wls i_wli i_pulse rw_pulses rw_out o_ysave set_ysave]. repeat (split; [first [reflexivity|lia|assumption]|]). exists p. split; [exact U|]. split; [|exact Np]. destruct Hp as (H1 & H2 & H3). split; [exact H1|]. right. exists ap. auto. }
  split; [reflexivity|]. split; [exact U|]. split; [exact Tp|]. split; [intros j Hj; apply nth_error_app1; exact Hj|]. split; [reflexivity|]. split.
  - unfold saved. cbn [o_kmax o_dtype o_count o_xsave o_ysave set_ysave]. repeat (split; [first [assumption|lia]|]). exact Lk.
  - intros k m Hk Hm. cbn [o_ysave set_ysave]. rewrite V. destruct (Nat.ltb_spec k saves); [|lia]. rewrite mk_nth by exact Hm. reflexivity.
Qed.

(*! C53 (partial): process_stepper_output on a freshly solved problem, then any sequence of reads, then a read of the pump, signal or idler at save k: the pulse returned is a new object
    that holds save k of that field with the crystal's dispersion put back, at that field's centre frequency and on the pump's time window; other pulses and the saved data are not changed by reads.
    Missing: a second call of process_stepper_output and pulses kept from earlier reads, refuted below. *)
Lemma C53_read_after_processing_partial_l : forall strf q n nc ap w saves (l : list (which * nat)) (x : which) (k : nat),
  sized strf q n -> saved (rw_out w) n saves -> nth_error (q_np q) (q_centre q) = Some nc -> nc <> 0 -> holds (q_pump q) ap ->
  p_f (q_pump q) <> 0 -> p_f (q_sgnl q) <> 0 -> p_f (q_idlr q) <> 0 ->
  (forall x' k', In (x', k') l -> (k' < saves)%nat) -> (k < saves)%nat ->
  exists f w1 w2 w3 i p a,
    process_stepper_output strf q w = (Ok f, w1) /\ reads l f w1 = (Ok tt, w2) /\ getter x f k w2 = (Ok i, w3) /\
    nth_error (rw_pulses w) i = None /\ nth_error (rw_pulses w3) i = Some p /\ holds p a /\
    p_n p = n /\ p_f p = p_f (source x q) /\ p_tw p = p_tw (q_pump q) /\
    (forall m, (m < n)%nat -> nth m a (RtoC 0) = (nth (slot x n + m) (nth k (o_ysave (rw_out w)) []) (RtoC 0) * dispersion q (c_mks / nc) (nth k (o_xsave (rw_out w)) 0%R) (slot x n + m))%C) /\
    rw_out w3 = rw_out w1 /\ (forall j, (j < length (rw_pulses w))%nat -> nth_error (rw_pulses w3) j = nth_error (rw_pulses w) j).
Proof.
  intros strf q n nc ap w saves l x k Sz Sv Enc Hnc Hh F1 F2 F3 Hl Hk. destruct (process_iface strf q n nc ap w saves Sz Sv Enc Hnc Hh F1) as (f & w1 & p1 & R1 & Ok1 & Ip & E1 & T1 & K1 & Xs & _ & V1).
  destruct (reads_spec q n saves f l F1 F2 F3 w1 p1 Ok1 E1 Hl) as (w2 & p2 & R2 & O2 & Ok2 & E2 & T2 & _ & K2).
  destruct (get_spec q n saves f w2 x k Ok2 Hk ltac:(destruct x; assumption)) as (w3 & p & a & R3 & O3 & Ok3 & E3 & H3 & N3 & Fp & T3 & V3 & K3).
  exists f, w1, w2, w3, (i_pulse f), p, a. split; [exact R1|]. split; [exact R2|]. split; [exact R3|]. split; [apply nth_error_None; lia|]. split; [exact E3|]. split; [exact H3|]. split; [exact N3|]. split; [exact Fp|]. split; [destruct (T3 p2 E2) as [-> _]; congruence|]. split.
  - intros m Hm. rewrite (V3 m Hm), O2. apply V1; [exact Hk|]. destruct x; cbn [slot]; lia.
  - split; [congruence|]. intros j Hj. rewrite (K3 j), (K2 j), (K1 j Hj) by lia. reflexivity.
Qed.

(*! C53 refuted (reads): two reads return the same object, so the pulse obtained first holds the second field (and wavelength) afterwards.  Wherever the two fields differ, the pulse
    obtained from the first read has changed. *)
Lemma C53_reads_share_refuted_l : forall q n saves f w (x x' : which) (k k' : nat),
  iface_ok q n saves f w -> (k < saves)%nat -> (k' < saves)%nat -> p_f (source x q) <> 0 -> p_f (source x' q) <> 0 ->
  exists i w1 w2 p1 p2 a1 a2,
    getter x f k w = (Ok i, w1) /\ getter x' f k' w1 = (Ok i, w2) /\
    nth_error (rw_pulses w1) i = Some p1 /\ holds p1 a1 /\ p_f p1 = p_f (source x q) /\
    nth_error (rw_pulses w2) i = Some p2 /\ holds p2 a2 /\ p_f p2 = p_f (source x' q) /\
    (forall m, (m < n)%nat -> nth m a1 (RtoC 0) = nth (slot x n + m) (nth k (o_ysave (rw_out w)) []) (RtoC 0) /\ nth m a2 (RtoC 0) = nth (slot x' n + m) (nth k' (o_ysave (rw_out w)) []) (RtoC 0)).
Proof.
  intros q n saves f w x x' k k' Ok0 Hk Hk' F1 F2. destruct (get_spec q n saves f w x k Ok0 Hk F1) as (w1 & p1 & a1 & R1 & O1 & Ok1 & E1 & H1 & N1 & Fp1 & _ & V1 & _). destruct (get_spec q n saves f w1 x' k' Ok1 Hk' F2) as (w2 & p2 & a2 & R2 & O2 & Ok2 & E2 & H2 & N2 & Fp2 & _ & V2 & _).
  exists (i_pulse f), w1, w2, p1, p2, a1, a2. repeat (split; [assumption|]). intros m Hm. split; [apply V1, Hm|]. rewrite (V2 m Hm), O1. reflexivity.
Qed.

(*! C53 refuted (processing twice): the phases are multiplied into the solver's own arrays, so a second call multiplies them again.  For every solver output, what the first interface showed
    and what the solver output holds after the second call differ by the dispersion factor at every element; where that factor is not 1 and the field is not 0 the results differ. *)
Lemma C53_processing_twice_refuted_l : forall strf q n nc ap w saves,
  sized strf q n -> saved (rw_out w) n saves -> nth_error (q_np q) (q_centre q) = Some nc -> nc <> 0 -> holds (q_pump q) ap -> p_f (q_pump q) <> 0 ->
  exists f1 w1 f2 w2,
    process_stepper_output strf q w = (Ok f1, w1) /\ process_stepper_output strf q w1 = (Ok f2, w2) /\
    forall k m, (k < saves)%nat -> (m < 3 * n)%nat ->
      let v1 := nth m (nth k (o_ysave (rw_out w1)) []) (RtoC 0) in let v2 := nth m (nth k (o_ysave (rw_out w2)) []) (RtoC 0) in
      let phi := dispersion q (c_mks / nc) (nth k (o_xsave (rw_out w)) 0%R) m in
      v2 = (v1 * phi)%C /\ (nth m (nth k (o_ysave (rw_out w)) []) (RtoC 0) <> RtoC 0 -> phi <> RtoC 1 -> v2 <> v1).
Proof.
  intros strf q n nc ap w saves Sz Sv Enc Hnc Hh F1. destruct (process_iface strf q n nc ap w saves Sz Sv Enc Hnc Hh F1) as (f & w1 & p1 & R1 & _ & _ & _ & _ & _ & Xs & Sv1 & V1). destruct (process_iface strf q n nc ap w1 saves Sz Sv1 Enc Hnc Hh F1) as (f2 & w2 & p2 & R2 & _ & _ & _ & _ & _ & _ & _ & V2).
  exists f, w1, f2, w2. split; [exact R1|]. split; [exact R2|]. intros k m Hk Hm v1 v2 phi. assert (E : v2 = (v1 * phi)%C) by (unfold v2, v1, phi; rewrite (V2 k m Hk Hm), Xs; reflexivity). split; [exact E|]. intros N0 N1 Eq.
  assert (Z : v1 <> z0). { unfold v1. rewrite (V1 k m Hk Hm). fold phi. intros Z. assert (U : Cnorm2 phi = 1) by (unfold phi, dispersion; destruct (Nat.ltb m _); [|destruct (Nat.ltb m _)]; apply cis_norm2). apply (f_equal Cnorm2) in Z. rewrite Cnorm2_mult, U, Cnorm2_0 in Z. apply N0. apply Cnorm2_eq_0. lra. }
  apply N1. rewrite Eq in E. assert (X : (v1 * (phi - RtoC 1))%C = z0) by (replace (v1 * (phi - RtoC 1))%C with (v1 * phi - v1)%C by ring; rewrite <- E; ring).
  replace phi with (RtoC 1 + / v1 * (v1 * (phi - RtoC 1)))%C; [rewrite X; ring|]. rewrite Cmult_assoc, Cinv_l by exact Z. ring.
Qed.

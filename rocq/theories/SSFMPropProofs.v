(** SSFM.propagate: bookkeeping, reloading, internal shifts (C32, C33, C34). *)
From Coq Require Import Reals List ZArith Bool Arith Lia Lra.
From Coquelicot Require Import Complex.
From Verif Require Import Base CNum NumPy ModelFFT FFTProofs ModelPulse PulseProofs PulseOpsProofs PulseRegridProofs ModelSSFM SSFMLoopProofs SSFMProofs SSFMSymProofs.
Import ListNotations.
Local Open Scope R_scope.
Local Open Scope py_scope.
Local Notation z0 := (RtoC 0).

(** ** Pulses that differ only in what their grid caches hold *)
Definition like (p q : pulse) : Prop := with_wlc None None (with_Wc None None q) = with_wlc None None (with_Wc None None p).
Lemma like_refl p : like p p. Proof. reflexivity. Qed.
Lemma like_fields p q : like p q -> p_n q = p_n p /\ p_f q = p_f p /\ p_tw q = p_tw p /\ p_AW q = p_AW p /\ p_frep q = p_frep p /\ p_ready q = p_ready p.
Proof. unfold like. destruct p, q. unfold with_wlc, with_Wc. cbn. intros H. injection H; intros; subst. auto 10. Qed.

(** A fiber whose get_betas and get_gain, asked about pulse [p], answer [b z] and [g] with one value per bin, possibly filling the pulse's caches. *)
Definition answers (fb : fiber) (p : pulse) (op : option R) (b : R -> list R) (g : list R) : Prop :=
  (forall z q, like p q -> exists q', fb_betas fb z q = (Ok (b z), q') /\ like p q') /\
  (forall q, like p q -> exists q', fb_gain fb op q = (Ok g, q') /\ like p q') /\
  (forall z, length (b z) = p_n p) /\ length g = p_n p.

Lemma raman_like c fR p q : like p q -> calc_raman c fR q = (fst (calc_raman c fR p), q).
Proof.
  intros H. apply like_fields in H. destruct H as (H1 & H2 & H3 & _ & _ & H6). unfold calc_raman, get_NPTS, get_T, get_time_window_ps, need_ready.
  assert (HT : T_of q = T_of p) by (unfold T_of; now rewrite H1, H3).
  unfold bind, gets, ret, raise, get. cbv iota beta. rewrite H1. destruct (c_noRaman c); [reflexivity|]. destruct (Req_EM_T (c_tau1 c * c_tau2 c ^ 2) 0); [reflexivity|].
  cbv iota beta. rewrite H6. destruct (p_ready p); [|reflexivity]. cbv iota beta. rewrite HT, H3.
  match goal with |- context [Req_EM_T ?x 0] => destruct (Req_EM_T x 0) end; reflexivity.
Qed.
Lemma raman_length c fR p Rw F q : calc_raman c fR p = (Ok (Rw, F), q) -> length Rw = p_n p.
Proof.
  unfold calc_raman, get_NPTS, get_T, get_time_window_ps, need_ready. unfold bind, gets, ret, raise, get, fst, snd. destruct (c_noRaman c).
  - intros H. injection H as <- _ _. apply repeat_length.
  - destruct (Req_EM_T (c_tau1 c * c_tau2 c ^ 2) 0); [discriminate|]. destruct (p_ready p); [|discriminate].
    match goal with |- context [Req_EM_T ?x 0] => destruct (Req_EM_T x 0) end; [discriminate|]. intros H. apply (f_equal fst), Ok_inj, (f_equal fst) in H. cbn [fst] in H. rewrite <- H.
    rewrite map_length. change (fft_t_shift ?x) with (FFT_t x). rewrite FFT_t_length, !map_length. unfold raman_RT. now rewrite mk_length, T_of_length.
Qed.

(** ** Evaluating propagate *)
Definition start (c : cfg) (fb : fiber) (p : pulse) (b : list R) (g : list R) (a Rw : list C) (F : R) (s : ssfm) : ssfm :=
  mkS (cfftshift c (IFFT_t a)) (s_dz s) (s_iter s) None (s_lastdir s) (repeat z0 (p_n p))
      (cfftshift c (map RtoC b)) (cfftshift c (map (fun x => RtoC (- x)) g)) (fb_get_gamma fb 0) (p_f p * 2 * PI)
      (cfftshift c (map RtoC (V_of p))) (cfftshift c Rw) F.
Lemma cfftshift_length c x : length (cfftshift c x) = length x.
Proof. unfold cfftshift. destruct (c_pre c); [apply fftshift_length|reflexivity]. Qed.
Lemma cifftshift_length c x : length (cifftshift c x) = length x.
Proof. unfold cifftshift. destruct (c_pre c); [apply ifftshift_length|reflexivity]. Qed.

Lemma setup_run c fb p q op b g a Rw F s : holds p a -> (0 < p_n p)%nat -> answers fb p op b g -> fst (calc_raman c (s_fR s) p) = Ok (Rw, F) -> like p q ->
  exists q' q'' s0, setup_fftw c fb op s q = (Ok s0, q') /\ like p q' /\
    load_fiber_parameters c fb 0 s0 q' = (Ok (start c fb p (b 0) g a Rw F s), q'') /\ like p q''.
Proof.
  intros (Hr & Ha & Hl) Hn (An1 & An2 & An3 & An4) HR Hq.
  destruct (An2 q Hq) as (q1 & G1 & Lq1). destruct (like_fields _ _ Hq) as (E1 & E2 & E3 & E4 & E5 & E6). destruct (like_fields _ _ Lq1) as (F1 & F2 & F3 & F4 & F5 & F6).
  assert (EV : V_of q = V_of p) by (unfold V_of; now rewrite E1, E3).
  assert (LR : length Rw = p_n p) by (apply (raman_length c (s_fR s) p Rw F p); rewrite (raman_like c (s_fR s) p p (like_refl p)); now rewrite HR).
  destruct (An1 0 q1 Lq1) as (q2 & B2 & Lq2).
  eexists q1, q2, _. split; [|split; [exact Lq1|split; [|exact Lq2]]].
  - unfold setup_fftw. unfold bind at 1. unfold get_NPTS at 1, gets at 1. cbv iota beta. unfold bind at 1. unfold get_V, need_ready, bind at 1 2, get at 1. rewrite E6, Hr. unfold ret at 1, gets at 1. cbv iota beta.
    unfold bind at 1. rewrite G1. unfold bind at 1, lift at 1. rewrite assign_all_eq by (rewrite repeat_length, map_length; lia).
    unfold bind at 1, get_center_frequency_THz at 1, gets at 1. cbv iota beta. unfold bind at 1. rewrite (raman_like c (s_fR s) p q1 Lq1), HR.
    unfold bind at 1. rewrite (get_AT_run q1 a) by congruence. unfold bind at 1, lift at 1. rewrite assign_all_eq by (rewrite repeat_length, map_length, V_of_length; lia).
    unfold bind at 1, lift at 1. rewrite assign_all_eq by (rewrite repeat_length, cfftshift_length, IFFT_t_length; lia). unfold ret. reflexivity.
  - unfold load_fiber_parameters, bind. rewrite B2. unfold lift. cbn [s_betas]. rewrite assign_all_eq by (rewrite repeat_length, map_length, An3; lia). unfold ret, start, with_fiber. cbn. rewrite E1, F2, EV. reflexivity.
Qed.

(** the steps, seen from the solver: field columns and final solver *)
Definition reloaded (c : cfg) (fb : fiber) (b : R -> list R) (reload : bool) (dz : R) (i : nat) (s : ssfm) : ssfm :=
  if reload then with_fiber (cfftshift c (map RtoC (b (INR i * dz)))) (fb_get_gamma fb (INR i * dz)) s else s.
Fixpoint cols (c : cfg) (fuel : nat) (load : nat -> ssfm -> ssfm) (dz : R) (i k : nat) (s : ssfm) : option (list (list C) * ssfm) :=
  match k with
  | O => Some ([], s)
  | S k' =>
      match integrate_over_dz c fuel dz 1 (load i s) with
      | None => None
      | Some s2 =>
          match cols c fuel load dz (i + 1) k' (with_A (cifftshift c (cifftshift c (s_A s2))) s2) with
          | None => None
          | Some (l, sf) => Some (cifftshift c (s_A s2) :: l, sf)
          end
      end
  end.

Lemma integrate_over_len c n fuel d s s2 : wf n s -> 0 < d -> 0 < s_dz s -> integrate_over_dz c fuel d 1 s = Some s2 -> wf n s2 /\ pars s2 s /\ 0 < s_dz s2 /\ s_fR s2 = s_fR s.
Proof.
  intros W Hd Hdz H. unfold integrate_over_dz in H. destruct (integrate_trace c fuel d 1 s) as [r|] eqn:E; [|discriminate]. injection H as <-.
  pose proof (final_dz_pos c fuel d 1 s r Hd Hdz E) as Hf.
  destruct (first_dz_pos d (s_dz s) Hd Hdz) as [P1 _].
  assert (Q : wf n (l_st r) /\ pars (l_st r) s /\ s_fR (l_st r) = s_fR s).
  { destruct (trace_fresh c fuel d 1 s r Hd Hdz E) as (r' & HL' & _ & _ & _ & _ & [_ E5]).
    destruct (loop_inv c (attempt_fresh c 1) (fun _ _ _ _ t => wf n t /\ pars t s /\ s_fR t = s_fR s)) with (fuel := fuel) (dist := d) (dz := first_dz d (s_dz s)) (ret := @None R)
      (steps := @nil R) (s := s) (r := r') as ((Q1 & Q2 & Q3) & _); try assumption.
    - clear - W. intros dist dz ret steps t delta s1 s2 keep dz1 Hd Hdz (I1 & I2 & I3) Ha _. unfold attempt_fresh in Ha. injection Ha as _ <- <-.
      assert (LA : forall x h, length x = n -> 0 < h -> length (advance_fresh c t x h 1) = n).
      { intros x h Lx Hh. rewrite advance_fresh_eq by exact Hh. unfold adv_with. rewrite expD_P.
        assert (K : forall y, length y = n -> length (kerr c t y h 1) = n) by (intros y Ly; unfold kerr; pose proof (nonlinear_length c n t y I1 Ly); vl).
        destruct (c_method c).
        - destruct (Req_EM_T 1 1); [apply K; vl|]. apply len_diag; [vl|auto].
        - unfold rk_with. cbv zeta. set (E := P t (1 * h * (1 / 2))). assert (LE : length E = n) by (unfold E; vl).
          assert (NL : forall y, length y = n -> length (vmul (vscale (RtoC (h * 1)) (nonlinear c t y)) y) = n) by (intros y Ly; pose proof (nonlinear_length c n t y I1 Ly); vl).
          assert (K1 : length (diag c E (vmul (vscale (RtoC (h * 1)) (nonlinear c t x)) x)) = n) by auto with vl.
          set (k1 := diag c E (vmul (vscale (RtoC (h * 1)) (nonlinear c t x)) x)) in *.
          assert (K2 : length (vmul (vscale (RtoC (h * 1)) (nonlinear c t (vadd (diag c E x) (vscale (/ RtoC 2)%C k1)))) (vadd (diag c E x) (vscale (/ RtoC 2)%C k1))) = n) by (apply NL; vl).
          set (k2 := vmul (vscale (RtoC (h * 1)) (nonlinear c t (vadd (diag c E x) (vscale (/ RtoC 2)%C k1)))) (vadd (diag c E x) (vscale (/ RtoC 2)%C k1))) in *.
          assert (K3 : length (vmul (vscale (RtoC (h * 1)) (nonlinear c t (vadd (diag c E x) (vscale (/ RtoC 2)%C k2)))) (vadd (diag c E x) (vscale (/ RtoC 2)%C k2))) = n) by (apply NL; vl).
          set (k3 := vmul (vscale (RtoC (h * 1)) (nonlinear c t (vadd (diag c E x) (vscale (/ RtoC 2)%C k2)))) (vadd (diag c E x) (vscale (/ RtoC 2)%C k2))) in *.
          apply len_vadd; [auto 12 with vl|]. apply len_vscale, NL. auto 12 with vl. }
      destruct keep; [|repeat split; (apply I1 || apply I2 || apply I3)].
      assert (LAt : length (s_A t) = n) by apply I1.
      assert (LRi : length (richardson c (advance_fresh c t (advance_fresh c t (s_A t) dz 1) dz 1) (advance_fresh c t (s_A t) (2 * dz) 1)) = n).
      { assert (length (advance_fresh c t (s_A t) (2 * dz) 1) = n) by (apply LA; [exact LAt|lra]). assert (length (advance_fresh c t (advance_fresh c t (s_A t) dz 1) dz 1) = n) by auto.
        unfold richardson. destruct (Nat.eqb (c_eta c) 3); [|destruct (Nat.eqb (c_eta c) 5)]; cbv zeta; vl. }
      split; [|split; [repeat split; apply I2|exact I3]]. destruct I1 as (_ & J1 & J2 & J3 & J4). repeat split; assumption.
    - split; [exact W|]. split; [repeat split|reflexivity].
    - destruct (nocache_fields _ _ E5) as (S1 & S2 & S3 & S4 & S5 & S6 & S7 & S8 & S9 & S10). unfold wf, pars in *. rewrite S1, S4, S5, S6, S7, S8, S9, S10. auto. }
  destruct Q as (Q1 & Q2 & Q3). split; [exact Q1|]. split; [exact Q2|]. split; [exact Hf|exact Q3].
Qed.

Lemma AW_col c x : cifftshift c (fft_t c x) = FFT_t (cifftshift c x).
Proof. unfold cifftshift, fft_t, FFT_t. destruct (c_pre c); [|reflexivity]. now rewrite fftshift_ifftshift. Qed.

Definition outpulse (p : pulse) (q : pulse) : Prop :=
  writable q /\ p_n q = p_n p /\ p_tw q = p_tw p /\ p_f q = p_f p /\ p_frep q = p_frep p.
Lemma outpulse_set p q x : outpulse p q -> length x = p_n p -> (0 < p_n p)%nat ->
  set_AT x q = (Ok tt, with_AW (Some (FFT_t x)) q) /\ exists e, calc_epp (with_AW (Some (FFT_t x)) q) = (Ok e, with_AW (Some (FFT_t x)) q) /\
  outpulse p (with_AW (Some (FFT_t x)) q).
Proof.
  intros (Hw & H1 & H2 & H3 & H4) Lx Hn. split; [apply set_AT_ok; [exact Hw|congruence]|]. eexists. split.
  - apply (calc_epp_run _ (FFT_t x)); [|pred; lia]. split; [apply Hw|]. split; [reflexivity|]. pred. rewrite FFT_t_length. congruence.
  - unfold outpulse. pred. split; [|auto]. split; [apply Hw|]. right. exists (FFT_t x). split; [reflexivity|]. pred. rewrite FFT_t_length. congruence.
Qed.

Lemma prop_loop_run c fuel fb p op b g reload dz : holds p (cur_field p) -> (0 < p_n p)%nat -> answers fb p op b g -> 0 < dz ->
  forall k i o q, like p q -> outpulse p (o_pulse o) -> wf (p_n p) (o_s o) -> 0 < s_dz (o_s o) ->
  exists q', like p q' /\
  match cols c fuel (reloaded c fb b reload dz) dz i k (o_s o) with
  | None => prop_loop c fuel fb dz reload i k o q = (Ok None, q')
  | Some (l, sf) => length l = k /\ wf (p_n p) sf /\ exists po, outpulse p po /\ prop_loop c fuel fb dz reload i k o q = (Ok (Some (mkOut (o_AW o ++ map FFT_t l) (o_AT o ++ l) po sf)), q')
  end.
Proof.
  intros Hh Hn (An1 & An2 & An3 & An4) Hdz. induction k as [|k IH]; intros i o q Hq Ho Ws Hd.
  - exists q. split; [exact Hq|]. cbn [cols]. split; [reflexivity|]. split; [exact Ws|]. exists (o_pulse o). split; [exact Ho|]. cbn [prop_loop map]. rewrite !app_nil_r. unfold ret. destruct o; reflexivity.
  - cbn [cols prop_loop].
    assert (L : exists q1, like p q1 /\ (if reload then load_fiber_parameters c fb (INR i * dz) (o_s o) else ret (o_s o)) q = (Ok (reloaded c fb b reload dz i (o_s o)), q1)).
    { unfold reloaded. destruct reload; [|exists q; split; [exact Hq|reflexivity]].
      destruct (An1 (INR i * dz) q Hq) as (q1 & B1 & L1). exists q1. split; [exact L1|]. unfold load_fiber_parameters, bind. rewrite B1. unfold lift.
      rewrite assign_all_eq by (rewrite map_length, An3; apply Ws). reflexivity. }
    destruct L as (q1 & Lq1 & L).
    assert (Ws1 : wf (p_n p) (reloaded c fb b reload dz i (o_s o))).
    { unfold reloaded. destruct reload; [|exact Ws]. destruct Ws as (J1 & J2 & J3 & J4 & J5). repeat split; try assumption. cbn [with_fiber s_betas]. now rewrite cfftshift_length, map_length, An3. }
    assert (Hd1 : 0 < s_dz (reloaded c fb b reload dz i (o_s o))) by (unfold reloaded; destruct reload; exact Hd).
    destruct (integrate_over_dz c fuel dz 1 (reloaded c fb b reload dz i (o_s o))) as [s2|] eqn:E.
    + destruct (integrate_over_len c (p_n p) fuel dz _ s2 Ws1 Hdz Hd1 E) as (W2 & _ & D2 & _). 
      assert (LA : length (s_A s2) = p_n p) by apply W2.
      destruct (outpulse_set p (o_pulse o) (cifftshift c (cifftshift c (s_A s2))) Ho) as (S1 & e & S2 & S3); [now rewrite !cifftshift_length|exact Hn|].
      set (o' := mkOut (o_AW o ++ [cifftshift c (fft_t c (s_A s2))]) (o_AT o ++ [cifftshift c (s_A s2)]) (with_AW (Some (FFT_t (cifftshift c (cifftshift c (s_A s2))))) (o_pulse o))
                   (with_A (cifftshift c (cifftshift c (s_A s2))) s2)).
      assert (ST : prop_step c fuel fb dz reload i o q = (Ok (Some o'), q1)).
      { unfold prop_step, bind. rewrite L, E. cbv zeta. cbn [with_A s_A]. rewrite S1, S2. reflexivity. }
      assert (Wo : wf (p_n p) (o_s o')).
      { destruct W2 as (J1 & J2 & J3 & J4 & J5). repeat split; try assumption. unfold o'. cbn [o_s with_A s_A]. now rewrite !cifftshift_length. }
      destruct (IH (i + 1)%nat o' q1 Lq1 S3 Wo D2) as (q2 & Lq2 & R). exists q2. split; [exact Lq2|]. change (o_s o') with (with_A (cifftshift c (cifftshift c (s_A s2))) s2) in R.
      destruct (cols c fuel (reloaded c fb b reload dz) dz (i + 1) k (with_A (cifftshift c (cifftshift c (s_A s2))) s2)) as [[l sf]|].
      * destruct R as (R1 & R2 & po & R3 & R4). split; [cbn; now rewrite R1|]. split; [exact R2|]. exists po. split; [exact R3|]. 
        unfold bind. rewrite ST, R4. unfold o'. cbn [o_AW o_AT map]. rewrite <- !app_assoc. cbn [app]. now rewrite AW_col.
      * unfold bind. rewrite ST. exact R.
    + exists q1. split; [exact Lq1|]. unfold bind. replace (prop_step c fuel fb dz reload i o q) with (@Ok (option pout) None, q1); [reflexivity|].
      symmetry. unfold prop_step, bind. rewrite L, E. reflexivity.
Qed.

Definition step_of (L : R) (N : nat) : R := L / INR N.
Lemma z_nth L N i : (0 < N)%nat -> (i <= N)%nat -> nth i (linspace 0 L (N + 1)) 0 = INR i * step_of L N.
Proof.
  intros H Hi. unfold linspace, step_of. destruct N as [|N']; [lia|]. replace (S N' + 1)%nat with (S (S N')) by lia. cbv beta iota. rewrite mk_nth by lia.
  replace (S (S N') - 1)%nat with (S N') by lia. rewrite Rminus_0_r. ring.
Qed.
Lemma delta_eq L N : (0 < N)%nat -> (if Nat.eqb N 1 then L else nth 1 (linspace 0 L (N + 1)) 0 - nth 0 (linspace 0 L (N + 1)) 0) = step_of L N.
Proof.
  intros H. destruct (Nat.eqb_spec N 1) as [->|H1]; [unfold step_of; simpl; field|].
  rewrite !z_nth by lia. cbn [INR]. ring.
Qed.
Lemma z_length L N : length (linspace 0 L (N + 1)) = (N + 1)%nat.
Proof. unfold linspace. destruct (N + 1)%nat as [|[|k]]; [reflexivity|reflexivity|]. apply mk_length. Qed.

Lemma propagate_run c fuel fb N op reload s p a b g Rw F :
  holds p a -> (0 < p_n p)%nat -> answers fb p op b g -> fst (calc_raman c (s_fR s) p) = Ok (Rw, F) ->
  p_f p <> 0 -> (0 < N)%nat -> 0 < fb_len fb -> 0 < s_dz s ->
  exists q, like p q /\
  match cols c fuel (reloaded c fb b reload (step_of (fb_len fb) N)) (step_of (fb_len fb) N) 0 N (start c fb p (b 0) g a Rw F s) with
  | None => propagate c fuel fb N op reload s p = (Ok None, q)
  | Some (l, sf) =>
      length l = N /\ wf (p_n p) sf /\
      exists po, outpulse p po /\ p_AW po = Some (FFT_t (cifftshift c (s_A sf))) /\
      propagate c fuel fb N op reload s p =
        (Ok (Some (linspace 0 (fb_len fb) (N + 1), map FFT_t l, l, po, with_A (cifftshift c (s_A sf)) sf)), q)
  end.
Proof.
  intros Hh Hn An HR Hf HN HL Hd. pose proof Hh as (Hr & Ha & Hl).
  assert (Hst : 0 < step_of (fb_len fb) N) by (unfold step_of; apply Rdiv_lt_0_compat; [exact HL|apply lt_0_INR; lia]).
  destruct (setup_run c fb p p op b g a Rw F s Hh Hn An HR (like_refl p)) as (q1 & q2 & s0 & S1 & L1 & S2 & L2).
  set (po0 := mkPulse (p_n p) (c_nmps / (c_nmps / p_f p)) (p_tw p) (Some a) (p_frep p) true None None None None).
  assert (CL : clone_pulse p (new_pulse None None) = (Ok tt, po0)).
  { pose proof (clone_new_run p a Hh) as C. unfold create_cloned_pulse, bind, get, with_new in C.
    destruct (clone_pulse p (new_pulse None None)) as [[[]|e] w]; [|discriminate]. apply (f_equal fst), Ok_inj in C. cbn [snd] in C. now rewrite C. }
  assert (O0 : outpulse p po0).
  { split; [split; [reflexivity|right; exists a; split; [reflexivity|exact Hl]]|]. split; [reflexivity|]. split; [reflexivity|]. split; [apply f_inv, Hf|reflexivity]. }
  set (s1 := start c fb p (b 0) g a Rw F s) in *.
  assert (LR : length Rw = p_n p) by (apply (raman_length c (s_fR s) p Rw F p); rewrite (raman_like c (s_fR s) p p (like_refl p)); now rewrite HR).
  assert (W1 : wf (p_n p) s1).
  { destruct An as (_ & _ & A3 & A4). unfold s1, start, wf. cbn [s_A s_betas s_alpha s_omegas s_R]. rewrite !cfftshift_length, !map_length, IFFT_t_length, V_of_length, A3. auto. }
  destruct (prop_loop_run c fuel fb p op b g reload (step_of (fb_len fb) N)) with (k := N) (i := 0%nat) (o := mkOut [] [] po0 s1) (q := q2) as (q3 & L3 & R); try assumption.
  { split; [exact Hr|]. unfold cur_field. rewrite Ha. auto. }
  exists q3. split; [exact L3|]. cbn [o_s o_AW o_AT app] in R.
  assert (PR : propagate c fuel fb N op reload s p =
     match prop_loop c fuel fb (step_of (fb_len fb) N) reload 0 N (mkOut [] [] po0 s1) q2 with
     | (Ok None, q) => (Ok None, q)
     | (Ok (Some o), q) =>
         match set_AT (cifftshift c (s_A (o_s o))) (o_pulse o) with
         | (Raise x, _) => (Raise x, q)
         | (Ok _, po1) => match calc_epp po1 with
                          | (Raise x, _) => (Raise x, q)
                          | (Ok _, po2) => (Ok (Some (linspace 0 (fb_len fb) (N + 1), o_AW o, o_AT o, po2, with_A (cifftshift c (s_A (o_s o))) (o_s o))), q)
                          end
         end
     | (Raise x, q) => (Raise x, q)
     end).
  { unfold propagate. cbv zeta. rewrite delta_eq by exact HN. destruct (Nat.eqb_spec N 0); [lia|]. unfold bind at 1, ret at 1. cbv iota beta. unfold bind at 1.
    rewrite (calc_epp_run p a Hh Hn). unfold bind at 1, get at 1. cbv iota beta. rewrite CL. unfold bind at 1. rewrite S1. unfold bind at 1. rewrite S2. unfold bind at 1. fold s1.
    destruct (prop_loop c fuel fb (step_of (fb_len fb) N) reload 0 N (mkOut [] [] po0 s1) q2) as [[[o|]|x] q]; [|reflexivity|reflexivity].
    cbn [with_A s_A]. destruct (set_AT (cifftshift c (s_A (o_s o))) (o_pulse o)) as [[[]|x] po1]; [|reflexivity]. destruct (calc_epp po1) as [[e|x] po2]; reflexivity. }
  rewrite PR. clear PR. destruct (cols c fuel (reloaded c fb b reload (step_of (fb_len fb) N)) (step_of (fb_len fb) N) 0 N s1) as [[l sf]|].
  - destruct R as (R1 & R2 & po & R3 & R4). split; [exact R1|]. split; [exact R2|]. rewrite R4. cbn [o_s o_AW o_AT o_pulse].
    destruct (outpulse_set p po (cifftshift c (s_A sf)) R3) as (T1 & e & T2 & T3); [rewrite cifftshift_length; apply R2|exact Hn|].
    exists (with_AW (Some (FFT_t (cifftshift c (s_A sf)))) po). split; [exact T3|]. split; [reflexivity|]. rewrite T1, T2. reflexivity.
  - now rewrite R.
Qed.

(** ** The claims about propagate *)
(** A propagation that gets past its setup: a live pulse with a non-empty grid, a fiber that answers, a Raman response that can be computed, at least one step over a positive length. *)
Definition setting (c : cfg) (fb : fiber) (N : nat) (op : option R) (s : ssfm) (p : pulse) (a : list C) (b : R -> list R) (g : list R) (Rw : list C) (F : R) : Prop :=
  holds p a /\ (0 < p_n p)%nat /\ p_f p <> 0 /\ answers fb p op b g /\ fst (calc_raman c (s_fR s) p) = Ok (Rw, F) /\ (0 < N)%nat /\ 0 < fb_len fb /\ 0 < s_dz s.

Lemma cols_chain c fuel load dz : forall k i s l sf, cols c fuel load dz i k s = Some (l, sf) ->
  length l = k /\ exists st : nat -> ssfm, st 0%nat = s /\ st k = sf /\
  forall j, (j < k)%nat -> exists s2, integrate_over_dz c fuel dz 1 (load (i + j)%nat (st j)) = Some s2 /\
    nth j l [] = cifftshift c (s_A s2) /\ st (S j) = with_A (cifftshift c (cifftshift c (s_A s2))) s2.
Proof.
  induction k as [|k IH]; intros i s l sf H; cbn [cols] in H.
  - injection H as <- <-. split; [reflexivity|]. exists (fun _ => s). split; [reflexivity|]. split; [reflexivity|]. intros; lia.
  - destruct (integrate_over_dz c fuel dz 1 (load i s)) as [s2|] eqn:E; [|discriminate].
    destruct (cols c fuel load dz (i + 1) k _) as [[l1 sf1]|] eqn:E1; [|discriminate]. injection H as <- <-.
    destruct (IH _ _ _ _ E1) as (L1 & st & S1 & S2 & S3). split; [cbn; congruence|].
    exists (fun j => match j with O => s | S j' => st j' end). split; [reflexivity|]. split; [exact S2|].
    intros [|j] Hj.
    + exists s2. rewrite Nat.add_0_r. split; [exact E|]. split; [reflexivity|exact S1].
    + destruct (S3 j ltac:(lia)) as (t & T1 & T2 & T3). exists t. replace (i + S j)%nat with (i + 1 + j)%nat by lia. auto.
Qed.
Lemma cols_firstn c fuel load dz m : forall k i s l sf, (m <= k)%nat -> cols c fuel load dz i k s = Some (l, sf) -> exists sm, cols c fuel load dz i m s = Some (firstn m l, sm).
Proof.
  induction m as [|m IH]; intros k i s l sf Hm H; [eexists; reflexivity|]. destruct k as [|k]; [lia|]. cbn [cols] in *.
  destruct (integrate_over_dz c fuel dz 1 (load i s)) as [s2|]; [|discriminate]. destruct (cols c fuel load dz (i + 1) k _) as [[l1 sf1]|] eqn:E1; [|discriminate]. injection H as <- <-.
  destruct (IH k _ _ _ _ ltac:(lia) E1) as (sm & E2). rewrite E2. eexists. reflexivity.
Qed.
Lemma even_ifftshift {A} (x : list A) : Nat.even (length x) = true -> ifftshift x = fftshift x.
Proof.
  intros H. apply Nat.even_spec in H. destruct H as [h H]. unfold fftshift, ifftshift. rewrite H, Nat.div2_double.
  transitivity (roll (- Z.of_nat h) (roll (1 * Z.of_nat (length x)) x)); [now rewrite roll_n|]. rewrite roll_roll. f_equal. lia.
Qed.
Definition straight (c : cfg) (n : nat) : Prop := c_pre c = false \/ Nat.even n = true.
Lemma cifft_twice c n x : straight c n -> length x = n -> cifftshift c (cifftshift c x) = x.
Proof.
  intros H L. unfold cifftshift. destruct (c_pre c) eqn:E; [|reflexivity]. destruct H as [H|H]; [congruence|].
  rewrite (even_ifftshift x) by congruence. apply ifftshift_fftshift.
Qed.
Lemma odd_twice {A} (x : list A) : Nat.odd (length x) = true -> ifftshift (ifftshift x) = roll 1 x.
Proof.
  intros H. apply Nat.odd_spec in H. destruct H as [h H]. unfold ifftshift. rewrite roll_length, roll_roll, H. replace (2 * h + 1)%nat with (S (2 * h)) by lia. rewrite Nat.div2_succ_double.
  replace (- Z.of_nat h + - Z.of_nat h)%Z with (1 + (-1) * Z.of_nat (length x))%Z by (rewrite H; lia). now rewrite <- roll_roll, roll_n.
Qed.
Lemma wf_chain c p b fb reload dz fuel (st : nat -> ssfm) k l : (forall z, length (b z) = p_n p) -> 0 < dz -> wf (p_n p) (st 0%nat) -> 0 < s_dz (st 0%nat) ->
  (forall j, (j < k)%nat -> exists s2, integrate_over_dz c fuel dz 1 (reloaded c fb b reload dz (0 + j) (st j)) = Some s2 /\
    nth j l [] = cifftshift c (s_A s2) /\ st (S j) = with_A (cifftshift c (cifftshift c (s_A s2))) s2) ->
  forall j, (j <= k)%nat -> wf (p_n p) (st j) /\ 0 < s_dz (st j).
Proof.
  intros Hb Hdz W0 D0 H. induction j as [|j IH]; intros Hj; [auto|]. destruct (IH ltac:(lia)) as (W & D). destruct (H j ltac:(lia)) as (s2 & E1 & _ & E3).
  assert (W1 : wf (p_n p) (reloaded c fb b reload dz (0 + j) (st j)) /\ 0 < s_dz (reloaded c fb b reload dz (0 + j) (st j))).
  { unfold reloaded. destruct reload; [|auto]. split; [|exact D]. destruct W as (J1 & J2 & J3 & J4 & J5). repeat split; try assumption. cbn [with_fiber s_betas]. now rewrite cfftshift_length, map_length, Hb. }
  destruct W1 as (W1 & D1). destruct (integrate_over_len c (p_n p) fuel dz _ s2 W1 Hdz D1 E1) as ((J1 & J2 & J3 & J4 & J5) & _ & D2 & _).
  rewrite E3. split; [|exact D2]. repeat split; try assumption. cbn [with_A s_A]. now rewrite !cifftshift_length.
Qed.
Lemma start_wf c fb p op b g a Rw F s : holds p a -> answers fb p op b g -> fst (calc_raman c (s_fR s) p) = Ok (Rw, F) -> wf (p_n p) (start c fb p (b 0) g a Rw F s).
Proof.
  intros (_ & _ & Hl) (_ & _ & A3 & A4) HR. assert (LR : length Rw = p_n p) by (apply (raman_length c (s_fR s) p Rw F p); rewrite (raman_like c (s_fR s) p p (like_refl p)); now rewrite HR).
  unfold start, wf. cbn [s_A s_betas s_alpha s_omegas s_R]. rewrite !cfftshift_length, !map_length, IFFT_t_length, V_of_length, A3. auto.
Qed.
(** reading a finished propagation back *)
Lemma propagate_inv c fuel fb N op reload s p a b g Rw F z AW AT po s' q : setting c fb N op s p a b g Rw F ->
  propagate c fuel fb N op reload s p = (Ok (Some (z, AW, AT, po, s')), q) ->
  like p q /\ z = linspace 0 (fb_len fb) (N + 1) /\ AW = map FFT_t AT /\ length AT = N /\ outpulse p po /\
  exists sf, cols c fuel (reloaded c fb b reload (step_of (fb_len fb) N)) (step_of (fb_len fb) N) 0 N (start c fb p (b 0) g a Rw F s) = Some (AT, sf) /\
  wf (p_n p) sf /\ p_AW po = Some (FFT_t (cifftshift c (s_A sf))) /\ s' = with_A (cifftshift c (s_A sf)) sf.
Proof.
  intros (Hh & Hn & Hf & An & HR & HN & HL & Hd) H.
  destruct (propagate_run c fuel fb N op reload s p a b g Rw F Hh Hn An HR Hf HN HL Hd) as (q' & Lq & R).
  destruct (cols c fuel _ _ 0 N _) as [[l sf]|] eqn:E.
  - destruct R as (R1 & R2 & po' & R3 & R4 & R5). rewrite R5 in H. pose proof (f_equal snd H) as Hq. apply (f_equal fst), Ok_inj in H. cbn [snd] in Hq. subst q'.
    pose proof (f_equal (fun o => match o with Some (z, _, _, _, _) => z | None => [] end) H) as E1.
    pose proof (f_equal (fun o => match o with Some (_, z, _, _, _) => z | None => [] end) H) as E2.
    pose proof (f_equal (fun o => match o with Some (_, _, z, _, _) => z | None => [] end) H) as E3.
    pose proof (f_equal (fun o => match o with Some (_, _, _, z, _) => z | None => po' end) H) as E4.
    pose proof (f_equal (fun o => match o with Some (_, _, _, _, z) => z | None => s' end) H) as E5.
    cbv beta iota in E1, E2, E3, E4, E5. subst l po'. split; [exact Lq|]. split; [now rewrite E1|]. split; [now rewrite E2|]. split; [exact R1|]. split; [exact R3|].
    exists sf. split; [reflexivity|]. split; [exact R2|]. split; [exact R4|]. now rewrite E5.
  - rewrite R in H. apply (f_equal fst), Ok_inj in H. discriminate.
Qed.

(*! C33: propagate returns n_steps+1 equally spaced positions from 0 to the fiber length, n_steps columns of each kind of full grid length, every AW column being the transform of the
    matching AT column; pulse_out lives on the grid of pulse_in; pulse_in itself is unchanged (up to lazily filled grid caches). *)
Lemma C33_propagate_bookkeeping_l : forall (c : cfg) (fuel : nat) (fb : fiber) (N : nat) (op : option R) (reload : bool) (s : ssfm) (p : pulse) (a : list C) (b : R -> list R) (g : list R) (Rw : list C) (F : R)
  (z : list R) (AW AT : list (list C)) (po : pulse) (s' : ssfm) (q : pulse), setting c fb N op s p a b g Rw F ->
  propagate c fuel fb N op reload s p = (Ok (Some (z, AW, AT, po, s')), q) ->
  length z = (N + 1)%nat /\ (forall i, (i <= N)%nat -> nth i z 0 = INR i * fb_len fb / INR N) /\
  length AT = N /\ length AW = N /\
  (forall i, (i < N)%nat -> length (nth i AT []) = p_n p /\ nth i AW [] = FFT_t (nth i AT [])) /\
  p_n po = p_n p /\ p_tw po = p_tw p /\ p_f po = p_f p /\ p_frep po = p_frep p /\
  like p q /\ get_AW q = (Ok a, q) /\ get_AT q = (Ok (IFFT_t a), q).
Proof.
  intros c fuel fb N op reload s p a b g Rw F z AW AT po s' q Hs H. destruct (propagate_inv _ _ _ _ _ _ _ _ _ _ _ _ _ _ _ _ _ _ _ Hs H) as (Lq & -> & -> & LA & (_ & O1 & O2 & O3 & O4) & sf & EC & _).
  destruct Hs as (Hh & Hn & Hf & An & HR & HN & HL & Hd). 
  split; [apply z_length|]. split; [intros; rewrite z_nth by assumption; unfold step_of; unfold Rdiv; ring|]. split; [exact LA|]. split; [now rewrite map_length|]. split.
  - intros i Hi. split; [|rewrite (nth_indep _ [] (FFT_t [])) by (rewrite map_length; lia); apply map_nth].
    destruct (cols_chain _ _ _ _ _ _ _ _ _ EC) as (_ & st & S0 & _ & S3).
    assert (Hst : 0 < step_of (fb_len fb) N) by (unfold step_of; apply Rdiv_lt_0_compat; [exact HL|apply lt_0_INR; lia]).
    assert (Wc : forall j, (j <= N)%nat -> wf (p_n p) (st j) /\ 0 < s_dz (st j)).
    { apply (wf_chain c p b fb reload (step_of (fb_len fb) N) fuel st N AT); try assumption; [apply An|rewrite S0; apply (start_wf c fb p op b g a Rw F s); assumption|rewrite S0; exact Hd]. }
    destruct (S3 i Hi) as (s2 & E1 & E2 & E3). destruct (Wc (S i) ltac:(lia)) as ((W & _) & _). rewrite E3 in W. cbn [with_A s_A] in W. rewrite E2. now rewrite !cifftshift_length in *.
  - repeat (split; [assumption|]). destruct (like_fields p q Lq) as (_ & _ & _ & E4 & _ & _). destruct Hh as (_ & Ha & _). split; [apply get_AW_run|apply get_AT_run]; congruence.
Qed.

(*! C33 (partial): on even grids, or with the internal shift off, pulse_out carries the last column in both domains. Missing: odd grids, where it fails (see C33_odd_grid_refuted). *)
Lemma C33_output_is_last_column_partial_l : forall (c : cfg) (fuel : nat) (fb : fiber) (N : nat) (op : option R) (reload : bool) (s : ssfm) (p : pulse) (a : list C) (b : R -> list R) (g : list R) (Rw : list C) (F : R)
  (z : list R) (AW AT : list (list C)) (po : pulse) (s' : ssfm) (q : pulse), setting c fb N op s p a b g Rw F ->
  (c_pre c = false \/ Nat.even (p_n p) = true) ->
  propagate c fuel fb N op reload s p = (Ok (Some (z, AW, AT, po, s')), q) ->
  get_AW po = (Ok (last AW []), po) /\ get_AT po = (Ok (last AT []), po).
Proof.
  intros c fuel fb N op reload s p a b g Rw F z AW AT po s' q Hs Hst H. destruct (propagate_inv _ _ _ _ _ _ _ _ _ _ _ _ _ _ _ _ _ _ _ Hs H) as (Lq & -> & -> & LA & _ & sf & EC & Wf & EP & _).
  destruct Hs as (Hh & Hn & Hf & An & HR & HN & HL & Hd). destruct (cols_chain _ _ _ _ _ _ _ _ _ EC) as (_ & st & S0 & SN & S3).
  destruct (S3 (N - 1)%nat ltac:(lia)) as (s2 & E1 & E2 & E3). replace (S (N - 1)) with N in E3 by lia. rewrite SN in E3.
  assert (L2 : length (s_A s2) = p_n p) by (destruct Wf as (W & _); rewrite E3 in W; cbn [with_A s_A] in W; now rewrite !cifftshift_length in W).
  assert (EL : last AT [] = cifftshift c (s_A s2)).
  { rewrite <- E2. clear - LA HN. destruct AT as [|x AT] using rev_ind; [cbn in LA; lia|]. rewrite last_last. rewrite app_length in LA. cbn in LA. rewrite app_nth2 by lia. replace (N - 1 - length AT)%nat with 0%nat by lia. reflexivity. }
  assert (EA : cifftshift c (s_A sf) = last AT []) by (rewrite EL, E3; cbn [with_A s_A]; f_equal; now apply cifft_twice with (p_n p)).
  rewrite EA in EP.
  assert (EW : last (map FFT_t AT) [] = FFT_t (last AT [])).
  { clear - LA HN. destruct AT as [|x AT] using rev_ind; [cbn in LA; lia|]. rewrite map_app. cbn [map]. now rewrite !last_last. }
  split; [rewrite EW; now apply get_AW_run|]. rewrite (get_AT_run _ _ EP). now rewrite IFFT_FFT_t.
Qed.

(*! C33: what happens instead on every odd grid with the internal shift on: pulse_out is the last column rolled by one sample. *)
Lemma C33_odd_grid_rolls_output_l : forall (c : cfg) (fuel : nat) (fb : fiber) (N : nat) (op : option R) (reload : bool) (s : ssfm) (p : pulse) (a : list C) (b : R -> list R) (g : list R) (Rw : list C) (F : R)
  (z : list R) (AW AT : list (list C)) (po : pulse) (s' : ssfm) (q : pulse), setting c fb N op s p a b g Rw F ->
  c_pre c = true -> Nat.odd (p_n p) = true ->
  propagate c fuel fb N op reload s p = (Ok (Some (z, AW, AT, po, s')), q) ->
  get_AT po = (Ok (roll 1 (last AT [])), po).
Proof.
  intros c fuel fb N op reload s p a b g Rw F z AW AT po s' q Hs Hpre Hodd H. destruct (propagate_inv _ _ _ _ _ _ _ _ _ _ _ _ _ _ _ _ _ _ _ Hs H) as (Lq & -> & -> & LA & _ & sf & EC & Wf & EP & _).
  destruct Hs as (Hh & Hn & Hf & An & HR & HN & HL & Hd). destruct (cols_chain _ _ _ _ _ _ _ _ _ EC) as (_ & st & S0 & SN & S3).
  destruct (S3 (N - 1)%nat ltac:(lia)) as (s2 & E1 & E2 & E3). replace (S (N - 1)) with N in E3 by lia. rewrite SN in E3.
  assert (L2 : length (s_A s2) = p_n p) by (destruct Wf as (W & _); rewrite E3 in W; cbn [with_A s_A] in W; now rewrite !cifftshift_length in W).
  assert (EL : last AT [] = cifftshift c (s_A s2)).
  { rewrite <- E2. clear - LA HN. destruct AT as [|x AT] using rev_ind; [cbn in LA; lia|]. rewrite last_last. rewrite app_length in LA. cbn in LA. rewrite app_nth2 by lia. replace (N - 1 - length AT)%nat with 0%nat by lia. reflexivity. }
  rewrite (get_AT_run _ _ EP), IFFT_FFT_t, EL, E3. cbn [with_A s_A]. unfold cifftshift. rewrite Hpre. rewrite odd_twice; [reflexivity|]. rewrite ifftshift_length, L2. exact Hodd.
Qed.

(*! C33: the columns are the fields along the way: stopping after m of N steps (the same fiber cut to m/N of its length) gives exactly the first m columns. *)
Lemma C33_columns_are_prefixes_l : forall (c : cfg) (fuel : nat) (fb : fiber) (N m : nat) (op : option R) (reload : bool) (s : ssfm) (p : pulse) (a : list C) (b : R -> list R) (g : list R) (Rw : list C) (F : R)
  (z : list R) (AW AT : list (list C)) (po : pulse) (s' : ssfm) (q : pulse), setting c fb N op s p a b g Rw F -> (0 < m <= N)%nat ->
  propagate c fuel fb N op reload s p = (Ok (Some (z, AW, AT, po, s')), q) ->
  let cut := mkFiber (fb_len fb * INR m / INR N) (fb_betas fb) (fb_gain fb) (fb_gamma fb) (fb_get_gamma fb) in
  exists z2 po2 s2 q2, propagate c fuel cut m op reload s p = (Ok (Some (z2, firstn m AW, firstn m AT, po2, s2)), q2).
Proof.
  intros c fuel fb N m op reload s p a b g Rw F z AW AT po s' q Hs Hm H cut. destruct (propagate_inv _ _ _ _ _ _ _ _ _ _ _ _ _ _ _ _ _ _ _ Hs H) as (Lq & -> & -> & LA & _ & sf & EC & Wf & EP & _).
  destruct Hs as (Hh & Hn & Hf & An & HR & HN & HL & Hd).
  assert (IN : 0 < INR N) by (apply lt_0_INR; lia). assert (IM : 0 < INR m) by (apply lt_0_INR; lia).
  assert (Est : step_of (fb_len cut) m = step_of (fb_len fb) N) by (unfold step_of; cbn [cut fb_len]; field; lra).
  assert (HLc : 0 < fb_len cut) by (cbn [cut fb_len]; apply Rdiv_lt_0_compat; [now apply Rmult_lt_0_compat|exact IN]).
  destruct (propagate_run c fuel cut m op reload s p a b g Rw F Hh Hn An HR Hf ltac:(lia) HLc Hd) as (q2 & _ & R). rewrite Est in R.
  change (reloaded c cut b reload) with (reloaded c fb b reload) in R. change (start c cut p) with (start c fb p) in R.
  destruct (cols_firstn _ _ _ _ m N _ _ _ _ ltac:(lia) EC) as (sm & E2). rewrite E2 in R. destruct R as (_ & _ & po2 & _ & _ & R). rewrite R. rewrite firstn_map. eexists _, _, _, _. reflexivity.
Qed.

(*! C34: the fiber's betas and gamma used over step i are those of position z_i = i L/N when reload_fiber_each_step is set, and those of the fiber input for every step otherwise;
    gain and Raman response are those of the input in either case. *)
Lemma C34_fiber_position_l : forall (c : cfg) (fuel : nat) (fb : fiber) (N : nat) (op : option R) (reload : bool) (s : ssfm) (p : pulse) (a : list C) (b : R -> list R) (g : list R) (Rw : list C) (F : R)
  (z : list R) (AW AT : list (list C)) (po : pulse) (s' : ssfm) (q : pulse), setting c fb N op s p a b g Rw F ->
  (c_pre c = false \/ Nat.even (p_n p) = true) ->
  propagate c fuel fb N op reload s p = (Ok (Some (z, AW, AT, po, s')), q) ->
  exists st : nat -> ssfm, s_A (st 0%nat) = cfftshift c (IFFT_t a) /\
  forall i, (i < N)%nat ->
    let zi := if reload then nth i z 0 else 0 in
    let used := with_fiber (cfftshift c (map RtoC (b zi))) (fb_get_gamma fb zi) (st i) in
    s_alpha used = cfftshift c (map (fun x => RtoC (- x)) g) /\ s_R used = cfftshift c Rw /\
    integrate_over_dz c fuel (fb_len fb / INR N) 1 used = Some (st (S i)) /\
    nth i AT [] = cifftshift c (s_A (st (S i))).
Proof.
  intros c fuel fb N op reload s p a b g Rw F z AW AT po s' q Hs Hst H. destruct (propagate_inv _ _ _ _ _ _ _ _ _ _ _ _ _ _ _ _ _ _ _ Hs H) as (Lq & -> & -> & LA & _ & sf & EC & Wf & EP & _).
  destruct Hs as (Hh & Hn & Hf & An & HR & HN & HL & Hd). destruct (cols_chain _ _ _ _ _ _ _ _ _ EC) as (_ & st & S0 & SN & S3).
  assert (Hdz : 0 < step_of (fb_len fb) N) by (unfold step_of; apply Rdiv_lt_0_compat; [exact HL|apply lt_0_INR; lia]).
  assert (Wc : forall j, (j <= N)%nat -> wf (p_n p) (st j) /\ 0 < s_dz (st j)).
  { apply (wf_chain c p b fb reload (step_of (fb_len fb) N) fuel st N AT); try assumption; [apply An|rewrite S0; apply (start_wf c fb p op b g a Rw F s); assumption|rewrite S0; exact Hd]. }
  assert (Wl : forall j, (j < N)%nat -> wf (p_n p) (reloaded c fb b reload (step_of (fb_len fb) N) j (st j)) /\ 0 < s_dz (reloaded c fb b reload (step_of (fb_len fb) N) j (st j))).
  { intros j Hj. destruct (Wc j ltac:(lia)) as ((J1 & J2 & J3 & J4 & J5) & D). unfold reloaded. destruct reload; [|repeat split; assumption]. split; [|exact D]. repeat split; try assumption. cbn [with_fiber s_betas].
    rewrite cfftshift_length, map_length. apply An. }
  assert (PA : forall j, (j <= N)%nat -> s_alpha (st j) = cfftshift c (map (fun x => RtoC (- x)) g) /\ s_R (st j) = cfftshift c Rw /\
     (reload = false -> s_betas (st j) = cfftshift c (map RtoC (b 0)) /\ s_gamma (st j) = fb_get_gamma fb 0)).
  { induction j as [|j IH]; intros Hj; [rewrite S0; auto|]. destruct (IH ltac:(lia)) as (I1 & I2 & I3). destruct (S3 j ltac:(lia)) as (s2 & E1 & _ & E3). rewrite E3. cbn [with_A s_alpha s_R s_betas s_gamma].
    destruct (Wl j ltac:(lia)) as (W1 & D1). destruct (integrate_over_len c (p_n p) fuel _ _ s2 W1 Hdz D1 E1) as (_ & (Q1 & Q2 & Q3 & Q4 & Q5 & Q6) & _). rewrite Q1, Q2, Q3, Q6. unfold reloaded. destruct reload; cbn [with_fiber s_alpha s_R]; [|auto].
    split; [exact I1|]. split; [exact I2|]. discriminate. }
  exists st. split; [now rewrite S0|]. intros i Hi zi used. destruct (PA i ltac:(lia)) as (I1 & I2 & I3). split; [exact I1|]. split; [exact I2|].
  assert (EU : used = reloaded c fb b reload (step_of (fb_len fb) N) i (st i)).
  { unfold used, zi, reloaded. destruct reload; [now rewrite z_nth by lia|]. destruct (I3 eq_refl) as (I4 & I5). unfold with_fiber. rewrite <- I4, <- I5. now destruct (st i). }
  destruct (S3 i Hi) as (s2 & E1 & E2 & E3). rewrite EU. change (0 + i)%nat with i in E1. change (fb_len fb / INR N) with (step_of (fb_len fb) N). rewrite E1. rewrite E3. cbn [with_A s_A].
  destruct (Wl i Hi) as (W1 & D1). destruct (integrate_over_len c (p_n p) fuel _ _ s2 W1 Hdz D1 E1) as ((L2 & _) & _).
  rewrite (cifft_twice c (p_n p)) by assumption. split; [|exact E2]. f_equal. unfold with_A. now destruct s2.
Qed.

(** ** The internal shift is invisible from outside *)
Lemma cols_shift c fuel fb b reload dz n : Nat.even n = true -> (forall z, length (b z) = n) -> 0 < dz -> forall k i s1 s, shrel n s1 s -> 0 < s_dz s ->
  match cols (set_pre true c) fuel (reloaded (set_pre true c) fb b reload dz) dz i k s1, cols (set_pre false c) fuel (reloaded (set_pre false c) fb b reload dz) dz i k s with
  | Some (l, sf), Some (l', sf') => l = l' /\ shrel n sf sf'
  | None, None => True
  | _, _ => False
  end.
Proof.
  intros He Hb Hdz. induction k as [|k IH]; intros i s1 s Hr Hd; [cbn [cols]; auto|]. cbn [cols].
  assert (Hr1 : shrel n (reloaded (set_pre true c) fb b reload dz i s1) (reloaded (set_pre false c) fb b reload dz i s)).
  { unfold reloaded. destruct reload; [|exact Hr]. destruct Hr as ((P1 & P2 & P3 & P4 & P5 & P6) & A1 & A2 & A3 & (J1 & J2 & J3 & J4 & J5)).
    unfold shrel, pars, wf. cbn [with_fiber shifted s_betas s_alpha s_gamma s_w0 s_omegas s_R s_A s_iter s_dz cfftshift set_pre c_pre]. rewrite map_length, Hb. cbn [shifted s_alpha s_omegas s_R s_w0] in *. auto 20. }
  assert (Hd1 : 0 < s_dz (reloaded (set_pre false c) fb b reload dz i s)) by (unfold reloaded; destruct reload; exact Hd).
  pose proof (shift_sim c n fuel dz 1 _ _ Hr1 Hdz Hd1) as S. unfold integrate_over_dz.
  destruct (integrate_trace (set_pre true c) fuel dz 1 (reloaded (set_pre true c) fb b reload dz i s1)) as [r|], (integrate_trace (set_pre false c) fuel dz 1 (reloaded (set_pre false c) fb b reload dz i s)) as [r'|] eqn:E'; try contradiction; [|exact I].
  destruct S as (SA & _ & SD & SI & SP & SP' & SL). set (s0 := reloaded (set_pre false c) fb b reload dz i s) in *.
  assert (Hf : 0 < final_dz r') by exact (final_dz_pos (set_pre false c) fuel dz 1 s0 r' Hdz Hd1 E'). 
  cbn [with_dz s_A with_A cifftshift set_pre c_pre].
  assert (Hr2 : shrel n (with_A (ifftshift (ifftshift (s_A (l_st r)))) (with_dz (final_dz r) (l_st r))) (with_A (s_A (l_st r')) (with_dz (final_dz r') (l_st r')))).
  { destruct Hr1 as (_ & _ & _ & _ & (J1 & J2 & J3 & J4 & J5)). destruct SP as (P1 & P2 & P3 & P4 & P5 & P6). destruct SP' as (Q1 & Q2 & Q3 & Q4 & Q5 & Q6).
    unfold shrel, pars, wf. cbn [with_A with_dz shifted s_betas s_alpha s_gamma s_w0 s_omegas s_R s_A s_iter s_dz] in *. rewrite Q1, Q2, Q3, Q4, Q5, Q6, P1, P2, P3, P4, P5, P6, SA, ifftshift_fftshift.
    rewrite even_ifftshift by (rewrite SL; exact He). auto 20. }
  specialize (IH (i + 1)%nat _ _ Hr2 Hf).
  destruct (cols (set_pre true c) fuel _ dz (i + 1) k _) as [[l sf]|], (cols (set_pre false c) fuel _ dz (i + 1) k _) as [[l' sf']|]; try exact IH.
  destruct IH as (-> & IH). split; [|exact IH]. rewrite SA, ifftshift_fftshift. reflexivity.
Qed.

(*! C32: on even grids, propagating with the internal FFT shift on and with it off gives the same positions, the same columns and the same pulse_out, for every medium; neither finishes unless the other does. *)
Lemma C32_propagate_shift_invisible_l : forall (c : cfg) (fuel : nat) (fb : fiber) (N : nat) (op : option R) (reload : bool) (s : ssfm) (p : pulse) (a : list C) (b : R -> list R) (g : list R) (Rw : list C) (F : R),
  setting c fb N op s p a b g Rw F -> Nat.even (p_n p) = true ->
  match propagate (set_pre true c) fuel fb N op reload s p, propagate (set_pre false c) fuel fb N op reload s p with
  | (Ok (Some (z, AW, AT, po, _)), _), (Ok (Some (z', AW', AT', po', _)), _) => z = z' /\ AW = AW' /\ AT = AT' /\ get_AW po = (fst (get_AW po'), po) /\ get_AT po = (fst (get_AT po'), po)
  | (Ok None, _), (Ok None, _) => True
  | _, _ => False
  end.
Proof.
  intros c fuel fb N op reload s p a b g Rw F (Hh & Hn & Hf & An & HR & HN & HL & Hd) He.
  destruct (propagate_run (set_pre true c) fuel fb N op reload s p a b g Rw F Hh Hn An HR Hf HN HL Hd) as (q1 & _ & R1).
  destruct (propagate_run (set_pre false c) fuel fb N op reload s p a b g Rw F Hh Hn An HR Hf HN HL Hd) as (q2 & _ & R2).
  assert (Hdz : 0 < step_of (fb_len fb) N) by (unfold step_of; apply Rdiv_lt_0_compat; [exact HL|apply lt_0_INR; lia]).
  assert (Hb : forall z, length (b z) = p_n p) by apply An.
  pose proof (cols_shift c fuel fb b reload (step_of (fb_len fb) N) (p_n p) He Hb Hdz N 0%nat (start (set_pre true c) fb p (b 0) g a Rw F s) (start (set_pre false c) fb p (b 0) g a Rw F s)) as S.
  specialize (S ltac:(split; [repeat split|]; split; [reflexivity|]; split; [reflexivity|]; split; [reflexivity|]; apply (start_wf (set_pre false c) fb p op b g a Rw F s); assumption) Hd).
  destruct (cols (set_pre true c) fuel _ _ 0 N _) as [[l sf]|], (cols (set_pre false c) fuel _ _ 0 N _) as [[l' sf']|]; try contradiction.
  - destruct R1 as (_ & _ & po & _ & P1 & R1). destruct R2 as (_ & _ & po' & _ & P2 & R2). rewrite R1, R2. destruct S as (-> & _ & SA & _). split; [reflexivity|]. split; [reflexivity|]. split; [reflexivity|].
    rewrite SA in P1. cbn [cifftshift set_pre c_pre] in P1, P2. rewrite ifftshift_fftshift in P1.
    split; [rewrite (get_AW_run _ _ P1), (get_AW_run _ _ P2)|rewrite (get_AT_run _ _ P1), (get_AT_run _ _ P2)]; reflexivity.
  - rewrite R1, R2. exact I.
Qed.

(** The SSFM integrator: cached propagator, linear media, methods, direction (C26, C27, C28 in part, C35, C38). *)
From Coq Require Import Reals List ZArith Bool Arith Lia Lra.
From Coquelicot Require Import Complex.
From Verif Require Import Base CNum NumPy ModelFFT FFTProofs ModelPulse ModelSSFM SSFMLoopProofs.
Import ListNotations.
Local Open Scope R_scope.
Local Notation z0 := (RtoC 0).

(** ** Vectors *)
Lemma vec_ext (a b : list C) : length a = length b -> (forall i, (i < length a)%nat -> nth i a z0 = nth i b z0) -> a = b.
Proof. apply list_ext. Qed.
Lemma map2_nth0 (f : C -> C -> C) a b i : length a = length b -> f z0 z0 = z0 -> nth i (map2 f a b) z0 = f (nth i a z0) (nth i b z0).
Proof.
  intros L F. destruct (Nat.lt_ge_cases i (length a)) as [H|H].
  - apply map2_nth; congruence || auto.
  - rewrite !nth_overflow; [auto|lia|lia|rewrite map2_length; lia].
Qed.
Lemma vadd_length a b : length a = length b -> length (vadd a b) = length a. Proof. apply map2_length. Qed.
Lemma vsub_length a b : length a = length b -> length (vsub a b) = length a. Proof. apply map2_length. Qed.
Lemma vmul_length a b : length a = length b -> length (vmul a b) = length a. Proof. apply map2_length. Qed.
Lemma vscale_length k a : length (vscale k a) = length a. Proof. apply map_length. Qed.
Lemma vadd_nth a b i : length a = length b -> nth i (vadd a b) z0 = (nth i a z0 + nth i b z0)%C.
Proof. intros. apply map2_nth0; auto. apply Cplus_0_l. Qed.
Lemma vsub_nth a b i : length a = length b -> nth i (vsub a b) z0 = (nth i a z0 - nth i b z0)%C.
Proof. intros. apply map2_nth0; auto. unfold Cminus. rewrite Cplus_0_l. apply C_eq; simpl; ring. Qed.
Lemma vmul_nth a b i : length a = length b -> nth i (vmul a b) z0 = (nth i a z0 * nth i b z0)%C.
Proof. intros. apply map2_nth0; auto. apply Cmult_0_l. Qed.
Lemma vscale_nth k a i : nth i (vscale k a) z0 = (k * nth i a z0)%C.
Proof. unfold vscale. rewrite <- (map_nth (Cmult k)). f_equal. ring. Qed.

Lemma len_vadd n a b : length a = n -> length b = n -> length (vadd a b) = n. Proof. intros. rewrite vadd_length; congruence. Qed.
Lemma len_vsub n a b : length a = n -> length b = n -> length (vsub a b) = n. Proof. intros. rewrite vsub_length; congruence. Qed.
Lemma len_vmul n a b : length a = n -> length b = n -> length (vmul a b) = n. Proof. intros. rewrite vmul_length; congruence. Qed.
Lemma len_vscale n k a : length a = n -> length (vscale k a) = n. Proof. intros. now rewrite vscale_length. Qed.
Lemma vec_extn n (a b : list C) : length a = n -> length b = n -> (forall i, (i < n)%nat -> nth i a z0 = nth i b z0) -> a = b.
Proof. intros H1 H2 H. apply vec_ext; [congruence|]. intros i Hi. apply H. congruence. Qed.
Create HintDb vl.
#[global] Hint Resolve len_vadd len_vsub len_vmul len_vscale : vl.
Ltac vl := auto with vl; try congruence; try (symmetry; auto with vl; fail).

(** ** Transforms *)
Lemma fft_t_length c x : length (fft_t c x) = length x.
Proof. unfold fft_t. destruct (c_pre c); rewrite ?ifftshift_length, ifft_length, ?fftshift_length; reflexivity. Qed.
Lemma ifft_t_length c x : length (ifft_t c x) = length x.
Proof. unfold ifft_t. destruct (c_pre c); rewrite ?ifftshift_length, fft_length, ?fftshift_length; reflexivity. Qed.
Lemma fft_ifft_t c x : fft_t c (ifft_t c x) = x.
Proof. unfold fft_t, ifft_t. destruct (c_pre c); [apply ifft_fft|]. now rewrite fftshift_ifftshift, ifft_fft, ifftshift_fftshift. Qed.
Lemma ifft_fft_t c x : ifft_t c (fft_t c x) = x.
Proof. unfold fft_t, ifft_t. destruct (c_pre c); [apply fft_ifft|]. now rewrite fftshift_ifftshift, fft_ifft, ifftshift_fftshift. Qed.
Lemma len_fft_t c n x : length x = n -> length (fft_t c x) = n. Proof. intros. now rewrite fft_t_length. Qed.
Lemma len_ifft_t c n x : length x = n -> length (ifft_t c x) = n. Proof. intros. now rewrite ifft_t_length. Qed.
#[global] Hint Resolve len_fft_t len_ifft_t : vl.
Lemma fft_scale k x : fft (vscale k x) = vscale k (fft x).
Proof.
  apply vec_ext; rewrite fft_length, !vscale_length, ?fft_length; [reflexivity|]. intros i Hi.
  rewrite vscale_nth, !fft_nth by (rewrite ?vscale_length; exact Hi). rewrite vscale_length, <- csum_scal_l. apply csum_ext. intros j Hj.
  rewrite vscale_nth. ring.
Qed.
Lemma ifft_scale k x : ifft (vscale k x) = vscale k (ifft x).
Proof.
  apply vec_ext; rewrite ifft_length, !vscale_length, ?ifft_length; [reflexivity|]. intros i Hi.
  rewrite vscale_nth, !ifft_nth by (rewrite ?vscale_length; exact Hi). rewrite vscale_length. 
  rewrite Cmult_assoc, (Cmult_comm k), <- Cmult_assoc. f_equal. rewrite <- csum_scal_l. apply csum_ext. intros j Hj.
  rewrite vscale_nth. ring.
Qed.
Lemma fft_t_scale c k x : fft_t c (vscale k x) = vscale k (fft_t c x).
Proof.
  unfold fft_t. destruct (c_pre c); [apply ifft_scale|]. unfold fftshift, ifftshift, vscale. rewrite map_length, roll_map.
  fold (vscale k (roll (Z.of_nat (Nat.div2 (length x))) x)). rewrite ifft_scale. unfold vscale. now rewrite map_length, roll_map.
Qed.
Lemma ifft_t_scale c k x : ifft_t c (vscale k x) = vscale k (ifft_t c x).
Proof.
  unfold ifft_t. destruct (c_pre c); [apply fft_scale|]. unfold fftshift, ifftshift, vscale. rewrite map_length, roll_map.
  fold (vscale k (roll (Z.of_nat (Nat.div2 (length x))) x)). rewrite fft_scale. unfold vscale. now rewrite map_length, roll_map.
Qed.

(** multiplication by [d] in the frequency domain *)
Definition diag (c : cfg) (d x : list C) : list C := ifft_t c (vmul d (fft_t c x)).
Lemma len_diag c n d x : length d = n -> length x = n -> length (diag c d x) = n.
Proof. intros. unfold diag. vl. Qed.
#[global] Hint Resolve len_diag : vl.
Lemma diag_length c d x : length d = length x -> length (diag c d x) = length x.
Proof. intros H. vl. Qed.
Lemma diag_scale c d k x : length d = length x -> diag c d (vscale k x) = vscale k (diag c d x).
Proof.
  intros H. unfold diag. rewrite fft_t_scale, <- ifft_t_scale. f_equal.
  assert (L : length (fft_t c x) = length x) by vl.
  apply (vec_extn (length x)); vl. intros i Hi.
  rewrite vscale_nth, !vmul_nth, vscale_nth by (rewrite ?vscale_length; congruence). ring.
Qed.
Lemma diag_diag c d e x : length d = length x -> length e = length x -> diag c d (diag c e x) = diag c (vmul d e) x.
Proof.
  intros H1 H2. unfold diag. rewrite fft_ifft_t. f_equal.
  assert (L : length (fft_t c x) = length x) by vl.
  apply (vec_extn (length x)); vl. intros i Hi.
  rewrite !vmul_nth by (rewrite ?vmul_length; congruence). ring.
Qed.
Lemma fft_diag c d x : fft_t c (diag c d x) = vmul d (fft_t c x).
Proof. unfold diag. apply fft_ifft_t. Qed.

(** ** The cache *)
Definition nocache (s : ssfm) : ssfm := with_cache None 0 [] s.
Definition cok (s : ssfm) : Prop :=
  s_lasth s = None \/ s_lasth s = Some (-1) \/
  exists h, s_lasth s = Some h /\ s_expD s = calc_expD h (s_lastdir s) (s_betas s) (s_alpha s).

(** What a solver would do that recomputed the propagator before every use: the same code started with an
    invalid cache ([last_h = None]). *)
Definition advance_fresh (c : cfg) (s : ssfm) (A : list C) (h dir : R) : list C := fst (advance c A h dir (with_lasth None s)).
Definition attempt_fresh (c : cfg) (dir dz : R) (s : ssfm) : option R * ssfm * ssfm :=
  let Ac := advance_fresh c s (s_A s) (2 * dz) dir in
  let Af := advance_fresh c s (advance_fresh c s (s_A s) dz dir) dz dir in
  (Some (local_err Af Ac), s, with_iter (s_iter s + 1) (with_A (richardson c Af Ac) s)).

Lemma linear_step_ok c A h dir s : cok s -> 0 < h ->
  exists s1, linear_step c A h dir s = (diag c (calc_expD h dir (s_betas s) (s_alpha s)) A, s1) /\
    cok s1 /\ nocache s1 = nocache s /\ s_expD s1 = calc_expD h dir (s_betas s) (s_alpha s).
Proof.
  intros Hc Hh. unfold linear_step, cache_hit.
  set (s' := with_cache (Some h) dir (calc_expD h dir (s_betas s) (s_alpha s)) s).
  assert (Hs' : cok s' /\ nocache s' = nocache s /\ s_expD s' = calc_expD h dir (s_betas s) (s_alpha s))
    by (repeat split; right; right; exists h; split; reflexivity).
  destruct (s_lasth s) as [lh|] eqn:E.
  - destruct (Req_EM_T h lh) as [Eh|Eh].
    + destruct (Req_EM_T dir (s_lastdir s)) as [Ed|Ed].
      * destruct Hc as [Hc|[Hc|(x & Hx & He)]]; [congruence| |].
        -- exfalso. rewrite E in Hc. injection Hc as Hc. lra.
        -- rewrite E in Hx. injection Hx as <-. exists s. subst lh. rewrite <- Ed in He. unfold diag. rewrite He. repeat split; auto.
           right; right. exists h. rewrite <- Ed. auto.
      * exists s'. split; [reflexivity|exact Hs'].
    + exists s'. split; [reflexivity|exact Hs'].
  - exists s'. split; [reflexivity|exact Hs'].
Qed.

Lemma nocache_fields s t : nocache s = nocache t ->
  s_A s = s_A t /\ s_dz s = s_dz t /\ s_iter s = s_iter t /\ s_betas s = s_betas t /\ s_alpha s = s_alpha t /\ s_gamma s = s_gamma t /\
  s_w0 s = s_w0 t /\ s_omegas s = s_omegas t /\ s_R s = s_R t /\ s_fR s = s_fR t.
Proof. unfold nocache, with_cache. intros H. injection H; intros. auto 20. Qed.
Lemma nonlinear_nocache c s t A : nocache s = nocache t -> nonlinear c s A = nonlinear c t A.
Proof.
  intros H. apply nocache_fields in H. destruct H as (_ & _ & _ & _ & _ & H1 & H2 & H3 & H4 & _). unfold nonlinear. now rewrite H1, H2, H3, H4.
Qed.
Lemma kerr_nocache c s t A h d : nocache s = nocache t -> kerr c s A h d = kerr c t A h d.
Proof. intros H. unfold kerr. now rewrite (nonlinear_nocache c s t A H). Qed.

(** RK4IP as a function of the propagator *)
Definition rk_with (c : cfg) (s : ssfm) (E A : list C) (h dir : R) : list C :=
  let A_I := diag c E A in
  let nl x := vmul (vscale (RtoC (h * dir)) (nonlinear c s x)) x in
  let k1 := diag c E (nl A) in
  let k2 := nl (vadd A_I (vscale (/ RtoC 2)%C k1)) in
  let k3 := nl (vadd A_I (vscale (/ RtoC 2)%C k2)) in
  let k4 := nl (diag c E (vadd A_I k3)) in
  vadd (diag c E (vadd (vadd (vadd A_I (vscale (/ RtoC 6)%C k1)) (vscale (/ RtoC 3)%C k2)) (vscale (/ RtoC 3)%C k3))) (vscale (/ RtoC 6)%C k4).
Definition adv_with (c : cfg) (s : ssfm) (E A : list C) (h dir : R) : list C :=
  match c_method c with
  | METHOD_SSFM => if Req_EM_T dir 1 then kerr c s (diag c E A) h dir else diag c E (kerr c s A h dir)
  | METHOD_RK4IP => rk_with c s E A h dir
  end.

Lemma advance_ok c A h dir s : cok s -> 0 < h ->
  exists s1, advance c A h dir s = (adv_with c s (calc_expD h dir (s_betas s) (s_alpha s)) A h dir, s1) /\ cok s1 /\ nocache s1 = nocache s.
Proof.
  intros Hc Hh. unfold advance, adv_with. destruct (c_method c).
  - destruct (Req_EM_T dir 1).
    + destruct (linear_step_ok c A h dir s Hc Hh) as (s1 & E & H1 & H2 & H3). rewrite E. exists s1. now rewrite (kerr_nocache c s1 s _ _ _ H2).
    + destruct (linear_step_ok c (kerr c s A h dir) h dir s Hc Hh) as (s1 & E & H1 & H2 & H3). exists s1. auto.
  - unfold rk4ip. destruct (linear_step_ok c A h dir s Hc Hh) as (s1 & E & H1 & H2 & H3). rewrite E. exists s1. split; [|auto]. f_equal. rewrite H3.
    assert (N : forall x, nonlinear c s1 x = nonlinear c s x) by (intros; now apply nonlinear_nocache).
    cbv zeta. rewrite !N. unfold rk_with. cbv zeta. reflexivity.
Qed.
Lemma fresh_cok s : cok (with_lasth None s). Proof. left; reflexivity. Qed.
Lemma advance_fresh_eq c s A h dir : 0 < h -> advance_fresh c s A h dir = adv_with c s (calc_expD h dir (s_betas s) (s_alpha s)) A h dir.
Proof.
  intros Hh. unfold advance_fresh. destruct (advance_ok c A h dir (with_lasth None s) (fresh_cok s) Hh) as (s1 & -> & _ & _). cbn [fst].
  unfold adv_with. cbn [s_betas s_alpha with_lasth].
  assert (N : forall x, nonlinear c (with_lasth None s) x = nonlinear c s x) by reflexivity.
  destruct (c_method c); [destruct (Req_EM_T dir 1)|]; reflexivity.
Qed.

Definition same_run (s t : ssfm) : Prop := cok s /\ nocache s = nocache t.
Lemma adv_with_nocache c s t E A h dir : nocache s = nocache t -> adv_with c s E A h dir = adv_with c t E A h dir.
Proof.
  intros H. unfold adv_with. destruct (c_method c).
  - destruct (Req_EM_T dir 1); now rewrite (kerr_nocache c s t _ _ _ H).
  - assert (N : forall x, nonlinear c s x = nonlinear c t x) by (intros; now apply nonlinear_nocache).
    unfold rk_with. cbv zeta. now rewrite !N.
Qed.
Lemma attempt_same c dir dz s t : 0 < dz -> same_run s t -> att_rel same_run (attempt c dir dz s) (attempt_fresh c dir dz t).
Proof.
  intros Hdz (Hc & Hn). unfold attempt, attempt_fresh.
  destruct (nocache_fields _ _ Hn) as (EA & _ & EI & EB & EL & _).
  destruct (advance_ok c (s_A s) (2 * dz) dir s Hc ltac:(lra)) as (s1 & E1 & C1 & N1). rewrite E1.
  destruct (advance_ok c (s_A s) dz dir s1 C1 Hdz) as (s2 & E2 & C2 & N2). rewrite E2.
  match type of E2 with _ = (?a, _) => destruct (advance_ok c a dz dir s2 C2 Hdz) as (s3 & E3 & C3 & N3); rewrite E3 end.
  rewrite !advance_fresh_eq by lra.
  destruct (nocache_fields _ _ N1) as (_ & _ & _ & B1 & L1 & _). destruct (nocache_fields _ _ N2) as (_ & _ & _ & B2 & L2 & _).
  rewrite ?B2, ?L2, ?B1, ?L1, EA, EB, EL.
  rewrite (adv_with_nocache c s t) by exact Hn. rewrite (adv_with_nocache c s1 t) by congruence. rewrite (adv_with_nocache c s2 t) by congruence.
  assert (N3' : nocache s3 = nocache t) by congruence.
  split; [reflexivity|]. split; [split; [exact C3|exact N3']|]. cbn [snd]. split.
  - destruct C3 as [C3|[C3|C3]]; [left|right; left|right; right]; exact C3.
  - destruct (nocache_fields _ _ N3') as (_ & D2 & D3 & D4 & D5 & D6 & D7 & D8 & D9 & D10).
    unfold nocache, with_cache, with_iter, with_A. cbn. now rewrite D2, D3, D4, D5, D6, D7, D8, D9, D10.
Qed.

(*! C27: integrate_over_dz, started from any solver state (whatever the cache holds, whatever parameters were loaded since), takes the same steps and produces the same
    field, step size and iteration count as a solver that recomputes the propagator for every linear sub-step; recomputing gives exp(dir*h/2*(i*beta - alpha/2)) bin by bin. *)
Lemma C27_cache_never_stale_l : forall (c : cfg) (fuel : nat) (delta_z dir : R) (s : ssfm),
  0 < delta_z -> 0 < s_dz s ->
  match integrate_trace c fuel delta_z dir s, loop c (attempt_fresh c dir) fuel delta_z (first_dz delta_z (s_dz s)) None [] s with
  | Some r, Some r' => l_steps r = l_steps r' /\ l_dist r = l_dist r' /\ final_dz r = final_dz r' /\
                       s_A (l_st r) = s_A (l_st r') /\ s_iter (l_st r) = s_iter (l_st r')
  | None, None => True
  | _, _ => False
  end /\
  (forall (A : list C) (h d : R) (k : nat), (k < length (s_betas s))%nat -> length (s_alpha s) = length (s_betas s) ->
     nth k (s_expD (snd (linear_step c A h d (with_lasth None s)))) z0 =
     cexp (RtoC (d * h / 2) * (Ci * nth k (s_betas s) z0 - nth k (s_alpha s) z0 / RtoC 2))%C).
Proof.
  intros c fuel delta_z dir s Hd Hdz. split.
  - unfold integrate_trace. destruct (first_dz_pos delta_z (s_dz s) Hd Hdz) as [P1 _].
    assert (H : res_rel same_run (loop c (attempt c dir) fuel delta_z (first_dz delta_z (s_dz s)) None [] (with_lasth (Some (-1)) s))
                                 (loop c (attempt_fresh c dir) fuel delta_z (first_dz delta_z (s_dz s)) None [] s)).
    { apply loop_sim; [intros; now apply attempt_same|exact P1|]. split; [right; left; reflexivity|reflexivity]. }
    destruct (loop c (attempt c dir) fuel _ _ _ _ _), (loop c (attempt_fresh c dir) fuel _ _ _ _ _); simpl in H; auto.
    destruct H as (H1 & H2 & H3 & H4 & H5). destruct H5 as [_ H5]. destruct (nocache_fields _ _ H5) as (E1 & _ & E3 & _).
    unfold final_dz. rewrite H2, H3. auto.
  - intros A h d k Hk L. cbn. unfold calc_expD. rewrite (map2_nth _ _ _ _ z0 z0) by (congruence || auto).
    f_equal. f_equal. f_equal. field.
Qed.

(*! C27 (what the guard depends on): the cache key is (step length, direction) only.  Calling a sub-step directly, outside integrate_over_dz, after loading other fiber
    parameters reuses the old propagator. *)
Lemma C27_direct_substep_stale_l : forall (c : cfg) (A : list C) (h dir g : R) (b : list C) (s : ssfm),
  let s1 := snd (linear_step c A h dir s) in
  let s2 := with_fiber b g s1 in
  s_expD (snd (linear_step c A h dir s2)) = s_expD s1.
Proof.
  intros c A h dir g b s s1 s2.
  assert (H : cache_hit h dir s2 = true).
  { unfold s2, s1, linear_step, cache_hit. cbn [snd s_lasth s_lastdir with_fiber].
    destruct (s_lasth s) as [lh|] eqn:E1; [destruct (Req_EM_T h lh); [destruct (Req_EM_T dir (s_lastdir s))|]|]; cbn [with_cache s_lasth s_lastdir];
      rewrite ?E1; repeat match goal with |- context [Req_EM_T ?x ?y] => destruct (Req_EM_T x y) end; congruence. }
  unfold linear_step at 1. rewrite H. reflexivity.
Qed.

(** ** Linear media *)
Definition P (s : ssfm) (d : R) : list C := map2 (fun b a => cexp (RtoC d * (Ci * b - a / RtoC 2)))%C (s_betas s) (s_alpha s).
Definition wf (n : nat) (s : ssfm) : Prop :=
  length (s_A s) = n /\ length (s_betas s) = n /\ length (s_alpha s) = n /\ length (s_R s) = n /\ length (s_omegas s) = n.
Lemma P_length n s d : wf n s -> length (P s d) = n.
Proof. intros (_ & H1 & H2 & _). unfold P. rewrite map2_length; congruence. Qed.
#[global] Hint Resolve P_length : vl.
Lemma P_nth n s d k : wf n s -> (k < n)%nat -> nth k (P s d) z0 = cexp (RtoC d * (Ci * nth k (s_betas s) z0 - nth k (s_alpha s) z0 / RtoC 2))%C.
Proof. intros (_ & H1 & H2 & _) Hk. unfold P. now rewrite (map2_nth _ _ _ _ z0 z0) by congruence. Qed.
Lemma P_add n s d e : wf n s -> vmul (P s d) (P s e) = P s (d + e).
Proof.
  intros W. apply (vec_extn n); vl. intros i Hi. rewrite vmul_nth by (rewrite !(P_length n) by exact W; auto).
  rewrite !(P_nth n) by assumption. rewrite <- cexp_add. f_equal. rewrite RtoC_plus. ring.
Qed.
Lemma expD_P s h dir : calc_expD h dir (s_betas s) (s_alpha s) = P s (dir * h * (1 / 2)).
Proof. reflexivity. Qed.

Definition zeros (n : nat) : list C := repeat z0 n.
Lemma zeros_nth n i : nth i (zeros n) z0 = z0.
Proof. unfold zeros. apply nth_repeat. Qed.
Lemma zeros_length n : length (zeros n) = n. Proof. apply repeat_length. Qed.
#[global] Hint Resolve zeros_length : vl.
Lemma is_zeros a n : length a = n -> (forall i, (i < n)%nat -> nth i a z0 = z0) -> a = zeros n.
Proof. intros L H. apply vec_ext; [now rewrite zeros_length|]. intros i Hi. rewrite zeros_nth. apply H. lia. Qed.
Lemma vscale_zeros k n : vscale k (zeros n) = zeros n.
Proof. apply is_zeros; [now rewrite vscale_length, zeros_length|]. intros. rewrite vscale_nth, zeros_nth. ring. Qed.
Lemma vscale_0 a : vscale z0 a = zeros (length a).
Proof. apply is_zeros; [apply vscale_length|]. intros. rewrite vscale_nth. ring. Qed.
Lemma vadd_zeros a n : length a = n -> vadd a (zeros n) = a.
Proof.
  intros L. apply (vec_extn n); vl. intros i Hi. rewrite vadd_nth, zeros_nth by now rewrite zeros_length. apply Cplus_0_r.
Qed.
Lemma vmul_zeros_l a n : length a = n -> vmul (zeros n) a = zeros n.
Proof.
  intros L. apply is_zeros; [rewrite vmul_length; now rewrite zeros_length|]. intros i Hi. rewrite vmul_nth, zeros_nth by now rewrite zeros_length. ring.
Qed.
Lemma diag_zeros c d n : length d = n -> diag c d (zeros n) = zeros n.
Proof.
  intros L. replace (zeros n) with (vscale z0 (zeros n)) at 1 by apply vscale_zeros.
  rewrite diag_scale by now rewrite zeros_length. rewrite vscale_0, diag_length, zeros_length; [reflexivity|now rewrite zeros_length].
Qed.

Lemma len_deriv c n om x : length om = n -> length x = n -> length (deriv c om x) = n.
Proof. intros H1 H2. unfold deriv. apply len_ifft_t, len_vmul; [now rewrite map_length|exact H2]. Qed.
Lemma len_map2 n (f : C -> C -> C) a b : length a = n -> length b = n -> length (map2 f a b) = n.
Proof. intros. rewrite map2_length; congruence. Qed.
Lemma len_map {A B} n (f : A -> B) a : length a = n -> length (map f a) = n.
Proof. intros. now rewrite map_length. Qed.
#[global] Hint Resolve len_deriv len_map2 len_map : vl.
Lemma nonlinear_length c n s A : wf n s -> length A = n -> length (nonlinear c s A) = n.
Proof. intros (_ & _ & _ & HR & HO) LA. unfold nonlinear. cbv zeta. destruct (c_noSS c); auto 12 with vl. Qed.
#[global] Hint Resolve nonlinear_length : vl.
Lemma nonlinear_zero c n s A : wf n s -> length A = n -> s_gamma s = 0 -> nonlinear c s A = zeros n.
Proof.
  intros W LA Hg. pose proof W as (_ & _ & _ & HR & HO). unfold nonlinear. cbv zeta. rewrite Hg.
  replace (Ci * RtoC 0)%C with z0 by ring. replace (0 / s_w0 s) with 0 by (unfold Rdiv; ring). rewrite !vscale_0.
  assert (LR : length (ifft_t c (vmul (s_R s) (fft_t c (map (fun z => RtoC (Cnorm2 z)) A)))) = n) by auto 12 with vl.
  rewrite LR. destruct (c_noSS c); [reflexivity|].
  match goal with |- vsub _ (zeros ?k) = _ => replace k with n by (symmetry; auto 12 with vl) end.
  apply is_zeros; [vl|]. intros i _. rewrite vsub_nth, zeros_nth by reflexivity. ring.
Qed.

(** how far the linear operator acts per unit of step in each method *)
Definition reach (c : cfg) : R := match c_method c with METHOD_SSFM => 1 / 2 | METHOD_RK4IP => 1 end.
Lemma adv_linear c n s A h dir : wf n s -> s_gamma s = 0 -> length A = n -> 0 < h ->
  advance_fresh c s A h dir = diag c (P s (dir * h * reach c)) A.
Proof.
  intros W Hg LA Hh. rewrite advance_fresh_eq by exact Hh. rewrite expD_P. unfold adv_with, reach.
  assert (LP : forall d, length (P s d) = n) by (intros; now apply P_length).
  assert (LD : forall d x, length x = n -> length (diag c (P s d) x) = n) by (intros; rewrite diag_length; congruence).
  assert (K : forall x, length x = n -> kerr c s x h dir = x).
  { intros x Lx. unfold kerr. rewrite (nonlinear_zero c n) by assumption.
    assert (Lz : length (map (fun z => cexp (RtoC (h * dir) * z)%C) (zeros n)) = n) by now rewrite map_length, zeros_length.
    apply (vec_extn n); vl. intros i Hi.
    rewrite vmul_nth by (rewrite map_length, zeros_length; congruence). rewrite (nth_map' _ _ _ z0) by now rewrite zeros_length.
    rewrite zeros_nth. rewrite Cmult_0_r, cexp_0. ring. }
  destruct (c_method c).
  - destruct (Req_EM_T dir 1); rewrite !K by auto; reflexivity.
  - unfold rk_with. cbv zeta.
    set (E := P s (dir * h * (1 / 2))). set (AI := diag c E A). assert (LAI : length AI = n) by now apply LD.
    assert (NL : forall x, length x = n -> vmul (vscale (RtoC (h * dir)) (nonlinear c s x)) x = zeros n).
    { intros x Lx. rewrite (nonlinear_zero c n) by assumption. rewrite vscale_zeros. now apply vmul_zeros_l. }
    rewrite (NL A LA). unfold E. rewrite (diag_zeros c _ n) by apply LP. rewrite !vscale_zeros. rewrite !(vadd_zeros AI n) by exact LAI.
    rewrite (NL AI LAI). rewrite !vscale_zeros. rewrite !(vadd_zeros AI n) by exact LAI. rewrite (NL AI LAI). rewrite !vscale_zeros. rewrite !(vadd_zeros AI n) by exact LAI.
    rewrite (NL (diag c (P s (dir * h * (1 / 2))) AI)) by now apply LD. rewrite vscale_zeros, vadd_zeros by now apply LD.
    unfold AI, E. rewrite diag_diag by (rewrite LP; auto). rewrite (P_add n) by exact W. f_equal. f_equal. field.
Qed.

Lemma norm2_zero n : norm2 (zeros n) = 0.
Proof.
  unfold norm2. rewrite lrsum_nth, map_length, zeros_length. rewrite rsum_zero; [apply sqrt_0|]. intros i Hi.
  rewrite (nth_map' _ _ _ z0) by now rewrite zeros_length. rewrite zeros_nth. apply Cnorm2_0.
Qed.
Lemma vsub_self a : vsub a a = zeros (length a).
Proof. apply is_zeros; [now apply vsub_length|]. intros. rewrite vsub_nth by reflexivity. ring. Qed.
Lemma local_err_same a : local_err a a = 0.
Proof. unfold local_err. rewrite vsub_self, norm2_zero. destruct (Req_EM_T (norm2 a) 0); unfold Rdiv; ring. Qed.
Lemma weights (k1 k2 : R) a : k1 - k2 = 1 -> vsub (vscale (RtoC k1) a) (vscale (RtoC k2) a) = a.
Proof.
  intros H. apply (vec_extn (length a)); vl. intros i Hi. rewrite vsub_nth, !vscale_nth by now rewrite !vscale_length.
  replace (RtoC k1 * nth i a z0 - RtoC k2 * nth i a z0)%C with (RtoC (k1 - k2) * nth i a z0)%C by (rewrite RtoC_minus; ring). rewrite H. ring.
Qed.
Lemma richardson_same c a : (2 <= c_eta c)%nat -> richardson c a a = a.
Proof.
  intros He. unfold richardson. destruct (Nat.eqb (c_eta c) 3); [apply weights; lra|]. destruct (Nat.eqb (c_eta c) 5); [apply weights; lra|].
  cbv zeta. apply weights. set (p := Rpower 2 (INR (c_eta c) - 1)).
  assert (1 < p). { unfold p. apply Rle_lt_trans with (Rpower 2 0); [rewrite Rpower_O; lra|]. apply Rpower_lt; [lra|]. apply le_INR in He. simpl in He. lra. }
  field. lra.
Qed.

(** one attempt in a linear medium: no error, and the kept field is propagated by 2 dz *)
Lemma attempt_linear c n s dir dz : wf n s -> s_gamma s = 0 -> (2 <= c_eta c)%nat -> 0 < dz ->
  attempt_fresh c dir dz s = (Some 0, s, with_iter (s_iter s + 1) (with_A (diag c (P s (dir * (2 * dz) * reach c)) (s_A s)) s)).
Proof.
  intros W Hg He Hdz. unfold attempt_fresh. pose proof W as (LA & _).
  rewrite (adv_linear c n s (s_A s) (2 * dz)), (adv_linear c n s (s_A s) dz), (adv_linear c n s _ dz) by (try assumption; try lra; auto with vl).
  rewrite diag_diag by (rewrite (P_length n) by assumption; congruence). rewrite (P_add n) by assumption.
  replace (dir * dz * reach c + dir * dz * reach c) with (dir * (2 * dz) * reach c) by ring.
  now rewrite local_err_same, richardson_same.
Qed.

Definition lin_inv (c : cfg) (n : nat) (s : ssfm) (dir : R) (steps : list R) (t : ssfm) : Prop :=
  t = with_iter (length steps + s_iter s) (with_A (diag c (P s (dir * lrsum steps * reach c)) (s_A s)) s).
Lemma diag_P0 c n s A : wf n s -> length A = n -> diag c (P s 0) A = A.
Proof.
  intros W LA. unfold diag. replace (vmul (P s 0) (fft_t c A)) with (fft_t c A); [apply ifft_fft_t|].
  apply (vec_extn n); vl. intros i Hi.
  rewrite vmul_nth by (rewrite (P_length n), fft_t_length by exact W; auto). rewrite (P_nth n) by (try exact W; lia). rewrite Cmult_0_l, cexp_0. ring.
Qed.
Lemma loop_linear c n s dir fuel delta_z dz r : wf n s -> s_gamma s = 0 -> (2 <= c_eta c)%nat -> 0 < dz ->
  loop c (attempt_fresh c dir) fuel delta_z dz None [] s = Some r -> lin_inv c n s dir (l_steps r) (l_st r).
Proof.
  intros W Hg He Hdz HL.
  destruct (loop_inv c (attempt_fresh c dir) (fun _ _ _ steps t => lin_inv c n s dir steps t)) with (fuel := fuel) (dist := delta_z) (dz := dz) (ret := @None R) (steps := @nil R) (s := s) (r := r)
    as (H & _); try assumption.
  - clear - W Hg He. intros dist dz ret steps t delta s1 s2 keep dz1 Hd Hdz I Ha _.
    unfold lin_inv in I. assert (Wt : wf n t).
    { subst t. destruct W as (LA & LB & LC & LD & LE). repeat split; try assumption. cbn [with_iter with_A s_A]. rewrite diag_length; [exact LA|].
      rewrite (P_length n) by (repeat split; assumption). auto. }
    rewrite (attempt_linear c n) in Ha; [|exact Wt|subst t; exact Hg|exact He|exact Hdz]. injection Ha as _ <- <-.
    destruct keep; [|exact I]. unfold lin_inv. subst t. cbn [with_iter with_A s_A s_iter].
    change (P (with_iter _ (with_A _ s)) (dir * (2 * dz) * reach c)) with (P s (dir * (2 * dz) * reach c)).
    assert (LP : forall d, length (P s d) = length (s_A s)) by (intros; rewrite (P_length n) by exact W; destruct W; auto).
    rewrite diag_diag by apply LP. rewrite (P_add n) by exact W.
    unfold with_iter, with_A. cbn. fold (lrsum steps). f_equal; [f_equal; f_equal; ring|lia].
  - unfold lin_inv. cbn [length lrsum fold_right]. rewrite Rmult_0_r, Rmult_0_l, (diag_P0 c n) by (try exact W; apply W).
    destruct s; reflexivity.
Qed.

Lemma trace_fresh c fuel delta_z dir s r : 0 < delta_z -> 0 < s_dz s -> integrate_trace c fuel delta_z dir s = Some r ->
  exists r', loop c (attempt_fresh c dir) fuel delta_z (first_dz delta_z (s_dz s)) None [] s = Some r' /\
    l_steps r = l_steps r' /\ l_dist r = l_dist r' /\ l_dz r = l_dz r' /\ l_ret r = l_ret r' /\ same_run (l_st r) (l_st r').
Proof.
  intros Hd Hdz HL. unfold integrate_trace in HL. destruct (first_dz_pos delta_z (s_dz s) Hd Hdz) as [P1 _].
  assert (H : res_rel same_run (loop c (attempt c dir) fuel delta_z (first_dz delta_z (s_dz s)) None [] (with_lasth (Some (-1)) s))
                               (loop c (attempt_fresh c dir) fuel delta_z (first_dz delta_z (s_dz s)) None [] s)).
  { apply loop_sim; [intros; now apply attempt_same|exact P1|]. split; [right; left; reflexivity|reflexivity]. }
  rewrite HL in H. destruct (loop c (attempt_fresh c dir) fuel _ _ _ _ _) as [r'|]; simpl in H; [|contradiction].
  exists r'. intuition auto.
Qed.

Lemma trace_linear c n fuel delta_z dir s r : wf n s -> s_gamma s = 0 -> (2 <= c_eta c)%nat -> 0 < delta_z -> 0 < s_dz s ->
  integrate_trace c fuel delta_z dir s = Some r ->
  s_A (l_st r) = diag c (P s (dir * lrsum (l_steps r) * reach c)) (s_A s) /\ nocache (l_st r) = nocache (with_iter (length (l_steps r) + s_iter s) (with_A (s_A (l_st r)) s)).
Proof.
  intros W Hg He Hd Hdz HL. destruct (trace_fresh c fuel delta_z dir s r Hd Hdz HL) as (r' & HL' & E1 & E2 & E3 & E4 & [_ E5]).
  destruct (first_dz_pos delta_z (s_dz s) Hd Hdz) as [P1 _].
  pose proof (loop_linear c n s dir fuel delta_z _ r' W Hg He P1 HL') as I. unfold lin_inv in I. rewrite E1.
  assert (EA : s_A (l_st r) = s_A (l_st r')) by (apply nocache_fields in E5; tauto). rewrite EA.
  assert (EB : s_A (l_st r') = diag c (P s (dir * lrsum (l_steps r') * reach c)) (s_A s)) by (rewrite I; reflexivity).
  split; [exact EB|]. rewrite E5, EB. rewrite I at 1. reflexivity.
Qed.

(*! C26: in a medium with gamma = 0 (RK4IP), whatever steps were taken and rejected, the spectrum after integrate_over_dz is the initial one times exp(dir*d*(i*beta+gain/2)) bin by bin,
    where d is the distance covered (the sum of the kept steps: see C28, d >= delta_z with equality unless a residue below 2e-12 m was left); the power in bin k is multiplied by exp(dir*gain_k*d). *)
Lemma C26_linear_propagation_l : forall (c : cfg) (n fuel : nat) (delta_z dir : R) (s : ssfm) (b g : nat -> R) (r : lres ssfm),
  c_method c = METHOD_RK4IP -> (2 <= c_eta c)%nat -> (c_noSS c = true \/ s_w0 s <> 0) ->
  wf n s -> s_gamma s = 0 -> s_betas s = mk n (fun k => RtoC (b k)) -> s_alpha s = mk n (fun k => RtoC (- g k)) ->
  0 < delta_z -> 0 < s_dz s -> integrate_trace c fuel delta_z dir s = Some r ->
  let d := lrsum (l_steps r) in
  length (s_A (l_st r)) = n /\
  forall k, (k < n)%nat ->
    nth k (fft_t c (s_A (l_st r))) z0 = (cexp (dir * d * (g k / 2), dir * d * b k)%R * nth k (fft_t c (s_A s)) z0)%C /\
    Cnorm2 (nth k (fft_t c (s_A (l_st r))) z0) = exp (dir * g k * d) * Cnorm2 (nth k (fft_t c (s_A s)) z0).
Proof.
  intros c n fuel delta_z dir s b g r Hm He _ W Hg Hb Ha Hd Hdz HL d.
  destruct (trace_linear c n fuel delta_z dir s r W Hg He Hd Hdz HL) as [EA _]. fold d in EA.
  assert (Hr : reach c = 1) by (unfold reach; now rewrite Hm). rewrite Hr, Rmult_1_r in EA. pose proof W as (LA & _).
  split. { rewrite EA, diag_length; [exact LA|]. rewrite (P_length n) by exact W. auto. }
  intros k Hk.
  assert (V : nth k (fft_t c (s_A (l_st r))) z0 = (cexp (dir * d * (g k / 2), dir * d * b k)%R * nth k (fft_t c (s_A s)) z0)%C).
  { rewrite EA, fft_diag, vmul_nth by (rewrite (P_length n), fft_t_length by exact W; auto).
    rewrite (P_nth n) by assumption. f_equal. f_equal. rewrite Hb, Ha, !mk_nth by exact Hk. apply C_eq; simpl; field. }
  split; [exact V|]. rewrite V, Cnorm2_mult, cexp_norm2. f_equal. f_equal. simpl. field.
Qed.

Lemma ctl_zero c x : 0 < c_err c -> step_ctl c x (Some 0) = (true, x * dz_factor c).
Proof.
  intros Hc. unfold step_ctl. destruct (Rlt_dec (2 * c_err c) 0); [lra|]. destruct (Rle_dec (c_err c) 0); [lra|]. destruct (Rle_dec (1 / 2 * c_err c) 0); [lra|]. reflexivity.
Qed.
Lemma overshoot c n dir dz s : (2 <= c_eta c)%nat -> 0 < c_err c -> wf n s -> s_gamma s = 0 -> s_dz s = dz -> dz_min < dz ->
  exists r, integrate_trace c 2 (2 * dz + dz_min) dir s = Some r /\ l_steps r = [2 * (dz * dz_factor c); 2 * dz] /\ final_dz r = dz * dz_factor c * dz_factor c.
Proof.
  intros He Hc W Hg Hdz Hm. pose proof dz_min_pos as H0. pose proof (factor_gt1 c ltac:(lia)) as Hf.
  set (s1 := with_iter (s_iter s + 1) (with_A (diag c (P s (dir * (2 * dz) * reach c)) (s_A s)) s)).
  assert (W1 : wf n s1).
  { destruct W as (LA & LB & LC & LD & LE). repeat split; try assumption. cbn [s1 with_iter with_A s_A]. rewrite diag_length; [exact LA|].
    rewrite (P_length n) by (repeat split; assumption). auto. }
  set (dz1 := dz * dz_factor c). assert (Hz1 : dz < dz1) by (unfold dz1; rewrite <- (Rmult_1_r dz) at 1; apply Rmult_lt_compat_l; lra).
  assert (Hz2 : 0 < dz1 * dz_factor c) by (apply Rmult_lt_0_compat; lra).
  assert (L : exists r', loop c (attempt_fresh c dir) 2 (2 * dz + dz_min) (first_dz (2 * dz + dz_min) dz) None [] s = Some r' /\ l_steps r' = [2 * dz1; 2 * dz] /\ final_dz r' = dz1 * dz_factor c).
  { unfold first_dz. destruct (Rlt_dec (2 * dz + dz_min) (2 * dz)); [lra|].
    rewrite loop_turn by lra. rewrite (attempt_linear c n) by (try assumption; lra). rewrite ctl_zero by exact Hc. fold dz1. fold s1.
    replace (2 * dz + dz_min - 2 * dz) with dz_min by ring. unfold next_dz at 1, next_ret at 1. destruct (Rlt_dec dz_min (2 * dz1)); [|lra]. destruct (Rlt_dec (2 * dz_min) dz_min); [lra|].
    rewrite loop_turn by lra. rewrite (attempt_linear c n) by (try assumption; lra). rewrite ctl_zero by exact Hc. rewrite loop_done by lra. eexists. split; [reflexivity|].
    split; [reflexivity|]. unfold final_dz. cbn [l_ret l_dz]. unfold next_ret, next_dz. destruct (Rlt_dec (dz_min - 2 * dz1) (2 * (dz1 * dz_factor c))); [|reflexivity].
    destruct (Rlt_dec (2 * dz_min) (dz_min - 2 * dz1)); [lra|reflexivity]. }
  destruct L as (r' & L & St & Fd).
  assert (H : res_rel same_run (integrate_trace c 2 (2 * dz + dz_min) dir s) (Some r')).
  { rewrite <- L. unfold integrate_trace. rewrite Hdz. destruct (first_dz_pos (2 * dz + dz_min) dz) as [P1 _]; try lra.
    apply loop_sim; [intros; now apply attempt_same|exact P1|]. split; [right; left; reflexivity|reflexivity]. }
  destruct (integrate_trace c 2 (2 * dz + dz_min) dir s) as [r|]; simpl in H; [|contradiction]. exists r. split; [reflexivity|].
  destruct H as (_ & E1 & E2 & E & _). rewrite E, St. split; [reflexivity|]. unfold final_dz in *. now rewrite E1, E2.
Qed.
Lemma one_step c n dir d s : (2 <= c_eta c)%nat -> 0 < c_err c -> wf n s -> s_gamma s = 0 -> 0 < d -> d <= 2 * s_dz s ->
  exists r, integrate_trace c 1 d dir s = Some r /\ l_steps r = [d].
Proof.
  intros He Hc W Hg Hd Hdz. pose proof dz_min_pos as H0.
  assert (F : first_dz d (s_dz s) = d / 2) by (unfold first_dz; destruct (Rlt_dec d (2 * s_dz s)); lra).
  assert (L : exists r', loop c (attempt_fresh c dir) 1 d (first_dz d (s_dz s)) None [] s = Some r' /\ l_steps r' = [d]).
  { rewrite F. rewrite loop_turn by lra. rewrite (attempt_linear c n) by (try assumption; lra). rewrite ctl_zero by exact Hc. rewrite loop_done by lra.
    eexists. split; [reflexivity|]. cbn [l_steps]. f_equal. field. }
  destruct L as (r' & L & St).
  assert (H : res_rel same_run (integrate_trace c 1 d dir s) (Some r')).
  { rewrite <- L. unfold integrate_trace. destruct (first_dz_pos d (s_dz s)) as [P1 _]; try lra.
    apply loop_sim; [intros; now apply attempt_same|exact P1|]. split; [right; left; reflexivity|reflexivity]. }
  destruct (integrate_trace c 1 d dir s) as [r|]; simpl in H; [|contradiction]. exists r. split; [reflexivity|]. destruct H as (_ & _ & _ & E & _). now rewrite E, St.
Qed.

(*! C28 refuted (exact coverage): linear medium, positive tolerance, step dz > dz_min, distance 2*dz + dz_min.  After one step a residue of dz_min is left, which is not
    enough to shorten the last step; the solver covers 2*dz + 2*dz*2^(1/eta), more than twice the requested distance minus dz_min. *)
Lemma C28_overshoot_refuted_l : forall (c : cfg) (n : nat) (dir dz : R) (s : ssfm),
  (2 <= c_eta c)%nat -> 0 < c_err c -> (c_noSS c = true \/ s_w0 s <> 0) -> wf n s -> s_gamma s = 0 -> s_dz s = dz -> / 10 ^ 12 < dz ->
  exists r, integrate_trace c 2 (2 * dz + / 10 ^ 12) dir s = Some r /\
    lrsum (l_steps r) = 2 * dz + 2 * (dz * Rpower 2 (1 / INR (c_eta c))) /\ 2 * (2 * dz + / 10 ^ 12) - 2 * / 10 ^ 12 < lrsum (l_steps r).
Proof.
  intros c n dir dz s He Hc _ W Hg Hdz Hm. fold dz_min in *. pose proof dz_min_pos as H0. pose proof (factor_gt1 c ltac:(lia)) as Hf. fold (dz_factor c).
  destruct (overshoot c n dir dz s He Hc W Hg Hdz Hm) as (r & L & St & _). exists r. split; [exact L|]. rewrite St. cbn [lrsum fold_right].
  assert (dz < dz * dz_factor c) by (rewrite <- (Rmult_1_r dz) at 1; apply Rmult_lt_compat_l; lra). split; lra.
Qed.

(*! C35 (RK4IP): with gamma = 0 one Advance of length h multiplies the spectrum by exp(dir*h*(i*beta - alpha/2)). Missing: METHOD_SSFM, refuted below. *)
Lemma C35_rk4ip_linear_partial_l : forall (c : cfg) (n : nat) (s : ssfm) (A : list C) (h dir : R) (k : nat),
  c_method c = METHOD_RK4IP -> (c_noSS c = true \/ s_w0 s <> 0) -> wf n s -> s_gamma s = 0 -> length A = n -> 0 < h -> (k < n)%nat ->
  nth k (fft_t c (fst (advance c A h dir (with_lasth None s)))) z0 =
  (cexp (RtoC (dir * h) * (Ci * nth k (s_betas s) z0 - nth k (s_alpha s) z0 / RtoC 2)) * nth k (fft_t c A) z0)%C.
Proof.
  intros c n s A h dir k Hm _ W Hg LA Hh Hk. change (fst (advance c A h dir (with_lasth None s))) with (advance_fresh c s A h dir).
  rewrite (adv_linear c n) by assumption. unfold reach. rewrite Hm, fft_diag, vmul_nth by (rewrite (P_length n), fft_t_length by exact W; auto).
  rewrite (P_nth n) by assumption. now rewrite Rmult_1_r.
Qed.

(*! C35 refuted (METHOD_SSFM): with gamma = 0 one Advance of length h applies only half of the linear propagator. *)
Lemma C35_ssfm_half_step_refuted_l : forall (c : cfg) (n : nat) (s : ssfm) (A : list C) (h dir : R) (k : nat),
  c_method c = METHOD_SSFM -> (c_noSS c = true \/ s_w0 s <> 0) -> wf n s -> s_gamma s = 0 -> length A = n -> 0 < h -> (k < n)%nat ->
  nth k (fft_t c (fst (advance c A h dir (with_lasth None s)))) z0 =
  (cexp (RtoC (dir * (h / 2)) * (Ci * nth k (s_betas s) z0 - nth k (s_alpha s) z0 / RtoC 2)) * nth k (fft_t c A) z0)%C.
Proof.
  intros c n s A h dir k Hm _ W Hg LA Hh Hk. change (fst (advance c A h dir (with_lasth None s))) with (advance_fresh c s A h dir).
  rewrite (adv_linear c n) by assumption. unfold reach. rewrite Hm, fft_diag, vmul_nth by (rewrite (P_length n), fft_t_length by exact W; auto).
  rewrite (P_nth n) by assumption. f_equal. f_equal. f_equal. f_equal. field.
Qed.

Lemma final_dz_pos c fuel d dir s r : 0 < d -> 0 < s_dz s -> integrate_trace c fuel d dir s = Some r -> 0 < final_dz r.
Proof.
  intros Hd1 Hdz H1. unfold integrate_trace in H1. destruct (first_dz_pos d (s_dz s) Hd1 Hdz) as [P1 _].
  destruct (loop_inv c (attempt c dir) (fun _ _ ret _ _ => match ret with Some x => 0 < x | None => True end)) with (fuel := fuel) (dist := d) (dz := first_dz d (s_dz s)) (ret := @None R)
      (steps := @nil R) (s := with_lasth (Some (-1)) s) (r := r) as (Q1 & _ & Q2); try assumption; [|exact I|].
  - clear. intros dist dz ret steps s delta s1 s2 keep dz1 Hd Hdz I _ E. destruct (ctl_spec _ _ _ _ _ E Hdz) as (_ & _ & Hp). destruct keep; [|exact I].
    unfold next_ret. destruct (Rlt_dec (dist - 2 * dz) (2 * dz1)); [destruct (Rlt_dec (2 * dz_min) (dist - 2 * dz))|]; assumption.
  - unfold final_dz. destruct (l_ret r); assumption.
Qed.
Lemma after_linear c n fuel d dir s r : wf n s -> s_gamma s = 0 -> (2 <= c_eta c)%nat -> 0 < d -> 0 < s_dz s -> integrate_trace c fuel d dir s = Some r ->
  let t := with_dz (final_dz r) (l_st r) in
  wf n t /\ s_gamma t = 0 /\ 0 < s_dz t /\ (forall x, P t x = P s x) /\ s_A t = diag c (P s (dir * lrsum (l_steps r) * reach c)) (s_A s).
Proof.
  intros W Hg He Hd Hdz H1 t. destruct (trace_linear c n fuel d dir s r W Hg He Hd Hdz H1) as [E1 N1]. pose proof W as (LA & LB & LC & LD & LE).
  destruct (nocache_fields _ _ N1) as (_ & _ & _ & B1 & L1 & G1 & W1 & O1 & R1 & _). cbn [with_iter with_A s_betas s_alpha s_gamma s_w0 s_omegas s_R] in *.
  split; [|split; [|split; [|split]]].
  - unfold t. repeat split; cbn [with_dz s_A s_betas s_alpha s_R s_omegas]; rewrite ?B1, ?L1, ?O1, ?R1; try assumption.
    rewrite E1, diag_length; [exact LA|]. rewrite (P_length n) by exact W. auto.
  - unfold t. cbn [with_dz s_gamma]. congruence.
  - unfold t. cbn [with_dz s_dz]. exact (final_dz_pos c fuel d dir s r Hd Hdz H1).
  - intros; unfold P, t; cbn [with_dz s_betas s_alpha]; now rewrite B1, L1.
  - exact E1.
Qed.
Lemma round_trip c n f1 f2 d1 d2 s s1 r1 r2 :
  (2 <= c_eta c)%nat -> wf n s -> s_gamma s = 0 -> 0 < d1 -> 0 < d2 -> 0 < s_dz s ->
  integrate_trace c f1 d1 1 s = Some r1 -> integrate_over_dz c f1 d1 1 s = Some s1 -> integrate_trace c f2 d2 (-1) s1 = Some r2 ->
  s_A (l_st r2) = diag c (P s ((lrsum (l_steps r1) - lrsum (l_steps r2)) * reach c)) (s_A s).
Proof.
  intros He W Hg Hd1 Hd2 Hdz H1 H2 H3. destruct (after_linear c n f1 d1 1 s r1 W Hg He Hd1 Hdz H1) as (Wt & Gt & Dt & EP & EA).
  unfold integrate_over_dz in H2. rewrite H1 in H2. injection H2 as <-.
  destruct (trace_linear c n f2 d2 (-1) _ r2 Wt Gt He Hd2 Dt H3) as [E2 _]. rewrite E2, EP, EA. pose proof W as (LA & _).
  assert (LP : forall d, length (P s d) = length (s_A s)) by (intros; rewrite (P_length n) by exact W; auto).
  rewrite diag_diag by apply LP. rewrite (P_add n) by exact W. f_equal. f_equal. ring.
Qed.

(*! C38 (partial): in a linear medium a forward run and a backward run that cover the same distance restore the field exactly, whatever the two step sequences were.
    Missing: covering the same distance, which can fail (refuted below). *)
Lemma C38_round_trip_partial_l : forall (c : cfg) (n f1 f2 : nat) (d1 d2 : R) (s s1 : ssfm) (r1 r2 : lres ssfm),
  (2 <= c_eta c)%nat -> (c_noSS c = true \/ s_w0 s <> 0) -> wf n s -> s_gamma s = 0 -> 0 < d1 -> 0 < d2 -> 0 < s_dz s ->
  integrate_trace c f1 d1 1 s = Some r1 -> integrate_over_dz c f1 d1 1 s = Some s1 -> integrate_trace c f2 d2 (-1) s1 = Some r2 ->
  lrsum (l_steps r1) = lrsum (l_steps r2) -> s_A (l_st r2) = s_A s.
Proof.
  intros c n f1 f2 d1 d2 s s1 r1 r2 He _ W Hg Hd1 Hd2 Hdz H1 H2 H3 Hs.
  rewrite (round_trip c n f1 f2 d1 d2 s s1 r1 r2) by assumption. rewrite Hs. replace ((lrsum (l_steps r2) - lrsum (l_steps r2)) * reach c) with 0 by ring.
  apply (diag_P0 c n); [exact W|apply W].
Qed.

(*! C38 (partial, no condition on the steps): with positive tolerance and a distance of at most twice the current step the round trip is exact. *)
Lemma C38_short_round_trip_partial_l : forall (c : cfg) (n : nat) (d : R) (s : ssfm),
  (2 <= c_eta c)%nat -> 0 < c_err c -> (c_noSS c = true \/ s_w0 s <> 0) -> wf n s -> s_gamma s = 0 -> 0 < d -> d <= 2 * s_dz s ->
  exists fuel s1 s2, integrate_over_dz c fuel d 1 s = Some s1 /\ integrate_over_dz c fuel d (-1) s1 = Some s2 /\ s_A s2 = s_A s.
Proof.
  intros c n d s He Hc Hw W Hg Hd Hdz. pose proof (factor_gt1 c ltac:(lia)) as Hf. pose proof dz_min_pos as Hm.
  assert (T : exists r1, integrate_trace c 1 d 1 s = Some r1 /\ l_steps r1 = [d] /\ d <= 2 * final_dz r1).
  { assert (F : first_dz d (s_dz s) = d / 2) by (unfold first_dz; destruct (Rlt_dec d (2 * s_dz s)); lra).
    destruct (one_step c n 1 d s He Hc W Hg Hd Hdz) as (r1 & H1 & S1). exists r1. split; [exact H1|]. split; [exact S1|].
    destruct (trace_fresh c 1 d 1 s r1 Hd ltac:(lra) H1) as (r' & HL' & _ & _ & E3 & E4 & _).
    rewrite F in HL'. rewrite loop_turn in HL' by lra. rewrite (attempt_linear c n) in HL' by (try assumption; lra). rewrite ctl_zero in HL' by exact Hc. rewrite loop_done in HL' by lra.
    injection HL' as HL'. unfold final_dz. rewrite E3, E4, <- HL'. cbn [l_ret l_dz]. unfold next_ret, next_dz.
    assert (d <= 2 * (d / 2 * dz_factor c)) by (replace (2 * (d / 2 * dz_factor c)) with (d * dz_factor c) by field; rewrite <- (Rmult_1_r d) at 1; apply Rmult_le_compat_l; lra).
    destruct (Rlt_dec (d - 2 * (d / 2)) (2 * (d / 2 * dz_factor c))); [destruct (Rlt_dec (2 * dz_min) (d - 2 * (d / 2)))|]; lra. }
  destruct T as (r1 & H1 & S1 & D1).
  destruct (after_linear c n 1 d 1 s r1 W Hg He Hd ltac:(lra) H1) as (Wt & Gt & Dt & EP & EA).
  destruct (one_step c n (-1) d (with_dz (final_dz r1) (l_st r1)) He Hc Wt Gt Hd D1) as (r2 & H2 & S2).
  exists 1%nat, (with_dz (final_dz r1) (l_st r1)), (with_dz (final_dz r2) (l_st r2)). unfold integrate_over_dz. rewrite H1, H2. repeat split.
  change (s_A (with_dz (final_dz r2) (l_st r2))) with (s_A (l_st r2)).
  apply (C38_round_trip_partial_l c n 1 1 d d s (with_dz (final_dz r1) (l_st r1)) r1 r2); try assumption; try lra.
  - unfold integrate_over_dz. now rewrite H1.
  - now rewrite S1, S2.
Qed.

(*! C38 refuted: linear medium with gain, forward then backward over 2*dz + dz_min.  The forward run overshoots, the backward run does not: every bin with gain and
    nonzero amplitude ends with strictly more power than it started with. *)
Lemma C38_round_trip_refuted_l : forall (c : cfg) (n : nat) (dz : R) (s : ssfm) (g : nat -> R),
  c_method c = METHOD_RK4IP -> (2 <= c_eta c)%nat -> 0 < c_err c -> (c_noSS c = true \/ s_w0 s <> 0) -> wf n s -> s_gamma s = 0 ->
  (forall k, (k < n)%nat -> Im (nth k (s_betas s) z0) = 0) -> (forall k, (k < n)%nat -> nth k (s_alpha s) z0 = RtoC (- g k)) -> s_dz s = dz -> INR (c_eta c) * / 10 ^ 12 < 2 * dz ->
  exists s1 s2, integrate_over_dz c 2 (2 * dz + / 10 ^ 12) 1 s = Some s1 /\ integrate_over_dz c 2 (2 * dz + / 10 ^ 12) (-1) s1 = Some s2 /\
    forall k, (k < n)%nat -> 0 < g k -> nth k (fft_t c (s_A s)) z0 <> z0 ->
    Cnorm2 (nth k (fft_t c (s_A s)) z0) < Cnorm2 (nth k (fft_t c (s_A s2)) z0).
Proof.
  intros c n dz s g Hm He Hc _ W Hg Hb Ha Hdz Hz'. fold dz_min in *. pose proof dz_min_pos as H0. pose proof (factor_gt1 c ltac:(lia)) as Hf.
  assert (HE : 2 <= INR (c_eta c)) by (apply le_INR in He; exact He).
  assert (Hz : dz_min < dz) by (assert (2 * dz_min <= INR (c_eta c) * dz_min) by (apply Rmult_le_compat_r; lra); lra).
  assert (Hz1 : dz < dz * dz_factor c) by (rewrite <- (Rmult_1_r dz) at 1; apply Rmult_lt_compat_l; lra).
  assert (Hsq : 1 + / INR (c_eta c) <= dz_factor c * dz_factor c).
  { unfold dz_factor. rewrite <- Rpower_plus. unfold Rpower. assert (0 < / INR (c_eta c)) by (apply Rinv_0_lt_compat; lra).
    apply Rle_trans with (exp (/ INR (c_eta c))); [left; apply exp_ineq1; lra|]. pose proof ln_lt_2 as L2.
    assert (E : / INR (c_eta c) <= (1 / INR (c_eta c) + 1 / INR (c_eta c)) * ln 2).
    { replace ((1 / INR (c_eta c) + 1 / INR (c_eta c)) * ln 2) with (/ INR (c_eta c) * (2 * ln 2)) by (field; lra).
      rewrite <- (Rmult_1_r (/ INR (c_eta c))) at 1. apply Rmult_le_compat_l; lra. }
    destruct E as [E|E]; [left; now apply exp_increasing|right; now rewrite E]. }
  assert (Hz2 : 2 * dz + dz_min <= 2 * (dz * dz_factor c * dz_factor c)).
  { assert (dz * (1 + / INR (c_eta c)) <= dz * dz_factor c * dz_factor c) by (rewrite Rmult_assoc; apply Rmult_le_compat_l; lra).
    assert (dz_min <= 2 * dz * / INR (c_eta c)); [|lra]. apply (Rmult_le_reg_r (INR (c_eta c))); [lra|]. rewrite Rmult_assoc, Rinv_l by lra. lra. }
  destruct (overshoot c n 1 dz s He Hc W Hg Hdz Hz) as (r1 & H1 & S1 & F1).
  destruct (after_linear c n 2 (2 * dz + dz_min) 1 s r1 W Hg He ltac:(lra) ltac:(lra) H1) as (Wt & Gt & Dt & EP & EA).
  set (t := with_dz (final_dz r1) (l_st r1)) in *.
  destruct (one_step c n (-1) (2 * dz + dz_min) t He Hc Wt Gt ltac:(lra)) as (r2 & H2 & S2); [unfold t; cbn [with_dz s_dz]; lra|].
  assert (H2' : integrate_trace c 2 (2 * dz + dz_min) (-1) t = Some r2).
  { clear - H2. unfold integrate_trace in *. revert H2. generalize (first_dz (2 * dz + dz_min) (s_dz t)) as d, (@None R), (@nil R), (with_lasth (Some (-1)) t), (2 * dz + dz_min). clear.
    intros d o l s q H.
    assert (G : forall f dist dz ret st s r, loop c (attempt c (-1)) f dist dz ret st s = Some r -> loop c (attempt c (-1)) (S f) dist dz ret st s = Some r).
    { clear. induction f as [|f IH]; intros dist dz ret st s r H.
      - destruct (Rlt_dec 0 dist) as [D|D]; [simpl in H; destruct (Rlt_dec 0 dist); [discriminate|lra]|]. rewrite loop_done in * by lra. exact H.
      - destruct (Rlt_dec 0 dist) as [D|D]; [|rewrite loop_done in * by lra; exact H]. rewrite loop_turn in * by exact D.
        destruct (attempt c (-1) dz s) as [[de x] y]. destruct (step_ctl c dz de) as [[] dz1]; now apply IH. }
    now apply G. }
  exists t, (with_dz (final_dz r2) (l_st r2)). unfold integrate_over_dz. rewrite H1, H2'. split; [reflexivity|]. split; [reflexivity|].
  intros k Hk Gk Nk. change (s_A (with_dz (final_dz r2) (l_st r2))) with (s_A (l_st r2)).
  rewrite (round_trip c n 2 2 (2 * dz + dz_min) (2 * dz + dz_min) s t r1 r2) by (try assumption; try lra; unfold integrate_over_dz; now rewrite H1).
  rewrite fft_diag, vmul_nth by (rewrite (P_length n), fft_t_length by exact W; symmetry; apply W). rewrite (P_nth n) by assumption.
  rewrite S1, S2, (Ha k Hk). unfold reach. rewrite Hm. rewrite Cnorm2_mult, cexp_norm2.
  rewrite <- (Rmult_1_l (Cnorm2 (nth k (fft_t c (s_A s)) z0))) at 1. apply Rmult_lt_compat_r.
  { destruct (Rle_lt_or_eq_dec 0 _ (Cnorm2_nonneg (nth k (fft_t c (s_A s)) z0))) as [H|H]; [exact H|]. exfalso. apply Nk. apply Cnorm2_eq_0. auto. }
  assert (X : forall x, 0 < x -> 1 < exp x) by (intros x Hx; apply exp_increasing in Hx; rewrite exp_0 in Hx; exact Hx). apply X. clear X.
  unfold lrsum. cbn [fold_right].
  match goal with |- 0 < 2 * Re ?x => replace (Re x) with ((2 * (dz * dz_factor c) - dz_min) * (g k / 2) ) end.
  { apply Rmult_lt_0_compat; [lra|]. apply Rmult_lt_0_compat; lra. }
  pose proof (Hb k Hk) as Hbk. destruct (nth k (s_betas s) z0) as [b1 b2]. simpl in Hbk. subst b2. unfold Re. simpl. field.
Qed.

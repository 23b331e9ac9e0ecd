(** The nonlinear coefficient a difference-frequency problem sees in a PPLN crystal as loaded (C52). *)
From Coq Require Import String.
From Coq Require Import Reals List ZArith Bool Arith Lia Lra.
From Coquelicot Require Import Complex.
From Verif Require Import Base CNum NumPy ModelPulse ModelDerived ModelCrystal ModelCrystalMore ModelBeam ModelODE ModelDFG DFGInitProofs DFGPolingProofs.
Import ListNotations.
Local Open Scope R_scope.
Local Open Scope py_scope.

Lemma start_const P k : period_start (fun _ => P) 0 k = INR k * P.
Proof. induction k as [|k IH]; [cbn; ring|]. cbn [period_start]. rewrite IH, S_INR. ring. Qed.

(*! C52: a PPLN crystal as it is loaded, alone or with a constant period a > 0 given to set_pp as (a,): in every accepted problem the nonlinear coefficient is +14.9 pm/V on the first half of each period of length P (30.49 um, or a) that begins inside the crystal and -14.9 pm/V on its second half. *)
Lemma C52_ppln_loaded_l : forall strf fuel rand pump sgnl (xt : crystal) (period : option R) noSPM waist gouy wg Aeff k0 q fc k1 len,
  x_len xt = Some len -> (forall a, period = Some a -> 0 < a) ->
  dfg_init strf fuel rand pump sgnl (match period with None => ppln_load xt | Some a => set_pp (PTuple a) (ppln_load xt) end) noSPM waist gouy wg Aeff k0 = (Ok (q, fc), k1) ->
  let P := match period with None => 3049 / 10 ^ 8 | Some a => a end in
  forall k z, INR k * P < len -> INR k * P <= z < (INR k + 1) * P -> deff_at q z = Ok (if Rlt_dec (INR k * P + P / 2) z then - (149 / 10 ^ 13) else 149 / 10 ^ 13).
Proof.
  intros strf fuel rand pump sgnl xt period noSPM waist gouy wg Aeff k0 q fc k1 len L Hp H P k z Hk Hz.
  apply init_inv in H as (_ & _ & Qx & _ & _ & _ & _ & _ & _ & _ & _ & _ & _ & Qd).
  assert (PP : 0 < P) by (unfold P; destruct period as [a|]; [now apply Hp|lra]).
  set (x := match period with None => ppln_load xt | Some a => set_pp (PTuple a) (ppln_load xt) end) in *.
  assert (X : dx_mode x = "PP"%string /\ dx_deff x = 149 / 10 ^ 13 /\ dx_x x = xt /\ forall u, dx_pp x u = P).
  { unfold x, P. destruct period as [a|]; cbn [set_pp ppln_load dx_mode dx_deff dx_x dx_pp]; (split; [reflexivity|]); (split; [lra|]); (split; [reflexivity|]); intros; lra. }
  destruct X as (X1 & X2 & X3 & X4). assert (M : is_mode x "PP" = true) by (unfold is_mode; rewrite X1; reflexivity). rewrite M in Qd. unfold deff_at. rewrite Qx, M, X2. f_equal.
  assert (ST : forall j, period_start (dx_pp x) 0 j = INR j * P) by (induction j as [|j IH]; [cbn; ring|cbn [period_start]; rewrite X4, IH, S_INR; ring]).
  destruct (C52_pattern_l x len fuel (q_doms q) ltac:(rewrite X3; exact L) Qd ltac:(intros; rewrite X4; exact PP)) as (Q & _). cbv zeta in Q.
  rewrite (Q k z).
  - rewrite X4, ST. destruct (Rlt_dec _ _); lra.
  - intros j Hj. rewrite ST. apply Rle_lt_trans with (INR k * P); [|exact Hk]. apply Rmult_le_compat_r; [lra|]. now apply le_INR.
  - rewrite !ST, S_INR. exact Hz.
Qed.

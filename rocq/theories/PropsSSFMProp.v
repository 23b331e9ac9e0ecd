(** Property theorems proved in SSFMPropProofs.v (generated by tools/gen_props.py). *)
From Coq Require Import Reals List ZArith Bool Arith Lia Lra.
From Coquelicot Require Import Complex.
From Verif Require Import Base CNum NumPy ModelFFT FFTProofs ModelPulse PulseProofs PulseOpsProofs PulseRegridProofs ModelSSFM SSFMLoopProofs SSFMProofs SSFMSymProofs SSFMPropProofs.
Import ListNotations.
Local Open Scope R_scope.
Local Open Scope py_scope.
Local Notation z0 := (RtoC 0).

(** C33: propagate returns n_steps+1 equally spaced positions from 0 to the fiber length, n_steps columns of each kind of full grid length, every AW column being the transform of the matching AT column; pulse_out lives on the grid of pulse_in; pulse_in itself is unchanged (up to lazily filled grid caches). *)
Theorem C33_propagate_bookkeeping : forall (c : cfg) (fuel : nat) (fb : fiber) (N : nat) (op : option R) (reload : bool) (s : ssfm) (p : pulse) (a : list C) (b : R -> list R) (g : list R) (Rw : list C) (F : R)
  (z : list R) (AW AT : list (list C)) (po : pulse) (s' : ssfm) (q : pulse), setting c fb N op s p a b g Rw F ->
  propagate c fuel fb N op reload s p = (Ok (Some (z, AW, AT, po, s')), q) ->
  length z = (N + 1)%nat /\ (forall i, (i <= N)%nat -> nth i z 0 = INR i * fb_len fb / INR N) /\
  length AT = N /\ length AW = N /\
  (forall i, (i < N)%nat -> length (nth i AT []) = p_n p /\ nth i AW [] = FFT_t (nth i AT [])) /\
  p_n po = p_n p /\ p_tw po = p_tw p /\ p_f po = p_f p /\ p_frep po = p_frep p /\
  like p q /\ get_AW q = (Ok a, q) /\ get_AT q = (Ok (IFFT_t a), q).
Proof. exact C33_propagate_bookkeeping_l. Qed.
Print Assumptions C33_propagate_bookkeeping.

(** C33 (partial): on even grids, or with the internal shift off, pulse_out carries the last column in both domains. Missing: odd grids, where it fails (see C33_odd_grid_refuted). *)
Theorem C33_output_is_last_column_partial : forall (c : cfg) (fuel : nat) (fb : fiber) (N : nat) (op : option R) (reload : bool) (s : ssfm) (p : pulse) (a : list C) (b : R -> list R) (g : list R) (Rw : list C) (F : R)
  (z : list R) (AW AT : list (list C)) (po : pulse) (s' : ssfm) (q : pulse), setting c fb N op s p a b g Rw F ->
  (c_pre c = false \/ Nat.even (p_n p) = true) ->
  propagate c fuel fb N op reload s p = (Ok (Some (z, AW, AT, po, s')), q) ->
  get_AW po = (Ok (last AW []), po) /\ get_AT po = (Ok (last AT []), po).
Proof. exact C33_output_is_last_column_partial_l. Qed.
Print Assumptions C33_output_is_last_column_partial.

(** C33: what happens instead on every odd grid with the internal shift on: pulse_out is the last column rolled by one sample. *)
Theorem C33_odd_grid_rolls_output : forall (c : cfg) (fuel : nat) (fb : fiber) (N : nat) (op : option R) (reload : bool) (s : ssfm) (p : pulse) (a : list C) (b : R -> list R) (g : list R) (Rw : list C) (F : R)
  (z : list R) (AW AT : list (list C)) (po : pulse) (s' : ssfm) (q : pulse), setting c fb N op s p a b g Rw F ->
  c_pre c = true -> Nat.odd (p_n p) = true ->
  propagate c fuel fb N op reload s p = (Ok (Some (z, AW, AT, po, s')), q) ->
  get_AT po = (Ok (roll 1 (last AT [])), po).
Proof. exact C33_odd_grid_rolls_output_l. Qed.
Print Assumptions C33_odd_grid_rolls_output.

(** C33: the columns are the fields along the way: stopping after m of N steps (the same fiber cut to m/N of its length) gives exactly the first m columns. *)
Theorem C33_columns_are_prefixes : forall (c : cfg) (fuel : nat) (fb : fiber) (N m : nat) (op : option R) (reload : bool) (s : ssfm) (p : pulse) (a : list C) (b : R -> list R) (g : list R) (Rw : list C) (F : R)
  (z : list R) (AW AT : list (list C)) (po : pulse) (s' : ssfm) (q : pulse), setting c fb N op s p a b g Rw F -> (0 < m <= N)%nat ->
  propagate c fuel fb N op reload s p = (Ok (Some (z, AW, AT, po, s')), q) ->
  let cut := mkFiber (fb_len fb * INR m / INR N) (fb_betas fb) (fb_gain fb) (fb_gamma fb) (fb_get_gamma fb) in
  exists z2 po2 s2 q2, propagate c fuel cut m op reload s p = (Ok (Some (z2, firstn m AW, firstn m AT, po2, s2)), q2).
Proof. exact C33_columns_are_prefixes_l. Qed.
Print Assumptions C33_columns_are_prefixes.

(** C34: the fiber's betas and gamma used over step i are those of position z_i = i L/N when reload_fiber_each_step is set, and those of the fiber input for every step otherwise; gain and Raman response are those of the input in either case. *)
Theorem C34_fiber_position : forall (c : cfg) (fuel : nat) (fb : fiber) (N : nat) (op : option R) (reload : bool) (s : ssfm) (p : pulse) (a : list C) (b : R -> list R) (g : list R) (Rw : list C) (F : R)
  (z : list R) (AW AT : list (list C)) (po : pulse) (s' : ssfm) (q : pulse), setting c fb N op s p a b g Rw F ->
  (c_pre c = false \/ Nat.even (p_n p) = true) ->
  propagate c fuel fb N op reload s p = (Ok (Some (z, AW, AT, po, s')), q) ->
  exists st : nat -> ssfm, s_A (st 0%nat) = cfftshift c (IFFT_t a) /\
  forall i, (i < N)%nat ->
    let zi := if reload then nth i z 0 else 0 in
    let used := with_fiber (cfftshift c (map RtoC (b zi))) (fb_get_gamma fb zi) (st i) in
    s_alpha used = cfftshift c (map (fun x => RtoC (- x)) g) /\ s_R used = cfftshift c Rw /\
    integrate_over_dz c fuel (fb_len fb / INR N) 1 used = Some (st (S i)) /\
    nth i AT [] = cifftshift c (s_A (st (S i))).
Proof. exact C34_fiber_position_l. Qed.
Print Assumptions C34_fiber_position.

(** C32: on even grids, propagating with the internal FFT shift on and with it off gives the same positions, the same columns and the same pulse_out, for every medium; neither finishes unless the other does. *)
Theorem C32_propagate_shift_invisible : forall (c : cfg) (fuel : nat) (fb : fiber) (N : nat) (op : option R) (reload : bool) (s : ssfm) (p : pulse) (a : list C) (b : R -> list R) (g : list R) (Rw : list C) (F : R),
  setting c fb N op s p a b g Rw F -> Nat.even (p_n p) = true ->
  match propagate (set_pre true c) fuel fb N op reload s p, propagate (set_pre false c) fuel fb N op reload s p with
  | (Ok (Some (z, AW, AT, po, _)), _), (Ok (Some (z', AW', AT', po', _)), _) => z = z' /\ AW = AW' /\ AT = AT' /\ get_AW po = (fst (get_AW po'), po) /\ get_AT po = (fst (get_AT po'), po)
  | (Ok None, _), (Ok None, _) => True
  | _, _ => False
  end.
Proof. exact C32_propagate_shift_invisible_l. Qed.
Print Assumptions C32_propagate_shift_invisible.

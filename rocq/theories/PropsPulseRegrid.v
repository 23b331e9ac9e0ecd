(** Property theorems proved in PulseRegridProofs.v (generated by tools/gen_props.py). *)
From Coq Require Import String.
From Coq Require Import Reals List ZArith Bool Arith Lia Lra.
From Coquelicot Require Import Complex.
From Verif Require Import Base CNum NumPy ModelFFT FFTProofs ModelPulse Spec ModelPulseOps PulseProofs PulseHistory PulseOpsProofs PulseRegridProofs.
Import ListNotations.
Local Open Scope R_scope.

(** C17: with fresh grids the result lives on the grid shifted to the new centre; zero outside the old grid, equal to the old bin where the grids meet, on the chord in between; the source pulse keeps NPTS, window, centre, rate and field. *)
Theorem C17_interpolate : forall (strf : R -> string) (p p1 : pulse) (a : list C) (wl : R),
  holds p a -> (2 <= p_n p)%nat -> 0 < p_tw p ->
  get_W_mks strf p = (Ok (Some (map (fun w => w * 1000000000000) (spec_W (p_n p) (p_tw p) (p_f p)))), p1) ->
  exists q p' y, interpolate_to_new_center_wl strf wl p = (Ok q, p') /\
    obs_of p' = obs_of p /\
    p_n q = p_n p /\ p_tw q = p_tw p /\ p_frep q = p_frep p /\ p_f q = c_nmps / wl /\
    get_AW q = (Ok y, q) /\ length y = p_n p /\
    let X := fun j => nth j (spec_W (p_n p) (p_tw p) (p_f p)) 0 in
    let v := fun k => nth k (spec_W (p_n p) (p_tw p) (c_nmps / wl)) 0 in
    forall k, (k < p_n p)%nat ->
      (v k < X 0%nat \/ X (p_n p - 1)%nat < v k -> nth k y (RtoC 0) = RtoC 0) /\
      (forall j, (j < p_n p)%nat -> v k = X j -> nth k y (RtoC 0) = nth j a (RtoC 0)) /\
      (forall j, (S j < p_n p)%nat -> X j <= v k <= X (S j) ->
         nth k y (RtoC 0) = (nth j a (RtoC 0) +
            RtoC ((v k - X j) / (X (S j) - X j)) * (nth (S j) a (RtoC 0) - nth j a (RtoC 0)))%C).
Proof. exact C17_interpolate_l. Qed.
Print Assumptions C17_interpolate.

(** C18: bins whose published wavelength lies in [lo, hi] are kept, the others become zero; energy does not increase, nothing else changes and a second application changes nothing. *)
Theorem C18_filter_projection : forall (strf : R -> string) (p p1 : pulse) (a : list C) (w : list R) (lo hi : R),
  holds p a -> get_wl_nm strf p = (Ok (Some w), p1) -> length w = p_n p ->
  exists p2 b, filter_by_wavelength_nm strf lo hi p = (Ok tt, p2) /\ holds p2 b /\ frame p2 = frame p /\
    (forall k, (k < p_n p)%nat ->
       (lo <= nth k w 0 <= hi -> nth k b (RtoC 0) = nth k a (RtoC 0)) /\
       (~ (lo <= nth k w 0 <= hi) -> nth k b (RtoC 0) = RtoC 0)) /\
    power_sum b <= power_sum a /\
    exists p3, filter_by_wavelength_nm strf lo hi p2 = (Ok tt, p3) /\ holds p3 b /\ frame p3 = frame p.
Proof. exact C18_filter_projection_l. Qed.
Print Assumptions C18_filter_projection.

(** C19: cloning and dictionary export followed by import reproduce all observable content in a new pulse and leave the source untouched. *)
Theorem C19_clone_and_dict : forall (p : pulse) (a : list C), holds p a -> p_f p <> 0 ->
  (exists q, create_cloned_pulse p = (Ok q, p) /\ obs_of q = obs_of p) /\
  (exists d q, get_pulse_dict p = (Ok d, p) /\ load_pulse_dict d (new_pulse None None) = (Ok tt, q) /\ obs_of q = obs_of p).
Proof. exact C19_clone_and_dict_l. Qed.
Print Assumptions C19_clone_and_dict.

(** C19: loading a field of more than one sample into a pulse that holds a field of another length raises ValueError. *)
Theorem C19_load_other_length_fails : forall (p r : pulse) (a b : list C), holds p a -> p_n p <> 1%nat ->
  p_AW r = Some b -> length b <> p_n p ->
  exists d, get_pulse_dict p = (Ok d, p) /\ fst (load_pulse_dict d r) = Raise ValueError /\
            fst (clone_pulse p r) = Raise ValueError.
Proof. exact C19_load_other_length_fails_l. Qed.
Print Assumptions C19_load_other_length_fails.

(** C20: with a fresh wavelength grid, a subset pulse is returned exactly when the size is even, smaller than the parent and the slice around the nearest grid point lies inside; it holds that slice of the parent spectrum on that slice of the parent frequency grid; otherwise ValueError. The parent is never changed. *)
Theorem C20_subset : forall (strf : R -> string) (p p1 : pulse) (a : list C) (wl : R) (m : nat),
  holds p a -> p_tw p <> 0 ->
  let W := fun k => nth k (spec_W (p_n p) (p_tw p) (p_f p)) 0 in
  (forall k, (k < p_n p)%nat -> W k <> 0) ->
  get_wl_nm strf p = (Ok (Some (map (fun w => 2 * PI * c_nmps / w) (spec_W (p_n p) (p_tw p) (p_f p)))), p1) ->
  let wavelength := fun k => 2 * PI * c_nmps / W k in
  exists p', obs_of p' = obs_of p /\
  ((p_n p <= m)%nat -> create_subset_pulse strf wl m p = (Raise ValueError, p')) /\
  ((m < p_n p)%nat -> exists c, nearest (p_n p) wavelength wl c /\
    (~ fits (p_n p) m c -> create_subset_pulse strf wl m p = (Raise ValueError, p')) /\
    (fits (p_n p) m c -> exists q, create_subset_pulse strf wl m p = (Ok q, p') /\
        holds q (firstn m (skipn (c - Nat.div2 m) a)) /\ p_n q = m /\ p_tw q = p_tw p /\ p_frep q = p_frep p /\
        (forall k, (k < m)%nat -> nth k (spec_W (p_n q) (p_tw q) (p_f q)) 0 = W (c - Nat.div2 m + k)%nat))).
Proof. exact C20_subset_l. Qed.
Print Assumptions C20_subset.

(** C21: the average frequency is the power-weighted mean of the published frequencies (w/2pi), so it lies between any bounds for the bins that carry power, it is the bin frequency for a single line, and the average wavelength is its conversion. *)
Theorem C21_average_frequency : forall (strf : R -> string) (p p1 : pulse) (a : list C) (w : list R),
  holds p a -> get_W_mks strf p = (Ok (Some w), p1) -> length w = p_n p -> power_sum a <> 0 ->
  exists avg p', calculate_weighted_avg_frequency_mks strf p = (Ok avg, p') /\ obs_of p' = obs_of p /\
    avg * power_sum a = rsum (p_n p) (fun k => Cmod (nth k a (RtoC 0)) ^ 2 * (nth k w 0 / (2 * PI))) /\
    (forall lo hi, (forall k, (k < p_n p)%nat -> nth k a (RtoC 0) <> RtoC 0 -> lo <= nth k w 0 / (2 * PI) <= hi) -> lo <= avg <= hi) /\
    (forall k, (k < p_n p)%nat -> (forall j, (j < p_n p)%nat -> j <> k -> nth j a (RtoC 0) = RtoC 0) -> avg = nth k w 0 / (2 * PI)) /\
    (avg <> 0 -> exists p'', calculate_weighted_avg_wavelength_nm strf p = (Ok (c_mks / avg * 1000000000), p'') /\ obs_of p'' = obs_of p).
Proof. exact C21_average_frequency_l. Qed.
Print Assumptions C21_average_frequency.

(** C22: what is proved: entry i is the correlation of the power profile with its square root (the amplitude) at delay i - NPTS//2 and nothing else changes; missing: the amplitude should be the power. *)
Theorem C22_autocorrelation_partial : forall (p : pulse) (P : list R) (z : list C), holds p z ->
  P = map (fun u => Cmod u ^ 2) (IFFT_t z) ->
  exists r, calculate_intensity_autocorrelation p = (Ok r, p) /\ length r = p_n p /\
  forall i, (i < p_n p)%nat ->
    nth i r 0 = rsum (p_n p) (fun m => sample P (Z.of_nat m + (Z.of_nat i - Z.of_nat (Nat.div2 (p_n p)))) * sqrt (nth m P 0)).
Proof. exact C22_autocorrelation_partial_l. Qed.
Print Assumptions C22_autocorrelation_partial.

(** C22 refuted: for the field 1, 2, 0 the values at delays -1 and +1 differ. *)
Theorem C22_not_symmetric_refuted :
  exists (p : pulse) (z : list C) (r : list R), holds p z /\ IFFT_t z = [RtoC 1; RtoC 2; RtoC 0] /\
    calculate_intensity_autocorrelation p = (Ok r, p) /\ nth 0 r 0 = 2 /\ nth 2 r 0 = 4.
Proof. exact C22_not_symmetric_refuted_l. Qed.
Print Assumptions C22_not_symmetric_refuted.

(** Histories of public calls on one Pulse object (PulseBase.py): the vocabulary of
    operations used by the history properties.  Results of reads are dropped. *)
From Coq Require Import String.
From Coq Require Import Reals List ZArith Bool.
From Coquelicot Require Import Complex.
From Verif Require Import Base CNum NumPy ModelFFT ModelPulse.
Import ListNotations.
Local Open Scope R_scope.
Local Open Scope py_scope.

Inductive pop : Type :=
| OSetCenterNm (wl : R) | OSetCenterM (wl : R) | OSetNPTS (n : nat) | OSetFrep (f : option R)
| OSetTwPs (t : R) | OSetTwS (t : R) | OSetFwTHz (d : R) | OSetFwMks (d : R)
| OSetAW (v : list C) | OSetAT (v : list C) | OSetEpp (e : R)
| OAddNoise (planck : R) (ri rp : nat -> R) (k : noise_kind)
| OChirpW (g t f : R) (w0 : option R) | OApplyPhase (ph : list R) | OChirpT (a b T0 : R)
| ORemoveFit (ph : list C -> list R) (fit : nat -> list R -> list R -> R -> R) (deg : nat) (thr : R)
| OTimeOffset (t : R) | OExpand (k : nat) (l : loc) | ORotate (wl : R) | OFilter (lo hi : R)
| OClone (q : pulse) | OLoad (d : pulse_dict)
| OReadWl | OReadWmks | OReadFmks | OReadDFmks | OReadWlmks
| OSubset (wl : R) (m : nat) | OInterp (wl : R) | OAvg | OEpp | OCreateClone | OAutocorr.

Definition drop {A} (m : M pulse A) : M pulse unit := m ;;; ret tt.

Definition run_op (strf : R -> string) (o : pop) : M pulse unit :=
  match o with
  | OSetCenterNm wl => set_center_wavelength_nm wl
  | OSetCenterM wl => set_center_wavelength_m wl
  | OSetNPTS n => set_NPTS n
  | OSetFrep f => set_frep_MHz f
  | OSetTwPs t => set_time_window_ps t
  | OSetTwS t => set_time_window_s t
  | OSetFwTHz d => set_frequency_window_THz d
  | OSetFwMks d => set_frequency_window_mks d
  | OSetAW v => set_AW v
  | OSetAT v => set_AT v
  | OSetEpp e => set_epp e
  | OAddNoise h ri rp k => add_noise strf h ri rp k
  | OChirpW g t f w0 => chirp_pulse_W g t f w0
  | OApplyPhase ph => apply_phase_W ph
  | OChirpT a b T0 => chirp_pulse_T a b T0
  | ORemoveFit ph fit deg thr => remove_fit ph fit deg thr
  | OTimeOffset t => add_time_offset t
  | OExpand k l => expand_time_window k l
  | ORotate wl => rotate_spectrum_to_new_center_wl wl
  | OFilter lo hi => filter_by_wavelength_nm strf lo hi
  | OClone q => clone_pulse q
  | OLoad d => load_pulse_dict d
  | OReadWl => drop (get_wl_nm strf)
  | OReadWmks => drop (get_W_mks strf)
  | OReadFmks => drop (get_F_mks strf)
  | OReadDFmks => drop (get_dF_mks strf)
  | OReadWlmks => drop (get_wl_mks strf)
  | OSubset wl m => drop (create_subset_pulse strf wl m)
  | OInterp wl => drop (interpolate_to_new_center_wl strf wl)
  | OAvg => drop (calculate_weighted_avg_frequency_mks strf)
  | OEpp => drop calc_epp
  | OCreateClone => drop create_cloned_pulse
  | OAutocorr => drop calculate_intensity_autocorrelation
  end.

(** The state after a history of calls; a raising call leaves whatever state it left and the
    caller goes on. *)
Definition run_ops (strf : R -> string) (l : list pop) (p : pulse) : pulse :=
  fold_left (fun s o => snd (run_op strf o s)) l p.

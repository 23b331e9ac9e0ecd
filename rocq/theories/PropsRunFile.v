(** Property theorems proved in RunFileProofs.v (generated by tools/gen_props.py). *)
From Coq Require Import String.
From Coq Require Import Reals List ZArith Bool Arith DecimalString DecimalNat Lia Lra.
From Coquelicot Require Import Complex.
From Verif Require Import Base CNum NumPy ModelFFT ModelPulse ModelPulseOps PulseProofs PulseOpsProofs ModelDerivedMore ModelRunFile RunFileProofs.
Import ListNotations.
Local Open Scope R_scope.
Local Open Scope py_scope.

(** C109: gen_OSA never produces a pulse: for all arguments and all states it raises AttributeError, and it leaves the time window changed with the old field on it, so that the energy of a pulse is multiplied by the ratio of the windows. *)
Theorem C109_gen_OSA_refuted : forall (t wl power : R) (epp log : bool) (rows : nat) (p : pulse),
  exists q, gen_OSA t wl power epp log rows p = (Raise AttributeError, q) /\ p_tw q = t /\ p_AW q = p_AW p /\ p_n q = p_n p /\ p_f q = p_f p /\ p_frep q = p_frep p /\ p_ready q = true /\
  (forall a e, holds p a -> (0 < p_n p)%nat -> p_tw p <> 0 -> calc_epp p = (Ok e, p) -> calc_epp q = (Ok (t / p_tw p * e), q)).
Proof. exact C109_gen_OSA_refuted_l. Qed.
Print Assumptions C109_gen_OSA_refuted.

(** C110: a reader opened on a file that holds the runs s0, s1, ... returns for every run and every valid z index (negative ones count from the end) the three pulses as they were stored, with grid size, centre wavelength, window and the chosen column of the field, and the run's parameter. The repetition rate is that of run 0. *)
Theorem C110_read : forall (file : node) (name : string) (s0 : saved) (ss : list saved), file_of file name (s0 :: ss) ->
  exists r, reader_init file name = Ok r /\ forall n s, nth_error (s0 :: ss) n = Some s ->
  get_run_param r (Some (Z.of_nat n)) = Ok (sv_param s) /\
  forall z i, py_index (sv_nz s) z = Ok i -> exists p sg id, get_run r (Some (Z.of_nat n)) (Some z) = Ok (p, sg, id) /\ is_wave p (sv_pump s) i (sv_frep s0) /\ is_wave sg (sv_sgnl s) i (sv_frep s0) /\ is_wave id (sv_idlr s) i (sv_frep s0).
Proof. exact C110_read_l. Qed.
Print Assumptions C110_read.

(** C110: without arguments a reader gives the last run at its last z step; a run number outside the file and a z index outside the run raise IndexError. *)
Theorem C110_arguments : forall (file : node) (name : string) (s0 : saved) (ss : list saved) (r : reader), file_of file name (s0 :: ss) -> reader_init file name = Ok r ->
  (forall z, get_run r None z = get_run r (Some (Z.of_nat (length ss))) z) /\ get_run_param r None = get_run_param r (Some (Z.of_nat (length ss))) /\
  (forall k, get_run r k None = get_run r k (Some (-1)%Z)) /\
  (forall n z, (n < 0 \/ Z.of_nat (S (length ss)) <= n)%Z -> get_run r (Some n) z = Raise IndexError /\ get_run_param r (Some n) = Raise IndexError) /\
  (forall n s z, nth_error (s0 :: ss) n = Some s -> (z < - Z.of_nat (sv_nz s) \/ Z.of_nat (sv_nz s) <= z)%Z -> get_run r (Some (Z.of_nat n)) (Some z) = Raise IndexError).
Proof. exact C110_arguments_l. Qed.
Print Assumptions C110_arguments.

(** C110: a file that does not hold run 0 of the parameter cannot be opened: a missing parameter, a missing run 0 and a run 0 without a repetition rate raise AttributeError, and an empty array of repetition rates raises IndexError. *)
Theorem C110_unreadable : forall (top grp run : list (string * node)) (name : string),
  (child name top = None -> reader_init (NGroup top) name = Raise AttributeError) /\
  (child name top = Some (NGroup grp) -> child (run_name 0) grp = None -> reader_init (NGroup top) name = Raise AttributeError) /\
  (child name top = Some (NGroup grp) -> child (run_name 0) grp = Some (NGroup run) -> child "frep_Hz" run = None -> reader_init (NGroup top) name = Raise AttributeError) /\
  (child name top = Some (NGroup grp) -> child (run_name 0) grp = Some (NGroup run) -> child "frep_Hz" run = Some (NReal []) -> reader_init (NGroup top) name = Raise IndexError).
Proof. exact C110_unreadable_l. Qed.
Print Assumptions C110_unreadable.

(** C110: the calls of get_next_run give the runs of the file one after the other, each exactly once, and None from then on; a call that raises because of its z index has used up its run as well. *)
Theorem C110_iteration : forall (file : node) (name : string) (s0 : saved) (ss : list saved) (r : reader), file_of file name (s0 :: ss) -> reader_init file name = Ok r ->
  forall (zs : list (option Z)) (z : option Z),
  ((length zs <= length ss)%nat -> fst (get_next_run z (after_next zs r)) = rmap Some (get_run r (Some (Z.of_nat (length zs))) z)) /\
  ((length ss < length zs)%nat -> get_next_run z (after_next zs r) = (Ok None, after_next zs r)).
Proof. exact C110_iteration_l. Qed.
Print Assumptions C110_iteration.

(** C110: the repetition rate stored with a run is not the one its pulses report: all runs report that of run 0. *)
Theorem C110_own_rate_refuted : forall (file : node) (name : string) (s0 : saved) (ss : list saved) (r : reader) (n : nat) (s : saved) (z : Z) (p sg id : pulse), file_of file name (s0 :: ss) -> reader_init file name = Ok r -> nth_error (s0 :: ss) n = Some s -> sv_frep s <> sv_frep s0 ->
  get_run r (Some (Z.of_nat n)) (Some z) = Ok (p, sg, id) -> get_frep_mks p = (Ok (Some (sv_frep s0)), p) /\ fst (get_frep_mks p) <> Ok (Some (sv_frep s)).
Proof. exact C110_own_rate_refuted_l. Qed.
Print Assumptions C110_own_rate_refuted.

(** C111: no run is ever written. A writer on a new parameter name, or on one with an empty group, opens; the first add_run raises TypeError after creating the group of the run, every further one raises AttributeError (NodeError), and afterwards the file cannot be opened by DFGReader for this parameter. *)
Theorem C111_add_run_refuted : forall (file : list (string * node)) (name : string) (nvar nsave : nat) (param : R) (calls : list (nat * nat * R)) (w : writer), fst (writer_init file name) = Ok w ->
  exists w', add_runs ((nvar, nsave, param) :: calls) w = (Raise TypeError :: repeat (Raise AttributeError) (length calls), w') /\ reader_init (NGroup (wr_file w')) name = Raise AttributeError.
Proof. exact C111_add_run_refuted_l. Qed.
Print Assumptions C111_add_run_refuted.

(** C111: opening a writer on a parameter that already has runs does not delete them, as the printed message says, but raises AttributeError (NodeError) and leaves the file as it is. *)
Theorem C111_overwrite_refuted : forall (file : list (string * node)) (name run : string) (x : node) (runs : list (string * node)), child name file = Some (NGroup ((run, x) :: runs)) -> writer_init file name = (Raise AttributeError, file).
Proof. exact C111_overwrite_refuted_l. Qed.
Print Assumptions C111_overwrite_refuted.

(** C111: whatever a writer does, the nodes of all other parameters stay as they are, and so does what a reader returns for them. *)
Theorem C111_others_untouched : forall (file : list (string * node)) (name other : string) (calls : list (nat * nat * R)), other <> name ->
  child other (snd (writer_init file name)) = child other file /\
  forall w, fst (writer_init file name) = Ok w -> child other (wr_file (snd (add_runs calls w))) = child other file.
Proof. exact C111_others_untouched_l. Qed.
Print Assumptions C111_others_untouched.

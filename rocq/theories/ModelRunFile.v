(** src/pynlo/interactions/ThreeWaveMixing/multi_run_rw.py: DFGReader and DFGWriter.

    Simplifications: the HDF5 file is a tree of named nodes, kept in memory; a parameter name contains no '/'; a file opened for reading exists and is not
    open elsewhere.  tables.NodeError and tables.NoSuchNodeError are subclasses of AttributeError and are modelled as that.  Indexing a node of the wrong kind
    is TypeError.  Python 3 or Python 2 with `from __future__ import division` (line 7): `/` of two integers is a float. *)
From Coq Require Import String.
From Coq Require Import Reals List ZArith Bool Arith DecimalString.
From Coquelicot Require Import Complex.
From Verif Require Import Base CNum NumPy ModelPulse.
Import ListNotations.
Local Open Scope string_scope.
Local Open Scope py_scope.

(** The nodes of a file: groups, one-dimensional real arrays, two-dimensional complex arrays (number of columns, rows). *)
Inductive node : Type := NGroup (children : list (string * node)) | NReal (l : list R) | NCplx (ncols : nat) (rows : list (list C)).

Fixpoint child (name : string) (l : list (string * node)) : option node :=
  match l with [] => None | (s, x) :: l' => if String.eqb s name then Some x else child name l' end.
(** tables.File.get_node *)
Fixpoint get_node (x : node) (path : list string) : result node :=
  match path with
  | [] => Ok x
  | s :: path' =>
      match x with
      | NGroup l => match child s l with Some y => get_node y path' | None => Raise AttributeError end
      | _ => Raise AttributeError
      end
  end.
(** tables.File.list_nodes of a group *)
Definition list_nodes (x : node) : result (list node) := match x with NGroup l => Ok (map snd l) | _ => Raise TypeError end.
(** node[0] of a one-dimensional array *)
Definition scalar (x : node) : result R :=
  match x with NReal (v :: _) => Ok v | NReal [] => Raise IndexError | NCplx _ _ => Raise TypeError | NGroup _ => Raise TypeError end.
(** node[:, z] *)
Definition column (x : node) (z : Z) : result (list C) :=
  match x with NCplx n rows => i <-r py_index n z ;; Ok (map (fun r => nth i r (RtoC 0)) rows) | NReal _ => Raise IndexError | NGroup _ => Raise TypeError end.
(** 'run' + str(n) *)
Definition run_name (n : nat) : string := String.append "run" (NilEmpty.string_of_uint (Nat.to_uint n)).

(** ** DFGReader *)
(** multi_run_rw.py:17-21 *)
Record reader := mkReader { rd_file : node; rd_root : string; rd_runs : nat; rd_int : nat; rd_frep : R }.
(** 23-31.  int_ctr is the class attribute until the first get_next_run. *)
Definition reader_init (file : node) (param_name : string) : result reader :=
  g <-r get_node file [param_name] ;;
  l <-r list_nodes g ;;
  fr <-r get_node file [param_name; run_name 0] ;;
  f <-r get_node fr ["frep_Hz"] ;;
  v <-r scalar f ;;
  Ok (mkReader file param_name (length l) 0 v).
(** 37-40, 48-51  the run number asked for.  A negative run_num and one not below run_ctr raise. *)
Definition run_number (r : reader) (run_num : option Z) : result nat :=
  let n := match run_num with None => (Z.of_nat (rd_runs r) - 1)%Z | Some n => n end in
  if ((n <? 0) || (Z.of_nat (rd_runs r) <=? n))%Z then Raise IndexError else Ok (Z.to_nat n).
(** 34-43 *)
Definition get_run_param (r : reader) (run_num : option Z) : result R :=
  n <-r run_number r run_num ;;
  x <-r get_node (rd_file r) [rd_root r; run_name n; "param"] ;;
  scalar x.
(** 57-66, 69-77, 80-88  one of the three pulses; `field` is 'pump', 'sgnl' or 'idlr' *)
Definition read_pulse (r : reader) (n : nat) (z : Z) (field : string) : result pulse :=
  let run := [rd_root r; run_name n] in
  x <-r get_node (rd_file r) (run ++ [field])%list ;; a <-r column x z ;;
  y <-r get_node (rd_file r) (run ++ [String.append field "_Twind"])%list ;; tw <-r scalar y ;;
  c <-r get_node (rd_file r) (run ++ [String.append field "_center_nm"])%list ;; wl <-r scalar c ;;
  let m := pulse_init None None ;;; set_NPTS (length a) ;;; set_center_wavelength_nm wl ;;; set_time_window_ps tw ;;; set_AW a ;;; set_frep_MHz (Some (rd_frep r * / 1000000)%R) in
  match m pulse0 with (Ok _, p) => Ok p | (Raise e, _) => Raise e end.
(** 45-90 *)
Definition get_run (r : reader) (run_num z_num : option Z) : result (pulse * pulse * pulse) :=
  n <-r run_number r run_num ;;
  let z := match z_num with None => (-1)%Z | Some z => z end in
  p <-r read_pulse r n z "pump" ;; s <-r read_pulse r n z "sgnl" ;; i <-r read_pulse r n z "idlr" ;;
  Ok (p, s, i).
(** 92-95; None when there is no run left *)
Definition get_next_run (z_num : option Z) : M reader (option (pulse * pulse * pulse)) :=
  r <- get ;;
  if (rd_int r <? rd_runs r)%nat then
    modify (fun r => mkReader (rd_file r) (rd_root r) (rd_runs r) (rd_int r + 1) (rd_frep r)) ;;;
    x <- lift (get_run r (Some (Z.of_nat (rd_int r))) z_num) ;; ret (Some x)
  else ret None.

(** ** DFGWriter *)
(** tables.File.create_group(where, name) for a group `where` that exists *)
Fixpoint replace_child (name : string) (y : node) (l : list (string * node)) : list (string * node) :=
  match l with [] => [] | (s, x) :: l' => if String.eqb s name then (s, y) :: l' else (s, x) :: replace_child name y l' end.
Definition remove_child (name : string) (l : list (string * node)) : list (string * node) := filter (fun c => negb (String.eqb (fst c) name)) l.
(** a writer: the children of the file's root, the name of the group, the counter *)
Record writer := mkWriter { wr_file : list (string * node); wr_root : string; wr_ctr : nat }.
(** 98-106.  create_group raises NodeError for a name in use; remove_node without recursive = True raises NodeError for a group with children. *)
Definition writer_init (file : list (string * node)) (param_name : string) : result writer * list (string * node) :=
  match child param_name file with
  | None => let f := (file ++ [(param_name, NGroup [])])%list in (Ok (mkWriter f param_name 0), f)
  | Some (NGroup (_ :: _)) => (Raise AttributeError, file)
  | Some _ => let f := (remove_child param_name file ++ [(param_name, NGroup [])])%list in (Ok (mkWriter f param_name 0), f)
  end.
(** 108-114: the group is created, then ysave[0:count, 0:npts] with the float npts = nvar / 3 raises TypeError; nothing after it is reached. *)
Definition add_run (nvar nsave : nat) (param : R) : M writer unit :=
  w <- get ;;
  match child (wr_root w) (wr_file w) with
  | Some (NGroup l) =>
      match child (run_name (wr_ctr w)) l with
      | Some _ => raise AttributeError
      | None =>
          modify (fun w => mkWriter (replace_child (wr_root w) (NGroup (l ++ [(run_name (wr_ctr w), NGroup [])])%list) (wr_file w)) (wr_root w) (wr_ctr w)) ;;;
          raise TypeError
      end
  | _ => raise AttributeError
  end.

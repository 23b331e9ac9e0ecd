(** DFGReader, DFGWriter (C110, C111) and CWPulse.gen_OSA (C109). *)
From Coq Require Import String.
From Coq Require Import Reals List ZArith Bool Arith DecimalString DecimalNat Lia Lra.
From Coquelicot Require Import Complex.
From Verif Require Import Base CNum NumPy ModelFFT ModelPulse ModelPulseOps PulseProofs PulseOpsProofs ModelDerivedMore ModelRunFile.
Import ListNotations.
Local Open Scope R_scope.
Local Open Scope py_scope.

(** ** gen_OSA *)
(*! C109: gen_OSA never produces a pulse: for all arguments and all states it raises AttributeError, and it leaves the time window changed with the old field on it, so that the energy of a pulse is multiplied by the ratio of the windows. *)
Lemma C109_gen_OSA_refuted_l : forall (t wl power : R) (epp log : bool) (rows : nat) (p : pulse),
  exists q, gen_OSA t wl power epp log rows p = (Raise AttributeError, q) /\ p_tw q = t /\ p_AW q = p_AW p /\ p_n q = p_n p /\ p_f q = p_f p /\ p_frep q = p_frep p /\ p_ready q = true /\
  (forall a e, holds p a -> (0 < p_n p)%nat -> p_tw p <> 0 -> calc_epp p = (Ok e, p) -> calc_epp q = (Ok (t / p_tw p * e), q)).
Proof.
  intros t wl power epp log rows p. eexists. split; [reflexivity|]. repeat (split; [reflexivity|]). intros a e Hp Hn Ht E. rewrite (calc_epp_run p a Hp Hn) in E. apply (f_equal fst) in E. cbn [fst] in E. apply Ok_inj in E. subst e.
  rewrite (calc_epp_run _ a); [|destruct Hp as (H1 & H2 & H3); repeat split; assumption|exact Hn]. cbn [p_tw p_n with_tw with_ready]. f_equal. f_equal. field. split; [apply not_0_INR; lia|exact Ht].
Qed.

(** ** Names *)
Lemma run_name_inj n m : run_name n = run_name m -> n = m.
Proof.
  unfold run_name. cbn [String.append]. intros H. injection H as H. apply (f_equal NilEmpty.uint_of_string) in H. rewrite !NilEmpty.usu in H. injection H as H. apply (f_equal Nat.of_uint) in H. rewrite !Unsigned.of_to in H. exact H.
Qed.
Lemma eqb_run n m : String.eqb (run_name n) (run_name m) = (n =? m)%nat.
Proof.
  destruct (String.eqb_spec (run_name n) (run_name m)) as [E|E]; destruct (Nat.eqb_spec n m) as [F|F]; try reflexivity; [apply run_name_inj in E; contradiction|subst; contradiction].
Qed.

(** ** Reading *)
(** The group of one run: three fields with nz columns each, and their metadata.  [rows] is the field as a matrix, one row for each frequency. *)
Record wave := mkWave { wv_rows : list (list C); wv_tw : R; wv_wl : R }.
Record saved := mkSaved { sv_nz : nat; sv_pump : wave; sv_sgnl : wave; sv_idlr : wave; sv_frep : R; sv_param : R }.
(** every node that add_run would write, with the documented names and contents; the group may hold more and in any order *)
Definition stored (l : list (string * node)) (s : saved) : Prop :=
  child "pump" l = Some (NCplx (sv_nz s) (wv_rows (sv_pump s))) /\ child "pump_Twind" l = Some (NReal [wv_tw (sv_pump s)]) /\ child "pump_center_nm" l = Some (NReal [wv_wl (sv_pump s)]) /\
  child "sgnl" l = Some (NCplx (sv_nz s) (wv_rows (sv_sgnl s))) /\ child "sgnl_Twind" l = Some (NReal [wv_tw (sv_sgnl s)]) /\ child "sgnl_center_nm" l = Some (NReal [wv_wl (sv_sgnl s)]) /\
  child "idlr" l = Some (NCplx (sv_nz s) (wv_rows (sv_idlr s))) /\ child "idlr_Twind" l = Some (NReal [wv_tw (sv_idlr s)]) /\ child "idlr_center_nm" l = Some (NReal [wv_wl (sv_idlr s)]) /\
  child "frep_Hz" l = Some (NReal [sv_frep s]) /\ child "param" l = Some (NReal [sv_param s]).
(** a file with the runs [ss] under the name [name] *)
Definition file_of (file : node) (name : string) (ss : list saved) : Prop :=
  exists top grp, file = NGroup top /\ child name top = Some (NGroup grp) /\ length grp = length ss /\
  forall n s, nth_error ss n = Some s -> exists l, child (run_name n) grp = Some (NGroup l) /\ stored l s.
(** column z of a wave *)
Definition col (w : wave) (z : nat) : list C := map (fun r => nth z r (RtoC 0)) (wv_rows w).
(** what a pulse read from a file says about itself: points, centre wavelength, window, field, repetition rate *)
Definition is_wave (p : pulse) (w : wave) (z : nat) (frep_Hz : R) : Prop :=
  p_ready p = true /\ p_n p = length (wv_rows w) /\ p_f p = c_nmps / wv_wl w /\ p_tw p = wv_tw w /\ p_AW p = Some (col w z) /\ get_frep_mks p = (Ok (Some frep_Hz), p).

Lemma get_node_app x p q : get_node x (p ++ q)%list = rbind (get_node x p) (fun y => get_node y q).
Proof. revert x. induction p as [|a p IH]; intros x; [reflexivity|]. cbn [app get_node]. destruct x as [l|l|n l]; try reflexivity. destruct (child a l); [apply IH|reflexivity]. Qed.
Lemma get_one l s y : child s l = Some y -> get_node (NGroup l) [s] = Ok y.
Proof. intros H. cbn [get_node]. rewrite H. reflexivity. Qed.
Lemma read_wave r n z i l name nz w : get_node (rd_file r) [rd_root r; run_name n] = Ok (NGroup l) -> child name l = Some (NCplx nz (wv_rows w)) -> child (String.append name "_Twind") l = Some (NReal [wv_tw w]) -> child (String.append name "_center_nm") l = Some (NReal [wv_wl w]) -> py_index nz z = Ok i ->
  exists p, read_pulse r n z name = Ok p /\ is_wave p w i (rd_frep r).
Proof.
  intros Hl Hf Ht Hw Hi. unfold read_pulse. rewrite !get_node_app, Hl. cbn [rbind]. rewrite (get_one _ _ _ Hf), (get_one _ _ _ Ht), (get_one _ _ _ Hw). cbn [rbind column scalar]. rewrite Hi. cbn [rbind]. fold (col w i).
  assert (L : length (col w i) = length (wv_rows w)) by apply map_length.
  unfold pulse_init, set_NPTS, set_center_wavelength_nm, set_time_window_ps, set_time_window, set_centerfrequency, check_ready. unfold bind at 1. unfold bind at 1. unfold ret at 1. unfold ret at 1. unfold bind at 1. unfold bind at 1. unfold modify at 1. unfold modify at 1. unfold bind at 1. unfold bind at 1. unfold modify at 1. unfold modify at 1. unfold bind at 1. unfold bind at 1. unfold modify at 1. unfold modify at 1.
  unfold bind at 1. rewrite set_AW_ok; [|split; [reflexivity|left; reflexivity]|reflexivity]. eexists. split; [reflexivity|].
  unfold is_wave, get_frep_mks, gets. cbn [p_ready p_n p_f p_tw p_AW p_frep with_frep with_AW with_ready with_tw with_f with_n pulse0 option_map]. repeat (split; [assumption || reflexivity|]). f_equal. f_equal. f_equal. field.
Qed.
Lemma read_bad r n z l name nz w : get_node (rd_file r) [rd_root r; run_name n] = Ok (NGroup l) -> child name l = Some (NCplx nz (wv_rows w)) -> py_index nz z = Raise IndexError -> read_pulse r n z name = Raise IndexError.
Proof. intros Hl Hf Hi. unfold read_pulse. rewrite !get_node_app, Hl. cbn [rbind]. rewrite (get_one _ _ _ Hf). cbn [rbind column]. rewrite Hi. reflexivity. Qed.
Lemma init_ok file name s0 ss : file_of file name (s0 :: ss) -> reader_init file name = Ok (mkReader file name (length (s0 :: ss)) 0 (sv_frep s0)).
Proof.
  intros (top & grp & -> & Hn & Lg & H). destruct (H 0%nat s0 eq_refl) as (l & Hl & Hs). unfold reader_init. cbn [get_node]. rewrite Hn. cbn [rbind list_nodes]. rewrite Hl. cbn [rbind get_node].
  destruct Hs as (_ & _ & _ & _ & _ & _ & _ & _ & _ & Hf & _). rewrite Hf. cbn [rbind scalar]. rewrite map_length, Lg. reflexivity.
Qed.
Lemma run_at file name s0 ss n s : file_of file name (s0 :: ss) -> nth_error (s0 :: ss) n = Some s -> exists l, get_node file [name; run_name n] = Ok (NGroup l) /\ stored l s.
Proof. intros (top & grp & -> & Hn & Lg & H) Hs. destruct (H n s Hs) as (l & Hl & Q). exists l. split; [|exact Q]. cbn [get_node]. rewrite Hn, Hl. reflexivity. Qed.
Lemma number_ok r n : (n < rd_runs r)%nat -> run_number r (Some (Z.of_nat n)) = Ok n.
Proof. intros H. unfold run_number. destruct (Z.ltb_spec (Z.of_nat n) 0); [lia|]. destruct (Z.leb_spec (Z.of_nat (rd_runs r)) (Z.of_nat n)); [lia|]. cbn [orb]. rewrite Nat2Z.id. reflexivity. Qed.

(*! C110: a reader opened on a file that holds the runs s0, s1, ... returns for every run and every valid z index (negative ones count from the end) the three pulses as they were stored, with grid size, centre wavelength, window and the chosen column of the field, and the run's parameter.  The repetition rate is that of run 0. *)
Lemma C110_read_l : forall (file : node) (name : string) (s0 : saved) (ss : list saved), file_of file name (s0 :: ss) ->
  exists r, reader_init file name = Ok r /\ forall n s, nth_error (s0 :: ss) n = Some s ->
  get_run_param r (Some (Z.of_nat n)) = Ok (sv_param s) /\
  forall z i, py_index (sv_nz s) z = Ok i -> exists p sg id, get_run r (Some (Z.of_nat n)) (Some z) = Ok (p, sg, id) /\ is_wave p (sv_pump s) i (sv_frep s0) /\ is_wave sg (sv_sgnl s) i (sv_frep s0) /\ is_wave id (sv_idlr s) i (sv_frep s0).
Proof.
  intros file name s0 ss Hf. exists (mkReader file name (length (s0 :: ss)) 0 (sv_frep s0)). split; [apply init_ok; exact Hf|]. set (r := mkReader _ _ _ _ _). intros n s Hs.
  destruct (run_at file name s0 ss n s Hf Hs) as (l & Hl & (A1 & A2 & A3 & B1 & B2 & B3 & C1 & C2 & C3 & Hfr & Hp)).
  assert (Hn : (n < rd_runs r)%nat). { cbn [r rd_runs]. apply nth_error_Some. rewrite Hs. discriminate. }
  split.
  - unfold get_run_param. rewrite number_ok by exact Hn. cbn [rbind]. change [rd_root r; run_name n; "param"%string] with ([rd_root r; run_name n] ++ ["param"%string])%list. rewrite get_node_app. cbn [r rd_root rd_file]. rewrite Hl. cbn [rbind]. rewrite (get_one _ _ _ Hp). reflexivity.
  - intros z i Hi. unfold get_run. rewrite number_ok by exact Hn. cbn [rbind].
    destruct (read_wave r n z i l "pump" (sv_nz s) (sv_pump s) Hl A1 A2 A3 Hi) as (p & Ep & Wp).
    destruct (read_wave r n z i l "sgnl" (sv_nz s) (sv_sgnl s) Hl B1 B2 B3 Hi) as (sg & Es & Ws).
    destruct (read_wave r n z i l "idlr" (sv_nz s) (sv_idlr s) Hl C1 C2 C3 Hi) as (id & Ei & Wi).
    rewrite Ep, Es, Ei. cbn [rbind]. exists p, sg, id. auto.
Qed.
(*! C110: without arguments a reader gives the last run at its last z step; a run number outside the file and a z index outside the run raise IndexError. *)
Lemma C110_arguments_l : forall (file : node) (name : string) (s0 : saved) (ss : list saved) (r : reader), file_of file name (s0 :: ss) -> reader_init file name = Ok r ->
  (forall z, get_run r None z = get_run r (Some (Z.of_nat (length ss))) z) /\ get_run_param r None = get_run_param r (Some (Z.of_nat (length ss))) /\
  (forall k, get_run r k None = get_run r k (Some (-1)%Z)) /\
  (forall n z, (n < 0 \/ Z.of_nat (S (length ss)) <= n)%Z -> get_run r (Some n) z = Raise IndexError /\ get_run_param r (Some n) = Raise IndexError) /\
  (forall n s z, nth_error (s0 :: ss) n = Some s -> (z < - Z.of_nat (sv_nz s) \/ Z.of_nat (sv_nz s) <= z)%Z -> get_run r (Some (Z.of_nat n)) (Some z) = Raise IndexError).
Proof.
  intros file name s0 ss r Hf Hr. rewrite (init_ok file name s0 ss Hf) in Hr. apply Ok_inj in Hr. subst r. set (r := mkReader _ _ _ _ _).
  assert (E : run_number r None = run_number r (Some (Z.of_nat (length ss)))). { unfold run_number. cbn [r rd_runs length]. replace (Z.of_nat (Datatypes.S (length ss)) - 1)%Z with (Z.of_nat (length ss)) by lia. reflexivity. }
  split; [intros z; unfold get_run; rewrite E; reflexivity|]. split; [unfold get_run_param; rewrite E; reflexivity|]. split; [intros k; reflexivity|]. split.
  - intros n z Hn. assert (B : run_number r (Some n) = Raise IndexError). { unfold run_number. cbn [r rd_runs length]. destruct (Z.ltb_spec n 0); [reflexivity|]. destruct (Z.leb_spec (Z.of_nat (Datatypes.S (length ss))) n); [reflexivity|]. lia. }
    unfold get_run, get_run_param. rewrite B. split; reflexivity.
  - intros n s z Hs Hz. assert (Hn : (n < rd_runs r)%nat). { cbn [r rd_runs]. apply nth_error_Some. rewrite Hs. discriminate. }
    destruct (run_at file name s0 ss n s Hf Hs) as (l & Hl & (A1 & _)). unfold get_run. rewrite number_ok by exact Hn. cbn [rbind]. rewrite (read_bad r n z l "pump" (sv_nz s) (sv_pump s) Hl A1); [reflexivity|].
    unfold py_index. destruct (Z.ltb_spec z (- Z.of_nat (sv_nz s))); [reflexivity|]. destruct (Z.leb_spec (Z.of_nat (sv_nz s)) z); [reflexivity|]. lia.
Qed.

(*! C110: a file that does not hold run 0 of the parameter cannot be opened: a missing parameter, a missing run 0 and a run 0 without a repetition rate raise AttributeError, and an empty array of repetition rates raises IndexError. *)
Lemma C110_unreadable_l : forall (top grp run : list (string * node)) (name : string),
  (child name top = None -> reader_init (NGroup top) name = Raise AttributeError) /\
  (child name top = Some (NGroup grp) -> child (run_name 0) grp = None -> reader_init (NGroup top) name = Raise AttributeError) /\
  (child name top = Some (NGroup grp) -> child (run_name 0) grp = Some (NGroup run) -> child "frep_Hz" run = None -> reader_init (NGroup top) name = Raise AttributeError) /\
  (child name top = Some (NGroup grp) -> child (run_name 0) grp = Some (NGroup run) -> child "frep_Hz" run = Some (NReal []) -> reader_init (NGroup top) name = Raise IndexError).
Proof.
  intros top grp run name. split; [|split; [|split]].
  - intros H. unfold reader_init. cbn [get_node]. rewrite H. reflexivity.
  - intros H H0. unfold reader_init. cbn [get_node]. rewrite H. cbn [rbind list_nodes]. rewrite H0. reflexivity.
  - intros H H0 H1. unfold reader_init. cbn [get_node]. rewrite H. cbn [rbind list_nodes]. rewrite H0. cbn [rbind get_node]. rewrite H1. reflexivity.
  - intros H H0 H1. unfold reader_init. cbn [get_node]. rewrite H. cbn [rbind list_nodes]. rewrite H0. cbn [rbind get_node]. rewrite H1. reflexivity.
Qed.

(** the reader after some calls of get_next_run, whatever they returned *)
Definition after_next (zs : list (option Z)) (r : reader) : reader := fold_left (fun r z => snd (get_next_run z r)) zs r.
(*! C110: the calls of get_next_run give the runs of the file one after the other, each exactly once, and None from then on; a call that raises because of its z index has used up its run as well. *)
Lemma C110_iteration_l : forall (file : node) (name : string) (s0 : saved) (ss : list saved) (r : reader), file_of file name (s0 :: ss) -> reader_init file name = Ok r ->
  forall (zs : list (option Z)) (z : option Z),
  ((length zs <= length ss)%nat -> fst (get_next_run z (after_next zs r)) = rmap Some (get_run r (Some (Z.of_nat (length zs))) z)) /\
  ((length ss < length zs)%nat -> get_next_run z (after_next zs r) = (Ok None, after_next zs r)).
Proof.
  intros file name s0 ss r Hf Hr zs z. rewrite (init_ok file name s0 ss Hf) in Hr. apply Ok_inj in Hr. subst r.
  set (N := length (s0 :: ss)). set (at_ := fun i => mkReader file name N i (sv_frep s0)).
  assert (ST : forall i z, snd (get_next_run z (at_ i)) = at_ (if (i <? N)%nat then (i + 1)%nat else i)).
  { intros i z'. unfold get_next_run, bind, get. cbn [at_ rd_int rd_runs]. destruct (i <? N)%nat; [|reflexivity]. unfold modify, lift, ret. cbn [rd_file rd_root rd_runs rd_int rd_frep]. destruct (get_run _ _ _); reflexivity. }
  assert (AF : forall zs i, (i <= N)%nat -> after_next zs (at_ i) = at_ (Nat.min N (i + length zs))).
  { induction zs0 as [|z' zs0 IH]; intros i Hi; unfold after_next; cbn [fold_left length].
    - rewrite Nat.add_0_r, Nat.min_r by lia. reflexivity.
    - rewrite ST. destruct (Nat.ltb_spec i N); fold (after_next zs0 (at_ (i + 1)%nat)); fold (after_next zs0 (at_ i)); rewrite IH by lia; f_equal; lia. }
  change (mkReader file name N 0 (sv_frep s0)) with (at_ 0%nat). rewrite AF by lia. cbn [Nat.add].
  assert (SAME : forall i k z, get_run (at_ i) k z = get_run (at_ 0%nat) k z) by (intros; reflexivity).
  split; intros H.
  - assert (HN : (length zs < N)%nat) by (unfold N; cbn [length]; lia). rewrite Nat.min_r by lia. unfold get_next_run, bind, get. cbn [at_ rd_int rd_runs]. destruct (Nat.ltb_spec (length zs) N); [|lia]. unfold modify, lift, ret.
    change (mkReader file name N (length zs) (sv_frep s0)) with (at_ (length zs)). rewrite SAME. destruct (get_run (at_ 0%nat) _ z); reflexivity.
  - assert (HN : (N <= length zs)%nat) by (unfold N; cbn [length]; lia). rewrite Nat.min_l by lia. unfold get_next_run, bind, get. cbn [at_ rd_int rd_runs]. rewrite Nat.ltb_irrefl. reflexivity.
Qed.
(*! C110: the repetition rate stored with a run is not the one its pulses report: all runs report that of run 0. *)
Lemma C110_own_rate_refuted_l : forall (file : node) (name : string) (s0 : saved) (ss : list saved) (r : reader) (n : nat) (s : saved) (z : Z) (p sg id : pulse), file_of file name (s0 :: ss) -> reader_init file name = Ok r -> nth_error (s0 :: ss) n = Some s -> sv_frep s <> sv_frep s0 ->
  get_run r (Some (Z.of_nat n)) (Some z) = Ok (p, sg, id) -> get_frep_mks p = (Ok (Some (sv_frep s0)), p) /\ fst (get_frep_mks p) <> Ok (Some (sv_frep s)).
Proof.
  intros file name s0 ss r n s z p sg id Hf Hr Hs Hne Hg. destruct (C110_read_l file name s0 ss Hf) as (r' & Hr' & H). rewrite Hr in Hr'. apply Ok_inj in Hr'. subst r'. destruct (H n s Hs) as (_ & Hz).
  destruct (py_index (sv_nz s) z) as [i|e] eqn:Ei.
  - destruct (Hz z i Ei) as (p' & sg' & id' & E & W & _). rewrite Hg in E. apply Ok_inj in E. assert (p = p') by congruence. subst p'. destruct W as (_ & _ & _ & _ & _ & W). split; [exact W|]. rewrite W. cbn [fst]. intros Q. injection Q as Q. congruence.
  - exfalso. assert (e = IndexError) by (unfold py_index in Ei; destruct (_ <? _)%Z; [congruence|]; destruct (_ <=? _)%Z; congruence). subst e.
    destruct (C110_arguments_l file name s0 ss r Hf Hr) as (_ & _ & _ & _ & B). rewrite (B n s z Hs) in Hg; [discriminate|]. unfold py_index in Ei. destruct (Z.ltb_spec z (- Z.of_nat (sv_nz s))); [lia|]. destruct (Z.leb_spec (Z.of_nat (sv_nz s)) z); [lia|]. discriminate.
Qed.

(** ** Writing *)
Lemma child_app s l l' : child s (l ++ l')%list = match child s l with Some x => Some x | None => child s l' end.
Proof. induction l as [|[t x] l IH]; [reflexivity|]. cbn [app child]. destruct (String.eqb t s); [reflexivity|exact IH]. Qed.
Lemma child_replace s t y l : child s (replace_child t y l) = if String.eqb t s then match child s l with Some _ => Some y | None => None end else child s l.
Proof.
  induction l as [|[u x] l IH]; cbn [replace_child child]; [destruct (String.eqb t s); reflexivity|]. destruct (String.eqb_spec u t) as [E|E]; cbn [child].
  - subst u. destruct (String.eqb t s); reflexivity.
  - destruct (String.eqb_spec u s) as [F|F]; [|exact IH]. subst u. destruct (String.eqb_spec t s); [congruence|reflexivity].
Qed.
Lemma child_remove s t l : child s (remove_child t l) = if String.eqb t s then None else child s l.
Proof.
  induction l as [|[u x] l IH]; [cbn; destruct (String.eqb t s); reflexivity|]. unfold remove_child in *. cbn [filter fst child]. destruct (String.eqb_spec u t) as [E|E]; cbn [negb child].
  - subst u. rewrite IH. destruct (String.eqb_spec t s); reflexivity.
  - rewrite IH. destruct (String.eqb_spec u s) as [F|F]; [|reflexivity]. subst u. destruct (String.eqb_spec t s); [congruence|reflexivity].
Qed.
(** the file and the outcomes after a sequence of add_run calls *)
Fixpoint add_runs (calls : list (nat * nat * R)) (w : writer) : list (result unit) * writer :=
  match calls with [] => ([], w) | (nvar, nsave, param) :: cs => let (r, w') := add_run nvar nsave param w in let (rs, w'') := add_runs cs w' in (r :: rs, w'') end.

(*! C111: no run is ever written.  A writer on a new parameter name, or on one with an empty group, opens; the first add_run raises TypeError after creating the group of the run, every further one raises AttributeError (NodeError), and afterwards the file cannot be opened by DFGReader for this parameter. *)
Lemma C111_add_run_refuted_l : forall (file : list (string * node)) (name : string) (nvar nsave : nat) (param : R) (calls : list (nat * nat * R)) (w : writer), fst (writer_init file name) = Ok w ->
  exists w', add_runs ((nvar, nsave, param) :: calls) w = (Raise TypeError :: repeat (Raise AttributeError) (length calls), w') /\ reader_init (NGroup (wr_file w')) name = Raise AttributeError.
Proof.
  intros file name nvar nsave param calls w Hw.
  assert (Q : wr_root w = name /\ wr_ctr w = 0%nat /\ child name (wr_file w) = Some (NGroup [])).
  { unfold writer_init in Hw. destruct (child name file) as [[[|c l]|l|k l]|] eqn:E; cbn [fst] in Hw; try discriminate; apply Ok_inj in Hw; subst w; cbn [wr_root wr_ctr wr_file]; (split; [reflexivity|]; split; [reflexivity|]); rewrite child_app, ?child_remove, ?E, ?String.eqb_refl; cbn [child]; rewrite String.eqb_refl; reflexivity. }
  destruct Q as (Hr & Hc & Hn). destruct w as [f root ctr]. cbn [wr_root wr_ctr wr_file] in Hr, Hc, Hn. subst root ctr.
  set (w1 := mkWriter (replace_child name (NGroup [(run_name 0, NGroup [])]) f) name 0).
  assert (N1 : child name (wr_file w1) = Some (NGroup [(run_name 0, NGroup [])])) by (cbn [w1 wr_file]; rewrite child_replace, String.eqb_refl, Hn; reflexivity).
  assert (S1 : add_run nvar nsave param (mkWriter f name 0) = (Raise TypeError, w1)). { unfold add_run, bind, get. cbn [wr_root wr_file wr_ctr]. rewrite Hn. reflexivity. }
  assert (SN : forall a b c, add_run a b c w1 = (Raise AttributeError, w1)). { intros a b c. unfold add_run, bind, get. change (wr_root w1) with name. rewrite N1. reflexivity. }
  exists w1. split.
  - cbn [add_runs]. rewrite S1. assert (K : add_runs calls w1 = (repeat (Raise AttributeError) (length calls), w1)). { induction calls as [|[[a b] c] cs IH]; [reflexivity|]. cbn [add_runs length repeat]. rewrite SN, IH. reflexivity. } rewrite K. reflexivity.
  - unfold reader_init. cbn [get_node]. rewrite N1. reflexivity.
Qed.
(*! C111: opening a writer on a parameter that already has runs does not delete them, as the printed message says, but raises AttributeError (NodeError) and leaves the file as it is. *)
Lemma C111_overwrite_refuted_l : forall (file : list (string * node)) (name run : string) (x : node) (runs : list (string * node)), child name file = Some (NGroup ((run, x) :: runs)) -> writer_init file name = (Raise AttributeError, file).
Proof. intros file name run x runs H. unfold writer_init. rewrite H. reflexivity. Qed.
(*! C111: whatever a writer does, the nodes of all other parameters stay as they are, and so does what a reader returns for them. *)
Lemma C111_others_untouched_l : forall (file : list (string * node)) (name other : string) (calls : list (nat * nat * R)), other <> name ->
  child other (snd (writer_init file name)) = child other file /\
  forall w, fst (writer_init file name) = Ok w -> child other (wr_file (snd (add_runs calls w))) = child other file.
Proof.
  intros file name other calls Hne. apply not_eq_sym in Hne. apply String.eqb_neq in Hne.
  assert (A : forall v, child other (file ++ [(name, v)])%list = child other file) by (intros v; rewrite child_app; cbn [child]; rewrite Hne; destruct (child other file); reflexivity).
  assert (B : forall v, child other (remove_child name file ++ [(name, v)])%list = child other file) by (intros v; rewrite child_app, child_remove, Hne; cbn [child]; rewrite Hne; destruct (child other file); reflexivity).
  assert (I : child other (snd (writer_init file name)) = child other file) by (unfold writer_init; destruct (child name file) as [[[|c l]|l|k l]|]; cbn [snd]; auto).
  split; [exact I|]. intros w Hw.
  assert (Q : wr_root w = name /\ child other (wr_file w) = child other file).
  { unfold writer_init in Hw. destruct (child name file) as [[[|c l]|l|k l]|]; cbn [fst] in Hw; try discriminate; apply Ok_inj in Hw; subst w; cbn [wr_root wr_file]; auto. }
  destruct Q as [Q1 Q2]. clear Hw I. revert w Q1 Q2. induction calls as [|[[a b] c] cs IH]; intros w Q1 Q2; [exact Q2|]. cbn [add_runs].
  destruct (add_run a b c w) as [r w'] eqn:E. specialize (IH w'). destruct (add_runs cs w') as [rs w''] eqn:E2. cbn [snd] in *.
  apply IH; unfold add_run, bind, get, raise, modify in E; destruct (child (wr_root w) (wr_file w)) as [[l|l|k l]|]; try (injection E as <- <-; assumption); destruct (child (run_name (wr_ctr w)) l); injection E as <- <-; try assumption.
  cbn [wr_file]. rewrite child_replace, Q1, Hne. exact Q2.
Qed.

(** Concrete cases for C109-C111: a file with two runs of two-point fields at three z positions. *)
From Coq Require Import String.
From Coq Require Import Reals List ZArith Bool Arith Lia Lra.
From Coquelicot Require Import Complex.
From Verif Require Import Base CNum NumPy ModelPulse PulseProofs ModelDerivedMore ModelRunFile RunFileProofs PropsRunFile.
Import ListNotations.
Local Open Scope R_scope.

Definition wv (x wl : R) : wave := mkWave [[RtoC x; RtoC (x + 1); (0, x)]; [RtoC 0; RtoC 1; RtoC 2]] 10 wl.
Definition sv (x fr : R) : saved := mkSaved 3 (wv x 1064) (wv (2 * x) 1550) (wv (3 * x) 3400) fr x.
Definition nodes (s : saved) : list (string * node) :=
  [("pump", NCplx 3 (wv_rows (sv_pump s))); ("sgnl", NCplx 3 (wv_rows (sv_sgnl s))); ("idlr", NCplx 3 (wv_rows (sv_idlr s)));
   ("pump_Twind", NReal [10]); ("sgnl_Twind", NReal [10]); ("idlr_Twind", NReal [10]);
   ("pump_center_nm", NReal [1064]); ("sgnl_center_nm", NReal [1550]); ("idlr_center_nm", NReal [3400]); ("frep_Hz", NReal [sv_frep s]); ("param", NReal [sv_param s])]%string.
Definition file2 : list (string * node) := [("temperature", NGroup [("run1", NGroup (nodes (sv 7 2e8))); ("run0", NGroup (nodes (sv 5 1e8)))]); ("other", NGroup [])]%string.
Lemma file2_ok : file_of (NGroup file2) "temperature" [sv 5 1e8; sv 7 2e8].
Proof.
  eexists. eexists. split; [reflexivity|]. split; [reflexivity|]. split; [reflexivity|]. intros n s Hs. destruct n as [|[|n]]; cbn [nth_error] in Hs.
  - injection Hs as <-. eexists. split; [reflexivity|]. repeat split.
  - injection Hs as <-. eexists. split; [reflexivity|]. repeat split.
  - destruct n; discriminate.
Qed.
Example ex_C110 : exists r p sg id, reader_init (NGroup file2) "temperature" = Ok r /\ get_run r None None = Ok (p, sg, id) /\ is_wave p (wv 7 1064) 2 1e8 /\ get_run_param r None = Ok 7.
Proof.
  destruct (C110_read (NGroup file2) "temperature" (sv 5 1e8) [sv 7 2e8] file2_ok) as (r & Hr & H). destruct (C110_arguments (NGroup file2) "temperature" (sv 5 1e8) [sv 7 2e8] r file2_ok Hr) as (D1 & D2 & D3 & _).
  destruct (H 1%nat (sv 7 2e8) eq_refl) as (P & Q). destruct (Q (-1)%Z 2%nat eq_refl) as (p & sg & id & E & W & _). exists r, p, sg, id. split; [exact Hr|]. rewrite D1, D2, D3. auto.
Qed.
Example ex_C110_iteration : exists r, reader_init (NGroup file2) "temperature" = Ok r /\ fst (get_next_run None (after_next [None; None] r)) = Ok None.
Proof.
  destruct (C110_read (NGroup file2) "temperature" (sv 5 1e8) [sv 7 2e8] file2_ok) as (r & Hr & _). exists r. split; [exact Hr|]. destruct (C110_iteration (NGroup file2) "temperature" (sv 5 1e8) [sv 7 2e8] r file2_ok Hr [None; None] None) as (_ & H). rewrite H by (cbn; lia). reflexivity.
Qed.
Example ex_C110_rate : exists r p, reader_init (NGroup file2) "temperature" = Ok r /\ fst (get_frep_mks p) <> Ok (Some 2e8).
Proof.
  destruct (C110_read (NGroup file2) "temperature" (sv 5 1e8) [sv 7 2e8] file2_ok) as (r & Hr & H). destruct (H 1%nat (sv 7 2e8) eq_refl) as (_ & Q). destruct (Q (-1)%Z 2%nat eq_refl) as (p & sg & id & E & _).
  exists r, p. split; [exact Hr|]. apply (C110_own_rate_refuted (NGroup file2) "temperature" (sv 5 1e8) [sv 7 2e8] r 1 (sv 7 2e8) (-1) p sg id file2_ok Hr eq_refl); [cbn; lra|exact E].
Qed.
Example ex_C110_unreadable : reader_init (NGroup file2) "other" = Raise AttributeError /\ reader_init (NGroup [("t", NGroup [("run0", NGroup [("frep_Hz", NReal [])])])]%string) "t" = Raise IndexError.
Proof.
  split.
  - apply (proj1 (proj2 (C110_unreadable file2 [] [] "other"))); reflexivity.
  - apply (proj2 (proj2 (proj2 (C110_unreadable [("t", NGroup [("run0", NGroup [("frep_Hz", NReal [])])])]%string [("run0", NGroup [("frep_Hz", NReal [])])]%string [("frep_Hz", NReal [])]%string "t")))); reflexivity.
Qed.
Example ex_C111 : exists w w', fst (writer_init file2 "other") = Ok w /\ add_runs [(96%nat, 10%nat, 1); (96%nat, 10%nat, 2)] w = ([Raise TypeError; Raise AttributeError], w') /\ reader_init (NGroup (wr_file w')) "other" = Raise AttributeError.
Proof. eexists. destruct (C111_add_run_refuted file2 "other" 96 10 1 [(96%nat, 10%nat, 2)] _ eq_refl) as (w' & H1 & H2). exists w'. split; [reflexivity|]. auto. Qed.
Example ex_C111_overwrite : writer_init file2 "temperature" = (Raise AttributeError, file2).
Proof. apply (C111_overwrite_refuted file2 "temperature" "run1" (NGroup (nodes (sv 7 2e8))) [("run0"%string, NGroup (nodes (sv 5 1e8)))]). reflexivity. Qed.
Example ex_C111_others : child "temperature" (snd (writer_init file2 "other")) = child "temperature" file2.
Proof. apply (C111_others_untouched file2 "other" "temperature" []). discriminate. Qed.
(** C109: twenty instead of ten picoseconds doubles the energy of the pulse that is left behind *)
Example ex_C109 : exists q, gen_OSA 20 1550 1 false true 30 (mkPulse 2 200 10 (Some [RtoC 1; RtoC 0]) None true None None None None) = (Raise AttributeError, q) /\ p_tw q = 20 /\ p_AW q = Some [RtoC 1; RtoC 0].
Proof. destruct (C109_gen_OSA_refuted 20 1550 1 false true 30 (mkPulse 2 200 10 (Some [RtoC 1; RtoC 0]) None true None None None None)) as (q & E & T & A & _). exists q. auto. Qed.

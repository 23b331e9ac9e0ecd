(** Concrete cases for the additions to C130. *)
From Coq Require Import Reals List ZArith Bool Arith Lia Lra.
From Coquelicot Require Import Complex.
From Verif Require Import Base CNum NumPy ModelFields FieldsProofs FieldsWriteProofs PropsFieldsWrite ExFields.
Import ListNotations.
Local Open Scope R_scope.

Example ex_C130_order : t_fields (obj (snd (set_pump 0 [Ci; Ci] (snd (set_sgnl 0 [RtoC 1; RtoC 2] (snd (set_idlr 0 [RtoC 3; RtoC 4] fh)))))) 0) = [[Ci; Ci]; [RtoC 1; RtoC 2]; [RtoC 3; RtoC 4]].
Proof.
  apply (C130_order fh 0 [Ci; Ci] [RtoC 1; RtoC 2] [RtoC 3; RtoC 4] fh_reach) with (ops := [set_idlr 0 [RtoC 3; RtoC 4]; set_sgnl 0 [RtoC 1; RtoC 2]; set_pump 0 [Ci; Ci]]); try reflexivity; [cbn; lia|]. do 5 right. left. reflexivity.
Qed.
(** one row of two points goes into all three fields; two rows are refused *)
Example ex_C130_all : exists h', set_all 0 [[Ci; RtoC 5]] fh = (Ok tt, h') /\ nth 1 (read_row IDLR 0 h') (RtoC 0) = RtoC 5 /\ nth 0 (read_row PUMP 0 h') (RtoC 0) = Ci.
Proof.
  destruct (C130_all fh 0 2 [[Ci; RtoC 5]] fh_reach ltac:(cbn; lia) ltac:(discriminate) ltac:(intros r [<-|[]]; reflexivity)) as (H & _). destruct H as (h' & E & V & _); [right; reflexivity|left; reflexivity|]. exists h'. split; [exact E|]. split; [exact (V 2%nat 1%nat ltac:(lia) ltac:(cbn; lia))|exact (V 0%nat 0%nat ltac:(lia) ltac:(cbn; lia))].
Qed.
Example ex_C130_all_refused : set_all 0 [[Ci; RtoC 5]; [Ci; RtoC 5]] fh = (Raise ValueError, fh).
Proof.
  destruct (C130_all fh 0 2 [[Ci; RtoC 5]; [Ci; RtoC 5]] fh_reach ltac:(cbn; lia) ltac:(discriminate) ltac:(intros r [<-|[<-|[]]]; reflexivity)) as (_ & H). apply H. cbn. lia.
Qed.
(** get_sgnl()[-1] = 9 *)
Example ex_C130_view : exists h', write_field 0 SGNL (-1) (RtoC 9) fh = (Ok tt, h') /\ nth 1 (read_row SGNL 0 h') (RtoC 0) = RtoC 9 /\ nth 0 (read_row SGNL 0 h') (RtoC 0) = Ci.
Proof.
  destruct (C130_view fh 0 SGNL (-1) (RtoC 9) fh_reach ltac:(cbn; lia) ltac:(unfold SGNL; lia)) as (H & _). destruct H as (h' & E & V & _); [cbn; lia|]. exists h'. split; [exact E|]. split; [exact (V 1%nat ltac:(cbn; lia))|exact (V 0%nat ltac:(cbn; lia))].
Qed.
(** ks[1, -1] was 7 and becomes 8; index 2 is outside *)
Example ex_C130_arrays : exists h2, write_k 0 1 (-1) 8 fh = (Ok tt, h2) /\ nth 1 (nth 1 (t_ks (obj h2 0)) []) 0 = 8 /\ write_k 0 1 2 8 fh = (Raise IndexError, fh).
Proof.
  destruct (C130_arrays fh 0 1 (-1) (RtoC 0) 8 fh_reach ltac:(cbn; lia) ltac:(lia)) as (H & _). destruct H as (h1 & h2 & _ & E & _ & V & _); [cbn; lia|]. exists h2. split; [exact E|]. split; [exact (V 1%nat ltac:(cbn; lia))|].
  destruct (C130_arrays fh 0 1 2 (RtoC 0) 8 fh_reach ltac:(cbn; lia) ltac:(lia)) as (_ & H). apply H. cbn. lia.
Qed.

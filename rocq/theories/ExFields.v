(** Concrete cases for C130 and C131. *)
From Coq Require Import Reals List ZArith Bool Arith Lia Lra.
From Coquelicot Require Import Complex.
From Verif Require Import Base CNum NumPy ModelFields FieldsProofs PropsFields.
Import ListNotations.
Local Open Scope R_scope.

(** two objects of two points; the first has a pump field and a wave vector *)
Definition fh : heap := run_fop (FK 0 1 (-1) 7) (run_fop (FRow SGNL 0 [Ci; RtoC 2]) (run_fop (FNew 2) (run_fop (FNew 2) heap0))).
Lemma fh_reach : reach fh.
Proof. unfold fh. repeat apply reach1; try apply reach0; cbn; auto. Qed.
Lemma fh_is : fh = mkH [mkT 2 [[RtoC 0; RtoC 0]; [Ci; RtoC 2]; [RtoC 0; RtoC 0]] (repeat [RtoC 0; RtoC 0] 3) [[0; 0]; [0; 7]; [0; 0]]; blank 2] [0; 0; 0].
Proof. reflexivity. Qed.
Example ex_C130_set : exists h', set_idlr 0 [RtoC 5] fh = (Ok tt, h') /\ nth 1 (read_row IDLR 0 h') (RtoC 0) = RtoC 5 /\ read_row SGNL 0 h' = [Ci; RtoC 2].
Proof.
  destruct (C130_set_get fh 0 IDLR [RtoC 5] fh_reach) as (H & _); [cbn; lia|unfold IDLR; lia|]. destruct H as (h' & E & _ & N & K & _); [right; reflexivity|]. exists h'. split; [exact E|]. split; [exact (N 1%nat ltac:(cbn; lia))|]. rewrite K by (left; discriminate). reflexivity.
Qed.
Example ex_C130_refused : set_pump 0 [RtoC 1; RtoC 2; RtoC 3] fh = (Raise ValueError, fh).
Proof. destruct (C130_set_get fh 0 PUMP [RtoC 1; RtoC 2; RtoC 3] fh_reach) as (_ & H); [cbn; lia|unfold PUMP; lia|]. apply H; cbn; lia. Qed.
(** the copy keeps its signal while the original's is overwritten through the view that get_sgnl returned *)
Example ex_C130_copy : exists c h1, create_copy 0 fh = (Ok c, h1) /\ read_row SGNL c h1 = [Ci; RtoC 2] /\ read_row SGNL c (run_fop (FField 0 SGNL 0 (RtoC 9)) h1) = [Ci; RtoC 2] /\ read_row SGNL 0 (run_fop (FField 0 SGNL 0 (RtoC 9)) h1) = [RtoC 9; RtoC 2].
Proof.
  destruct (C130_copy fh 0 fh_reach) as (c & h1 & E & L & _ & R & _ & O & K & _); [cbn; lia|]. exists c, h1. split; [exact E|]. split; [rewrite R; reflexivity|]. split.
  - assert (P : fop_ok h1 (FField 0 SGNL 0 (RtoC 9))). { cbn. assert (E' := E). cbn in E'. injection E' as _ <-. cbn. unfold SGNL. lia. }
    unfold read_row. rewrite (K [FField 0 SGNL 0 (RtoC 9)] _ (leads1 _ _ _ _ P (leads0 _))); [fold (read_row SGNL c h1); rewrite R; reflexivity|]. intros x [<-|[]]. cbn [target]. cbn in L. intros Q. injection Q as Q. lia.
  - assert (E' := E). cbn in E'. injection E' as _ <-. reflexivity.
Qed.
Example ex_C130_unequal : exists c h1, create_copy 0 fh = (Ok c, h1) /\ t_ks (obj h1 c) <> t_ks (obj h1 0).
Proof. destruct (C130_copy_equal_refuted fh 0 1 1 fh_reach) as (c & h1 & E & _ & N); [cbn; lia|lia|cbn; lia|rewrite fh_is; unfold obj; cbn [nth h_objs t_ks]; lra|]. exists c, h1. auto. Qed.
Example ex_C130_shared : exists h1, write_k0 0 2 4 fh = (Ok tt, h1) /\ read_k0 1 2 h1 = 4.
Proof. destruct (C130_shared_k0s_refuted fh 0 1 2 2 4 fh_reach) as (h1 & E & _ & R & _); [cbn; lia|cbn; lia|lia|]. exists h1. auto. Qed.
Example ex_C131 : calculate_overlap (waists 10 20 40) (AInt 0) (AInt 2) = Ok 25.
Proof. destruct (C131_overlap_partial 10 20 40 0 2) as (V & _). rewrite V by lia. f_equal. change ((10 + 40) / 2 = 25). lra. Qed.
Example ex_C131_idler : calculate_overlap (waists 10 20 40) (AInt 0) (AInt 3) = Raise IndexError.
Proof. apply (C131_idler_code_refuted 10 20 40 0). lia. Qed.

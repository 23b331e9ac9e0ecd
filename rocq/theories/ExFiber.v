(** Concrete cases for the fiber theorems C55-C58, C66-C68. *)
From Coq Require Import String.
From Coq Require Import Reals List ZArith Bool Arith Factorial Lia Lra.
From Verif Require Import Base CNum NumPy ModelPulse PulseProofs ModelCrystal CrystalProofs ModelBeam BeamProofs ModelFiber FiberProofs FiberShareProofs PropsFiber PropsFiberShare PropsFiberLocal.
Import ListNotations.
Local Open Scope R_scope.
Local Open Scope py_scope.

(** four points, 1 ps window, 10 THz *)
Definition p4 : pulse := mkPulse 4 10 1 None None true None None None None.
(** a constant "fit" through the first point, and a "spline" that squares *)
Definition pf : list R -> list R -> nat -> result (list R) := fun _ y _ => Ok [nth 0 y 0].
Definition sp : list R -> list R -> list R -> result (list R) := fun _ _ v => Ok (map (fun x => x * x) v).
Definition f0 : fiber := snd (fiber_init [] [empty_specs]).
(** beta2 = 2, beta3 = 3, centred at 10 THz *)
Definition fib : heap * fiber := snd (generate_fiber 5 (c_nmps / 10) [2; 3] 0.1 0.5 "ps^n/m" "mine" ([empty_specs], f0)).
Lemma c_ne : c_nmps / 10 <> 0.
Proof. unfold c_nmps, c_mks. lra. Qed.
Lemma fib_facts : d_format (self_specs fib) = Some "GVD"%string /\ f_center (snd fib) = Some (c_nmps / 10) /\ f_betas (snd fib) = Some [2; 3] /\ f_dz (snd fib) = None /\ f_gz (snd fib) = None.
Proof. repeat split. Qed.

(** C55: hypotheses of the value formula and of the reference theorem met; the array is (0-based) at 0: 2/2 (4 pi)^2 - ... *)
Example ex_C55_value : exists B s', get_betas pf sp p4 0 fib = (Ok (Some B), s') /\ length B = 4%nat /\ nth 2 B 0 = 0 /\ nth 3 B 0 = 4 * PI ^ 2.
Proof.
  destruct fib_facts as (H1 & H2 & H3 & H4 & _).
  destruct (C55_gvd_value pf sp p4 0 2 fib (c_nmps / 10) [2; 3] eq_refl eq_refl ltac:(lia) ltac:(cbn; lra) H1 H2 c_ne ltac:(rewrite H4; exact H3)) as (B & s' & E & L & V). exists B, s'. split; [exact E|]. split; [exact L|].
  split.
  - apply (C55_referenced_partial pf sp p4 0 2 fib s' B eq_refl ltac:(lia) ltac:(cbn; lra) (or_introl H1) E).
  - cbv zeta in V. rewrite V by (cbn; lia). unfold rsum, lrsum, mk. cbn [length seq map fold_right nth Nat.add Nat.sub]. change (fact 2) with 2%nat. change (fact 3) with 6%nat. rewrite !INR_IZR_INZ. cbn [Z.of_nat Pos.of_succ_nat Pos.succ p4 p_f p_tw].
    replace (2 * PI * c_nmps / (c_nmps / 10)) with (2 * PI * 10) by (field; unfold c_nmps, c_mks; lra). field. pose proof PI_RGT_0. lra.
Qed.
(** C55: the index format is reached through set_dispersion_function *)
Definition fibn : heap * fiber := snd (set_dispersion_function (DXY (fun _ => ([1000], [1.5]))) "n" fib).
Example ex_C55_index : exists B s', get_betas pf sp p4 0 fibn = (Ok (Some B), s') /\ nth 2 B 0 = 0 /\ (d_format (self_specs fibn) = Some "GVD"%string \/ d_format (self_specs fibn) = Some "n"%string).
Proof.
  assert (F : d_format (self_specs fibn) = Some "n"%string) by reflexivity.
  assert (E : exists B s', get_betas pf sp p4 0 fibn = (Ok (Some B), s')).
  { destruct fibn as [h f] eqn:Ef. assert (Hz : f_dz f = Some (DXY (fun _ => ([1000], [1.5])))) by (apply (f_equal snd) in Ef; cbn [snd] in Ef; rewrite <- Ef; reflexivity). rewrite get_betas_body. cbv zeta. unfold self_specs in F. cbn [fst snd] in F. unfold refreshed. rewrite Hz, F. cbn [String.eqb Ascii.eqb Bool.eqb orb fst snd]. unfold body. rewrite F. cbn [String.eqb Ascii.eqb Bool.eqb fst f_x f_y set_xy rbind rtraverse]. rewrite fdiv_ok by lra. cbn [rbind].
    destruct (bcast_some (fun y x => fdiv (y * 2 * PI) (x * 1e-9)) [1.5] [1000] 0 0) as [r ->]; [left; reflexivity| |]. { intros i Hi. cbn in Hi. replace i with 0%nat by lia. unfold bget. cbn. rewrite fdiv_ok by lra. eauto. }
    cbn [rbind]. change (p_ready p4) with true. cbn [rbind sp]. rewrite (recentre_ok p4 _ _ 2) by (try reflexivity; try lia; try (cbn; lra); rewrite map_length; apply W_of_length). cbn [fst rbind]. eauto. }
  destruct E as (B & s' & E). exists B, s'. split; [exact E|]. split; [|right; exact F]. apply (C55_referenced_partial pf sp p4 0 2 fibn s' B eq_refl ltac:(lia) ltac:(cbn; lra) (or_intror F) E).
Qed.
(** C55: a tabulated fiber *)
Definition fibD : heap * fiber := snd (load_from_file [1000] [-1] 5 "file" 0.1 0 0 ([empty_specs], f0)).
Example ex_C55_tabulated : d_format (self_specs fibD) = Some "D"%string /\ exists B s', get_betas pf sp p4 0 fibD = (Ok (Some B), s') /\ length B = 4%nat.
Proof.
  split; [reflexivity|]. assert (E : exists B s', get_betas pf sp p4 0 fibD = (Ok (Some B), s')).
  { assert (F : d_format (self_specs fibD) = Some "D"%string) by reflexivity. assert (X : f_x (snd fibD) = Some [1000]) by reflexivity. assert (Y : f_y (snd fibD) = Some [-1]) by reflexivity. assert (P : f_poly (snd fibD) = Some 0%nat) by reflexivity. assert (Z : f_dz (snd fibD) = None) by reflexivity.
    destruct fibD as [h f]. unfold self_specs in F. cbn [fst snd] in *. rewrite get_betas_body. cbv zeta. unfold refreshed. rewrite Z. unfold body. rewrite F. cbn [String.eqb Ascii.eqb Bool.eqb]. rewrite X, Y, P. cbn [length Nat.eqb combine]. unfold DTabulationToBetas, modify, get, lift, bind, ret. cbn [map fst snd rtraverse]. rewrite fdiv_ok by lra. cbn [rbind]. rewrite fdiv_ok by (cbn [p_f p4]; unfold c_nmps, c_mks; lra). cbn [rbind pf fst rev app length]. rewrite mk_length. cbn [Nat.eqb]. change (p_ready p4) with true. cbn [fst]. eauto. }
  destruct E as (B & s' & E). exists B, s'. split; [exact E|]. destruct (C55_tabulated pf sp p4 0 fibD s' B eq_refl E) as (b & L & _). exact L.
Qed.
(** C55: repeated calls with other pulses; C56 *)
Example ex_C55_repeat : fst (get_betas pf sp p4 0 (fold_left (fun s c => snd (get_betas pf sp (fst c) (snd c) s)) [(p4, 1); (with_n 6 p4, 2)] fibD)) = fst (get_betas pf sp p4 0 fibD).
Proof. exact (C55_repeatable pf sp p4 0 fibD [(p4, 1); (with_n 6 p4, 2)]). Qed.
Example ex_C56 : f_length (snd fib) = Some 5 /\ get_gamma 3 fib = (Ok (Some 0.1), fib) /\ get_gain p4 fib = (Ok [0.5; 0.5; 0.5; 0.5], fib).
Proof.
  destruct (C56_parameters [empty_specs] f0 5 (c_nmps / 10) [2; 3] 0.1 0.5 "ps^n/m" "mine") as (h' & f' & E & L & _ & _ & G & A). assert (Q : fib = (h', f')) by exact (f_equal snd E). rewrite Q. split; [exact L|]. split; [apply G; reflexivity|]. rewrite A. reflexivity.
Qed.
(** C57: fiber 0 is generated with gain 0.5, fiber 1 is loaded from a file and given a dispersion function *)
Example ex_C57 : let w := frun pf sp ([FNew []; FNew []] ++ FGenerate 0 5 1550 [2] 0.1 0.5 "ps^n/m" "a" :: []) fworld0 in
  fst (fstep pf sp (frun pf sp [FLoadFile 1 [1000] [-1] 5 "file" 0.1 0 0; FSetDisp 1 (DBetas (fun _ => [0])) "GVD"] w) (FGain 0 p4)) = FArr (Ok [0.5; 0.5; 0.5; 0.5]).
Proof.
  cbv zeta. rewrite (C57_own_dictionary_partial pf sp [FNew []; FNew []] (FGenerate 0 5 1550 [2] 0.1 0.5 "ps^n/m" "a") [] _ 0 (FGain 0 p4)); [|exact eq_refl|reflexivity| |exact eq_refl].
  - destruct (C56_parameters [empty_specs] f0 5 1550 [2] 0.1 0.5 "ps^n/m" "a") as (h' & f' & E & _ & _ & _ & _ & A). specialize (A p4).
    assert (Q : frun pf sp ([FNew []; FNew []] ++ FGenerate 0 5 1550 [2] 0.1 0.5 "ps^n/m" "a" :: []) fworld0 = mkFW h' [f'; f0]).
    { cbn [app frun fold_left fstep]. unfold call. cbn [snd fw_fs fw_heap nth_error app fworld0 fiber_init map combine fst seq length]. change (mkFiber None [] None None None None None None None None None None None) with f0. match goal with |- context [generate_fiber ?a ?b ?c ?d ?e ?f ?g ?s] => replace (generate_fiber a b c d e f g s) with ((Ok tt, (h', f')) : result unit * (heap * fiber)) by (symmetry; exact E) end. reflexivity. }
    rewrite Q. cbn [fstep]. unfold call. cbn [fw_fs fw_heap nth_error]. rewrite A. reflexivity.
  - intros o [<-|[<-|[]]]; discriminate.
Qed.
(** C57: the other restriction, on a fiber that was itself read from a file *)
Example ex_C57_other : let w := frun pf sp [FNew []; FNew []; FLoadFile 0 [1000] [-1] 5 "a" 0.1 1 0] fworld0 in
  fst (fstep pf sp (frun pf sp [FGenerate 1 5 1550 [2] 0.1 0 "ps^n/m" "a"; FNew []] w) (FGain 0 p4)) = FArr (Ok [1; 1; 1; 1]).
Proof.
  cbv zeta. rewrite (C57_other_operations_partial pf sp [FNew []; FNew []; FLoadFile 0 [1000] [-1] 5 "a" 0.1 1 0] _ 0 (FGain 0 p4)); [|cbn; lia| |exact eq_refl].
  - destruct (C57_files_refuted pf sp [1000] [-1] [] [] p4 0.1 0 5 0 0 0 ltac:(discriminate)) as [Q _]. exact Q.
  - intros o [<-|[<-|[]]]; [discriminate|exact I].
Qed.
(** C58: pf is linear in the ordinates, and its answer is not zero *)
Example ex_C58 : (forall x y c, pf x y 0%nat = Ok c -> pf x (map (fun v => v * (1e-12 * 1e9 * 1e-3)) y) 0%nat = Ok (map (fun v => v * (1e-12 * 1e9 * 1e-3)) c)) /\
  exists v, fst (DTabulationToBetas pf 1000 0 [(1000, -1); (1100, 2)]) = Ok [v].
Proof.
  split; [intros x [|y0 y] c [= <-]; unfold pf; cbn [map nth]; rewrite ?Rmult_0_l; reflexivity|].
  unfold DTabulationToBetas, modify, get, lift, bind, ret, pf. cbn [map fst snd rtraverse]. rewrite !fdiv_ok by lra. cbn [rbind]. eexists. reflexivity.
Qed.
(** C66: Beta2 of the fiber above is 2 - 3*2 pi at the second point (one grid step below its centre) *)
Example ex_C66 : exists out s', Beta2 pf sp p4 fib = (Ok out, s') /\ nth 1 out 0 = 2 - 6 * PI /\ nth 2 out 0 = 2.
Proof.
  destruct fib_facts as (H1 & H2 & H3 & H4 & _).
  destruct (C66_beta2_exact pf sp p4 2 fib (c_nmps / 10) 2 3 eq_refl eq_refl ltac:(lia) ltac:(cbn; lra) H1 H4 H2 c_ne (or_introl H3)) as (out & s' & E & _ & K & _). exists out, s'. split; [exact E|].
  assert (Q : 2 * PI * c_nmps / (c_nmps / 10) = 20 * PI) by (field; unfold c_nmps, c_mks; lra). rewrite !K by (cbn; lia). rewrite Q. cbn [p4 p_f p_tw INR]. split; field.
Qed.
(** C67: the shipped entry *)
Example ex_C67 : let s := fiber_init [("dudley"%string, dudley)] [empty_specs] in exists f', load_from_db 0.12 "dudley" 2 s = (Ok tt, (fst s, f')) /\ f_center f' = Some 835 /\ f_gamma f' = Some 0.11.
Proof.
  cbv zeta. destruct (C67_load_partial (fst (fiber_init [("dudley"%string, dudley)] [empty_specs])) (snd (fiber_init [("dudley"%string, dudley)] [empty_specs])) 0.12 "dudley" 2 1 0.11 835 _ eq_refl eq_refl eq_refl eq_refl eq_refl eq_refl) as (f' & E & _ & _ & C & _ & G & _).
  exists f'. split; [exact E|]. split; [exact C|]. specialize (G eq_refl 0). unfold get_gamma, bind, gets in G. cbn [snd] in G. assert (Z : f_gz f' = None) by (apply (f_equal (fun r => f_gz (snd (snd r)))) in E; cbn [snd] in E; rewrite <- E; reflexivity). rewrite Z in G. injection G as G. exact G.
Qed.
(** C68: p4's wavelengths and the fiber above *)
Example ex_C68 : forall strf, exists w p1 b s', get_wl_nm strf p4 = (Ok (Some w), p1) /\ Beta2 pf sp p4 fib = (Ok b, s') /\ length w = length b /\ (forall v, In v w -> v <> 0) /\
  exists D, Beta2_to_D strf pf sp p4 fib = (Ok D, s') /\ length D = 4%nat.
Proof.
  intros strf. destruct fib_facts as (H1 & H2 & H3 & H4 & _).
  destruct (C66_beta2_exact pf sp p4 2 fib (c_nmps / 10) 2 3 eq_refl eq_refl ltac:(lia) ltac:(cbn; lra) H1 H4 H2 c_ne (or_introl H3)) as (b & s' & E & L & _).
  assert (W : get_wl_nm strf p4 = (Ok (Some (map (fun x => 2 * PI * c_nmps / x) (W_of p4))), with_wlc (Some (hash_of strf p4)) (Some (map (fun x => 2 * PI * c_nmps / x) (W_of p4))) p4)) by reflexivity.
  assert (NZ : forall v, In v (map (fun x => 2 * PI * c_nmps / x) (W_of p4)) -> v <> 0).
  { intros v Hv. apply in_map_iff in Hv as (x & <- & Hx). pose proof PI_RGT_0. assert (0 < c_nmps) by (unfold c_nmps, c_mks; lra). assert (x <> 0). { destruct (In_nth _ _ 0 Hx) as (k & Hk & <-). rewrite W_of_length in Hk. rewrite W_of_val by exact Hk. change (p_n p4) with 4%nat in *. cbn [p4 p_f p_tw]. destruct k as [|[|[|[|]]]]; [| | | |lia]; cbn [INR]; lra. }
    apply Rmult_integral_contrapositive_currified; [|apply Rinv_neq_0_compat; assumption]. assert (0 < PI * c_nmps) by (apply Rmult_lt_0_compat; assumption). lra. }
  eexists _, _, b, s'. split; [exact W|]. split; [exact E|]. assert (LW : length (map (fun x => 2 * PI * c_nmps / x) (W_of p4)) = length b) by (rewrite map_length, W_of_length, L; reflexivity). split; [exact LW|]. split; [exact NZ|].
  destruct (C68_D_round_trip strf pf sp p4 _ fib s' _ b 1000 0 W E LW NZ ltac:(lra)) as (D & ED & LD & _). exists D. split; [exact ED|]. rewrite LD, L. reflexivity.
Qed.
(** C93: beta2 = 2 + z, gamma = z; at z = 3, after queries at 0 and 1 *)
Example ex_C93 : exists sv su, (generate_fiber 5 1550 [2] 0.1 0.5 "ps^n/m" "mine" ;;; set_dispersion_function (DBetas (fun z => [2 + z])) "GVD" ;;; set_gamma_function (fun z => z)) ([empty_specs], f0) = (Ok tt, sv) /\
  generate_fiber 5 1550 [2 + 3] 3 0.5 "ps^n/m" "mine" ([empty_specs], f0) = (Ok tt, su) /\
  let st := fold_left (fun s c => snd (get_betas pf sp (fst c) (snd c) s)) [(p4, 0); (with_n 6 p4, 1)] sv in
  fst (get_betas pf sp p4 3 st) = fst (get_betas pf sp p4 0 su) /\ get_gamma 3 st = (Ok (Some 3), st).
Proof.
  destruct (C93_local_fiber pf sp ([empty_specs], f0) 5 1550 [2] 0.1 0.5 "mine" (fun z => [2 + z]) (fun z => z) eq_refl eq_refl) as (sv & E & H). destruct (H [(p4, 0); (with_n 6 p4, 1)] 3) as (su & E' & H'). exists sv, su. split; [exact E|]. split; [exact E'|]. destruct (H' p4 0) as (A & B & _). split; assumption.
Qed.
Example ex_C93_table : exists sv su, (load_from_file [1500; 1600] [1; 2] 5 "tab" 0.1 0 1 ;;; set_dispersion_function (DXY (fun z => ([1500; 1600], [1 + z; 2]))) "D") ([empty_specs], f0) = (Ok tt, sv) /\
  load_from_file [1500; 1600] [1 + 3; 2] 5 "tab" 0.1 0 1 ([empty_specs], f0) = (Ok tt, su) /\ fst (get_betas pf sp p4 3 (snd (get_betas pf sp p4 1 sv))) = fst (get_betas pf sp p4 0 su).
Proof.
  destruct (C93_local_table pf sp ([empty_specs], f0) [1500; 1600] [1; 2] 5 "tab" 0.1 0 1 (fun z => ([1500; 1600], [1 + z; 2])) eq_refl ltac:(cbn; lia)) as (sv & E & H). destruct (H [(p4, 1)] 3) as (su & E' & H'). exists sv, su. split; [exact E|]. split; [exact E'|]. exact (H' p4 0).
Qed.
(** C56: the same fiber with its coefficients read per km *)
Example ex_C56_units : generate_fiber 5 (c_nmps / 10) [2; 3] 0.1 0.5 "ps^n/km" "mine" ([empty_specs], f0) = generate_fiber 5 (c_nmps / 10) [2 * 1.0e-3; 3 * 1.0e-3] 0.1 0.5 "ps^n/m" "mine" ([empty_specs], f0) /\
  exists B1 B2 s1 s2, get_betas pf sp p4 0 fib = (Ok (Some B1), s1) /\ get_betas pf sp p4 0 (snd (generate_fiber 5 (c_nmps / 10) [2; 3] 0.1 0.5 "ps^n/km" "mine" ([empty_specs], f0))) = (Ok (Some B2), s2) /\ B2 = map (fun b => b * 1.0e-3) B1.
Proof.
  destruct (C56_units pf sp ([empty_specs], f0) 5 (c_nmps / 10) [2; 3] 0.1 0.5 "mine") as [A B]. split; [exact A|].
  destruct fib_facts as (H1 & H2 & H3 & H4 & _).
  destruct (C55_gvd_value pf sp p4 0 2 fib (c_nmps / 10) [2; 3] eq_refl eq_refl ltac:(lia) ltac:(cbn; lra) H1 H2 c_ne ltac:(rewrite H4; exact H3)) as (B1 & s1 & E1 & _).
  destruct (C55_gvd_value pf sp p4 0 2 (snd (generate_fiber 5 (c_nmps / 10) [2; 3] 0.1 0.5 "ps^n/km" "mine" ([empty_specs], f0))) (c_nmps / 10) [2 * 1.0e-3; 3 * 1.0e-3] eq_refl eq_refl ltac:(lia) ltac:(cbn; lra) eq_refl eq_refl c_ne ltac:(rewrite A; reflexivity)) as (B2 & s2 & E2 & _).
  exists B1, B2, s1, s2. split; [exact E1|]. split; [exact E2|]. exact (B eq_refl p4 0 B1 B2 s1 s2 E1 E2).
Qed.
(** C58: the second call on the table of ex_C58 *)
Example ex_C58_second : exists v, fst (DTabulationToBetas pf 1000 0 (snd (DTabulationToBetas pf 1000 0 [(1000, -1); (1100, 2)]))) = Ok [v * (1e-12 * 1e9 * 1e-3)] /\
  fst (DTabulationToBetas pf 1000 0 [(1000, -1); (1100, 2)]) = Ok [v].
Proof.
  destruct ex_C58 as [L (v & E)]. exists v. split; [|exact E]. exact (proj2 (C58_second_call_partial pf 1000 0 [(1000, -1); (1100, 2)]) L [v] E).
Qed.

(** Rooted trees and the order conditions of the Dormand-Prince tableau: every condition for order 8 of the step, order 7 of the
    interpolant, order 3 and 5 of the two error estimates is checked on exact decimal coefficients (used by C114). *)
From Coq Require Import QArith Qreals Reals List ZArith Bool Arith Lia Lra Permutation.
From Coquelicot Require Import Complex.
From Verif Require Import Base CNum NumPy ModelDopr ModelODE ODEStepProofs ODETableauProofs ODELinearProofs.
Import ListNotations.
Local Open Scope R_scope.

(** ** Ordered rooted trees; TX is the leaf that stands for the independent variable x *)
Inductive tree : Type := TX | TN (l : list tree).
Fixpoint tree_ind' (P : tree -> Prop) (HX : P TX) (HN : forall l, List.Forall P l -> P (TN l)) (t : tree) : P t :=
  match t with
  | TX => HX
  | TN l => HN l ((fix go (l : list tree) : List.Forall P l := match l with [] => Forall_nil P | t :: l => Forall_cons t (tree_ind' P HX HN t) (go l) end) l)
  end.
Fixpoint tsize (t : tree) : nat := match t with TX => 1 | TN l => S (list_sum (map tsize l)) end.
Definition fsize (l : list tree) : nat := list_sum (map tsize l).
Definition rprod (l : list R) : R := fold_right Rmult 1 l.
(** the density of a tree *)
Fixpoint tgam (t : tree) : R := match t with TX => 1 | TN l => INR (S (list_sum (map tsize l))) * rprod (map tgam l) end.
(** elementary weights: a is the matrix of the method, c its nodes *)
Section Weights.
  Variables (s : nat) (a : nat -> nat -> R) (c : nat -> R).
  Fixpoint tphi (t : tree) (i : nat) : R := match t with TX => c i | TN l => rsum s (fun j => a i j * rprod (map (fun t => tphi t j) l)) end.
  Definition fphi (l : list tree) (j : nat) : R := rprod (map (fun t => tphi t j) l).
End Weights.
Lemma tsize_pos t : (1 <= tsize t)%nat. Proof. destruct t; cbn; lia. Qed.
Lemma rprod_app l m : rprod (l ++ m) = rprod l * rprod m.
Proof. unfold rprod. induction l as [|x l IH]; cbn; [ring|]. rewrite IH. ring. Qed.
Lemma rprod_perm l m : Permutation l m -> rprod l = rprod m.
Proof. unfold rprod. induction 1; cbn; [reflexivity|now rewrite IHPermutation|ring|congruence]. Qed.
Lemma list_sum_perm l m : Permutation l m -> list_sum l = list_sum m.
Proof. unfold list_sum. induction 1; cbn; [reflexivity|lia|lia|congruence]. Qed.
Lemma tgam_pos t : 0 < tgam t.
Proof.
  induction t as [|l IH] using tree_ind'; cbn [tgam]; [lra|]. apply Rmult_lt_0_compat; [apply lt_0_INR; lia|].
  unfold rprod. induction IH as [|t l Ht _ IHl]; cbn; [lra|]. now apply Rmult_lt_0_compat.
Qed.

(** ** Numbers known up to an error, in units of 2^-112 *)
Definition US : Z := Eval vm_compute in (2 ^ 112)%Z.
Definition ush (x : Z) : Z := Z.shiftr x 112.
Definition ball : Type := (Z * Z)%type.
Definition inb (x : R) (b : ball) : Prop := Rabs (IZR US * x - IZR (fst b)) <= IZR (snd b).
Definition bmul (p q : ball) : ball :=
  (ush (fst p * fst q), ush (Z.abs (fst p) * snd q + Z.abs (fst q) * snd p + snd p * snd q) + 2)%Z.
(** a coefficient given in units of 10^-33, in units of 2^-112 with error at most 1 *)
Definition zu (z : Z) : Z := (z * US / SC)%Z.
Fixpoint dotv (r : list Z) (v : list ball) : Z := match r, v with a :: r, b :: v => (a * fst b + dotv r v)%Z | _, _ => 0%Z end.
Fixpoint dotr (r : list Z) (v : list ball) : Z := match r, v with a :: r, b :: v => (Z.abs a * snd b + (Z.abs (fst b) + snd b) + dotr r v)%Z | _, _ => 0%Z end.
Definition bdot (r : list Z) (v : list ball) : ball := (ush (dotv r v), ush (dotr r v) + 2)%Z.

(** ** The method with its sixteen stages (stage 13 is the derivative at the end of the step) *)
Definition ZA : list (list Z) := Eval vm_compute in
  let z := 0%Z in let b1 := zc q_b1 in
  [ [];
    [zc q_a21];
    [zc q_a31; zc q_a32];
    [zc q_a41; z; zc q_a43];
    [zc q_a51; z; zc q_a53; zc q_a54];
    [zc q_a61; z; z; zc q_a64; zc q_a65];
    [zc q_a71; z; z; zc q_a74; zc q_a75; zc q_a76];
    [zc q_a81; z; z; zc q_a84; zc q_a85; zc q_a86; zc q_a87];
    [zc q_a91; z; z; zc q_a94; zc q_a95; zc q_a96; zc q_a97; zc q_a98];
    [zc q_a101; z; z; zc q_a104; zc q_a105; zc q_a106; zc q_a107; zc q_a108; zc q_a109];
    [zc q_a111; z; z; zc q_a114; zc q_a115; zc q_a116; zc q_a117; zc q_a118; zc q_a119; zc q_a1110];
    [zc q_a121; z; z; zc q_a124; zc q_a125; zc q_a126; zc q_a127; zc q_a128; zc q_a129; zc q_a1210; zc q_a1211];
    [zc q_b1; z; z; z; z; zc q_b6; zc q_b7; zc q_b8; zc q_b9; zc q_b10; zc q_b11; zc q_b12];
    [zc q_a141; z; z; z; z; z; zc q_a147; zc q_a148; zc q_a149; zc q_a1410; zc q_a1411; zc q_a1412; zc q_a1413];
    [zc q_a151; z; z; z; z; zc q_a156; zc q_a157; zc q_a158; z; z; zc q_a1511; zc q_a1512; zc q_a1513; zc q_a1514];
    [zc q_a161; z; z; z; z; zc q_a166; zc q_a167; zc q_a168; zc q_a169; z; z; z; zc q_a1613; zc q_a1614; zc q_a1615] ].
Definition ZC : list Z := Eval vm_compute in
  [0%Z; zc q_c2; zc q_c3; zc q_c4; zc q_c5; zc q_c6; zc q_c7; zc q_c8; zc q_c9; zc q_c10; zc q_c11; SC; SC; zc q_c14; zc q_c15; zc q_c16].
Definition ZB : list Z := Eval vm_compute in nth 12 ZA [].
Definition ZE1 : list Z := Eval vm_compute in
  [zc q_b1 - zc q_bhh1; 0; 0; 0; 0; zc q_b6; zc q_b7; zc q_b8; zc q_b9 - zc q_bhh2; zc q_b10; zc q_b11; zc q_b12 - zc q_bhh3]%Z.
Definition ZE2 : list Z := Eval vm_compute in
  [zc q_er1; 0; 0; 0; 0; zc q_er6; zc q_er7; zc q_er8; zc q_er9; zc q_er10; zc q_er11; zc q_er12]%Z.
(** the rows of the arrays r_1..r_7 of the interpolant *)
Definition ZR : list (list Z) := Eval vm_compute in
  let z := 0%Z in
  let r2 := padd [SC] (pscale (-1) ZB) in
  [ZB; r2; padd (padd ZB (pscale (-1) [z; z; z; z; z; z; z; z; z; z; z; z; SC])) (pscale (-1) r2);
   [zc q_d41; z; z; z; z; zc q_d46; zc q_d47; zc q_d48; zc q_d49; zc q_d410; zc q_d411; zc q_d412; zc q_d413; zc q_d414; zc q_d415; zc q_d416];
   [zc q_d51; z; z; z; z; zc q_d56; zc q_d57; zc q_d58; zc q_d59; zc q_d510; zc q_d511; zc q_d512; zc q_d513; zc q_d514; zc q_d515; zc q_d516];
   [zc q_d61; z; z; z; z; zc q_d66; zc q_d67; zc q_d68; zc q_d69; zc q_d610; zc q_d611; zc q_d612; zc q_d613; zc q_d614; zc q_d615; zc q_d616];
   [zc q_d71; z; z; z; z; zc q_d76; zc q_d77; zc q_d78; zc q_d79; zc q_d710; zc q_d711; zc q_d712; zc q_d713; zc q_d714; zc q_d715; zc q_d716]].
(** the weight of stage j in the interpolant is a polynomial in t; ZD m is the row of its coefficients of t^m *)
Definition ZD : list (list Z) := Eval vm_compute in map (fun m => map (fun j => nth m (dpoly ZR j) 0%Z) (seq 0 16)) (seq 0 8).
(** the same coefficients in units of 2^-112 *)
Definition UA : list (list Z) := Eval vm_compute in map (map zu) ZA.
Definition UC : list Z := Eval vm_compute in map zu ZC.
Definition UB : list Z := Eval vm_compute in map zu ZB.
Definition UE1 : list Z := Eval vm_compute in map zu ZE1.
Definition UE2 : list Z := Eval vm_compute in map zu ZE2.
Definition UD : list (list Z) := Eval vm_compute in map (map zu) ZD.

(** ** Enumeration of the trees up to the order of the branches *)
Record entry : Type := mkE { esize : nat; eu : list ball; eg : Z }.
Definition vone : list ball := repeat (US, 0%Z) 16.
Fixpoint vmulb (u v : list ball) : list ball := match u, v with p :: u, q :: v => bmul p q :: vmulb u v | _, _ => [] end.
(** all multisets of total size q, with the product of their weights *)
Fixpoint msets (fuel : nat) (L : list entry) (q : nat) (acc : list ball * Z) : list (list ball * Z) :=
  match fuel with
  | O => []
  | S fuel =>
    match q with
    | O => [acc]
    | S _ =>
      match L with
      | [] => []
      | e :: L' => (if Nat.leb (esize e) q then msets fuel L (q - esize e) (vmulb (eu e) (fst acc), (eg e * snd acc)%Z) else []) ++ msets fuel L' q acc
      end
    end
  end.
Definition grow (q : nat) (F : list (list ball * Z)) : list entry :=
  map (fun p => mkE (S q) (map (fun r => bdot r (fst p)) UA) (Z.of_nat (S q) * snd p)%Z) F.
Definition leaf : entry := mkE 1 (map (fun p => (fst p, Z.abs (fst p - fold_right Z.add 0%Z (snd p)) + Z.of_nat (length (snd p)) + 1)%Z) (combine UC UA)) 1%Z.
Definition M0 : list (list ball * Z) := [(vone, 1%Z)].
Definition L1 := [leaf].
Definition M1 := msets 200 L1 1 (vone, 1%Z).  Definition L2 := grow 1 M1 ++ L1.
Definition M2 := msets 200 L2 2 (vone, 1%Z).  Definition L3 := grow 2 M2 ++ L2.
Definition M3 := msets 200 L3 3 (vone, 1%Z).  Definition L4 := grow 3 M3 ++ L3.
Definition M4 := msets 200 L4 4 (vone, 1%Z).  Definition L5 := grow 4 M4 ++ L4.
Definition M5 := msets 200 L5 5 (vone, 1%Z).  Definition L6 := grow 5 M5 ++ L5.
Definition M6 := msets 200 L6 6 (vone, 1%Z).  Definition L7 := grow 6 M6 ++ L6.
Definition M7 := msets 200 L7 7 (vone, 1%Z).
(** a weighted sum is within 10^-e of 1/g; and within 10^-e of zero *)
Definition okg (e : Z) (r : list Z) (k : nat) (p : list ball * Z) : bool :=
  let d := bdot r (fst p) in let g := (Z.of_nat k * snd p)%Z in ((Z.abs (fst d * g - US) + snd d * g) * e <=? US * g)%Z.
Definition ok0 (e : Z) (r : list Z) (p : list ball * Z) : bool := let d := bdot r (fst p) in ((Z.abs (fst d) + snd d) * e <=? US)%Z.
Definition e27 : Z := Eval vm_compute in (10 ^ 27)%Z.
Definition e24 : Z := Eval vm_compute in (10 ^ 24)%Z.
Definition okd (k : nat) (p : list ball * Z) : bool :=
  forallb (fun m => if Nat.eqb m k then okg e24 (nth m UD []) k p else ok0 e24 (nth m UD []) p) (seq 0 8).
Definition MS : list (list (list ball * Z)) := [M0; M1; M2; M3; M4; M5; M6; M7].
Lemma check_true :
  (Nat.leb (length L7) 190 &&
  forallb (fun q => forallb (okg e27 UB (S q)) (nth q MS [])) (seq 0 8) &&
  forallb (fun q => forallb (okd (S q)) (nth q MS [])) (seq 0 7) &&
  forallb (fun q => forallb (ok0 e27 UE1) (nth q MS [])) (seq 0 3) &&
  forallb (fun q => forallb (ok0 e27 UE2) (nth q MS [])) (seq 0 5))%bool = true.
Proof. vm_compute. reflexivity. Qed.
Strategy expand [M0 M1 M2 M3 M4 M5 M6 M7 L1 L2 L3 L4 L5 L6 L7 MS].

(** ** Soundness of the arithmetic *)
Lemma US_pos : 0 < IZR US. Proof. apply IZR_lt. vm_compute. reflexivity. Qed.
Lemma ush_bounds x : IZR (ush x) <= IZR x / IZR US < IZR (ush x) + 1.
Proof.
  pose proof US_pos as P. unfold ush. rewrite Z.shiftr_div_pow2 by lia. change (2 ^ 112)%Z with US.
  assert (PZ : (0 < US)%Z) by (vm_compute; reflexivity). pose proof (Z.div_mod x US ltac:(lia)) as E. pose proof (Z.mod_pos_bound x US PZ) as [B1 B2].
  apply (f_equal IZR) in E. rewrite plus_IZR, mult_IZR in E. apply IZR_le in B1. apply IZR_lt in B2. set (y := IZR (x / US)) in *. set (m := IZR (x mod US)) in *.
  rewrite E. split; [apply (Rmult_le_reg_r (IZR US)); [exact P|]|apply (Rmult_lt_reg_r (IZR US)); [exact P|]]; field_simplify; try lra.
Qed.
Lemma zu_close z : Rabs (IZR US * (IZR z / IZR SC) - IZR (zu z)) <= 1.
Proof.
  pose proof US_pos as P. pose proof SC_pos as PS. unfold zu. assert (PZ : (0 < SC)%Z) by (vm_compute; reflexivity). pose proof (Z.div_mod (z * US) SC ltac:(lia)) as E. pose proof (Z.mod_pos_bound (z * US) SC PZ) as [B1 B2].
  apply (f_equal IZR) in E. rewrite plus_IZR, !mult_IZR in E. apply IZR_le in B1. apply IZR_lt in B2. set (y := IZR (z * US / SC)) in *. set (m := IZR ((z * US) mod SC)) in *.
  replace (IZR US * (IZR z / IZR SC)) with ((IZR z * IZR US) / IZR SC) by (unfold Rdiv; ring). rewrite E. replace ((IZR SC * y + m) / IZR SC - y) with (m / IZR SC) by (field; lra).
  assert (0 <= m / IZR SC <= 1). { split; [apply Rmult_le_pos; [exact B1|left; now apply Rinv_0_lt_compat]|]. apply (Rmult_le_reg_r (IZR SC)); [exact PS|]. field_simplify; lra. }
  rewrite Rabs_pos_eq; lra.
Qed.
Lemma Rabs_IZR_abs z : IZR (Z.abs z) = Rabs (IZR z). Proof. apply abs_IZR. Qed.
(** a product or a sum of products in units of 2^-224, shifted back *)
Lemma shift_inb x v r : Rabs (IZR US * IZR US * x - IZR v) <= IZR r -> inb x (ush v, (ush r + 2)%Z).
Proof.
  intros H. pose proof US_pos as P. unfold inb. cbn [fst snd]. rewrite plus_IZR. pose proof (ush_bounds v) as [V1 V2]. pose proof (ush_bounds r) as [R1 R2].
  assert (D : Rabs (IZR US * x - IZR v / IZR US) <= IZR r / IZR US).
  { replace (IZR US * x - IZR v / IZR US) with ((IZR US * IZR US * x - IZR v) / IZR US) by (field; lra). unfold Rdiv. rewrite Rabs_mult, (Rabs_pos_eq (/ IZR US)) by (left; now apply Rinv_0_lt_compat).
    apply Rmult_le_compat_r; [left; now apply Rinv_0_lt_compat|exact H]. }
  apply Rabs_le. pose proof (Rle_abs (IZR US * x - IZR v / IZR US)). pose proof (Rle_abs (- (IZR US * x - IZR v / IZR US))). rewrite Rabs_Ropp in *. lra.
Qed.
Lemma bmul_sound x y p q : inb x p -> inb y q -> inb (x * y) (bmul p q).
Proof.
  destruct p as [v1 r1], q as [v2 r2]. unfold inb at 1 2, bmul. cbn [fst snd]. intros H1 H2. apply shift_inb. rewrite !plus_IZR, !mult_IZR, !Rabs_IZR_abs.
  set (a := IZR US * x) in *. set (b := IZR US * y) in *. replace (IZR US * IZR US * (x * y) - IZR v1 * IZR v2) with (IZR v1 * (b - IZR v2) + (a - IZR v1) * IZR v2 + (a - IZR v1) * (b - IZR v2)) by (unfold a, b; ring).
  pose proof (Rabs_pos (a - IZR v1)). pose proof (Rabs_pos (b - IZR v2)). pose proof (Rabs_pos (IZR v1)). pose proof (Rabs_pos (IZR v2)).
  eapply Rle_trans; [apply Rabs_triang|]. eapply Rle_trans; [apply Rplus_le_compat_r, Rabs_triang|]. rewrite !Rabs_mult.
  assert (Rabs (IZR v1) * Rabs (b - IZR v2) <= Rabs (IZR v1) * IZR r2) by (apply Rmult_le_compat_l; assumption).
  assert (Rabs (a - IZR v1) * Rabs (IZR v2) <= Rabs (IZR v2) * IZR r1) by (rewrite Rmult_comm; apply Rmult_le_compat_l; assumption).
  assert (Rabs (a - IZR v1) * Rabs (b - IZR v2) <= IZR r1 * IZR r2) by (apply Rmult_le_compat; assumption). lra.
Qed.
Lemma rsum_first' m (u : nat -> R) : rsum (S m) u = u 0%nat + rsum m (fun j => u (S j)).
Proof. induction m as [|m IH]; [rewrite rsum_S, rsum_0, rsum_0; ring|]. rewrite rsum_S, IH, rsum_S. ring. Qed.
Lemma dot_sound : forall (r : list Z) (v : list ball) (al x : nat -> R), (length r <= length v)%nat ->
  (forall j, (j < length r)%nat -> Rabs (IZR US * al j - IZR (nth j r 0%Z)) <= 1) -> (forall j, (length r <= j)%nat -> al j = 0) ->
  (forall j, (j < length v)%nat -> inb (x j) (nth j v (0%Z, 0%Z))) ->
  Rabs (IZR US * IZR US * rsum (length v) (fun j => al j * x j) - IZR (dotv r v)) <= IZR (dotr r v).
Proof.
  induction r as [|a r IH]; intros v al x L Ha H0 Hx.
  - replace (rsum (length v) _) with 0; [cbn; rewrite Rmult_0_r, Rminus_0_r, Rabs_R0; lra|]. rewrite (rsum_ext _ _ (fun _ => 0)); [now rewrite rsum_zero by auto|]. intros j _. rewrite H0 by (cbn; lia). ring.
  - destruct v as [|[v1 r1] v]; [cbn in L; lia|]. cbn [length dotv dotr fst snd]. rewrite rsum_first', !plus_IZR, !mult_IZR, !Rabs_IZR_abs.
    assert (T : Rabs (IZR US * IZR US * rsum (length v) (fun j => al (S j) * x (S j)) - IZR (dotv r v)) <= IZR (dotr r v)).
    { apply IH; [cbn in L; lia| | |].
      - intros j Hj. apply (Ha (S j)). cbn. lia.
      - intros j Hj. apply H0. cbn. lia.
      - intros j Hj. apply (Hx (S j)). cbn. lia. }
    pose proof (Ha 0%nat ltac:(cbn; lia)) as A0. pose proof (Hx 0%nat ltac:(cbn; lia)) as X0. unfold inb in X0. cbn [nth fst snd] in A0, X0.
    set (s := rsum _ _) in *. set (al0 := al 0%nat) in *. set (x0 := x 0%nat) in *. set (p := IZR US * al0) in *. set (q := IZR US * x0) in *.
    replace (IZR US * IZR US * (al0 * x0 + s) - (IZR a * IZR v1 + IZR (dotv r v))) with (IZR a * (q - IZR v1) + (p - IZR a) * IZR v1 + (p - IZR a) * (q - IZR v1) + (IZR US * IZR US * s - IZR (dotv r v))) by (unfold p, q; ring).
    pose proof (Rabs_pos (p - IZR a)). pose proof (Rabs_pos (q - IZR v1)). pose proof (Rabs_pos (IZR a)). pose proof (Rabs_pos (IZR v1)).
    eapply Rle_trans; [apply Rabs_triang|]. apply Rplus_le_compat; [|exact T]. eapply Rle_trans; [apply Rabs_triang|]. eapply Rle_trans; [apply Rplus_le_compat_r, Rabs_triang|]. rewrite !Rabs_mult.
    assert (Rabs (IZR a) * Rabs (q - IZR v1) <= Rabs (IZR a) * IZR r1) by (apply Rmult_le_compat_l; assumption).
    assert (Rabs (p - IZR a) * Rabs (IZR v1) <= 1 * Rabs (IZR v1)) by (apply Rmult_le_compat_r; assumption).
    assert (Rabs (p - IZR a) * Rabs (q - IZR v1) <= 1 * IZR r1) by (apply Rmult_le_compat; assumption). lra.
Qed.
(** a row of coefficients in units of 10^-33, read as a real row *)
Definition row (z : list Z) (j : nat) : R := IZR (nth j z 0%Z) / IZR SC.
Lemma nth_zu z j : nth j (map zu z) 0%Z = zu (nth j z 0%Z).
Proof. rewrite <- (map_nth zu). reflexivity. Qed.
Lemma bdot_sound z v x : (length z <= length v)%nat -> (forall j, (j < length v)%nat -> inb (x j) (nth j v (0%Z, 0%Z))) ->
  inb (rsum (length v) (fun j => row z j * x j)) (bdot (map zu z) v).
Proof.
  intros L Hx. unfold bdot. apply shift_inb. apply dot_sound; [now rewrite map_length| | |exact Hx]; rewrite map_length; intros j Hj.
  - rewrite nth_zu. apply zu_close.
  - unfold row. rewrite nth_overflow by exact Hj. unfold Rdiv. ring.
Qed.

(** ** Completeness of the enumeration *)
Inductive sub : list entry -> list entry -> Prop :=
| sub_nil L : sub L []
| sub_take e L ml : sub (e :: L) ml -> sub (e :: L) (e :: ml)
| sub_skip e L ml : sub L ml -> sub (e :: L) ml.
Definition addm (acc : list ball * Z) (e : entry) : list ball * Z := (vmulb (eu e) (fst acc), (eg e * snd acc)%Z).
Definition etotal (ml : list entry) : nat := list_sum (map esize ml).
Lemma sub_in L ml : sub L ml -> forall e, In e ml -> In e L.
Proof. induction 1; intros e' H'; [destruct H'|destruct H' as [<- | H']; [now left|auto]|right; auto]. Qed.
Lemma msets_in : forall fuel L ml q acc, sub L ml -> (forall e, In e L -> (1 <= esize e)%nat) -> etotal ml = q -> (length L + q < fuel)%nat -> In (fold_left addm ml acc) (msets fuel L q acc).
Proof.
  induction fuel as [|fuel IH]; intros L ml q acc H P Q F; [lia|]. cbn [msets]. destruct q as [|q].
  - destruct ml as [|e ml]; [now left|]. pose proof (P e (sub_in _ _ H e (or_introl eq_refl))). unfold etotal in Q. cbn in Q. lia.
  - destruct H as [L|e L ml H|e L ml H].
    + discriminate.
    + pose proof (P e (or_introl eq_refl)) as Pe. unfold etotal in Q. cbn [map list_sum fold_right] in Q. fold (etotal ml) in Q. replace (fold_right plus 0 (map esize ml))%nat with (etotal ml) in Q by reflexivity.
      replace (Nat.leb (esize e) (S q)) with true by (symmetry; apply Nat.leb_le; lia). apply in_or_app. left. cbn [fold_left]. apply IH; [exact H|exact P|lia|cbn [length] in *; lia].
    + apply in_or_app. right. apply IH; [exact H| |exact Q|cbn [length] in F; lia]. intros e' He'. apply P. now right.
Qed.
Lemma sub_insert L ml : sub L ml -> forall e, In e L -> exists ml', Permutation (e :: ml) ml' /\ sub L ml'.
Proof.
  induction 1 as [L|e0 L ml H IH|e0 L ml H IH]; intros e He.
  - exists [e]. split; [reflexivity|]. induction L as [|x L IHL]; [destruct He|]. destruct He as [-> | He]; [apply sub_take, sub_nil|apply sub_skip, IHL, He].
  - destruct (IH e He) as (ml' & P1 & P2). exists (e0 :: ml'). split; [|now apply sub_take]. eapply Permutation_trans; [apply perm_swap|]. now apply perm_skip.
  - destruct He as [-> | He].
    + exists (e :: ml). split; [reflexivity|]. apply sub_take, sub_skip, H.
    + destruct (IH e He) as (ml' & P1 & P2). exists ml'. split; [exact P1|now apply sub_skip].
Qed.
Lemma sub_sort L : forall ml, (forall e, In e ml -> In e L) -> exists ml', Permutation ml ml' /\ sub L ml'.
Proof.
  induction ml as [|e ml IH]; intros H; [exists []; split; [reflexivity|constructor]|]. destruct IH as (ml' & P1 & P2); [intros e' He'; apply H; now right|].
  destruct (sub_insert L ml' P2 e (H e (or_introl eq_refl))) as (ml'' & P3 & P4). exists ml''. split; [|exact P4]. eapply Permutation_trans; [apply perm_skip, P1|exact P3].
Qed.
Lemma Forall2_perm {A B} (Q : A -> B -> Prop) l m : Forall2 Q l m -> forall m', Permutation m m' -> exists l', Permutation l l' /\ Forall2 Q l' m'.
Proof.
  intros H m' P. revert l H. induction P; intros l0 H.
  - inversion H; subst. exists []. split; constructor.
  - inversion H; subst. destruct (IHP _ H4) as (w1 & Q1 & Q2). eexists. split; [apply perm_skip, Q1|now constructor].
  - inversion H; subst. inversion H4; subst. eexists. split; [apply perm_swap|]. constructor; [assumption|]. now constructor.
  - destruct (IHP1 _ H) as (w1 & Q1 & Q2). destruct (IHP2 _ Q2) as (w2 & Q3 & Q4). exists w2. split; [eapply Permutation_trans; eassumption|exact Q4].
Qed.

(** ** The tree represented by an entry *)
Definition ra (i j : nat) : R := row (nth i ZA []) j.
Definition rn (i : nat) : R := row ZC i.
Notation Tphi := (tphi 16 ra rn).
Notation Fphi := (fphi 16 ra rn).
Definition rep (t : tree) (e : entry) : Prop := esize e = tsize t /\ IZR (eg e) = tgam t /\ length (eu e) = 16%nat /\ forall i, (i < 16)%nat -> inb (Tphi t i) (nth i (eu e) (0%Z, 0%Z)).
Definition repf (l : list tree) (p : list ball * Z) : Prop := IZR (snd p) = rprod (map tgam l) /\ length (fst p) = 16%nat /\ forall i, (i < 16)%nat -> inb (Fphi l i) (nth i (fst p) (0%Z, 0%Z)).
Lemma vmulb_len u v : length u = length v -> length (vmulb u v) = length u.
Proof. revert v. induction u as [|p u IH]; intros [|q v] H; try reflexivity; try discriminate. cbn [vmulb length]. now rewrite IH by (injection H; auto). Qed.
Lemma vmulb_nth u v i : length u = length v -> (i < length u)%nat -> nth i (vmulb u v) (0%Z, 0%Z) = bmul (nth i u (0%Z, 0%Z)) (nth i v (0%Z, 0%Z)).
Proof. revert v i. induction u as [|p u IH]; intros [|q v] i H Hi; try discriminate; [cbn in Hi; lia|]. destruct i; [reflexivity|]. cbn [vmulb nth]. apply IH; [injection H; auto|cbn in Hi; lia]. Qed.
Lemma repf_add t l e p : rep t e -> repf l p -> repf (t :: l) (addm p e).
Proof.
  intros (E1 & E2 & E3 & E4) (F1 & F2 & F3). unfold repf, addm. cbn [fst snd map]. rewrite mult_IZR, E2, F1. split; [reflexivity|]. split; [rewrite vmulb_len; congruence|].
  intros i Hi. rewrite vmulb_nth by (congruence || lia). unfold fphi. cbn [map]. unfold rprod. cbn [fold_right]. apply bmul_sound; [exact (E4 i Hi)|exact (F3 i Hi)].
Qed.
Lemma repf_perm l l' p : Permutation l l' -> repf l p -> repf l' p.
Proof.
  intros P (F1 & F2 & F3). split; [rewrite F1; apply rprod_perm, Permutation_map, P|]. split; [exact F2|]. intros i Hi. replace (Fphi l' i) with (Fphi l i); [exact (F3 i Hi)|]. apply rprod_perm, Permutation_map, P.
Qed.
Lemma repf_fold : forall es l p l0, Forall2 rep l es -> repf l0 p -> repf (l ++ l0) (fold_left addm es p).
Proof.
  induction es as [|e es IH]; intros l p l0 H H0; inversion H; subst; [exact H0|]. cbn [fold_left]. apply (repf_perm (l1 ++ x :: l0)); [symmetry; apply Permutation_middle|]. apply IH; [assumption|]. now apply repf_add.
Qed.
Lemma repf_one : repf [] (vone, 1%Z).
Proof.
  split; [reflexivity|]. split; [reflexivity|]. intros i Hi. unfold fphi. cbn [map rprod fold_right fst]. 
  unfold inb, rprod. cbn [fst snd fold_right]. assert (E : nth i vone (0%Z, 0%Z) = (US, 0%Z)) by (do 16 (destruct i as [|i]; [reflexivity|]); lia). rewrite E. cbn [fst snd]. generalize (IZR US). intros u. replace (u * 1 - u) with 0 by ring. rewrite Rabs_R0. lra.
Qed.
Lemma forest_in L q : (forall t, (tsize t <= q)%nat -> exists e, In e L /\ rep t e) -> (forall e, In e L -> (1 <= esize e)%nat) -> (length L + q < 200)%nat ->
  forall l, fsize l = q -> exists p, In p (msets 200 L q (vone, 1%Z)) /\ repf l p.
Proof.
  intros HL HP HF l Hl. assert (B : exists es, Forall2 rep l es /\ forall e, In e es -> In e L).
  { assert (T : forall t, In t l -> (tsize t <= q)%nat). { intros t Ht. rewrite <- Hl. unfold fsize. clear - Ht. induction l as [|t' l IH]; [destruct Ht|]. cbn. destruct Ht as [-> | Ht]; [lia|]. specialize (IH Ht). unfold list_sum in IH. lia. }
    clear Hl. induction l as [|t l IH]; [exists []; split; [constructor|intros e []]|]. destruct IH as (es & I1 & I2); [intros t' Ht'; apply T; now right|]. destruct (HL t (T t (or_introl eq_refl))) as (e & J1 & J2).
    exists (e :: es). split; [now constructor|]. intros e' [<- | H]; auto. }
  destruct B as (es & B1 & B2). destruct (sub_sort L es B2) as (es' & P1 & P2). destruct (Forall2_perm rep l es B1 es' P1) as (l' & P3 & P4).
  exists (fold_left addm es' (vone, 1%Z)). split.
  - apply msets_in; [exact P2|exact HP| |exact HF]. rewrite <- Hl. unfold fsize. rewrite (list_sum_perm _ _ (Permutation_map tsize P3)). clear - P4. unfold etotal. induction P4 as [|t e l es (H & _) _ IH]; [reflexivity|]. cbn. rewrite H. unfold list_sum in IH. lia.
  - apply (repf_perm l'); [now symmetry|]. rewrite <- (app_nil_r l'). apply repf_fold; [exact P4|apply repf_one].
Qed.
Lemma UA_zu : UA = map (map zu) ZA. Proof. vm_compute. reflexivity. Qed.
Lemma UC_zu : UC = map zu ZC. Proof. vm_compute. reflexivity. Qed.
Lemma ZA_len i : (length (nth i ZA []) <= 16)%nat.
Proof. do 16 (destruct i as [|i]; [cbn; lia|]). destruct i; cbn; lia. Qed.
Lemma rep_grow q l p : fsize l = q -> repf l p -> rep (TN l) (mkE (S q) (map (fun r => bdot r (fst p)) UA) (Z.of_nat (S q) * snd p)%Z).
Proof.
  intros Hl (F1 & F2 & F3). unfold rep. cbn [esize eg eu tsize tgam]. fold (fsize l). rewrite Hl. split; [reflexivity|]. split; [rewrite mult_IZR, <- INR_IZR_INZ, F1; reflexivity|]. split; [reflexivity|].
  intros i Hi. rewrite UA_zu, map_map. rewrite (nth_indep _ _ (bdot (map zu []) (fst p))) by (rewrite map_length; exact Hi). rewrite (map_nth (fun r => bdot (map zu r) (fst p))).
  cbn [tphi]. assert (B : inb (rsum (length (fst p)) (fun j => row (nth i ZA []) j * Fphi l j)) (bdot (map zu (nth i ZA [])) (fst p))); [|rewrite F2 in B; exact B]. apply bdot_sound; [exact (Nat.le_trans _ _ _ (ZA_len i) (Nat.eq_le_incl _ _ (eq_sym F2)))|]. intros j Hj. apply F3. rewrite <- F2. exact Hj.
Qed.
Lemma grow_in L q : (forall t, (tsize t <= q)%nat -> exists e, In e L /\ rep t e) -> (forall e, In e L -> (1 <= esize e)%nat) -> (length L + q < 200)%nat -> (1 <= q)%nat ->
  forall M, M = msets 200 L q (vone, 1%Z) -> (forall t, (tsize t <= S q)%nat -> exists e, In e (grow q M ++ L) /\ rep t e) /\ (forall e, In e (grow q M ++ L) -> (1 <= esize e)%nat).
Proof.
  intros HL HP HF Hq M EM. pose proof (forest_in L q HL HP HF) as FI. rewrite <- EM in FI. clear EM. split.
  - intros t Ht. destruct (Nat.eq_dec (tsize t) (S q)) as [E|E].
    + destruct t as [|l]; [cbn in E; lia|]. cbn [tsize] in E. fold (fsize l) in E. assert (El : fsize l = q) by lia. destruct (FI l El) as (p & P1 & P2).
      eexists. split; [|exact (rep_grow q l p El P2)]. apply in_or_app. left. unfold grow. apply in_map_iff. exists p. split; [reflexivity|exact P1].
    + destruct (HL t ltac:(lia)) as (e & H1 & H2). exists e. split; [apply in_or_app; now right|exact H2].
  - intros e He. apply in_app_or in He. destruct He as [He|He]; [|auto]. unfold grow in He. apply in_map_iff in He. destruct He as (p & <- & _). apply le_n_S, Nat.le_0_l.
Qed.
Lemma leaf_rep t : (tsize t <= 1)%nat -> rep t leaf.
Proof.
  intros Ht. assert (C0 : forall i, (i < 16)%nat -> nth i (eu leaf) (0%Z, 0%Z) = (nth i UC 0%Z, (Z.abs (nth i UC 0 - fold_right Z.add 0 (nth i UA [])) + Z.of_nat (length (nth i UA [])) + 1)%Z)).
  { intros i Hi. unfold leaf. cbn [eu]. set (g := fun p : Z * list Z => _). rewrite (nth_indep _ _ (g (0%Z, []))) by (rewrite map_length; exact Hi). rewrite (map_nth g), combine_nth by reflexivity. reflexivity. }
  assert (HC : forall i, Rabs (IZR US * rn i - IZR (nth i UC 0%Z)) <= 1) by (intros i; rewrite UC_zu, nth_zu; apply zu_close).
  destruct t as [|l].
  - split; [reflexivity|]. split; [reflexivity|]. split; [reflexivity|]. intros i Hi. rewrite (C0 i Hi). unfold inb. cbn [fst snd tphi]. eapply Rle_trans; [apply HC|]. apply IZR_le. lia.
  - destruct l as [|t l]; [|pose proof (tsize_pos t); cbn in Ht; lia]. split; [reflexivity|]. split; [cbn; ring|]. split; [reflexivity|]. intros i Hi. rewrite (C0 i Hi). unfold inb. cbn [fst snd tphi map rprod fold_right].
    assert (S1 : forall z s, (length z <= s)%nat -> Rabs (IZR US * rsum s (fun j => row z j * 1) - IZR (fold_right Z.add 0%Z (map zu z))) <= INR (length z)).
    { induction z as [|a z IH]; intros s Hs.
      - rewrite rsum_zero by (intros j _; unfold row; rewrite nth_overflow by (cbn; lia); unfold Rdiv; ring). cbn. rewrite Rmult_0_r, Rminus_0_r, Rabs_R0. lra.
      - destruct s as [|s]; [cbn in Hs; lia|]. rewrite rsum_first'. cbn [map fold_right length]. rewrite plus_IZR, S_INR. specialize (IH s ltac:(cbn in Hs; lia)). pose proof (zu_close a) as Za.
        replace (row (a :: z) 0) with (IZR a / IZR SC) by reflexivity. change (rsum s (fun j => row (a :: z) (S j) * 1)) with (rsum s (fun j => row z j * 1)). set (u := rsum _ _) in *.
        replace (IZR US * (IZR a / IZR SC * 1 + u) - (IZR (zu a) + IZR (fold_right Z.add 0%Z (map zu z)))) with ((IZR US * u - IZR (fold_right Z.add 0%Z (map zu z))) + (IZR US * (IZR a / IZR SC) - IZR (zu a))) by ring.
        eapply Rle_trans; [apply Rabs_triang|]. lra. }
    specialize (S1 (nth i ZA []) 16%nat (ZA_len i)). rewrite !plus_IZR, Rabs_IZR_abs, minus_IZR, <- INR_IZR_INZ. unfold ra. rewrite UA_zu. rewrite <- (map_nth (map zu) ZA [] i) in S1. cbn [map] in S1. rewrite (map_nth (map zu) ZA [] i : nth i (map (map zu) ZA) [] = _) in *. rewrite map_length.
    set (u := rsum _ _) in *. set (w := IZR (fold_right Z.add 0%Z _)) in *. set (c := IZR (nth i UC 0%Z)) in *. set (k := INR _) in *.
    replace (IZR US * u - c) with ((IZR US * u - w) + (w - c)) by ring. eapply Rle_trans; [apply Rabs_triang|]. rewrite (Rabs_minus_sym w c). lra.
Qed.
Lemma check_parts : (length L7 <= 190)%nat /\
  (forall q, (q < 8)%nat -> forall p, In p (nth q MS []) -> okg e27 UB (S q) p = true) /\
  (forall q, (q < 7)%nat -> forall p, In p (nth q MS []) -> okd (S q) p = true) /\
  (forall q, (q < 3)%nat -> forall p, In p (nth q MS []) -> ok0 e27 UE1 p = true) /\
  (forall q, (q < 5)%nat -> forall p, In p (nth q MS []) -> ok0 e27 UE2 p = true).
Proof.
  pose proof check_true as H. apply andb_prop in H. destruct H as (H & H5). apply andb_prop in H. destruct H as (H & H4). apply andb_prop in H. destruct H as (H & H3). apply andb_prop in H. destruct H as (H1 & H2).
  assert (G : forall k (u : nat -> list ball * Z -> bool), forallb (fun q => forallb (u q) (nth q MS [])) (seq 0 k) = true -> forall q, (q < k)%nat -> forall p, In p (nth q MS []) -> u q p = true).
  { intros k u Hu q Hq p Hp. rewrite forallb_forall in Hu. specialize (Hu q ltac:(apply in_seq; lia)). cbv beta in Hu. rewrite forallb_forall in Hu. now apply Hu. }
  split; [now apply Nat.leb_le|]. split; [exact (G 8%nat (fun q => okg e27 UB (S q)) H2)|]. split; [exact (G 7%nat (fun q => okd (S q)) H3)|]. split; [exact (G 3%nat (fun _ => ok0 e27 UE1) H4)|exact (G 5%nat (fun _ => ok0 e27 UE2) H5)].
Qed.

Lemma all_trees : (forall t, (tsize t <= 7)%nat -> exists e, In e L7 /\ rep t e) /\ (forall l, (fsize l <= 7)%nat -> exists p, In p (nth (fsize l) MS []) /\ repf l p).
Proof.
  destruct check_parts as (HL & _).
  assert (N7 : length L7 = (length (grow 6 M6) + length L6)%nat) by exact (app_length _ _). assert (N6 : length L6 = (length (grow 5 M5) + length L5)%nat) by exact (app_length _ _).
  assert (N5 : length L5 = (length (grow 4 M4) + length L4)%nat) by exact (app_length _ _). assert (N4 : length L4 = (length (grow 3 M3) + length L3)%nat) by exact (app_length _ _).
  assert (N3 : length L3 = (length (grow 2 M2) + length L2)%nat) by exact (app_length _ _). assert (N2 : length L2 = (length (grow 1 M1) + length L1)%nat) by exact (app_length _ _).
  assert (T1 : forall t, (tsize t <= 1)%nat -> exists e, In e L1 /\ rep t e) by (intros t Ht; exists leaf; split; [left; reflexivity|now apply leaf_rep]).
  assert (P1 : forall e, In e L1 -> (1 <= esize e)%nat) by (intros e [<- | []]; apply le_n).
  destruct (grow_in L1 1 T1 P1 ltac:(lia) ltac:(lia) M1 eq_refl) as (T2 & P2). destruct (grow_in L2 2 T2 P2 ltac:(lia) ltac:(lia) M2 eq_refl) as (T3 & P3).
  destruct (grow_in L3 3 T3 P3 ltac:(lia) ltac:(lia) M3 eq_refl) as (T4 & P4). destruct (grow_in L4 4 T4 P4 ltac:(lia) ltac:(lia) M4 eq_refl) as (T5 & P5).
  destruct (grow_in L5 5 T5 P5 ltac:(lia) ltac:(lia) M5 eq_refl) as (T6 & P6). destruct (grow_in L6 6 T6 P6 ltac:(lia) ltac:(lia) M6 eq_refl) as (T7 & P7).
  split; [exact T7|].
  pose proof (forest_in L1 1 T1 P1 ltac:(lia)) as F1. pose proof (forest_in L2 2 T2 P2 ltac:(lia)) as F2. pose proof (forest_in L3 3 T3 P3 ltac:(lia)) as F3. pose proof (forest_in L4 4 T4 P4 ltac:(lia)) as F4.
  pose proof (forest_in L5 5 T5 P5 ltac:(lia)) as F5. pose proof (forest_in L6 6 T6 P6 ltac:(lia)) as F6. pose proof (forest_in L7 7 T7 P7 ltac:(lia)) as F7.
  intros l Hl. destruct (fsize l) as [|[|[|[|[|[|[|[|k]]]]]]]] eqn:E; [| | | | | | | |lia].
  - exists (vone, 1%Z). split; [left; reflexivity|]. destruct l as [|t l]; [apply repf_one|]. pose proof (tsize_pos t). unfold fsize in E. cbn in E. lia.
  - exact (F1 l E).
  - exact (F2 l E).
  - exact (F3 l E).
  - exact (F4 l E).
  - exact (F5 l E).
  - exact (F6 l E).
  - exact (F7 l E).
Qed.

(** ** The order conditions *)
Lemma inb_scaled x b (e g : Z) : inb x b -> (0 < e)%Z -> (0 < g)%Z -> ((Z.abs (fst b * g - US) + snd b * g) * e <= US * g)%Z -> Rabs (x - / IZR g) <= / IZR e.
Proof.
  intros H He Hg C. pose proof US_pos as P. apply IZR_lt in He. apply IZR_lt in Hg. apply IZR_le in C. rewrite !mult_IZR, plus_IZR, mult_IZR, abs_IZR, minus_IZR, mult_IZR in C. destruct b as [v r]. unfold inb in H. cbn [fst snd] in *.
  set (u := IZR US) in *. set (V := IZR v) in *. set (r' := IZR r) in *. set (e' := IZR e) in *. set (g' := IZR g) in *. clearbody u V r' e' g'.
  assert (E : Rabs (u * x - u / g') <= r' + Rabs (V * g' - u) / g').
  { replace (u * x - u / g') with ((u * x - V) + (V * g' - u) / g') by (field; lra). eapply Rle_trans; [apply Rabs_triang|]. apply Rplus_le_compat; [exact H|]. unfold Rdiv. rewrite Rabs_mult, (Rabs_pos_eq (/ g')) by (left; now apply Rinv_0_lt_compat). lra. }
  replace (u * x - u / g') with (u * (x - / g')) in E by (field; lra). rewrite Rabs_mult, (Rabs_pos_eq u) in E by lra.
  apply (Rmult_le_reg_l (u * (g' * e'))); [repeat apply Rmult_lt_0_compat; assumption|]. replace (u * (g' * e') * / e') with (u * g') by (field; lra).
  eapply Rle_trans; [|exact C]. replace (u * (g' * e') * Rabs (x - / g')) with (g' * e' * (u * Rabs (x - / g'))) by ring. replace ((Rabs (V * g' - u) + r' * g') * e') with (g' * e' * (r' + Rabs (V * g' - u) / g')) by (field; lra).
  apply Rmult_le_compat_l; [left; now apply Rmult_lt_0_compat|exact E].
Qed.
Lemma inb_scaled0 x b (e : Z) : inb x b -> (0 < e)%Z -> ((Z.abs (fst b) + snd b) * e <= US)%Z -> Rabs x <= / IZR e.
Proof.
  intros H He C. pose proof US_pos as P. apply IZR_lt in He. apply IZR_le in C. rewrite !mult_IZR, plus_IZR, abs_IZR in C. destruct b as [v r]. unfold inb in H. cbn [fst snd] in *.
  set (u := IZR US) in *. set (V := IZR v) in *. set (r' := IZR r) in *. set (e' := IZR e) in *. clearbody u V r' e'.
  assert (E : u * Rabs x <= r' + Rabs V). { rewrite <- (Rabs_pos_eq u) at 1 by lra. rewrite <- Rabs_mult. replace (u * x) with ((u * x - V) + V) by ring. eapply Rle_trans; [apply Rabs_triang|]. lra. }
  apply (Rmult_le_reg_l (u * e')); [now apply Rmult_lt_0_compat|]. replace (u * e' * / e') with u by (field; lra). eapply Rle_trans; [|exact C]. replace (u * e' * Rabs x) with (e' * (u * Rabs x)) by ring. replace ((Rabs V + r') * e') with (e' * (r' + Rabs V)) by ring. apply Rmult_le_compat_l; lra.
Qed.
Lemma wdot_sound z l p : (length z <= 16)%nat -> repf l p -> inb (rsum 16 (fun j => row z j * Fphi l j)) (bdot (map zu z) (fst p)).
Proof.
  intros L (_ & F2 & F3). assert (B : inb (rsum (length (fst p)) (fun j => row z j * Fphi l j)) (bdot (map zu z) (fst p))); [|rewrite F2 in B; exact B].
  apply bdot_sound; [exact (Nat.le_trans _ _ _ L (Nat.eq_le_incl _ _ (eq_sym F2)))|]. intros j Hj. apply F3. rewrite <- F2. exact Hj.
Qed.
Lemma repf_gam l p : repf l p -> IZR (Z.of_nat (S (fsize l)) * snd p) = tgam (TN l).
Proof. intros (F1 & _). rewrite mult_IZR, <- INR_IZR_INZ, F1. reflexivity. Qed.
Lemma gam_Zpos l p : repf l p -> (0 < Z.of_nat (S (fsize l)) * snd p)%Z.
Proof. intros H. apply lt_IZR. rewrite (repf_gam l p H). apply tgam_pos. Qed.
Lemma pow_Z n : IZR (10 ^ Z.of_nat n) = 10 ^ n. Proof. rewrite <- pow_IZR. reflexivity. Qed.
Lemma e27_R : IZR e27 = 10 ^ 27. Proof. exact (pow_Z 27). Qed.
Lemma e24_R : IZR e24 = 10 ^ 24. Proof. exact (pow_Z 24). Qed.
Lemma order_b l : (fsize l <= 7)%nat -> Rabs (rsum 16 (fun j => row ZB j * Fphi l j) - / tgam (TN l)) <= / 10 ^ 27.
Proof.
  intros Hl. destruct (proj2 all_trees l Hl) as (p & P1 & P2). destruct check_parts as (_ & H & _). specialize (H (fsize l) ltac:(lia) p P1). unfold okg in H. apply Z.leb_le in H.
  rewrite <- (repf_gam l p P2), <- e27_R. eapply inb_scaled; [|reflexivity|exact (gam_Zpos l p P2)|exact H]. change UB with (map zu ZB). apply wdot_sound; [cbn; lia|exact P2].
Qed.
Lemma order_e1 l : (fsize l <= 2)%nat -> Rabs (rsum 16 (fun j => row ZE1 j * Fphi l j)) <= / 10 ^ 27.
Proof.
  intros Hl. destruct (proj2 all_trees l ltac:(lia)) as (p & P1 & P2). destruct check_parts as (_ & _ & _ & H & _). specialize (H (fsize l) ltac:(lia) p P1). unfold ok0 in H. apply Z.leb_le in H.
  rewrite <- e27_R. eapply inb_scaled0; [|reflexivity|exact H]. change UE1 with (map zu ZE1). apply wdot_sound; [cbn; lia|exact P2].
Qed.
Lemma order_e2 l : (fsize l <= 4)%nat -> Rabs (rsum 16 (fun j => row ZE2 j * Fphi l j)) <= / 10 ^ 27.
Proof.
  intros Hl. destruct (proj2 all_trees l ltac:(lia)) as (p & P1 & P2). destruct check_parts as (_ & _ & _ & _ & H). specialize (H (fsize l) ltac:(lia) p P1). unfold ok0 in H. apply Z.leb_le in H.
  rewrite <- e27_R. eapply inb_scaled0; [|reflexivity|exact H]. change UE2 with (map zu ZE2). apply wdot_sound; [cbn; lia|exact P2].
Qed.
Lemma UD_zu : UD = map (map zu) ZD. Proof. vm_compute. reflexivity. Qed.
Lemma ZD_len m : (length (nth m ZD []) <= 16)%nat.
Proof. do 8 (destruct m as [|m]; [cbn; lia|]). destruct m; cbn; lia. Qed.
Lemma order_d l m : (fsize l <= 6)%nat -> (m < 8)%nat -> Rabs (rsum 16 (fun j => row (nth m ZD []) j * Fphi l j) - (if Nat.eqb m (S (fsize l)) then / tgam (TN l) else 0)) <= / 10 ^ 24.
Proof.
  intros Hl Hm. destruct (proj2 all_trees l ltac:(lia)) as (p & P1 & P2). destruct check_parts as (_ & _ & H & _). specialize (H (fsize l) ltac:(lia) p P1). unfold okd in H. rewrite forallb_forall in H. specialize (H m ltac:(apply in_seq; lia)).
  assert (U : nth m UD [] = map zu (nth m ZD [])) by (rewrite UD_zu; exact (map_nth (map zu) ZD [] m)). rewrite U in H. pose proof (wdot_sound (nth m ZD []) l p (ZD_len m) P2) as B. rewrite <- e24_R. destruct (Nat.eqb m (S (fsize l))).
  - unfold okg in H. apply Z.leb_le in H. rewrite <- (repf_gam l p P2). eapply inb_scaled; [exact B|reflexivity|exact (gam_Zpos l p P2)|exact H].
  - unfold ok0 in H. apply Z.leb_le in H. rewrite Rminus_0_r. eapply inb_scaled0; [exact B|reflexivity|exact H].
Qed.

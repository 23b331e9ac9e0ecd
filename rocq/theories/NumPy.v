(** The numpy primitives used by /repo, given their documented meaning on
    lists.  (numpy itself is not part of /repo; these definitions belong to the
    trusted base and are listed in DESIGN.md.) *)
From Coq Require Import Reals List Lia Lra ZArith Permutation Bool.
From Coquelicot Require Import Complex.
From Verif Require Import Base CNum.
Import ListNotations.
Local Open Scope R_scope.

(** ** Rotation of arrays *)

(** np.roll(x, s): out[i] = x[(i - s) mod n]. *)
Definition roll {A} (s : Z) (x : list A) : list A :=
  let k := Z.to_nat ((- s) mod Z.of_nat (length x)) in skipn k x ++ firstn k x.

(** np.fft.fftshift / np.fft.ifftshift (scipy.fftpack re-exports them): rolls by n//2 and -(n//2). *)
Definition fftshift {A} (x : list A) : list A := roll (Z.of_nat (Nat.div2 (length x))) x.
Definition ifftshift {A} (x : list A) : list A := roll (- Z.of_nat (Nat.div2 (length x))) x.

(** ** Discrete Fourier transforms *)

(** exp(2 pi i a / n) *)
Definition tw (n : nat) (a : Z) : C := cis (2 * PI * IZR a / INR n).

(** np.fft.fft: out[k] = sum_j x[j] exp(-2 pi i j k / n). *)
Definition fft (x : list C) : list C :=
  let n := length x in
  mk n (fun k => csum n (fun j => nth j x (RtoC 0) * tw n (- (Z.of_nat j * Z.of_nat k)))%C).

(** np.fft.ifft: out[k] = (1/n) sum_j x[j] exp(+2 pi i j k / n). *)
Definition ifft (x : list C) : list C :=
  let n := length x in
  mk n (fun k => (RtoC (/ INR n) *
                  csum n (fun j => nth j x (RtoC 0) * tw n (Z.of_nat j * Z.of_nat k)))%C).

(** ** Elementwise operations with broadcasting of length-1 operands *)
Fixpoint map2 {A B D} (f : A -> B -> D) (a : list A) (b : list B) : list D :=
  match a, b with
  | x :: a', y :: b' => f x y :: map2 f a' b'
  | _, _ => []
  end.

Definition broadcast2 {A B D} (f : A -> B -> D) (a : list A) (b : list B) : result (list D) :=
  if Nat.eqb (length a) (length b) then Ok (map2 f a b)
  else match a, b with
       | [x], _ => Ok (map (f x) b)
       | _, [y] => Ok (map (fun x => f x y) a)
       | _, _ => Raise ValueError
       end.

(** dst[:] = src : same length copies, length one broadcasts, otherwise ValueError. *)
Definition assign_all {A} (dst src : list A) : result (list A) :=
  if Nat.eqb (length dst) (length src) then Ok src
  else match src with
       | [y] => Ok (repeat y (length dst))
       | _ => Raise ValueError
       end.

(** x[mask] = v for a boolean mask computed elementwise from another array; a mask
    of another length raises IndexError. *)
Definition mask_assign {A B} (x : list A) (key : list B) (mask : B -> bool) (v : A) : result (list A) :=
  if Nat.eqb (length x) (length key)
  then Ok (map2 (fun a k => if mask k then v else a) x key)
  else Raise IndexError.

(** ** Sums and quadrature *)

(** np.trapz(y) with unit spacing. *)
Fixpoint trapz (y : list R) : R :=
  match y with
  | a :: ((b :: _) as y') => (a + b) / 2 + trapz y'
  | _ => 0
  end.

(** np.trapz(y, x). *)
Fixpoint trapz_x (y x : list R) : R :=
  match y, x with
  | a :: ((b :: _) as y'), t :: ((u :: _) as x') => (u - t) * (a + b) / 2 + trapz_x y' x'
  | _, _ => 0
  end.

(** np.linspace(a, b, n, endpoint=False) and np.linspace(a, b, n). *)
Definition linspace_open (a b : R) (n : nat) : list R :=
  mk n (fun j => a + INR j * ((b - a) / INR n)).
Definition linspace (a b : R) (n : nat) : list R :=
  match n with
  | O => []
  | 1%nat => [a]
  | _ => mk n (fun j => a + INR j * ((b - a) / INR (n - 1)))
  end.

(** np.arange(-n/2, n/2) with true division: n entries -n/2 + k, for odd n half-integers. *)
Definition arange_sym (n : nat) : list R := mk n (fun k => - (INR n / 2) + INR k).

(** ** Index searches and slices *)

(** np.argmin: index of the first minimum; ValueError on an empty array. *)
Fixpoint argmin_from (best : R) (bi i : nat) (l : list R) : nat :=
  match l with
  | [] => bi
  | x :: l' => if Rlt_dec x best then argmin_from x i (S i) l' else argmin_from best bi (S i) l'
  end.
Definition argmin (l : list R) : result nat :=
  match l with [] => Raise ValueError | x :: l' => Ok (argmin_from x 0 1 l') end.

(** Python slice bounds: negative indices count from the end, then clipping to [0,n]. *)
Definition slice_bound (n : nat) (i : Z) : nat :=
  let i' := if (i <? 0)%Z then (i + Z.of_nat n)%Z else i in
  Z.to_nat (Z.min (Z.max i' 0) (Z.of_nat n)).
Definition slice {A} (i j : Z) (x : list A) : list A :=
  let a := slice_bound (length x) i in
  let b := slice_bound (length x) j in
  firstn (b - a) (skipn a x).

(** x[i] with Python index semantics. *)
Definition py_index (n : nat) (i : Z) : result nat :=
  if (i <? - Z.of_nat n)%Z then Raise IndexError
  else if (Z.of_nat n <=? i)%Z then Raise IndexError
  else Ok (Z.to_nat (if (i <? 0)%Z then i + Z.of_nat n else i)%Z).

Definition update {A} (i : nat) (v : A) (x : list A) : list A :=
  firstn i x ++ v :: skipn (S i) x.

(** np.gradient with unit spacing: central differences inside, one-sided at the ends;
    fewer than two samples raises ValueError. *)
Definition gradient (x : list R) : result (list R) :=
  let n := length x in
  if Nat.ltb n 2 then Raise ValueError
  else Ok (mk n (fun i =>
         if Nat.eqb i 0 then nth 1 x 0 - nth 0 x 0
         else if Nat.eqb i (n - 1) then nth (n - 1) x 0 - nth (n - 2) x 0
         else (nth (i + 1) x 0 - nth (i - 1) x 0) / 2)).

(** np.correlate(a, v, mode='same') for equally long real arrays: with numpy's
    convention c[k] = sum_m a[m+k] v[m], the central n entries; entry i has lag i - n//2. *)
Definition correlate_same (a v : list R) : list R :=
  let n := length a in
  mk n (fun i => rsum n (fun m =>
     let j := (Z.of_nat m + Z.of_nat i - Z.of_nat (Nat.div2 n))%Z in
     if (0 <=? j)%Z && (j <? Z.of_nat n)%Z
     then nth (Z.to_nat j) a 0 * nth m v 0 else 0)).

(** ** Facts *)

Lemma map2_length {A B D} (f : A -> B -> D) a b :
  length a = length b -> length (map2 f a b) = length a.
Proof.
  revert b. induction a as [|x a IH]; intros [|y b] H; simpl in *; try lia.
  rewrite IH by lia. reflexivity.
Qed.

Lemma map2_nth {A B D} (f : A -> B -> D) a b i da db d :
  length a = length b -> (i < length a)%nat ->
  nth i (map2 f a b) d = f (nth i a da) (nth i b db).
Proof.
  revert b i. induction a as [|x a IH]; intros [|y b] i Hl Hi; simpl in *; try lia.
  destruct i as [|i]; [reflexivity|]. apply IH; lia.
Qed.

Lemma broadcast2_eq {A B D} (f : A -> B -> D) a b :
  length a = length b -> broadcast2 f a b = Ok (map2 f a b).
Proof. intros H. unfold broadcast2. now rewrite H, Nat.eqb_refl. Qed.

Lemma assign_all_eq {A} (a b : list A) : length a = length b -> assign_all a b = Ok b.
Proof. intros H. unfold assign_all. now rewrite H, Nat.eqb_refl. Qed.

Lemma assign_all_length {A} (a b c : list A) : assign_all a b = Ok c -> length c = length a.
Proof.
  unfold assign_all. destruct (Nat.eqb_spec (length a) (length b)) as [E|E].
  - intros H; injection H; intros; subst; auto.
  - destruct b as [|y [|z b]]; intros H; try discriminate.
    injection H; intros; subst. apply repeat_length.
Qed.

Lemma map2_mk {A B D} (f : A -> B -> D) n g h :
  map2 f (mk n g) (mk n h) = mk n (fun i => f (g i) (h i)).
Proof.
  destruct n as [|n]; [reflexivity|].
  apply (list_ext (f (g O) (h O))).
  - rewrite map2_length; rewrite !mk_length; auto.
  - rewrite map2_length, mk_length by now rewrite !mk_length.
    intros i Hi. rewrite (map2_nth f _ _ i (g O) (h O)) by now rewrite !mk_length.
    now rewrite !mk_nth.
Qed.

Lemma roll_length {A} s (x : list A) : length (roll s x) = length x.
Proof.
  unfold roll. rewrite app_length, skipn_length, firstn_length. lia.
Qed.
Lemma fftshift_length {A} (x : list A) : length (fftshift x) = length x.
Proof. apply roll_length. Qed.
Lemma ifftshift_length {A} (x : list A) : length (ifftshift x) = length x.
Proof. apply roll_length. Qed.

Lemma roll_nil {A} s : roll s (@nil A) = [].
Proof. unfold roll. now rewrite skipn_nil, firstn_nil. Qed.

Lemma roll_perm {A} s (x : list A) : Permutation (roll s x) x.
Proof.
  unfold roll. etransitivity; [apply Permutation_app_comm|]. now rewrite firstn_skipn.
Qed.

Definition zmodn (n : nat) (a : Z) : nat := Z.to_nat (a mod Z.of_nat n).

Lemma zmodn_lt n a : (0 < n)%nat -> (zmodn n a < n)%nat.
Proof.
  intros H. unfold zmodn. pose proof (Z.mod_pos_bound a (Z.of_nat n)). lia.
Qed.
Lemma zmodn_id n i : (i < n)%nat -> zmodn n (Z.of_nat i) = i.
Proof. intros H. unfold zmodn. rewrite Z.mod_small by lia. apply Nat2Z.id. Qed.
Lemma zmodn_of n a : (0 < n)%nat -> Z.of_nat (zmodn n a) = (a mod Z.of_nat n)%Z.
Proof.
  intros H. unfold zmodn. apply Z2Nat.id. pose proof (Z.mod_pos_bound a (Z.of_nat n)). lia.
Qed.
Lemma zmodn_eq n a b : (a mod Z.of_nat n = b mod Z.of_nat n)%Z -> zmodn n a = zmodn n b.
Proof. unfold zmodn. congruence. Qed.

Lemma roll_nth {A} s (x : list A) i d : (i < length x)%nat ->
  nth i (roll s x) d = nth (zmodn (length x) (Z.of_nat i - s)) x d.
Proof.
  intros Hi. unfold roll. set (n := length x) in *.
  pose proof (Z.mod_pos_bound (- s) (Z.of_nat n)) as Hb.
  set (k := Z.to_nat ((- s) mod Z.of_nat n)).
  assert (Hk : (k < n)%nat) by (unfold k; lia).
  assert (Ek : Z.of_nat k = ((- s) mod Z.of_nat n)%Z) by (unfold k; lia).
  assert (E : zmodn n (Z.of_nat i - s) = if Nat.ltb (i + k) n then (i + k)%nat else (i + k - n)%nat).
  { unfold zmodn. replace (Z.of_nat i - s)%Z with (Z.of_nat i + - s)%Z by ring.
    rewrite Z.add_mod by lia. rewrite <- Ek. rewrite (Z.mod_small (Z.of_nat i)) by lia.
    destruct (Nat.ltb_spec (i + k) n).
    - rewrite Z.mod_small by lia. lia.
    - replace (Z.of_nat i + Z.of_nat k)%Z with (Z.of_nat (i + k - n) + 1 * Z.of_nat n)%Z by lia.
      rewrite Z_mod_plus_full, Z.mod_small by lia. lia. }
  rewrite E. destruct (Nat.ltb_spec (i + k) n).
  - rewrite app_nth1 by (rewrite skipn_length; fold n; lia).
    rewrite <- (firstn_skipn k x) at 2. rewrite app_nth2 by (rewrite firstn_length; lia).
    f_equal. rewrite firstn_length. fold n. lia.
  - rewrite app_nth2 by (rewrite skipn_length; fold n; lia).
    rewrite skipn_length. fold n. rewrite <- (firstn_skipn k x) at 2.
    rewrite app_nth1 by (rewrite firstn_length; fold n; lia). f_equal. lia.
Qed.

Lemma roll_roll {A} a b (x : list A) : roll a (roll b x) = roll (a + b) x.
Proof.
  destruct x as [|d x]; [now rewrite !roll_nil|]. set (y := d :: x).
  apply (list_ext d); rewrite !roll_length; [reflexivity|]. intros i Hi.
  rewrite !roll_nth by (rewrite ?roll_length; assumption || (apply zmodn_lt; simpl; lia)).
  rewrite !roll_length. f_equal. apply zmodn_eq.
  rewrite zmodn_of by (unfold y; simpl; lia).
  rewrite Zminus_mod_idemp_l. f_equal. ring.
Qed.
Lemma roll_0 {A} (x : list A) : roll 0 x = x.
Proof.
  unfold roll. simpl Z.opp. rewrite Zmod_0_l. simpl. apply app_nil_r.
Qed.
Lemma roll_n {A} (x : list A) k : roll (k * Z.of_nat (length x)) x = x.
Proof.
  unfold roll. rewrite <- Z.mul_opp_l, Z_mod_mult. simpl. apply app_nil_r.
Qed.
Lemma roll_map {A B} (f : A -> B) s x : roll s (map f x) = map f (roll s x).
Proof. unfold roll. now rewrite map_length, map_app, skipn_map, firstn_map. Qed.

Lemma roll_map2 {A B D} (f : A -> B -> D) s a b : length a = length b ->
  roll s (map2 f a b) = map2 f (roll s a) (roll s b).
Proof.
  intros H. destruct a as [|x a]; [destruct b; [cbn [map2]; now rewrite !roll_nil|discriminate]|].
  destruct b as [|y b]; [discriminate|].
  set (u := x :: a) in *. set (v := y :: b) in *.
  apply (list_ext (f x y)).
  - rewrite roll_length, !map2_length; rewrite ?roll_length; auto.
  - rewrite roll_length, map2_length by auto. intros i Hi.
    rewrite roll_nth by (rewrite map2_length; auto).
    rewrite (map2_nth f u v _ x y) by (auto; rewrite map2_length by auto; apply zmodn_lt; unfold u; simpl; lia).
    rewrite (map2_nth f (roll s u) (roll s v) _ x y) by (rewrite ?roll_length; auto).
    rewrite map2_length by auto. rewrite !roll_nth by lia. now rewrite <- H.
Qed.

Lemma fftshift_ifftshift {A} (x : list A) : fftshift (ifftshift x) = x.
Proof.
  unfold fftshift, ifftshift. rewrite roll_length, roll_roll, Z.add_opp_diag_r. apply roll_0.
Qed.
Lemma ifftshift_fftshift {A} (x : list A) : ifftshift (fftshift x) = x.
Proof.
  unfold fftshift, ifftshift. rewrite roll_length, roll_roll, Z.add_opp_diag_l. apply roll_0.
Qed.
Lemma shift_even {A} (x : list A) : Nat.Even (length x) -> fftshift x = ifftshift x.
Proof.
  intros [h Hh]. unfold fftshift, ifftshift. rewrite Hh, Nat.div2_double.
  rewrite <- (roll_n x (-1)) at 1. rewrite roll_roll. f_equal. lia.
Qed.

(** Reindexing sums modulo n. *)
Lemma mk_shift {A} n (f : nat -> A) (s : Z) :
  mk n (fun j => f (zmodn n (Z.of_nat j - s))) = roll s (mk n f).
Proof.
  destruct n as [|n]; [symmetry; apply roll_nil|].
  apply (list_ext (f O)); rewrite ?roll_length, !mk_length; [reflexivity|].
  intros i Hi. rewrite mk_nth by lia. rewrite roll_nth by (rewrite mk_length; lia).
  rewrite mk_length, mk_nth by (apply zmodn_lt; lia). reflexivity.
Qed.
Lemma csum_shift n f (s : Z) : csum n (fun j => f (zmodn n (Z.of_nat j + s))) = csum n f.
Proof.
  unfold csum. rewrite (mk_ext n _ (fun j => f (zmodn n (Z.of_nat j - (- s))))).
  - rewrite mk_shift. apply lsum_perm, roll_perm.
  - intros i _. f_equal. f_equal. ring.
Qed.
Lemma rsum_shift n f (s : Z) : rsum n (fun j => f (zmodn n (Z.of_nat j + s))) = rsum n f.
Proof.
  unfold rsum. rewrite (mk_ext n _ (fun j => f (zmodn n (Z.of_nat j - (- s))))).
  - rewrite mk_shift. apply lrsum_perm, roll_perm.
  - intros i _. f_equal. f_equal. ring.
Qed.

(** Twiddle factors. *)
Lemma tw_add n a b : tw n (a + b) = (tw n a * tw n b)%C.
Proof.
  unfold tw. rewrite <- cis_add. f_equal. rewrite plus_IZR. unfold Rdiv. ring.
Qed.
Lemma tw_0 n : tw n 0 = RtoC 1.
Proof. unfold tw. unfold Rdiv. rewrite Rmult_0_r, Rmult_0_l. apply cis_0. Qed.
Lemma tw_mod n a b : (0 < n)%nat -> (a mod Z.of_nat n = b mod Z.of_nat n)%Z -> tw n a = tw n b.
Proof. apply cis_mod_period. Qed.
Lemma tw_conj n a : Cconj (tw n a) = tw n (- a).
Proof. unfold tw. rewrite cis_conj. f_equal. rewrite opp_IZR. unfold Rdiv. ring. Qed.
Lemma tw_norm2 n a : Cnorm2 (tw n a) = 1.
Proof. apply cis_norm2. Qed.
Lemma tw_orth n m : (0 < n)%nat ->
  csum n (fun j => tw n (m * Z.of_nat j)) =
  if (m mod Z.of_nat n =? 0)%Z then RtoC (INR n) else RtoC 0.
Proof.
  intros Hn. rewrite <- roots_orth by exact Hn. apply csum_ext. intros j _.
  unfold tw. f_equal. rewrite mult_IZR, <- INR_IZR_INZ. unfold Rdiv. ring.
Qed.

Lemma fft_length x : length (fft x) = length x.
Proof. apply mk_length. Qed.
Lemma ifft_length x : length (ifft x) = length x.
Proof. apply mk_length. Qed.

Lemma orth_diff n (a b : nat) : (a < n)%nat -> (b < n)%nat ->
  ((Z.of_nat a - Z.of_nat b) mod Z.of_nat n =? 0)%Z = Nat.eqb a b.
Proof.
  intros Ha Hb. destruct (Nat.eqb_spec a b) as [->|H].
  - rewrite Z.sub_diag. rewrite Zmod_0_l. reflexivity.
  - apply Z.eqb_neq. intros E. apply Z.mod_divide in E; [|lia]. destruct E as [k Hk].
    assert (k = 0)%Z by nia. subst. lia.
Qed.

(** trapz is the full sum minus half the end points. *)
Lemma trapz_sum y : (2 <= length y)%nat ->
  trapz y = lrsum y - (nth 0 y 0 + nth (length y - 1) y 0) / 2.
Proof.
  induction y as [|a y IH]; simpl length; intros H; [lia|].
  destruct y as [|b y]; [simpl in H; lia|].
  destruct y as [|c y].
  - simpl. field.
  - change (trapz (a :: b :: c :: y)) with ((a + b) / 2 + trapz (b :: c :: y)).
    rewrite IH by (simpl; lia).
    replace (S (length (b :: c :: y)) - 1)%nat with (S (length (b :: c :: y) - 1))%nat by (simpl; lia).
    change (nth (S (length (b :: c :: y) - 1)) (a :: b :: c :: y) 0)
      with (nth (length (b :: c :: y) - 1) (b :: c :: y) 0).
    set (z := nth (length (b :: c :: y) - 1) (b :: c :: y) 0).
    simpl. field.
Qed.
Lemma trapz_scale k y : trapz (map (Rmult k) y) = k * trapz y.
Proof.
  induction y as [|a y IH]; [simpl; ring|].
  destruct y as [|b y]; [simpl; ring|].
  change (trapz (map (Rmult k) (a :: b :: y))) with ((k * a + k * b) / 2 + trapz (map (Rmult k) (b :: y))).
  rewrite IH. change (trapz (a :: b :: y)) with ((a + b) / 2 + trapz (b :: y)). field.
Qed.
Lemma trapz_nonneg y : (forall v, In v y -> 0 <= v) -> 0 <= trapz y.
Proof.
  induction y as [|a y IH]; intros H; [simpl; lra|].
  destruct y as [|b y]; [simpl; lra|].
  change (trapz (a :: b :: y)) with ((a + b) / 2 + trapz (b :: y)).
  assert (0 <= trapz (b :: y)) by (apply IH; intros; apply H; right; assumption).
  assert (0 <= a) by (apply H; left; auto).
  assert (0 <= b) by (apply H; right; left; auto). lra.
Qed.

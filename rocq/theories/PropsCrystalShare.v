(** Property theorems proved in CrystalShareProofs.v (generated by tools/gen_props.py). *)
From Coq Require Import String.
From Coq Require Import Reals List ZArith Bool Arith Lia Lra.
From Verif Require Import Base CNum NumPy ModelPulse ModelCrystal CrystalProofs CrystalShareProofs.
Import ListNotations.
Local Open Scope R_scope.
Local Open Scope py_scope.

(** C61: partial: where the value of a refractive-index read comes from, after every history of creating, heating, rotating, switching the caching of and reading any number of crystals: it is the value this crystal computes without caching, or - only with caching on - the uncached value that some crystal with caching on gave at an earlier read with the same pulse hash and axis. Missing (false, see the refutations): that the earlier crystal was this one in its present state. *)
Theorem C61_provenance_partial : forall (strf : R -> string) (ops : list xop) (i : nat) (p : pulse) (axis : option string) (x : crystal),
  let w := xrun strf ops xworld0 in let uncached y q ax := fst (get_pulse_n strf (set_caching false y) ax (shared0, q)) in
  nth_error (xw_xs w) i = Some x ->
  exists r, fst (xstep strf w (XReadN i p axis)) = OIndex r /\
    (r = uncached x p axis \/
     x_caching x = true /\ exists a j q ax b y v, ops = a ++ XReadN j q ax :: b /\ nth_error (xw_xs (xrun strf a xworld0)) j = Some y /\ x_caching y = true /\
       (hash_of strf q ++ str_axis ax)%string = (hash_of strf p ++ str_axis axis)%string /\ uncached y q ax = Ok v /\ r = Ok v).
Proof. exact C61_provenance_partial_l. Qed.
Print Assumptions C61_provenance_partial.

(** C61: partial: caching is transparent in every history in which the cached reads with one pulse hash and axis agree on the uncached value (as when one crystal in one state is read); with caching off it always is. *)
Theorem C61_transparent_partial : forall (strf : R -> string) (ops : list xop) (i : nat) (p : pulse) (axis : option string) (x : crystal),
  let w := xrun strf ops xworld0 in let uncached y q ax := fst (get_pulse_n strf (set_caching false y) ax (shared0, q)) in
  nth_error (xw_xs w) i = Some x ->
  (x_caching x = true -> forall a j q ax b y, ops = a ++ XReadN j q ax :: b -> nth_error (xw_xs (xrun strf a xworld0)) j = Some y -> x_caching y = true ->
     (hash_of strf q ++ str_axis ax)%string = (hash_of strf p ++ str_axis axis)%string -> uncached y q ax = uncached x p axis) ->
  fst (xstep strf w (XReadN i p axis)) = OIndex (uncached x p axis).
Proof. exact C61_transparent_partial_l. Qed.
Print Assumptions C61_transparent_partial.

(** C61: partial: what a crystal's damage threshold does depend on: in every history every crystal reports 1e13 as long as no PPLN was ever created and 4e13 afterwards. *)
Theorem C61_damage_partial : forall (strf : R -> string) (ops : list xop) (i : nat), (i < length (xw_xs (xrun strf ops xworld0)))%nat ->
  fst (xstep strf (xrun strf ops xworld0) (XReadDamage i)) = ODamage (Ok (if existsb (fun o => match o with XNewPpln _ _ _ _ => true | _ => false end) ops then 4e13 else 1e13)).
Proof. exact C61_damage_partial_l. Qed.
Print Assumptions C61_damage_partial.

(** C61: refuted: creating a PPLN crystal quadruples the damage threshold an existing AgGaSe2 crystal reports, because both write one class-level dictionary. *)
Theorem C61_damage_refuted : forall (strf : R -> string) (theta T : R) (len len' : option R) (b b' : bool) (src : source),
  fst (xstep strf (xrun strf [XNewAgse theta len b] xworld0) (XReadDamage 0)) = ODamage (Ok 1e13) /\
  fst (xstep strf (xrun strf [XNewAgse theta len b; XNewPpln T src len' b'] xworld0) (XReadDamage 0)) = ODamage (Ok 4e13).
Proof. exact C61_damage_refuted_l. Qed.
Print Assumptions C61_damage_refuted.

(** C61: refuted: a PPLN crystal with caching on is heated from 24.5 to 124.5 degrees between two reads with the same pulse; the second read still returns the index of the cold crystal, which differs from what it returns with caching off. *)
Theorem C61_stale_index_refuted : forall strf : R -> string, exists (p : pulse) (cold hot : list R), cold <> hot /\
  let hist := [XNewPpln 24.5 Gayer (Some 1.0) true; XReadN 0 p None; XSetT 0 124.5] in
  fst (xstep strf (xrun strf hist xworld0) (XReadN 0 p None)) = OIndex (Ok cold) /\
  fst (xstep strf (xrun strf (hist ++ [XSetCaching 0 false]) xworld0) (XReadN 0 p None)) = OIndex (Ok hot).
Proof. exact C61_stale_index_refuted_l. Qed.
Print Assumptions C61_stale_index_refuted.

(** A concrete case for C116: 5 m of fiber with gamma = 1 + z per W and m, reloaded at each of 10 steps. *)
From Coq Require Import String.
From Coq Require Import Reals List ZArith Bool Arith Lia Lra.
From Coquelicot Require Import Complex.
From Verif Require Import Base CNum NumPy ModelPulse PulseProofs ModelSSFM ModelRun RunProofs RunKerrProofs PropsRunKerr ExSSFM ExRun.
From Verif Require ModelFiber ExFiber.
Import ListNotations.
Local Open Scope R_scope.
Local Open Scope py_scope.

Definition xk : cfg := mkCfg (1 / 1000) METHOD_SSFM 5 true true true (1 / 10) (3 / 10) true.
Example ex_C116 : exists st fuel r q, (ModelFiber.generate_fiber 5 1550 [0; 0] (1 / 10) 0 "ps^n/km" "mine" ;;; ModelFiber.set_gamma_function (fun z => 1 + z)) ([ModelFiber.empty_specs], ExFiber.f0) = (Ok tt, st) /\
  propagate xk fuel (view ExFiber.pf ExFiber.sp st) 10 None true x0 xp = (Ok (Some r), q).
Proof.
  destruct (C116_kerr_fiber ExFiber.pf ExFiber.sp [ModelFiber.empty_specs] ExFiber.f0 5 1550 [0; 0] (1 / 10) (Some (fun z => 1 + z)) "ps^n/km" "mine" xk 10 None true x0 xp xa 2 eq_refl eq_refl
    ltac:(intros b [<-|[<-|[]]]; reflexivity) ltac:(lra) ltac:(lra) xp_holds eq_refl ltac:(lia) (proj1 xp_tw) ltac:(cbn; lra) ltac:(lia) ltac:(cbn; lra) eq_refl eq_refl eq_refl ltac:(cbn; lia) ltac:(cbn; lra))
    as (st & E & (fuel & r & q & H) & _). exists st, fuel, r, q. auto.
Qed.

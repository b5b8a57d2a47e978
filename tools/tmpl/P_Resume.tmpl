(* P_Resume.v - property theorems about training in several calls of fit (C103) *)
From Coq Require Import String List Arith Bool ZArith QArith Lia.
From Verif Require Import Base Scalar Mat SpecMat Loss Optim LayMat Layer Net NetTrain SpecFit SpecResume Resume3 Order5 NetProofs4 TrainProofs14 Resume4.
Import ListNotations.
Local Open Scope nat_scope.

(** C103.  Without keep-best, with an optimiser that keeps no state and layers that have their parameters: e1 epochs followed by a second call
    with e2 epochs give, in any arithmetic, the objects, network and trainer of one call with e1 + e2 epochs; the curves and callbacks follow each other. *)
@thm C103_resume = fit_resume | forall (F : FOps), | cabs = (absFloat F)
@thm C103_case = resume_case
@thm C103_run_case = run_case
@thm C103_run_values = plain_run
(* none of the conditions can be dropped *)
@thm C103_momentum_refuted = momentum_refuted
@thm C103_keep_best_refuted = keep_refuted
@thm C103_unsized_layer_refuted = lazy_refuted

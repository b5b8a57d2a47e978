(* P_Twin.v - property theorems about units that start with the same parameters (C110) *)
From Coq Require Import String List Arith Bool ZArith QArith Reals.
From Verif Require Import Base Scalar Mat SpecMat Act Loss Optim Regul LayMat Layer Net NetTrain SpecTrain SpecFit SpecResume SpecFixed SpecZero SpecTwin Fixed4 Dead2 SpecNet Sym2 Twin1 Twin2 Twin3.
Import ListNotations.
Local Open Scope nat_scope.

(** C110.  Two units of a hidden Dense layer with the same incoming weights, the same bias and the same outgoing weights still have them in common
    after fit, bit for bit, in every arithmetic, whatever the optimiser, the regulariser, the loss and the rest of the network. *)
@thm C110_stay_equal = twins | forall (F : FOps), | cabs = (absFloat F)
(* a layer whose units all start equal (constant initialisation) ends with all of them equal *)
@thm C110_constant_layer = clones | forall (F : FOps), | cabs = (absFloat F)
@thm C110_case = twin_case | forall (F : FOps), | cabs = (absFloat F); eqHeap = (eqHeap F)
@thm C110_run_case = twin_run
(* equal incoming weights alone are not enough *)
@thm C110_outgoing_refuted = outgoing_refuted
(* and in exact arithmetic such a layer of q equal units predicts what one unit with q times the outgoing weights predicts *)
@thm C110_one_unit = one_unit | forall (jk : R), | F = (ROps jk)
@thm C110_one_unit_case = one_case | forall (jk : R), | F = (ROps jk); oneHeap = (oneHeap jk)

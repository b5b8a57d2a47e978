(* P_NaN.v - property theorems about activation functions and not-a-numbers in single precision (C92) *)
From Coq Require Import List Arith ZArith Reals Lra Lia Bool.
From Flocq Require Import Core IEEE754.BinarySingleNaN.
From Verif Require Import Base Scalar Mat SpecMat B32Int Act LayMat Layer SpecRound SpecNaN B32Kit NaNAct NaNRefute NaNFin NaNCase NaNLay B32OfR LibmRound.
Import ListNotations.
Local Open Scope R_scope.

(** C92.  [num x]: not a NaN; [fin x]: finite; [stdLibm lm pw]: ranges and special cases of the C library's float functions;
    [nanApply], [nanDeriv]: the activations that produce a NaN from some finite input; [ordinary k x]: |x| <= 32 and in the domain
    of k (SpecNaN.v). *)
@thm C92_apply = apply_number
@thm C92_deriv = deriv_number
@thm C92_apply_refuted = apply_nan
@thm C92_deriv_refuted = deriv_nan
@thm C92_ordinary = ordinary_fin
@thm C92_layer = layer_num
@thm C92_layer_ordinary = layer_fin
(* the hypothesis holds of a library that rounds the real functions correctly *)
@thm C92_library = exact_std
Example C92_case : stdLibm stepLm stepPw /\ fin (b32_of_Z 3) /\ ~ In AGELU nanApply /\ ~ In AGELU nanDeriv /\ ordinary ASoftSteps (b32_of_Z 3).
Proof.
  pose proof (ofZ_val 3 ltac:(lia)) as [A B]. split; [exact step_std|]. split; [exact A|]. split; [cbn; intuition discriminate|]. split; [cbn; intuition discriminate|].
  split; [exact A|]. split; [rewrite B, Rabs_pos_eq; lra | exact Logic.I].
Qed.

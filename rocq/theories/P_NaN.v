(* P_NaN.v - property theorems about activation functions and not-a-numbers in single precision (C92) *)
From Coq Require Import List Arith ZArith Reals Lra Lia Bool.
From Flocq Require Import Core IEEE754.BinarySingleNaN.
From Verif Require Import Base Scalar Mat SpecMat B32Int Act LayMat Layer SpecRound SpecNaN B32Kit NaNAct NaNRefute NaNFin NaNCase NaNLay B32OfR LibmRound.
Import ListNotations.
Local Open Scope R_scope.

(** C92.  [num x]: not a NaN; [fin x]: finite; [stdLibm lm pw]: ranges and special cases of the C library's float functions;
    [nanApply], [nanDeriv]: the activations that produce a NaN from some finite input; [ordinary k x]: |x| <= 32 and in the domain
    of k (SpecNaN.v). *)
Theorem C92_apply : forall lm pw jk k x, stdLibm lm pw -> fin x -> ~ In k nanApply -> num (act_apply (B32Ops lm pw jk) k x).
Proof. exact apply_number. Qed.
Print Assumptions C92_apply.

Theorem C92_deriv : forall lm pw jk k x, stdLibm lm pw -> fin x -> ~ In k nanDeriv -> num (act_deriv (B32Ops lm pw jk) k x).
Proof. exact deriv_number. Qed.
Print Assumptions C92_deriv.

Theorem C92_apply_refuted : forall k, In k nanApply -> exists x, fin x /\ forall lm pw jk, stdLibm lm pw -> nan (act_apply (B32Ops lm pw jk) k x).
Proof. exact apply_nan. Qed.
Print Assumptions C92_apply_refuted.

Theorem C92_deriv_refuted : forall k, In k nanDeriv -> exists x, fin x /\ forall lm pw jk, stdLibm lm pw -> nan (act_deriv (B32Ops lm pw jk) k x).
Proof. exact deriv_nan. Qed.
Print Assumptions C92_deriv_refuted.

Theorem C92_ordinary : forall lm pw jk k x, stdLibm lm pw -> ordinary k x -> fin (act_apply (B32Ops lm pw jk) k x) /\ fin (act_deriv (B32Ops lm pw jk) k x).
Proof. exact ordinary_fin. Qed.
Print Assumptions C92_ordinary.

Theorem C92_layer : forall lm pw jk (r : rnd (B32Ops lm pw jk)) l k n m X out, stdLibm lm pw -> lk l = KAct (Some k) -> ~ In k nanApply ->
  (forall i j, (i < n)%nat -> (j < m)%nat -> fin (X i j)) -> mwf out ->
  exists Y, layForward (B32Ops lm pw jk) r l (mgen n m X) out = Ok (l, mgen n m Y) /\ forall i j, (i < n)%nat -> (j < m)%nat -> num (Y i j).
Proof. exact layer_num. Qed.
Print Assumptions C92_layer.

Theorem C92_layer_ordinary : forall lm pw jk (r : rnd (B32Ops lm pw jk)) l k n m X out, stdLibm lm pw -> lk l = KAct (Some k) ->
  (forall i j, (i < n)%nat -> (j < m)%nat -> ordinary k (X i j)) -> mwf out ->
  exists Y, layForward (B32Ops lm pw jk) r l (mgen n m X) out = Ok (l, mgen n m Y) /\ forall i j, (i < n)%nat -> (j < m)%nat -> fin (Y i j).
Proof. exact layer_fin. Qed.
Print Assumptions C92_layer_ordinary.

(* the hypothesis holds of a library that rounds the real functions correctly *)
Theorem C92_library : stdLibm exactLm exactPw.
Proof. exact exact_std. Qed.
Print Assumptions C92_library.

Example C92_case : stdLibm stepLm stepPw /\ fin (b32_of_Z 3) /\ ~ In AGELU nanApply /\ ~ In AGELU nanDeriv /\ ordinary ASoftSteps (b32_of_Z 3).
Proof.
  pose proof (ofZ_val 3 ltac:(lia)) as [A B]. split; [exact step_std|]. split; [exact A|]. split; [cbn; intuition discriminate|]. split; [cbn; intuition discriminate|].
  split; [exact A|]. split; [rewrite B, Rabs_pos_eq; lra | exact Logic.I].
Qed.

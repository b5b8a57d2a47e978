(* NaNLay.v - an activation layer in single precision *)
From Coq Require Import List Arith ZArith Reals Lra Lia Bool.
From Flocq Require Import Core IEEE754.BinarySingleNaN.
From Verif Require Import Base Scalar Mat SpecMat B32Int Act LayMat Layer LayProofs3 SpecRound RoundProofs1 SpecNaN B32Kit NaNAct NaNFin NaNCase.
Import ListNotations.
Local Open Scope R_scope.

Theorem ordinary_fin : forall lm pw jk k x, stdLibm lm pw -> ordinary k x -> fin (act_apply (B32Ops lm pw jk) k x) /\ fin (act_deriv (B32Ops lm pw jk) k x).
Proof. intros lm pw jk k x S O. pose proof O as (A & B & _). split; [apply apply_fin | apply deriv_fin]; auto. Qed.

Theorem layer_num : forall lm pw jk (r : rnd (B32Ops lm pw jk)) l k n m X out, stdLibm lm pw -> lk l = KAct (Some k) -> ~ In k nanApply ->
  (forall i j, (i < n)%nat -> (j < m)%nat -> fin (X i j)) -> mwf out ->
  exists Y, layForward (B32Ops lm pw jk) r l (mgen n m X) out = Ok (l, mgen n m Y) /\ forall i j, (i < n)%nat -> (j < m)%nat -> num (Y i j).
Proof.
  intros lm pw jk r l k n m X out S K N H W. eexists. split; [unfold layForward; rewrite K, fwdAct_gen by auto; reflexivity|].
  intros i j Hi Hj. apply apply_num; auto.
Qed.
Theorem layer_fin : forall lm pw jk (r : rnd (B32Ops lm pw jk)) l k n m X out, stdLibm lm pw -> lk l = KAct (Some k) ->
  (forall i j, (i < n)%nat -> (j < m)%nat -> ordinary k (X i j)) -> mwf out ->
  exists Y, layForward (B32Ops lm pw jk) r l (mgen n m X) out = Ok (l, mgen n m Y) /\ forall i j, (i < n)%nat -> (j < m)%nat -> fin (Y i j).
Proof.
  intros lm pw jk r l k n m X out S K H W. eexists. split; [unfold layForward; rewrite K, fwdAct_gen by auto; reflexivity|].
  intros i j Hi Hj. apply ordinary_fin; auto.
Qed.
Theorem apply_number : forall lm pw jk k x, stdLibm lm pw -> fin x -> ~ In k nanApply -> num (act_apply (B32Ops lm pw jk) k x).
Proof. intros. apply apply_num; auto. Qed.
Theorem deriv_number : forall lm pw jk k x, stdLibm lm pw -> fin x -> ~ In k nanDeriv -> num (act_deriv (B32Ops lm pw jk) k x).
Proof. intros. apply deriv_num; auto. Qed.

(* TrainProofs10.v - assignment of trainers *)
From Coq Require Import String List Arith Bool Lia ZArith QArith.
From Verif Require Import Base Scalar Mat SpecMat Loss LossProofs LossProofs2 ActMono Optim Regul RegulProofs Act ActProofs LayMat LayImg LayRnn Layer Net NetTrain SpecNet SpecTrain NetProofs4.
Import ListNotations.
Local Open Scope nat_scope.

Section Train.
Variable F : FOps.
Theorem trainer_assign : forall a b : trainer F,
  (forall r, cReg F (tc F b) = Some r -> set_parameter F (newReg F (Regul.rkind F r)) (rparam F r) = r) ->
  (forall o os, topts F b = o :: os -> clonesRate (okind F o) = true) ->
  exists a', trAssign F a b = Ok a' /\ gettersOf F a' = withValBatch F (gettersOf F b) (cValBatch F (tc F a)).
Proof.
  intros a b Hr Ho. unfold trAssign, mkLoss. rewrite (proj2 (losses_complete (cLoss F (tc F b)))). cbn [bind].
  assert (E : exists rg, mkRegularizer F (trGetReg F b) (trGetRegParam F b) = Ok rg /\ rg = cReg F (tc F b)).
  { unfold mkRegularizer, trGetReg, trGetRegParam. destruct (cReg F (tc F b)) as [r|] eqn:Er; [|exists None; split; reflexivity].
    exists (Some r). split; [|reflexivity]. replace (reg_name (Regul.rkind F r) =? "")%string with false by (destruct (Regul.rkind F r); reflexivity).
    rewrite (proj2 (reg_registry_complete (Regul.rkind F r))). rewrite (Hr r eq_refl). reflexivity. }
  destruct E as (rg & -> & ->). cbn [bind]. eexists. split; [reflexivity|].
  unfold gettersOf, withValBatch, trGetReg, trGetRegParam, trGetLr. cbn -[clone]. f_equal.
  destruct (topts F b) as [|o os] eqn:Eo; [reflexivity|]. specialize (Ho o os eq_refl). cbn [map].
  unfold clone. destruct (okind F o); try discriminate Ho; reflexivity.
Qed.
End Train.

(** * what is not copied *)
(* the validation batch size *)
Definition trValBatch (x : nat) : trainer QOps :=
  setSettings QOps (trNew QOps) (mkSet QOps 32 x true 100 (-1) (-1) false "Adam" (minus1 QOps) (minus1 QOps) (minus1 QOps) LMeanSquaredError None).
Theorem assign_valbatch_refuted : exists a b a' : trainer QOps, trAssign QOps a b = Ok a' /\
  gValBatch QOps (gettersOf QOps b) = 16 /\ gValBatch QOps (gettersOf QOps a') = 128.
Proof. exists (trNew QOps), (trValBatch 16). eexists. split; [reflexivity|]. split; reflexivity. Qed.
(* the learning rate that get_learningrate reports when the optimiser is RPROP-: fit has been called on a network with weights *)
Definition trRprop : trainer QOps :=
  setSettings QOps (trNew QOps) (mkSet QOps 32 128 true 100 (-1) (-1) false "RPROP-" (1 # 2)%Q (minus1 QOps) (minus1 QOps) LMeanSquaredError None).
Theorem assign_rate_refuted : exists h n a b a' h1, setNet QOps h n trRprop = Ok (h1, b) /\ trAssign QOps a b = Ok a' /\
  gLr QOps (gettersOf QOps b) <> gLr QOps (gettersOf QOps a').
Proof.
  assert (E : match setNet QOps oneHeap (mkNet [0] true false) trRprop with Ok (_, b) =>
     match trAssign QOps (trNew QOps) b with Ok a' => Some (gLr QOps (gettersOf QOps b), gLr QOps (gettersOf QOps a')) | Err _ => None end | Err _ => None end = Some ((1 # 2)%Q, (-1)%Q)) by (vm_compute; reflexivity).
  exists oneHeap, (mkNet [0] true false), (trNew QOps).
  destruct (setNet QOps oneHeap (mkNet [0] true false) trRprop) as [[h1 b]|]; [|discriminate].
  destruct (trAssign QOps (trNew QOps) b) as [a'|] eqn:E2; [|discriminate]. exists b, a', h1. split; [reflexivity|]. split; [exact E2|].
  intros X. rewrite <- X in E. assert (Y : forall q : Q, Some (q, q) = Some ((1 # 2)%Q, (-1)%Q) -> False) by (intros q Z; inversion Z; subst; discriminate).
  exact (Y _ E).
Qed.

(* P_Watch.v - property theorems about the observers of a run: validation data and epoch callback (C101) *)
From Coq Require Import String List Arith Bool ZArith QArith Lia.
From Verif Require Import Base Scalar Mat Loss Optim Regul Act LayMat LayImg LayRnn Layer Net NetTrain SpecNet SpecTrain SpecSeed SpecWatch NetProofs4 TrainProofs14 Watch1 Watch2 Seed3 Watch3.
Import ListNotations.
Local Open Scope nat_scope.

(** C101.  All settings, failures included: without the callback everything else is the same. *)
Theorem C101_callback : forall (F : FOps) (cabs : F -> res F), forall R h n t,
  match fit F cabs R h n t with
  | Ok (h', n', t', _) => fit F cabs R h n (noCallback F t) = Ok (h', n', noCallback F t', [])
  | Err e => fit F cabs R h n (noCallback F t) = Err e
  end.
Proof. exact fit_callback_only. Qed.
Print Assumptions C101_callback.

Theorem C101_callback_case : match fit QOps Ok (drawFR 3 0) oneHeap reg1 (watchTr true (-1) (Some valB)), fit QOps Ok (drawFR 3 0) oneHeap reg1 (noCallback QOps (watchTr true (-1) (Some valB))) with
  | Ok (h1, n1, _, c1), Ok (h2, n2, _, c2) => map (wbAt h1) (nlay n1) = map (wbAt h2) (nlay n2) /\ length c1 = 3 /\ c2 = []
  | _, _ => False end.
Proof. exact callback_case. Qed.
Print Assumptions C101_callback_case.

(* without keep-best and patience: dropping the validation data changes neither the objects nor the training part of the results *)
Theorem C101_no_validation : forall (F : FOps) (cabs : F -> res F), forall R h n t h' n' t' calls, cKeep F (tc F t) = false -> cPatience F (tc F t) = (-1)%Z -> allLayers F (unmoved F) h n -> nlay n <> [] ->
  fit F cabs R h n t = Ok (h', n', t', calls) -> exists t2 calls2, fit F cabs R h n (withValidation F None t) = Ok (h', n', t2, calls2) /\ trainPart F t2 = trainPart F t' /\ length calls2 = length calls.
Proof. exact fit_no_validation. Qed.
Print Assumptions C101_no_validation.

Theorem C101_two_validation_sets : forall (F : FOps) (cabs : F -> res F), forall R h n t v h1 n1 t1 c1 h2 n2 t2 c2, cKeep F (tc F t) = false -> cPatience F (tc F t) = (-1)%Z -> allLayers F (unmoved F) h n -> nlay n <> [] ->
  fit F cabs R h n t = Ok (h1, n1, t1, c1) -> fit F cabs R h n (withValidation F v t) = Ok (h2, n2, t2, c2) -> h1 = h2 /\ n1 = n2 /\ trainPart F t1 = trainPart F t2 /\ length c1 = length c2.
Proof. exact fit_validations. Qed.
Print Assumptions C101_two_validation_sets.

Theorem C101_case : allLayers QOps (unmoved QOps) oneHeap reg1 /\ weightsOf oneHeap reg1 (watchTr false (-1) (Some valA)) (drawFR 3 0) = Some [Some ([12193 # 8000], [621 # 2000])%Q] /\
  weightsOf oneHeap reg1 (watchTr false (-1) (Some valB)) (drawFR 3 0) = Some [Some ([12193 # 8000], [621 # 2000])%Q] /\ weightsOf oneHeap reg1 (watchTr false (-1) None) (drawFR 3 0) = Some [Some ([12193 # 8000], [621 # 2000])%Q].
Proof. exact watch_case. Qed.
Print Assumptions C101_case.


(* with keep-best or patience the validation data choose the result *)
Theorem C101_keep_best_needed : weightsOf oneHeap reg1 (watchTr true (-1) (Some valA)) (drawFR 3 0) = Some [Some ([12193 # 8000], [621 # 2000])%Q] /\
  weightsOf oneHeap reg1 (watchTr true (-1) (Some valB)) (drawFR 3 0) = Some [Some ([1], [0])%Q].
Proof. exact keep_matters. Qed.
Print Assumptions C101_keep_best_needed.

Theorem C101_patience_needed : weightsOf oneHeap reg1 (watchTr false 1 (Some valA)) (drawFR 3 0) = Some [Some ([12193 # 8000], [621 # 2000])%Q] /\
  weightsOf oneHeap reg1 (watchTr false 1 (Some valB)) (drawFR 3 0) = Some [Some ([5 # 4], [3 # 20])%Q].
Proof. exact patience_matters. Qed.
Print Assumptions C101_patience_needed.

(* SimplestRNN: the weights after fit are those drawn when the validation data were evaluated *)
Theorem C101_rnn_refuted : weightsOf rnnHeap reg1 (rnnTr None) (evalFR 5) = Some [Some ([-1 # 10], [])%Q] /\ weightsOf rnnHeap reg1 (rnnTr (Some rnnData)) (evalFR 5) = Some [Some ([5], [])%Q].
Proof. exact rnn_validation. Qed.
Print Assumptions C101_rnn_refuted.


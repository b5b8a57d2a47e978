(* Watch3.v - concrete runs for the theorems on observers *)
From Coq Require Import String List Arith Bool Lia ZArith QArith.
From Verif Require Import Base Scalar Mat Loss Optim Regul Act LayMat LayImg LayRnn Layer Net NetTrain SpecNet SpecTrain NetProofs4 TrainProofs14 SpecSeed SpecWatch Seed3.
Import ListNotations.
Local Open Scope nat_scope.

Definition watchConf (keep : bool) (patience : Z) : conf := mkConf keep 3 (-1) patience "SGD" (1#10).
Definition valA : mat QOps * mat QOps := (mlist 1 1 [1]%Q, mlist 1 1 [100]%Q).
Definition valB : mat QOps * mat QOps := (mlist 1 1 [1]%Q, mlist 1 1 [-100]%Q).
Definition watchTr (keep : bool) (patience : Z) (v : option (mat QOps * mat QOps)) : trainer QOps := trOf (watchConf keep patience) 0 (Some data2) v.
Definition weightsOf (h : heap QOps) (n : net) (t : trainer QOps) (R : fitRnd QOps) : option (list (option (list Q * list Q))) :=
  match fit QOps Ok R h n t with Ok (h', n', _, _) => Some (map (wbAt h') (nlay n')) | Err _ => None end.

(* one Dense layer: two validation sets with opposite targets, none, with and without a callback: the same weights after three epochs *)
Lemma watch_case : allLayers QOps (unmoved QOps) oneHeap reg1 /\ weightsOf oneHeap reg1 (watchTr false (-1) (Some valA)) (drawFR 3 0) = Some [Some ([12193 # 8000], [621 # 2000])%Q] /\
  weightsOf oneHeap reg1 (watchTr false (-1) (Some valB)) (drawFR 3 0) = Some [Some ([12193 # 8000], [621 # 2000])%Q] /\ weightsOf oneHeap reg1 (watchTr false (-1) None) (drawFR 3 0) = Some [Some ([12193 # 8000], [621 # 2000])%Q].
Proof. split; [|vm_compute; auto]. intros a l [<-|[]] E. eapply hget_ok in E; [|reflexivity]. subst l. vm_compute. auto. Qed.
(* keep-best and patience choose by the validation data *)
Lemma keep_matters : weightsOf oneHeap reg1 (watchTr true (-1) (Some valA)) (drawFR 3 0) = Some [Some ([12193 # 8000], [621 # 2000])%Q] /\
  weightsOf oneHeap reg1 (watchTr true (-1) (Some valB)) (drawFR 3 0) = Some [Some ([1], [0])%Q].
Proof. vm_compute. auto. Qed.
Lemma patience_matters : weightsOf oneHeap reg1 (watchTr false 1 (Some valA)) (drawFR 3 0) = Some [Some ([12193 # 8000], [621 # 2000])%Q] /\
  weightsOf oneHeap reg1 (watchTr false 1 (Some valB)) (drawFR 3 0) = Some [Some ([5 # 4], [3 # 20])%Q].
Proof. vm_compute. auto. Qed.
(* SimplestRNN: evaluating the validation data draws the weights anew *)
Definition rnnData : mat QOps * mat QOps := (mlist 2 3 [1; 2; 1; 1; 1; 1]%Q, mlist 2 1 [1; 2]%Q).
Definition rnnTr (v : option (mat QOps * mat QOps)) : trainer QOps := trOf (watchConf false (-1)) 0 (Some rnnData) v.
Lemma rnn_validation : weightsOf rnnHeap reg1 (rnnTr None) (evalFR 5) = Some [Some ([-1 # 10], [])%Q] /\ weightsOf rnnHeap reg1 (rnnTr (Some rnnData)) (evalFR 5) = Some [Some ([5], [])%Q].
Proof. vm_compute. auto. Qed.
(* the same run with and without a callback; the callback sees three epochs *)
Lemma callback_case : match fit QOps Ok (drawFR 3 0) oneHeap reg1 (watchTr true (-1) (Some valB)), fit QOps Ok (drawFR 3 0) oneHeap reg1 (noCallback QOps (watchTr true (-1) (Some valB))) with
  | Ok (h1, n1, _, c1), Ok (h2, n2, _, c2) => map (wbAt h1) (nlay n1) = map (wbAt h2) (nlay n2) /\ length c1 = 3 /\ c2 = []
  | _, _ => False end.
Proof. vm_compute. auto. Qed.

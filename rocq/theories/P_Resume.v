(* P_Resume.v - property theorems about training in several calls of fit (C103) *)
From Coq Require Import String List Arith Bool ZArith QArith Lia.
From Verif Require Import Base Scalar Mat SpecMat Loss Optim LayMat Layer Net NetTrain SpecFit SpecResume Resume3 Order5 NetProofs4 TrainProofs14 Resume4.
Import ListNotations.
Local Open Scope nat_scope.

(** C103.  Without keep-best, with an optimiser that keeps no state and layers that have their parameters: e1 epochs followed by a second call
    with e2 epochs give, in any arithmetic, the objects, network and trainer of one call with e1 + e2 epochs; the curves and callbacks follow each other. *)
Theorem C103_resume : forall (F : FOps), forall R h n (t : trainer F) k m e1 e2, trainable h n t k m -> nlay n <> [] -> cKeep F (tc F t) = false ->
  (exists o, create_optimizer (cOpt F (tc F t)) = Some o /\ stateless o) -> allSized F h n -> 0 < e2 ->
  exists h1 n1 t1 c1 h2 n2 t2 c2,
    fit F (absFloat F) R h n (withEpochs F e1 t) = Ok (h1, n1, t1, c1) /\ fit F (absFloat F) (later F e1 R) h1 n1 (withEpochs F e2 t1) = Ok (h2, n2, t2, c2) /\
    fit F (absFloat F) R h n (withEpochs F (e1 + e2) t) = Ok (h2, n2, setHist F (withEpochs F (e1 + e2) t2) (histApp F (th F t1) (th F t2)), c1 ++ map (histApp F (th F t1)) c2).
Proof. exact fit_resume. Qed.
Print Assumptions C103_resume.

Theorem C103_case : forall (F : FOps) R b lr mom y e1 e2, 0 < e2 -> exists h1 n1 t1 c1 h2 n2 t2 c2,
  fit F (absFloat F) R (ordHeap F) ordNet (withEpochs F e1 (resTr F "SGD" false b lr mom y)) = Ok (h1, n1, t1, c1) /\
  fit F (absFloat F) (later F e1 R) h1 n1 (withEpochs F e2 t1) = Ok (h2, n2, t2, c2) /\
  fit F (absFloat F) R (ordHeap F) ordNet (withEpochs F (e1 + e2) (resTr F "SGD" false b lr mom y)) =
    Ok (h2, n2, setHist F (withEpochs F (e1 + e2) t2) (histApp F (th F t1) (th F t2)), c1 ++ map (histApp F (th F t1)) c2).
Proof. exact resume_case. Qed.
Print Assumptions C103_case.

Theorem C103_run_case : forall kb, kb = 0 \/ kb = 1 -> exists w l1 l2, oneCall noFR (ordHeap QOps) ordNet (resTr QOps "SGD" false kb (1 # 10) 0%Q ysq) 3 = Some (w, l1) /\
  twoCalls noFR (ordHeap QOps) ordNet (resTr QOps "SGD" false kb (1 # 10) 0%Q ysq) 1 2 = Some (w, l2) /\ length l1 = 3 /\ length l2 = 2.
Proof. exact run_case. Qed.
Print Assumptions C103_run_case.

Theorem C103_run_values : oneCall noFR (ordHeap QOps) ordNet (resTr QOps "SGD" false 0 (1 # 10) 0%Q ysq) 2 = Some ([Some ([53 # 75], [7 # 15])], [10 # 3; 1334 # 675])%Q /\
  twoCalls noFR (ordHeap QOps) ordNet (resTr QOps "SGD" false 0 (1 # 10) 0%Q ysq) 1 1 = Some ([Some ([53 # 75], [7 # 15])], [1334 # 675])%Q.
Proof. exact plain_run. Qed.
Print Assumptions C103_run_values.

(* none of the conditions can be dropped *)
Theorem C103_momentum_refuted : exists h n t k m, trainable h n t k m /\ nlay n <> [] /\ cKeep QOps (tc QOps t) = false /\ allSized QOps h n /\ create_optimizer (cOpt QOps (tc QOps t)) = Some OMomentum /\ splitDiffers h n t.
Proof. exact momentum_refuted. Qed.
Print Assumptions C103_momentum_refuted.

Theorem C103_keep_best_refuted : exists h n t k m, trainable h n t k m /\ nlay n <> [] /\ cKeep QOps (tc QOps t) = true /\ allSized QOps h n /\ create_optimizer (cOpt QOps (tc QOps t)) = Some OSGD /\ splitDiffers h n t.
Proof. exact keep_refuted. Qed.
Print Assumptions C103_keep_best_refuted.

Theorem C103_unsized_layer_refuted : exists h n t k m, trainable h n t k m /\ nlay n <> [] /\ cKeep QOps (tc QOps t) = false /\ create_optimizer (cOpt QOps (tc QOps t)) = Some OSGD /\ splitDiffers h n t.
Proof. exact lazy_refuted. Qed.
Print Assumptions C103_unsized_layer_refuted.


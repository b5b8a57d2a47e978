(* P_Record.v - property theorems about the statistics that fit records for each epoch (C105) *)
From Coq Require Import String List Arith Bool ZArith QArith.
From Verif Require Import Base Scalar Mat SpecMat Act Loss Optim LayMat Layer Net NetTrain SpecFit SpecResume SpecFixed SpecRecord Record3 Record4 Fixed4.
Import ListNotations.
Local Open Scope nat_scope.

(** C105.  Compare fit with e epochs and with e + 1 epochs from the same state and the same draws.  The validation entries added by the last epoch are what
    compute_loss_accuracy gives for the network after it.  The training entries added, in full batch, are those of the network before it, the loss being divided once more by the number of samples. *)
Theorem C105_one_more_epoch : forall (F : FOps), forall h n (t : trainer F) k m x y, trainable h n t k m -> nlay n <> [] -> allEven h n -> allSized F h n -> cKeep F (tc F t) = false -> ttrain F t = Some (x, y) ->
  forall R e, exists h1 n1 t1 c1 h2 n2 t2 c2,
    fit F (absFloat F) R h n (withEpochs F e t) = Ok (h1, n1, t1, c1) /\ fit F (absFloat F) R h n (withEpochs F (S e) t) = Ok (h2, n2, t2, c2) /\
    (0 < mrows x -> cBatch F (tc F t) = 0 \/ mrows x <= cBatch F (tc F t) -> forall rs vb, mrows x <= vb ->
      exists hq l a, lossAccuracy F (absFloat F) rs h1 n1 (withValBatch vb t1) x y = Ok (hq, l, a) /\
        hTL F (th F t2) = hTL F (th F t1) ++ [fdiv F l (fofN F (mrows x))] /\ hTA F (th F t2) = hTA F (th F t1) ++ (if nclass n then [a] else [])) /\
    (forall rs xv yv, tval F t = Some (xv, yv) ->
      exists hq l a, lossAccuracy F (absFloat F) rs h2 n2 t2 xv yv = Ok (hq, l, a) /\ hVL F (th F t2) = hVL F (th F t1) ++ [l] /\ hVA F (th F t2) = hVA F (th F t1) ++ [a]) /\
    (tval F t = None -> hVL F (th F t2) = hVL F (th F t1) /\ hVA F (th F t2) = hVA F (th F t1)) /\
    (e = 0 -> hTL F (th F t1) = [] /\ hTA F (th F t1) = [] /\ hVL F (th F t1) = [] /\ hVA F (th F t1) = []).
Proof. exact one_more_epoch. Qed.
Print Assumptions C105_one_more_epoch.

(* so for the whole curves *)
Theorem C105_curves : forall (F : FOps), forall h n (t : trainer F) k m x y, trainable h n t k m -> nlay n <> [] -> allEven h n -> allSized F h n -> cKeep F (tc F t) = false -> ttrain F t = Some (x, y) ->
  forall R E, exists h' n' t' c', fit F (absFloat F) R h n (withEpochs F E t) = Ok (h', n', t', c') /\
    (0 < mrows x -> cBatch F (tc F t) = 0 \/ mrows x <= cBatch F (tc F t) ->
      length (hTL F (th F t')) = E /\ length (hTA F (th F t')) = (if nclass n then E else 0) /\
      forall i rs vb, i < E -> mrows x <= vb -> exists h1 n1 t1 c1 hq l a, fit F (absFloat F) R h n (withEpochs F i t) = Ok (h1, n1, t1, c1) /\ lossAccuracy F (absFloat F) rs h1 n1 (withValBatch vb t1) x y = Ok (hq, l, a) /\
        nth_error (hTL F (th F t')) i = Some (fdiv F l (fofN F (mrows x))) /\ (nclass n = true -> nth_error (hTA F (th F t')) i = Some a)) /\
    (forall xv yv, tval F t = Some (xv, yv) ->
      length (hVL F (th F t')) = E /\ length (hVA F (th F t')) = E /\
      forall i rs, i < E -> exists h1 n1 t1 c1 hq l a, fit F (absFloat F) R h n (withEpochs F (S i) t) = Ok (h1, n1, t1, c1) /\ lossAccuracy F (absFloat F) rs h1 n1 t1 xv yv = Ok (hq, l, a) /\
        nth_error (hVL F (th F t')) i = Some l /\ nth_error (hVA F (th F t')) i = Some a) /\
    (tval F t = None -> hVL F (th F t') = [] /\ hVA F (th F t') = []).
Proof. exact recorded_curves. Qed.
Print Assumptions C105_curves.

Theorem C105_case : forall (F : FOps), forall a c opt vb e lr lo N V Y Z R, smoothLoss lo -> create_optimizer opt <> None -> 0 < vb -> 0 < N ->
  exists h1 n1 t1 c1 h2 n2 t2 c2, let t := (rcTr F) opt 0 vb 0 lr lo N V Y Z in
    fit F (absFloat F) R (fxHeap F a) (rcNet c) (withEpochs F e t) = Ok (h1, n1, t1, c1) /\ fit F (absFloat F) R (fxHeap F a) (rcNet c) (withEpochs F (S e) t) = Ok (h2, n2, t2, c2) /\
    forall rs, exists hq l acc, lossAccuracy F (absFloat F) rs h1 n1 (withValBatch N t1) (fxX F N) (mgen N 1 Y) = Ok (hq, l, acc) /\ hTL F (th F t2) = hTL F (th F t1) ++ [fdiv F l (fofN F N)] /\ hTA F (th F t2) = hTA F (th F t1) ++ (if c then [acc] else []).
Proof. exact record_case. Qed.
Print Assumptions C105_case.

Theorem C105_runs_case : upTo true "SGD" 0 128 0 (1 # 100) 2 2 = Some (([], []), ([], []), Some (13 # 2, 0), Some (13 # 2, 0))%Q /\
  upTo true "SGD" 0 128 1 (1 # 100) 2 2 = Some (([13 # 4], [0]), ([48501 # 8000], [0]), Some (48501 # 8000, 0), Some (48501 # 8000, 0))%Q /\
  upTo true "SGD" 0 128 2 (1 # 100) 2 2 = Some (([13 # 4; 48501 # 16000], [0; 0]), ([48501 # 8000; 18095083857 # 3200000000], [0; 0]), Some (18095083857 # 3200000000, 0), Some (18095083857 # 3200000000, 0))%Q.
Proof. exact three_runs. Qed.
Print Assumptions C105_runs_case.

(* the training entries are not those of the network that fit leaves *)
Theorem C105_training_refuted : exists h n t k m tl ta l a v e, trainable h n t k m /\ nlay n <> [] /\ allEven h n /\ allSized QOps h n /\ cKeep QOps (tc QOps t) = false /\ cBatch QOps (tc QOps t) = 0 /\
  records h n t = Some (([tl], [ta]), v, Some (l, a), e) /\ ~ (tl == l)%Q /\ ~ (ta == a)%Q.
Proof. exact training_refuted. Qed.
Print Assumptions C105_training_refuted.

(* nor is the training loss a mean over the samples, but for batches of one *)
Theorem C105_mean_refuted : exists h n t k m tl ta l a v e, trainable h n t k m /\ nlay n <> [] /\ allEven h n /\ allSized QOps h n /\ cKeep QOps (tc QOps t) = false /\ cBatch QOps (tc QOps t) = 0 /\ cLr QOps (tc QOps t) = 0%Q /\
  records h n t = Some (([tl], ta), v, Some (l, a), e) /\ ~ (tl == l)%Q.
Proof. exact mean_refuted. Qed.
Print Assumptions C105_mean_refuted.

Theorem C105_batches_of_one_case : upTo false "SGD" 1 128 1 0 2 0 = Some (([13 # 2], []), ([], []), Some (13 # 2, 0), None)%Q.
Proof. exact batches_of_one. Qed.
Print Assumptions C105_batches_of_one_case.


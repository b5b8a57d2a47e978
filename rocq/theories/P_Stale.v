(* P_Stale.v - property theorems about what earlier calls leave in buffers and trainers (C91) *)
From Coq Require Import String List Arith Bool ZArith QArith Lia.
From Verif Require Import Base Scalar Mat SpecMat Act Loss Optim LayMat LayImg Layer Net NetTrain NetProofs4 TrainProofs14 SpecFit FitLay1 FitLay2 FitLay3 FitNet1 FitNet2 FitNet3 SpecStale StaleLay StaleNet StaleRun StaleCase.
Import ListNotations.
Local Open Scope nat_scope.

(** C91.  [likewise t1 t2]: the same settings, data and callback, whatever else differs.  [asNew t]: a trainer just made and
    given those of t.  [trainable]/[stack]/[fits] as in C88 (SpecFit.v): sizes that chain, no recurrent layer.  F is any arithmetic. *)
Theorem C91_fit : forall (F : FOps), forall (R : fitRnd F) h n (t1 t2 : trainer F) k m, 0 < length (nlay n) -> trainable h n t1 k m -> likewise t1 t2 ->
  exists h' n' t1' t2' calls, fit F (absFloat F) R h n t1 = Ok (h', n', t1', calls) /\ fit F (absFloat F) R h n t2 = Ok (h', n', t2', calls) /\
    likewise t1' t2' /\ th F t1' = th F t2' /\ topts F t1' = topts F t2'.
Proof. exact fit_same. Qed.
Print Assumptions C91_fit.

Theorem C91_fit_as_new : forall (F : FOps), forall (R : fitRnd F) h n (t : trainer F) k m, 0 < length (nlay n) -> trainable h n t k m ->
  exists h' n' t1' t2' calls, fit F (absFloat F) R h n t = Ok (h', n', t1', calls) /\ fit F (absFloat F) R h n (asNew t) = Ok (h', n', t2', calls) /\
    th F t1' = th F t2' /\ topts F t1' = topts F t2' /\ tc F t1' = tc F t2'.
Proof. exact fit_as_new. Qed.
Print Assumptions C91_fit_as_new.

Theorem C91_fit_after_runs : forall (F : FOps), forall (Rs : list (fitRnd F)) (R : fitRnd F) h0 n0 (t : trainer F) k0 m0, trainable h0 n0 t k0 m0 ->
  exists h1 n1 t1, fitRuns Rs h0 n0 t = Ok (h1, n1, t1) /\
    forall h n k m, 0 < length (nlay n) -> trainable h n t k m ->
      exists h' n' ta tb calls, fit F (absFloat F) R h n t1 = Ok (h', n', ta, calls) /\ fit F (absFloat F) R h n t = Ok (h', n', tb, calls) /\ th F ta = th F tb.
Proof. exact fit_after. Qed.
Print Assumptions C91_fit_after_runs.

Theorem C91_predict : forall (F : FOps), forall rs h n k m nb x o1 o2, NoDup (nlay n) -> 0 < length (nlay n) -> @stack F h (nlay n) k m -> shp nb k x -> mwf o1 -> mwf o2 ->
  exists h' y, predict F rs h n x o1 = Ok (h', y) /\ predict F rs h n x o2 = Ok (h', y).
Proof. exact predict_stale. Qed.
Print Assumptions C91_predict.

Theorem C91_layer_forward : forall (F : FOps), forall r (l : layer F) n k m x o1 o2, fits l k m -> shp n k x -> mwf o1 -> mwf o2 -> layForward F r l x o1 = layForward F r l x o2.
Proof. exact fwd_same. Qed.
Print Assumptions C91_layer_forward.

Theorem C91_layer_backward : forall (F : FOps), forall (l : layer F) n k m x g g1 g2 l1 l2 a1 a2, fits l k m -> ready F l n k -> shp n k x -> shp n m g -> mwf g1 -> mwf g2 ->
  layBackward F l x g g1 = Ok (l1, a1) -> layBackward F l x g g2 = Ok (l2, a2) -> l1 = l2 /\ (lfirst l = false -> a1 = a2).
Proof. exact bwd_same. Qed.
Print Assumptions C91_layer_backward.

(* recurrent layers on a single frame do not write their output *)
Theorem C91_predict_refuted : exists rs h n x o1 o2, 0 < length (nlay n) /\ mwf x /\ mwf o1 /\ mwf o2 /\
  outOf (predict QOps rs h n x o1) = Some [5]%Q /\ outOf (predict QOps rs h n x o2) = Some [6]%Q.
Proof. exact predict_stale_refuted. Qed.
Print Assumptions C91_predict_refuted.

Theorem C91_fit_refuted : exists R h n t1 t2, 0 < length (nlay n) /\ likewise t1 t2 /\
  lossOf (fit QOps (absFloat QOps) R h n t1) = Some [25]%Q /\ lossOf (fit QOps (absFloat QOps) R h n t2) = Some [36]%Q.
Proof. exact fit_stale_refuted. Qed.
Print Assumptions C91_fit_refuted.

Example C91_case : let t := trOf (mkConf true 2 (-1) (-1) "SGD" (1#10)) 1 (Some data2) (Some data2) in
  trainable oneHeap reg1 t 1 1 /\ likewise t (setOnline QOps (setInOut QOps t [mlist 1 1 [9]%Q; mlist 2 2 [1; 2; 3; 4]%Q; mempty QOps]) 5%Q 3) /\ 0 < length (nlay reg1).
Proof.
  split; [|split; [unfold likewise; do 4 (split; [reflexivity|]); split; repeat constructor|cbn; lia]].
  unfold trainable. split; [constructor; [intros []|constructor]|]. split; [do 2 eexists; split; [reflexivity|]; split; [repeat split; auto|reflexivity]|]. split; [intros i a l E; destruct i; discriminate E|]. split; [discriminate|]. split; [reflexivity|]. split; [left; reflexivity|].
  split; [cbn; lia|]. split; [constructor|]. split; [constructor|]. split; [exists data2; split; [reflexivity|repeat split]|]. intros d E. injection E as <-. repeat split.
Qed.

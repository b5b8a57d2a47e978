(* P_Regr.v - property theorems about training regressions in single precision (C99) *)
From Coq Require Import String List Arith ZArith Reals Lra Lia Bool.
From Flocq Require Import Core IEEE754.BinarySingleNaN.
From Verif Require Import Base Scalar Mat SpecMat MatProofs B32Int Act Loss Optim Regul LayMat LayImg Layer Net NetTrain SpecFit SpecRound SpecNaN SpecSoft B32OfR LibmRound SpecStay SpecTrainFin TrainFin4 SpecMlp MlpFin3 SpecRegr RegrFin2 RegrFin3.
Import ListNotations.
Local Open Scope R_scope.

(** C99.  [affordableFit]: a budget of exponents for the inputs, parameters and gradients of each layer, which the loss respects too;
    [measured], [robust]: regression losses; [pairsUpTo z w]: fewer than 2^24 rows, inputs within 2^z, targets within 2^w (SpecRegr.v);
    [slow r]: a learning rate up to 2^-r, or the -1 that selects 0.01; [upTo z]: a finite float in [0, 2^z] (SpecTrainFin.v); [trainable] (SpecFit.v). *)
Theorem C99_budget_kept : forall (lm : libm -> b32 -> b32) (pw : b32 -> b32 -> b32) (jk : b32), forall (R0 : fitRnd (B32Ops lm pw jk)) h n t k m x y b r ok, stdLibm lm pw ->
  trainable h n t k m -> (0 < length (nlay n))%nat -> measured (cLoss (B32Ops lm pw jk) (tc (B32Ops lm pw jk) t)) -> create_optimizer (cOpt (B32Ops lm pw jk) (tc (B32Ops lm pw jk) t)) = Some ok -> (ok = OSGD \/ ok = OMomentum) -> slow r (cLr (B32Ops lm pw jk) (tc (B32Ops lm pw jk) t)) -> within 0 (cMom (B32Ops lm pw jk) (tc (B32Ops lm pw jk) t)) ->
  affordableFit lm pw jk (tc (B32Ops lm pw jk) t) ok r b h (nlay n) m ->
  ttrain (B32Ops lm pw jk) t = Some (x, y) -> (0 < mrows x)%nat -> pairsUpTo (eX b 0) (eX b (length (nlay n))) (x, y) -> (forall v, tval (B32Ops lm pw jk) t = Some v -> pairsUpTo (eX b 0) (eX b (length (nlay n))) v) ->
  exists h' n' t' calls, fit (B32Ops lm pw jk) (absFloat (B32Ops lm pw jk)) R0 h n t = Ok (h', n', t', calls) /\
    length (hTL (B32Ops lm pw jk) (th (B32Ops lm pw jk) t')) = Z.to_nat (cEpochs (B32Ops lm pw jk) (tc (B32Ops lm pw jk) t)) /\ (forall v, In v (hTL (B32Ops lm pw jk) (th (B32Ops lm pw jk) t')) -> upTo (lossTo (cLoss (B32Ops lm pw jk) (tc (B32Ops lm pw jk) t)) (eX b (length (nlay n)) + 1)) v) /\
    (forall v, In v (hVL (B32Ops lm pw jk) (th (B32Ops lm pw jk) t')) -> upTo (lossTo (cLoss (B32Ops lm pw jk) (tc (B32Ops lm pw jk) t)) (eX b (length (nlay n)) + 1) + 24) v) /\
    length (nlay n') = length (nlay n) /\
    forall i a l, nth_error (nlay n) i = Some a -> hget (B32Ops lm pw jk) h a = Ok l -> exists a' l', nth_error (nlay n') i = Some a' /\ hget (B32Ops lm pw jk) h' a' = Ok l' /\ lk l' = lk l /\
      forall p q, lk l = KDense p q -> forall w, In w (mdata (lw l')) \/ In w (mdata (lb l')) -> within (eW b i) w.
Proof. exact regr_finite. Qed.
Print Assumptions C99_budget_kept.

(* linear regression, losses of bounded slope *)
Theorem C99_linear : forall (lm : libm -> b32 -> b32) (pw : b32 -> b32 -> b32) (jk : b32), forall (R0 : fitRnd (B32Ops lm pw jk)) h n t k m x y a l p q, stdLibm lm pw -> robust (cLoss (B32Ops lm pw jk) (tc (B32Ops lm pw jk) t)) ->
  trainable h n t k m -> nlay n = [a] -> hget (B32Ops lm pw jk) h a = Ok l -> lk l = KDense p q ->
  (k < 2 ^ 11)%nat -> (m <= 2 ^ 11)%nat -> (forall v, In v (mdata (lw l)) \/ In v (mdata (lb l)) -> within 31 v) ->
  create_optimizer (cOpt (B32Ops lm pw jk) (tc (B32Ops lm pw jk) t)) = Some OSGD -> slow 6 (cLr (B32Ops lm pw jk) (tc (B32Ops lm pw jk) t)) -> within 0 (cMom (B32Ops lm pw jk) (tc (B32Ops lm pw jk) t)) -> cReg (B32Ops lm pw jk) (tc (B32Ops lm pw jk) t) = None ->
  ttrain (B32Ops lm pw jk) t = Some (x, y) -> (0 < mrows x)%nat -> pairsUpTo 10 52 (x, y) -> (forall v, tval (B32Ops lm pw jk) t = Some v -> pairsUpTo 10 52 v) ->
  exists h' n' t' calls a' l', fit (B32Ops lm pw jk) (absFloat (B32Ops lm pw jk)) R0 h n t = Ok (h', n', t', calls) /\
    length (hTL (B32Ops lm pw jk) (th (B32Ops lm pw jk) t')) = Z.to_nat (cEpochs (B32Ops lm pw jk) (tc (B32Ops lm pw jk) t)) /\ (forall v, In v (hTL (B32Ops lm pw jk) (th (B32Ops lm pw jk) t')) -> upTo 77 v) /\ (forall v, In v (hVL (B32Ops lm pw jk) (th (B32Ops lm pw jk) t')) -> upTo 101 v) /\
    nlay n' = [a'] /\ hget (B32Ops lm pw jk) h' a' = Ok l' /\ forall v, In v (mdata (lw l')) \/ In v (mdata (lb l')) -> within 31 v.
Proof. exact linear_robust. Qed.
Print Assumptions C99_linear.

(* a hidden layer with a bounded activation, losses of bounded slope *)
Theorem C99_hidden_layer : forall (lm : libm -> b32 -> b32) (pw : b32 -> b32 -> b32) (jk : b32), forall (R0 : fitRnd (B32Ops lm pw jk)) h n t k m x y a1 a2 a3 l1 l2 l3 i1 o1 i3 o3 a, stdLibm lm pw -> robust (cLoss (B32Ops lm pw jk) (tc (B32Ops lm pw jk) t)) ->
  trainable h n t k m -> nlay n = [a1; a2; a3] -> hget (B32Ops lm pw jk) h a1 = Ok l1 -> hget (B32Ops lm pw jk) h a2 = Ok l2 -> hget (B32Ops lm pw jk) h a3 = Ok l3 ->
  lk l1 = KDense i1 o1 -> lk l2 = KAct (Some a) -> flat a -> lk l3 = KDense i3 o3 ->
  (k < 2 ^ 16)%nat -> (mcols (lw l1) < 2 ^ 11)%nat -> (m <= 2 ^ 10)%nat ->
  (forall v, In v (mdata (lw l1)) \/ In v (mdata (lb l1)) -> within 62 v) -> (forall v, In v (mdata (lw l3)) \/ In v (mdata (lb l3)) -> within 21 v) ->
  create_optimizer (cOpt (B32Ops lm pw jk) (tc (B32Ops lm pw jk) t)) = Some OSGD -> slow 6 (cLr (B32Ops lm pw jk) (tc (B32Ops lm pw jk) t)) -> within 0 (cMom (B32Ops lm pw jk) (tc (B32Ops lm pw jk) t)) -> cReg (B32Ops lm pw jk) (tc (B32Ops lm pw jk) t) = None ->
  ttrain (B32Ops lm pw jk) t = Some (x, y) -> (0 < mrows x)%nat -> pairsUpTo 10 32 (x, y) -> (forall v, tval (B32Ops lm pw jk) t = Some v -> pairsUpTo 10 32 v) ->
  exists h' n' t' calls a1' a2' a3' l1' l3', fit (B32Ops lm pw jk) (absFloat (B32Ops lm pw jk)) R0 h n t = Ok (h', n', t', calls) /\
    length (hTL (B32Ops lm pw jk) (th (B32Ops lm pw jk) t')) = Z.to_nat (cEpochs (B32Ops lm pw jk) (tc (B32Ops lm pw jk) t)) /\ (forall v, In v (hTL (B32Ops lm pw jk) (th (B32Ops lm pw jk) t')) -> upTo 57 v) /\ (forall v, In v (hVL (B32Ops lm pw jk) (th (B32Ops lm pw jk) t')) -> upTo 81 v) /\
    nlay n' = [a1'; a2'; a3'] /\ hget (B32Ops lm pw jk) h' a1' = Ok l1' /\ hget (B32Ops lm pw jk) h' a3' = Ok l3' /\
    (forall v, In v (mdata (lw l1')) \/ In v (mdata (lb l1')) -> within 62 v) /\ (forall v, In v (mdata (lw l3')) \/ In v (mdata (lb l3')) -> within 21 v).
Proof. exact hidden_robust. Qed.
Print Assumptions C99_hidden_layer.

(* squared errors, gradient clipping *)
Theorem C99_clipped : forall (lm : libm -> b32 -> b32) (pw : b32 -> b32 -> b32) (jk : b32), forall (R0 : fitRnd (B32Ops lm pw jk)) h n t k m x y a1 a2 a3 l1 l2 l3 i1 o1 i3 o3 a g, stdLibm lm pw -> cLoss (B32Ops lm pw jk) (tc (B32Ops lm pw jk) t) = LMeanSquaredError \/ cLoss (B32Ops lm pw jk) (tc (B32Ops lm pw jk) t) = LL2 ->
  trainable h n t k m -> nlay n = [a1; a2; a3] -> hget (B32Ops lm pw jk) h a1 = Ok l1 -> hget (B32Ops lm pw jk) h a2 = Ok l2 -> hget (B32Ops lm pw jk) h a3 = Ok l3 ->
  lk l1 = KDense i1 o1 -> lk l2 = KAct (Some a) -> flat a -> lk l3 = KDense i3 o3 ->
  (k < 2 ^ 11)%nat -> (mcols (lw l1) < 2 ^ 11)%nat -> (m <= 2 ^ 11)%nat ->
  (forall v, In v (mdata (lw l1)) \/ In v (mdata (lb l1)) -> within 10 v) -> (forall v, In v (mdata (lw l3)) \/ In v (mdata (lb l3)) -> within 10 v) ->
  create_optimizer (cOpt (B32Ops lm pw jk) (tc (B32Ops lm pw jk) t)) = Some OSGD -> slow 6 (cLr (B32Ops lm pw jk) (tc (B32Ops lm pw jk) t)) -> within 0 (cMom (B32Ops lm pw jk) (tc (B32Ops lm pw jk) t)) ->
  cReg (B32Ops lm pw jk) (tc (B32Ops lm pw jk) t) = Some g -> rkind (B32Ops lm pw jk) g = RClip -> fin (rparam (B32Ops lm pw jk) g) -> 0 <= val (rparam (B32Ops lm pw jk) g) <= p2 (-9) ->
  ttrain (B32Ops lm pw jk) t = Some (x, y) -> (0 < mrows x)%nat -> pairsUpTo 10 21 (x, y) -> (forall v, tval (B32Ops lm pw jk) t = Some v -> pairsUpTo 10 21 v) ->
  exists h' n' t' calls a1' a2' a3' l1' l3', fit (B32Ops lm pw jk) (absFloat (B32Ops lm pw jk)) R0 h n t = Ok (h', n', t', calls) /\
    length (hTL (B32Ops lm pw jk) (th (B32Ops lm pw jk) t')) = Z.to_nat (cEpochs (B32Ops lm pw jk) (tc (B32Ops lm pw jk) t)) /\ (forall v, In v (hTL (B32Ops lm pw jk) (th (B32Ops lm pw jk) t')) -> upTo 68 v) /\ (forall v, In v (hVL (B32Ops lm pw jk) (th (B32Ops lm pw jk) t')) -> upTo 92 v) /\
    nlay n' = [a1'; a2'; a3'] /\ hget (B32Ops lm pw jk) h' a1' = Ok l1' /\ hget (B32Ops lm pw jk) h' a3' = Ok l3' /\
    (forall v, In v (mdata (lw l1')) \/ In v (mdata (lb l1')) -> within 10 v) /\ (forall v, In v (mdata (lw l3')) \/ In v (mdata (lb l3')) -> within 10 v).
Proof. exact hidden_clipped. Qed.
Print Assumptions C99_clipped.

(* squared errors without clipping: an input of 1000, the default rate, 20 epochs *)
Theorem C99_unclipped_refuted : forall (lm : libm -> b32 -> b32) (pw : b32 -> b32 -> b32) (jk : b32), forall R0 : fitRnd (B32Ops lm pw jk), exists h' n' t' calls l', fit (B32Ops lm pw jk) (absFloat (B32Ops lm pw jk)) R0 [Some (steepDense lm pw jk)] lineNet ((steepTr lm pw jk) LMeanSquaredError 20) = Ok (h', n', t', calls) /\
  hget (B32Ops lm pw jk) h' 0 = Ok l' /\ map (fun x : b32 => is_finite x) (mdata (lw l')) = [false].
Proof. exact steep_overflow. Qed.
Print Assumptions C99_unclipped_refuted.

(* the same sample with the absolute error meets the hypotheses of C99_linear, for a million epochs *)
Example C99_case : forall jk : b32, let F := B32Ops exactLm exactPw jk in let t := steepTr exactLm exactPw jk LMeanAbsoluteError 1000000 in let l := steepDense exactLm exactPw jk in
  stdLibm exactLm exactPw /\ robust (cLoss F (tc F t)) /\ trainable [Some l] lineNet t 1 1 /\ lk l = KDense 1 1 /\ (forall v, In v (mdata (lw l)) \/ In v (mdata (lb l)) -> within 31 v) /\
  create_optimizer (cOpt F (tc F t)) = Some OSGD /\ slow 6 (cLr F (tc F t)) /\ within 0 (cMom F (tc F t)) /\ cReg F (tc F t) = None /\
  ttrain F t = Some (steepX exactLm exactPw jk, steepY exactLm exactPw jk) /\ pairsUpTo 10 52 (steepX exactLm exactPw jk, steepY exactLm exactPw jk) /\ tval F t = None.
Proof.
  intros jk F t l. split; [exact exact_std|]. split; [left; reflexivity|]. split; [apply steep_trainable; right; right; left; reflexivity|]. split; [reflexivity|]. split; [intros v Hv; apply (steep_par exactLm exactPw jk); [lia | exact Hv]|].
  split; [reflexivity|]. split; [apply demo_slow|]. split; [apply demo_slow|]. do 2 (split; [reflexivity|]). split; [apply steep_small; lia | reflexivity].
Qed.
(* Dense, Sigmoid, Dense with the default clipping and squared errors; Dense, Tanh, Dense with the Huber loss *)
Example C99_hidden_case : forall jk : b32, let F := B32Ops exactLm exactPw jk in let t1 := regrTr exactLm exactPw jk LMeanSquaredError (Some (clip0 exactLm exactPw jk)) in let t2 := regrTr exactLm exactPw jk LHuber None in let l := demoDense exactLm exactPw jk in
  trainable (regrHeap exactLm exactPw jk ASigmoid) regrNet t1 2 2 /\ trainable (regrHeap exactLm exactPw jk ATanh) regrNet t2 2 2 /\ flat ASigmoid /\ flat ATanh /\ lk l = KDense 2 2 /\ robust (cLoss F (tc F t2)) /\
  (forall a, hget F (regrHeap exactLm exactPw jk a) 0 = Ok l /\ hget F (regrHeap exactLm exactPw jk a) 2 = Ok l) /\
  (forall v, In v (mdata (lw l)) \/ In v (mdata (lb l)) -> within 10 v) /\ create_optimizer (cOpt F (tc F t1)) = Some OSGD /\ slow 6 (cLr F (tc F t1)) /\
  (exists g, cReg F (tc F t1) = Some g /\ rkind F g = RClip /\ fin (rparam F g) /\ 0 <= val (rparam F g) <= p2 (-9)) /\ cReg F (tc F t2) = None /\
  pairsUpTo 10 21 (demoX exactLm exactPw jk 3, demoY exactLm exactPw jk 3).
Proof.
  intros jk F t1 t2 l. split; [apply regr_trainable; left; reflexivity|]. split; [apply regr_trainable; do 6 right; left; reflexivity|]. split; [unfold flat; cbn; tauto|]. split; [unfold flat; cbn; tauto|]. split; [reflexivity|]. split; [right; right; left; reflexivity|].
  split; [intro a; split; reflexivity|]. split; [intros v Hv; apply (demo_par exactLm exactPw jk); [lia | exact Hv]|]. split; [reflexivity|]. split; [apply demo_slow|].
  split; [exists (clip0 exactLm exactPw jk); split; [reflexivity|]; split; [reflexivity | apply demo_clip]|]. split; [reflexivity|]. apply regr_small; lia.
Qed.

(* P_Regr.v - property theorems about training regressions in single precision (C99) *)
From Coq Require Import String List Arith ZArith Reals Lra Lia Bool.
From Flocq Require Import Core IEEE754.BinarySingleNaN.
From Verif Require Import Base Scalar Mat SpecMat MatProofs B32Int Act Loss Optim Regul LayMat LayImg Layer Net NetTrain SpecFit SpecRound SpecNaN SpecSoft B32OfR LibmRound SpecStay SpecTrainFin TrainFin4 SpecMlp MlpFin3 SpecRegr RegrFin2 RegrFin3.
Import ListNotations.
Local Open Scope R_scope.

(** C99.  [affordableFit]: a budget of exponents for the inputs, parameters and gradients of each layer, which the loss respects too;
    [measured], [robust]: regression losses; [pairsUpTo z w]: fewer than 2^24 rows, inputs within 2^z, targets within 2^w (SpecRegr.v);
    [slow r]: a learning rate up to 2^-r, or the -1 that selects 0.01; [upTo z]: a finite float in [0, 2^z] (SpecTrainFin.v); [trainable] (SpecFit.v). *)
@thm C99_budget_kept = regr_finite | forall (lm : libm -> b32 -> b32) (pw : b32 -> b32 -> b32) (jk : b32), | F = (B32Ops lm pw jk)
(* linear regression, losses of bounded slope *)
@thm C99_linear = linear_robust | forall (lm : libm -> b32 -> b32) (pw : b32 -> b32 -> b32) (jk : b32), | F = (B32Ops lm pw jk)
(* a hidden layer with a bounded activation, losses of bounded slope *)
@thm C99_hidden_layer = hidden_robust | forall (lm : libm -> b32 -> b32) (pw : b32 -> b32 -> b32) (jk : b32), | F = (B32Ops lm pw jk)
(* squared errors, gradient clipping *)
@thm C99_clipped = hidden_clipped | forall (lm : libm -> b32 -> b32) (pw : b32 -> b32 -> b32) (jk : b32), | F = (B32Ops lm pw jk)
(* squared errors without clipping: an input of 1000, the default rate, 20 epochs *)
@thm C99_unclipped_refuted = steep_overflow | forall (lm : libm -> b32 -> b32) (pw : b32 -> b32 -> b32) (jk : b32), | F = (B32Ops lm pw jk); steepDense = (steepDense lm pw jk); steepTr = (steepTr lm pw jk)
(* the same sample with the absolute error meets the hypotheses of C99_linear, for a million epochs *)
Example C99_case : forall jk : b32, let F := B32Ops exactLm exactPw jk in let t := steepTr exactLm exactPw jk LMeanAbsoluteError 1000000 in let l := steepDense exactLm exactPw jk in
  stdLibm exactLm exactPw /\ robust (cLoss F (tc F t)) /\ trainable [Some l] lineNet t 1 1 /\ lk l = KDense 1 1 /\ (forall v, In v (mdata (lw l)) \/ In v (mdata (lb l)) -> within 31 v) /\
  create_optimizer (cOpt F (tc F t)) = Some OSGD /\ slow 6 (cLr F (tc F t)) /\ within 0 (cMom F (tc F t)) /\ cReg F (tc F t) = None /\
  ttrain F t = Some (steepX exactLm exactPw jk, steepY exactLm exactPw jk) /\ pairsUpTo 10 52 (steepX exactLm exactPw jk, steepY exactLm exactPw jk) /\ tval F t = None.
Proof.
  intros jk F t l. split; [exact exact_std|]. split; [left; reflexivity|]. split; [apply steep_trainable; right; right; left; reflexivity|]. split; [reflexivity|]. split; [intros v Hv; apply (steep_par exactLm exactPw jk); [lia | exact Hv]|].
  split; [reflexivity|]. split; [apply demo_slow|]. split; [apply demo_slow|]. do 2 (split; [reflexivity|]). split; [apply steep_small; lia | reflexivity].
Qed.
(* Dense, Sigmoid, Dense with the default clipping and squared errors; Dense, Tanh, Dense with the Huber loss *)
Example C99_hidden_case : forall jk : b32, let F := B32Ops exactLm exactPw jk in let t1 := regrTr exactLm exactPw jk LMeanSquaredError (Some (clip0 exactLm exactPw jk)) in let t2 := regrTr exactLm exactPw jk LHuber None in let l := demoDense exactLm exactPw jk in
  trainable (regrHeap exactLm exactPw jk ASigmoid) regrNet t1 2 2 /\ trainable (regrHeap exactLm exactPw jk ATanh) regrNet t2 2 2 /\ flat ASigmoid /\ flat ATanh /\ lk l = KDense 2 2 /\ robust (cLoss F (tc F t2)) /\
  (forall a, hget F (regrHeap exactLm exactPw jk a) 0 = Ok l /\ hget F (regrHeap exactLm exactPw jk a) 2 = Ok l) /\
  (forall v, In v (mdata (lw l)) \/ In v (mdata (lb l)) -> within 10 v) /\ create_optimizer (cOpt F (tc F t1)) = Some OSGD /\ slow 6 (cLr F (tc F t1)) /\
  (exists g, cReg F (tc F t1) = Some g /\ rkind F g = RClip /\ fin (rparam F g) /\ 0 <= val (rparam F g) <= p2 (-9)) /\ cReg F (tc F t2) = None /\
  pairsUpTo 10 21 (demoX exactLm exactPw jk 3, demoY exactLm exactPw jk 3).
Proof.
  intros jk F t1 t2 l. split; [apply regr_trainable; left; reflexivity|]. split; [apply regr_trainable; do 6 right; left; reflexivity|]. split; [unfold flat; cbn; tauto|]. split; [unfold flat; cbn; tauto|]. split; [reflexivity|]. split; [right; right; left; reflexivity|].
  split; [intro a; split; reflexivity|]. split; [intros v Hv; apply (demo_par exactLm exactPw jk); [lia | exact Hv]|]. split; [reflexivity|]. split; [apply demo_slow|].
  split; [exists (clip0 exactLm exactPw jk); split; [reflexivity|]; split; [reflexivity | apply demo_clip]|]. split; [reflexivity|]. apply regr_small; lia.
Qed.

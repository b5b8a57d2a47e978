(* P_Mlp.v - property theorems about training deeper networks in single precision (C98) *)
From Coq Require Import String List Arith ZArith Reals Lra Lia Bool.
From Flocq Require Import Core IEEE754.BinarySingleNaN.
From Verif Require Import Base Scalar Mat SpecMat MatProofs B32Int Act Loss Optim Regul LayMat LayImg Layer Net NetTrain SpecFit SpecRound SpecNaN SpecSoft B32OfR LibmRound SpecStay SpecTrainFin TrainFin4 SpecMlp MlpFin2 MlpFin3.
Import ListNotations.
Local Open Scope R_scope.

(** C98.  [budget]: exponents for the inputs, parameters and gradients of each layer; [affordableNet]: each layer stays within it (SpecMlp.v);
    [slow r]: a learning rate up to 2^-r, or the -1 that selects 0.01; [dataUpTo z]: fewer than 2^24 rows, inputs within 2^z, truth values that
    suit the cross-entropy; [upTo z]: a finite float in [0, 2^z] (SpecTrainFin.v); [trainable] (SpecFit.v). *)
@thm C98_budget_kept = mlp_finite | forall (lm : libm -> b32 -> b32) (pw : b32 -> b32 -> b32) (jk : b32), | F = (B32Ops lm pw jk)
(* gradient clipping: [plainNet] asks for sizes and initial weights only; up to five dense layers with SGD, two with Momentum *)
@thm C98_clipped = clipped_finite | forall (lm : libm -> b32 -> b32) (pw : b32 -> b32 -> b32) (jk : b32), | F = (B32Ops lm pw jk); denses h = (denses (B32Ops lm pw jk) h)
(* a hidden layer with a bounded activation needs no clipping *)
@thm C98_hidden_layer = hidden_finite | forall (lm : libm -> b32 -> b32) (pw : b32 -> b32 -> b32) (jk : b32), | F = (B32Ops lm pw jk)
(* finite parameters alone are not enough *)
@thm C98_large_weights_overflow = big_overflow | forall (lm : libm -> b32 -> b32) (pw : b32 -> b32 -> b32) (jk : b32), | F = (B32Ops lm pw jk); bigDense = (bigDense lm pw jk)
(* 50 epochs of SGD with the default rate: Dense, Relu, Dense, Softmax with the default gradient clipping; Dense, Tanh, Dense, Softmax without *)
Example C98_case : forall jk : b32, let F := B32Ops exactLm exactPw jk in let t := mlpTr exactLm exactPw jk (Some (clip0 exactLm exactPw jk)) in let h := mlpHeap exactLm exactPw jk ARelu in
  stdLibm exactLm exactPw /\ logUnit exactLm /\ trainable h mlpNet t 2 2 /\ create_optimizer (cOpt F (tc F t)) = Some OSGD /\ slow 6 (cLr F (tc F t)) /\ within 0 (cMom F (tc F t)) /\
  (exists g, cReg F (tc F t) = Some g /\ rkind F g = RClip /\ fin (rparam F g) /\ 0 <= val (rparam F g) <= p2 (-9)) /\ plainNet F (within 10) h (nlay mlpNet) /\ denses F h (nlay mlpNet) = 2%nat /\
  ttrain F t = Some (demoX exactLm exactPw jk 3, demoY exactLm exactPw jk 3) /\ smallData (cLoss F (tc F t)) (demoX exactLm exactPw jk 3, demoY exactLm exactPw jk 3) /\ cEpochs F (tc F t) = 50%Z.
Proof.
  intros jk F t h. split; [exact exact_std|]. split; [intros x Hx V; exact (round_log x Hx V)|]. split; [apply mlp_trainable|]. split; [reflexivity|]. split; [apply demo_slow|]. split; [apply demo_slow|].
  split; [exists (clip0 exactLm exactPw jk); split; [reflexivity|]; split; [reflexivity | apply demo_clip]|]. split; [apply demo_plain; [right; right; left; reflexivity | lia]|]. do 2 (split; [reflexivity|]). split; [apply demo_small; lia | reflexivity].
Qed.
Example C98_hidden_case : forall jk : b32, let F := B32Ops exactLm exactPw jk in let t := mlpTr exactLm exactPw jk None in let l := demoDense exactLm exactPw jk in
  trainable (mlpHeap exactLm exactPw jk ATanh) mlpNet t 2 2 /\ nlay mlpNet = [0; 1; 2; 3]%nat /\ hget F (mlpHeap exactLm exactPw jk ATanh) 0 = Ok l /\ hget F (mlpHeap exactLm exactPw jk ATanh) 2 = Ok l /\ lk l = KDense 2 2 /\ flat ATanh /\
  (forall v, In v (mdata (lw l)) \/ In v (mdata (lb l)) -> within 21 v) /\ create_optimizer (cOpt F (tc F t)) = Some OSGD /\ slow 6 (cLr F (tc F t)) /\ cReg F (tc F t) = None.
Proof.
  intros jk F t l. split; [apply mlp_trainable|]. do 4 (split; [reflexivity|]). split; [left; reflexivity|]. split; [intros v Hv; apply (demo_par exactLm exactPw jk); [lia | exact Hv]|]. split; [reflexivity|]. split; [apply demo_slow | reflexivity].
Qed.

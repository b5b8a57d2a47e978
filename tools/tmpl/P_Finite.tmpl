(* P_Finite.v - property theorems about training in single precision (C95) *)
From Coq Require Import String List Arith ZArith Reals Lra Lia Bool.
From Flocq Require Import Core IEEE754.BinarySingleNaN.
From Verif Require Import Base Scalar Mat SpecMat MatProofs B32Int Act Loss Optim LayMat LayImg Layer Net NetTrain SpecFit FitNet3 SpecRound SpecNaN B32Kit NaNAct SpecSoft B32OfR LibmRound SpecStay OptFin1 OptFin2 SpecTrainFin TrainFin4.
Import ListNotations.
Local Open Scope R_scope.

(** C95.  [trainable] (SpecFit.v): sizes and names that fit together; [outputs]: Softmax, or the Sigmoid activation; [smallData]: fewer than 2^24
    rows, inputs of magnitude at most 2^10, truth values that suit the cross-entropy; [upTo z]: a finite float in [0, 2^z] (SpecTrainFin.v);
    [within], [fraction] (SpecStay.v); [stdLibm], [logUnit]: what is assumed of expf, logf, ... (SpecNaN.v, SpecSoft.v), met by a correctly rounded library. *)
@thm C95_training_finite = training_finite | forall (lm : libm -> b32 -> b32) (pw : b32 -> b32 -> b32) (jk : b32), | F = (B32Ops lm pw jk)
@thm C95_empty_set_nan = no_rows_nan | forall (lm : libm -> b32 -> b32) (pw : b32 -> b32 -> b32) (jk : b32), | F = (B32Ops lm pw jk); demoHeap = (demoHeap lm pw jk); (demoTr 0 false) = (demoTr lm pw jk 0 false)
(* three samples, 50 epochs of Adam in batches of two *)
Example C95_case : forall jk : b32, let F := B32Ops exactLm exactPw jk in let t := demoTr exactLm exactPw jk 3 true in let l := demoDense exactLm exactPw jk in
  stdLibm exactLm exactPw /\ logUnit exactLm /\ trainable (demoHeap exactLm exactPw jk) demoNet t 2 2 /\ nlay demoNet = [0; 1]%nat /\ hget F (demoHeap exactLm exactPw jk) 0 = Ok l /\ lk l = KDense 2 2 /\ outputs F KSoftmax /\
  (forall w, In w (mdata (lw l)) -> within 100 w) /\ (forall w, In w (mdata (lb l)) -> within 100 w) /\ smallData (cLoss F (tc F t)) (demoX exactLm exactPw jk 3, demoY exactLm exactPw jk 3) /\
  cReg F (tc F t) = None /\ within 0 (cLr F (tc F t)) /\ fraction (cDecay F (tc F t)) /\ within 0 (cMom F (tc F t)) /\ cEpochs F (tc F t) = 50%Z.
Proof.
  intros jk F t l. assert (P : forall z e, (0 <= z <= 8)%Z -> (3 <= e)%Z -> within e (b32_of_Z z)).
  { intros z e Hz He. apply w_Z; [lia|]. pose proof (p2_le 3 e He) as H. replace (p2 3) with 8 in H by reflexivity. rewrite Rabs_pos_eq by (apply IZR_le; lia). apply Rle_trans with 8; [apply IZR_le; lia | exact H]. }
  assert (M1 : within 0 (b32_of_Z (-1))) by (apply w_Z; [lia|]; change (p2 0) with 1; rewrite Rabs_left; lra).
  split; [exact exact_std|]. split; [intros x Hx V; exact (round_log x Hx V)|]. split; [apply demo_trainable|]. do 3 (split; [reflexivity|]). split; [left; reflexivity|].
  split. { intros w [<-|[<-|[<-|[<-|[]]]]]; apply P; lia. }
  split. { intros w [<-|[<-|[]]]; apply zero_w. }
  split. { split; [reflexivity|]. split; cbn [fst snd].
    - intros x [<-|[<-|[<-|[<-|[<-|[<-|[]]]]]]]; apply P; lia.
    - destruct (ofZ_val 1 ltac:(lia)) as [A B]. assert (P1 : prob (b32_of_Z 1)) by (split; [exact A | rewrite B; lra]). assert (P0 : prob (B754_zero false : b32)) by (split; [reflexivity | change (val (B754_zero false)) with 0; lra]). intros x [<-|[<-|[<-|[<-|[<-|[<-|[]]]]]]]; assumption. }
  split; [reflexivity|]. split; [exact M1|]. split; [destruct (ofZ_val (-1) ltac:(lia)) as [A B]; split; [exact A | right; exact B]|]. split; [exact M1 | reflexivity].
Qed.

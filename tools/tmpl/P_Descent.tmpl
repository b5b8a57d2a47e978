(* P_Descent.v - property theorems about one training batch lowering the loss (C84) *)
From Coq Require Import String List Arith Bool ZArith Reals QArith.
From Verif Require Import Base Scalar Mat SpecMat Loss SpecLoss Optim Act SpecLayer LayMat Layer Net NetTrain SpecGrad SpecDescent GradProofs4 GradProofs8.
Import ListNotations.
Local Open Scope R_scope.

(** C84.  The full statement (every layer class) is false: a LayerGain network where the loss is sloped and no learning rate lowers it. *)
@thmr C84_gain_refuted = gain_no_descent | forall jk : R, | F = (ROps jk)
(* For any stack of layers meeting [differentiable], any loss meeting [smoothLoss], any optimiser meeting [descends], fresh: if some
   derivative with respect to a registered parameter is not zero, then below some learning rate the batch succeeds and the loss of
   the batch afterwards is lower.  Missing: the layer classes whose stored gradient is wrong, AdamW, RPROP-, iRPROP-, the
   categorical losses, regularisers, later batches (the optimisers then have a memory). *)
@thmr C84_batch_partial = first_batch_descends | forall jk : R, | F = (ROps jk)
(* set_net leaves the trainer with such optimisers *)
@thm C84_set_net = setNet_fresh | |

Example C84_case : forall jk, let F := ROps jk in let t := sampleTr jk in
  stack jk (rs0 jk) 0 (sampleNet F) [0; 1; 2]%nat 2 [1; 1; 1; 1]%nat (sampleX F) (fun i j => match i with O => -2 | _ => 1 end) /\
  readyTrainer jk t (net1 [0; 1; 2]%nat) LMeanSquaredError /\
  ((forall a, In a (tpw F t) -> exists p l kp, nth_error [0; 1; 2]%nat p = Some a /\ hget F (sampleNet F) a = Ok l /\ nth_error [1; 1; 1; 1]%nat p = Some kp /\ weightScale jk l 2 kp <> None) /\
   (forall a, In a (tpb F t) -> exists p l kp, nth_error [0; 1; 2]%nat p = Some a /\ hget F (sampleNet F) a = Ok l /\ nth_error [1; 1; 1; 1]%nat p = Some kp /\ biasScale jk l 2 kp <> None)) /\
  sloped jk (rs0 jk) LMeanSquaredError (sampleNet F) (net1 [0; 1; 2]%nat) (mgen 2 1 (sampleX F)) (mgen 2 1 (sampleT F)) (tpw F t) (tpb F t).
Proof. exact (fun jk => conj (sample_stack jk) (conj (sample_ready jk) (conj (sample_registered jk) (sample_sloped jk)))). Qed.

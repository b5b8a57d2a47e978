(* P_Descent.v - property theorems about one training batch lowering the loss (C84) *)
From Coq Require Import String List Arith Bool ZArith Reals QArith.
From Verif Require Import Base Scalar Mat SpecMat Loss SpecLoss Optim Act SpecLayer LayMat Layer Net NetTrain SpecGrad SpecDescent GradProofs4 GradProofs8.
Import ListNotations.
Local Open Scope R_scope.

(** C84.  The full statement (every layer class) is false: a LayerGain network where the loss is sloped and no learning rate lowers it. *)
Theorem C84_gain_refuted : forall jk : R, (exists rs (h : heap (ROps jk)) nt t X T,
  stack jk rs 0 h (nlay nt) 1 [2; 2]%nat X X /\ readyTrainer jk t nt LMeanSquaredError /\ tpw (ROps jk) t = nlay nt /\ tpb (ROps jk) t = [] /\ cReg (ROps jk) (tc (ROps jk) t) = None /\
  sloped jk rs LMeanSquaredError h nt (mgen 1 2 X) (mgen 1 2 T) (tpw (ROps jk) t) (tpb (ROps jk) t) /\
  forall lr, 0 < lr -> exists h' t',
    trainBatch (ROps jk) (absFloat (ROps jk)) rs h nt (setOpts (ROps jk) t (repeat (set_params (ROps jk) (newOpt (ROps jk) OSGD) lr (-1) (-1)) (List.length (tpw (ROps jk) t) + List.length (tpb (ROps jk) t)))) (mgen 1 2 X) (mgen 1 2 T) = Ok (h', t') /\
    batchLoss jk rs LMeanSquaredError h' nt (mgen 1 2 X) (mgen 1 2 T) = batchLoss jk rs LMeanSquaredError h nt (mgen 1 2 X) (mgen 1 2 T))%R.
Proof. exact gain_no_descent. Qed.
Print Assumptions C84_gain_refuted.

(* For any stack of layers meeting [differentiable], any loss meeting [smoothLoss], any optimiser meeting [descends], fresh: if some
   derivative with respect to a registered parameter is not zero, then below some learning rate the batch succeeds and the loss of
   the batch afterwards is lower.  Missing: the layer classes whose stored gradient is wrong, AdamW, RPROP-, iRPROP-, the
   categorical losses, regularisers, later batches (the optimisers then have a memory). *)
Theorem C84_batch_partial : forall jk : R, (forall kind n m k dec mom, (0 < n)%nat -> (0 < m)%nat -> descends k dec mom ->
  forall rs (h : heap (ROps jk)) nt t ks kc X T Z,
    nlay nt <> [] -> NoDup (nlay nt) -> stack jk rs 0 h (nlay nt) n ks X Z -> hd_error ks = Some kc -> last ks 0%nat = m ->
    readyTrainer jk t nt kind -> smoothLoss kind n m Z T -> cReg (ROps jk) (tc (ROps jk) t) = None ->
    NoDup (tpw (ROps jk) t) -> NoDup (tpb (ROps jk) t) ->
    (forall a, In a (tpw (ROps jk) t) -> exists p l kp, nth_error (nlay nt) p = Some a /\ hget (ROps jk) h a = Ok l /\ nth_error ks p = Some kp /\ weightScale jk l n kp <> None) ->
    (forall a, In a (tpb (ROps jk) t) -> exists p l kp, nth_error (nlay nt) p = Some a /\ hget (ROps jk) h a = Ok l /\ nth_error ks p = Some kp /\ biasScale jk l n kp <> None) ->
    sloped jk rs kind h nt (mgen n kc X) (mgen n m T) (tpw (ROps jk) t) (tpb (ROps jk) t) ->
    exists lr0, 0 < lr0 /\ forall lr, 0 < lr < lr0 -> exists h' t',
      trainBatch (ROps jk) (absFloat (ROps jk)) rs h nt (setOpts (ROps jk) t (repeat (set_params (ROps jk) (newOpt (ROps jk) k) lr dec mom) (List.length (tpw (ROps jk) t) + List.length (tpb (ROps jk) t)))) (mgen n kc X) (mgen n m T) = Ok (h', t') /\
      batchLoss jk rs kind h' nt (mgen n kc X) (mgen n m T) < batchLoss jk rs kind h nt (mgen n kc X) (mgen n m T))%R.
Proof. exact first_batch_descends. Qed.
Print Assumptions C84_batch_partial.

(* set_net leaves the trainer with such optimisers *)
Theorem C84_set_net : forall (F : FOps) (h : heap F) nt t h' t' k, setNet F h nt t = Ok (h', t') -> create_optimizer (cOpt F (tc F t)) = Some k ->
  topts F t' = repeat (set_params F (newOpt F k) (cLr F (tc F t)) (cDecay F (tc F t)) (cMom F (tc F t))) (List.length (tpw F t') + List.length (tpb F t')) /\ tc F t' = tc F t.
Proof. exact setNet_fresh. Qed.
Print Assumptions C84_set_net.


Example C84_case : forall jk, let F := ROps jk in let t := sampleTr jk in
  stack jk (rs0 jk) 0 (sampleNet F) [0; 1; 2]%nat 2 [1; 1; 1; 1]%nat (sampleX F) (fun i j => match i with O => -2 | _ => 1 end) /\
  readyTrainer jk t (net1 [0; 1; 2]%nat) LMeanSquaredError /\
  ((forall a, In a (tpw F t) -> exists p l kp, nth_error [0; 1; 2]%nat p = Some a /\ hget F (sampleNet F) a = Ok l /\ nth_error [1; 1; 1; 1]%nat p = Some kp /\ weightScale jk l 2 kp <> None) /\
   (forall a, In a (tpb F t) -> exists p l kp, nth_error [0; 1; 2]%nat p = Some a /\ hget F (sampleNet F) a = Ok l /\ nth_error [1; 1; 1; 1]%nat p = Some kp /\ biasScale jk l 2 kp <> None)) /\
  sloped jk (rs0 jk) LMeanSquaredError (sampleNet F) (net1 [0; 1; 2]%nat) (mgen 2 1 (sampleX F)) (mgen 2 1 (sampleT F)) (tpw F t) (tpb F t).
Proof. exact (fun jk => conj (sample_stack jk) (conj (sample_ready jk) (conj (sample_registered jk) (sample_sloped jk)))). Qed.

(* P_Grad.v - property theorems about the gradients of a whole network (C70) *)
From Coq Require Import String List Arith Bool ZArith Reals QArith.
From Verif Require Import Base Scalar Mat SpecMat Loss SpecLoss Act SpecLayer LayMat Layer Net NetTrain SpecGrad GradProofs3 GradProofs4.
Import ListNotations.
Local Open Scope R_scope.

(** C70.  The full statement is false: the weight gradient of LayerGain is no multiple of the derivative (also Affine, GlobalGain, C42). *)
Theorem C70_gain_refuted : forall jk : R, (exists rs (h : heap (ROps jk)) nt t X T Z h' t' l' gw,
  stack jk rs 0 h (nlay nt) 1 [2; 2]%nat X Z /\ readyTrainer jk t nt LMeanSquaredError /\
  backprop (ROps jk) rs h nt t (mgen 1 2 X) (mgen 1 2 T) = Ok (h', t') /\ hget (ROps jk) h' 0 = Ok l' /\ lgw l' = mgen 1 2 gw /\
  forall c, ~ gradOf 1 2 c (fun W' => batchLoss jk rs LMeanSquaredError (withW jk h 0 (mgen 1 2 W')) nt (mgen 1 2 X) (mgen 1 2 T)) (fun _ _ => 1) gw)%R.
Proof. exact gain_net_refuted. Qed.
Print Assumptions C70_gain_refuted.

(* For any stack of layers meeting [differentiable] (SpecGrad.v) and any loss meeting [smoothLoss]: the forward and backward passes
   succeed, parameters are unchanged, and each stored gradient, multiplied by
     kappa (depends on the loss, the batch size and the output size only)
     * the input scales of the following layers (1 except convolutions)
     * weightScale or biasScale of the layer (n for most),
   is the gradient of the batch loss. *)
Theorem C70_backprop_partial : forall jk : R, (forall kind n m, (0 < n)%nat -> (0 < m)%nat -> exists kappa, 0 < kappa /\
  forall rs (h : heap (ROps jk)) nt t ks k X T Z,
    nlay nt <> [] -> NoDup (nlay nt) -> stack jk rs 0 h (nlay nt) n ks X Z -> hd_error ks = Some k -> last ks 0%nat = m ->
    readyTrainer jk t nt kind -> smoothLoss kind n m Z T ->
    exists h' t', backprop (ROps jk) rs h nt t (mgen n k X) (mgen n m T) = Ok (h', t') /\
    forall p a l kp, nth_error (nlay nt) p = Some a -> hget (ROps jk) h a = Ok l -> nth_error ks p = Some kp ->
    exists l' rw cw W rb cb b, hget (ROps jk) h' a = Ok l' /\ lw l = mgen rw cw W /\ lb l = mgen rb cb b /\ lw l' = lw l /\ lb l' = lb l /\
      (forall s, weightScale jk l n kp = Some s -> exists gw, lgw l' = mgen rw cw gw /\
         gradOf rw cw (kappa * scaleProd jk h (skipn (S p) (nlay nt)) * s)
           (fun W' => batchLoss jk rs kind (withW jk h a (mgen rw cw W')) nt (mgen n k X) (mgen n m T)) W gw) /\
      (forall s, biasScale jk l n kp = Some s -> exists gb, lgb l' = mgen rb cb gb /\
         gradOf rb cb (kappa * scaleProd jk h (skipn (S p) (nlay nt)) * s)
           (fun b' => batchLoss jk rs kind (withB jk h a (mgen rb cb b')) nt (mgen n k X) (mgen n m T)) b gb))%R.
Proof. exact backprop_gradients. Qed.
Print Assumptions C70_backprop_partial.

(* the same gradients are in the layers after the whole batch (optimisers included, no regulariser) *)
Theorem C70_batch_partial : forall jk : R, (forall kind n m, (0 < n)%nat -> (0 < m)%nat -> exists kappa, 0 < kappa /\
  forall cabs rs (h : heap (ROps jk)) nt t ks k X T Z h' t',
    nlay nt <> [] -> NoDup (nlay nt) -> stack jk rs 0 h (nlay nt) n ks X Z -> hd_error ks = Some k -> last ks 0%nat = m ->
    readyTrainer jk t nt kind -> smoothLoss kind n m Z T -> cReg (ROps jk) (tc (ROps jk) t) = None ->
    trainBatch (ROps jk) cabs rs h nt t (mgen n k X) (mgen n m T) = Ok (h', t') ->
    forall p a l kp, nth_error (nlay nt) p = Some a -> hget (ROps jk) h a = Ok l -> nth_error ks p = Some kp ->
    exists l' rw cw W rb cb b, hget (ROps jk) h' a = Ok l' /\ lw l = mgen rw cw W /\ lb l = mgen rb cb b /\
      (forall s, weightScale jk l n kp = Some s -> exists gw, lgw l' = mgen rw cw gw /\
         gradOf rw cw (kappa * scaleProd jk h (skipn (S p) (nlay nt)) * s)
           (fun W' => batchLoss jk rs kind (withW jk h a (mgen rw cw W')) nt (mgen n k X) (mgen n m T)) W gw) /\
      (forall s, biasScale jk l n kp = Some s -> exists gb, lgb l' = mgen rb cb gb /\
         gradOf rb cb (kappa * scaleProd jk h (skipn (S p) (nlay nt)) * s)
           (fun b' => batchLoss jk rs kind (withB jk h a (mgen rb cb b')) nt (mgen n k X) (mgen n m T)) b gb))%R.
Proof. exact batch_gradients. Qed.
Print Assumptions C70_batch_partial.

(* set_net leaves the trainer as those statements need it *)
Theorem C70_set_net : forall jk : R, (forall (h : heap (ROps jk)) nt t h' t' kind, setNet (ROps jk) h nt t = Ok (h', t') -> List.Forall mwf (tinOut (ROps jk) t) -> List.Forall mwf (tgrad (ROps jk) t) ->
  cLoss (ROps jk) (tc (ROps jk) t) = kind -> tbal (ROps jk) t = noBalance (ROps jk) -> readyTrainer jk t' nt kind)%R.
Proof. exact setNet_ready. Qed.
Print Assumptions C70_set_net.

Example C70_case : (forall jk, stack jk (rs0 jk) 0 (sampleNet (ROps jk)) [0; 1; 2]%nat 2 [1; 1; 1; 1]%nat (sampleX (ROps jk)) (fun i j => match i with O => -2 | _ => 1 end) /\
    readyTrainer jk (tr1 jk 3) (net1 [0; 1; 2]%nat) LMeanSquaredError) /\
  option_map (map (fun o => match o with Some l => (mdata (lgw l), mdata (lgb l)) | None => ([], []) end))
    (match backprop QOps (fun _ => mkRnd QOps (fun _ => 0%Q) (fun _ => 0%Z)) (sampleNet QOps) (mkNet [0; 1; 2]%nat false true)
       (mkTr QOps (tc QOps (trNew QOps)) (noBalance QOps) 0 0 [] (repeat (mempty QOps) 4) (repeat (mempty QOps) 4) 3 [] [] (th QOps (trNew QOps)) 0%Q 0 None None false)
       (mgen 2 1 (sampleX QOps)) (mgen 2 1 (sampleT QOps)) with Ok (h, _) => Some h | Err _ => None end)
  = Some [([1], [1]); ([], []); ([-3], [-3 # 2])]%Q.
Proof. exact (conj (fun jk => conj (sample_stack jk) (tr1_ready jk [0; 1; 2]%nat)) sample_gradients). Qed.

(* P_Init.v - property theorems about constructors and initialisers (C85) *)
From Coq Require Import String List Arith Bool ZArith Reals QArith.
From Verif Require Import Base Scalar Mat SpecMat LayMat LayImg LayRnn Layer Loss Optim Net NetTrain Metrics SpecInit InitProofs.
Import ListNotations.

(** C85.  The full statement (every layer built is usable) is false: an unknown initialiser name is accepted and leaves no weights. *)
Theorem C85_unknown_refuted : forall F : FOps, (exists wi, forall r nI nO bi, 0 < nI -> 0 < nO -> exists l, layNew F r (KDense nI nO) wi bi = Ok l /\ msize (lw l) = 0 /\
  forall r' n X out, layForward F r' l (mgen n nI X) out = Err EAssert)%nat.
Proof. exact unknown_initialiser. Qed.
Print Assumptions C85_unknown_refuted.

(* members, weights and biases of a new layer, for every class: cells of the named initialisers follow [initTable] (SpecInit.v), in
   row order, the biases using the draws that follow those of the weights *)
Theorem C85_parameters : forall F : FOps, (forall r k wi bi l, layNew F r k wi bi = Ok l ->
  lk l = k /\ lwi l = wi /\ lbi l = bi /\ ltrain l = false /\ lfirst l = false /\ lns l = 0 /\ lmem l = mempty F /\
  match weightShape F k with Some (nI, nO) => initTo F wi (rf r) (mempty F) nI nO (lw l) | None => lw l = otherWeight F k (rf r) end /\
  match biasShape F k with
  | Some (nI, nO) => initTo F bi (fun q => rf r (match weightShape F k with Some (a, b) => a * b | None => 0 end + q)) (mempty F) nI nO (lb l)
  | None => lb l = otherBias F k
  end)%nat.
Proof. exact new_layer. Qed.
Print Assumptions C85_parameters.

Theorem C85_gradients : forall F : FOps, (forall r k wi bi l, layNew F r k wi bi = Ok l ->
  match k with
  | KConv v _ => lgw l = mgen (vO v) (vkr v * vkc v * vI v) (fun _ _ => f0 F) /\ lgb l = mempty F
  | KGlobalGain => mrows (lgw l) = 1 /\ mcols (lgw l) = 1 /\ mwf (lgw l) /\ lgb l = mempty F
  | KGlobalBias => mrows (lgb l) = 1 /\ mcols (lgb l) = 1 /\ mwf (lgb l) /\ lgw l = mempty F
  | KGlobalAffine => mrows (lgw l) = 1 /\ mcols (lgw l) = 1 /\ mwf (lgw l) /\ mrows (lgb l) = 1 /\ mcols (lgb l) = 1 /\ mwf (lgb l)
  | _ => lgw l = mempty F /\ lgb l = mempty F
  end)%nat.
Proof. exact new_gradients. Qed.
Print Assumptions C85_gradients.

Theorem C85_simple_rnn : forall F : FOps, (forall r fs u wi bi, exists l, layNew F r (KSimpleRnn fs u) wi bi = Ok l /\
  wH (lrnn l) = mgen u u (fun i j => rf r (i * u + j)) /\ wX (lrnn l) = mgen fs u (fun i j => rf r (u * u + (i * u + j))) /\
  bH (lrnn l) = mgen 1 u (fun _ _ => f0 F) /\ hh (lrnn l) = mgen 1 u (fun _ _ => f0 F) /\ saved (lrnn l) = [])%nat.
Proof. exact new_simple_rnn. Qed.
Print Assumptions C85_simple_rnn.

Theorem C85_simple_rnn_training : forall F : FOps, (forall (r : rnd F) (l l' : layer F) fs u mIn out o, lk l = KSimpleRnn fs u -> ltrain l = true -> mwf (wH (lrnn l)) -> mwf (wX (lrnn l)) -> layForward F r l mIn out = Ok (l', o) ->
  wH (lrnn l') = mgen u u (fun i j => rf r (i * u + j)) /\ wX (lrnn l') = mgen fs u (fun i j => rf r (u * u + (i * u + j))))%nat.
Proof. exact simple_rnn_redraws. Qed.
Print Assumptions C85_simple_rnn_training.

Theorem C85_constructors_succeed : forall F : FOps, (forall r k wi bi,
  match k with KAct None | KMaxPool _ | KAvgPool _ | KConv _ _ => False | _ => True end -> exists l, layNew F r k wi bi = Ok l)%nat.
Proof. exact new_succeeds. Qed.
Print Assumptions C85_constructors_succeed.

(* draws between -1 and 1 stay within the bound of the initialiser *)
Theorem C85_dense_bounds : forall jk : R, (forall (r : rnd (ROps jk)) nI nO wi bi l, (forall q, Rabs (rf r q) <= 1) -> layNew (ROps jk) r (KDense nI nO) wi bi = Ok l ->
  (forall w, In w (mdata (lw l)) -> Rabs w <= initBound wi nI nO) /\ (forall b, In b (mdata (lb l)) -> Rabs b <= initBound bi 1 nO))%R.
Proof. exact dense_bounds. Qed.
Print Assumptions C85_dense_bounds.

Theorem C85_convolution_bounds : forall jk : R, (forall (r : rnd (ROps jk)) v fast wi bi l, (forall q, Rabs (rf r q) <= 1) -> layNew (ROps jk) r (KConv v fast) wi bi = Ok l ->
  forall w, In w (mdata (lw l)) -> Rabs w <= sqrt (6 / INR (vR v * vC v * vI v + oC v * oR v * vO v)))%R.
Proof. exact conv_bounds. Qed.
Print Assumptions C85_convolution_bounds.

Theorem C85_network : (nlay netNew = [] /\ nclass netNew = true /\ ntrain netNew = false)%nat.
Proof. exact new_network. Qed.
Print Assumptions C85_network.

Theorem C85_metrics : forall F : FOps, (mAcc (metNew F) = f0 F /\ mBal (metNew F) = f0 F /\ msize (mConf (metNew F)) = 0 /\ msize (mNorm (metNew F)) = 0)%nat.
Proof. exact new_metrics. Qed.
Print Assumptions C85_metrics.

Theorem C85_trainer : forall F : FOps, (let t := trNew F in
  (cBatch F (tc F t) = 32 /\ cValBatch F (tc F t) = 128 /\ cKeep F (tc F t) = true /\ cEpochs F (tc F t) = 100%Z /\ cReboost F (tc F t) = (-1)%Z /\ cPatience F (tc F t) = (-1)%Z /\ cBalancing F (tc F t) = false) /\
  (cOpt F (tc F t) = "Adam"%string /\ trGetLr F t = minus1 F /\ cDecay F (tc F t) = minus1 F /\ cMom F (tc F t) = minus1 F /\ loss_name (cLoss F (tc F t)) = "MeanSquaredError"%string /\ trGetReg F t = EmptyString /\ trGetRegParam F t = minus1 F) /\
  (hTL F (th F t) = [] /\ hTA F (th F t) = [] /\ hVL F (th F t) = [] /\ hVA F (th F t) = []) /\ (fTL F (th F t) = f0 F /\ fTA F (th F t) = f0 F /\ fVL F (th F t) = f0 F /\ fVA F (th F t) = f0 F) /\ ttrain F t = None /\ tval F t = None /\ tcallback F t = false)%nat.
Proof. exact new_trainer. Qed.
Print Assumptions C85_trainer.


Example C85_case : match layNew QOps (mkRnd QOps (fun q => Z.of_nat (q + 1) # 8)%Q (fun _ => 0%Z)) (KTDDense 1 2) "Uniform" "Uniform" with
  Ok l => (mdata (lw l), mdata (lb l)) | Err _ => ([], []) end = ([1 # 8; 2 # 8], [3 # 8; 4 # 8])%Q.
Proof. vm_compute. reflexivity. Qed.

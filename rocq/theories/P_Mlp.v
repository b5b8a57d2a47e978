(* P_Mlp.v - property theorems about training deeper networks in single precision (C98) *)
From Coq Require Import String List Arith ZArith Reals Lra Lia Bool.
From Flocq Require Import Core IEEE754.BinarySingleNaN.
From Verif Require Import Base Scalar Mat SpecMat MatProofs B32Int Act Loss Optim Regul LayMat LayImg Layer Net NetTrain SpecFit SpecRound SpecNaN SpecSoft B32OfR LibmRound SpecStay SpecTrainFin TrainFin4 SpecMlp MlpFin2 MlpFin3.
Import ListNotations.
Local Open Scope R_scope.

(** C98.  [budget]: exponents for the inputs, parameters and gradients of each layer; [affordableNet]: each layer stays within it (SpecMlp.v);
    [slow r]: a learning rate up to 2^-r, or the -1 that selects 0.01; [dataUpTo z]: fewer than 2^24 rows, inputs within 2^z, truth values that
    suit the cross-entropy; [upTo z]: a finite float in [0, 2^z] (SpecTrainFin.v); [trainable] (SpecFit.v). *)
Theorem C98_budget_kept : forall (lm : libm -> b32 -> b32) (pw : b32 -> b32 -> b32) (jk : b32), forall (R0 : fitRnd (B32Ops lm pw jk)) h n t k m x y b r ok, stdLibm lm pw -> logUnit lm ->
  trainable h n t k m -> (2 <= length (nlay n))%nat -> create_optimizer (cOpt (B32Ops lm pw jk) (tc (B32Ops lm pw jk) t)) = Some ok -> (ok = OSGD \/ ok = OMomentum) -> slow r (cLr (B32Ops lm pw jk) (tc (B32Ops lm pw jk) t)) -> within 0 (cMom (B32Ops lm pw jk) (tc (B32Ops lm pw jk) t)) ->
  affordableNet lm pw jk (tc (B32Ops lm pw jk) t) ok r b h (nlay n) ->
  ttrain (B32Ops lm pw jk) t = Some (x, y) -> (0 < mrows x)%nat -> dataUpTo (eX b 0) (cLoss (B32Ops lm pw jk) (tc (B32Ops lm pw jk) t)) (x, y) -> (forall v, tval (B32Ops lm pw jk) t = Some v -> dataUpTo (eX b 0) (cLoss (B32Ops lm pw jk) (tc (B32Ops lm pw jk) t)) v) ->
  exists h' n' t' calls, fit (B32Ops lm pw jk) (absFloat (B32Ops lm pw jk)) R0 h n t = Ok (h', n', t', calls) /\
    length (hTL (B32Ops lm pw jk) (th (B32Ops lm pw jk) t')) = Z.to_nat (cEpochs (B32Ops lm pw jk) (tc (B32Ops lm pw jk) t)) /\ (forall v, In v (hTL (B32Ops lm pw jk) (th (B32Ops lm pw jk) t')) -> upTo 30 v) /\ (forall v, In v (hVL (B32Ops lm pw jk) (th (B32Ops lm pw jk) t')) -> upTo 54 v) /\
    length (nlay n') = length (nlay n) /\
    forall i a l, nth_error (nlay n) i = Some a -> hget (B32Ops lm pw jk) h a = Ok l -> exists a' l', nth_error (nlay n') i = Some a' /\ hget (B32Ops lm pw jk) h' a' = Ok l' /\ lk l' = lk l /\
      forall p q, lk l = KDense p q -> forall w, In w (mdata (lw l')) \/ In w (mdata (lb l')) -> within (eW b i) w.
Proof. exact mlp_finite. Qed.
Print Assumptions C98_budget_kept.

(* gradient clipping: [plainNet] asks for sizes and initial weights only; up to five dense layers with SGD, two with Momentum *)
Theorem C98_clipped : forall (lm : libm -> b32 -> b32) (pw : b32 -> b32 -> b32) (jk : b32), forall (R0 : fitRnd (B32Ops lm pw jk)) h n t k m x y w ok g, stdLibm lm pw -> logUnit lm ->
  trainable h n t k m -> (2 <= length (nlay n))%nat -> create_optimizer (cOpt (B32Ops lm pw jk) (tc (B32Ops lm pw jk) t)) = Some ok -> (ok = OSGD /\ w = 10%Z \/ ok = OMomentum /\ w = 35%Z) -> slow 6 (cLr (B32Ops lm pw jk) (tc (B32Ops lm pw jk) t)) -> within 0 (cMom (B32Ops lm pw jk) (tc (B32Ops lm pw jk) t)) ->
  cReg (B32Ops lm pw jk) (tc (B32Ops lm pw jk) t) = Some g -> rkind (B32Ops lm pw jk) g = RClip -> fin (rparam (B32Ops lm pw jk) g) -> 0 <= val (rparam (B32Ops lm pw jk) g) <= p2 (-9) ->
  plainNet (B32Ops lm pw jk) (within w) h (nlay n) -> (Z.of_nat ((denses (B32Ops lm pw jk) h) (nlay n)) * (w + 11) <= 113)%Z ->
  ttrain (B32Ops lm pw jk) t = Some (x, y) -> (0 < mrows x)%nat -> smallData (cLoss (B32Ops lm pw jk) (tc (B32Ops lm pw jk) t)) (x, y) -> (forall v, tval (B32Ops lm pw jk) t = Some v -> smallData (cLoss (B32Ops lm pw jk) (tc (B32Ops lm pw jk) t)) v) ->
  exists h' n' t' calls, fit (B32Ops lm pw jk) (absFloat (B32Ops lm pw jk)) R0 h n t = Ok (h', n', t', calls) /\
    length (hTL (B32Ops lm pw jk) (th (B32Ops lm pw jk) t')) = Z.to_nat (cEpochs (B32Ops lm pw jk) (tc (B32Ops lm pw jk) t)) /\ (forall v, In v (hTL (B32Ops lm pw jk) (th (B32Ops lm pw jk) t')) -> upTo 30 v) /\ (forall v, In v (hVL (B32Ops lm pw jk) (th (B32Ops lm pw jk) t')) -> upTo 54 v) /\
    length (nlay n') = length (nlay n) /\
    forall i a l, nth_error (nlay n) i = Some a -> hget (B32Ops lm pw jk) h a = Ok l -> exists a' l', nth_error (nlay n') i = Some a' /\ hget (B32Ops lm pw jk) h' a' = Ok l' /\ lk l' = lk l /\
      forall p q, lk l = KDense p q -> forall v, In v (mdata (lw l')) \/ In v (mdata (lb l')) -> within w v.
Proof. exact clipped_finite. Qed.
Print Assumptions C98_clipped.

(* a hidden layer with a bounded activation needs no clipping *)
Theorem C98_hidden_layer : forall (lm : libm -> b32 -> b32) (pw : b32 -> b32 -> b32) (jk : b32), forall (R0 : fitRnd (B32Ops lm pw jk)) h n t k m x y a1 a2 a3 a4 l1 l2 l3 l4 i1 o1 i3 o3 a, stdLibm lm pw -> logUnit lm ->
  trainable h n t k m -> nlay n = [a1; a2; a3; a4] -> hget (B32Ops lm pw jk) h a1 = Ok l1 -> hget (B32Ops lm pw jk) h a2 = Ok l2 -> hget (B32Ops lm pw jk) h a3 = Ok l3 -> hget (B32Ops lm pw jk) h a4 = Ok l4 ->
  lk l1 = KDense i1 o1 -> lk l2 = KAct (Some a) -> flat a -> lk l3 = KDense i3 o3 -> outputs (B32Ops lm pw jk) (lk l4) ->
  (mrows (lw l1) < 2 ^ 16)%nat -> (mrows (lw l3) < 2 ^ 11)%nat -> (mcols (lw l3) <= 2 ^ 10)%nat ->
  (forall v, In v (mdata (lw l1)) \/ In v (mdata (lb l1)) -> within 62 v) -> (forall v, In v (mdata (lw l3)) \/ In v (mdata (lb l3)) -> within 21 v) ->
  create_optimizer (cOpt (B32Ops lm pw jk) (tc (B32Ops lm pw jk) t)) = Some OSGD -> slow 6 (cLr (B32Ops lm pw jk) (tc (B32Ops lm pw jk) t)) -> within 0 (cMom (B32Ops lm pw jk) (tc (B32Ops lm pw jk) t)) -> cReg (B32Ops lm pw jk) (tc (B32Ops lm pw jk) t) = None ->
  ttrain (B32Ops lm pw jk) t = Some (x, y) -> (0 < mrows x)%nat -> smallData (cLoss (B32Ops lm pw jk) (tc (B32Ops lm pw jk) t)) (x, y) -> (forall v, tval (B32Ops lm pw jk) t = Some v -> smallData (cLoss (B32Ops lm pw jk) (tc (B32Ops lm pw jk) t)) v) ->
  exists h' n' t' calls a1' a2' a3' a4' l1' l3', fit (B32Ops lm pw jk) (absFloat (B32Ops lm pw jk)) R0 h n t = Ok (h', n', t', calls) /\
    length (hTL (B32Ops lm pw jk) (th (B32Ops lm pw jk) t')) = Z.to_nat (cEpochs (B32Ops lm pw jk) (tc (B32Ops lm pw jk) t)) /\ (forall v, In v (hTL (B32Ops lm pw jk) (th (B32Ops lm pw jk) t')) -> upTo 30 v) /\ (forall v, In v (hVL (B32Ops lm pw jk) (th (B32Ops lm pw jk) t')) -> upTo 54 v) /\
    nlay n' = [a1'; a2'; a3'; a4'] /\ hget (B32Ops lm pw jk) h' a1' = Ok l1' /\ hget (B32Ops lm pw jk) h' a3' = Ok l3' /\
    (forall v, In v (mdata (lw l1')) \/ In v (mdata (lb l1')) -> within 62 v) /\ (forall v, In v (mdata (lw l3')) \/ In v (mdata (lb l3')) -> within 21 v).
Proof. exact hidden_finite. Qed.
Print Assumptions C98_hidden_layer.

(* finite parameters alone are not enough *)
Theorem C98_large_weights_overflow : forall (lm : libm -> b32 -> b32) (pw : b32 -> b32 -> b32) (jk : b32), forall rs : nat -> rnd (B32Ops lm pw jk), exists h' o, predict (B32Ops lm pw jk) rs [Some (bigDense lm pw jk); Some (bigDense lm pw jk)] (mkNet [0%nat; 1%nat] true false) (mgen 1 2 (fun _ _ => b32_of_Z 1)) (mempty (B32Ops lm pw jk)) = Ok (h', o) /\
  forallb (fun x : b32 => is_finite x) (mdata (lw (bigDense lm pw jk))) = true /\ map (fun x : b32 => is_finite x) (mdata o) = [false; false].
Proof. exact big_overflow. Qed.
Print Assumptions C98_large_weights_overflow.

(* 50 epochs of SGD with the default rate: Dense, Relu, Dense, Softmax with the default gradient clipping; Dense, Tanh, Dense, Softmax without *)
Example C98_case : forall jk : b32, let F := B32Ops exactLm exactPw jk in let t := mlpTr exactLm exactPw jk (Some (clip0 exactLm exactPw jk)) in let h := mlpHeap exactLm exactPw jk ARelu in
  stdLibm exactLm exactPw /\ logUnit exactLm /\ trainable h mlpNet t 2 2 /\ create_optimizer (cOpt F (tc F t)) = Some OSGD /\ slow 6 (cLr F (tc F t)) /\ within 0 (cMom F (tc F t)) /\
  (exists g, cReg F (tc F t) = Some g /\ rkind F g = RClip /\ fin (rparam F g) /\ 0 <= val (rparam F g) <= p2 (-9)) /\ plainNet F (within 10) h (nlay mlpNet) /\ denses F h (nlay mlpNet) = 2%nat /\
  ttrain F t = Some (demoX exactLm exactPw jk 3, demoY exactLm exactPw jk 3) /\ smallData (cLoss F (tc F t)) (demoX exactLm exactPw jk 3, demoY exactLm exactPw jk 3) /\ cEpochs F (tc F t) = 50%Z.
Proof.
  intros jk F t h. split; [exact exact_std|]. split; [intros x Hx V; exact (round_log x Hx V)|]. split; [apply mlp_trainable|]. split; [reflexivity|]. split; [apply demo_slow|]. split; [apply demo_slow|].
  split; [exists (clip0 exactLm exactPw jk); split; [reflexivity|]; split; [reflexivity | apply demo_clip]|]. split; [apply demo_plain; [right; right; left; reflexivity | lia]|]. do 2 (split; [reflexivity|]). split; [apply demo_small; lia | reflexivity].
Qed.
Example C98_hidden_case : forall jk : b32, let F := B32Ops exactLm exactPw jk in let t := mlpTr exactLm exactPw jk None in let l := demoDense exactLm exactPw jk in
  trainable (mlpHeap exactLm exactPw jk ATanh) mlpNet t 2 2 /\ nlay mlpNet = [0; 1; 2; 3]%nat /\ hget F (mlpHeap exactLm exactPw jk ATanh) 0 = Ok l /\ hget F (mlpHeap exactLm exactPw jk ATanh) 2 = Ok l /\ lk l = KDense 2 2 /\ flat ATanh /\
  (forall v, In v (mdata (lw l)) \/ In v (mdata (lb l)) -> within 21 v) /\ create_optimizer (cOpt F (tc F t)) = Some OSGD /\ slow 6 (cLr F (tc F t)) /\ cReg F (tc F t) = None.
Proof.
  intros jk F t l. split; [apply mlp_trainable|]. do 4 (split; [reflexivity|]). split; [left; reflexivity|]. split; [intros v Hv; apply (demo_par exactLm exactPw jk); [lia | exact Hv]|]. split; [reflexivity|]. split; [apply demo_slow | reflexivity].
Qed.

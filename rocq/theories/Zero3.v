(* Zero3.v - a learning rate of zero in single precision *)
From Coq Require Import String List Arith Bool Lia ZArith.
From Flocq Require Import Core IEEE754.BinarySingleNaN.
From Verif Require Import Base Scalar Mat SpecMat MatFacts MatProofs Act Loss Optim LayMat LayImg Layer Net NetTrain SpecTrain SpecFit SpecResume SpecFixed SpecZero SpecNaN Fixed4 TrainProofs14.
Import ListNotations.
Local Open Scope nat_scope.

Section P.
Variables (lm : libm -> b32 -> b32) (pw : b32 -> b32 -> b32) (jk : b32).
Notation F := (B32Ops lm pw jk).
(* LayerDense(1,1) with weight 2^127 and bias 0, then Relu; one sample x = 1, y = -2^127 *)
Definition bigDense : layer F := setWB (layBase F (KDense 1 1) "GlorotUniform" "Zeros") (mgen 1 1 (fun _ _ => b32_of_Z (2 ^ 127))) (mgen 1 1 (fun _ _ => b32_of_Z 0)).
Definition bigH : heap F := [Some bigDense; Some (fxAct F ARelu)].
Definition bigT : trainer F := fxTr F "SGD" false 1 1 (b32_of_Z 0) LMeanSquaredError 1 (fun _ _ => b32_of_Z (- 2 ^ 127)).
Lemma big_trainable : trainable bigH fxNet bigT 1 1.
Proof.
  unfold trainable. split; [constructor; [intros [E|[]]; discriminate E|constructor; [intros []|constructor]]|].
  split. { eexists. exists 1. split; [reflexivity|]. split; [repeat split; auto|]. eexists. exists 1. split; [reflexivity|]. split; [|reflexivity]. split; [auto|]. split; [auto|]. do 3 (split; [reflexivity|]). cbn. split; auto. split; [discriminate|]. repeat split. }
  split. { intros [|[|i]] c l E El; try discriminate E; injection E as <-; injection El as <-; reflexivity. }
  split; [discriminate|]. split; [reflexivity|]. split; [left; reflexivity|]. split; [cbn; lia|]. split; [constructor|]. split; [constructor|].
  split; [|intros d E; discriminate E]. eexists. split; [reflexivity|]. split; [apply mwf_gen|]. split; [apply mwf_gen|]. split; [reflexivity|]. split; reflexivity.
Qed.
(* every parameter and every datum is finite and the learning rate is 0, and yet the weight becomes NaN: the gradient overflows and infinity times 0 is NaN *)
Theorem float_refuted : forall R0, exists h n t k m x y l h' n' t' calls l' a, trainable h n t k m /\ allPassive h n /\ allSized F h n /\ cOpt F (tc F t) = "SGD"%string /\ cLr F (tc F t) = B754_zero false /\
  ttrain F t = Some (x, y) /\ Forall (fun v => is_finite v = true) (mdata x) /\ Forall (fun v => is_finite v = true) (mdata y) /\
  hget F h a = Ok l /\ Forall (fun v => is_finite v = true) (mdata (lw l)) /\ Forall (fun v => is_finite v = true) (mdata (lb l)) /\
  fit F (absFloat F) R0 h n t = Ok (h', n', t', calls) /\ In a (nlay n') /\ hget F h' a = Ok l' /\ mdata (lw l') = [B754_nan].
Proof.
  intro R0. assert (Z : match fit F (absFloat F) R0 bigH fxNet bigT with Ok (h', n', t', _) => match hget F h' 0 with Ok l => mdata (lw l) = [B754_nan] /\ nlay n' = [0; 1] | _ => False end | _ => False end) by (vm_compute; auto).
  destruct (fit F (absFloat F) R0 bigH fxNet bigT) as [[[[h' n'] t'] calls]|] eqn:E; [|destruct Z]. destruct (hget F h' 0) as [l'|] eqn:El; [|destruct Z]. destruct Z as [Z Zn].
  exists bigH, fxNet, bigT, 1, 1, (fxX F 1), (mgen 1 1 (fun _ _ => b32_of_Z (- 2 ^ 127))), bigDense, h', n', t', calls, l', 0.
  split; [exact big_trainable|]. split; [intros c l [<-|[<-|[]]] Q; injection Q as <-; exact I|]. split; [intros c l [<-|[<-|[]]] Q; injection Q as <-; exact I|]. split; [reflexivity|]. split; [reflexivity|]. split; [reflexivity|].
  do 2 (split; [repeat constructor|]). split; [reflexivity|]. do 2 (split; [repeat constructor|]). split; [exact E|]. split; [rewrite Zn; left; reflexivity|]. split; [exact El|exact Z].
Qed.
End P.

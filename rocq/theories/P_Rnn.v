(* P_Rnn.v - property theorems about the backward pass of the recurrent layers (C86) *)
From Coq Require Import String List Arith Bool ZArith Reals QArith.
From Verif Require Import Base Scalar SpecReal Mat SpecMat LayMat LayRnn Layer SpecRnn LayRnnProofs2.
Import ListNotations.

(** C86.  The full statement (the stored weight gradient is the derivative of the loss) is false for both classes: neither reads the
    gradient of its output, so a loss already at its minimum still gives SimplestRNN a non-zero weight gradient. *)
Theorem C86_zero_gradient_refuted : (exists (r : rnd QOps) l l1 l2 mIn o G gi,
  layNew QOps r (KSimplestRnn 1) String.EmptyString String.EmptyString = Ok l /\
  layForward QOps r (setTrain l true) mIn (mempty QOps) = Ok (l1, o) /\ mrows G = mrows o /\ mcols G = mcols o /\ mdata G = [f0 QOps] /\
  layBackward QOps (setFirst l1 true) mIn G (mempty QOps) = Ok (l2, gi) /\ map QArith_base.Qnum (mdata (lgw l2)) <> [0%Z])%nat.
Proof. exact rnn_zero_gradient. Qed.
Print Assumptions C86_zero_gradient_refuted.

Theorem C86_output_gradient_ignored : forall F : FOps, (forall (l : layer F) mIn G G' gin, (exists fs u, lk l = KSimpleRnn fs u) \/ (exists fs, lk l = KSimplestRnn fs) ->
  layBackward F l mIn G gin = layBackward F l mIn G' gin)%nat.
Proof. exact rnn_ignores_gradient. Qed.
Print Assumptions C86_output_gradient_ignored.

(* what a training step of SimplestRNN does on sequences of three frames or more: the states, the stored gradient, and, unless it is
   the first layer, an assertion failure for every batch size but one *)
Theorem C86_simplest_actual : forall jk : R, (forall (r : rnd (ROps jk)) (l : layer (ROps jk)) u n nb (X h : nat -> nat -> R) (out G gin : mat (ROps jk)),
  lk l = KSimplestRnn u -> ltrain l = true -> 0 < u -> 3 <= nb -> mwf (lw l) -> started n u (hh (lrnn l)) h ->
  let W := fun i j => rf r (i * u + j) in let H := states u W X h in
  exists l1, layForward (ROps jk) r l (mgen n (nb * u) X) out = Ok (l1, mgen n u (H (nb - 1))) /\ lw l1 = mgen u u W /\
    (lfirst l = true -> exists l2, layBackward (ROps jk) l1 (mgen n (nb * u) X) G gin = Ok (l2, gin) /\ lw l2 = lw l1 /\ lgw l2 = mgen u u (storedGrad n u nb H)) /\
    (lfirst l = false -> n = u -> exists l2, layBackward (ROps jk) l1 (mgen n (nb * u) X) G gin = Ok (l2, mgen u u (fun a b => rsum u (fun q => (H 2%nat q a * W q b)%R))) /\
       lw l2 = lw l1 /\ lgw l2 = mgen u u (storedGrad n u nb H)) /\
    (lfirst l = false -> n <> u -> layBackward (ROps jk) l1 (mgen n (nb * u) X) G gin = Err EAssert))%nat.
Proof. exact simplest_trains. Qed.
Print Assumptions C86_simplest_actual.

(* SimpleRNN has no registered weights and never computes a gradient, but its backward pass always returns *)
Theorem C86_simple_actual : forall F : FOps, (forall (r : rnd F) (l l1 : layer F) fs u n nb (X : nat -> nat -> F) (out o G gin : mat F),
  lk l = KSimpleRnn fs u -> ltrain l = true -> 0 < fs -> lgw l = mempty F -> lw l = mempty F ->
  layForward F r l (mgen n (nb * fs) X) out = Ok (l1, o) ->
  exists l2, layBackward F l1 (mgen n (nb * fs) X) G gin = Ok (l2, gin) /\ lgw l2 = mempty F /\ hasWeights l2 = false /\ lrnn l2 = lrnn l1)%nat.
Proof. exact simple_never_learns. Qed.
Print Assumptions C86_simple_actual.


Example C86_case : (* weight 2, frames 1, 10, 100, 1000: states 1, 12, 124; stored gradient (12 * 1 + 124 * 12) / 4 *)
  match layForward QOps (mkRnd QOps (fun _ => 2%Q) (fun _ => 0%Z)) (setFirst (setTrain (layBase QOps (KSimplestRnn 1) "" "") true) true) (mkMat 1 4 [1; 10; 100; 1000]%Q) (mempty QOps) with
  | Ok (l, o) => match layBackward QOps l (mkMat 1 4 [1; 10; 100; 1000]%Q) (mempty QOps) (mempty QOps) with
     | Ok (l2, _) => Some (map Qred (mdata o), map Qred (mdata (lgw l2))) | Err _ => None end | Err _ => None end = Some ([124], [375])%Q.
Proof. vm_compute. reflexivity. Qed.

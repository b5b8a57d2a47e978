(* MiscProofs.v - small facts about helpers no other theorem fixes *)
From Coq Require Import List Arith Bool Lia ZArith Reals Lra.
From Verif Require Import Base Scalar SpecReal Mat SpecMat MatFacts MatProofs MatLoops LayMat LayProofs4 MatHeap.
Import ListNotations.

Lemma tanh_helpers : forall jk r c (f : nat -> nat -> R),
  mtanh (ROps jk) (mgen r c f) = Ok (mgen r c (fun i j => tanh (f i j))) /\ moneMinusSquare (ROps jk) (mgen r c f) = Ok (mgen r c (fun i j => 1 - Rsqr (f i j))%R).
Proof. intros jk r c f. split; unfold mtanh, moneMinusSquare; rewrite (@mapLoop_gen (ROps jk)); apply Ok_eq, mgen_ext; [|reflexivity].
  intros i j _ _. change (Rtanh (f i j) = tanh (f i j)). unfold Rtanh, tanh, sinh, cosh. pose proof (exp_pos (f i j)). pose proof (exp_pos (- f i j)). field. lra.
Qed.

(* the slope used at inference is the mean of the slopes at the two ends of the range *)
Lemma rrelu_mean : forall jk (g : nat -> R) (a1 a2 : R) (s : mat (ROps jk)) n k (X : nat -> nat -> R),
  fwdRRelu (ROps jk) false g a1 a2 s (mgen n k X) = Ok (s, mgen n k (fun i j => if Rlt_dec (X i j) 0 then (X i j / a1 + X i j / a2) / 2 else X i j)%R).
Proof.
  intros jk g a1 a2 s n k X. rewrite (fwdRRelu_infer (ROps jk)). apply Ok_eq. f_equal. apply mgen_ext. intros i j _ _.
  change (flt (ROps jk) (X i j) (f0 (ROps jk))) with (Rltb (X i j) 0). unfold Rltb. destruct (Rlt_dec (X i j) 0); auto.
  unfold rreluMean. simpl. unfold Rdiv. ring.
Qed.

(* in-place operators check both sizes *)
Lemma in_place_mismatch : forall (F : FOps) f (m : mem F) d s od os, oget F m d = Ok od -> oget F m s = Ok os ->
  (oR od <> oR os \/ oC od <> oC os -> exec F m (OpZip F f d s) = Err EAssert) /\ (oC od <> oR os -> exec F m (OpMul F d s) = Err EAssert).
Proof.
  intros F f m d s od os Hd Hs. split.
  - intro H. cbn [exec]. unfold zipAssign. rewrite Hd, Hs. cbn [bind]. unfold assert_. destruct (Nat.eqb_spec (oR od) (oR os)); [|reflexivity]. cbn [bind].
    destruct (Nat.eqb_spec (oC od) (oC os)); [|reflexivity]. destruct H; contradiction.
  - intro H. cbn [exec]. unfold mulAssign. rewrite Hd, Hs. cbn [bind]. unfold assert_. destruct (Nat.eqb_spec (oC od) (oR os)); [contradiction|reflexivity].
Qed.

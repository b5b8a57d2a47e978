(* LayProofs1.v - Dense, Dot, Bias, Gain, Affine, Global*, ChannelBias *)
From Coq Require Import List Arith Bool Lia Reals Lra ZArith QArith String.
From Coquelicot Require Import Coquelicot.
From Verif Require Import Base Scalar Mat SpecMat SpecReal RSum MatFacts MatProofs MatProofs2 MatProps MatLoops Scatter RDeriv Loss SpecLoss LayMat LayKit SpecLayer LayGrad.
Import ListNotations.
Local Open Scope nat_scope.

(** * closed forms, any arithmetic *)
Lemma fwdDense_gen : forall (F : FOps) n k m W b X,
  fwdDense F (mgen k m W) (mgen 1 m b) (mgen n k X) =
  Ok (mgen n m (fun i j => fadd F (fsum F k (fun l => fmul F (X i l) (W l j))) (b 0 j))).
Proof.
  intros. unfold fwdDense, assert_. simpl mcols. simpl mrows. rewrite !Nat.eqb_refl. cbn [bind].
  rewrite mmul_gen. cbn [bind]. apply rowWiseAdd_gen.
Qed.

Lemma fwdDot_gen : forall (F : FOps) n k m W X,
  fwdDot F (mgen k m W) (mgen n k X) = Ok (mgen n m (fun i j => fsum F k (fun l => fmul F (X i l) (W l j)))).
Proof.
  intros. unfold fwdDot, assert_. simpl mcols. simpl mrows. rewrite !Nat.eqb_refl. cbn [bind]. apply mmul_gen.
Qed.

Lemma gradDot_gen : forall (F : FOps) n k m X G,
  gradDot F (mgen n k X) (mgen n m G) =
  Ok (mgen k m (fun l j => fmul F (fsum F n (fun i => fmul F (X i l) (G i j))) (fdiv F (f1 F) (fofN F n)))).
Proof.
  intros. unfold gradDot. rewrite mtranspose_gen. cbn [bind]. rewrite mmul_gen. cbn [bind].
  unfold mscale. rewrite mapLoop_gen. reflexivity.
Qed.

Lemma backDot_gen : forall (F : FOps) n k m W G,
  backDot F (mgen k m W) (mgen n m G) = Ok (mgen n k (fun i l => fsum F m (fun j => fmul F (G i j) (W l j)))).
Proof. intros. unfold backDot. rewrite mtranspose_gen. cbn [bind]. apply mmul_gen. Qed.

Lemma colMean_gen : forall (F : FOps) n k G,
  colWiseMean F (mgen n k G) = Ok (mgen 1 k (fun _ j => fdiv F (fsum F n (fun i => G i j)) (fofN F n))).
Proof. intros. unfold colWiseMean. rewrite colWise_gen. reflexivity. Qed.

Lemma bwdDense_gen : forall (F : FOps) first n k m W X G gin,
  bwdDense F first (mgen k m W) (mgen n k X) (mgen n m G) gin =
  Ok (mgen k m (fun l j => fmul F (fsum F n (fun i => fmul F (X i l) (G i j))) (fdiv F (f1 F) (fofN F n))),
      mgen 1 m (fun _ j => fdiv F (fsum F n (fun i => G i j)) (fofN F n)),
      if first then gin else mgen n k (fun i l => fsum F m (fun j => fmul F (G i j) (W l j)))).
Proof.
  intros. unfold bwdDense. rewrite gradDot_gen. cbn [bind]. rewrite colMean_gen. cbn [bind].
  destruct first; cbn [bind]; auto. rewrite backDot_gen. reflexivity.
Qed.

Lemma bwdDot_gen : forall (F : FOps) first n k m W X G gin,
  bwdDot F first (mgen k m W) (mgen n k X) (mgen n m G) gin =
  Ok (mgen k m (fun l j => fmul F (fsum F n (fun i => fmul F (X i l) (G i j))) (fdiv F (f1 F) (fofN F n))),
      if first then gin else mgen n k (fun i l => fsum F m (fun j => fmul F (G i j) (W l j)))).
Proof.
  intros. unfold bwdDot. rewrite gradDot_gen. cbn [bind].
  destruct first; cbn [bind]; auto. rewrite backDot_gen. reflexivity.
Qed.

Lemma colScale_gen : forall (F : FOps) n k w X,
  colScale F (mgen n k X) (mgen 1 k w) = Ok (mgen n k (fun i j => fmul F (X i j) (w 0 j))).
Proof.
  intros. unfold colScale. simpl mcols. simpl mrows.
  rewrite (@cell2 F n k _ (fun i j x => fmul F x (w 0 j))); auto.
  intros i j q Hi Hj. rewrite mget2_gen by auto. cbn [bind]. rewrite mget1_row by auto. cbn [bind].
  rewrite mset2_gen by auto. reflexivity.
Qed.

Lemma fwdBias_gen : forall (F : FOps) name g n k b X, 0 < k ->
  fwdBias F name g (mgen 1 k b) (mgen n k X) = Ok (mgen 1 k b, mgen n k (fun i j => fadd F (X i j) (b 0 j))).
Proof.
  intros. unfold fwdBias. unfold msize. simpl mrows. simpl mcols. replace (1 * k =? 0) with false by (symmetry; apply Nat.eqb_neq; lia).
  cbn [bind]. rewrite rowWiseAdd_gen. reflexivity.
Qed.

Lemma bwdBias_gen : forall (F : FOps) first n k G gin,
  bwdBias F first (mgen n k G) gin = Ok (mgen 1 k (fun _ j => fdiv F (fsum F n (fun i => G i j)) (fofN F n)), if first then gin else mgen n k G).
Proof. intros. unfold bwdBias. rewrite colMean_gen. reflexivity. Qed.

Lemma gradGain_gen : forall (F : FOps) n k X G,
  gradGain F (mgen n k X) (mgen n k G) =
  Ok (mgen 1 k (fun _ j => fdiv F (fsum F k (fun l => fsum F n (fun i => fmul F (X i l) (G i j)))) (fofN F k))).
Proof. intros. unfold gradGain. rewrite mtranspose_gen. cbn [bind]. rewrite mmul_gen. cbn [bind]. apply colMean_gen. Qed.

Lemma fwdGain_gen : forall (F : FOps) n k w X, 0 < k ->
  fwdGain F (mgen 1 k w) (mgen n k X) = Ok (mgen 1 k w, mgen n k (fun i j => fmul F (X i j) (w 0 j))).
Proof.
  intros. unfold fwdGain. unfold msize. simpl mrows. simpl mcols. replace (1 * k =? 0) with false by (symmetry; apply Nat.eqb_neq; lia).
  cbn [bind]. rewrite colScale_gen. reflexivity.
Qed.

Lemma bwdGain_gen : forall (F : FOps) first n k w X G gin,
  bwdGain F first (mgen 1 k w) (mgen n k X) (mgen n k G) gin =
  Ok (mgen 1 k (fun _ j => fdiv F (fsum F k (fun l => fsum F n (fun i => fmul F (X i l) (G i j)))) (fofN F k)),
      if first then gin else mgen n k (fun i j => fmul F (G i j) (w 0 j))).
Proof.
  intros. unfold bwdGain. rewrite gradGain_gen. cbn [bind]. destruct first; cbn [bind]; auto. rewrite colScale_gen. reflexivity.
Qed.

Lemma fwdAffine_gen : forall (F : FOps) n k w b X out, 0 < k -> mwf out ->
  fwdAffine F (mgen 1 k w) (mgen 1 k b) (mgen n k X) out =
  Ok (mgen 1 k w, mgen 1 k b, mgen n k (fun i j => fadd F (fmul F (X i j) (w 0 j)) (b 0 j))).
Proof.
  intros F n k w b X out Hk Ho. unfold fwdAffine. unfold msize. simpl mrows. simpl mcols.
  replace (1 * k =? 0) with false by (symmetry; apply Nat.eqb_neq; lia). cbn [bind].
  destruct (mresize_gen F out n k Ho) as [q ->]. cbv zeta. simpl mrows. simpl mcols.
  rewrite (@cell2 F n k _ (fun i j _ => fadd F (fmul F (X i j) (w 0 j)) (b 0 j))); auto.
  intros i j q' Hi Hj. rewrite mget2_gen by auto. cbn [bind]. rewrite !mget1_row by auto. cbn [bind].
  rewrite mset2_gen by auto. reflexivity.
Qed.

Lemma bwdAffine_gen : forall (F : FOps) first n k w X G gin,
  bwdAffine F first (mgen 1 k w) (mgen n k X) (mgen n k G) gin =
  Ok (mgen 1 k (fun _ j => fdiv F (fsum F k (fun l => fsum F n (fun i => fmul F (X i l) (G i j)))) (fofN F k)),
      mgen 1 k (fun _ j => fdiv F (fsum F n (fun i => G i j)) (fofN F n)),
      if first then gin else mgen n k (fun i j => fmul F (G i j) (w 0 j))).
Proof.
  intros. unfold bwdAffine. rewrite colMean_gen. cbn [bind]. rewrite gradGain_gen. cbn [bind].
  destruct first; cbn [bind]; auto. rewrite colScale_gen. reflexivity.
Qed.

(* lazy creation of the parameters *)
Lemma fwdGain_lazy : forall (F : FOps) n k w X, 0 < k -> mwf w -> msize w = 0 ->
  fwdGain F w (mgen n k X) = fwdGain F (mgen 1 k (fun _ _ => f1 F)) (mgen n k X).
Proof.
  intros F n k w X Hk Hw Hs. unfold fwdGain. rewrite Hs. rewrite Nat.eqb_refl. unfold msize. simpl mrows. simpl mcols.
  replace (1 * k =? 0) with false by (symmetry; apply Nat.eqb_neq; lia).
  unfold msetOnes. rewrite msetConstR_gen by auto. reflexivity.
Qed.
Lemma fwdBias_lazy : forall (F : FOps) g n k b X, 0 < k -> mwf b -> msize b = 0 ->
  fwdBias F "Zeros" g b (mgen n k X) = fwdBias F "Zeros" g (mgen 1 k (fun _ _ => f0 F)) (mgen n k X).
Proof.
  intros F g n k b X Hk Hw Hs. unfold fwdBias. rewrite Hs. rewrite Nat.eqb_refl. unfold msize. simpl mrows. simpl mcols.
  replace (1 * k =? 0) with false by (symmetry; apply Nat.eqb_neq; lia).
  unfold initCompute. simpl String.eqb. cbv iota. rewrite msetZero_gen by auto. reflexivity.
Qed.

Lemma fwdGlobalGain_gen : forall (F : FOps) n k w X,
  fwdGlobalGain F (mgen 1 1 w) (mgen n k X) = Ok (mgen n k (fun i j => fmul F (X i j) (w 0 0))).
Proof. intros. unfold fwdGlobalGain. rewrite mget1_row by lia. cbn [bind]. unfold mscale. apply mapLoop_gen. Qed.
Lemma fwdGlobalBias_gen : forall (F : FOps) n k b X,
  fwdGlobalBias F (mgen 1 1 b) (mgen n k X) = Ok (mgen n k (fun i j => fadd F (X i j) (b 0 0))).
Proof. intros. unfold fwdGlobalBias. rewrite mget1_row by lia. cbn [bind]. unfold maddS. apply (@mapLoop_gen F). Qed.
Lemma fwdGlobalAffine_gen : forall (F : FOps) n k w b X,
  fwdGlobalAffine F (mgen 1 1 w) (mgen 1 1 b) (mgen n k X) = Ok (mgen n k (fun i j => fadd F (fmul F (X i j) (w 0 0)) (b 0 0))).
Proof.
  intros. unfold fwdGlobalAffine. rewrite !mget1_row by lia. cbn [bind]. unfold mscale. rewrite (@mapLoop_gen F). cbn [bind].
  unfold maddS. apply (@mapLoop_gen F).
Qed.

Lemma mmean_gen : forall (F : FOps) n k G,
  mmean F (mgen n k G) = Ok (fdiv F (fsum F (n * k) (fun i => G (i / k) (i mod k))) (fofN F (n * k))).
Proof. intros. rewrite (mgen_flat _ n k G). apply mmean_flat. Qed.

Lemma set11 : forall (F : FOps) (g : nat -> nat -> F) v, mset1 (mgen 1 1 g) 0 v = Ok (mgen 1 1 (fun _ _ => v)).
Proof. intros. rewrite mset1_row by lia. apply Ok_eq, mgen_ext. intros. unfold upd2. replace i with 0 by lia. replace j with 0 by lia. reflexivity. Qed.

Lemma bwdGlobalBias_gen : forall (F : FOps) first n k gb G gin,
  bwdGlobalBias F first (mgen 1 1 gb) (mgen n k G) gin =
  Ok (mgen 1 1 (fun _ _ => fdiv F (fsum F (n * k) (fun i => G (i / k) (i mod k))) (fofN F (n * k))), if first then gin else mgen n k G).
Proof. intros. unfold bwdGlobalBias. rewrite mmean_gen. cbn [bind]. rewrite set11. reflexivity. Qed.

Lemma gradGlobalGain_gen : forall (F : FOps) n k X G,
  gradGlobalGain F (mgen n k X) (mgen n k G) =
  Ok (fdiv F (fsum F (k * k) (fun q => fsum F n (fun i => fmul F (X i (q / k)) (G i (q mod k))))) (fofN F (k * k))).
Proof. intros. unfold gradGlobalGain. rewrite mtranspose_gen. cbn [bind]. rewrite mmul_gen. cbn [bind]. apply mmean_gen. Qed.

Lemma bwdGlobalGain_gen : forall (F : FOps) first n k w gw X G gin,
  bwdGlobalGain F first (mgen 1 1 w) (mgen 1 1 gw) (mgen n k X) (mgen n k G) gin =
  Ok (mgen 1 1 (fun _ _ => fdiv F (fsum F (k * k) (fun q => fsum F n (fun i => fmul F (X i (q / k)) (G i (q mod k))))) (fofN F (k * k))),
      if first then gin else mgen n k (fun i j => fmul F (G i j) (w 0 0))).
Proof.
  intros. unfold bwdGlobalGain. rewrite gradGlobalGain_gen. cbn [bind]. rewrite set11. cbn [bind].
  destruct first; cbn [bind]; auto. rewrite mget1_row by lia. cbn [bind]. unfold mscale. rewrite (@mapLoop_gen F). reflexivity.
Qed.

Lemma bwdGlobalAffine_gen : forall (F : FOps) first n k w gw gb X G gin,
  bwdGlobalAffine F first (mgen 1 1 w) (mgen 1 1 gw) (mgen 1 1 gb) (mgen n k X) (mgen n k G) gin =
  Ok (mgen 1 1 (fun _ _ => fdiv F (fsum F (k * k) (fun q => fsum F n (fun i => fmul F (X i (q / k)) (G i (q mod k))))) (fofN F (k * k))),
      mgen 1 1 (fun _ _ => fdiv F (fsum F (n * k) (fun i => G (i / k) (i mod k))) (fofN F (n * k))),
      if first then gin else mgen n k (fun i j => fmul F (G i j) (w 0 0))).
Proof.
  intros. unfold bwdGlobalAffine. rewrite gradGlobalGain_gen. cbn [bind]. rewrite set11. cbn [bind].
  rewrite mmean_gen. cbn [bind]. rewrite set11. cbn [bind].
  destruct first; cbn [bind]; auto. rewrite mget1_row by lia. cbn [bind]. unfold mscale. rewrite (@mapLoop_gen F). reflexivity.
Qed.

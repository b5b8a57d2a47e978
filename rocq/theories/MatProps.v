(* MatProps.v - lemmas behind the theorems of P_Matrix.v *)
From Coq Require Import List Arith Lia Bool ZArith Reals Lra Permutation QArith.
From Flocq Require Import IEEE754.BinarySingleNaN.
From Verif Require Import Base Scalar B32Facts Mat SpecMat SpecReal RSum MatFacts MatProofs Scatter MatProofs2.
Import ListNotations.
Local Open Scope nat_scope.

Lemma matrix_is_generated : forall (F : FOps) (m : mat F), mwf m ->
  exists f, m = mgen (mrows m) (mcols m) f /\
  forall i j, i < mrows m -> j < mcols m -> mget2 m i j = Ok (f i j).
Proof.
  intros F m H. destruct (mwf_is_gen F m H) as [f E]. exists f. split; [exact E|].
  intros i j Hi Hj. rewrite E at 1. rewrite mget2_gen; auto.
Qed.
Lemma mmul_mismatch : forall (F : FOps) (A B : mat F), mcols A <> mrows B -> mmul F A B = Err EAssert.
Proof. intros. unfold mmul, assert_. apply Nat.eqb_neq in H. rewrite H. reflexivity. Qed.

Lemma argmax_range : forall (F : FOps) n f, 0 < n -> exists k, argmax F (mgen 1 n f) = Ok k /\ k < n.
Proof. intros. eexists. split; [apply argmax_gen; auto | apply argmaxPure_range; auto]. Qed.

Lemma argmax_first_real : forall j n f, 0 < n -> exists k,
  argmax (ROps j) (mgen 1 n f) = Ok k /\ k < n /\
  (forall i, i < n -> (f 0%nat i <= f 0%nat k)%R) /\ (forall i, i < k -> (f 0%nat i < f 0%nat k)%R).
Proof.
  intros j n f Hn. exists (argmaxPure (ROps j) n (f 0)).
  split; [apply argmax_gen; auto|]. split; [apply argmaxPure_range; auto|].
  destruct (argmaxPure_spec (ROps j) n (f 0) Hn) as [H1 H2].
  - intros. simpl. apply Rltb_false. lra.
  - simpl. intros a b c _ _ _ Ha Hb. apply Rltb_true in Ha, Hb. apply Rltb_true. lra.
  - simpl. intros a b c _ _ _ Ha Hb. apply Rltb_false in Ha, Hb. apply Rltb_false. lra.
  - split; intros i Hi.
    + specialize (H1 i Hi). simpl in H1. apply Rltb_false in H1. auto.
    + specialize (H2 i Hi). simpl in H2. apply Rltb_true in H2. auto.
Qed.

Lemma argmax_first_b32 : forall lm pw j n (f : nat -> nat -> b32), 0 < n ->
  (forall i, i < n -> b32_isnan (f 0 i) = false) -> exists k,
  argmax (B32Ops lm pw j) (mgen 1 n f) = Ok k /\ k < n /\
  (forall i, i < n -> (b32_val (f 0%nat i) <= b32_val (f 0%nat k))%R) /\ (forall i, i < k -> (b32_val (f 0%nat i) < b32_val (f 0%nat k))%R).
Proof.
  intros lm pw j n f Hn Hnan. exists (argmaxPure (B32Ops lm pw j) n (f 0)).
  pose proof (argmaxPure_range (B32Ops lm pw j) n (f 0) Hn) as Hr.
  split; [apply (argmax_gen (B32Ops lm pw j)); auto|]. split; [exact Hr|].
  destruct (argmaxPure_spec (B32Ops lm pw j) n (f 0) Hn) as [H1 H2].
  - intros. simpl. rewrite b32_lt_val by auto. apply Rltb_false. lra.
  - simpl. intros a b c Ia Ib Ic Ha Hb. rewrite b32_lt_val in * by auto. apply Rltb_true in Ha, Hb. apply Rltb_true. lra.
  - simpl. intros a b c Ia Ib Ic Ha Hb. rewrite b32_lt_val in * by auto. apply Rltb_false in Ha, Hb. apply Rltb_false. lra.
  - split; intros i Hi.
    + specialize (H1 i Hi). simpl in H1. rewrite b32_lt_val in H1 by auto. apply Rltb_false in H1. auto.
    + specialize (H2 i Hi). simpl in H2. rewrite b32_lt_val in H2 by (apply Hnan; lia). apply Rltb_true in H2. auto.
Qed.

Lemma rowsArgmax_rows : forall (F : FOps) n k f a, 0 < k -> mwf a ->
  exists idx, rowsArgmax F (mgen n k f) a = Ok (mgen n 1 (fun i _ => fofN F (idx i))) /\
  forall i, i < n -> argmax F (mgen 1 k (fun _ => f i)) = Ok (idx i).
Proof.
  intros. exists (fun i => argmaxPure F k (f i)). split.
  - apply rowsArgmax_gen; auto.
  - intros. rewrite argmax_gen by auto. reflexivity.
Qed.

Lemma colWiseMin_real : forall jk n k (a : nat -> nat -> R), 0 < n -> exists v,
  colWiseMin (ROps jk) (mgen n k a) = Ok (mgen 1 k (fun _ j => v j)) /\
  forall j, j < k -> (forall i, i < n -> (v j <= a i j)%R) /\ exists i, i < n /\ v j = a i j.
Proof.
  intros. exists (fun j => fold_left (fun v i => stdmin (ROps jk) v (a i j)) (seq 0 n) (a 0 j)). split.
  - apply (colWiseSel_gen (ROps jk) (stdmin (ROps jk))); auto.
  - intros j Hj. apply (fold_min_R jk n (fun i => a i j) H).
Qed.
Lemma colWiseMax_real : forall jk n k (a : nat -> nat -> R), 0 < n -> exists v,
  colWiseMax (ROps jk) (mgen n k a) = Ok (mgen 1 k (fun _ j => v j)) /\
  forall j, j < k -> (forall i, i < n -> (a i j <= v j)%R) /\ exists i, i < n /\ v j = a i j.
Proof.
  intros. exists (fun j => fold_left (fun v i => stdmax (ROps jk) v (a i j)) (seq 0 n) (a 0 j)). split.
  - apply (colWiseSel_gen (ROps jk) (stdmax (ROps jk))); auto.
  - intros j Hj. apply (fold_max_R jk n (fun i => a i j) H).
Qed.

Lemma colWiseMin_no_rows : forall (F : FOps) k f, 0 < k -> colWiseMin F (mgen 0 k f) = Err EAssert.
Proof. intros F k f Hk. destruct k; [lia|]. reflexivity. Qed.
Lemma randPerm_perm : forall draw n, exists v, randPerm draw n = Ok v /\ Permutation (seq 0 n) v.
Proof. intros. apply shuffle_perm. Qed.

Lemma shuffle_pairs : forall (F : FOps) draw n k q s t (ps pt : mat F), mwf ps -> mwf pt -> exists v s' t',
  randPerm draw n = Ok v /\
  applyRowPermutation F v (mgen n k s) ps = Ok (mgen n k s') /\
  applyRowPermutation F v (mgen n q t) pt = Ok (mgen n q t') /\
  Permutation (pairedRows n k q s t) (pairedRows n k q s' t').
Proof.
  intros F draw n k q s t ps pt Hs Ht. destruct (randPerm_perm draw n) as (v & E & P).
  destruct (perm_seq_in n v P) as [L B].
  exists v, (fun i j => s (nth i v 0) j), (fun i j => t (nth i v 0) j). split; auto.
  split; [apply applyRowPermutation_gen; auto|]. split; [apply applyRowPermutation_gen; auto|].
  apply (perm_rows _ n v (fun i => (map (s i) (seq 0 k), map (t i) (seq 0 q))) P).
Qed.

Lemma reverse_refuted : exists b, reverseData ZOps 0 (length b) b <> Ok (rev b).
Proof. exists [1;2]%Z. vm_compute. discriminate. Qed.
Lemma reverse_empty : forall (F : FOps) b, reverseData F 0 0 b = Err EOob.
Proof. reflexivity. Qed.
Lemma reverse_one : forall (F : FOps) (x : F), reverseData F 0 1 [x] = Ok (rev [x]).
Proof. reflexivity. Qed.
Lemma transpose_twice : forall (F : FOps) (m : mat F), mwf m -> exists t, mtranspose F m = Ok t /\ mtranspose F t = Ok m.
Proof.
  intros F m H. destruct (mwf_is_gen F m H) as [f E]. rewrite E. eexists. split; [apply mtranspose_gen|]. apply mtranspose_gen.
Qed.
Lemma clamp_real : forall jk r c (f : nat -> nat -> R) lo hi, (lo <= hi)%R -> exists g,
  mclamp (ROps jk) (mgen r c f) lo hi = Ok (mgen r c g) /\
  forall i j, (lo <= g i j <= hi)%R /\ ((lo <= f i j <= hi)%R -> g i j = f i j) /\
              ((hi < f i j)%R -> g i j = hi) /\ ((f i j < lo)%R -> g i j = lo).
Proof.
  intros jk r c f lo hi H. exists (fun i j => clampVal (ROps jk) lo hi (f i j)). split; [apply (clamp_gen (ROps jk))|].
  intros i j. unfold clampVal. simpl. unfold Rltb.
  destruct (Rlt_dec hi (f i j)); [|destruct (Rlt_dec (f i j) lo)]; repeat split; intros; lra.
Qed.
Lemma asDiagonal_row : forall (F : FOps) n f,
  masDiagonal F (mgen 1 n f) = Ok (mgen n n (fun i j => if i =? j then f 0 i else f0 F)).
Proof.
  intros. rewrite (@mgen_flat F 1 n f), masDiagonal_flat. rewrite Nat.mul_1_l. f_equal. apply mgen_ext.
  intros i j Hi Hj. rewrite Nat.div_small, Nat.mod_small by auto. reflexivity.
Qed.
Lemma channelWiseMean_scaled : forall j nS nH nR nC t, 0 < nS -> 0 < nR -> 0 < nC ->
  channelWiseMean (ROps j) (tens nS nH nR nC t) nS nH nR nC =
  Ok (mgen 1 nH (fun _ h => (channelMean nS nR nC t h * (INR nR * INR nC) * (INR nR * INR nC))%R)).
Proof.
  intros. rewrite channelWiseMean_tens. f_equal. apply mgen_ext. intros i h _ _. unfold chmean_factor, channelMean.
  apply lt_INR in H, H0, H1. simpl in H, H0, H1. field. lra.
Qed.

Lemma channelWiseMean_refuted : exists nS nH nR nC t,
  channelWiseMean QOps (tens nS nH nR nC t) nS nH nR nC = Ok (mkMat 1 1 [4%Q]) /\ (forall s h r c, t s h r c = 1%Q).
Proof. exists 1, 1, 2, 1, (fun _ _ _ _ => 1%Q). split; [vm_compute; reflexivity | reflexivity]. Qed.
Lemma channelWiseMean_pixel : forall j nS nH t, 0 < nS ->
  channelWiseMean (ROps j) (tens nS nH 1 1 t) nS nH 1 1 = Ok (mgen 1 nH (fun _ h => channelMean nS 1 1 t h)).
Proof.
  intros. rewrite channelWiseMean_scaled by lia. f_equal. apply mgen_ext. intros. simpl. lra.
Qed.
Lemma bernoulli_cells : forall (F : FOps) limit rng r c g,
  quickBernoulli F limit rng (mflat r c g) =
  Ok (mflat r c (fun k => if (rng k mod 65536 <? limit)%Z then f1 F else f0 F)).
Proof.
  intros. rewrite quickBernoulli_flat. f_equal. apply mflat_ext. intros. rewrite land_ffff. reflexivity.
Qed.
Lemma bernoulli_bias : forall p : R, (0 <= p <= 1)%R ->
  let ones := Z.of_nat (length (filter (fun z => z <? Rtrunc (p * 65536))%Z (map Z.of_nat (seq 0 (Z.to_nat 65536))))) in
  (IZR ones <= p * 65536 < IZR ones + 1)%R.
Proof.
  intros p Hp. cbv zeta. destruct (trunc_bounds p Hp) as [H1 H2].
  rewrite count_below.
  - exact H1.
  - rewrite Z2Nat.id by lia. exact H2.
Qed.

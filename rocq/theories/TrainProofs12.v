(* TrainProofs12.v - compute_loss_accuracy *)
From Coq Require Import String List Arith Bool Lia ZArith Reals Lra QArith.
From Verif Require Import Base Scalar Mat SpecMat SpecData MatFacts MatProofs MatLoops MatProofs2 MatProps RSum MetricsProofs Loss Optim Regul Act LayMat LayImg LayRnn Layer Net NetTrain SpecNet SpecTrain NetRow NetProofs1 NetProofs2 NetProofs4 TrainProofs1 TrainProofs8.
Import ListNotations.
Local Open Scope nat_scope.

Lemma count_split_at : forall a b p, count (a + b) p = count a p + count b (fun i => p (a + i)).
Proof. intros a b p. induction b; [rewrite Nat.add_0_r; simpl; lia|]. rewrite Nat.add_succ_r. simpl. rewrite IHb. lia. Qed.

Section Train.
Variable F : FOps.
Variable cabs : F -> res F.
Notation M := (mat F).

Lemma argOf_ok : forall m (o : nat -> nat -> F) i p, argmax F (mgen 1 m (fun _ j => o i j)) = Ok p -> argOf F m (o i) = p.
Proof. intros m o i p E. unfold argOf. replace (mgen 1 m (fun _ : nat => o i)) with (mgen 1 m (fun _ j => o i j)) by reflexivity. rewrite E. reflexivity. Qed.
Lemma goodRow_correct : forall n m q (o y : nat -> nat -> F) i b, i < n -> goodRow F (mgen n m o) (mgen n q y) i = Ok b -> b = correct F m q (o i) (y i).
Proof.
  intros n m q o y i b Hi E. unfold goodRow in E. change (mcols (mgen n q y)) with q in E. change (mcols (mgen n m o)) with m in E. unfold correct.
  destruct (Nat.eqb_spec q 1); cbn [negb] in E.
  - subst q. destruct (Nat.eqb_spec m 1); cbn [negb] in E.
    + subst m. rewrite !mget1_col in E by auto. cbn [bind] in E. inversion E. reflexivity.
    + rewrite mrow_gen in E by auto. cbn [bind] in E. binp E. rewrite mget1_col in Ex0 by auto. inversion Ex0; subst. inversion E. rewrite (argOf_ok _ _ _ _ Ex). reflexivity.
  - rewrite mrow_gen in E by auto. cbn [bind] in E. binp E. rewrite mrow_gen in Ex0 by auto. inversion Ex0; subst. inversion E.
    rewrite (argOf_ok _ _ _ _ Ex), (argOf_ok _ _ _ _ Ex1). reflexivity.
Qed.
Lemma countGood_correct : forall n m q (o y : nat -> nat -> F) g g', countGood F n (mgen n m o) (mgen n q y) g = Ok g' -> g' = g + count n (fun i => correct F m q (o i) (y i)).
Proof.
  intros n m q o y g g' E. unfold countGood in E.
  apply (forN_postI _ (fun i x => x = g + count i (fun i => correct F m q (o i) (y i)))) in E; [exact E|simpl; lia|].
  intros i s s1 Hi -> Eb. binp Eb. apply goodRow_correct in Ex; auto. inversion Eb. simpl. rewrite Ex. lia.
Qed.

Lemma lossAcc_count : forall rs h n t k m g N q x y h' l a, nlay n <> [] -> NoDup (nlay n) -> chainRow F h (nlay n) k m g -> 0 < N ->
  lossAccuracy F cabs rs h n t (mgen N k x) (mgen N q y) = Ok (h', l, a) ->
  chainRow F h' (nlay n) k m g /\
  a = fdiv F (fmul F (fofN F 100) (fofN F (count N (fun i => correct F m q (g (x i)) (y i))))) (fofN F N).
Proof.
  intros rs h n t k m g N q x y h' l a Hne Hd Hc HN E. unfold lossAccuracy in E. change (mrows (mgen N k x)) with N in E.
  replace (length (nlay n) =? 0) with false in E by (destruct (nlay n); [congruence|reflexivity]).
  replace (N =? 0) with false in E by (symmetry; apply Nat.eqb_neq; lia). cbn [orb] in E.
  destruct (Nat.eqb_spec (cValBatch F (tc F t)) 0) as [|Hv]; [discriminate|]. set (vb := cValBatch F (tc F t)) in *.
  binp E. inversion E; subst.
  apply (forN_postI _ (fun b (s : heap F * M * M * F * nat) => let '(h1, o, _, _, g1) := s in
    chainRow F h1 (nlay n) k m g /\ mwf o /\ g1 = count (Nat.min (b * vb) N) (fun i => correct F m q (g (x i)) (y i)))) in Ex.
  - destruct Ex as (A & _ & B). split; auto. rewrite B. replace (Nat.min (ceilDiv N vb * vb) N) with N; [reflexivity|].
    unfold ceilDiv. pose proof (Nat.div_mod_eq (N + vb - 1) vb). pose proof (Nat.mod_upper_bound (N + vb - 1) vb ltac:(lia)). nia.
  - split; auto. split; reflexivity.
  - intros b [[[[h1 o1] ml1] l1] g1] [[[[h2 o2] ml2] l2] g2] Hb (A & B & C) Eb. cbv zeta in Eb.
    pose proof (ceilDiv_lt N vb b ltac:(lia) Hb) as Hs.
    rewrite !viewRow_gen in Eb by lia. cbn [bind] in Eb. set (e := Nat.min (b * vb + vb) N) in *.
    destruct (predict_row F (rs b) h1 n k m g (e - b * vb) (fun i j => x (b * vb + i) j) o1 Hne Hd A B) as (h3 & P & Q & _).
    rewrite P in Eb. cbn [bind] in Eb. binp Eb. inversion Eb; subst. split; [exact Q|]. split; [apply mwf_gen|].
    match goal with H : countGood _ _ _ _ _ = Ok _ |- _ => apply countGood_correct in H; rewrite H end.
    rewrite (Nat.min_l (b * vb) N) by lia. replace (Nat.min (S b * vb) N) with (b * vb + (e - b * vb)) by (unfold e; lia).
    rewrite count_split_at. reflexivity.
Qed.

(* the accuracy in terms of the predictions of single rows *)
Theorem accuracy_counts : forall rs h n t k m N q x y h' l a, detNet F h n k m -> 0 < N ->
  lossAccuracy F cabs rs h n t (mgen N k x) (mgen N q y) = Ok (h', l, a) ->
  exists Y : nat -> nat -> F,
    (forall i rs' out, i < N -> mwf out -> exists h1, predict F rs' h n (mgen 1 k (fun _ => x i)) out = Ok (h1, mgen 1 m (fun _ => Y i))) /\
    a = fdiv F (fmul F (fofN F 100) (fofN F (count N (fun i => correct F m q (Y i) (y i))))) (fofN F N).
Proof.
  intros rs h n t k m N q x y h' l a (Hne & Hd & Hc) HN E. apply chainRow_det in Hc. destruct Hc as [g Hc].
  destruct (lossAcc_count _ _ _ _ _ _ _ _ _ _ _ _ _ _ Hne Hd Hc HN E) as (A & B).
  exists (fun i => g (x i)). split; auto. intros i rs' out Hi Ho. destruct (predict_row F rs' h n k m g 1 (fun _ => x i) out Hne Hd Hc Ho) as (h1 & P & _). exists h1. exact P.
Qed.
(* two evaluations with different trainers (batch sizes, losses, ...) and draws *)
Theorem accuracy_batch_free : forall rs rs' h n t t' k m N q x y h1 h2 l1 l2 a1 a2, detNet F h n k m -> 0 < N ->
  lossAccuracy F cabs rs h n t (mgen N k x) (mgen N q y) = Ok (h1, l1, a1) -> lossAccuracy F cabs rs' h n t' (mgen N k x) (mgen N q y) = Ok (h2, l2, a2) -> a1 = a2.
Proof.
  intros rs rs' h n t t' k m N q x y h1 h2 l1 l2 a1 a2 (Hne & Hd & Hc) HN E1 E2. apply chainRow_det in Hc. destruct Hc as [g Hc].
  destruct (lossAcc_count _ _ _ _ _ _ _ _ _ _ _ _ _ _ Hne Hd Hc HN E1) as (_ & ->). destruct (lossAcc_count _ _ _ _ _ _ _ _ _ _ _ _ _ _ Hne Hd Hc HN E2) as (_ & ->). reflexivity.
Qed.
End Train.

Theorem accuracy_range : forall jk cabs rs h n t k m N q x y h' l a, detNet (ROps jk) h n k m -> 0 < N ->
  lossAccuracy (ROps jk) cabs rs h n t (mgen N k x) (mgen N q y) = Ok (h', l, a) -> (0 <= a <= 100)%R.
Proof.
  intros jk cabs rs h n t k m N q x y h' l a D HN E. destruct (accuracy_counts _ _ _ _ _ _ _ _ _ _ _ _ _ _ _ D HN E) as (Y & _ & ->).
  match goal with |- context [count N ?p] => pose proof (count_le N p) as L; revert L; generalize (count N p) end. clear E. intros c L.
  rewrite !fofN_R. cbn [ROps fdiv fmul T]. apply le_INR in L. apply lt_0_INR in HN. pose proof (pos_INR c). replace (INR 100) with 100%R by (rewrite INR_IZR_INZ; reflexivity).
  split.
  - apply Rmult_le_pos; [nra|]. left. apply Rinv_0_lt_compat. auto.
  - apply (Rmult_le_reg_r (INR N)); auto. unfold Rdiv. rewrite Rmult_assoc, Rinv_l by lra. nra.
Qed.

(** * the loss does depend on the batch size *)
Definition trVB (vb : nat) : trainer QOps :=
  setSettings QOps (trNew QOps) (mkSet QOps 32 vb true 100 (-1) (-1) false "Adam" (minus1 QOps) (minus1 QOps) (minus1 QOps) LMeanSquaredError None).
Definition lossOf (r : res (heap QOps * Q * Q)) : option (Q * Q) := match r with Ok (_, l, a) => Some (Qred l, Qred a) | Err _ => None end.
Lemma lossOf_ok : forall r l a, lossOf r = Some (l, a) -> exists h l' a', r = Ok (h, l', a') /\ Qred l' = l.
Proof. intros [[[h l'] a']|e] l a E; [|discriminate]. exists h, l', a'. split; auto. unfold lossOf in E. congruence. Qed.
Theorem loss_batch_refuted : exists h n x y h1 h2 l1 l2 a1 a2, detNet QOps h n 1 1 /\
  lossAccuracy QOps Ok (fun _ _ => noRnd) h n (trVB 1) x y = Ok (h1, l1, a1) /\
  lossAccuracy QOps Ok (fun _ _ => noRnd) h n (trVB 2) x y = Ok (h2, l2, a2) /\ (l1 == 2 * l2)%Q /\ ~ (l1 == l2)%Q.
Proof.
  exists oneHeap, (mkNet [0] true false), (mlist 2 1 [1; 2]%Q), (mlist 2 1 [0; 2]%Q).
  assert (E1 : lossOf (lossAccuracy QOps Ok (fun _ _ => noRnd) oneHeap (mkNet [0] true false) (trVB 1) (mlist 2 1 [1; 2]%Q) (mlist 2 1 [0; 2]%Q)) = Some (1, 50)%Q) by (vm_compute; reflexivity).
  assert (E2 : lossOf (lossAccuracy QOps Ok (fun _ _ => noRnd) oneHeap (mkNet [0] true false) (trVB 2) (mlist 2 1 [1; 2]%Q) (mlist 2 1 [0; 2]%Q)) = Some ((1#2), 50)%Q) by (vm_compute; reflexivity).
  destruct (lossOf_ok _ _ _ E1) as (h1 & l1 & a1 & P1 & X1), (lossOf_ok _ _ _ E2) as (h2 & l2 & a2 & P2 & X2).
  exists h1, h2, l1, l2, a1, a2.
  assert (Y1 : (l1 == 1)%Q) by (rewrite <- X1; symmetry; apply Qred_correct). assert (Y2 : (l2 == 1#2)%Q) by (rewrite <- X2; symmetry; apply Qred_correct).
  split; [|split; [exact P1|split; [exact P2|split; [rewrite Y1, Y2; reflexivity|rewrite Y1, Y2; discriminate]]]].
  split; [discriminate|]. split; [repeat constructor; simpl; intuition|].
  exists (layWith (KDense 1 1) (mlist 1 1 [1]%Q) (mlist 1 1 [0]%Q)), 1. split; [reflexivity|]. split; [repeat split|]. reflexivity.
Qed.

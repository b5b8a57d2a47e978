(* TrainProofs8.v - batches of an epoch; registration of the parameters; assignment of trainers *)
From Coq Require Import String List Arith Bool Lia ZArith Permutation.
From Verif Require Import Base Scalar Mat SpecMat MatFacts MatProofs MatProofs2 MatProps Loss Optim Regul Act LayMat LayImg LayRnn Layer Net NetTrain SpecNet SpecTrain NetProofs1 NetProofs2 TrainProofs1 TrainProofs2 TrainProofs3 TrainProofs4.
Import ListNotations.
Local Open Scope nat_scope.

Lemma skipn_skipn' : forall A a b (l : list A), skipn a (skipn b l) = skipn (b + a) l.
Proof. intros A a b. induction b; intros l; [reflexivity|]. destruct l; [destruct a; reflexivity|apply IHb]. Qed.
Definition chunk (b : nat) (v : list nat) (i : nat) : list nat := firstn b (skipn (i * b) v).
Definition chunks (b : nat) (v : list nat) : list (list nat) := map (chunk b v) (seq 0 (ceilDiv (length v) b)).
Lemma ceilDiv_S : forall n b, 0 < b -> 0 < n -> ceilDiv n b = S (ceilDiv (n - b) b).
Proof.
  intros n b Hb Hn. unfold ceilDiv. destruct (le_lt_dec b n).
  - replace (n + b - 1) with ((n - b + b - 1) + 1 * b) by lia. rewrite Nat.div_add by lia. lia.
  - replace (n - b) with 0 by lia. rewrite (Nat.div_small (0 + b - 1)) by lia.
    symmetry. apply (Nat.div_unique (n + b - 1) b 1 (n - 1)); lia.
Qed.
Lemma chunks_cons : forall b v, 0 < b -> v <> [] -> chunks b v = firstn b v :: chunks b (skipn b v).
Proof.
  intros b v Hb Hv. unfold chunks. assert (0 < length v) by (destruct v; [congruence|simpl; lia]). rewrite (ceilDiv_S (length v) b Hb) by auto.
  cbn [seq map]. f_equal. rewrite skipn_length, <- seq_shift, map_map. apply map_ext. intros i. unfold chunk. rewrite skipn_skipn'. reflexivity.
Qed.
Lemma chunks_cut : forall b v, 0 < b -> cutInto b v (chunks b v).
Proof.
  intros b v Hb. remember (length v) as n eqn:Hn. revert v Hn. induction n as [n IH] using lt_wf_ind. intros v Hn.
  destruct v as [|x v0]. { assert (E : chunks b [] = []). { unfold chunks, ceilDiv. rewrite Nat.div_small by (simpl; lia). reflexivity. }
    rewrite E. split; [reflexivity|]. split; [intros ? []|intros i Hi; simpl in Hi; lia]. }
  rewrite chunks_cons by (auto; discriminate). remember (x :: v0) as v eqn:Ev. assert (Hl : 0 < length v) by (subst v; simpl; lia).
  destruct (IH (length (skipn b v)) ltac:(rewrite skipn_length; lia) (skipn b v) eq_refl) as (A & B & C).
  split; [|split].
  - cbn [concat]. rewrite A. apply firstn_skipn.
  - intros y [<-|Hy]; [|auto]. split; [|rewrite firstn_length; lia]. intros E. apply (f_equal (@length nat)) in E. rewrite firstn_length in E. simpl in E. lia.
  - intros [|i] Hi; cbn [nth length] in *; [|apply C; lia]. rewrite firstn_length.
    assert (skipn b v <> []). { intros E. rewrite E in Hi. unfold chunks, ceilDiv in Hi. rewrite Nat.div_small in Hi by (simpl; lia). simpl in Hi. lia. }
    assert (length (skipn b v) <> 0). { destruct (skipn b v); [congruence|discriminate]. } rewrite skipn_length in H0. lia.
Qed.
Lemma chunks_len : forall b v, length (chunks b v) = ceilDiv (length v) b. Proof. intros. unfold chunks. rewrite map_length, seq_length. reflexivity. Qed.
Lemma chunks_nth : forall b v i, i < ceilDiv (length v) b -> nth i (chunks b v) [] = chunk b v i.
Proof. intros b v i Hi. unfold chunks. rewrite nth_indep with (d' := chunk b v 0) by (rewrite map_length, seq_length; auto). rewrite map_nth, seq_nth by auto. reflexivity. Qed.
Lemma ceilDiv_lt : forall n b i, 0 < b -> i < ceilDiv n b -> i * b < n.
Proof. intros n b i Hb Hi. unfold ceilDiv in Hi. pose proof (Nat.mul_div_le (n + b - 1) b ltac:(lia)). nia. Qed.

Section Train.
Variable F : FOps.
Variable cabs : F -> res F.
Notation M := (mat F).
Notation rowsAt := (rowsAt F).

Lemma view_chunk : forall n k f v adj b, length v = n -> 0 < adj -> b < ceilDiv n adj ->
  viewRow F (mgen n k (fun i j => f (nth i v 0) j)) (b * adj) (Nat.min (b * adj + adj) n) = Ok (rowsAt k f (chunk adj v b)).
Proof.
  intros n k f v adj b Hv Ha Hb. pose proof (ceilDiv_lt n adj b Ha Hb). rewrite viewRow_gen by lia. unfold SpecTrain.rowsAt. f_equal.
  assert (L : length (chunk adj v b) = Nat.min (b * adj + adj) n - b * adj). { unfold chunk. rewrite firstn_length, skipn_length. lia. }
  rewrite L. apply mgen_ext. intros i j Hi Hj. unfold chunk. f_equal.
  rewrite <- (firstn_skipn (b * adj) v) at 1. rewrite app_nth2; rewrite firstn_length; [|lia].
  rewrite <- (firstn_skipn adj (skipn (b * adj) v)) at 1. rewrite app_nth1; [|rewrite firstn_length, skipn_length; lia]. f_equal. lia.
Qed.

Theorem epoch_batches : forall R e h n t ns k q s u, 0 < ns -> 0 < tadj F t -> exists v bs,
  Permutation (seq 0 ns) v /\ (ns <= tadj F t -> v = seq 0 ns) /\ cutInto (tadj F t) v bs /\
  epochTrain F cabs R e h n t (mgen ns k s) (mgen ns q u) =
   (' (h1, n1) <- netSetTrain F h n true ;;
    ' (h2, t2) <- forN (length bs) (fun b '(h, t) => trainBatch F cabs (oTrain F R e b) h n1 t (rowsAt k s (nth b bs [])) (rowsAt q u (nth b bs []))) (h1, setOnline F t (f0 F) 0) ;;
    ' (h3, n3) <- netSetTrain F h2 n1 false ;; Ok (h3, n3, t2)).
Proof.
  intros R e h n t ns k q s u Hns Ha.
  assert (G : forall v x y, Permutation (seq 0 ns) v -> x = mgen ns k (fun i j => s (nth i v 0) j) -> y = mgen ns q (fun i j => u (nth i v 0) j) ->
    forall h n1 t, tadj F t > 0 -> trainOneEpoch F cabs (oTrain F R e) h n1 t x y =
    forN (length (chunks (tadj F t) v)) (fun b '(h, t0) => trainBatch F cabs (oTrain F R e b) h n1 t0 (rowsAt k s (nth b (chunks (tadj F t) v) [])) (rowsAt q u (nth b (chunks (tadj F t) v) []))) (h, t)).
  { intros v x y P -> -> h0 n1 t0 Ht. destruct (perm_seq_in ns v P) as [L B].
    unfold trainOneEpoch. cbn [mrows mgen]. replace (ns =? 0) with false by (symmetry; apply Nat.eqb_neq; lia).
    replace (tadj F t0 =? 0) with false by (symmetry; apply Nat.eqb_neq; lia). rewrite chunks_len, L.
    unfold forN. apply forL_ext. intros b [h' t'] Hb. apply in_seq in Hb.
    cbv zeta. rewrite !view_chunk by (auto; lia). cbn [bind]. rewrite !chunks_nth by (rewrite L; lia). reflexivity. }
  unfold epochTrain. cbn [mrows mgen]. cbv zeta. cbn [tadj setOnline].
  destruct (tadj F t <? ns) eqn:Es.
  - destruct (randPerm_perm (oShuffle F R e) ns) as (v & E & P). destruct (perm_seq_in ns v P) as [L B].
    exists v, (chunks (tadj F t) v). split; [exact P|]. split; [apply Nat.ltb_lt in Es; lia|]. split; [apply chunks_cut; auto|].
    rewrite E. cbn [bind]. rewrite !applyRowPermutation_gen by (auto; reflexivity). cbn [bind].
    destruct (netSetTrain F h n true) as [[h1 n1]|]; cbn [bind]; [|reflexivity].
    rewrite (G v _ _ P eq_refl eq_refl h1 n1 (setOnline F t (f0 F) 0)) by (cbn; lia). reflexivity.
  - exists (seq 0 ns), (chunks (tadj F t) (seq 0 ns)). split; [reflexivity|]. split; [reflexivity|]. split; [apply chunks_cut; auto|].
    cbn [bind]. destruct (netSetTrain F h n true) as [[h1 n1]|]; cbn [bind]; [|reflexivity].
    rewrite (G (seq 0 ns) (mgen ns k s) (mgen ns q u) (Permutation_refl _)) with (t := setOnline F t (f0 F) 0); [reflexivity| | |cbn; lia].
    + apply mgen_ext. intros i j Hi Hj. rewrite seq_nth by auto. reflexivity.
    + apply mgen_ext. intros i j Hi Hj. rewrite seq_nth by auto. reflexivity.
Qed.

(* the batch size of a run *)
Definition runBatch (bs ns : nat) : nat := if (1 <=? bs) && (bs <=? ns) then bs else ns.
Theorem run_batch_size : forall R h n t mS mT ss e, fitStart F cabs R h n t mS mT = Ok (ss 0) ->
  (forall i, i < e -> epoch F cabs R mS mT i (ss i) = Ok (ss (S i))) ->
  forall i, i <= e -> tadj F (st F (ss i)) = runBatch (cBatch F (tc F t)) (mrows mS).
Proof.
  intros R h n t mS mT ss e E Hs i Hi. pose proof (run_kept F cabs _ _ _ _ _ Hs i Hi) as K. apply start_post in E.
  destruct E as (_ & _ & _ & _ & _ & _ & _ & _ & _ & _ & _ & _ & _ & A & _).
  assert (B : tadj F (st F (ss i)) = tadj F (st F (ss 0))). { apply K. }
  rewrite B, A. unfold runBatch.
  generalize (cBatch F (tc F t)) (mrows mS). intros b m.
  destruct (Nat.leb_spec 1 b), (Nat.leb_spec b m), (Nat.ltb_spec m b), (Nat.eqb_spec b 0); cbn [andb orb]; auto; lia.
Qed.
End Train.

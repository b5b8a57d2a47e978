(* Rep1.v - layers on a batch in which each sample occurs r times *)
From Coq Require Import String List Arith Bool Lia ZArith Permutation.
From Verif Require Import Base Scalar Mat SpecMat MatFacts MatProofs MatLoops Loss LayMat LayImg Layer Net LayKit ImgKit LayTens ImgDot
  LayProofs1 LayProofs3 LayProofs4 LayProofs5 LayProofs6 LayProofs7 LayProofs8 SpecFit FitLay1 FitLay2 SpecRepeat Order1.
Import ListNotations.
Local Open Scope nat_scope.

(** * repetitions *)
Lemma count_filter : forall (s : nat -> nat) x (l : list nat), count_occ Nat.eq_dec (map s l) x = length (filter (fun i => s i =? x) l).
Proof.
  intros s x. induction l as [|a l IH]; simpl; auto. destruct (Nat.eq_dec (s a) x) as [E|E].
  - rewrite (proj2 (Nat.eqb_eq _ _) E). simpl. auto.
  - rewrite (proj2 (Nat.eqb_neq _ _) E). auto.
Qed.
Lemma count_copies : forall r x n, count_occ Nat.eq_dec (flat_map (fun j => repeat j r) (seq 0 n)) x = if x <? n then r else 0.
Proof.
  intros r x. induction n as [|n IH]; auto. rewrite seq_S, flat_map_app, count_occ_app, IH. cbn [flat_map Nat.add]. rewrite app_nil_r.
  destruct (Nat.ltb_spec x n), (Nat.ltb_spec x (S n)); try lia.
  - rewrite count_occ_repeat_neq by lia. lia.
  - replace n with x by lia. rewrite count_occ_repeat_eq by auto. lia.
  - rewrite count_occ_repeat_neq by lia. lia.
Qed.
Lemma times_perm : forall r n s, times r n s -> Permutation (map s (seq 0 (r * n))) (flat_map (fun j => repeat j r) (seq 0 n)).
Proof.
  intros r n s (Hr & H1 & H2). apply (Permutation_count_occ Nat.eq_dec). intro x. rewrite count_copies, count_filter. destruct (Nat.ltb_spec x n); auto.
  destruct (filter (fun i => s i =? x) (seq 0 (r * n))) as [|a l] eqn:E; auto. exfalso. assert (Q : In a (filter (fun i => s i =? x) (seq 0 (r * n)))) by (rewrite E; left; auto).
  apply filter_In in Q. destruct Q as [Q1 Q2]. apply in_seq in Q1. apply Nat.eqb_eq in Q2. specialize (H1 a). lia.
Qed.
Lemma times_blocks : forall r n k s, times r n s -> times r (n * k) (fun q => s (q / k) * k + q mod k).
Proof.
  intros r n k s (Hr & H1 & H2). split; auto. assert (D : forall q, q < r * (n * k) -> 0 < k /\ q / k < r * n /\ q mod k < k).
  { intros q Hq. assert (0 < k) by (destruct k; lia). split; auto. split; [apply Nat.div_lt_upper_bound; lia|apply Nat.mod_upper_bound; lia]. }
  split.
  - intros q Hq. destruct (D q Hq) as (A & B & C). specialize (H1 _ B). nia.
  - intros j Hj. assert (Kp : 0 < k) by (destruct k; lia). assert (Jd : j / k < n) by (apply Nat.div_lt_upper_bound; lia). assert (Jm : j mod k < k) by (apply Nat.mod_upper_bound; lia).
    transitivity (length (filter (fun i => s i =? j / k) (seq 0 (r * n)))); [|apply H2; auto]. rewrite <- (map_length (fun i => i * k + j mod k) (filter _ (seq 0 (r * n)))). apply Permutation_length. apply NoDup_Permutation.
    + apply NoDup_filter. apply seq_NoDup.
    + assert (ND : NoDup (filter (fun i => s i =? j / k) (seq 0 (r * n)))) by (apply NoDup_filter; apply seq_NoDup). induction ND as [|a l Na ND IH]; simpl; constructor; auto.
      intro Q. apply in_map_iff in Q. destruct Q as (b & E & Hb). assert (a = b) by nia. subst. contradiction.
    + intro q. rewrite filter_In, in_map_iff, in_seq, Nat.eqb_eq. split.
      * intros [[_ Hq] E]. destruct (D q Hq) as (_ & B & C). exists (q / k). assert (E1 : s (q / k) = j / k) by (rewrite <- E, blocks_div by auto; auto). assert (E2 : q mod k = j mod k) by (rewrite <- E, blocks_mod by auto; auto).
        split; [rewrite <- E2; rewrite (Nat.mul_comm (q / k)); symmetry; apply Nat.div_mod; lia|]. apply filter_In. rewrite in_seq, Nat.eqb_eq. split; auto. lia.
      * intros (i & <- & Hi). apply filter_In in Hi. destruct Hi as [Hi E]. apply in_seq in Hi. apply Nat.eqb_eq in E. split; [split; [lia|nia]|]. rewrite blocks_div, blocks_mod by auto. rewrite E. rewrite (Nat.mul_comm (j / k)). symmetry. apply Nat.div_mod. lia.
Qed.

Section Any.
Variable F : FOps.
Notation M := (mat F).
Variables (r : nat) (s : nat -> nat).
Notation csum := (csum F).
(* means over the samples do not change when each sample occurs r times *)
Definition repDiv : Prop := forall n s c f, times r n s -> fdiv F (csum (r * n) (fun i => c (s i)) (fun i => f (s i))) (fofN F (r * n)) = fdiv F (csum n c f) (fofN F n).
Definition repMul : Prop := forall n s c f, times r n s -> fmul F (csum (r * n) (fun i => c (s i)) (fun i => f (s i))) (fdiv F (f1 F) (fofN F (r * n))) = fmul F (csum n c f) (fdiv F (f1 F) (fofN F n)).

Definition rel (n c : nat) (x x' : M) : Prop := exists X, x = mgen n c X /\ x' = mgen (r * n) c (fun i => X (s i)).
Lemma rel_shp : forall n c x x', rel n c x x' -> shp n c x /\ shp (r * n) c x'.
Proof. intros n c x x' (X & -> & ->). split; apply gen_shp. Qed.
Lemma rel_wf : forall n c x x', rel n c x x' -> mwf x /\ mwf x'.
Proof. intros n c x x' (X & -> & ->). split; apply mwf_gen. Qed.

Ltac fin := cbn [bind]; do 3 eexists; (split; [reflexivity|]); (split; [reflexivity|]); eexists; split; reflexivity.

Lemma fwd_rel : forall rn (l : layer F) n k m x x' out out', fits l k m -> meanKind F (lk l) -> rel n k x x' -> mwf out -> mwf out' ->
  exists l' y y', layForward F rn l x out = Ok (l', y) /\ layForward F rn l x' out' = Ok (l', y') /\ rel n m y y'.
Proof.
  intros rn l n k m x x' out out' H Rk (X & -> & ->) Ho Ho'. unfold fits in H. destruct H as (Hk & Hm & W1 & W2 & W3 & H).
  unfold layForward. destruct (lk l) eqn:K; try contradiction.
  - destruct H as [A B]. destruct (shp_gen _ _ _ _ A) as [W EW]. destruct (shp_gen _ _ _ _ B) as [b Eb]. rewrite EW, Eb, !fwdDense_gen. fin.
  - destruct H as [A B]. destruct (shp_gen _ _ _ _ A) as [W EW]. rewrite EW, !fwdDot_gen. fin.
  - destruct H as (-> & A & [[Wb Eb]|Sb] & C).
    + unfold fwdBias. rewrite Eb. cbn [Nat.eqb]. change (mcols (mgen n k X)) with k. change (mcols (mgen (r * n) k (fun i => X (s i)))) with k.
      destruct (known_init F (lbi l) (rf rn) (lb l) 1 k C Wb) as (w & E & Sw). rewrite E. cbn [bind]. destruct (shp_gen _ _ _ _ Sw) as [b ->]. rewrite !rowWiseAdd_gen. fin.
    + destruct (shp_gen _ _ _ _ Sb) as [b Eb]. rewrite Eb, !fwdBias_gen by auto. fin.
  - destruct H as (-> & A & B & C). destruct (shp_gen _ _ _ _ B) as [W EW]. rewrite EW, !fwdGlobalBias_gen. fin.
  - destruct H as (-> & A & B & C). destruct a as [a|]; [|congruence]. rewrite !fwdAct_gen by auto. fin.
  - destruct H as (-> & A & B & C & D). destruct a1 as [a1|]; [|congruence]. destruct a2 as [a2|]; [|congruence]. rewrite !fwdGated_gen by auto. fin.
  - destruct H as (-> & A & B). rewrite !fwdCRelu_gen by auto. fin.
  - destruct H as (-> & [[A1 A2]|[A A']] & B).
    + rewrite (fwdPRelu_lazy F n k (lw l) (lgw l) X), (fwdPRelu_lazy F (r * n) k (lw l) (lgw l) (fun i => X (s i))), !fwdPRelu_gen by auto. fin.
    + destruct (shp_gen _ _ _ _ A) as [W EW]. rewrite EW, !fwdPRelu_gen by auto. fin.
  - destruct H as (-> & A & B). rewrite !fwdSoftmax_gen by auto. fin.
  - destruct H as (-> & A & B). rewrite !fwdSoftmin_gen by auto. fin.
Qed.

Hypothesis HD : repDiv.
Hypothesis HM : repMul.
Lemma divS : forall n f, times r n s -> fdiv F (fsum F (r * n) (fun i => f (s i))) (fofN F (r * n)) = fdiv F (fsum F n f) (fofN F n).
Proof. intros. rewrite !fsum_csum. apply (HD n s (fun _ => true)). auto. Qed.
Lemma mulS : forall n f, times r n s -> fmul F (fsum F (r * n) (fun i => f (s i))) (fdiv F (f1 F) (fofN F (r * n))) = fmul F (fsum F n f) (fdiv F (f1 F) (fofN F n)).
Proof. intros. rewrite !fsum_csum. apply (HM n s (fun _ => true)). auto. Qed.
Lemma divFlat : forall n k G, times r n s -> fdiv F (fsum F (r * n * k) (fun q => G (s (q / k)) (q mod k))) (fofN F (r * n * k)) = fdiv F (fsum F (n * k) (fun q => G (q / k) (q mod k))) (fofN F (n * k)).
Proof.
  intros n k G R. rewrite <- !Nat.mul_assoc. rewrite !fsum_csum. rewrite <- (HD (n * k) _ (fun _ => true) (fun q => G (q / k) (q mod k)) (times_blocks r n k s R)). f_equal. apply csum_ext. intros q Hq. split; auto.
  assert (0 < k) by (destruct k; lia). rewrite blocks_div, blocks_mod by (apply Nat.mod_upper_bound; lia). reflexivity.
Qed.

Ltac fing := cbn [bind]; do 3 eexists; (split; [reflexivity|]); split; [apply (f_equal Ok); apply f_equal2; [try reflexivity|reflexivity]|
  split; [try (match goal with |- mwf (if ?b then _ else _) => destruct b end); auto using mwf_gen|let E := fresh in intro E; rewrite ?E; eexists; split; reflexivity]].

Lemma bwd_rel : forall (l : layer F) n k m x x' g g' gin gin', times r n s -> fits l k m -> ready F l n k -> meanKind F (lk l) -> rel n k x x' -> rel n m g g' -> mwf gin -> mwf gin' ->
  exists l' gi gi', layBackward F l x g gin = Ok (l', gi) /\ layBackward F l x' g' gin' = Ok (l', gi') /\ mwf gi' /\ (lfirst l = false -> rel n k gi gi').
Proof.
  intros l n k m x x' g g' gin gin' R H Rd Rk (X & -> & ->) (G & -> & ->) Hgin Hgin'. unfold fits in H. destruct H as (Hk & Hm & W1 & W2 & W3 & H).
  assert (SG : forall j, fdiv F (fsum F (r * n) (fun i => G (s i) j)) (fofN F (r * n)) = fdiv F (fsum F n (fun i => G i j)) (fofN F n)) by (intro j; apply (divS n (fun i => G i j) R)).
  assert (SX : forall p j, fmul F (fsum F (r * n) (fun i => fmul F (X (s i) p) (G (s i) j))) (fdiv F (f1 F) (fofN F (r * n))) = fmul F (fsum F n (fun i => fmul F (X i p) (G i j))) (fdiv F (f1 F) (fofN F n))) by (intros p j; apply (mulS n (fun i => fmul F (X i p) (G i j)) R)).
  unfold ready in Rd. unfold layBackward. destruct (lk l) eqn:K; try contradiction.
  - destruct H as [A B]. destruct (shp_gen _ _ _ _ A) as [W EW]. rewrite EW, !bwdDense_gen. fing. f_equal; apply mgen_ext; intros; rewrite ?SX, ?SG; reflexivity.
  - destruct H as [A B]. destruct (shp_gen _ _ _ _ A) as [W EW]. rewrite EW, !bwdDot_gen. fing. f_equal; apply mgen_ext; intros; rewrite ?SX; reflexivity.
  - destruct H as (-> & A & B & C). rewrite !bwdBias_gen. fing. f_equal; apply mgen_ext; intros; rewrite ?SG; reflexivity.
  - destruct H as (-> & A & B & C). destruct (shp_gen _ _ _ _ B) as [b Eb]. destruct (shp_gen _ _ _ _ C) as [gb EG]. rewrite EG, !bwdGlobalBias_gen. fing.
    f_equal; apply mgen_ext; intros. apply divFlat. auto.
  - destruct H as (-> & A & B & C). destruct a as [a|]; [|congruence]. rewrite !bwdAct_gen by auto. fing.
  - destruct H as (-> & A & B & C & D). destruct a1 as [a1|]; [|congruence]. destruct a2 as [a2|]; [|congruence]. destruct (lfirst l) eqn:Fi.
    + unfold bwdGated. cbn [bind]. do 3 eexists. split; [reflexivity|]. split; [reflexivity|]. split; [auto|discriminate].
    + rewrite !bwdGated_gen by auto. fing.
  - destruct H as (-> & A & B). destruct (lfirst l) eqn:Fi.
    + unfold bwdCRelu. cbn [bind]. do 3 eexists. split; [reflexivity|]. split; [reflexivity|]. split; [auto|discriminate].
    + rewrite !bwdCRelu_gen by auto. fing.
  - destruct H as (-> & A & B). destruct Rd as [R1 R2]. destruct (shp_gen _ _ _ _ R1) as [W EW]. destruct (shp_gen _ _ _ _ R2) as [GW EG]. rewrite EW, EG, !bwdPRelu_gen. fing.
    f_equal; apply mgen_ext; intros. apply (HD n s (fun i => flt F (X i j) (f0 F)) (fun i => fmul F (X i j) (G i j))). auto.
  - destruct H as (-> & A & B). destruct (lfirst l) eqn:Fi.
    + unfold bwdSoftmax. cbn [bind]. do 3 eexists. split; [reflexivity|]. split; [reflexivity|]. split; [auto|discriminate].
    + rewrite !bwdSoftmax_gen by auto. fing.
  - destruct H as (-> & A & B). destruct (lfirst l) eqn:Fi.
    + unfold bwdSoftmin. cbn [bind]. do 3 eexists. split; [reflexivity|]. split; [reflexivity|]. split; [auto|discriminate].
    + rewrite !bwdSoftmin_gen by auto. fing.
Qed.
End Any.

(* Order1.v - layers on the rows of a batch in another order *)
From Coq Require Import String List Arith Bool Lia ZArith Permutation.
From Verif Require Import Base Scalar Mat SpecMat MatFacts MatProofs MatLoops Loss LayMat LayImg Layer Net LayKit ImgKit LayTens ImgDot
  LayProofs1 LayProofs3 LayProofs4 LayProofs5 LayProofs6 LayProofs7 LayProofs8 SpecFit FitLay1 FitLay2 SpecOrder.
Import ListNotations.
Local Open Scope nat_scope.

(** * reorderings *)
Lemma reorder_perm : forall n s, reorder n s -> Permutation (map s (seq 0 n)) (seq 0 n).
Proof.
  intros n s [H1 H2]. apply NoDup_Permutation_bis.
  - assert (ND : NoDup (seq 0 n)) by apply seq_NoDup. assert (Hin : forall x, In x (seq 0 n) -> x < n) by (intros x Hx; apply in_seq in Hx; lia).
    revert ND Hin. generalize (seq 0 n). induction l as [|a l IH]; intros ND Hin; simpl; constructor.
    + inversion ND; subst. intro Q. apply in_map_iff in Q. destruct Q as (b & E & Hb). apply H2 in E; [subst; contradiction|apply Hin; right; auto|apply Hin; left; auto].
    + inversion ND; subst. apply IH; auto. intros x Hx. apply Hin. right. auto.
  - rewrite map_length. auto.
  - intros x Hx. apply in_map_iff in Hx. destruct Hx as (i & <- & Hi). apply in_seq in Hi. apply in_seq. specialize (H1 i). lia.
Qed.
Lemma reorder_blocks : forall n k s, reorder n s -> reorder (n * k) (fun q => s (q / k) * k + q mod k).
Proof.
  intros n k s [H1 H2]. assert (D : forall q, q < n * k -> 0 < k /\ q / k < n /\ q mod k < k).
  { intros q Hq. assert (0 < k) by (destruct k; lia). split; auto. split; [apply Nat.div_lt_upper_bound; lia|apply Nat.mod_upper_bound; lia]. }
  split.
  - intros q Hq. destruct (D q Hq) as (A & B & C). specialize (H1 _ B). nia.
  - intros p q Hp Hq E. destruct (D p Hp) as (A & B & C). destruct (D q Hq) as (_ & B' & C').
    assert (s (p / k) = s (q / k) /\ p mod k = q mod k) as [E1 E2].
    { assert (s (p / k) = s (q / k)) by nia. split; auto. nia. }
    apply H2 in E1; auto. rewrite (Nat.div_mod p k), (Nat.div_mod q k) by lia. congruence.
Qed.
Lemma blocks_div : forall k a b, b < k -> (a * k + b) / k = a.
Proof. intros. rewrite Nat.div_add_l by lia. rewrite Nat.div_small by auto. lia. Qed.
Lemma blocks_mod : forall k a b, b < k -> (a * k + b) mod k = b.
Proof. intros. rewrite Nat.add_comm, Nat.mod_add by lia. apply Nat.mod_small. auto. Qed.

Section Any.
Variable F : FOps.
Notation M := (mat F).
(* conditional sums do not depend on the order of their terms *)
Definition csum (n : nat) (c : nat -> bool) (f : nat -> F) : F := fold_left (fun v i => if c i then fadd F v (f i) else v) (seq 0 n) (f0 F).
Definition symSum : Prop := forall n c f s, reorder n s -> csum n (fun i => c (s i)) (fun i => f (s i)) = csum n c f.
Lemma fold_ext : forall A B (f g : A -> B -> A) l a, (forall a b, In b l -> f a b = g a b) -> fold_left f l a = fold_left g l a.
Proof. intros A B f g. induction l as [|b l IH]; intros a H; simpl; auto. rewrite H by (left; auto). apply IH. intros. apply H. right. auto. Qed.
Lemma fsum_csum : forall n f, fsum F n f = csum n (fun _ => true) f.
Proof. intros. unfold fsum, csum. reflexivity. Qed.
Lemma csum_ext : forall n c c' f f', (forall i, i < n -> c i = c' i /\ f i = f' i) -> csum n c f = csum n c' f'.
Proof. intros n c c' f f' H. apply fold_ext. intros a b Hb. apply in_seq in Hb. destruct (H b) as [-> ->]; [lia|auto]. Qed.
Lemma fsum_ext : forall n f f', (forall i, i < n -> f i = f' i) -> fsum F n f = fsum F n f'.
Proof. intros. rewrite !fsum_csum. apply csum_ext. auto. Qed.

Variable s : nat -> nat.
Definition rel (n c : nat) (x x' : M) : Prop := exists X, x = mgen n c X /\ x' = mgen n c (fun i => X (s i)).
Lemma rel_shp : forall n c x x', rel n c x x' -> shp n c x /\ shp n c x'.
Proof. intros n c x x' (X & -> & ->). split; apply gen_shp. Qed.
Lemma rel_wf : forall n c x x', rel n c x x' -> mwf x /\ mwf x'.
Proof. intros n c x x' (X & -> & ->). split; apply mwf_gen. Qed.

Lemma fwdAffine_lazy2 : forall (w b : M) n k X out, 0 < k -> mwf w -> mwf b -> msize b = 0 -> mwf out ->
  fwdAffine F w b (mgen n k X) out = Ok (mgen 1 k (fun _ _ => f1 F), mgen 1 k (fun _ _ => f0 F), mgen n k (fun i j => fadd F (fmul F (X i j) (f1 F)) (f0 F))).
Proof.
  intros w b n k X out Hk Hw Hb Eb Ho. unfold fwdAffine. rewrite Eb. cbn [Nat.eqb]. change (mcols (mgen n k X)) with k.
  rewrite msetZero_gen by auto. cbn [bind]. unfold msetOnes. rewrite msetConstR_gen by auto. cbn [bind].
  pose proof (fwdAffine_gen F n k (fun _ _ => f1 F) (fun _ _ => f0 F) X out Hk Ho) as G. unfold fwdAffine in G. rewrite szg in G.
  replace (1 * k =? 0) with false in G by (symmetry; apply Nat.eqb_neq; lia). cbn [bind] in G. change (mcols (mgen n k X)) with k in G. exact G.
Qed.
Ltac fin := cbn [bind]; do 3 eexists; (split; [reflexivity|]); (split; [reflexivity|]); eexists; split; reflexivity.

Lemma fwd_rel : forall r (l : layer F) n k m x x' out out', fits l k m -> rowKind F (lk l) -> rel n k x x' -> mwf out -> mwf out' ->
  exists l' y y', layForward F r l x out = Ok (l', y) /\ layForward F r l x' out' = Ok (l', y') /\ rel n m y y'.
Proof.
  intros r l n k m x x' out out' H Rk (X & -> & ->) Ho Ho'. unfold fits in H. destruct H as (Hk & Hm & W1 & W2 & W3 & H).
  unfold layForward. destruct (lk l) eqn:K; try contradiction.
  - destruct H as [A B]. destruct (shp_gen _ _ _ _ A) as [W EW]. destruct (shp_gen _ _ _ _ B) as [b Eb]. rewrite EW, Eb, !fwdDense_gen. fin.
  - destruct H as [A B]. destruct (shp_gen _ _ _ _ A) as [W EW]. rewrite EW, !fwdDot_gen. fin.
  - destruct H as (-> & A & [[Wb Eb]|Sb] & C).
    + unfold fwdBias. rewrite Eb. cbn [Nat.eqb]. change (mcols (mgen n k X)) with k. change (mcols (mgen n k (fun i => X (s i)))) with k.
      destruct (known_init F (lbi l) (rf r) (lb l) 1 k C Wb) as (w & E & Sw). rewrite E. cbn [bind]. destruct (shp_gen _ _ _ _ Sw) as [b ->]. rewrite !rowWiseAdd_gen. fin.
    + destruct (shp_gen _ _ _ _ Sb) as [b Eb]. rewrite Eb, !fwdBias_gen by auto. fin.
  - destruct H as (-> & [[A1 A2]|A] & B).
    + rewrite (fwdGain_lazy F n k (lw l) X), (fwdGain_lazy F n k (lw l) (fun i => X (s i))), !fwdGain_gen by auto. fin.
    + destruct (shp_gen _ _ _ _ A) as [W EW]. rewrite EW, !fwdGain_gen by auto. fin.
  - destruct H as (-> & [[[A1 A2] [B1 B2]]|[A B]]).
    + rewrite !fwdAffine_lazy2 by auto. fin.
    + destruct (shp_gen _ _ _ _ A) as [W EW]. destruct (shp_gen _ _ _ _ B) as [b Eb]. rewrite EW, Eb, !fwdAffine_gen by auto. fin.
  - destruct H as (-> & A & B & C). destruct (shp_gen _ _ _ _ A) as [W EW]. rewrite EW, !fwdGlobalGain_gen. fin.
  - destruct H as (-> & A & B & C). destruct (shp_gen _ _ _ _ B) as [W EW]. rewrite EW, !fwdGlobalBias_gen. fin.
  - destruct H as (-> & A & _ & B & _). destruct (shp_gen _ _ _ _ A) as [W EW]. destruct (shp_gen _ _ _ _ B) as [b Eb]. rewrite EW, Eb, !fwdGlobalAffine_gen. fin.
  - destruct H as (-> & A & B & C). destruct a as [a|]; [|congruence]. rewrite !fwdAct_gen by auto. fin.
  - destruct H as (-> & A & B & C & D). destruct a1 as [a1|]; [|congruence]. destruct a2 as [a2|]; [|congruence]. rewrite !fwdGated_gen by auto. fin.
  - destruct H as (-> & A & B). rewrite !fwdCRelu_gen by auto. fin.
  - destruct H as (-> & [[A1 A2]|[A A']] & B).
    + rewrite (fwdPRelu_lazy F n k (lw l) (lgw l) X), (fwdPRelu_lazy F n k (lw l) (lgw l) (fun i => X (s i))), !fwdPRelu_gen by auto. fin.
    + destruct (shp_gen _ _ _ _ A) as [W EW]. rewrite EW, !fwdPRelu_gen by auto. fin.
  - destruct H as (-> & A & B). rewrite !fwdSoftmax_gen by auto. fin.
  - destruct H as (-> & A & B). rewrite !fwdSoftmin_gen by auto. fin.
Qed.

Hypothesis HS : symSum.
Lemma sumS : forall n f, reorder n s -> fsum F n (fun i => f (s i)) = fsum F n f.
Proof. intros. rewrite !fsum_csum. apply (HS n (fun _ => true)). auto. Qed.
Lemma sumFlat : forall n k G, reorder n s -> fsum F (n * k) (fun q => G (s (q / k)) (q mod k)) = fsum F (n * k) (fun q => G (q / k) (q mod k)).
Proof.
  intros n k G R. rewrite !fsum_csum. rewrite <- (HS (n * k) (fun _ => true) (fun q => G (q / k) (q mod k)) _ (reorder_blocks n k s R)). apply csum_ext. intros q Hq. split; auto.
  assert (0 < k) by (destruct k; lia). rewrite blocks_div, blocks_mod by (apply Nat.mod_upper_bound; lia). reflexivity.
Qed.


Ltac fing := cbn [bind]; do 3 eexists; (split; [reflexivity|]); split; [apply (f_equal Ok); apply f_equal2; [try reflexivity|reflexivity]|
  split; [try (match goal with |- mwf (if ?b then _ else _) => destruct b end); auto using mwf_gen|let E := fresh in intro E; rewrite ?E; eexists; split; reflexivity]].

Lemma bwd_rel : forall (l : layer F) n k m x x' g g' gin gin', reorder n s -> fits l k m -> ready F l n k -> rowKind F (lk l) -> rel n k x x' -> rel n m g g' -> mwf gin -> mwf gin' ->
  exists l' gi gi', layBackward F l x g gin = Ok (l', gi) /\ layBackward F l x' g' gin' = Ok (l', gi') /\ mwf gi' /\ (lfirst l = false -> rel n k gi gi').
Proof.
  intros l n k m x x' g g' gin gin' R H Rd Rk (X & -> & ->) (G & -> & ->) Hgin Hgin'. unfold fits in H. destruct H as (Hk & Hm & W1 & W2 & W3 & H).
  assert (SG : forall j, fsum F n (fun i => G (s i) j) = fsum F n (fun i => G i j)) by (intro j; apply (sumS n (fun i => G i j) R)).
  assert (SX : forall p j, fsum F n (fun i => fmul F (X (s i) p) (G (s i) j)) = fsum F n (fun i => fmul F (X i p) (G i j))) by (intros p j; apply (sumS n (fun i => fmul F (X i p) (G i j)) R)).
  unfold ready in Rd. unfold layBackward. destruct (lk l) eqn:K; try contradiction.
  - destruct H as [A B]. destruct (shp_gen _ _ _ _ A) as [W EW]. rewrite EW, !bwdDense_gen. fing. f_equal; apply mgen_ext; intros; rewrite ?SX, ?SG; reflexivity.
  - destruct H as [A B]. destruct (shp_gen _ _ _ _ A) as [W EW]. rewrite EW, !bwdDot_gen. fing. f_equal; apply mgen_ext; intros; rewrite ?SX; reflexivity.
  - destruct H as (-> & A & B & C). rewrite !bwdBias_gen. fing. f_equal; apply mgen_ext; intros; rewrite ?SG; reflexivity.
  - destruct H as (-> & A & B). destruct (shp_gen _ _ _ _ Rd) as [W EW]. rewrite EW, !bwdGain_gen. fing. f_equal; apply mgen_ext; intros. f_equal. apply fsum_ext. intros. apply SX.
  - destruct H as (-> & A). destruct Rd as [R1 R2]. destruct (shp_gen _ _ _ _ R1) as [W EW]. rewrite EW, !bwdAffine_gen. fing. f_equal; apply mgen_ext; intros; rewrite ?SG; auto. f_equal. apply fsum_ext. intros. apply SX.
  - destruct H as (-> & A & B & C). destruct (shp_gen _ _ _ _ A) as [W EW]. destruct (shp_gen _ _ _ _ B) as [GW EG]. rewrite EW, EG, !bwdGlobalGain_gen. fing.
    f_equal; apply mgen_ext; intros. f_equal. apply fsum_ext. intros. apply SX.
  - destruct H as (-> & A & B & C). destruct (shp_gen _ _ _ _ B) as [b Eb]. destruct (shp_gen _ _ _ _ C) as [gb EG]. rewrite EG, !bwdGlobalBias_gen. fing.
    f_equal; apply mgen_ext; intros. f_equal. apply sumFlat. auto.
  - destruct H as (-> & A & A' & B & B'). destruct (shp_gen _ _ _ _ A) as [W EW]. destruct (shp_gen _ _ _ _ A') as [GW EG]. destruct (shp_gen _ _ _ _ B) as [b Eb]. destruct (shp_gen _ _ _ _ B') as [gb EB].
    rewrite EW, EG, EB, !bwdGlobalAffine_gen. fing. f_equal; apply mgen_ext; intros; f_equal; [apply fsum_ext; intros; apply SX|apply sumFlat; auto].
  - destruct H as (-> & A & B & C). destruct a as [a|]; [|congruence]. rewrite !bwdAct_gen by auto. fing.
  - destruct H as (-> & A & B & C & D). destruct a1 as [a1|]; [|congruence]. destruct a2 as [a2|]; [|congruence]. destruct (lfirst l) eqn:Fi.
    + unfold bwdGated. cbn [bind]. do 3 eexists. split; [reflexivity|]. split; [reflexivity|]. split; [auto|discriminate].
    + rewrite !bwdGated_gen by auto. fing.
  - destruct H as (-> & A & B). destruct (lfirst l) eqn:Fi.
    + unfold bwdCRelu. cbn [bind]. do 3 eexists. split; [reflexivity|]. split; [reflexivity|]. split; [auto|discriminate].
    + rewrite !bwdCRelu_gen by auto. fing.
  - destruct H as (-> & A & B). destruct Rd as [R1 R2]. destruct (shp_gen _ _ _ _ R1) as [W EW]. destruct (shp_gen _ _ _ _ R2) as [GW EG]. rewrite EW, EG, !bwdPRelu_gen. fing.
    f_equal; apply mgen_ext; intros. f_equal. apply (HS n (fun i => flt F (X i j) (f0 F)) (fun i => fmul F (X i j) (G i j))). auto.
  - destruct H as (-> & A & B). destruct (lfirst l) eqn:Fi.
    + unfold bwdSoftmax. cbn [bind]. do 3 eexists. split; [reflexivity|]. split; [reflexivity|]. split; [auto|discriminate].
    + rewrite !bwdSoftmax_gen by auto. fing.
  - destruct H as (-> & A & B). destruct (lfirst l) eqn:Fi.
    + unfold bwdSoftmin. cbn [bind]. do 3 eexists. split; [reflexivity|]. split; [reflexivity|]. split; [auto|discriminate].
    + rewrite !bwdSoftmin_gen by auto. fing.
Qed.
End Any.

(* TrainProofs13.v - fit with zero epochs *)
From Coq Require Import String List Arith Bool Lia ZArith QArith.
From Verif Require Import Base Scalar Mat SpecMat Loss Optim Regul Act LayMat LayImg LayRnn Layer Net NetTrain SpecNet SpecTrain NetProofs1 NetProofs2 NetProofs4 TrainProofs1 TrainProofs2 TrainProofs3 TrainProofs4 TrainProofs5 TrainProofs9.
Import ListNotations.
Local Open Scope nat_scope.

Section Train.
Variable F : FOps.
Variable cabs : F -> res F.
Notation M := (mat F).
Notation copyOf := (copyOf F). Notation sameParams := (sameParams F). Notation sized := (sized F).

Lemma forward_params : forall r l x out l' o, layForward F r l x out = Ok (l', o) -> sized l -> lk l' = lk l /\ lw l' = lw l /\ lb l' = lb l.
Proof.
  intros r l x out l' o E S. unfold SpecTrain.sized in S. unfold layForward in E. destruct (lk l) eqn:K; try contradiction; binp E; inversion E; subst; cbn; auto; split; auto;
    try (unfold fwdBias, fwdGain, fwdAffine, fwdPRelu, fwdPELU, fwdTERELU in *;
         match goal with H : context [msize ?m =? 0] |- _ => replace (msize m =? 0) with false in H by (symmetry; apply Nat.eqb_neq; auto); cbn [bind] in H; binp H; inversion H; subst; auto end).
Qed.
(* the layers at ls keep their parameters *)
Definition still (ls : list nat) (h h' : heap F) : Prop :=
  forall a l, In a ls -> hget F h a = Ok l -> sized l -> exists l', hget F h' a = Ok l' /\ lk l' = lk l /\ lw l' = lw l /\ lb l' = lb l.
Lemma sized_same : forall l l', lk l' = lk l -> lw l' = lw l -> lb l' = lb l -> sized l -> sized l'.
Proof. intros l l' A B C S. unfold SpecTrain.sized in *. rewrite A. destruct (lk l); rewrite ?B, ?C; auto. Qed.
Lemma still_refl : forall ls h, still ls h h. Proof. intros ls h a l _ E _. exists l. auto. Qed.
Lemma still_trans : forall ls a b c, still ls a b -> still ls b c -> still ls a c.
Proof.
  intros ls a b c A B x l Hx E S. destruct (A x l Hx E S) as (l1 & E1 & K1 & W1 & B1). destruct (B x l1 Hx E1 (sized_same _ _ K1 W1 B1 S)) as (l2 & E2 & K2 & W2 & B2).
  exists l2. split; auto. split; [congruence|split; congruence].
Qed.
Lemma fwdLayer_still : forall ls rs n i h x out h' o, fwdLayer F rs n i h x out = Ok (h', o) -> still ls h h'.
Proof.
  intros ls rs n i h x out h' o E b l Hb Eb S. unfold fwdLayer in E. binp E. inversion E; subst.
  match goal with H : hset _ _ _ _ = Ok _ |- _ => apply hset_nth in H; destruct H as (_ & _ & H2) end.
  apply hget_nth in Eb. match goal with H : hget F h ?a = Ok ?y, H1 : layForward _ _ ?y _ _ = Ok (?z, _) |- _ =>
    destruct (Nat.eq_dec b a) as [->|N]; [apply hget_nth in H; rewrite H in Eb; inversion Eb; subst; destruct (forward_params _ _ _ _ _ _ H1 S) as (A1 & A2 & A3); exists z|exists l] end.
  - split; auto. apply hget_nth. rewrite H2, Nat.eqb_refl. reflexivity.
  - split; auto. apply hget_nth. rewrite H2. destruct (Nat.eqb_spec b x0); [contradiction|]. auto.
Qed.
Lemma predict_still : forall ls rs h n x out h' o, predict F rs h n x out = Ok (h', o) -> still ls h h'.
Proof.
  intros ls rs h n x out h' o E. unfold predict in E. binp E. inversion E; subst.
  apply (forN_postI _ (fun _ p => still ls h (fst (fst p)))) in Ex; [exact Ex|apply still_refl|].
  intros i [[h1 a] b] s' _ I Eb. binp Eb. inversion Eb; subst. cbn in *. eapply still_trans; eauto. eapply fwdLayer_still; eauto.
Qed.
Lemma lossAccuracy_still : forall ls rs h n t x y h' l a, lossAccuracy F cabs rs h n t x y = Ok (h', l, a) -> still ls h h'.
Proof.
  intros ls rs h n t x y h' l a E. unfold lossAccuracy in E. destruct ((length (nlay n) =? 0) || (mrows x =? 0)); [inversion E; subst; apply still_refl|].
  destruct (cValBatch F (tc F t) =? 0); [discriminate|]. binp E. inversion E; subst.
  apply (forN_postI _ (fun _ p => still ls h (fst (fst (fst (fst p)))))) in Ex; [exact Ex|apply still_refl|].
  intros i [[[[h1 o1] ml1] lo1] g1] s' _ I Eb. binp Eb. inversion Eb; subst. cbn in *. eapply still_trans; eauto. eapply predict_still; eauto.
Qed.
Lemma same_params : forall l c, lw c = lw l -> lb c = lb l -> (lrnn c = lrnn l \/ sized l) -> sameParams l c.
Proof. intros l c A B C. unfold SpecTrain.sameParams, SpecTrain.sized in *. destruct (lk l); auto. destruct C as [->|[]]; auto. Qed.

Theorem zero_epochs : forall R h n t h' n' t' calls, fit F cabs R h n t = Ok (h', n', t', calls) -> (cEpochs F (tc F t) <= 0)%Z ->
  (cKeep F (tc F t) = false \/ (forall a l, In a (nlay n) -> hget F h a = Ok l -> sized l)) -> copyOf h (nlay n) h' (nlay n').
Proof.
  intros R h n t h' n' t' calls E He Hk. destruct (nlay n) as [|x0 r0] eqn:En.
  { unfold fit in E. binp E. apply setNet_post in Ex. destruct Ex as (_ & _ & _ & _ & _ & _ & _ & A & _). rewrite A, En in E. cbn in E. inversion E; subst. rewrite En.
    split; [reflexivity|]. intros [|i] a Q; discriminate. }
  rewrite <- En in *. assert (Hne : nlay n <> []) by congruence. clear x0 r0 En.
  apply fit_split in E; auto. destruct E as (h1 & t1 & mS & mT & ss & E1 & E2 & E3 & _ & E5). replace (Z.to_nat (cEpochs F (tc F t))) with 0 in E5 by lia.
  pose proof E1 as P. apply setNet_post in P. destruct P as (P1 & P2 & P3 & P4 & P5 & P6 & P7 & P8 & P9 & P10 & P11 & _).
  pose proof E3 as Q. apply start_post in Q. destruct Q as (Q1 & Q2 & Q3 & Q4 & Q5 & Q6 & Q7 & Q8 & W1 & W2 & W3 & W4 & _ & _ & _ & _ & _ & Q9). rewrite P7 in Q9.
  (* the layers after setNet *)
  assert (S1 : forall a, In a (nlay n) -> exists l l1, hget F h a = Ok l /\ hget F h1 a = Ok l1 /\ (l1 = l \/ l1 = setFirst l true)).
  { intros a Ha. destruct (P4 a Ha) as (l1 & El1). destruct (nlay n) as [|b r] eqn:En; [destruct Ha|]. destruct (Nat.eq_dec b a) as [->|Nb].
    - destruct (P3 a eq_refl) as (l & L1 & L2). exists l, (setFirst l true). auto.
    - exists l1, l1. split; [|auto]. apply hget_nth. rewrite <- P2; [apply hget_nth; auto|]. cbn. congruence. }
  destruct (cKeep F (tc F t)) eqn:Kp.
  - destruct Hk as [Hk|Hk]; [discriminate|]. destruct Q9 as (h2 & l0 & a0 & Q9 & Q10 & Q11 & Q12).
    assert (Live : forall x, In x (nlay n) -> x < length h1). { intros x Hx. destruct (P4 x Hx) as [l El]. eapply hget_lt; eauto. }
    assert (K0 : keepInv F n (sh F (ss 0)) (ss 0)).
    { eapply keep_start; eauto; [congruence|].
      intros x Hx. rewrite P5, P6 in Hx. apply in_app_iff in Hx. destruct Hx as [Hx|Hx]; apply filter_In in Hx; tauto. }
    assert (C : copyOf (sh F (ss 0)) (nlay n) h' (nlay n')). { eapply keep_end; eauto. congruence. }
    apply (copy_trans F cabs h (nlay n) (sh F (ss 0)) (nlay n) h' (nlay n')); [|exact C].
    assert (St : still (nlay n) h1 h2). { destruct (match tval F t1 with None => (mS, mT) | Some p => p end) as [x y]. eapply lossAccuracy_still; eauto. }
    assert (L12 : length h2 = length h1). { destruct (match tval F t1 with None => (mS, mT) | Some p => p end) as [x y]. eapply lossAcc_len; eauto. }
    destruct (snapshot F _ _ _ _ _ _ Q10) as (N1 & _). { intros x Hx. rewrite L12. auto. }
    split; [reflexivity|]. intros i a Ea. assert (Ha : In a (nlay n)) by (eapply nth_error_In; eauto).
    destruct (S1 a Ha) as (l & l1 & G1 & G2 & G3).
    assert (Sl : sized l) by (eapply Hk; eauto). assert (Sl1 : sized l1) by (destruct G3 as [->| ->]; auto).
    destruct (St a l1 Ha G2 Sl1) as (l2 & G4 & G5 & G6 & G7). exists a, l, l2. split; auto. split; auto.
    split; [apply hget_nth; rewrite N1 by auto; apply hget_nth; auto|].
    assert (lk l1 = lk l /\ lw l1 = lw l /\ lb l1 = lb l) as (X1 & X2 & X3) by (destruct G3 as [->| ->]; auto).
    split; [congruence|]. apply same_params; [congruence|congruence|auto].
  - destruct Q9 as (Q9 & Qb & _). unfold fitEnd in E5. rewrite Q2, P7, Kp in E5. cbn [bind] in E5. rewrite Qb in E5. cbn in E5. injection E5 as <- <- _ _. rewrite Q1.
    split; [reflexivity|]. intros i a Ea. assert (Ha : In a (nlay n)) by (eapply nth_error_In; eauto).
    destruct (S1 a Ha) as (l & l1 & G1 & G2 & G3). exists a, l, l1. rewrite Q9. repeat split; auto; [destruct G3 as [->| ->]; auto|].
    apply same_params; destruct G3 as [->| ->]; auto.
Qed.
End Train.

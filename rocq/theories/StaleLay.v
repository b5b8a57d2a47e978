(* StaleLay.v - the passes of well-sized layers do not depend on what their output buffers held *)
From Coq Require Import String List Arith Bool Lia ZArith.
From Verif Require Import Base Scalar Mat SpecMat MatFacts MatProofs MatLoops Loss LayMat LayImg Layer Net LayKit ImgKit LayTens ImgDot
  LayProofs1 LayProofs3 LayProofs4 LayProofs5 LayProofs6 LayProofs7 LayProofs8 LayPool1 LayConv1 LayConv2 SpecInit InitProofs SpecFit FitLay1 FitLay2.
Import ListNotations.
Local Open Scope nat_scope.

Section Any.
Variable F : FOps.
Notation M := (mat F).

Lemma fwd_same : forall r (l : layer F) n k m x o1 o2, fits l k m -> shp n k x -> mwf o1 -> mwf o2 -> layForward F r l x o1 = layForward F r l x o2.
Proof.
  intros r l n k m x o1 o2 H Hx H1 H2. unfold fits in H. destruct H as (Hk & Hm & W1 & W2 & W3 & H). destruct (shp_gen _ _ _ _ Hx) as [X ->].
  unfold layForward. destruct (lk l) eqn:K; try contradiction; try reflexivity.
  - f_equal. destruct H as (-> & [[[A1 A2] [B1 B2]]|[A B]]).
    + unfold fwdAffine. rewrite B2. cbn [Nat.eqb]. change (mcols (mgen n k X)) with k. rewrite msetZero_gen by auto. cbn [bind]. unfold msetOnes. rewrite msetConstR_gen by auto. cbn [bind].
      assert (G := fun o => fwdAffine_gen F n k (fun _ _ => f1 F) (fun _ _ => f0 F) X o Hk). unfold fwdAffine in G. rewrite szg in G.
      replace (1 * k =? 0) with false in G by (symmetry; apply Nat.eqb_neq; lia). cbn [bind] in G. change (mcols (mgen n k X)) with k in G. rewrite !G by auto. reflexivity.
    + destruct (shp_gen _ _ _ _ A) as [W EW]. destruct (shp_gen _ _ _ _ B) as [b Eb]. rewrite EW, Eb, !fwdAffine_gen by auto. reflexivity.
  - destruct H as (-> & A & B & C). destruct a as [a|]; [|congruence]. rewrite !fwdAct_gen by auto. reflexivity.
  - destruct H as (-> & A & B & C & D). destruct a1 as [a1|]; [|congruence]. destruct a2 as [a2|]; [|congruence]. rewrite !fwdGated_gen by auto. reflexivity.
  - destruct H as (-> & A & B). rewrite !fwdCRelu_gen by auto. reflexivity.
  - destruct H as (A & B & -> & -> & C). destruct p as [pr pc ph fr fc]. cbn [pR pC pH pfr pfc] in *. unfold poR, poC in *. cbn [pR pC pfr pfc] in *. rewrite tens_img, !fwdAvgPool_gen by auto. reflexivity.
  - destruct H as (-> & -> & C). rewrite tens_img, !fwdGlobalAvgPool_gen by auto. reflexivity.
  - destruct H as (-> & -> & C). rewrite tens_img, !fwdZeroPad_gen by auto. reflexivity.
Qed.

Ltac fin := cbn [bind]; intros E1 E2; inversion E1; inversion E2; subst; split; [reflexivity|intros; try reflexivity; try congruence].
Lemma bwd_same : forall (l : layer F) n k m x g g1 g2 l1 l2 a1 a2, fits l k m -> ready F l n k -> shp n k x -> shp n m g -> mwf g1 -> mwf g2 ->
  layBackward F l x g g1 = Ok (l1, a1) -> layBackward F l x g g2 = Ok (l2, a2) -> l1 = l2 /\ (lfirst l = false -> a1 = a2).
Proof.
  intros l n k m x g g1 g2 l1 l2 a1 a2 H Rd Hx Hg H1 H2. unfold fits in H. destruct H as (Hk & Hm & W1 & W2 & W3 & H).
  destruct (shp_gen _ _ _ _ Hx) as [X ->]. destruct (shp_gen _ _ _ _ Hg) as [G ->].
  unfold ready in Rd. unfold layBackward. destruct (lk l) eqn:K; try contradiction.
  - destruct H as [A B]. destruct (shp_gen _ _ _ _ A) as [W EW]. rewrite EW, !bwdDense_gen. destruct (lfirst l); fin.
  - destruct H as [A B]. destruct (shp_gen _ _ _ _ A) as [W EW]. rewrite EW, !bwdDot_gen. destruct (lfirst l); fin.
  - destruct H as (-> & A & B & C). rewrite !bwdBias_gen. destruct (lfirst l); fin.
  - destruct H as (-> & A & B). destruct (shp_gen _ _ _ _ Rd) as [W EW]. rewrite EW, !bwdGain_gen. destruct (lfirst l); fin.
  - destruct H as (-> & A). destruct Rd as [R1 R2]. destruct (shp_gen _ _ _ _ R1) as [W EW]. rewrite EW, !bwdAffine_gen. destruct (lfirst l); fin.
  - destruct H as (-> & A & B & C). destruct (shp_gen _ _ _ _ A) as [W EW]. destruct (shp_gen _ _ _ _ B) as [GW EG]. rewrite EW, EG, !bwdGlobalGain_gen. destruct (lfirst l); fin.
  - destruct H as (-> & A & B & C). destruct (shp_gen _ _ _ _ C) as [gb EG]. rewrite EG, !bwdGlobalBias_gen. destruct (lfirst l); fin.
  - destruct H as (-> & A & A' & B & B'). destruct (shp_gen _ _ _ _ A) as [W EW]. destruct (shp_gen _ _ _ _ A') as [GW EG]. destruct (shp_gen _ _ _ _ B') as [gb EB].
    rewrite EW, EG, EB, !bwdGlobalAffine_gen. destruct (lfirst l); fin.
  - destruct H as (-> & -> & A & B). unfold bwdChannelBias. change (mrows (mgen n (nH * nR * nC) G)) with n.
    destruct (channelWiseMean_ok F n nH nR nC G) as [f Ef]. rewrite Ef. destruct (lfirst l); fin.
  - destruct H as (-> & A & B & C). destruct a as [a|]; [|congruence]. rewrite !bwdAct_gen by auto. destruct (lfirst l); fin.
  - destruct H as (-> & A & B & C & D). destruct a0 as [a0|]; [|congruence]. destruct a3 as [a3|]; [|congruence]. destruct (lfirst l) eqn:Fi; [unfold bwdGated|rewrite !bwdGated_gen by auto]; fin.
  - destruct H as (-> & A & B). destruct (lfirst l) eqn:Fi; [unfold bwdCRelu|rewrite !bwdCRelu_gen by auto]; fin.
  - destruct H as (-> & A & B). destruct Rd as [R1 R2]. destruct (shp_gen _ _ _ _ R1) as [W EW]. destruct (shp_gen _ _ _ _ R2) as [GW EG]. rewrite EW, EG, !bwdPRelu_gen. destruct (lfirst l); fin.
  - destruct H as (-> & A & B). destruct (shp_gen _ _ _ _ Rd) as [S ES]. rewrite ES. destruct (lfirst l) eqn:Fi; [unfold bwdRRelu|rewrite !bwdRRelu_gen]; fin.
  - destruct H as (-> & A & B). destruct Rd as [R1 R2]. destruct (shp_gen _ _ _ _ R1) as [W EW]. destruct (shp_gen _ _ _ _ R2) as [GW EG]. rewrite EW, EG.
    assert (E := fun gin => bwdPELU_gen F (lfirst l) n k W GW X G gin Hk). cbv zeta in E. rewrite !E. destruct (lfirst l); fin.
  - destruct H as (-> & A & B). destruct Rd as [R1 R2]. destruct (shp_gen _ _ _ _ R1) as [W EW]. destruct (shp_gen _ _ _ _ R2) as [GW EG]. rewrite EW, EG, !bwdTERELU_gen. destruct (lfirst l); fin.
  - destruct H as (-> & A & B & C). unfold bwdDropout. destruct (lfirst l) eqn:Fi; [fin|].
    destruct Rd as [Rd|Rd]; [rewrite Rd; cbn [negb]; fin|]. destruct (shp_gen _ _ _ _ Rd) as [S ES]. rewrite ES. destruct (negb (feq F rate (f0 F))); [rewrite mcwiseProduct_gen|]; fin.
  - unfold bwdPass. destruct (lfirst l); fin.
  - unfold bwdPass. destruct (lfirst l); fin.
  - destruct H as (-> & A & B). destruct (lfirst l) eqn:Fi; [unfold bwdSoftmax|rewrite !bwdSoftmax_gen by auto]; fin.
  - destruct H as (-> & A & B). destruct (lfirst l) eqn:Fi; [unfold bwdSoftmin|rewrite !bwdSoftmin_gen by auto]; fin.
  - destruct H as ((f & ->) & -> & A & B). rewrite !bwdTDBias_gen by nia. destruct (lfirst l); fin.
  - destruct H as ((f & -> & ->) & A & B). destruct (shp_gen _ _ _ _ A) as [W EW]. rewrite EW, !bwdTDDot_gen by nia. destruct (lfirst l); fin.
  - destruct H as ((f & -> & ->) & A & B). destruct (shp_gen _ _ _ _ A) as [W EW]. rewrite EW, !bwdTDDense_gen by nia. destruct (lfirst l); fin.
  - destruct H as (A & B & -> & -> & C & D). destruct (lfirst l) eqn:Fi; [unfold bwdAvgPool; fin|].
    unfold bwdAvgPool. rewrite !msetZero_gen by auto. cbn [bind]. match goal with |- (bind ?e _ = _ -> _) => destruct e end; [fin|discriminate].
  - destruct H as (-> & -> & C & D). destruct (lfirst l) eqn:Fi; [unfold bwdGlobalAvgPool; fin|]. rewrite !bwdGlobalAvgPool_gen by auto. fin.
  - destruct H as (-> & -> & C & D). destruct (lfirst l) eqn:Fi; [unfold bwdZeroPad; fin|].
    rewrite (tens_img F n nH (nR + 2 * nB) (nC + 2 * nB) G), !bwdZeroPad_gen by auto. fin.
  - destruct H as (C & -> & -> & A & B). destruct Rd as [R1 R2]. destruct (shp_gen _ _ _ _ A) as [W EW]. destruct (shp_gen _ _ _ _ R1) as [S ES]. rewrite EW, ES, R2.
    unfold bwdConv. change (mrows (mgen n (vO v * oR v * oC v) G)) with n. change (mcols (mgen n (vO v * oR v * oC v) G)) with (vO v * oR v * oC v).
    unfold assert_. rewrite Nat.eqb_refl. replace (vO v * oR v * oC v =? oR v * oC v * vO v) with true by (symmetry; apply Nat.eqb_eq; ring). cbn [bind].
    rewrite (tens_img F n (vO v) (oR v) (oC v) G), reshapeFromOut_gen. cbn [bind]. rewrite mmul_gen. cbn [bind].
    match goal with |- context [mgen (vO v) (vI v * vkr v * vkc v) ?g] => set (gw := g) end.
    change (mrows (mgen (vO v) (vI v * vkr v * vkc v) gw)) with (vO v). change (mcols (mgen (vO v) (vI v * vkr v * vkc v) gw)) with (vI v * vkr v * vkc v).
    change (mrows (mgen (vO v) (vI v * vkr v * vkc v) W)) with (vO v). change (mcols (mgen (vO v) (vI v * vkr v * vkc v) W)) with (vI v * vkr v * vkc v). rewrite !Nat.eqb_refl. cbn [bind].
    destruct (lfirst l) eqn:Fi; [fin|]. rewrite mtranspose_gen. cbn [bind]. rewrite mmul_gen. cbn [bind].
    match goal with |- (bind (bind ?a _) _ = _ -> bind (bind ?b _) _ = _ -> _) => replace b with a end.
    2:{ destruct fast; [rewrite !col2imLUT_gen by auto|rewrite !col2im_gen by auto]; reflexivity. }
    intros E1 E2. rewrite E1 in E2. inversion E2. auto.
Qed.
End Any.

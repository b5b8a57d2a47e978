(* FitLay3.v - constructors, clones and updated parameters of well-sized layers *)
From Coq Require Import String List Arith Bool Lia ZArith.
From Verif Require Import Base Scalar Mat SpecMat MatFacts MatProofs MatLoops Loss LayMat LayImg Layer Net LayKit Act ActMono
  SpecInit InitProofs TrainProofs1 NetProofs2 SpecFit FitLay1.
Import ListNotations.
Local Open Scope nat_scope.

Section Any.
Variable F : FOps.
Notation M := (mat F).
Hint Resolve gen_shp shp_wf mwf_gen resize_shp mresize_wf : fit.

Lemma wf_empty : mwf (mempty F). Proof. reflexivity. Qed.
Lemma none_empty : none (mempty F). Proof. split; reflexivity. Qed.
Lemma none_resize : forall m : M, mwf m -> none (mresize F m 0 0).
Proof. intros m H. split; [apply mresize_wf; auto|]. apply (shp_size _ _ _ _ (resize_shp F m 0 0 H)). Qed.
Hint Resolve wf_empty none_empty : fit.

(* the gradients of a new object *)
Lemma new_grads : forall r kd wi bi (l : layer F), layNew F r kd wi bi = Ok l ->
  mwf (lgw l) /\ mwf (lgb l) /\
  match kd with KGlobalGain => shp 1 1 (lgw l) | KGlobalBias => shp 1 1 (lgb l) | KGlobalAffine => shp 1 1 (lgw l) /\ shp 1 1 (lgb l) | _ => True end.
Proof.
  intros r kd wi bi l H. unfold layNew in H. apply bind_inv in H. destruct H as (l0 & E0 & E).
  destruct kd; unfold layCtor in E0; cbn [lk layBase] in E0; binp E0; try (inversion E0; subst l0; clear E0); unfold layInit in E; cbn [lk setP layBase lw lb lgw lgb lwi lbi] in E;
    try (destruct ((nI =? 0) || (nO =? 0)); [inversion E; subst l; cbn; auto with fit; fail|]); try (binp E; inversion E; subst l; cbn [setP setW setB setWB setGW setRnn lgw lgb layBase mempty]; auto with fit; fail).
  - binp E. inversion E; subst l. cbn [setP setW lgw lgb]. split; [|auto with fit].
    unfold msetConst in *. match goal with H : mapLoop _ (mresize F ?a ?b ?c) = Ok _ |- _ => destruct (mresize_gen F a b c wf_empty) as [f Ef]; rewrite Ef, mapLoop_gen in H; injection H as <- end. apply mwf_gen.
Qed.

Lemma init_shape : forall s g r c (m : M), knownInit s -> initTo F s g (mempty F) r c m -> shp r c m.
Proof.
  intros s g r c m K [[N _]|(f & -> & _)]; [|apply gen_shp].
  exfalso. specialize (N (f0 F)). unfold knownInit in K. simpl in K. repeat destruct K as [<-|K]; try (vm_compute in N; discriminate). contradiction.
Qed.

Lemma new_fits : forall r kd wi bi k m, plan kd wi bi k m -> exists l : layer F, layNew F r kd wi bi = Ok l /\ fits l k m /\ lk l = kd /\ ltrain l = false /\ lfirst l = false.
Proof.
  intros r kd wi bi k m (Hk & Hm & P).
  assert (G : goodKind F kd). { destruct kd; cbn [goodKind]; auto; try tauto. destruct P as (A & B & _). unfold poolOk. rewrite (proj2 (Nat.eqb_neq _ _) A), (proj2 (Nat.eqb_neq _ _) B). reflexivity. }
  destruct (layNew_ok F r kd wi bi G) as (l & E & K & K1 & K2 & K3 & K4 & K5 & K6 & K7). exists l. split; auto. split; [|auto].
  destruct (new_layer F _ _ _ _ _ E) as (_ & _ & _ & _ & _ & _ & _ & W & B). destruct (new_grads _ _ _ _ _ E) as (G1 & G2 & G3).
  unfold fits. rewrite K, K2, K5. split; auto. split; auto. split; auto. split; auto. split; [apply wf_empty|].
  destruct kd; cbn [weightShape biasShape otherWeight otherBias] in W, B; try contradiction;
    try solve [rewrite ?W, ?B; intuition (auto with fit; try (left; auto with fit))].
  - destruct P as (-> & -> & P1 & P2). rewrite (proj2 (Nat.eqb_neq nI 0)) in W, B by lia. rewrite (proj2 (Nat.eqb_neq nO 0)) in W, B by lia. cbn [orb] in W, B. split; [refine (init_shape _ _ _ _ _ _ W)|refine (init_shape _ _ _ _ _ _ B)]; auto.
  - destruct P as (-> & -> & P1). rewrite (proj2 (Nat.eqb_neq nI 0)) in W by lia. rewrite (proj2 (Nat.eqb_neq nO 0)) in W by lia. cbn [orb] in W. split; [refine (init_shape _ _ _ _ _ _ W); auto|rewrite B; auto with fit].
  - destruct P as (-> & -> & P). rewrite W. split; auto. split; auto. split; [auto with fit|]. refine (init_shape _ _ _ _ _ _ B); auto.
  - destruct P as ((f & ->) & -> & P). rewrite W. split; [eauto|]. split; auto. split; [auto with fit|]. refine (init_shape _ _ _ _ _ _ B); auto.
  - destruct P as (P & P1). rewrite B. split; auto. split; [refine (init_shape _ _ _ _ _ _ W); auto|auto with fit].
  - destruct P as (P & P1 & P2). split; auto. split; [refine (init_shape _ _ _ _ _ _ W)|refine (init_shape _ _ _ _ _ _ B)]; auto.
  - destruct P as (P1 & P2 & P3). rewrite W, B. repeat (split; [solve [auto]|]). split; [|auto with fit]. replace (vI v * vkr v * vkc v) with (vkr v * vkc v * vI v) by ring. auto with fit.
Qed.

Lemma clone_fits : forall r (l : layer F) k m, fits l k m -> exists c, layClone F r l = Ok c /\ fits c k m /\ ltrain c = false /\ lfirst c = false.
Proof.
  intros r l k m H. pose proof H as H'. unfold fits in H. destruct H as (Hk & Hm & W1 & W2 & W3 & H).
  assert (CK : cloneKind F (lk l) = Ok (match lk l with KConv v _ => KConv v true | x => x end)).
  { destruct (lk l); try reflexivity; try contradiction.
    - destruct H as (_ & D & _). destruct a; [|congruence]. cbn. rewrite (proj2 (activations_complete _)). reflexivity.
    - destruct H as (_ & D1 & D2 & _). destruct a1; [|congruence]. destruct a2; [|congruence]. cbn. rewrite !(proj2 (activations_complete _)). reflexivity. }
  unfold layClone. rewrite CK. cbn [bind]. set (kd := match lk l with KConv v _ => KConv v true | x => x end).
  assert (G : goodKind F kd). { unfold kd. destruct (lk l); cbn [goodKind]; auto; try tauto. destruct H as (A & B & _). unfold poolOk. rewrite (proj2 (Nat.eqb_neq _ _) A), (proj2 (Nat.eqb_neq _ _) B). reflexivity. }
  destruct (layNew_ok F r kd (match lk l with KDot _ _ => "GlorotUniform"%string | _ => lwi l end) (lbi l) G) as (n & E & K & K1 & K2 & K3 & K4 & K5 & K6 & K7).
  destruct (new_layer F _ _ _ _ _ E) as (_ & _ & _ & _ & _ & _ & _ & W & B). destruct (new_grads _ _ _ _ _ E) as (G1 & G2 & G3).
  rewrite E. cbn [bind]. eexists. split; [reflexivity|]. subst kd.
  destruct (lk l) eqn:KL; try contradiction; cbn [weightShape biasShape otherWeight otherBias] in W, B;
    (split; [|split; cbn [setP setW setB setWB ltrain lfirst]; auto]); unfold fits; cbn [setP setW setB setWB lk lw lb lgw lgb lmem lbi]; rewrite K, K5, ?K2, ?W, ?B;
    (split; [exact Hk|]); (split; [exact Hm|]); try solve [repeat (split; [solve [auto with fit]|]); intuition (auto with fit)].
Qed.

(** * parameters replaced by others of the same sizes *)
Ltac go := match goal with |- shp _ _ _ => assumption | |- _ /\ _ => split; [go|go] | |- sizedOr _ _ _ => right; assumption | |- _ \/ _ => first [assumption | right; go | left; go] | |- _ => solve [eauto] end.
Lemma shp_none : forall r c (m : M), shp r c m -> none m -> negb (msize m =? 0) = true -> False.
Proof. intros r c m _ H G. eapply none_no; eauto. Qed.
Lemma fits_weights : forall (l : layer F) k m w g, fits l k m -> hasWeights l = true -> shp (mrows (lw l)) (mcols (lw l)) w -> shp (mrows (lw l)) (mcols (lw l)) g ->
  fits (setP l w g (lb l) (lgb l)) k m.
Proof.
  intros l k m w g H HW Sw Sg. unfold fits in *. cbn [setP lk lw lb lgw lgb lmem lbi]. destruct H as (Hk & Hm & W1 & W2 & W3 & H). unfold hasWeights in HW.
  split; auto. split; auto. split; [eapply shp_wf; eauto|]. split; auto. split; auto.
  assert (D : forall r c, shp r c (lw l) -> shp r c w /\ shp r c g). { intros r c (_ & A & B). rewrite A, B in Sw, Sg. auto. }
  assert (NW : none (lw l) -> False) by (intro N; eapply none_no; eauto).
  destruct (lk l); try contradiction;
    repeat match goal with H : _ /\ _ |- _ => destruct H | H : sizedOr _ _ (lw l) |- _ => destruct H | H : none (lw l) \/ _ |- _ => destruct H | H : none (lw l) /\ _ \/ _ |- _ => destruct H
      | H : none (lw l) |- _ => destruct (NW H) | H : shp _ _ (lw l) |- _ => destruct (D _ _ H); clear H end; go.
Qed.
Lemma fits_biases : forall (l : layer F) k m b g, fits l k m -> hasBiases l = true -> shp (mrows (lb l)) (mcols (lb l)) b -> shp (mrows (lb l)) (mcols (lb l)) g ->
  fits (setP l (lw l) (lgw l) b g) k m.
Proof.
  intros l k m b g H HB Sb Sg. unfold fits in *. cbn [setP lk lw lb lgw lgb lmem lbi]. destruct H as (Hk & Hm & W1 & W2 & W3 & H). unfold hasBiases in HB.
  split; auto. split; auto. split; auto. split; [eapply shp_wf; eauto|]. split; auto.
  assert (D : forall r c, shp r c (lb l) -> shp r c b /\ shp r c g). { intros r c (_ & A & B). rewrite A, B in Sb, Sg. auto. }
  assert (NB : none (lb l) -> False) by (intro N; eapply none_no; eauto).
  destruct (lk l); try contradiction;
    repeat match goal with H : _ /\ _ |- _ => destruct H | H : sizedOr _ _ (lb l) |- _ => destruct H | H : none _ /\ none (lb l) \/ _ |- _ => destruct H
      | H : none (lb l) |- _ => destruct (NB H) | H : shp _ _ (lb l) |- _ => destruct (D _ _ H); clear H end; go.
Qed.
Lemma fits_setTrain : forall (l : layer F) k m b, fits l k m -> fits (setTrain l b) k m.
Proof. intros l k m b H. exact H. Qed.
Lemma fits_setFirst : forall (l : layer F) k m b, fits l k m -> fits (setFirst l b) k m.
Proof. intros l k m b H. exact H. Qed.
End Any.

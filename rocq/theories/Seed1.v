(* Seed1.v - when the forward pass and the copy of a layer do not depend on the random draws *)
From Coq Require Import String List Arith Bool Lia ZArith.
From Verif Require Import Base Scalar Mat SpecMat LayMat LayImg LayRnn Layer Net MatProofs NetProofs1 NetProofs2 TrainProofs1 NetTrain FitRun SpecSeed.
Import ListNotations.
Local Open Scope nat_scope.
Set Implicit Arguments.

Lemma forL_eq : forall I S (K : S -> Prop) (l : list I) (f g : I -> S -> res S) s, K s -> (forall i s, In i l -> K s -> f i s = g i s) ->
  (forall i s s', In i l -> K s -> g i s = Ok s' -> K s') -> forL l f s = forL l g s.
Proof.
  intros I S K l f g. induction l as [|i l IH]; intros s Hs Hf Hg; simpl; auto. rewrite (Hf i s); auto with datatypes.
  destruct (g i s) as [s'|e] eqn:E; simpl; auto. apply IH.
  - apply (Hg i s s'); auto with datatypes.
  - intros; apply Hf; auto with datatypes.
  - intros j s1 s2 Hj; apply Hg; auto with datatypes.
Qed.
Lemma forN_eq : forall S (K : S -> Prop) n (f g : nat -> S -> res S) s, K s -> (forall i s, i < n -> K s -> f i s = g i s) ->
  (forall i s s', i < n -> K s -> g i s = Ok s' -> K s') -> forN n f s = forN n g s.
Proof. intros S K n f g s Hs Hf Hg. unfold forN. apply (@forL_eq _ _ K); auto; intros i; intros; rewrite in_seq in *; [apply Hf|eapply Hg]; eauto; lia. Qed.
Lemma bind_eq : forall A B (a b : res A) (f g : A -> res B), a = b -> (forall x, b = Ok x -> f x = g x) -> bind a f = bind b g.
Proof. intros A B a b f g -> H. destruct b; simpl; auto. Qed.

Section Layer.
Variable F : FOps.
Notation M := (mat F).

Lemma forward_seed : forall r1 r2 l x o, calm F l -> silent F l \/ ltrain l = false -> layForward F r1 l x o = layForward F r2 l x o.
Proof.
  intros r1 r2 l x o C H. unfold silent in H. unfold calm in *. unfold layForward.
  destruct (lk l) eqn:K; try reflexivity; try contradiction;
    try (assert (Tr : ltrain l = false) by (destruct H as [[_ H]|H]; [contradiction|exact H]); rewrite Tr; reflexivity).
  destruct C as [C|C]; rewrite C; reflexivity.
Qed.
Lemma mwf_mempty : mwf (mempty F). Proof. reflexivity. Qed.

Lemma new_seed : forall r1 r2 k wi bi,
  match k with KSimpleRnn _ _ | KSimplestRnn _ => False | _ => True end ->
  match layNew F r1 k wi bi, layNew F r2 k wi bi with
  | Ok a, Ok b => lk a = k /\ lk b = k /\ lwi a = wi /\ lwi b = wi /\ lbi a = bi /\ lbi b = bi /\ ltrain a = false /\ ltrain b = false /\ lfirst a = lfirst b /\ lmem a = lmem b /\ lns a = lns b /\ lrnn a = lrnn b /\ lgb a = lgb b /\
                  match k with KConv _ _ => lb a = lb b | KDense _ _ | KTDDense _ _ => lgw a = lgw b | KDot _ _ | KTDDot _ _ => lgw a = lgw b /\ lb a = lb b
                               | KChannelBias _ _ _ | KTDBias _ => lgw a = lgw b /\ lw a = lw b | _ => a = b end
  | Err a, Err b => a = b
  | _, _ => False
  end.
Proof.
  intros r1 r2 k wi bi HK. unfold layNew.
  destruct k; try contradiction; cbn [layCtor layBase lk bind];
    try (unfold layInit; cbn [layBase lk setP bind]; repeat split; fail);
    try (destruct (poolOk p) as [u|e]; cbn; repeat split; fail);
    try (unfold layInit; cbn; repeat split; fail).
  - unfold layInit; cbn. destruct ((nI =? 0) || (nO =? 0)); [cbn; repeat split|].
    destruct (initCompute_ok F wi (rf r1) (mempty F) nI nO mwf_mempty) as (w1 & -> & _). destruct (initCompute_ok F wi (rf r2) (mempty F) nI nO mwf_mempty) as (w2 & -> & _). cbn.
    destruct (initCompute_ok F bi (after F r1 (nI * nO)) (mempty F) 1 nO mwf_mempty) as (b1 & -> & _). destruct (initCompute_ok F bi (after F r2 (nI * nO)) (mempty F) 1 nO mwf_mempty) as (b2 & -> & _).
    cbn. repeat split.
  - unfold layInit; cbn. destruct ((nI =? 0) || (nO =? 0)); [cbn; repeat split|].
    destruct (initCompute_ok F wi (rf r1) (mempty F) nI nO mwf_mempty) as (w1 & -> & _). destruct (initCompute_ok F wi (rf r2) (mempty F) nI nO mwf_mempty) as (w2 & -> & _). cbn. repeat split.
  - unfold layInit; cbn.
    destruct (initCompute_ok F bi (rf r1) (mempty F) 1 nH mwf_mempty) as (w1 & -> & _). destruct (initCompute_ok F bi (rf r2) (mempty F) 1 nH mwf_mempty) as (w2 & -> & _). cbn. repeat split.
  - destruct a; cbn; repeat split.
  - unfold layInit; cbn.
    destruct (initCompute_ok F bi (rf r1) (mempty F) 1 fs mwf_mempty) as (w1 & -> & _). destruct (initCompute_ok F bi (rf r2) (mempty F) 1 fs mwf_mempty) as (w2 & -> & _). cbn. repeat split.
  - unfold layInit; cbn.
    destruct (initCompute_ok F wi (rf r1) (mempty F) fi fo mwf_mempty) as (w1 & -> & _). destruct (initCompute_ok F wi (rf r2) (mempty F) fi fo mwf_mempty) as (w2 & -> & _). cbn. repeat split.
  - unfold layInit; cbn.
    destruct (initCompute_ok F wi (rf r1) (mempty F) fi fo mwf_mempty) as (w1 & -> & _). destruct (initCompute_ok F wi (rf r2) (mempty F) fi fo mwf_mempty) as (w2 & -> & _). cbn.
    destruct (initCompute_ok F bi (after F r1 (fi * fo)) (mempty F) 1 fo mwf_mempty) as (b1 & -> & _). destruct (initCompute_ok F bi (after F r2 (fi * fo)) (mempty F) 1 fo mwf_mempty) as (b2 & -> & _).
    cbn. repeat split.
  - destruct (convOk v) as [u|e]; cbn; [|reflexivity]. destruct (lut v) as [u'|e]; cbn; [|reflexivity]. unfold layInit; cbn [lk layBase].
    pose proof (@mresize_wf F (mempty F) (vO v) (vkr v * vkc v * vI v) mwf_mempty) as W0.
    set (a := flm F Lsqrt _).
    assert (G : forall r, exists w g, bind (setRandom F (rf r) (mresize F (mempty F) (vO v) (vkr v * vkc v * vI v))) (fun w => bind (mscale F w a) (fun w0 => bind (msetConst F (mresize F (mempty F) (mrows w0) (mcols w0)) (f0 F)) (fun g => Ok (setP (layBase F (KConv v fast) wi bi) w0 g (mempty F) (mempty F)))))
        = Ok (setP (layBase F (KConv v fast) wi bi) w g (mempty F) (mempty F))).
    { intros r. destruct (setRandom_ok F (rf r) _ W0) as (w1 & E1 & W1 & _). rewrite E1. cbn [bind]. destruct (mscale_ok F w1 a W1) as (w2 & E2 & W2 & _). rewrite E2. cbn [bind].
      destruct (msetConst_ok F _ (f0 F) (@mresize_wf F (mempty F) (mrows w2) (mcols w2) mwf_mempty)) as (w3 & E3 & _). rewrite E3. cbn [bind]. eauto. }
    cbn [lw lgw lb lgb layBase] in *. destruct (G r1) as (w1 & g1 & ->). destruct (G r2) as (w2 & g2 & ->). cbn. repeat split.
Qed.

Lemma clone_seed : forall r1 r2 l, calm F l -> layClone F r1 l = layClone F r2 l.
Proof.
  intros r1 r2 l C. unfold layClone. destruct (cloneKind F (lk l)) as [k|e] eqn:CK; [|reflexivity]. cbn [bind].
  assert (HK : match k with KSimpleRnn _ _ | KSimplestRnn _ => False | _ => True end).
  { unfold calm in C. destruct (lk l); simpl in CK; try contradiction; binp CK; inversion CK; subst; auto. }
  pose proof (@new_seed r1 r2 k (match lk l with KDot _ _ => "GlorotUniform"%string | _ => lwi l end) (lbi l) HK) as N.
  destruct (layNew F r1 k _ (lbi l)) as [a|e1], (layNew F r2 k _ (lbi l)) as [b|e2]; try contradiction; [|congruence].
  destruct N as (A1 & A2 & A3 & A4 & A5 & A6 & A7 & A8 & A9 & A10 & A11 & A12 & A13 & N). cbn [bind]. f_equal.
  unfold calm in C. destruct (lk l); simpl in CK; try contradiction; binp CK; apply Ok_inj in CK; rewrite <- CK in *; cbn in N; try (rewrite N; reflexivity);
    try match type of N with _ /\ _ => destruct N as [N1 N2] end; unfold setWB, setW, setB, setP; f_equal; congruence.
Qed.
Lemma clone_kind : forall r l c, layClone F r l = Ok c -> calm F l -> calm F c /\ (silent F l -> silent F c) /\ ltrain c = false.
Proof.
  intros r l c E C. unfold layClone in E. destruct (cloneKind F (lk l)) as [k|e] eqn:CK; [|discriminate]. cbn [bind] in E.
  assert (HK : match k with KSimpleRnn _ _ | KSimplestRnn _ => False | _ => True end).
  { unfold calm in C. destruct (lk l); simpl in CK; try contradiction; binp CK; inversion CK; subst; auto. }
  pose proof (@new_seed r r k (match lk l with KDot _ _ => "GlorotUniform"%string | _ => lwi l end) (lbi l) HK) as N.
  destruct (layNew F r k _ (lbi l)) as [a|e1]; [|discriminate]. cbn [bind] in E. apply Ok_inj in E.
  destruct N as (A1 & _ & _ & _ & A5 & _ & A7 & _).
  assert (E' : lk c = k /\ lbi c = lbi l /\ ltrain c = false).
  { subst c. unfold calm in C. destruct (lk l); try contradiction; auto. }
  destruct E' as (K1 & K2 & K3). unfold silent, calm in *. rewrite K1, K2, K3.
  destruct (lk l); simpl in CK; try contradiction; binp CK; apply Ok_inj in CK; rewrite <- CK; auto.
Qed.
End Layer.

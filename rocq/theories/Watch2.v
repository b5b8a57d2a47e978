(* Watch2.v - without keep-best and patience, the validation data do not influence the training *)
From Coq Require Import String List Arith Bool Lia ZArith.
From Verif Require Import Base Scalar Mat SpecMat LayMat LayImg LayRnn Layer Net MatProofs NetProofs1 NetProofs2 Loss Optim Regul NetTrain TrainProofs1 TrainProofs3 TrainProofs4 FitRun StaleNet SpecSeed Seed1 Seed2 SpecWatch Watch1.
Import ListNotations.
Local Open Scope nat_scope.
Set Implicit Arguments.

Section Watch.
Variable F : FOps.
Variable cabs : F -> res F.
Notation M := (mat F).

(** * an evaluation changes no object *)
Definition U (l : layer F) : Prop := unmoved F l /\ ltrain l = false.
Lemma maxPool_still : forall p (mx x o mx' o' : M), fwdMaxPool F p false mx x o = Ok (mx', o') -> mx' = mx.
Proof.
  intros p mx x o mx' o' E. unfold fwdMaxPool, loop2 in E. cbv zeta in E.
  apply (forN_postI _ (fun _ q => fst q = mx)) in E; auto. intros i [a b] s1 _ I E1. apply (forN_postI _ (fun _ q => fst q = mx)) in E1; auto.
  intros i2 [a2 b2] s2 _ I2 E2. apply (forN_postI _ (fun _ q => fst q = mx)) in E2; auto. intros i3 [a3 b3] s3 _ I3 E3. apply (forN_postI _ (fun _ q => fst q = mx)) in E3; auto.
  intros i4 [a4 b4] s4 _ I4 E4. binp E4. cbn in *. repeat match goal with H : Ok _ = Ok _ |- _ => apply Ok_inj in H end. subst. reflexivity.
Qed.
Lemma globalMaxPool_still : forall a b c (mx x o mx' o' : M), fwdGlobalMaxPool F a b c false mx x o = Ok (mx', o') -> mx' = mx.
Proof.
  intros a b c mx x o mx' o' E. unfold fwdGlobalMaxPool, loop2 in E. cbv zeta in E.
  apply (forN_postI _ (fun _ q => fst q = mx)) in E; auto. intros i [a1 b1] s1 _ I E1. apply (forN_postI _ (fun _ q => fst q = mx)) in E1; auto.
  intros i2 [a2 b2] s2 _ I2 E2. binp E2. cbn in *. repeat match goal with H : Ok _ = Ok _ |- _ => apply Ok_inj in H end. subst. reflexivity.
Qed.
Lemma forward_unmoved : forall r l x o l' o', U l -> layForward F r l x o = Ok (l', o') -> l' = l.
Proof.
  intros r l x o l' o' [H T] E. unfold unmoved in H. unfold layForward in E. destruct (lk l) eqn:K; try contradiction; rewrite ?T in E; binp E; try (inversion E; subst; reflexivity); apply Ok_inj in E; injection E; intros _ <-; clear E.
  - cbn in Ex. unfold fwdRRelu in Ex. binp Ex. inversion Ex; subst. destruct l; reflexivity.
  - cbn in Ex. inversion Ex; subst. destruct l; reflexivity.
  - cbn in Ex. inversion Ex; subst. destruct l; reflexivity.
  - apply maxPool_still in Ex. subst. destruct l; reflexivity.
  - apply globalMaxPool_still in Ex. subst. destruct l; reflexivity.
Qed.
Lemma hset_same : forall h a l h', hget F h a = Ok l -> hset F h a l = Ok h' -> h' = h.
Proof.
  intros h a l h' E H. rewrite (hset_ok F h a l l E) in H. apply Ok_inj in H. subst h'. apply list_ext. intros i. rewrite nth_error_upd.
  destruct (Nat.eqb_spec a i) as [<-|]; cbn [andb]; auto. pose proof E as E2. apply hget_ok in E. apply hget_lt in E2. apply Nat.ltb_lt in E2. rewrite E2. symmetry. exact E.
Qed.
Lemma predict_unmoved : forall rs h n x o h' o', all U h (nlay n) -> predict F rs h n x o = Ok (h', o') -> h' = h.
Proof.
  intros rs h n x o h' o' H E. unfold predict in E. binp E. inversion E; subst.
  apply (forN_postI _ (fun _ p => fst (fst p) = h)) in Ex; auto. intros i [[h1 a] b] s' _ I Eb. cbn in I. subst h1. binp Eb. inversion Eb; subst. cbn.
  unfold fwdLayer in Ex0. binp Ex0. inversion Ex0; subst. assert (l = x1) by (eapply forward_unmoved; eauto; eapply all_In; eauto). subst. eapply hset_same; eauto.
Qed.
Lemma accuracy_unmoved : forall rs h n t x y h' l a, all U h (nlay n) -> lossAccuracy F cabs rs h n t x y = Ok (h', l, a) -> h' = h.
Proof.
  intros rs h n t x y h' l a H E. unfold lossAccuracy in E. destruct ((length (nlay n) =? 0) || (mrows x =? 0)); [inversion E; subst; auto|].
  destruct (cValBatch F (tc F t) =? 0); [discriminate|]. binp E. inversion E; subst.
  apply (forN_postI _ (fun _ p => fst (fst (fst (fst p))) = h)) in Ex; auto.
  intros i [[[[h1 o1] ml1] lo1] g1] s' _ I Eb. cbn in I. subst h1. binp Eb. inversion Eb; subst. cbn in *. eapply predict_unmoved; eauto.
Qed.

(** * the run without validation data *)
Definition erH (H : hist F) : hist F := mkHist F (hTL F H) (hTA F H) [] [] (fTL F H) (fTA F H) (flit F 10000000000 1) (f0 F).
Definition nv (t : trainer F) : trainer F := ob erH None (tcallback F t) t.
Definition snv (s : fstate F) : fstate F := mkFS F (sh F s) (sn F s) (nv (st F s)) (sbest F s) (sacc F s) (sloss F s) (sreb F s) (map erH (scalls F s)).
Definition K (l : layer F) : Prop := unmoved F l.
Lemma K_obj : obj K. Proof. intros l l' (A & _) H. unfold K, unmoved in *. rewrite A. exact H. Qed.
Definition okS (s : fstate F) : Prop := all K (sh F s) (nlay (sn F s)) /\ cKeep F (tc F (st F s)) = false /\ cPatience F (tc F (st F s)) = (-1)%Z.

Lemma epoch_val : forall R mS mT e s s', okS s -> epoch F cabs R mS mT e s = Ok s' -> okS s' /\ epoch F cabs R mS mT e (snv s) = Ok (snv s').
Proof.
  intros R mS mT e [h n t b A L r c] s' (H1 & H2 & H3) E. cbn in H1, H2, H3. unfold epoch in *. unfold snv at 1 2 3 4 5 6 7 8. cbn [sh sn st sbest sacc sloss sreb scalls] in *.
  unfold nv at 1. rewrite epochTrain_ob. destruct (epochTrain F cabs R e h n t mS mT) as [[[h1 n1] t1]|] eqn:E1; cbn [bind rmap] in *; [|discriminate].
  pose proof (epochTrain_post F cabs _ _ _ _ _ _ _ _ _ _ E1) as (T1 & Fz & N1). destruct Fz as (Fc & _ & _ & _ & _ & _ & _ & _ & _ & _ & Fb & _).
  assert (U1 : all U h1 (nlay n1)).
  { unfold epochTrain in E1. binp E1. inversion E1; subst. pose proof (setTrain_touch F _ _ _ _ _ Ex0) as [_ Z]. subst n0.
    intros a0 l Ha El. split; [exact (@all_touch F K _ _ _ _ K_obj T1 H1 a0 l Ha El)|eapply train_false; eauto]. }
  assert (K1 : all K h1 (nlay n1)) by (eapply all_imp; [|exact U1]; intros l [Q _]; exact Q).
  destruct (epochStats F cabs R e h1 n1 t1 (mrows mS)) as [[[[h2 t2] l] a]|] eqn:E2; cbn [bind] in *; [|discriminate].
  assert (St : h2 = h1 /\ tc F t2 = tc F t1 /\ tcallback F t2 = tcallback F t1 /\ exists l' a', epochStats F cabs R e h1 n1 (ob erH None (tcallback F t) t1) (mrows mS) = Ok (h1, nv t2, l', a')).
  { unfold epochStats in E2 |- *. cbv zeta in E2 |- *. destruct (tval F t1) as [[xv yv]|] eqn:Ev.
    - binp E2. apply accuracy_unmoved in Ex; auto. inversion E2; subst. do 3 (split; [reflexivity|]). change (tval F (ob erH None (tcallback F t) t1)) with (@None (M * M)).
      unfold nv. rewrite <- Fb. clear; destruct n as [? [] ?]; do 2 eexists; reflexivity.
    - inversion E2; subst. do 3 (split; [reflexivity|]). change (tval F (ob erH None (tcallback F t) t1)) with (@None (M * M)). unfold nv. rewrite <- Fb. clear; destruct n as [? [] ?]; do 2 eexists; reflexivity. }
  destruct St as (-> & C1 & C2 & l' & a' & ->). cbn [bind].
  assert (B : forall c0 l a s, tc F (st F s) = c0 -> cKeep F c0 = false -> cPatience F c0 = (-1)%Z -> epochBest F R e s l a = Ok s).
  { intros c0 l0 a0 [h0 n0 t0 b0 A0 L0 r0 cc0] Ec K0 P0. cbn in Ec. unfold epochBest. rewrite Ec, K0, P0. reflexivity. }
  rewrite (B (tc F t)) in E by (cbn; congruence || auto). rewrite (B (tc F t)) by (cbn; congruence || auto). cbn [bind] in *. apply Ok_inj in E. subst s'.
  assert (Ec : tc F t2 = tc F t) by congruence.
  unfold epochReboost. cbn [tc nv ob]. change (tc F (nv t2)) with (tc F t2). change (tcallback F (nv t2)) with (tcallback F t2). rewrite Ec.
  assert (Q : map erH (if tcallback F t2 then c ++ [th F t2] else c) = if tcallback F t2 then map erH c ++ [th F (nv t2)] else map erH c) by (destruct (tcallback F t2); [apply map_app|reflexivity]).
  destruct (cReboost F (tc F t) =? -1)%Z; [|destruct (r <? cReboost F (tc F t))%Z]; (split; [split; [exact K1|split; cbn; rewrite Ec; auto]|unfold snv; cbn [sh sn st sbest sacc sloss sreb scalls]; rewrite Q; reflexivity]).
Qed.

Theorem fit_no_validation : forall R h n t h' n' t' calls, cKeep F (tc F t) = false -> cPatience F (tc F t) = (-1)%Z -> allLayers F (unmoved F) h n -> nlay n <> [] ->
  fit F cabs R h n t = Ok (h', n', t', calls) -> exists t2 calls2, fit F cabs R h n (withValidation F None t) = Ok (h', n', t2, calls2) /\ trainPart F t2 = trainPart F t' /\ length calls2 = length calls.
Proof.
  intros R h n t h' n' t' calls Hk Hp HU Hne E. unfold fit in *. change (withValidation F None t) with (ob (fun H => H) None (tcallback F t) t). rewrite setNet_ob.
  destruct (setNet F h n t) as [[h1 t1]|] eqn:E1; cbn [bind rmap hob fst snd] in *; [|discriminate].
  assert (K1 : all K h1 (nlay n)).
  { pose proof (setNet_post F _ _ _ _ _ E1) as (_ & P1 & P2 & _). intros a l Ha El. destruct (nlay n) as [|a0 ls] eqn:En; [contradiction|]. destruct (Nat.eq_dec a a0) as [->|Na].
    - destruct (P2 a0 eq_refl) as (l0 & L0 & L1). rewrite El in L1. apply Ok_inj in L1. subst l. apply (HU a0 l0); auto. rewrite En; left; auto.
    - apply (HU a l). rewrite En; auto. unfold hget, rget in *. rewrite <- (P1 a); [exact El|cbn; congruence]. }
  apply setNet_post in E1. destruct E1 as (_ & _ & _ & _ & _ & _ & P1 & P2 & P3 & P4 & P5 & _).
  change (tnl F (ob (fun H => H) None (tcallback F t) t1)) with (tnl F t1). destruct (Nat.eqb_spec (tnl F t1) 0) as [Z|_]; [rewrite P2 in Z; apply length_zero_iff_nil in Z; contradiction|].
  change (ttrain F (ob (fun H => H) None (tcallback F t) t1)) with (ttrain F t1). destruct (ttrain F t1) as [[mS mT]|]; [|discriminate].
  destruct (fitStart F cabs R h1 n t1 mS mT) as [s|] eqn:E2; cbn [bind] in E; [|discriminate].
  assert (S : fitStart F cabs R h1 n (ob (fun H => H) None (tcallback F t) t1) mS mT = Ok (snv s) /\ okS s).
  { assert (Uc : forall u, updateClassWeight F n t1 = Ok u -> updateClassWeight F n (ob (fun H => H) None (tcallback F t) t1) = Ok (ob (fun H => H) None (tcallback F t) u) /\ tc F u = tc F t1 /\ tcallback F u = tcallback F t1).
    { intros u Eu. unfold updateClassWeight in *. change (tc F (ob (fun H => H) None (tcallback F t) t1)) with (tc F t1). change (ttrain F (ob (fun H => H) None (tcallback F t) t1)) with (ttrain F t1).
      destruct (negb (nclass n) || negb (cBalancing F (tc F t1))); [inversion Eu; subst; auto|]. destruct (ttrain F t1) as [[q y]|]; [|discriminate]. destruct (classWeight F y); [|discriminate]. cbn [bind] in *. inversion Eu; subst; auto. }
    unfold fitStart in E2 |- *. destruct (updateClassWeight F n t1) as [u|]; [|discriminate]. destruct (Uc u eq_refl) as (-> & Cu & Bu). cbn [bind] in *. rewrite <- P1, <- Cu in Hk, Hp.
    change (cKeep F (tc F u) = false) in Hk. cbn [tc setOpts setAdj setHist setCur] in E2. rewrite Hk in E2. cbn [tc setOpts setAdj setHist setCur ob]. rewrite Hk. apply Ok_inj in E2. subst s. split; [|split; [exact K1|split; auto]].
    unfold snv, nv. cbn [sh sn st sbest sacc sloss sreb scalls map tcallback setOpts setAdj setHist setCur]. rewrite Bu, P5. reflexivity. }
  destruct S as [S O]. rewrite S. cbn [bind]. change (tc F (ob (fun H => H) None (tcallback F t) t1)) with (tc F t1).
  destruct (forN (Z.to_nat (cEpochs F (tc F t1))) (epoch F cabs R mS mT) s) as [s2|] eqn:E3; cbn [bind] in E; [|discriminate].
  assert (G : forall k s s2, okS s -> forN k (epoch F cabs R mS mT) s = Ok s2 -> okS s2 /\ forN k (epoch F cabs R mS mT) (snv s) = Ok (snv s2)).
  { clear. intros k. unfold forN. generalize (seq 0 k). induction l as [|i l IH]; intros s s2 O E; cbn in *; [apply Ok_inj in E; subst; auto|].
    destruct (epoch F cabs R mS mT i s) as [s1|] eqn:E1; [|discriminate]. cbn [bind] in E. destruct (@epoch_val _ _ _ _ _ _ O E1) as [O1 E2]. rewrite E2. cbn [bind]. apply IH; auto. }
  destruct (G _ _ _ O E3) as [(_ & O2 & _) E4]. rewrite E4. cbn [bind]. unfold fitEnd in *. unfold snv. cbn [sh sn st sbest sacc sloss sreb scalls]. change (tc F (nv (st F s2))) with (tc F (st F s2)). rewrite O2 in *.
  cbn [bind] in *. destruct (netClear F (sh F s2) (sbest F s2)) as [[h4 n4]|]; [|discriminate]. cbn [bind] in *. apply Ok_inj in E. injection E; intros; subst. do 2 eexists. split; [reflexivity|]. split; [reflexivity|apply map_length].
Qed.
(* so two validation sets give the same training *)
Theorem fit_validations : forall R h n t v h1 n1 t1 c1 h2 n2 t2 c2, cKeep F (tc F t) = false -> cPatience F (tc F t) = (-1)%Z -> allLayers F (unmoved F) h n -> nlay n <> [] ->
  fit F cabs R h n t = Ok (h1, n1, t1, c1) -> fit F cabs R h n (withValidation F v t) = Ok (h2, n2, t2, c2) -> h1 = h2 /\ n1 = n2 /\ trainPart F t1 = trainPart F t2 /\ length c1 = length c2.
Proof.
  intros R h n t v h1 n1 t1 c1 h2 n2 t2 c2 Hk Hp HU Hne E1 E2. destruct (@fit_no_validation R h n t _ _ _ _ Hk Hp HU Hne E1) as (ta & ca & Ea & A1 & A2).
  destruct (@fit_no_validation R h n (withValidation F v t) _ _ _ _ Hk Hp HU Hne E2) as (tb & cb & Eb & B1 & B2). change (withValidation F None (withValidation F v t)) with (withValidation F None t) in Eb.
  rewrite Ea in Eb. inversion Eb; subst. rewrite A1 in B1. split; [reflexivity|]. split; [reflexivity|]. split; congruence.
Qed.
Theorem fit_callback_only : forall R h n t,
  match fit F cabs R h n t with
  | Ok (h', n', t', _) => fit F cabs R h n (noCallback F t) = Ok (h', n', noCallback F t', [])
  | Err e => fit F cabs R h n (noCallback F t) = Err e
  end.
Proof. intros R h n t. rewrite fit_callback. destruct (fit F cabs R h n t) as [[[[h' n'] t'] c]|e]; reflexivity. Qed.
End Watch.

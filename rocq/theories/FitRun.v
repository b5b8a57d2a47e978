(* FitRun.v - a rule for proving what holds after each epoch of fit *)
From Coq Require Import List Arith Lia Bool ZArith.
From Verif Require Import Base Scalar Mat SpecMat MatFacts Loss Optim OptProofs LayMat LayImg Layer Net NetTrain NetProofs1 NetProofs2 TrainProofs1 SpecFit FitLay1 FitLay2 FitLay3 FitNet1 FitNet2 FitNet3.
Import ListNotations.
Local Open Scope nat_scope.

Section Any.
Variable F : FOps.
Notation M := (mat F).

Lemma Ok_inj : forall A (a b : A), Ok a = Ok b -> a = b.
Proof. intros A a b H. injection H. auto. Qed.
(* t' is t up to the patience counter and restarted optimisers *)
Definition rest (t t' : trainer F) : Prop := exists z os, t' = setOpts F (setCur F t z) os /\ (os = topts F t \/ os = map (init F) (topts F t)).
Lemma rest_refl : forall t, rest t t.
Proof. intro t. exists (tcur F t), (topts F t). split; [destruct t; reflexivity|auto]. Qed.

Section Run.
Variables (ls : list nat) (d : nat -> nat) (cl : bool) (c0 : settings F) (v0 : option (M * M)) (adj : nat) (x y : M).
Hypothesis Hn : NoDup ls.
Hypothesis L : 0 < length ls.
Hypothesis Hpat : cPatience F c0 = (-1)%Z.
Hypothesis Hvb : 0 < cValBatch F c0.
Hypothesis Hd : dataOk (d 0) (d (length ls)) (cLoss F c0) (x, y).
Hypothesis Hv : forall p, v0 = Some p -> dataOk (d 0) (d (length ls)) (cLoss F c0) p.
Hypothesis Ha : mrows x = 0 \/ 0 < adj.
Notation runOk := (runOk F ls d cl c0 v0 adj x y).
Notation bestOk := (bestOk F ls d cl c0).

Lemma epoch_parts : forall R e s s', runOk e s -> epoch F (absFloat F) R x y e s = Ok s' -> exists h1 t1 h2 t2 l a,
  epochTrain F (absFloat F) R e (sh F s) (sn F s) (st F s) x y = Ok (h1, mkNet ls cl false, t1) /\
  epochStats F (absFloat F) R e h1 (mkNet ls cl false) t1 (mrows x) = Ok (h2, t2, l, a) /\
  sn F s' = mkNet ls cl false /\ (forall a, In a ls -> hget F (sh F s') a = hget F h2 a) /\ rest t2 (st F s').
Proof.
  intros R e [h n t best A Ls reb calls] s' (I1 & I2 & I3 & I4 & I5 & (I6 & I6') & I7 & I8 & I9 & _) E. cbn [sh sn st sbest] in *. unfold epoch in E. cbn [sh sn st sbest sacc sloss sreb scalls] in *.
  assert (Hn' : NoDup (nlay n)) by congruence. assert (L' : 0 < length (nlay n)) by congruence. rewrite <- I1 in I3, I4.
  destruct (epochTrain_fits F R e h n d t x y Hn' L' I3 I4 I5) as (h1 & t1 & E1 & D1 & M1 & O1 & S1 & T1). { rewrite I8. auto. } { rewrite I1, I6. auto. }
  rewrite E1 in E. cbn [bind] in E. rewrite I1, I2 in *. set (n1 := mkNet ls cl false) in *.
  destruct S1 as (S11 & S12 & S13 & S14 & S15 & S16 & S17).
  assert (exists h2 H l a, epochStats F (absFloat F) R e h1 n1 t1 (mrows x) = Ok (h2, setHist F t1 H, l, a) /\ dims F h2 ls d /\ moves F true ls h1 h2) as (h2 & H & sl & sa & E2 & D2 & M2).
  { unfold epochStats. cbv zeta. rewrite S15, I7. destruct v0 as [[xv yv]|] eqn:Ev; [|do 4 eexists; split; [reflexivity|]; split; auto; apply moves_refl].
    match goal with |- context [lossAccuracy F (absFloat F) (oVal F R e) h1 n1 ?t xv yv] => destruct (accuracy_fits F (oVal F R e) h1 n1 d t xv yv) as (h2 & l & a & Eq & D2 & M2) end; auto.
    - change (tc F (setHist F t1 _)) with (tc F t1). rewrite S11, I6. auto.
    - apply O1.
    - change (tc F (setHist F t1 _)) with (tc F t1). rewrite S11, I6. cbn [n1 nlay]. auto.
    - rewrite Eq. cbn [bind]. do 4 eexists. split; [reflexivity|]. auto. }
  rewrite E2 in E. cbn [bind] in E. set (t2 := setHist F t1 H) in *. change (tcallback F t2) with (tcallback F t1) in E. set (calls' := if tcallback F t1 then calls ++ [th F t2] else calls) in *.
  assert (B2 : bestOk h2 best). { eapply best_frame; [exact M2|]. eapply best_frame; [exact M1|exact I9]. }
  assert (C2 : tc F t2 = c0) by (change (tc F t2) with (tc F t1); congruence).
  exists h1, t1, h2, t2, sl, sa. split; [auto|]. split; [auto|].
  destruct (epochBest F R e (mkFS F h2 n1 t2 best A Ls reb calls') sl sa) as [s3|] eqn:E3; [|discriminate]. cbn [bind] in E.
  assert (Q : sn F s3 = n1 /\ (forall a, In a ls -> hget F (sh F s3) a = hget F h2 a) /\ exists z, st F s3 = setCur F t2 z).
  { revert E3. unfold epochBest. rewrite C2, Hpat. cbn [Z.eqb negb]. rewrite andb_true_r.
    destruct (cKeep F c0) eqn:Kp; cbn [negb].
    2:{ intro E3. apply Ok_inj in E3. subst s3. cbn [sn sh st]. split; auto. split; auto. exists (tcur F t2). destruct t2; reflexivity. }
    cbv zeta. set (better := if nclass n1 then flt F A sa else flt F sl Ls). destruct better.
    + destruct B2 as (B21 & B22 & B23). destruct (assign_fits F (oSnap F R e) h2 best n1 d B21 D2) as (h3 & b3 & Eq & Q1 & Q2 & Q3 & Q4 & Q5 & Q6 & Q7 & Q8).
      { intros a Ha0. cbn [n1 nlay]. auto. }
      rewrite Eq. cbn [bind]. change (tc F (setCur F t2 0%Z)) with (tc F t2). rewrite C2, Hpat. cbn [Z.eqb negb]. rewrite andb_false_r. intro E3. apply Ok_inj in E3. subst s3. cbn [sn sh st]. split; auto. split; [|eauto].
      intros a Ha0. unfold hget, rget. rewrite Q8; auto; [|intro Q; apply (B22 a Q); auto]. destruct (dims_alive F _ _ _ D2 a Ha0) as [l El]. eapply hget_lt; eauto.
    + cbn [bind]. change (tc F (setCur F t2 _)) with (tc F t2). rewrite C2, Hpat. cbn [Z.eqb negb]. rewrite andb_false_r. intro E3. apply Ok_inj in E3. subst s3. cbn [sn sh st]. split; auto. split; eauto. }
  destruct Q as (Q1 & Q2 & z & Q3). apply Ok_inj in E. subst s'. destruct s3 as [h3 n3 t3 b3 A3 L3 r3 c3]. cbn [sn sh st] in *. subst t3. unfold epochReboost. cbv zeta.
  assert (K : rest t2 (setCur F t2 z)). { exists z, (topts F t2). split; [destruct t2; reflexivity|auto]. }
  destruct (cReboost F (tc F (setCur F t2 z)) =? -1)%Z; [auto|]. destruct (r3 <? cReboost F (tc F (setCur F t2 z)))%Z; [auto|]. cbn [sn sh st]. split; auto. split; auto. exists z, (map (init F) (topts F t2)). auto.
Qed.

Lemma end_parts : forall R e s h' n' t' calls, runOk e s -> fitEnd F R s = Ok (h', n', t', calls) -> t' = st F s /\ (cKeep F c0 = false -> n' = sn F s /\ forall a, In a ls -> hget F h' a = hget F (sh F s) a).
Proof.
  intros R e [h n t best A Ls reb calls0] h' n' t' calls (I1 & I2 & I3 & I4 & I5 & (I6 & I6') & I7 & I8 & ((B1 & B1') & B2 & B3) & _) E. cbn [sh sn st sbest] in *. unfold fitEnd in E. cbn [sh sn st sbest scalls] in E. rewrite I6 in E.
  destruct (cKeep F c0) eqn:Kp.
  - destruct (netAssign F false (oLast F R) h n best) as [[h1 n1]|]; [|discriminate]. cbn [bind] in E. destruct (netClear F h1 best) as [[h2 n2]|]; [|discriminate]. cbn [bind] in E. apply Ok_inj in E. injection E; intros; subst. split; auto. discriminate.
  - cbn [bind] in E. unfold netClear in E. destruct (forL_free F (nlay best) h B1) as (h2 & E2 & L2 & A2 & C2); auto. rewrite E2 in E. cbn [bind] in E. apply Ok_inj in E. injection E; intros; subst. split; auto. intros _. split; auto.
    intros a Ha0. unfold hget, rget. rewrite C2; auto. intro Q. apply (B2 a Q). auto.
Qed.
End Run.

(* state before the first epoch *)
Lemma start_parts : forall R h n d (t : trainer F) x y s, NoDup (nlay n) -> dims F h (nlay n) d -> (cBalancing F (tc F t) = false \/ nclass n = false) -> 0 < cValBatch F (tc F t) ->
  dataOk (d 0) (d (length (nlay n))) (cLoss F (tc F t)) (x, y) -> (forall p, tval F t = Some p -> dataOk (d 0) (d (length (nlay n))) (cLoss F (tc F t)) p) -> (forall b, bon F b = false -> trOk F n h (setBal F t b)) ->
  fitStart F (absFloat F) R h n t x y = Ok s -> exists t3,
    t3 = setOpts F (setAdj F (setHist F (setCur F (setBal F t (set_class_balancing F (mempty F))) 0%Z) (mkHist F [] [] [] [] (flit F 10000000000 1) (f0 F) (flit F 10000000000 1) (f0 F)))
           (if (mrows x <? cBatch F (tc F t)) || (cBatch F (tc F t) =? 0) then mrows x else cBatch F (tc F t))) (map (init F) (topts F t)) /\
    st F s = t3 /\ sn F s = n /\
    ((forall a, In a (nlay n) -> hget F (sh F s) a = hget F h a) \/
     exists xv yv h1 l a0, lossAccuracy F (absFloat F) (oFirst F R) h n t3 xv yv = Ok (h1, l, a0) /\ forall a, In a (nlay n) -> hget F (sh F s) a = hget F h1 a).
Proof.
  intros R h n d t x y s Hn D Hc Hvb Hd Hv Ot E. unfold fitStart, updateClassWeight in E.
  replace (negb (nclass n) || negb (cBalancing F (tc F t))) with true in E by (destruct Hc as [-> | ->]; destruct (nclass n); reflexivity). cbn [bind] in E. cbv zeta in E.
  match type of E with context [map (init F) (topts F ?u)] => set (t2 := u) in * end. set (t3 := setOpts F t2 (map (init F) (topts F t2))) in *. exists t3. split; [reflexivity|].
  change (tc F t3) with (tc F t) in E. change (tval F t3) with (tval F t) in E.
  destruct (cKeep F (tc F t)) eqn:Kp.
  - assert (exists xv yv, (match tval F t with None => (x, y) | Some p => p end) = (xv, yv) /\ dataOk (d 0) (d (length (nlay n))) (cLoss F (tc F t)) (xv, yv)) as (xv & yv & Eq & Hxv).
    { destruct (tval F t) as [[xv yv]|]; do 2 eexists; split; try reflexivity; auto. }
    rewrite Eq in E. destruct (accuracy_fits F (oFirst F R) h n d t3 xv yv Hn D Hvb eq_refl Hxv) as (h1 & l & a & E1 & D1 & M1). rewrite E1 in E. cbn [bind] in E.
    assert (Ln : live F h1 netNew) by (split; [constructor|intros b []]).
    destruct (assign_fits F (oSnap0 F R) h1 netNew n d Ln D1) as (h2 & b2 & E2 & Q1 & Q2 & Q3 & Q4 & Q5 & Q6 & Q7 & Q8); [intros b []|]. rewrite E2 in E. cbn [bind] in E. apply Ok_inj in E. subst s. cbn [st sn sh]. split; auto. split; auto.
    right. exists xv, yv, h1, l, a. split; auto. intros b Hb. unfold hget, rget. rewrite Q8; auto. destruct (dims_alive F _ _ _ D1 b Hb) as [lb Elb]. eapply hget_lt; eauto.
  - apply Ok_inj in E. subst s. cbn [st sn sh]. auto.
Qed.

(** * the rule *)
Section Rule.
Variables (R : fitRnd F) (h : heap F) (n : net) (t : trainer F) (k m : nat) (x y : M).
Hypothesis Ht : trainable h n t k m.
Hypothesis L : 0 < length (nlay n).
Hypothesis Hx : ttrain F t = Some (x, y).
Notation ls := (nlay n).
Variable J : nat -> heap F -> trainer F -> Prop.   (* holds after e epochs *)
Hypothesis J_frame : forall e h1 h2 t1, (forall a, In a ls -> hget F h2 a = hget F h1 a) -> J e h1 t1 -> J e h2 t1.
Hypothesis J_rest : forall e h1 t1 t2, rest t1 t2 -> J e h1 t1 -> J e h1 t2.
Hypothesis J_eval : forall e rs h1 h2 t1 xv yv l a tr, J e h1 t1 -> lossAccuracy F (absFloat F) rs h1 (mkNet ls (nclass n) tr) t1 xv yv = Ok (h2, l, a) -> J e h2 t1.
Hypothesis J_start : forall h1 t1, setNet F h n t = Ok (h1, t1) -> J 0 h1
  (setOpts F (setAdj F (setHist F (setCur F (setBal F t1 (set_class_balancing F (mempty F))) 0%Z) (mkHist F [] [] [] [] (flit F 10000000000 1) (f0 F) (flit F 10000000000 1) (f0 F)))
           (if (mrows x <? cBatch F (tc F t)) || (cBatch F (tc F t) =? 0) then mrows x else cBatch F (tc F t))) (map (init F) (topts F t1))).
Hypothesis J_step : forall e h1 tr t1 h2 t2 h3 t3 l a, J e h1 t1 -> epochTrain F (absFloat F) R e h1 (mkNet ls (nclass n) tr) t1 x y = Ok (h2, mkNet ls (nclass n) false, t2) ->
  epochStats F (absFloat F) R e h2 (mkNet ls (nclass n) false) t2 (mrows x) = Ok (h3, t3, l, a) -> J (S e) h3 t3.

Theorem fit_rule : exists h' n' t' calls h2, fit F (absFloat F) R h n t = Ok (h', n', t', calls) /\ J (Z.to_nat (cEpochs F (tc F t))) h2 t' /\
  (cKeep F (tc F t) = false -> nlay n' = ls /\ forall a, In a ls -> hget F h' a = hget F h2 a).
Proof.
  destruct Ht as (Hn & St & Fo & Hk & Hp & Hc & Hv & Wi & Wg & ([x' y'] & Ht' & Hd) & Hval). rewrite Hx in Ht'. injection Ht'; intros; subst x' y'. clear Ht'. destruct (stack_dims F _ _ _ _ St) as (d & Ek & Em & D).
  rewrite <- Ek, <- Em in *. assert (Hk' := Hk). destruct (create_optimizer (cOpt F (tc F t))) as [o|] eqn:Ho; [clear Hk|contradiction].
  destruct (setNet_fits F h n d t o Hn D Fo Ho Wi Wg) as (h1 & t1 & E1 & D1 & F1 & O1 & S1 & N1). unfold fit. rewrite E1. cbn [bind]. rewrite N1. destruct S1 as (S11 & S12 & S13 & S14 & S15 & S16 & S17).
  destruct (Nat.eqb_spec (length ls) 0) as [Z|Z]; [lia|]. pose proof (J_start h1 t1 E1) as J0. rewrite <- S11 in J0.
  rewrite S14, Hx. rewrite <- S11 in Hp, Hc, Hv, Hd, Hval. rewrite <- S15 in Hval. rewrite <- S14 in Hx.
  destruct (start_fits F R h1 n d t1 x y Hn D1 F1 O1 Hc Hv Hd Hval Hx) as (s & adj & E2 & Ja & R0). rewrite E2. cbn [bind].
  destruct (start_parts R h1 n d t1 x y s Hn D1 Hc Hv Hd Hval O1 E2) as (t3 & Et3 & P1 & P2 & P3).
  assert (Js : J 0 (sh F s) (st F s)). { rewrite <- Et3 in J0. rewrite P1. destruct P3 as [P3|(xv & yv & hv & l & a0 & Ev & P3)]; [eapply J_frame; eauto|]. eapply J_frame; [exact P3|]. eapply (J_eval 0 _ _ _ _ _ _ _ _ (ntrain n)); [exact J0|]. destruct n; exact Ev. }
  destruct (@forN_inv _ (fun e s => runOk F ls d (nclass n) (tc F t1) (tval F t1) adj x y e s /\ J e (sh F s) (st F s)) (Z.to_nat (cEpochs F (tc F t1))) (epoch F (absFloat F) R x y) s) as (s2 & E3 & R2 & J2); auto.
  { intros e s0 He [I Je]. edestruct epoch_fits with (s := s0) (R := R) as (s' & Es & Is); eauto; try lia. exists s'. split; auto. split; auto.
    edestruct epoch_parts with (s := s0) (s' := s') as (h4 & t4 & h5 & t5 & l & a & A1 & A2 & A3 & A4 & A5); eauto; try lia. eapply J_rest; [exact A5|]. eapply J_frame; [exact A4|].
    assert (Es0 : sn F s0 = mkNet ls (nclass n) (ntrain (sn F s0))). { destruct I as (I1 & I2 & _). destruct (sn F s0); cbn in *; congruence. } rewrite Es0 in A1. eapply J_step; eauto. }
  rewrite E3. cbn [bind]. edestruct fitEnd_fits with (ls := ls) (s := s2) (R := R) as (h' & n' & E4 & _); eauto; try lia. rewrite E4.
  edestruct end_parts with (s := s2) as [_ B2]; eauto. do 5 eexists. split; [reflexivity|]. rewrite <- S11. split; [exact J2|]. intro Kp. destruct (B2 Kp) as [B3 B4]. split; [|exact B4]. rewrite B3. apply R2.
Qed.
End Rule.
End Any.

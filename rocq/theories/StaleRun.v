(* StaleRun.v - whole training runs do not depend on what the trainer did before *)
From Coq Require Import String List Arith Bool Lia ZArith.
From Verif Require Import Base Scalar Mat SpecMat MatFacts MatProofs MatLoops Loss Optim Regul OptProofs LayMat LayImg Layer Net NetTrain NetProofs1 NetProofs2
  LayKit SpecFit FitLay1 FitLay2 FitLay3 FitNet1 FitNet2 FitNet3 FitRun StaleLay StaleNet SpecStale.
Import ListNotations.
Local Open Scope nat_scope.

Section Any.
Variable F : FOps.
Notation M := (mat F).
Notation put := (put F).

Lemma epochBatches_same : forall rs h n d (t : trainer F) v0 g0 x y h1 h2 t1 t2, NoDup (nlay n) -> 0 < length (nlay n) -> dims F h (nlay n) d -> modeAll F true h (nlay n) -> firstOnly F h (nlay n) ->
  trOk F n h t -> trOk F n h (put v0 g0 t) -> (mrows x = 0 \/ 0 < tadj F t) -> dataOk (d 0) (d (length (nlay n))) (cLoss F (tc F t)) (x, y) ->
  trainOneEpoch F (absFloat F) rs h n t x y = Ok (h1, t1) -> trainOneEpoch F (absFloat F) rs h n (put v0 g0 t) x y = Ok (h2, t2) -> h2 = h1 /\ exists v g, t2 = put v g t1.
Proof.
  intros rs h n d t v0 g0 x y h1 h2 t1 t2 Hn L D Tr Fo O1 O2 Ha Hd. unfold trainOneEpoch. cbv zeta. change (tadj F (put v0 g0 t)) with (tadj F t).
  destruct (Nat.eqb_spec (mrows x) 0) as [Z|Z]. { intros E1 E2. inversion E1. inversion E2. subst. eauto. }
  destruct Ha as [|Ha]; [contradiction|]. rewrite (proj2 (Nat.eqb_neq (tadj F t) 0)) by lia.
  match goal with |- forN _ ?b _ = _ -> _ => set (body := b) end.
  destruct (@forN2 _ (fun _ (p q : heap F * trainer F) => fst q = fst p /\ (exists v g, snd q = put v g (snd p)) /\ dims F (fst p) (nlay n) d /\ moves F true (nlay n) h (fst p) /\ trOk F n (fst p) (snd p) /\ trOk F n (fst p) (snd q) /\ same F t (snd p))
    (ceilDiv (mrows x) (tadj F t)) body (h, t) (h, put v0 g0 t)) as ([ha ta] & [hb tb] & E1 & E2 & I1 & I2 & _).
  - cbn [fst snd]. split; auto. split; [eauto|]. split; auto. split; [apply moves_refl|]. split; auto. split; auto. apply same_refl.
  - intros b [ha ta] [hb tb] Hi. cbn [fst snd]. intros (-> & (v & g & ->) & I1 & I2 & I3 & I3' & I4). pose proof (ceil_lt _ _ _ Ha Hi) as Lb. unfold body. set (e := Nat.min (b * tadj F t + tadj F t) (mrows x)).
    destruct (data_view F _ _ _ x y (b * tadj F t) e Hd) as (x' & y' & Ex & Ey & Sx & Wy & Ry & Ty); [unfold e; lia|unfold e; lia|]. rewrite Ex. cbn [bind]. rewrite Ey. cbn [bind].
    pose proof (dims_alive F _ _ _ D) as Al. assert (Trb : modeAll F true ha (nlay n)) by (eapply moves_mode; eauto). assert (Fob : firstOnly F ha (nlay n)) by (eapply moves_first; eauto).
    assert (Tc : tc F ta = tc F t) by apply I4.
    destruct (batch_fits F n d Hn (rs b) ha ta x' y' (e - b * tadj F t)) as (h3 & t3 & E3 & D3 & M3 & O3 & S3); auto. { rewrite Tc. auto. }
    destruct (batch_fits F n d Hn (rs b) ha (put v g ta) x' y' (e - b * tadj F t)) as (h4 & t4 & E4 & D4 & M4 & O4 & S4); auto. { change (tc F (put v g ta)) with (tc F ta). rewrite Tc. auto. }
    destruct (batch_same F n d Hn (rs b) ha ta v g x' y' (e - b * tadj F t) h3 h4 t3 t4) as (<- & Q); auto. { rewrite Tc. auto. }
    rewrite E3, E4. eexists _, _. split; [reflexivity|]. split; [reflexivity|]. cbn [fst snd]. split; auto. split; auto. split; auto. split; [eapply moves_trans; eauto|]. split; auto. split; auto. eapply same_trans; eauto.
  - cbn [fst snd] in *. rewrite E1, E2. intros Q1 Q2. inversion Q1. inversion Q2. subst. auto.
Qed.

Definition mix (v g : list M) (x : F) (k : nat) (t : trainer F) : trainer F := setOnline F (put v g t) x k.
Lemma epochTrain_same : forall R e h n d (t : trainer F) v0 g0 x0 k0 x y h1 h2 n1 n2 t1 t2, NoDup (nlay n) -> 0 < length (nlay n) -> dims F h (nlay n) d -> firstOnly F h (nlay n) ->
  trOk F n h t -> trOk F n h (mix v0 g0 x0 k0 t) -> (mrows x = 0 \/ 0 < tadj F t) -> dataOk (d 0) (d (length (nlay n))) (cLoss F (tc F t)) (x, y) ->
  epochTrain F (absFloat F) R e h n t x y = Ok (h1, n1, t1) -> epochTrain F (absFloat F) R e h n (mix v0 g0 x0 k0 t) x y = Ok (h2, n2, t2) -> h2 = h1 /\ n2 = n1 /\ exists v g, t2 = put v g t1.
Proof.
  intros R e h n d t v0 g0 x0 k0 x y h1 h2 n1 n2 t1 t2 Hn L D Fo O1 O2 Ha Hd. unfold epochTrain. cbv zeta. set (t0 := setOnline F t (f0 F) 0). change (setOnline F (mix v0 g0 x0 k0 t) (f0 F) 0) with (put v0 g0 t0). change (tadj F (put v0 g0 t0)) with (tadj F t). change (tadj F t0) with (tadj F t).
  assert (exists x' y', (if tadj F t <? mrows x then v <- randPerm (oShuffle F R e) (mrows x);; x0 <- applyRowPermutation F v x (mempty F);; y0 <- applyRowPermutation F v y (mempty F);; Ok (x0, y0) else Ok (x, y)) = Ok (x', y') /\
    dataOk (d 0) (d (length (nlay n))) (cLoss F (tc F t)) (x', y') /\ mrows x' = mrows x) as (x' & y' & Ep & Hd' & Rx).
  { destruct (tadj F t <? mrows x); [|eauto]. destruct (data_perm F _ _ _ _ _ (oShuffle F R e) Hd) as (v & x' & y' & E1 & E2 & E3 & E4 & E5). rewrite E1. cbn [bind]. rewrite E2. cbn [bind]. rewrite E3. cbn [bind]. eauto. }
  rewrite Ep. cbn [bind]. destruct (setTrain_fits F h n d true Hn D) as (ha & E1 & D1 & M1 & T1). rewrite E1. cbn [bind]. set (na := mkNet (nlay n) (nclass n) true).
  pose proof (dims_alive F _ _ _ D) as Al. assert (Foa : firstOnly F ha (nlay na)) by (cbn [na nlay]; eapply moves_first; eauto).
  assert (Oa : trOk F na ha t0). { apply (trOk_net F n); auto. apply (trOk_moves F n false h ha t0 M1). exact O1. }
  assert (Ob : trOk F na ha (put v0 g0 t0)). { apply (trOk_net F n); auto. apply (trOk_moves F n false h ha (put v0 g0 t0) M1). exact O2. }
  assert (Hx : mrows x' = 0 \/ 0 < tadj F t0) by (rewrite Rx; exact Ha).
  destruct (epochBatches_fits F (oTrain F R e) ha na d t0 x' y') as (h3 & t3 & E3 & D3 & M3 & O3 & S3); auto.
  destruct (epochBatches_fits F (oTrain F R e) ha na d (put v0 g0 t0) x' y') as (h4 & t4 & E4 & D4 & M4 & O4 & S4); auto.
  destruct (epochBatches_same (oTrain F R e) ha na d t0 v0 g0 x' y' h3 h4 t3 t4) as (-> & v & g & ->); auto.
  rewrite E3, E4. cbn [bind]. destruct (netSetTrain F h3 na false) as [[h5 n5]|]; [|discriminate]. cbn [bind]. intros Q1 Q2. inversion Q1. inversion Q2. subst. eauto.
Qed.

(** * the rest of an epoch *)
Definition sput (v g : list M) (s : fstate F) : fstate F := mkFS F (sh F s) (sn F s) (put v g (st F s)) (sbest F s) (sacc F s) (sloss F s) (sreb F s) (scalls F s).
Definition smix (v g : list M) (x : F) (k : nat) (s : fstate F) : fstate F := mkFS F (sh F s) (sn F s) (mix v g x k (st F s)) (sbest F s) (sacc F s) (sloss F s) (sreb F s) (scalls F s).
Lemma stats_put : forall R e h n (t : trainer F) v g k, epochStats F (absFloat F) R e h n (put v g t) k = rmap (fun '(h, t, l, a) => (h, put v g t, l, a)) (epochStats F (absFloat F) R e h n t k).
Proof.
  intros. unfold epochStats. cbv zeta. change (tval F (put v g t)) with (tval F t). change (th F (put v g t)) with (th F t). change (tonl F (put v g t)) with (tonl F t). change (tgood F (put v g t)) with (tgood F t).
  destruct (tval F t) as [[x y]|]; [|reflexivity].
  match goal with |- bind ?a _ = rmap _ (bind ?b _) => change a with b; destruct b as [[[h1 l] a1]|] end; reflexivity.
Qed.
Lemma best_put : forall R e s v g l a, epochBest F R e (sput v g s) l a = rmap (sput v g) (epochBest F R e s l a).
Proof.
  intros R e [h n t b A L r c] v g l a. unfold sput, epochBest. cbn [sh sn st sbest sacc sloss sreb scalls]. change (tc F (put v g t)) with (tc F t).
  destruct (negb (cKeep F (tc F t)) && (cPatience F (tc F t) =? -1)%Z); [reflexivity|].
  destruct (if nclass n then flt F A a else flt F l L).
  - destruct (netAssign F false (oSnap F R e) h b n) as [[h1 b1]|]; [|reflexivity]. cbn [bind]. change (tc F (setCur F (put v g t) 0%Z)) with (tc F t). change (tc F (setCur F t 0%Z)) with (tc F t). change (tcur F (setCur F (put v g t) 0%Z)) with 0%Z. change (tcur F (setCur F t 0%Z)) with 0%Z.
    destruct ((cPatience F (tc F t) <? 0)%Z && negb (cPatience F (tc F t) =? -1)%Z); [|reflexivity]. destruct (netAssign F false (oRoll F R e) h1 n b1) as [[h2 n2]|]; reflexivity.
  - cbn [bind]. change (tc F (setCur F (put v g t) (tcur F (put v g t) + 1)%Z)) with (tc F t). change (tc F (setCur F t (tcur F t + 1)%Z)) with (tc F t). change (tcur F (setCur F (put v g t) (tcur F (put v g t) + 1)%Z)) with (tcur F t + 1)%Z. change (tcur F (setCur F t (tcur F t + 1)%Z)) with (tcur F t + 1)%Z.
    destruct ((cPatience F (tc F t) <? tcur F t + 1)%Z && negb (cPatience F (tc F t) =? -1)%Z); [|reflexivity]. destruct (netAssign F false (oRoll F R e) h n b) as [[h2 n2]|]; reflexivity.
Qed.
Lemma reboost_put : forall s v g, epochReboost F (sput v g s) = sput v g (epochReboost F s).
Proof.
  intros [h n t b A L r c] v g. unfold sput, epochReboost. cbn [sh sn st sbest sacc sloss sreb scalls]. change (tc F (put v g t)) with (tc F t). cbv zeta.
  destruct (cReboost F (tc F t) =? -1)%Z; [reflexivity|]. destruct (r <? cReboost F (tc F t))%Z; reflexivity.
Qed.

Lemma accuracy_ext : forall rs h n (t1 t2 : trainer F) x y, tc F t1 = tc F t2 -> tbal F t1 = tbal F t2 -> lossAccuracy F (absFloat F) rs h n t1 x y = lossAccuracy F (absFloat F) rs h n t2 x y.
Proof. intros rs h n t1 t2 x y E1 E2. unfold lossAccuracy. rewrite E1, E2. reflexivity. Qed.
Lemma start_mix : forall R h n (u1 u2 : trainer F) x y s s', (cBalancing F (tc F u1) = false \/ nclass n = false) ->
  tc F u2 = tc F u1 -> tnl F u2 = tnl F u1 -> topts F u2 = topts F u1 -> tpw F u2 = tpw F u1 -> tpb F u2 = tpb F u1 -> ttrain F u2 = ttrain F u1 -> tval F u2 = tval F u1 -> tcallback F u2 = tcallback F u1 ->
  fitStart F (absFloat F) R h n u1 x y = Ok s -> fitStart F (absFloat F) R h n u2 x y = Ok s' -> s' = smix (tinOut F u2) (tgrad F u2) (tonl F u2) (tgood F u2) s.
Proof.
  intros R h n [c1 b1 a1 p1 o1 i1 g1 l1 w1 q1 h1 x1 k1 t1 v1 f1] [c2 b2 a2 p2 o2 i2 g2 l2 w2 q2 h2 x2 k2 t2 v2 f2] x y s s' Hc. cbn [tc tnl topts tpw tpb ttrain tval tcallback tinOut tgrad tonl tgood] in *. intros -> -> -> -> -> -> -> ->.
  unfold fitStart, updateClassWeight. cbn [tc]. replace (negb (nclass n) || negb (cBalancing F c1)) with true by (destruct Hc as [-> | ->]; destruct (nclass n); reflexivity). cbn [bind].
  cbv beta iota zeta delta [setBal setCur setHist setAdj setOpts tc tnl topts tpw tpb ttrain tval tcallback tinOut tgrad tonl tgood tbal tadj tcur th].
  destruct (cKeep F c1).
  - destruct (match v1 with None => (x, y) | Some p => p end) as [xv yv].
    match goal with |- bind ?p _ = _ -> bind ?q _ = _ -> _ => replace q with p by (apply accuracy_ext; reflexivity); destruct p as [[[ha la] aa]|]; [|discriminate] end. cbn [bind].
    destruct (netAssign F false (oSnap0 F R) ha netNew n) as [[hb bb]|]; [|discriminate]. cbn [bind]. intros E3 E3'. apply Ok_inj in E3, E3'. subst. reflexivity.
  - intros E3 E3'. apply Ok_inj in E3, E3'. subst. reflexivity.
Qed.

Section Run.
Variables (ls : list nat) (d : nat -> nat) (cl : bool) (c0 : settings F) (v0 : option (M * M)) (adj : nat) (x y : M).
Hypothesis Hn : NoDup ls.
Hypothesis L : 0 < length ls.
Hypothesis Hpat : cPatience F c0 = (-1)%Z.
Hypothesis Hvb : 0 < cValBatch F c0.
Hypothesis Hd : dataOk (d 0) (d (length ls)) (cLoss F c0) (x, y).
Hypothesis Hv : forall p, v0 = Some p -> dataOk (d 0) (d (length ls)) (cLoss F c0) p.
Hypothesis Ha : mrows x = 0 \/ 0 < adj.
Notation runOk := (runOk F ls d cl c0 v0 adj x y).

Lemma epoch_same : forall R e s v g xx k s1 s2, runOk e s -> runOk e (smix v g xx k s) -> epoch F (absFloat F) R x y e s = Ok s1 -> epoch F (absFloat F) R x y e (smix v g xx k s) = Ok s2 ->
  exists v' g', s2 = sput v' g' s1.
Proof.
  intros R e [h n t best A Ls reb calls] v g xx k s1 s2 (I1 & I2 & I3 & I4 & I5 & (I6 & I6') & I7 & I8 & I9 & _) (_ & _ & _ & _ & J5 & _). unfold smix in *. cbn [sh sn st sbest sacc sloss sreb scalls] in *. unfold epoch. cbn [sh sn st sbest sacc sloss sreb scalls].
  assert (Hn' : NoDup (nlay n)) by congruence. assert (L' : 0 < length (nlay n)) by congruence. rewrite <- I1 in I3, I4.
  assert (Q1 : mrows x = 0 \/ 0 < tadj F t) by (rewrite I8; auto). assert (Q2 : dataOk (d 0) (d (length (nlay n))) (cLoss F (tc F t)) (x, y)) by (rewrite I1, I6; auto).
  destruct (epochTrain_fits F R e h n d t x y Hn' L' I3 I4 I5 Q1 Q2) as (h1 & t1 & E1 & _).
  destruct (epochTrain_fits F R e h n d (mix v g xx k t) x y Hn' L' I3 I4 J5 Q1 Q2) as (h2 & t2 & E2 & _).
  destruct (epochTrain_same R e h n d t v g xx k x y _ _ _ _ _ _ Hn' L' I3 I4 I5 J5 Q1 Q2 E1 E2) as (-> & _ & v' & g' & ->).
  rewrite E1, E2. cbn [bind]. rewrite stats_put. destruct (epochStats F (absFloat F) R e h1 (mkNet (nlay n) (nclass n) false) t1 (mrows x)) as [[[[h3 t3] l] a]|]; [|discriminate]. cbn [bind rmap].
  change (tcallback F (put v' g' t3)) with (tcallback F t3). change (th F (put v' g' t3)) with (th F t3). set (c := if tcallback F t3 then calls ++ [th F t3] else calls).
  change (mkFS F h3 (mkNet (nlay n) (nclass n) false) (put v' g' t3) best A Ls reb c) with (sput v' g' (mkFS F h3 (mkNet (nlay n) (nclass n) false) t3 best A Ls reb c)). rewrite best_put.
  destruct (epochBest F R e (mkFS F h3 (mkNet (nlay n) (nclass n) false) t3 best A Ls reb c) l a) as [s3|]; [|discriminate]. cbn [bind rmap]. rewrite reboost_put. intros P1 P2. inversion P1. inversion P2. eauto.
Qed.
End Run.

Theorem fit_same : forall (R : fitRnd F) h n (t1 t2 : trainer F) k m, 0 < length (nlay n) -> trainable h n t1 k m -> likewise t1 t2 ->
  exists h' n' t1' t2' calls, fit F (absFloat F) R h n t1 = Ok (h', n', t1', calls) /\ fit F (absFloat F) R h n t2 = Ok (h', n', t2', calls) /\
    likewise t1' t2' /\ th F t1' = th F t2' /\ topts F t1' = topts F t2'.
Proof.
  intros R h n t1 t2 k m L T1 (C1 & C2 & C3 & C4 & W2i & W2g).
  assert (T2 : trainable h n t2 k m). { unfold trainable in *. rewrite <- C1, <- C2, <- C3. destruct T1 as (A1 & A2 & A3 & A4 & A5 & A6 & A7 & A8 & A9 & A10). auto 12. }
  destruct (fit_completes F R h n t1 k m T1) as (hx & nx & tx & cx & Ex & Tx & _). destruct (fit_completes F R h n t2 k m T2) as (hy & ny & ty & cy & Ey & Ty & _).
  cut (hy = hx /\ ny = nx /\ cy = cx /\ tc F tx = tc F ty /\ ttrain F tx = ttrain F ty /\ tval F tx = tval F ty /\ tcallback F tx = tcallback F ty /\ th F tx = th F ty /\ topts F tx = topts F ty).
  { intros (-> & -> & -> & P1 & P2 & P3 & P4 & P5 & P6). exists hx, nx, tx, ty, cx. do 2 (split; [solve [auto]|]). split; [|auto]. unfold likewise. do 4 (split; [solve [auto]|]). split; apply Ty. }
  destruct T1 as (Hn & St & Fo & Hk & Hp & Hc & Hv & Wi & Wg & ([x y] & Ht & Hd) & Hval). destruct (stack_dims F _ _ _ _ St) as (d & <- & <- & D).
  destruct (create_optimizer (cOpt F (tc F t1))) as [o|] eqn:Ho; [clear Hk|contradiction].
  destruct (setNet_fits F h n d t1 o Hn D Fo Ho Wi Wg) as (h1 & u1 & E1 & D1 & F1 & O1 & S1 & N1).
  destruct (setNet_fits F h n d t2 o Hn D Fo ltac:(rewrite <- C1; auto) W2i W2g) as (h2 & u2 & E2 & _ & _ & O2 & S2 & N2).
  assert (Q : h2 = h1 /\ topts F u2 = topts F u1 /\ tpw F u2 = tpw F u1 /\ tpb F u2 = tpb F u1).
  { clear - E1 E2 C1. unfold setNet in E1, E2. rewrite <- C1 in E2. destruct (match nlay n with a :: _ => l <- hget F h a ;; hset F h a (setFirst l true) | [] => Ok h end) as [ha|]; [|discriminate]. cbn [bind] in E1, E2.
    destruct (collect F ha n hasWeights) as [pw|]; [|discriminate]. cbn [bind] in E1, E2. destruct (collect F ha n hasBiases) as [pb|]; [|discriminate]. cbn [bind] in E1, E2.
    match type of E1 with bind ?e _ = _ => destruct e as [os|]; [|discriminate] end. cbn [bind] in E1, E2. inversion E1. inversion E2. subst. auto. }
  destruct Q as (-> & Q1 & Q2 & Q3). destruct S1 as (S11 & S12 & S13 & S14 & S15 & S16 & S17). destruct S2 as (S21 & S22 & S23 & S24 & S25 & S26 & S27).
  unfold fit in Ex, Ey. rewrite E1 in Ex. rewrite E2 in Ey. cbn [bind] in Ex, Ey. rewrite N1 in Ex. rewrite N2 in Ey. rewrite (proj2 (Nat.eqb_neq (length (nlay n)) 0)) in Ex, Ey by lia.
  rewrite S14, Ht in Ex. rewrite S24, <- C2, Ht in Ey.
  rewrite <- S11 in Hp, Hc, Hv, Hd, Hval. rewrite <- S15 in Hval. rewrite <- S14 in Ht.
  destruct (start_fits F R h1 n d u1 x y Hn D1 F1 O1 Hc Hv Hd Hval Ht) as (s & adj & E3 & Ja & R0).
  assert (Tc : tc F u2 = tc F u1) by congruence. assert (Tv : tval F u2 = tval F u1) by congruence.
  destruct (start_fits F R h1 n d u2 x y Hn D1 F1 O2) as (s' & adj' & E3' & _ & R0'); try rewrite Tc; try rewrite Tv; auto; [congruence|].
  assert (Es : s' = smix (tinOut F u2) (tgrad F u2) (tonl F u2) (tgood F u2) s).
  { eapply start_mix; [exact Hc|exact Tc|congruence|congruence|congruence|congruence|congruence|congruence|congruence|exact E3|exact E3']. }
  rewrite E3 in Ex. rewrite E3' in Ey. cbn [bind] in Ex, Ey. rewrite Tc in Ey.
  assert (R0s : runOk F (nlay n) d (nclass n) (tc F u1) (tval F u1) adj x y 0 s').
  { rewrite Es in *. assert (adj' = adj). { destruct R0 as (_ & _ & _ & _ & _ & _ & _ & A & _). destruct R0' as (_ & _ & _ & _ & _ & _ & _ & A' & _). rewrite <- A, <- A'. reflexivity. } subst adj'. rewrite Tc, Tv in R0'. exact R0'. }
  destruct (@forN2 _ (fun e s s' => (exists v g xx kk, s' = smix v g xx kk s) /\ runOk F (nlay n) d (nclass n) (tc F u1) (tval F u1) adj x y e s /\ runOk F (nlay n) d (nclass n) (tc F u1) (tval F u1) adj x y e s')
    (Z.to_nat (cEpochs F (tc F u1))) (epoch F (absFloat F) R x y) s s') as (s2 & s2' & E4 & E4' & (v & g & xx & kk & E5) & R2 & R2'); [split; eauto 6| |].
  { intros e a b He ((v & g & xx & kk & Eb) & Ra & Rb). destruct (epoch_fits F (nlay n) d (nclass n) (tc F u1) (tval F u1) adj x y Hn L Hp Hv Hd Hval Ja R e a Ra) as (a' & Ea & Ra').
    destruct (epoch_fits F (nlay n) d (nclass n) (tc F u1) (tval F u1) adj x y Hn L Hp Hv Hd Hval Ja R e b Rb) as (b' & Eb' & Rb').
    exists a', b'. split; auto. split; auto. split; auto. rewrite Eb in Eb', Rb. destruct (epoch_same (nlay n) d (nclass n) (tc F u1) (tval F u1) adj x y Hn L Hd Ja R e a v g xx kk a' b' Ra Rb Ea Eb') as (v' & g' & ->).
    exists v', g', (tonl F (st F a')), (tgood F (st F a')). reflexivity. }
  rewrite E4 in Ex. rewrite E4' in Ey. cbn [bind] in Ex, Ey. subst s2'. clear - Ex Ey. destruct s2 as [h n t b A L r c]. unfold fitEnd, smix in *. cbn [sh sn st sbest sacc sloss sreb scalls] in *.
  change (tc F (mix v g xx kk t)) with (tc F t) in Ey. destruct (if cKeep F (tc F t) then netAssign F false (oLast F R) h n b else Ok (h, n)) as [[h1 n1]|]; [|discriminate]. cbn [bind] in Ex, Ey.
  destruct (netClear F h1 b) as [[h2 n2]|]; [|discriminate]. cbn [bind] in Ex, Ey. inversion Ex. inversion Ey. subst. auto 12.
Qed.
End Any.

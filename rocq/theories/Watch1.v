(* Watch1.v - validation data and callbacks do not influence the training *)
From Coq Require Import String List Arith Bool Lia ZArith.
From Verif Require Import Base Scalar Mat SpecMat LayMat LayImg LayRnn Layer Net MatProofs NetProofs1 NetProofs2 Loss Optim Regul NetTrain TrainProofs1 TrainProofs3 TrainProofs4 FitRun StaleNet SpecSeed Seed1 Seed2 SpecWatch.
Import ListNotations.
Local Open Scope nat_scope.
Set Implicit Arguments.

Section Watch.
Variable F : FOps.
Variable cabs : F -> res F.
Notation M := (mat F).
Notation hist := (hist F).

(** * parts of the trainer the training does not look at *)
Definition ob (G : hist -> hist) (v : option (M * M)) (c : bool) (t : trainer F) : trainer F :=
  mkTr F (tc F t) (tbal F t) (tadj F t) (tcur F t) (topts F t) (tinOut F t) (tgrad F t) (tnl F t) (tpw F t) (tpb F t) (G (th F t)) (tonl F t) (tgood F t) (ttrain F t) v c.
Definition hob G v c (p : heap F * trainer F) := (fst p, ob G v c (snd p)).
Ltac go := repeat match goal with
  | |- bind ?a _ = rmap _ (bind ?b _) => change a with b; destruct b as [?|?]; cbn [bind rmap]
  | |- (let '(_, _) := ?p in _) = rmap _ (let '(_, _) := ?p in _) => destruct p
  end; try reflexivity.

Section Obs.
Variables (G : hist -> hist) (v : option (M * M)) (c : bool).
Notation Ob := (ob G v c). Notation Hob := (hob G v c).

Lemma optWeight_ob : forall i p, optWeight F cabs i (Hob p) = rmap Hob (optWeight F cabs i p).
Proof. intros i [h t]. unfold optWeight, hob. cbn [fst snd]. go. Qed.
Lemma optBias_ob : forall i p, optBias F cabs i (Hob p) = rmap Hob (optBias F cabs i p).
Proof. intros i [h t]. unfold optBias, hob. cbn [fst snd]. go. Qed.
Lemma optimizeAll_ob : forall h t, optimizeAll F cabs h (Ob t) = rmap Hob (optimizeAll F cabs h t).
Proof.
  intros h t. unfold optimizeAll. change (h, Ob t) with (Hob (h, t)). change (tpw F (Ob t)) with (tpw F t). change (tpb F (Ob t)) with (tpb F t).
  rewrite (forN_rmap _ Hob _ _ optWeight_ob). destruct (forN (length (tpw F t)) (optWeight F cabs) (h, t)); cbn [bind rmap]; auto. apply (forN_rmap _ Hob _ _ optBias_ob).
Qed.
Lemma online_ob : forall n t (o y : M), onlineStats F cabs n (Ob t) o y = rmap Ob (onlineStats F cabs n t o y).
Proof. intros n t o y. unfold onlineStats. go. destruct (negb (nclass n)); [reflexivity|]. go. Qed.
Lemma batch_ob : forall rs h n t (x y : M), trainBatch F cabs rs h n (Ob t) x y = rmap Hob (trainBatch F cabs rs h n t x y).
Proof.
  intros rs h n t x y. unfold trainBatch.
  assert (B : backprop F rs h n (Ob t) x y = rmap Hob (backprop F rs h n t x y)) by (unfold backprop; go). rewrite B. destruct (backprop F rs h n t x y) as [[h1 t1]|]; cbn [bind rmap hob fst snd]; [|reflexivity].
  rewrite optimizeAll_ob. destruct (optimizeAll F cabs h1 t1) as [[h2 t2]|]; cbn [bind rmap hob fst snd]; [|reflexivity].
  change (tinOut F (Ob t2)) with (tinOut F t2). change (tnl F (Ob t2)) with (tnl F t2). destruct (rget (tinOut F t2) (tnl F t2)) as [o|]; cbn [bind rmap]; [|reflexivity].
  rewrite online_ob. destruct (onlineStats F cabs n t2 o y); reflexivity.
Qed.
Lemma epochBatches_ob : forall rs h n t (x y : M), trainOneEpoch F cabs rs h n (Ob t) x y = rmap Hob (trainOneEpoch F cabs rs h n t x y).
Proof.
  intros rs h n t x y. unfold trainOneEpoch. destruct (mrows x =? 0); [reflexivity|]. change (tadj F (Ob t)) with (tadj F t). destruct (tadj F t =? 0); [reflexivity|]. change (h, Ob t) with (Hob (h, t)).
  apply (forN_rmap _ Hob). intros b [h1 t1]. cbn [hob fst snd]. destruct (viewRow F x _ _) as [x1|]; cbn [bind rmap]; [|reflexivity]. destruct (viewRow F y _ _) as [y1|]; cbn [bind rmap]; [|reflexivity]. apply batch_ob.
Qed.
Lemma epochTrain_ob : forall R e h n t (x y : M), epochTrain F cabs R e h n (Ob t) x y = rmap (fun '(h, n, t) => (h, n, Ob t)) (epochTrain F cabs R e h n t x y).
Proof.
  intros R e h n t x y. unfold epochTrain. change (setOnline F (Ob t) (f0 F) 0) with (Ob (setOnline F t (f0 F) 0)). change (tadj F (Ob (setOnline F t (f0 F) 0))) with (tadj F t). change (tadj F (setOnline F t (f0 F) 0)) with (tadj F t).
  match goal with |- bind ?a _ = rmap _ (bind ?b _) => destruct a as [[x1 y1]|]; cbn [bind rmap]; [|reflexivity] end. destruct (netSetTrain F h n true) as [[h1 n1]|]; cbn [bind rmap]; [|reflexivity].
  rewrite epochBatches_ob. destruct (trainOneEpoch F cabs (oTrain F R e) h1 n1 (setOnline F t (f0 F) 0) x1 y1) as [[h2 t2]|]; cbn [bind rmap hob fst snd]; [|reflexivity]. destruct (netSetTrain F h2 n1 false) as [[h3 n3]|]; reflexivity.
Qed.
Lemma setNet_ob : forall h n t, setNet F h n (Ob t) = rmap Hob (setNet F h n t).
Proof. intros h n t. unfold setNet. go. Qed.
End Obs.

(** * the callback *)
Definition nc (t : trainer F) : trainer F := noCallback F t.
Definition snc (s : fstate F) : fstate F := mkFS F (sh F s) (sn F s) (nc (st F s)) (sbest F s) (sacc F s) (sloss F s) (sreb F s) [].
Lemma nc_ob : forall t, nc t = ob (fun H => H) (tval F t) false t. Proof. reflexivity. Qed.

Lemma accuracy_cb : forall rs h n t (x y : M), lossAccuracy F cabs rs h n (nc t) x y = lossAccuracy F cabs rs h n t x y.
Proof. reflexivity. Qed.
Lemma epochTrain_val : forall R e h n t (x y : M) h' n' t', epochTrain F cabs R e h n t x y = Ok (h', n', t') -> tval F t' = tval F t.
Proof. intros. apply epochTrain_post in H. destruct H as (_ & Fz & _). apply Fz. Qed.
Lemma stats_cb : forall R e h n t k, epochStats F cabs R e h n (nc t) k = rmap (fun '(h, t, l, a) => (h, nc t, l, a)) (epochStats F cabs R e h n t k).
Proof.
  intros. unfold epochStats. cbv zeta. change (tval F (nc t)) with (tval F t). change (th F (nc t)) with (th F t). change (tonl F (nc t)) with (tonl F t). change (tgood F (nc t)) with (tgood F t).
  destruct (tval F t) as [[x y]|]; [|reflexivity].
  match goal with |- bind ?a _ = rmap _ (bind ?b _) => change a with b; destruct b as [[[h1 l] a1]|] end; reflexivity.
Qed.
Lemma best_cb : forall R e s l a, epochBest F R e (snc s) l a = rmap snc (epochBest F R e s l a).
Proof.
  intros R e [h n t b A L r c] l a. unfold snc, epochBest. cbn [sh sn st sbest sacc sloss sreb scalls]. change (tc F (nc t)) with (tc F t).
  destruct (negb (cKeep F (tc F t)) && (cPatience F (tc F t) =? -1)%Z); [reflexivity|].
  destruct (if nclass n then flt F A a else flt F l L).
  - destruct (netAssign F false (oSnap F R e) h b n) as [[h1 b1]|]; [|reflexivity]. cbn [bind]. change (tc F (setCur F (nc t) 0%Z)) with (tc F t). change (tc F (setCur F t 0%Z)) with (tc F t). change (tcur F (setCur F (nc t) 0%Z)) with 0%Z. change (tcur F (setCur F t 0%Z)) with 0%Z.
    destruct ((cPatience F (tc F t) <? 0)%Z && negb (cPatience F (tc F t) =? -1)%Z); [|reflexivity]. destruct (netAssign F false (oRoll F R e) h1 n b1) as [[h2 n2]|]; reflexivity.
  - cbn [bind]. change (tc F (setCur F (nc t) (tcur F (nc t) + 1)%Z)) with (tc F t). change (tc F (setCur F t (tcur F t + 1)%Z)) with (tc F t). change (tcur F (setCur F (nc t) (tcur F (nc t) + 1)%Z)) with (tcur F t + 1)%Z. change (tcur F (setCur F t (tcur F t + 1)%Z)) with (tcur F t + 1)%Z.
    destruct ((cPatience F (tc F t) <? tcur F t + 1)%Z && negb (cPatience F (tc F t) =? -1)%Z); [|reflexivity]. destruct (netAssign F false (oRoll F R e) h n b) as [[h2 n2]|]; reflexivity.
Qed.
Lemma reboost_cb : forall s, epochReboost F (snc s) = snc (epochReboost F s).
Proof.
  intros [h n t b A L r c]. unfold snc, epochReboost. cbn [sh sn st sbest sacc sloss sreb scalls]. change (tc F (nc t)) with (tc F t). cbv zeta.
  destruct (cReboost F (tc F t) =? -1)%Z; [reflexivity|]. destruct (r <? cReboost F (tc F t))%Z; reflexivity.
Qed.
Lemma epoch_cb : forall R mS mT e s, epoch F cabs R mS mT e (snc s) = rmap snc (epoch F cabs R mS mT e s).
Proof.
  intros R mS mT e [h n t b A L r c]. unfold epoch. unfold snc at 1 2 3 4 5 6 7 8. cbn [sh sn st sbest sacc sloss sreb scalls]. rewrite nc_ob, epochTrain_ob.
  destruct (epochTrain F cabs R e h n t mS mT) as [[[h1 n1] t1]|] eqn:E1; cbn [bind rmap]; [|reflexivity]. rewrite <- (epochTrain_val _ _ _ _ _ _ _ E1), <- nc_ob, stats_cb.
  destruct (epochStats F cabs R e h1 n1 t1 (mrows mS)) as [[[[h2 t2] l] a]|]; cbn [bind rmap]; [|reflexivity]. change (tcallback F (nc t2)) with false. cbn [bind].
  match goal with |- bind (epochBest F R e ?s1 l a) _ = rmap _ (bind (epochBest F R e ?s2 l a) _) => change s1 with (snc s2); rewrite best_cb; destruct (epochBest F R e s2 l a) as [s3|]; cbn [bind rmap]; [|reflexivity] end.
  rewrite reboost_cb. reflexivity.
Qed.
Theorem fit_callback : forall R h n t, fit F cabs R h n (noCallback F t) = rmap (fun '(h, n, t, _) => (h, n, noCallback F t, [])) (fit F cabs R h n t).
Proof.
  intros R h n t. unfold fit. change (noCallback F t) with (ob (fun H => H) (tval F t) false t) at 1. rewrite setNet_ob. destruct (setNet F h n t) as [[h1 t1]|] eqn:E1; cbn [bind rmap hob fst snd]; [|reflexivity].
  apply setNet_post in E1. destruct E1 as (_ & _ & _ & _ & _ & _ & _ & _ & _ & P & _). rewrite <- P, <- nc_ob. change (tnl F (nc t1)) with (tnl F t1). change (ttrain F (nc t1)) with (ttrain F t1).
  destruct (tnl F t1 =? 0); [reflexivity|]. destruct (ttrain F t1) as [[mS mT]|]; [|reflexivity].
  assert (S : fitStart F cabs R h1 n (nc t1) mS mT = rmap snc (fitStart F cabs R h1 n t1 mS mT)).
  { assert (U : updateClassWeight F n (nc t1) = rmap nc (updateClassWeight F n t1)).
    { unfold updateClassWeight. change (tc F (nc t1)) with (tc F t1). change (ttrain F (nc t1)) with (ttrain F t1). destruct (negb (nclass n) || negb (cBalancing F (tc F t1))); [reflexivity|].
      destruct (ttrain F t1) as [[q y]|]; [|reflexivity]. go. }
    unfold fitStart. rewrite U. destruct (updateClassWeight F n t1) as [t2|]; cbn [bind rmap]; [|reflexivity].
    match goal with |- (if ?b then _ else _) = rmap _ (if ?b' then _ else _) => change b with b'; destruct b' end; [|reflexivity].
    match goal with |- (let '(_, _) := ?p in _) = rmap _ (let '(_, _) := ?q in _) => change p with q; destruct q as [xv yv] end.
    match goal with |- bind ?a _ = rmap _ (bind ?b _) => change a with b; destruct b as [[[h2 l] a1]|] end; cbn [bind rmap]; [|reflexivity].
    destruct (netAssign F false (oSnap0 F R) h2 netNew n) as [[h3 b3]|]; reflexivity. }
  rewrite S. destruct (fitStart F cabs R h1 n t1 mS mT) as [s|]; cbn [bind rmap]; [|reflexivity]. change (tc F (nc t1)) with (tc F t1).
  rewrite (forN_rmap _ snc _ _ (epoch_cb R mS mT)). destruct (forN (Z.to_nat (cEpochs F (tc F t1))) (epoch F cabs R mS mT) s) as [s2|]; cbn [bind rmap]; [|reflexivity].
  destruct s2 as [h2 n2 t2 b2 A L r c]. unfold fitEnd, snc. cbn [sh sn st sbest sacc sloss sreb scalls]. change (tc F (nc t2)) with (tc F t2). go.
Qed.
End Watch.

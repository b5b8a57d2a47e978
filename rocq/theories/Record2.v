(* Record2.v - one more epoch adds one entry; the network it describes *)
From Coq Require Import String List Arith Bool Lia ZArith FunctionalExtensionality.
From Verif Require Import Base Scalar Mat SpecMat MatFacts MatLoops MatProofs LayMat LayImg Layer Net Loss Optim Regul NetTrain SpecNet NetRow NetProofs1 NetProofs2 TrainProofs1 TrainProofs2 SpecFit StaleNet
  FitLay1 FitLay2 FitLay3 FitNet1 FitNet2 FitNet3 FitRun NetRule1 SpecResume Resume1 Resume2 Resume3 SpecRecord Record1.
Import ListNotations.
Local Open Scope nat_scope.

Section Any.
Variable F : FOps.
Notation M := (mat F).
Notation cabs := (absFloat F).

(** * the number of epochs is not looked at during an epoch *)
Definition VS (k : nat) (s : fstate F) : fstate F := mkFS F (sh F s) (sn F s) (withEpochs F k (st F s)) (sbest F s) (sacc F s) (sloss F s) (sreb F s) (scalls F s).
Lemma epoch_V : forall R x y k e s, epoch F cabs R x y e (VS k s) = rmap (VS k) (epoch F cabs R x y e s).
Proof.
  intros R x y k e [h n t best A L reb calls]. change (VS k (mkFS F h n t best A L reb calls)) with (mkFS F h n (withEpochs F k t) best A L reb calls). unfold epoch. cbn [sh sn st sbest sacc sloss sreb scalls]. change (withEpochs F k t) with (W (Z.of_nat k) (th F t) t). rewrite epochTrain_W.
  destruct (epochTrain F cabs R e h n t x y) as [[[h1 n1] t1]|] eqn:E1; cbn [bind rmap]; [|reflexivity]. apply epochTrain_post in E1. destruct E1 as (_ & (_ & _ & _ & _ & _ & _ & _ & B7 & _) & _). rewrite <- B7. change (W (Z.of_nat k) (th F t1) t1) with (withEpochs F k t1). clear B7.
  assert (Es : epochStats F cabs R e h1 n1 (withEpochs F k t1) (mrows x) = rmap (fun '(h, t, l, a) => (h, withEpochs F k t, l, a)) (epochStats F cabs R e h1 n1 t1 (mrows x))).
  { unfold epochStats. cbv zeta. change (tval F (withEpochs F k t1)) with (tval F t1). destruct (tval F t1) as [[xv yv]|]; [|reflexivity].
    match goal with |- bind ?a _ = rmap _ (bind ?b _) => change a with b; destruct b as [[[h2 l] a']|]; reflexivity end. }
  rewrite Es. destruct (epochStats F cabs R e h1 n1 t1 (mrows x)) as [[[[h2 t2] l] a]|]; cbn [bind rmap]; [|reflexivity].
  change (tcallback F (withEpochs F k t2)) with (tcallback F t2). change (th F (withEpochs F k t2)) with (th F t2). set (calls' := if tcallback F t2 then _ else _).
  assert (Eb : epochBest F R e (mkFS F h2 n1 (withEpochs F k t2) best A L reb calls') l a = rmap (VS k) (epochBest F R e (mkFS F h2 n1 t2 best A L reb calls') l a)).
  { unfold epochBest. cbv zeta. change (cKeep F (tc F (withEpochs F k t2))) with (cKeep F (tc F t2)). change (cPatience F (tc F (withEpochs F k t2))) with (cPatience F (tc F t2)).
    destruct (negb (cKeep F (tc F t2)) && (cPatience F (tc F t2) =? -1)%Z); [reflexivity|]. set (better := if nclass n1 then _ else _).
    match goal with |- bind ?a _ = rmap _ (bind ?b _) => assert (Q : a = rmap (fun '(hh, bb, t9) => (hh, bb, withEpochs F k t9)) b); [|rewrite Q; destruct b as [[[h3 b3] t3]|]; cbn [bind rmap]; [|reflexivity]] end.
    { destruct better; [|reflexivity]. destruct (netAssign F false (oSnap F R e) h2 best n1) as [[h3 b3]|]; reflexivity. }
    change (cPatience F (tc F (withEpochs F k t3))) with (cPatience F (tc F t3)). change (tcur F (withEpochs F k t3)) with (tcur F t3). destruct (_ && _) eqn:?; [|reflexivity]. destruct (netAssign F false (oRoll F R e) h3 n1 b3) as [[h4 n4]|]; reflexivity. }
  rewrite Eb. clear Eb. destruct (epochBest F R e (mkFS F h2 n1 t2 best A L reb calls') l a) as [[h3 n3 t3 b3 A3 L3 r3 c3]|]; cbn [bind rmap]; [|reflexivity]. unfold VS, epochReboost. cbn [sh sn st sbest sacc sloss sreb scalls].
  change (cReboost F (tc F (withEpochs F k t3))) with (cReboost F (tc F t3)). destruct (cReboost F (tc F t3) =? -1)%Z; [reflexivity|]. destruct (r3 <? cReboost F (tc F t3))%Z; reflexivity.
Qed.

(** * one epoch *)
Section Run.
Variables (ls : list nat) (d : nat -> nat) (cl : bool) (c0 : settings F) (v0 : option (M * M)) (adj : nat) (x y : M).
Hypothesis Hn : NoDup ls.
Hypothesis L : 0 < length ls.
Hypothesis Hpat : cPatience F c0 = (-1)%Z.
Hypothesis Hkeep : cKeep F c0 = false.
Hypothesis Hvb : 0 < cValBatch F c0.
Hypothesis Hd : dataOk (d 0) (d (length ls)) (cLoss F c0) (x, y).
Hypothesis Hv : forall p, v0 = Some p -> dataOk (d 0) (d (length ls)) (cLoss F c0) p.
Hypothesis Ha : mrows x = 0 \/ 0 < adj.
Notation runOk := (runOk F ls d cl c0 v0 adj x y).
Notation good := (good F ls d).
Notation m := (length ls).
Definition okState (e : nat) (s : fstate F) : Prop := runOk e s /\ good (sh F s) /\ sbest F s = netNew.

Lemma epoch_step : forall R e s, okState e s -> exists s', epoch F cabs R x y e s = Ok s' /\ okState (S e) s' /\
  (0 < mrows x -> mrows x <= adj -> forall rs vb, mrows x <= vb -> exists hq l a, lossAccuracy F cabs rs (sh F s) (sn F s) (withValBatch vb (st F s)) x y = Ok (hq, l, a) /\
    hTL F (th F (st F s')) = hTL F (th F (st F s)) ++ [fdiv F l (fofN F (mrows x))] /\ hTA F (th F (st F s')) = hTA F (th F (st F s)) ++ (if cl then [a] else [])) /\
  (forall rs xv yv, v0 = Some (xv, yv) -> exists hq l a, lossAccuracy F cabs rs (sh F s') (sn F s') (st F s') xv yv = Ok (hq, l, a) /\
    hVL F (th F (st F s')) = hVL F (th F (st F s)) ++ [l] /\ hVA F (th F (st F s')) = hVA F (th F (st F s)) ++ [a]) /\
  (v0 = None -> hVL F (th F (st F s')) = hVL F (th F (st F s)) /\ hVA F (th F (st F s')) = hVA F (th F (st F s))).
Proof.
  intros R e s (Rk & G & Sb). destruct (epoch_fits F ls d cl c0 v0 adj x y Hn L Hpat Hvb Hd Hv Ha R e s Rk) as (s' & E & Rk'). exists s'. split; [exact E|].
  destruct s as [h n t best A Ls reb calls]. pose proof Rk as (I1 & I2 & I3 & I4 & I5 & (I6 & I6') & I7 & I8 & I9 & _). cbn [sh sn st sbest] in *. subst best. unfold epoch in E. cbn [sh sn st sbest sacc sloss sreb scalls] in E.
  assert (En : n = mkNet ls cl (ntrain n)) by (destruct n; cbn in I1, I2 |- *; congruence). set (tr := ntrain n) in *. clearbody tr. subst n. cbn [Net.nlay Net.nclass] in *.
  destruct (epochTrain_fits F R e h (mkNet ls cl tr) d t x y Hn L I3 I4 I5) as (h1 & t1 & E1 & D1 & M1 & O1 & S1 & T1). { rewrite I8. auto. } { cbn [nlay]. rewrite I6. auto. }
  rewrite E1 in E. cbn [bind nlay nclass] in *. destruct S1 as (S11 & S12 & S13 & S14 & S15 & S16 & S17).
  assert (P1 := E1). apply epochTrain_post in P1. destruct P1 as (T01 & (_ & B1 & _) & _). cbn [nlay] in T01.
  pose proof (good_moves F ls d false _ h h1 G D1 M1 T01) as G1. pose proof (good_rows F ls d h1 G1) as R1. pose proof (good_rows F ls d h G) as R0.
  destruct (epochStats F cabs R e h1 (mkNet ls cl false) t1 (mrows x)) as [[[[h2 t2] l2] a2]|] eqn:E2; [|discriminate]. cbn [bind] in E. pose proof E2 as E2'. apply epochStats_post in E2'. destruct E2' as (T12 & A3 & _).
  assert (C2 : tc F t2 = c0 /\ tbal F t2 = tbal F t1) by (rewrite A3; split; [cbn; congruence|reflexivity]). destruct C2 as [C2 B2].
  rewrite plain_best in E by (cbn [st]; rewrite C2; split; auto). cbn [bind] in E. apply Ok_inj in E.
  (* the state after the epoch *)
  assert (Q : sh F s' = h2 /\ sn F s' = mkNet ls cl false /\ th F (st F s') = th F t2 /\ tc F (st F s') = c0 /\ tbal F (st F s') = tbal F t1 /\ sbest F s' = netNew).
  { subst s'. unfold epochReboost. cbv zeta. destruct (cReboost F (tc F t2) =? -1)%Z; [cbn; auto 10|]. destruct (_ <? cReboost F (tc F t2))%Z; cbn; auto 10. }
  destruct Q as (Q1 & Q2 & Q3 & Q4 & Q5 & Q6). clear E. rewrite Q1, Q2, Q3.
  (* the statistics *)
  assert (Z : (exists hv, hv = h2 /\ lays F ls (Kr F d (rhoOf F ls d h1)) h2 /\ good h2) /\ hTL F (th F t2) = hTL F (th F t1) ++ [fdiv F (tonl F t1) (fofN F (mrows x))] /\
    hTA F (th F t2) = hTA F (th F t1) ++ (if cl then [fdiv F (fmul F (fofN F 100) (fofN F (tgood F t1))) (fofN F (mrows x))] else []) /\
    match v0 with None => hVL F (th F t2) = hVL F (th F t1) /\ hVA F (th F t2) = hVA F (th F t1)
    | Some (xv, yv) => exists t1' l a, lossAccuracy F cabs (oVal F R e) h1 (mkNet ls cl false) t1' xv yv = Ok (h2, l, a) /\ tc F t1' = c0 /\ tbal F t1' = tbal F t1 /\ hVL F (th F t2) = hVL F (th F t1) ++ [l] /\ hVA F (th F t2) = hVA F (th F t1) ++ [a] end).
  { unfold epochStats in E2. cbv zeta in E2. rewrite S15, I7 in E2. cbn [nclass] in E2. destruct v0 as [[xv yv]|] eqn:Ev.
    - match type of E2 with context [lossAccuracy F cabs ?a ?b ?c ?tt xv yv] => destruct (accuracy_fits F a b c d tt xv yv) as (h3 & l & a' & Eq & D2 & M2) end; auto.
      + change (tc F (setHist F t1 _)) with (tc F t1). rewrite S11, I6. auto.
      + apply O1.
      + change (tc F (setHist F t1 _)) with (tc F t1). rewrite S11, I6. apply (Hv _ eq_refl).
      + rewrite Eq in E2. cbn [bind] in E2. apply Ok_inj in E2. injection E2 as <- <- <- <-. cbn [nlay] in D2, M2.
        destruct (Hv _ eq_refl) as (V1 & _ & V2 & _). cbn [fst snd] in *.
        destruct (acc_same F ls cl d Hn (rhoOf F ls d h1) (oVal F R e) (oVal F R e) false false h1 h1 _ _ xv yv h3 l a' L R1 R1 V1 V2 eq_refl eq_refl eq_refl Eq) as (Rh3 & _).
        split. { exists h3. split; auto. split; auto. eapply (good_moves F ls d _ []); [exact G1|exact D2|exact M2|]. cbn [nlay] in T12. eapply touch_weaken with (ls := ls); [intros; apply in_or_app; left; eassumption|exact T12]. }
        change (th F (setHist F t1 ?hh)) with hh. split; [destruct cl; reflexivity|]. split; [destruct cl; cbn [hTA]; rewrite ?app_nil_r; reflexivity|]. do 3 eexists. split; [exact Eq|]. split; [change (tc F (setHist F t1 _)) with (tc F t1); congruence|]. split; [reflexivity|]. split; destruct cl; reflexivity.
    - apply Ok_inj in E2. injection E2 as <- <- <- <-. split; [eauto|]. change (th F (setHist F t1 ?hh)) with hh. split; [destruct cl; reflexivity|]. split; [destruct cl; cbn [hTA]; rewrite ?app_nil_r; reflexivity|]. split; destruct cl; reflexivity. }
  destruct Z as ((hv & _ & Rh2 & G2) & Z1 & Z2 & Z3).
  split. { split; [exact Rk'|]. split; [rewrite Q1; exact G2|exact Q6]. }
  split; [|split].
  - intros HN Hadj rs vb Hvb'. pose proof Hd as (W1 & W2 & C1 & Ry & _). cbn [fst snd] in *.
    assert (Hq : 0 < vb) by lia. destruct (accuracy_fits F rs h (mkNet ls cl tr) d (withValBatch vb t) x y) as (hq & l & a & Eq & _); auto; [apply I5|cbn [nlay]; change (cLoss F (tc F (withValBatch vb t))) with (cLoss F (tc F t)); rewrite I6; exact Hd|].
    exists hq, l, a. split; [exact Eq|]. pose proof (mwf_gen_d _ (fjunk F) x W1) as Ex. rewrite C1 in Ex. set (N := mrows x) in *. set (X := fun i j => nth (i * d 0 + j) (mdata x) (fjunk F)) in *.
    rewrite Ex in Eq, E1. destruct (acc_one F ls cl d Hn (rhoOf F ls d h) rs tr h (withValBatch vb t) N X y hq l a L R0 W2 Ry HN Hvb' Eq) as (ml & mv & g & X1 & X2 & X3 & X4 & X5).
    pose proof I5 as (U1 & U2 & U3 & _).
    destruct (epochTrain_stats F ls cl d Hn (rhoOf F ls d h) R e tr h t N X y _ _ _ R0 U1 U2 U3 W2 Ry HN ltac:(rewrite I8; exact Hadj) E1) as (ml' & mv' & Y1 & Y2 & Y3 & Y4).
    change (cLoss F (tc F (withValBatch vb t))) with (cLoss F (tc F t)) in X1. change (tbal F (withValBatch vb t)) with (tbal F t) in X1. assert (ml' = ml) by congruence. subst ml'. assert (mv' = mv) by congruence. subst mv'.
    rewrite Z1, Z2, S17, Y3, <- X4. split; auto. destruct cl; auto. rewrite (Y4 eq_refl) in X3. injection X3 as <-. rewrite X5. reflexivity.
  - intros rs xv yv Ev. rewrite Ev in Z3. destruct Z3 as (t1' & l & a & Eq & K1 & K2 & K3 & K4). destruct (Hv _ Ev) as (V1 & _ & V2 & _). cbn [fst snd] in *.
    destruct (acc_same F ls cl d Hn (rhoOf F ls d h1) (oVal F R e) rs false false h1 h2 t1' (st F s') xv yv h2 l a L R1 Rh2 V1 V2) as (_ & hq & Eq' & _); auto; try congruence.
    exists hq, l, a. split; [exact Eq'|]. rewrite K3, K4, S17. auto.
  - intro Ev. rewrite Ev in Z3. rewrite S17 in Z3. exact Z3.
Qed.
End Run.
End Any.

(* Resume1.v - what an epoch keeps when the optimisers have no state; commutation with the number of epochs and the history *)
From Coq Require Import String List Arith Bool Lia ZArith.
From Verif Require Import Base Scalar Mat SpecMat LayMat LayImg Layer Net MatProofs NetProofs1 NetProofs2 Loss Optim Regul NetTrain TrainProofs1 TrainProofs2 SpecFit StaleNet SpecResume.
Import ListNotations.
Local Open Scope nat_scope.
Set Implicit Arguments.

Section Resume.
Variable F : FOps.
Variable cabs : F -> res F.
Notation M := (mat F).
Notation hist := (hist F).

(** * optimisers without state *)
Definition steady (o : opt F) : Prop := stateless (okind F o) /\ init F o = o.
Lemma dflt_dflt : forall x d, dflt F (dflt F x d) d = dflt F x d.
Proof. intros x d. unfold dflt. destruct (feq F x (minus1 F)) eqn:E; [destruct (feq F d (minus1 F)); reflexivity|]. rewrite E. reflexivity. Qed.
Lemma init_steady : forall o, stateless (okind F o) -> steady (init F o).
Proof.
  intros [k lr dc mo sm sv sp b1 b2] H. cbn [okind] in H. unfold steady. destruct H as [-> | [-> | ->]]; unfold init; cbn [okind olr odecay omom s_m s_v s_p b1p b2p]; (split; [unfold stateless; cbn [okind]; auto|]); cbn [defaultLR]; rewrite ?dflt_dflt; reflexivity.
Qed.
Lemma steady_step : forall o w g o' w', steady o -> optimize F cabs o w g = Ok (o', w') -> o' = o.
Proof.
  intros o w g o' w' [H _] E. unfold optimize in E. destruct H as [H|[H|H]]; rewrite H in E; [inversion E; auto| |]; binp E; inversion E; auto.
Qed.
Lemma upd_same : forall A (l : list A) i x, nth_error l i = Some x -> upd l i x = l.
Proof. intros A l. induction l as [|y l IH]; intros [|i] x H; simpl in *; try discriminate; [injection H as <-; auto|]. rewrite IH; auto. Qed.
Lemma optStep_same : forall t k w g os w' g', List.Forall steady (topts F t) -> optStep F cabs t k w g = Ok (os, w', g') -> os = topts F t.
Proof.
  intros t k w g os w' g' H E. unfold optStep in E. binp E. inversion E; subst. unfold rset in Ex2. destruct (k <? length (topts F t)); inversion Ex2; subst.
  unfold rget in Ex0. destruct (nth_error (topts F t) k) eqn:N; inversion Ex0; subst. apply upd_same. rewrite N. f_equal. symmetry. eapply steady_step; eauto. rewrite Forall_forall in H. apply H. eapply nth_error_In; eauto.
Qed.
Lemma optWeight_same : forall i h t h' t', List.Forall steady (topts F t) -> optWeight F cabs i (h, t) = Ok (h', t') -> topts F t' = topts F t.
Proof. intros i h t h' t' H E. unfold optWeight in E. binp E. inversion E; subst. cbn. eapply optStep_same; eauto. Qed.
Lemma optBias_same : forall i h t h' t', List.Forall steady (topts F t) -> optBias F cabs i (h, t) = Ok (h', t') -> topts F t' = topts F t.
Proof. intros i h t h' t' H E. unfold optBias in E. binp E. inversion E; subst. cbn. eapply optStep_same; eauto. Qed.
Lemma optimizeAll_same : forall h t h' t', List.Forall steady (topts F t) -> optimizeAll F cabs h t = Ok (h', t') -> topts F t' = topts F t.
Proof.
  intros h t h' t' H E. unfold optimizeAll in E. binp E. set (I := fun (_ : nat) (p : heap F * trainer F) => topts F (snd p) = topts F t).
  assert (I1 : I 0 x).
  { apply (forN_postI _ I) in Ex; [exact Ex|reflexivity|]. intros i [h1 t1] [h2 t2] _ A Eb. unfold I in *. cbn in *. rewrite <- A. eapply optWeight_same; eauto. rewrite A. auto. }
  apply (forN_postI _ I) in E; [exact E|exact I1|]. intros i [h1 t1] [h2 t2] _ A Eb. unfold I in *. cbn in *. rewrite <- A. eapply optBias_same; eauto. rewrite A. auto.
Qed.
Lemma batch_same : forall rs h n t x y h' t', List.Forall steady (topts F t) -> trainBatch F cabs rs h n t x y = Ok (h', t') -> topts F t' = topts F t.
Proof.
  intros rs h n t x y h' t' H E. unfold trainBatch in E. binp E. inversion E; subst. unfold onlineStats in Ex2. binp Ex2.
  assert (B : topts F t0 = topts F t) by (unfold backprop in Ex; binp Ex; inversion Ex; subst; reflexivity).
  assert (A : topts F t1 = topts F t0) by (eapply optimizeAll_same; [|exact Ex0]; rewrite B; auto).
  destruct (negb (nclass n)); [inversion Ex2; subst; cbn; congruence|]. binp Ex2. inversion Ex2; subst. cbn. congruence.
Qed.
Lemma epochTrain_same : forall R e h n t x y h' n' t', List.Forall steady (topts F t) -> epochTrain F cabs R e h n t x y = Ok (h', n', t') -> topts F t' = topts F t.
Proof.
  intros R e h n t x y h' n' t' H E. unfold epochTrain in E. binp E. inversion E; subst. unfold trainOneEpoch in Ex1. destruct (mrows _ =? 0); [inversion Ex1; subst; reflexivity|].
  destruct (tadj F _ =? 0); [discriminate|]. apply (forN_postI _ (fun _ (p : heap F * trainer F) => topts F (snd p) = topts F t)) in Ex1; [exact Ex1|reflexivity|].
  intros i [hh1 tt1] [hh2 tt2] _ A Eb. cbn [snd] in *. binp Eb. apply batch_same in Eb; [|rewrite A; auto]. congruence.
Qed.
Lemma init_all : forall os, List.Forall steady os -> map (init F) os = os.
Proof. intros os H. induction H as [|o os [_ H] _ IH]; cbn; [reflexivity|]. rewrite H, IH. reflexivity. Qed.

(** * one epoch without keep-best and patience *)
Definition plainC (c : settings F) : Prop := cKeep F c = false /\ cPatience F c = (-1)%Z.
Definition idle (cl : bool) (v : option (M * M)) (H : hist) : Prop :=
  (cl = false -> fTA F H = f0 F) /\ (v = None -> fVL F H = flit F 10000000000 1 /\ fVA F H = f0 F).
(* all of the trainer but the history, the online statistics and the work matrices *)
Definition fixedT (t t' : trainer F) : Prop :=
  tc F t' = tc F t /\ tbal F t' = tbal F t /\ tadj F t' = tadj F t /\ tcur F t' = tcur F t /\ topts F t' = topts F t /\ tnl F t' = tnl F t /\ tpw F t' = tpw F t /\ tpb F t' = tpb F t /\
  ttrain F t' = ttrain F t /\ tval F t' = tval F t /\ tcallback F t' = tcallback F t.
Lemma fixedT_trans : forall a b c, fixedT a b -> fixedT b c -> fixedT a c.
Proof. unfold fixedT. intuition congruence. Qed.
(* the state after the statistics *)
Lemma plain_best : forall R e s l a, plainC (tc F (st F s)) -> epochBest F R e s l a = Ok s.
Proof. intros R e [h n t b A L r c] l a [H1 H2]. cbn [st] in *. unfold epochBest. rewrite H1, H2. reflexivity. Qed.
Lemma setOpts_same : forall t, setOpts F t (topts F t) = t. Proof. intros []; reflexivity. Qed.
Lemma plain_reboost : forall s, List.Forall steady (topts F (st F s)) -> exists r, epochReboost F s = mkFS F (sh F s) (sn F s) (st F s) (sbest F s) (sacc F s) (sloss F s) r (scalls F s).
Proof.
  intros [h n t b A L r c] H. cbn [st sh sn sbest sacc sloss scalls] in *. unfold epochReboost. cbv zeta. destruct (cReboost F (tc F t) =? -1)%Z; [eauto|]. destruct (r <? cReboost F (tc F t))%Z; [eauto|].
  rewrite (init_all H), setOpts_same. eauto.
Qed.
Lemma epoch_plain : forall R x y e s s', plainC (tc F (st F s)) -> List.Forall steady (topts F (st F s)) -> epoch F cabs R x y e s = Ok s' ->
  touch F (nlay (sn F s) ++ tpw F (st F s) ++ tpb F (st F s)) (sh F s) (sh F s') /\ fixedT (st F s) (st F s') /\ sn F s' = mkNet (nlay (sn F s)) (nclass (sn F s)) false /\ sbest F s' = sbest F s /\
  (forall cl, nclass (sn F s) = cl -> idle cl (tval F (st F s)) (th F (st F s)) -> idle cl (tval F (st F s)) (th F (st F s'))).
Proof.
  intros R x y e [h n t b A L r c] s' Pc Ho E. cbn [st sh sn sbest] in *. unfold epoch in E. cbn [st sh sn sbest sacc sloss sreb scalls] in E.
  destruct (epochTrain F cabs R e h n t x y) as [[[h1 n1] t1]|] eqn:E1; cbn [bind] in E; [|discriminate]. destruct (epochStats F cabs R e h1 n1 t1 (mrows x)) as [[[[h2 t2] l] a]|] eqn:E2; cbn [bind] in E; [|discriminate].
  pose proof (@epochTrain_same _ _ _ _ _ _ _ _ _ _ Ho E1) as O1. pose proof E1 as E1'. apply epochTrain_post in E1. destruct E1 as (A1 & (B0 & B1 & B2 & B3 & B4 & B5 & B6 & B7 & B8 & B9 & B10 & _) & ->). pose proof E2 as E2'. apply epochStats_post in E2. destruct E2 as (A2 & A3 & _).
  assert (T2 : tc F t2 = tc F t1 /\ topts F t2 = topts F t1) by (rewrite A3; split; reflexivity). destruct T2 as [T2 T2'].
  rewrite plain_best in E by (cbn [st]; rewrite T2, B0; auto). cbn [bind] in E.
  match type of E with Ok (epochReboost F ?w) = _ => destruct (@plain_reboost w) as (r' & Er); [cbn [st]; rewrite T2', O1; auto|]; rewrite Er in E; cbn [st sh sn sbest sacc sloss scalls] in E end.
  injection E as <-. cbn [st sh sn sbest]. split; [|split; [|split; [auto|split; [auto|]]]].
  - eapply touch_trans; [exact A1|]. eapply touch_weaken; [|exact A2]. intros q Hq. apply in_or_app. auto.
  - unfold fixedT. rewrite A3. cbn. repeat split; auto.
  - intros cl <- [I1 I2]. revert E2'. unfold epochStats. cbv zeta. rewrite B9. destruct (tval F t) as [[xv yv]|].
    + intro Q. binp Q. inversion Q; subst. split; [|intro; discriminate]. cbn [nclass]. destruct (nclass n); [intro; discriminate|]. cbn. rewrite <- B7 in I1. auto.
    + intro Q. inversion Q; subst. rewrite <- B7 in I1, I2. split; cbn [nclass]; (destruct (nclass n); cbn; auto). intro; discriminate.
Qed.

(** * the number of epochs and the history are not looked at *)
Definition W (E : Z) (H : hist) (t : trainer F) : trainer F :=
  let c := tc F t in
  mkTr F (mkSet F (cBatch F c) (cValBatch F c) (cKeep F c) E (cReboost F c) (cPatience F c) (cBalancing F c) (cOpt F c) (cLr F c) (cDecay F c) (cMom F c) (cLoss F c) (cReg F c))
       (tbal F t) (tadj F t) (tcur F t) (topts F t) (tinOut F t) (tgrad F t) (tnl F t) (tpw F t) (tpb F t) H (tonl F t) (tgood F t) (ttrain F t) (tval F t) (tcallback F t).
Definition hW E H (p : heap F * trainer F) := (fst p, W E H (snd p)).
Ltac go := repeat match goal with
  | |- bind ?a _ = rmap _ (bind ?b _) => change a with b; destruct b as [?|?]; cbn [bind rmap]
  | |- (let '(_, _) := ?p in _) = rmap _ (let '(_, _) := ?p in _) => destruct p
  end; try reflexivity.
Section Com.
Variables (E : Z) (H : hist).
Notation Ob := (W E H). Notation Hob := (hW E H).
Lemma optWeight_W : forall i p, optWeight F cabs i (Hob p) = rmap Hob (optWeight F cabs i p).
Proof. intros i [h t]. unfold optWeight, hW. cbn [fst snd]. go. Qed.
Lemma optBias_W : forall i p, optBias F cabs i (Hob p) = rmap Hob (optBias F cabs i p).
Proof. intros i [h t]. unfold optBias, hW. cbn [fst snd]. go. Qed.
Lemma optimizeAll_W : forall h t, optimizeAll F cabs h (Ob t) = rmap Hob (optimizeAll F cabs h t).
Proof.
  intros h t. unfold optimizeAll. change (h, Ob t) with (Hob (h, t)). change (tpw F (Ob t)) with (tpw F t). change (tpb F (Ob t)) with (tpb F t).
  rewrite (forN_rmap _ Hob _ _ optWeight_W). destruct (forN (length (tpw F t)) (optWeight F cabs) (h, t)); cbn [bind rmap]; auto. apply (forN_rmap _ Hob _ _ optBias_W).
Qed.
Lemma online_W : forall n t (o y : M), onlineStats F cabs n (Ob t) o y = rmap Ob (onlineStats F cabs n t o y).
Proof. intros n t o y. unfold onlineStats. go. destruct (negb (nclass n)); [reflexivity|]. go. Qed.
Lemma batch_W : forall rs h n t (x y : M), trainBatch F cabs rs h n (Ob t) x y = rmap Hob (trainBatch F cabs rs h n t x y).
Proof.
  intros rs h n t x y. unfold trainBatch.
  assert (B : backprop F rs h n (Ob t) x y = rmap Hob (backprop F rs h n t x y)) by (unfold backprop; go). rewrite B. destruct (backprop F rs h n t x y) as [[h1 t1]|]; cbn [bind rmap hW fst snd]; [|reflexivity].
  rewrite optimizeAll_W. destruct (optimizeAll F cabs h1 t1) as [[h2 t2]|]; cbn [bind rmap hW fst snd]; [|reflexivity].
  change (tinOut F (Ob t2)) with (tinOut F t2). change (tnl F (Ob t2)) with (tnl F t2). destruct (rget (tinOut F t2) (tnl F t2)) as [o|]; cbn [bind rmap]; [|reflexivity].
  rewrite online_W. destruct (onlineStats F cabs n t2 o y); reflexivity.
Qed.
Lemma epochBatches_W : forall rs h n t (x y : M), trainOneEpoch F cabs rs h n (Ob t) x y = rmap Hob (trainOneEpoch F cabs rs h n t x y).
Proof.
  intros rs h n t x y. unfold trainOneEpoch. destruct (mrows x =? 0); [reflexivity|]. change (tadj F (Ob t)) with (tadj F t). destruct (tadj F t =? 0); [reflexivity|]. change (h, Ob t) with (Hob (h, t)).
  apply (forN_rmap _ Hob). intros b [h1 t1]. cbn [hW fst snd]. destruct (viewRow F x _ _) as [x1|]; cbn [bind rmap]; [|reflexivity]. destruct (viewRow F y _ _) as [y1|]; cbn [bind rmap]; [|reflexivity]. apply batch_W.
Qed.
Lemma epochTrain_W : forall R e h n t (x y : M), epochTrain F cabs R e h n (Ob t) x y = rmap (fun '(h, n, t) => (h, n, Ob t)) (epochTrain F cabs R e h n t x y).
Proof.
  intros R e h n t x y. unfold epochTrain. change (setOnline F (Ob t) (f0 F) 0) with (Ob (setOnline F t (f0 F) 0)). change (tadj F (Ob (setOnline F t (f0 F) 0))) with (tadj F t). change (tadj F (setOnline F t (f0 F) 0)) with (tadj F t).
  match goal with |- bind ?a _ = rmap _ (bind ?b _) => destruct a as [[x1 y1]|]; cbn [bind rmap]; [|reflexivity] end. destruct (netSetTrain F h n true) as [[h1 n1]|]; cbn [bind rmap]; [|reflexivity].
  rewrite epochBatches_W. destruct (trainOneEpoch F cabs (oTrain F R e) h1 n1 (setOnline F t (f0 F) 0) x1 y1) as [[h2 t2]|]; cbn [bind rmap hW fst snd]; [|reflexivity]. destruct (netSetTrain F h2 n1 false) as [[h3 n3]|]; reflexivity.
Qed.
Lemma setNet_W : forall h n t, setNet F h n (Ob t) = rmap Hob (setNet F h n t).
Proof. intros h n t. unfold setNet. go. Qed.
End Com.

(** * two runs with histories that differ by a first part *)
Definition hrel (H0 : hist) (cl : bool) (v : option (M * M)) (b : bool) (H H' : hist) : Prop :=
  (hTL F H' = hTL F H0 ++ hTL F H /\ hTA F H' = hTA F H0 ++ hTA F H /\ hVL F H' = hVL F H0 ++ hVL F H /\ hVA F H' = hVA F H0 ++ hVA F H) /\
  (cl = false \/ b = true -> fTA F H' = fTA F H) /\ (v = None \/ b = true -> fVL F H' = fVL F H /\ fVA F H' = fVA F H) /\ (b = true -> fTL F H' = fTL F H).
Lemma hrel_app : forall H0 cl v H H', hrel H0 cl v true H H' -> H' = histApp F H0 H.
Proof. intros H0 cl v H [a b c d e f g i] ((A1 & A2 & A3 & A4) & B & C & D). cbn in *. unfold histApp. destruct C as [C1 C2]; auto. rewrite <- A1, <- A2, <- A3, <- A4, <- B, <- C1, <- C2, <- D by auto. reflexivity. Qed.
Definition srel (E : Z) (H0 : hist) (c0 : list hist) (b : bool) (s s' : fstate F) : Prop :=
  sh F s' = sh F s /\ sn F s' = sn F s /\ sbest F s' = sbest F s /\ scalls F s' = c0 ++ map (histApp F H0) (scalls F s) /\
  exists H', st F s' = W E H' (st F s) /\ hrel H0 (nclass (sn F s)) (tval F (st F s)) b (th F (st F s)) H'.

Lemma epoch_srel : forall R x y e Ep H0 c0 b s s' s1, plainC (tc F (st F s)) -> List.Forall steady (topts F (st F s)) -> srel Ep H0 c0 b s s' -> epoch F cabs R x y e s = Ok s1 ->
  exists s1', epoch F cabs R x y e s' = Ok s1' /\ srel Ep H0 c0 true s1 s1'.
Proof.
  intros R x y e Ep H0 c0 b [h n t bn A L r c] [h' n' t' bn' A' L' r' c'] s1 Pc Ho (Q1 & Q2 & Q3 & Q4 & H' & Q5 & Q6) E. cbn [st sh sn sbest scalls] in *. subst h' n' bn' c' t'.
  unfold epoch in *. cbn [st sh sn sbest sacc sloss sreb scalls] in *. rewrite epochTrain_W.
  destruct (epochTrain F cabs R e h n t x y) as [[[h1 n1] t1]|] eqn:E1; cbn [bind rmap] in *; [|discriminate]. destruct (epochStats F cabs R e h1 n1 t1 (mrows x)) as [[[[h2 t2] l] a]|] eqn:E2; cbn [bind] in E; [|discriminate].
  pose proof (@epochTrain_same _ _ _ _ _ _ _ _ _ _ Ho E1) as O1. apply epochTrain_post in E1. destruct E1 as (_ & (B0 & _ & _ & _ & _ & _ & _ & B7 & _ & B9 & B10 & _) & ->).
  assert (Z : exists H2 l' a', epochStats F cabs R e h1 (mkNet (nlay n) (nclass n) false) (W Ep H' t1) (mrows x) = Ok (h2, W Ep H2 t2, l', a') /\ hrel H0 (nclass n) (tval F t) true (th F t2) H2).
  { revert E2. unfold epochStats. cbv zeta. change (tval F (W Ep H' t1)) with (tval F t1). change (tonl F (W Ep H' t1)) with (tonl F t1). change (tgood F (W Ep H' t1)) with (tgood F t1). change (th F (W Ep H' t1)) with H'.
    cbn [nclass]. destruct Q6 as ((P1 & P2 & P3 & P4) & P5 & P6 & P7). rewrite B9, B7. destruct (tval F t) as [[xv yv]|].
    - match goal with |- bind ?a _ = _ -> _ => match goal with |- _ -> exists _ _ _, bind ?b _ = _ /\ _ => change b with a; destruct a as [[[h3 l3] a3]|] end end; cbn [bind]; [|discriminate].
      intro Q. injection Q as <- <- <- <-. do 3 eexists. split; [reflexivity|]. cbn [setHist th tval]. unfold hrel. destruct (nclass n); cbn; rewrite ?P1, ?P2, ?P3, ?P4, ?app_assoc; repeat split; auto.
    - intro Q. injection Q as <- <- <- <-. do 3 eexists. split; [reflexivity|]. cbn [setHist th tval]. unfold hrel. destruct P6 as [P61 P62]; auto. destruct (nclass n); cbn; rewrite ?P1, ?P2, ?P3, ?P4, ?P61, ?P62, ?app_assoc; repeat split; auto. }
  destruct Z as (H2 & l' & a' & E2' & Hr). rewrite E2'. cbn [bind]. apply epochStats_post in E2. destruct E2 as (_ & A3 & _).
  assert (T2 : tc F t2 = tc F t1 /\ topts F t2 = topts F t1 /\ tcallback F t2 = tcallback F t1 /\ tval F t2 = tval F t1) by (rewrite A3; repeat split; reflexivity). destruct T2 as (T2 & T2' & T3 & T4).
  rewrite plain_best in E by (cbn [st]; rewrite T2, B0; auto). rewrite plain_best by (cbn [st]; unfold plainC; cbn [W tc cKeep cPatience]; rewrite T2, B0; exact Pc). cbn [bind] in *.
  match type of E with Ok (epochReboost F ?w) = _ => destruct (@plain_reboost w) as (q & Er); [cbn [st]; rewrite T2', O1; auto|]; rewrite Er in E end.
  match goal with |- context [epochReboost F ?w] => destruct (@plain_reboost w) as (q' & Er'); [cbn [st W topts]; rewrite T2', O1; auto|]; rewrite Er' end.
  cbn [st sh sn sbest sacc sloss scalls] in *. injection E as <-. eexists. split; [reflexivity|]. unfold srel. cbn [st sh sn sbest sacc sloss scalls nclass].
  do 3 (split; [reflexivity|]). split.
  - change (tcallback F (W Ep H2 t2)) with (tcallback F t2). change (th F (W Ep H2 t2)) with H2. destruct (tcallback F t2); [|reflexivity]. rewrite map_app, app_assoc. cbn [map]. rewrite (hrel_app Hr). reflexivity.
  - exists H2. split; [reflexivity|]. rewrite T4, B9. exact Hr.
Qed.
End Resume.

(* LrRule1.v - patience and the learning rate, for any scalars *)
From Coq Require Import String List Arith Bool Lia ZArith.
From Verif Require Import Base Scalar Mat Loss Optim Regul Act LayMat LayImg LayRnn Layer Net NetTrain SpecNet SpecTrain NetProofs1 NetProofs2 TrainProofs1 TrainProofs2 TrainProofs3 TrainProofs4 TrainProofs5 TrainProofs7 FitRun.
Import ListNotations.
Local Open Scope nat_scope.

Section Train.
Variable F : FOps.
Variable cabs : F -> res F.
Notation kept := (kept F). Notation selHist := (selHist F). Notation hasVal := (hasVal F). Notation bestVal := (bestVal F). Notation betterThan := (betterThan F).
Definition halved (k : nat) (x : F) : F := Nat.iter k (fun r => fdiv F r (fofN F 2)) x.
Definition chosen (x : F) : Prop := feq F x (fopp F (f1 F)) = false.

Lemma init_lr' : forall o, chosen (olr F o) -> olr F (init F o) = olr F o.
Proof. intros o B. unfold chosen in B. unfold init, dflt, minus1. destruct (okind F o); cbn [defaultLR olr]; rewrite ?B; reflexivity. Qed.
Lemma getLr_init' : forall t, chosen (trGetLr F t) -> trGetLr F (setOpts F t (map (init F) (topts F t))) = trGetLr F t.
Proof. intros t H. unfold trGetLr in *. cbn. destruct (topts F t); cbn; auto. apply init_lr'. auto. Qed.
Lemma getLr_set' : forall t x, chosen x -> trGetLr F (trSetLr F t x) = x.
Proof. intros t x H. unfold trGetLr, trSetLr. cbn. destruct (topts F t); cbn; auto. unfold set_learningrate. rewrite init_lr'; auto. Qed.
Lemma getLr_reboost' : forall s, chosen (trGetLr F (st F s)) -> trGetLr F (st F (epochReboost F s)) = trGetLr F (st F s).
Proof.
  intros [h n t b A L reb calls] H. unfold epochReboost. cbn [st] in *. destruct (cReboost F (tc F t) =? -1)%Z; [reflexivity|]. destruct (reb <? cReboost F (tc F t))%Z; [reflexivity|].
  cbn [st]. apply getLr_init'. auto.
Qed.

(* an empty best network makes an empty network, for good *)
Lemma assign_empty : forall rs h n o h' n', netAssign F false rs h n o = Ok (h', n') -> nlay o = [] -> nlay n' = [].
Proof. intros rs h n o h' n' E Ho. unfold netAssign in E. rewrite Ho in E. apply bind_inv in E. destruct E as ([h1 n1] & E1 & E). unfold netClear in E1. apply bind_inv in E1. destruct E1 as (h2 & _ & E1). injection E1; intros; subst. cbn in E. injection E; intros; subst. reflexivity. Qed.
Definition modeOk (c : bool) (s : fstate F) : Prop := (nclass (sn F s) = c /\ (nclass (sbest F s) = c \/ nlay (sbest F s) = [])) \/ (nlay (sn F s) = [] /\ nlay (sbest F s) = []).
Lemma epoch_mode : forall R mS mT e s s' c, epoch F cabs R mS mT e s = Ok s' -> modeOk c s -> modeOk c s' /\ (nlay (sn F s') <> [] -> nlay (sn F s) <> [] \/ nclass (sn F s) = c).
Proof.
  intros R mS mT e s s' c E H. apply (epoch_split F cabs) in E. destruct E as (h1 & t1 & l & a & s2 & _ & _ & _ & _ & _ & _ & A7 & ->).
  destruct (reboost_facts F s2) as (_ & _ & C3 & C4 & _). unfold modeOk. rewrite C3, C4. apply epochBest_cases in A7. cbn [nclass nlay] in A7.
  destruct A7 as [(_ & _ & ->)|(_ & b & h2 & b1 & k & _ & Hb & A7)]; cbn [sn sbest nclass nlay]; [split; [exact H | auto]|].
  assert (B : (nclass b1 = nclass (sn F s) /\ (nlay (sn F s) = [] -> nlay b1 = [])) \/ b1 = sbest F s).
  { destruct b; [|tauto]. destruct Hb as [Hb _]. left. split; [apply assign_class in Hb; tauto|]. intro Q. apply (assign_empty _ _ _ _ _ _ Hb). exact Q. }
  cbv zeta in A7. destruct A7 as [[_ (h3 & n2 & E1 & ->)]|[_ ->]]; cbn [sn sbest nclass nlay].
  - pose proof (assign_empty _ _ _ _ _ _ E1) as Em. apply assign_class in E1. destruct E1 as [Ec _]. split.
    + destruct H as [[H1 H2]|[H1 H2]]; [|right; destruct B as [[_ B]| ->]; auto]. destruct B as [[B _]| ->].
      * left. split; [congruence|left; congruence].
      * destruct H2 as [H2|H2]; [left; split; [congruence | auto] | right; auto].
    + intro Q. destruct H as [[H1 _]|[H1 H2]]; auto. exfalso. apply Q. apply Em. destruct B as [[_ B]| ->]; auto.
  - split.
    + destruct H as [[H1 H2]|[H1 H2]]; [left; split; auto; destruct B as [[B _]| ->]; auto; left; congruence | right; split; auto; destruct B as [[_ B]| ->]; auto].
    + intro Q. auto.
Qed.
Lemma mode_back : forall R mS mT ss e c, (forall i, i < e -> epoch F cabs R mS mT i (ss i) = Ok (ss (S i))) -> modeOk c (ss 0) -> nlay (sn F (ss e)) <> [] -> forall i, i <= e -> nclass (sn F (ss i)) = c.
Proof.
  intros R mS mT ss e c H H0 He. assert (M : forall i, i <= e -> modeOk c (ss i)). { induction i as [|i IH]; intros Hi; [auto|]. eapply epoch_mode; [apply H; lia | apply IH; lia]. }
  assert (D : forall i, i <= e -> (nlay (sn F (ss i)) = [] /\ nlay (sbest F (ss i)) = []) -> forall k, i <= k -> k <= e -> nlay (sn F (ss k)) = [] /\ nlay (sbest F (ss k)) = []).
  { intros i Hi Hd k. induction k as [|k IH]; intros K1 K2; [replace i with 0 in Hd by lia; auto|]. destruct (Nat.eq_dec i (S k)) as [<-|N]; auto. destruct IH as [I1 I2]; try lia.
    { clear - H I1 I2 K2. specialize (H k ltac:(lia)). apply (epoch_split F cabs) in H. destruct H as (h1 & t1 & l & a & s2 & _ & _ & _ & _ & _ & _ & A7 & ->). destruct (reboost_facts F s2) as (_ & _ & C3 & C4 & _). rewrite C3, C4. apply epochBest_cases in A7. cbn [nclass nlay] in A7.
      destruct A7 as [(_ & _ & ->)|(_ & b & h2 & b1 & c & _ & Hb & A7)]; cbn [sn sbest nlay]; auto. assert (Z : nlay b1 = []) by (destruct b; [destruct Hb as [Hb _]; apply (assign_empty _ _ _ _ _ _ Hb); exact I1 | destruct Hb as (_ & -> & _); auto]).
      cbv zeta in A7. destruct A7 as [[_ (h3 & n2 & E1 & ->)]|[_ ->]]; cbn [sn sbest nlay]; split; auto. exact (assign_empty _ _ _ _ _ _ E1 Z). } }
  intros i Hi. destruct (M i Hi) as [[Q _]|Q]; auto. exfalso. apply He. apply (D i Hi Q e); lia.
Qed.

(* score i: the selected accuracy or loss of epoch i *)
Theorem lr_rule : (forall x y z : F, flt F x y = true -> flt F y z = true -> flt F x z = true) ->
  forall Rr h n t h' n' t' calls, fit F cabs Rr h n t = Ok (h', n', t', calls) -> nlay n <> [] ->
  (0 <= cPatience F (tc F t))%Z -> (cKeep F (tc F t) = true \/ nclass n = true \/ nlay n' <> []) ->
  let e := Z.to_nat (cEpochs F (tc F t)) in let c := nclass n in let v := hasVal t in
  exists h1 t1 mS mT ss imp base, setNet F h n t = Ok (h1, t1) /\ ttrain F t = Some (mS, mT) /\ fitStart F cabs Rr h1 n t1 mS mT = Ok (ss O) /\
    (forall i, i < e -> epoch F cabs Rr mS mT i (ss i) = Ok (ss (S i))) /\ t' = st F (ss e) /\
    base = (if c then sacc F (ss O) else sloss F (ss O)) /\
    let score i := nth i (selHist c v (th F t')) (f0 F) in let better x y := if c then flt F y x else flt F x y in
    length (selHist c v (th F t')) = e /\
    (forall i, i < e -> (imp i = true <-> better (score i) base = true /\ forall k, k < i -> imp k = true -> better (score i) (score k) = true)) /\
    forall i, i <= e -> let k := snd (stagnation (cPatience F (tc F t)) imp i) in
      (forall j, j <= k -> chosen (halved j (trGetLr F (st F (ss O))))) -> trGetLr F (st F (ss i)) = halved k (trGetLr F (st F (ss O))).
Proof.
  intros Htr Rr h n t h' n' t' calls E Hne Hp Hm. cbv zeta. apply fit_split in E; auto. destruct E as (h1 & t1 & mS & mT & ss & E1 & E2 & E3 & E4 & E5).
  set (e := Z.to_nat (cEpochs F (tc F t))) in *. set (c := nclass n). set (v := hasVal t).
  pose proof E1 as P. apply setNet_post in P. destruct P as (P1 & P2 & P3 & P4 & P5 & P6 & P7 & P8 & P9 & P10 & P11 & _).
  pose proof E3 as Q. apply start_post in Q. destruct Q as (Q1 & Q2 & Q3 & Q4 & Q5 & Q6 & Q7 & Q8 & W1 & W2 & W3 & W4 & W5 & _ & _ & _ & _ & Q9). rewrite P7 in Q9, Q2.
  pose proof (end_post _ _ _ _ _ _ _ E5) as [-> _].
  assert (Hst : forall i, i <= e -> cPatience F (tc F (st F (ss i))) = cPatience F (tc F t) /\ hasVal (st F (ss i)) = v /\ cKeep F (tc F (st F (ss i))) = cKeep F (tc F t)).
  { intros i Hi. pose proof (run_kept F cabs Rr mS mT ss e E4 i Hi) as K. pose proof (kept_flags _ _ _ K) as (K1 & K2 & _). split; [congruence|]. split; [|congruence].
    unfold v, SpecTrain.hasVal. destruct K as (_ & _ & _ & _ & _ & _ & _ & K & _). rewrite K, Q4, P10. reflexivity. }
  assert (Hcl : forall i, i <= e -> nclass (sn F (ss i)) = c).
  { destruct (cKeep F (tc F t)) eqn:K; [|destruct Q9 as (_ & Qb & _); destruct (nclass n) eqn:Kn].
    - intros i Hi. apply (run_class F cabs Rr mS mT ss e c E4); auto; [rewrite Q1; auto|]. left. destruct Q9 as (h2 & l & a & _ & A & _). apply assign_class in A. tauto.
    - intros i Hi. apply (run_class F cabs Rr mS mT ss e c E4); auto; [rewrite Q1; auto|]. left. rewrite Qb. reflexivity.
    - apply (mode_back Rr mS mT ss e c E4); [left; rewrite Q1, Qb; auto|]. destruct Hm as [Hm|[Hm|Hm]]; try discriminate Hm. intro Z. apply Hm. unfold fitEnd in E5. apply bind_inv in E5. destruct E5 as ([h3 n3] & E5 & E6). destruct (ss e) as [ha na ta ba Aa La ra ca] eqn:Es. pose proof (Hst e (le_n e)) as (_ & _ & Kk). rewrite Es in Kk. cbn [st sn] in *. rewrite Kk in E5. apply Ok_inj in E5. injection E5; intros; subst. apply bind_inv in E6. destruct E6 as ([h4 n4] & _ & E6). apply Ok_inj in E6. injection E6; intros; subst. exact Z. }
  pose (H := fun m => selHist c v (th F (st F (ss m)))). pose (b0 := bestVal c (ss O)).
  pose (imp := fun i => betterThan c (nth i (H (S i)) (f0 F)) (bestVal c (ss i))).
  assert (Gl : forall m, m <= e -> length (H m) = m).
  { induction m as [|m IH]; intros Hm'; [unfold H, SpecTrain.selHist; rewrite W1, W2, W3, W4; destruct c, v; reflexivity|].
    destruct (Hst m ltac:(lia)) as (S1 & S2 & _). destruct (patience_step F cabs Rr mS mT m (ss m) (ss (S m)) c (E4 m ltac:(lia)) (Hcl m ltac:(lia)) ltac:(lia)) as (x & s2 & X1 & _). rewrite S2 in X1.
    unfold H. rewrite X1, app_length. fold (H m). rewrite IH by lia. simpl. lia. }
  assert (Gs : forall m, m < e -> exists x, H (S m) = H m ++ [x]).
  { intros m Hm'. destruct (Hst m ltac:(lia)) as (S1 & S2 & _). destruct (patience_step F cabs Rr mS mT m (ss m) (ss (S m)) c (E4 m ltac:(lia)) (Hcl m ltac:(lia)) ltac:(lia)) as (x & s2 & X1 & _). rewrite S2 in X1. exists x. exact X1. }
  assert (Stable : forall m i, i < m -> m <= e -> nth i (H m) (f0 F) = nth i (H (S i)) (f0 F)).
  { intros m i Hi. induction m as [|m IH]; [lia|]. intros Hm'. destruct (Nat.eq_dec i m) as [->|N]; auto. destruct (Gs m ltac:(lia)) as [x ->]. rewrite app_nth1 by (rewrite Gl; lia). apply IH; lia. }
  assert (Step : forall m, m < e -> bestVal c (ss (S m)) = (if imp m then nth m (H (S m)) (f0 F) else bestVal c (ss m)) /\
     let k := if imp m then 0%Z else (tcur F (st F (ss m)) + 1)%Z in exists s2, ss (S m) = epochReboost F s2 /\
     if (cPatience F (tc F t) <? k)%Z then tcur F (st F (ss (S m))) = 0%Z /\ exists t0, trGetLr F t0 = trGetLr F (st F (ss m)) /\ st F s2 = trSetLr F t0 (fdiv F (trGetLr F (st F (ss m))) (fofN F 2))
     else tcur F (st F (ss (S m))) = k /\ trGetLr F (st F s2) = trGetLr F (st F (ss m))).
  { intros m Hm'. destruct (Hst m ltac:(lia)) as (S1 & S2 & _). destruct (patience_step F cabs Rr mS mT m (ss m) (ss (S m)) c (E4 m ltac:(lia)) (Hcl m ltac:(lia)) ltac:(lia)) as (x & s2 & X1 & X2 & X3 & X4).
    rewrite S2 in X1. change (H (S m) = H m ++ [x]) in X1. assert (Xn : nth m (H (S m)) (f0 F) = x) by (rewrite X1, app_nth2, Gl, Nat.sub_diag by (rewrite ?Gl; lia); reflexivity).
    unfold imp. rewrite Xn. split; auto. cbv zeta. exists s2. split; auto. rewrite S1 in X4. exact X4. }
  assert (Btr : forall x y z, betterThan c x y = true -> betterThan c y z = true -> betterThan c x z = true) by (intros x y z; unfold TrainProofs5.betterThan; destruct c; intros A B; [apply (Htr z y x) | apply (Htr x y z)]; auto).
  pose (sc := fun i => nth i (H e) (f0 F)).
  assert (Best : forall m, m <= e -> (bestVal c (ss m) = b0 \/ betterThan c (bestVal c (ss m)) b0 = true) /\ (forall k, k < m -> imp k = true -> sc k = bestVal c (ss m) \/ betterThan c (bestVal c (ss m)) (sc k) = true) /\
     (bestVal c (ss m) = b0 \/ exists k, k < m /\ imp k = true /\ sc k = bestVal c (ss m))).
  { induction m as [|m IH]; intros Hm'; [split; [left; reflexivity|]; split; [intros; lia | left; reflexivity]|].
    destruct IH as (I1 & I2 & I3); [lia|]. destruct (Step m ltac:(lia)) as [B _]. assert (Sc : sc m = nth m (H (S m)) (f0 F)) by (unfold sc; rewrite (Stable e m); auto; lia).
    destruct (imp m) eqn:Im; rewrite B.
    - pose proof Im as Im'. unfold imp in Im'. rewrite <- Sc in *. split; [right; destruct I1 as [<-|I1]; eauto|]. split; [|right; exists m; auto]. intros k Hk Ik. destruct (Nat.eq_dec k m) as [->|N]; [auto|]. right. destruct (I2 k ltac:(lia) Ik) as [->|Q]; eauto.
    - split; auto. split; [|destruct I3 as [I3|(k & K1 & K2)]; [auto | right; exists k; split; [lia|auto]]]. intros k Hk Ik. destruct (Nat.eq_dec k m) as [->|N]; [congruence | apply I2; auto; lia]. }
  exists h1, t1, mS, mT, ss, imp, b0. repeat (split; [assumption|]). split; [reflexivity|]. split; [reflexivity|]. split; [apply (Gl e); auto|]. split.
  - intros i Hi. assert (Sc : sc i = nth i (H (S i)) (f0 F)) by (unfold sc; rewrite (Stable e i); auto; lia). destruct (Best i ltac:(lia)) as (B1 & B2 & B3).
    change (imp i = true <-> betterThan c (sc i) b0 = true /\ (forall k, k < i -> imp k = true -> betterThan c (sc i) (sc k) = true)). replace (imp i) with (betterThan c (sc i) (bestVal c (ss i))) by (unfold imp; rewrite Sc; reflexivity). split.
    + intro Hb. split; [destruct B1 as [<-|B1]; eauto|]. intros k Hk Ik. destruct (B2 k Hk Ik) as [->|Q]; eauto.
    + intros [Hb1 Hb2]. destruct B3 as [->|(k & K1 & K2 & <-)]; auto.
  - set (lr0 := trGetLr F (st F (ss O))) in *.
    assert (G : forall i, i <= e -> tcur F (st F (ss i)) = fst (stagnation (cPatience F (tc F t)) imp i) /\ ((forall j, j <= snd (stagnation (cPatience F (tc F t)) imp i) -> chosen (halved j lr0)) -> trGetLr F (st F (ss i)) = halved (snd (stagnation (cPatience F (tc F t)) imp i)) lr0)).
    { induction i as [|i IH]; intros Hi; [split; [exact W5 | reflexivity]|]. destruct IH as [I1 I2]; [lia|]. destruct (Step i ltac:(lia)) as [_ St]. cbv zeta in St. destruct St as (s2 & St1 & St2).
      cbn [stagnation]. destruct (stagnation (cPatience F (tc F t)) imp i) as [cc rr]. cbn [fst snd] in I1, I2. rewrite I1 in St2. cbv zeta.
      destruct (cPatience F (tc F t) <? (if imp i then 0 else (cc + 1)))%Z; destruct St2 as [T1 T2]; cbn [fst snd]; (split; [exact T1|]); rewrite St1; intro Hc.
      - destruct T2 as (t0 & T2 & T3). specialize (I2 (fun j Hj => Hc j (le_S _ _ Hj))). pose proof (Hc (S rr) (le_n _)) as Hn. change (halved (S rr) lr0) with (fdiv F (halved rr lr0) (fofN F 2)) in *. rewrite <- I2 in *. rewrite getLr_reboost'; rewrite T3, getLr_set'; auto.
      - specialize (I2 Hc). pose proof (Hc rr (le_n _)) as Hn. rewrite getLr_reboost'; rewrite T2, I2; auto. }
    intros i Hi Hc. apply G; auto.
Qed.
End Train.

(* LinProofs2.v - fit on one Dense layer, the squared error and SGD on the whole data set is gradient descent *)
From Coq Require Import String List Arith Lia Bool ZArith Reals Lra.
From Verif Require Import Base Scalar Mat SpecMat SpecReal RSum MatFacts MatLoops MatProofs Loss SpecLoss LossProofs Optim OptProofs LayMat LayProofs1 LayImg Layer Net NetTrain NetProofs1 NetProofs2 TrainProofs1 SpecFit FitNet1 FitNet2 FitNet3 FitRun SpecLinear LinProofs1.
Import ListNotations.
Local Open Scope R_scope.

Section Dense.
Variable jk : R.
Notation F := (ROps jk).
Lemma sgd_init : forall o, okind F o = OSGD -> olr F o <> -1 -> okind F (init F o) = OSGD /\ olr F (init F o) = olr F o.
Proof.
  intros o K N. unfold init. rewrite K. cbn [okind olr defaultLR]. split; auto. unfold dflt, minus1. simpl. unfold Reqb. destruct (Req_EM_T (olr F o) _) as [E|E]; auto. exfalso. apply N. rewrite E. lra.
Qed.
Lemma sgd_step : forall o r c w g, okind F o = OSGD -> optimize F (absFloat F) o (mgen r c w) (mgen r c g) = Ok (o, mgen r c (fun i j => w i j - olr F o * g i j)).
Proof.
  intros o r c w g K. unfold optimize. rewrite K. change (mrows (mgen r c w)) with r. change (mrows (mgen r c g)) with r. change (mcols (mgen r c w)) with c. change (mcols (mgen r c g)) with c. rewrite !Nat.eqb_refl. cbn [assert_ bind].
  unfold mscale. rewrite (mapLoop_gen F). cbn [bind]. rewrite (msubM_gen F). cbn [bind]. apply Ok_eq. f_equal. apply mgen_ext. intros. simpl. ring.
Qed.

Variables (a N k m : nat) (X T : nat -> nat -> R) (p0 : model) (eta : R).
Hypothesis HN : (0 < N)%nat.
Hypothesis Hm : (0 < m)%nat.
Hypothesis Hk : (0 < k)%nat.
Hypothesis He : eta <> -1.
Notation it := (iterate N k m X T eta p0).
Notation mse := (mse N k m X T).

(* the network's only layer is dense, with parameters p *)
Definition dense (h : heap F) (p : model) : Prop := exists l i o, hget F h a = Ok l /\ lk l = KDense i o /\ lfirst l = true /\ lw l = mgen k m (fst p) /\ lb l = mgen 1 m (fun _ j => snd p j).
Variable c0 : settings F.
Hypothesis Hlo : cLoss F c0 = LMeanSquaredError.
Hypothesis Hre : cReg F c0 = None.
Definition trn (t : trainer F) : Prop := exists o1 o2 i0 i1 g0 g1, topts F t = [o1; o2] /\ okind F o1 = OSGD /\ okind F o2 = OSGD /\ olr F o1 = eta /\ olr F o2 = eta /\
  tpw F t = [a] /\ tpb F t = [a] /\ tnl F t = 1%nat /\ tadj F t = N /\ tc F t = c0 /\ tbal F t = noBalance F /\ tinOut F t = [i0; i1] /\ tgrad F t = [g0; g1].
Definition J (e : nat) (h : heap F) (t : trainer F) : Prop := dense h (it e) /\ trn t /\ hTL F (th F t) = map (fun q => mse (it q) / INR N) (seq 0 e).

Lemma dense_upd : forall h p l b, dense h p -> hget F h a = Ok l -> dense (upd h a (Some (setTrain l b))) p.
Proof.
  intros h p l b (l0 & i & o & E & K & Fi & Ww & Wb) E'. assert (l0 = l) by congruence. subst l0. exists (setTrain l b), i, o. split; [|destruct l; auto]. rewrite hget_upd by (eapply hget_lt; eauto). rewrite Nat.eqb_refl. reflexivity.
Qed.
Lemma dense_train : forall h p cl tr b h' n', dense h p -> netSetTrain F h (mkNet [a] cl tr) b = Ok (h', n') -> dense h' p.
Proof.
  intros h p cl tr b h' n' D E. unfold netSetTrain in E. cbn [nlay forL] in E. destruct (hget F h a) as [l|] eqn:El; [|discriminate]. cbn [bind] in E. rewrite (hset_ok _ _ _ _ _ El) in E. cbn [bind] in E. injection E; intros; subst. apply dense_upd; auto.
Qed.

Lemma stats_parts : forall cl tr (t t' : trainer F) P, onlineStats F (absFloat F) (mkNet [a] cl tr) t (mgen N m P) (mgen N m T) = Ok t' -> cLoss F (tc F t) = LMeanSquaredError -> tbal F t = noBalance F ->
  exists g, t' = setOnline F t (tonl F t + rsum N (fun i => rsum m (fun j => (P i j - T i j) * (P i j - T i j))) / (INR N * INR m)) g.
Proof.
  intros cl tr t t' P E Lo Ba. unfold onlineStats in E. rewrite Lo, Ba, (reg_compute jk LMeanSquaredError) in E by exact I. cbn [bind] in E. rewrite mmean_gen in E. cbn [bind] in E. cbv zeta in E.
  assert (Em : fdiv F (fsum F (1 * m) (fun i => lossColumn LMeanSquaredError N P T (i mod m))) (fofN F (1 * m)) = rsum N (fun i => rsum m (fun j => (P i j - T i j) * (P i j - T i j))) / (INR N * INR m)).
  { rewrite fsum_R, fofN_R. rewrite !Nat.mul_1_l. rewrite rsum_swap. cbn [fdiv ROps]. rewrite (rsum_ext m _ (fun j => rsum N (fun i => (P i j - T i j) * (P i j - T i j)) / INR N)).
    - rewrite rsum_div. match goal with |- @eq _ ?u ?v => change (@eq R u v) end. field. split; apply not_0_INR; lia.
    - intros j Hj. rewrite Nat.mod_small by auto. unfold lossColumn, isSum. f_equal. apply rsum_ext. intros. unfold errTerm. ring. }
  rewrite Em in E. destruct (negb _); [injection E; intros; subst t'; eexists; reflexivity|]. binp E. binp E. injection E; intros; subst t'. eexists. reflexivity.
Qed.
Lemma batch_parts : forall rs cl tr h t h' t' p, dense h p -> trn t -> trainBatch F (absFloat F) rs h (mkNet [a] cl tr) t (mgen N k X) (mgen N m T) = Ok (h', t') ->
  dense h' (descend N k m X T eta p) /\ trn t' /\ th F t' = th F t /\ tonl F t' = tonl F t + mse p.
Proof.
  intros rs cl tr h t h' t' p (l & i & o & El & Kl & Fl & Ww & Wb) (o1 & o2 & i0 & i1 & g0 & g1 & Eo & K1 & K2 & R1 & R2 & Pw & Pb & Nl & Ad & Tc & Tb & Ti & Tg) E.
  unfold trainBatch, backprop in E. rewrite Ti, Nl in E. cbn [rset length Nat.ltb Nat.leb bind upd] in E. unfold forN in E. cbn [seq forL] in E. unfold fwdStep at 1 in E. cbn [fst snd rget nth_error bind Nat.add] in E.
  unfold fwdLayer in E. cbn [nlay rget nth_error bind] in E. rewrite El in E. cbn [bind] in E. unfold layForward at 1 in E. rewrite Kl, Ww, Wb in E. rewrite (fwdDense_gen F) in E. cbn [bind] in E. rewrite (hset_ok _ _ _ _ _ El) in E. cbn [bind rset length Nat.ltb Nat.leb upd] in E.
  set (h1 := upd h a (Some l)) in *. cbn [setInOut tnl] in E. rewrite Nl in E. cbn [rget nth_error bind] in E.
  match type of E with context [setInOut F t ?v] => set (t1 := setInOut F t v) in * end. change (tgrad F t1) with (tgrad F t) in E. change (tc F t1) with (tc F t) in E. change (tbal F t1) with (tbal F t) in E. rewrite Tg, Tc, Hlo, Tb in E. cbn [rget nth_error bind] in E. rewrite (reg_gradient_value jk LMeanSquaredError) in E by exact I. cbn [bind rset length Nat.ltb Nat.leb upd rev app] in E.
  set (P := fun i j : nat => fadd F (fsum F k (fun l : nat => fmul F (X i l) (fst p l j))) (snd p j)) in *.
  assert (HP : forall i j, P i j - T i j = resid k X T p i j). { intros. unfold P, resid. rewrite fsum_R. reflexivity. }
  assert (Lt : (a < length h)%nat) by (eapply hget_lt; eauto).
  assert (E1 : hget F h1 a = Ok l). { unfold h1. rewrite hget_upd by auto. rewrite Nat.eqb_refl. reflexivity. }
  cbn [forL rev seq app] in E. unfold bwdStep at 1 in E. cbn [fst snd rget nth_error bind Nat.add nlay] in E. rewrite E1 in E. cbn [bind] in E. unfold layBackward at 1 in E. rewrite Kl, Fl, Ww in E. rewrite (bwdDense_gen F) in E. cbn [bind] in E. rewrite (hset_ok _ _ _ _ _ E1) in E. cbn [bind rset length Nat.ltb Nat.leb upd] in E.
  match type of E with context [setGWB l ?u ?v] => set (GW := u) in *; set (GB := v) in * end.
  assert (EW : GW = mgen k m (gradW N k m X T p)).
  { unfold GW. apply mgen_ext. intros u v Hu Hv. rewrite fsum_R, fofN_R. unfold gradW. rewrite (rsum_ext N _ (fun i => X i u * resid k X T p i v / INR m)).
    - rewrite rsum_div. simpl. match goal with |- @eq _ ?u ?v => change (@eq R u v) end. field. split; apply not_0_INR; lia.
    - intros q Hq. unfold regG, regGrad. rewrite fofN_R, <- HP. simpl. unfold Rdiv. ring. }
  assert (EB : GB = mgen 1 m (fun _ j => gradB N k m X T p j)).
  { unfold GB. apply mgen_ext. intros u v Hu Hv. rewrite fsum_R, fofN_R. unfold gradB. rewrite (rsum_ext N _ (fun i => resid k X T p i v / INR m)).
    - rewrite rsum_div. simpl. match goal with |- @eq _ ?u ?v => change (@eq R u v) end. field. split; apply not_0_INR; lia.
    - intros q Hq. unfold regG, regGrad. rewrite fofN_R, <- HP. reflexivity. }
  clearbody GW GB. subst GW GB.
  set (l2 := setGWB l (mgen k m (gradW N k m X T p)) (mgen 1 m (fun _ j => gradB N k m X T p j))) in *. set (h2 := upd h1 a (Some l2)) in *.
  assert (L1 : (a < length h1)%nat) by (unfold h1; rewrite length_upd; auto).
  assert (E2 : hget F h2 a = Ok l2). { unfold h2. rewrite hget_upd by auto. rewrite Nat.eqb_refl. reflexivity. }
  unfold optimizeAll in E. match type of E with context [setGrad F t1 ?v] => set (t2 := setGrad F t1 v) in * end.
    change (tpw F t2) with (tpw F t) in E. rewrite Pw in E. cbn [length] in E. unfold forN in E. cbn [seq forL] in E. unfold optWeight at 1 in E. change (tpw F t2) with (tpw F t) in E. rewrite Pw in E. cbn [rget nth_error bind] in E. rewrite E2 in E. cbn [bind] in E. unfold optStep at 1 in E.
  change (tc F t2) with (tc F t) in E. rewrite Tc, Hre in E. cbn [bind] in E. change (topts F t2) with (topts F t) in E. rewrite Eo in E. cbn [rget nth_error bind] in E.
  assert (L2w : lw l2 = mgen k m (fst p)) by exact Ww. assert (L2b : lb l2 = mgen 1 m (fun _ j => snd p j)) by exact Wb. change (lgw l2) with (mgen k m (gradW N k m X T p)) in E. rewrite L2w in E. rewrite (sgd_step o1) in E by auto. rewrite R1 in E. cbn [bind rset length Nat.ltb Nat.leb upd] in E. rewrite (hset_ok _ _ _ _ _ E2) in E. cbn [bind] in E.
  match type of E with context [upd h2 a (Some ?u)] => set (l3 := u) in * end. set (h3 := upd h2 a (Some l3)) in *. match type of E with context [setOpts F t2 ?v] => set (t3 := setOpts F t2 v) in * end.
  assert (L2 : (a < length h2)%nat) by (unfold h2; rewrite length_upd; auto).
  assert (E3 : hget F h3 a = Ok l3). { unfold h3. rewrite hget_upd by auto. rewrite Nat.eqb_refl. reflexivity. }
  change (tpb F t2) with (tpb F t) in E. rewrite Pb in E. cbn [length] in E. cbn [seq forL] in E. unfold optBias at 1 in E. change (tpb F t3) with (tpb F t) in E. rewrite Pb in E. cbn [rget nth_error bind] in E. rewrite E3 in E. cbn [bind] in E. unfold optStep at 1 in E.
  change (tc F t3) with (tc F t) in E. rewrite Tc, Hre in E. cbn [bind] in E. change (tpw F t3) with (tpw F t) in E. rewrite Pw in E. change (topts F t3) with [o1; o2] in E. cbn [length Nat.add rget nth_error bind] in E.
  change (lb l3) with (lb l2) in E. change (lgb l3) with (mgen 1 m (fun _ j => gradB N k m X T p j)) in E. rewrite L2b in E. rewrite (sgd_step o2) in E by auto. rewrite R2 in E. cbn [bind rset length Nat.ltb Nat.leb upd] in E. rewrite (hset_ok _ _ _ _ _ E3) in E. cbn [bind] in E.
  match type of E with context [upd h3 a (Some ?u)] => set (l4 := u) in * end. set (h4 := upd h3 a (Some l4)) in *. match type of E with context [setOpts F t3 ?v] => set (t4 := setOpts F t3 v) in * end.
  assert (L3 : (a < length h3)%nat) by (unfold h3; rewrite length_upd; auto).
  assert (E4 : hget F h4 a = Ok l4). { unfold h4. rewrite hget_upd by auto. rewrite Nat.eqb_refl. reflexivity. }
  change (tnl F t4) with (tnl F t) in E. rewrite Nl in E. change (tinOut F t4) with [mgen N k X; mgen N m P] in E. cbn [rget nth_error bind] in E.
  destruct (onlineStats F (absFloat F) _ t4 (mgen N m P) (mgen N m T)) as [t5|] eqn:E5; [|discriminate]. cbn [bind] in E. injection E; intros <- <-.
  destruct (stats_parts _ _ _ _ _ E5) as [g ->]. { change (tc F t4) with (tc F t). congruence. } { exact Tb. }
  split. { exists l4, i, o. split; [exact E4|]. split; [exact Kl|]. split; [exact Fl|]. split; reflexivity. }
  split. { exists o1, o2, (mgen N k X), (mgen N m P), g0, (mgen N m (regG jk LMeanSquaredError m P T)). do 12 (split; [solve [auto]|]). reflexivity. }
  split; [reflexivity|]. change (tonl F (setOnline F t4 ?z g)) with z. change (tonl F t4) with (tonl F t). unfold SpecLinear.mse. rewrite (rsum_ext N (fun i => rsum m (fun j => (P i j - T i j) * (P i j - T i j))) (fun i => rsum m (fun j => resid k X T p i j * resid k X T p i j))); [reflexivity|]. intros. apply rsum_ext. intros. rewrite HP. reflexivity.
Qed.

Lemma predict_keeps : forall rs h cl tr x o h' o' p, dense h p -> predict F rs h (mkNet [a] cl tr) x o = Ok (h', o') -> dense h' p.
Proof.
  intros rs h cl tr x o h' o' p (l & i & q & El & Kl & K) E. unfold predict in E. cbn [nlay length] in E. unfold forN in E. cbn [seq forL] in E. unfold fwdLayer in E. cbn [nlay rget nth_error bind] in E. rewrite El in E. cbn [bind] in E. unfold layForward in E. rewrite Kl in E.
  destruct (fwdDense F (lw l) (lb l) x); [|discriminate]. cbn [bind] in E. rewrite (hset_ok _ _ _ _ _ El) in E. cbn [bind] in E. injection E; intros; subst.
  exists l, i, q. split; auto. rewrite hget_upd by (eapply hget_lt; eauto). rewrite Nat.eqb_refl. reflexivity.
Qed.
Lemma accuracy_keeps : forall rs h cl tr (t : trainer F) x y h' l a0 p, dense h p -> lossAccuracy F (absFloat F) rs h (mkNet [a] cl tr) t x y = Ok (h', l, a0) -> dense h' p.
Proof.
  intros rs h cl tr t x y h' l a0 p D E. unfold lossAccuracy in E. cbv zeta in E. destruct ((_ =? 0)%nat || _); [injection E; intros; subst; auto|]. destruct (cValBatch F (tc F t) =? 0)%nat; [discriminate|].
  apply bind_inv in E. destruct E as ([[[[h1 o1] m1] l1] g1] & E1 & E2). injection E2; intros; subst. apply (forN_postI _ (fun _ '(h, _, _, _, _) => dense h p)) in E1; auto.
  intros i [[[[h2 o2] m2] l2] g2] [[[[h3 o3] m3] l3] g3] Hi D2 E3. binp E3. injection E3; intros; subst. eapply predict_keeps; [exact D2|]. match goal with H : predict _ _ _ _ _ _ = _ |- _ => exact H end.
Qed.

Variables (R0 : fitRnd F) (cl : bool).
Lemma step_parts : forall e h1 tr t1 h2 t2 h3 t3 l a0, J e h1 t1 -> epochTrain F (absFloat F) R0 e h1 (mkNet [a] cl tr) t1 (mgen N k X) (mgen N m T) = Ok (h2, mkNet [a] cl false, t2) ->
  epochStats F (absFloat F) R0 e h2 (mkNet [a] cl false) t2 N = Ok (h3, t3, l, a0) -> J (S e) h3 t3.
Proof.
  intros e h1 tr t1 h2 t2 h3 t3 l a0 (D & Tr & H) E1 E2.
  assert (K : dense h2 (it (S e)) /\ trn t2 /\ th F t2 = th F t1 /\ tonl F t2 = mse (it e)).
  { unfold epochTrain in E1. cbv zeta in E1. set (t0 := setOnline F t1 (f0 F) 0) in *. assert (T0 : trn t0) by exact Tr. assert (Ad : tadj F t0 = N) by (destruct T0 as (?&?&?&?&?&?&?&?&?&?&?&?&?&?&A&?); exact A).
    change (mrows (mgen N k X)) with N in E1. rewrite Ad, Nat.ltb_irrefl in E1. cbn [bind] in E1. destruct (netSetTrain F h1 _ true) as [[h4 n4]|] eqn:E4; [|discriminate]. cbn [bind] in E1. pose proof (dense_train _ _ _ _ _ _ _ D E4) as D4.
    assert (n4 = mkNet [a] cl true). { unfold netSetTrain in E4. cbn [nlay nclass] in E4. apply bind_inv in E4. destruct E4 as (? & _ & E4). injection E4; auto. } subst n4.
    unfold trainOneEpoch in E1 at 1. cbv zeta in E1. change (mrows (mgen N k X)) with N in E1. rewrite Ad in E1. rewrite (proj2 (Nat.eqb_neq N 0)) in E1 by lia.
    assert (C : ceilDiv N N = 1%nat). { unfold ceilDiv. symmetry. apply Nat.div_unique with (r := (N - 1)%nat); lia. } rewrite C in E1. unfold forN in E1. cbn [seq forL] in E1. rewrite Nat.mul_0_l, Nat.add_0_l, Nat.min_id in E1. rewrite !(viewRow_gen F) in E1 by lia. rewrite Nat.sub_0_r in E1. cbn [bind Nat.add] in E1.
    destruct (trainBatch F (absFloat F) _ h4 _ t0 _ _) as [[h5 t5]|] eqn:E5; [|discriminate]. cbn [bind] in E1. destruct (batch_parts _ _ _ _ _ _ _ _ D4 T0 E5) as (D5 & T5 & H5 & L5).
    destruct (netSetTrain F h5 _ false) as [[h6 n6]|] eqn:E6; [|discriminate]. cbn [bind] in E1. injection E1; intros; subst. split; [eapply dense_train; eauto|]. split; auto. split; [rewrite H5; reflexivity|]. rewrite L5. change (tonl F t0) with 0. lra. }
  clear E1. destruct K as (D2 & T2 & H2 & L2). unfold epochStats in E2. cbv zeta in E2.
  assert (Q : forall H', hTL F H' = hTL F (th F t2) ++ [tonl F t2 / INR N] -> forall h', dense h' (it (S e)) -> J (S e) h' (setHist F t2 H')).
  { intros H' EH h' D'. split; auto. split; [exact T2|]. change (th F (setHist F t2 H')) with H'. rewrite EH, H2, H, L2. rewrite seq_S, map_app. reflexivity. }
  rewrite fofN_R in E2. change (fdiv F (tonl F t2) (INR N)) with (tonl F t2 / INR N) in E2.
  destruct (tval F t2) as [[xv yv]|].
  - apply bind_inv in E2. destruct E2 as ([[h4 l4] a4] & E4 & E2). injection E2; intros; subst. pose proof (accuracy_keeps _ _ _ _ _ _ _ _ _ _ _ D2 E4) as D4. apply Q; auto. destruct cl; reflexivity.
  - injection E2; intros; subst. apply Q; auto. destruct cl; reflexivity.
Qed.
End Dense.

Theorem linear_fit : forall (jk : R) (R0 : fitRnd (ROps jk)) h n t k m N X T W b eta a l i o,
  trainable h n t k m -> nlay n = [a] -> hget (ROps jk) h a = Ok l -> lk l = KDense i o -> lw l = mgen k m W -> lb l = mgen 1 m (fun _ j => b j) ->
  ttrain (ROps jk) t = Some (mgen N k X, mgen N m T) -> (0 < N)%nat ->
  cLoss (ROps jk) (tc _ t) = LMeanSquaredError -> cReg (ROps jk) (tc _ t) = None -> cOpt (ROps jk) (tc _ t) = "SGD"%string -> cLr (ROps jk) (tc _ t) = eta -> eta <> -1 ->
  (cBatch (ROps jk) (tc _ t) = 0 \/ N <= cBatch (ROps jk) (tc _ t))%nat ->
  let E := Z.to_nat (cEpochs (ROps jk) (tc _ t)) in let it := iterate N k m X T eta (W, b) in
  exists h' n' t' calls, fit (ROps jk) (absFloat (ROps jk)) R0 h n t = Ok (h', n', t', calls) /\
    hTL (ROps jk) (th _ t') = map (fun e => mse N k m X T (it e) / INR N) (seq 0 E) /\
    (cKeep (ROps jk) (tc _ t) = false -> nlay n' = [a] /\ exists l', hget (ROps jk) h' a = Ok l' /\ lw l' = mgen k m (fst (it E)) /\ lb l' = mgen 1 m (fun _ j => snd (it E) j)).
Proof.
  intros jk R0 h n t k m N X T W b eta a l i o Ht Hn El Kl Ww Wb Hd HN Lo Re Op Lr He Ba E it.
  assert (Km : (0 < k)%nat /\ (0 < m)%nat). { destruct Ht as (_ & St & _). rewrite Hn in St. cbn [stack] in St. destruct St as (l0 & j & E0 & Fi & <-). destruct Fi as (A1 & A2 & _). auto. } destruct Km as [Hk Hm].
  destruct (fit_rule (ROps jk) R0 h n t k m (mgen N k X) (mgen N m T) Ht) with (J := J jk a N k m X T (W, b) eta (tc _ t)) as (h' & n' & t' & calls & h2 & Ef & (D & Tr & H) & Kp); auto.
  - rewrite Hn. simpl. lia.
  - intros e h1 h2 t1 Fr ((l1 & i1 & o1 & E1 & P1) & Q). split; auto. exists l1, i1, o1. split; auto. rewrite Fr; auto. rewrite Hn. left. reflexivity.
  - intros e h1 t1 t2 (z & os & -> & Hos) (D & Tr & H). split; auto. split; [|exact H]. destruct Tr as (o1 & o2 & i0 & i1 & g0 & g1 & Eo & K1 & K2 & R1 & R2 & Pr).
    destruct Hos as [-> | ->]; [exists o1, o2, i0, i1, g0, g1; do 5 (split; [solve [auto]|]); exact Pr|]. destruct (sgd_init jk o1 K1) as [A1 A2]; [congruence|]. destruct (sgd_init jk o2 K2) as [B1 B2]; [congruence|].
    exists (init _ o1), (init _ o2), i0, i1, g0, g1. split; [change (topts (ROps jk) (setOpts (ROps jk) (setCur (ROps jk) t1 z) ?v)) with v; rewrite Eo; reflexivity|]. do 2 (split; [auto|]). do 2 (split; [congruence|]). exact Pr.
  - intros e rs h1 h2 t1 xv yv l1 a1 tr (D & Q) Ea. split; auto. rewrite Hn in Ea. eapply accuracy_keeps; eauto.
  - intros h1 t1 Es. unfold setNet in Es. cbv zeta in Es. rewrite Hn in Es. rewrite El in Es. cbn [bind] in Es. rewrite (hset_ok _ _ _ _ _ El) in Es. cbn [bind] in Es. set (h0 := upd h a (Some (setFirst l true))) in *.
    assert (E0 : hget (ROps jk) h0 a = Ok (setFirst l true)). { unfold h0. rewrite hget_upd by (eapply hget_lt; eauto). rewrite Nat.eqb_refl. reflexivity. }
    unfold collect in Es. rewrite Hn in Es. cbn [length] in Es. unfold forN at 1 2 in Es. cbn [seq forL rget nth_error bind] in Es. rewrite E0 in Es. cbn [bind] in Es. unfold hasWeights, hasBiases in Es. change (lw (setFirst l true)) with (lw l) in Es. change (lb (setFirst l true)) with (lb l) in Es. rewrite Ww, Wb, !msize_mgen in Es.
    rewrite (proj2 (Nat.eqb_neq (k * m) 0)) in Es by nia. rewrite (proj2 (Nat.eqb_neq (1 * m) 0)) in Es by lia. cbn [negb bind app length Nat.add] in Es. rewrite Op, Lr in Es. unfold forN in Es. cbn [seq forL create_optimizer String.eqb Ascii.eqb Bool.eqb bind app] in Es. injection Es; intros; subst h1 t1. clear Es.
    split; [|split].
    + exists (setFirst l true), i, o. split; auto. destruct l; auto.
    + set (oo := set_params (ROps jk) (newOpt (ROps jk) OSGD) eta (cDecay (ROps jk) (tc _ t)) (cMom (ROps jk) (tc _ t))). assert (O1 : okind _ oo = OSGD /\ olr _ oo = eta) by (apply sgd_init; auto). destruct O1 as [O1 O2]. destruct (sgd_init jk oo O1) as [O3 O4]; [congruence|].
      assert (V : forall v : list (mat (ROps jk)), exists x y, vresize (ROps jk) v 2 = [x; y]). { intro v. unfold vresize. destruct v as [|x [|y v]]; simpl; eauto. } destruct (V (tinOut _ t)) as (x0 & x1 & V1). destruct (V (tgrad _ t)) as (y0 & y1 & V2).
      exists (init _ oo), (init _ oo), x0, x1, y0, y1. split; [reflexivity|]. do 2 (split; [auto|]). do 2 (split; [congruence|]). do 3 (split; [reflexivity|]). split.
      * change (mrows (mgen N k X)) with N. change (tadj (ROps jk) (setOpts (ROps jk) (setAdj (ROps jk) ?u ?v) ?w)) with v. destruct Ba as [Z|Z]; [rewrite Z, Nat.eqb_refl, orb_true_r; reflexivity|]. destruct (Nat.ltb_spec N (cBatch (ROps jk) (tc _ t))); [reflexivity|]. rewrite (proj2 (Nat.eqb_neq _ 0)) by lia. cbn. lia.
      * split; [reflexivity|]. split; [reflexivity|]. split; [exact V1|exact V2].
    + reflexivity.
  - intros e h1 tr t1 h2 t2 h3 t3 l1 a1 Je E1 E2. rewrite Hn in E1, E2. eapply step_parts; eauto.
  - exists h', n', t', calls. split; auto. split; [exact H|]. intro Kf. destruct (Kp Kf) as [Q1 Q2]. split; [congruence|]. destruct D as (l' & i' & o' & Q3 & _ & _ & Q4 & Q5). exists l'. split; auto. rewrite Q2; auto. rewrite Hn. left. reflexivity.
Qed.

Lemma hist_at : forall (f : nat -> R) E e x, nth_error (map f (seq 0 E)) e = Some x -> x = f e.
Proof.
  intros f E e x Ex. rewrite nth_error_map in Ex. destruct (nth_error (seq 0 E) e) as [e'|] eqn:E1; [|discriminate]. assert (L : (e < length (seq 0 E))%nat) by (apply nth_error_Some; congruence). rewrite seq_length in L. apply nth_error_nth with (d := 0%nat) in E1. rewrite seq_nth in E1 by auto. cbn in Ex. injection Ex; intros <-. rewrite <- E1. reflexivity.
Qed.
Theorem linear_loss_goes_down : forall (jk : R) (R0 : fitRnd (ROps jk)) h n t k m N X T W b eta a l i o,
  trainable h n t k m -> nlay n = [a] -> hget (ROps jk) h a = Ok l -> lk l = KDense i o -> lw l = mgen k m W -> lb l = mgen 1 m (fun _ j => b j) ->
  ttrain (ROps jk) t = Some (mgen N k X, mgen N m T) -> (0 < N)%nat ->
  cLoss (ROps jk) (tc _ t) = LMeanSquaredError -> cReg (ROps jk) (tc _ t) = None -> cOpt (ROps jk) (tc _ t) = "SGD"%string -> cLr (ROps jk) (tc _ t) = eta ->
  (cBatch (ROps jk) (tc _ t) = 0 \/ N <= cBatch (ROps jk) (tc _ t))%nat -> 0 <= eta -> eta * energy N k X <= 2 * (INR N * INR m) ->
  exists h' n' t' calls, fit (ROps jk) (absFloat (ROps jk)) R0 h n t = Ok (h', n', t', calls) /\
    length (hTL (ROps jk) (th _ t')) = Z.to_nat (cEpochs (ROps jk) (tc _ t)) /\
    forall e q x y, (e <= q)%nat -> nth_error (hTL (ROps jk) (th _ t')) e = Some x -> nth_error (hTL (ROps jk) (th _ t')) q = Some y -> y <= x.
Proof.
  intros jk R0 h n t k m N X T W b eta a l i o Ht Hn El Kl Ww Wb Hd HN Lo Re Op Lr Ba He Hb.
  assert (Hm : (0 < m)%nat). { destruct Ht as (_ & St & _). rewrite Hn in St. cbn [stack] in St. destruct St as (l0 & j & E0 & Fi & <-). destruct Fi as (A1 & A2 & _). auto. }
  destruct (linear_fit jk R0 h n t k m N X T W b eta a l i o) as (h' & n' & t' & calls & Ef & H & _); auto; [lra|]. exists h', n', t', calls. split; auto. rewrite H. rewrite map_length, seq_length. split; auto.
  intros e q x y Leq Ex Ey. apply hist_at in Ex. apply hist_at in Ey. subst x y. apply Rmult_le_compat_r; [apply Rlt_le, Rinv_0_lt_compat, lt_0_INR; auto|]. apply descent_all; auto.
Qed.

Theorem linear_loss_converges : forall (jk : R) (R0 : fitRnd (ROps jk)) h n t k m N X T W b eta a l i o,
  trainable h n t k m -> nlay n = [a] -> hget (ROps jk) h a = Ok l -> lk l = KDense i o -> lw l = mgen k m W -> lb l = mgen 1 m (fun _ j => b j) ->
  ttrain (ROps jk) t = Some (mgen N k X, mgen N m T) -> (0 < N)%nat ->
  cLoss (ROps jk) (tc _ t) = LMeanSquaredError -> cReg (ROps jk) (tc _ t) = None -> cOpt (ROps jk) (tc _ t) = "SGD"%string -> cLr (ROps jk) (tc _ t) = eta ->
  (cBatch (ROps jk) (tc _ t) = 0 \/ N <= cBatch (ROps jk) (tc _ t))%nat -> 0 < eta -> eta * energy N k X <= INR N * INR m ->
  exists h' n' t' calls, fit (ROps jk) (absFloat (ROps jk)) R0 h n t = Ok (h', n', t', calls) /\
    length (hTL (ROps jk) (th _ t')) = Z.to_nat (cEpochs (ROps jk) (tc _ t)) /\
    forall e x (q : model), (0 < e)%nat -> nth_error (hTL (ROps jk) (th _ t')) e = Some x -> x * INR N <= mse N k m X T q + dist2 k m (W, b) q / (eta * INR e).
Proof.
  intros jk R0 h n t k m N X T W b eta a l i o Ht Hn El Kl Ww Wb Hd HN Lo Re Op Lr Ba He Hb.
  assert (Hm : (0 < m)%nat). { destruct Ht as (_ & St & _). rewrite Hn in St. cbn [stack] in St. destruct St as (l0 & j & E0 & Fi & <-). destruct Fi as (A1 & A2 & _). auto. }
  destruct (linear_fit jk R0 h n t k m N X T W b eta a l i o) as (h' & n' & t' & calls & Ef & H & _); auto; [lra|]. exists h', n', t', calls. split; auto. rewrite H. rewrite map_length, seq_length. split; auto.
  intros e x q He0 Ex. apply hist_at in Ex. subst x. unfold Rdiv at 1. rewrite Rmult_assoc, Rinv_l by (apply not_0_INR; lia). rewrite Rmult_1_r. apply converges; auto.
Qed.

(* a network with one dense layer and a trainer *)
Definition linTr (jk : R) : trainer (ROps jk) := let t := trNew (ROps jk) in
  setSettings (ROps jk) (withData t (mgen 2 1 (fun i _ => INR i + 1), mgen 2 1 (fun i _ => 2 * INR i + 2)))
    (mkSet (ROps jk) 0 128 false 50 (-1) (-1) false "SGD" (1/4) (-1) (-1) LMeanSquaredError None).
Definition linLay (jk : R) : layer (ROps jk) := setWB (layBase (ROps jk) (KDense 1 1) "GlorotUniform" "Zeros") (mgen 1 1 (fun _ _ => 0)) (mgen 1 1 (fun _ _ => 0)).

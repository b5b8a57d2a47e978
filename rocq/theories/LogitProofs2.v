(* LogitProofs2.v - fit on a Dense layer and a Softmax layer, the cross-entropy and SGD on the whole data set is gradient descent *)
From Coq Require Import String List Arith Lia Bool ZArith Reals Lra.
From Verif Require Import Base Scalar Mat SpecMat SpecData SpecReal RSum MatFacts MatLoops MatProofs MatProps Loss SpecLoss LossProofs LossProofs2 Optim OptProofs LayMat LayProofs1 SpecLayer LayProofs7 LayImg Layer Net NetTrain NetProofs1 NetProofs2 NetProofs4 TrainProofs1 SpecTrain TrainProofs12 SpecFit FitNet1 FitNet2 FitNet3 FitRun SpecLinear LinProofs1 LinProofs2 SpecLogit LogitProofs1.
Import ListNotations.
Local Open Scope R_scope.

Section Soft.
Variable jk : R.
Notation F := (ROps jk).
Variables (a1 a2 N k m : nat) (X : nat -> nat -> R) (c : nat -> nat) (sp : bool) (p0 : model) (eta : R).
Hypothesis Hne : a1 <> a2.
Hypothesis HN : (0 < N)%nat.
Hypothesis Hm : (0 < m)%nat.
Hypothesis Hk : (0 < k)%nat.
Hypothesis Hc : forall i, (i < N)%nat -> (c i < m)%nat.
Hypothesis He : eta <> -1.
Notation it := (run N k m X c eta p0).
Notation cross := (cross N k m X c).
Notation alive := (alive N k m X c).
Notation chance := (chance k m X).
Notation Y := (classTruth sp N m c).
Notation lo := (classLoss sp).

Lemma truth_rows : mrows Y = N.
Proof. unfold classTruth. destruct sp; reflexivity. Qed.
Lemma truth_view : viewRow F Y 0 N = Ok Y.
Proof. unfold classTruth. destruct sp; rewrite (viewRow_gen F) by lia; rewrite Nat.sub_0_r; reflexivity. Qed.
Lemma grad_val : forall P out, mwf out -> compute_gradient F lo (noBalance F) (mgen N m P) Y out = Ok (mgen N m (fun i j => bceG (P i j) (oneHot c i j))).
Proof. intros P out Ho. unfold classLoss, classTruth. destruct sp; [apply scce_gradient_value|apply cce_gradient_value; auto]. Qed.
Lemma comp_val : forall P out, mwf out -> compute F (absFloat F) lo (noBalance F) (mgen N m P) Y out = Ok (mgen N 1 (fun i _ => - ln (floored (P i (c i))))).
Proof.
  intros P out Ho. unfold classLoss, classTruth. destruct sp.
  - eapply eq_trans; [apply scce_compute; auto|]. apply Ok_eq, mgen_ext. intros. unfold categoricalCE. lra.
  - eapply eq_trans; [apply cce_compute; auto|]. apply Ok_eq, mgen_ext. intros i j Hi Hj. rewrite (rsum_single m (c i)); auto.
    + unfold categoricalCE, oneHot. rewrite Nat.eqb_refl. lra.
    + intros l Hl Nl. unfold categoricalCE, oneHot. destruct (Nat.eqb_spec (c i) l); [congruence|]. lra.
Qed.
(* the loss gradient through the diagonal of the Softmax is probability minus indicator *)
Lemma err_val : forall p i j, alive p -> (i < N)%nat -> (j < m)%nat -> bceG (chance p i j) (oneHot c i j) * (chance p i j * (1 - chance p i j)) = err k m X c p i j.
Proof.
  intros p i j Al Hi Hj. specialize (Al i Hi). pose proof (chance_pos k m X Hm p i j) as P. unfold err, oneHot, bceG.
  destruct (Nat.eqb_spec (c i) j) as [E|E].
  - rewrite E in Al. unfold floored at 1. rewrite Rmax_left by lra. pose proof (floored_pos (1 - chance p i j)). field. lra.
  - assert (Sum : chance p i j + chance p i (c i) <= 1).
    { rewrite <- (soft_sum m Hm (score k X p i)). rewrite <- (rsum_delta m j (fun l => chance p i l) Hj), <- (rsum_delta m (c i) (fun l => chance p i l) (Hc i Hi)), <- rsum_plus. apply rsum_le. intros l Hl. change (chance p i l) with (soft m (score k X p i) l). pose proof (soft_pos m Hm (score k X p i) l). destruct (Nat.eqb_spec l j), (Nat.eqb_spec l (c i)); subst; try lra. congruence. }
    unfold floored at 2. rewrite Rmax_left by lra. pose proof (floored_pos (chance p i j)). field. lra.
Qed.

(* the network is a dense layer with parameters p and a Softmax *)
Definition pair2 (h : heap F) (p : model) : Prop := (exists l i o, hget F h a1 = Ok l /\ lk l = KDense i o /\ lfirst l = true /\ lw l = mgen k m (fst p) /\ lb l = mgen 1 m (fun _ j => snd p j)) /\
  (exists l, hget F h a2 = Ok l /\ lk l = KSoftmax /\ lfirst l = false).
Variable c0 : settings F.
Hypothesis Hlo : cLoss F c0 = lo.
Hypothesis Hre : cReg F c0 = None.
Definition trn (t : trainer F) : Prop := exists o1 o2 i0 i1 i2 g0 g1 g2, topts F t = [o1; o2] /\ okind F o1 = OSGD /\ okind F o2 = OSGD /\ olr F o1 = eta /\ olr F o2 = eta /\
  tpw F t = [a1] /\ tpb F t = [a1] /\ tnl F t = 2%nat /\ tadj F t = N /\ tc F t = c0 /\ tbal F t = noBalance F /\ tinOut F t = [i0; i1; i2] /\ tgrad F t = [g0; g1; g2] /\ mwf g2.
Notation hits := (SpecLogit.hits jk N k m X c sp).
Definition J0 (cl : bool) (e : nat) (h : heap F) (t : trainer F) : Prop := pair2 h (it e) /\ trn t /\ hTL F (th F t) = map (fun q => cross (it q) / INR N) (seq 0 e) /\
  (cl = true -> hTA F (th F t) = map (fun q => 100 * INR (hits (it q)) / INR N) (seq 0 e)).
Definition J (cl : bool) (e : nat) (h : heap F) (t : trainer F) : Prop := (forall q, (q < e)%nat -> alive (it q)) -> J0 cl e h t.

Lemma pair_upd1 : forall h p l b, pair2 h p -> hget F h a1 = Ok l -> pair2 (upd h a1 (Some (setTrain l b))) p.
Proof.
  intros h p l b ((l0 & i & o & E & K & Fi & Ww & Wb) & (l2 & E2 & K2 & F2)) E'. assert (l0 = l) by congruence. subst l0. pose proof (hget_lt _ _ _ _ E) as L1. split.
  - exists (setTrain l b), i, o. split; [|destruct l; auto]. rewrite hget_upd by auto. rewrite Nat.eqb_refl. reflexivity.
  - exists l2. split; auto. rewrite hget_upd by auto. destruct (Nat.eqb_spec a1 a2); [congruence|]. exact E2.
Qed.
Lemma pair_upd2 : forall h p l b, pair2 h p -> hget F h a2 = Ok l -> pair2 (upd h a2 (Some (setTrain l b))) p.
Proof.
  intros h p l b ((l0 & i & o & E & K) & (l2 & E2 & K2 & F2)) E'. assert (l2 = l) by congruence. subst l2. pose proof (hget_lt _ _ _ _ E2) as L2. split.
  - exists l0, i, o. split; [|exact K]. rewrite hget_upd by auto. destruct (Nat.eqb_spec a2 a1); [congruence|]. exact E.
  - exists (setTrain l b). split; [|destruct l; auto]. rewrite hget_upd by auto. rewrite Nat.eqb_refl. reflexivity.
Qed.
Lemma pair_train : forall h p cl tr b h' n', pair2 h p -> netSetTrain F h (mkNet [a1; a2] cl tr) b = Ok (h', n') -> pair2 h' p.
Proof.
  intros h p cl tr b h' n' D E. unfold netSetTrain in E. cbn [nlay forL] in E. destruct (hget F h a1) as [l|] eqn:El; [|discriminate]. cbn [bind] in E. rewrite (hset_ok _ _ _ _ _ El) in E. cbn [bind] in E. pose proof (pair_upd1 h p l b D El) as D1. set (h1 := upd h a1 (Some (setTrain l b))) in *.
  destruct (hget F h1 a2) as [l2|] eqn:El2; [|discriminate]. cbn [bind] in E. rewrite (hset_ok _ _ _ _ _ El2) in E. cbn [bind] in E. apply Ok_inj in E. injection E; intros; subst. apply pair_upd2; auto.
Qed.

Lemma stats_parts : forall cl tr (t t' : trainer F) p, alive p -> onlineStats F (absFloat F) (mkNet [a1; a2] cl tr) t (mgen N m (chance p)) Y = Ok t' -> cLoss F (tc F t) = lo -> tbal F t = noBalance F ->
  exists g, t' = setOnline F t (tonl F t + cross p) g /\ (cl = true -> g = (tgood F t + hits p)%nat).
Proof.
  intros cl tr t t' p Al E Lo Ba. unfold onlineStats in E. rewrite Lo, Ba, comp_val in E by reflexivity. cbn [bind] in E. rewrite mmean_gen in E. cbn [bind] in E. cbv zeta in E.
  assert (Em : fdiv F (fsum F (N * 1) (fun i => - ln (floored (chance p (i / 1) (c (i / 1)))))) (fofN F (N * 1)) = cross p).
  { rewrite fsum_R, fofN_R. rewrite !Nat.mul_1_r. unfold SpecLogit.cross. cbn [fdiv ROps]. f_equal. apply rsum_ext. intros i Hi. rewrite Nat.div_1_r. unfold floored. rewrite Rmax_left by (apply Al; auto). reflexivity. }
  rewrite Em in E. cbn [nclass] in E. destruct cl; cbn [negb] in E.
  - apply bind_inv in E. destruct E as (u & _ & E). apply bind_inv in E. destruct E as (g & Eg & E). apply Ok_inj in E. exists g. split; [rewrite <- E; reflexivity|]. intros _. change (mrows (mgen N m (chance p))) with N in Eg.
    unfold hits, classTruth in *. destruct sp; apply (countGood_correct F) in Eg; exact Eg.
  - apply Ok_inj in E. exists (tgood F t). split; [rewrite <- E; reflexivity|discriminate].
Qed.
Lemma batch_parts : forall rs cl tr h t h' t' p, pair2 h p -> trn t -> alive p -> trainBatch F (absFloat F) rs h (mkNet [a1; a2] cl tr) t (mgen N k X) Y = Ok (h', t') ->
  pair2 h' (down N k m X c eta p) /\ trn t' /\ th F t' = th F t /\ tonl F t' = tonl F t + cross p /\ (cl = true -> tgood F t' = (tgood F t + hits p)%nat).
Proof.
  intros rs cl tr h t h' t' p ((l & i & o & El & Kl & Fl & Ww & Wb) & (s & Es & Ks & Fs)) (o1 & o2 & i0 & i1 & i2 & g0 & g1 & g2 & Eo & K1 & K2 & R1 & R2 & Pw & Pb & Nl & Ad & Tc & Tb & Ti & Tg & Wg) Al E.
  pose proof (hget_lt _ _ _ _ El) as Lt1. pose proof (hget_lt _ _ _ _ Es) as Lt2.
  assert (N12 : (a2 =? a1)%nat = false) by (apply Nat.eqb_neq; auto). assert (N21 : (a1 =? a2)%nat = false) by (apply Nat.eqb_neq; auto).
  unfold trainBatch, backprop in E. rewrite Ti, Nl in E. cbn [rset length Nat.ltb Nat.leb bind upd] in E. unfold forN in E. cbn [seq forL] in E. unfold fwdStep at 1 in E. cbn [fst snd rget nth_error bind Nat.add] in E.
  unfold fwdLayer at 1 in E. cbn [nlay rget nth_error bind] in E. rewrite El in E. cbn [bind] in E. unfold layForward at 1 in E. rewrite Kl, Ww, Wb in E. rewrite (fwdDense_gen F) in E. cbn [bind] in E. rewrite (hset_ok _ _ _ _ _ El) in E. cbn [bind rset length Nat.ltb Nat.leb upd] in E.
  set (h1 := upd h a1 (Some l)) in *.
  assert (Es1 : hget F h1 a2 = Ok s). { unfold h1. rewrite hget_upd by auto. rewrite N21. exact Es. }
  assert (El1 : hget F h1 a1 = Ok l). { unfold h1. rewrite hget_upd by auto. rewrite Nat.eqb_refl. reflexivity. }
  assert (L11 : (a1 < length h1)%nat) by (unfold h1; rewrite length_upd; auto). assert (L12 : (a2 < length h1)%nat) by (unfold h1; rewrite length_upd; auto).
  match type of E with context [mgen N m ?u] => set (P := u) in * end.
  unfold fwdStep at 1 in E. cbn [fst snd rget nth_error bind Nat.add] in E. unfold fwdLayer at 1 in E. cbn [nlay rget nth_error bind] in E. rewrite Es1 in E. cbn [bind] in E. unfold layForward at 1 in E. rewrite Ks in E. rewrite (fwdSoftmax_R jk) in E by auto. cbn [bind] in E. rewrite (hset_ok _ _ _ _ _ Es1) in E. cbn [bind rset length Nat.ltb Nat.leb upd] in E.
  set (h2 := upd h1 a2 (Some s)) in *.
  assert (Es2 : hget F h2 a2 = Ok s). { unfold h2. rewrite hget_upd by auto. rewrite Nat.eqb_refl. reflexivity. }
  assert (El2 : hget F h2 a1 = Ok l). { unfold h2. rewrite hget_upd by auto. rewrite N12. exact El1. }
  assert (L21 : (a1 < length h2)%nat) by (unfold h2; rewrite length_upd; auto). assert (L22 : (a2 < length h2)%nat) by (unfold h2; rewrite length_upd; auto).
  assert (HP : forall i j, P i j = score k X p i j). { intros. unfold P, score. rewrite fsum_R. reflexivity. }
  assert (HS : forall i j, softmax m (P i) j = chance p i j). { intros u j. unfold softmax, SpecLogit.chance. rewrite HP. f_equal. apply rsum_ext. intros. rewrite HP. reflexivity. }
  assert (EQ : mgen N m (fun i => softmax m (P i)) = mgen N m (chance p)) by (apply mgen_ext; intros; apply HS). rewrite EQ in E.
  cbn [setInOut tnl] in E. rewrite Nl in E. cbn [rget nth_error bind] in E.
  match type of E with context [setInOut F t ?v] => set (t1 := setInOut F t v) in * end. change (tgrad F t1) with (tgrad F t) in E. change (tc F t1) with (tc F t) in E. change (tbal F t1) with (tbal F t) in E. rewrite Tg, Tc, Hlo, Tb in E. cbn [rget nth_error bind] in E. rewrite grad_val in E by auto. cbn [bind rset length Nat.ltb Nat.leb upd rev app seq] in E.
  cbn [forL] in E. unfold bwdStep at 1 in E. cbn [fst snd rget nth_error bind Nat.add nlay] in E. rewrite Es2 in E. cbn [bind] in E. unfold layBackward at 1 in E. rewrite Ks, Fs in E. rewrite (bwdSoftmax_R jk) in E by auto. cbn [bind] in E. rewrite (hset_ok _ _ _ _ _ Es2) in E. cbn [bind rset length Nat.ltb Nat.leb upd] in E.
  set (h3 := upd h2 a2 (Some s)) in *.
  assert (Es3 : hget F h3 a2 = Ok s). { unfold h3. rewrite hget_upd by auto. rewrite Nat.eqb_refl. reflexivity. }
  assert (El3 : hget F h3 a1 = Ok l). { unfold h3. rewrite hget_upd by auto. rewrite N12. exact El2. }
  assert (L31 : (a1 < length h3)%nat) by (unfold h3; rewrite length_upd; auto).
  match type of E with context [mgen N m ?u] => match u with fun i j => Rmult _ _ => replace (mgen N m u) with (mgen N m (err k m X c p)) in E by (apply mgen_ext; intros; rewrite HS; symmetry; apply err_val; auto) end end.
  unfold bwdStep at 1 in E. cbn [fst snd rget nth_error bind Nat.add nlay] in E. rewrite El3 in E. cbn [bind] in E. unfold layBackward at 1 in E. rewrite Kl, Fl, Ww in E. rewrite (bwdDense_gen F) in E. cbn [bind] in E. rewrite (hset_ok _ _ _ _ _ El3) in E. cbn [bind rset length Nat.ltb Nat.leb upd] in E.
  match type of E with context [setGWB l ?u ?v] => set (GW := u) in *; set (GB := v) in * end.
  assert (EW : GW = mgen k m (slopeW N k m X c p)).
  { unfold GW. apply mgen_ext. intros u v Hu Hv. rewrite fsum_R, fofN_R. unfold slopeW. cbn [fmul fdiv f1 ROps]. unfold Rdiv. rewrite Rmult_1_l. reflexivity. }
  assert (EB : GB = mgen 1 m (fun _ j => slopeB N k m X c p j)).
  { unfold GB. apply mgen_ext. intros u v Hu Hv. rewrite fsum_R, fofN_R. unfold slopeB. reflexivity. }
  clearbody GW GB. subst GW GB.
  set (l2 := setGWB l (mgen k m (slopeW N k m X c p)) (mgen 1 m (fun _ j => slopeB N k m X c p j))) in *. set (h4 := upd h3 a1 (Some l2)) in *.
  assert (E2 : hget F h4 a1 = Ok l2). { unfold h4. rewrite hget_upd by auto. rewrite Nat.eqb_refl. reflexivity. }
  assert (Es4 : hget F h4 a2 = Ok s). { unfold h4. rewrite hget_upd by auto. rewrite N21. exact Es3. }
  assert (L41 : (a1 < length h4)%nat) by (unfold h4; rewrite length_upd; auto).
  unfold optimizeAll in E. match type of E with context [setGrad F t1 ?v] => set (gs := v) in * end. set (t2 := setGrad F t1 gs) in *.
    change (tpw F t2) with (tpw F t) in E. rewrite Pw in E. cbn [length] in E. unfold forN in E. cbn [seq forL] in E. unfold optWeight at 1 in E. change (tpw F t2) with (tpw F t) in E. rewrite Pw in E. cbn [rget nth_error bind] in E. rewrite E2 in E. cbn [bind] in E. unfold optStep at 1 in E.
  change (tc F t2) with (tc F t) in E. rewrite Tc, Hre in E. cbn [bind] in E. change (topts F t2) with (topts F t) in E. rewrite Eo in E. cbn [rget nth_error bind] in E.
  assert (L2w : lw l2 = mgen k m (fst p)) by exact Ww. assert (L2b : lb l2 = mgen 1 m (fun _ j => snd p j)) by exact Wb. change (lgw l2) with (mgen k m (slopeW N k m X c p)) in E. rewrite L2w in E. rewrite (sgd_step jk o1) in E by auto. rewrite R1 in E. cbn [bind rset length Nat.ltb Nat.leb upd] in E. rewrite (hset_ok _ _ _ _ _ E2) in E. cbn [bind] in E.
  match type of E with context [upd h4 a1 (Some ?u)] => set (l3 := u) in * end. set (h5 := upd h4 a1 (Some l3)) in *. match type of E with context [setOpts F t2 ?v] => set (t3 := setOpts F t2 v) in * end.
  assert (E3 : hget F h5 a1 = Ok l3). { unfold h5. rewrite hget_upd by auto. rewrite Nat.eqb_refl. reflexivity. }
  assert (Es5 : hget F h5 a2 = Ok s). { unfold h5. rewrite hget_upd by auto. rewrite N21. exact Es4. }
  change (tpb F t2) with (tpb F t) in E. rewrite Pb in E. cbn [length] in E. cbn [seq forL] in E. unfold optBias at 1 in E. change (tpb F t3) with (tpb F t) in E. rewrite Pb in E. cbn [rget nth_error bind] in E. rewrite E3 in E. cbn [bind] in E. unfold optStep at 1 in E.
  change (tc F t3) with (tc F t) in E. rewrite Tc, Hre in E. cbn [bind] in E. change (tpw F t3) with (tpw F t) in E. rewrite Pw in E. change (topts F t3) with [o1; o2] in E. cbn [length Nat.add rget nth_error bind] in E.
  change (lb l3) with (lb l2) in E. change (lgb l3) with (mgen 1 m (fun _ j => slopeB N k m X c p j)) in E. rewrite L2b in E. rewrite (sgd_step jk o2) in E by auto. rewrite R2 in E. cbn [bind rset length Nat.ltb Nat.leb upd] in E. rewrite (hset_ok _ _ _ _ _ E3) in E. cbn [bind] in E.
  match type of E with context [upd h5 a1 (Some ?u)] => set (l4 := u) in * end. set (h6 := upd h5 a1 (Some l4)) in *. match type of E with context [setOpts F t3 ?v] => set (t4 := setOpts F t3 v) in * end.
  assert (L51 : (a1 < length h5)%nat) by (unfold h5; rewrite length_upd; auto).
  assert (E4 : hget F h6 a1 = Ok l4). { unfold h6. rewrite hget_upd by auto. rewrite Nat.eqb_refl. reflexivity. }
  assert (Es6 : hget F h6 a2 = Ok s). { unfold h6. rewrite hget_upd by auto. rewrite N21. exact Es5. }
  change (tnl F t4) with (tnl F t) in E. rewrite Nl in E. change (tinOut F t4) with [mgen N k X; mgen N m P; mgen N m (chance p)] in E. cbn [rget nth_error bind] in E.
  destruct (onlineStats F (absFloat F) _ t4 _ Y) as [t5|] eqn:E5; [|discriminate]. cbn [bind] in E. apply Ok_inj in E. injection E; intros <- <-.
  destruct (stats_parts _ _ _ _ _ Al E5) as (g & -> & Hg). { change (tc F t4) with (tc F t). congruence. } { exact Tb. }
  split. { split; [exists l4, i, o; split; [exact E4|]; split; [exact Kl|]; split; [exact Fl|]; split; reflexivity|]. exists s. auto. }
  split. { do 8 eexists. do 5 (split; [solve [reflexivity|auto]|]). do 6 (split; [solve [auto]|]). split; [reflexivity|]. split; [reflexivity|]. apply mwf_gen. }
  split; [reflexivity|]. split; [reflexivity|]. exact Hg.
Qed.

Lemma predict_keeps : forall rs h cl tr x o h' o' p, pair2 h p -> predict F rs h (mkNet [a1; a2] cl tr) x o = Ok (h', o') -> pair2 h' p.
Proof.
  intros rs h cl tr x o h' o' p ((l & i & q & El & Kl & K) & (s & Es & Ks & Fs)) E. unfold predict in E. cbn [nlay length] in E. unfold forN in E. cbn [seq forL] in E. unfold fwdLayer at 1 in E. cbn [nlay rget nth_error bind] in E. rewrite El in E. cbn [bind] in E. unfold layForward at 1 in E. rewrite Kl in E.
  pose proof (hget_lt _ _ _ _ El) as Lt1. pose proof (hget_lt _ _ _ _ Es) as Lt2.
  assert (N12 : (a2 =? a1)%nat = false) by (apply Nat.eqb_neq; auto). assert (N21 : (a1 =? a2)%nat = false) by (apply Nat.eqb_neq; auto).
  destruct (fwdDense F (lw l) (lb l) x) as [x1|]; [|discriminate]. cbn [bind] in E. rewrite (hset_ok _ _ _ _ _ El) in E. cbn [bind] in E. set (h1 := upd h a1 (Some l)) in *.
  assert (Es1 : hget F h1 a2 = Ok s). { unfold h1. rewrite hget_upd by auto. rewrite N21. exact Es. }
  assert (El1 : hget F h1 a1 = Ok l). { unfold h1. rewrite hget_upd by auto. rewrite Nat.eqb_refl. reflexivity. }
  assert (L12 : (a2 < length h1)%nat) by (unfold h1; rewrite length_upd; auto).
  unfold fwdLayer at 1 in E. cbn [nlay rget nth_error bind] in E. rewrite Es1 in E. cbn [bind] in E. unfold layForward at 1 in E. rewrite Ks in E. destruct (fwdSoftmax F x1) as [x2|]; [|discriminate]. cbn [bind] in E. rewrite (hset_ok _ _ _ _ _ Es1) in E. cbn [bind] in E. apply Ok_inj in E. injection E; intros; subst. split.
  - exists l, i, q. split; auto. rewrite hget_upd by auto. rewrite N12. exact El1.
  - exists s. split; auto. rewrite hget_upd by auto. rewrite Nat.eqb_refl. reflexivity.
Qed.
Lemma accuracy_keeps : forall rs h cl tr (t : trainer F) x y h' l a0 p, pair2 h p -> lossAccuracy F (absFloat F) rs h (mkNet [a1; a2] cl tr) t x y = Ok (h', l, a0) -> pair2 h' p.
Proof.
  intros rs h cl tr t x y h' l a0 p D E. unfold lossAccuracy in E. cbv zeta in E. destruct ((_ =? 0)%nat || _); [apply Ok_inj in E; injection E; intros; subst; auto|]. destruct (cValBatch F (tc F t) =? 0)%nat; [discriminate|].
  apply bind_inv in E. destruct E as ([[[[h1 o1] m1] l1] g1] & E1 & E2). apply Ok_inj in E2. injection E2; intros; subst. apply (forN_postI _ (fun _ '(h, _, _, _, _) => pair2 h p)) in E1; auto.
  intros i [[[[h2 o2] m2] l2] g2] [[[[h3 o3] m3] l3] g3] Hi D2 E3. binp E3. apply Ok_inj in E3. injection E3; intros; subst. eapply predict_keeps; [exact D2|]. match goal with H : predict _ _ _ _ _ _ = _ |- _ => exact H end.
Qed.

Variables (R0 : fitRnd F) (cl : bool).
Lemma step_parts : forall e h1 tr t1 h2 t2 h3 t3 l a0, J0 cl e h1 t1 -> alive (it e) -> epochTrain F (absFloat F) R0 e h1 (mkNet [a1; a2] cl tr) t1 (mgen N k X) Y = Ok (h2, mkNet [a1; a2] cl false, t2) ->
  epochStats F (absFloat F) R0 e h2 (mkNet [a1; a2] cl false) t2 N = Ok (h3, t3, l, a0) -> J0 cl (S e) h3 t3.
Proof.
  intros e h1 tr t1 h2 t2 h3 t3 l a0 (D & Tr & H & HA) Al E1 E2.
  assert (K : pair2 h2 (it (S e)) /\ trn t2 /\ th F t2 = th F t1 /\ tonl F t2 = cross (it e) /\ (cl = true -> tgood F t2 = hits (it e))).
  { unfold epochTrain in E1. cbv zeta in E1. set (t0 := setOnline F t1 (f0 F) 0) in *. assert (T0 : trn t0) by exact Tr. assert (Ad : tadj F t0 = N) by (destruct T0 as (?&?&?&?&?&?&?&?&?&?&?&?&?&?&?&?&A&?); exact A).
    change (mrows (mgen N k X)) with N in E1. rewrite Ad, Nat.ltb_irrefl in E1. cbn [bind] in E1. destruct (netSetTrain F h1 _ true) as [[h4 n4]|] eqn:E4; [|discriminate]. cbn [bind] in E1. pose proof (pair_train _ _ _ _ _ _ _ D E4) as D4.
    assert (n4 = mkNet [a1; a2] cl true). { unfold netSetTrain in E4. cbn [nlay nclass] in E4. apply bind_inv in E4. destruct E4 as (? & _ & E4). apply Ok_inj in E4. injection E4; auto. } subst n4.
    unfold trainOneEpoch in E1 at 1. cbv zeta in E1. change (mrows (mgen N k X)) with N in E1. rewrite Ad in E1. rewrite (proj2 (Nat.eqb_neq N 0)) in E1 by lia.
    assert (C : ceilDiv N N = 1%nat). { unfold ceilDiv. symmetry. apply Nat.div_unique with (r := (N - 1)%nat); lia. } rewrite C in E1. unfold forN in E1. cbn [seq forL] in E1. rewrite Nat.mul_0_l, Nat.add_0_l, Nat.min_id in E1. rewrite (viewRow_gen F) in E1 by lia. rewrite truth_view in E1. rewrite Nat.sub_0_r in E1. cbn [bind Nat.add] in E1.
    destruct (trainBatch F (absFloat F) _ h4 _ t0 _ _) as [[h5 t5]|] eqn:E5; [|discriminate]. cbn [bind] in E1. destruct (batch_parts _ _ _ _ _ _ _ _ D4 T0 Al E5) as (D5 & T5 & H5 & L5 & G5).
    destruct (netSetTrain F h5 _ false) as [[h6 n6]|] eqn:E6; [|discriminate]. cbn [bind] in E1. apply Ok_inj in E1. injection E1; intros; subst. split; [eapply pair_train; eauto|]. split; auto. split; [rewrite H5; reflexivity|]. split; [rewrite L5; change (tonl F t0) with 0; lra|]. exact G5. }
  clear E1. destruct K as (D2 & T2 & H2 & L2 & G2). unfold epochStats in E2. cbv zeta in E2.
  assert (Q : forall H', hTL F H' = hTL F (th F t2) ++ [tonl F t2 / INR N] -> (cl = true -> hTA F H' = hTA F (th F t2) ++ [100 * INR (tgood F t2) / INR N]) -> forall h', pair2 h' (it (S e)) -> J0 cl (S e) h' (setHist F t2 H')).
  { intros H' EH EA h' D'. split; auto. split; [exact T2|]. change (th F (setHist F t2 H')) with H'. rewrite EH, H2, H, L2. rewrite seq_S, !map_app. split; [reflexivity|]. intro Ec. rewrite (EA Ec), H2, (HA Ec), (G2 Ec). reflexivity. }
  rewrite !fofN_R in E2. change (fdiv F (tonl F t2) (INR N)) with (tonl F t2 / INR N) in E2. replace (fdiv F (fmul F (INR 100) (INR (tgood F t2))) (INR N)) with (100 * INR (tgood F t2) / INR N) in E2 by (cbn [fdiv fmul ROps]; rewrite (INR_IZR_INZ 100); reflexivity).
  cbn [nclass] in E2. destruct (tval F t2) as [[xv yv]|].
  - apply bind_inv in E2. destruct E2 as ([[h4 l4] a4] & E4 & E2). apply Ok_inj in E2. injection E2; intros; subst. pose proof (accuracy_keeps _ _ _ _ _ _ _ _ _ _ _ D2 E4) as D4. apply Q; auto; destruct cl; try reflexivity; discriminate.
  - apply Ok_inj in E2. injection E2; intros; subst. apply Q; auto; destruct cl; try reflexivity; discriminate.
Qed.
End Soft.

Lemma argOf_unique : forall jk m (f : nat -> R) c, (c < m)%nat -> (forall j, (j < m)%nat -> j <> c -> f j < f c) -> argOf (ROps jk) m f = c.
Proof.
  intros jk m f c Hc H. destruct (argmax_first_real jk m (fun _ => f) ltac:(lia)) as (q & E & Q & M & _). unfold argOf. rewrite E. destruct (Nat.eq_dec q c); auto. specialize (H q Q n). specialize (M c Hc). exfalso. simpl in M. lra.
Qed.
Lemma count_all : forall n p, (forall i, (i < n)%nat -> p i = true) -> count n p = n.
Proof. induction n as [|n IH]; intros p H; simpl; auto. rewrite IH, H by auto. lia. Qed.
Lemma right_hits : forall jk N k m X c sp p, (1 < m)%nat -> (forall i, (i < N)%nat -> (c i < m)%nat) -> allRight N k m X c p -> hits jk N k m X c sp p = N.
Proof.
  intros jk N k m X c sp p Hm Hc Al. apply count_all. intros i Hi.
  assert (A : argOf (ROps jk) m (chance k m X p i) = c i). { apply argOf_unique; auto. intros j Hj Nj. unfold chance. apply Rmult_lt_compat_r; [apply Rinv_0_lt_compat, sum_exp_pos; lia|]. apply exp_increasing, Al; auto. }
  unfold correct, classTruth. destruct sp; cbn [mcols mgen].
  - rewrite Nat.eqb_refl, (proj2 (Nat.eqb_neq m 1)) by lia. rewrite A, fofN_R. simpl. unfold Reqb. destruct (Req_EM_T (INR (c i)) (INR (c i))); auto.
  - change (mcols (mgen N m (oneHot c))) with m. rewrite (proj2 (Nat.eqb_neq m 1)) by lia. rewrite A. apply Nat.eqb_eq. symmetry. apply argOf_unique; auto. intros j Hj Nj. unfold oneHot. rewrite Nat.eqb_refl. destruct (Nat.eqb_spec (c i) j); [congruence|]. lra.
Qed.

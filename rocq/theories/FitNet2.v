(* FitNet2.v - losses, regularisers, optimisers and one training batch on well-sized data *)
From Coq Require Import String List Arith Bool Lia ZArith.
From Verif Require Import Base Scalar Mat SpecMat MatFacts MatProofs MatLoops Loss Optim Regul LayMat Layer Net NetTrain LayProofs1 LossProofs OptProofs SpecOpt TrainProofs1 NetProofs1 NetProofs2
  SpecFit FitLay1 FitLay2 FitLay3 FitNet1.
Import ListNotations.
Local Open Scope nat_scope.

Section Any.
Variable F : FOps.
Notation M := (mat F).
Hint Resolve gen_shp shp_wf mwf_gen resize_shp mresize_wf : fit.

Lemma get1_ok : forall r c (m : M) i, shp r c m -> i < r * c -> exists x, mget1 m i = Ok x /\ In x (mdata m).
Proof.
  intros r c m i H Hi. destruct (shp_gen _ _ _ _ H) as [f ->]. pose proof (mget1_flat F r c (fun k => f (k / c) (k mod c)) i Hi) as E. rewrite <- mgen_flat in E. rewrite E. eexists. split; [reflexivity|].
  unfold mget1 in E. destruct (assert_ (i <? msize (mgen r c f))) in E; cbn [bind] in E; [|discriminate]. unfold rget in E. destruct (nth_error (mdata (mgen r c f)) i) eqn:N; [|discriminate]. injection E as E. rewrite <- E. eapply nth_error_In; eauto.
Qed.
Lemma set1_ok : forall r c (m : M) i x, shp r c m -> i < r * c -> exists m', mset1 m i x = Ok m' /\ shp r c m'.
Proof. intros r c m i x H Hi. destruct (shp_gen _ _ _ _ H) as [f ->]. rewrite mgen_flat, mset1_flat by auto. eexists. split; [reflexivity|]. rewrite mflat_gen. apply gen_shp. Qed.
Lemma get2_ok : forall r c (m : M) i j, shp r c m -> i < r -> j < c -> exists x, mget2 m i j = Ok x.
Proof. intros r c m i j H Hi Hj. destruct (shp_gen _ _ _ _ H) as [f ->]. rewrite mget2_gen by auto. eauto. Qed.
Lemma set2_ok : forall r c (m : M) i j x, shp r c m -> i < r -> j < c -> exists m', mset2 m i j x = Ok m' /\ shp r c m'.
Proof. intros r c m i j x H Hi Hj. destruct (shp_gen _ _ _ _ H) as [f ->]. rewrite mset2_gen by auto. eexists. split; [reflexivity|]. apply gen_shp. Qed.

(** * losses *)
Lemma toIdx_toInt : forall x c, toIdx F x = Ok c -> exists z, toInt F x = Ok z.
Proof. intros x c H. unfold toIdx in H. destruct (toInt F x); [eauto|discriminate]. Qed.
Ltac dm := repeat match goal with |- context [mrows (mgen ?r ?c ?f)] => change (mrows (mgen r c f)) with r | |- context [mcols (mgen ?r ?c ?f)] => change (mcols (mgen r c f)) with c | |- context [msize (mgen ?r ?c ?f)] => change (msize (mgen r c f)) with (r * c) end.
Lemma compute_ok : forall k b n m (o y : M) out, bon F b = false -> shp n m o -> mwf y -> mrows y = n -> truthOk k m y -> mwf out ->
  exists r c l, compute F (absFloat F) k b o y out = Ok l /\ shp r c l.
Proof.
  intros k b n m o y out Hb Ho Wy Ry Ty Hout. pose proof (wf_shp _ _ Wy) as Sy. rewrite Ry in Sy.
  assert (Reg : mcols y = m -> exists r c l, (assert_ (mcols y =? mcols o);;; assert_ (mrows y =? mrows o);;; (d <- msubM F o y ;; e <- mapLoopR F (regElem F (absFloat F) k) d ;; l <- regReduce F k e ;; balanceIf F b y l)) = Ok l /\ shp r c l \/
    (k = LCategoricalCrossEntropy \/ k = LSparseCategoricalCrossEntropy \/ k = LBinaryCrossEntropy)).
  { intros Cy. rewrite Cy in Sy. destruct (shp_gen _ _ _ _ Sy) as [Y ->]. destruct (shp_gen _ _ _ _ Ho) as [O ->]. dm. rewrite !Nat.eqb_refl. cbn [assert_ bind]. rewrite msubM_gen. cbn [bind].
    exists 1, m. assert (E : (exists g, forall x, regElem F (absFloat F) k x = Ok (g x)) \/ (k = LCategoricalCrossEntropy \/ k = LSparseCategoricalCrossEntropy \/ k = LBinaryCrossEntropy)).
    { destruct k; auto; left; unfold regElem, absFloat; cbn [bind]; eexists; intro; reflexivity. }
    destruct E as [[g Eg]|E]; [|exists (mempty F); right; auto].
    rewrite (mapLoopR_gen F _ g) by auto. cbn [bind].
    assert (R : exists f, regReduce F k (mgen n m (fun i j => g (fsub F (O i j) (Y i j)))) = Ok (mgen 1 m f)). { unfold regReduce, colWiseSum, colWiseMean. destruct k; rewrite colWise_gen; eauto. }
    destruct R as [f ->]. cbn [bind]. unfold balanceIf. rewrite Hb. eexists. left. split; [reflexivity|]. apply gen_shp. }
  destruct k; unfold truthOk in Ty; cbn [compute]; try (destruct (Reg Ty) as (r & c & l & [[E S]|[E|[E|E]]]); [exists r, c, l; auto|discriminate|discriminate|discriminate]).
  - clear Reg. rewrite Ty in *. assert (S0 := resize_shp F out n 1 Hout). destruct Ho as (Wo & Ro & Co) eqn:Eo. rewrite Ry, Ro, Co, !Nat.eqb_refl. cbn [assert_ bind].
    destruct (shp_loop F n 1 n (fun j l => s <- forN m (fun i s => t <- mget2 y j i ;; p <- mget2 o j i ;; Ok (fadd F s (fopp F (fmul F t (flm F Llog (floorEps F p)))))) (f0 F) ;; mset2 l j 0 s) _ S0) as (l & E & S).
    + intros j l Hj Sl. destruct (@forN_inv _ (fun _ _ => True) m (fun i s => t <- mget2 y j i ;; p <- mget2 o j i ;; Ok (fadd F s (fopp F (fmul F t (flm F Llog (floorEps F p)))))) (f0 F)) as (s & Es & _); auto.
      { intros i s Hi _. destruct (get2_ok _ _ y j i Sy Hj Hi) as [t ->]. cbn [bind]. destruct (get2_ok n m o j i) as [p ->]; auto. cbn [bind]. eauto. }
      rewrite Es. cbn [bind]. apply set2_ok; auto.
    + exists n, 1, l. auto.
  - destruct Ty as [Cy Ty]. rewrite Cy in *. assert (S0 := resize_shp F out n 1 Hout). destruct Ho as (Wo & Ro & Co) eqn:Eo. rewrite Ry, Ro, !Nat.eqb_refl. cbn [assert_ bind].
    destruct (shp_loop F n 1 n (fun i l => t <- mget1 y i ;; c <- toIdx F t ;; p <- mget2 o i c ;; mset1 l i (fopp F (flm F Llog (floorEps F p)))) _ S0) as (l & E & S).
    + intros i l Hi Sl. destruct (get1_ok n 1 y i Sy) as (t & Et & It); [lia|]. rewrite Et. cbn [bind]. destruct (Ty t It) as (c & Ec & Lc). rewrite Ec. cbn [bind].
      destruct (get2_ok n m o i c) as [p ->]; auto. cbn [bind]. apply set1_ok; auto. lia.
    + exists n, 1, l. auto.
  - destruct Ty as [Cy ->]. rewrite Cy in *. assert (S0 := resize_shp F out n 1 Hout). destruct Ho as (Wo & Ro & Co) eqn:Eo. rewrite Ry, Ro, Co, !Nat.eqb_refl. cbn [assert_ bind].
    destruct (shp_loop F n 1 n (fun i l => p <- mget1 o i ;; t <- mget1 y i ;; mset1 l i (fopp F (fadd F (fmul F t (flm F Llog (floorEps F p))) (fmul F (fsub F (f1 F) t) (flm F Llog (floorEps F (fsub F (f1 F) p)))))))  _ S0) as (l & E & S).
    + intros i l Hi Sl. destruct (get1_ok n 1 o i) as (p & -> & _); [auto|lia|]. cbn [bind]. destruct (get1_ok n 1 y i Sy) as (t & -> & It); [lia|]. cbn [bind]. apply set1_ok; auto. lia.
    + exists n, 1, l. auto.
Qed.
Lemma gradient_ok : forall k b n m (o y : M) out, bon F b = false -> shp n m o -> mwf y -> mrows y = n -> truthOk k m y -> mwf out ->
  exists g, compute_gradient F k b o y out = Ok g /\ shp n m g.
Proof.
  intros k b n m o y out Hb Ho Wy Ry Ty Hout. pose proof (wf_shp _ _ Wy) as Sy. rewrite Ry in Sy.
  assert (Reg : mcols y = m -> exists g, (assert_ (mcols y =? mcols o);;; assert_ (mrows y =? mrows o);;; (d <- msubM F o y ;; g <- mapLoop (regGrad F k (mcols o)) d ;; balanceIf F b y g)) = Ok g /\ shp n m g).
  { intros Cy. rewrite Cy in Sy. destruct (shp_gen _ _ _ _ Sy) as [Y ->]. destruct (shp_gen _ _ _ _ Ho) as [O ->]. dm. rewrite !Nat.eqb_refl. cbn [assert_ bind]. rewrite msubM_gen. cbn [bind].
    rewrite (@mapLoop_gen F). cbn [bind]. unfold balanceIf. rewrite Hb. eexists. split; [reflexivity|]. apply gen_shp. }
  assert (Cel : forall fn, mcols y = m -> exists g, (assert_ (mcols y =? mcols o);;; assert_ (mrows y =? mrows o);;; forN (msize y) (fun i g => p <- mget1 o i ;; t <- mget1 y i ;; mset1 g i (fn p t)) (mresize F out (mrows y) (mcols y))) = Ok g /\ shp n m g).
  { intros fn Cy. unfold msize. rewrite Ry. destruct Ho as (Wo & Ro & Co) eqn:Eo. rewrite Cy, Ro, Co, !Nat.eqb_refl. cbn [assert_ bind]. rewrite Cy in Sy. apply shp_loop; [apply resize_shp; auto|].
    intros i g Hi Sg. destruct (get1_ok n m o i) as (p & -> & _); auto. cbn [bind]. destruct (get1_ok n m y i) as (t & -> & _); auto. cbn [bind]. apply set1_ok; auto. }
  destruct k; unfold truthOk in Ty; cbn [compute_gradient]; try (apply Reg; auto; fail).
  - apply Cel. auto.
  - destruct Ty as [Cy Ty]. destruct Ho as (Wo & Ro & Co) eqn:Eo. rewrite Ry, Cy, Ro, Co, !Nat.eqb_refl. cbn [assert_ bind]. apply shp_loop; [auto|].
    intros r g Hr Sg. rewrite Cy in Sy. destruct (get1_ok n 1 y r Sy) as (x & Ex & Ix); [lia|]. rewrite Ex. cbn [bind]. destruct (Ty x Ix) as (c & Ec & _). destruct (toIdx_toInt _ _ Ec) as [z Ez]. rewrite Ez. cbn [bind].
    apply shp_loop; auto. intros c' g' Hc Sg'. destruct (get2_ok n m g' r c') as [p ->]; auto. cbn [bind]. apply set2_ok; auto.
  - destruct Ty as [Cy ->]. apply Cel. auto.
Qed.
Lemma mean_ok : forall r c (l : M), shp r c l -> exists x, mmean F l = Ok x.
Proof. intros r c l H. destruct (shp_gen _ _ _ _ H) as [f ->]. rewrite mmean_gen. eauto. Qed.

Lemma good_ok : forall n m (o y : M) g, 0 < m -> shp n m o -> mwf y -> mrows y = n -> mcols y = m \/ mcols y = 1 -> exists g', countGood F n o y g = Ok g'.
Proof.
  intros n m o y g Hm Ho Wy Ry Cy. unfold countGood. destruct (@forN_inv _ (fun _ _ => True) n (fun i g => b <- goodRow F o y i ;; Ok (g + (if b : bool then 1 else 0))) g) as (g' & E & _); [auto| |eauto].
  intros i s Hi _. assert (exists b, goodRow F o y i = Ok b) as [b Eb]; [|rewrite Eb; cbn [bind]; eauto].
  pose proof (wf_shp _ _ Wy) as Sy. rewrite Ry in Sy. destruct (shp_gen _ _ _ _ Sy) as [Y EY]. destruct (shp_gen _ _ _ _ Ho) as [O ->].
  unfold goodRow. change (mcols (mgen n m O)) with m. destruct (Nat.eqb_spec (mcols y) 1) as [E1|N1]; cbn [negb].
  - rewrite E1 in Sy. destruct (get1_ok n 1 y i Sy) as (x & Ex & _); [lia|]. rewrite Ex. destruct (Nat.eqb_spec m 1) as [->|N]; cbn [negb].
    + destruct (get1_ok n 1 (mgen n 1 O) i Ho) as (z & -> & _); [lia|]. cbn [bind]. eauto.
    + rewrite mrow_gen by auto. cbn [bind]. rewrite argmax_gen by auto. cbn [bind]. eauto.
  - destruct Cy as [Cy|]; [|congruence]. rewrite EY. rewrite !mrow_gen by auto. cbn [bind]. rewrite !argmax_gen by lia. cbn [bind]. eauto.
Qed.

Lemma truth_cols : forall k m (y : M), truthOk k m y -> mcols y = m \/ mcols y = 1.
Proof. intros k m y H. destruct k; unfold truthOk in H; tauto. Qed.
Lemma online_ok : forall n (t : trainer F) nb m (o y : M), 0 < m -> bon F (tbal F t) = false -> shp nb m o -> mwf y -> mrows y = nb -> truthOk (cLoss F (tc F t)) m y ->
  exists x g, onlineStats F (absFloat F) n t o y = Ok (setOnline F t x g).
Proof.
  intros n t nb m o y Hm Hb Ho Wy Ry Ty. unfold onlineStats. destruct (compute_ok _ _ nb m o y (mempty F) Hb Ho Wy Ry Ty eq_refl) as (r & c & l & -> & Sl). cbn [bind].
  destruct (mean_ok _ _ _ Sl) as [x ->]. cbn [bind]. destruct (nclass n); cbn [negb]; [|eauto].
  pose proof (truth_cols _ _ _ Ty) as Cy. destruct Ho as (Wo & Ro & Co) eqn:Eo. rewrite Ro, Co.
  destruct (good_ok nb m o y (tgood F (setOnline F t (fadd F (tonl F t) x) (tgood F t))) Hm) as [g Eg]; auto.
  replace (if m =? 1 then assert_ (mcols y =? 1) else if mcols y =? 1 then Ok tt else assert_ (mcols y =? m)) with (Ok tt : res unit).
  2:{ destruct (Nat.eqb_spec m 1) as [->|N]; [destruct Cy as [->| ->]; reflexivity|]. destruct (Nat.eqb_spec (mcols y) 1); auto. destruct Cy as [->|]; [rewrite Nat.eqb_refl; reflexivity|congruence]. }
  cbn [bind]. rewrite Eg. cbn [bind]. do 2 eexists. reflexivity.
Qed.

(** * regularisers, optimisers *)
Lemma reg_ok : forall rg r c (w g : M), shp r c w -> shp r c g -> exists g', reg_apply F rg w g = Ok g' /\ shp r c g'.
Proof.
  intros rg r c w g Hw Hg. destruct (shp_gen _ _ _ _ Hw) as [W ->]. destruct (shp_gen _ _ _ _ Hg) as [G ->]. unfold reg_apply, msign, mscale, mtanh, mdivS.
  destruct (rkind F rg); rewrite ?clamp_gen, ?(@mapLoop_gen F); cbn [bind]; rewrite ?(@mapLoop_gen F); cbn [bind]; rewrite ?(@mapLoop_gen F), ?maddM_gen; cbn [bind]; rewrite ?(@mapLoop_gen F), ?maddM_gen; cbn [bind];
    rewrite ?maddM_gen; try (eexists; split; [reflexivity|apply gen_shp]).
  unfold mnorm. assert (exists s, msquaredNorm F (mgen r c G) = Ok s) as [s ->].
  { rewrite mgen_flat, msquaredNorm_flat. eauto. }
  cbn [bind]. destruct (flt F (rparam F rg) (flm F Lsqrt s)); [|eexists; split; [reflexivity|apply gen_shp]]. rewrite (@mapLoop_gen F). cbn [bind]. rewrite (@mapLoop_gen F). eexists; split; [reflexivity|apply gen_shp].
Qed.

Definition optOk (r c : nat) (o : opt F) : Prop := wfOpt F o /\ (fresh F o \/ exists st, stored F r c o st).
Lemma optimize_wf : forall r c o st (w g : nat -> nat -> F) o' w' st', wfOpt F o -> loaded F r c o g st -> optimize F (absFloat F) o (mgen r c w) (mgen r c g) = Ok (o', w') -> okind F o' = okind F o -> stored F r c o' st' -> wfOpt F o'.
Proof.
  intros r c o st w g o' w' st' (W1 & W2 & W3) L E K S. unfold optimize in E. unfold stored in S. rewrite K in S. unfold wfOpt.
  assert (Z : forall a b rr cc x, mwf b -> zeroIfEmpty F a b rr cc = Ok x -> mwf x).
  { intros a b rr cc x Hb Q. unfold zeroIfEmpty in Q. destruct (msize a =? 0); [|injection Q as <-; auto]. rewrite msetZero_gen in Q by auto. injection Q as <-. apply mwf_gen. }
  destruct (okind F o) eqn:Ko; try (binp E; injection E as <- _; cbn [s_m s_v s_p] in S |- *;
    repeat match goal with H : _ /\ _ |- _ => destruct H end; repeat (split; [first [assumption | match goal with H : _ = mgen _ _ _ |- _ => rewrite H; apply mwf_gen end | eapply Z; [|eassumption]; assumption]|]);
    first [assumption | match goal with H : _ = mgen _ _ _ |- _ => rewrite H; apply mwf_gen end | eapply Z; [|eassumption]; assumption]).
Qed.
Lemma opt_ok : forall r c o (w g : M), optOk r c o -> shp r c w -> shp r c g -> exists o' w', optimize F (absFloat F) o w g = Ok (o', w') /\ shp r c w' /\ optOk r c o'.
Proof.
  intros r c o w g [Wo Ho] Hw Hg. destruct (shp_gen _ _ _ _ Hw) as [W ->]. destruct (shp_gen _ _ _ _ Hg) as [G ->].
  assert (exists st, loaded F r c o G st) as [st L]. { destruct Ho as [Ho|[st Ho]]; [eexists; apply fresh_loaded; auto|exists st; apply stored_loaded; auto]. }
  destruct (optimize_step F r c o st W G L) as (o' & E & S & K & _). cbv zeta in E. rewrite E. do 2 eexists. split; [reflexivity|]. split; [apply gen_shp|].
  split; [eapply optimize_wf; eauto|]. right. eauto.
Qed.
Lemma opt_init : forall r c o, wfOpt F o -> optOk r c (init F o).
Proof.
  intros r c o H. pose proof (fresh_init F o H) as Q. split; [|left; auto]. destruct Q as (A & B & C & _). split; auto.
Qed.
Lemma opt_new : forall r c k lr dec mom, optOk r c (set_params F (newOpt F k) lr dec mom).
Proof. intros. unfold set_params. apply opt_init. pose proof (wf_new F k) as H. exact H. Qed.

(** * one batch *)
Section Net.
Variables (n : net) (d : nat -> nat).
Let ls := nlay n.
Hypothesis Hn : NoDup ls.

Definition regW (h : heap F) (t : trainer F) : Prop := forall i a, nth_error (tpw F t) i = Some a -> In a ls /\
  exists l o, hget F h a = Ok l /\ hasWeights l = true /\ nth_error (topts F t) i = Some o /\ optOk (mrows (lw l)) (mcols (lw l)) o.
Definition regB (h : heap F) (t : trainer F) : Prop := forall i a, nth_error (tpb F t) i = Some a -> In a ls /\
  exists l o, hget F h a = Ok l /\ hasBiases l = true /\ nth_error (topts F t) (i + length (tpw F t)) = Some o /\ optOk (mrows (lb l)) (mcols (lb l)) o.
Lemma regW_moves : forall T h h' t, moves F T ls h h' -> regW h t -> regW h' t.
Proof.
  intros T h h' t (_ & _ & Mv) H i a Ea. destruct (H i a Ea) as (Ha & l & o & El & Hw & Eo & Oo). split; auto. destruct (Mv _ _ El) as (l' & El' & Sl). exists l', o. split; auto. split; [eapply sim_w; eauto|]. split; auto.
  destruct Sl as (_ & _ & Q & _). destruct (Q Hw) as [-> ->]. auto.
Qed.
Lemma regB_moves : forall T h h' t, moves F T ls h h' -> regB h t -> regB h' t.
Proof.
  intros T h h' t (_ & _ & Mv) H i a Ea. destruct (H i a Ea) as (Ha & l & o & El & Hw & Eo & Oo). split; auto. destruct (Mv _ _ El) as (l' & El' & Sl). exists l', o. split; auto. split; [eapply sim_b; eauto|]. split; auto.
  destruct Sl as (_ & _ & _ & Q). destruct (Q Hw) as [-> ->]. auto.
Qed.
Definition allGraded (h : heap F) : Prop := forall a l, In a ls -> hget F h a = Ok l -> graded F l.

Lemma optStep_fits : forall t q r c (w g : M) o, nth_error (topts F t) q = Some o -> optOk r c o -> shp r c w -> shp r c g ->
  exists o' w' g', optStep F (absFloat F) t q w g = Ok (upd (topts F t) q o', w', g') /\ shp r c w' /\ shp r c g' /\ optOk r c o'.
Proof.
  intros t q r c w g o Eo Oo Hw Hg. unfold optStep.
  assert (exists g', (match cReg F (tc F t) with Some r => reg_apply F r w g | None => Ok g end) = Ok g' /\ shp r c g') as (g' & -> & Sg). { destruct (cReg F (tc F t)); [apply reg_ok; auto|eauto]. }
  cbn [bind]. unfold rget. rewrite Eo. cbn [bind]. destruct (opt_ok r c o w g' Oo Hw Sg) as (o' & w' & -> & Sw & Oo'). cbn [bind]. unfold rset.
  rewrite ltb_true by (apply nth_error_Some; congruence). cbn [bind]. exists o', w', g'. auto.
Qed.

Definition optInv (h0 : heap F) (t : trainer F) (s : heap F * trainer F) : Prop :=
  dims F (fst s) ls d /\ moves F true ls h0 (fst s) /\ allGraded (fst s) /\ (exists os, snd s = setOpts F t os) /\ regW (fst s) (snd s) /\ regB (fst s) (snd s).

Lemma shp_hw : forall (l : layer F) k m, fits l k m -> hasWeights l = true -> shp (mrows (lw l)) (mcols (lw l)) (lw l).
Proof.
  intros l k m H HW. apply wf_shp. unfold fits in H. destruct H as (_ & _ & _ & _ & _ & H). unfold hasWeights in HW. destruct (lk l); try contradiction;
    repeat match goal with H : _ /\ _ |- _ => destruct H | H : sizedOr _ _ _ |- _ => destruct H | H : _ \/ _ |- _ => destruct H end;
    match goal with H : none (lw l) |- _ => apply H | H : shp _ _ (lw l) |- _ => apply H end.
Qed.
Lemma shp_hb : forall (l : layer F) k m, fits l k m -> hasBiases l = true -> shp (mrows (lb l)) (mcols (lb l)) (lb l).
Proof.
  intros l k m H HW. apply wf_shp. unfold fits in H. destruct H as (_ & _ & _ & _ & _ & H). unfold hasBiases in HW. destruct (lk l); try contradiction;
    repeat match goal with H : _ /\ _ |- _ => destruct H | H : sizedOr _ _ _ |- _ => destruct H | H : _ \/ _ |- _ => destruct H end;
    match goal with H : none (lb l) |- _ => apply H | H : shp _ _ (lb l) |- _ => apply H end.
Qed.

Lemma optWeight_fits : forall h0 t i s, optInv h0 t s -> i < length (tpw F t) -> exists s', optWeight F (absFloat F) i s = Ok s' /\ optInv h0 t s'.
Proof.
  intros h0 t i [h t1] (I1 & I2 & I3 & (os & I4) & I5 & I6) Hi. cbn [fst snd] in *. unfold optWeight.
  assert (Tp : tpw F t1 = tpw F t) by (rewrite I4; reflexivity). assert (Tb : tpb F t1 = tpb F t) by (rewrite I4; reflexivity).
  destruct (nth_error (tpw F t1) i) as [a|] eqn:Ea; [|apply nth_error_None in Ea; rewrite Tp in Ea; lia]. unfold rget. rewrite Ea. cbn [bind].
  destruct (I5 i a Ea) as (Ha & l & o & El & Hw & Eo & Oo). rewrite El. cbn [bind]. destruct (dims_in F _ _ _ _ I1 Ha) as (p & l0 & Ep & El0 & Fl). rewrite El in El0. injection El0 as <-. destruct (I3 a l Ha El) as [Gw Gb].
  pose proof (shp_hw _ _ _ Fl Hw) as Sw. destruct (optStep_fits t1 i _ _ (lw l) (lgw l) o Eo Oo Sw (Gw Hw)) as (o' & w' & g' & E & Sw' & Sg' & Oo'). rewrite E. cbn [bind]. rewrite (hset_ok _ _ _ _ _ El). cbn [bind].
  eexists. split; [reflexivity|]. pose proof (hget_lt _ _ _ _ El) as La. set (l' := setP l w' g' (lb l) (lgb l)).
  destruct Sw' as (Ww' & Rw' & Cw') eqn:E'. clear E'.
  assert (Si : sim F true l l'). { split; [auto|]. split; [auto|]. split; intro; unfold l'; cbn [setP lw lb]; auto. }
  assert (Mv : moves F true ls h (upd h a (Some l'))) by (eapply upd_moves; eauto).
  split; cbn [fst snd]; [eapply upd_dims; eauto; eapply fits_weights; eauto; split; auto|]. split; [eapply moves_trans; eauto|]. split; [|split; [exists (upd (topts F t1) i o'); rewrite I4; reflexivity|split]].
  - intros b lb Hb Elb. rewrite hget_upd in Elb by auto. destruct (Nat.eqb_spec a b) as [<-|N]; [|eauto]. injection Elb as <-. unfold l'. split; cbn [hasWeights hasBiases setP lw lb lgw lgb]; auto. intros _. rewrite Rw', Cw'. auto.
  - intros j b Eb. change (tpw F (setOpts F t1 (upd (topts F t1) i o'))) with (tpw F t1) in Eb. change (topts F (setOpts F t1 (upd (topts F t1) i o'))) with (upd (topts F t1) i o').
    destruct (regW_moves true _ _ t1 Mv I5 j b Eb) as (Hb & lb & ob & Elb & Hwb & Eob & Oob). split; auto. destruct (Nat.eq_dec i j) as [<-|N].
    + assert (b = a) by congruence. subst b. exists lb, o'. split; auto. split; auto. split; [rewrite nth_error_upd, Nat.eqb_refl, ltb_true; auto; apply nth_error_Some; congruence|].
      rewrite hget_upd in Elb by auto. rewrite Nat.eqb_refl in Elb. injection Elb as <-. unfold l'. cbn [setP lw]. rewrite Rw', Cw'. auto.
    + exists lb, ob. split; auto. split; auto. split; auto. rewrite nth_error_upd. destruct (Nat.eqb_spec i j); [contradiction|auto].
  - intros j b Eb. change (tpb F (setOpts F t1 (upd (topts F t1) i o'))) with (tpb F t1) in Eb. change (topts F (setOpts F t1 (upd (topts F t1) i o'))) with (upd (topts F t1) i o').
    change (tpw F (setOpts F t1 (upd (topts F t1) i o'))) with (tpw F t1).
    destruct (regB_moves true _ _ t1 Mv I6 j b Eb) as (Hb & lb & ob & Elb & Hwb & Eob & Oob). split; auto. exists lb, ob. split; auto. split; auto. split; auto. rewrite nth_error_upd.
    destruct (Nat.eqb_spec i (j + length (tpw F t1))); [exfalso; rewrite Tp in *; lia|auto].
Qed.
Lemma optBias_fits : forall h0 t i s, optInv h0 t s -> i < length (tpb F t) -> exists s', optBias F (absFloat F) i s = Ok s' /\ optInv h0 t s'.
Proof.
  intros h0 t i [h t1] (I1 & I2 & I3 & (os & I4) & I5 & I6) Hi. cbn [fst snd] in *. unfold optBias.
  assert (Tp : tpw F t1 = tpw F t) by (rewrite I4; reflexivity). assert (Tb : tpb F t1 = tpb F t) by (rewrite I4; reflexivity).
  destruct (nth_error (tpb F t1) i) as [a|] eqn:Ea; [|apply nth_error_None in Ea; rewrite Tb in Ea; lia]. unfold rget. rewrite Ea. cbn [bind].
  destruct (I6 i a Ea) as (Ha & l & o & El & Hw & Eo & Oo). rewrite El. cbn [bind]. destruct (dims_in F _ _ _ _ I1 Ha) as (p & l0 & Ep & El0 & Fl). rewrite El in El0. injection El0 as <-. destruct (I3 a l Ha El) as [Gw Gb].
  pose proof (shp_hb _ _ _ Fl Hw) as Sw. destruct (optStep_fits t1 (i + length (tpw F t1)) _ _ (lb l) (lgb l) o Eo Oo Sw (Gb Hw)) as (o' & w' & g' & E & Sw' & Sg' & Oo'). rewrite E. cbn [bind]. rewrite (hset_ok _ _ _ _ _ El). cbn [bind].
  eexists. split; [reflexivity|]. pose proof (hget_lt _ _ _ _ El) as La. set (l' := setP l (lw l) (lgw l) w' g').
  destruct Sw' as (Ww' & Rw' & Cw') eqn:E'. clear E'.
  assert (Si : sim F true l l'). { split; [auto|]. split; [auto|]. split; intro; unfold l'; cbn [setP lw lb]; auto. }
  assert (Mv : moves F true ls h (upd h a (Some l'))) by (eapply upd_moves; eauto).
  set (q := i + length (tpw F t1)) in *.
  split; cbn [fst snd]; [eapply upd_dims; eauto; eapply fits_biases; eauto; split; auto|]. split; [eapply moves_trans; eauto|]. split; [|split; [exists (upd (topts F t1) q o'); rewrite I4; reflexivity|split]].
  - intros b lb Hb Elb. rewrite hget_upd in Elb by auto. destruct (Nat.eqb_spec a b) as [<-|N]; [|eauto]. injection Elb as <-. unfold l'. split; cbn [hasWeights hasBiases setP lw Layer.lb lgw lgb]; auto. intros _. rewrite Rw', Cw'. auto.
  - intros j b Eb. change (tpw F (setOpts F t1 (upd (topts F t1) q o'))) with (tpw F t1) in Eb. change (topts F (setOpts F t1 (upd (topts F t1) q o'))) with (upd (topts F t1) q o').
    destruct (regW_moves true _ _ t1 Mv I5 j b Eb) as (Hb & lb & ob & Elb & Hwb & Eob & Oob). split; auto. exists lb, ob. split; auto. split; auto. split; auto. rewrite nth_error_upd.
    assert (j < length (tpw F t1)) by (apply nth_error_Some; congruence). destruct (Nat.eqb_spec q j); [exfalso; unfold q in *; lia|auto].
  - intros j b Eb. change (tpb F (setOpts F t1 (upd (topts F t1) q o'))) with (tpb F t1) in Eb. change (topts F (setOpts F t1 (upd (topts F t1) q o'))) with (upd (topts F t1) q o').
    change (tpw F (setOpts F t1 (upd (topts F t1) q o'))) with (tpw F t1).
    destruct (regB_moves true _ _ t1 Mv I6 j b Eb) as (Hb & lb & ob & Elb & Hwb & Eob & Oob). split; auto. destruct (Nat.eq_dec i j) as [<-|N].
    + assert (b = a) by congruence. subst b. exists lb, o'. split; auto. split; auto. split; [fold q; rewrite nth_error_upd, Nat.eqb_refl, ltb_true; auto; apply nth_error_Some; congruence|].
      rewrite hget_upd in Elb by auto. rewrite Nat.eqb_refl in Elb. injection Elb as <-. unfold l'. cbn [setP Layer.lb]. rewrite Rw', Cw'. auto.
    + exists lb, ob. split; auto. split; auto. split; auto. rewrite nth_error_upd. destruct (Nat.eqb_spec q (j + length (tpw F t1))); [exfalso; unfold q in *; lia|auto].
Qed.
Lemma optimizeAll_fits : forall h t, dims F h ls d -> allGraded h -> regW h t -> regB h t ->
  exists h' os, optimizeAll F (absFloat F) h t = Ok (h', setOpts F t os) /\ dims F h' ls d /\ moves F true ls h h' /\ regW h' (setOpts F t os) /\ regB h' (setOpts F t os).
Proof.
  intros h t D G RW RB. unfold optimizeAll.
  destruct (@forN_inv _ (fun _ s => optInv h t s) (length (tpw F t)) (optWeight F (absFloat F)) (h, t)) as (s1 & E1 & I1).
  - split; auto. split; [apply moves_refl|]. split; auto. split; [exists (topts F t); destruct t; reflexivity|]. auto.
  - intros i s Hi I. apply optWeight_fits; auto.
  - destruct (@forN_inv _ (fun _ s => optInv h t s) (length (tpb F t)) (optBias F (absFloat F)) s1) as (s2 & E2 & I2); auto.
    + intros i s Hi I. apply optBias_fits; auto.
    + rewrite E1. cbn [bind]. rewrite E2. destruct I2 as (J1 & J2 & J3 & (os & J4) & J5 & J6). destruct s2 as [h' t']. cbn [fst snd] in *. subst t'. eauto 10.
Qed.

(* a trainer set on the network *)
Definition trOk (h : heap F) (t : trainer F) : Prop :=
  tnl F t = length ls /\ length (tinOut F t) = S (length ls) /\ Forall mwf (tinOut F t) /\ length (tgrad F t) = S (length ls) /\ Forall mwf (tgrad F t) /\ bon F (tbal F t) = false /\ regW h t /\ regB h t.
(* what training leaves in the trainer *)
Definition same (t t' : trainer F) : Prop :=
  tc F t' = tc F t /\ tadj F t' = tadj F t /\ tcur F t' = tcur F t /\ ttrain F t' = ttrain F t /\ tval F t' = tval F t /\ tcallback F t' = tcallback F t /\ th F t' = th F t.
Lemma same_refl : forall t, same t t.
Proof. intro t. unfold same. auto 10. Qed.
Lemma same_trans : forall a b c, same a b -> same b c -> same a c.
Proof. unfold same. intros a b c A B. repeat match goal with H : _ /\ _ |- _ => destruct H end. repeat split; congruence. Qed.
Lemma trOk_moves : forall T h h' t, moves F T ls h h' -> trOk h t -> trOk h' t.
Proof. intros T h h' t Mv (A & B & C & D & E & G & H & I). repeat (split; [solve [auto]|]). split; [eapply regW_moves; eauto|eapply regB_moves; eauto]. Qed.

Lemma batch_fits : forall rs h t x y nb, 0 < length ls -> dims F h ls d -> modeAll F true h ls -> firstOnly F h ls -> trOk h t ->
  shp nb (d 0) x -> mwf y -> mrows y = nb -> truthOk (cLoss F (tc F t)) (d (length ls)) y ->
  exists h' t', trainBatch F (absFloat F) rs h n t x y = Ok (h', t') /\ dims F h' ls d /\ moves F true ls h h' /\ trOk h' t' /\ same t t'.
Proof.
  intros rs h t x y nb L D Tr Fo (T1 & T2 & T3 & T4 & T5 & T6 & T7 & T8) Hx Wy Ry Ty. pose proof (dims_pos F _ _ _ (length ls) D L (le_n _)) as Pm.
  unfold trainBatch, backprop. unfold rset at 1. rewrite ltb_true by lia. cbn [bind]. rewrite T1.
  assert (S0 : sizes F n d nb 0 (upd (tinOut F t) 0 x)).
  { split; [rewrite length_upd; auto|]. split; [apply Forall_upd'; auto; eapply shp_wf; eauto|]. intros j Hj. assert (j = 0) by lia. subst j. exists x. rewrite nth_error_upd, Nat.eqb_refl, ltb_true by lia. auto. }
  destruct (forward_fits F n d Hn rs h _ nb D Tr S0) as (h1 & v & E1 & D1 & M1 & S1 & R1). fold ls in E1, D1, M1, S1, R1. rewrite E1. cbn [bind]. change (tnl F (setInOut F t v)) with (tnl F t). rewrite T1.
  pose proof S1 as (Lv & Wv & Sv). destruct (Sv (length ls) (le_n _)) as (o & Eo & So). unfold rget at 1. rewrite Eo. cbn [bind]. change (tgrad F (setInOut F t v)) with (tgrad F t).
  destruct (rget_at F (tgrad F t) (length ls)) as (gl & Eg & Ng); [lia|]. rewrite Eg. cbn [bind]. assert (Wg : mwf gl) by (rewrite Forall_forall in T5; apply T5; eapply nth_error_In; eauto).
  change (tc F (setInOut F t v)) with (tc F t). change (tbal F (setInOut F t v)) with (tbal F t).
  destruct (gradient_ok _ _ nb _ o y gl T6 So Wy Ry Ty Wg) as (g & E2 & Sg). rewrite E2. cbn [bind]. unfold rset at 1. rewrite ltb_true by lia. cbn [bind].
  pose proof (dims_alive F _ _ _ D) as Al.
  destruct (backward_fits F n d Hn nb v S1 (length ls) h1 (upd (tgrad F t) (length ls) g)) as (h2 & gs & E3 & D3 & M3 & G3 & L3 & W3); auto.
  { eapply moves_first; eauto. }
  { intros j a l Hj Ea. exfalso. assert (j < length (nlay n)) by (apply nth_error_Some; congruence). unfold ls in *. lia. }
  { rewrite length_upd. auto. }
  { apply Forall_upd'; auto. eapply shp_wf; eauto. }
  { intros _. exists g. rewrite nth_error_upd, Nat.eqb_refl, ltb_true by lia. auto. }
  fold ls in E3. rewrite E3. cbn [bind]. set (t2 := setGrad F (setInOut F t v) gs).
  assert (M2 : moves F true ls h h2) by (eapply moves_trans; eauto).
  destruct (optimizeAll_fits h2 t2) as (h3 & os & E4 & D4 & M4 & W4 & B4); auto.
  { intros a l Ha El. apply In_nth_error in Ha. destruct Ha as [j Ej]. apply (G3 j a); auto. lia. }
  { apply (regW_moves true h h2 t M2 T7). }
  { apply (regB_moves true h h2 t M2 T8). }
  rewrite E4. cbn [bind]. set (t3 := setOpts F t2 os). change (tnl F t3) with (tnl F t). rewrite T1. change (tinOut F t3) with v. unfold rget. rewrite Eo. cbn [bind].
  destruct (online_ok n t3 nb (d (length ls)) o y Pm T6 So Wy Ry Ty) as (xx & gg & E5). rewrite E5. cbn [bind]. exists h3, (setOnline F t3 xx gg). split; auto. split; auto. split; [eapply moves_trans; eauto|].
  split; [|repeat split; reflexivity]. unfold trOk. do 6 (split; [solve [auto]|]). split; [exact W4|exact B4].
Qed.
End Net.
End Any.

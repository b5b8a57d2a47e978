(* InitProofs.v - constructors: shapes and initial values of the parameters *)
From Coq Require Import String List Arith Bool Lia Reals Lra ZArith.
From Verif Require Import Base Scalar Mat SpecMat SpecReal RSum MatFacts MatLoops MatProofs LayKit Loss Optim LayMat LayImg LayRnn Layer Net NetProofs1 Metrics NetTrain TrainProofs1 SpecInit.
Import ListNotations.
Local Open Scope nat_scope.

Section Any.
Variable F : FOps.
Notation M := (mat F).

Lemma setRandom_new : forall g (m : M) r c, mwf m -> setRandom F g (mresize F m r c) = Ok (mgen r c (fun i j => g (i * c + j))).
Proof.
  intros g m r c H. destruct (mresize_flat F m r c H) as [q ->]. rewrite setRandom_flat. apply f_equal. apply mflat_gen.
Qed.
Lemma scaled_new : forall g (m : M) r c s, mwf m -> (w <- setRandom F g (mresize F m r c) ;; mscale F w s) = Ok (mgen r c (fun i j => fmul F (g (i * c + j)) s)).
Proof. intros g m r c s H. rewrite setRandom_new by auto. cbn [bind]. unfold mscale. apply mapLoop_gen. Qed.
Lemma initCompute_spec : forall name g (m : M) nI nO, mwf m -> exists w, initCompute F name g m nI nO = Ok w /\ initTo F name g m nI nO w.
Proof.
  intros name g m nI nO H. unfold initCompute, initTo, initCell, initTable, lookup, uniformScale.
  assert (Hz : msetZero F m nI nO = Ok (mgen nI nO (fun _ _ => f0 F))) by (apply msetZero_gen; auto).
  assert (Ho : msetOnes F m nI nO = Ok (mgen nI nO (fun _ _ => f1 F))) by (apply msetConstR_gen; auto).
  repeat match goal with |- context [String.eqb name ?s] => destruct (String.eqb_spec name s) as [->|?]; [simpl String.eqb; cbv iota;
    first [rewrite scaled_new by auto | rewrite setRandom_new by auto | rewrite Hz | rewrite Ho]; eexists; (split; [reflexivity|]); right; eexists; (split; [reflexivity|]); auto|] end.
  exists m. auto.
Qed.

Theorem new_layer : forall r k wi bi l, layNew F r k wi bi = Ok l ->
  lk l = k /\ lwi l = wi /\ lbi l = bi /\ ltrain l = false /\ lfirst l = false /\ lns l = 0 /\ lmem l = mempty F /\
  match weightShape F k with Some (nI, nO) => initTo F wi (rf r) (mempty F) nI nO (lw l) | None => lw l = otherWeight F k (rf r) end /\
  match biasShape F k with
  | Some (nI, nO) => initTo F bi (fun q => rf r (match weightShape F k with Some (a, b) => a * b | None => 0 end + q)) (mempty F) nI nO (lb l)
  | None => lb l = otherBias F k
  end.
Proof.
  intros r k wi bi l H. unfold layNew in H. apply bind_inv in H. destruct H as (l0 & E0 & E).
  assert (R0 : mwf (mempty F)) by reflexivity.
  destruct k; unfold layCtor in E0; cbn [lk layBase] in E0; binp E0; try (inversion E0; subst l0; clear E0); unfold layInit in E; cbn [lk setP layBase lw lb lgw lgb lwi lbi] in E; cbn [weightShape biasShape otherWeight otherBias];
  try (inversion E; subst l; cbn; auto 20; fail).
  - (* Dense *)
    destruct ((nI =? 0) || (nO =? 0)) eqn:Z; [inversion E; subst l; cbn; auto 20|].
    destruct (initCompute_spec wi (rf r) (mempty F) nI nO R0) as (w & Ew & Sw). destruct (initCompute_spec bi (after F r (nI * nO)) (mempty F) 1 nO R0) as (b & Eb & Sb).
    rewrite Ew in E. cbn [bind] in E. rewrite Eb in E. cbn [bind] in E. inversion E; subst l. cbn. auto 20.
  - destruct ((nI =? 0) || (nO =? 0)) eqn:Z; [inversion E; subst l; cbn; auto 20|].
    destruct (initCompute_spec wi (rf r) (mempty F) nI nO R0) as (w & Ew & Sw).
    rewrite Ew in E. cbn [bind] in E. inversion E; subst l. cbn. auto 20.
  - destruct (initCompute_spec bi (rf r) (mempty F) 1 nH R0) as (b & Eb & Sb). rewrite Eb in E. cbn [bind] in E. inversion E; subst l. cbn. auto 20.
  - destruct (initCompute_spec bi (rf r) (mempty F) 1 fs R0) as (b & Eb & Sb). rewrite Eb in E. cbn [bind] in E. inversion E; subst l. cbn. auto 20.
  - destruct (initCompute_spec wi (rf r) (mempty F) fi fo R0) as (w & Ew & Sw).
    rewrite Ew in E. cbn [bind] in E. inversion E; subst l. cbn. auto 20.
  - destruct (initCompute_spec wi (rf r) (mempty F) fi fo R0) as (w & Ew & Sw). destruct (initCompute_spec bi (after F r (fi * fo)) (mempty F) 1 fo R0) as (b & Eb & Sb).
    rewrite Ew in E. cbn [bind] in E. rewrite Eb in E. cbn [bind] in E. inversion E; subst l. cbn. auto 20.
  - rewrite setRandom_new in E by auto. cbn [bind] in E. unfold mscale in E. rewrite mapLoop_gen in E. cbn [bind] in E. unfold msetConst in E. binp E. inversion E; subst l. cbn -[Nat.mul]. auto 20.
  - binp E. inversion E; subst l. cbn. auto 20.
  - unfold initRnn in E. cbn [simplestOf lrnn wH lw layBase] in E. rewrite setRandom_new in E by auto. cbn [bind] in E. inversion E; subst l. cbn. auto 20.
Qed.

(* the gradients a constructor fills *)
Theorem new_gradients : forall r k wi bi l, layNew F r k wi bi = Ok l ->
  match k with
  | KConv v _ => lgw l = mgen (vO v) (vkr v * vkc v * vI v) (fun _ _ => f0 F) /\ lgb l = mempty F
  | KGlobalGain => mrows (lgw l) = 1 /\ mcols (lgw l) = 1 /\ mwf (lgw l) /\ lgb l = mempty F
  | KGlobalBias => mrows (lgb l) = 1 /\ mcols (lgb l) = 1 /\ mwf (lgb l) /\ lgw l = mempty F
  | KGlobalAffine => mrows (lgw l) = 1 /\ mcols (lgw l) = 1 /\ mwf (lgw l) /\ mrows (lgb l) = 1 /\ mcols (lgb l) = 1 /\ mwf (lgb l)
  | _ => lgw l = mempty F /\ lgb l = mempty F
  end.
Proof.
  intros r k wi bi l H. unfold layNew in H. apply bind_inv in H. destruct H as (l0 & E0 & E).
  assert (R0 : mwf (mempty F)) by reflexivity.
  destruct k; unfold layCtor in E0; cbn [lk layBase] in E0; binp E0; try (inversion E0; subst l0; clear E0); unfold layInit in E; cbn [lk setP layBase lw lb lgw lgb lwi lbi] in E;
  try (inversion E; subst l; unfold mwf; cbn; auto 20; fail).
  - destruct ((nI =? 0) || (nO =? 0)) eqn:Z; [inversion E; subst l; cbn; auto 20|]. binp E. inversion E; subst l. cbn. auto.
  - destruct ((nI =? 0) || (nO =? 0)) eqn:Z; [inversion E; subst l; cbn; auto 20|]. binp E. inversion E; subst l. cbn. auto.
  - binp E. inversion E; subst l. cbn. auto.
  - binp E. inversion E; subst; cbn; auto.
  - binp E. inversion E; subst; cbn; auto.
  - binp E. inversion E; subst; cbn; auto.
  - rewrite setRandom_new in E by auto. cbn [bind] in E. unfold mscale in E. rewrite mapLoop_gen in E. cbn [bind] in E. unfold msetConst in E.
    change (mrows (mgen _ _ _)) with (vO v) in E at 1. change (mcols (mgen (vO v) _ _)) with (vkr v * vkc v * vI v) in E at 1.
    destruct (mresize_gen F (mempty F) (vO v) (vkr v * vkc v * vI v) R0) as [q Eq]. cbn [mrows mcols mgen] in E. rewrite Eq in E. rewrite mapLoop_gen in E. cbn [bind] in E. inversion E; subst l. cbn -[Nat.mul]. auto.
  - binp E. inversion E; subst l. cbn. auto 20.
  - unfold initRnn in E. cbn [simplestOf lrnn wH lw layBase] in E. rewrite setRandom_new in E by auto. cbn [bind] in E. inversion E; subst l. cbn. auto 20.
Qed.

(* LayerSimpleRNN: u x u recurrent weights, fs x u input weights from the following draws, zero bias and state *)
Theorem new_simple_rnn : forall r fs u wi bi, exists l, layNew F r (KSimpleRnn fs u) wi bi = Ok l /\
  wH (lrnn l) = mgen u u (fun i j => rf r (i * u + j)) /\ wX (lrnn l) = mgen fs u (fun i j => rf r (u * u + (i * u + j))) /\
  bH (lrnn l) = mgen 1 u (fun _ _ => f0 F) /\ hh (lrnn l) = mgen 1 u (fun _ _ => f0 F) /\ saved (lrnn l) = [].
Proof.
  intros r fs u wi bi. unfold layNew, layCtor, layInit. cbn [bind lk layBase]. unfold initRnn. cbn [lrnn layBase rnn0 wH wX bH hh].
  rewrite !setRandom_new by reflexivity. cbn [bind]. rewrite !msetZero_gen by reflexivity. cbn [bind]. eexists. split; [reflexivity|]. cbn. auto.
Qed.

(* every constructor succeeds, except an activation without function, a pooling with a zero factor and a kernel larger than the image *)
Theorem new_succeeds : forall r k wi bi,
  match k with KAct None | KMaxPool _ | KAvgPool _ | KConv _ _ => False | _ => True end -> exists l, layNew F r k wi bi = Ok l.
Proof.
  intros r k wi bi H. assert (R0 : mwf (mempty F)) by reflexivity. unfold layNew.
  assert (IC : forall name g nI nO, exists w, initCompute F name g (mempty F) nI nO = Ok w). { intros. destruct (initCompute_spec name g (mempty F) nI nO R0) as (w & E & _). eauto. }
  destruct k as [nI nO|nI nO| | | | | | | | [a|] | | | | | | | | | | | | | | | | | | | | | | | |]; try contradiction; unfold layCtor; cbn [lk layBase bind notNull assert_]; unfold layInit; cbn [lk setP layBase lw lb lgw lgb lwi lbi]; try (eexists; reflexivity).
  - destruct ((nI =? 0) || (nO =? 0)); [eauto|]. destruct (IC wi (rf r) nI nO) as [w ->]. cbn [bind]. destruct (IC bi (after F r (nI * nO)) 1 nO) as [b ->]. cbn [bind]. eauto.
  - destruct ((nI =? 0) || (nO =? 0)); [eauto|]. destruct (IC wi (rf r) nI nO) as [w ->]. cbn [bind]. eauto.
  - destruct (IC bi (rf r) 1 nH) as [w ->]. cbn [bind]. eauto.
  - destruct (IC bi (rf r) 1 fs) as [w ->]. cbn [bind]. eauto.
  - destruct (IC wi (rf r) fi fo) as [w ->]. cbn [bind]. eauto.
  - destruct (IC wi (rf r) fi fo) as [w ->]. cbn [bind]. destruct (IC bi (after F r (fi * fo)) 1 fo) as [b ->]. cbn [bind]. eauto.
  - unfold initRnn. cbn [lrnn layBase rnn0 wH wX bH hh]. rewrite !setRandom_new by reflexivity. cbn [bind]. rewrite !msetZero_gen by reflexivity. cbn [bind]. eauto.
  - unfold initRnn. cbn [lrnn layBase rnn0 wH wX bH hh simplestOf lw]. rewrite !setRandom_new by reflexivity. cbn [bind]. eauto.
Qed.

(* a fresh network has no layer, is in classification mode and not in training mode; fresh metrics are zero *)
Theorem new_network : nlay netNew = [] /\ nclass netNew = true /\ ntrain netNew = false.
Proof. auto. Qed.
Theorem new_metrics : mAcc (metNew F) = f0 F /\ mBal (metNew F) = f0 F /\ msize (mConf (metNew F)) = 0 /\ msize (mNorm (metNew F)) = 0.
Proof. auto. Qed.

(* a forward pass of a SimpleRNN in training mode draws its weights again *)
Theorem simple_rnn_redraws : forall (r : rnd F) (l l' : layer F) fs u mIn out o, lk l = KSimpleRnn fs u -> ltrain l = true -> mwf (wH (lrnn l)) -> mwf (wX (lrnn l)) -> layForward F r l mIn out = Ok (l', o) ->
  wH (lrnn l') = mgen u u (fun i j => rf r (i * u + j)) /\ wX (lrnn l') = mgen fs u (fun i j => rf r (u * u + (i * u + j))).
Proof.
  intros r l l' fs u mIn out o K Tr W1 W2 E. unfold layForward in E. rewrite K, Tr in E. apply bind_inv in E. destruct E as ([s o1] & E & E'). injection E'; intros; subst. clear E'. unfold fwdRnn in E. destruct (fs =? 0); [discriminate|]. apply bind_inv in E. destruct E as (? & _ & E). rewrite orb_true_r in E.
  apply bind_inv in E. destruct E as (s1 & E1 & E). unfold initRnn in E1. rewrite !setRandom_new in E1 by auto. cbn [bind] in E1. binp E1. injection E1; intros; subst s1. clear E1.
  apply (forN_postI _ (fun _ p => wH (fst p) = mgen u u (fun i j => rf r (i * u + j)) /\ wX (fst p) = mgen fs u (fun i j => rf r (u * u + (i * u + j))))) in E; [exact E|split; reflexivity|].
  intros i [s2 o2] [s3 o3] Hi [A B] E3. binp E3. injection E3; intros; subst. exact (conj A B).
Qed.
(* a new trainer *)
Theorem new_trainer : let t := trNew F in
  (cBatch F (tc F t) = 32 /\ cValBatch F (tc F t) = 128 /\ cKeep F (tc F t) = true /\ cEpochs F (tc F t) = 100%Z /\ cReboost F (tc F t) = (-1)%Z /\ cPatience F (tc F t) = (-1)%Z /\ cBalancing F (tc F t) = false) /\
  (cOpt F (tc F t) = "Adam"%string /\ trGetLr F t = minus1 F /\ cDecay F (tc F t) = minus1 F /\ cMom F (tc F t) = minus1 F /\ loss_name (cLoss F (tc F t)) = "MeanSquaredError"%string /\ trGetReg F t = EmptyString /\ trGetRegParam F t = minus1 F) /\
  (hTL F (th F t) = [] /\ hTA F (th F t) = [] /\ hVL F (th F t) = [] /\ hVA F (th F t) = []) /\ (fTL F (th F t) = f0 F /\ fTA F (th F t) = f0 F /\ fVL F (th F t) = f0 F /\ fVA F (th F t) = f0 F) /\ ttrain F t = None /\ tval F t = None /\ tcallback F t = false.
Proof. repeat split. Qed.

(* an unknown initialiser name is accepted and leaves no weights: the layer refuses every input *)
Theorem unknown_initialiser : exists wi, forall r nI nO bi, 0 < nI -> 0 < nO -> exists l, layNew F r (KDense nI nO) wi bi = Ok l /\ msize (lw l) = 0 /\
  forall r' n X out, layForward F r' l (mgen n nI X) out = Err EAssert.
Proof.
  exists "glorot_uniform"%string. intros r nI nO bi HI HO. destruct (new_succeeds r (KDense nI nO) "glorot_uniform"%string bi I) as [l E]. exists l. split; [exact E|].
  destruct (new_layer _ _ _ _ _ E) as (K & _ & _ & _ & _ & _ & _ & W & _). cbn [weightShape] in W. destruct (Nat.eqb_spec nI 0); [lia|]. destruct (Nat.eqb_spec nO 0); [lia|]. cbn [orb] in W.
  destruct W as [[_ W]|(f & W & Hc)]; [|specialize (Hc 0 0 HI HO); discriminate].
  rewrite W. split; [reflexivity|]. intros r' n' X out. unfold layForward. rewrite K. unfold fwdDense. rewrite W. cbn [mcols mrows mgen mempty]. destruct (Nat.eqb_spec nI 0); [lia|]. reflexivity.
Qed.
End Any.

(** bounds over the reals *)
Section Bounds.
Local Open Scope R_scope.
Variable jk : R.
Notation F := (ROps jk).
Lemma uniformScale_R : forall a b, uniformScale F a b = sqrt (INR a / INR b).
Proof. intros. unfold uniformScale. rewrite !fofN_R. reflexivity. Qed.
Lemma scaled_bound : forall x b, Rabs x <= 1 -> 0 <= b -> Rabs (x * b) <= b.
Proof. intros x b H Hb. rewrite Rabs_mult, (Rabs_pos_eq b) by auto. rewrite <- (Rmult_1_l b) at 2. apply Rmult_le_compat_r; auto. Qed.
(* draws between -1 and 1 give weights within the bound of the initialiser *)
Lemma initCell_bound : forall name nI nO x v, Rabs x <= 1 -> initCell F name nI nO x = Some v -> Rabs v <= initBound name nI nO.
Proof.
  intros name nI nO x v Hx. unfold initCell, initTable, lookup, initBound.
  repeat match goal with |- context [String.eqb name ?s] => destruct (String.eqb_spec name s) as [->|?]; [simpl String.eqb; cbv iota; intros E; inversion E; subst v; cbn [f0 f1 ROps fmul]|] end.
  all: try (rewrite uniformScale_R; first [replace (INR 6) with 6 by (simpl; lra)|replace (INR 3) with 3 by (simpl; lra)]; apply scaled_bound; [exact Hx|apply sqrt_pos]).
  all: rewrite ?Rabs_R0, ?Rabs_R1; try lra; try exact Hx.
  all: try discriminate.
  all: rewrite <- INR_IZR_INZ; apply scaled_bound; [exact Hx|apply sqrt_pos].
Qed.
Theorem dense_bounds : forall (r : rnd F) nI nO wi bi l, (forall q, Rabs (rf r q) <= 1) -> layNew F r (KDense nI nO) wi bi = Ok l ->
  (forall w, In w (mdata (lw l)) -> Rabs w <= initBound wi nI nO) /\ (forall b, In b (mdata (lb l)) -> Rabs b <= initBound bi 1 nO).
Proof.
  intros r nI nO wi bi l Hr E. destruct (new_layer F _ _ _ _ _ E) as (_ & _ & _ & _ & _ & _ & _ & W & B). cbn [weightShape biasShape] in W, B.
  assert (Q : forall name g a b (m : mat R), (forall q, Rabs (g q) <= 1) -> initTo F name g (mempty F) a b m -> forall w, In w (mdata m) -> Rabs w <= initBound name a b).
  { intros name g a b m Hg [[_ ->]|(f & -> & Hc)] w Hw; [destruct Hw|]. unfold mgen in Hw. cbn [mdata] in Hw. apply in_flat_map in Hw. destruct Hw as (i & Hi & Hw). apply in_map_iff in Hw. destruct Hw as (j & <- & Hj). apply in_seq in Hi. apply in_seq in Hj.
    eapply initCell_bound; [apply (Hg (i * b + j)%nat)|apply Hc; lia]. }
  destruct ((nI =? 0) || (nO =? 0))%nat%bool; [rewrite W, B; split; intros w []|]. split; [exact (Q _ _ _ _ _ Hr W)|exact (Q _ _ _ _ _ (fun q => Hr _) B)].
Qed.
Theorem conv_bounds : forall (r : rnd F) v fast wi bi l, (forall q, Rabs (rf r q) <= 1) -> layNew F r (KConv v fast) wi bi = Ok l ->
  forall w, In w (mdata (lw l)) -> Rabs w <= sqrt (6 / INR (vR v * vC v * vI v + oC v * oR v * vO v)).
Proof.
  intros r v fast wi bi l Hr E w Hw. destruct (new_layer F _ _ _ _ _ E) as (_ & _ & _ & _ & _ & _ & _ & W & _). cbn [weightShape otherWeight] in W. rewrite W in Hw. unfold mgen in Hw. cbn [mdata] in Hw.
  apply in_flat_map in Hw. destruct Hw as (i & Hi & Hw). apply in_map_iff in Hw. destruct Hw as (j & <- & Hj). rewrite uniformScale_R. replace (INR 6) with 6 by (simpl; lra). apply scaled_bound; [apply Hr|apply sqrt_pos].
Qed.
End Bounds.

(* LogitProofs3.v - training a linear classifier: the loss goes down, approaches the least loss, and the accuracy reaches 100 *)
From Coq Require Import String List Arith Lia Bool ZArith Reals Lra.
From Verif Require Import Base Scalar Mat SpecMat SpecData SpecReal RSum MatFacts MatLoops MatProofs Loss SpecLoss Optim OptProofs LayMat LayImg Layer Net NetTrain NetProofs1 NetProofs2 NetProofs4 TrainProofs1 SpecTrain SpecFit FitNet1 FitNet2 FitNet3 FitRun LossProofs2 SpecLayer LayProofs7 SpecLinear LinProofs1 LinProofs2 SpecLogit LogitProofs1 LogitProofs2.
Import ListNotations.
Local Open Scope R_scope.

Theorem logit_fit : forall (jk : R) (R0 : fitRnd (ROps jk)) h n t k m N X c sp W b eta a1 a2 l s i o,
  trainable h n t k m -> nlay n = [a1; a2] -> hget (ROps jk) h a1 = Ok l -> lk l = KDense i o -> lw l = mgen k m W -> lb l = mgen 1 m (fun _ j => b j) ->
  hget (ROps jk) h a2 = Ok s -> lk s = KSoftmax ->
  ttrain (ROps jk) t = Some (mgen N k X, classTruth sp N m c) -> (0 < N)%nat -> (forall i, (i < N)%nat -> (c i < m)%nat) ->
  cLoss (ROps jk) (tc _ t) = classLoss sp -> cReg (ROps jk) (tc _ t) = None -> cOpt (ROps jk) (tc _ t) = "SGD"%string -> cLr (ROps jk) (tc _ t) = eta -> eta <> -1 ->
  (cBatch (ROps jk) (tc _ t) = 0 \/ N <= cBatch (ROps jk) (tc _ t))%nat ->
  let E := Z.to_nat (cEpochs (ROps jk) (tc _ t)) in let it := run N k m X c eta (W, b) in
  (forall e, (e < E)%nat -> alive N k m X c (it e)) ->
  exists h' n' t' calls, fit (ROps jk) (absFloat (ROps jk)) R0 h n t = Ok (h', n', t', calls) /\
    hTL (ROps jk) (th _ t') = map (fun e => cross N k m X c (it e) / INR N) (seq 0 E) /\
    (nclass n = true -> hTA (ROps jk) (th _ t') = map (fun e => 100 * INR (hits jk N k m X c sp (it e)) / INR N) (seq 0 E)) /\
    (cKeep (ROps jk) (tc _ t) = false -> nlay n' = [a1; a2] /\ exists l', hget (ROps jk) h' a1 = Ok l' /\ lw l' = mgen k m (fst (it E)) /\ lb l' = mgen 1 m (fun _ j => snd (it E) j)).
Proof.
  intros jk R0 h n t k m N X c sp W b eta a1 a2 l s i o Ht Hn El Kl Ww Wb Es Ks Hd HN Hc Lo Re Op Lr He Ba E it Al.
  assert (Hne : a1 <> a2). { destruct Ht as (Nd & _). rewrite Hn in Nd. inversion Nd as [|? ? Ni _]; subst. intro E0. apply Ni. left. auto. }
  assert (Fs : lfirst s = false). { destruct Ht as (_ & _ & Fo & _). apply (Fo 0%nat a2); auto. rewrite Hn. reflexivity. }
  assert (Km : (0 < k)%nat /\ (0 < m)%nat /\ none (lw s) /\ none (lb s)). { destruct Ht as (_ & St & _). rewrite Hn in St. cbn [stack] in St. destruct St as (l0 & j & E0 & Fi & l1 & j1 & E1 & Fi1 & <-). destruct Fi as (A1 & A2 & _). assert (l1 = s) by congruence. subst l1. unfold fits in Fi1. rewrite Ks in Fi1. destruct Fi1 as (B1 & B2 & _ & _ & _ & B3 & B4 & B5). auto. } destruct Km as (Hk & Hm & Ns1 & Ns2).
  assert (Wg : List.Forall mwf (tgrad _ t)) by (destruct Ht as (_ & _ & _ & _ & _ & _ & _ & _ & Wg & _); exact Wg).
  destruct (fit_rule (ROps jk) R0 h n t k m (mgen N k X) (classTruth sp N m c) Ht) with (J := J jk a1 a2 N k m X c sp (W, b) eta (tc _ t) (nclass n)) as (h' & n' & t' & calls & h2 & Ef & Jf & Kp); auto.
  - rewrite Hn. simpl. lia.
  - intros e h1 h2 t1 Fr Je Ae. destruct (Je Ae) as (((l1 & i1 & o1 & E1 & P1) & (s1 & E2 & P2)) & Q). split; auto. split.
    + exists l1, i1, o1. split; auto. rewrite Fr; auto. rewrite Hn. left. reflexivity.
    + exists s1. split; auto. rewrite Fr; auto. rewrite Hn. right. left. reflexivity.
  - intros e h1 t1 t2 (z & os & -> & Hos) Je Ae. destruct (Je Ae) as (D & Tr & H). split; auto. split; [|exact H]. destruct Tr as (o1 & o2 & i0 & i1 & i2 & g0 & g1 & g2 & Eo & K1 & K2 & R1 & R2 & Pr).
    destruct Hos as [-> | ->]; [exists o1, o2, i0, i1, i2, g0, g1, g2; do 5 (split; [solve [auto]|]); exact Pr|]. destruct (sgd_init jk o1 K1) as [A1 A2]; [congruence|]. destruct (sgd_init jk o2 K2) as [B1 B2]; [congruence|].
    exists (init _ o1), (init _ o2), i0, i1, i2, g0, g1, g2. split; [change (topts (ROps jk) (setOpts (ROps jk) (setCur (ROps jk) t1 z) ?v)) with v; rewrite Eo; reflexivity|]. do 2 (split; [auto|]). do 2 (split; [congruence|]). exact Pr.
  - intros e rs h1 h2 t1 xv yv l1 a3 tr Je Ea Ae. destruct (Je Ae) as (D & Q). split; auto. rewrite Hn in Ea. eapply accuracy_keeps; eauto.
  - intros h1 t1 Ee _. unfold setNet in Ee. cbv zeta in Ee. rewrite Hn in Ee. rewrite El in Ee. cbn [bind] in Ee. rewrite (hset_ok _ _ _ _ _ El) in Ee. cbn [bind] in Ee. set (h0 := upd h a1 (Some (setFirst l true))) in *. pose proof (hget_lt _ _ _ _ El) as Lt.
    assert (E0 : hget (ROps jk) h0 a1 = Ok (setFirst l true)). { unfold h0. rewrite hget_upd by auto. rewrite Nat.eqb_refl. reflexivity. }
    assert (S0 : hget (ROps jk) h0 a2 = Ok s). { unfold h0. rewrite hget_upd by auto. rewrite (proj2 (Nat.eqb_neq a1 a2)) by auto. exact Es. }
    unfold collect in Ee. rewrite Hn in Ee. cbn [length] in Ee. unfold forN at 1 2 in Ee. cbn [seq forL rget nth_error bind] in Ee. rewrite E0 in Ee. cbn [bind] in Ee. unfold hasWeights, hasBiases in Ee. change (lw (setFirst l true)) with (lw l) in Ee. change (lb (setFirst l true)) with (lb l) in Ee. rewrite Ww, Wb, !msize_mgen in Ee.
    rewrite (proj2 (Nat.eqb_neq (k * m) 0)) in Ee by nia. rewrite (proj2 (Nat.eqb_neq (1 * m) 0)) in Ee by lia. cbn [negb bind app length Nat.add] in Ee. rewrite S0 in Ee. cbn [bind] in Ee. rewrite (proj2 Ns1), (proj2 Ns2) in Ee. cbn [Nat.eqb negb bind app length Nat.add] in Ee. rewrite Op, Lr in Ee. unfold forN in Ee. cbn [seq forL create_optimizer String.eqb Ascii.eqb Bool.eqb bind app] in Ee. apply Ok_inj in Ee. injection Ee; intros; subst h1 t1. clear Ee.
    split; [|split].
    + split; [exists (setFirst l true), i, o; split; auto; destruct l; auto|]. exists s. auto.
    + set (oo := set_params (ROps jk) (newOpt (ROps jk) OSGD) eta (cDecay (ROps jk) (tc _ t)) (cMom (ROps jk) (tc _ t))). assert (O1 : okind _ oo = OSGD /\ olr _ oo = eta) by (apply sgd_init; auto). destruct O1 as [O1 O2]. destruct (sgd_init jk oo O1) as [O3 O4]; [congruence|].
      assert (V : forall v : list (mat (ROps jk)), exists x y z, vresize (ROps jk) v 3 = [x; y; z] /\ (List.Forall mwf v -> mwf z)).
      { intro v. unfold vresize. destruct v as [|x [|y [|z v]]]; simpl; do 3 eexists; (split; [reflexivity|]); intro Q; try reflexivity. inversion Q as [|? ? _ Q1]; subst. inversion Q1 as [|? ? _ Q2]; subst. inversion Q2; auto. }
      destruct (V (tinOut _ t)) as (x0 & x1 & x2 & V1 & _). destruct (V (tgrad _ t)) as (y0 & y1 & y2 & V2 & V3).
      exists (init _ oo), (init _ oo), x0, x1, x2, y0, y1, y2. split; [reflexivity|]. do 2 (split; [auto|]). do 2 (split; [congruence|]). do 3 (split; [reflexivity|]). split.
      * change (mrows (mgen N k X)) with N. change (tadj (ROps jk) (setOpts (ROps jk) (setAdj (ROps jk) ?u ?v) ?w)) with v. destruct Ba as [Z|Z]; [rewrite Z, Nat.eqb_refl, orb_true_r; reflexivity|]. destruct (Nat.ltb_spec N (cBatch (ROps jk) (tc _ t))); [reflexivity|]. rewrite (proj2 (Nat.eqb_neq _ 0)) by lia. cbn. lia.
      * split; [reflexivity|]. split; [reflexivity|]. split; [exact V1|]. split; [exact V2|]. auto.
    + split; reflexivity.
  - intros e h1 tr t1 h2 t2 h3 t3 l1 a3 Je E1 E2 Ae. rewrite Hn in E1, E2. eapply step_parts; eauto.
  - destruct (Jf Al) as (D & Tr & H & HA). exists h', n', t', calls. split; auto. split; [exact H|]. split; [exact HA|]. intro Kf. destruct (Kp Kf) as [Q1 Q2]. split; [congruence|]. destruct D as ((l' & i' & o' & Q3 & _ & _ & Q4 & Q5) & _). exists l'. split; auto. rewrite Q2; auto. rewrite Hn. left. reflexivity.
Qed.

Theorem logit_loss_goes_down : forall (jk : R) (R0 : fitRnd (ROps jk)) h n t k m N X c sp W b eta a1 a2 l s i o,
  trainable h n t k m -> nlay n = [a1; a2] -> hget (ROps jk) h a1 = Ok l -> lk l = KDense i o -> lw l = mgen k m W -> lb l = mgen 1 m (fun _ j => b j) ->
  hget (ROps jk) h a2 = Ok s -> lk s = KSoftmax ->
  ttrain (ROps jk) t = Some (mgen N k X, classTruth sp N m c) -> (0 < N)%nat -> (forall i, (i < N)%nat -> (c i < m)%nat) ->
  cLoss (ROps jk) (tc _ t) = classLoss sp -> cReg (ROps jk) (tc _ t) = None -> cOpt (ROps jk) (tc _ t) = "SGD"%string -> cLr (ROps jk) (tc _ t) = eta ->
  (cBatch (ROps jk) (tc _ t) = 0 \/ N <= cBatch (ROps jk) (tc _ t))%nat -> INR N * cross N k m X c (W, b) <= ln 100000000 -> 0 <= eta -> eta * energy N k X <= 4 * INR N ->
  exists h' n' t' calls, fit (ROps jk) (absFloat (ROps jk)) R0 h n t = Ok (h', n', t', calls) /\
    length (hTL (ROps jk) (th _ t')) = Z.to_nat (cEpochs (ROps jk) (tc _ t)) /\
    forall e q x y, (e <= q)%nat -> nth_error (hTL (ROps jk) (th _ t')) e = Some x -> nth_error (hTL (ROps jk) (th _ t')) q = Some y -> y <= x.
Proof.
  intros jk R0 h n t k m N X c sp W b eta a1 a2 l s i o Ht Hn El Kl Ww Wb Es Ks Hd HN Hc Lo Re Op Lr Ba Hl He Hb.
  assert (c0 : 0 < INR N) by (apply lt_0_INR; auto).
  assert (Hm : (0 < m)%nat) by (specialize (Hc 0%nat HN); lia).
  destruct (logit_fit jk R0 h n t k m N X c sp W b eta a1 a2 l s i o) as (h' & n' & t' & calls & Ef & H & HA & _); auto; [lra| |]. { intros e _. apply run_alive; auto; lra. }
  exists h', n', t', calls. split; auto. rewrite H. rewrite map_length, seq_length. split; auto.
  intros e q x y Leq Ex Ey. apply hist_at in Ex. apply hist_at in Ey. subst x y. apply Rmult_le_compat_r; [apply Rlt_le, Rinv_0_lt_compat; auto|]. apply down_all; auto.
Qed.
Theorem logit_loss_converges : forall (jk : R) (R0 : fitRnd (ROps jk)) h n t k m N X c sp W b eta a1 a2 l s i o,
  trainable h n t k m -> nlay n = [a1; a2] -> hget (ROps jk) h a1 = Ok l -> lk l = KDense i o -> lw l = mgen k m W -> lb l = mgen 1 m (fun _ j => b j) ->
  hget (ROps jk) h a2 = Ok s -> lk s = KSoftmax ->
  ttrain (ROps jk) t = Some (mgen N k X, classTruth sp N m c) -> (0 < N)%nat -> (forall i, (i < N)%nat -> (c i < m)%nat) ->
  cLoss (ROps jk) (tc _ t) = classLoss sp -> cReg (ROps jk) (tc _ t) = None -> cOpt (ROps jk) (tc _ t) = "SGD"%string -> cLr (ROps jk) (tc _ t) = eta ->
  (cBatch (ROps jk) (tc _ t) = 0 \/ N <= cBatch (ROps jk) (tc _ t))%nat -> INR N * cross N k m X c (W, b) <= ln 100000000 -> 0 < eta -> eta * energy N k X <= 2 * INR N ->
  exists h' n' t' calls, fit (ROps jk) (absFloat (ROps jk)) R0 h n t = Ok (h', n', t', calls) /\
    length (hTL (ROps jk) (th _ t')) = Z.to_nat (cEpochs (ROps jk) (tc _ t)) /\
    forall e x (q : model), (0 < e)%nat -> nth_error (hTL (ROps jk) (th _ t')) e = Some x -> x * INR N <= cross N k m X c q + dist2 k m (W, b) q / (2 * eta * INR e).
Proof.
  intros jk R0 h n t k m N X c sp W b eta a1 a2 l s i o Ht Hn El Kl Ww Wb Es Ks Hd HN Hc Lo Re Op Lr Ba Hl He Hb.
  assert (c0 : 0 < INR N) by (apply lt_0_INR; auto).
  assert (Hm : (0 < m)%nat) by (specialize (Hc 0%nat HN); lia).
  destruct (logit_fit jk R0 h n t k m N X c sp W b eta a1 a2 l s i o) as (h' & n' & t' & calls & Ef & H & HA & _); auto; [lra| |]. { intros e _. apply run_alive; auto; lra. }
  exists h', n', t', calls. split; auto. rewrite H. rewrite map_length, seq_length. split; auto.
  intros e x q He0 Ex. apply hist_at in Ex. subst x. unfold Rdiv at 1. rewrite Rmult_assoc, Rinv_l by lra. rewrite Rmult_1_r. apply run_converges; auto.
Qed.
(* on data that some model of this shape classifies, from some epoch on the reported training accuracy is 100 *)
Theorem logit_accuracy : forall k m N (X : nat -> nat -> R) c W b eta (q : model), (0 < N)%nat -> (1 < m)%nat -> (forall i, (i < N)%nat -> (c i < m)%nat) -> INR N * cross N k m X c (W, b) <= ln 100000000 -> 0 < eta -> eta * energy N k X <= 2 * INR N ->
  allRight N k m X c q -> exists E0, forall (jk : R) (R0 : fitRnd (ROps jk)) h n t sp a1 a2 l s i o,
  trainable h n t k m -> nlay n = [a1; a2] -> nclass n = true -> hget (ROps jk) h a1 = Ok l -> lk l = KDense i o -> lw l = mgen k m W -> lb l = mgen 1 m (fun _ j => b j) ->
  hget (ROps jk) h a2 = Ok s -> lk s = KSoftmax ->
  ttrain (ROps jk) t = Some (mgen N k X, classTruth sp N m c) ->
  cLoss (ROps jk) (tc _ t) = classLoss sp -> cReg (ROps jk) (tc _ t) = None -> cOpt (ROps jk) (tc _ t) = "SGD"%string -> cLr (ROps jk) (tc _ t) = eta ->
  (cBatch (ROps jk) (tc _ t) = 0 \/ N <= cBatch (ROps jk) (tc _ t))%nat ->
  exists h' n' t' calls, fit (ROps jk) (absFloat (ROps jk)) R0 h n t = Ok (h', n', t', calls) /\
    length (hTA (ROps jk) (th _ t')) = Z.to_nat (cEpochs (ROps jk) (tc _ t)) /\
    forall e x, (E0 <= e)%nat -> nth_error (hTA (ROps jk) (th _ t')) e = Some x -> x = 100.
Proof.
  intros k m N X c W b eta q HN Hm Hc Hl He Hb Al. destruct (run_separable N k m X c HN ltac:(lia) Hc eta (W, b) q He Hb Al) as (E0 & HE). exists E0. intros jk R0 h n t sp a1 a2 l s i o Ht Hn Cl El Kl Ww Wb Es Ks Hd Lo Re Op Lr Ba.
  assert (c0 : 0 < INR N) by (apply lt_0_INR; auto).
  destruct (logit_fit jk R0 h n t k m N X c sp W b eta a1 a2 l s i o) as (h' & n' & t' & calls & Ef & H & HA & _); auto; [lra| |]. { intros e _. apply run_alive; auto; try lra; lia. }
  exists h', n', t', calls. split; auto. rewrite (HA Cl). rewrite map_length, seq_length. split; auto.
  intros e x Le Ex. apply hist_at in Ex. subst x. rewrite right_hits by auto. match goal with |- @eq _ ?u ?v => change (@eq R u v) end. field. lra.
Qed.

(* what reaches the scores: probability minus indicator, unless the probability of the class is below 1e-8 *)
Theorem logit_gradient : forall (jk : R) n m (Z : nat -> nat -> R) c sp out gin, (0 < m)%nat -> (forall i, (i < n)%nat -> (c i < m)%nat) -> mwf out -> exists G D,
  compute_gradient (ROps jk) (classLoss sp) (noBalance (ROps jk)) (mgen n m (fun i => softmax m (Z i))) (classTruth sp n m c) out = Ok (mgen n m G) /\
  bwdSoftmax (ROps jk) false (mgen n m Z) (mgen n m G) gin = Ok (mgen n m D) /\
  forall i, (i < n)%nat -> (1 / 100000000 <= softmax m (Z i) (c i) -> forall j, (j < m)%nat -> D i j = softmax m (Z i) j - oneHot c i j) /\
    (softmax m (Z i) (c i) < 1 / 100000000 -> Rabs (D i (c i)) <= 100000000 * softmax m (Z i) (c i)).
Proof.
  intros jk n m Z c sp out gin Hm Hc Ho. do 2 eexists. split; [apply grad_val; exact Ho|]. split; [apply bwdSoftmax_R; auto|]. intros i Hi. cbv beta. set (p := softmax m (Z i)).
  assert (Hp : forall j, 0 < p j) by (intro; apply softmax_pos; auto). unfold bceG, oneHot. split.
  - intros Al j Hj. destruct (Nat.eqb_spec (c i) j) as [E|E].
    + rewrite E in Al. unfold floored at 1. rewrite Rmax_left by lra. pose proof (floored_pos (1 - p j)). pose proof (Hp j). match goal with |- @eq _ ?u ?v => change (@eq R u v) end. field. lra.
    + assert (Sum : p j + p (c i) <= 1).
      { rewrite <- (softmax_sum m (Z i) Hm). rewrite <- (rsum_delta m j p Hj), <- (rsum_delta m (c i) p (Hc i Hi)), <- rsum_plus. apply rsum_le. intros l Hl. fold p. pose proof (Hp l). destruct (Nat.eqb_spec l j), (Nat.eqb_spec l (c i)); subst; try lra; congruence. }
      unfold floored at 2. rewrite Rmax_left by lra. pose proof (floored_pos (p j)). match goal with |- @eq _ ?u ?v => change (@eq R u v) end. field. lra.
  - intro L. rewrite Nat.eqb_refl. unfold floored at 1. rewrite Rmax_right by lra. pose proof (floored_pos (1 - p (c i))). pose proof (Hp (c i)) as P. replace ((- (1 / (1 / 100000000)) + (1 - 1) / floored (1 - p (c i))) * (p (c i) * (1 - p (c i)))) with (- (100000000 * p (c i) * (1 - p (c i)))) by (field; lra). rewrite Rabs_Ropp, Rabs_pos_eq; nra.
Qed.

(* a network and a trainer: two samples, two classes *)
Definition logTr (jk : R) : trainer (ROps jk) := let t := trNew (ROps jk) in
  setSettings (ROps jk) (withData t (mgen 2 1 (fun i _ => INR i), classTruth false 2 2 (fun i => i)))
    (mkSet (ROps jk) 0 128 false 50 (-1) (-1) false "SGD" (1/2) (-1) (-1) LCategoricalCrossEntropy None).
Definition logDense (jk : R) : layer (ROps jk) := setWB (layBase (ROps jk) (KDense 1 2) "GlorotUniform" "Zeros") (mgen 1 2 (fun _ _ => 0)) (mgen 1 2 (fun _ _ => 0)).
Definition logSoft (jk : R) : layer (ROps jk) := layBase (ROps jk) KSoftmax "" "".
Lemma log_case : forall jk : R, trainable [Some (logDense jk); Some (logSoft jk)] (mkNet [0%nat; 1%nat] true false) (logTr jk) 1 2 /\
  ttrain _ (logTr jk) = Some (mgen 2 1 (fun i _ => INR i), classTruth false 2 2 (fun i => i)) /\
  INR 2 * cross 2 1 2 (fun i _ => INR i) (fun i => i) (fun _ _ => 0, fun _ => 0) <= ln 100000000 /\
  cLr _ (tc _ (logTr jk)) * energy 2 1 (fun i _ => INR i) <= 2 * INR 2 /\
  allRight 2 1 2 (fun i _ => INR i) (fun i => i) (fun _ j => 2 * INR j, fun j => - INR j).
Proof.
  intro jk. split; [|split; [reflexivity|split; [|split]]].
  - unfold trainable. split; [constructor; [intros [H|[]]; discriminate H|constructor; [intros []|constructor]]|].
    split. { exists (logDense jk), 2%nat. split; [reflexivity|]. split; [repeat split; auto|]. exists (logSoft jk), 2%nat. split; [reflexivity|]. split; [repeat split; auto | reflexivity]. }
    split; [intros i a l E G; destruct i as [|i]; [injection E; intros <-; injection G; intros <-; reflexivity | destruct i; discriminate E]|].
    split; [discriminate|]. split; [reflexivity|]. split; [left; reflexivity|]. split; [cbn; lia|]. split; [constructor|]. split; [constructor|].
    split; [|intros d E; discriminate E]. eexists. split; [reflexivity|]. split; [apply mwf_gen|]. split; [apply mwf_gen|]. repeat split.
  - unfold cross, chance, score. cbn [rsum fst snd INR]. rewrite !Rmult_0_r, !Rplus_0_r, !Rplus_0_l, exp_0. replace (1 / (1 + 1)) with (/ 2) by field. rewrite ln_Rinv by lra.
    replace ((1 + 1) * ((- - ln 2 + - - ln 2) / (1 + 1))) with (ln 2 + ln 2) by field. rewrite <- ln_mult by lra. left. apply ln_increasing; lra.
  - unfold energy. cbn [logTr setSettings tc cLr rsum INR]. lra.
  - intros i j Hi Hj Nj. unfold score. destruct i as [|[|i]]; [| |lia]; destruct j as [|[|j]]; try lia; cbn [rsum fst snd INR]; lra.
Qed.

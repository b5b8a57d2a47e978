(* TrainFin4.v - training a dense layer and an output layer on a cross-entropy keeps everything finite *)
From Coq Require Import String List Arith ZArith Reals Lra Lia Bool.
From Flocq Require Import Core IEEE754.BinarySingleNaN.
From Verif Require Import Base Scalar Mat SpecMat MatFacts MatLoops MatProofs B32Int Act Loss Optim SpecOpt OptProofs LayMat LayImg Layer LayProofs1 Net NetTrain NetProofs1 NetProofs2 TrainProofs1 SpecTrain TrainProofs2 SpecFit FitLay1 FitNet1 FitNet2 FitNet3 FitRun FitKeep SpecRound SpecNaN B32Kit NaNAct SpecSoft SoftProofs3 SpecStay OptFin1 OptFin2 SpecTrainFin TrainFin1 TrainFin2 TrainFin3.
Import ListNotations.
Local Open Scope R_scope.
Local Opaque b32_add b32_sub b32_mul b32_div b32_sqrt b32_of_Z Bopp Babs.

Section B32.
Variables (lm : libm -> b32 -> b32) (pw : b32 -> b32 -> b32) (jk : b32).
Notation F := (B32Ops lm pw jk).

Lemma total_in : forall z r c (f : nat -> nat -> b32), (forall x, In x (mdata (mgen r c f)) -> within z x) -> exists g, mgen r c f = mgen r c g /\ forall i j, within z (g i j).
Proof. intros z r c f H. apply total; [apply zero_w|]. intros i j Hi Hj. apply H. apply (cell_at F); auto. Qed.
Lemma gen_in : forall (P : b32 -> Prop) r c (f : nat -> nat -> b32), (forall i j, P (f i j)) -> forall x, In x (mdata (mgen r c f)) -> P x.
Proof. intros P r c f H x Hx. unfold mgen in Hx. cbn [mdata] in Hx. apply in_flat_map in Hx. destruct Hx as (i & _ & Hx). apply in_map_iff in Hx. destruct Hx as (j & <- & _). auto. Qed.
Lemma small_form : forall lo k m (x y : mat F), dataOk k m lo (x, y) -> smallData lo (x, y) -> exists N X Y, x = mgen N k X /\ y = mgen N (truthCols lo m) Y /\ (Z.of_nat N < 2 ^ 24)%Z /\ (forall i j, within 10 (X i j)) /\ truthFor lo N m Y.
Proof.
  intros lo k m x y (A & B & C & D & E) (G & H & I). cbn [fst snd] in *. destruct (mwf_is_gen F x A) as [X0 EX]. destruct (mwf_is_gen F y B) as [Y EY]. rewrite C in EX. rewrite D in EY.
  set (N := mrows x) in *. clearbody N. subst x. destruct (total_in 10 N k X0 H) as (X & EX2 & HX). exists N, X, Y. split; [exact EX2|].
  assert (T1 : mcols y = truthCols lo m /\ truthFor lo N m Y); [|destruct T1 as [T1 T2]; rewrite <- T1; auto].
  destruct lo; cbn [truths] in I; try contradiction; cbn [truthOk truthCols truthFor] in *.
  - split; auto. intros i j Hi Hj. apply I. rewrite EY, E. apply (cell_at F); auto.
  - destruct E as [E1 E2]. split; auto. intros i Hi. destruct (E2 (Y i O)) as (c & Ec & Lc); [rewrite EY, E1; apply (cell_at F); auto; lia|]. exists c. split; auto. unfold toIdx in Ec. apply bind_inv in Ec. destruct Ec as (z & Ez & Ec). unfold toInt in Ez. cbn [ftoZ B32Ops] in Ez. destruct (b32_toZ (Y i O)) as [z'|]; [|discriminate]. injection Ez; intros <-.
    destruct (Z.ltb_spec z' 0); [discriminate|]. injection Ec; intros <-. rewrite Z2Nat.id; auto.
  - destruct E as [E1 E2]. split; auto. split; auto. intros i Hi. apply I. rewrite EY, E1. apply (cell_at F); auto.
Qed.

Definition firstSmall (i : nat) (l : layer F) : Prop := i = O -> (exists p q, lk l = KDense p q) /\ (forall x, In x (mdata (lw l)) -> within 100 x) /\ forall x, In x (mdata (lb l)) -> within 100 x.
Lemma firstSmall_clone : forall i r l c, layClone F r l = Ok c -> firstSmall i l -> firstSmall i c.
Proof.
  intros i r l c E H Hi. destruct (H Hi) as ((p & q & K) & A & B). apply clone_params in E. destruct E as (E1 & _ & _ & E2). unfold sameParams in E2. rewrite K in E1, E2. destruct E2 as [E2 E3]. rewrite E2, E3. split; auto. exists p, q. exact E1.
Qed.

Theorem training_finite : forall (R0 : fitRnd F) h n t k m x y a1 a2 l1 l2 i o, stdLibm lm pw -> logUnit lm ->
  trainable h n t k m -> nlay n = [a1; a2] -> hget F h a1 = Ok l1 -> hget F h a2 = Ok l2 -> lk l1 = KDense i o -> outputs F (lk l2) ->
  (forall w, In w (mdata (lw l1)) -> within 100 w) -> (forall w, In w (mdata (lb l1)) -> within 100 w) -> (Z.of_nat k < 2 ^ 16)%Z ->
  ttrain F t = Some (x, y) -> (0 < mrows x)%nat -> smallData (cLoss F (tc F t)) (x, y) -> (forall d, tval F t = Some d -> smallData (cLoss F (tc F t)) d) ->
  cReg F (tc F t) = None -> within 0 (cLr F (tc F t)) -> fraction (cDecay F (tc F t)) -> within 0 (cMom F (tc F t)) ->
  exists h' n' t' calls b1 b2 l', fit F (absFloat F) R0 h n t = Ok (h', n', t', calls) /\
    length (hTL F (th F t')) = Z.to_nat (cEpochs F (tc F t)) /\ (forall v, In v (hTL F (th F t')) -> upTo 30 v) /\ (forall v, In v (hVL F (th F t')) -> upTo 54 v) /\
    nlay n' = [b1; b2] /\ hget F h' b1 = Ok l' /\ (forall w, In w (mdata (lw l')) -> within 100 w) /\ (forall w, In w (mdata (lb l')) -> within 100 w).
Proof.
  intros R0 h n t k m x y a1 a2 l1 l2 i o Std LU Ht Hn El1 El2 Kl Hkd Hw Hb Hk Hx Hpos Sd Sv Re Lr De Mo.
  assert (Pre : (0 < k)%nat /\ (0 < m)%nat /\ a1 <> a2 /\ lfirst l2 = false /\ (exists W, lw l1 = mgen k m W) /\ (exists b, lb l1 = mgen 1 m b) /\ msize (lw l2) = 0%nat /\ msize (lb l2) = 0%nat /\ dataOk k m (cLoss F (tc F t)) (x, y) /\
     (exists ok, create_optimizer (cOpt F (tc F t)) = Some ok) /\ Forall mwf (tinOut F t) /\ Forall mwf (tgrad F t) /\ forall d, tval F t = Some d -> dataOk k m (cLoss F (tc F t)) d).
  { destruct Ht as (Nd & St & Fo & Ho & _ & _ & _ & Wi & Wg & (d & Ed & Hd) & Hv). rewrite Hx in Ed. injection Ed; intros <-. rewrite Hn in *. cbn [stack] in St. destruct St as (l & j & E & Fi & l' & j' & E' & Fi' & <-). rewrite El1 in E. injection E; intros <-. rewrite El2 in E'. injection E'; intros <-.
    unfold fits in Fi, Fi'. rewrite Kl in Fi. destruct Fi as (A1 & A2 & _ & _ & _ & A3 & A4). destruct Fi' as (_ & _ & _ & _ & _ & B).
    assert (B' : m = j /\ none (lw l2) /\ none (lb l2)) by (destruct Hkd as [Q|Q]; rewrite Q in B; [exact B | destruct B as (B1 & _ & B2); auto]). destruct B' as (<- & (_ & B1) & (_ & B2)).
    split; auto. split; auto. split; [inversion Nd; subst; intro Q; apply H1; left; auto|]. split; [eapply (Fo 0%nat); [reflexivity | exact El2]|]. split; [apply (shp_gen F); auto|]. split; [apply (shp_gen F); auto|]. do 2 (split; [auto|]). split; auto.
    split; [destruct (create_optimizer (cOpt F (tc F t))); [eauto | contradiction]|]. auto. }
  destruct Pre as (Pk & Pm & Ha & F2 & (W0 & Ww) & (b0 & Wb) & Z1 & Z2 & Hd & (ok & Ho) & Wi & Wg & Hdv). rewrite Ww in Hw. rewrite Wb in Hb. destruct (total_in 100 k m W0 Hw) as (W & QW & HW). destruct (total_in 100 1 m b0 Hb) as (b & Qb & HB). assert (Ww' : lw l1 = mgen k m W) by (rewrite Ww; exact QW). assert (Wb' : lb l1 = mgen 1 m b) by (rewrite Wb; exact Qb). clear QW Qb Hw Hb Ww Wb W0 b0.
  destruct (small_form _ _ _ _ _ Hd Sd) as (N & X & Y & -> & -> & HN & HX & HT). change (mrows (mgen N k X)) with N in Hpos.
  set (JJ := J lm pw jk (lk l2) a1 a2 k m (tc F t) (tval F t)).
  destruct (fit_all F firstSmall firstSmall_clone 2%nat R0 h n t k m (mgen N k X) (mgen N (truthCols (cLoss F (tc F t)) m) Y) Ht) with (J := JJ) as (h' & n' & t' & calls & h2 & Ef & Je & Al & Al2); auto.
  - rewrite Hn. simpl. lia.
  - intros e h1 h2 t1 Fr ((l & p & q & W1 & b1 & E1 & P1) & (l' & E2 & P2) & Q). split; [|split; [|exact Q]]. + exists l, p, q, W1, b1. split; auto. rewrite Fr; auto. rewrite Hn. left. reflexivity. + exists l'. split; auto. rewrite Fr; auto. rewrite Hn. right. left. reflexivity.
  - intros e h1 t1 t2 (z & os & -> & Hos) (D & T0 & Tr & H). split; auto. split; auto. split; [|exact H]. destruct Tr as (o1 & o2 & i0 & i1 & i2 & g0 & g1 & g2 & Eo & O1 & O2 & Pr).
    destruct Hos as [-> | ->]; [exists o1, o2, i0, i1, i2, g0, g1, g2; split; [exact Eo|]; split; auto|]. exists (init _ o1), (init _ o2), i0, i1, i2, g0, g1, g2.
    split; [change (topts F (setOpts F (setCur F t1 z) ?v)) with v; rewrite Eo; reflexivity|]. split; [apply init_ok; auto|]. split; [apply init_ok; auto|]. exact Pr.
  - intros e rs h1 h2 t1 xv yv l a tr (D & T0 & Q) Ea. rewrite Hn in Ea. destruct (accuracy_keeps lm pw jk (lk l2) Hkd a1 a2 k m Ha rs h1 _ _ _ _ _ _ _ _ D T0 Ea) as [D' T']. split; auto.
  - intros h1 t1 Es. unfold setNet in Es. cbv zeta in Es. rewrite Hn in Es. rewrite El1 in Es. cbn [bind] in Es. rewrite (hset_ok _ _ _ _ _ El1) in Es. cbn [bind] in Es. set (h0 := upd h a1 (Some (setFirst l1 true))) in *.
    assert (E0 : hget F h0 a1 = Ok (setFirst l1 true)) by (eapply look1; eauto). assert (E0' : hget F h0 a2 = Ok l2) by (unfold h0; rewrite (look2 _ _ _ _ _ _ _ _ El1); auto).
    unfold collect in Es. rewrite Hn in Es. cbn [length] in Es. unfold forN at 1 2 in Es. cbn [seq forL rget nth_error bind] in Es. rewrite E0, E0' in Es. cbn [bind] in Es. unfold hasWeights, hasBiases in Es. change (lw (setFirst l1 true)) with (lw l1) in Es. change (lb (setFirst l1 true)) with (lb l1) in Es. rewrite Ww', Wb', Z1, Z2, !msize_mgen in Es.
    rewrite (proj2 (Nat.eqb_neq (k * m) 0)) in Es by nia. rewrite (proj2 (Nat.eqb_neq (1 * m) 0)) in Es by lia. cbn [negb bind app length Nat.add Nat.eqb] in Es. rewrite Ho in Es. unfold forN in Es. cbn [seq forL bind app] in Es. injection Es; intros; subst h1 t1. clear Es.
    split; [|split; [|split; [|split]]].
    + exists (setFirst l1 true), i, o, W, b. split; auto. split; [exact Kl|]. split; [reflexivity|]. split; [exact Ww'|]. split; [exact Wb'|]. auto.
    + exists l2. auto.
    + assert (V : forall v : list (mat F), Forall mwf v -> exists x y z, vresize F v 3 = [x; y; z] /\ mwf y /\ mwf z). { intros v Hv. unfold vresize. destruct v as [|u0 [|u1 [|u2 v]]]; cbn; do 3 eexists; (split; [reflexivity|]); split; try reflexivity; repeat match goal with H : Forall _ (_ :: _) |- _ => inversion H; clear H; subst end; auto. }
      destruct (V _ Wi) as (i0 & i1 & i2 & V1 & _ & V3). destruct (V _ Wg) as (g0 & g1 & g2 & U1 & U2 & U3).
      set (oo := set_params F (newOpt F ok) (cLr F (tc F t)) (cDecay F (tc F t)) (cMom F (tc F t))). exists (init _ oo), (init _ oo), i0, i1, i2, g0, g1, g2. split; [reflexivity|]. do 2 (split; [apply init_ok, new_ok; auto|]). do 5 (split; [reflexivity|]). split; [exact V1|]. split; [exact U1|]. auto.
    + change (mrows (mgen N k X)) with N. match goal with |- (0 < tadj F (setOpts F (setAdj F ?u ?v) ?w))%nat => change (0 < v)%nat end. destruct (Nat.ltb_spec N (cBatch F (tc F t))); [exact Hpos|]. destruct (Nat.eqb_spec (cBatch F (tc F t)) 0); cbn [orb]; [exact Hpos|lia].
    + split; [reflexivity|]. split; intros v [].
  - intros e h1 tr t1 h2 t2 h3 t3 l a Je E1 E2. rewrite Hn in E1, E2. change (mrows (mgen N k X)) with N in E2. eapply (step_parts lm pw jk Std LU (lk l2) Hkd a1 a2 k m (tc F t) (tval F t) Ha Hk Pm Re R0 (nclass n) N X Y); eauto. intros xv yv Ev. apply small_form; auto.
  - intros e h1 t1 ((l & p & q & W1 & b1 & E1 & K1 & _ & P1 & P2 & P3 & P4) & (l' & E2 & P5) & Q). rewrite Hn. split; [reflexivity|]. intros [|[|j]] a E; cbn in E; try (destruct j; discriminate); injection E; intros <-.
    + exists l. split; auto. intros _. split; [eauto|]. rewrite P1, P2. split; apply gen_in; auto.
    + exists l'. split; auto. intro; discriminate.
  - destruct Je as (_ & _ & _ & _ & He & HL & HV). destruct (nlay n') as [|b1 [|b2 [|]]] eqn:En; try discriminate. destruct (Al2 0%nat b1 eq_refl) as (l' & El' & Pl). destruct (Pl eq_refl) as (_ & P1 & P2). exists h', n', t', calls, b1, b2, l'. split; auto. split; auto. split; [intros v Hv; destruct (HL v Hv); split; auto|]. split; [intros v Hv; destruct (HV v Hv); split; auto|]. auto.
Qed.
End B32.

(* a Dense(2,2) layer and a Softmax layer; three samples, trained by Adam in batches of two, keeping the best network *)
Section Demo.
Variables (lm : libm -> b32 -> b32) (pw : b32 -> b32 -> b32) (jk : b32).
Notation F := (B32Ops lm pw jk).
Definition demoX (r : nat) : mat F := mgen r 2 (fun i j => b32_of_Z (Z.of_nat (i + j))).
Definition demoY (r : nat) : mat F := mgen r 2 (fun i j => if (i =? j)%nat then b32_of_Z 1 else (B754_zero false : b32)).
Definition demoTr (r : nat) (keep : bool) : trainer F := let t := trNew F in
  setSettings F (withData t (demoX r, demoY r)) (mkSet F 2 128 keep 50 (-1) (-1) false "Adam" (b32_of_Z (-1)) (b32_of_Z (-1)) (b32_of_Z (-1)) LCategoricalCrossEntropy None).
Definition demoDense : layer F := setWB (layBase F (KDense 2 2) "GlorotUniform" "Zeros") (mgen 2 2 (fun i j => b32_of_Z (Z.of_nat (i + 2 * j)))) (mgen 1 2 (fun _ _ => (B754_zero false : b32))).
Definition demoHeap : heap F := [Some demoDense; Some (layBase F KSoftmax "" "")].
Definition demoNet : net := mkNet [0%nat; 1%nat] true false.

Lemma demo_trainable : forall r keep, trainable demoHeap demoNet (demoTr r keep) 2 2.
Proof.
  intros r keep. unfold trainable. split. { constructor; [intros [H|[]]; discriminate H | constructor; [intros []|constructor]]. }
  split. { exists demoDense, 2%nat. split; [reflexivity|]. split; [repeat split; auto|]. exists (layBase F KSoftmax "" ""), 2%nat. split; [reflexivity|]. split; [repeat split; auto | reflexivity]. }
  split; [intros i a l E G; destruct i as [|i]; [injection E; intros <-; injection G; intros <-; reflexivity | destruct i; discriminate E]|]. split; [discriminate|]. split; [reflexivity|]. split; [left; reflexivity|].
  split; [cbn; lia|]. split; [constructor|]. split; [constructor|]. split; [eexists; split; [reflexivity|]; split; [apply mwf_gen|]; split; [apply mwf_gen|]; repeat split|]. intros d E. discriminate E.
Qed.
(* with no sample at all the recorded training loss is a NaN *)
Lemma no_rows_nan : forall R0 : fitRnd F, exists h' n' t' calls, fit F (absFloat F) R0 demoHeap demoNet (demoTr 0 false) = Ok (h', n', t', calls) /\ Forall (fun x => is_nan x = true) (hTL F (th F t')) /\ length (hTL F (th F t')) = 50%nat.
Proof.
  intro R0. set (P := fun (e : nat) (h : heap F) (t : trainer F) => List.length (hTL F (th F t)) = e /\ Forall (fun x : b32 => is_nan x = true) (hTL F (th F t)) /\ tval F t = None).
  destruct (fit_rule F R0 demoHeap demoNet (demoTr 0 false) 2 2 (demoX 0) (demoY 0) (demo_trainable 0 false)) with (J := P) as (h' & n' & t' & calls & h2 & Ef & (Pl & Pn & _) & _); auto.
  - cbn. lia.
  - intros e h1 t1 t2 (z & os & -> & _) H. exact H.
  - intros h1 t1 E. split; [reflexivity|]. split; [constructor|]. unfold setNet in E. cbv zeta in E. do 4 (apply bind_inv in E; destruct E as (? & _ & E)). apply Ok_inj in E. injection E; intros; subst t1. reflexivity.
  - intros e h1 tr t1 h2 t2 h3 t3 l a (Hl & Hn & Hv) E1 E2. unfold epochTrain in E1. cbv zeta in E1. apply bind_inv in E1. destruct E1 as ([x y] & Ex & E1). change (mrows (demoX 0)) with 0%nat in Ex.
    assert (Qx : mrows x = 0%nat). { destruct (tadj F (setOnline F t1 (f0 F) 0)) in Ex; cbn in Ex; injection Ex; intros; subst; reflexivity. }
    apply bind_inv in E1. destruct E1 as ([h4 n4] & _ & E1). unfold trainOneEpoch in E1. cbv zeta in E1. rewrite Qx in E1. cbn [Nat.eqb bind] in E1. apply bind_inv in E1. destruct E1 as ([h5 n5] & _ & E1). injection E1; intros; subst. clear E1.
    unfold epochStats in E2. cbv zeta in E2. change (tval F (setOnline F t1 (B754_zero false : b32) 0)) with (tval F t1) in E2. rewrite Hv in E2. injection E2; intros; subst t3. clear E2.
    assert (Q : is_nan (fdiv F (tonl F (setOnline F t1 (B754_zero false : b32) 0)) (fofN F (mrows (demoX 0)))) = true) by (vm_compute; reflexivity).
    split; [|split; [|exact Hv]].
    + cbn [nclass demoNet]. match goal with |- context [hTL F (th F (setHist F ?u (mkHist F (?a ++ [?b]) _ _ _ _ _ _ _)))] => change (length (a ++ [b]) = S (length (hTL F (th F t1)))); rewrite app_length; cbn [length]; change a with (hTL F (th F t1)); lia end.
    + cbn [nclass demoNet]. match goal with |- context [hTL F (th F (setHist F ?u (mkHist F (?a ++ [?b]) _ _ _ _ _ _ _)))] => change (Forall (fun x : b32 => is_nan x = true) (hTL F (th F t1) ++ [b])) end. apply Forall_app. split; auto.
  - exists h', n', t', calls. auto.
Qed.
End Demo.

(* StaleNet.v - predictions and training runs do not depend on what the buffers of the trainer and of the caller held *)
From Coq Require Import String List Arith Bool Lia ZArith.
From Verif Require Import Base Scalar Mat SpecMat MatFacts MatProofs MatLoops Loss Optim Regul OptProofs LayMat LayImg Layer Net NetTrain NetProofs1 NetProofs2
  LayKit SpecFit FitLay1 FitLay2 FitLay3 FitNet1 FitNet2 FitNet3 FitRun StaleLay.
Import ListNotations.
Local Open Scope nat_scope.

(* two runs of a loop *)
Lemma forN2 : forall S (I : nat -> S -> S -> Prop) n (body : nat -> S -> res S) a b, I 0 a b ->
  (forall i a b, i < n -> I i a b -> exists a' b', body i a = Ok a' /\ body i b = Ok b' /\ I (Datatypes.S i) a' b') ->
  exists a' b', forN n body a = Ok a' /\ forN n body b = Ok b' /\ I n a' b'.
Proof.
  intros S I n body a b H0 Hs. unfold forN.
  assert (G : forall m k a b, k + m = n -> I k a b -> exists a' b', forL (seq k m) body a = Ok a' /\ forL (seq k m) body b = Ok b' /\ I n a' b').
  { induction m as [|m IH]; intros k a1 b1 E H1.
    - replace k with n in H1 by lia. exists a1, b1. cbn. auto.
    - cbn [seq forL]. destruct (Hs k a1 b1 ltac:(lia) H1) as (a2 & b2 & Ea & Eb & H2). rewrite Ea, Eb. cbn [bind]. apply IH; auto. lia. }
  apply (G n 0); auto.
Qed.
Definition rmap {A B} (f : A -> B) (r : res A) : res B := match r with Ok a => Ok (f a) | Err e => Err e end.
Lemma forN_rmap : forall S (f : S -> S) n (body : nat -> S -> res S), (forall i s, body i (f s) = rmap f (body i s)) -> forall s, forN n body (f s) = rmap f (forN n body s).
Proof.
  intros S f n body H. unfold forN. induction (seq 0 n) as [|i l IH]; intro s; cbn [forL]; auto. rewrite H. destruct (body i s) as [s'|]; cbn [rmap bind]; auto.
Qed.

Section Any.
Variable F : FOps.
Notation M := (mat F).

Lemma grad_same : forall k b n m (o y : M) g1 g2, shp n m o -> mwf y -> mrows y = n -> truthOk k m y -> mwf g1 -> mwf g2 ->
  compute_gradient F k b o y g1 = compute_gradient F k b o y g2.
Proof.
  intros k b n m o y g1 g2 Ho Wy Ry Ty W1 W2. pose proof (wf_shp _ _ Wy) as Sy. rewrite Ry in Sy.
  assert (Cel : forall fn, mcols y = m -> forN (msize y) (fun i g => p <- mget1 o i ;; t <- mget1 y i ;; mset1 g i (fn p t)) (mresize F g1 (mrows y) (mcols y)) =
    forN (msize y) (fun i g => p <- mget1 o i ;; t <- mget1 y i ;; mset1 g i (fn p t)) (mresize F g2 (mrows y) (mcols y))).
  { intros fn Cy. rewrite Cy in Sy. destruct (shp_gen _ _ _ _ Sy) as [Y ->]. destruct (shp_gen _ _ _ _ Ho) as [O ->]. change (msize (mgen n m Y)) with (n * m). change (mrows (mgen n m Y)) with n. change (mcols (mgen n m Y)) with m.
    destruct (mresize_flat F g1 n m W1) as [p1 ->]. destruct (mresize_flat F g2 n m W2) as [p2 ->].
    rewrite !(@flat_fill F n m _ (fun i => fn (O (i / m) (i mod m)) (Y (i / m) (i mod m)))); auto.
    all: intros i q Hi; rewrite !mgen_flat, !mget1_flat by auto; cbn [bind]; rewrite mset1_flat by auto; reflexivity. }
  destruct k; unfold truthOk in Ty; cbn [compute_gradient]; try reflexivity.
  - rewrite (Cel _ Ty). reflexivity.
  - destruct Ty as [Cy ->]. rewrite (Cel _ Cy). reflexivity.
Qed.

Section Net.
Variables (n : net) (d : nat -> nat).
Let ls := nlay n.
Hypothesis Hn : NoDup ls.

Lemma fwdLayer_same : forall rs i h x o1 o2 nb, i < length ls -> dims F h ls d -> shp nb (d i) x -> mwf o1 -> mwf o2 -> fwdLayer F rs n i h x o1 = fwdLayer F rs n i h x o2.
Proof.
  intros rs i h x o1 o2 nb Hi D Hx H1 H2. destruct (nth_error ls i) as [a|] eqn:Ea; [|apply nth_error_None in Ea; lia].
  destruct (D i a Ea) as (l & El & Fl). unfold fwdLayer. fold ls. unfold rget. rewrite Ea. cbn [bind]. rewrite El. cbn [bind].
  rewrite (fwd_same F (rs i) l nb (d i) (d (S i)) x o1 o2 Fl Hx H1 H2). reflexivity.
Qed.
Lemma predict_same : forall rs h x o1 o2 nb, 0 < length ls -> dims F h ls d -> shp nb (d 0) x -> mwf o1 -> mwf o2 -> predict F rs h n x o1 = predict F rs h n x o2.
Proof.
  intros rs h x o1 o2 nb L D Hx H1 H2. unfold predict. fold ls. rewrite <- (Nat.succ_pred_pos (length ls)) by auto. unfold forN. cbn [seq forL].
  rewrite (fwdLayer_same rs 0 h x o1 o2 nb) by auto. destruct (fwdLayer_fits F n d rs 0 h x o2 nb L D Hx H2) as (a & l & l' & o & _ & _ & _ & _ & _ & E & _). fold ls in E. rewrite E. reflexivity.
Qed.

Definition agree (q : nat) (v w : list M) : Prop := forall j, j <= q -> nth_error v j = nth_error w j.
Lemma forward_same : forall rs h v1 v2 nb, dims F h ls d -> modeAll F true h ls -> sizes F n d nb 0 v1 -> sizes F n d nb 0 v2 -> nth_error v1 0 = nth_error v2 0 ->
  forN (length ls) (fwdStep F rs n) (h, v1) = forN (length ls) (fwdStep F rs n) (h, v2).
Proof.
  intros rs h v1 v2 nb D Tr S1 S2 E0.
  destruct (@forN2 _ (fun i (s1 s2 : heap F * list M) => dims F (fst s1) ls d /\ fst s2 = fst s1 /\ sizes F n d nb i (snd s1) /\ sizes F n d nb i (snd s2) /\ agree i (snd s1) (snd s2)) (length ls) (fwdStep F rs n) (h, v1) (h, v2))
    as ([h1 w1] & [h2 w2] & E1 & E2 & I1 & I2 & I3 & I4 & I5).
  - cbn [fst snd]. do 4 (split; [solve [auto]|]). intros j Hj. assert (j = 0) by lia. subst. auto.
  - intros i [h1 w1] [h2 w2] Hi. cbn [fst snd]. intros (I1 & -> & (L1 & W1 & Z1) & (L2 & W2 & Z2) & I5). fold ls in L1, L2.
    destruct (Z1 i (le_n _)) as (x & Ex & Sx). assert (Ex2 : nth_error w2 i = Some x) by (rewrite <- I5; auto).
    destruct (rget_at F w1 (i + 1)) as (o1 & Eo1 & No1); [lia|]. destruct (rget_at F w2 (i + 1)) as (o2 & Eo2 & No2); [lia|].
    assert (Wo1 : mwf o1) by (rewrite Forall_forall in W1; apply W1; eapply nth_error_In; eauto). assert (Wo2 : mwf o2) by (rewrite Forall_forall in W2; apply W2; eapply nth_error_In; eauto).
    pose proof (fwdLayer_same rs i h1 x o1 o2 nb Hi I1 Sx Wo1 Wo2) as Q. destruct (fwdLayer_fits F n d rs i h1 x o2 nb Hi I1 Sx Wo2) as (a & l & l' & o' & Ea & El & Kl & Fl & Rl & E & So). rewrite E in Q.
    unfold fwdStep. cbn [fst snd]. unfold rget at 1 3. rewrite Ex, Ex2. cbn [bind]. rewrite Eo1, Eo2. cbn [bind]. rewrite E, Q. cbn [bind]. unfold rset. rewrite !ltb_true by lia. cbn [bind].
    eexists _, _. split; [reflexivity|]. split; [reflexivity|]. cbn [fst snd]. split; [eapply upd_dims; eauto|]. split; [reflexivity|].
    assert (Wn : mwf o') by (eapply shp_wf; eauto). fold ls in Ea.
    assert (U : forall w, length w = S (length ls) -> Forall mwf w -> (forall j, j <= i -> exists y, nth_error w j = Some y /\ shp nb (d j) y) -> sizes F n d nb (S i) (upd w (i + 1) o')).
    { intros w Lw Ww Zw. split; [rewrite length_upd; auto|split; [apply Forall_upd'; auto|]]. intros j Hj. rewrite nth_error_upd. destruct (Nat.eqb_spec (i + 1) j) as [<-|Nj].
      - rewrite ltb_true by lia. exists o'. split; auto. replace (i + 1) with (S i) by lia. auto.
      - apply Zw. lia. }
    split; [apply U; auto|]. split; [apply U; auto|]. intros j Hj. rewrite !nth_error_upd. rewrite L1, L2. destruct (i + 1 =? j) eqn:Q0; cbn [andb]; [rewrite ltb_true by lia; reflexivity|]. apply I5. apply Nat.eqb_neq in Q0. lia.
  - rewrite E1, E2. cbn [fst snd] in *. subst h2. do 2 f_equal. destruct I3 as (L1 & _). destruct I4 as (L2 & _). fold ls in L1, L2. apply list_ext.
    intro j. destruct (Nat.le_gt_cases j (length ls)) as [Q|Q]; [apply I5; auto|]. rewrite !(proj2 (nth_error_None _ _)); auto; lia.
Qed.

Lemma backward_same : forall nb v, sizes F n d nb (length ls) v -> forall q h g1 g2 h1 h2 r1 r2, q <= length ls -> dims F h ls d -> firstOnly F h ls -> readyUpto F n d nb q h ->
  length g1 = S (length ls) -> Forall mwf g1 -> length g2 = S (length ls) -> Forall mwf g2 -> (0 < q -> exists g, nth_error g1 q = Some g /\ nth_error g2 q = Some g /\ shp nb (d q) g) ->
  forL (rev (seq 0 q)) (bwdStep F n v) (h, g1) = Ok (h1, r1) -> forL (rev (seq 0 q)) (bwdStep F n v) (h, g2) = Ok (h2, r2) -> h1 = h2.
Proof.
  intros nb v (Lv & Wv & Sv). induction q as [|q IH]; intros h g1 g2 h1 h2 r1 r2 Hq D Fo Rd L1 W1 L2 W2 Hg.
  - cbn. intros E1 E2. congruence.
  - rewrite seq_S, rev_app_distr. cbn [rev app forL Nat.add]. destruct (Hg (Nat.lt_0_succ _)) as (g & Eg1 & Eg2 & Sg). destruct (Sv q) as (x & Ex & Sx); [fold ls; lia|].
    destruct (rget_at F g1 q) as (i1 & Ei1 & Ni1); [lia|]. destruct (rget_at F g2 q) as (i2 & Ei2 & Ni2); [lia|].
    destruct (nth_error ls q) as [a|] eqn:Ea; [|apply nth_error_None in Ea; lia]. destruct (D q a Ea) as (l & El & Fl). pose proof (hget_lt _ _ _ _ El) as La.
    assert (Wi1 : mwf i1) by (rewrite Forall_forall in W1; apply W1; eapply nth_error_In; eauto). assert (Wi2 : mwf i2) by (rewrite Forall_forall in W2; apply W2; eapply nth_error_In; eauto).
    pose proof (Rd q a l (Nat.lt_succ_diag_r _) Ea El) as Rl.
    destruct (bwd_fits F l nb (d q) (d (S q)) x g i1 Fl Rl Sx Sg Wi1) as (l' & gi1 & E1 & (Wg1 & Sg1) & Fl' & Kl & Gl).
    destruct (bwd_fits F l nb (d q) (d (S q)) x g i2 Fl Rl Sx Sg Wi2) as (l2 & gi2 & E2 & (Wg2 & Sg2) & _).
    destruct (bwd_same F l nb (d q) (d (S q)) x g i1 i2 _ _ _ _ Fl Rl Sx Sg Wi1 Wi2 E1 E2) as [Q1 Q2]. subst l2.
    unfold bwdStep at 1 3. cbn [fst snd]. unfold rget at 1 5. rewrite Ex. cbn [bind]. unfold rget at 1 4. replace (q + 1) with (S q) by lia. rewrite Eg1, Eg2. cbn [bind]. rewrite Ei1, Ei2. cbn [bind].
    unfold rget at 1 2. fold ls. rewrite Ea. cbn [bind]. rewrite El. cbn [bind]. rewrite E1, E2. cbn [bind]. rewrite (hset_ok _ _ _ _ _ El). cbn [bind]. unfold rset. rewrite !ltb_true by lia. cbn [bind].
    assert (Mv : moves F true ls h (upd h a (Some l'))) by (eapply upd_moves; eauto; [eapply nth_error_In; eauto|apply keeps_sim; auto]).
    apply IH.
    + lia.
    + eapply upd_dims; eauto.
    + eapply moves_first; eauto. eapply dims_alive; eauto.
    + intros j b lb Hj Eb Elb. fold ls in Eb. rewrite hget_upd in Elb by auto. destruct (Nat.eqb_spec a b) as [<-|Nb].
      * exfalso. assert (q = j). { apply (proj1 (NoDup_nth_error ls) Hn); [lia|congruence]. } lia.
      * apply (Rd j b); auto.
    + rewrite length_upd. auto.
    + apply Forall_upd'; auto.
    + rewrite length_upd. auto.
    + apply Forall_upd'; auto.
    + intros Hq0. exists gi1. rewrite !nth_error_upd, Nat.eqb_refl, !ltb_true by lia. assert (Fi : lfirst l = false). { destruct q; [lia|]. apply (Fo q a l); auto. }
      rewrite (Q2 Fi). auto.
Qed.

(** * one batch *)
Definition put (v g : list M) (t : trainer F) : trainer F := setGrad F (setInOut F t v) g.
Lemma optStep_put : forall v g t k (w gw : M), optStep F (absFloat F) (put v g t) k w gw = optStep F (absFloat F) t k w gw.
Proof. reflexivity. Qed.
Definition hput (v g : list M) (p : heap F * trainer F) : heap F * trainer F := (fst p, put v g (snd p)).
Lemma optWeight_put : forall v g i p, optWeight F (absFloat F) i (hput v g p) = rmap (hput v g) (optWeight F (absFloat F) i p).
Proof.
  intros v g i [h t]. unfold hput, optWeight. cbn [fst snd]. change (tpw F (put v g t)) with (tpw F t). destruct (rget (tpw F t) i) as [a|]; cbn [bind rmap]; auto. destruct (hget F h a) as [l|]; cbn [bind rmap]; auto.
  change (optStep F (absFloat F) (put v g t)) with (optStep F (absFloat F) t). destruct (optStep F (absFloat F) t i (lw l) (lgw l)) as [[[os w] gw]|]; cbn [bind rmap]; auto. destruct (hset F h a _); cbn [bind rmap]; auto.
Qed.
Lemma optBias_put : forall v g i p, optBias F (absFloat F) i (hput v g p) = rmap (hput v g) (optBias F (absFloat F) i p).
Proof.
  intros v g i [h t]. unfold hput, optBias. cbn [fst snd]. change (tpb F (put v g t)) with (tpb F t). change (tpw F (put v g t)) with (tpw F t). destruct (rget (tpb F t) i) as [a|]; cbn [bind rmap]; auto. destruct (hget F h a) as [l|]; cbn [bind rmap]; auto.
  change (optStep F (absFloat F) (put v g t)) with (optStep F (absFloat F) t). destruct (optStep F (absFloat F) t (i + length (tpw F t)) (lb l) (lgb l)) as [[[os w] gw]|]; cbn [bind rmap]; auto. destruct (hset F h a _); cbn [bind rmap]; auto.
Qed.
Lemma optimizeAll_put : forall v g h t, optimizeAll F (absFloat F) h (put v g t) = rmap (hput v g) (optimizeAll F (absFloat F) h t).
Proof.
  intros v g h t. unfold optimizeAll. change (h, put v g t) with (hput v g (h, t)). change (tpw F (put v g t)) with (tpw F t). change (tpb F (put v g t)) with (tpb F t).
  rewrite (forN_rmap _ (hput v g) _ _ (optWeight_put v g)). destruct (forN (length (tpw F t)) (optWeight F (absFloat F)) (h, t)); cbn [bind rmap]; auto.
  apply (forN_rmap _ (hput v g) _ _ (optBias_put v g)).
Qed.
Lemma online_put : forall v g t (o y : M), onlineStats F (absFloat F) n (put v g t) o y = rmap (put v g) (onlineStats F (absFloat F) n t o y).
Proof.
  intros v g t o y. unfold onlineStats. change (tc F (put v g t)) with (tc F t). change (tbal F (put v g t)) with (tbal F t). destruct (compute F (absFloat F) (cLoss F (tc F t)) (tbal F t) o y (mempty F)); cbn [bind rmap]; auto.
  destruct (mmean F _) as [t0|]; cbn [bind rmap]; auto. destruct (negb (nclass n)); cbn [rmap]; auto. match goal with |- bind ?e _ = _ => destruct e end; cbn [bind rmap]; auto.
  change (tgood F (setOnline F (put v g t) (fadd F (tonl F (put v g t)) t0) (tgood F (put v g t)))) with (tgood F t). change (tgood F (setOnline F t (fadd F (tonl F t) t0) (tgood F t))) with (tgood F t).
  destruct (countGood F (mrows o) o y (tgood F t)); cbn [bind rmap]; auto.
Qed.

Lemma batch_same : forall rs h t v0 g0 x y nb h1 h2 t1 t2, 0 < length ls -> dims F h ls d -> modeAll F true h ls -> firstOnly F h ls -> trOk F n h t -> trOk F n h (put v0 g0 t) ->
  shp nb (d 0) x -> mwf y -> mrows y = nb -> truthOk (cLoss F (tc F t)) (d (length ls)) y ->
  trainBatch F (absFloat F) rs h n t x y = Ok (h1, t1) -> trainBatch F (absFloat F) rs h n (put v0 g0 t) x y = Ok (h2, t2) -> h1 = h2 /\ exists v g, t2 = put v g t1.
Proof.
  intros rs h t v0 g0 x y nb h1 h2 t1 t2 L D Tr Fo (T1 & T2 & T3 & T4 & T5 & T6 & T7 & T8) (_ & U2 & U3 & U4 & U5 & _) Hx Wy Ry Ty B1 B2. change (tinOut F (put v0 g0 t)) with v0 in *. change (tgrad F (put v0 g0 t)) with g0 in *. fold ls in T1, T2, T4, U2, U4.
  pose proof (dims_pos F _ _ _ (length ls) D L (le_n _)) as Pm.
  unfold trainBatch, backprop in B1, B2. change (tinOut F (put v0 g0 t)) with v0 in B2. change (tnl F (put v0 g0 t)) with (tnl F t) in B2.
  unfold rset at 1 in B1. unfold rset at 1 in B2. rewrite ltb_true in B1, B2 by lia. cbn [bind] in B1, B2. rewrite T1 in B1, B2.
  assert (S0 : forall w : list M, length w = S (length ls) -> Forall mwf w -> sizes F n d nb 0 (upd w 0 x)).
  { intros w Lw Ww. split; [rewrite length_upd; auto|]. split; [apply Forall_upd'; auto; eapply shp_wf; eauto|]. intros j Hj. assert (j = 0) by lia. subst j. exists x. rewrite nth_error_upd, Nat.eqb_refl, ltb_true by lia. auto. }
  rewrite (forward_same rs h (upd v0 0 x) (upd (tinOut F t) 0 x) nb D Tr (S0 _ U2 U3) (S0 _ T2 T3)) in B2. 2:{ rewrite !nth_error_upd, !Nat.eqb_refl, !ltb_true by lia. reflexivity. }
  destruct (forward_fits F n d Hn rs h _ nb D Tr (S0 _ T2 T3)) as (hf & v & E1 & D1 & M1 & S1 & R1). fold ls in E1, D1, M1, S1, R1. rewrite E1 in B1, B2. cbn [bind] in B1, B2.
  change (tnl F (setInOut F t v)) with (tnl F t) in B1. change (tnl F (setInOut F (put v0 g0 t) v)) with (tnl F t) in B2. rewrite T1 in B1, B2.
  pose proof S1 as (Lv & Wv & Sv). destruct (Sv (length ls) (le_n _)) as (o & Eo & So). unfold rget at 1 in B1. unfold rget at 1 in B2. rewrite Eo in B1, B2. cbn [bind] in B1, B2.
  change (tgrad F (setInOut F t v)) with (tgrad F t) in B1. change (tgrad F (setInOut F (put v0 g0 t) v)) with g0 in B2.
  destruct (rget_at F (tgrad F t) (length ls)) as (gl & Eg & Ng); [lia|]. destruct (rget_at F g0 (length ls)) as (gm & Em & Nm); [lia|]. rewrite Eg in B1. rewrite Em in B2. cbn [bind] in B1, B2.
  assert (Wg : mwf gl) by (rewrite Forall_forall in T5; apply T5; eapply nth_error_In; eauto). assert (Wm : mwf gm) by (rewrite Forall_forall in U5; apply U5; eapply nth_error_In; eauto).
  change (tc F (setInOut F t v)) with (tc F t) in B1. change (tbal F (setInOut F t v)) with (tbal F t) in B1. change (tc F (setInOut F (put v0 g0 t) v)) with (tc F t) in B2. change (tbal F (setInOut F (put v0 g0 t) v)) with (tbal F t) in B2.
  rewrite (grad_same (cLoss F (tc F t)) (tbal F t) nb (d (length ls)) o y gm gl So Wy Ry Ty Wm Wg) in B2.
  destruct (gradient_ok F _ _ nb _ o y gl T6 So Wy Ry Ty Wg) as (g & E2 & Sg). rewrite E2 in B1, B2. cbn [bind] in B1, B2. unfold rset at 1 in B1. unfold rset at 1 in B2. rewrite ltb_true in B1, B2 by lia. cbn [bind] in B1, B2.
  pose proof (dims_alive F _ _ _ D) as Al. assert (Fo1 : firstOnly F hf ls) by (eapply moves_first; eauto). assert (Wg' : mwf g) by (eapply shp_wf; eauto).
  assert (K : forall gs : list M, length gs = S (length ls) -> Forall mwf gs -> exists h2 r, forL (rev (seq 0 (length ls))) (bwdStep F n v) (hf, upd gs (length ls) g) = Ok (h2, r)).
  { intros gs Lg Fg. destruct (backward_fits F n d Hn nb v S1 (length ls) hf (upd gs (length ls) g)) as (hx & r & E3 & _); eauto.
    { intros j a l Hj Ea. exfalso. assert (j < length (nlay n)) by (apply nth_error_Some; congruence). unfold ls in *. lia. }
    { rewrite length_upd. auto. } { apply Forall_upd'; auto. }
    { intros _. exists g. rewrite nth_error_upd, Nat.eqb_refl, ltb_true by lia. auto. } }
  destruct (K _ T4 T5) as (hb1 & r1 & K1). destruct (K _ U4 U5) as (hb2 & r2 & K2).
  assert (hb1 = hb2).
  { eapply (backward_same nb v S1 (length ls) hf _ _ hb1 hb2 r1 r2 (le_n _) D1 Fo1 R1); [| | | | |exact K1|exact K2]; try (rewrite length_upd; auto); try (apply Forall_upd'; auto).
    intros _. exists g. rewrite !nth_error_upd, Nat.eqb_refl, !ltb_true by lia. auto. }
  subst hb2. rewrite K1 in B1. rewrite K2 in B2. cbn [bind] in B1, B2.
  change (setGrad F (setInOut F (put v0 g0 t) v) r2) with (put v r2 (setGrad F (setInOut F t v) r1)) in B2. rewrite optimizeAll_put in B2.
  destruct (optimizeAll F (absFloat F) hb1 (setGrad F (setInOut F t v) r1)) as [[h3 t3]|] eqn:E4; [|discriminate]. cbn [bind rmap hput fst snd] in B1, B2.
  assert (I3 : tinOut F t3 = v /\ tnl F t3 = length ls).
  { clear - E4 T1. unfold optimizeAll in E4. revert E4. match goal with |- bind ?e _ = _ -> _ => destruct e as [[ha ta]|] eqn:Ea; [|discriminate] end. cbn [bind]. intro Eb.
    assert (W : forall k a b c e, forN k (optWeight F (absFloat F)) (a, b) = Ok (c, e) -> tinOut F e = tinOut F b /\ tnl F e = tnl F b).
    { intros k a b c e E. apply (TrainProofs1.forN_postI _ (fun _ s => tinOut F (snd s) = tinOut F b /\ tnl F (snd s) = tnl F b)) in E; auto.
      intros i [a1 b1] [a2 b2] _ [Q1 Q2] E'. cbn [snd] in *. unfold optWeight in E'. TrainProofs1.binp E'. TrainProofs1.binp E'. destruct (optStep F (absFloat F) b1 i _ _) as [[[os w] gw]|]; [|discriminate]. cbn [bind] in E'.
      TrainProofs1.binp E'. inversion E'. subst. auto. }
    assert (B : forall k a b c e, forN k (optBias F (absFloat F)) (a, b) = Ok (c, e) -> tinOut F e = tinOut F b /\ tnl F e = tnl F b).
    { intros k a b c e E. apply (TrainProofs1.forN_postI _ (fun _ s => tinOut F (snd s) = tinOut F b /\ tnl F (snd s) = tnl F b)) in E; auto.
      intros i [a1 b1] [a2 b2] _ [Q1 Q2] E'. cbn [snd] in *. unfold optBias in E'. TrainProofs1.binp E'. TrainProofs1.binp E'. destruct (optStep F (absFloat F) b1 _ _ _) as [[[os w] gw]|]; [|discriminate]. cbn [bind] in E'.
      TrainProofs1.binp E'. inversion E'. subst. auto. }
    destruct (W _ _ _ _ _ Ea) as [P1 P2]. destruct (B _ _ _ _ _ Eb) as [P3 P4]. rewrite P3, P4, P1, P2. split; auto. }
  destruct I3 as [I3 I4]. change (tinOut F (put v r2 t3)) with v in B2. change (tnl F (put v r2 t3)) with (tnl F t3) in B2. rewrite I3 in B1. rewrite I4 in B1, B2. unfold rget in B1, B2. rewrite Eo in B1, B2. cbn [bind] in B1, B2.
  rewrite online_put in B2. destruct (onlineStats F (absFloat F) n t3 o y) as [t4|]; [|discriminate]. cbn [bind rmap] in B1, B2. inversion B1. inversion B2. subst. eauto.
Qed.
End Net.
End Any.

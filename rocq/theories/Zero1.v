(* Zero1.v - training with optimisers that do not move anything *)
From Coq Require Import String List Arith Bool Lia ZArith Permutation.
From Verif Require Import Base Scalar Mat SpecMat MatFacts MatLoops MatProofs MatProps Act Loss Optim SpecOpt OptProofs Regul LayMat LayImg LayRnn LayProofs1 LayProofs2 Layer Net NetTrain SpecNet SpecTrain NetRow NetProofs1 NetProofs2
  TrainProofs1 TrainProofs2 TrainProofs3 TrainProofs4 TrainProofs5 SpecFit FitLay1 FitLay2 FitLay3 FitNet1 FitNet2 FitNet3 FitRun FitKeep NetRule1 SpecResume SpecFixed SpecZero.
Import ListNotations.
Local Open Scope nat_scope.

Section Any.
Variable F : FOps.
Notation M := (mat F).
Notation cabs := (absFloat F).

Lemma passive_fwd : forall r (l : layer F) k m x out l' o, fits l k m -> passive (lk l) -> sized F l -> layForward F r l x out = Ok (l', o) -> l' = l.
Proof.
  intros r l k m x out l' o Ft Pl S E. assert (Sb : lk l = KAffine -> msize (lb l) <> 0%nat).
  { intro K. destruct Ft as (A1 & _ & _ & _ & _ & A). unfold sized in S. rewrite K in A, S. destruct A as [_ [[[_ Z] _]|[_ (_ & B1 & B2)]]]; [congruence|]. unfold msize. rewrite B1, B2. lia. }
  unfold sized in S. unfold layForward in E. destruct (lk l) eqn:K; cbn in Pl; try contradiction; try (specialize (Sb eq_refl)); binp E; apply Ok_inj in E; injection E; intros; subst; auto;
    unfold fwdBias, fwdGain, fwdAffine, fwdPRelu, fwdTERELU in *;
    match goal with H : context [(msize ?m =? 0)%nat] |- _ => first [rewrite (proj2 (Nat.eqb_neq _ _) S) in H | rewrite (proj2 (Nat.eqb_neq _ _) Sb) in H]; cbn [bind] in H; binp H; apply Ok_inj in H; injection H; intros; subst; cbn [fst snd] end; destruct l; reflexivity.
Qed.
Lemma passive_ready : forall (l : layer F) n k m, fits l k m -> passive (lk l) -> sized F l -> ready F l n k.
Proof.
  intros l n k m (A1 & A2 & A3 & A4 & A5 & A) Pl S. unfold sized in S. unfold ready. destruct (lk l) eqn:K; cbn in Pl; try contradiction; auto; unfold sizedOr, none in A; tauto.
Qed.
(* the backward pass writes gradients only *)
Lemma passive_bwd : forall (l : layer F) x g gin l' gi, passive (lk l) -> layBackward F l x g gin = Ok (l', gi) -> lw l' = lw l /\ lb l' = lb l.
Proof.
  intros l x g gin l' gi Pl E. unfold layBackward in E. destruct (lk l) eqn:K; cbn in Pl; try contradiction; binp E; apply Ok_inj in E; injection E; intros; subst; auto.
Qed.
Lemma fits_wf : forall (l : layer F) k m, fits l k m -> mwf (lw l) /\ mwf (lb l).
Proof. intros l k m (_ & _ & _ & _ & _ & A). unfold sizedOr, none, shp in A. destruct (lk l); tauto. Qed.

Variable Fz : nat -> nat -> opt F -> Prop.
Hypothesis Fz_step : forall r c o (W G : nat -> nat -> F) o' w', Fz r c o -> optimize F cabs o (mgen r c W) (mgen r c G) = Ok (o', w') -> w' = mgen r c W /\ Fz r c o'.
Hypothesis Fz_init : forall r c o, Fz r c o -> Fz r c (init F o).

Section Fit.
Variables (R0 : fitRnd F) (h0 : heap F) (n : net) (t0 : trainer F) (k mo N qc : nat) (X Y : nat -> nat -> F) (D : nat -> nat) (L : nat -> layer F).
Notation ls := (nlay n). Notation m := (length ls). Notation c0 := (tc F t0). Notation v0 := (tval F t0).
Hypothesis Ht : trainable h0 n t0 k mo.
Hypothesis Lm : (0 < m)%nat.
Hypothesis HN : (0 < N)%nat.
Hypothesis Hx : ttrain F t0 = Some (mgen N k X, mgen N qc Y).
Hypothesis HY : truthOk (cLoss F c0) mo (mgen N qc Y).
Hypothesis Fz_new : forall r c kd, create_optimizer (cOpt F c0) = Some kd -> Fz r c (set_params F (newOpt F kd) (cLr F c0) (cDecay F c0) (cMom F c0)).
Hypothesis D0 : D 0%nat = k.
Hypothesis Dm : D m = mo.
Hypothesis HL : forall i a, nth_error ls i = Some a -> hget F h0 a = Ok (L i) /\ fits (L i) (D i) (D (S i)) /\ passive (lk (L i)) /\ sized F (L i).
Definition K (i : nat) (l : layer F) : Prop := fits l (D i) (D (S i)) /\ passive (lk l) /\ sized F l /\ lk l = lk (L i) /\ lw l = lw (L i) /\ lb l = lb (L i) /\ ((0 < i)%nat -> lfirst l = false).
Definition G (i : nat) (l : layer F) : Prop := FitLay1.graded F l.
Definition OW (i : nat) (o : opt F) : Prop := hasWeights (L i) = true /\ Fz (mrows (lw (L i))) (mcols (lw (L i))) o.
Definition OB (i : nat) (o : opt F) : Prop := hasBiases (L i) = true /\ Fz (mrows (lb (L i))) (mcols (lb (L i))) o.
Definition P (nb i : nat) (x : M) : Prop := shp nb (D i) x.
Definition Q (nb i : nat) (x g : M) : Prop := shp nb (D i) g.
Definition TT (nb : nat) (y : M) : Prop := mwf y /\ mrows y = nb /\ truthOk (cLoss F c0) (D m) y.
Definition SS (s : F) : Prop := True.
Lemma K_train : forall i l b, K i l -> K i (setTrain l b). Proof. intros i l b H. exact H. Qed.
Lemma K_fwd : forall i r l x out l' o, K i l -> layForward F r l x out = Ok (l', o) -> K i l'.
Proof. intros i r l x out l' o H E. pose proof H as (A & B & C & _). rewrite (passive_fwd _ _ _ _ _ _ _ _ A B C E). exact H. Qed.
Lemma P_wf : forall nb i x, P nb i x -> mwf x. Proof. intros nb i x H. apply H. Qed.
Lemma P_fwd : forall nb i r l x out l' o, (i < m)%nat -> K i l -> P nb i x -> mwf out -> layForward F r l x out = Ok (l', o) -> P nb (S i) o.
Proof.
  intros nb i r l x out l' o Hi (A & _) Px Ho E. destruct (fwd_fits F r l nb _ _ x out A Px Ho) as (l2 & y & E2 & S2 & _). rewrite E2 in E. injection E; intros; subst. exact S2.
Qed.
Lemma Q_loss : forall nb b o y g0 g, bon F b = false -> P nb m o -> TT nb y -> mwf g0 -> compute_gradient F (cLoss F c0) b o y g0 = Ok g -> mwf g /\ Q nb m o g.
Proof.
  intros nb b o y g0 g Hb Po (Y1 & Y2 & Y3) Wg E. destruct (gradient_ok F (cLoss F c0) b nb (D m) o y g0 Hb Po Y1 Y2 Y3 Wg) as (g' & E' & S'). rewrite E' in E. injection E; intros; subst. split; [apply S'|exact S'].
Qed.
Lemma S_loss : forall nb b o y out ml s, bon F b = false -> P nb m o -> TT nb y -> mwf out -> compute F cabs (cLoss F c0) b o y out = Ok ml -> mmean F ml = Ok s -> SS s /\ mwf ml.
Proof.
  intros nb b o y out ml s Hb Po (Y1 & Y2 & Y3) Wg E _. destruct (compute_ok F (cLoss F c0) b nb (D m) o y out Hb Po Y1 Y2 Y3 Wg) as (r1 & c1 & l1 & E' & S'). pose proof (eq_trans (eq_sym E) E') as EE. injection EE; intros; subst. split; [exact I|apply S'].
Qed.
Lemma Q_bwd : forall nb i l x o g gin l' gi, (i < m)%nat -> K i l -> P nb i x -> P nb (S i) o -> Fwd F K i x o -> Q nb (S i) o g -> mwf gin -> layBackward F l x g gin = Ok (l', gi) ->
  K i l' /\ G i l' /\ mwf gi /\ ((0 < i)%nat -> Q nb i x gi).
Proof.
  intros nb i l x o g gin l' gi Hi Kl Px Po _ Qg Hg E. pose proof Kl as (A1 & A2 & A3 & A4 & A5 & A6 & A7).
  destruct (bwd_fits F l nb (D i) (D (S i)) x g gin A1 (passive_ready _ _ _ _ A1 A2 A3) Px Qg Hg) as (l2 & g2 & E2 & (W2 & Z2) & F2 & (K1 & K2 & K3 & _) & G2).
  rewrite E in E2. injection E2; intros <- <-. destruct (passive_bwd _ _ _ _ _ _ A2 E) as [B1 B2].
  split; [|split; [exact G2|split; [exact W2|intro Hp; apply Z2; auto]]].
  split; auto. split; [rewrite K1; auto|]. split; [unfold sized in *; rewrite K1, B1, B2; auto|]. rewrite K1, K3, B1, B2. auto 10.
Qed.
Lemma O_w : forall i l o g o' w, K i l -> G i l -> OW i o -> (match cReg F c0 with Some r => reg_apply F r (lw l) (lgw l) | None => Ok (lgw l) end) = Ok g -> optimize F cabs o (lw l) g = Ok (o', w) ->
  K i (setP l w g (lb l) (lgb l)) /\ G i (setP l w g (lb l) (lgb l)) /\ OW i o'.
Proof.
  intros i l o g o' w Kl Gl [Hw Ho] Eg Eo. pose proof Kl as (A & B & C & E1 & E2 & E3 & A7). assert (Hl : hasWeights l = true) by (unfold hasWeights in *; rewrite E2; auto).
  pose proof (shp_hw F l _ _ A Hl) as Sw. destruct Gl as [G1 G2]. specialize (G1 Hl).
  assert (Sg : shp (mrows (lw l)) (mcols (lw l)) g). { destruct (cReg F c0) as [rg|]; [|injection Eg; intros <-; exact G1]. destruct (reg_ok F rg _ _ _ _ Sw G1) as (g' & E & S'). rewrite E in Eg. injection Eg; intros <-. exact S'. }
  destruct (shp_gen _ _ _ _ Sw) as [W EW]. destruct (shp_gen _ _ _ _ Sg) as [GG EG]. rewrite <- E2 in Ho. pose proof Eo as Eo'. rewrite EW, EG in Eo'. change (mrows (mgen ?a ?b W)) with a in Eo'. change (mcols (mgen ?a ?b W)) with b in Eo'.
  destruct (Fz_step _ _ _ _ _ _ _ Ho Eo') as [Ew Ho']. rewrite <- EW in Ew. subst w.
  split; [|split; [|split; [auto|rewrite <- E2; exact Ho']]].
  - split; [|split; [exact B|split; [exact C|auto 10]]]. clear - A Sg Hl. destruct A as (A1 & A2 & A3 & A4 & A5 & A). split; auto. split; auto. split; [apply Sg|]. split; auto. split; auto. cbn [lw lb lgw lgb lk lmem setP].
    destruct (lk l); auto; unfold shp, sizedOr, none in *; destruct Sg as (U1 & U2 & U3); cbn [lbi setP] in *; try tauto; intuition congruence.
  - split; [intros _; exact Sg|exact G2].
Qed.
Lemma O_b : forall i l o g o' b, K i l -> G i l -> OB i o -> (match cReg F c0 with Some r => reg_apply F r (lb l) (lgb l) | None => Ok (lgb l) end) = Ok g -> optimize F cabs o (lb l) g = Ok (o', b) ->
  K i (setP l (lw l) (lgw l) b g) /\ G i (setP l (lw l) (lgw l) b g) /\ OB i o'.
Proof.
  intros i l o g o' w Kl Gl [Hw Ho] Eg Eo. pose proof Kl as (A & B & C & E1 & E2 & E3 & A7). assert (Hl : hasBiases l = true) by (unfold hasBiases in *; rewrite E3; auto).
  pose proof (shp_hb F l _ _ A Hl) as Sw. destruct Gl as [G1 G2]. specialize (G2 Hl).
  assert (Sg : shp (mrows (lb l)) (mcols (lb l)) g). { destruct (cReg F c0) as [rg|]; [|injection Eg; intros <-; exact G2]. destruct (reg_ok F rg _ _ _ _ Sw G2) as (g' & E & S'). rewrite E in Eg. injection Eg; intros <-. exact S'. }
  destruct (shp_gen _ _ _ _ Sw) as [W EW]. destruct (shp_gen _ _ _ _ Sg) as [GG EG]. rewrite <- E3 in Ho. pose proof Eo as Eo'. rewrite EW, EG in Eo'. change (mrows (mgen ?a ?b W)) with a in Eo'. change (mcols (mgen ?a ?b W)) with b in Eo'.
  destruct (Fz_step _ _ _ _ _ _ _ Ho Eo') as [Ew Ho']. rewrite <- EW in Ew. subst w.
  split; [|split; [|split; [auto|rewrite <- E3; exact Ho']]].
  - split; [|split; [exact B|split; [exact C|auto 10]]]. clear - A Sg Hl. destruct A as (A1 & A2 & A3 & A4 & A5 & A). split; auto. split; auto. split; auto. split; [apply Sg|]. split; auto. cbn [lw lb lgw lgb lk lmem setP].
    destruct (lk l); auto; unfold shp, sizedOr, none in *; destruct Sg as (U1 & U2 & U3); cbn [lbi setP] in *; try tauto; intuition congruence.
  - split; [exact G1|intros _; exact Sg].
Qed.
Notation lays := (lays F ls K). Notation trI := (trI F ls c0 v0 OW OB). Notation net_ tr := (mkNet ls (nclass n) tr).
Lemma nodup : NoDup ls. Proof. exact (proj1 Ht). Qed.
Definition P0 (nb i : nat) (x : M) : Prop := False.
Lemma P0_fwd : forall nb i r l x out l' o, (i < m)%nat -> K i l -> P0 nb i x -> mwf out -> layForward F r l x out = Ok (l', o) -> P0 nb (S i) o.
Proof. intros nb i r l x out l' o _ _ []. Qed.
Lemma accuracy_lays : forall rs h tr (t : trainer F) x y h' l a, lays h -> lossAccuracy F cabs rs h (net_ tr) t x y = Ok (h', l, a) -> lays h'.
Proof.
  intros rs h tr t x y h' l a H E. pose proof nodup as Nd. unfold lossAccuracy in E. cbv zeta in E. destruct ((_ =? 0)%nat || _); [injection E; intros; subst; auto|]. destruct (cValBatch F (tc F t) =? 0)%nat; [discriminate|].
  apply bind_inv in E. destruct E as ([[[[h1 o1] m1] l1] g1] & E1 & E2). injection E2; intros; subst. apply (forN_postI _ (fun _ '(h, _, _, _, _) => lays h)) in E1; auto.
  intros i [[[[h2 o2] m2] l2] g2] [[[[h3 o3] m3] l3] g3] Hi H2 E3. binp E3. injection E3; intros; subst. match goal with H : predict _ _ _ _ _ _ = _ |- _ => exact (predict_lays F ls (nclass n) Nd K P0 K_fwd P0_fwd _ _ _ _ _ _ _ H2 H) end.
Qed.
Definition JE (ep : nat) (h : heap F) (t : trainer F) : Prop := lays h /\ trI t /\ (0 < tadj F t)%nat.
Lemma epoch_batches : forall rs h tr t X' Y' h' t', lays h -> trI t -> (0 < tadj F t)%nat -> truthOk (cLoss F c0) mo (mgen N qc Y') ->
  trainOneEpoch F cabs rs h (net_ tr) t (mgen N k X') (mgen N qc Y') = Ok (h', t') -> lays h' /\ trI t' /\ tadj F t' = tadj F t.
Proof.
  intros rs h tr t X' Y' h' t' H Ti Had HY' E. unfold trainOneEpoch in E. cbv zeta in E. change (mrows (mgen N k X')) with N in E. rewrite (proj2 (Nat.eqb_neq N 0)) in E by lia. set (adj := tadj F t) in *. rewrite (proj2 (Nat.eqb_neq adj 0)) in E by lia.
  apply (forN_postI _ (fun b '(h, t') => lays h /\ trI t' /\ tadj F t' = adj)) in E; auto.
  intros b [h2 t2] [h3 t3] Hi (H2 & Ti2 & A2) E3. pose proof (ceil_lt N adj b Had Hi) as Lb. set (s := (b * adj)%nat) in *. set (u := Nat.min (s + adj) N) in *. assert (Hu : (s < u <= N)%nat) by (unfold u; lia).
  rewrite !(viewRow_gen F) in E3 by lia. cbn [bind] in E3.
  set (Xb := fun i j => X' (s + i)%nat j) in *. set (Yb := fun i j => Y' (s + i)%nat j) in *.
  assert (Px : P (u - s) 0 (mgen (u - s) k Xb)) by (unfold P; rewrite D0; apply gen_shp).
  assert (Ty : TT (u - s) (mgen (u - s) qc Yb)). { split; [apply mwf_gen|]. split; [reflexivity|]. rewrite Dm. apply (truth_rows F _ _ N qc (u - s) Y' (fun i => s + i)); auto. intros; lia. }
  destruct (batch_rule F cabs ls (nclass n) c0 v0 nodup K G P Q OW OB TT SS) with (rs := rs b) (tr := tr) (h := h2) (t := t2) (h' := h3) (t' := t3) (nb := (u - s)%nat) (x := mgen (u - s) k Xb) (y := mgen (u - s) qc Yb) as (H3 & Ti3 & Th3 & A3 & _); auto.
  - apply K_fwd.
  - apply P_wf.
  - apply P_fwd.
  - apply Q_loss.
  - apply Q_bwd.
  - apply O_w.
  - apply O_b.
  - apply S_loss.
  - split; [auto|]. split; [auto|congruence].
Qed.
Lemma epoch_rule : forall ep h1 tr t1 h2 t2 h3 t3 l a, JE ep h1 t1 -> epochTrain F cabs R0 ep h1 (net_ tr) t1 (mgen N k X) (mgen N qc Y) = Ok (h2, net_ false, t2) ->
  epochStats F cabs R0 ep h2 (net_ false) t2 N = Ok (h3, t3, l, a) -> JE (S ep) h3 t3.
Proof.
  intros ep h1 tr t1 h2 t2 h3 t3 l a (D' & Tr & Ad) E1 E2.
  assert (J2 : lays h2 /\ trI t2 /\ tadj F t2 = tadj F t1).
  { unfold epochTrain in E1. cbv zeta in E1. set (ta := setOnline F t1 (f0 F) 0) in *. assert (Tra : trI ta) by exact Tr. change (mrows (mgen N k X)) with N in E1.
    match type of E1 with bind ?a _ = _ => assert (exists X' Y', truthOk (cLoss F c0) mo (mgen N qc Y') /\ a = Ok (mgen N k X', mgen N qc Y')) as (X' & Y' & HX' & EP) end.
    { destruct (tadj F ta <? N)%nat; [|exists X, Y; auto]. destruct (randPerm_perm (oShuffle F R0 ep) N) as (v & Ev & Pv). assert (Lv : length v = N) by (rewrite <- (Permutation_length Pv); apply seq_length).
      assert (In_v : forall x, In x v -> (x < N)%nat). { intros x Hx0. apply (Permutation_in x (Permutation_sym Pv)) in Hx0. apply in_seq in Hx0. lia. }
      exists (fun i => X (nth i v O)), (fun i => Y (nth i v O)). split; [apply (truth_rows F _ _ N qc N Y (fun i => nth i v O)); auto; intros i Hi; apply In_v, nth_In; lia|]. rewrite Ev. cbn [bind].
      rewrite !(applyRowPermutation_gen F) by (solve [auto | reflexivity]). reflexivity. }
    rewrite EP in E1. cbn [bind] in E1. destruct (netSetTrain F h1 _ true) as [[h4 n4]|] eqn:E4; [|discriminate]. cbn [bind] in E1. destruct (mode_rule F ls (nclass n) nodup K K_train _ _ _ _ _ D' E4) as (D4 & ->).
    destruct (trainOneEpoch F cabs _ h4 _ ta _ _) as [[h5 t5]|] eqn:E5; [|discriminate]. cbn [bind] in E1. destruct (epoch_batches _ _ _ _ _ _ _ _ D4 Tra Ad HX' E5) as (D5 & Tr5 & A5).
    destruct (netSetTrain F h5 _ false) as [[h6 n6]|] eqn:E6; [|discriminate]. cbn [bind] in E1. destruct (mode_rule F ls (nclass n) nodup K K_train _ _ _ _ _ D5 E6) as (D6 & ->). injection E1; intros; subst. auto 10. }
  clear E1. destruct J2 as (D2 & Tr2 & A2). unfold epochStats in E2. cbv zeta in E2.
  assert (QQ : forall H' h', lays h' -> JE (S ep) h' (setHist F t2 H')).
  { intros H' h' D''. split; auto. split; [exact Tr2|]. change (tadj F (setHist F t2 H')) with (tadj F t2); lia. }
  destruct (tval F t2) as [[xv yv]|].
  - apply bind_inv in E2. destruct E2 as ([[h4 l4] a4] & E4 & E2). injection E2; intros; subst h3 t3 l a. pose proof (accuracy_lays _ _ _ _ _ _ _ _ _ D2 E4) as D4. apply QQ; auto.
  - injection E2; intros; subst h3 t3 l a. apply QQ; auto.
Qed.
Lemma vresize_len : forall (v : list M) r, Forall mwf v -> length (vresize F v r) = r /\ Forall mwf (vresize F v r).
Proof.
  intros v r H. unfold vresize. split; [rewrite app_length, firstn_length, repeat_length; lia|]. apply Forall_app. split; [|apply Forall_forall; intros x Hx0; apply repeat_spec in Hx0; subst; reflexivity].
  apply Forall_forall. intros x Hx0. rewrite Forall_forall in H. apply H. rewrite <- (firstn_skipn r v). apply in_or_app. auto.
Qed.
Definition PP (i : nat) (l : layer F) : Prop := fastKind F (lk l) = fastKind F (lk (L i)) /\ sameParams F (L i) l.
Lemma PP_clone : forall i r l c, layClone F r l = Ok c -> PP i l -> PP i c.
Proof. intros i r l c E [A B]. apply clone_params in E. destruct E as (E1 & _ & _ & E2). split; [rewrite E1, fastKind_idem; exact A|]. exact (sameParams_trans' F cabs (L i) l c A B E2). Qed.
Lemma PP_K : forall i l, K i l -> PP i l.
Proof. intros i l (_ & A & _ & B & C & E & _). split; [rewrite B; auto|]. unfold sameParams. rewrite <- B. rewrite C, E. destruct (lk l); cbn in A; try contradiction; auto. Qed.
Lemma K_start : forall i a l, nth_error ls i = Some a -> hget F h0 a = Ok l -> K i (if (i =? 0)%nat then setFirst l true else l).
Proof.
  intros i a l Ea El. destruct (HL i a Ea) as (E & A & B & C). rewrite E in El. injection El; intros <-. destruct i as [|i]; cbn [Nat.eqb]; [split; [exact A|]; split; [exact B|]; split; [exact C|]; do 3 (split; [reflexivity|]); lia|].
  split; [exact A|]. split; [exact B|]. split; [exact C|]. do 3 (split; [reflexivity|]). intros _. destruct Ht as (_ & _ & Fo & _). eapply Fo; eauto.
Qed.
Lemma O_init : forall i o, (OW i o -> OW i (init F o)) /\ (OB i o -> OB i (init F o)).
Proof. intros i o. split; intros [A B]; split; auto; apply Fz_init; auto. Qed.
Lemma O_start : forall i l kd, K i l -> create_optimizer (cOpt F c0) = Some kd -> (hasWeights l = true -> OW i (set_params F (newOpt F kd) (cLr F c0) (cDecay F c0) (cMom F c0))) /\ (hasBiases l = true -> OB i (set_params F (newOpt F kd) (cLr F c0) (cDecay F c0) (cMom F c0))).
Proof. intros i l kd (_ & _ & _ & _ & A & B & _) Ek. split; intro Hh; (split; [unfold hasWeights, hasBiases in *; congruence | apply Fz_new; auto]). Qed.

Theorem fit_keeps : exists h' n' t' calls, fit F cabs R0 h0 n t0 = Ok (h', n', t', calls) /\ length (nlay n') = m /\ forall i b, nth_error (nlay n') i = Some b -> exists l, hget F h' b = Ok l /\ PP i l.
Proof.
  destruct (fit_all F PP PP_clone m R0 h0 n t0 k mo (mgen N k X) (mgen N qc Y) Ht) with (J := JE) as (h' & n' & t' & calls & h2 & Ef & _ & Al); auto.
  - intros ep h1 h2 t1 Fr (D' & Q0). split; [|exact Q0]. intros i a Ea. destruct (D' i a Ea) as (l & El & Kl). exists l. split; auto. rewrite Fr; auto. eapply nth_error_In; eauto.
  - intros ep h1 t1 t2 (zz & os & -> & Hos) (D' & Tr & Ad). split; auto. split; [|exact Ad]. destruct Tr as (T1 & T2 & T3 & T4 & T5 & T6 & T7 & (O1 & O2 & O3)). do 7 (split; [assumption|]). destruct Hos as [-> | ->]; [split; [exact O1|split; [exact O2|exact O3]]|].
    split; [|split; [|exact O3]].
    + intros j a i Ea Ei. destruct (O1 j a i Ea Ei) as (o & Eo & Ho). exists (init F o). split; [change (topts F (setOpts F (setCur F t1 zz) ?v)) with v; rewrite nth_error_map, Eo; reflexivity | apply O_init; auto].
    + intros j a i Ea Ei. destruct (O2 j a i Ea Ei) as (o & Eo & Ho). exists (init F o). split; [change (topts F (setOpts F (setCur F t1 zz) ?v)) with v; rewrite nth_error_map; change (tpw F (setOpts F (setCur F t1 zz) _)) with (tpw F t1); rewrite Eo; reflexivity | apply O_init; auto].
  - intros ep rs h1 h2 t1 xv yv l a tr (D' & Q0) Ea. split; [eapply accuracy_lays; eauto | exact Q0].
  - intros h1 t1 Es. destruct (setNet_post F _ _ _ _ _ Es) as (A1 & A2 & A3 & A4 & A5 & A6 & A7 & A8 & A9 & A10 & A11 & A12 & kd & A13 & A14).
    assert (V : tinOut F t1 = vresize F (tinOut F t0) (m + 1) /\ tgrad F t1 = vresize F (tgrad F t0) (m + 1)). { unfold setNet in Es. cbv zeta in Es. binp Es. apply Ok_inj in Es. injection Es; intros; subst. split; reflexivity. }
    destruct V as [V1 V2]. assert (Wi : Forall mwf (tinOut F t0) /\ Forall mwf (tgrad F t0)) by (destruct Ht as (_ & _ & _ & _ & _ & _ & _ & Wi & Wg & _); auto). destruct Wi as [Wi Wg].
    assert (D' : lays h1).
    { intros i a Ea. destruct (A4 a (nth_error_In _ _ Ea)) as (l & El). exists l. split; auto. destruct i as [|i].
      - destruct (A3 a) as (l0 & E0 & E1). { destruct ls; [discriminate Ea|]. exact Ea. } rewrite E1 in El. injection El; intros <-. apply (K_start 0 a l0 Ea E0).
      - apply (K_start (S i) a l Ea). unfold hget, rget in *. rewrite A2 in El; auto. intro Q0. pose proof (same_at ls nodup (S i) 0 a Ea) as Q1. destruct ls; [discriminate Ea|]. cbn in Q0, Q1. specialize (Q1 Q0). discriminate Q1. }
    split; [exact D'|]. split.
    + split; [exact A8|]. split; [exact A7|]. split; [split; [exact A10 | reflexivity]|]. destruct (vresize_len (tinOut F t0) (m + 1) Wi) as [B1 B2]. destruct (vresize_len (tgrad F t0) (m + 1) Wg) as [B3 B4].
      match goal with |- context [setOpts F ?u (map (init F) (topts F t1))] => set (tt1 := setOpts F u (map (init F) (topts F t1))) end. change (tinOut F tt1) with (tinOut F t1). change (tgrad F tt1) with (tgrad F t1). rewrite V1, V2, B1, B3. split; [apply Nat.add_1_r|]. split; [exact B2|]. split; [apply Nat.add_1_r|]. split; [exact B4|].
      assert (OS : forall a i, nth_error ls i = Some a -> forall l, hget F h1 a = Ok l -> K i l). { intros a i Ea l El. destruct (D' i a Ea) as (l' & El' & Kl). rewrite El in El'. injection El'; intros <-. auto. }
      change (topts F tt1) with (map (init F) (topts F t1)). unfold optsOk. change (topts F tt1) with (map (init F) (topts F t1)). change (tpw F tt1) with (tpw F t1). change (tpb F tt1) with (tpb F t1). rewrite A14.
      assert (CK : forall a, In a (tpw F t1) \/ In a (tpb F t1) -> create_optimizer (cOpt F c0) = Some kd). { intros a Ha. apply A13. rewrite A14. intro Q0. apply (f_equal (@length _)) in Q0. rewrite repeat_length in Q0. cbn in Q0. destruct Ha as [Ha|Ha]; [destruct (tpw F t1) | destruct (tpb F t1)]; cbn in *; try contradiction; lia. }
      set (o0 := set_params F (newOpt F kd) (cLr F c0) (cDecay F c0) (cMom F c0)) in *.
      split; [|split; [|split]].
      * intros j a i Ea Ei. exists (init F o0). assert (j < length (tpw F t1))%nat by (apply nth_error_Some; congruence). split; [rewrite nth_error_map, nth_error_repeat by lia; reflexivity|]. apply O_init. assert (Ha : In a (tpw F t1)) by (eapply nth_error_In; eauto). pose proof (CK a (or_introl Ha)) as Hkd.
        rewrite A5 in Ha. apply filter_In in Ha. destruct Ha as [_ Ha]. destruct (hget F h1 a) as [l|] eqn:El; [|discriminate]. destruct (O_start i l kd (OS a i Ei l El) Hkd) as [S1 _]. auto.
      * intros j a i Ea Ei. exists (init F o0). assert (j < length (tpb F t1))%nat by (apply nth_error_Some; congruence). split; [rewrite nth_error_map, nth_error_repeat by lia; reflexivity|]. apply O_init. assert (Ha : In a (tpb F t1)) by (eapply nth_error_In; eauto). pose proof (CK a (or_intror Ha)) as Hkd.
        rewrite A6 in Ha. apply filter_In in Ha. destruct Ha as [_ Ha]. destruct (hget F h1 a) as [l|] eqn:El; [|discriminate]. destruct (O_start i l kd (OS a i Ei l El) Hkd) as [_ S1]. auto.
      * intros a Ha. rewrite A5 in Ha. apply filter_In in Ha. apply Ha.
      * intros a Ha. rewrite A6 in Ha. apply filter_In in Ha. apply Ha.
    + change (mrows (mgen N k X)) with N. match goal with |- (0 < tadj F (setOpts F (setAdj F ?u ?v) ?w))%nat => change (0 < v)%nat end. destruct (Nat.ltb_spec N (cBatch F c0)); [exact HN|]. destruct (Nat.eqb_spec (cBatch F c0) 0); cbn [orb]; [exact HN|lia].
  - intros ep h1 tr t1 h2 t2 h3 t3 l a Je E1 E2. change (mrows (mgen N k X)) with N in E2. eapply epoch_rule; eauto.
  - intros ep h1 t1 (D' & _). split; [reflexivity|]. intros i a Ea. destruct (D' i a Ea) as (l & El & Kl). exists l. split; auto. apply PP_K; auto.
  - destruct Al as [Al1 Al2]. exists h', n', t', calls. auto 10.
Qed.
End Fit.


(** * the statement *)
Theorem keeps_all : forall (R0 : fitRnd F) h n (t : trainer F) k mo x y,
  trainable h n t k mo -> nlay n <> [] -> allPassive h n -> allSized F h n -> ttrain F t = Some (x, y) -> (0 < mrows x)%nat ->
  (forall r c kd, create_optimizer (cOpt F (tc F t)) = Some kd -> Fz r c (set_params F (newOpt F kd) (cLr F (tc F t)) (cDecay F (tc F t)) (cMom F (tc F t)))) ->
  exists h' n' t' calls, fit F cabs R0 h n t = Ok (h', n', t', calls) /\ copyOf F h (nlay n) h' (nlay n').
Proof.
  intros R0 h n t k mo x y Ht Hne Pl Sz Hx HN Hnew. assert (Lm : (0 < length (nlay n))%nat) by (destruct (nlay n); [contradiction|cbn; lia]).
  pose proof Ht as (Nd & St & Fo & _ & _ & _ & _ & _ & _ & (d & Ed & Hd) & _). rewrite Hx in Ed. injection Ed; intros <-. destruct (data_gen F _ _ _ _ _ Hd) as (N & q & X & Y & -> & -> & HY).
  destruct (stack_dims F _ _ _ _ St) as (D & D0 & Dm & Dims).
  assert (exists dl : layer F, True) as (dl & _). { destruct (nth_error (nlay n) 0) as [a|] eqn:E; [|apply nth_error_None in E; lia]. destruct (Dims _ _ E) as (l & _). exists l. auto. }
  set (L := fun i => match nth_error (nlay n) i with Some a => match hget F h a with Ok l => l | Err _ => dl end | None => dl end).
  assert (HL : forall i a, nth_error (nlay n) i = Some a -> hget F h a = Ok (L i) /\ fits (L i) (D i) (D (S i)) /\ passive (lk (L i)) /\ sized F (L i)).
  { intros i a Ea. destruct (Dims i a Ea) as (l & El & Fl). unfold L. rewrite Ea, El. split; auto. split; auto. pose proof (nth_error_In _ _ Ea) as Ia. split; [eapply Pl; eauto | eapply Sz; eauto]. }
  destruct (fit_keeps R0 h n t k mo N q X Y D L) as (h' & n' & t' & calls & Ef & Ln & Al); auto.
  exists h', n', t', calls. split; auto. split; auto. intros i a Ea. destruct (HL i a Ea) as (E & _). assert (Hi : (i < length (nlay n'))%nat) by (rewrite Ln; apply nth_error_Some; congruence). destruct (nth_error (nlay n') i) as [b|] eqn:Eb; [|apply nth_error_None in Eb; lia].
  destruct (Al i b Eb) as (l & El & P1 & P2). exists b, (L i), l. auto.
Qed.
End Any.

(* Dead1.v - a unit on which the activation is flat is left alone by fit *)
From Coq Require Import String List Arith Bool Lia ZArith Permutation Reals Lra.
From Verif Require Import Base Scalar Mat SpecMat SpecReal RSum MatFacts MatLoops MatProofs MatProps Act Loss Optim SpecOpt OptProofs Regul LayMat LayImg LayRnn LayProofs1 LayProofs2 LayProofs3 Layer Net NetTrain SpecNet SpecTrain NetRow NetProofs1 NetProofs2
  TrainProofs1 TrainProofs2 TrainProofs3 TrainProofs4 TrainProofs5 SpecFit FitLay1 FitLay2 FitLay3 FitNet1 FitNet2 FitNet3 FitRun FitKeep NetRule1 SpecResume SpecFixed Fixed1 SpecZero Zero1 SpecDead.
Import ListNotations.
Local Open Scope nat_scope.

(* what holds of column u of a matrix *)
Definition colP {A} (u : nat) (Pr : nat -> A -> Prop) (m : mat A) : Prop := forall r c Z, m = mgen r c Z -> u < c -> forall p, p < r -> Pr p (Z p u).
Lemma col_intro : forall A u (Pr : nat -> A -> Prop) r c Z, (forall p, u < c -> p < r -> Pr p (Z p u)) -> colP u Pr (mgen r c Z).
Proof.
  intros A u Pr r c Z H r' c' Z' E Hu p Hp. pose proof (f_equal (@mrows _) E) as E1. pose proof (f_equal (@mcols _) E) as E2. cbn in E1, E2. subst r' c'.
  rewrite <- (mgen_inj _ _ _ _ _ p u E Hp Hu). auto.
Qed.
Lemma col_use : forall A u (Pr : nat -> A -> Prop) r c Z, colP u Pr (mgen r c Z) -> u < c -> forall p, p < r -> Pr p (Z p u).
Proof. intros A u Pr r c Z H. eapply H; eauto. Qed.

Section Any.
Variable jk : R.
Notation F := (ROps jk).
Notation M := (mat F).
Notation cabs := (absFloat F).
Variable u : nat.
Definition isz (p : nat) (x : F) : Prop := x = 0%R.

(* the state of an optimiser; at rest on column u for the first layer *)
Definition held (i r c : nat) (o : opt F) : Prop := rests (okind F o) /\ wfOpt F o /\
  (fresh F o \/ exists st, stored F r c o st /\ (i = 0 -> u < c -> forall p, p < r -> zst jk (okind F o) (st p u))).
Lemma held_step : forall i r c o (W G : nat -> nat -> F) o' w', held i r c o -> (i = 0 -> u < c -> forall p, p < r -> G p u = 0%R) -> optimize F cabs o (mgen r c W) (mgen r c G) = Ok (o', w') ->
  held i r c o' /\ exists W', w' = mgen r c W' /\ (i = 0 -> u < c -> forall p, p < r -> W' p u = W p u).
Proof.
  intros i r c o W G o' w' (Rs & Wo & H) HG E.
  assert (exists st, loaded F r c o G st /\ (i = 0 -> u < c -> forall p, p < r -> zst jk (okind F o) (st p u))) as (st & L & Z).
  { destruct H as [H|(st & H & Z)]; [|exists st; split; auto; apply stored_loaded; auto]. eexists. split; [apply fresh_loaded; exact H|]. intros Hi Hu p Hp. unfold zst. rewrite (HG Hi Hu p Hp). destruct (okind F o); cbn [cinit cm cv cp f0 ROps]; auto. }
  destruct (optimize_step F r c o st W G L) as (o1 & E1 & S1 & K1 & _). cbv zeta in E1, S1. rewrite E1 in E. injection E; intros <- <-.
  assert (Q : i = 0 -> u < c -> forall p, p < r -> snd (cstep F (okind F o) (olr F o) (odecay F o) (omom F o) (b1p F o) (b2p F o) (st p u) (W p u) (G p u)) = W p u /\ zst jk (okind F o) (fst (cstep F (okind F o) (olr F o) (odecay F o) (omom F o) (b1p F o) (b2p F o) (st p u) (W p u) (G p u)))).
  { intros Hi Hu p Hp. rewrite (HG Hi Hu p Hp). apply zero_cstep; auto. }
  split.
  - split; [rewrite K1; auto|]. split; [eapply optimize_wf; eauto|]. right. eexists. split; [exact S1|]. intros Hi Hu p Hp. rewrite K1. apply Q; auto.
  - eexists. split; [reflexivity|]. intros Hi Hu p Hp. apply Q; auto.
Qed.
Lemma held_init : forall i r c o, held i r c o -> held i r c (init F o).
Proof. intros i r c o (Rs & Wo & _). split; [rewrite init_kind; auto|]. destruct (opt_init F r c o Wo) as [A _]. split; auto. left. apply fresh_init; auto. Qed.
Lemma held_new : forall i r c k lr dec mom, rests k -> held i r c (set_params F (newOpt F k) lr dec mom).
Proof.
  intros i r c k lr dec mom H. unfold set_params. apply held_init. split; [exact H|]. split; [exact (wf_new F k)|]. left. pose proof (wf_new F k) as (A & B & C). split; [exact A|]. split; [exact B|]. split; [exact C|]. cbn [okind newOpt s_m s_v s_p]. destruct k; auto.
Qed.

Section Fit.
Variables (R0 : fitRnd F) (h0 : heap F) (n : net) (t0 : trainer F) (k mo N qc q : nat) (X Y : nat -> nat -> F) (D : nat -> nat) (L : nat -> layer F) (W0 B0 : nat -> nat -> F) (aF : actKind).
Notation ls := (nlay n). Notation m := (length ls). Notation c0 := (tc F t0). Notation v0 := (tval F t0).
Hypothesis Ht : trainable h0 n t0 k mo.
Hypothesis Lm : 2 <= m.
Hypothesis HN : 0 < N.
Hypothesis Hx : ttrain F t0 = Some (mgen N k X, mgen N qc Y).
Hypothesis HY : truthOk (cLoss F c0) mo (mgen N qc Y).
Hypothesis Hreg : cReg F c0 = None.
Hypothesis Hrest : forall kd, create_optimizer (cOpt F c0) = Some kd -> rests kd.
Hypothesis D0 : D 0 = k.
Hypothesis Dm : D m = mo.
Hypothesis D1 : D 1 = q.
Hypothesis Hu : u < q.
Hypothesis HL : forall i a, nth_error ls i = Some a -> hget F h0 a = Ok (L i) /\ fits (L i) (D i) (D (S i)) /\ passive (lk (L i)) /\ sized F (L i).
Hypothesis HK0 : lk (L 0) = KDense k q.
Hypothesis HW0 : lw (L 0) = mgen k q W0.
Hypothesis HB0 : lb (L 0) = mgen 1 q B0.
Hypothesis HK1 : lk (L 1) = KAct (Some aF).
Hypothesis flat : flatUnit jk aF k N X (fun p => W0 p u) (B0 0 u).
(* the weights and the bias of the unit *)
Definition kept (l : layer F) : Prop := exists W B, lw l = mgen k q W /\ lb l = mgen 1 q B /\ (forall p, p < k -> W p u = W0 p u) /\ B 0 u = B0 0 u.
Definition K (i : nat) (l : layer F) : Prop := fits l (D i) (D (S i)) /\ passive (lk l) /\ sized F l /\ lk l = lk (L i) /\ (mrows (lw l) = mrows (lw (L i)) /\ mcols (lw l) = mcols (lw (L i))) /\ (mrows (lb l) = mrows (lb (L i)) /\ mcols (lb l) = mcols (lb (L i))) /\
  (0 < i -> lfirst l = false) /\ (i = 0 -> kept l).
Definition G (i : nat) (l : layer F) : Prop := FitLay1.graded F l /\ (i = 0 -> colP u isz (lgw l) /\ colP u isz (lgb l)).
Definition OW (i : nat) (o : opt F) : Prop := hasWeights (L i) = true /\ held i (mrows (lw (L i))) (mcols (lw (L i))) o.
Definition OB (i : nat) (o : opt F) : Prop := hasBiases (L i) = true /\ held i (mrows (lb (L i))) (mcols (lb (L i))) o.
Definition P (nb i : nat) (x : M) : Prop := shp nb (D i) x /\ (i = 0 -> exists f, x = mgen nb k (fun r => X (f r)) /\ forall r, r < nb -> f r < N) /\ (i = 1 -> colP u (fun _ z => act_deriv F aF z = 0%R) x).
Definition Q (nb i : nat) (x g : M) : Prop := shp nb (D i) g /\ (i = 1 -> colP u isz g).
Definition TT (nb : nat) (y : M) : Prop := mwf y /\ mrows y = nb /\ truthOk (cLoss F c0) (D m) y.
Definition SS (s : F) : Prop := True.
Lemma K_train : forall i l b, K i l -> K i (setTrain l b). Proof. intros i l b H. exact H. Qed.
Lemma K_fwd : forall i r l x out l' o, K i l -> layForward F r l x out = Ok (l', o) -> K i l'.
Proof. intros i r l x out l' o H E. pose proof H as (A & B & C & _). rewrite (passive_fwd F _ _ _ _ _ _ _ _ A B C E). exact H. Qed.
Lemma P_wf : forall nb i x, P nb i x -> mwf x. Proof. intros nb i x H. apply H. Qed.
Lemma P_fwd : forall nb i r l x out l' o, (i < m)%nat -> K i l -> P nb i x -> mwf out -> layForward F r l x out = Ok (l', o) -> P nb (S i) o.
Proof.
  intros nb i r l x out l' o Hi Kl (Px & P1 & P2) Ho E. pose proof Kl as (A & _ & _ & Ek & _ & _ & _ & Ke). destruct (fwd_fits F r l nb _ _ x out A Px Ho) as (l2 & y & E2 & S2 & _). pose proof E as E'. rewrite E2 in E'. injection E'; intros; subst.
  split; [exact S2|]. split; [intro; lia|]. intro Q1. assert (i = 0) as -> by lia. destruct (Ke eq_refl) as (W & B & EW & EB & CW & CB). destruct (P1 eq_refl) as (f & -> & Hf).
  unfold layForward in E. rewrite Ek, HK0, EW, EB, fwdDense_gen in E. cbn [bind] in E. injection E; intros <- _. apply col_intro. intros p _ Hp. rewrite CB, fsum_R. cbn [fadd fmul ROps]. rewrite <- (flat (f p) (Hf p Hp)). f_equal. f_equal. apply rsum_ext. intros j Hj. rewrite CW; auto.
Qed.
Lemma Q_loss : forall nb b o y g0 g, bon F b = false -> P nb m o -> TT nb y -> mwf g0 -> compute_gradient F (cLoss F c0) b o y g0 = Ok g -> mwf g /\ Q nb m o g.
Proof.
  intros nb b o y g0 g Hb (Po & _) (Y1 & Y2 & Y3) Wg E. destruct (gradient_ok F (cLoss F c0) b nb (D m) o y g0 Hb Po Y1 Y2 Y3 Wg) as (g' & E' & S'). rewrite E' in E. injection E; intros; subst. split; [apply S'|]. split; [exact S'|]. intro; lia.
Qed.
Lemma S_loss : forall nb b o y out ml s, bon F b = false -> P nb m o -> TT nb y -> mwf out -> compute F cabs (cLoss F c0) b o y out = Ok ml -> mmean F ml = Ok s -> SS s /\ mwf ml.
Proof.
  intros nb b o y out ml s Hb (Po & _) (Y1 & Y2 & Y3) Wg E _. destruct (compute_ok F (cLoss F c0) b nb (D m) o y out Hb Po Y1 Y2 Y3 Wg) as (r1 & c1 & l1 & E' & S'). pose proof (eq_trans (eq_sym E) E') as EE. injection EE; intros; subst. split; [exact I|apply S'].
Qed.
Lemma Q_bwd : forall nb i l x o g gin l' gi, (i < m)%nat -> K i l -> P nb i x -> P nb (S i) o -> Fwd F K i x o -> Q nb (S i) o g -> mwf gin -> layBackward F l x g gin = Ok (l', gi) ->
  K i l' /\ G i l' /\ mwf gi /\ ((0 < i)%nat -> Q nb i x gi).
Proof.
  intros nb i l x o g gin l' gi Hi Kl (Px & P1 & P2) (Po & _) _ (Qg & Q1) Hg E. pose proof Kl as (A1 & A2 & A3 & A4 & A5 & A6 & A7 & A8).
  destruct (bwd_fits F l nb (D i) (D (S i)) x g gin A1 (passive_ready F _ _ _ _ A1 A2 A3) Px Qg Hg) as (l2 & g2 & E2 & (W2 & Z2) & F2 & (K1 & K2 & K3 & _) & G2).
  pose proof E as E'. rewrite E in E2. injection E2; intros <- <-. destruct (passive_bwd F _ _ _ _ _ _ A2 E) as [B1 B2].
  split; [|split; [|split; [exact W2|]]].
  - split; auto. split; [rewrite K1; auto|]. split; [unfold sized in *; rewrite K1, B1, B2; auto|]. rewrite K1, K3, B1, B2. do 4 (split; auto). unfold kept. rewrite B1, B2. exact A8.
  - split; [exact G2|]. intros ->. destruct (shp_gen _ _ _ _ Qg) as [GG EG]. rewrite D1 in EG. specialize (Q1 eq_refl). destruct (A8 eq_refl) as (W & B & EW & EB & _). destruct (P1 eq_refl) as (f & Ex & Hf). subst g x. pose proof (col_use _ _ _ _ _ _ Q1 Hu) as HG.
    unfold layBackward in E'. rewrite A4, HK0, EW, (bwdDense_gen F) in E'. cbn [bind] in E'. injection E'; intros _ <-. cbn [lgw lgb setGWB]. split; apply col_intro; intros p _ Hp; unfold isz; cbn [fmul fdiv ROps].
    + rewrite zsum; [apply Rmult_0_l|]. intros s Hs. cbn [fmul ROps]. rewrite (HG s Hs). apply Rmult_0_r.
    + rewrite zsum; [apply zdiv|]. intros s Hs. exact (HG s Hs).
  - intro Hp. split; [apply Z2; auto|]. intros ->. specialize (P2 eq_refl). destruct (shp_gen _ _ _ _ Px) as [ZZ EZ]. rewrite D1 in EZ. subst x. pose proof (col_use _ _ _ _ _ _ P2 Hu) as HZ.
    assert (D 2 = q) as D2. { rewrite <- D1. destruct A1 as (_ & _ & _ & _ & _ & A1). rewrite A4, HK1 in A1. apply A1. } destruct (shp_gen _ _ _ _ Qg) as [GG EG]. rewrite D2 in EG. subst g.
    unfold layBackward in E'. rewrite A4, HK1, (bwdAct_gen F) in E' by auto. rewrite (A7 Hp) in E'. cbn [bind] in E'. injection E'; intros <- _. apply col_intro. intros p _ Hr. unfold isz. cbn [fmul ROps]. rewrite (HZ p Hr). apply Rmult_0_l.
Qed.
Lemma O_w : forall i l o g o' w, K i l -> G i l -> OW i o -> (match cReg F c0 with Some r => reg_apply F r (lw l) (lgw l) | None => Ok (lgw l) end) = Ok g -> optimize F cabs o (lw l) g = Ok (o', w) ->
  K i (setP l w g (lb l) (lgb l)) /\ G i (setP l w g (lb l) (lgb l)) /\ OW i o'.
Proof.
  intros i l o g o' w Kl [[G1 G2] G3] [Hw Ho] Eg Eo. rewrite Hreg in Eg. injection Eg; intros <-. pose proof Kl as (A & B & C & E1 & [E2 E3] & E4 & A7 & A8). assert (Hl : hasWeights l = true) by (unfold hasWeights, msize in *; rewrite E2, E3; auto).
  pose proof (shp_hw F l _ _ A Hl) as Sw. specialize (G1 Hl). rewrite <- E2, <- E3 in Ho.
  destruct (shp_gen _ _ _ _ Sw) as [W EW]. destruct (shp_gen _ _ _ _ G1) as [GG EG]. pose proof Eo as Eo'. rewrite EW, EG in Eo'. change (mrows (mgen ?a ?b W)) with a in Eo'. change (mcols (mgen ?a ?b W)) with b in Eo'.
  destruct (held_step i (mrows (lw l)) (mcols (lw l)) o W GG o' w Ho) as (Ho' & W' & -> & HW'); [|exact Eo'|].
  { intros Hi Huc. destruct (G3 Hi) as [G4 _]. rewrite EG in G4. exact (col_use _ _ _ _ _ _ G4 Huc). }
  split; [|split; [|split; [auto|rewrite <- E2, <- E3; exact Ho']]].
  - split; [apply (fits_weights F); auto; apply gen_shp|]. split; [exact B|]. split. { revert C. unfold sized. cbn [lk lw lb setP]. unfold msize. cbn [mrows mcols mgen]. destruct (lk l); auto. } split; [exact E1|]. split; [split; [exact E2|exact E3]|]. split; [exact E4|]. split; [exact A7|].
    intro Hi. destruct (A8 Hi) as (W1 & B1 & Q1 & Q2 & Q3 & Q4). exists W', B1. cbn [lw lb setP]. assert (Er : mrows (lw l) = k /\ mcols (lw l) = q) by (rewrite Q1; split; reflexivity). destruct Er as [Er Ec]. rewrite Er, Ec in *. split; [reflexivity|]. split; [exact Q2|]. split; [|exact Q4].
    intros p Hp. rewrite HW' by auto. rewrite <- Q3 by auto. rewrite Q1 in EW. symmetry. exact (mgen_inj _ _ _ _ _ p u EW Hp Hu).
  - split; [split; [intros _; exact G1|exact G2]|]. exact G3.
Qed.
Lemma O_b : forall i l o g o' b, K i l -> G i l -> OB i o -> (match cReg F c0 with Some r => reg_apply F r (lb l) (lgb l) | None => Ok (lgb l) end) = Ok g -> optimize F cabs o (lb l) g = Ok (o', b) ->
  K i (setP l (lw l) (lgw l) b g) /\ G i (setP l (lw l) (lgw l) b g) /\ OB i o'.
Proof.
  intros i l o g o' w Kl [[G1 G2] G3] [Hw Ho] Eg Eo. rewrite Hreg in Eg. injection Eg; intros <-. pose proof Kl as (A & B & C & E1 & E4 & [E2 E3] & A7 & A8). assert (Hl : hasBiases l = true) by (unfold hasBiases, msize in *; rewrite E2, E3; auto).
  pose proof (shp_hb F l _ _ A Hl) as Sw. specialize (G2 Hl). rewrite <- E2, <- E3 in Ho.
  destruct (shp_gen _ _ _ _ Sw) as [W EW]. destruct (shp_gen _ _ _ _ G2) as [GG EG]. pose proof Eo as Eo'. rewrite EW, EG in Eo'. change (mrows (mgen ?a ?b W)) with a in Eo'. change (mcols (mgen ?a ?b W)) with b in Eo'.
  destruct (held_step i (mrows (lb l)) (mcols (lb l)) o W GG o' w Ho) as (Ho' & W' & -> & HW'); [|exact Eo'|].
  { intros Hi Huc. destruct (G3 Hi) as [_ G4]. rewrite EG in G4. exact (col_use _ _ _ _ _ _ G4 Huc). }
  split; [|split; [|split; [auto|rewrite <- E2, <- E3; exact Ho']]].
  - split; [apply (fits_biases F); auto; apply gen_shp|]. split; [exact B|]. split. { revert C. unfold sized. cbn [lk lw lb setP]. unfold msize. cbn [mrows mcols mgen]. destruct (lk l); auto. } split; [exact E1|]. split; [exact E4|]. split; [split; [exact E2|exact E3]|]. split; [exact A7|].
    intro Hi. destruct (A8 Hi) as (W1 & B1 & Q1 & Q2 & Q3 & Q4). exists W1, W'. cbn [lw lb setP]. assert (Er : mrows (lb l) = 1 /\ mcols (lb l) = q) by (rewrite Q2; split; reflexivity). destruct Er as [Er Ec]. rewrite Er, Ec in *. split; [exact Q1|]. split; [reflexivity|]. split; [exact Q3|].
    rewrite HW' by auto. rewrite <- Q4. rewrite Q2 in EW. symmetry. exact (mgen_inj _ _ _ _ _ 0 u EW Nat.lt_0_1 Hu).
  - split; [split; [exact G1|intros _; exact G2]|]. exact G3.
Qed.
Notation lays := (lays F ls K). Notation trI := (trI F ls c0 v0 OW OB). Notation net_ tr := (mkNet ls (nclass n) tr).
Lemma nodup : NoDup ls. Proof. exact (proj1 Ht). Qed.
Definition P0 (nb i : nat) (x : M) : Prop := False.
Lemma P0_fwd : forall nb i r l x out l' o, (i < m)%nat -> K i l -> P0 nb i x -> mwf out -> layForward F r l x out = Ok (l', o) -> P0 nb (S i) o.
Proof. intros nb i r l x out l' o _ _ []. Qed.
Lemma accuracy_lays : forall rs h tr (t : trainer F) x y h' l a, lays h -> lossAccuracy F cabs rs h (net_ tr) t x y = Ok (h', l, a) -> lays h'.
Proof.
  intros rs h tr t x y h' l a H E. pose proof nodup as Nd. unfold lossAccuracy in E. cbv zeta in E. destruct ((_ =? 0)%nat || _); [injection E; intros; subst; auto|]. destruct (cValBatch F (tc F t) =? 0)%nat; [discriminate|].
  apply bind_inv in E. destruct E as ([[[[h1 o1] m1] l1] g1] & E1 & E2). injection E2; intros; subst. apply (forN_postI _ (fun _ '(h, _, _, _, _) => lays h)) in E1; auto.
  intros i [[[[h2 o2] m2] l2] g2] [[[[h3 o3] m3] l3] g3] Hi H2 E3. binp E3. injection E3; intros; subst. match goal with H : predict _ _ _ _ _ _ = _ |- _ => exact (predict_lays F ls (nclass n) Nd K P0 K_fwd P0_fwd _ _ _ _ _ _ _ H2 H) end.
Qed.
Definition JE (ep : nat) (h : heap F) (t : trainer F) : Prop := lays h /\ trI t /\ (0 < tadj F t)%nat.
Lemma epoch_batches : forall rs h tr t X' Y' h' t', lays h -> trI t -> (0 < tadj F t)%nat -> truthOk (cLoss F c0) mo (mgen N qc Y') -> (exists f, X' = (fun i => X (f i)) /\ forall r, r < N -> f r < N) ->
  trainOneEpoch F cabs rs h (net_ tr) t (mgen N k X') (mgen N qc Y') = Ok (h', t') -> lays h' /\ trI t' /\ tadj F t' = tadj F t.
Proof.
  intros rs h tr t X' Y' h' t' H Ti Had HY' (f & Ef & Hf) E. unfold trainOneEpoch in E. cbv zeta in E. change (mrows (mgen N k X')) with N in E. rewrite (proj2 (Nat.eqb_neq N 0)) in E by lia. set (adj := tadj F t) in *. rewrite (proj2 (Nat.eqb_neq adj 0)) in E by lia.
  apply (forN_postI _ (fun b '(h, t') => lays h /\ trI t' /\ tadj F t' = adj)) in E; auto.
  intros b [h2 t2] [h3 t3] Hi (H2 & Ti2 & A2) E3. pose proof (ceil_lt N adj b Had Hi) as Lb. set (s := (b * adj)%nat) in *. set (e := Nat.min (s + adj) N) in *. assert (He : (s < e <= N)%nat) by (unfold e; lia).
  rewrite !(viewRow_gen F) in E3 by lia. cbn [bind] in E3.
  set (Xb := fun i j => X' (s + i)%nat j) in *. set (Yb := fun i j => Y' (s + i)%nat j) in *.
  assert (Px : P (e - s) 0 (mgen (e - s) k Xb)) .
  { split; [rewrite D0; apply gen_shp|]. split; [|discriminate]. intros _. exists (fun i => f (s + i)). split; [unfold Xb; rewrite Ef; reflexivity|]. intros r Hr. apply Hf. lia. }
  assert (Ty : TT (e - s) (mgen (e - s) qc Yb)). { split; [apply mwf_gen|]. split; [reflexivity|]. rewrite Dm. apply (truth_rows F _ _ N qc (e - s) Y' (fun i => s + i)); auto. intros; lia. }
  destruct (batch_rule F cabs ls (nclass n) c0 v0 nodup K G P Q OW OB TT SS) with (rs := rs b) (tr := tr) (h := h2) (t := t2) (h' := h3) (t' := t3) (nb := (e - s)%nat) (x := mgen (e - s) k Xb) (y := mgen (e - s) qc Yb) as (H3 & Ti3 & Th3 & A3 & _); auto; try lia.
  - apply K_fwd.
  - apply P_wf.
  - apply P_fwd.
  - apply Q_loss.
  - apply Q_bwd.
  - apply O_w.
  - apply O_b.
  - apply S_loss.
  - split; [auto|]. split; [auto|congruence].
Qed.
Lemma epoch_rule : forall ep h1 tr t1 h2 t2 h3 t3 l a, JE ep h1 t1 -> epochTrain F cabs R0 ep h1 (net_ tr) t1 (mgen N k X) (mgen N qc Y) = Ok (h2, net_ false, t2) ->
  epochStats F cabs R0 ep h2 (net_ false) t2 N = Ok (h3, t3, l, a) -> JE (S ep) h3 t3.
Proof.
  intros ep h1 tr t1 h2 t2 h3 t3 l a (D' & Tr & Ad) E1 E2.
  assert (J2 : lays h2 /\ trI t2 /\ tadj F t2 = tadj F t1).
  { unfold epochTrain in E1. cbv zeta in E1. set (ta := setOnline F t1 (f0 F) 0) in *. assert (Tra : trI ta) by exact Tr. change (mrows (mgen N k X)) with N in E1.
    match type of E1 with bind ?a _ = _ => assert (exists X' Y', truthOk (cLoss F c0) mo (mgen N qc Y') /\ (exists f, X' = (fun i => X (f i)) /\ forall r, r < N -> f r < N) /\ a = Ok (mgen N k X', mgen N qc Y')) as (X' & Y' & HX' & HF' & EP) end.
    { destruct (tadj F ta <? N)%nat; [|exists X, Y; split; [exact HY|]; split; [exists (fun i => i); auto|reflexivity]]. destruct (randPerm_perm (oShuffle F R0 ep) N) as (v & Ev & Pv). assert (Lv : length v = N) by (rewrite <- (Permutation_length Pv); apply seq_length).
      assert (In_v : forall x, In x v -> (x < N)%nat). { intros x Hx0. apply (Permutation_in x (Permutation_sym Pv)) in Hx0. apply in_seq in Hx0. lia. }
      exists (fun i => X (nth i v O)), (fun i => Y (nth i v O)). split; [apply (truth_rows F _ _ N qc N Y (fun i => nth i v O)); auto; intros i Hi; apply In_v, nth_In; lia|]. split; [exists (fun i => nth i v O); split; [reflexivity|]; intros i Hi; apply In_v, nth_In; lia|]. rewrite Ev. cbn [bind].
      rewrite !(applyRowPermutation_gen F) by (solve [auto | reflexivity]). reflexivity. }
    rewrite EP in E1. cbn [bind] in E1. destruct (netSetTrain F h1 _ true) as [[h4 n4]|] eqn:E4; [|discriminate]. cbn [bind] in E1. destruct (mode_rule F ls (nclass n) nodup K K_train _ _ _ _ _ D' E4) as (D4 & ->).
    destruct (trainOneEpoch F cabs _ h4 _ ta _ _) as [[h5 t5]|] eqn:E5; [|discriminate]. cbn [bind] in E1. destruct (epoch_batches _ _ _ _ _ _ _ _ D4 Tra Ad HX' HF' E5) as (D5 & Tr5 & A5).
    destruct (netSetTrain F h5 _ false) as [[h6 n6]|] eqn:E6; [|discriminate]. cbn [bind] in E1. destruct (mode_rule F ls (nclass n) nodup K K_train _ _ _ _ _ D5 E6) as (D6 & ->). injection E1; intros; subst. auto 10. }
  clear E1. destruct J2 as (D2 & Tr2 & A2). unfold epochStats in E2. cbv zeta in E2.
  assert (QQ : forall H' h', lays h' -> JE (S ep) h' (setHist F t2 H')).
  { intros H' h' D''. split; auto. split; [exact Tr2|]. change (tadj F (setHist F t2 H')) with (tadj F t2); lia. }
  destruct (tval F t2) as [[xv yv]|].
  - apply bind_inv in E2. destruct E2 as ([[h4 l4] a4] & E4 & E2). injection E2; intros; subst h3 t3 l a. pose proof (accuracy_lays _ _ _ _ _ _ _ _ _ D2 E4) as D4. apply QQ; auto.
  - injection E2; intros; subst h3 t3 l a. apply QQ; auto.
Qed.
Lemma vresize_len : forall (v : list M) r, Forall mwf v -> length (vresize F v r) = r /\ Forall mwf (vresize F v r).
Proof.
  intros v r H. unfold vresize. split; [rewrite app_length, firstn_length, repeat_length; lia|]. apply Forall_app. split; [|apply Forall_forall; intros x Hx0; apply repeat_spec in Hx0; subst; reflexivity].
  apply Forall_forall. intros x Hx0. rewrite Forall_forall in H. apply H. rewrite <- (firstn_skipn r v). apply in_or_app. auto.
Qed.
Definition PP (i : nat) (l : layer F) : Prop := i = 0 -> lk l = KDense k q /\ kept l.
Lemma PP_clone : forall i r l c, layClone F r l = Ok c -> PP i l -> PP i c.
Proof. intros i r l c E A Hi. destruct (A Hi) as [A1 A2]. apply clone_params in E. destruct E as (E1 & _ & _ & E2). unfold sameParams in E2. rewrite A1 in E1, E2. destruct E2 as [E2 E3]. split; [exact E1|]. unfold kept. rewrite E2, E3. exact A2. Qed.
Lemma PP_K : forall i l, K i l -> PP i l.
Proof. intros i l (_ & _ & _ & B & _ & _ & _ & A) ->. split; [rewrite B; exact HK0|auto]. Qed.
Lemma K_start : forall i a l, nth_error ls i = Some a -> hget F h0 a = Ok l -> K i (if (i =? 0)%nat then setFirst l true else l).
Proof.
  intros i b l Ea El. destruct (HL i b Ea) as (E & A & B & C). rewrite E in El. injection El; intros <-. destruct i as [|i]; cbn [Nat.eqb].
  - split; [exact A|]. split; [exact B|]. split; [exact C|]. split; [reflexivity|]. do 2 (split; [split; reflexivity|]). split; [lia|]. intros _. exists W0, B0. auto.
  - split; [exact A|]. split; [exact B|]. split; [exact C|]. split; [reflexivity|]. do 2 (split; [split; reflexivity|]). split; [|discriminate]. intros _. destruct Ht as (_ & _ & Fo & _). eapply Fo; eauto.
Qed.
Lemma O_init : forall i o, (OW i o -> OW i (init F o)) /\ (OB i o -> OB i (init F o)).
Proof. intros i o. split; intros [A B]; split; auto; apply held_init; auto. Qed.
Lemma O_start : forall i l kd, K i l -> create_optimizer (cOpt F c0) = Some kd -> (hasWeights l = true -> OW i (set_params F (newOpt F kd) (cLr F c0) (cDecay F c0) (cMom F c0))) /\ (hasBiases l = true -> OB i (set_params F (newOpt F kd) (cLr F c0) (cDecay F c0) (cMom F c0))).
Proof. intros i l kd (_ & _ & _ & _ & [A1 A2] & [B1 B2] & _) Ek. split; intro Hh; (split; [unfold hasWeights, hasBiases, msize in *; congruence | apply held_new; auto]). Qed.

Theorem fit_keeps : exists h' n' t' calls, fit F cabs R0 h0 n t0 = Ok (h', n', t', calls) /\ length (nlay n') = m /\ forall i b, nth_error (nlay n') i = Some b -> exists l, hget F h' b = Ok l /\ PP i l.
Proof.
  destruct (fit_all F PP PP_clone m R0 h0 n t0 k mo (mgen N k X) (mgen N qc Y) Ht) with (J := JE) as (h' & n' & t' & calls & h2 & Ef & _ & Al); auto; try lia.
  - intros ep h1 h2 t1 Fr (D' & Q0). split; [|exact Q0]. intros i a Ea. destruct (D' i a Ea) as (l & El & Kl). exists l. split; auto. rewrite Fr; auto. eapply nth_error_In; eauto.
  - intros ep h1 t1 t2 (zz & os & -> & Hos) (D' & Tr & Ad). split; auto. split; [|exact Ad]. destruct Tr as (T1 & T2 & T3 & T4 & T5 & T6 & T7 & (O1 & O2 & O3)). do 7 (split; [assumption|]). destruct Hos as [-> | ->]; [split; [exact O1|split; [exact O2|exact O3]]|].
    split; [|split; [|exact O3]].
    + intros j a i Ea Ei. destruct (O1 j a i Ea Ei) as (o & Eo & Ho). exists (init F o). split; [change (topts F (setOpts F (setCur F t1 zz) ?v)) with v; rewrite nth_error_map, Eo; reflexivity | apply O_init; auto].
    + intros j a i Ea Ei. destruct (O2 j a i Ea Ei) as (o & Eo & Ho). exists (init F o). split; [change (topts F (setOpts F (setCur F t1 zz) ?v)) with v; rewrite nth_error_map; change (tpw F (setOpts F (setCur F t1 zz) _)) with (tpw F t1); rewrite Eo; reflexivity | apply O_init; auto].
  - intros ep rs h1 h2 t1 xv yv l a tr (D' & Q0) Ea. split; [eapply accuracy_lays; eauto | exact Q0].
  - intros h1 t1 Es. destruct (setNet_post F _ _ _ _ _ Es) as (A1 & A2 & A3 & A4 & A5 & A6 & A7 & A8 & A9 & A10 & A11 & A12 & kd & A13 & A14).
    assert (V : tinOut F t1 = vresize F (tinOut F t0) (m + 1) /\ tgrad F t1 = vresize F (tgrad F t0) (m + 1)). { unfold setNet in Es. cbv zeta in Es. binp Es. apply Ok_inj in Es. injection Es; intros; subst. split; reflexivity. }
    destruct V as [V1 V2]. assert (Wi : Forall mwf (tinOut F t0) /\ Forall mwf (tgrad F t0)) by (destruct Ht as (_ & _ & _ & _ & _ & _ & _ & Wi & Wg & _); auto). destruct Wi as [Wi Wg].
    assert (D' : lays h1).
    { intros i a Ea. destruct (A4 a (nth_error_In _ _ Ea)) as (l & El). exists l. split; auto. destruct i as [|i].
      - destruct (A3 a) as (l0 & E0 & E1). { destruct ls; [discriminate Ea|]. exact Ea. } rewrite E1 in El. injection El; intros <-. apply (K_start 0 a l0 Ea E0).
      - apply (K_start (S i) a l Ea). unfold hget, rget in *. rewrite A2 in El; auto. intro Q0. pose proof (same_at ls nodup (S i) 0 a Ea) as Q1. destruct ls; [discriminate Ea|]. cbn in Q0, Q1. specialize (Q1 Q0). discriminate Q1. }
    split; [exact D'|]. split.
    + split; [exact A8|]. split; [exact A7|]. split; [split; [exact A10 | reflexivity]|]. destruct (vresize_len (tinOut F t0) (m + 1) Wi) as [B1 B2]. destruct (vresize_len (tgrad F t0) (m + 1) Wg) as [B3 B4].
      match goal with |- context [setOpts F ?u (map (init F) (topts F t1))] => set (tt1 := setOpts F u (map (init F) (topts F t1))) end. change (tinOut F tt1) with (tinOut F t1). change (tgrad F tt1) with (tgrad F t1). rewrite V1, V2, B1, B3. split; [apply Nat.add_1_r|]. split; [exact B2|]. split; [apply Nat.add_1_r|]. split; [exact B4|].
      assert (OS : forall a i, nth_error ls i = Some a -> forall l, hget F h1 a = Ok l -> K i l). { intros a i Ea l El. destruct (D' i a Ea) as (l' & El' & Kl). rewrite El in El'. injection El'; intros <-. auto. }
      change (topts F tt1) with (map (init F) (topts F t1)). unfold optsOk. change (topts F tt1) with (map (init F) (topts F t1)). change (tpw F tt1) with (tpw F t1). change (tpb F tt1) with (tpb F t1). rewrite A14.
      assert (CK : forall a, In a (tpw F t1) \/ In a (tpb F t1) -> create_optimizer (cOpt F c0) = Some kd). { intros a Ha. apply A13. rewrite A14. intro Q0. apply (f_equal (@length _)) in Q0. rewrite repeat_length in Q0. cbn in Q0. destruct Ha as [Ha|Ha]; [destruct (tpw F t1) | destruct (tpb F t1)]; cbn in *; try contradiction; lia. }
      set (o0 := set_params F (newOpt F kd) (cLr F c0) (cDecay F c0) (cMom F c0)) in *.
      split; [|split; [|split]].
      * intros j a i Ea Ei. exists (init F o0). assert (j < length (tpw F t1))%nat by (apply nth_error_Some; congruence). split; [rewrite nth_error_map, nth_error_repeat by lia; reflexivity|]. apply O_init. assert (Ha : In a (tpw F t1)) by (eapply nth_error_In; eauto). pose proof (CK a (or_introl Ha)) as Hkd.
        rewrite A5 in Ha. apply filter_In in Ha. destruct Ha as [_ Ha]. destruct (hget F h1 a) as [l|] eqn:El; [|discriminate]. destruct (O_start i l kd (OS a i Ei l El) Hkd) as [S1 _]. auto.
      * intros j a i Ea Ei. exists (init F o0). assert (j < length (tpb F t1))%nat by (apply nth_error_Some; congruence). split; [rewrite nth_error_map, nth_error_repeat by lia; reflexivity|]. apply O_init. assert (Ha : In a (tpb F t1)) by (eapply nth_error_In; eauto). pose proof (CK a (or_intror Ha)) as Hkd.
        rewrite A6 in Ha. apply filter_In in Ha. destruct Ha as [_ Ha]. destruct (hget F h1 a) as [l|] eqn:El; [|discriminate]. destruct (O_start i l kd (OS a i Ei l El) Hkd) as [_ S1]. auto.
      * intros a Ha. rewrite A5 in Ha. apply filter_In in Ha. apply Ha.
      * intros a Ha. rewrite A6 in Ha. apply filter_In in Ha. apply Ha.
    + change (mrows (mgen N k X)) with N. match goal with |- (0 < tadj F (setOpts F (setAdj F ?u ?v) ?w))%nat => change (0 < v)%nat end. destruct (Nat.ltb_spec N (cBatch F c0)); [exact HN|]. destruct (Nat.eqb_spec (cBatch F c0) 0); cbn [orb]; [exact HN|lia].
  - intros ep h1 tr t1 h2 t2 h3 t3 l a Je E1 E2. change (mrows (mgen N k X)) with N in E2. eapply epoch_rule; eauto.
  - intros ep h1 t1 (D' & _). split; [reflexivity|]. intros i b Ea. destruct (D' i b Ea) as (l & El & Kl). exists l. split; auto. apply PP_K; auto.
  - destruct Al as [Al1 Al2]. exists h', n', t', calls. auto 10.
Qed.
End Fit.



(** * the statement *)
Theorem unit_kept : forall (R0 : fitRnd F) h n (t : trainer F) k mo N q (X W B : nat -> nat -> R) y a b0 b1 rest l0 l1,
  trainable h n t k mo -> allPassive h n -> allSized F h n -> ttrain F t = Some (@mgen R N k X, y) -> 0 < N -> cReg F (tc F t) = None ->
  (forall kd, create_optimizer (cOpt F (tc F t)) = Some kd -> rests kd) ->
  nlay n = b0 :: b1 :: rest -> hget F h b0 = Ok l0 -> lk l0 = KDense k q -> lw l0 = @mgen R k q W -> lb l0 = @mgen R 1 q B ->
  hget F h b1 = Ok l1 -> lk l1 = KAct (Some a) -> u < q -> flatUnit jk a k N X (fun p => W p u) (B 0 u) ->
  exists h' n' t' calls b l W' B', fit F cabs R0 h n t = Ok (h', n', t', calls) /\ nth_error (nlay n') 0 = Some b /\ hget F h' b = Ok l /\
  lk l = KDense k q /\ lw l = @mgen R k q W' /\ lb l = @mgen R 1 q B' /\ (forall p, p < k -> W' p u = W p u) /\ B' 0 u = B 0 u.
Proof.
  intros R0 h n t k mo N q X W B y a b0 b1 rest l0 l1 Ht Pl Sz Hx HN Hreg Hrest Hls H0 K0 EW EB H1 K1 Hu Fl. assert (Lm : 2 <= length (nlay n)) by (rewrite Hls; cbn; lia).
  pose proof Ht as (Nd & St & Fo & _ & _ & _ & _ & _ & _ & (d & Ed & Hd) & _). rewrite Hx in Ed. injection Ed; intros <-. destruct (data_gen F _ _ _ _ _ Hd) as (N' & qc & X' & Y & Ex & -> & HY).
  assert (N' = N) as -> by (pose proof (f_equal (@mrows _) Ex) as Q1; cbn in Q1; auto).
  destruct (stack_dims F _ _ _ _ St) as (D & D0 & Dm & Dims).
  set (L := fun i => match nth_error (nlay n) i with Some a => match hget F h a with Ok l => l | Err _ => l0 end | None => l0 end).
  assert (HL : forall i a, nth_error (nlay n) i = Some a -> hget F h a = Ok (L i) /\ fits (L i) (D i) (D (S i)) /\ passive (lk (L i)) /\ sized F (L i)).
  { intros i c Ea. destruct (Dims i c Ea) as (l & El & Fl'). unfold L. rewrite Ea, El. split; auto. split; auto. pose proof (nth_error_In _ _ Ea) as Ia. split; [eapply Pl; eauto | eapply Sz; eauto]. }
  assert (L0 : L 0 = l0) by (unfold L; rewrite Hls; cbn [nth_error]; rewrite H0; reflexivity). assert (L1 : L 1 = l1) by (unfold L; rewrite Hls; cbn [nth_error]; rewrite H1; reflexivity).
  assert (D1 : D 1 = q). { destruct (HL 0 b0) as (_ & Q1 & _); [rewrite Hls; reflexivity|]. rewrite L0 in Q1. pose proof Q1 as (_ & _ & _ & _ & _ & Q2). rewrite K0 in Q2. destruct Q2 as [(_ & _ & Q2) _]. rewrite EW in Q2. symmetry. exact Q2. }
  destruct (fit_keeps R0 h n t k mo N qc q X Y D L W B a) as (h' & n' & t' & calls & Ef & Ln & Al); rewrite ?L0, ?L1; auto.
  destruct (nth_error (nlay n') 0) as [b|] eqn:Eb; [|apply nth_error_None in Eb; lia]. destruct (Al 0 b Eb) as (l & El & PPl). destruct (PPl eq_refl) as (Q1 & W' & B' & Q2 & Q3 & Q4 & Q5).
  exists h', n', t', calls, b, l, W', B'. auto 10.
Qed.
End Any.

(* Twin1.v - two units with the same parameters keep having the same parameters *)
From Coq Require Import String List Arith Bool Lia ZArith Permutation.
From Verif Require Import Base Scalar Mat SpecMat MatFacts MatLoops MatProofs MatProps Act Loss Optim SpecOpt OptProofs Regul LayMat LayImg LayRnn LayProofs1 LayProofs2 LayProofs3 Layer Net NetTrain SpecNet SpecTrain NetRow NetProofs1 NetProofs2
  TrainProofs1 TrainProofs2 TrainProofs3 TrainProofs4 TrainProofs5 SpecFit FitLay1 FitLay2 FitLay3 FitNet1 FitNet2 FitNet3 FitRun FitKeep NetRule1 SpecResume SpecFixed SpecZero Zero1 SpecTwin Order1.
Import ListNotations.
Local Open Scope nat_scope.

(* cells related by S are equal *)
Definition rel := nat -> nat -> nat -> nat -> Prop.
Definition sym {A} (S : rel) (m : mat A) : Prop := forall r c Z, m = mgen r c Z -> forall i j i' j', S i j i' j' -> i < r -> j < c -> i' < r -> j' < c -> Z i j = Z i' j'.
Lemma sym_intro : forall A (S : rel) r c (Z : nat -> nat -> A), (forall i j i' j', S i j i' j' -> i < r -> j < c -> i' < r -> j' < c -> Z i j = Z i' j') -> sym S (mgen r c Z).
Proof.
  intros A S r c Z H r' c' Z' E i j i' j' Hs H1 H2 H3 H4. pose proof (f_equal (@mrows _) E) as E1. pose proof (f_equal (@mcols _) E) as E2. cbn in E1, E2. subst r' c'.
  rewrite <- (mgen_inj _ _ _ _ _ i j E H1 H2), <- (mgen_inj _ _ _ _ _ i' j' E H3 H4). auto.
Qed.
Lemma sym_use : forall A (S : rel) r c (Z : nat -> nat -> A), sym S (mgen r c Z) -> forall i j i' j', S i j i' j' -> i < r -> j < c -> i' < r -> j' < c -> Z i j = Z i' j'.
Proof. intros A S r c Z H. exact (H r c Z eq_refl). Qed.
Definition colR (u v : nat) : rel := fun i j i' j' => i = i' /\ j = u /\ j' = v.
Definition rowR (u v : nat) : rel := fun i j i' j' => j = j' /\ i = u /\ i' = v.
Definition noR : rel := fun _ _ _ _ => False.
Lemma sym_no : forall A (m : mat A), sym noR m. Proof. intros A m r c Z _ i j i' j' []. Qed.
Lemma cols_sym : forall (F : FOps) u v (m : mat F), mwf m -> u < mcols m -> v < mcols m -> (sameCols u v m <-> sym (colR u v) m).
Proof.
  intros F u v m W Hu Hv. destruct (mwf_is_gen F m W) as [Z E]. rewrite E in *. cbn [mrows mcols mgen] in *. unfold sameCols. cbn [mrows mgen]. split.
  - intros H. apply sym_intro. intros i j i' j' (<- & -> & ->) Hi _ _ _. specialize (H i Hi). rewrite !mget2_gen in H by auto. congruence.
  - intros H i Hi. rewrite !mget2_gen by auto. f_equal. eapply (sym_use _ _ _ _ _ H); auto. repeat split.
Qed.
Lemma rows_sym : forall (F : FOps) u v (m : mat F), mwf m -> u < mrows m -> v < mrows m -> (sameRows u v m <-> sym (rowR u v) m).
Proof.
  intros F u v m W Hu Hv. destruct (mwf_is_gen F m W) as [Z E]. rewrite E in *. cbn [mrows mcols mgen] in *. unfold sameRows. cbn [mcols mgen]. split.
  - intros H. apply sym_intro. intros i j i' j' (<- & -> & ->) _ Hj _ _. specialize (H j Hj). rewrite !mget2_gen in H by auto. congruence.
  - intros H i Hi. rewrite !mget2_gen by auto. f_equal. eapply (sym_use _ _ _ _ _ H); auto. repeat split.
Qed.

Section Any.
Variable F : FOps.
Notation M := (mat F).
Notation cabs := (absFloat F).
Lemma fsum_same : forall n (f f' : nat -> F), (forall i, i < n -> f i = f' i) -> fsum F n f = fsum F n f'.
Proof. exact (Order1.fsum_ext F). Qed.

(* a regulariser and an optimiser treat equal coordinates alike *)
Lemma reg_sym : forall (S : rel) rg r c (W G : nat -> nat -> F) g', sym S (mgen r c W) -> sym S (mgen r c G) -> reg_apply F rg (mgen r c W) (mgen r c G) = Ok g' -> sym S g'.
Proof.
  intros S rg r c W G g' HW HG E. pose proof (sym_use _ _ _ _ _ HW) as UW. pose proof (sym_use _ _ _ _ _ HG) as UG.
  assert (X : forall R', g' = mgen r c R' -> (forall i j i' j', W i j = W i' j' -> G i j = G i' j' -> R' i j = R' i' j') -> sym S g').
  { intros R' -> H. apply sym_intro. intros. apply H; auto. }
  unfold reg_apply, msign, mscale, mtanh, mdivS in E. destruct (Regul.rkind F rg);
    rewrite ?clamp_gen, ?(@mapLoop_gen F) in E; cbn [bind] in E; rewrite ?(@mapLoop_gen F) in E; cbn [bind] in E; rewrite ?(@mapLoop_gen F), ?maddM_gen in E; cbn [bind] in E; rewrite ?(@mapLoop_gen F), ?maddM_gen in E; cbn [bind] in E; rewrite ?maddM_gen in E;
    try (injection E; intros <-; (eapply X; [reflexivity|]; intros i j i' j' E1 E2; cbv beta; rewrite ?E1, ?E2; reflexivity)).
  unfold mnorm in E. assert (exists s, msquaredNorm F (mgen r c G) = Ok s) as [s Es] by (rewrite mgen_flat, msquaredNorm_flat; eauto). rewrite Es in E. cbn [bind] in E.
  destruct (flt F (Regul.rparam F rg) (flm F Lsqrt s)); [|injection E; intros <-; eapply X; [reflexivity|]; auto]. rewrite (@mapLoop_gen F) in E. cbn [bind] in E. rewrite (@mapLoop_gen F) in E. injection E; intros <-. eapply X; [reflexivity|]. intros i j i' j' E1 E2. cbv beta. rewrite E2. reflexivity.
Qed.
Definition held (S : rel) (r c : nat) (o : opt F) : Prop := wfOpt F o /\ (fresh F o \/ exists st, stored F r c o st /\ forall i j i' j', S i j i' j' -> i < r -> j < c -> i' < r -> j' < c -> st i j = st i' j').
Lemma held_step : forall S r c o (W G : nat -> nat -> F) o' w', held S r c o -> sym S (mgen r c W) -> sym S (mgen r c G) -> optimize F cabs o (mgen r c W) (mgen r c G) = Ok (o', w') ->
  held S r c o' /\ sym S w' /\ shp r c w'.
Proof.
  intros S r c o W G o' w' (Wo & H) HW HG E. pose proof (sym_use _ _ _ _ _ HW) as UW. pose proof (sym_use _ _ _ _ _ HG) as UG.
  assert (exists st, loaded F r c o G st /\ forall i j i' j', S i j i' j' -> i < r -> j < c -> i' < r -> j' < c -> st i j = st i' j') as (st & L & Z).
  { destruct H as [H|(st & H & Z)]; [|exists st; split; auto; apply stored_loaded; auto]. eexists. split; [apply fresh_loaded; exact H|]. intros. cbv beta. f_equal. auto. }
  destruct (optimize_step F r c o st W G L) as (o1 & E1 & S1 & K1 & _). cbv zeta in E1, S1. rewrite E1 in E. injection E; intros <- <-.
  split; [|split; [|apply gen_shp]].
  - split; [eapply optimize_wf; eauto|]. right. eexists. split; [exact S1|]. intros i j i' j' Hs H1 H2 H3 H4. cbv beta. rewrite (Z i j i' j'), (UW i j i' j'), (UG i j i' j'); auto.
  - apply sym_intro. intros i j i' j' Hs H1 H2 H3 H4. cbv beta. rewrite (Z i j i' j'), (UW i j i' j'), (UG i j i' j'); auto.
Qed.
Lemma held_init : forall S r c o, held S r c o -> held S r c (init F o).
Proof. intros S r c o (Wo & _). destruct (opt_init F r c o Wo) as [A _]. split; auto. left. apply fresh_init; auto. Qed.
Lemma held_new : forall S r c k lr dec mom, held S r c (set_params F (newOpt F k) lr dec mom).
Proof.
  intros S r c k lr dec mom. unfold set_params. apply held_init. split; [exact (wf_new F k)|]. left. pose proof (wf_new F k) as (A & B & C). split; [exact A|]. split; [exact B|]. split; [exact C|]. cbn [okind newOpt s_m s_v s_p]. destruct k; auto.
Qed.

Section Fit.
Variables (u v J : nat) (R0 : fitRnd F) (h0 : heap F) (n : net) (t0 : trainer F) (k mo N qc q k0 p0 ka qa kb pb : nat) (X Y : nat -> nat -> F) (D : nat -> nat) (L : nat -> layer F) (aF : actKind).
Notation ls := (nlay n). Notation m := (length ls). Notation c0 := (tc F t0). Notation v0 := (tval F t0).
Hypothesis Ht : trainable h0 n t0 k mo.
Hypothesis Lm : J + 2 < m.
Hypothesis HN : 0 < N.
Hypothesis Hx : ttrain F t0 = Some (mgen N k X, mgen N qc Y).
Hypothesis HY : truthOk (cLoss F c0) mo (mgen N qc Y).
Hypothesis D0 : D 0 = k.
Hypothesis Dm : D m = mo.
Hypothesis DJ : D (S J) = q /\ D (S (S J)) = q /\ D J = k0 /\ D (S (S (S J))) = p0.
Hypothesis Hu : u < q.
Hypothesis Hv : v < q.
Hypothesis HL : forall i a, nth_error ls i = Some a -> hget F h0 a = Ok (L i) /\ fits (L i) (D i) (D (S i)) /\ passive (lk (L i)) /\ sized F (L i).
Hypothesis HK0 : lk (L J) = KDense ka qa.
Hypothesis HK1 : lk (L (S J)) = KAct (Some aF).
Hypothesis HK2 : lk (L (S (S J))) = KDense kb pb.
Definition SW (i : nat) : rel := if i =? J then colR u v else if i =? S (S J) then rowR u v else noR.
Definition SB (i : nat) : rel := if i =? J then colR u v else noR.
Hypothesis HS : forall i, sym (SW i) (lw (L i)) /\ sym (SB i) (lb (L i)).
Definition mid (i : nat) : Prop := i = S J \/ i = S (S J).
Definition K (i : nat) (l : layer F) : Prop := fits l (D i) (D (S i)) /\ passive (lk l) /\ sized F l /\ lk l = lk (L i) /\ (mrows (lw l) = mrows (lw (L i)) /\ mcols (lw l) = mcols (lw (L i))) /\ (mrows (lb l) = mrows (lb (L i)) /\ mcols (lb l) = mcols (lb (L i))) /\
  (0 < i -> lfirst l = false) /\ sym (SW i) (lw l) /\ sym (SB i) (lb l).
Definition G (i : nat) (l : layer F) : Prop := FitLay1.graded F l /\ sym (SW i) (lgw l) /\ sym (SB i) (lgb l).
Definition OW (i : nat) (o : opt F) : Prop := hasWeights (L i) = true /\ held (SW i) (mrows (lw (L i))) (mcols (lw (L i))) o.
Definition OB (i : nat) (o : opt F) : Prop := hasBiases (L i) = true /\ held (SB i) (mrows (lb (L i))) (mcols (lb (L i))) o.
Definition P (nb i : nat) (x : M) : Prop := shp nb (D i) x /\ (mid i -> sym (colR u v) x).
Definition Q (nb i : nat) (x g : M) : Prop := shp nb (D i) g /\ (mid i -> sym (colR u v) g).
Definition TT (nb : nat) (y : M) : Prop := mwf y /\ mrows y = nb /\ truthOk (cLoss F c0) (D m) y.
Definition SS (s : F) : Prop := True.
Lemma SW_J : SW J = colR u v. Proof. unfold SW. rewrite Nat.eqb_refl. reflexivity. Qed.
Lemma SB_J : SB J = colR u v. Proof. unfold SB. rewrite Nat.eqb_refl. reflexivity. Qed.
Lemma SW_2 : SW (S (S J)) = rowR u v. Proof. unfold SW. rewrite Nat.eqb_refl, (proj2 (Nat.eqb_neq _ _)) by (clear; lia). reflexivity. Qed.
Lemma SB_n : forall i, i <> J -> SB i = noR. Proof. intros i H. unfold SB. rewrite (proj2 (Nat.eqb_neq _ _)) by assumption. reflexivity. Qed.
Lemma SW_n : forall i, i <> J -> i <> S (S J) -> SW i = noR. Proof. intros i H H'. unfold SW. rewrite !(proj2 (Nat.eqb_neq _ _)) by assumption. reflexivity. Qed.
Lemma K_train : forall i l b, K i l -> K i (setTrain l b). Proof. intros i l b H. exact H. Qed.
Lemma K_fwd : forall i r l x out l' o, K i l -> layForward F r l x out = Ok (l', o) -> K i l'.
Proof. intros i r l x out l' o H E. pose proof H as (A & B & C & _). rewrite (passive_fwd F _ _ _ _ _ _ _ _ A B C E). exact H. Qed.
Lemma P_wf : forall nb i x, P nb i x -> mwf x. Proof. intros nb i x H. apply H. Qed.
Lemma dense_shape : forall i (l : layer F) a b a' b', lk l = KDense a' b' -> fits l (D i) (D (S i)) -> D i = a -> D (S i) = b -> exists W B, lw l = mgen a b W /\ lb l = mgen 1 b B.
Proof. intros i l a b a' b' E (_ & _ & _ & _ & _ & A) E1 E2. rewrite E in A. destruct A as [A B]. rewrite E1, E2 in *. destruct (shp_gen _ _ _ _ A) as [W ->]. destruct (shp_gen _ _ _ _ B) as [bb ->]. eauto. Qed.
Lemma P_fwd : forall nb i r l x out l' o, (i < m)%nat -> K i l -> P nb i x -> mwf out -> layForward F r l x out = Ok (l', o) -> P nb (S i) o.
Proof.
  intros nb i r l x out l' o Hi Kl (Px & P1) Ho E. pose proof Kl as (A & _ & _ & Ek & _ & _ & _ & S1 & S2). destruct (fwd_fits F r l nb _ _ x out A Px Ho) as (l2 & y & E2 & S3 & _). pose proof E as E'. rewrite E2 in E'. injection E'; intros; subst.
  split; [exact S3|]. destruct DJ as (J1 & J2 & J3 & J4). destruct (shp_gen _ _ _ _ Px) as [XX ->]. intros [Q1|Q1]; injection Q1; intros ->.
  - rewrite HK0 in Ek. rewrite J3 in *. destruct (dense_shape J l k0 q _ _ Ek) as (W & B & EW & EB); auto; [rewrite J3; auto|]. rewrite SW_J, EW in S1. rewrite SB_J, EB in S2.
    unfold layForward in E. rewrite Ek, EW, EB, fwdDense_gen in E. cbn [bind] in E. injection E; intros <- _. apply sym_intro. intros s j s' j' (<- & -> & ->) Hs _ _ _. f_equal; [apply fsum_same; intros p Hp; f_equal; apply (sym_use _ _ _ _ _ S1); auto; repeat split | apply (sym_use _ _ _ _ _ S2); auto; repeat split].
  - rewrite HK1 in Ek. rewrite J1 in *. unfold layForward in E. rewrite Ek, fwdAct_gen in E by auto. cbn [bind] in E. injection E; intros <- _. specialize (P1 (or_introl eq_refl)). apply sym_intro. intros s j s' j' H H1 H2 H3 H4. f_equal. apply (sym_use _ _ _ _ _ P1); auto.
Qed.
Lemma Q_loss : forall nb b o y g0 g, bon F b = false -> P nb m o -> TT nb y -> mwf g0 -> compute_gradient F (cLoss F c0) b o y g0 = Ok g -> mwf g /\ Q nb m o g.
Proof.
  intros nb b o y g0 g Hb (Po & _) (Y1 & Y2 & Y3) Wg E. destruct (gradient_ok F (cLoss F c0) b nb (D m) o y g0 Hb Po Y1 Y2 Y3 Wg) as (g' & E' & S'). rewrite E' in E. injection E; intros; subst. split; [apply S'|]. split; [exact S'|]. intros [?|?]; lia.
Qed.
Lemma S_loss : forall nb b o y out ml s, bon F b = false -> P nb m o -> TT nb y -> mwf out -> compute F cabs (cLoss F c0) b o y out = Ok ml -> mmean F ml = Ok s -> SS s /\ mwf ml.
Proof.
  intros nb b o y out ml s Hb (Po & _) (Y1 & Y2 & Y3) Wg E _. destruct (compute_ok F (cLoss F c0) b nb (D m) o y out Hb Po Y1 Y2 Y3 Wg) as (r1 & c1 & l1 & E' & S'). pose proof (eq_trans (eq_sym E) E') as EE. injection EE; intros; subst. split; [exact I|apply S'].
Qed.
Lemma Q_bwd : forall nb i l x o g gin l' gi, (i < m)%nat -> K i l -> P nb i x -> P nb (S i) o -> Fwd F K i x o -> Q nb (S i) o g -> mwf gin -> layBackward F l x g gin = Ok (l', gi) ->
  K i l' /\ G i l' /\ mwf gi /\ ((0 < i)%nat -> Q nb i x gi).
Proof.
  intros nb i l x o g gin l' gi Hi Kl (Px & P1) (Po & _) _ (Qg & Q1) Hg E. pose proof Kl as (A1 & A2 & A3 & A4 & A5 & A6 & A7 & A8 & A9).
  destruct (bwd_fits F l nb (D i) (D (S i)) x g gin A1 (passive_ready F _ _ _ _ A1 A2 A3) Px Qg Hg) as (l2 & g2 & E2 & (W2 & Z2) & F2 & (K1 & K2 & K3 & _) & G2).
  pose proof E as E'. rewrite E in E2. injection E2; intros <- <-. destruct (passive_bwd F _ _ _ _ _ _ A2 E) as [B1 B2].
  split; [split; auto; split; [rewrite K1; auto|]; split; [unfold sized in *; rewrite K1, B1, B2; auto|]; rewrite K1, K3, B1, B2; do 5 (split; auto)|].
  destruct DJ as (J1 & J2 & J3 & J4).
  destruct (Nat.eq_dec i J) as [->|NJ]; [|destruct (Nat.eq_dec i (S J)) as [->|NJ1]; [|destruct (Nat.eq_dec i (S (S J))) as [->|NJ2]]].
  - (* the Dense layer that computes the units *)
    rewrite HK0 in A4. rewrite J3, J1 in *. destruct (dense_shape J l k0 q _ _ A4) as (W & B & EW & EB); auto. { rewrite J3, J1; auto. } destruct (shp_gen _ _ _ _ Px) as [XX ->]. destruct (shp_gen _ _ _ _ Qg) as [GG ->]. specialize (Q1 (or_introl eq_refl)). pose proof (sym_use _ _ _ _ _ Q1) as UG.
    unfold layBackward in E'. rewrite A4, EW, (bwdDense_gen F) in E'. cbn [bind] in E'. injection E'; intros Egi El. split; [|split; [exact W2|intro Hp; split; [rewrite ?J3; apply Z2; auto|intros [?|?]; lia]]].
    split; [exact G2|]. rewrite SW_J, SB_J, <- El. cbn [lgw lgb setGWB]. split; apply sym_intro; intros s j s' j' (<- & -> & ->) Hs _ _ _; f_equal; apply fsum_same; intros r Hr; [f_equal|]; apply UG; auto; repeat split.
  - (* the activation *)
    rewrite HK1 in A4. rewrite J1, J2 in *. destruct (shp_gen _ _ _ _ Px) as [XX ->]. destruct (shp_gen _ _ _ _ Qg) as [GG ->]. specialize (Q1 (or_intror eq_refl)). specialize (P1 (or_introl eq_refl)).
    split; [split; [exact G2|]; rewrite SW_n, SB_n by lia; split; apply sym_no|]. split; [exact W2|]. intro Hp. split; [rewrite J1; apply Z2; auto|]. intros _.
    unfold layBackward in E'. rewrite A4, (bwdAct_gen F), (A7 Hp) in E' by auto. cbn [bind] in E'. injection E'; intros <- _. apply sym_intro. intros s j s' j' H H1 H2 H3 H4. f_equal; [f_equal; apply (sym_use _ _ _ _ _ P1); auto | apply (sym_use _ _ _ _ _ Q1); auto].
  - (* the Dense layer that reads the units *)
    rewrite HK2 in A4. rewrite J2, J4 in *. destruct (dense_shape (S (S J)) l q p0 _ _ A4) as (W & B & EW & EB); auto. { rewrite J2, J4; auto. } destruct (shp_gen _ _ _ _ Px) as [XX ->]. destruct (shp_gen _ _ _ _ Qg) as [GG ->]. specialize (P1 (or_intror eq_refl)). pose proof (sym_use _ _ _ _ _ P1) as UX. rewrite SW_2, EW in A8. pose proof (sym_use _ _ _ _ _ A8) as UW.
    unfold layBackward in E'. rewrite A4, EW, (bwdDense_gen F), (A7 ltac:(lia)) in E'. cbn [bind] in E'. injection E'; intros Egi El. split; [|split; [exact W2|intro Hp; split; [rewrite J2; apply Z2; auto|]]].
    + split; [exact G2|]. rewrite SW_2, SB_n by lia. rewrite <- El. cbn [lgw lgb setGWB]. split; [|apply sym_no]. apply sym_intro. intros s j s' j' (<- & -> & ->) Hs Hj _ _. f_equal. apply fsum_same. intros r Hr. f_equal. apply UX; auto. repeat split.
    + intros _. rewrite <- Egi. apply sym_intro. intros s j s' j' (<- & -> & ->) Hs _ _ _. apply fsum_same. intros r Hr. f_equal. apply UW; auto. repeat split.
  - (* any other layer *)
    split; [split; [exact G2|]; rewrite SW_n, SB_n by lia; split; apply sym_no|]. split; [exact W2|]. intro Hp. split; [apply Z2; auto|]. intros [?|?]; lia.
Qed.
Lemma O_w : forall i l o g o' w, K i l -> G i l -> OW i o -> (match cReg F c0 with Some r => reg_apply F r (lw l) (lgw l) | None => Ok (lgw l) end) = Ok g -> optimize F cabs o (lw l) g = Ok (o', w) ->
  K i (setP l w g (lb l) (lgb l)) /\ G i (setP l w g (lb l) (lgb l)) /\ OW i o'.
Proof.
  intros i l o g o' w Kl [[G1 G2] [G3 G4]] [Hw Ho] Eg Eo. pose proof Kl as (A & B & C & E1 & [E2 E3] & E4 & A7 & A8 & A9). assert (Hl : hasWeights l = true) by (unfold hasWeights, msize in *; rewrite E2, E3; auto).
  pose proof (shp_hw F l _ _ A Hl) as Sw. specialize (G1 Hl). rewrite <- E2, <- E3 in Ho. destruct (shp_gen _ _ _ _ Sw) as [W EW]. 
  assert (Sg : shp (mrows (lw l)) (mcols (lw l)) g /\ sym (SW i) g).
  { destruct (cReg F c0) as [rg|]; [|injection Eg; intros <-; auto]. destruct (reg_ok F rg _ _ _ _ Sw G1) as (g' & E & S'). rewrite E in Eg. injection Eg; intros <-. split; [exact S'|]. destruct (shp_gen _ _ _ _ G1) as [GG EG].
    apply (reg_sym (SW i) rg (mrows (lw l)) (mcols (lw l)) W GG); [rewrite <- EW; exact A8|rewrite <- EG; exact G3|rewrite <- EW, <- EG; exact E]. }
  destruct Sg as [Sg Yg]. destruct (shp_gen _ _ _ _ Sg) as [GG EG]. pose proof Eo as Eo'. rewrite EW, EG in Eo'. change (mrows (mgen ?a ?b W)) with a in Eo'. change (mcols (mgen ?a ?b W)) with b in Eo'.
  assert (Yw : sym (SW i) (mgen (mrows (lw l)) (mcols (lw l)) W)) by (rewrite <- EW; exact A8). assert (Yg' : sym (SW i) (mgen (mrows (lw l)) (mcols (lw l)) GG)) by (rewrite <- EG; exact Yg).
  destruct (held_step (SW i) (mrows (lw l)) (mcols (lw l)) o W GG o' w Ho Yw Yg' Eo') as (Ho' & Yw' & Sw'). pose proof Sw' as (_ & R1 & R2).
  split; [|split; [|split; [auto|rewrite <- E2, <- E3; exact Ho']]].
  - split; [apply (fits_weights F); auto|]. split; [exact B|]. split. { revert C. unfold sized. cbn [lk lw lb setP]. unfold msize. rewrite R1, R2. destruct (lk l); auto. } split; [exact E1|]. cbn [lw lb lfirst setP]. rewrite R1, R2. split; [split; [exact E2|exact E3]|]. split; [exact E4|]. split; [exact A7|]. split; [exact Yw'|exact A9].
  - split; [split; [|exact G2]|split; [exact Yg|exact G4]]. intros _. cbn [lw lgw setP]. rewrite R1, R2. exact Sg.
Qed.
Lemma O_b : forall i l o g o' b, K i l -> G i l -> OB i o -> (match cReg F c0 with Some r => reg_apply F r (lb l) (lgb l) | None => Ok (lgb l) end) = Ok g -> optimize F cabs o (lb l) g = Ok (o', b) ->
  K i (setP l (lw l) (lgw l) b g) /\ G i (setP l (lw l) (lgw l) b g) /\ OB i o'.
Proof.
  intros i l o g o' w Kl [[G1 G2] [G3 G4]] [Hw Ho] Eg Eo. pose proof Kl as (A & B & C & E1 & E4 & [E2 E3] & A7 & A8 & A9). assert (Hl : hasBiases l = true) by (unfold hasBiases, msize in *; rewrite E2, E3; auto).
  pose proof (shp_hb F l _ _ A Hl) as Sw. specialize (G2 Hl). rewrite <- E2, <- E3 in Ho. destruct (shp_gen _ _ _ _ Sw) as [W EW]. 
  assert (Sg : shp (mrows (lb l)) (mcols (lb l)) g /\ sym (SB i) g).
  { destruct (cReg F c0) as [rg|]; [|injection Eg; intros <-; auto]. destruct (reg_ok F rg _ _ _ _ Sw G2) as (g' & E & S'). rewrite E in Eg. injection Eg; intros <-. split; [exact S'|]. destruct (shp_gen _ _ _ _ G2) as [GG EG].
    apply (reg_sym (SB i) rg (mrows (lb l)) (mcols (lb l)) W GG); [rewrite <- EW; exact A9|rewrite <- EG; exact G4|rewrite <- EW, <- EG; exact E]. }
  destruct Sg as [Sg Yg]. destruct (shp_gen _ _ _ _ Sg) as [GG EG]. pose proof Eo as Eo'. rewrite EW, EG in Eo'. change (mrows (mgen ?a ?b W)) with a in Eo'. change (mcols (mgen ?a ?b W)) with b in Eo'.
  assert (Yw : sym (SB i) (mgen (mrows (lb l)) (mcols (lb l)) W)) by (rewrite <- EW; exact A9). assert (Yg' : sym (SB i) (mgen (mrows (lb l)) (mcols (lb l)) GG)) by (rewrite <- EG; exact Yg).
  destruct (held_step (SB i) (mrows (lb l)) (mcols (lb l)) o W GG o' w Ho Yw Yg' Eo') as (Ho' & Yw' & Sw'). pose proof Sw' as (_ & R1 & R2).
  split; [|split; [|split; [auto|rewrite <- E2, <- E3; exact Ho']]].
  - split; [apply (fits_biases F); auto|]. split; [exact B|]. split. { revert C. unfold sized. cbn [lk lw lb setP]. unfold msize. rewrite ?R1, ?R2. destruct (lk l); auto. } split; [exact E1|]. cbn [lw lb lfirst setP]. rewrite R1, R2. split; [exact E4|]. split; [split; [exact E2|exact E3]|]. split; [exact A7|]. split; [exact A8|exact Yw'].
  - split; [split; [exact G1|]|split; [exact G3|exact Yg]]. intros _. cbn [lb lgb setP]. rewrite R1, R2. exact Sg.
Qed.
Notation lays := (lays F ls K). Notation trI := (trI F ls c0 v0 OW OB). Notation net_ tr := (mkNet ls (nclass n) tr).
Lemma nodup : NoDup ls. Proof. exact (proj1 Ht). Qed.
Definition P0 (nb i : nat) (x : M) : Prop := False.
Lemma P0_fwd : forall nb i r l x out l' o, (i < m)%nat -> K i l -> P0 nb i x -> mwf out -> layForward F r l x out = Ok (l', o) -> P0 nb (S i) o.
Proof. intros nb i r l x out l' o _ _ []. Qed.
Lemma accuracy_lays : forall rs h tr (t : trainer F) x y h' l a, lays h -> lossAccuracy F cabs rs h (net_ tr) t x y = Ok (h', l, a) -> lays h'.
Proof.
  intros rs h tr t x y h' l a H E. pose proof nodup as Nd. unfold lossAccuracy in E. cbv zeta in E. destruct ((_ =? 0)%nat || _); [injection E; intros; subst; auto|]. destruct (cValBatch F (tc F t) =? 0)%nat; [discriminate|].
  apply bind_inv in E. destruct E as ([[[[h1 o1] m1] l1] g1] & E1 & E2). injection E2; intros; subst. apply (forN_postI _ (fun _ '(h, _, _, _, _) => lays h)) in E1; auto.
  intros i [[[[h2 o2] m2] l2] g2] [[[[h3 o3] m3] l3] g3] Hi H2 E3. binp E3. injection E3; intros; subst. match goal with H : predict _ _ _ _ _ _ = _ |- _ => exact (predict_lays F ls (nclass n) Nd K P0 K_fwd P0_fwd _ _ _ _ _ _ _ H2 H) end.
Qed.
Definition JE (ep : nat) (h : heap F) (t : trainer F) : Prop := lays h /\ trI t /\ (0 < tadj F t)%nat.
Lemma epoch_batches : forall rs h tr t X' Y' h' t', lays h -> trI t -> (0 < tadj F t)%nat -> truthOk (cLoss F c0) mo (mgen N qc Y') ->
  trainOneEpoch F cabs rs h (net_ tr) t (mgen N k X') (mgen N qc Y') = Ok (h', t') -> lays h' /\ trI t' /\ tadj F t' = tadj F t.
Proof.
  intros rs h tr t X' Y' h' t' H Ti Had HY' E. unfold trainOneEpoch in E. cbv zeta in E. change (mrows (mgen N k X')) with N in E. rewrite (proj2 (Nat.eqb_neq N 0)) in E by lia. set (adj := tadj F t) in *. rewrite (proj2 (Nat.eqb_neq adj 0)) in E by lia.
  apply (forN_postI _ (fun b '(h, t') => lays h /\ trI t' /\ tadj F t' = adj)) in E; auto.
  intros b [h2 t2] [h3 t3] Hi (H2 & Ti2 & A2) E3. pose proof (ceil_lt N adj b Had Hi) as Lb. set (s := (b * adj)%nat) in *. set (e := Nat.min (s + adj) N) in *. assert (He : (s < e <= N)%nat) by (unfold e; lia).
  rewrite !(viewRow_gen F) in E3 by lia. cbn [bind] in E3.
  set (Xb := fun i j => X' (s + i)%nat j) in *. set (Yb := fun i j => Y' (s + i)%nat j) in *.
  assert (Px : P (e - s) 0 (mgen (e - s) k Xb)) by (split; [rewrite D0; apply gen_shp|intros [?|?]; lia]).
  assert (Ty : TT (e - s) (mgen (e - s) qc Yb)). { split; [apply mwf_gen|]. split; [reflexivity|]. rewrite Dm. apply (truth_rows F _ _ N qc (e - s) Y' (fun i => s + i)); auto. intros; lia. }
  destruct (batch_rule F cabs ls (nclass n) c0 v0 nodup K G P Q OW OB TT SS) with (rs := rs b) (tr := tr) (h := h2) (t := t2) (h' := h3) (t' := t3) (nb := (e - s)%nat) (x := mgen (e - s) k Xb) (y := mgen (e - s) qc Yb) as (H3 & Ti3 & Th3 & A3 & _); auto; try lia.
  - apply K_fwd.
  - apply P_wf.
  - apply P_fwd.
  - apply Q_loss.
  - apply Q_bwd.
  - apply O_w.
  - apply O_b.
  - apply S_loss.
  - split; [auto|]. split; [auto|congruence].
Qed.
Lemma epoch_rule : forall ep h1 tr t1 h2 t2 h3 t3 l a, JE ep h1 t1 -> epochTrain F cabs R0 ep h1 (net_ tr) t1 (mgen N k X) (mgen N qc Y) = Ok (h2, net_ false, t2) ->
  epochStats F cabs R0 ep h2 (net_ false) t2 N = Ok (h3, t3, l, a) -> JE (S ep) h3 t3.
Proof.
  intros ep h1 tr t1 h2 t2 h3 t3 l a (D' & Tr & Ad) E1 E2.
  assert (J2 : lays h2 /\ trI t2 /\ tadj F t2 = tadj F t1).
  { unfold epochTrain in E1. cbv zeta in E1. set (ta := setOnline F t1 (f0 F) 0) in *. assert (Tra : trI ta) by exact Tr. change (mrows (mgen N k X)) with N in E1.
    match type of E1 with bind ?a _ = _ => assert (exists X' Y', truthOk (cLoss F c0) mo (mgen N qc Y') /\ a = Ok (mgen N k X', mgen N qc Y')) as (X' & Y' & HX' & EP) end.
    { destruct (tadj F ta <? N)%nat; [|exists X, Y; auto]. destruct (randPerm_perm (oShuffle F R0 ep) N) as (vp & Ev & Pv). assert (Lv : length vp = N) by (rewrite <- (Permutation_length Pv); apply seq_length).
      assert (In_v : forall x, In x vp -> (x < N)%nat). { intros x Hx0. apply (Permutation_in x (Permutation_sym Pv)) in Hx0. apply in_seq in Hx0. lia. }
      exists (fun i => X (nth i vp O)), (fun i => Y (nth i vp O)). split; [apply (truth_rows F _ _ N qc N Y (fun i => nth i vp O)); auto; intros i Hi; apply In_v, nth_In; lia|]. rewrite Ev. cbn [bind].
      rewrite !(applyRowPermutation_gen F) by (solve [auto | reflexivity]). reflexivity. }
    rewrite EP in E1. cbn [bind] in E1. destruct (netSetTrain F h1 _ true) as [[h4 n4]|] eqn:E4; [|discriminate]. cbn [bind] in E1. destruct (mode_rule F ls (nclass n) nodup K K_train _ _ _ _ _ D' E4) as (D4 & ->).
    destruct (trainOneEpoch F cabs _ h4 _ ta _ _) as [[h5 t5]|] eqn:E5; [|discriminate]. cbn [bind] in E1. destruct (epoch_batches _ _ _ _ _ _ _ _ D4 Tra Ad HX' E5) as (D5 & Tr5 & A5).
    destruct (netSetTrain F h5 _ false) as [[h6 n6]|] eqn:E6; [|discriminate]. cbn [bind] in E1. destruct (mode_rule F ls (nclass n) nodup K K_train _ _ _ _ _ D5 E6) as (D6 & ->). injection E1; intros; subst. auto 10. }
  clear E1. destruct J2 as (D2 & Tr2 & A2). unfold epochStats in E2. cbv zeta in E2.
  assert (QQ : forall H' h', lays h' -> JE (S ep) h' (setHist F t2 H')).
  { intros H' h' D''. split; auto. split; [exact Tr2|]. change (tadj F (setHist F t2 H')) with (tadj F t2); lia. }
  destruct (tval F t2) as [[xv yv]|].
  - apply bind_inv in E2. destruct E2 as ([[h4 l4] a4] & E4 & E2). injection E2; intros; subst h3 t3 l a. pose proof (accuracy_lays _ _ _ _ _ _ _ _ _ D2 E4) as D4. apply QQ; auto.
  - injection E2; intros; subst h3 t3 l a. apply QQ; auto.
Qed.
Lemma vresize_len : forall (v : list M) r, Forall mwf v -> length (vresize F v r) = r /\ Forall mwf (vresize F v r).
Proof.
  intros vv r H. unfold vresize. split; [rewrite app_length, firstn_length, repeat_length; lia|]. apply Forall_app. split; [|apply Forall_forall; intros x Hx0; apply repeat_spec in Hx0; subst; reflexivity].
  apply Forall_forall. intros x Hx0. rewrite Forall_forall in H. apply H. rewrite <- (firstn_skipn r vv). apply in_or_app. auto.
Qed.
Definition PP (i : nat) (l : layer F) : Prop := i = J \/ i = S (S J) -> (exists a b, lk l = KDense a b) /\ lk l = lk (L i) /\ mwf (lw l) /\ mwf (lb l) /\ mrows (lw l) = mrows (lw (L i)) /\ mcols (lw l) = mcols (lw (L i)) /\ mcols (lb l) = mcols (lb (L i)) /\ sym (SW i) (lw l) /\ sym (SB i) (lb l).
Lemma PP_clone : forall i r l c, layClone F r l = Ok c -> PP i l -> PP i c.
Proof. intros i r l c E A Hi. destruct (A Hi) as [(a & b & A1) A2]. apply clone_params in E. destruct E as (E1 & _ & _ & E2). unfold sameParams in E2. rewrite A1 in *. destruct E2 as [E2 E3]. change (lk c = KDense a b) in E1. rewrite E2, E3, E1. split; [eauto|]. exact A2. Qed.
Lemma PP_K : forall i l, K i l -> PP i l.
Proof. intros i l (A & _ & _ & B & [C1 C2] & [C3 C4] & _ & S1 & S2) Hi. split; [destruct Hi as [-> | ->]; rewrite B, ?HK0, ?HK2; eauto|]. destruct (fits_wf F _ _ _ A) as [W1 W2]. auto 10. Qed.
Lemma K_start : forall i a l, nth_error ls i = Some a -> hget F h0 a = Ok l -> K i (if (i =? 0)%nat then setFirst l true else l).
Proof.
  intros i b l Ea El. destruct (HL i b Ea) as (E & A & B & C). destruct (HS i) as [S1 S2]. rewrite E in El. injection El; intros <-. destruct i as [|i]; cbn [Nat.eqb].
  - split; [exact A|]. split; [exact B|]. split; [exact C|]. split; [reflexivity|]. do 2 (split; [split; reflexivity|]). split; [lia|]. split; [exact S1|exact S2].
  - split; [exact A|]. split; [exact B|]. split; [exact C|]. split; [reflexivity|]. do 2 (split; [split; reflexivity|]). split; [|split; [exact S1|exact S2]]. intros _. destruct Ht as (_ & _ & Fo & _). eapply Fo; eauto.
Qed.
Lemma O_init : forall i o, (OW i o -> OW i (init F o)) /\ (OB i o -> OB i (init F o)).
Proof. intros i o. split; intros [A B]; split; auto; apply held_init; auto. Qed.
Lemma O_start : forall i l kd, K i l -> create_optimizer (cOpt F c0) = Some kd -> (hasWeights l = true -> OW i (set_params F (newOpt F kd) (cLr F c0) (cDecay F c0) (cMom F c0))) /\ (hasBiases l = true -> OB i (set_params F (newOpt F kd) (cLr F c0) (cDecay F c0) (cMom F c0))).
Proof. intros i l kd (_ & _ & _ & _ & [A1 A2] & [B1 B2] & _) Ek. split; intro Hh; (split; [unfold hasWeights, hasBiases, msize in *; congruence | apply held_new; auto]). Qed.

Theorem fit_keeps : exists h' n' t' calls, fit F cabs R0 h0 n t0 = Ok (h', n', t', calls) /\ length (nlay n') = m /\ forall i b, nth_error (nlay n') i = Some b -> exists l, hget F h' b = Ok l /\ PP i l.
Proof.
  destruct (fit_all F PP PP_clone m R0 h0 n t0 k mo (mgen N k X) (mgen N qc Y) Ht) with (J := JE) as (h' & n' & t' & calls & h2 & Ef & _ & Al); auto; try lia.
  - intros ep h1 h2 t1 Fr (D' & Q0). split; [|exact Q0]. intros i a Ea. destruct (D' i a Ea) as (l & El & Kl). exists l. split; auto. rewrite Fr; auto. eapply nth_error_In; eauto.
  - intros ep h1 t1 t2 (zz & os & -> & Hos) (D' & Tr & Ad). split; auto. split; [|exact Ad]. destruct Tr as (T1 & T2 & T3 & T4 & T5 & T6 & T7 & (O1 & O2 & O3)). do 7 (split; [assumption|]). destruct Hos as [-> | ->]; [split; [exact O1|split; [exact O2|exact O3]]|].
    split; [|split; [|exact O3]].
    + intros j a i Ea Ei. destruct (O1 j a i Ea Ei) as (o & Eo & Ho). exists (init F o). split; [change (topts F (setOpts F (setCur F t1 zz) ?vv)) with vv; rewrite nth_error_map, Eo; reflexivity | apply O_init; auto].
    + intros j a i Ea Ei. destruct (O2 j a i Ea Ei) as (o & Eo & Ho). exists (init F o). split; [change (topts F (setOpts F (setCur F t1 zz) ?vv)) with vv; rewrite nth_error_map; change (tpw F (setOpts F (setCur F t1 zz) _)) with (tpw F t1); rewrite Eo; reflexivity | apply O_init; auto].
  - intros ep rs h1 h2 t1 xv yv l a tr (D' & Q0) Ea. split; [eapply accuracy_lays; eauto | exact Q0].
  - intros h1 t1 Es. destruct (setNet_post F _ _ _ _ _ Es) as (A1 & A2 & A3 & A4 & A5 & A6 & A7 & A8 & A9 & A10 & A11 & A12 & kd & A13 & A14).
    assert (V : tinOut F t1 = vresize F (tinOut F t0) (m + 1) /\ tgrad F t1 = vresize F (tgrad F t0) (m + 1)). { unfold setNet in Es. cbv zeta in Es. binp Es. apply Ok_inj in Es. injection Es; intros; subst. split; reflexivity. }
    destruct V as [V1 V2]. assert (Wi : Forall mwf (tinOut F t0) /\ Forall mwf (tgrad F t0)) by (destruct Ht as (_ & _ & _ & _ & _ & _ & _ & Wi & Wg & _); auto). destruct Wi as [Wi Wg].
    assert (D' : lays h1).
    { intros i a Ea. destruct (A4 a (nth_error_In _ _ Ea)) as (l & El). exists l. split; auto. destruct i as [|i].
      - destruct (A3 a) as (l0 & E0 & E1). { destruct ls; [discriminate Ea|]. exact Ea. } rewrite E1 in El. injection El; intros <-. apply (K_start 0 a l0 Ea E0).
      - apply (K_start (S i) a l Ea). unfold hget, rget in *. rewrite A2 in El; auto. intro Q0. pose proof (same_at ls nodup (S i) 0 a Ea) as Q1. destruct ls; [discriminate Ea|]. cbn in Q0, Q1. specialize (Q1 Q0). discriminate Q1. }
    split; [exact D'|]. split.
    + split; [exact A8|]. split; [exact A7|]. split; [split; [exact A10 | reflexivity]|]. destruct (vresize_len (tinOut F t0) (m + 1) Wi) as [B1 B2]. destruct (vresize_len (tgrad F t0) (m + 1) Wg) as [B3 B4].
      match goal with |- context [setOpts F ?uu (map (init F) (topts F t1))] => set (tt1 := setOpts F uu (map (init F) (topts F t1))) end. change (tinOut F tt1) with (tinOut F t1). change (tgrad F tt1) with (tgrad F t1). rewrite V1, V2, B1, B3. split; [apply Nat.add_1_r|]. split; [exact B2|]. split; [apply Nat.add_1_r|]. split; [exact B4|].
      assert (OS : forall a i, nth_error ls i = Some a -> forall l, hget F h1 a = Ok l -> K i l). { intros a i Ea l El. destruct (D' i a Ea) as (l' & El' & Kl). rewrite El in El'. injection El'; intros <-. auto. }
      change (topts F tt1) with (map (init F) (topts F t1)). unfold optsOk. change (topts F tt1) with (map (init F) (topts F t1)). change (tpw F tt1) with (tpw F t1). change (tpb F tt1) with (tpb F t1). rewrite A14.
      assert (CK : forall a, In a (tpw F t1) \/ In a (tpb F t1) -> create_optimizer (cOpt F c0) = Some kd). { intros a Ha. apply A13. rewrite A14. intro Q0. apply (f_equal (@length _)) in Q0. rewrite repeat_length in Q0. cbn in Q0. destruct Ha as [Ha|Ha]; [destruct (tpw F t1) | destruct (tpb F t1)]; cbn in *; try contradiction; lia. }
      set (o0 := set_params F (newOpt F kd) (cLr F c0) (cDecay F c0) (cMom F c0)) in *.
      split; [|split; [|split]].
      * intros j a i Ea Ei. exists (init F o0). assert (j < length (tpw F t1))%nat by (apply nth_error_Some; congruence). split; [rewrite nth_error_map, nth_error_repeat by lia; reflexivity|]. apply O_init. assert (Ha : In a (tpw F t1)) by (eapply nth_error_In; eauto). pose proof (CK a (or_introl Ha)) as Hkd.
        rewrite A5 in Ha. apply filter_In in Ha. destruct Ha as [_ Ha]. destruct (hget F h1 a) as [l|] eqn:El; [|discriminate]. destruct (O_start i l kd (OS a i Ei l El) Hkd) as [S1 _]. auto.
      * intros j a i Ea Ei. exists (init F o0). assert (j < length (tpb F t1))%nat by (apply nth_error_Some; congruence). split; [rewrite nth_error_map, nth_error_repeat by lia; reflexivity|]. apply O_init. assert (Ha : In a (tpb F t1)) by (eapply nth_error_In; eauto). pose proof (CK a (or_intror Ha)) as Hkd.
        rewrite A6 in Ha. apply filter_In in Ha. destruct Ha as [_ Ha]. destruct (hget F h1 a) as [l|] eqn:El; [|discriminate]. destruct (O_start i l kd (OS a i Ei l El) Hkd) as [_ S1]. auto.
      * intros a Ha. rewrite A5 in Ha. apply filter_In in Ha. apply Ha.
      * intros a Ha. rewrite A6 in Ha. apply filter_In in Ha. apply Ha.
    + change (mrows (mgen N k X)) with N. match goal with |- (0 < tadj F (setOpts F (setAdj F ?uu ?vv) ?ww))%nat => change (0 < vv)%nat end. destruct (Nat.ltb_spec N (cBatch F c0)); [exact HN|]. destruct (Nat.eqb_spec (cBatch F c0) 0); cbn [orb]; [exact HN|lia].
  - intros ep h1 tr t1 h2 t2 h3 t3 l a Je E1 E2. change (mrows (mgen N k X)) with N in E2. eapply epoch_rule; eauto.
  - intros ep h1 t1 (D' & _). split; [reflexivity|]. intros i a Ea. destruct (D' i a Ea) as (l & El & Kl). exists l. split; auto. apply PP_K; auto.
  - destruct Al as [Al1 Al2]. exists h', n', t', calls. auto 10.
Qed.
End Fit.



(** * the statement *)
Theorem twins : forall u v J (R0 : fitRnd F) h n (t : trainer F) k mo x y a ka qa kb pb b0 b1 b2 l0 l1 l2,
  trainable h n t k mo -> allPassive h n -> allSized F h n -> ttrain F t = Some (x, y) -> 0 < mrows x ->
  nth_error (nlay n) J = Some b0 -> nth_error (nlay n) (J + 1) = Some b1 -> nth_error (nlay n) (J + 2) = Some b2 ->
  hget F h b0 = Ok l0 -> hget F h b1 = Ok l1 -> hget F h b2 = Ok l2 -> lk l0 = KDense ka qa -> lk l1 = KAct (Some a) -> lk l2 = KDense kb pb -> u < mcols (lw l0) -> v < mcols (lw l0) ->
  sameCols u v (lw l0) -> sameCols u v (lb l0) -> sameRows u v (lw l2) ->
  exists h' n' t' calls c0 c2 d0 d2, fit F cabs R0 h n t = Ok (h', n', t', calls) /\ nth_error (nlay n') J = Some c0 /\ nth_error (nlay n') (J + 2) = Some c2 /\
  hget F h' c0 = Ok d0 /\ hget F h' c2 = Ok d2 /\ lk d0 = KDense ka qa /\ lk d2 = KDense kb pb /\ sameCols u v (lw d0) /\ sameCols u v (lb d0) /\ sameRows u v (lw d2).
Proof.
  intros u v J R0 h n t k mo x y a ka qa kb pb b0 b1 b2 l0 l1 l2 Ht Pl Sz Hx HN N0 N1 N2 H0 H1 H2 K0 K1 K2 Hu Hv T1 T2 T3. assert (Lm : J + 2 < length (nlay n)) by (apply nth_error_Some; congruence).
  pose proof Ht as (Nd & St & Fo & _ & _ & _ & _ & _ & _ & (d & Ed & Hd) & _). rewrite Hx in Ed. injection Ed; intros <-. destruct (data_gen F _ _ _ _ _ Hd) as (N & qc & X & Y & -> & -> & HY).
  destruct (stack_dims F _ _ _ _ St) as (D & D0 & Dm & Dims).
  set (L := fun i => match nth_error (nlay n) i with Some a => match hget F h a with Ok l => l | Err _ => l0 end | None => l0 end).
  assert (HL : forall i a, nth_error (nlay n) i = Some a -> hget F h a = Ok (L i) /\ fits (L i) (D i) (D (S i)) /\ passive (lk (L i)) /\ sized F (L i)).
  { intros i c Ea. destruct (Dims i c Ea) as (l & El & Fl'). unfold L. rewrite Ea, El. split; auto. split; auto. pose proof (nth_error_In _ _ Ea) as Ia. split; [eapply Pl; eauto | eapply Sz; eauto]. }
  replace (J + 1) with (S J) in * by lia. replace (J + 2) with (S (S J)) in * by lia.
  assert (L0 : L J = l0) by (unfold L; rewrite N0, H0; reflexivity). assert (L1 : L (S J) = l1) by (unfold L; rewrite N1, H1; reflexivity). assert (L2 : L (S (S J)) = l2) by (unfold L; rewrite N2, H2; reflexivity).
  destruct (HL _ _ N0) as (_ & F0 & _). destruct (HL _ _ N1) as (_ & F1 & _). destruct (HL _ _ N2) as (_ & F2 & _). rewrite L0 in F0. rewrite L1 in F1. rewrite L2 in F2.
  set (q := D (S J)) in *. set (k0 := D J) in *. set (p0 := D (S (S (S J)))) in *.
  assert (DJ : D (S (S J)) = q /\ shp k0 q (lw l0) /\ shp 1 q (lb l0) /\ shp q p0 (lw l2)).
  { clear - F0 F1 F2 K0 K1 K2. destruct F0 as (_ & _ & _ & _ & _ & F0). destruct F1 as (_ & _ & _ & _ & _ & F1). destruct F2 as (_ & _ & _ & _ & _ & F2). rewrite K0 in F0. rewrite K1 in F1. rewrite K2 in F2. destruct F1 as [F1 _]. rewrite F1 in *. fold q in F1 |- *. destruct F0, F2. auto. }
  destruct DJ as (J2 & (Sa & Sb & Sc) & (Sd & Se & Sf) & (Sg & Sh & Si)). rewrite Sc in Hu, Hv.
  assert (HS : forall i, sym (SW u v J i) (lw (L i)) /\ sym (SB u v J i) (lb (L i))).
  { intro i. destruct (Nat.eq_dec i J) as [->|NJ]; [|destruct (Nat.eq_dec i (S (S J))) as [->|NJ2]].
    - rewrite SW_J, SB_J, L0. split; apply cols_sym; auto; congruence.
    - rewrite SW_2, SB_n, L2 by lia. split; [|apply sym_no]. apply rows_sym; auto; congruence.
    - rewrite SW_n, SB_n by lia. split; apply sym_no. }
  destruct (fit_keeps u v J R0 h n t k mo N qc q k0 p0 ka qa kb pb X Y D L a) as (h' & n' & t' & calls & Ef & Ln & Al); rewrite ?L0, ?L1, ?L2; auto; try lia.
  destruct (nth_error (nlay n') J) as [c0|] eqn:Eb0; [|apply nth_error_None in Eb0; lia]. destruct (nth_error (nlay n') (S (S J))) as [c2|] eqn:Eb2; [|apply nth_error_None in Eb2; lia].
  destruct (Al _ _ Eb0) as (d0 & E0 & P0). destruct (Al _ _ Eb2) as (d2 & E2 & P2). destruct (P0 (or_introl eq_refl)) as (_ & Q1 & Q2 & Q3 & Q4 & Q5 & Q6 & Q7 & Q8). destruct (P2 (or_intror eq_refl)) as (_ & Z1 & Z2 & Z3 & Z4 & Z5 & Z6 & Z7 & Z8).
  rewrite L0 in *. rewrite L2 in *. rewrite SW_J in Q7. rewrite SB_J in Q8. rewrite SW_2 in Z7. exists h', n', t', calls, c0, c2, d0, d2. do 5 (split; auto). split; [congruence|]. split; [congruence|].
  split; [apply cols_sym; auto; congruence|]. split; [apply cols_sym; auto; congruence|]. apply rows_sym; auto; congruence.
Qed.
End Any.

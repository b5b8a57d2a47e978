(* Rep3.v - passes over a network and one training batch in which each sample occurs r times *)
From Coq Require Import String List Arith Bool Lia ZArith Permutation.
From Verif Require Import Base Scalar Mat SpecMat MatFacts MatProofs MatLoops Loss Optim Regul LayMat Layer Net NetTrain OptProofs SpecOpt TrainProofs1 TrainProofs3 TrainProofs4 NetProofs1 NetProofs2 StaleNet FitRun
  SpecFit FitLay1 FitLay2 FitLay3 FitNet1 FitNet2 FitNet3 Seed2 SpecRepeat Order3 Rep1 Rep2.
Import ListNotations.
Local Open Scope nat_scope.

Section Any.
Variable F : FOps.
Notation M := (mat F).
Notation cabs := (absFloat F).
Variables (r : nat) (s : nat -> nat) (phi : bool -> F -> F).
Hypothesis HD : repDiv F r.
Hypothesis HM : repMul F r.
Hypothesis HP1 : phiMean F r phi.
Hypothesis HP2 : phiSum F r phi.
Notation rel := (Rep1.rel F r s).

Lemma meanNet_obj : @obj F (fun l => meanKind F (lk l)).
Proof. intros l l' (E & _) H. rewrite E. auto. Qed.
Lemma meanNet_touch : forall xs h h' ls, touch F xs h h' -> meanNet F h ls -> meanNet F h' ls.
Proof. intros xs h h' ls T H. exact (all_touch meanNet_obj T H). Qed.

Section Net.
Variables (n : net) (d : nat -> nat).
Let ls := nlay n.
Hypothesis Hn : NoDup ls.

Lemma fwdLayer_rel : forall rs i h x x' out out' nb, i < length ls -> dims F h ls d -> meanNet F h ls -> rel nb (d i) x x' -> mwf out -> mwf out' ->
  exists a l l' o o', nth_error ls i = Some a /\ hget F h a = Ok l /\ keeps F l l' /\ fits l' (d i) (d (S i)) /\ (ltrain l = true -> ready F l' nb (d i)) /\
    fwdLayer F rs n i h x out = Ok (upd h a (Some l'), o) /\ fwdLayer F rs n i h x' out' = Ok (upd h a (Some l'), o') /\ rel nb (d (S i)) o o'.
Proof.
  intros rs i h x x' out out' nb Hi D K Hx Ho Ho'. destruct (nth_error ls i) as [a|] eqn:Ea; [|apply nth_error_None in Ea; lia].
  destruct (D i a Ea) as (l & El & Fl). pose proof (K a l (nth_error_In _ _ Ea) El) as Kl. destruct (rel_shp F r s _ _ _ _ Hx) as [Sx Sx'].
  destruct (fwd_fits F (rs i) l nb (d i) (d (S i)) x out Fl Sx Ho) as (l' & o & E & So & Fl' & Kp & Rl).
  destruct (fwd_rel F r s (rs i) l nb (d i) (d (S i)) x x' out out' Fl Kl Hx Ho Ho') as (l2 & y & y' & E1 & E2 & Ry). rewrite E in E1. injection E1 as <- <-.
  exists a, l, l', o, y'. repeat (split; [solve [auto]|]). unfold fwdLayer. fold ls. unfold rget. rewrite Ea. cbn [bind]. rewrite El. cbn [bind]. rewrite E, E2. cbn [bind].
  rewrite (hset_ok _ _ _ _ _ El). auto.
Qed.
Lemma upd_meanNet : forall h a l l', hget F h a = Ok l -> keeps F l l' -> meanNet F h ls -> meanNet F (upd h a (Some l')) ls.
Proof.
  intros h a l l' El (Kl & _) H b lb Hb Eb. pose proof (hget_lt _ _ _ _ El) as La. rewrite hget_upd in Eb by auto. destruct (Nat.eqb_spec a b) as [<-|]; [|eauto]. injection Eb as <-. rewrite Kl. eauto.
Qed.

(* the matrices of two passes *)
Definition pairs (nb q : nat) (v v' : list M) : Prop :=
  length v = S (length ls) /\ length v' = S (length ls) /\ Forall mwf v /\ Forall mwf v' /\ forall j, j <= q -> exists y y', nth_error v j = Some y /\ nth_error v' j = Some y' /\ rel nb (d j) y y'.
Lemma forward_rel : forall rs h v v' nb, dims F h ls d -> modeAll F true h ls -> meanNet F h ls -> pairs nb 0 v v' ->
  exists h' w w', forN (length ls) (fwdStep F rs n) (h, v) = Ok (h', w) /\ forN (length ls) (fwdStep F rs n) (h, v') = Ok (h', w') /\
    dims F h' ls d /\ moves F true ls h h' /\ readyUpto F n d nb (length ls) h' /\ meanNet F h' ls /\ pairs nb (length ls) w w'.
Proof.
  intros rs h v v' nb D Tr K Pv.
  destruct (pairN _ (fun i (p p' : heap F * list M) => fst p' = fst p /\ dims F (fst p) ls d /\ moves F true ls h (fst p) /\ readyUpto F n d nb i (fst p) /\ meanNet F (fst p) ls /\ pairs nb i (snd p) (snd p')) (length ls) (fwdStep F rs n) (fwdStep F rs n) (h, v) (h, v'))
    as ([h1 w] & [h2 w'] & E1 & E2 & I0 & I1 & I2 & I3 & I4 & I5).
  - cbn [fst snd]. split; auto. split; auto. split; [apply moves_refl|]. split; [intros j a l Hj; inversion Hj|]. auto.
  - intros i [h1 v1] [h2 v2] Hi. cbn [fst snd]. intros (-> & I1 & I2 & R1 & I4 & (L1 & L2 & W1 & W2 & S1)). destruct (S1 i (le_n _)) as (x & x' & Ex & Ex' & Sx).
    destruct (rget_at F v1 (i + 1)) as (o & Eo & No); [lia|]. destruct (rget_at F v2 (i + 1)) as (o' & Eo' & No'); [lia|].
    assert (Wo : mwf o) by (rewrite Forall_forall in W1; apply W1; eapply nth_error_In; eauto). assert (Wo' : mwf o') by (rewrite Forall_forall in W2; apply W2; eapply nth_error_In; eauto).
    destruct (fwdLayer_rel rs i h1 x x' o o' nb Hi I1 I4 Sx Wo Wo') as (a & l & l' & p & p' & Ea & El & Kl & Fl & Rl & E1 & E2 & So). pose proof (hget_lt _ _ _ _ El) as La. destruct (rel_wf F r s _ _ _ _ So) as [Wp Wp'].
    unfold fwdStep. cbn [fst snd]. unfold rget at 1 3. rewrite Ex, Ex'. cbn [bind]. rewrite Eo, Eo'. cbn [bind]. rewrite E1, E2. cbn [bind]. unfold rset. rewrite !ltb_true by lia. cbn [bind].
    do 2 eexists. split; [reflexivity|]. split; [reflexivity|]. cbn [fst snd]. replace (i + 1) with (S i) by lia. split; auto. split; [eapply upd_dims; eauto|].
    split; [eapply moves_trans; eauto; eapply upd_moves; eauto; [eapply nth_error_In; eauto|apply keeps_sim; auto]|]. split; [|split; [eapply upd_meanNet; eauto|]].
    + intros j b lb Hj Eb Elb. rewrite hget_upd in Elb by auto. destruct (Nat.eqb_spec a b) as [<-|Nb].
      * inversion Elb; subst lb. assert (i = j). { apply (proj1 (NoDup_nth_error ls) Hn); [lia|unfold ls in *; congruence]. } subst j. apply Rl.
        apply (moves_mode F true ls h h1 I2 (dims_alive F _ _ _ D) Tr a l); auto. eapply nth_error_In; eauto.
      * assert (j <> i). { intro; subst j. unfold ls in *. congruence. } apply (R1 j b); auto. lia.
    + split; [rewrite length_upd; auto|]. split; [rewrite length_upd; auto|]. split; [apply Forall_upd'; auto|]. split; [apply Forall_upd'; auto|]. intros j Hj. rewrite !nth_error_upd. destruct (Nat.eqb_spec (S i) j) as [<-|Nj].
      * rewrite !ltb_true by lia. exists p, p'. auto.
      * apply S1. lia.
  - cbn [fst snd] in *. subst h2. exists h1, w, w'. auto 10.
Qed.
Lemma backward_rel : forall nb v v', times r nb s -> pairs nb (length ls) v v' -> forall q h gs gs', q <= length ls -> dims F h ls d -> firstOnly F h ls -> readyUpto F n d nb q h -> meanNet F h ls ->
  length gs = S (length ls) -> length gs' = S (length ls) -> Forall mwf gs -> Forall mwf gs' -> (0 < q -> exists g g', nth_error gs q = Some g /\ nth_error gs' q = Some g' /\ rel nb (d q) g g') ->
  exists h' ks ks', forL (rev (seq 0 q)) (bwdStep F n v) (h, gs) = Ok (h', ks) /\ forL (rev (seq 0 q)) (bwdStep F n v') (h, gs') = Ok (h', ks') /\ meanNet F h' ls /\ length ks' = S (length ls) /\ Forall mwf ks'.
Proof.
  intros nb v v' R (Lv & Lv' & Wv & Wv' & Sv). induction q as [|q IH]; intros h gs gs' Hq D Fo Rd K Lg Lg' Wg Wg' Hg.
  - exists h, gs, gs'. cbn. auto 10.
  - rewrite seq_S, rev_app_distr. cbn [rev app forL Nat.add]. destruct (Hg (Nat.lt_0_succ _)) as (g & g' & Eg & Eg' & Sg). destruct (Sv q) as (x & x' & Ex & Ex' & Sx); [lia|].
    destruct (rget_at F gs q) as (gin & Egin & Ngin); [lia|]. destruct (rget_at F gs' q) as (gin' & Egin' & Ngin'); [lia|].
    destruct (nth_error ls q) as [a|] eqn:Ea; [|apply nth_error_None in Ea; lia]. destruct (D q a Ea) as (l & El & Fl). pose proof (hget_lt _ _ _ _ El) as La.
    assert (Wgin : mwf gin) by (rewrite Forall_forall in Wg; apply Wg; eapply nth_error_In; eauto). assert (Wgin' : mwf gin') by (rewrite Forall_forall in Wg'; apply Wg'; eapply nth_error_In; eauto).
    destruct (rel_shp F r s _ _ _ _ Sx) as [Sx1 Sx2]. destruct (rel_shp F r s _ _ _ _ Sg) as [Sg1 Sg2]. pose proof (Rd q a l (Nat.lt_succ_diag_r _) Ea El) as Rl.
    destruct (bwd_fits F l nb (d q) (d (S q)) x g gin Fl Rl Sx1 Sg1 Wgin) as (l' & gi & E & (Wgi & Sgi) & Fl' & Kl & Gl).
    destruct (bwd_rel F r s HD HM l nb (d q) (d (S q)) x x' g g' gin gin' R Fl Rl (K a l (nth_error_In _ _ Ea) El) Sx Sg Wgin Wgin') as (l2 & gi2 & gi' & E2 & E3 & Wgi' & Rgi). rewrite E in E2. injection E2 as <- <-.
    unfold bwdStep at 1. cbn [fst snd]. unfold rget at 1. rewrite Ex. cbn [bind]. unfold rget at 1. replace (q + 1) with (S q) by lia. rewrite Eg. cbn [bind]. rewrite Egin. cbn [bind].
    unfold rget at 1. fold ls. rewrite Ea. cbn [bind]. rewrite El. cbn [bind]. rewrite E. cbn [bind]. rewrite (hset_ok _ _ _ _ _ El). cbn [bind]. unfold rset. rewrite ltb_true by lia. cbn [bind].
    unfold bwdStep at 2. cbn [fst snd]. unfold rget at 1. rewrite Ex'. cbn [bind]. unfold rget at 1. replace (q + 1) with (S q) by lia. rewrite Eg'. cbn [bind]. rewrite Egin'. cbn [bind].
    unfold rget at 1. fold ls. rewrite Ea. cbn [bind]. rewrite El. cbn [bind]. rewrite E3. cbn [bind]. rewrite (hset_ok _ _ _ _ _ El). cbn [bind]. unfold rset. rewrite ltb_true by lia. cbn [bind].
    assert (Mv : moves F true ls h (upd h a (Some l'))) by (eapply upd_moves; eauto; [eapply nth_error_In; eauto|apply keeps_sim; auto]).
    apply IH.
    + lia.
    + eapply upd_dims; eauto.
    + eapply moves_first; eauto. eapply dims_alive; eauto.
    + intros j b lb Hj Eb Elb. rewrite hget_upd in Elb by auto. destruct (Nat.eqb_spec a b) as [<-|Nb].
      * exfalso. assert (q = j). { apply (proj1 (NoDup_nth_error ls) Hn); [lia|unfold ls in *; congruence]. } lia.
      * apply (Rd j b); auto.
    + eapply upd_meanNet; eauto.
    + rewrite length_upd. auto.
    + rewrite length_upd. auto.
    + apply Forall_upd'; auto.
    + apply Forall_upd'; auto.
    + intros Hq0. exists gi, gi'. rewrite !nth_error_upd, !Nat.eqb_refl, !ltb_true by lia. split; auto. split; auto. apply Rgi. destruct q; [lia|]. apply (Fo q a l); auto.
Qed.

(** * a trainer with other work matrices and data *)
Definition om (io g : list M) (dt : option (M * M)) (adj : nat) (H : hist F) (on : F) (gd : nat) (t : trainer F) : trainer F :=
  mkTr F (tc F t) (tbal F t) adj (tcur F t) (topts F t) io g (tnl F t) (tpw F t) (tpb F t) H on gd dt (tval F t) (tcallback F t).
Definition hom io g dt adj H on gd (p : heap F * trainer F) := (fst p, om io g dt adj H on gd (snd p)).
Ltac go := repeat match goal with
  | |- bind ?a _ = rmap _ (bind ?b _) => change a with b; destruct b as [?|?]; cbn [bind rmap]
  | |- (let '(_, _) := ?p in _) = rmap _ (let '(_, _) := ?p in _) => destruct p
  end; try reflexivity.
Lemma optimizeAll_om : forall io g dt adj H on gd h t, optimizeAll F cabs h (om io g dt adj H on gd t) = rmap (hom io g dt adj H on gd) (optimizeAll F cabs h t).
Proof.
  intros io g dt adj H on gd h t.
  assert (W : forall i p, optWeight F cabs i (hom io g dt adj H on gd p) = rmap (hom io g dt adj H on gd) (optWeight F cabs i p)) by (intros i [h1 t1]; unfold optWeight, hom; cbn [fst snd]; go).
  assert (B : forall i p, optBias F cabs i (hom io g dt adj H on gd p) = rmap (hom io g dt adj H on gd) (optBias F cabs i p)) by (intros i [h1 t1]; unfold optBias, hom; cbn [fst snd]; go).
  unfold optimizeAll. change (h, om io g dt adj H on gd t) with (hom io g dt adj H on gd (h, t)). change (tpw F (om io g dt adj H on gd t)) with (tpw F t). change (tpb F (om io g dt adj H on gd t)) with (tpb F t).
  rewrite (forN_rmap _ (hom io g dt adj H on gd) _ _ W). destruct (forN (length (tpw F t)) (optWeight F cabs) (h, t)); cbn [bind rmap]; auto. apply (forN_rmap _ (hom io g dt adj H on gd) _ _ B).
Qed.
Definition workOk (io g : list M) : Prop := length io = S (length ls) /\ Forall mwf io /\ length g = S (length ls) /\ Forall mwf g.

Lemma batch_rel : forall rs h t io g dt adj H x x' y y' nb q, 0 < nb -> tonl F t = f0 F -> tgood F t = 0 -> times r nb s -> 0 < length ls -> dims F h ls d -> modeAll F true h ls -> firstOnly F h ls -> trOk F n h t -> meanNet F h ls -> workOk io g ->
  rel nb (d 0) x x' -> rel nb q y y' -> truthOk (cLoss F (tc F t)) (d (length ls)) y ->
  exists h' t' io' g' on, trainBatch F cabs rs h n t x y = Ok (h', t') /\ trainBatch F cabs rs h n (om io g dt adj H (f0 F) 0 t) x' y' = Ok (h', om io' g' dt adj H on (r * tgood F t') t') /\ workOk io' g' /\
    fdiv F on (fofN F (r * nb)) = phi (sumLoss (cLoss F (tc F t))) (fdiv F (tonl F t') (fofN F nb)) /\ th F t' = th F t.
Proof.
  intros rs h t io g dt adj H x x' y y' nb q Pn On0 Gd0 R L D Tr Fo (T1 & T2 & T3 & T4 & T5 & T6 & T7 & T8) K (K1 & K2 & K3 & K4) Hx Hy Ty. pose proof (dims_pos F _ _ _ (length ls) D L (le_n _)) as Pm.
  destruct (rel_wf F r s _ _ _ _ Hx) as [Wx Wx'].
  assert (S0 : pairs nb 0 (upd (tinOut F t) 0 x) (upd io 0 x')).
  { split; [rewrite length_upd; auto|]. split; [rewrite length_upd; auto|]. split; [apply Forall_upd'; auto|]. split; [apply Forall_upd'; auto|]. intros j Hj. assert (j = 0) by lia. subst j. exists x, x'. rewrite !nth_error_upd, !Nat.eqb_refl, !ltb_true by (unfold ls in *; lia). auto. }
  destruct (forward_rel rs h _ _ nb D Tr K S0) as (h1 & v & v' & E1 & E1' & D1 & M1 & R1 & K1' & P1).
  pose proof P1 as (Lv & Lv' & Wv & Wv' & Sv). destruct (Sv (length ls) (le_n _)) as (o & o' & Eo & Eo' & So).
  destruct (rget_at F (tgrad F t) (length ls)) as (gl & Eg & Ng); [unfold ls in *; lia|]. destruct (rget_at F g (length ls)) as (gl' & Eg' & Ng'); [lia|].
  assert (Wg : mwf gl) by (rewrite Forall_forall in T5; apply T5; eapply nth_error_In; eauto). assert (Wg' : mwf gl') by (rewrite Forall_forall in K4; apply K4; eapply nth_error_In; eauto).
  destruct (gradient_rel F r s _ _ nb (d (length ls)) q o o' y y' gl gl' R T6 So Hy Ty Wg Wg') as (gr & gr' & E2 & E2' & Sg).
  destruct (rel_wf F r s _ _ _ _ Sg) as [Wgr Wgr']. pose proof (dims_alive F _ _ _ D) as Al.
  destruct (backward_rel nb v v' R P1 (length ls) h1 (upd (tgrad F t) (length ls) gr) (upd g (length ls) gr')) as (h2 & gs & gs' & E3 & E3' & K3' & L3 & W3); auto.
  { eapply moves_first; eauto. }
  { rewrite length_upd. auto. }
  { rewrite length_upd. auto. }
  { apply Forall_upd'; auto. }
  { apply Forall_upd'; auto. }
  { intros _. exists gr, gr'. rewrite !nth_error_upd, !Nat.eqb_refl, !ltb_true by (unfold ls in *; lia). auto. }
  set (t1 := setGrad F (setInOut F t v) gs).
  assert (B1 : backprop F rs h n t x y = Ok (h2, t1)).
  { unfold backprop. unfold rset at 1. rewrite ltb_true by (unfold ls in *; lia). cbn [bind]. rewrite T1. fold ls. rewrite E1. cbn [bind]. change (tnl F (setInOut F t v)) with (tnl F t). rewrite T1. fold ls. unfold rget at 1. rewrite Eo. cbn [bind].
    change (tgrad F (setInOut F t v)) with (tgrad F t). rewrite Eg. cbn [bind]. change (tc F (setInOut F t v)) with (tc F t). change (tbal F (setInOut F t v)) with (tbal F t). rewrite E2. cbn [bind].
    unfold rset at 1. rewrite ltb_true by (unfold ls in *; lia). cbn [bind]. rewrite E3. reflexivity. }
  assert (B2 : backprop F rs h n (om io g dt adj H (f0 F) 0 t) x' y' = Ok (h2, om v' gs' dt adj H (f0 F) 0 t1)).
  { unfold backprop. change (tinOut F (om io g dt adj H (f0 F) 0 t)) with io. change (tnl F (om io g dt adj H (f0 F) 0 t)) with (tnl F t). unfold rset at 1. rewrite ltb_true by (unfold ls in *; lia). cbn [bind]. rewrite T1. fold ls. rewrite E1'. cbn [bind]. change (tnl F (setInOut F (om io g dt adj H (f0 F) 0 t) v')) with (tnl F t). rewrite T1. fold ls.
    unfold rget at 1. rewrite Eo'. cbn [bind].
    change (tgrad F (setInOut F (om io g dt adj H (f0 F) 0 t) v')) with g. rewrite Eg'. cbn [bind]. change (tc F (setInOut F (om io g dt adj H (f0 F) 0 t) v')) with (tc F t). change (tbal F (setInOut F (om io g dt adj H (f0 F) 0 t) v')) with (tbal F t). rewrite E2'. cbn [bind].
    unfold rset at 1. rewrite ltb_true by (unfold ls in *; lia). cbn [bind]. rewrite E3'. reflexivity. }
  unfold trainBatch. rewrite B1, B2. cbn [bind]. rewrite optimizeAll_om.
  assert (Wy : mwf y /\ mrows y = nb) by (destruct Hy as (Y & -> & _); split; [apply mwf_gen|reflexivity]). destruct Wy as [Wy Ry]. destruct (rel_shp F r s _ _ _ _ Hx) as [Sx _].
  destruct (batch_fits F n d Hn rs h t x y nb L D Tr Fo (conj T1 (conj T2 (conj T3 (conj T4 (conj T5 (conj T6 (conj T7 T8))))))) Sx Wy Ry Ty) as (hf & tf & Ef & _).
  unfold trainBatch in Ef. rewrite B1 in Ef. cbn [bind] in Ef. destruct (optimizeAll F cabs h2 t1) as [[h3 t3]|] eqn:Eo3; cbn [bind rmap hom fst snd] in *; [|discriminate].
  assert (Q : tinOut F t3 = v /\ tonl F t3 = f0 F /\ tgood F t3 = 0 /\ th F t3 = th F t).
  { pose proof (optimizeAll_om (tinOut F t1) (tgrad F t1) (ttrain F t1) (tadj F t1) (th F t1) (tonl F t1) (tgood F t1) h2 t1) as Q. replace (om (tinOut F t1) (tgrad F t1) (ttrain F t1) (tadj F t1) (th F t1) (tonl F t1) (tgood F t1) t1) with t1 in Q by (destruct t1; reflexivity). rewrite Eo3 in Q. cbn [rmap hom fst snd] in Q.
    injection Q as Q. rewrite Q. unfold t1. cbn. auto. }
  destruct Q as (Q & Q1 & Q2 & Q3).
  destruct (optimizeAll_post F cabs _ _ _ _ Eo3) as (_ & (Z1 & Z2 & _ & _ & Z3 & _) & _). change (tc F t1) with (tc F t) in Z1. change (tbal F t1) with (tbal F t) in Z2. change (tnl F t1) with (tnl F t) in Z3.
  change (tinOut F (om v' gs' dt adj H (f0 F) 0 t3)) with v'. change (tnl F (om v' gs' dt adj H (f0 F) 0 t3)) with (tnl F t3). rewrite Q, Z3, T1. fold ls. unfold rget. rewrite Eo, Eo'. cbn [bind].
  rewrite <- Z1 in Ty. rewrite <- Z2 in T6.
  destruct (online_rel F r s phi HD HP1 HP2 n t3 (om v' gs' dt adj H (f0 F) 0 t3) nb (d (length ls)) q o o' y y' Pn R Pm T6 So Hy Ty eq_refl eq_refl Q1 eq_refl Q2 eq_refl) as (a & a' & b & -> & -> & Ph). cbn [bind].
  exists h3, (setOnline F t3 a b), v', gs', a'. split; [reflexivity|]. split; [reflexivity|]. split; [split; auto|]. split; [rewrite Z1 in Ph; exact Ph|exact Q3].
Qed.
End Net.
End Any.

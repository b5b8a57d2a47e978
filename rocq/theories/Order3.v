(* Order3.v - passes over a network and one training batch with the samples in another order *)
From Coq Require Import String List Arith Bool Lia ZArith Permutation.
From Verif Require Import Base Scalar Mat SpecMat MatFacts MatProofs MatLoops Loss Optim Regul LayMat Layer Net NetTrain OptProofs SpecOpt TrainProofs1 TrainProofs3 TrainProofs4 NetProofs1 NetProofs2 StaleNet FitRun
  SpecFit FitLay1 FitLay2 FitLay3 FitNet1 FitNet2 FitNet3 Seed2 SpecOrder Order1 Order2.
Import ListNotations.
Local Open Scope nat_scope.

(* two loops side by side *)
Lemma pairL : forall I S (P : list I -> S -> S -> Prop) l f g a b pre, P pre a b -> (forall p i x y, (exists r, pre ++ l = p ++ i :: r) -> P p x y -> exists x' y', f i x = Ok x' /\ g i y = Ok y' /\ P (p ++ [i]) x' y') ->
  exists x y, forL l f a = Ok x /\ forL l g b = Ok y /\ P (pre ++ l) x y.
Proof.
  intros I S P. induction l as [|i l IH]; intros f g a b pre H0 H; simpl.
  - exists a, b. rewrite app_nil_r. auto.
  - destruct (H pre i a b) as (a1 & b1 & E1 & E2 & H1); eauto. rewrite E1, E2. destruct (IH f g a1 b1 (pre ++ [i]) H1) as (x & y & A & B & C).
    { intros p j u v (r & Er) Hp. apply H; auto. exists r. rewrite <- Er, <- app_assoc. reflexivity. }
    exists x, y. rewrite <- app_assoc in C. auto.
Qed.
Lemma pairN : forall S (P : nat -> S -> S -> Prop) n f g a b, P 0 a b -> (forall i x y, i < n -> P i x y -> exists x' y', f i x = Ok x' /\ g i y = Ok y' /\ P (i + 1) x' y') ->
  exists x y, forN n f a = Ok x /\ forN n g b = Ok y /\ P n x y.
Proof.
  intros S P n f g a b H0 H. unfold forN. destruct (pairL nat S (fun p x y => P (length p) x y) (seq 0 n) f g a b []) as (x & y & A & B & C); auto.
  - intros p i u v (r & Er) Hp. simpl in Er. assert (Li : i = length p /\ length p < n).
    { assert (L : length (seq 0 n) = length (p ++ i :: r)) by (rewrite Er; auto). rewrite seq_length, app_length in L. simpl in L. split; [|lia].
      assert (Q : nth_error (seq 0 n) (length p) = Some i) by (rewrite Er, nth_error_app2, Nat.sub_diag by auto; reflexivity). apply nth_error_nth with (d := 0) in Q. rewrite seq_nth in Q by lia. auto. }
    destruct Li as [-> Li]. destruct (H _ u v Li Hp) as (x' & y' & E1 & E2 & Hn). exists x', y'. rewrite app_length. auto.
  - exists x, y. simpl in C. rewrite seq_length in C. auto.
Qed.

Section Any.
Variable F : FOps.
Notation M := (mat F).
Notation cabs := (absFloat F).
Variable s : nat -> nat.
Hypothesis HS : symSum F.
Notation rel := (rel F s).

Lemma rowWise_obj : @obj F (fun l => rowKind F (lk l)).
Proof. intros l l' (E & _) H. rewrite E. auto. Qed.
Lemma rowWise_touch : forall xs h h' ls, touch F xs h h' -> rowWise F h ls -> rowWise F h' ls.
Proof. intros xs h h' ls T H. exact (all_touch rowWise_obj T H). Qed.

Section Net.
Variables (n : net) (d : nat -> nat).
Let ls := nlay n.
Hypothesis Hn : NoDup ls.

Lemma fwdLayer_rel : forall rs i h x x' out out' nb, i < length ls -> dims F h ls d -> rowWise F h ls -> rel nb (d i) x x' -> mwf out -> mwf out' ->
  exists a l l' o o', nth_error ls i = Some a /\ hget F h a = Ok l /\ keeps F l l' /\ fits l' (d i) (d (S i)) /\ (ltrain l = true -> ready F l' nb (d i)) /\
    fwdLayer F rs n i h x out = Ok (upd h a (Some l'), o) /\ fwdLayer F rs n i h x' out' = Ok (upd h a (Some l'), o') /\ rel nb (d (S i)) o o'.
Proof.
  intros rs i h x x' out out' nb Hi D K Hx Ho Ho'. destruct (nth_error ls i) as [a|] eqn:Ea; [|apply nth_error_None in Ea; lia].
  destruct (D i a Ea) as (l & El & Fl). pose proof (K a l (nth_error_In _ _ Ea) El) as Kl. destruct (rel_shp F s _ _ _ _ Hx) as [Sx Sx'].
  destruct (fwd_fits F (rs i) l nb (d i) (d (S i)) x out Fl Sx Ho) as (l' & o & E & So & Fl' & Kp & Rl).
  destruct (fwd_rel F s (rs i) l nb (d i) (d (S i)) x x' out out' Fl Kl Hx Ho Ho') as (l2 & y & y' & E1 & E2 & Ry). rewrite E in E1. injection E1 as <- <-.
  exists a, l, l', o, y'. repeat (split; [solve [auto]|]). unfold fwdLayer. fold ls. unfold rget. rewrite Ea. cbn [bind]. rewrite El. cbn [bind]. rewrite E, E2. cbn [bind].
  rewrite (hset_ok _ _ _ _ _ El). auto.
Qed.
Lemma upd_rowWise : forall h a l l', hget F h a = Ok l -> keeps F l l' -> rowWise F h ls -> rowWise F (upd h a (Some l')) ls.
Proof.
  intros h a l l' El (Kl & _) H b lb Hb Eb. pose proof (hget_lt _ _ _ _ El) as La. rewrite hget_upd in Eb by auto. destruct (Nat.eqb_spec a b) as [<-|]; [|eauto]. injection Eb as <-. rewrite Kl. eauto.
Qed.

Lemma predict_rel : forall rs h x x' out out' nb, 0 < length ls -> dims F h ls d -> rowWise F h ls -> rel nb (d 0) x x' -> mwf out -> mwf out' ->
  exists h' o o', predict F rs h n x out = Ok (h', o) /\ predict F rs h n x' out' = Ok (h', o') /\ rel nb (d (length ls)) o o'.
Proof.
  intros rs h x x' out out' nb L D K Hx Ho Ho'. unfold predict. fold ls.
  destruct (pairN _ (fun i (p p' : heap F * M * M) => let '(h1, y, o) := p in let '(h2, y', o') := p' in h2 = h1 /\ dims F h1 ls d /\ rowWise F h1 ls /\ rel nb (d i) y y' /\ mwf o /\ mwf o' /\ (0 < i -> o = y /\ o' = y')) (length ls)
    (fun i '(h, mTemp, mOut) => ' (h, o) <- fwdLayer F rs n i h mTemp mOut ;; Ok (h, o, o)) (fun i '(h, mTemp, mOut) => ' (h, o) <- fwdLayer F rs n i h mTemp mOut ;; Ok (h, o, o)) (h, x, out) (h, x', out')) as ([[h1 y] o] & [[h2 y'] o'] & E1 & E2 & I1 & I2 & I3 & I4 & I5 & I6 & I7).
  - repeat (split; [solve [auto]|]). intro Q. inversion Q.
  - intros i [[h1 y1] o1] [[h2 y2] o2] Hi (-> & I1 & I2 & I3 & I4 & I5 & _). destruct (fwdLayer_rel rs i h1 y1 y2 o1 o2 nb Hi I1 I2 I3 I4 I5) as (a & l & l' & p & p' & Ea & El & Kl & Fl & _ & E1 & E2 & So).
    rewrite E1, E2. cbn [bind]. do 2 eexists. split; [reflexivity|]. split; [reflexivity|]. replace (i + 1) with (S i) by lia. destruct (rel_wf F s _ _ _ _ So) as [Wp Wp'].
    split; auto. split; [eapply upd_dims; eauto|]. split; [eapply upd_rowWise; eauto|]. auto 10.
  - rewrite E1, E2. subst h2. cbn [bind]. destruct (I7 L) as [-> ->]. exists h1, y, y'. auto.
Qed.

(* the matrices of two passes *)
Definition pairs (nb q : nat) (v v' : list M) : Prop :=
  length v = S (length ls) /\ length v' = S (length ls) /\ Forall mwf v /\ Forall mwf v' /\ forall j, j <= q -> exists y y', nth_error v j = Some y /\ nth_error v' j = Some y' /\ rel nb (d j) y y'.
Lemma forward_rel : forall rs h v v' nb, dims F h ls d -> modeAll F true h ls -> rowWise F h ls -> pairs nb 0 v v' ->
  exists h' w w', forN (length ls) (fwdStep F rs n) (h, v) = Ok (h', w) /\ forN (length ls) (fwdStep F rs n) (h, v') = Ok (h', w') /\
    dims F h' ls d /\ moves F true ls h h' /\ readyUpto F n d nb (length ls) h' /\ rowWise F h' ls /\ pairs nb (length ls) w w'.
Proof.
  intros rs h v v' nb D Tr K Pv.
  destruct (pairN _ (fun i (p p' : heap F * list M) => fst p' = fst p /\ dims F (fst p) ls d /\ moves F true ls h (fst p) /\ readyUpto F n d nb i (fst p) /\ rowWise F (fst p) ls /\ pairs nb i (snd p) (snd p')) (length ls) (fwdStep F rs n) (fwdStep F rs n) (h, v) (h, v'))
    as ([h1 w] & [h2 w'] & E1 & E2 & I0 & I1 & I2 & I3 & I4 & I5).
  - cbn [fst snd]. split; auto. split; auto. split; [apply moves_refl|]. split; [intros j a l Hj; inversion Hj|]. auto.
  - intros i [h1 v1] [h2 v2] Hi. cbn [fst snd]. intros (-> & I1 & I2 & R1 & I4 & (L1 & L2 & W1 & W2 & S1)). destruct (S1 i (le_n _)) as (x & x' & Ex & Ex' & Sx).
    destruct (rget_at F v1 (i + 1)) as (o & Eo & No); [lia|]. destruct (rget_at F v2 (i + 1)) as (o' & Eo' & No'); [lia|].
    assert (Wo : mwf o) by (rewrite Forall_forall in W1; apply W1; eapply nth_error_In; eauto). assert (Wo' : mwf o') by (rewrite Forall_forall in W2; apply W2; eapply nth_error_In; eauto).
    destruct (fwdLayer_rel rs i h1 x x' o o' nb Hi I1 I4 Sx Wo Wo') as (a & l & l' & p & p' & Ea & El & Kl & Fl & Rl & E1 & E2 & So). pose proof (hget_lt _ _ _ _ El) as La. destruct (rel_wf F s _ _ _ _ So) as [Wp Wp'].
    unfold fwdStep. cbn [fst snd]. unfold rget at 1 3. rewrite Ex, Ex'. cbn [bind]. rewrite Eo, Eo'. cbn [bind]. rewrite E1, E2. cbn [bind]. unfold rset. rewrite !ltb_true by lia. cbn [bind].
    do 2 eexists. split; [reflexivity|]. split; [reflexivity|]. cbn [fst snd]. replace (i + 1) with (S i) by lia. split; auto. split; [eapply upd_dims; eauto|].
    split; [eapply moves_trans; eauto; eapply upd_moves; eauto; [eapply nth_error_In; eauto|apply keeps_sim; auto]|]. split; [|split; [eapply upd_rowWise; eauto|]].
    + intros j b lb Hj Eb Elb. rewrite hget_upd in Elb by auto. destruct (Nat.eqb_spec a b) as [<-|Nb].
      * inversion Elb; subst lb. assert (i = j). { apply (proj1 (NoDup_nth_error ls) Hn); [lia|unfold ls in *; congruence]. } subst j. apply Rl.
        apply (moves_mode F true ls h h1 I2 (dims_alive F _ _ _ D) Tr a l); auto. eapply nth_error_In; eauto.
      * assert (j <> i). { intro; subst j. unfold ls in *. congruence. } apply (R1 j b); auto. lia.
    + split; [rewrite length_upd; auto|]. split; [rewrite length_upd; auto|]. split; [apply Forall_upd'; auto|]. split; [apply Forall_upd'; auto|]. intros j Hj. rewrite !nth_error_upd. destruct (Nat.eqb_spec (S i) j) as [<-|Nj].
      * rewrite !ltb_true by lia. exists p, p'. auto.
      * apply S1. lia.
  - cbn [fst snd] in *. subst h2. exists h1, w, w'. auto 10.
Qed.
Lemma backward_rel : forall nb v v', reorder nb s -> pairs nb (length ls) v v' -> forall q h gs gs', q <= length ls -> dims F h ls d -> firstOnly F h ls -> readyUpto F n d nb q h -> rowWise F h ls ->
  length gs = S (length ls) -> length gs' = S (length ls) -> Forall mwf gs -> Forall mwf gs' -> (0 < q -> exists g g', nth_error gs q = Some g /\ nth_error gs' q = Some g' /\ rel nb (d q) g g') ->
  exists h' ks ks', forL (rev (seq 0 q)) (bwdStep F n v) (h, gs) = Ok (h', ks) /\ forL (rev (seq 0 q)) (bwdStep F n v') (h, gs') = Ok (h', ks') /\ rowWise F h' ls /\ length ks' = S (length ls) /\ Forall mwf ks'.
Proof.
  intros nb v v' R (Lv & Lv' & Wv & Wv' & Sv). induction q as [|q IH]; intros h gs gs' Hq D Fo Rd K Lg Lg' Wg Wg' Hg.
  - exists h, gs, gs'. cbn. auto 10.
  - rewrite seq_S, rev_app_distr. cbn [rev app forL Nat.add]. destruct (Hg (Nat.lt_0_succ _)) as (g & g' & Eg & Eg' & Sg). destruct (Sv q) as (x & x' & Ex & Ex' & Sx); [lia|].
    destruct (rget_at F gs q) as (gin & Egin & Ngin); [lia|]. destruct (rget_at F gs' q) as (gin' & Egin' & Ngin'); [lia|].
    destruct (nth_error ls q) as [a|] eqn:Ea; [|apply nth_error_None in Ea; lia]. destruct (D q a Ea) as (l & El & Fl). pose proof (hget_lt _ _ _ _ El) as La.
    assert (Wgin : mwf gin) by (rewrite Forall_forall in Wg; apply Wg; eapply nth_error_In; eauto). assert (Wgin' : mwf gin') by (rewrite Forall_forall in Wg'; apply Wg'; eapply nth_error_In; eauto).
    destruct (rel_shp F s _ _ _ _ Sx) as [Sx1 Sx2]. destruct (rel_shp F s _ _ _ _ Sg) as [Sg1 Sg2]. pose proof (Rd q a l (Nat.lt_succ_diag_r _) Ea El) as Rl.
    destruct (bwd_fits F l nb (d q) (d (S q)) x g gin Fl Rl Sx1 Sg1 Wgin) as (l' & gi & E & (Wgi & Sgi) & Fl' & Kl & Gl).
    destruct (bwd_rel F s HS l nb (d q) (d (S q)) x x' g g' gin gin' R Fl Rl (K a l (nth_error_In _ _ Ea) El) Sx Sg Wgin Wgin') as (l2 & gi2 & gi' & E2 & E3 & Wgi' & Rgi). rewrite E in E2. injection E2 as <- <-.
    unfold bwdStep at 1. cbn [fst snd]. unfold rget at 1. rewrite Ex. cbn [bind]. unfold rget at 1. replace (q + 1) with (S q) by lia. rewrite Eg. cbn [bind]. rewrite Egin. cbn [bind].
    unfold rget at 1. fold ls. rewrite Ea. cbn [bind]. rewrite El. cbn [bind]. rewrite E. cbn [bind]. rewrite (hset_ok _ _ _ _ _ El). cbn [bind]. unfold rset. rewrite ltb_true by lia. cbn [bind].
    unfold bwdStep at 2. cbn [fst snd]. unfold rget at 1. rewrite Ex'. cbn [bind]. unfold rget at 1. replace (q + 1) with (S q) by lia. rewrite Eg'. cbn [bind]. rewrite Egin'. cbn [bind].
    unfold rget at 1. fold ls. rewrite Ea. cbn [bind]. rewrite El. cbn [bind]. rewrite E3. cbn [bind]. rewrite (hset_ok _ _ _ _ _ El). cbn [bind]. unfold rset. rewrite ltb_true by lia. cbn [bind].
    assert (Mv : moves F true ls h (upd h a (Some l'))) by (eapply upd_moves; eauto; [eapply nth_error_In; eauto|apply keeps_sim; auto]).
    apply IH.
    + lia.
    + eapply upd_dims; eauto.
    + eapply moves_first; eauto. eapply dims_alive; eauto.
    + intros j b lb Hj Eb Elb. rewrite hget_upd in Elb by auto. destruct (Nat.eqb_spec a b) as [<-|Nb].
      * exfalso. assert (q = j). { apply (proj1 (NoDup_nth_error ls) Hn); [lia|unfold ls in *; congruence]. } lia.
      * apply (Rd j b); auto.
    + eapply upd_rowWise; eauto.
    + rewrite length_upd. auto.
    + rewrite length_upd. auto.
    + apply Forall_upd'; auto.
    + apply Forall_upd'; auto.
    + intros Hq0. exists gi, gi'. rewrite !nth_error_upd, !Nat.eqb_refl, !ltb_true by lia. split; auto. split; auto. apply Rgi. destruct q; [lia|]. apply (Fo q a l); auto.
Qed.

(** * a trainer with other work matrices and data *)
Definition om (io g : list M) (dt : option (M * M)) (t : trainer F) : trainer F :=
  mkTr F (tc F t) (tbal F t) (tadj F t) (tcur F t) (topts F t) io g (tnl F t) (tpw F t) (tpb F t) (th F t) (tonl F t) (tgood F t) dt (tval F t) (tcallback F t).
Definition hom io g dt (p : heap F * trainer F) := (fst p, om io g dt (snd p)).
Ltac go := repeat match goal with
  | |- bind ?a _ = rmap _ (bind ?b _) => change a with b; destruct b as [?|?]; cbn [bind rmap]
  | |- (let '(_, _) := ?p in _) = rmap _ (let '(_, _) := ?p in _) => destruct p
  end; try reflexivity.
Lemma optimizeAll_om : forall io g dt h t, optimizeAll F cabs h (om io g dt t) = rmap (hom io g dt) (optimizeAll F cabs h t).
Proof.
  intros io g dt h t.
  assert (W : forall i p, optWeight F cabs i (hom io g dt p) = rmap (hom io g dt) (optWeight F cabs i p)) by (intros i [h1 t1]; unfold optWeight, hom; cbn [fst snd]; go).
  assert (B : forall i p, optBias F cabs i (hom io g dt p) = rmap (hom io g dt) (optBias F cabs i p)) by (intros i [h1 t1]; unfold optBias, hom; cbn [fst snd]; go).
  unfold optimizeAll. change (h, om io g dt t) with (hom io g dt (h, t)). change (tpw F (om io g dt t)) with (tpw F t). change (tpb F (om io g dt t)) with (tpb F t).
  rewrite (forN_rmap _ (hom io g dt) _ _ W). destruct (forN (length (tpw F t)) (optWeight F cabs) (h, t)); cbn [bind rmap]; auto. apply (forN_rmap _ (hom io g dt) _ _ B).
Qed.
Definition workOk (io g : list M) : Prop := length io = S (length ls) /\ Forall mwf io /\ length g = S (length ls) /\ Forall mwf g.

Lemma batch_rel : forall rs h t io g dt x x' y y' nb q, reorder nb s -> 0 < length ls -> dims F h ls d -> modeAll F true h ls -> firstOnly F h ls -> trOk F n h t -> rowWise F h ls -> workOk io g ->
  rel nb (d 0) x x' -> rel nb q y y' -> truthOk (cLoss F (tc F t)) (d (length ls)) y ->
  exists h' t' io' g', trainBatch F cabs rs h n t x y = Ok (h', t') /\ trainBatch F cabs rs h n (om io g dt t) x' y' = Ok (h', om io' g' dt t') /\ workOk io' g'.
Proof.
  intros rs h t io g dt x x' y y' nb q R L D Tr Fo (T1 & T2 & T3 & T4 & T5 & T6 & T7 & T8) K (K1 & K2 & K3 & K4) Hx Hy Ty. pose proof (dims_pos F _ _ _ (length ls) D L (le_n _)) as Pm.
  destruct (rel_wf F s _ _ _ _ Hx) as [Wx Wx'].
  assert (S0 : pairs nb 0 (upd (tinOut F t) 0 x) (upd io 0 x')).
  { split; [rewrite length_upd; auto|]. split; [rewrite length_upd; auto|]. split; [apply Forall_upd'; auto|]. split; [apply Forall_upd'; auto|]. intros j Hj. assert (j = 0) by lia. subst j. exists x, x'. rewrite !nth_error_upd, !Nat.eqb_refl, !ltb_true by (unfold ls in *; lia). auto. }
  destruct (forward_rel rs h _ _ nb D Tr K S0) as (h1 & v & v' & E1 & E1' & D1 & M1 & R1 & K1' & P1).
  pose proof P1 as (Lv & Lv' & Wv & Wv' & Sv). destruct (Sv (length ls) (le_n _)) as (o & o' & Eo & Eo' & So).
  destruct (rget_at F (tgrad F t) (length ls)) as (gl & Eg & Ng); [unfold ls in *; lia|]. destruct (rget_at F g (length ls)) as (gl' & Eg' & Ng'); [lia|].
  assert (Wg : mwf gl) by (rewrite Forall_forall in T5; apply T5; eapply nth_error_In; eauto). assert (Wg' : mwf gl') by (rewrite Forall_forall in K4; apply K4; eapply nth_error_In; eauto).
  destruct (gradient_rel F s _ _ nb (d (length ls)) q o o' y y' gl gl' R T6 So Hy Ty Wg Wg') as (gr & gr' & E2 & E2' & Sg).
  destruct (rel_wf F s _ _ _ _ Sg) as [Wgr Wgr']. pose proof (dims_alive F _ _ _ D) as Al.
  destruct (backward_rel nb v v' R P1 (length ls) h1 (upd (tgrad F t) (length ls) gr) (upd g (length ls) gr')) as (h2 & gs & gs' & E3 & E3' & K3' & L3 & W3); auto.
  { eapply moves_first; eauto. }
  { rewrite length_upd. auto. }
  { rewrite length_upd. auto. }
  { apply Forall_upd'; auto. }
  { apply Forall_upd'; auto. }
  { intros _. exists gr, gr'. rewrite !nth_error_upd, !Nat.eqb_refl, !ltb_true by (unfold ls in *; lia). auto. }
  set (t1 := setGrad F (setInOut F t v) gs).
  assert (B1 : backprop F rs h n t x y = Ok (h2, t1)).
  { unfold backprop. unfold rset at 1. rewrite ltb_true by (unfold ls in *; lia). cbn [bind]. rewrite T1. fold ls. rewrite E1. cbn [bind]. change (tnl F (setInOut F t v)) with (tnl F t). rewrite T1. fold ls. unfold rget at 1. rewrite Eo. cbn [bind].
    change (tgrad F (setInOut F t v)) with (tgrad F t). rewrite Eg. cbn [bind]. change (tc F (setInOut F t v)) with (tc F t). change (tbal F (setInOut F t v)) with (tbal F t). rewrite E2. cbn [bind].
    unfold rset at 1. rewrite ltb_true by (unfold ls in *; lia). cbn [bind]. rewrite E3. reflexivity. }
  assert (B2 : backprop F rs h n (om io g dt t) x' y' = Ok (h2, om v' gs' dt t1)).
  { unfold backprop. change (tinOut F (om io g dt t)) with io. change (tnl F (om io g dt t)) with (tnl F t). unfold rset at 1. rewrite ltb_true by (unfold ls in *; lia). cbn [bind]. rewrite T1. fold ls. rewrite E1'. cbn [bind]. change (tnl F (setInOut F (om io g dt t) v')) with (tnl F t). rewrite T1. fold ls.
    unfold rget at 1. rewrite Eo'. cbn [bind].
    change (tgrad F (setInOut F (om io g dt t) v')) with g. rewrite Eg'. cbn [bind]. change (tc F (setInOut F (om io g dt t) v')) with (tc F t). change (tbal F (setInOut F (om io g dt t) v')) with (tbal F t). rewrite E2'. cbn [bind].
    unfold rset at 1. rewrite ltb_true by (unfold ls in *; lia). cbn [bind]. rewrite E3'. reflexivity. }
  unfold trainBatch. rewrite B1, B2. cbn [bind]. rewrite optimizeAll_om.
  assert (Wy : mwf y /\ mrows y = nb) by (destruct Hy as (Y & -> & _); split; [apply mwf_gen|reflexivity]). destruct Wy as [Wy Ry]. destruct (rel_shp F s _ _ _ _ Hx) as [Sx _].
  destruct (batch_fits F n d Hn rs h t x y nb L D Tr Fo (conj T1 (conj T2 (conj T3 (conj T4 (conj T5 (conj T6 (conj T7 T8))))))) Sx Wy Ry Ty) as (hf & tf & Ef & _).
  unfold trainBatch in Ef. rewrite B1 in Ef. cbn [bind] in Ef. destruct (optimizeAll F cabs h2 t1) as [[h3 t3]|] eqn:Eo3; cbn [bind rmap hom fst snd] in *; [|discriminate].
  assert (Q : tinOut F t3 = v).
  { pose proof (optimizeAll_om (tinOut F t1) (tgrad F t1) (ttrain F t1) h2 t1) as Q. replace (om (tinOut F t1) (tgrad F t1) (ttrain F t1) t1) with t1 in Q by (destruct t1; reflexivity). rewrite Eo3 in Q. cbn [rmap hom fst snd] in Q.
    injection Q as Q. rewrite Q. reflexivity. }
  destruct (optimizeAll_post F cabs _ _ _ _ Eo3) as (_ & (Z1 & Z2 & _ & _ & Z3 & _) & _). change (tc F t1) with (tc F t) in Z1. change (tbal F t1) with (tbal F t) in Z2. change (tnl F t1) with (tnl F t) in Z3.
  change (tinOut F (om v' gs' dt t3)) with v'. change (tnl F (om v' gs' dt t3)) with (tnl F t3). rewrite Q, Z3, T1. fold ls. unfold rget. rewrite Eo, Eo'. cbn [bind].
  rewrite <- Z1 in Ty. rewrite <- Z2 in T6.
  destruct (online_rel F s HS n t3 (om v' gs' dt t3) nb (d (length ls)) q o o' y y' R Pm T6 So Hy Ty eq_refl eq_refl eq_refl eq_refl) as (a & b & -> & ->). cbn [bind].
  do 4 eexists. split; [reflexivity|]. split; [reflexivity|]. split; auto.
Qed.
End Net.
End Any.

(* FitNet3.v - a whole training run on a well-sized network ends *)
From Coq Require Import String List Arith Bool Lia ZArith Permutation.
From Verif Require Import Base Scalar Mat SpecMat MatFacts MatProofs MatLoops MatProps Loss Optim Regul LayMat Layer Net NetTrain OptProofs SpecOpt NetProofs1 NetProofs2
  SpecFit FitLay1 FitLay2 FitLay3 FitNet1 FitNet2.
Import ListNotations.
Local Open Scope nat_scope.

Section Any.
Variable F : FOps.
Notation M := (mat F).

(** * data *)
Lemma cell_of : forall r c (f : nat -> nat -> F) x, In x (mdata (mgen r c f)) -> exists i j, i < r /\ j < c /\ x = f i j.
Proof. intros r c f x H. unfold mgen in H. cbn [mdata] in H. apply in_flat_map in H. destruct H as (i & Hi & H). apply in_map_iff in H. destruct H as (j & <- & Hj). apply in_seq in Hi. apply in_seq in Hj. exists i, j. repeat split; auto; lia. Qed.
Lemma cell_at : forall r c (f : nat -> nat -> F) i j, i < r -> j < c -> In (f i j) (mdata (mgen r c f)).
Proof. intros r c f i j Hi Hj. unfold mgen. cbn [mdata]. apply in_flat_map. exists i. split; [apply in_seq; lia|]. apply in_map_iff. exists j. split; auto. apply in_seq. lia. Qed.
Lemma truth_rows : forall k m N q n (Y : nat -> nat -> F) p, truthOk k m (mgen N q Y) -> (forall i, i < n -> p i < N) -> truthOk k m (mgen n q (fun i j => Y (p i) j)).
Proof.
  intros k m N q n Y p H Hp. destruct k; unfold truthOk in *; auto. destruct H as [A B]. split; auto. intros x Hx. apply B. apply cell_of in Hx. destruct Hx as (i & j & Hi & Hj & ->). apply (cell_at N q Y (p i) j); auto.
Qed.
Lemma data_gen : forall k m lo (x y : M), dataOk k m lo (x, y) -> exists N q X Y, x = mgen N k X /\ y = mgen N q Y /\ truthOk lo m (mgen N q Y).
Proof.
  intros k m lo x y (A & B & C & D & E). cbn [fst snd] in *. exists (mrows x), (mcols y). destruct (mwf_is_gen F x A) as [X EX]. destruct (mwf_is_gen F y B) as [Y EY]. rewrite C in EX. rewrite D in EY. exists X, Y. split; auto. split; auto. rewrite <- EY. auto.
Qed.
Lemma gen_data : forall k m lo N q (X Y : nat -> nat -> F), truthOk lo m (mgen N q Y) -> dataOk k m lo (mgen N k X, mgen N q Y).
Proof. intros. split; [apply mwf_gen|]. split; [apply mwf_gen|]. repeat split; auto. Qed.
Lemma data_view : forall k m lo (x y : M) s e, dataOk k m lo (x, y) -> s < e -> e <= mrows x ->
  exists x' y', viewRow F x s e = Ok x' /\ viewRow F y s e = Ok y' /\ shp (e - s) k x' /\ mwf y' /\ mrows y' = e - s /\ truthOk lo m y'.
Proof.
  intros k m lo x y s e H Hs He. destruct (data_gen _ _ _ _ _ H) as (N & q & X & Y & -> & -> & Ty). change (mrows (mgen N k X)) with N in He.
  exists (mgen (e - s) k (fun i j => X (s + i) j)), (mgen (e - s) q (fun i j => Y (s + i) j)). rewrite !viewRow_gen by auto. split; auto. split; auto. split; [apply gen_shp|]. split; [apply mwf_gen|]. split; auto.
  apply (truth_rows lo m N q (e - s) Y (fun i => s + i)); auto. intros. lia.
Qed.
Lemma data_perm : forall k m lo (x y : M) draw, dataOk k m lo (x, y) ->
  exists v x' y', randPerm draw (mrows x) = Ok v /\ applyRowPermutation F v x (mempty F) = Ok x' /\ applyRowPermutation F v y (mempty F) = Ok y' /\ dataOk k m lo (x', y') /\ mrows x' = mrows x.
Proof.
  intros k m lo x y draw H. destruct (data_gen _ _ _ _ _ H) as (N & q & X & Y & -> & -> & Ty). change (mrows (mgen N k X)) with N.
  destruct (randPerm_perm draw N) as (v & Ev & Pv). assert (Lv : length v = N) by (rewrite <- (Permutation_length Pv); apply seq_length).
  assert (In_v : forall x, In x v -> x < N). { intros x Hx. apply (Permutation_in x (Permutation_sym Pv)) in Hx. apply in_seq in Hx. lia. }
  exists v, (mgen N k (fun i j => X (nth i v 0) j)), (mgen N q (fun i j => Y (nth i v 0) j)). rewrite !applyRowPermutation_gen by (solve [auto | reflexivity]). repeat (split; [solve [auto]|]). split; auto. apply gen_data.
  apply (truth_rows lo m N q N Y (fun i => nth i v 0)); auto. intros i Hi. apply In_v. apply nth_In. lia.
Qed.
Lemma ceil_lt : forall n b i, 0 < b -> i < ceilDiv n b -> i * b < n.
Proof. intros n b i Hb Hi. unfold ceilDiv in Hi. pose proof (Nat.mul_div_le (n + b - 1) b ltac:(lia)) as A. pose proof (Nat.mul_le_mono_l (S i) _ b Hi) as B. nia. Qed.

Lemma trOk_net : forall n n' h (t : trainer F), nlay n = nlay n' -> trOk F n h t -> trOk F n' h t.
Proof. intros n n' h t E H. unfold trOk, regW, regB in *. rewrite <- E. auto. Qed.

(** * statistics, batches *)
Lemma accuracy_fits : forall rs h n d (t : trainer F) x y, NoDup (nlay n) -> dims F h (nlay n) d -> 0 < cValBatch F (tc F t) -> bon F (tbal F t) = false ->
  dataOk (d 0) (d (length (nlay n))) (cLoss F (tc F t)) (x, y) -> exists h' l a, lossAccuracy F (absFloat F) rs h n t x y = Ok (h', l, a) /\ dims F h' (nlay n) d /\ moves F true (nlay n) h h'.
Proof.
  intros rs h n d t x y Hn D Hv Hb Hd. unfold lossAccuracy. cbv zeta. set (nS := mrows x). set (vb := cValBatch F (tc F t)) in *.
  destruct (Nat.eqb_spec (length (nlay n)) 0) as [Z|Z]; [do 3 eexists; split; [reflexivity|]; split; auto; apply moves_refl|]. destruct (Nat.eqb_spec nS 0) as [Z0|Z0]; [do 3 eexists; split; [reflexivity|]; split; auto; apply moves_refl|]. cbn [orb].
  rewrite (proj2 (Nat.eqb_neq vb 0)) by lia. pose proof (dims_pos F _ _ _ (length (nlay n)) D ltac:(lia) (le_n _)) as Pm.
  match goal with |- context [forN _ ?b ?s] => destruct (@forN_inv _ (fun _ (p : heap F * M * M * F * nat) => let '(h', o, ml, _, _) := p in dims F h' (nlay n) d /\ moves F true (nlay n) h h' /\ mwf o /\ mwf ml) (ceilDiv nS vb) b s) as ([[[[h' o] ml] lo] go] & E & I1 & I2 & _) end.
  - split; auto. split; [apply moves_refl|]. split; reflexivity.
  - intros b [[[[h1 o] ml] lo] go] Hi (I1 & I2 & Wo & Wm). pose proof (ceil_lt nS vb b Hv Hi) as Lb. set (e := Nat.min (b * vb + vb) nS).
    destruct (data_view _ _ _ x y (b * vb) e Hd) as (x' & y' & Ex & Ey & Sx & Wy & Ry & Ty); [unfold e; lia|unfold e, nS; lia|]. rewrite Ex. cbn [bind]. rewrite Ey. cbn [bind].
    destruct (predict_fits F n d Hn (rs b) h1 x' o (e - b * vb)) as (h2 & o2 & Ep & So & D2 & M2); auto; [lia|]. rewrite Ep. cbn [bind].
    destruct (compute_ok F (cLoss F (tc F t)) (tbal F t) _ _ o2 y' ml Hb So Wy Ry Ty Wm) as (r & c & l & El & Sl). rewrite El. cbn [bind]. destruct (mean_ok F _ _ _ Sl) as [xm Em]. rewrite Em. cbn [bind].
    pose proof (truth_cols F _ _ _ Ty) as Cy. destruct (good_ok F (e - b * vb) (d (length (nlay n))) o2 y' go Pm So Wy Ry Cy) as [g Eg].
    replace (if negb (mcols y' =? 1) then assert_ (mcols o2 =? mcols y') else Ok tt) with (Ok tt : res unit).
    2:{ destruct (Nat.eqb_spec (mcols y') 1) as [|N]; auto. destruct Cy as [Cy|]; [|contradiction]. destruct So as (_ & _ & Co). rewrite Co, Cy, Nat.eqb_refl. reflexivity. }
    cbn [bind]. rewrite Eg. cbn [bind]. eexists. split; [reflexivity|]. split; auto. split; [eapply moves_trans; eauto|]. split; eapply shp_wf; eauto.
  - rewrite E. cbn [bind]. do 3 eexists. split; [reflexivity|]. auto.
Qed.
Lemma epochBatches_fits : forall rs h n d (t : trainer F) x y, NoDup (nlay n) -> 0 < length (nlay n) -> dims F h (nlay n) d -> modeAll F true h (nlay n) -> firstOnly F h (nlay n) -> trOk F n h t ->
  (mrows x = 0 \/ 0 < tadj F t) -> dataOk (d 0) (d (length (nlay n))) (cLoss F (tc F t)) (x, y) ->
  exists h' t', trainOneEpoch F (absFloat F) rs h n t x y = Ok (h', t') /\ dims F h' (nlay n) d /\ moves F true (nlay n) h h' /\ trOk F n h' t' /\ same F t t'.
Proof.
  intros rs h n d t x y Hn L D Tr Fo Ok0 Ha Hd. unfold trainOneEpoch. cbv zeta. destruct (Nat.eqb_spec (mrows x) 0) as [Z|Z]; [do 2 eexists; split; [reflexivity|]; split; auto; split; [apply moves_refl|]; split; auto; apply same_refl|].
  destruct Ha as [|Ha]; [contradiction|]. rewrite (proj2 (Nat.eqb_neq (tadj F t) 0)) by lia.
  match goal with |- context [forN _ ?b ?s] => destruct (@forN_inv _ (fun _ (p : heap F * trainer F) => dims F (fst p) (nlay n) d /\ moves F true (nlay n) h (fst p) /\ trOk F n (fst p) (snd p) /\ same F t (snd p)) (ceilDiv (mrows x) (tadj F t)) b s) as ([h' t'] & E & I1 & I2 & I3 & I4) end.
  - cbn [fst snd]. split; auto. split; [apply moves_refl|]. split; auto. apply same_refl.
  - intros b [h1 t1] Hi. cbn [fst snd]. intros (I1 & I2 & I3 & I4). pose proof (ceil_lt _ _ _ Ha Hi) as Lb. set (e := Nat.min (b * tadj F t + tadj F t) (mrows x)).
    destruct (data_view _ _ _ x y (b * tadj F t) e Hd) as (x' & y' & Ex & Ey & Sx & Wy & Ry & Ty); [unfold e; lia|unfold e; lia|]. rewrite Ex. cbn [bind]. rewrite Ey. cbn [bind].
    pose proof (dims_alive F _ _ _ D) as Al. destruct (batch_fits F n d Hn (rs b) h1 t1 x' y' (e - b * tadj F t)) as (h2 & t2 & E2 & D2 & M2 & O2 & S2); auto.
    { eapply moves_mode; eauto. } { eapply moves_first; eauto. } { destruct I4 as (-> & _). auto. }
    rewrite E2. eexists. split; [reflexivity|]. cbn [fst snd]. split; auto. split; [eapply moves_trans; eauto|]. split; auto. eapply same_trans; eauto.
  - exists h', t'. auto.
Qed.

Lemma epochTrain_fits : forall R e h n d (t : trainer F) x y, NoDup (nlay n) -> 0 < length (nlay n) -> dims F h (nlay n) d -> firstOnly F h (nlay n) -> trOk F n h t ->
  (mrows x = 0 \/ 0 < tadj F t) -> dataOk (d 0) (d (length (nlay n))) (cLoss F (tc F t)) (x, y) ->
  exists h' t', epochTrain F (absFloat F) R e h n t x y = Ok (h', mkNet (nlay n) (nclass n) false, t') /\ dims F h' (nlay n) d /\ moves F false (nlay n) h h' /\ trOk F n h' t' /\ same F t t' /\ modeAll F false h' (nlay n).
Proof.
  intros R e h n d t x y Hn L D Fo Ok0 Ha Hd. unfold epochTrain. cbv zeta. set (t0 := setOnline F t (f0 F) 0). change (tadj F t0) with (tadj F t).
  assert (exists x' y', (if tadj F t <? mrows x then v <- randPerm (oShuffle F R e) (mrows x);; x0 <- applyRowPermutation F v x (mempty F);; y0 <- applyRowPermutation F v y (mempty F);; Ok (x0, y0) else Ok (x, y)) = Ok (x', y') /\
    dataOk (d 0) (d (length (nlay n))) (cLoss F (tc F t)) (x', y') /\ mrows x' = mrows x) as (x' & y' & Ep & Hd' & Rx).
  { destruct (tadj F t <? mrows x); [|eauto]. destruct (data_perm _ _ _ _ _ (oShuffle F R e) Hd) as (v & x' & y' & E1 & E2 & E3 & E4 & E5). rewrite E1. cbn [bind]. rewrite E2. cbn [bind]. rewrite E3. cbn [bind]. eauto. }
  rewrite Ep. cbn [bind]. destruct (setTrain_fits F h n d true Hn D) as (h1 & E1 & D1 & M1 & T1). rewrite E1. cbn [bind]. set (n1 := mkNet (nlay n) (nclass n) true).
  pose proof (dims_alive F _ _ _ D) as Al.
  destruct (epochBatches_fits (oTrain F R e) h1 n1 d t0 x' y') as (h2 & t2 & E2 & D2 & M2 & O2 & S2); auto.
  { cbn [n1 nlay]. eapply moves_first; eauto. }
  { apply (trOk_net n); auto. apply (trOk_moves F n false h h1 t0 M1). exact Ok0. }
  { rewrite Rx. exact Ha. }
  rewrite E2. cbn [bind]. destruct (setTrain_fits F h2 n1 d false Hn D2) as (h3 & E3 & D3 & M3 & T3). cbn [nlay nclass n1] in *. fold n1 in E3. rewrite E3. cbn [bind]. exists h3, t2. split; [reflexivity|]. split; auto.
  split; [eapply moves_trans; [exact M1|]; eapply moves_trans; [eapply moves_weak; exact M2|exact M3]|]. split; [|split; [exact S2|exact T3]].
  apply (trOk_net n1); auto. apply (trOk_moves F n1 false h2 h3 t2 M3). auto.
Qed.

(** * the epochs *)
Section Run.
Variables (ls : list nat) (d : nat -> nat) (cl : bool) (c0 : settings F) (v0 : option (M * M)) (adj : nat) (x y : M).
Hypothesis Hn : NoDup ls.
Hypothesis L : 0 < length ls.
Hypothesis Hpat : cPatience F c0 = (-1)%Z.
Hypothesis Hvb : 0 < cValBatch F c0.
Hypothesis Hd : dataOk (d 0) (d (length ls)) (cLoss F c0) (x, y).
Hypothesis Hv : forall p, v0 = Some p -> dataOk (d 0) (d (length ls)) (cLoss F c0) p.
Hypothesis Ha : mrows x = 0 \/ 0 < adj.

Definition bestOk (h : heap F) (b : net) : Prop :=
  live F h b /\ (forall a, In a (nlay b) -> ~ In a ls) /\ (cKeep F c0 = true -> (length (nlay b) = length ls /\ nclass b = cl) /\ dims F h (nlay b) d).
Definition runOk (e : nat) (s : fstate F) : Prop :=
  nlay (sn F s) = ls /\ nclass (sn F s) = cl /\ dims F (sh F s) ls d /\ firstOnly F (sh F s) ls /\ trOk F (sn F s) (sh F s) (st F s) /\
  (tc F (st F s) = c0 /\ ttrain F (st F s) = Some (x, y)) /\ tval F (st F s) = v0 /\ tadj F (st F s) = adj /\ bestOk (sh F s) (sbest F s) /\ (0 < e -> modeAll F false (sh F s) ls /\ ntrain (sn F s) = false).

Lemma best_frame : forall T h h' b, moves F T ls h h' -> bestOk h b -> bestOk h' b.
Proof.
  intros T h h' b (A1 & A2 & A3) ((B1 & B2) & C & D). split; [|split; auto].
  - split; auto. intros a Ha0. destruct (B2 a Ha0) as [l El]. destruct (A3 _ _ El) as (l' & El' & _). eauto.
  - intro K. destruct (D K) as [D1 D2]. split; auto. eapply frame_dims; eauto.
Qed.
Lemma alive_in : forall (h : heap F) a l, hget F h a = Ok l -> a < length h.
Proof. intros. eapply hget_lt; eauto. Qed.

Lemma epoch_fits : forall R e s, runOk e s -> exists s', epoch F (absFloat F) R x y e s = Ok s' /\ runOk (S e) s'.
Proof.
  intros R e [h n t best A Ls reb calls] (I1 & I2 & I3 & I4 & I5 & (I6 & I6') & I7 & I8 & I9 & _). cbn [sh sn st sbest] in *. unfold epoch. cbn [sh sn st sbest sacc sloss sreb scalls].
  assert (Hn' : NoDup (nlay n)) by congruence. assert (L' : 0 < length (nlay n)) by congruence. rewrite <- I1 in I3, I4.
  destruct (epochTrain_fits R e h n d t x y Hn' L' I3 I4 I5) as (h1 & t1 & E1 & D1 & M1 & O1 & S1 & T1). { rewrite I8. auto. } { rewrite I1, I6. auto. }
  rewrite E1. cbn [bind]. set (n1 := mkNet (nlay n) (nclass n) false) in *.
  assert (O1' : trOk F n1 h1 t1) by (apply (trOk_net n); auto). pose proof (dims_alive F _ _ _ I3) as Al.
  assert (F1 : firstOnly F h1 (nlay n)) by (eapply moves_first; eauto).
  destruct S1 as (S11 & S12 & S13 & S14 & S15 & S16 & S17).
  (* statistics *)
  assert (exists h2 H l a, epochStats F (absFloat F) R e h1 n1 t1 (mrows x) = Ok (h2, setHist F t1 H, l, a) /\ dims F h2 (nlay n) d /\ moves F true (nlay n) h1 h2) as (h2 & H & sl & sa & E2 & D2 & M2).
  { unfold epochStats. cbv zeta. rewrite S15, I7. destruct v0 as [[xv yv]|] eqn:Ev; [|do 4 eexists; split; [reflexivity|]; split; auto; apply moves_refl].
    match goal with |- context [lossAccuracy F (absFloat F) (oVal F R e) h1 n1 ?t xv yv] => destruct (accuracy_fits (oVal F R e) h1 n1 d t xv yv) as (h2 & l & a & E & D2 & M2) end; auto.
    - change (tc F (setHist F t1 _)) with (tc F t1). rewrite S11, I6. auto.
    - apply O1.
    - change (tc F (setHist F t1 _)) with (tc F t1). rewrite S11, I6. cbn [n1 nlay]. rewrite I1. auto.
    - rewrite E. cbn [bind]. do 4 eexists. split; [reflexivity|]. auto. }
  rewrite E2. cbn [bind]. set (t2 := setHist F t1 H). change (tcallback F t2) with (tcallback F t1). set (calls' := if tcallback F t1 then calls ++ [th F t2] else calls).
  assert (O2 : trOk F n1 h2 t2). { apply (trOk_moves F n1 true h1 h2 t2 M2). exact O1'. }
  assert (F2 : firstOnly F h2 (nlay n)) by (eapply moves_first; eauto; eapply dims_alive; eauto).
  assert (T2 : modeAll F false h2 (nlay n)) by (eapply moves_mode; eauto; eapply dims_alive; eauto).
  assert (B2 : bestOk h2 best). { eapply best_frame; [|eapply best_frame; [|exact I9]]; [rewrite <- I1; exact M2|rewrite <- I1; exact M1]. }
  assert (C2 : tc F t2 = c0) by (change (tc F t2) with (tc F t1); congruence).
  assert (X2 : ttrain F t2 = Some (x, y)) by (change (ttrain F t2) with (ttrain F t1); congruence).
  assert (V2 : tval F t2 = v0) by (change (tval F t2) with (tval F t1); congruence).
  assert (J2 : tadj F t2 = adj) by (change (tadj F t2) with (tadj F t1); congruence).
  (* best *)
  assert (exists s3, epochBest F R e (mkFS F h2 n1 t2 best A Ls reb calls') sl sa = Ok s3 /\ runOk (S e) s3) as (s3 & E3 & R3).
  { unfold epochBest. rewrite C2, Hpat. cbn [Z.eqb negb]. rewrite andb_true_r.
    assert (R0 : forall k c b, runOk (S e) (mkFS F h2 n1 (setCur F t2 k) best c b reb calls')).
    { intros. split; cbn [sh sn st sbest nlay nclass n1]; [auto|]. split; [exact I2|]. split; [rewrite <- I1; auto|]. split; [rewrite <- I1; auto|]. split; [exact O2|]. split; [exact (conj C2 X2)|]. split; [exact V2|]. split; [exact J2|]. split; auto. intros _. rewrite <- I1. auto. }
    destruct (cKeep F c0) eqn:Kp; cbn [negb].
    2:{ eexists. split; [reflexivity|]. specialize (R0 (tcur F t2) A Ls). replace (setCur F t2 (tcur F t2)) with t2 in R0 by (destruct t2; reflexivity). exact R0. }
    cbv zeta.
    set (better := if nclass n1 then flt F A sa else flt F sl Ls). destruct better.
    + destruct B2 as (B21 & B22 & B23). destruct (assign_fits F (oSnap F R e) h2 best n1 d B21 D2) as (h3 & b3 & E & Q1 & Q2 & Q3 & Q4 & Q5 & Q6 & Q7 & Q8).
      { intros a Ha0. cbn [n1 nlay]. rewrite I1. auto. }
      rewrite E. cbn [bind]. change (tc F (setCur F t2 0%Z)) with (tc F t2). rewrite C2, Hpat. cbn [Z.eqb negb]. rewrite andb_false_r. eexists. split; [reflexivity|].
      assert (Fr : forall a, In a ls -> nth_error h3 a = nth_error h2 a).
      { intros a Ha0. apply Q8; [|intro Q; apply (B22 a Q); auto]. rewrite <- I1 in Ha0. destruct (dims_alive F _ _ _ D2 a Ha0) as [l El]. eapply hget_lt; eauto. }
      assert (Hg : forall a, In a ls -> hget F h3 a = hget F h2 a). { intros a Ha0. unfold hget, rget. rewrite Fr; auto. }
      split; cbn [sh sn st sbest nlay nclass n1]; [auto|]. split; [exact I2|]. split; [rewrite <- I1 in *; eapply frame_dims; eauto|].
      split; [intros i a l Ea El; rewrite Hg in El by (eapply nth_error_In; eauto); apply (F2 i a l); auto; congruence|].
      split. { destruct O2 as (P1 & P2 & P3 & P4 & P5 & P6 & P7 & P8). unfold trOk. do 6 (split; [solve [auto]|]). split.
        - intros i a Ea. destruct (P7 i a Ea) as (Pa & l & o & Pl & Pr). split; auto. exists l, o. split; auto. cbn [n1 nlay] in Pa. rewrite Hg; auto. congruence.
        - intros i a Ea. destruct (P8 i a Ea) as (Pa & l & o & Pl & Pr). split; auto. exists l, o. split; auto. cbn [n1 nlay] in Pa. rewrite Hg; auto. congruence. }
      split; [exact (conj C2 X2)|]. split; [exact V2|]. split; [exact J2|]. split.
      * split; [split; auto; eapply dims_alive; eauto|]. split; [|intros _; split; auto; rewrite Q1, Q2; cbn [n1 nlay nclass]; split; congruence].
        intros a Ha0 Hin. specialize (Q7 a Ha0). rewrite <- I1 in Hin. destruct (dims_alive F _ _ _ D2 a Hin) as [l El]. pose proof (hget_lt _ _ _ _ El). lia.
      * intros _. split; auto. intros a l Ha0 El. rewrite Hg in El by auto. apply (T2 a l); auto. congruence.
    + cbn [bind]. change (tc F (setCur F t2 _)) with (tc F t2). rewrite C2, Hpat. cbn [Z.eqb negb]. rewrite andb_false_r. eexists. split; [reflexivity|]. apply R0. }
  rewrite E3. cbn [bind]. eexists. split; [reflexivity|].
  (* reboost *)
  destruct s3 as [h3 n3 t3 b3 A3 L3 r3 c3]. unfold epochReboost. cbv zeta. destruct (cReboost F (tc F t3) =? -1)%Z; auto. destruct (r3 <? cReboost F (tc F t3))%Z; auto.
  destruct R3 as (P1 & P2 & P3 & P4 & P5 & P6 & P7 & P8 & P9 & P10). cbn [sh sn st sbest] in *. unfold runOk. cbn [sh sn st sbest]. do 4 (split; [solve [auto]|]). split; [|do 3 (split; [solve [auto]|]); auto].
  destruct P5 as (Q1 & Q2 & Q3 & Q4 & Q5 & Q6 & Q7 & Q8). unfold trOk. do 6 (split; [solve [auto]|]).
  assert (In0 : forall q o, nth_error (topts F t3) q = Some o -> nth_error (map (init F) (topts F t3)) q = Some (init F o)) by (intros q o Eq; rewrite nth_error_map, Eq; reflexivity). split.
  - intros i a Ea. destruct (Q7 i a Ea) as (Pa & l & o & Pl & Pw & Po & Pk). split; auto. exists l, (init F o). split; auto. split; auto. split; [apply In0; auto|]. apply opt_init. apply Pk.
  - intros i a Ea. destruct (Q8 i a Ea) as (Pa & l & o & Pl & Pw & Po & Pk). split; auto. exists l, (init F o). split; auto. split; auto. split; [apply (In0 _ _ Po)|]. apply opt_init. apply Pk.
Qed.

(** * the end *)
Lemma fitEnd_fits : forall R e s, runOk e s -> exists h' n', fitEnd F R s = Ok (h', n', st F s, scalls F s) /\ length (nlay n') = length ls /\ nclass n' = cl /\
  dims F h' (nlay n') d /\ NoDup (nlay n') /\ firstOnly F h' (nlay n') /\ (cKeep F c0 = true \/ 0 < e -> modeAll F false h' (nlay n')).
Proof.
  intros R e [h n t best A Ls reb calls] (I1 & I2 & I3 & I4 & I5 & (I6 & I6') & I7 & I8 & I9 & I10). cbn [sh sn st sbest] in *. unfold fitEnd. cbn [sh sn st sbest scalls]. rewrite I6. destruct I9 as ((B1 & B1') & B2 & B3).
  assert (Cl : forall h1 n1, (forall a, In a (nlay best) -> nth_error h1 a = nth_error h a) -> dims F h1 (nlay n1) d -> NoDup (nlay n1) -> (forall a, In a (nlay n1) -> ~ In a (nlay best)) ->
     exists h', (' (h, _) <- netClear F h1 best ;; Ok (h, n1, t, calls)) = Ok (h', n1, t, calls) /\ dims F h' (nlay n1) d /\ (modeAll F false h1 (nlay n1) -> modeAll F false h' (nlay n1)) /\ (firstOnly F h1 (nlay n1) -> firstOnly F h' (nlay n1))).
  { intros h1 n1 Fr D1 N1 Dj. unfold netClear. destruct (forL_free F (nlay best) h1 B1) as (h2 & E2 & L2 & A2 & C2).
    { intros a Ha0. destruct (B1' a Ha0) as [l El]. exists l. apply hget_ok. rewrite Fr by auto. apply hget_ok. auto. }
    rewrite E2. cbn [bind]. exists h2. split; [reflexivity|]. split; [eapply frame_dims; eauto|]. split.
    - intros T a l Ha0 El. apply (T a l); auto. unfold hget, rget in *. rewrite C2 in El by auto. auto.
    - intros T i a l Ha0 El. apply (T i a l); auto. unfold hget, rget in *. rewrite C2 in El by (apply Dj; eapply nth_error_In; eauto). auto. }
  destruct (cKeep F c0) eqn:Kp.
  - destruct (B3 eq_refl) as [[Lb Kb] Db]. assert (Ln : live F h n). { split; [congruence|]. rewrite I1. eapply dims_alive; eauto. }
    destruct (assign_fits F (oLast F R) h n best d Ln Db) as (h1 & n1 & E & Q1 & Q2 & Q3 & Q4 & Q5 & Q6 & Q7 & Q8). { intros a Ha0 Hb0. apply (B2 a); auto. congruence. }
    rewrite E. cbn [bind].
    assert (Lt : forall a, In a (nlay best) -> a < length h). { intros a Ha0. destruct (B1' a Ha0) as [l El]. eapply hget_lt; eauto. }
    destruct (Cl h1 n1) as (h' & E' & D' & T' & G'); auto. { intros a Ha0. apply Q8; auto. intro Q. apply (B2 a); auto. congruence. } { intros a Ha0 Hb0. specialize (Q7 a Ha0). specialize (Lt a Hb0). lia. }
    exists h', n1. split; [exact E'|]. split; [congruence|]. split; [congruence|]. split; auto. split; auto. split; auto. apply G'. intros i a l Ea El. apply (Q6 (S i) a l); auto.
  - cbn [bind]. rewrite <- I1 in I3. destruct (Cl h n) as (h' & E' & D' & T' & G'); auto. { congruence. } { intros a Ha0 Hb0. apply (B2 a); auto. congruence. }
    exists h', n. split; [exact E'|]. split; [congruence|]. split; auto. split; auto. split; [congruence|]. split; [apply G'; rewrite I1; auto|]. intros [|He]; [discriminate|]. apply T'. rewrite I1. apply I10. auto.
Qed.
End Run.

(** * the beginning *)
Lemma vresize_ok : forall (v : list M) k, Forall mwf v -> length (vresize F v k) = k /\ Forall mwf (vresize F v k).
Proof.
  intros v k H. unfold vresize. split; [rewrite app_length, firstn_length, repeat_length; lia|]. apply Forall_app. split.
  - rewrite Forall_forall in *. intros z Hz. apply H. rewrite <- (firstn_skipn k v). apply in_app_iff. auto.
  - rewrite Forall_forall. intros z Hz. apply repeat_spec in Hz. subst. reflexivity.
Qed.
Lemma collect_fits : forall h n d has, dims F h (nlay n) d -> exists ps, collect F h n has = Ok ps /\ forall a, In a ps -> In a (nlay n) /\ exists l, hget F h a = Ok l /\ has l = true.
Proof.
  intros h n d has D. unfold collect.
  destruct (@forN_inv _ (fun _ (ps : list nat) => forall a, In a ps -> In a (nlay n) /\ exists l, hget F h a = Ok l /\ has l = true) (length (nlay n)) (fun i p => a <- rget (nlay n) i ;; l <- hget F h a ;; Ok (if has l then p ++ [a] else p)) []) as (ps & E & H).
  - intros a [].
  - intros i ps Hi H. destruct (nth_error (nlay n) i) as [a|] eqn:Ea; [|apply nth_error_None in Ea; lia]. destruct (D i a Ea) as (l & El & _). unfold rget. rewrite Ea. cbn [bind]. rewrite El. cbn [bind]. eexists. split; [reflexivity|].
    intros b Hb. destruct (has l) eqn:Hl; auto. apply in_app_iff in Hb. destruct Hb as [Hb|[<-|[]]]; auto. split; [eapply nth_error_In; eauto|eauto].
  - eauto.
Qed.
Lemma setNet_fits : forall h n d (t : trainer F) k, NoDup (nlay n) -> dims F h (nlay n) d -> firstOnly F h (nlay n) -> create_optimizer (cOpt F (tc F t)) = Some k -> Forall mwf (tinOut F t) -> Forall mwf (tgrad F t) ->
  exists h' t', setNet F h n t = Ok (h', t') /\ dims F h' (nlay n) d /\ firstOnly F h' (nlay n) /\ (forall b, bon F b = false -> trOk F n h' (setBal F t' b)) /\ same F t t' /\ tnl F t' = length (nlay n).
Proof.
  intros h n d t k Hn D Fo Hk Wi Wg. unfold setNet. cbv zeta.
  assert (exists h1, (match nlay n with a :: _ => l <- hget F h a ;; hset F h a (setFirst l true) | [] => Ok h end) = Ok h1 /\ dims F h1 (nlay n) d /\ firstOnly F h1 (nlay n)) as (h1 & E1 & D1 & F1).
  { destruct (nlay n) as [|a r] eqn:El; [eauto|]. destruct (D 0 a eq_refl) as (l & Ea & Fl). rewrite Ea. cbn [bind]. rewrite (hset_ok _ _ _ _ _ Ea). eexists. split; [reflexivity|]. pose proof (hget_lt _ _ _ _ Ea) as La. split.
    - eapply (upd_dims F (a :: r) d h 0); eauto. 
    - intros i b lb Eb Elb. rewrite hget_upd in Elb by auto. destruct (Nat.eqb_spec a b) as [<-|N]; [|eauto]. exfalso. simpl in Eb. inversion Hn; subst. apply H1. eapply nth_error_In; eauto. }
  rewrite E1. cbn [bind]. destruct (collect_fits h1 n d hasWeights D1) as (pw & Ew & Hw). destruct (collect_fits h1 n d hasBiases D1) as (pb & Eb & Hb). rewrite Ew. cbn [bind]. rewrite Eb. cbn [bind].
  destruct (@forN_inv _ (fun i (os : list (opt F)) => length os = i /\ forall o, In o os -> forall r c, optOk F r c o) (length pw + length pb) (fun _ os => match create_optimizer (cOpt F (tc F t)) with Some k0 => Ok (os ++ [set_params F (newOpt F k0) (cLr F (tc F t)) (cDecay F (tc F t)) (cMom F (tc F t))]) | None => Err ENull end) []) as (os & Eo & Lo & Ho).
  - split; auto. intros o [].
  - intros i os Hi [Lo Ho]. rewrite Hk. eexists. split; [reflexivity|]. split; [rewrite app_length; simpl; lia|]. intros o Hin. apply in_app_iff in Hin. destruct Hin as [Hin|[<-|[]]]; auto. intros. apply opt_new.
  - rewrite Eo. cbn [bind]. do 2 eexists. split; [reflexivity|]. split; auto. split; auto. split; [|split; [repeat split; reflexivity|reflexivity]].
    intros b Bb. destruct (vresize_ok (tinOut F t) (length (nlay n) + 1) Wi) as [V1 V2]. destruct (vresize_ok (tgrad F t) (length (nlay n) + 1) Wg) as [V3 V4].
    unfold trOk. cbn [tnl setBal tinOut tgrad tbal]. split; auto. split; [lia|]. split; auto. split; [lia|]. split; auto. split; auto.
    assert (Ex : forall q, q < length pw + length pb -> exists o, nth_error os q = Some o /\ forall r c, optOk F r c o).
    { intros q Hq. destruct (nth_error os q) as [o|] eqn:Eq; [|apply nth_error_None in Eq; lia]. exists o. split; auto. apply Ho. eapply nth_error_In; eauto. }
    split.
    + intros i a Ea. cbn [setBal tpw topts] in *. destruct (Hw a (nth_error_In _ _ Ea)) as (Pa & l & El & Hl). split; auto. assert (i < length pw) by (apply nth_error_Some; congruence). destruct (Ex i) as (o & Eq & Oq); [lia|]. exists l, o. auto.
    + intros i a Ea. cbn [setBal tpw tpb topts] in *. destruct (Hb a (nth_error_In _ _ Ea)) as (Pa & l & El & Hl). split; auto. assert (i < length pb) by (apply nth_error_Some; congruence). destruct (Ex (i + length pw)) as (o & Eq & Oq); [lia|]. exists l, o. auto.
Qed.

Lemma start_fits : forall R h n d (t : trainer F) x y, NoDup (nlay n) -> dims F h (nlay n) d -> firstOnly F h (nlay n) -> (forall b, bon F b = false -> trOk F n h (setBal F t b)) ->
  (cBalancing F (tc F t) = false \/ nclass n = false) -> 0 < cValBatch F (tc F t) ->
  dataOk (d 0) (d (length (nlay n))) (cLoss F (tc F t)) (x, y) -> (forall p, tval F t = Some p -> dataOk (d 0) (d (length (nlay n))) (cLoss F (tc F t)) p) -> ttrain F t = Some (x, y) ->
  exists s adj, fitStart F (absFloat F) R h n t x y = Ok s /\ (mrows x = 0 \/ 0 < adj) /\ runOk (nlay n) d (nclass n) (tc F t) (tval F t) adj x y 0 s.
Proof.
  intros R h n d t x y Hn D Fo Ot Hc Hvb Hd Hv Htr. unfold fitStart, updateClassWeight.
  replace (negb (nclass n) || negb (cBalancing F (tc F t))) with true by (destruct Hc as [-> | ->]; destruct (nclass n); reflexivity). cbn [bind]. cbv zeta.
  set (t1 := setBal F t (set_class_balancing F (mempty F))). match goal with |- context [map (init F) (topts F ?u)] => set (t2 := u) end. set (t3 := setOpts F t2 (map (init F) (topts F t2))).
  assert (O3 : trOk F n h t3).
  { destruct (Ot (set_class_balancing F (mempty F)) eq_refl) as (Q1 & Q2 & Q3 & Q4 & Q5 & Q6 & Q7 & Q8). unfold trOk. do 6 (split; [solve [auto]|]).
    assert (In0 : forall q o, nth_error (topts F t) q = Some o -> nth_error (map (init F) (topts F t)) q = Some (init F o)) by (intros q o Eq; rewrite nth_error_map, Eq; reflexivity). split.
    - intros i a Ea. destruct (Q7 i a Ea) as (Pa & l & o & Pl & Pw & Po & Pk). split; auto. exists l, (init F o). split; auto. split; auto. split; [apply In0; auto|]. apply opt_init. apply Pk.
    - intros i a Ea. destruct (Q8 i a Ea) as (Pa & l & o & Pl & Pw & Po & Pk). split; auto. exists l, (init F o). split; auto. split; auto. split; [apply (In0 _ _ Po)|]. apply opt_init. apply Pk. }
  assert (Ja : mrows x = 0 \/ 0 < tadj F t3).
  { change (tadj F t3) with (if (mrows x <? cBatch F (tc F t)) || (cBatch F (tc F t) =? 0) then mrows x else cBatch F (tc F t)). destruct (Nat.eqb_spec (cBatch F (tc F t)) 0); [rewrite orb_true_r; lia|]. rewrite orb_false_r. destruct (mrows x <? cBatch F (tc F t)); lia. }
  change (tc F t3) with (tc F t). change (tval F t3) with (tval F t).
  destruct (cKeep F (tc F t)) eqn:Kp.
  - assert (exists xv yv, (match tval F t with None => (x, y) | Some p => p end) = (xv, yv) /\ dataOk (d 0) (d (length (nlay n))) (cLoss F (tc F t)) (xv, yv)) as (xv & yv & -> & Hxv).
    { destruct (tval F t) as [[xv yv]|]; do 2 eexists; split; try reflexivity; auto. }
    destruct (accuracy_fits (oFirst F R) h n d t3 xv yv Hn D Hvb eq_refl Hxv) as (h1 & l & a & E1 & D1 & M1). rewrite E1. cbn [bind].
    assert (Ln : live F h1 netNew) by (split; [constructor|intros b []]).
    destruct (assign_fits F (oSnap0 F R) h1 netNew n d Ln D1) as (h2 & b2 & E & Q1 & Q2 & Q3 & Q4 & Q5 & Q6 & Q7 & Q8); [intros b []|]. rewrite E. cbn [bind]. do 2 eexists. split; [reflexivity|]. split; [exact Ja|].
    pose proof (dims_alive F _ _ _ D) as Al. pose proof (dims_alive F _ _ _ D1) as Al1.
    assert (Fr : forall a, In a (nlay n) -> nth_error h2 a = nth_error h1 a). { intros b Hb. apply Q8; [|intros []]. destruct (Al1 b Hb) as [lb Elb]. eapply hget_lt; eauto. }
    assert (Hg : forall a, In a (nlay n) -> hget F h2 a = hget F h1 a). { intros b Hb. unfold hget, rget. rewrite Fr; auto. }
    split; cbn [sh sn st sbest]; [auto|]. split; [auto|]. split; [eapply frame_dims; eauto|]. split.
    { intros i b lb Ei El. rewrite Hg in El by (eapply nth_error_In; eauto). eapply (moves_first F true (nlay n) h h1); eauto. }
    split. { pose proof (trOk_moves F n true h h1 t3 M1 O3) as (P1 & P2 & P3 & P4 & P5 & P6 & P7 & P8). unfold trOk. do 6 (split; [solve [auto]|]). split.
        - intros i b Eb. destruct (P7 i b Eb) as (Pa & lb & o & Pl & Pr). split; auto. exists lb, o. split; auto. rewrite Hg; auto.
        - intros i b Eb. destruct (P8 i b Eb) as (Pa & lb & o & Pl & Pr). split; auto. exists lb, o. split; auto. rewrite Hg; auto. }
    do 3 (split; [solve [auto]|]). split; [|intro Z; inversion Z]. split; [split; auto; eapply dims_alive; eauto|]. split; [|intros _; auto].
    intros b Hb Hin. specialize (Q7 b Hb). destruct (Al1 b Hin) as [lb Elb]. pose proof (hget_lt _ _ _ _ Elb). lia.
  - do 2 eexists. split; [reflexivity|]. split; [exact Ja|]. split; cbn [sh sn st sbest]; [auto|]. do 7 (split; [solve [auto]|]). split; [|intro Z; inversion Z].
    split; [split; [constructor|intros b []]|]. split; [intros b []|]. intro Q. congruence.
Qed.


Theorem fit_completes : forall (R : fitRnd F) h n (t : trainer F) k m, trainable h n t k m ->
  exists h' n' t' calls, fit F (absFloat F) R h n t = Ok (h', n', t', calls) /\ trainable h' n' t' k m /\
    length (nlay n') = length (nlay n) /\ nclass n' = nclass n /\ tc F t' = tc F t /\
    (cKeep F (tc F t) = true \/ (0 < cEpochs F (tc F t))%Z -> forall a l, In a (nlay n') -> hget F h' a = Ok l -> ltrain l = false).
Proof.
  intros R h n t k m (Hn & St & Fo & Hk & Hp & Hc & Hv & Wi & Wg & ([x y] & Ht & Hd) & Hval). destruct (stack_dims F _ _ _ _ St) as (d & <- & <- & D).
  assert (Hk' := Hk). destruct (create_optimizer (cOpt F (tc F t))) as [o|] eqn:Ho; [clear Hk|contradiction].
  destruct (setNet_fits h n d t o Hn D Fo Ho Wi Wg) as (h1 & t1 & E1 & D1 & F1 & O1 & S1 & N1). unfold fit. rewrite E1. cbn [bind]. rewrite N1. destruct S1 as (S11 & S12 & S13 & S14 & S15 & S16 & S17).
  destruct (Nat.eqb_spec (length (nlay n)) 0) as [Z|Z].
  { do 4 eexists. split; [reflexivity|]. split; [|split; auto; split; auto; split; auto; intros _ a l Ha; destruct (nlay n); [destruct Ha|discriminate]].
    destruct (O1 (set_class_balancing F (mempty F)) eq_refl) as (_ & _ & P3 & _ & P5 & _). unfold trainable. rewrite S11, S14, S15, Ho. split; auto. split; [apply dims_stack; auto|]. split; [exact F1|]. do 4 (split; [auto|]). split; [exact P3|]. split; [exact P5|]. split; [eauto|auto]. }
  rewrite S14, Ht. rewrite <- S11 in Hp, Hc, Hv, Hd, Hval. rewrite <- S15 in Hval. rewrite <- S14 in Ht.
  destruct (start_fits R h1 n d t1 x y Hn D1 F1 O1 Hc Hv Hd Hval Ht) as (s & adj & E2 & Ja & R0). rewrite E2. cbn [bind].
  destruct (@forN_inv _ (fun e s => runOk (nlay n) d (nclass n) (tc F t1) (tval F t1) adj x y e s) (Z.to_nat (cEpochs F (tc F t1))) (epoch F (absFloat F) R x y) s) as (s2 & E3 & R2); auto.
  { intros e s0 He I. eapply epoch_fits; eauto. lia. }
  rewrite E3. cbn [bind]. edestruct fitEnd_fits with (ls := nlay n) (s := s2) (R := R) as (h' & n' & E4 & Q1 & Q5 & Q2 & Q3 & Q6 & Q4); eauto; try lia. rewrite E4. do 4 eexists. split; [reflexivity|].
  destruct R2 as (_ & _ & _ & _ & (_ & _ & P3 & _ & P5 & _) & (P6 & P6') & P7 & _). split.
  { unfold trainable. rewrite P6, P6', P7, Q5. rewrite S11 in *. rewrite Ho. split; auto. split; [rewrite <- Q1; apply dims_stack; auto|]. split; [exact Q6|]. do 6 (split; [solve [auto]|]). split; [eauto|auto]. }
  split; auto. split; auto. split; [congruence|]. intros Hor a l Ha El. apply (Q4 ltac:(rewrite S11 in *; destruct Hor; [left; auto|right; lia]) a l); auto.
Qed.

Lemma build_fits : forall rs ps k m h n d0, plans ps k m -> (forall i a, nth_error (nlay n) i = Some a -> exists l, hget F h a = Ok l /\ fits l (d0 i) (d0 (S i)) /\ lfirst l = false /\ ltrain l = false) -> d0 (length (nlay n)) = k ->
  exists h' n' d, build rs ps h n = Ok (h', n') /\ nlay n' = nlay n ++ seq (length h) (length ps) /\ nclass n' = nclass n /\ d (length (nlay n')) = m /\ (forall i, i <= length (nlay n) -> d i = d0 i) /\
    (forall i a, nth_error (nlay n') i = Some a -> exists l, hget F h' a = Ok l /\ fits l (d i) (d (S i)) /\ lfirst l = false /\ ltrain l = false).
Proof.
  intros rs ps. induction ps as [|[[kd wi] bi] r IH]; intros k m h n d0 Hp Hn Hk.
  - simpl in Hp. subst m. exists h, n, d0. simpl. rewrite app_nil_r. repeat split; auto.
  - destruct Hp as (j & Hp & Hr). cbn [build]. destruct (new_fits F (rs (length (nlay n))) kd wi bi k j Hp) as (l & El & Fl & _ & Tl & Gl). rewrite El. cbn [bind].
    pose (d1 := fun i => if i =? S (length (nlay n)) then j else d0 i).
    assert (D1 : forall i, i <= length (nlay n) -> d1 i = d0 i). { intros i Hi. unfold d1. rewrite (proj2 (Nat.eqb_neq _ _)) by lia. auto. }
    assert (D2 : d1 (S (length (nlay n))) = j). { unfold d1. rewrite Nat.eqb_refl. auto. }
    destruct (IH j m (h ++ [Some l]) (netAdd n (length h)) d1 Hr) as (h' & n' & d & E & A1 & A2 & A3 & A4 & A5).
    + cbn [netAdd nlay]. intros i a Ea. destruct (Nat.lt_ge_cases i (length (nlay n))) as [Hi|Hi].
      * rewrite nth_error_app1 in Ea by auto. destruct (Hn i a Ea) as (l0 & E0 & F0 & R0). exists l0. split; [apply hget_app; auto|]. rewrite !D1 by lia. auto.
      * rewrite nth_error_app2 in Ea by auto. destruct (i - length (nlay n)) as [|q] eqn:Eq; [|destruct q; discriminate Ea]. injection Ea as <-. assert (i = length (nlay n)) by lia. subst i. exists l. split.
        { apply hget_ok. rewrite nth_error_app2 by auto. rewrite Nat.sub_diag. reflexivity. } rewrite D1, D2, Hk by lia. auto.
    + cbn [netAdd nlay]. rewrite app_length. simpl. rewrite Nat.add_1_r. auto.
    + exists h', n', d. split; auto. cbn [netAdd nlay nclass] in *. rewrite app_length in *. simpl length in *. rewrite Nat.add_1_r in *. split; [rewrite A1, <- app_assoc; reflexivity|]. split; auto. split; auto. split; auto. intros i Hi. rewrite A4 by lia. auto.
Qed.
Theorem build_completes : forall rs ps k m h, plans ps k m ->
  exists h' n, build rs ps h netNew = Ok (h', n) /\ NoDup (nlay n) /\ length (nlay n) = length ps /\ stack h' (nlay n) k m /\
    forall a l, In a (nlay n) -> hget F h' a = Ok l -> lfirst l = false /\ ltrain l = false.
Proof.
  intros rs ps k m h Hp. destruct (build_fits rs ps k m h netNew (fun _ => k) Hp) as (h' & n & d & E & A1 & A2 & A3 & A4 & A5); auto.
  { intros i a Ea. destruct i; discriminate Ea. }
  simpl in A1. exists h', n. split; auto. split; [rewrite A1; apply seq_NoDup|]. split; [rewrite A1; apply seq_length|]. split.
  - rewrite <- A3, <- (A4 0) by (simpl; lia). apply dims_stack. intros i a Ea. destruct (A5 i a Ea) as (l & El & Fl & _). eauto.
  - intros a l Ha El. apply In_nth_error in Ha. destruct Ha as [i Ei]. destruct (A5 i a Ei) as (l' & El' & _ & B). congruence.
Qed.
Theorem predict_completes : forall rs h n k m nb x out, NoDup (nlay n) -> 0 < length (nlay n) -> stack h (nlay n) k m -> shp nb k x -> mwf out ->
  exists h' o, predict F rs h n x out = Ok (h', o) /\ shp nb m o /\ stack h' (nlay n) k m.
Proof.
  intros rs h n k m nb x out Hn L St Sx Wo. destruct (stack_dims F _ _ _ _ St) as (d & <- & <- & D). destruct (predict_fits F n d Hn rs h x out nb) as (h' & o & E & S & D' & _); auto.
  exists h', o. split; auto. split; auto. apply dims_stack. auto.
Qed.
(* build, train, predict *)
Theorem end_to_end : forall rs ps k m h0 (t : trainer F) d, plans ps k m -> 0 < length ps ->
  create_optimizer (cOpt F (tc F t)) <> None -> cPatience F (tc F t) = (-1)%Z -> cBalancing F (tc F t) = false -> 0 < cValBatch F (tc F t) -> tinOut F t = [] -> tgrad F t = [] ->
  ttrain F t = Some d -> dataOk k m (cLoss F (tc F t)) d -> (forall d, tval F t = Some d -> dataOk k m (cLoss F (tc F t)) d) ->
  exists h1 n1, build rs ps h0 netNew = Ok (h1, n1) /\ forall (R : fitRnd F), exists h2 n2 t2 calls, fit F (absFloat F) R h1 n1 t = Ok (h2, n2, t2, calls) /\
    forall rs2 nb x, shp nb k x -> exists h3 o, predict F rs2 h2 n2 x (mempty F) = Ok (h3, o) /\ shp nb m o.
Proof.
  intros rs ps k m h0 t d Hp L Ho Hpa Hb Hv Hi Hg Ht Hd Hval. destruct (build_completes rs ps k m h0 Hp) as (h1 & n1 & E1 & N1 & L1 & S1 & A1). exists h1, n1. split; auto. intro R.
  destruct (fit_completes R h1 n1 t k m) as (h2 & n2 & t2 & calls & E2 & T2 & L2 & _).
  { unfold trainable. rewrite Hi, Hg. split; auto. split; auto. split; [intros i a l Ea El; apply (A1 a l); auto; eapply nth_error_In; eauto|]. do 4 (split; [solve [auto]|]). split; auto. split; auto. split; [eauto|auto]. }
  exists h2, n2, t2, calls. split; auto. intros rs2 nb x Sx. destruct T2 as (N2 & S2 & _). destruct (predict_completes rs2 h2 n2 k m nb x (mempty F)) as (h3 & o & E3 & S3 & _); auto; [lia|reflexivity|]. eauto.
Qed.
(* and again: any number of runs *)
Theorem default_completes : forall rs ps k m h0 x y, plans ps k m -> mwf x -> mwf y -> mcols x = k -> mcols y = m -> mrows y = mrows x ->
  exists h1 n1, build rs ps h0 netNew = Ok (h1, n1) /\ forall (R : fitRnd F), exists h2 n2 t2 calls, fit F (absFloat F) R h1 n1 (withData (trNew F) (x, y)) = Ok (h2, n2, t2, calls) /\ trainable h2 n2 t2 k m /\
    forall a l, In a (nlay n2) -> hget F h2 a = Ok l -> ltrain l = false.
Proof.
  intros rs ps k m h0 x y Hp Wx Wy Cx Cy Ry. destruct (build_completes rs ps k m h0 Hp) as (h1 & n1 & E1 & N1 & L1 & S1 & A1). exists h1, n1. split; auto. intro R.
  destruct (fit_completes R h1 n1 (withData (trNew F) (x, y)) k m) as (h2 & n2 & t2 & calls & E2 & T2 & L2 & _ & _ & T).
  { unfold trainable. cbn [withData trNew tc cOpt cPatience cBalancing cValBatch tinOut tgrad ttrain tval cLoss]. split; auto. split; auto. split; [intros i a l Ea El; apply (A1 a l); auto; eapply nth_error_In; eauto|]. split; [discriminate|]. split; auto. split; auto. split; [lia|]. split; auto. split; auto.
    split; [|discriminate]. exists (x, y). split; auto. unfold dataOk. cbn [fst snd truthOk]. auto. }
  exists h2, n2, t2, calls. split; auto. split; auto. apply T. auto.
Qed.
Theorem fit_repeats : forall (Rs : list (fitRnd F)) h n t k m, trainable h n t k m -> exists h' n' t', fitRuns Rs h n t = Ok (h', n', t') /\ trainable h' n' t' k m.
Proof.
  induction Rs as [|R r IH]; intros h n t k m Ht; [do 3 eexists; split; [reflexivity|auto]|]. cbn [fitRuns]. destruct (fit_completes R h n t k m Ht) as (h' & n' & t' & calls & E & T & _). rewrite E. cbn [bind]. apply IH. auto.
Qed.
End Any.

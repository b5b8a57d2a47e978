(* Order4.v - a whole training run with the samples in another order *)
From Coq Require Import String List Arith Bool Lia ZArith Permutation.
From Verif Require Import Base Scalar Mat SpecMat MatFacts MatProofs MatLoops MatProps Loss Optim Regul LayMat Layer Net NetTrain OptProofs SpecOpt TrainProofs1 TrainProofs2 TrainProofs3 TrainProofs4 NetProofs1 NetProofs2 StaleNet FitRun
  SpecFit FitLay1 FitLay2 FitLay3 FitNet1 FitNet2 FitNet3 Seed2 SpecOrder Order1 Order2 Order3.
Import ListNotations.
Local Open Scope nat_scope.

Lemma ceil_one : forall n b, 0 < n -> n <= b -> ceilDiv n b = 1.
Proof. intros n b Hn Hb. unfold ceilDiv. symmetry. apply (Nat.div_unique (n + b - 1) b 1 (n - 1)); lia. Qed.

Section Any.
Variable F : FOps.
Notation M := (mat F).
Notation cabs := (absFloat F).
Variable s : nat -> nat.
Hypothesis HS : symSum F.
Notation rel := (rel F s).

Lemma rel_rows : forall n c x x', rel n c x x' -> mrows x = n /\ mrows x' = n.
Proof. intros n c x x' (X & -> & ->). split; reflexivity. Qed.
Lemma rel_view : forall n c x x', 0 < n -> rel n c x x' -> viewRow F x 0 n = Ok x /\ viewRow F x' 0 n = Ok x'.
Proof. intros n c x x' Hn (X & -> & ->). rewrite !viewRow_gen by lia. rewrite Nat.sub_0_r. split; reflexivity. Qed.
Lemma rel_of : forall x x', reorder (mrows x) s -> reordered F s x x' -> rel (mrows x) (mcols x) x x'.
Proof.
  intros x x' (R & _) (W & W' & Er & Ec & H). destruct (mwf_is_gen F x W) as [X EX]. destruct (mwf_is_gen F x' W') as [X' EX']. rewrite Er, Ec in EX'. exists X. split; auto. rewrite EX'. apply mgen_ext. intros i j Hi Hj.
  specialize (H i j Hi Hj). rewrite EX, EX' in H. rewrite !mget2_gen in H by auto. congruence.
Qed.

Lemma oneEpoch_rel : forall rs h n d t io g dt x x' y y' N q, NoDup (nlay n) -> reorder N s -> tadj F t = N -> 0 < length (nlay n) -> dims F h (nlay n) d -> modeAll F true h (nlay n) -> firstOnly F h (nlay n) -> trOk F n h t -> rowWise F h (nlay n) ->
  workOk F n io g -> rel N (d 0) x x' -> rel N q y y' -> truthOk (cLoss F (tc F t)) (d (length (nlay n))) y ->
  exists h' t' io' g', trainOneEpoch F cabs rs h n t x y = Ok (h', t') /\ trainOneEpoch F cabs rs h n (om F io g dt t) x' y' = Ok (h', om F io' g' dt t') /\ workOk F n io' g'.
Proof.
  intros rs h n d t io g dt x x' y y' N q Hn R Ha L D Tr Fo Ot K W Hx Hy Ty. destruct (rel_rows _ _ _ _ Hx) as [Rx Rx']. unfold trainOneEpoch. cbv zeta. change (tadj F (om F io g dt t)) with (tadj F t). rewrite Rx, Rx', Ha.
  destruct (Nat.eqb_spec N 0) as [Z|Z]; [do 4 eexists; split; [reflexivity|]; split; [reflexivity|auto]|].
  assert (Pn : 0 < N) by lia. rewrite ceil_one by lia. unfold forN. cbn [seq forL]. rewrite Nat.mul_0_l, Nat.add_0_l, Nat.min_id. destruct (rel_view _ _ _ _ Pn Hx) as [-> ->]. destruct (rel_view _ _ _ _ Pn Hy) as [-> ->]. cbn [bind].
  destruct (batch_rel F s HS n d Hn (rs 0) h t io g dt x x' y y' N q R L D Tr Fo Ot K W Hx Hy Ty) as (h' & t' & io' & g' & -> & -> & W'). cbn [bind]. exists h', t', io', g'. auto.
Qed.

Lemma epochTrain_rel : forall Rd e h n d t io g dt x x' y y' N q, NoDup (nlay n) -> reorder N s -> tadj F t = N -> 0 < length (nlay n) -> dims F h (nlay n) d -> firstOnly F h (nlay n) -> trOk F n h t -> rowWise F h (nlay n) ->
  workOk F n io g -> rel N (d 0) x x' -> rel N q y y' -> truthOk (cLoss F (tc F t)) (d (length (nlay n))) y ->
  exists h' t' io' g', epochTrain F cabs Rd e h n t x y = Ok (h', mkNet (nlay n) (nclass n) false, t') /\ epochTrain F cabs Rd e h n (om F io g dt t) x' y' = Ok (h', mkNet (nlay n) (nclass n) false, om F io' g' dt t') /\ workOk F n io' g'.
Proof.
  intros Rd e h n d t io g dt x x' y y' N q Hn R Ha L D Fo Ot K W Hx Hy Ty. destruct (rel_rows _ _ _ _ Hx) as [Rx Rx']. unfold epochTrain. cbv zeta. set (t0 := setOnline F t (f0 F) 0).
  change (setOnline F (om F io g dt t) (f0 F) 0) with (om F io g dt t0). change (tadj F (om F io g dt t0)) with (tadj F t). change (tadj F t0) with (tadj F t). rewrite Ha, Rx, Rx', Nat.ltb_irrefl. cbn [bind].
  destruct (setTrain_fits F h n d true Hn D) as (h1 & E1 & D1 & M1 & T1). rewrite E1. cbn [bind]. set (n1 := mkNet (nlay n) (nclass n) true). pose proof (dims_alive F _ _ _ D) as Al.
  assert (K1 : rowWise F h1 (nlay n)). { destruct (setTrain_touch _ _ _ _ _ _ E1) as [To _]. eapply rowWise_touch; eauto. }
  assert (F1 : firstOnly F h1 (nlay n)) by (eapply moves_first; eauto).
  assert (O1 : trOk F n1 h1 t0). { apply (trOk_net F n); auto. apply (trOk_moves F n false h h1 t0 M1). exact Ot. }
  destruct (oneEpoch_rel (oTrain F Rd e) h1 n1 d t0 io g dt x x' y y' N q Hn R Ha L D1 T1 F1 O1 K1 W Hx Hy Ty) as (h2 & t2 & io' & g' & E2 & E2' & W'). rewrite E2, E2'. cbn [bind].
  destruct (epochBatches_fits F (oTrain F Rd e) h1 n1 d t0 x y) as (h3 & t3 & E3 & D3 & _); auto.
  { rewrite Rx. change (tadj F t0) with (tadj F t). lia. }
  { destruct Hx as (X & -> & _). destruct Hy as (Y & -> & _). unfold dataOk. cbn [fst snd]. split; [apply mwf_gen|]. split; [apply mwf_gen|]. auto. }
  rewrite E2 in E3. injection E3 as <- <-. destruct (setTrain_fits F h2 n1 d false Hn D3) as (h3 & E3 & _). rewrite E3. cbn [bind]. exists h3, t2, io', g'. auto.
Qed.

(** * the epochs *)
Definition oms io g dt (v : fstate F) : fstate F := mkFS F (sh F v) (sn F v) (om F io g dt (st F v)) (sbest F v) (sacc F v) (sloss F v) (sreb F v) (scalls F v).
Lemma stats_om : forall R e h n io g dt t k, epochStats F cabs R e h n (om F io g dt t) k = rmap (fun '(h, t, l, a) => (h, om F io g dt t, l, a)) (epochStats F cabs R e h n t k).
Proof.
  intros. unfold epochStats. cbv zeta. change (tval F (om F io g dt t)) with (tval F t). change (th F (om F io g dt t)) with (th F t). change (tonl F (om F io g dt t)) with (tonl F t). change (tgood F (om F io g dt t)) with (tgood F t).
  destruct (tval F t) as [[x y]|]; [|reflexivity].
  match goal with |- bind ?a _ = rmap _ (bind ?b _) => change a with b; destruct b as [[[h1 l] a1]|] end; reflexivity.
Qed.
Lemma best_om : forall R e io g dt v l a, epochBest F R e (oms io g dt v) l a = rmap (oms io g dt) (epochBest F R e v l a).
Proof.
  intros R e io g dt [h n t b A L r c] l a. unfold oms, epochBest. cbn [sh sn st sbest sacc sloss sreb scalls]. change (tc F (om F io g dt t)) with (tc F t).
  destruct (negb (cKeep F (tc F t)) && (cPatience F (tc F t) =? -1)%Z); [reflexivity|].
  destruct (if nclass n then flt F A a else flt F l L).
  - destruct (netAssign F false (oSnap F R e) h b n) as [[h1 b1]|]; [|reflexivity]. cbn [bind]. change (tc F (setCur F (om F io g dt t) 0%Z)) with (tc F t). change (tc F (setCur F t 0%Z)) with (tc F t). change (tcur F (setCur F (om F io g dt t) 0%Z)) with 0%Z. change (tcur F (setCur F t 0%Z)) with 0%Z.
    destruct ((cPatience F (tc F t) <? 0)%Z && negb (cPatience F (tc F t) =? -1)%Z); [|reflexivity]. destruct (netAssign F false (oRoll F R e) h1 n b1) as [[h2 n2]|]; reflexivity.
  - cbn [bind]. change (tc F (setCur F (om F io g dt t) (tcur F (om F io g dt t) + 1)%Z)) with (tc F t). change (tc F (setCur F t (tcur F t + 1)%Z)) with (tc F t). change (tcur F (setCur F (om F io g dt t) (tcur F (om F io g dt t) + 1)%Z)) with (tcur F t + 1)%Z. change (tcur F (setCur F t (tcur F t + 1)%Z)) with (tcur F t + 1)%Z.
    destruct ((cPatience F (tc F t) <? tcur F t + 1)%Z && negb (cPatience F (tc F t) =? -1)%Z); [|reflexivity]. destruct (netAssign F false (oRoll F R e) h n b) as [[h2 n2]|]; reflexivity.
Qed.
Lemma reboost_om : forall io g dt v, epochReboost F (oms io g dt v) = oms io g dt (epochReboost F v).
Proof.
  intros io g dt [h n t b A L r c]. unfold oms, epochReboost. cbn [sh sn st sbest sacc sloss sreb scalls]. change (tc F (om F io g dt t)) with (tc F t). cbv zeta.
  destruct (cReboost F (tc F t) =? -1)%Z; [reflexivity|]. destruct (r <? cReboost F (tc F t))%Z; reflexivity.
Qed.
Lemma fitEnd_om : forall R io g dt v, fitEnd F R (oms io g dt v) = rmap (fun '(h, n, t, c) => (h, n, om F io g dt t, c)) (fitEnd F R v).
Proof.
  intros R io g dt [h n t b A L r c]. unfold oms, fitEnd. cbn [sh sn st sbest sacc sloss sreb scalls]. change (tc F (om F io g dt t)) with (tc F t).
  destruct (if cKeep F (tc F t) then netAssign F false (oLast F R) h n b else Ok (h, n)) as [[h1 n1]|]; cbn [bind rmap]; [|reflexivity]. destruct (netClear F h1 b) as [[h2 n2]|]; reflexivity.
Qed.

Lemma best_rows : forall Rd e v l a v' ls, epochBest F Rd e v l a = Ok v' -> cPatience F (tc F (st F v)) = (-1)%Z -> nlay (sn F v) = ls -> (forall b, In b ls -> b < length (sh F v)) -> (forall b, In b (nlay (sbest F v)) -> ~ In b ls) ->
  rowWise F (sh F v) ls -> rowWise F (sh F v') ls.
Proof.
  intros Rd e [h n t best A L r c] l a v' ls E Hp <- Al Dj K. cbn [sh sn st sbest] in *. unfold epochBest in E. rewrite Hp in E. cbn [Z.eqb negb] in E. rewrite andb_true_r in E. destruct (negb (cKeep F (tc F t))); [injection E as <-; exact K|].
  cbv zeta in E. destruct (if nclass n then flt F A a else flt F l L).
  - destruct (netAssign F false (oSnap F Rd e) h best n) as [[h3 b3]|] eqn:Ea; cbn [bind] in E; [|discriminate]. change (tc F (setCur F t 0%Z)) with (tc F t) in E. rewrite Hp in E. cbn [Z.eqb negb] in E. rewrite andb_false_r in E. injection E as <-. cbn [sh].
    apply TrainProofs2.assign_post in Ea; auto. destruct Ea as (_ & _ & _ & _ & _ & _ & Fr & _). intros b lb Hb Eb. apply (K b lb Hb). unfold hget, rget in *. rewrite Fr in Eb; auto. intro Q. apply (Dj b Q). auto.
  - cbn [bind] in E. change (tc F (setCur F t _)) with (tc F t) in E. rewrite Hp in E. cbn [Z.eqb negb] in E. rewrite andb_false_r in E. injection E as <-. exact K.
Qed.
Lemma reboost_heap : forall v, sh F (epochReboost F v) = sh F v.
Proof. intros [h n t b A L r c]. unfold epochReboost. cbv zeta. destruct (cReboost F (tc F t) =? -1)%Z; [reflexivity|]. destruct (r <? cReboost F (tc F t))%Z; reflexivity. Qed.

Section Run.
Variables (ls : list nat) (d : nat -> nat) (cl : bool) (c0 : settings F) (v0 : option (M * M)) (N q : nat) (x x' y y' : M).
Hypothesis Hn : NoDup ls.
Hypothesis L : 0 < length ls.
Hypothesis Hpat : cPatience F c0 = (-1)%Z.
Hypothesis Hvb : 0 < cValBatch F c0.
Hypothesis Hv : forall p, v0 = Some p -> dataOk (d 0) (d (length ls)) (cLoss F c0) p.
Hypothesis Hr : reorder N s.
Hypothesis Hx : rel N (d 0) x x'.
Hypothesis Hy : rel N q y y'.
Hypothesis Ty : truthOk (cLoss F c0) (d (length ls)) y.
Definition workL (io g : list M) : Prop := length io = S (length ls) /\ Forall mwf io /\ length g = S (length ls) /\ Forall mwf g.

Lemma data_rel : dataOk (d 0) (d (length ls)) (cLoss F c0) (x, y).
Proof. destruct Hx as (X & -> & _). destruct Hy as (Y & EY & _). unfold dataOk. cbn [fst snd]. split; [apply mwf_gen|]. split; [rewrite EY; apply mwf_gen|]. split; [reflexivity|]. split; [rewrite EY; reflexivity|auto]. Qed.
Lemma epoch_rel : forall Rd e v io g dt, runOk F ls d cl c0 v0 N x y e v -> rowWise F (sh F v) ls -> workL io g ->
  exists v' io' g', epoch F cabs Rd x y e v = Ok v' /\ epoch F cabs Rd x' y' e (oms io g dt v) = Ok (oms io' g' dt v') /\ runOk F ls d cl c0 v0 N x y (S e) v' /\ rowWise F (sh F v') ls /\ workL io' g'.
Proof.
  intros Rd e v io g dt Rv K W. destruct (rel_rows _ _ _ _ Hx) as [Rx Rx'].
  destruct (epoch_fits F ls d cl c0 v0 N x y Hn L Hpat Hvb data_rel Hv ltac:(rewrite Rx; lia) Rd e v Rv) as (v' & E & Rv').
  destruct v as [h n t best A Ls reb calls]. destruct Rv as (I1 & I2 & I3 & I4 & I5 & (I6 & I6') & I7 & I8 & I9 & _). cbn [sh sn st sbest] in *.
  unfold epoch in *. unfold oms at 1 2 3 4 5 6 7 8. cbn [sh sn st sbest sacc sloss sreb scalls] in *.
  destruct (epochTrain_rel Rd e h n d t io g dt x x' y y' N q) as (h1 & t1 & io' & g' & E1 & E1' & W'); auto; try (rewrite I1; auto; fail).
  { unfold workOk. rewrite I1. exact W. }
  { rewrite I6, I1. auto. }
  rewrite E1 in E. rewrite E1'. cbn [bind] in *. rewrite stats_om, Rx'. rewrite Rx in E. set (n1 := mkNet (nlay n) (nclass n) false) in *.
  destruct (epochStats F cabs Rd e h1 n1 t1 N) as [[[[h2 t2] l] a]|] eqn:E2; cbn [bind rmap] in *; [|discriminate]. change (tcallback F (om F io' g' dt t2)) with (tcallback F t2). change (th F (om F io' g' dt t2)) with (th F t2).
  match goal with |- context [epochBest F Rd e ?v1 l a] => match type of E with bind (epochBest F Rd e ?v2 l a) _ = _ => change v1 with (oms io' g' dt v2); set (w := v2) in * end end.
  rewrite best_om. destruct (epochBest F Rd e w l a) as [v3|] eqn:E3; cbn [bind rmap] in *; [|discriminate]. injection E as <-. rewrite reboost_om.
  exists (epochReboost F v3), io', g'. split; [rewrite E1; cbn [bind]; rewrite Rx, E2; cbn [bind]; fold w; rewrite E3; reflexivity|]. split; [reflexivity|]. split; [exact Rv'|]. split; [|unfold workOk in W'; rewrite I1 in W'; exact W'].
  apply epochTrain_post in E1. destruct E1 as (Q1 & Q2 & _). pose proof E2 as E2'. apply epochStats_post in E2. destruct E2 as (Q3 & Q4 & _).
  assert (K2 : rowWise F h2 ls) by (eapply rowWise_touch; [exact Q3|]; eapply rowWise_touch; [exact Q1|]; auto).
  rewrite reboost_heap. eapply (best_rows Rd e w l a v3 ls E3); auto; unfold w; cbn [sh sn st sbest nlay].
  - rewrite Q4. change (tc F (setHist F t1 (th F t2))) with (tc F t1). destruct Q2 as (-> & _). rewrite I6. auto.
  - intros b Hb. destruct (dims_alive F _ _ _ I3 b Hb) as [lb Eb]. pose proof (hget_lt _ _ _ _ Eb). destruct Q1 as (Q1 & _). destruct Q3 as (Q3 & _). lia.
  - apply I9.
Qed.
Lemma epochs_rel : forall Rd v io g dt k, runOk F ls d cl c0 v0 N x y 0 v -> rowWise F (sh F v) ls -> workL io g ->
  exists v' io' g', forN k (epoch F cabs Rd x y) v = Ok v' /\ forN k (epoch F cabs Rd x' y') (oms io g dt v) = Ok (oms io' g' dt v') /\ runOk F ls d cl c0 v0 N x y k v'.
Proof.
  intros Rd v io g dt k Rv K W.
  destruct (pairN _ (fun e v1 v2 => exists io' g', v2 = oms io' g' dt v1 /\ runOk F ls d cl c0 v0 N x y e v1 /\ rowWise F (sh F v1) ls /\ workL io' g') k (epoch F cabs Rd x y) (epoch F cabs Rd x' y') v (oms io g dt v)) as (v1 & v2 & E1 & E2 & io' & g' & -> & R' & _).
  - exists io, g. auto.
  - intros i v1 v2 Hi (io' & g' & -> & R1 & K1 & W1). destruct (epoch_rel Rd i v1 io' g' dt R1 K1 W1) as (v' & io2 & g2 & E1 & E2 & R2 & K2 & W2). exists v', (oms io2 g2 dt v'). split; auto. split; auto. rewrite Nat.add_1_r. exists io2, g2. auto.
  - exists v1, io', g'. auto.
Qed.

(* the evaluation before training *)
Lemma accuracy_rel : forall rs h n t t', nlay n = ls -> dims F h ls d -> rowWise F h ls -> tc F t = c0 -> N <= cValBatch F c0 -> bon F (tbal F t) = false -> tc F t' = tc F t -> tbal F t' = tbal F t ->
  lossAccuracy F cabs rs h n t' x' y' = lossAccuracy F cabs rs h n t x y.
Proof.
  intros rs h n t t' En D K Ec Hb Hbal E1 E2. destruct (rel_rows _ _ _ _ Hx) as [Rx Rx']. unfold lossAccuracy. rewrite E1, E2, Rx, Rx', Ec. cbv zeta. destruct (Nat.eqb_spec N 0) as [Z|Z]; [rewrite !orb_true_r; reflexivity|].
  rewrite orb_false_r. destruct (length (nlay n) =? 0); [reflexivity|]. assert (Pn : 0 < N) by lia. rewrite (proj2 (Nat.eqb_neq (cValBatch F c0) 0)) by lia. rewrite ceil_one by lia. unfold forN. cbn [seq forL].
  rewrite Nat.mul_0_l, Nat.add_0_l, Nat.min_r by auto. rewrite Nat.sub_0_r. destruct (rel_view _ _ _ _ Pn Hx) as [-> ->]. destruct (rel_view _ _ _ _ Pn Hy) as [-> ->]. cbn [bind].
  pose proof (dims_pos F _ _ _ (length ls) D L (le_n _)) as Pm. subst ls.
  destruct (predict_rel F s n d Hn (rs 0) h x x' (mempty F) (mempty F) N L D K Hx eq_refl eq_refl) as (h' & o & o' & -> & -> & Ro). cbn [bind].
  destruct (loss_rel F s HS (cLoss F c0) (tbal F t) N _ q o o' y y' (mempty F) (mempty F) Hr Hbal Ro Hy Ty eq_refl eq_refl) as (l & l' & z & -> & -> & Ml & Ml'). cbn [bind]. rewrite Ml, Ml'. cbn [bind].
  assert (Cy : q = d (length (nlay n)) \/ q = 1). { destruct Hy as (Y & EY & _). rewrite EY in Ty. exact (truth_cols F _ _ _ Ty). }
  destruct (good_rel F s N _ q o o' y y' 0 Hr Pm Ro Hy Cy) as (r & C1 & C2). rewrite C1, C2.
  destruct Ro as (O & -> & ->). destruct Hy as (Y & -> & ->). unfold mgen at 1 2 3 5 6 7. cbn [mcols].
  destruct (if negb (q =? 1) then assert_ (d (length (nlay n)) =? q) else Ok tt); reflexivity.
Qed.
End Run.

Lemma withData_om : forall t dt, withData t dt = om F (tinOut F t) (tgrad F t) (Some dt) t. Proof. reflexivity. Qed.
Lemma setNet_data : forall h n t dt, setNet F h n (withData t dt) = rmap (fun p => (fst p, withData (snd p) dt)) (setNet F h n t).
Proof.
  intros h n t dt. unfold setNet. repeat match goal with
  | |- bind ?a _ = rmap _ (bind ?b _) => change a with b; destruct b as [?|?]; cbn [bind rmap]
  | |- (let '(_, _) := ?p in _) = rmap _ (let '(_, _) := ?p in _) => destruct p
  end; reflexivity.
Qed.

Theorem fit_order : forall Rd h n t k m x x' y y', trainable h n t k m -> rowWise F h (nlay n) -> ttrain F t = Some (x, y) -> reorder (mrows x) s -> reordered F s x x' -> reordered F s y y' -> oneBatch F t (mrows x) ->
  exists h' n' t1 t2 calls, fit F cabs Rd h n t = Ok (h', n', t1, calls) /\ fit F cabs Rd h n (withData t (x', y')) = Ok (h', n', t2, calls) /\ sameTrainer F t1 t2.
Proof.
  intros Rd h n t k m x x' y y' (Hn & St & Fo & Hk & Hp & Hc & Hv & Wi & Wg & ([x1 y1] & Ht & Hd) & Hval) K Hxy R Rx Ry (Ob1 & Ob2). rewrite Hxy in Ht. injection Ht as <- <-.
  destruct (stack_dims F _ _ _ _ St) as (d & <- & <- & D). destruct (create_optimizer (cOpt F (tc F t))) as [o|] eqn:Ho; [clear Hk|contradiction].
  pose proof Hd as (Wx & Wy & Cx & Ryx & Ty). cbn [fst snd] in *. set (N := mrows x) in *. assert (Hx : rel N (d 0) x x') by (rewrite <- Cx; apply rel_of; auto). assert (Hy : rel N (mcols y) y y') by (replace N with (mrows y) by auto; apply rel_of; auto; rewrite Ryx; auto).
  destruct (setNet_fits F h n d t o Hn D Fo Ho Wi Wg) as (h1 & t1 & E1 & D1 & F1 & O1 & S1 & N1). unfold fit. rewrite setNet_data, E1. cbn [bind rmap fst snd]. change (tnl F (withData t1 (x', y'))) with (tnl F t1). rewrite N1. destruct S1 as (S11 & S12 & S13 & S14 & S15 & S16 & S17).
  assert (K1 : rowWise F h1 (nlay n)).
  { unfold setNet in E1. cbv zeta in E1. destruct (nlay n) as [|a r] eqn:El; [intros b lb []|]. binp E1. injection E1 as Eh _. subst. intros b lb Hb Eb. binp Ex. rewrite (hset_ok _ _ _ _ _ Ex3) in Ex. injection Ex as <-. pose proof (hget_lt _ _ _ _ Ex3) as La.
    rewrite hget_upd in Eb by auto. destruct (Nat.eqb_spec a b) as [<-|]; [|apply (K b); auto]. injection Eb as <-. apply (K a _ Hb Ex3). }
  destruct (Nat.eqb_spec (length (nlay n)) 0) as [Z|Z]. { do 5 eexists. split; [reflexivity|]. split; [reflexivity|]. repeat split. }
  change (ttrain F (withData t1 (x', y'))) with (Some (x', y')). change (tc F (withData t1 (x', y'))) with (tc F t1). rewrite S14, Hxy.
  rewrite <- S11 in Hp, Hc, Hv, Hd, Hval, Ty, Ob1, Ob2. rewrite <- S15 in Hval, Ob2. rewrite <- S14 in Hxy.
  destruct (start_fits F Rd h1 n d t1 x y Hn D1 F1 O1 Hc Hv Hd Hval Hxy) as (v & adj & Es & Ja & Rv). rewrite Es. cbn [bind].
  assert (Start : adj = N /\ rowWise F (sh F v) (nlay n) /\ exists io g, workL (nlay n) io g /\ fitStart F cabs Rd h1 n (withData t1 (x', y')) x' y' = Ok (oms io g (Some (x', y')) v)).
  { pose proof Rv as (Q1 & Q2 & Q3 & Q4 & (Q51 & Q52 & Q53 & Q54 & Q55 & Q56 & _) & Q6 & Q7 & Q8 & Q9 & _). destruct (rel_rows _ _ _ _ Hx) as [_ Rx'].
    set (t3 := setOpts F (setAdj F (setHist F (setCur F (setBal F t1 (set_class_balancing F (mempty F))) 0%Z) (mkHist F [] [] [] [] (flit F 10000000000 1) (f0 F) (flit F 10000000000 1) (f0 F))) (if (N <? cBatch F (tc F t1)) || (cBatch F (tc F t1) =? 0) then N else cBatch F (tc F t1))) (map (init F) (topts F t1))).
    set (io := tinOut F t1). set (g := tgrad F t1). set (dt := Some (x', y')).
    assert (A3 : tadj F t3 = N). { change (tadj F t3) with (if (N <? cBatch F (tc F t1)) || (cBatch F (tc F t1) =? 0) then N else cBatch F (tc F t1)). destruct Ob1 as [-> | Ob1]; [rewrite orb_true_r; auto|]. destruct (Nat.ltb_spec N (cBatch F (tc F t1))); cbn [orb]; auto. destruct (cBatch F (tc F t1) =? 0); auto. lia. }
    assert (Gen : forall u z w, tc F u = tc F t1 -> mrows z = N -> fitStart F cabs Rd h1 n u z w = (
      let u3 := setOpts F (setAdj F (setHist F (setCur F (setBal F u (set_class_balancing F (mempty F))) 0%Z) (mkHist F [] [] [] [] (flit F 10000000000 1) (f0 F) (flit F 10000000000 1) (f0 F))) (if (N <? cBatch F (tc F t1)) || (cBatch F (tc F t1) =? 0) then N else cBatch F (tc F t1))) (map (init F) (topts F u)) in
      if cKeep F (tc F t1) then
        let '(x, y) := match tval F u with None => (z, w) | Some p => p end in
        ' (h, l, a) <- lossAccuracy F cabs (oFirst F Rd) h1 n u3 x y ;; ' (h, best) <- netAssign F false (oSnap0 F Rd) h netNew n ;; Ok (mkFS F h n u3 best a l 0%Z [])
      else Ok (mkFS F h1 n u3 netNew (f0 F) (flit F 10000000000 1) 0%Z []))).
    { intros u z w Eu Ez. unfold fitStart, updateClassWeight. rewrite Eu. replace (negb (nclass n) || negb (cBalancing F (tc F t1))) with true by (destruct Hc as [-> | ->]; destruct (nclass n); reflexivity). cbn [bind]. cbv zeta. rewrite Ez.
      change (tc F (setHist F (setCur F (setBal F u (set_class_balancing F (mempty F))) 0%Z) (mkHist F [] [] [] [] (flit F 10000000000 1) (f0 F) (flit F 10000000000 1) (f0 F)))) with (tc F u). rewrite Eu.
      match goal with |- (if cKeep F (tc F ?q) then _ else _) = _ => change (tc F q) with (tc F u) end. rewrite Eu. reflexivity. }
    rewrite (Gen t1 x y eq_refl eq_refl) in Es. rewrite (Gen (withData t1 (x', y')) x' y' eq_refl Rx'). cbv zeta in *. fold t3 in Es. change (tval F (withData t1 (x', y'))) with (tval F t1).
    match goal with |- context [Ok (mkFS F h1 n ?u netNew _ _ _ _)] => change u with (om F io g dt t3) end.
    assert (Wk : workL (nlay n) io g). { destruct (O1 (set_class_balancing F (mempty F)) eq_refl) as (_ & P2 & P3 & P4 & P5 & _). cbn [setBal tinOut tgrad] in *. unfold workL, io, g. auto. }
    destruct (cKeep F (tc F t1)) eqn:Kp.
    - assert (exists xv yv, (match tval F t1 with None => (x, y) | Some p => p end) = (xv, yv) /\ (let '(z, w) := match tval F t1 with None => (x', y') | Some p => p end in lossAccuracy F cabs (oFirst F Rd) h1 n (om F io g dt t3) z w) = lossAccuracy F cabs (oFirst F Rd) h1 n t3 xv yv) as (xv & yv & Ev & Ea).
      { destruct (tval F t1) as [[xv yv]|] eqn:Tv; [exists xv, yv; split; reflexivity|]. exists x, y. split; auto. destruct Ob2 as [Q|[Q|Q]]; [congruence|congruence|].
        eapply (accuracy_rel (nlay n) d (tc F t1) None N (mcols y) x x' y y'); auto. lia. }
      rewrite Ev in Es. destruct (match tval F t1 with None => (x', y') | Some p => p end) as [z w]. rewrite Ea.
      destruct (lossAccuracy F cabs (oFirst F Rd) h1 n t3 xv yv) as [[[h2 l] a]|] eqn:El; cbn [bind] in *; [|discriminate].
      destruct (netAssign F false (oSnap0 F Rd) h2 netNew n) as [[h3 b3]|] eqn:Eas; cbn [bind] in *; [|discriminate]. injection Es as <-. cbn [sh st] in *. split; [congruence|]. split; [|exists io, g; auto].
      apply lossAccuracy_touch in El. assert (K2 : rowWise F h2 (nlay n)) by (eapply rowWise_touch; eauto). apply TrainProofs2.assign_post in Eas.
      + destruct Eas as (_ & _ & _ & _ & _ & _ & Fr & _). intros b lb Hb Eb. apply (K2 b lb Hb). unfold hget, rget in *. rewrite Fr in Eb; auto. destruct (dims_alive F _ _ _ D1 b Hb) as [lb' Eb']. pose proof (hget_lt _ _ _ _ Eb'). destruct El as (-> & _). auto.
      + intros b Hb. destruct (dims_alive F _ _ _ D1 b Hb) as [lb' Eb']. pose proof (hget_lt _ _ _ _ Eb'). destruct El as (-> & _). auto.
    - injection Es as <-. cbn [sh st] in *. split; [congruence|]. split; [auto|]. exists io, g. auto. }
  destruct Start as (-> & Kv & io & g & W & Es'). rewrite Es'. cbn [bind].
  assert (L : 0 < length (nlay n)) by lia.
  destruct (epochs_rel (nlay n) d (nclass n) (tc F t1) (tval F t1) N (mcols y) x x' y y' Hn L Hp Hv Hval R Hx Hy Ty Rd v io g (Some (x', y')) (Z.to_nat (cEpochs F (tc F t1))) Rv Kv W) as (v' & io' & g' & E2 & E2' & Rv').
  rewrite E2, E2'. cbn [bind]. rewrite fitEnd_om. destruct (fitEnd_fits F (nlay n) d (nclass n) (tc F t1) (tval F t1) N x y Hn L Hv Ja Rd _ v' Rv') as (h3 & n3 & E3 & _). rewrite E3. cbn [rmap].
  do 5 eexists. split; [reflexivity|]. split; [reflexivity|]. repeat split.
Qed.
End Any.

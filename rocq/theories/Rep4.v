(* Rep4.v - a whole training run with each sample presented r times *)
From Coq Require Import String List Arith Bool Lia ZArith Permutation.
From Verif Require Import Base Scalar Mat SpecMat MatFacts MatProofs MatLoops MatProps Loss Optim Regul LayMat Layer Net NetTrain OptProofs SpecOpt TrainProofs1 TrainProofs2 TrainProofs3 TrainProofs4 NetProofs1 NetProofs2 StaleNet FitRun
  SpecFit FitLay1 FitLay2 FitLay3 FitNet1 FitNet2 FitNet3 Seed2 SpecRepeat Order3 Rep1 Rep2 Rep3.
Import ListNotations.
Local Open Scope nat_scope.

Lemma ceil_one : forall n b, 0 < n -> n <= b -> ceilDiv n b = 1.
Proof. intros n b Hn Hb. unfold ceilDiv. symmetry. apply (Nat.div_unique (n + b - 1) b 1 (n - 1)); lia. Qed.

Section Any.
Variable F : FOps.
Notation M := (mat F).
Notation cabs := (absFloat F).
Variables (r : nat) (s : nat -> nat) (phi : bool -> F -> F).
Hypothesis HD : repDiv F r.
Hypothesis HM : repMul F r.
Hypothesis HP1 : phiMean F r phi.
Hypothesis HP2 : phiSum F r phi.
(* the percentage of good answers *)
Definition repPct : Prop := forall g n, 0 < n -> fdiv F (fmul F (fofN F 100) (fofN F (r * g))) (fofN F (r * n)) = fdiv F (fmul F (fofN F 100) (fofN F g)) (fofN F n).
Hypothesis HA : repPct.
Notation rel := (Rep1.rel F r s).

Lemma rel_rows : forall n c x x', rel n c x x' -> mrows x = n /\ mrows x' = r * n.
Proof. intros n c x x' (X & -> & ->). split; reflexivity. Qed.
Lemma rel_view : forall n c x x', 0 < n -> 0 < r -> rel n c x x' -> viewRow F x 0 n = Ok x /\ viewRow F x' 0 (r * n) = Ok x'.
Proof. intros n c x x' Hn Hr (X & -> & ->). rewrite !viewRow_gen by nia. rewrite !Nat.sub_0_r. split; reflexivity. Qed.
Lemma rel_of : forall x x', times r (mrows x) s -> repeated F r s x x' -> rel (mrows x) (mcols x) x x'.
Proof.
  intros x x' (_ & R & _) (W & W' & Er & Ec & H). destruct (mwf_is_gen F x W) as [X EX]. destruct (mwf_is_gen F x' W') as [X' EX']. rewrite Er, Ec in EX'. exists X. split; auto. rewrite EX'. apply mgen_ext. intros i j Hi Hj.
  specialize (H i j Hi Hj). rewrite EX, EX' in H. rewrite !mget2_gen in H by auto. congruence.
Qed.

Lemma oneEpoch_rel : forall rs h n d t io g dt H x x' y y' N q, 0 < N -> tonl F t = f0 F -> tgood F t = 0 -> NoDup (nlay n) -> times r N s -> tadj F t = N -> 0 < length (nlay n) -> dims F h (nlay n) d -> modeAll F true h (nlay n) -> firstOnly F h (nlay n) -> trOk F n h t -> meanNet F h (nlay n) ->
  workOk F n io g -> rel N (d 0) x x' -> rel N q y y' -> truthOk (cLoss F (tc F t)) (d (length (nlay n))) y ->
  exists h' t' io' g' on, trainOneEpoch F cabs rs h n t x y = Ok (h', t') /\ trainOneEpoch F cabs rs h n (om F io g dt (r * N) H (f0 F) 0 t) x' y' = Ok (h', om F io' g' dt (r * N) H on (r * tgood F t') t') /\ workOk F n io' g' /\
    fdiv F on (fofN F (r * N)) = phi (sumLoss (cLoss F (tc F t))) (fdiv F (tonl F t') (fofN F N)) /\ th F t' = th F t.
Proof.
  intros rs h n d t io g dt H x x' y y' N q Pn On0 Gd0 Hn R Ha L D Tr Fo Ot K W Hx Hy Ty. destruct (rel_rows _ _ _ _ Hx) as [Rx Rx']. unfold trainOneEpoch. cbv zeta. change (tadj F (om F io g dt (r * N) H (f0 F) 0 t)) with (r * N). rewrite Rx, Rx', Ha.
  assert (Pr : 0 < r) by apply R. assert (Pm : 0 < r * N) by nia. rewrite !(proj2 (Nat.eqb_neq _ 0)) by lia. rewrite !ceil_one by lia. unfold forN. cbn [seq forL]. rewrite !Nat.mul_0_l, !Nat.add_0_l, !Nat.min_id. destruct (rel_view _ _ _ _ Pn Pr Hx) as [-> ->]. destruct (rel_view _ _ _ _ Pn Pr Hy) as [-> ->]. cbn [bind].
  destruct (batch_rel F r s phi HD HM HP1 HP2 n d Hn (rs 0) h t io g dt (r * N) H x x' y y' N q Pn On0 Gd0 R L D Tr Fo Ot K W Hx Hy Ty) as (h' & t' & io' & g' & on & -> & -> & W' & Z). cbn [bind]. exists h', t', io', g', on. auto.
Qed.

Lemma epochTrain_rel : forall Rd e h n d t io g dt H on gd x x' y y' N q, 0 < N -> NoDup (nlay n) -> times r N s -> tadj F t = N -> 0 < length (nlay n) -> dims F h (nlay n) d -> firstOnly F h (nlay n) -> trOk F n h t -> meanNet F h (nlay n) ->
  workOk F n io g -> rel N (d 0) x x' -> rel N q y y' -> truthOk (cLoss F (tc F t)) (d (length (nlay n))) y ->
  exists h' t' io' g' on', epochTrain F cabs Rd e h n t x y = Ok (h', mkNet (nlay n) (nclass n) false, t') /\ epochTrain F cabs Rd e h n (om F io g dt (r * N) H on gd t) x' y' = Ok (h', mkNet (nlay n) (nclass n) false, om F io' g' dt (r * N) H on' (r * tgood F t') t') /\ workOk F n io' g' /\
    fdiv F on' (fofN F (r * N)) = phi (sumLoss (cLoss F (tc F t))) (fdiv F (tonl F t') (fofN F N)) /\ th F t' = th F t.
Proof.
  intros Rd e h n d t io g dt H on gd x x' y y' N q Pn Hn R Ha L D Fo Ot K W Hx Hy Ty. destruct (rel_rows _ _ _ _ Hx) as [Rx Rx']. unfold epochTrain. cbv zeta. set (t0 := setOnline F t (f0 F) 0).
  change (setOnline F (om F io g dt (r * N) H on gd t) (f0 F) 0) with (om F io g dt (r * N) H (f0 F) 0 t0). change (tadj F (om F io g dt (r * N) H (f0 F) 0 t0)) with (r * N). change (tadj F t0) with (tadj F t). rewrite Ha, Rx, Rx', !Nat.ltb_irrefl. cbn [bind].
  destruct (setTrain_fits F h n d true Hn D) as (h1 & E1 & D1 & M1 & T1). rewrite E1. cbn [bind]. set (n1 := mkNet (nlay n) (nclass n) true). pose proof (dims_alive F _ _ _ D) as Al.
  assert (K1 : meanNet F h1 (nlay n)). { destruct (setTrain_touch _ _ _ _ _ _ E1) as [To _]. eapply meanNet_touch; eauto. }
  assert (F1 : firstOnly F h1 (nlay n)) by (eapply moves_first; eauto).
  assert (O1 : trOk F n1 h1 t0). { apply (trOk_net F n); auto. apply (trOk_moves F n false h h1 t0 M1). exact Ot. }
  destruct (oneEpoch_rel (oTrain F Rd e) h1 n1 d t0 io g dt H x x' y y' N q Pn eq_refl eq_refl Hn R Ha L D1 T1 F1 O1 K1 W Hx Hy Ty) as (h2 & t2 & io' & g' & on' & E2 & E2' & W' & Ph & Th). rewrite E2, E2'. cbn [bind].
  destruct (epochBatches_fits F (oTrain F Rd e) h1 n1 d t0 x y) as (h3 & t3 & E3 & D3 & _); auto.
  { rewrite Rx. change (tadj F t0) with (tadj F t). lia. }
  { destruct Hx as (X & -> & _). destruct Hy as (Y & -> & _). unfold dataOk. cbn [fst snd]. split; [apply mwf_gen|]. split; [apply mwf_gen|]. auto. }
  rewrite E2 in E3. injection E3 as <- <-. destruct (setTrain_fits F h2 n1 d false Hn D3) as (h3 & E3 & _). rewrite E3. cbn [bind]. exists h3, t2, io', g', on'. auto.
Qed.

(** * the epochs *)
Definition oms io g dt adj H on gd calls (v : fstate F) : fstate F := mkFS F (sh F v) (sn F v) (om F io g dt adj H on gd (st F v)) (sbest F v) (sacc F v) (sloss F v) (sreb F v) calls.
Lemma stats_om : forall R e h n io g dt adj H on N t h' t' l a ph, 0 < N -> curves F ph (th F t) H -> fdiv F on (fofN F (r * N)) = ph (fdiv F (tonl F t) (fofN F N)) -> epochStats F cabs R e h n t N = Ok (h', t', l, a) ->
  exists H' l' a', epochStats F cabs R e h n (om F io g dt adj H on (r * tgood F t) t) (r * N) = Ok (h', om F io g dt adj H' on (r * tgood F t) t', l', a') /\ curves F ph (th F t') H' /\ (tval F t <> None -> l' = l /\ a' = a).
Proof.
  intros R e h n io g dt adj H on N t h' t' l a ph Pn (C1 & C2 & C3 & C4 & C5 & C6 & C7) Ph E. unfold epochStats in *. cbv zeta in *. cbn [om tonl tgood th tval]. rewrite Ph, (HA _ _ Pn). destruct (tval F t) as [[x y]|] eqn:V.
  - match goal with |- context [lossAccuracy F cabs (oVal F R e) h n ?t2 x y] => match type of E with context [lossAccuracy F cabs (oVal F R e) h n ?t1 x y] => change (lossAccuracy F cabs (oVal F R e) h n t2 x y) with (lossAccuracy F cabs (oVal F R e) h n t1 x y); destruct (lossAccuracy F cabs (oVal F R e) h n t1 x y) as [[[h1 l1] a1]|] end end; cbn [bind] in *; [|discriminate].
    injection E as <- <- <- <-. do 3 eexists. split; [reflexivity|]. split; [|auto]. unfold curves. destruct (nclass n); cbn; rewrite ?map_app, C1, ?C2, C3, C4, ?C5; cbn; auto 10.
  - injection E as <- <- <- <-. do 3 eexists. split; [reflexivity|]. split; [|congruence]. unfold curves. destruct (nclass n); cbn; rewrite ?map_app, C1, ?C2, C3, C4, ?C5, C6, C7; cbn; auto 10.
Qed.
Lemma best_om : forall R e io g dt adj H on gd cs v l a, epochBest F R e (oms io g dt adj H on gd cs v) l a = rmap (oms io g dt adj H on gd cs) (epochBest F R e v l a).
Proof.
  intros R e io g dt adj H on gd cs [h n t b A L rb c] l a. unfold oms, epochBest. cbn [sh sn st sbest sacc sloss sreb scalls]. change (tc F (om F io g dt adj H on gd t)) with (tc F t).
  destruct (negb (cKeep F (tc F t)) && (cPatience F (tc F t) =? -1)%Z); [reflexivity|].
  destruct (if nclass n then flt F A a else flt F l L).
  - destruct (netAssign F false (oSnap F R e) h b n) as [[h1 b1]|]; [|reflexivity]. cbn [bind]. change (tc F (setCur F (om F io g dt adj H on gd t) 0%Z)) with (tc F t). change (tc F (setCur F t 0%Z)) with (tc F t). change (tcur F (setCur F (om F io g dt adj H on gd t) 0%Z)) with 0%Z. change (tcur F (setCur F t 0%Z)) with 0%Z.
    destruct ((cPatience F (tc F t) <? 0)%Z && negb (cPatience F (tc F t) =? -1)%Z); [|reflexivity]. destruct (netAssign F false (oRoll F R e) h1 n b1) as [[h2 n2]|]; reflexivity.
  - cbn [bind]. change (tc F (setCur F (om F io g dt adj H on gd t) (tcur F (om F io g dt adj H on gd t) + 1)%Z)) with (tc F t). change (tc F (setCur F t (tcur F t + 1)%Z)) with (tc F t). change (tcur F (setCur F (om F io g dt adj H on gd t) (tcur F (om F io g dt adj H on gd t) + 1)%Z)) with (tcur F t + 1)%Z. change (tcur F (setCur F t (tcur F t + 1)%Z)) with (tcur F t + 1)%Z.
    destruct ((cPatience F (tc F t) <? tcur F t + 1)%Z && negb (cPatience F (tc F t) =? -1)%Z); [|reflexivity]. destruct (netAssign F false (oRoll F R e) h n b) as [[h2 n2]|]; reflexivity.
Qed.
Lemma reboost_om : forall io g dt adj H on gd cs v, epochReboost F (oms io g dt adj H on gd cs v) = oms io g dt adj H on gd cs (epochReboost F v).
Proof.
  intros io g dt adj H on gd cs [h n t b A L rb c]. unfold oms, epochReboost. cbn [sh sn st sbest sacc sloss sreb scalls]. change (tc F (om F io g dt adj H on gd t)) with (tc F t). cbv zeta.
  destruct (cReboost F (tc F t) =? -1)%Z; [reflexivity|]. destruct (rb <? cReboost F (tc F t))%Z; reflexivity.
Qed.
Lemma fitEnd_om : forall R io g dt adj H on gd cs v, fitEnd F R (oms io g dt adj H on gd cs v) = rmap (fun '(h, n, t, c) => (h, n, om F io g dt adj H on gd t, cs)) (fitEnd F R v).
Proof.
  intros R io g dt adj H on gd cs [h n t b A L rb c]. unfold oms, fitEnd. cbn [sh sn st sbest sacc sloss sreb scalls]. change (tc F (om F io g dt adj H on gd t)) with (tc F t).
  destruct (if cKeep F (tc F t) then netAssign F false (oLast F R) h n b else Ok (h, n)) as [[h1 n1]|]; cbn [bind rmap]; [|reflexivity]. destruct (netClear F h1 b) as [[h2 n2]|]; reflexivity.
Qed.

Lemma best_rows : forall Rd e v l a v' ls, epochBest F Rd e v l a = Ok v' -> cPatience F (tc F (st F v)) = (-1)%Z -> nlay (sn F v) = ls -> (forall b, In b ls -> b < length (sh F v)) -> (forall b, In b (nlay (sbest F v)) -> ~ In b ls) ->
  meanNet F (sh F v) ls -> meanNet F (sh F v') ls.
Proof.
  intros Rd e [h n t best A L rb c] l a v' ls E Hp <- Al Dj K. cbn [sh sn st sbest] in *. unfold epochBest in E. rewrite Hp in E. cbn [Z.eqb negb] in E. rewrite andb_true_r in E. destruct (negb (cKeep F (tc F t))); [injection E as <-; exact K|].
  cbv zeta in E. destruct (if nclass n then flt F A a else flt F l L).
  - destruct (netAssign F false (oSnap F Rd e) h best n) as [[h3 b3]|] eqn:Ea; cbn [bind] in E; [|discriminate]. change (tc F (setCur F t 0%Z)) with (tc F t) in E. rewrite Hp in E. cbn [Z.eqb negb] in E. rewrite andb_false_r in E. injection E as <-. cbn [sh].
    apply TrainProofs2.assign_post in Ea; auto. destruct Ea as (_ & _ & _ & _ & _ & _ & Fr & _). intros b lb Hb Eb. apply (K b lb Hb). unfold hget, rget in *. rewrite Fr in Eb; auto. intro Q. apply (Dj b Q). auto.
  - cbn [bind] in E. change (tc F (setCur F t _)) with (tc F t) in E. rewrite Hp in E. cbn [Z.eqb negb] in E. rewrite andb_false_r in E. injection E as <-. exact K.
Qed.
Lemma reboost_heap : forall v, sh F (epochReboost F v) = sh F v.
Proof. intros [h n t b A L rb c]. unfold epochReboost. cbv zeta. destruct (cReboost F (tc F t) =? -1)%Z; [reflexivity|]. destruct (rb <? cReboost F (tc F t))%Z; reflexivity. Qed.

Section Run.
Variables (ls : list nat) (d : nat -> nat) (cl : bool) (c0 : settings F) (v0 : option (M * M)) (N q : nat) (x x' y y' : M).
Hypothesis Hn : NoDup ls.
Hypothesis L : 0 < length ls.
Hypothesis Hpat : cPatience F c0 = (-1)%Z.
Hypothesis Hvb : 0 < cValBatch F c0.
Hypothesis Hv : forall p, v0 = Some p -> dataOk (d 0) (d (length ls)) (cLoss F c0) p.
Hypothesis Hk : cKeep F c0 = false \/ v0 <> None.
Hypothesis Pn : 0 < N.
Hypothesis Hr : times r N s.
Hypothesis Hx : rel N (d 0) x x'.
Hypothesis Hy : rel N q y y'.
Hypothesis Ty : truthOk (cLoss F c0) (d (length ls)) y.
Notation ph := (phi (sumLoss (cLoss F c0))).
Definition workL (io g : list M) : Prop := length io = S (length ls) /\ Forall mwf io /\ length g = S (length ls) /\ Forall mwf g.

Lemma data_rel : dataOk (d 0) (d (length ls)) (cLoss F c0) (x, y).
Proof. destruct Hx as (X & -> & _). destruct Hy as (Y & EY & _). unfold dataOk. cbn [fst snd]. split; [apply mwf_gen|]. split; [rewrite EY; apply mwf_gen|]. split; [reflexivity|]. split; [rewrite EY; reflexivity|auto]. Qed.
(* the second run, seen from the first one *)
Definition twin (dt : option (M * M)) (v w : fstate F) : Prop := exists io g H on gd cs, w = oms io g dt (r * N) H on gd cs v /\ workL io g /\ curves F ph (th F (st F v)) H /\ Forall2 (curves F ph) (scalls F v) cs.
Lemma epoch_rel : forall Rd e v w dt, runOk F ls d cl c0 v0 N x y e v -> meanNet F (sh F v) ls -> twin dt v w ->
  exists v' w', epoch F cabs Rd x y e v = Ok v' /\ epoch F cabs Rd x' y' e w = Ok w' /\ runOk F ls d cl c0 v0 N x y (S e) v' /\ meanNet F (sh F v') ls /\ twin dt v' w'.
Proof.
  intros Rd e v w0 dt Rv K (io & g & H & on & gd & cs & -> & W & Cu & Cs). destruct (rel_rows _ _ _ _ Hx) as [Rx Rx'].
  destruct (epoch_fits F ls d cl c0 v0 N x y Hn L Hpat Hvb data_rel Hv ltac:(rewrite Rx; lia) Rd e v Rv) as (v' & E & Rv').
  destruct v as [h n t best A Ls reb calls]. destruct Rv as (I1 & I2 & I3 & I4 & I5 & (I6 & I6') & I7 & I8 & I9 & _). cbn [sh sn st sbest scalls] in *.
  unfold epoch in *. unfold oms at 1 2 3 4 5 6 7 8. cbn [sh sn st sbest sacc sloss sreb scalls] in *.
  destruct (epochTrain_rel Rd e h n d t io g dt H on gd x x' y y' N q) as (h1 & t1 & io' & g' & on' & E1 & E1' & W' & Ph & Th); auto; try (rewrite I1; auto; fail).
  { unfold workOk. rewrite I1. exact W. }
  { rewrite I6, I1. auto. }
  rewrite E1 in E. rewrite E1'. cbn [bind] in *. rewrite Rx'. rewrite Rx in E. set (n1 := mkNet (nlay n) (nclass n) false) in *. rewrite I6 in Ph. rewrite <- Th in Cu.
  destruct (epochStats F cabs Rd e h1 n1 t1 N) as [[[[h2 t2] l] a]|] eqn:E2; cbn [bind rmap] in *; [|discriminate].
  destruct (stats_om Rd e h1 n1 io' g' dt (r * N) H on' N t1 h2 t2 l a ph Pn Cu Ph E2) as (H' & l' & a' & E2o & Cu' & Lv). rewrite E2o. cbn [bind].
  pose proof E1 as E1s. apply epochTrain_post in E1s. destruct E1s as (Q1 & Q2 & _). pose proof E2 as E2s. apply epochStats_post in E2s. destruct E2s as (Q3 & Q4 & _).
  assert (Ec2 : tc F t2 = c0). { rewrite Q4. change (tc F (setHist F t1 (th F t2))) with (tc F t1). destruct Q2 as (-> & _). auto. }
  assert (Ev1 : tval F t1 = v0). { destruct (epochTrain_fits F Rd e h n d t x y) as (h9 & t9 & E9 & _ & _ & _ & S9 & _); try (rewrite I1; auto; fail); auto; [rewrite I8, Rx; lia|rewrite I6, I1; apply data_rel|]. rewrite E1 in E9. injection E9 as <- <-. destruct S9 as (_ & _ & _ & _ & -> & _). auto. }
  set (cs' := if tcallback F t2 then cs ++ [H'] else cs). change (tcallback F (om F io' g' dt (r * N) H' on' (r * tgood F t1) t2)) with (tcallback F t2). change (th F (om F io' g' dt (r * N) H' on' (r * tgood F t1) t2)) with H'. fold cs'.
  set (w := mkFS F h2 n1 t2 best A Ls reb (if tcallback F t2 then calls ++ [th F t2] else calls)) in *.
  assert (Cs' : Forall2 (curves F ph) (scalls F w) cs'). { unfold w, cs'. cbn [scalls]. destruct (tcallback F t2); auto. apply Forall2_app; auto. }
  match goal with |- context [epochBest F Rd e ?v1 l' a'] => change v1 with (oms io' g' dt (r * N) H' on' (r * tgood F t1) cs' w) end.
  assert (Eb : epochBest F Rd e (oms io' g' dt (r * N) H' on' (r * tgood F t1) cs' w) l' a' = rmap (oms io' g' dt (r * N) H' on' (r * tgood F t1) cs') (epochBest F Rd e w l a)).
  { destruct Hk as [Kp|Kv].
    - unfold epochBest, w, oms. cbn [sh sn st sbest sacc sloss sreb scalls]. change (tc F (om F io' g' dt (r * N) H' on' (r * tgood F t1) t2)) with (tc F t2). rewrite Ec2, Kp, Hpat. reflexivity.
    - destruct Lv as [-> ->]; [congruence|]. apply best_om. }
  rewrite Eb. destruct (epochBest F Rd e w l a) as [v3|] eqn:E3; cbn [bind rmap] in *; [|discriminate]. injection E as <-. rewrite reboost_om.
  exists (epochReboost F v3). eexists. split; [rewrite E1; cbn [bind]; rewrite Rx, E2; cbn [bind]; fold w; rewrite E3; reflexivity|]. split; [reflexivity|]. split; [exact Rv'|]. split.
  - assert (K2 : meanNet F h2 ls) by (eapply meanNet_touch; [exact Q3|]; eapply meanNet_touch; [exact Q1|]; auto).
    rewrite reboost_heap. eapply (best_rows Rd e w l a v3 ls E3); auto; unfold w; cbn [sh sn st sbest nlay].
    + rewrite Ec2. auto.
    + intros b Hb. destruct (dims_alive F _ _ _ I3 b Hb) as [lb Eb']. pose proof (hget_lt _ _ _ _ Eb'). destruct Q1 as (Q1 & _). destruct Q3 as (Q3 & _). lia.
    + apply I9.
  - assert (B3 : th F (st F (epochReboost F v3)) = th F (st F w) /\ scalls F (epochReboost F v3) = scalls F w).
    { assert (B : th F (st F v3) = th F (st F w) /\ scalls F v3 = scalls F w).
      { clear - E3. destruct w as [hw nw tw bw Aw Lw rw cw]. unfold epochBest in E3. destruct (negb (cKeep F (tc F tw)) && (cPatience F (tc F tw) =? -1)%Z); [injection E3 as <-; auto|]. cbv zeta in E3. destruct (if nclass nw then flt F Aw a else flt F l Lw).
        - destruct (netAssign F false (oSnap F Rd e) hw bw nw) as [[h4 b4]|]; cbn [bind] in E3; [|discriminate]. match type of E3 with (if ?c then _ else _) = _ => destruct c end; [destruct (netAssign F false (oRoll F Rd e) h4 nw b4) as [[h5 n5]|]; cbn [bind] in E3; [|discriminate]|]; injection E3 as <-; auto.
        - cbn [bind] in E3. match type of E3 with (if ?c then _ else _) = _ => destruct c end; [destruct (netAssign F false (oRoll F Rd e) hw nw bw) as [[h5 n5]|]; cbn [bind] in E3; [|discriminate]|]; injection E3 as <-; auto. }
      destruct B as [<- <-]. destruct v3 as [hw nw tw bw Aw Lw rw cw]. unfold epochReboost. cbv zeta. destruct (cReboost F (tc F tw) =? -1)%Z; [auto|]. destruct (rw <? cReboost F (tc F tw))%Z; auto. }
    destruct B3 as [B3 B4]. exists io', g', H', on', (r * tgood F t1), cs'. split; [reflexivity|]. split; [unfold workOk in W'; rewrite I1 in W'; exact W'|]. rewrite B3, B4. auto.
Qed.
Lemma epochs_rel : forall Rd v w dt k, runOk F ls d cl c0 v0 N x y 0 v -> meanNet F (sh F v) ls -> twin dt v w ->
  exists v' w', forN k (epoch F cabs Rd x y) v = Ok v' /\ forN k (epoch F cabs Rd x' y') w = Ok w' /\ runOk F ls d cl c0 v0 N x y k v' /\ twin dt v' w'.
Proof.
  intros Rd v w dt k Rv K W.
  destruct (pairN _ (fun e v1 v2 => runOk F ls d cl c0 v0 N x y e v1 /\ meanNet F (sh F v1) ls /\ twin dt v1 v2) k (epoch F cabs Rd x y) (epoch F cabs Rd x' y') v w) as (v1 & v2 & E1 & E2 & R' & _ & T'); auto.
  - intros i v1 v2 Hi (R1 & K1 & W1). destruct (epoch_rel Rd i v1 v2 dt R1 K1 W1) as (v' & w' & E1 & E2 & R2 & K2 & W2). exists v', w'. rewrite Nat.add_1_r. auto.
  - exists v1, v2. auto.
Qed.
End Run.

Lemma setNet_data : forall h n t dt, setNet F h n (withData t dt) = rmap (fun p => (fst p, withData (snd p) dt)) (setNet F h n t).
Proof.
  intros h n t dt. unfold setNet. repeat match goal with
  | |- bind ?a _ = rmap _ (bind ?b _) => change a with b; destruct b as [?|?]; cbn [bind rmap]
  | |- (let '(_, _) := ?p in _) = rmap _ (let '(_, _) := ?p in _) => destruct p
  end; reflexivity.
Qed.

Theorem fit_repeat : forall Rd h n t k m x x' y y', trainable h n t k m -> meanNet F h (nlay n) -> ttrain F t = Some (x, y) -> times r (mrows x) s -> repeated F r s x x' -> repeated F r s y y' -> oneBatchR F t r (mrows x) ->
  exists h' n' t1 t2 calls calls2, fit F cabs Rd h n t = Ok (h', n', t1, calls) /\ fit F cabs Rd h n (withData t (x', y')) = Ok (h', n', t2, calls2) /\ sameState F t1 t2 /\
    (0 < length (nlay n) -> curves F (phi (sumLoss (cLoss F (tc F t)))) (th F t1) (th F t2)) /\ Forall2 (curves F (phi (sumLoss (cLoss F (tc F t))))) calls calls2.
Proof.
  intros Rd h n t k m x x' y y' (Hn & St & Fo & Hk & Hp & Hc & Hv & Wi & Wg & ([x1 y1] & Ht & Hd) & Hval) K Hxy R Rx Ry (Pn & Ob1 & Ob2). rewrite Hxy in Ht. injection Ht as <- <-.
  destruct (stack_dims F _ _ _ _ St) as (d & <- & <- & D). destruct (create_optimizer (cOpt F (tc F t))) as [o|] eqn:Ho; [clear Hk|contradiction].
  pose proof Hd as (Wx & Wy & Cx & Ryx & Ty). cbn [fst snd] in *. set (N := mrows x) in *. assert (Hx : rel N (d 0) x x') by (rewrite <- Cx; apply rel_of; auto). assert (Hy : rel N (mcols y) y y') by (replace N with (mrows y) by auto; apply rel_of; auto; rewrite Ryx; auto).
  destruct (setNet_fits F h n d t o Hn D Fo Ho Wi Wg) as (h1 & t1 & E1 & D1 & F1 & O1 & S1 & N1). unfold fit. rewrite setNet_data, E1. cbn [bind rmap fst snd]. change (tnl F (withData t1 (x', y'))) with (tnl F t1). rewrite N1. destruct S1 as (S11 & S12 & S13 & S14 & S15 & S16 & S17).
  assert (K1 : meanNet F h1 (nlay n)).
  { unfold setNet in E1. cbv zeta in E1. destruct (nlay n) as [|a rr] eqn:El; [intros b lb []|]. binp E1. injection E1 as Eh _. subst. intros b lb Hb Eb. binp Ex. rewrite (hset_ok _ _ _ _ _ Ex3) in Ex. injection Ex as <-. pose proof (hget_lt _ _ _ _ Ex3) as La.
    rewrite hget_upd in Eb by auto. destruct (Nat.eqb_spec a b) as [<-|]; [|apply (K b); auto]. injection Eb as <-. apply (K a _ Hb Ex3). }
  destruct (Nat.eqb_spec (length (nlay n)) 0) as [Z|Z]. { do 6 eexists. split; [reflexivity|]. split; [reflexivity|]. split; [repeat split|]. split; [lia|constructor]. }
  change (ttrain F (withData t1 (x', y'))) with (Some (x', y')). change (tc F (withData t1 (x', y'))) with (tc F t1). rewrite S14, Hxy.
  rewrite <- S11 in Hp, Hc, Hv, Hd, Hval, Ty, Ob1, Ob2 |- *. rewrite <- S15 in Hval, Ob2. rewrite <- S14 in Hxy.
  destruct (start_fits F Rd h1 n d t1 x y Hn D1 F1 O1 Hc Hv Hd Hval Hxy) as (v & adj & Es & Ja & Rv). rewrite Es. cbn [bind].
  assert (Start : adj = N /\ meanNet F (sh F v) (nlay n) /\ exists w, twin (nlay n) (tc F t1) N (Some (x', y')) v w /\ fitStart F cabs Rd h1 n (withData t1 (x', y')) x' y' = Ok w).
  { pose proof Rv as (Q1 & Q2 & Q3 & Q4 & (Q51 & Q52 & Q53 & Q54 & Q55 & Q56 & _) & Q6 & Q7 & Q8 & Q9 & _). destruct (rel_rows _ _ _ _ Hx) as [_ Rx'].
    set (H0 := mkHist F [] [] [] [] (flit F 10000000000 1) (f0 F) (flit F 10000000000 1) (f0 F)).
    assert (Gen : forall u z w, tc F u = tc F t1 -> fitStart F cabs Rd h1 n u z w = (
      let u3 := setOpts F (setAdj F (setHist F (setCur F (setBal F u (set_class_balancing F (mempty F))) 0%Z) H0) (if (mrows z <? cBatch F (tc F t1)) || (cBatch F (tc F t1) =? 0) then mrows z else cBatch F (tc F t1))) (map (init F) (topts F u)) in
      if cKeep F (tc F t1) then
        let '(x, y) := match tval F u with None => (z, w) | Some p => p end in
        ' (h, l, a) <- lossAccuracy F cabs (oFirst F Rd) h1 n u3 x y ;; ' (h, best) <- netAssign F false (oSnap0 F Rd) h netNew n ;; Ok (mkFS F h n u3 best a l 0%Z [])
      else Ok (mkFS F h1 n u3 netNew (f0 F) (flit F 10000000000 1) 0%Z []))).
    { intros u z w Eu. unfold fitStart, updateClassWeight. rewrite Eu. replace (negb (nclass n) || negb (cBalancing F (tc F t1))) with true by (destruct Hc as [-> | ->]; destruct (nclass n); reflexivity). cbn [bind]. cbv zeta. fold H0.
      change (tc F (setHist F (setCur F (setBal F u (set_class_balancing F (mempty F))) 0%Z) H0)) with (tc F u). rewrite Eu.
      match goal with |- (if cKeep F (tc F ?q) then _ else _) = _ => change (tc F q) with (tc F u) end. rewrite Eu. reflexivity. }
    assert (Ad : forall p, (cBatch F (tc F t1) = 0 \/ p <= cBatch F (tc F t1)) -> (if (p <? cBatch F (tc F t1)) || (cBatch F (tc F t1) =? 0) then p else cBatch F (tc F t1)) = p).
    { intros p [Ep|Ep]; [rewrite Ep, orb_true_r; auto|]. destruct (Nat.ltb_spec p (cBatch F (tc F t1))); cbn [orb]; auto. destruct (cBatch F (tc F t1) =? 0); auto. lia. }
    assert (Pr : 0 < r) by apply R.
    rewrite (Gen t1 x y eq_refl) in Es. rewrite (Gen (withData t1 (x', y')) x' y' eq_refl). cbv zeta in *. rewrite Rx', (Ad (r * N) Ob1). fold N in Es. rewrite (Ad N) in Es by (destruct Ob1; [left; auto|right; nia]). change (tval F (withData t1 (x', y'))) with (tval F t1).
    set (t3 := setOpts F (setAdj F (setHist F (setCur F (setBal F t1 (set_class_balancing F (mempty F))) 0%Z) H0) N) (map (init F) (topts F t1))) in *. set (io := tinOut F t1). set (g := tgrad F t1). set (dt := Some (x', y')).
    match goal with |- context [Ok (mkFS F h1 n ?u netNew _ _ _ _)] => change u with (om F io g dt (r * N) H0 (tonl F t3) (tgood F t3) t3) end.
    assert (Wk : workL (nlay n) io g). { destruct (O1 (set_class_balancing F (mempty F)) eq_refl) as (_ & P2 & P3 & P4 & P5 & _). cbn [setBal tinOut tgrad] in *. unfold workL, io, g. auto. }
    assert (Cu : curves F (phi (sumLoss (cLoss F (tc F t1)))) H0 H0) by (unfold curves, H0; cbn; auto 10).
    destruct (cKeep F (tc F t1)) eqn:Kp.
    - destruct Ob2 as [Q|Q]; [congruence|]. destruct (tval F t1) as [[xv yv]|] eqn:Tv; [|congruence].
      change (lossAccuracy F cabs (oFirst F Rd) h1 n (om F io g dt (r * N) H0 (tonl F t3) (tgood F t3) t3) xv yv) with (lossAccuracy F cabs (oFirst F Rd) h1 n t3 xv yv).
      destruct (lossAccuracy F cabs (oFirst F Rd) h1 n t3 xv yv) as [[[h2 l] a]|] eqn:El; cbn [bind] in *; [|discriminate].
      destruct (netAssign F false (oSnap0 F Rd) h2 netNew n) as [[h3 b3]|] eqn:Eas; cbn [bind] in *; [|discriminate]. injection Es as <-. cbn [sh st] in *. split; [rewrite <- Q8; reflexivity|]. split.
      + apply lossAccuracy_touch in El. assert (K2 : meanNet F h2 (nlay n)) by (eapply meanNet_touch; eauto). apply TrainProofs2.assign_post in Eas.
        * destruct Eas as (_ & _ & _ & _ & _ & _ & Fr & _). intros b lb Hb Eb. apply (K2 b lb Hb). unfold hget, rget in *. rewrite Fr in Eb; auto. destruct (dims_alive F _ _ _ D1 b Hb) as [lb' Eb']. pose proof (hget_lt _ _ _ _ Eb'). destruct El as (-> & _). auto.
        * intros b Hb. destruct (dims_alive F _ _ _ D1 b Hb) as [lb' Eb']. pose proof (hget_lt _ _ _ _ Eb'). destruct El as (-> & _). auto.
      + eexists. split; [|reflexivity]. exists io, g, H0, (tonl F t3), (tgood F t3), []. split; [reflexivity|]. split; auto. split; [exact Cu|constructor].
    - injection Es as <-. cbn [sh st] in *. split; [rewrite <- Q8; reflexivity|]. split; [auto|]. eexists. split; [|reflexivity]. exists io, g, H0, (tonl F t3), (tgood F t3), []. split; [reflexivity|]. split; auto. split; [exact Cu|constructor]. }
  destruct Start as (-> & Kv & w & Tw & Es'). rewrite Es'. cbn [bind].
  assert (L : 0 < length (nlay n)) by lia.
  destruct (epochs_rel (nlay n) d (nclass n) (tc F t1) (tval F t1) N (mcols y) x x' y y' Hn L Hp Hv Hval Ob2 Pn R Hx Hy Ty Rd v w (Some (x', y')) (Z.to_nat (cEpochs F (tc F t1))) Rv Kv Tw) as (v' & w' & E2 & E2' & Rv' & io & g & H & on & gd & cs & -> & W & Cu & Cs).
  rewrite E2, E2'. cbn [bind]. rewrite fitEnd_om. destruct (fitEnd_fits F (nlay n) d (nclass n) (tc F t1) (tval F t1) N x y Hn L Hv Ja Rd _ v' Rv') as (h3 & n3 & E3 & _). rewrite E3. cbn [rmap].
  do 6 eexists. split; [reflexivity|]. split; [reflexivity|]. split; [repeat split|]. split; [intros _; exact Cu|exact Cs].
Qed.
End Any.

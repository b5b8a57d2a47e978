(* FitKeep.v - the rule of FitRun.v for the layers that fit leaves, with or without keep-best *)
From Coq Require Import List Arith Lia Bool ZArith.
From Verif Require Import Base Scalar Mat SpecMat MatFacts Loss Optim OptProofs LayMat LayImg Layer Net NetTrain NetProofs1 NetProofs2 TrainProofs1 TrainProofs2 SpecFit FitLay1 FitLay2 FitLay3 FitNet1 FitNet2 FitNet3 FitRun.
Import ListNotations.
Local Open Scope nat_scope.

Section Any.
Variable F : FOps.
Notation M := (mat F).

Section W.
Variable P : nat -> layer F -> Prop.   (* of the layer at position i *)
Hypothesis P_clone : forall i r l c, layClone F r l = Ok c -> P i l -> P i c.
Variable len : nat.
Definition layAll (h : heap F) (ls : list nat) : Prop := length ls = len /\ forall i a, nth_error ls i = Some a -> exists l, hget F h a = Ok l /\ P i l.
Lemma all_frame : forall h h' ls, (forall a, In a ls -> hget F h' a = hget F h a) -> layAll h ls -> layAll h' ls.
Proof. intros h h' ls H [B A]. split; auto. intros i a E. destruct (A i a E) as (l & El & Pl). exists l. split; auto. rewrite H; auto. eapply nth_error_In; eauto. Qed.
Lemma all_clones : forall h ls h' ls', clonesOf F h ls h' ls' -> layAll h ls -> layAll h' ls'.
Proof.
  intros h ls h' ls' [L C] [B A]. split; [congruence|]. intros i a E. assert (Hi : i < length ls) by (rewrite <- L; apply nth_error_Some; congruence). destruct (nth_error ls i) as [b|] eqn:Eb; [|apply nth_error_None in Eb; lia].
  destruct (C i b Eb) as (a' & l & c & r & E1 & E2 & E3 & E4). rewrite E in E1. injection E1; intros <-. destruct (A i b Eb) as (l' & E5 & Pl). rewrite E2 in E5. injection E5; intros <-. exists c. split; auto. eapply P_clone; eauto.
Qed.
Lemma all_lt : forall h ls a, layAll h ls -> In a ls -> a < length h.
Proof. intros h ls a [_ A] H. apply In_nth_error in H. destruct H as [i Hi]. destruct (A i a Hi) as (l & El & _). eapply hget_lt; eauto. Qed.

Section Run.
Variables (ls : list nat) (d : nat -> nat) (cl : bool) (c0 : settings F) (v0 : option (M * M)) (adj : nat) (x y : M).
Hypothesis Hn : NoDup ls.
Hypothesis L : 0 < length ls.
Hypothesis Hpat : cPatience F c0 = (-1)%Z.
Hypothesis Hvb : 0 < cValBatch F c0.
Hypothesis Hd : dataOk (d 0) (d (length ls)) (cLoss F c0) (x, y).
Hypothesis Hv : forall p, v0 = Some p -> dataOk (d 0) (d (length ls)) (cLoss F c0) p.
Hypothesis Ha : mrows x = 0 \/ 0 < adj.
Notation runOk := (runOk F ls d cl c0 v0 adj x y).
Notation bestOk := (bestOk F ls d cl c0).
Definition bestAll (s : fstate F) : Prop := cKeep F c0 = true -> layAll (sh F s) (nlay (sbest F s)).

Lemma epoch_all : forall R e s s' h1 t1 h2 t2 l a, runOk e s -> bestAll s -> epoch F (absFloat F) R x y e s = Ok s' ->
  epochTrain F (absFloat F) R e (sh F s) (sn F s) (st F s) x y = Ok (h1, mkNet ls cl false, t1) ->
  epochStats F (absFloat F) R e h1 (mkNet ls cl false) t1 (mrows x) = Ok (h2, t2, l, a) -> layAll h2 ls -> bestAll s'.
Proof.
  intros R e [h n t best A Ls reb calls] s' h1' t1' h2' t2' sl' sa' (I1 & I2 & I3 & I4 & I5 & (I6 & I6') & I7 & I8 & I9 & _) Ba E Et Es Wl Kp. cbn [sh sn st sbest] in *. unfold epoch in E. cbn [sh sn st sbest sacc sloss sreb scalls] in *.
  specialize (Ba Kp). cbn [sh sbest] in Ba.
  assert (Hn' : NoDup (nlay n)) by congruence. assert (L' : 0 < length (nlay n)) by congruence. rewrite <- I1 in I3, I4.
  destruct (epochTrain_fits F R e h n d t x y Hn' L' I3 I4 I5) as (h1 & t1 & E1 & D1 & M1 & O1 & S1 & T1). { rewrite I8. auto. } { rewrite I1, I6. auto. }
  rewrite E1 in Et. apply Ok_inj in Et. injection Et; intros; subst h1' t1'. clear Et.
  rewrite E1 in E. cbn [bind] in E. rewrite I1, I2 in *. set (n1 := mkNet ls cl false) in *.
  destruct S1 as (S11 & S12 & S13 & S14 & S15 & S16 & S17).
  assert (exists h2 H l a, epochStats F (absFloat F) R e h1 n1 t1 (mrows x) = Ok (h2, setHist F t1 H, l, a) /\ dims F h2 ls d /\ moves F true ls h1 h2) as (h2 & H & sl & sa & E2 & D2 & M2).
  { unfold epochStats. cbv zeta. rewrite S15, I7. destruct v0 as [[xv yv]|] eqn:Ev; [|do 4 eexists; split; [reflexivity|]; split; auto; apply moves_refl].
    match goal with |- context [lossAccuracy F (absFloat F) (oVal F R e) h1 n1 ?t xv yv] => destruct (accuracy_fits F (oVal F R e) h1 n1 d t xv yv) as (h2 & l & a & Eq & D2 & M2) end; auto.
    - change (tc F (setHist F t1 _)) with (tc F t1). rewrite S11, I6. auto.
    - apply O1.
    - change (tc F (setHist F t1 _)) with (tc F t1). rewrite S11, I6. cbn [n1 nlay]. auto.
    - rewrite Eq. cbn [bind]. do 4 eexists. split; [reflexivity|]. auto. }
  rewrite E2 in Es. apply Ok_inj in Es. injection Es; intros; subst h2' t2' sl' sa'. clear Es.
  rewrite E2 in E. cbn [bind] in E. set (t2 := setHist F t1 H) in *. change (tcallback F t2) with (tcallback F t1) in E. set (calls' := if tcallback F t1 then calls ++ [th F t2] else calls) in *.
  assert (B2 : bestOk h2 best). { eapply best_frame; [exact M2|]. eapply best_frame; [exact M1|exact I9]. }
  assert (C2 : tc F t2 = c0) by (change (tc F t2) with (tc F t1); congruence).
  assert (W2 : layAll h2 (nlay best)).
  { apply all_frame with h; auto. intros b Hb. destruct B2 as (_ & B22 & _). specialize (B22 b Hb). destruct M1 as (_ & M1 & _). destruct M2 as (_ & M2 & _). unfold hget, rget. rewrite M2, M1; auto. }
  destruct (epochBest F R e (mkFS F h2 n1 t2 best A Ls reb calls') sl sa) as [s3|] eqn:E3; [|discriminate]. cbn [bind] in E. apply Ok_inj in E. subst s'.
  assert (Q : layAll (sh F s3) (nlay (sbest F s3))).
  { revert E3. unfold epochBest. rewrite C2, Hpat, Kp. cbn [Z.eqb negb andb].
    cbv zeta. set (better := if nclass n1 then flt F A sa else flt F sl Ls). destruct better.
    + destruct (netAssign F false (oSnap F R e) h2 best n1) as [[h3 b3]|] eqn:Eq; [|discriminate]. cbn [bind]. change (tc F (setCur F t2 0%Z)) with (tc F t2). rewrite C2, Hpat. cbn [Z.eqb negb]. rewrite andb_false_r. intro E3. apply Ok_inj in E3. subst s3. cbn [sh sbest].
      apply assign_post in Eq; [|intros b Hb; exact (all_lt _ _ _ Wl Hb)]. destruct Eq as (_ & _ & _ & _ & _ & _ & _ & _ & C). exact (all_clones _ _ _ _ C Wl).
    + cbn [bind]. match goal with |- context [tc F (setCur F t2 ?z)] => change (tc F (setCur F t2 z)) with (tc F t2) end. rewrite C2, Hpat. cbn [Z.eqb negb]. rewrite andb_false_r. intro E3. apply Ok_inj in E3. subst s3. exact W2. }
  destruct s3 as [h3 n3 t3 b3 A3 L3 r3 c3]. unfold epochReboost. cbv zeta. destruct (cReboost F (tc F t3) =? -1)%Z; [exact Q|]. destruct (r3 <? cReboost F (tc F t3))%Z; exact Q.
Qed.
Lemma end_all : forall R e s h' n' t' calls, runOk e s -> bestAll s -> cKeep F c0 = true -> fitEnd F R s = Ok (h', n', t', calls) -> layAll h' (nlay n').
Proof.
  intros R e [h n t best A Ls reb calls0] h' n' t' calls (I1 & I2 & I3 & I4 & I5 & (I6 & I6') & I7 & I8 & ((B1 & B1') & B2 & B3) & _) Ba Kp E. specialize (Ba Kp). cbn [sh sn st sbest] in *. unfold fitEnd in E. cbn [sh sn st sbest scalls] in E. rewrite I6, Kp in E.
  destruct (netAssign F false (oLast F R) h n best) as [[h1 n1]|] eqn:Eq; [|discriminate]. cbn [bind] in E. destruct (netClear F h1 best) as [[h2 n2]|] eqn:Ec; [|discriminate]. cbn [bind] in E. apply Ok_inj in E. injection E; intros; subst h' n' t' calls.
  assert (Lt : forall b, In b (nlay best) -> b < length h) by (intros b Hb; eapply all_lt; eauto). apply assign_post in Eq; auto. destruct Eq as (C1 & _ & _ & _ & _ & _ & _ & _ & C). apply clear_post in Ec. destruct Ec as (_ & _ & _ & Fr & _).
  apply all_frame with h1; [|eapply all_clones; eauto]. intros b Hb. unfold hget, rget. rewrite Fr; auto. intro Q. specialize (Lt b Q). rewrite C1 in Hb. apply in_seq in Hb. lia.
Qed.
End Run.

(* state before the first epoch *)
Lemma start_all : forall R h n d (t : trainer F) x y s, NoDup (nlay n) -> dims F h (nlay n) d -> (cBalancing F (tc F t) = false \/ nclass n = false) -> 0 < cValBatch F (tc F t) ->
  dataOk (d 0) (d (length (nlay n))) (cLoss F (tc F t)) (x, y) -> (forall p, tval F t = Some p -> dataOk (d 0) (d (length (nlay n))) (cLoss F (tc F t)) p) ->
  (forall xv yv h1 l a0 t1, lossAccuracy F (absFloat F) (oFirst F R) h n t1 xv yv = Ok (h1, l, a0) -> t1 =
     setOpts F (setAdj F (setHist F (setCur F (setBal F t (set_class_balancing F (mempty F))) 0%Z) (mkHist F [] [] [] [] (flit F 10000000000 1) (f0 F) (flit F 10000000000 1) (f0 F)))
           (if (mrows x <? cBatch F (tc F t)) || (cBatch F (tc F t) =? 0) then mrows x else cBatch F (tc F t))) (map (init F) (topts F t)) -> layAll h1 (nlay n)) ->
  fitStart F (absFloat F) R h n t x y = Ok s -> bestAll (tc F t) s.
Proof.
  intros R h n d t x y s Hn D Hc Hvb Hd Hv Ev E Kp. unfold fitStart, updateClassWeight in E.
  replace (negb (nclass n) || negb (cBalancing F (tc F t))) with true in E by (destruct Hc as [-> | ->]; destruct (nclass n); reflexivity). cbn [bind] in E. cbv zeta in E.
  match type of E with context [map (init F) (topts F ?u)] => set (t2 := u) in * end. set (t3 := setOpts F t2 (map (init F) (topts F t2))) in *.
  change (tc F t3) with (tc F t) in E. change (tval F t3) with (tval F t) in E. rewrite Kp in E.
  assert (exists xv yv, (match tval F t with None => (x, y) | Some p => p end) = (xv, yv)) as (xv & yv & Eq) by (destruct (match tval F t with None => (x, y) | Some p => p end); eauto).
  rewrite Eq in E. destruct (lossAccuracy F (absFloat F) (oFirst F R) h n t3 xv yv) as [[[h1 l] a]|] eqn:E1; [|discriminate]. cbn [bind] in E. specialize (Ev _ _ _ _ _ _ E1 eq_refl).
  destruct (netAssign F false (oSnap0 F R) h1 netNew n) as [[h2 b2]|] eqn:E2; [|discriminate]. cbn [bind] in E. apply Ok_inj in E. subst s. cbn [sh sbest].
  apply assign_post in E2; [|intros b Hb; eapply all_lt; eauto]. destruct E2 as (_ & _ & _ & _ & _ & _ & _ & _ & C). eapply all_clones; eauto.
Qed.

(** * the rule *)
Section Rule.
Variables (R : fitRnd F) (h : heap F) (n : net) (t : trainer F) (k m : nat) (x y : M).
Hypothesis Ht : trainable h n t k m.
Hypothesis L : 0 < length (nlay n).
Hypothesis Hx : ttrain F t = Some (x, y).
Notation ls := (nlay n).
Variable J : nat -> heap F -> trainer F -> Prop.   (* holds after e epochs *)
Hypothesis J_frame : forall e h1 h2 t1, (forall a, In a ls -> hget F h2 a = hget F h1 a) -> J e h1 t1 -> J e h2 t1.
Hypothesis J_rest : forall e h1 t1 t2, rest F t1 t2 -> J e h1 t1 -> J e h1 t2.
Hypothesis J_eval : forall e rs h1 h2 t1 xv yv l a tr, J e h1 t1 -> lossAccuracy F (absFloat F) rs h1 (mkNet ls (nclass n) tr) t1 xv yv = Ok (h2, l, a) -> J e h2 t1.
Hypothesis J_start : forall h1 t1, setNet F h n t = Ok (h1, t1) -> J 0 h1
  (setOpts F (setAdj F (setHist F (setCur F (setBal F t1 (set_class_balancing F (mempty F))) 0%Z) (mkHist F [] [] [] [] (flit F 10000000000 1) (f0 F) (flit F 10000000000 1) (f0 F)))
           (if (mrows x <? cBatch F (tc F t)) || (cBatch F (tc F t) =? 0) then mrows x else cBatch F (tc F t))) (map (init F) (topts F t1))).
Hypothesis J_step : forall e h1 tr t1 h2 t2 h3 t3 l a, J e h1 t1 -> epochTrain F (absFloat F) R e h1 (mkNet ls (nclass n) tr) t1 x y = Ok (h2, mkNet ls (nclass n) false, t2) ->
  epochStats F (absFloat F) R e h2 (mkNet ls (nclass n) false) t2 (mrows x) = Ok (h3, t3, l, a) -> J (S e) h3 t3.
Hypothesis J_all : forall e h1 t1, J e h1 t1 -> layAll h1 ls.

Theorem fit_all : exists h' n' t' calls h2, fit F (absFloat F) R h n t = Ok (h', n', t', calls) /\ J (Z.to_nat (cEpochs F (tc F t))) h2 t' /\ layAll h' (nlay n').
Proof.
  destruct Ht as (Hn & St & Fo & Hk & Hp & Hc & Hv & Wi & Wg & ([x' y'] & Ht' & Hd) & Hval). rewrite Hx in Ht'. injection Ht'; intros; subst x' y'. clear Ht'. destruct (stack_dims F _ _ _ _ St) as (d & Ek & Em & D).
  rewrite <- Ek, <- Em in *. assert (Hk' := Hk). destruct (create_optimizer (cOpt F (tc F t))) as [o|] eqn:Ho; [clear Hk|contradiction].
  destruct (setNet_fits F h n d t o Hn D Fo Ho Wi Wg) as (h1 & t1 & E1 & D1 & F1 & O1 & S1 & N1). unfold fit. rewrite E1. cbn [bind]. rewrite N1. destruct S1 as (S11 & S12 & S13 & S14 & S15 & S16 & S17).
  destruct (Nat.eqb_spec (length ls) 0) as [Z|Z]; [lia|]. pose proof (J_start h1 t1 E1) as J0. rewrite <- S11 in J0.
  rewrite S14, Hx. rewrite <- S11 in Hp, Hc, Hv, Hd, Hval. rewrite <- S15 in Hval. rewrite <- S14 in Hx.
  destruct (start_fits F R h1 n d t1 x y Hn D1 F1 O1 Hc Hv Hd Hval Hx) as (s & adj & E2 & Ja & R0). rewrite E2. cbn [bind].
  destruct (start_parts F R h1 n d t1 x y s Hn D1 Hc Hv Hd Hval O1 E2) as (t3 & Et3 & P1 & P2 & P3).
  assert (Js : J 0 (sh F s) (st F s)). { rewrite <- Et3 in J0. rewrite P1. destruct P3 as [P3|(xv & yv & hv & l & a0 & Ev & P3)]; [eapply J_frame; eauto|]. eapply J_frame; [exact P3|]. eapply (J_eval 0 _ _ _ _ _ _ _ _ (ntrain n)); [exact J0|]. destruct n; exact Ev. }
  assert (Bs : bestAll (tc F t1) s). { eapply start_all; eauto. intros xv yv hv l a0 u Eu Eqt. apply J_all with (e := 0) (t1 := u). rewrite Eqt in *. eapply (J_eval 0 _ _ _ _ _ _ _ _ (ntrain n)); [exact J0|]. destruct n; exact Eu. }
  destruct (@forN_inv _ (fun e s => runOk F ls d (nclass n) (tc F t1) (tval F t1) adj x y e s /\ J e (sh F s) (st F s) /\ bestAll (tc F t1) s) (Z.to_nat (cEpochs F (tc F t1))) (epoch F (absFloat F) R x y) s) as (s2 & E3 & R2 & J2 & Q2); auto.
  { intros e s0 He (I & Je & Be). edestruct epoch_fits with (s := s0) (R := R) as (s' & Es & Is); eauto; try lia. exists s'. split; auto. split; auto.
    edestruct epoch_parts with (s := s0) (s' := s') as (h4 & t4 & h5 & t5 & l & a & A1 & A2 & A3 & A4 & A5); eauto; try lia.
    assert (Es0 : sn F s0 = mkNet ls (nclass n) (ntrain (sn F s0))). { destruct I as (I1 & I2 & _). destruct (sn F s0); cbn in *; congruence. }
    assert (J5 : J (S e) h5 t5). { rewrite Es0 in A1. eapply J_step; eauto. }
    split; [eapply J_rest; [exact A5|]; eapply J_frame; [exact A4|]; exact J5|]. eapply epoch_all with (s := s0); eauto; try lia. }
  rewrite E3. cbn [bind]. edestruct fitEnd_fits with (ls := ls) (s := s2) (R := R) as (h' & n' & E4 & _); eauto; try lia. rewrite E4.
  edestruct end_parts with (s := s2) as [_ B2]; eauto. do 5 eexists. split; [reflexivity|]. rewrite <- S11. split; [exact J2|]. destruct (cKeep F (tc F t1)) eqn:Kp.
  - eapply end_all with (s := s2); eauto.
  - destruct (B2 eq_refl) as [B3 B4]. rewrite B3. assert (nlay (sn F s2) = ls) by apply R2. rewrite H. apply all_frame with (sh F s2); eauto.
Qed.
End Rule.
End W.
End Any.
